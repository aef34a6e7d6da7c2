(** * Wave models behind the Riemann solvers (C60). *)
From Verif Require Import Base RBase ModelMesh ModelGeom ModelHydro SpecHydro ProofBase ProofR ProofHydro ProofHydro2.
Local Open Scope R_scope.

Section Jump.
Variable nd : nat.
Variable e : eos.
Hypothesis He : lawful_eos e.

Lemma sound_to_prim q : valid_cons nd q ->
  eos_sound e (p_rho (to_prim nd e q)) (p_P (to_prim nd e q)) = sound nd e q.
Proof. intros [H _]. unfold sound, pressure. cbn. now rewrite evol_cons_internal. Qed.
Lemma pressure_to_prim q : valid_cons nd q -> p_P (to_prim nd e q) = pressure nd e q.
Proof. intros [H _]. unfold pressure. cbn. now rewrite evol_cons_internal. Qed.

(** HLL: two waves, one intermediate state, jump conditions across both. *)
Lemma hll_wave_model qL qR dir : valid_cons nd qL -> valid_cons nd qR ->
  exists sL sR U F,
    sL = Rmin (velocity qL dir - sound nd e qL) (velocity qR dir - sound nd e qR) /\
    sR = Rmax (velocity qL dir + sound nd e qL) (velocity qR dir + sound nd e qR) /\
    sL < sR /\
    jump sL U qL F (euler_flux nd e qL dir) /\
    jump sR U qR F (euler_flux nd e qR dir) /\
    hll nd e qL qR dir = (if rleb 0 sL then euler_flux nd e qL dir
                          else if rleb sR 0 then euler_flux nd e qR dir else F).
Proof.
  intros HL HR. destruct (sound_facts nd e He qL HL) as (_ & _ & L3 & _).
  destruct (wave_bounds e (to_prim nd e qL) (to_prim nd e qR) dir) as (W1 & _ & W3 & _).
  exists (wave_L e (to_prim nd e qL) (to_prim nd e qR) dir).
  exists (wave_R e (to_prim nd e qL) (to_prim nd e qR) dir).
  set (fL := euler_flux nd e qL dir). set (fR := euler_flux nd e qR dir).
  assert (EL : wave_L e (to_prim nd e qL) (to_prim nd e qR) dir
               = Rmin (velocity qL dir - sound nd e qL) (velocity qR dir - sound nd e qR))
    by (unfold wave_L; now rewrite !sound_to_prim).
  assert (ER : wave_R e (to_prim nd e qL) (to_prim nd e qR) dir
               = Rmax (velocity qL dir + sound nd e qL) (velocity qR dir + sound nd e qR))
    by (unfold wave_R; now rewrite !sound_to_prim).
  assert (Hlt : wave_L e (to_prim nd e qL) (to_prim nd e qR) dir
                < wave_R e (to_prim nd e qL) (to_prim nd e qR) dir) by lra.
  unfold hll. rewrite !flux_prim_euler by assumption. cbv zeta. fold fL fR.
  set (a := wave_L e _ _ dir) in *. set (b := wave_R e _ _ dir) in *. clearbody a b. clearbody fL fR.
  pose (avg := fun (uL uR gL gR : R) => (b * uR - a * uL + gL - gR) / (b - a)).
  exists (mkCons (avg (q_rho qL) (q_rho qR) (f_rho fL) (f_rho fR))
                 (fun d => avg (q_m qL d) (q_m qR d) (f_m fL d) (f_m fR d))
                 (avg (q_E qL) (q_E qR) (f_E fL) (f_E fR))).
  exists (mkFlux (flux_hll (q_rho qL) (q_rho qR) (f_rho fL) (f_rho fR) a b)
                 (fun d => flux_hll (q_m qL d) (q_m qR d) (f_m fL d) (f_m fR d) a b)
                 (flux_hll (q_E qL) (q_E qR) (f_E fL) (f_E fR) a b)).
  split; [assumption|]. split; [assumption|]. split; [assumption|].
  split; [|split].
  - repeat split; intros; unfold flux_hll, avg; cbn; field; lra.
  - repeat split; intros; unfold flux_hll, avg; cbn; field; lra.
  - destruct (rleb 0 a) eqn:Ea.
    + apply rleb_true in Ea. rewrite Rmin_right, Rmax_left by lra.
      apply flux_ext; unfold flux_hll; cbn; intros; field; lra.
    + apply rleb_false in Ea. destruct (rleb b 0) eqn:Eb.
      * apply rleb_true in Eb. rewrite Rmin_left, Rmax_right by lra.
        apply flux_ext; unfold flux_hll; cbn; intros; field; lra.
      * apply rleb_false in Eb. now rewrite Rmin_left, Rmax_left by lra.
Qed.

(** HLLC: three waves, two star states sharing normal velocity and pressure. *)
Lemma hllc_wave_model qL qR dir : valid_cons nd qL -> valid_cons nd qR ->
  exists sL us sR P UL UR,
    sL = Rmin (velocity qL dir - sound nd e qL) (velocity qR dir - sound nd e qR) /\
    sR = Rmax (velocity qL dir + sound nd e qL) (velocity qR dir + sound nd e qR) /\
    sL < us < sR /\
    0 < q_rho UL /\ 0 < q_rho UR /\
    velocity UL dir = us /\ velocity UR dir = us /\
    (forall d, d <> dir -> velocity UL d = velocity qL d /\ velocity UR d = velocity qR d) /\
    jump sL UL qL (advected_flux UL us P dir) (euler_flux nd e qL dir) /\
    jump sR UR qR (advected_flux UR us P dir) (euler_flux nd e qR dir) /\
    hllc nd e qL qR dir =
      (if rltb 0 (sL * sR) then if rltb 0 us then euler_flux nd e qL dir else euler_flux nd e qR dir
       else if rltb 0 us then advected_flux UL us P dir else advected_flux UR us P dir) /\
    (0 < sL -> 0 < us) /\ (sR < 0 -> us < 0).
Proof.
  intros HL HR. destruct (hllc_signs nd e He qL qR dir HL HR) as (S1 & S2 & S34 & S5 & S6).
  pose proof HL as [HL1 HL2]. pose proof HR as [HR1 HR2].
  assert (EL : wave_L e (to_prim nd e qL) (to_prim nd e qR) dir
               = Rmin (velocity qL dir - sound nd e qL) (velocity qR dir - sound nd e qR))
    by (unfold wave_L; now rewrite !sound_to_prim).
  assert (ER : wave_R e (to_prim nd e qL) (to_prim nd e qR) dir
               = Rmax (velocity qL dir + sound nd e qL) (velocity qR dir + sound nd e qR))
    by (unfold wave_R; now rewrite !sound_to_prim).
  exists (wave_L e (to_prim nd e qL) (to_prim nd e qR) dir), (hllc_ustar nd e qL qR dir),
         (wave_R e (to_prim nd e qL) (to_prim nd e qR) dir).
  assert (Dus : hllc_ustar nd e qL qR dir *
     (q_rho qL * (wave_L e (to_prim nd e qL) (to_prim nd e qR) dir - velocity qL dir)
      - q_rho qR * (wave_R e (to_prim nd e qL) (to_prim nd e qR) dir - velocity qR dir))
     = pressure nd e qR - pressure nd e qL
       + q_rho qL * (wave_L e (to_prim nd e qL) (to_prim nd e qR) dir - velocity qL dir) * velocity qL dir
       - q_rho qR * (wave_R e (to_prim nd e qL) (to_prim nd e qR) dir - velocity qR dir) * velocity qR dir).
  { unfold hllc_ustar. cbv zeta in S1, S2 |- *. rewrite !pressure_to_prim by assumption.
    change (p_rho (to_prim nd e qL)) with (q_rho qL) in *. change (p_rho (to_prim nd e qR)) with (q_rho qR) in *.
    change (p_u (to_prim nd e qL) dir) with (velocity qL dir) in *.
    change (p_u (to_prim nd e qR) dir) with (velocity qR dir) in *.
    field. lra. }
  unfold hllc. cbv zeta. fold (hllc_ustar nd e qL qR dir).
  rewrite !flux_prim_euler, !pressure_to_prim by assumption.
  cbv zeta in S1, S2.
  change (p_rho (to_prim nd e qL)) with (q_rho qL) in *. change (p_rho (to_prim nd e qR)) with (q_rho qR) in *.
  change (p_u (to_prim nd e qL) dir) with (velocity qL dir) in *.
  change (p_u (to_prim nd e qR) dir) with (velocity qR dir) in *.
  set (us := hllc_ustar nd e qL qR dir) in *. clearbody us.
  set (sL := wave_L e _ _ dir) in *. set (sR := wave_R e _ _ dir) in *. clearbody sL sR.
  set (PL := pressure nd e qL) in *. set (PR := pressure nd e qR) in *.
  pose (star := fun (q : cons) (s P : R) =>
    mkCons (q_rho q * (s - velocity q dir) / (s - us))
           (fun d => q_rho q * (s - velocity q dir) / (s - us) * (if Nat.eqb d dir then us else velocity q d))
           ((s - velocity q dir) / (s - us) * q_E q
            + (us - velocity q dir) / (s - us) * (us * q_rho q * (s - velocity q dir) + P))).
  exists (PL + q_rho qL * (sL - velocity qL dir) * (us - velocity qL dir)).
  exists (star qL sL PL), (star qR sR PR).
  set (P := PL + _).
  assert (EP : P = PR + q_rho qR * (sR - velocity qR dir) * (us - velocity qR dir)) by (unfold P; lra).
  assert (HmL : forall d, q_m qL d = q_rho qL * velocity qL d) by (intros; unfold velocity; field; lra).
  assert (HmR : forall d, q_m qR d = q_rho qR * velocity qR d) by (intros; unfold velocity; field; lra).
  assert (HvL : sL - velocity qL dir < 0) by nra.
  assert (HvR : 0 < sR - velocity qR dir) by nra.
  assert (PosL : 0 < q_rho qL * (sL - velocity qL dir) / (sL - us)).
  { replace (q_rho qL * (sL - velocity qL dir) / (sL - us))
      with (q_rho qL * (velocity qL dir - sL) / (us - sL)) by (field; lra).
    apply Rdiv_lt_0_compat; nra. }
  assert (PosR : 0 < q_rho qR * (sR - velocity qR dir) / (sR - us)) by (apply Rdiv_lt_0_compat; nra).
  split; [assumption|]. split; [assumption|]. split; [assumption|].
  split; [exact PosL|]. split; [exact PosR|].
  split; [unfold velocity at 1; cbn; rewrite Nat.eqb_refl; field; repeat split; lra|].
  split; [unfold velocity at 1; cbn; rewrite Nat.eqb_refl; field; repeat split; lra|].
  split.
  { intros d Hd. apply Nat.eqb_neq in Hd.
    split; unfold velocity at 1; cbn; rewrite Hd; field; repeat split; lra. }
  split; [|split; [|split; [|split; assumption]]].
  - repeat split; cbn.
    + rewrite HmL. field. lra.
    + intros d. rewrite !HmL. destruct (Nat.eqb_spec d dir) as [->|Hd]; fold PL; unfold P; field; lra.
    + rewrite HmL. fold PL. unfold P. field. lra.
  - repeat split; cbn.
    + rewrite HmR. field. lra.
    + intros d. rewrite !HmR. destruct (Nat.eqb_spec d dir) as [->|Hd]; fold PR; rewrite ?EP; field; lra.
    + rewrite HmR. fold PR. rewrite EP. field. lra.
  - assert (Eps : 1 / 2 * (PL + PR + q_rho qL * (sL - velocity qL dir) * (us - velocity qL dir)
                           + q_rho qR * (sR - velocity qR dir) * (us - velocity qR dir)) = P)
      by (unfold P; lra).
    rewrite Eps.
    destruct (rltb 0 (sL * sR)) eqn:Ew; [reflexivity|].
    destruct (rltb 0 us).
    + change (p_u (to_prim nd e qL) dir) with (velocity qL dir). rewrite (pressure_to_prim qL HL). fold PL.
      apply flux_ext; unfold flux_hllc; cbn.
      * rewrite HmL. field. lra.
      * intros d. destruct (Nat.eqb_spec d dir) as [->|Hd]; [field; lra|]. fold (velocity qL d). field. lra.
      * rewrite HmL. fold PL. unfold P. field. lra.
    + change (p_u (to_prim nd e qR) dir) with (velocity qR dir). rewrite (pressure_to_prim qR HR). fold PR.
      apply flux_ext; unfold flux_hllc; cbn.
      * rewrite HmR. field. lra.
      * intros d. destruct (Nat.eqb_spec d dir) as [->|Hd]; [field; lra|]. fold (velocity qR d). field. lra.
      * rewrite HmR. fold PR. rewrite EP. field. lra.
Qed.

(** Low Mach (Lagrange-projection): the acoustic impedance exceeds both rho c; the interface velocity and
    pressure satisfy the acoustic Riemann invariants when the interface is not subsonic, and in general
    the pressure jump term is scaled by the interface Mach number. *)
Lemma splitting_wave_model qL qR dir : valid_cons nd qL -> valid_cons nd qR ->
  exists a us P,
    q_rho qL * sound nd e qL < a /\ q_rho qR * sound nd e qR < a /\
    splitting nd e qL qR dir = advected_flux (if rltb 0 us then qL else qR) us P dir /\
    2 * a * us = a * (velocity qL dir + velocity qR dir) - (pressure nd e qR - pressure nd e qL) /\
    (Rmin (sound nd e qL) (sound nd e qR) <= Rabs us ->
       P + a * us = pressure nd e qL + a * velocity qL dir /\
       P - a * us = pressure nd e qR - a * velocity qR dir) /\
    (Rabs us <= Rmin (sound nd e qL) (sound nd e qR) ->
       P - (pressure nd e qL + pressure nd e qR) / 2
       = Rabs us / Rmin (sound nd e qL) (sound nd e qR) * (a / 2 * (velocity qL dir - velocity qR dir))).
Proof.
  intros HL HR. destruct (sound_facts nd e He qL HL) as (L1 & _ & L3 & _).
  destruct (sound_facts nd e He qR HR) as (R1 & _ & R3 & _).
  unfold splitting. cbv zeta. rewrite !sound_to_prim, !pressure_to_prim in * by assumption.
  change (p_rho (to_prim nd e qL)) with (q_rho qL) in *. change (p_rho (to_prim nd e qR)) with (q_rho qR) in *.
  change (p_u (to_prim nd e qL) dir) with (velocity qL dir) in *.
  change (p_u (to_prim nd e qR) dir) with (velocity qR dir) in *.
  pose proof (Rmax_l (q_rho qL * sound nd e qL) (q_rho qR * sound nd e qR)) as M1.
  pose proof (Rmax_r (q_rho qL * sound nd e qL) (q_rho qR * sound nd e qR)) as M2.
  assert (0 < q_rho qL * sound nd e qL) by nra. assert (0 < q_rho qR * sound nd e qR) by nra.
  set (mx := Rmax _ _) in *. clearbody mx.
  assert (Hc : 0 < Rmin (sound nd e qL) (sound nd e qR)) by (apply Rmin_case; assumption).
  set (cm := Rmin _ _) in *. clearbody cm.
  assert (Ha : 0 < 11 / 10 * mx) by lra. set (a := 11 / 10 * mx) in *.
  set (us := _ - 1 / (2 * a) * _).
  assert (Eus : 2 * a * us = a * (velocity qL dir + velocity qR dir) - (pressure nd e qR - pressure nd e qL))
    by (unfold us; field; lra).
  exists a, us, ((pressure nd e qL + pressure nd e qR) / 2
                 - Rmin 1 (Rabs us / cm) * a / 2 * (velocity qR dir - velocity qL dir)).
  split; [unfold a; lra|]. split; [unfold a; lra|].
  split; [apply flux_ext; reflexivity|]. split; [exact Eus|].
  clearbody us a. split.
  - intros Hs. rewrite Rmin_left.
    + split; lra.
    + apply Rmult_le_reg_r with cm; [assumption|]. unfold Rdiv. rewrite Rmult_assoc, Rinv_l by lra. lra.
  - intros Hs. rewrite Rmin_right.
    + field. lra.
    + apply Rmult_le_reg_r with cm; [assumption|]. unfold Rdiv. rewrite Rmult_assoc, Rinv_l by lra. lra.
Qed.
End Jump.
