(** * Pressure fix and gravity work on simple flows (C29-C31, C64). *)
From Coq Require Import FunctionalExtensionality ZifyBool ZifyNat.
From Verif Require Import Base RBase ModelMesh ModelGeom ModelBoundary ModelHydro ModelScheme ModelStep
  SpecMesh SpecGeom SpecBoundary SpecHydro SpecScheme SpecStep SpecSource
  ProofBase ProofR ProofGeom ProofBoundary ProofHydro ProofHydro2 ProofScheme ProofMirror ProofStep.
Local Open Scope R_scope.

Lemma ek_kinetic nd q : ek_cons nd q = kinetic nd q.
Proof.
  unfold ek_cons, kinetic. rewrite (vsum_ext nd (fun d => q_m q d * q_m q d) (fun d => q_m q d ^ 2)) by (intros; ring).
  unfold Rdiv. rewrite Rmult_assoc. f_equal. rewrite Rinv_mult. ring.
Qed.
Lemma eint_internal nd x : eint nd x = internal nd (conserved_of x).
Proof. unfold eint, internal. rewrite ek_kinetic. reflexivity. Qed.

(** ** C29 *)
Lemma fix_only_energy p g nd e m dt eps a r a_new c :
  let out := pressure_fix p g nd e m dt eps a r a_new c in
  c_rho out = c_rho (a_new c) /\ c_rhou out = c_rhou (a_new c) /\ c_fx out = c_fx (a_new c) /\
  (c_E out <> c_E (a_new c) ->
     p c = true /\ internal nd (conserved_of (a c)) < eps * kinetic nd (conserved_of (a c))).
Proof.
  cbv zeta. unfold pressure_fix, kwrite. destruct (p c); [|repeat split; congruence].
  unfold pf_cell. destruct (rltb (eint nd (a c)) (eps * ekin nd a c)) eqn:E; [|repeat split; congruence].
  split; [reflexivity|]. split; [reflexivity|]. split; [reflexivity|]. intros _. split; [reflexivity|]. apply rltb_true in E.
  rewrite eint_internal in E. unfold ekin in E. rewrite ek_kinetic in E. exact E.
Qed.

Lemma fix_step K N dims X L t dt S r c : laid_out K N dims X L -> process (k_nd K) dims r ->
  let on := step_user K L t dt S r c in
  let off := step_user (without_fix K) L t dt S r c in
  c_rho on = c_rho off /\ c_rhou on = c_rhou off /\ c_fx on = c_fx off /\
  (c_E on <> c_E off ->
     owned (k_nd K) (k_ng K) (d_nloc (l_dec L r)) c /\
     exists eps, k_pf K = Some eps /\
       internal (k_nd K) (conserved_of (s_cell (S r) c)) < eps * kinetic (k_nd K) (conserved_of (s_cell (S r) c))).
Proof.
  intros HL Hr. cbv zeta.
  set (G := step_godunov K L dt S r).
  assert (Eoff : step_user (without_fix K) L t dt S r = user_step (sel K L 0 r) (k_user K) t dt G) by reflexivity.
  rewrite Eoff. unfold step_user.
  destruct (k_pf K) as [eps|] eqn:Ep.
  - assert (Eon : step_pf K L dt S r = pressure_fix (sel K L 0 r) (k_geom K) (k_nd K) (k_eos K) (l_mesh L r) dt eps
                    (s_cell (S r)) (step_rec K L dt S r) G) by (unfold step_pf; rewrite Ep; reflexivity).
    rewrite Eon.
    destruct (fix_only_energy (sel K L 0 r) (k_geom K) (k_nd K) (k_eos K) (l_mesh L r) dt eps (s_cell (S r)) (step_rec K L dt S r) G c)
      as (A & B & C & D).
    set (P := pressure_fix _ _ _ _ _ _ _ _ _ _) in *. unfold user_step, kwrite.
    assert (HD : c_E (P c) <> c_E (G c) -> owned (k_nd K) (k_ng K) (d_nloc (l_dec L r)) c /\
       exists eps0, Some eps = Some eps0 /\
       internal (k_nd K) (conserved_of (s_cell (S r) c)) < eps0 * kinetic (k_nd K) (conserved_of (s_cell (S r) c))).
    { intros H. destruct (D H) as [D1 D2]. split; [now apply (sel_owned _ _ _ _ _ _ _ HL Hr)|]. now exists eps. }
    destruct (sel K L 0 r c); [|auto].
    unfold user_cell. destruct (k_user K); cbn; [auto|].
    rewrite A, B, C. split; [reflexivity|]. split; [reflexivity|]. split; [reflexivity|].
    intros H; apply HD; intros E; apply H; now rewrite E.
  - assert (Eon : step_pf K L dt S r = G) by (unfold step_pf; rewrite Ep; reflexivity).
    rewrite Eon. repeat split; congruence.
Qed.

(** ** C30 *)
Lemma fix_energy p g nd e m dt eps a r a_new c : p c = true -> (1 <= nd)%nat -> c_rho (a c) <> 0 ->
  internal nd (conserved_of (a c)) < eps * kinetic nd (conserved_of (a c)) ->
  internal nd (conserved_of (pressure_fix p g nd e m dt eps a r a_new c))
  = internal nd (conserved_of (a c))
    + (alpha nd eps a c * (internal nd (conserved_of (a_new c)) - internal nd (conserved_of (a c)))
       + (1 - alpha nd eps a c) * de_pf g nd e m dt a r c)
    + (kinetic nd (conserved_of (a c)) - kinetic nd (conserved_of (a_new c))).
Proof.
  intros Hp Hnd Hrho H. unfold pressure_fix, kwrite. rewrite Hp. unfold pf_cell.
  rewrite <- eint_internal in H.
  assert (H' : eint nd (a c) < eps * ekin nd a c) by (unfold ekin; rewrite ek_kinetic; exact H).
  rewrite (proj2 (rltb_true _ _) H'). unfold pf_energy. rewrite !eint_internal.
  set (x := a_new c). set (y := a c) in *.
  assert (Ek : 1 / 2 * vsum nd (fun idr => c_rhou y idr * c_rhou y idr / c_rho y) = kinetic nd (conserved_of y)).
  { unfold kinetic. cbn [conserved_of q_m q_rho].
    rewrite (vsum_ext _ _ (fun d => / c_rho y * (c_rhou y d ^ 2))) by (intros; field; assumption).
    rewrite vsum_scal. field. assumption. }
  rewrite Ek. unfold internal at 1. cbn [conserved_of q_E c_E].
  change (kinetic nd (conserved_of (mkCell (c_rho x) (c_rhou x) _ (c_fx x)))) with (kinetic nd (conserved_of x)). ring.
Qed.

(** ** Uniform flow under uniform gravity *)
Section Uniform.
Variables (nd : nat) (e : eos) (l : limiter) (s : solver) (m : mesh) (gv : vec) (dt : R).
Hypothesis He : lawful_eos e.
Hypothesis Hnd : (1 <= nd <= 3)%nat.
Variables (rho0 : R) (u0 : vec) (P0 : R) (fx0 : vec).
Hypothesis Hrho : 0 < rho0.
Hypothesis HP : 0 < P0.
Variable old : recon.

Let x0 := gas nd e rho0 u0 P0 fx0.
Let a : idx -> cell := fun _ => x0.
Let grav : gravity := fun _ => gv.
Let rec := half_step nd e l m grav dt a (fun _ => u0) (fun _ => P0) old.
Let new := updated nd e l s m grav dt a (fun _ => u0) (fun _ => P0) old.

Lemma face_uniform (v : R) c sd d : face_value l m (fun _ => v) c sd d = v.
Proof.
  unfold face_value, face_slope. replace (slope l ((v - v) / _) ((v - v) / _)) with 0; [destruct sd; ring|].
  rewrite !Rminus_eq_0. unfold Rdiv. rewrite !Rmult_0_l. symmetry. apply slope_opposite. lra.
Qed.

Lemma fall_face c sd d : (sd < 2)%nat -> (d < nd)%nat ->
  r_q rec c sd d = mkCons rho0 (fun k => rho0 * (u0 k + dt / 2 * gv k))
    (c_E x0 + dt / 2 * (rho0 * vsum nd (fun k => u0 k * gv k))).
Proof.
  intros Hsd Hd. unfold rec, half_step. cbn [hydro_reconstruction r_q kwrite].
  set (fp := face_prim _ _ _ _ _ _).
  assert (Ef : forall sd d, fp sd d = mkPrim rho0 u0 P0).
  { intros sd' d'. unfold fp, face_prim. unfold a, x0. cbn [gas c_rho].
    rewrite !face_uniform. f_equal. apply functional_extensionality. intros k. apply face_uniform. }
  destruct (hancock_gravity Cartesian nd e m grav (dt / 2) fp c sd d) as (A & B & C).
  rewrite (hancock_uniform nd e m (fun _ _ => 0) (dt / 2) fp c sd d (mkPrim rho0 u0 P0)) in A, B, C by (lia || auto).
  rewrite Ef in B, C.
  apply cons_ext.
  - rewrite A. reflexivity.
  - intros k. rewrite B. cbn. unfold grav. ring.
  - rewrite C. cbn [to_cons q_E q_m p_rho p_u p_P]. unfold ek_prim, grav, x0, gas. cbn [p_rho p_u p_P c_E].
    rewrite (vsum_ext nd (fun k => rho0 * u0 k * gv k) (fun k => rho0 * (u0 k * gv k))) by (intros; ring). rewrite vsum_scal.
    rewrite (vsum_ext nd (fun k => u0 k * u0 k) (fun k => u0 k ^ 2)) by (intros; ring). unfold Rdiv. ring.
Qed.

Lemma fall_update c :
  c_rho (new c) = rho0 /\ (forall k, c_rhou (new c) k = rho0 * (u0 k + dt * gv k)) /\
  c_E (new c) = c_E x0 + dt * (rho0 * vsum nd (fun k => u0 k * gv k)).
Proof.
  unfold new, updated, godunov. cbn [kwrite]. fold rec.
  assert (F : forall d, (d < nd)%nat -> flux_right s nd e rec c d = flux_left s nd e rec c d).
  { intros d Hd. unfold flux_left, face_flux, flux_right. rewrite !fall_face by (lia || assumption). reflexivity. }
  cbn [god_cell c_rho c_rhou c_E]. split; [|split].
  - unfold god_rho. rewrite vsum_0; [cbn; ring|]. intros d Hd. rewrite F by assumption.
    apply flux_diff_same, cart_ds_rindex'. lia.
  - intros k. unfold god_rhou. rewrite vsum_0; [cbn; unfold grav; ring|]. intros d Hd. rewrite F by assumption.
    rewrite flux_diff_same by (apply cart_ds_rindex'; lia). cbn. ring.
  - unfold god_E.
    rewrite (vsum_ext nd _ (fun k => dt * rho0 * (u0 k * gv k))).
    + rewrite vsum_scal. cbn. ring.
    + intros d Hd. rewrite F by assumption. rewrite flux_diff_same by (apply cart_ds_rindex'; lia). cbn. unfold grav. ring.
Qed.

Lemma gas_kinetic : kinetic nd (conserved_of x0) = rho0 * vsum nd (fun k => u0 k ^ 2) / 2.
Proof.
  unfold kinetic, x0, gas, conserved_of. cbn [q_m q_rho c_rho c_rhou].
  rewrite (vsum_ext nd (fun d => (rho0 * u0 d) ^ 2) (fun d => (rho0 * rho0) * (u0 d ^ 2))) by (intros; ring).
  rewrite vsum_scal. field. lra.
Qed.
Lemma gas_internal : internal nd (conserved_of x0) = eos_evol e rho0 P0.
Proof. unfold internal. rewrite gas_kinetic. cbn. ring. Qed.

Lemma fall_kinetic c : kinetic nd (conserved_of (new c)) =
  rho0 * vsum nd (fun k => u0 k ^ 2) / 2 + rho0 * (dt * vsum nd (fun k => u0 k * gv k)) + rho0 * (dt ^ 2 * vsum nd (fun k => gv k ^ 2)) / 2.
Proof.
  destruct (fall_update c) as (A & B & C). unfold kinetic. cbn [conserved_of q_m q_rho].
  rewrite A. rewrite (vsum_ext nd _ (fun k => rho0 * rho0 * (u0 k ^ 2 + (2 * dt * (u0 k * gv k) + dt ^ 2 * gv k ^ 2)))).
  2:{ intros k _. rewrite B. ring. }
  rewrite vsum_scal, !vsum_plus, !vsum_scal. field. lra.
Qed.
Lemma fall_internal c : internal nd (conserved_of (new c)) =
  internal nd (conserved_of x0) - rho0 * vsum nd (fun k => gv k ^ 2) * dt ^ 2 / 2.
Proof.
  unfold internal at 1. rewrite fall_kinetic. cbn [conserved_of q_E].
  destruct (fall_update c) as (_ & _ & C). rewrite C. rewrite gas_internal. unfold x0, gas. cbn [c_E]. field.
Qed.

(** The pressure fix on top of it, in one dimension. *)
Variable eps : R.
Lemma fall_fixed c : nd = 1%nat ->
  internal nd (conserved_of x0) < eps / 10 * kinetic nd (conserved_of x0) ->
  0 < eps -> dv Cartesian nd m c <> 0 ->
  internal nd (conserved_of (fixed nd e l s m grav dt eps a (fun _ => u0) (fun _ => P0) old c))
  = internal nd (conserved_of x0) - rho0 * (u0 0%nat * gv 0%nat * dt + (gv 0%nat * dt) ^ 2 / 2).
Proof.
  intros H1 Hcold Heps Hdv. unfold fixed. fold rec new.
  assert (Hkin : 0 <= kinetic nd (conserved_of x0)).
  { rewrite gas_kinetic. assert (0 <= vsum nd (fun k => u0 k ^ 2)) by (apply vsum_nonneg; intros; nra). nra. }
  rewrite fix_energy; [|reflexivity|lia|unfold a, x0; cbn; lra|unfold a; nra].
  assert (Ea : alpha nd eps a c = 0).
  { unfold alpha. replace (rltb _ _) with true; [reflexivity|]. symmetry. apply rltb_true.
    unfold a. rewrite eint_internal. unfold ekin. rewrite ek_kinetic. exact Hcold. }
  rewrite Ea.
  assert (Ed : de_pf Cartesian nd e m dt a rec c = 0).
  { unfold de_pf.
    assert (Eu : div_u Cartesian nd e m rec c = 0).
    { unfold div_u. rewrite vsum_0; [reflexivity|]. intros d Hd. rewrite vsum_0; [reflexivity|]. intros k Hk.
      assert (d = 0%nat) by lia. assert (k = 0%nat) by lia. subst d k.
      unfold us_right, us_left. rewrite !fall_face by lia. rewrite cart_ds_rindex' by lia. unfold Rdiv. ring. }
    assert (Ee : div_ue Cartesian nd e m a rec c = 0).
    { unfold div_ue. rewrite vsum_0; [reflexivity|]. intros d Hd. rewrite vsum_0; [reflexivity|]. intros k Hk.
      assert (d = 0%nat) by lia. assert (k = 0%nat) by lia. subst d k.
      unfold ein_right, ein_left. unfold us_right, us_left. rewrite !fall_face by lia. rewrite cart_ds_rindex' by lia.
      unfold a. rewrite !Tauto.if_same. unfold Rdiv. ring. }
    rewrite Eu, Ee. ring. }
  rewrite Ed. unfold a. rewrite fall_kinetic, gas_kinetic. rewrite H1. cbn. field.
Qed.

(** Without gravity, where the faces of the cells do not vary from cell to cell. *)
Lemma quiet_fixed c : nd = 1%nat \/ (exists h, even_mesh m h) -> (forall k, gv k = 0) ->
  c_E (fixed nd e l s m grav dt eps a (fun _ => u0) (fun _ => P0) old c) = c_E x0.
Proof.
  intros Hq Hg. unfold fixed. fold rec new.
  assert (Es : forall d k, (d < nd)%nat -> (k < nd)%nat -> ds Cartesian nd m (rindex d c) k = ds Cartesian nd m c k).
  { intros d k Hd Hk. destruct Hq as [H1|[h Hh]].
    - assert (d = k) by lia. subst d. apply cart_ds_rindex'. lia.
    - assert (W : forall d i, (d < 3)%nat -> mdx m d i = h d) by exact Hh.
      destruct c as [i j l0]. destruct d as [|[|[|d]]]; try lia; destruct k as [|[|[|k]]]; try lia;
        unfold rindex, kron; cbn; unfold cart_ds; cbn; rewrite ?W by lia; reflexivity. }
  assert (Ed : de_pf Cartesian nd e m dt a rec c = 0).
  { unfold de_pf.
    assert (Eu : div_u Cartesian nd e m rec c = 0).
    { unfold div_u. rewrite vsum_0; [reflexivity|]. intros d Hd. rewrite vsum_0; [reflexivity|]. intros k Hk.
      unfold us_right, us_left. rewrite !fall_face by lia. rewrite Es by lia. unfold Rdiv. ring. }
    assert (Ee : div_ue Cartesian nd e m a rec c = 0).
    { unfold div_ue. rewrite vsum_0; [reflexivity|]. intros d Hd. rewrite vsum_0; [reflexivity|]. intros k Hk.
      unfold ein_right, ein_left. unfold us_right, us_left. rewrite !fall_face by lia. rewrite Es by lia.
      unfold a. rewrite !Tauto.if_same. unfold Rdiv. ring. }
    rewrite Eu, Ee. ring. }
  destruct (fall_update c) as (N1 & N2 & N3).
  assert (Z : vsum nd (fun k => u0 k * gv k) = 0) by (apply vsum_0; intros k _; rewrite Hg; ring).
  rewrite Z in N3. rewrite Rmult_0_r, Rmult_0_r, Rplus_0_r in N3.
  destruct (Rlt_dec (internal nd (conserved_of (a c))) (eps * kinetic nd (conserved_of (a c)))) as [T|T].
  - pose proof (fix_energy (fun _ => true) Cartesian nd e m dt eps a rec new c eq_refl (proj1 Hnd) ltac:(unfold a, x0; cbn; lra) T) as F.
    destruct (fix_only_energy (fun _ => true) Cartesian nd e m dt eps a rec new c) as (F1 & F2 & _ & _).
    set (out := pressure_fix _ _ _ _ _ _ _ _ _ _ c) in *.
    assert (K1 : kinetic nd (conserved_of out) = kinetic nd (conserved_of (new c))).
    { unfold kinetic. cbn [conserved_of q_m q_rho]. now rewrite F1, F2. }
    assert (K2 : kinetic nd (conserved_of (new c)) = kinetic nd (conserved_of x0)).
    { rewrite fall_kinetic, gas_kinetic, Z. rewrite (vsum_0 nd (fun k => gv k ^ 2)); [field|]. intros k _. rewrite Hg. ring. }
    assert (I2 : internal nd (conserved_of (new c)) = internal nd (conserved_of x0)).
    { unfold internal. rewrite K2. cbn [conserved_of q_E]. now rewrite N3. }
    rewrite Ed in F. change (a c) with x0 in F. rewrite K2, I2 in F. unfold internal at 1 in F. rewrite K1, K2 in F.
    unfold internal in F. cbn [conserved_of q_E] in F. lra.
  - destruct (fix_only_energy (fun _ => true) Cartesian nd e m dt eps a rec new c) as (_ & _ & _ & F).
    destruct (Req_dec (c_E (pressure_fix (fun _ => true) Cartesian nd e m dt eps a rec new c)) (c_E (new c))) as [E|E].
    + rewrite E. exact N3.
    + destruct (F E) as [_ F']. contradiction.
Qed.

(** Uniform flow on a mesh whose cells differ. *)
Lemma stretched_fixed c : nd = 2%nat -> (forall k, gv k = 0) ->
  internal nd (conserved_of x0) < eps / 10 * kinetic nd (conserved_of x0) -> 0 < eps ->
  (forall d i, (d < 3)%nat -> mdx m d i <> 0) ->
  c_E (fixed nd e l s m grav dt eps a (fun _ => u0) (fun _ => P0) old c)
  = c_E x0 - dt * (P0 + eos_evol e rho0 P0) *
      (u0 1%nat * (mdx m 0 (ii c + 1) - mdx m 0 (ii c)) + u0 0%nat * (mdx m 1 (jj c + 1) - mdx m 1 (jj c)))
      / (mdx m 0 (ii c) * mdx m 1 (jj c)).
Proof.
  intros H2 Hg Hcold Heps Hw. unfold fixed. fold rec new.
  assert (Hkin : 0 <= kinetic nd (conserved_of x0)).
  { rewrite gas_kinetic. assert (0 <= vsum nd (fun k => u0 k ^ 2)) by (apply vsum_nonneg; intros; nra). nra. }
  assert (T : internal nd (conserved_of (a c)) < eps * kinetic nd (conserved_of (a c))) by (unfold a; nra).
  pose proof (fix_energy (fun _ => true) Cartesian nd e m dt eps a rec new c eq_refl (proj1 Hnd) ltac:(unfold a, x0; cbn; lra) T) as F.
  assert (Ea : alpha nd eps a c = 0).
  { unfold alpha. replace (rltb _ _) with true; [reflexivity|]. symmetry. apply rltb_true.
    unfold a. rewrite eint_internal. unfold ekin. rewrite ek_kinetic. exact Hcold. }
  assert (Ev : forall d k, (d < nd)%nat -> us_left nd e rec c d k = u0 k /\ us_right nd e rec c d k = u0 k).
  { intros d k Hd. unfold us_left, us_right. rewrite !fall_face by lia.
    cbn [to_prim p_u q_m q_rho]. rewrite Hg. split; field; lra. }
  set (dd := (u0 1%nat * (mdx m 0 (ii c + 1) - mdx m 0 (ii c)) + u0 0%nat * (mdx m 1 (jj c + 1) - mdx m 1 (jj c)))
      / (mdx m 0 (ii c) * mdx m 1 (jj c))).
  assert (Es : forall v, vsum nd (fun idim => vsum nd (fun ipos =>
      (u0 ipos * v * ds Cartesian nd m (rindex idim c) ipos - u0 ipos * v * ds Cartesian nd m c ipos) / dv Cartesian nd m c)) = v * dd).
  { intros v. pose proof (Hw 0%nat (ii c) ltac:(lia)) as W0. pose proof (Hw 1%nat (jj c) ltac:(lia)) as W1.
    pose proof (Hw 2%nat (kk c) ltac:(lia)) as W2. unfold dd.
    rewrite H2. destruct c as [i j k]. unfold rindex, kron. cbn. rewrite !Z.add_0_r. unfold cart_ds, cart_dv. cbn.
    cbn [ii jj kk] in *. field. auto. }
  assert (Ed : de_pf Cartesian nd e m dt a rec c = - dt * (P0 + eos_evol e rho0 P0) * dd).
  { unfold de_pf.
    assert (Eu : div_u Cartesian nd e m rec c = 1 * dd).
    { rewrite <- Es. unfold div_u. apply vsum_ext. intros d Hd. apply vsum_ext. intros k Hk.
      destruct (Ev d k Hd) as [-> ->]. unfold Rdiv. ring. }
    assert (Ee : div_ue Cartesian nd e m a rec c = eos_evol e rho0 P0 * dd).
    { rewrite <- Es. unfold div_ue. apply vsum_ext. intros d Hd. apply vsum_ext. intros k Hk.
      unfold ein_left, ein_right. destruct (Ev d k Hd) as [-> ->].
      assert (Ex : forall y, eint nd (a y) = eos_evol e rho0 P0) by (intros y; unfold a; rewrite eint_internal; apply gas_internal).
      rewrite !Ex, !Tauto.if_same. unfold Rdiv. ring. }
    rewrite Eu, Ee.
    assert (Ep : p_P (to_prim nd e (cons_of (a c))) = P0).
    { unfold to_prim. cbn [p_P]. unfold evol_cons. rewrite ek_kinetic.
      change (q_E (cons_of (a c)) - kinetic nd (cons_of (a c))) with (internal nd (conserved_of x0)).
      rewrite gas_internal. cbn. now apply law_pres_evol. }
    rewrite Ep. ring. }
  destruct (fall_update c) as (N1 & N2 & N3).
  destruct (fix_only_energy (fun _ => true) Cartesian nd e m dt eps a rec new c) as (F1 & F2 & _ & _).
  set (out := pressure_fix _ _ _ _ _ _ _ _ _ _ c) in *.
  assert (K1 : kinetic nd (conserved_of out) = kinetic nd (conserved_of (new c))).
  { unfold kinetic. cbn [conserved_of q_m q_rho]. now rewrite F1, F2. }
  assert (K2 : kinetic nd (conserved_of (new c)) = kinetic nd (conserved_of x0)).
  { rewrite fall_kinetic, gas_kinetic. rewrite (vsum_0 nd (fun k => gv k ^ 2)) by (intros k _; rewrite Hg; ring).
    rewrite (vsum_0 nd (fun k => u0 k * gv k)) by (intros k _; rewrite Hg; ring). field. }
  rewrite Ea, Ed in F. change (a c) with x0 in F. rewrite K2 in F. unfold internal at 1 in F. rewrite K1, K2 in F.
  unfold internal in F. cbn [conserved_of q_E] in F.
  unfold Rdiv. rewrite Rmult_assoc. fold (Rdiv (u0 1%nat * (mdx m 0 (ii c + 1) - mdx m 0 (ii c)) + u0 0%nat * (mdx m 1 (jj c + 1) - mdx m 1 (jj c))) (mdx m 0 (ii c) * mdx m 1 (jj c))).
  fold dd. lra.
Qed.
End Uniform.

(** ** Two-dimensional flows *)

Section Shear.
Variables (e : eos) (l : limiter) (m : mesh) (h : nat -> R) (dt eps rate : R).
Hypothesis He : lawful_eos e.
Hypothesis Hh : forall d, (d < 3)%nat -> 0 < h d.
Hypothesis Hm : even_mesh m h.
Variables (rho0 P0 : R) (fx0 : vec).
Hypothesis Hrho : 0 < rho0.
Hypothesis HP : 0 < P0.
Variable old : recon.

(** Velocity [rate * y] along x. *)
Let u : field4 := fun c k => match k with O => rate * mxc m 1 (jj c) | _ => 0 end.
Let a : idx -> cell := fun c => gas 2 e rho0 (u c) P0 fx0.
Let rec := half_step 2 e l m (fun _ _ => 0) dt a u (fun _ => P0) old.

Lemma even_width c d : (d < 3)%nat -> cell_width m c d = h d.
Proof.
  intros Hd. unfold cell_width. rewrite !Hm by lia. destruct d as [|[|[|d]]]; try lia; unfold kron; cbn; ring.
Qed.
Lemma even_next i : mxc m 1 (i + 1) = mxc m 1 i + h 1%nat.
Proof.
  pose proof (Hm 1%nat i ltac:(lia)) as A. pose proof (Hm 1%nat (i + 1)%Z ltac:(lia)) as B. unfold mxc, mdx in *. lra.
Qed.
Let sigma : R := slope l rate rate.

Lemma shear_face_y c sd : face_value l m (fun c' => u c' 0%nat) c sd 1 =
  u c 0%nat + (match sd with O => - (h 1%nat / 2) | _ => h 1%nat / 2 end) * sigma.
Proof.
  pose proof (Hh 1%nat ltac:(lia)) as Hw.
  assert (E : face_slope l m (fun c' => u c' 0%nat) c 1 = sigma).
  { unfold face_slope. rewrite !even_width by lia.
    assert (E1 : (u (rindex 1 c) 0%nat - u c 0%nat) / ((h 1%nat + h 1%nat) / 2) = rate).
    { destruct c as [i j k]. unfold u, rindex, kron. cbn. rewrite even_next. field. lra. }
    assert (E2 : (u c 0%nat - u (lindex 1 c) 0%nat) / ((h 1%nat + h 1%nat) / 2) = rate).
    { destruct c as [i j k]. unfold u, lindex, kron. cbn.
      pose proof (even_next (j - 1)) as En. replace (j - 1 + 1)%Z with j in En by lia. rewrite En. field. lra. }
    now rewrite E1, E2. }
  unfold face_value. rewrite E, even_width by lia. destruct sd; ring.
Qed.
Lemma shear_face_x c sd : face_value l m (fun c' => u c' 0%nat) c sd 0 = u c 0%nat.
Proof.
  assert (E : face_slope l m (fun c' => u c' 0%nat) c 0 = 0).
  { unfold face_slope. apply slope_opposite. destruct c as [i j k]. unfold u, rindex, lindex, kron. cbn.
    rewrite Z.add_0_r, Z.sub_0_r. rewrite Rminus_eq_0. unfold Rdiv. lra. }
  unfold face_value. rewrite E. destruct sd; ring.
Qed.

(** The velocity at the faces, after the half step. *)
Definition shear_u (c : idx) (sd d k : nat) : R :=
  match k with
  | O => match d with O => u c 0%nat | _ => u c 0%nat + (match sd with O => - (h 1%nat / 2) | _ => h 1%nat / 2 end) * sigma end
  | _ => 0
  end.

Lemma shear_rec c sd d k : (sd < 2)%nat -> (d < 2)%nat -> p_u (to_prim 2 e (r_q rec c sd d)) k = shear_u c sd d k.
Proof.
  intros Hsd Hd. unfold rec, half_step. cbn [hydro_reconstruction r_q kwrite].
  set (fp := face_prim _ _ _ _ _ _).
  assert (Ef : forall sd d, (sd < 2)%nat -> (d < 2)%nat -> fp sd d = mkPrim rho0 (shear_u c sd d) P0).
  { intros sd' d' Hsd' Hd'. unfold fp, face_prim. unfold a. cbn [gas c_rho].
    rewrite !face_uniform by (exact He || lia || assumption). f_equal. apply functional_extensionality. intros n.
    destruct n as [|n].
    - destruct d' as [|[|d']]; [apply shear_face_x| |lia]. rewrite shear_face_y. destruct sd'; reflexivity.
    - unfold shear_u. apply (face_uniform l m 0). }
  assert (E : hancock_cons Cartesian 2 e m (fun _ _ => 0) (dt / 2) fp c sd d = to_cons 2 e (mkPrim rho0 (shear_u c sd d) P0)).
  { unfold hancock_cons. rewrite (Ef sd d) by assumption.
    assert (F0 : flux_prim 2 e (fp 1%nat 0%nat) 0 = flux_prim 2 e (fp 0%nat 0%nat) 0) by (rewrite !Ef by lia; reflexivity).
    assert (F1 : forall sd, (sd < 2)%nat -> flux_prim 2 e (fp sd 1%nat) 1 = mkFlux 0 (fun k => if Nat.eqb k 1 then P0 else 0) 0).
    { intros sd' Hs'. rewrite Ef by lia. unfold flux_prim. cbn. f_equal; try ring.
      apply functional_extensionality. intros n. destruct n as [|[|n]]; cbn; ring. }
    apply cons_ext; cbn [q_rho q_m q_E].
    - cbn [vsum]. rewrite F0, !F1 by lia. rewrite !flux_diff_same by (apply cart_ds_rindex'; lia). ring.
    - intros n. cbn [vsum]. rewrite F0, !F1 by lia. rewrite !flux_diff_same by (apply cart_ds_rindex'; lia). cbn. ring.
    - cbn [vsum]. rewrite F0, !F1 by lia. rewrite !flux_diff_same by (apply cart_ds_rindex'; lia). ring. }
  rewrite E, to_prim_to_cons by (exact He || (split; assumption)). reflexivity.
Qed.

Lemma shear_us c : us_left 2 e rec c 1 0 = u c 0%nat - rate * h 1%nat / 2 /\ us_right 2 e rec c 1 0 = u c 0%nat + rate * h 1%nat / 2.
Proof.
  unfold us_left, us_right. rewrite !shear_rec by lia. unfold shear_u. cbn [u].
  destruct c as [i j k]. unfold lindex, rindex, kron. cbn.
  pose proof (even_next j) as E1. pose proof (even_next (j - 1)) as E2. replace (j - 1 + 1)%Z with j in E2 by lia.
  rewrite E1. rewrite E2. unfold u. cbn. rewrite ?E2. split; field.
Qed.
Lemma shear_zero c d k : (d < 2)%nat -> (1 <= k < 2)%nat -> us_left 2 e rec c d k = 0 /\ us_right 2 e rec c d k = 0.
Proof.
  intros Hd Hk. unfold us_left, us_right. rewrite !shear_rec by lia. assert (k = 1%nat) by lia. subst k.
  unfold shear_u. split; field.
Qed.
Lemma shear_x c : us_left 2 e rec c 0 0 = u c 0%nat /\ us_right 2 e rec c 0 0 = u c 0%nat.
Proof.
  unfold us_left, us_right. rewrite !shear_rec by lia. unfold shear_u, u.
  destruct c as [i j k]. unfold lindex, rindex, kron. cbn. rewrite Z.add_0_r, Z.sub_0_r. split; field.
Qed.
Lemma shear_ein c d k : ein_left 2 e a rec c d k = eos_evol e rho0 P0 /\ ein_right 2 e a rec c d k = eos_evol e rho0 P0.
Proof.
  unfold ein_left, ein_right.
  assert (E : forall x, eint 2 (a x) = eos_evol e rho0 P0).
  { intros x. rewrite eint_internal. unfold a. apply gas_internal. exact Hrho. }
  rewrite !E, !Tauto.if_same. auto.
Qed.

Lemma shear_de_pf c : de_pf Cartesian 2 e m dt a rec c = - dt * (P0 + eos_evol e rho0 P0) * (rate * h 1%nat / h 0%nat).
Proof.
  pose proof (Hh 0%nat ltac:(lia)) as H0. pose proof (Hh 1%nat ltac:(lia)) as H1. pose proof (Hh 2%nat ltac:(lia)) as H2.
  destruct (shear_us c) as [A1 A2]. destruct (shear_x c) as [B1 B2].
  destruct (shear_zero c 0 1 ltac:(lia) ltac:(lia)) as [C1 C2]. destruct (shear_zero c 1 1 ltac:(lia) ltac:(lia)) as [D1 D2].
  assert (EP : p_P (to_prim 2 e (cons_of (a c))) = P0).
  { change (cons_of (a c)) with (conserved_of (a c)). cbn [to_prim p_P].
    unfold evol_cons. rewrite ek_kinetic. change (q_E (conserved_of (a c)) - kinetic 2 (conserved_of (a c))) with (internal 2 (conserved_of (a c))).
    unfold a. rewrite gas_internal by exact Hrho. cbn. now apply law_pres_evol. }
  unfold de_pf. rewrite EP. unfold div_u, div_ue. cbn [vsum].
  rewrite A1, A2, B1, B2, C1, C2, D1, D2.
  rewrite !(proj1 (shear_ein _ _ _)), !(proj2 (shear_ein _ _ _)).
  cbn [ds dv]. unfold cart_ds, cart_dv. rewrite !Hm by lia. cbn [Nat.eqb]. field. lra.
Qed.

Lemma shear_fixed a_new c :
  eos_evol e rho0 P0 < eps / 10 * (rho0 * (rate * mxc m 1 (jj c)) ^ 2 / 2) -> 0 < eps ->
  c_E (pressure_fix (fun _ => true) Cartesian 2 e m dt eps a rec a_new c)
  = c_E (a c) - dt * (P0 + eos_evol e rho0 P0) * (rate * h 1%nat / h 0%nat).
Proof.
  intros Hcold Heps. unfold pressure_fix, pf_cell. cbn [kwrite].
  assert (Ei : eint 2 (a c) = eos_evol e rho0 P0) by (rewrite eint_internal; apply gas_internal; exact Hrho).
  assert (Ek : ekin 2 a c = rho0 * (rate * mxc m 1 (jj c)) ^ 2 / 2).
  { unfold ekin. rewrite ek_kinetic. change (cons_of (a c)) with (conserved_of (a c)). unfold a. rewrite gas_kinetic by exact Hrho.
    cbn. field. }
  rewrite Ei, Ek.
  set (k := rho0 * (rate * mxc m 1 (jj c)) ^ 2 / 2) in *.
  assert (Hk : 0 <= k) by (unfold k; assert (0 <= (rate * mxc m 1 (jj c)) ^ 2) by apply pow2_ge_0; nra).
  replace (rltb (eos_evol e rho0 P0) (eps * k)) with true by (symmetry; apply rltb_true; nra).
  cbn [c_E]. unfold pf_energy.
  assert (Ea : alpha 2 eps a c = 0).
  { unfold alpha. rewrite Ei, Ek. replace (rltb _ _) with true; [reflexivity|]. symmetry. now apply rltb_true. }
  rewrite Ea, Ei, shear_de_pf.
  assert (Es : 1 / 2 * vsum 2 (fun idr => c_rhou (a c) idr * c_rhou (a c) idr / c_rho (a c)) + eos_evol e rho0 P0 = c_E (a c)).
  { unfold a, gas. cbn. field. lra. }
  rewrite <- Es. ring.
Qed.
End Shear.
