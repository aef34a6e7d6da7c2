(** * An example of a gas that falls until its internal energy is used up (C103). *)
From Coq Require Import ZifyBool ZifyNat Lra Psatz.
From Verif Require Import Base RBase ModelMesh ModelGeom ModelBoundary ModelHydro ModelScheme ModelStep ModelMain
  SpecMesh SpecBoundary SpecHydro SpecStep SpecSetup SpecFall
  ProofBase ProofBoundary ProofBoundary2 ProofLayout ProofStepEx.
Local Open Scope R_scope.

Definition fall_gas : perfect_gas := mkPG (5 / 3) 1.
Definition fall_gv : vec := fun d => match d with O => -10 | _ => 0 end.
Definition fall_u : vec := fun _ => 0.
Definition fall_w : nat -> R := fun _ => 1.
(** Two dimensions, the fall through periodic faces, a wall and an open face in the other direction; 3 x 2 processes. *)
Definition fall_K : config :=
  mkConfig Cartesian 2 2 (pg_eos fall_gas) LVanLeer HLLC None UOff (GUniform fall_gv) ex_bcs [2; 3; 0; 1]%nat.
Definition fall_L := the_layout fall_K ex_N ex_dims ex_X.
Definition fall_G : gfields := mkG (fun _ => 1) (fun _ => fall_u) (fun _ => 1) (fun _ _ => 0).
Definition fall_p : params := mkParams 0 100 1000 0 0 0.

Lemma fall_setup : falling_run fall_K ex_N ex_dims ex_X fall_L fall_gas fall_gv fall_u.
Proof.
  constructor; try reflexivity.
  - assert (H3 : forall d, (d < 3)%nat -> (1 <= coord d ex_N)%Z) by (dims3; vm_compute; congruence).
    assert (H4 : forall d, (d < 3)%nat -> (1 <= coord d (mpi_dims 2 ex_dims))%Z) by (dims3; vm_compute; congruence).
    split; cbn [fall_K k_nd k_ng k_order].
    + apply the_layout_ok; cbn [fall_K k_nd k_ng]; try lia; [exact H3|exact H4|exact ex_coords].
    + unfold fall_L, the_layout. cbn [l_dec fall_K k_nd k_ng]. apply decs_thick; try lia; [exact H3|exact H4|].
      intros d Hd; destruct d as [|[|d]]; [| |lia]; vm_compute; congruence.
    + lia.
    + intros f Hf. cbn in Hf. lia.
    + exact I.
  - split; cbn; lra.
  - intros f Hf Hb. cbn in Hf. destruct f as [|[|[|[|f]]]]; try lia; cbn in *; try discriminate. unfold fall_u. auto.
Qed.
Lemma fall_start : starts_from fall_K ex_dims fall_L fall_G (the_state fall_K fall_L fall_G).
Proof. exact (the_state_ok fall_K ex_dims fall_L fall_G). Qed.
Lemma fall_same : same_everywhere fall_G 1 fall_u 1.
Proof. intros c. cbn. auto. Qed.
Lemma fall_widths : widths_within 2 ex_N 2 ex_X fall_w fall_w.
Proof. intros d Hd. unfold fall_w. split; [lra|]. intros i Hi. cbn [ex_X a_at]. rewrite plus_IZR. lra. Qed.
Lemma fall_down : (forall d, (d < 2)%nat -> 0 <= fall_u d * fall_gv d) /\ exists d, (d < 2)%nat /\ fall_gv d <> 0.
Proof. split; [intros; unfold fall_u; lra|]. exists 0%nat. split; [lia|]. cbn. lra. Qed.

Lemma fall_A : 2 < start_rate 2 fall_gas fall_w 1 fall_u 1 < 3.
Proof.
  unfold start_rate, crossings, fall_gas, fall_u, fall_w. cbn [vsum pg_gamma]. rewrite Rabs_R0.
  assert (1 < sqrt (5 / 3 * 1 / 1) < 1.5); [|lra]. split.
  - rewrite <- sqrt_1 at 1. apply sqrt_lt_1; lra.
  - rewrite <- (sqrt_square 1.5) by lra. apply sqrt_lt_1; lra.
Qed.
Lemma fall_B : fall_rate 2 fall_w fall_gv = 10.
Proof. unfold fall_rate, crossings, fall_w, fall_gv. cbn [vsum]. rewrite Rabs_R0, (Rabs_left (-10)) by lra. lra. Qed.
Lemma fall_T : 0 < lifetime 2 fall_gas fall_w 1 fall_u 1 fall_gv (1 / 2) < 1 / 2 * 3 / 2.
Proof.
  unfold lifetime, cooling. rewrite fall_B. pose proof fall_A as HA. unfold norm2, fall_gv. cbn [vsum fall_gas pg_gamma].
  replace (1 / (5 / 3 - 1) / (1 * (0 + -10 * -10 + 0 * 0) / 2 * (1 / 2) / 10)) with (3 / 5) by lra.
  assert (H1 : 1 < exp (3 / 5)) by (pose proof (exp_ineq1 (3 / 5)); lra).
  assert (H2 : exp (3 / 5) < exp 1) by (apply exp_increasing; lra). pose proof exp_le_3.
  set (a := start_rate _ _ _ _ _ _) in *. set (b := exp (3 / 5)) in *. split; nra.
Qed.
Lemma fall_numbers : let T := lifetime 2 fall_gas fall_w 1 fall_u 1 fall_gv (1 / 2) in
  p_t_ini fall_p + T + longest_step 2 fall_gas fall_w fall_w 1 fall_u 1 fall_gv (1 / 2) < p_t_end fall_p /\
  steps_bound 2 fall_gas fall_w 1 fall_u 1 fall_gv (1 / 2) + 2 < IZR (p_max_iter fall_p).
Proof.
  cbv zeta. unfold longest_step, steps_bound. rewrite fall_B. pose proof fall_A as HA. pose proof fall_T as HT.
  set (a := start_rate _ _ _ _ _ _) in *. set (T := lifetime _ _ _ _ _ _ _ _) in *. cbn [fall_p p_t_ini p_t_end p_max_iter]. split.
  - assert (1 / 2 / a < 1); [|lra]. apply Rmult_lt_reg_r with a; [lra|]. unfold Rdiv. rewrite Rmult_assoc, Rinv_l by lra. lra.
  - assert (T * (a + 10 * T) < 1 * (3 + 10)); [|lra]. apply Rmult_gt_0_lt_compat; nra.
Qed.
