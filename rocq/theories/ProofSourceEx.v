(** * Statements and examples of PropSource.v. *)
From Coquelicot Require Import Coquelicot.
From Coq Require Import FunctionalExtensionality ZifyBool ZifyNat.
From Verif Require Import Base RBase ModelMesh ModelGeom ModelBoundary ModelHydro ModelScheme ModelStep
  SpecMesh SpecGeom SpecBoundary SpecHydro SpecScheme SpecStep SpecSource
  ProofBase ProofMesh ProofR ProofGeom ProofBoundary ProofBoundary2 ProofHydro ProofHydro2 ProofScheme ProofReduce ProofStep ProofLayout
  ProofSource ProofFix ProofGrav ProofStepEx.
Local Open Scope R_scope.

(** ** Gravity within a run *)
Lemma run_gravity K L ts S r :
  let now := run K L ts (init_state K L S) in
  s_grav (now r) = gravity_values K L (fun r => s_cell (now r)) r.
Proof.
  cbv zeta. destruct ts as [|x ts] using rev_ind; [reflexivity|].
  unfold run. rewrite fold_left_app. cbn [fold_left]. unfold full_step, finish. reflexivity.
Qed.

Lemma run_internal_mass K N dims X L (HR : runs_on K N dims X L) M G S ts : k_grav K = GInternalMass M ->
  starts_from K dims L G S ->
  let now := run K L ts (init_state K L S) in
  exists D, slice_of (k_nd K) dims (l_dec L) (fun r => s_cell (now r)) D /\
  forall r c d, process (k_nd K) dims r -> in_array (d_nwg (l_dec L r)) c ->
  s_grav (now r) c d =
  match d with
  | O => let x := mxc (global_mesh X) 0 (ii c) in
         - Ggrav * (if (ii c <? k_ng K)%Z then M
                    else mass_inside (global_mesh X) (k_ng K) M
                           (mean_density (k_geom K) (k_nd K) (k_ng K) N (global_mesh X) (fun c => c_rho (D c))) (ii c)) / (x * x)
  | _ => 0
  end.
Proof.
  intros Hk HS now. destruct (serial_layout _ _ _ _ _ (ro_layout HR)) as (L1 & HL1).
  destruct (same_results_run K N dims X L HR L1 G S (the_state K L1 G) ts HL1 HS (the_state_ok K one_process L1 G)) as [A _].
  eexists. split; [exact A|]. intros r c d Hr Hc. unfold now. rewrite run_gravity.
  exact (internal_mass K N dims X L (ro_layout HR) (ro_grav HR) M _ _ r c d Hk Hr A Hc).
Qed.

(** ** The witness of C61 *)
Definition w_mesh : mesh := fun d i =>
  match d with O => IZR i + 1 | S O => PI / 6 + IZR i * (PI / 3) | _ => IZR i end.
Definition w_eos := pg_eos (mkPG (5 / 3) 1).
Definition w_state (u_phi : R) : cons :=
  conserved_of (gas 3 w_eos 1 (fun d => match d with O => 10 | S O => 0 | _ => u_phi end) 1 (fun _ => 0)).
Definition w_rec : recon :=
  mkRec (fun c _ _ => if (ii c <? 0)%Z then w_state 1 else w_state 0) (fun _ _ _ _ => 0).

Lemma w_proper : proper_cell 3 w_mesh (I3 0 0 0).
Proof. pose proof PI_RGT_0. unfold proper_cell, w_mesh. cbn. repeat split; intros; lra. Qed.

Lemma w_vals u : q_rho (w_state u) = 1 /\ internal 3 (w_state u) = 3 / 2 /\ pressure 3 w_eos (w_state u) = 1.
Proof.
  assert (E : internal 3 (w_state u) = 3 / 2).
  { unfold w_state. rewrite gas_internal by lra. cbn. rewrite pg_evol by (first [lra|split; cbn; lra]). cbn. field. }
  split; [reflexivity|]. split; [exact E|]. unfold pressure. rewrite E.
  replace (3 / 2) with (eos_evol w_eos 1 1) by (cbn; rewrite pg_evol by (first [lra|split; cbn; lra]); cbn; lra).
  apply (law_pres_evol _ ex_eos); cbn; lra.
Qed.
Lemma w_valid u : valid_cons 3 (w_state u).
Proof. destruct (w_vals u) as (A & B & _). unfold valid_cons. rewrite A, B. lra. Qed.
Lemma w_fast u : sound 3 w_eos (w_state u) <= velocity (w_state u) 0.
Proof.
  destruct (w_vals u) as (A & B & C). unfold sound. rewrite A, C.
  replace (velocity (w_state u) 0) with 10 by (unfold velocity, w_state; cbn; field).
  cbn. unfold pg_sound. cbn. rewrite <- (sqrt_Rsqr 10) by lra. apply sqrt_le_1_alt. unfold Rsqr. lra.
Qed.

Lemma w_spurious dt (a : idx -> cell) (grav : gravity) : 0 < dt ->
  let c := I3 0 0 0 in
  let FL d := f_m (flux_left HLL 3 w_eos w_rec c d) 2%nat in
  let FR d := f_m (flux_right HLL 3 w_eos w_rec c d) 2%nat in
  proper_cell 3 w_mesh c /\ (forall c' sd d, valid_cons 3 (r_q w_rec c' sd d)) /\
  arm w_mesh c * (c_rhou (god_cell Spherical 3 w_eos HLL w_mesh grav dt a w_rec c) 2%nat - c_rhou (a c) 2%nat - dt * grav c 2%nat * c_rho (a c))
  > dt / dv Spherical 3 w_mesh c * torque w_mesh c FL FR.
Proof.
  intros Hdt c FL FR. split; [exact w_proper|].
  assert (Hv : forall c' sd d, valid_cons 3 (r_q w_rec c' sd d)).
  { intros c' sd d. cbn. destruct (ii c' <? 0)%Z; apply w_valid. }
  split; [exact Hv|].
  unfold c. rewrite (step_balance w_eos HLL w_mesh grav dt a w_rec (I3 0 0 0) w_proper). fold c FL FR.
  assert (Hsame : forall d, f_m (euler_flux 3 w_eos (w_state 0) d) 2%nat = if Nat.eqb 2 d then 1 else 0).
  { intros d. unfold euler_flux. cbn [f_m]. destruct (w_vals 0) as (_ & _ & ->). unfold w_state. cbn [gas conserved_of q_m q_rho c_rhou c_rho].
    replace (1 * 0) with 0 by ring. destruct (Nat.eqb 2 d); field. }
  assert (E0 : FL 0%nat = 10).
  { change (FL 0%nat) with (f_m (hll 3 w_eos (w_state 1) (w_state 0) 0) 2%nat).
    rewrite (hll_supersonic_right 3 w_eos ex_eos (w_state 1) (w_state 0) 0 (w_valid 1) (w_valid 0) (w_fast 1) (w_fast 0)).
    unfold euler_flux, w_state. cbn. field. }
  assert (E1 : FR 0%nat = 0).
  { unfold FR, flux_right. change (r_q w_rec c 1%nat 0%nat) with (w_state 0). change (r_q w_rec (rindex 0 c) 0%nat 0%nat) with (w_state 0).
    rewrite (riemann_consistent 3 w_eos ex_eos HLL (w_state 0) 0 (w_valid 0)). rewrite Hsame. reflexivity. }
  assert (E2 : FL 1%nat = 0).
  { unfold FL, flux_left, face_flux. change (r_q w_rec (lindex 1 c) 1%nat 1%nat) with (w_state 0). change (r_q w_rec c 0%nat 1%nat) with (w_state 0).
    rewrite (riemann_consistent 3 w_eos ex_eos HLL (w_state 0) 1 (w_valid 0)). rewrite Hsame. reflexivity. }
  assert (E3 : FR 1%nat = 0).
  { unfold FR, flux_right. change (r_q w_rec c 1%nat 1%nat) with (w_state 0). change (r_q w_rec (rindex 1 c) 0%nat 1%nat) with (w_state 0).
    rewrite (riemann_consistent 3 w_eos ex_eos HLL (w_state 0) 1 (w_valid 0)). rewrite Hsame. reflexivity. }
  destruct (sph_cell 3 w_mesh c ltac:(lia) (proj1 (proj1 w_proper)) (proj2 (proj1 w_proper)) (proj1 (proj2 w_proper)) (proj2 (proj2 w_proper)))
    as (w & Hw & V & A0 & _).
  assert (Es : spurious_torque w_mesh c FL FR (fun d => to_prim 3 w_eos (r_q w_rec c 0%nat d)) (fun d => to_prim 3 w_eos (r_q w_rec c 1%nat d))
               = mean_sin w_mesh c / 2 * (10 * ds Spherical 3 w_mesh c 0)).
  { unfold spurious_torque. rewrite E0, E1, E2, E3.
    assert (Z : forall sd d k, p_rho (to_prim 3 w_eos (r_q w_rec c sd d)) * p_u (to_prim 3 w_eos (r_q w_rec c sd d)) k
                 * p_u (to_prim 3 w_eos (r_q w_rec c sd d)) 2%nat = 0).
    { intros sd d k. change (r_q w_rec c sd d) with (w_state 0). unfold to_prim, w_state. cbn. field. }
    rewrite !Z. replace (w_mesh 0%nat (ii c + 1)%Z - w_mesh 0%nat (ii c)) with 1 by (cbn; ring). unfold Rdiv. ring. }
  rewrite Es. rewrite Rmult_plus_distr_l.
  assert (0 < dt / dv Spherical 3 w_mesh c * (mean_sin w_mesh c / 2 * (10 * ds Spherical 3 w_mesh c 0))); [|lra].
  apply Rmult_lt_0_compat.
  - apply Rdiv_lt_0_compat; [assumption|]. rewrite V. unfold w_mesh, c. cbn.
    apply Rdiv_lt_0_compat; [|lra]. apply Rmult_lt_0_compat; [assumption|]. lra.
  - apply Rmult_lt_0_compat.
    + pose proof (proper_sin _ _ w_proper) as Hs. unfold mean_sin. fold c in Hs. lra.
    + rewrite A0. apply Rmult_lt_0_compat; [lra|]. apply Rmult_lt_0_compat; [assumption|]. unfold w_mesh, c. cbn. lra.
Qed.

(** ** C62 *)
Lemma polar_wrong e s m grav dt a r c q : proper_cell 3 m c -> lawful_eos e -> valid_cons 3 q ->
  (forall c' sd d, r_q r c' sd d = q) -> dt <> 0 -> velocity q 0 = 0 -> velocity q 2 <> 0 ->
  mean_cot (m 1%nat (jj c)) (m 1%nat (jj c + 1)%Z) <> 0 ->
  (c_rhou (god_cell Spherical 3 e s m grav dt a r c) 1%nat
   = c_rhou (a c) 1%nat + dt * face_balance 3 e m c q 1 + dt * momentum_source 3 e m c q 1 + dt * grav c 1%nat * c_rho (a c)
   <-> cos (mxc m 1 (jj c)) / sin (mxc m 1 (jj c)) = 2).
Proof.
  intros Hp He Hq Hr Hdt Hu0 Hu2 Hcot.
  rewrite (uniform_update 3 e s m grav dt a r c q 1 ltac:(lia) Hp He Hq Hr ltac:(lia)). cbn [Nat.eqb andb].
  rewrite Hu0.
  set (inv := mean_inv_r _ _). set (cot := mean_cot _ _) in *. set (x := cos _ / sin _).
  assert (Hinv : inv <> 0).
  { unfold inv. destruct Hp as ((P1 & P2) & _). rewrite mean_inv_r_val by lra.
    set (r0 := m 0%nat (ii c)) in *. set (r1 := m 0%nat (ii c + 1)%Z) in *.
    assert (A : 0 < r1 * r1 - r0 * r0) by nra.
    assert (B : 0 < r1 * r1 * r1 - r0 * r0 * r0).
    { replace (r1 * r1 * r1 - r0 * r0 * r0) with ((r1 - r0) * (r1 * r1 + r1 * r0 + r0 * r0)) by ring.
      apply Rmult_lt_0_compat; [lra|]. nra. }
    apply Rgt_not_eq. apply Rlt_gt. apply Rdiv_lt_0_compat; nra. }
  assert (Hrho : q_rho q <> 0) by (destruct Hq; lra).
  assert (Hx : dt * inv * cot * (q_rho q * velocity q 2 ^ 2) <> 0).
  { assert (velocity q 2 ^ 2 <> 0) by now apply pow_nonzero.
    set (v := velocity q 2 ^ 2) in *. clearbody v. repeat (apply Rmult_integral_contrapositive_currified; try assumption). }
  set (y := dt * inv * cot * (q_rho q * velocity q 2 ^ 2)) in *. split; intros H.
  - assert (Hz : y * (x / 2 - 1) = 0) by lra. apply Rmult_integral in Hz. destruct Hz as [Hz|Hz]; [contradiction|lra].
  - rewrite H. lra.
Qed.

Lemma w_cot : mean_cot (w_mesh 1%nat 0%Z) (w_mesh 1%nat 1%Z) <> 0 /\
  cos (mxc w_mesh 1 0) / sin (mxc w_mesh 1 0) <> 2.
Proof.
  pose proof PI_RGT_0. pose proof PI_4.
  assert (E0 : w_mesh 1%nat 0%Z = PI / 6) by (cbn; lra). assert (E1 : w_mesh 1%nat 1%Z = PI / 2) by (cbn; lra).
  split.
  - rewrite E0, E1. rewrite mean_cot_val by lra. rewrite sin_PI6, cos_PI6, sin_PI2, cos_PI2.
    assert (0 < sqrt 3) by (apply sqrt_lt_R0; lra).
    apply Rgt_not_eq. apply Rlt_gt. apply Rdiv_lt_0_compat; lra.
  - unfold mxc. cbn [Z.add]. rewrite E0, E1. replace ((PI / 6 + PI / 2) / 2) with (PI / 3) by lra.
    rewrite sin_PI3, cos_PI3. assert (0 < sqrt 3) by (apply sqrt_lt_R0; lra).
    assert (sqrt 3 * sqrt 3 = 3) by (apply sqrt_def; lra).
    intros E. apply (f_equal (fun z => z * (sqrt 3))) in E. replace (1 / 2 / (sqrt 3 / 2) * sqrt 3) with 1 in E by (field; lra). cbv beta in E. assert (sqrt 3 = 1 / 2) by lra. nra.
Qed.

(** ** The pressure fix makes internal energy negative *)
Definition line_mesh : mesh := fun _ i => IZR i.
Lemma cold_fall :
  let u := fun d : nat => 10 in
  let a := fun _ : idx => gas 1 w_eos 1 u (2 / 3) (fun _ => 0) in
  let g : gravity := fun _ _ => 1 in
  forall l s old c,
  internal 1 (conserved_of (a c)) = 1 /\
  internal 1 (conserved_of (updated 1 w_eos l s line_mesh g (2 / 10) a (fun _ => u) (fun _ => 2 / 3) old c)) = 98 / 100 /\
  internal 1 (conserved_of (fixed 1 w_eos l s line_mesh g (2 / 10) 1 a (fun _ => u) (fun _ => 2 / 3) old c)) = - (102 / 100).
Proof.
  intros u a g l s old c.
  assert (Ei : internal 1 (conserved_of (a c)) = 1).
  { unfold a. rewrite gas_internal by lra. cbn. rewrite pg_evol by (first [lra|split; cbn; lra]). cbn. lra. }
  assert (Ek : kinetic 1 (conserved_of (a c)) = 50) by (unfold a; rewrite gas_kinetic by lra; unfold u; cbn; field).
  split; [exact Ei|]. split.
  - unfold a, u, g. rewrite (fall_internal 1 w_eos l s line_mesh (fun _ => 1) (2 / 10) ltac:(lia) 1 (fun _ => 10) (2 / 3) (fun _ => 0)) by lra.
    change (internal 1 (conserved_of (gas 1 w_eos 1 (fun _ => 10) (2 / 3) (fun _ => 0)))) with (internal 1 (conserved_of (a c))).
    rewrite Ei. cbn. lra.
  - unfold a, u, g. rewrite (fall_fixed 1 w_eos l s line_mesh (fun _ => 1) (2 / 10) ltac:(lia) 1 (fun _ => 10) (2 / 3) (fun _ => 0)).
    + change (internal 1 (conserved_of (gas 1 w_eos 1 (fun _ => 10) (2 / 3) (fun _ => 0)))) with (internal 1 (conserved_of (a c))).
      rewrite Ei. cbn. lra.
    + lra.
    + reflexivity.
    + change (gas 1 w_eos 1 (fun _ => 10) (2 / 3) (fun _ => 0)) with (a c). rewrite Ei, Ek. lra.
    + lra.
    + destruct c as [i j k]. cbn. unfold cart_dv, mdx, line_mesh. cbn. rewrite !plus_IZR. lra.
Qed.

Lemma line_even : even_mesh line_mesh (fun _ => 1).
Proof. intros d i Hd. unfold mdx, line_mesh. rewrite plus_IZR. ring. Qed.

(** ** An internal-mass run on 1 x 2 processes, whole sphere *)
Definition gm_K : config :=
  mkConfig Spherical 2 2 w_eos LVanLeer HLLC None UHeatNickel (GInternalMass 5) (fun _ => NullGradient) [2; 3; 0; 1]%nat.
Definition gm_N : idx := I3 3 4 1.
Definition gm_dims : idx := I3 1 2 1.
Definition gm_X : nat -> arr1 := fun d =>
  match d with
  | O => mkArr1 8%Z (fun i => IZR i)
  | S O => mkArr1 9%Z (fun i => (IZR i - 2) * (PI / 4))
  | _ => mkArr1 2%Z (fun i => IZR i)
  end.
Definition gm_L := the_layout gm_K gm_N gm_dims gm_X.
Lemma gm_runs : runs_on gm_K gm_N gm_dims gm_X gm_L.
Proof.
  assert (H3 : forall d, (d < 3)%nat -> (1 <= coord d gm_N)%Z) by (dims3; vm_compute; congruence).
  assert (H4 : forall d, (d < 3)%nat -> (1 <= coord d (mpi_dims 2 gm_dims))%Z) by (dims3; vm_compute; congruence).
  split; cbn [gm_K k_nd k_ng k_order].
  - apply the_layout_ok; cbn [gm_K k_nd k_ng]; try lia; [exact H3|exact H4|].
    intros d Hd. destruct d as [|[|[|d]]]; [reflexivity..|lia].
  - unfold gm_L, the_layout. cbn [l_dec gm_K k_nd k_ng]. apply decs_thick; try lia; [exact H3|exact H4|].
    intros d Hd; destruct d as [|[|d]]; [| |lia]; vm_compute; congruence.
  - lia.
  - intros f Hf. cbn in Hf. lia.
  - reflexivity.
Qed.
Lemma gm_whole : whole_sphere 2 2 gm_N (global_mesh gm_X) /\
  global_mesh gm_X 0%nat 2%Z = 2 /\ forall j, global_mesh gm_X 0%nat j < global_mesh gm_X 0%nat (j + 1)%Z.
Proof.
  split; [split|].
  - intros _. unfold global_mesh. cbn. split; [ring|field].
  - lia.
  - split; [reflexivity|]. intros j. unfold global_mesh. cbn. rewrite plus_IZR. lra.
Qed.
