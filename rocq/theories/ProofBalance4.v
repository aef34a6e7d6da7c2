(** * The atmosphere does not stay at rest (C102). *)
From Coq Require Import FunctionalExtensionality ZifyBool ZifyNat Lra.
From Verif Require Import Base RBase ModelMesh ModelGeom ModelBoundary ModelHydro ModelScheme ModelStep ModelSetup ModelMain ModelUser
  SpecMesh SpecGeom SpecBoundary SpecHydro SpecScheme SpecStep SpecSetup SpecMain SpecUser SpecBalance
  ProofBase ProofMesh ProofBoundary ProofBoundary2 ProofStep ProofSteady ProofStepEx ProofLayout ProofMainEx ProofMPIGrid ProofUserEx ProofBalance2 ProofBalance3.
Local Open Scope R_scope.

Section Run.
Variables (K : config) (N dims : idx) (X : nat -> arr1) (L : layout) (U : own_bounds) (gas : perfect_gas) (rho0 T0 g h : R).
Hypothesis HA : atmosphere_run K N dims X L U gas rho0 T0 g h.
Notation S0 := (atmosphere_start K N L U gas).
Notation gam := (pg_gamma gas).
Notation a := (isothermal gas T0).

Lemma atmosphere_step t dt r c : subsonic gam a g dt ->
  process (k_nd K) dims r -> owned (k_nd K) (k_ng K) (d_nloc (l_dec L r)) c ->
  let x := s_cell (S0 r) c in let x' := s_cell (own_full_step K N L U t dt S0 r) c in
  c_rho x' = c_rho x * new_mass gam a g h dt /\ c_rhou x' 0%nat = c_rho x * new_momentum gam a g h dt /\
  (forall k, (0 < k < k_nd K)%nat -> c_rhou x' k = 0) /\ c_E x' = c_rho x * new_energy gam a g h dt /\
  0 < c_rho x /\ (forall k, (k < k_nd K)%nat -> c_rhou x k = 0).
Proof.
  intros Hs Hr Hc. destruct HA as [A1 A2 A3 A4 A5 A6 A7 A8 A9 A10 A11 A12 A13 (f & A14 & A15) A16 A17 A18].
  destruct (A8 0%nat ltac:(lia)) as [F0 I0]. destruct (A8 1%nat ltac:(lia)) as [F1 I1].
  unfold atmosphere_start. rewrite A5. cbv zeta.
  pose proof (owned_in_array K N dims X L (ro_layout A1) r c Hr Hc) as Ha.
  destruct (start_prof K N dims X L U gas rho0 T0 g f A1 A5 A4 A3 A2 A6 A7 F0 F1 I0 I1 A14 A15 A16 r c Hr Ha) as (E1 & E2 & _).
  destruct (step_cell K N dims X L U gas rho0 T0 g h f A1 A5 A4 A3 A2 A6 A7 F0 F1 I0 I1 A9 A10 A11 A12 A13 A14 A15 A16 A17 A18 t dt Hs r c Hr Hc)
    as (B1 & B2 & B3 & B4).
  rewrite E1. split; [exact B1|]. split; [exact B2|]. split; [exact B3|]. split; [exact B4|]. split; [|exact E2].
  exact (prof_pos L gas rho0 T0 g A6 r c).
Qed.

Lemma cells_wide : 0 < h.
Proof.
  pose proof (ar_coords _ _ _ _ _ _ _ _ _ _ _ HA 0%nat 0%Z ltac:(lia)) as B. pose proof (ar_even _ _ _ _ _ _ _ _ _ _ _ HA 0%Z) as E.
  pose proof (ar_runs _ _ _ _ _ _ _ _ _ _ _ HA) as R. pose proof (ro_ng R). pose proof (dcp_nd (lo_dec (ro_layout R))). pose proof (dcp_n (lo_dec (ro_layout R)) (d := 0%nat) ltac:(lia)) as Hn.
  unfold ghosts in B. destruct (Nat.ltb_spec 0 (k_nd K)); [|lia]. cbn [coord] in B, Hn. specialize (B ltac:(lia)). specialize (E ltac:(lia)). cbn in E, B. lra.
Qed.
Lemma iso_pos : 0 < a.
Proof. destruct HA. apply a_pos; assumption. Qed.
Lemma gam_1 : 1 < gam.
Proof. exact (proj1 (ar_gas _ _ _ _ _ _ _ _ _ _ _ HA)). Qed.

Lemma atmosphere_moves : exists dt0, 0 < dt0 /\ forall t dt r c, 0 < dt < dt0 ->
  process (k_nd K) dims r -> owned (k_nd K) (k_ng K) (d_nloc (l_dec L r)) c ->
  let x := s_cell (S0 r) c in let x' := s_cell (own_full_step K N L U t dt S0 r) c in
  c_rhou x 0%nat = 0 /\ 0 < c_rhou x' 0%nat /\ c_rho x < c_rho x'.
Proof.
  destruct (disturbed gam a g h gam_1 iso_pos (ar_g _ _ _ _ _ _ _ _ _ _ _ HA) cells_wide) as (d & Pd & Q). exists d. split; [exact Pd|].
  intros t dt r c Hdt Hr Hc. destruct (Q dt Hdt) as (Q1 & Q2 & Q3).
  destruct (atmosphere_step t dt r c Q1 Hr Hc) as (B1 & B2 & _ & _ & B5 & B6). cbv zeta.
  split; [apply B6; pose proof (dcp_nd (lo_dec (ro_layout (ar_runs _ _ _ _ _ _ _ _ _ _ _ HA)))); lia|]. rewrite B1, B2. split; nra.
Qed.

Lemma atmosphere_rates : forall eps, 0 < eps -> exists dt0, 0 < dt0 /\ forall t dt r c, 0 < dt < dt0 ->
  process (k_nd K) dims r -> owned (k_nd K) (k_ng K) (d_nloc (l_dec L r)) c ->
  let x := s_cell (S0 r) c in let x' := s_cell (own_full_step K N L U t dt S0 r) c in let k := h * g / a in
  Rabs ((c_rho x' - c_rho x) / dt / c_rho x - sqrt (gam * a) * (cosh k - 1) / h) < eps /\
  Rabs (c_rhou x' 0%nat / dt / c_rho x - g * (sinh k / k - 1)) < eps.
Proof.
  intros eps He. destruct (small_steps gam a g h gam_1 iso_pos (ar_g _ _ _ _ _ _ _ _ _ _ _ HA) cells_wide eps He) as (d & Pd & Q). exists d. split; [exact Pd|].
  intros t dt r c Hdt Hr Hc. destruct (Q dt Hdt) as (Q1 & Q2 & Q3).
  destruct (atmosphere_step t dt r c Q1 Hr Hc) as (B1 & B2 & _ & _ & B5 & _). cbv zeta. rewrite B1, B2. split.
  - set (x := c_rho (s_cell (S0 r) c)) in *. set (M := new_mass gam a g h dt) in *. replace ((x * M - x) / dt / x) with ((M - 1) / dt) by (field; lra). exact Q2.
  - set (x := c_rho (s_cell (S0 r) c)) in *. set (M := new_momentum gam a g h dt) in *. replace (x * M / dt / x) with (M / dt) by (field; lra). exact Q3.
Qed.
Lemma atmosphere_scale : let k := h * g / a in 0 < k /\ 0 < cosh k - 1 <= k * k / 2 * cosh k /\ k * k / 6 <= sinh k / k - 1 <= k * k / 6 * cosh k.
Proof.
  pose proof (ar_g _ _ _ _ _ _ _ _ _ _ _ HA). split; [apply (k_pos a g h); [exact iso_pos|assumption|exact cells_wide]|].
  apply (rates_bounds a g h); [exact iso_pos|assumption|exact cells_wide].
Qed.
End Run.

(** inputs/stratified_atm.ini in two dimensions with the limiter and the solver of the theorem, on 3 x 2 processes. *)
Definition bal_K : config :=
  mkConfig Cartesian 2 2 (pg_eos own_gas) LConstant HLL None UOff (GUniform (fun d => match d with O => -10 | _ => 0 end)) (fun _ => Reflexive) [2; 0; 3; 1]%nat.
Definition bal_L := the_layout bal_K ex_N ex_dims ex_X.
Lemma bal_run : atmosphere_run bal_K ex_N ex_dims ex_X bal_L own_U own_gas 10 100 10 1.
Proof.
  constructor; try reflexivity; try lra.
  - assert (H3 : forall d, (d < 3)%nat -> (1 <= coord d ex_N)%Z) by (dims3; vm_compute; congruence).
    assert (H4 : forall d, (d < 3)%nat -> (1 <= coord d (mpi_dims 2 ex_dims))%Z) by (dims3; vm_compute; congruence).
    split; cbn [bal_K k_nd k_ng k_order].
    + apply the_layout_ok; cbn [bal_K k_nd k_ng]; try lia; [exact H3|exact H4|exact ex_coords].
    + unfold bal_L, the_layout. cbn [l_dec bal_K k_nd k_ng]. apply decs_thick; try lia; [exact H3|exact H4|].
      intros d Hd; destruct d as [|[|d]]; [| |lia]; vm_compute; congruence.
    + lia.
    + intros f Hf. cbn in Hf. lia.
    + exact I.
  - exact own_gas_ok.
  - intros f Hf. cbn [bal_K k_order]. destruct f as [|[|f]]; [| |lia]; cbn; auto 6.
  - exists (fun d => match d with O => -10 | _ => 0 end). split; [reflexivity|]. split; [reflexivity|]. intros d Hd. destruct d; [lia|reflexivity].
  - intros d i Hd Hi. cbn [ex_X a_at]. rewrite plus_IZR. lra.
  - intros i Hi. cbn [ex_X a_at]. rewrite plus_IZR. lra.
Qed.
(** A step of a millisecond. *)
Lemma bal_quiet : subsonic (pg_gamma own_gas) (isothermal own_gas 100) 10 (1 / 1000).
Proof.
  unfold subsonic, half_a, half_u, isothermal, own_gas. cbn [pg_gamma pg_mmw]. unfold kb, mp.
  field_simplify. lra.
Qed.
