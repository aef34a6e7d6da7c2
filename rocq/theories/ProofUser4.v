(** * An atmosphere at rest with the boundary conditions of the setup (C100). *)
From Coq Require Import FunctionalExtensionality ZifyBool ZifyNat.
From Verif Require Import Base RBase ModelMesh ModelGeom ModelBoundary ModelHydro ModelScheme ModelStep ModelSetup ModelMain ModelUser
  SpecMesh SpecBoundary SpecHydro SpecScheme SpecStep SpecSetup SpecMain SpecUser
  ProofBase ProofMesh ProofR ProofBoundary ProofBoundary2 ProofHydro ProofScheme ProofShift ProofReduce ProofStep ProofLayout ProofSetup
  ProofSetupEnergy ProofSteady ProofMain ProofRestart ProofMPIGrid ProofUser ProofUser2 ProofUser3.
Local Open Scope R_scope.

(** The profile only depends on the first coordinate. *)
Lemma profile_view s rho0 u0 T0 gm nd th m m' r r' N g g' c c' o : atmosphere s rho0 u0 T0 ->
  mxc m 0 (ii c) = mxc m' 0 (ii c') -> g c 0%nat = g' c' 0%nat ->
  setup_cell s (mkEnv gm nd th m r N g) c o = setup_cell s (mkEnv gm nd th m' r' N g') c' o.
Proof.
  intros [->|[M ->]] H1 H2; cbn [setup_cell]; unfold k_stratified, k_eq_hydro; cbn [e_mesh e_grav e_th e_nd]; rewrite H1; [rewrite H2|]; reflexivity.
Qed.
Lemma profile_u s rho0 T0 e c k : atmosphere s rho0 0 T0 -> (k < e_nd e)%nat -> i_u (setup_cell s e c old_cell) k = 0.
Proof.
  intros [->|[M ->]] Hk; cbn [setup_cell]; unfold k_stratified, k_eq_hydro; cbv zeta; cbn [i_u]; unfold all_u;
    destruct (Nat.ltb_spec k (e_nd e)); solve [reflexivity|lia].
Qed.
Lemma profile_rho s rho0 u0 T0 e c : atmosphere s rho0 u0 T0 -> 0 < rho0 -> 0 < i_rho (setup_cell s e c old_cell).
Proof.
  intros [->|[M ->]] Hr; cbn [setup_cell]; unfold k_stratified, k_eq_hydro; cbv zeta; cbn [i_rho].
  - unfold stratified_rho. apply Rmult_lt_0_compat; [exact Hr|apply exp_pos].
  - unfold eq_hydro_rho. apply Rmult_lt_0_compat; [exact Hr|apply exp_pos].
Qed.
Lemma profile_P s rho0 u0 T0 gas gm nd m r N g c : atmosphere s rho0 u0 T0 -> valid_gas gas -> 0 < rho0 -> 0 < T0 ->
  0 < i_P (setup_cell s (mkEnv gm nd (pg_thermo gas) m r N g) c old_cell).
Proof.
  intros Ha [G1 G2] Hr HT. pose proof (profile_rho s rho0 u0 T0 (mkEnv gm nd (pg_thermo gas) m r N g) c Ha Hr) as Hp.
  assert (E : i_P (setup_cell s (mkEnv gm nd (pg_thermo gas) m r N g) c old_cell)
    = pg_pres_from_temp gas (i_rho (setup_cell s (mkEnv gm nd (pg_thermo gas) m r N g) c old_cell)) T0) by (destruct Ha as [->|[M ->]]; reflexivity).
  rewrite E. unfold pg_pres_from_temp. pose proof kb_pos. pose proof mp_pos.
  apply Rdiv_lt_0_compat; repeat apply Rmult_lt_0_compat; lra.
Qed.

Section Rest.
Variables (K : config) (N dims : idx) (X : nat -> arr1) (L : layout) (U : own_bounds) (gas : perfect_gas) (s : setup) (rho0 T0 : R).
Hypothesis HR : runs_on K N dims X L.
Hypothesis Hset : ob_setup U = s.
Hypothesis Hth : ob_th U = pg_thermo gas.
Hypothesis Heos : k_eos K = pg_eos gas.
Hypothesis Hat : atmosphere s rho0 0 T0.
Hypothesis Hgas : valid_gas gas.
Hypothesis Hrho : 0 < rho0.
Hypothesis HT : 0 < T0.
Hypothesis H0 : ob_face U 0 = true.
Hypothesis H1 : ob_face U 1 = true.
Hypothesis I0 : In 0%nat (k_order K).
Hypothesis I1 : In 1%nat (k_order K).
Notation nd := (k_nd K).
Notation ng := (k_ng K).
Notation th := (pg_thermo gas).

Lemma start_view L1 r c : i_rho (setup_cell s (setup_env K th N L1 r) (I3 (ii c) 0 0) old_cell) = i_rho (setup_cell s (setup_env K th N L1 r) c old_cell)
  /\ i_P (setup_cell s (setup_env K th N L1 r) (I3 (ii c) 0 0) old_cell) = i_P (setup_cell s (setup_env K th N L1 r) c old_cell).
Proof.
  unfold setup_env. rewrite (profile_view s rho0 0 T0 (k_geom K) nd th (l_mesh L1 r) (l_mesh L1 r) r r N
    (gravity_values K L1 (fun _ _ => zero_cell) r) (gravity_values K L1 (fun _ _ => zero_cell) r) (I3 (ii c) 0 0) c old_cell Hat); [split; reflexivity|reflexivity|].
  rewrite !start_gravity_eq. reflexivity.
Qed.

Lemma rest_serial L1 : runs_on K N one_process X L1 -> forall c, in_array (d_nwg (l_dec L1 rank0)) c ->
  at_rest_with nd gas (setup_cell s (setup_env K th N L1 rank0) c old_cell) (s_cell (own_init K N L1 U (setup_state s K th N L1) rank0) c).
Proof.
  intros HR1 c Hc. unfold own_init. cbn [finish s_cell].
  set (g := fun r => s_grav (setup_state s K th N L1 r)).
  set (Q := fun i => at_rest_with nd gas (setup_cell s (setup_env K th N L1 rank0) (I3 i 0 0) old_cell)).
  assert (HQ : forall c x, Q (ii c) x <-> at_rest_with nd gas (setup_cell s (setup_env K th N L1 rank0) c old_cell) x).
  { intros c1 x. unfold Q, at_rest_with. destruct (start_view L1 rank0 c1) as [-> ->]. reflexivity. }
  apply HQ. apply (rest_all K N X L1 U HR1 Q g); [| |exact H0|exact H1|exact I0|exact I1| |exact Hc].
  - intros d i x Hd (A & B & C). split; [exact A|]. split; [|exact C]. intros k Hk. cbn [negate_momentum c_rhou].
    destruct (Nat.eqb k d); rewrite (B k Hk); ring.
  - intros f W c1 Hf Hc1. apply HQ. rewrite Hset. unfold bound_env. rewrite Hth.
    destruct (face_room K N one_process X L1 HR1 rank0 f (rank0_ok nd) Hf) as [Hd Hn].
    destruct (ghost_rest (k_geom K) nd gas (l_mesh L1 rank0) rank0 N (g rank0) s rho0 0 T0 (d_nwg (l_dec L1 rank0)) ng (f / 2) (f mod 2) W c1 Hat Hgas Hrho Hd Hn Hc1 eq_refl)
      as (E1 & E2 & E3 & _).
    split; [exact E1|]. split; [|exact E3]. intros k Hk. rewrite (E2 k Hk), (profile_u s rho0 T0) by assumption. ring.
  - intros c1 Hc1. apply HQ.
    pose proof (proj2 (sel_owned _ _ _ _ _ _ _ (ro_layout HR1) (rank0_ok nd)) Hc1) as Hs.
    pose proof (setup_fields_owned K N one_process X L1 th (ro_layout HR1) s rank0 c1 (rank0_ok nd) Hc1) as EF.
    unfold init_cons. cbn [conv_prim_to_cons fst snd]. unfold kwrite. rewrite Hs. cbn [setup_state s_cell s_u s_P c_rho c_fx]. rewrite EF.
    set (v := setup_cell s (setup_env K th N L1 rank0) c1 old_cell).
    assert (Eu : forall k, (k < nd)%nat -> i_u v k = 0) by (intros k Hk; exact (profile_u s rho0 T0 (setup_env K th N L1 rank0) c1 k Hat Hk)).
    split; [reflexivity|]. split.
    + intros k Hk. cbn [c_rhou to_cons q_m p_rho p_u]. rewrite (Eu k Hk). ring.
    + cbn [c_E to_cons q_E p_rho p_P]. rewrite Heos. cbn [pg_eos eos_evol]. unfold ek_prim. cbn [p_rho p_u].
      rewrite vsum_0; [unfold Rdiv; ring|]. intros k Hk. rewrite (Eu k Hk). ring.
Qed.

Lemma rest_start r c : process nd dims r -> in_array (d_nwg (l_dec L r)) c ->
  let v := setup_cell s (setup_env K th N L r) c old_cell in
  let S := own_init K N L U (setup_state s K th N L) in
  at_rest_with nd gas v (s_cell (S r) c) /\ (forall k, (k < nd)%nat -> s_u (S r) c k = 0) /\ s_P (S r) c = i_P v.
Proof.
  intros Hr Hc v S. destruct (single_process K N dims X L HR) as (L1 & HR1).
  assert (Hpos : positional s) by (destruct Hat as [->|[M ->]]; exact I).
  pose proof (own_start K N dims X L U HR s th L1 Hpos (ro_layout HR1)) as [(HC & _) _].
  pose proof (slice_in_serial nd N dims ng (l_dec L) (l_dec L1) (lo_dec (ro_layout HR)) (lo_dec (ro_layout HR1)) r c Hr Hc) as Hc1. cbn beta in Hc1.
  pose proof (rest_serial L1 HR1 _ Hc1) as HQ. rewrite <- (HC r Hr c Hc) in HQ.
  assert (Ev : setup_cell s (setup_env K th N L1 rank0) (iadd (corner_min (d_range (l_dec L r))) c) old_cell = v).
  { unfold v, setup_env.
    assert (Ex : mxc (l_mesh L1 rank0) 0 (ii (iadd (corner_min (d_range (l_dec L r))) c)) = mxc (l_mesh L r) 0 (ii c)).
    { unfold mxc. cbn [ii iadd]. rewrite <- Z.add_assoc.
      pose proof (mesh_slice K N dims X L L1 (ro_layout HR) (ro_layout HR1) r 0 (ii c) Hr ltac:(lia)) as E1.
      pose proof (mesh_slice K N dims X L L1 (ro_layout HR) (ro_layout HR1) r 0 (ii c + 1)%Z Hr ltac:(lia)) as E2. cbn [coord] in E1, E2. now rewrite E1, E2. }
    apply (profile_view s rho0 0 T0); [exact Hat|exact Ex|]. rewrite !start_gravity_eq. now rewrite Ex. }
  rewrite Ev in HQ. split; [exact HQ|]. fold S in HQ. destruct HQ as (A & B & C).
  pose proof (proj2 (sel_array _ _ _ _ _ _ _ (ro_layout HR) Hr) Hc) as Hs.
  unfold S, own_init in A, B, C |- *. cbn [finish s_cell s_u s_P conv_cons_to_prim fst snd] in *. unfold kwrite. rewrite Hs.
  match type of A with c_rho ?x = _ => set (w := x) in * end. split.
  - intros k Hk. cbn [to_prim p_u q_m q_rho]. rewrite (B k Hk). unfold Rdiv. ring.
  - cbn [to_prim p_P q_rho]. unfold evol_cons, ek_cons. cbn [q_E q_m q_rho].
    rewrite vsum_0; [|intros k Hk; rewrite (B k Hk); ring]. rewrite A, C. rewrite Heos. unfold Rdiv. rewrite !Rmult_0_l, Rminus_0_r.
    apply (law_pres_evol _ (pg_lawful gas Hgas)).
    + apply (profile_rho s rho0 0 T0); assumption.
    + unfold v, setup_env. apply (profile_P s rho0 0 T0); assumption.
Qed.
End Rest.
