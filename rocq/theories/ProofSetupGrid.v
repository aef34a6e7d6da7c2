(** * Blast setups whose start depends on the process grid (C78). *)
From Coq Require Import ZifyBool ZifyNat.
From Verif Require Import Base RBase ModelMesh ModelGeom ModelBoundary ModelHydro ModelRad ModelScheme ModelStep ModelSetup
  SpecMesh SpecGeom SpecBoundary SpecHydro SpecScheme SpecStep SpecSetup
  ProofBase ProofMesh ProofGeom ProofBoundary ProofBoundary2 ProofHydro ProofShift ProofStep ProofLayout ProofSetup.
Local Open Scope R_scope.

Lemma start_P s K th N dims X L G : laid_out K N dims X L -> starts_from K dims L G (setup_state s K th N L) ->
  forall r c, process (k_nd K) dims r -> owned (k_nd K) (k_ng K) (d_nloc (l_dec L r)) c ->
  g_P G (global_index (k_nd K) (k_ng K) (corner_min (d_range (l_dec L r))) c)
  = i_P (setup_cell s (setup_env K th N L r) c old_cell).
Proof.
  intros HL HS r c Hr Hc. pose proof (sf_P HS r Hr c Hc) as E. cbn [setup_state s_P] in E.
  rewrite (setup_fields_owned K N dims X L th HL s r c Hr Hc) in E. now symmetry.
Qed.

(** A mesh of unit cells starting at 1 (so that radii are positive, ghosts included). *)
Definition unit_X (nd : nat) (N : idx) (ng : Z) : nat -> arr1 := fun d =>
  mkArr1 (coord d N + 2 * (if Nat.ltb d nd then ng else 0) + 1) (fun i => IZR (i + 1)).
Lemma unit_X_coords nd N ng : global_coords nd N ng (unit_X nd N ng).
Proof. intros d Hd. reflexivity. Qed.
Lemma unit_X_increasing nd N ng : increasing nd N ng (unit_X nd N ng).
Proof. intros d i Hd Hi. cbn [unit_X a_at]. apply IZR_lt. lia. Qed.

Definition plain_config (g : geom) (nd : nat) (gas : perfect_gas) : config :=
  mkConfig g nd 2 (pg_eos gas) LMinmod HLLC None UOff (GUniform (fun _ => 0)) (fun _ => NullGradient) (seq 0 (2 * nd)).

Lemma unit_laid g nd gas N dims : (1 <= nd <= 3)%nat -> (forall d, (d < 3)%nat -> (1 <= coord d N)%Z) ->
  (forall d, (d < 3)%nat -> (1 <= coord d (mpi_dims nd dims))%Z) ->
  laid_out (plain_config g nd gas) N dims (unit_X nd N 2) (the_layout (plain_config g nd gas) N dims (unit_X nd N 2)).
Proof.
  intros H1 H2 H3. apply the_layout_ok; cbn [plain_config k_nd k_ng]; [exact H1|lia|exact H2|exact H3|apply unit_X_coords].
Qed.

Lemma unit_mesh g nd gas N dims r d i : let K := plain_config g nd gas in
  laid_out K N dims (unit_X nd N 2) (the_layout K N dims (unit_X nd N 2)) ->
  process nd dims r -> (d < 3)%nat ->
  l_mesh (the_layout K N dims (unit_X nd N 2)) r d i
  = IZR (coord d (corner_min (d_range (decs nd N dims 2 r))) + i + 1).
Proof. intros K HL Hr Hd. rewrite (set_grid_at _ _ _ (lo_mesh HL Hr)) by exact Hd. reflexivity. Qed.

Lemma pg_round gas rho ev : valid_gas gas -> 0 < rho -> pg_pres_from_temp gas rho (pg_temp_from_evol gas rho ev) = (pg_gamma gas - 1) * ev.
Proof.
  intros [H1 H2] Hr. unfold pg_pres_from_temp, pg_temp_from_evol. pose proof kb_pos. pose proof mp_pos. field. repeat split; lra.
Qed.

(** ** sedov1d in spherical geometry *)
Lemma sedov1d_spherical gas rho0 u0 E0 E1 : valid_gas gas -> 0 < rho0 -> E0 <> 0 ->
  let K := plain_config Spherical 1 gas in
  let N := I3 4 1 1 in let X := unit_X 1 N 2 in
  ~ grid_independent (SSedov1d rho0 u0 E0 E1) K (pg_thermo gas) N X.
Proof.
  intros Hgas Hrho HE K N X [G HG].
  set (one := I3 1 1 1). set (two := I3 2 1 1).
  assert (HL1 : laid_out K N one X (the_layout K N one X)) by (apply unit_laid; [lia|dims3; vm_compute; congruence..]).
  assert (HL2 : laid_out K N two X (the_layout K N two X)) by (apply unit_laid; [lia|dims3; vm_compute; congruence..]).
  pose proof (start_P _ _ _ _ _ _ _ _ HL1 (HG one _ HL1 I) (I3 0 0 0) (I3 5 0 0)) as P1.
  pose proof (start_P _ _ _ _ _ _ _ _ HL2 (HG two _ HL2 I) (I3 1 0 0) (I3 3 0 0)) as P2.
  assert (R1 : process 1 one (I3 0 0 0)) by (dims3; vm_compute; split; congruence).
  assert (R2 : process 1 two (I3 1 0 0)) by (dims3; vm_compute; split; congruence).
  specialize (P1 R1 ltac:(dims3; vm_compute; split; congruence)).
  specialize (P2 R2 ltac:(dims3; vm_compute; split; congruence)).
  change (global_index (k_nd K) (k_ng K) _ (I3 5 0 0)) with (I3 3 0 0) in P1.
  change (global_index (k_nd K) (k_ng K) _ (I3 3 0 0)) with (I3 3 0 0) in P2.
  rewrite P1 in P2. clear P1.
  cbn [setup_cell] in P2. unfold k_sedov1d in P2. cbv zeta in P2. cbn [i_P ii] in P2.
  cbn [setup_env e_rank e_th pg_thermo th_pres_T th_temp_e] in P2.
  change (idx_eqb (I3 0 0 0) (I3 0 0 0) && (5 =? 2)%Z)%bool with false in P2.
  change (idx_eqb (I3 1 0 0) (I3 0 0 0) && (3 =? 2)%Z)%bool with false in P2. cbv iota in P2.
  rewrite !pg_round in P2 by assumption.
  assert (V1 : e_dv (setup_env K (pg_thermo gas) N (the_layout K N one X) (I3 0 0 0)) (I3 2 0 0) = 4 * PI * 37 / 3).
  { unfold e_dv. cbn [setup_env e_geom e_nd e_mesh]. change (k_geom K) with Spherical. change (k_nd K) with 1%nat. cbn [dv sph_dv ii].
    unfold K, X. rewrite !(unit_mesh Spherical 1 gas N one (I3 0 0 0)) by (assumption || lia).
    change (coord 0 (corner_min (d_range (decs 1 N one 2 (I3 0 0 0))))) with 0%Z. cbn [Z.add]. simpl IZR. lra. }
  assert (V2 : e_dv (setup_env K (pg_thermo gas) N (the_layout K N two X) (I3 1 0 0)) (I3 2 0 0) = 4 * PI * 91 / 3).
  { unfold e_dv. cbn [setup_env e_geom e_nd e_mesh]. change (k_geom K) with Spherical. change (k_nd K) with 1%nat. cbn [dv sph_dv ii].
    unfold K, X. rewrite !(unit_mesh Spherical 1 gas N two (I3 1 0 0)) by (assumption || lia).
    change (coord 0 (corner_min (d_range (decs 1 N two 2 (I3 1 0 0))))) with 2%Z. cbn [Z.add]. simpl IZR. lra. }
  rewrite V1, V2 in P2. destruct Hgas as [Hg _]. pose proof PI_RGT_0.
  apply Rmult_eq_reg_l in P2; [|lra]. unfold Rdiv in P2. apply Rmult_eq_reg_l in P2; [|exact HE].
  apply (f_equal Rinv) in P2. rewrite !Rinv_inv in P2. lra.
Qed.

(** ** sedov1d in two dimensions *)
Lemma sedov1d_plane gas rho0 u0 E0 E1 : valid_gas gas -> 0 < rho0 -> 1 / 2 * E1 <> E0 ->
  let K := plain_config Cartesian 2 gas in
  let N := I3 4 2 1 in let X := unit_X 2 N 2 in
  ~ grid_independent (SSedov1d rho0 u0 E0 E1) K (pg_thermo gas) N X.
Proof.
  intros Hgas Hrho HE K N X [G HG].
  set (one := I3 1 1 1). set (two := I3 1 2 1).
  assert (HL1 : laid_out K N one X (the_layout K N one X)) by (apply unit_laid; [lia|dims3; vm_compute; congruence..]).
  assert (HL2 : laid_out K N two X (the_layout K N two X)) by (apply unit_laid; [lia|dims3; vm_compute; congruence..]).
  pose proof (start_P _ _ _ _ _ _ _ _ HL1 (HG one _ HL1 I) (I3 0 0 0) (I3 2 3 0)) as P1.
  pose proof (start_P _ _ _ _ _ _ _ _ HL2 (HG two _ HL2 I) (I3 0 1 0) (I3 2 2 0)) as P2.
  assert (R1 : process 2 one (I3 0 0 0)) by (dims3; vm_compute; split; congruence).
  assert (R2 : process 2 two (I3 0 1 0)) by (dims3; vm_compute; split; congruence).
  specialize (P1 R1 ltac:(dims3; vm_compute; split; congruence)).
  specialize (P2 R2 ltac:(dims3; vm_compute; split; congruence)).
  change (global_index (k_nd K) (k_ng K) _ (I3 2 3 0)) with (I3 0 1 0) in P1.
  change (global_index (k_nd K) (k_ng K) _ (I3 2 2 0)) with (I3 0 1 0) in P2.
  rewrite P1 in P2. clear P1.
  cbn [setup_cell] in P2. unfold k_sedov1d in P2. cbv zeta in P2. cbn [i_P ii] in P2.
  cbn [setup_env e_rank e_th e_geom pg_thermo th_pres_T th_temp_e] in P2.
  change (k_geom K) with Cartesian in P2.
  change (idx_eqb (I3 0 0 0) (I3 0 0 0) && (2 =? 2)%Z)%bool with true in P2.
  change (idx_eqb (I3 0 1 0) (I3 0 0 0) && (2 =? 2)%Z)%bool with false in P2. cbv iota in P2.
  rewrite !pg_round in P2 by assumption.
  assert (V1 : e_dv (setup_env K (pg_thermo gas) N (the_layout K N one X) (I3 0 0 0)) (I3 2 0 0) = 1).
  { unfold e_dv. cbn [setup_env e_geom e_nd e_mesh]. change (k_geom K) with Cartesian. cbn [dv]. unfold cart_dv, mdx. cbn [ii jj kk].
    unfold K, X. rewrite !(unit_mesh Cartesian 2 gas N one (I3 0 0 0)) by (assumption || lia).
    rewrite <- !minus_IZR, <- !mult_IZR. apply (f_equal IZR). vm_compute. reflexivity. }
  assert (V2 : e_dv (setup_env K (pg_thermo gas) N (the_layout K N two X) (I3 0 1 0)) (I3 2 0 0) = 1).
  { unfold e_dv. cbn [setup_env e_geom e_nd e_mesh]. change (k_geom K) with Cartesian. cbn [dv]. unfold cart_dv, mdx. cbn [ii jj kk].
    unfold K, X. rewrite !(unit_mesh Cartesian 2 gas N two (I3 0 1 0)) by (assumption || lia).
    rewrite <- !minus_IZR, <- !mult_IZR. apply (f_equal IZR). vm_compute. reflexivity. }
  rewrite V1, V2 in P2. destruct Hgas as [Hg _].
  apply Rmult_eq_reg_l in P2; [|lra]. apply HE. lra.
Qed.

(** ** sedov3d: the hot cell is found by local indices. *)
Definition shell_X (N : idx) : nat -> arr1 := fun d =>
  mkArr1 (coord d N + 2 * (if Nat.ltb d 3 then 2 else 0) + 1) (fun i => match d with O => IZR (i + 1) / 3 | _ => IZR (i + 1) / 10 end).

Lemma sedov3d_grid gas rho0 P0 : valid_gas gas -> 0 < rho0 ->
  let K := plain_config Spherical 3 gas in
  let N := I3 4 4 4 in
  exists E1, 0 < E1 /\ ~ grid_independent (SSedov3d rho0 P0 E1) K (pg_thermo gas) N (shell_X N).
Proof.
  intros Hgas Hrho K N. set (X := shell_X N).
  set (one := I3 1 1 1). set (two := I3 1 2 1).
  assert (HX : global_coords 3 N 2 X) by (intros d Hd; reflexivity).
  assert (HL1 : laid_out K N one X (the_layout K N one X)) by (apply the_layout_ok; [cbn; lia|cbn; lia|dims3; vm_compute; congruence..|exact HX]).
  assert (HL2 : laid_out K N two X (the_layout K N two X)) by (apply the_layout_ok; [cbn; lia|cbn; lia|dims3; vm_compute; congruence..|exact HX]).
  assert (R1 : process 3 one (I3 0 0 0)) by (dims3; vm_compute; split; congruence).
  assert (R2 : process 3 two (I3 0 1 0)) by (dims3; vm_compute; split; congruence).
  set (v := e_dv (setup_env K (pg_thermo gas) N (the_layout K N two X) (I3 0 1 0)) (I3 2 2 2)).
  assert (Hv : 0 < v).
  { unfold v, e_dv. cbn [setup_env e_geom e_nd e_mesh]. change (k_geom K) with Spherical. change (k_nd K) with 3%nat.
    cbn [dv sph_dv]. unfold sph_dcos, mdx. cbn [ii jj kk].
    rewrite !(set_grid_at _ _ _ (lo_mesh HL2 R2)) by lia.
    change (coord 0 (corner_min (d_range (l_dec (the_layout K N two X) (I3 0 1 0))))) with 0%Z.
    change (coord 1 (corner_min (d_range (l_dec (the_layout K N two X) (I3 0 1 0))))) with 2%Z.
    change (coord 2 (corner_min (d_range (l_dec (the_layout K N two X) (I3 0 1 0))))) with 0%Z.
    cbn [Z.add X shell_X a_at]. simpl IZR.
    pose proof (cos_decreasing_1 (5 / 10) (6 / 10)) as Hc. pose proof PI2_3_2. pose proof PI2_1.
    specialize (Hc ltac:(lra) ltac:(lra) ltac:(lra) ltac:(lra) ltac:(lra)).
    set (c1 := cos _) in *. set (c2 := cos _) in *. clearbody c1 c2. nra. }
  assert (HE : exists E1, 0 < E1 /\ (pg_gamma gas - 1) * (E1 / v) <> P0).
  { destruct Hgas as [Hg _]. assert (0 < (pg_gamma gas - 1) * (1 / v)) by (apply Rmult_lt_0_compat; [lra|apply Rdiv_lt_0_compat; lra]).
    destruct (Req_dec ((pg_gamma gas - 1) * (1 / v)) P0) as [E|E]; [exists 2|exists 1]; (split; [lra|]); [|exact E].
    unfold Rdiv in *. lra. }
  destruct HE as (E1 & HE1 & HE). exists E1. split; [exact HE1|]. intros [G HG].
  pose proof (start_P _ _ _ _ _ _ _ _ HL1 (HG one _ HL1 I) (I3 0 0 0) (I3 2 4 2)) as P1.
  pose proof (start_P _ _ _ _ _ _ _ _ HL2 (HG two _ HL2 I) (I3 0 1 0) (I3 2 2 2)) as P2.
  specialize (P1 R1 ltac:(dims3; vm_compute; split; congruence)).
  specialize (P2 R2 ltac:(dims3; vm_compute; split; congruence)).
  change (global_index (k_nd K) (k_ng K) _ (I3 2 4 2)) with (I3 0 2 0) in P1.
  change (global_index (k_nd K) (k_ng K) _ (I3 2 2 2)) with (I3 0 2 0) in P2.
  rewrite P1 in P2. clear P1.
  cbn [setup_cell] in P2. unfold k_sedov3d in P2. cbv zeta in P2. cbn [i_P ii jj kk] in P2.
  cbn [setup_env e_mesh e_nglob e_th pg_thermo th_pres_e] in P2.
  change (4 =? jj N ÷ 2)%Z with false in P2. change (2 =? jj N ÷ 2)%Z with true in P2.
  change (2 =? kk N ÷ 2)%Z with true in P2. rewrite !andb_true_r, andb_false_r in P2.
  replace (reqb (l_mesh (the_layout K N two X) (I3 0 1 0) 0%nat 2%Z) 1) with true in P2.
  2:{ rewrite (set_grid_at _ _ _ (lo_mesh HL2 R2)) by lia. unfold reqb. destruct (Req_EM_T _ _) as [E|E]; [reflexivity|].
      exfalso. apply E. change (coord 0 (corner_min (d_range (l_dec (the_layout K N two X) (I3 0 1 0))))) with 0%Z.
      cbn [Z.add X shell_X a_at]. simpl IZR. lra. }
  fold v in P2. unfold pg_pres_from_evol in P2. rewrite pg_round in P2 by assumption. now apply HE.
Qed.
