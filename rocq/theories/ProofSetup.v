(** * Initial conditions of the setups: independence of the process grid, ghost states (C78, C80). *)
From Coq Require Import ZifyBool ZifyNat.
From Verif Require Import Base RBase ModelMesh ModelGeom ModelBoundary ModelHydro ModelRad ModelScheme ModelStep ModelSetup
  SpecMesh SpecGeom SpecBoundary SpecHydro SpecScheme SpecStep SpecSetup
  ProofBase ProofMesh ProofGeom ProofBoundary ProofBoundary2 ProofHydro ProofShift ProofStep ProofLayout.
Local Open Scope R_scope.

(** Two processes see the same coordinates and gravity around a cell. *)
Record same_view (e e' : senv) (c c' : idx) : Prop := {
  sv_geom : e_geom e = e_geom e';
  sv_nd : e_nd e = e_nd e';
  sv_th : e_th e = e_th e';
  sv_lo : forall d, (d < 3)%nat -> e_mesh e d (coord d c) = e_mesh e' d (coord d c');
  sv_hi : forall d, (d < 3)%nat -> e_mesh e d (coord d c + 1)%Z = e_mesh e' d (coord d c' + 1)%Z;
  sv_grav : forall d, e_grav e c d = e_grav e' c' d }.

Lemma view_dv e e' c c' : same_view e e' c c' -> e_dv e c = e_dv e' c'.
Proof.
  intros [H1 H2 _ H4 H5 _]. unfold e_dv, dv. rewrite <- H1, <- H2.
  pose proof (H4 0%nat ltac:(lia)) as A0. pose proof (H4 1%nat ltac:(lia)) as A1. pose proof (H4 2%nat ltac:(lia)) as A2.
  pose proof (H5 0%nat ltac:(lia)) as B0. pose proof (H5 1%nat ltac:(lia)) as B1. pose proof (H5 2%nat ltac:(lia)) as B2.
  cbn [coord] in *.
  destruct (e_geom e); unfold cart_dv, sph_dv, sph_dcos, mdx; [|destruct (e_nd e) as [|[|[|[|n]]]]];
    rewrite ?A0, ?A1, ?A2, ?B0, ?B1, ?B2; reflexivity.
Qed.

Lemma view_mxc e e' c c' d : (d < 3)%nat -> same_view e e' c c' -> mxc (e_mesh e) d (coord d c) = mxc (e_mesh e') d (coord d c').
Proof. intros Hd [_ _ _ H4 H5 _]. unfold mxc. now rewrite H4, H5. Qed.

Lemma setup_cell_view s e e' c c' o : positional s -> same_view e e' c c' ->
  setup_cell s e c o = setup_cell s e' c' o.
Proof.
  intros Hs Hv.
  pose proof (view_mxc e e' c c' 0 ltac:(lia) Hv) as M0. pose proof (view_mxc e e' c c' 1 ltac:(lia) Hv) as M1.
  pose proof (sv_lo _ _ _ _ Hv 0%nat ltac:(lia)) as A0. pose proof (sv_lo _ _ _ _ Hv 1%nat ltac:(lia)) as A1.
  pose proof (sv_lo _ _ _ _ Hv 2%nat ltac:(lia)) as A2.
  pose proof (view_dv _ _ _ _ Hv) as Ev.
  cbn [coord] in *.
  pose proof (sv_nd _ _ _ _ Hv) as En. pose proof (sv_th _ _ _ _ Hv) as Et. pose proof (sv_grav _ _ _ _ Hv) as Eg.
  destruct s; try (destruct Hs; fail); cbn [setup_cell];
    unfold k_advection_gap, k_advection_sinus, k_eq_hydro, k_gresho, k_heat_nickel, k_implosion, k_kelvin_helmholtz,
      k_rayleigh_taylor, k_rayleigh_taylor3d, k_sedov2d, k_shock_tube, k_shock_wall, k_stratified; cbv zeta;
    rewrite ?M0, ?M1, ?A0, ?A1, ?A2, ?Ev, ?En, ?Et, ?Eg; reflexivity.
Qed.

(** The gravity of the empty domain: internal mass and point mass coincide. *)
Lemma empty_mean K L r i : shell_mean K L (fun _ _ => zero_cell) r i = 0.
Proof.
  unfold shell_mean. cbv zeta.
  replace (shell_sum K L (fun r' c => c_rho zero_cell * dv (k_geom K) (k_nd K) (l_mesh L r') c) r i) with 0;
    [unfold Rdiv; apply Rmult_0_l|].
  unfold shell_sum. symmetry.
  induction (horizontal_ranks (l_dims L) r) as [|a l IH]; cbn [lsum]; [reflexivity|]. rewrite IH, Rplus_0_r.
  induction (shell_cells _ _ _) as [|b l' IH']; cbn [lsum]; [reflexivity|]. rewrite IH'. cbn [c_rho zero_cell]. ring.
Qed.
Lemma empty_enclosed m M g0 rm n : (forall i, rm i = 0) -> enclosed_mass m M g0 rm n = M.
Proof. intros H. induction n as [|n IH]; cbn [enclosed_mass]; rewrite ?IH, !H; ring. Qed.
Lemma empty_mass m M g0 rm i : (forall i, rm i = 0) -> mass_r m M g0 rm i = M.
Proof. intros H. unfold mass_r. destruct (i <? g0)%Z; [reflexivity|]. now apply empty_enclosed. Qed.

(** Gravity at the initialisation as a function of the radius of the cell centre. *)
Definition start_gravity (k : grav_kind) (x : R) (d : nat) : R :=
  match k with
  | GUniform g => g d
  | GPointMass M | GInternalMass M => match d with O => - Ggrav * M / (x * x) | _ => 0 end
  end.
Lemma start_gravity_eq K L r c d :
  gravity_values K L (fun _ _ => zero_cell) r c d = start_gravity (k_grav K) (mxc (l_mesh L r) 0 (ii c)) d.
Proof.
  unfold gravity_values, start_gravity. destruct (k_grav K); [reflexivity| |]; unfold radial_gravity; destruct d; try reflexivity.
  rewrite empty_mass; [reflexivity|]. intros i. apply empty_mean.
Qed.

(** The view of a process that owns the whole mesh, cells numbered without ghosts. *)
Definition global_env (K : config) (th : thermo) (N : idx) (X : nat -> arr1) : senv :=
  let m := fun d i => a_at (X d) (i + ghosts (k_nd K) (k_ng K) d)%Z in
  mkEnv (k_geom K) (k_nd K) th m (I3 0 0 0) N (fun c d => start_gravity (k_grav K) (mxc m 0 (ii c)) d).

Definition global_fields (s : setup) (K : config) (th : thermo) (N : idx) (X : nat -> arr1) : gfields :=
  let f c := setup_cell s (global_env K th N X) c old_cell in
  mkG (fun c => i_rho (f c)) (fun c => i_u (f c)) (fun c => i_P (f c)) (fun c => i_fx (f c)).

Section Layout.
Variables (K : config) (N dims : idx) (X : nat -> arr1) (L : layout) (th : thermo).
Hypothesis HL : laid_out K N dims X L.

Lemma gi_coord r c d : (d < 3)%nat ->
  coord d (global_index (k_nd K) (k_ng K) (corner_min (d_range (l_dec L r))) c)
  = (coord d (corner_min (d_range (l_dec L r))) + coord d c - ghosts (k_nd K) (k_ng K) d)%Z.
Proof. intros Hd. unfold global_index. destruct d as [|[|[|d]]]; try lia; reflexivity. Qed.

Lemma local_view r c : process (k_nd K) dims r ->
  same_view (setup_env K th N L r) (global_env K th N X) c
    (global_index (k_nd K) (k_ng K) (corner_min (d_range (l_dec L r))) c).
Proof.
  intros Hr. set (gi := global_index _ _ _ c).
  assert (Hx : forall d k, (d < 3)%nat -> l_mesh L r d (coord d c + k)%Z = a_at (X d) (coord d gi + k + ghosts (k_nd K) (k_ng K) d)%Z).
  { intros d k Hd. rewrite (set_grid_at _ _ _ (lo_mesh HL Hr)) by exact Hd. f_equal. unfold gi. rewrite gi_coord by exact Hd. lia. }
  assert (Hx0 : forall d, (d < 3)%nat -> l_mesh L r d (coord d c) = a_at (X d) (coord d gi + ghosts (k_nd K) (k_ng K) d)%Z).
  { intros d Hd. specialize (Hx d 0%Z Hd). rewrite !Z.add_0_r in Hx. exact Hx. }
  split; try reflexivity; cbn [setup_env global_env e_mesh e_grav].
  - exact Hx0.
  - intros d Hd. now apply Hx.
  - intros d. rewrite start_gravity_eq. f_equal. unfold mxc.
    pose proof (Hx0 0%nat ltac:(lia)) as A. pose proof (Hx 0%nat 1%Z ltac:(lia)) as B. cbn [coord] in A, B. now rewrite A, B.
Qed.

Lemma setup_fields_owned s r c : process (k_nd K) dims r -> owned (k_nd K) (k_ng K) (d_nloc (l_dec L r)) c ->
  setup_fields s K th N L r c = setup_cell s (setup_env K th N L r) c old_cell.
Proof.
  intros Hr Hc. unfold setup_fields, kwrite. now rewrite (proj2 (sel_owned _ _ _ _ _ _ _ HL Hr) Hc).
Qed.

Lemma setup_starts s : positional s -> starts_from K dims L (global_fields s K th N X) (setup_state s K th N L).
Proof.
  intros Hs.
  assert (H : forall r, process (k_nd K) dims r -> forall c, owned (k_nd K) (k_ng K) (d_nloc (l_dec L r)) c ->
    setup_fields s K th N L r c = setup_cell s (global_env K th N X) (global_index (k_nd K) (k_ng K) (corner_min (d_range (l_dec L r))) c) old_cell).
  { intros r Hr c Hc. rewrite (setup_fields_owned s r c Hr Hc). apply setup_cell_view; [exact Hs|]. now apply local_view. }
  split; intros r Hr c Hc; cbn [setup_state s_cell s_u s_P c_rho c_fx global_fields g_rho g_u g_P g_fx]; now rewrite (H r Hr c Hc).
Qed.
End Layout.

Lemma positional_independent s K th N X : positional s -> grid_independent s K th N X.
Proof. intros Hs. exists (global_fields s K th N X). intros dims L HL _. now apply setup_starts. Qed.

(** ** sedov1d on a regular Cartesian line *)
Lemma first_nonempty n p : (1 <= n)%Z -> (1 <= p)%Z -> (1 <= decomp_nloc n p 0)%Z.
Proof.
  intros Hn Hp. unfold decomp_nloc. cbv zeta. rewrite Z.quot_div_nonneg, Z.rem_mod_nonneg by lia.
  pose proof (Z.div_mod n p ltac:(lia)). pose proof (Z.mod_pos_bound n p ltac:(lia)).
  destruct (Z.ltb_spec 0 (n mod p)); [pose proof (Z.div_pos n p); lia|].
  destruct (Z.eq_dec (n / p) 0) as [E|E]; [rewrite E in *; lia|pose proof (Z.div_pos n p); lia].
Qed.

Definition sedov_line (rho0 u0 E0 E1 : R) (th : thermo) (v : R) : gfields :=
  mkG (fun _ => rho0) (fun _ => all_u 1 u0 (fun _ => 0))
    (fun c => th_pres_T th rho0 (th_temp_e th rho0 ((if (ii c =? 0)%Z then 1 / 2 * E1 else E0) / v))) (fun _ _ => 0).

Section Line.
Variables (K : config) (N dims : idx) (X : nat -> arr1) (L : layout) (th : thermo) (h : R).
Hypothesis HL : laid_out K N dims X L.
Hypothesis Hg : k_geom K = Cartesian.
Hypothesis Hn : k_nd K = 1%nat.
Hypothesis Hng : k_ng K = 2%Z.
Hypothesis Hreg : forall i, (0 <= i < coord 0 N + 2 * k_ng K)%Z -> a_at (X 0%nat) (i + 1)%Z - a_at (X 0%nat) i = h.
Let HD := lo_dec HL.
Definition line_volume : R := h * (a_at (X 1%nat) 1%Z - a_at (X 1%nat) 0%Z) * (a_at (X 2%nat) 1%Z - a_at (X 2%nat) 0%Z).

Lemma line_rank r d : process (k_nd K) dims r -> (d < 3)%nat -> (1 <= d)%nat -> coord d r = 0%Z.
Proof.
  intros Hr Hd Hd1. pose proof (Hr d Hd) as Hrd. rewrite Hn in Hrd. rewrite mpi_dims_coord in Hrd by exact Hd.
  destruct (Nat.ltb_spec d 1); lia.
Qed.
Lemma line_cmin r d : process (k_nd K) dims r -> (d < 3)%nat -> (1 <= d)%nat -> coord d (corner_min (d_range (l_dec L r))) = 0%Z.
Proof.
  intros Hr Hd Hd1. rewrite (dec_cmin _ _ _ _ _ HD r d Hr Hd), (line_rank r d Hr Hd Hd1). now apply (cm_0 _ _ _ _ _ HD).
Qed.
Lemma line_dv r i : process (k_nd K) dims r -> (0 <= i < coord 0 (d_nloc (l_dec L r)) + 4)%Z ->
  e_dv (setup_env K th N L r) (I3 i 0 0) = line_volume.
Proof.
  intros Hr Hi. unfold e_dv, line_volume. cbn [setup_env e_geom e_nd e_mesh]. rewrite Hg. unfold dv, cart_dv, mdx. cbn [ii jj kk].
  rewrite !(set_grid_at _ _ _ (lo_mesh HL Hr)) by lia. rewrite (line_cmin r 1%nat), (line_cmin r 2%nat) by (assumption || lia).
  rewrite Z.add_assoc. rewrite Hreg; [reflexivity|]. rewrite Hng.
  rewrite (dec_nloc _ _ _ _ _ HD r 0%nat Hr) in Hi by lia. rewrite (dec_cmin _ _ _ _ _ HD r 0%nat Hr) by lia.
  pose proof (cm_max _ _ _ _ _ HD 0 (coord 0 r) ltac:(lia) ltac:(apply (Hr 0%nat); lia)).
  pose proof (cm_nonneg _ _ _ _ _ HD 0 (coord 0 r) ltac:(lia) ltac:(apply (Hr 0%nat); lia)). lia.
Qed.

(** The first cell of process 0 is the first of the mesh, and no other is. *)
Lemma line_first r c : process (k_nd K) dims r -> owned (k_nd K) (k_ng K) (d_nloc (l_dec L r)) c ->
  (idx_eqb r (I3 0 0 0) && (ii c =? 2)%Z)%bool
  = (ii (global_index (k_nd K) (k_ng K) (corner_min (d_range (l_dec L r))) c) =? 0)%Z.
Proof.
  intros Hr Hc. pose proof (Hr 0%nat ltac:(lia)) as R0. pose proof (Hc 0%nat ltac:(lia)) as C0.
  assert (Gh : ghosts (k_nd K) (k_ng K) 0 = 2%Z) by (rewrite Hn, Hng; reflexivity).
  rewrite Gh in C0.
  assert (Ei : ii (global_index (k_nd K) (k_ng K) (corner_min (d_range (l_dec L r))) c)
    = (coord 0 (corner_min (d_range (l_dec L r))) + coord 0 c - 2)%Z).
  { pose proof (gi_coord K L r c 0 ltac:(lia)) as E. rewrite Gh in E. exact E. }
  rewrite Ei, (dec_cmin _ _ _ _ _ HD r 0%nat Hr) by lia.
  pose proof (cm_nonneg _ _ _ _ _ HD 0 (coord 0 r) ltac:(lia) ltac:(lia)) as Hp.
  pose proof (line_rank r 1 Hr ltac:(lia) ltac:(lia)) as R1. pose proof (line_rank r 2 Hr ltac:(lia) ltac:(lia)) as R2.
  destruct (Z.eq_dec (coord 0 r) 0) as [E|E].
  - rewrite E, (cm_0 _ _ _ _ _ HD) by lia.
    replace (idx_eqb r (I3 0 0 0)) with true; [|symmetry; apply idx_eqb_spec; clear - E R1 R2; destruct r as [a b c0]; cbn in E, R1, R2; congruence].
    cbn [andb coord]. lia.
  - replace (idx_eqb r (I3 0 0 0)) with false; [|symmetry; apply not_true_is_false; rewrite idx_eqb_spec; intros ->; now apply E].
    cbn [andb].
    pose proof (cm_mono _ _ _ _ _ HD 0 1 (coord 0 r) ltac:(lia) ltac:(lia)) as Hm.
    pose proof (cm_succ _ _ _ _ _ HD 0 0 ltac:(lia)) as Hs. rewrite (cm_0 _ _ _ _ _ HD) in Hs by lia. cbn [Z.add] in Hs.
    pose proof (first_nonempty (coord 0 N) (coord 0 (mpi_dims (k_nd K) dims)) (dcp_n HD (d := 0%nat) ltac:(lia)) (dcp_dims HD (d := 0%nat) ltac:(lia))) as Hf.
    unfold nl in Hs. lia.
Qed.

Lemma sedov1d_line rho0 u0 E0 E1 :
  starts_from K dims L (sedov_line rho0 u0 E0 E1 th line_volume) (setup_state (SSedov1d rho0 u0 E0 E1) K th N L).
Proof.
  assert (H : forall r, process (k_nd K) dims r -> forall c, owned (k_nd K) (k_ng K) (d_nloc (l_dec L r)) c ->
    setup_fields (SSedov1d rho0 u0 E0 E1) K th N L r c
    = mkI rho0 (all_u 1 u0 (fun _ => 0))
        (g_P (sedov_line rho0 u0 E0 E1 th line_volume) (global_index (k_nd K) (k_ng K) (corner_min (d_range (l_dec L r))) c)) (fun _ => 0)).
  { intros r Hr c Hc. rewrite (setup_fields_owned K N dims X L th HL _ r c Hr Hc). cbn [setup_cell].
    unfold k_sedov1d. cbv zeta. pose proof (Hc 0%nat ltac:(lia)) as C0.
    rewrite line_dv; [|exact Hr|split; [lia|]].
    2:{ pose proof (ghosts_nonneg _ _ _ _ _ HD 0). lia. }
    cbn [setup_env e_geom e_nd e_th e_rank]. rewrite Hg, Hn. f_equal.
    cbn [g_P sedov_line]. f_equal. rewrite (line_first r c Hr Hc), Hn. now destruct (_ =? 0)%Z. }
  split; intros r Hr c Hc; cbn [setup_state s_cell s_u s_P c_rho c_fx sedov_line g_rho g_u g_fx]; now rewrite (H r Hr c Hc).
Qed.
End Line.

Lemma sedov1d_regular rho0 u0 E0 E1 K th N X h : k_geom K = Cartesian -> k_nd K = 1%nat -> k_ng K = 2%Z ->
  (forall i, (0 <= i < coord 0 N + 2 * k_ng K)%Z -> a_at (X 0%nat) (i + 1)%Z - a_at (X 0%nat) i = h) ->
  grid_independent (SSedov1d rho0 u0 E0 E1) K th N X.
Proof.
  intros Hg Hn Hng Hreg. eexists. intros dims L HL _. exact (sedov1d_line K N dims X L th h HL Hg Hn Hng Hreg rho0 u0 E0 E1).
Qed.

(** ** User-defined boundary conditions *)

Lemma ghost_cell s rho0 u0 T0 e ext ng d face a c : atmosphere s rho0 u0 T0 ->
  in_boxb (bc_begin ext ng d face) (bc_end ext ng d face) c = true ->
  user_condition s e ext ng d face a c
  = mkCell (i_rho (setup_cell s e c old_cell)) (all_u (e_nd e) (rho0 * u0) (c_rhou (a c)))
      (th_evol_T (e_th e) (i_rho (setup_cell s e c old_cell)) T0) (c_fx (a c)).
Proof. intros [->|[M ->]] H; unfold user_condition, kwrite; rewrite H; reflexivity. Qed.
