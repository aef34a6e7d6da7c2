(** * Whole runs that start from a setup (C78, C83). *)
From Coq Require Import ZifyBool ZifyNat.
From Verif Require Import Base RBase ModelMesh ModelGeom ModelBoundary ModelHydro ModelRad ModelScheme ModelStep ModelMain ModelSetup
  SpecMesh SpecGeom SpecBoundary SpecHydro SpecScheme SpecStep SpecPos SpecAdvect SpecSetup
  ProofBase ProofMesh ProofR ProofBoundary ProofHydro ProofShift ProofStep ProofLayout
  ProofStepEx ProofAdvect2 ProofAdvectEx ProofPosEx ProofSetup ProofSetupEq ProofSetupPos.
Local Open Scope R_scope.

(** Only the cells of the mesh matter. *)
Definition in_mesh (N c : idx) : Prop := forall d, (d < 3)%nat -> (0 <= coord d c < coord d N)%Z.
Lemma owned_in_mesh K N dims X L r c : laid_out K N dims X L -> process (k_nd K) dims r -> owned (k_nd K) (k_ng K) (d_nloc (l_dec L r)) c ->
  in_mesh N (global_index (k_nd K) (k_ng K) (corner_min (d_range (l_dec L r))) c).
Proof.
  intros HL Hr Hc d Hd. pose proof (lo_dec HL) as HD. rewrite gi_coord by exact Hd. pose proof (Hc d Hd) as C. pose proof (Hr d Hd) as R.
  rewrite (dec_nloc _ _ _ _ _ HD r d Hr Hd) in C. rewrite (dec_cmin _ _ _ _ _ HD r d Hr Hd).
  pose proof (cm_max _ _ _ _ _ HD d (coord d r) Hd ltac:(lia)). pose proof (cm_nonneg _ _ _ _ _ HD d (coord d r) Hd ltac:(lia)). lia.
Qed.
Definition in_meshb (N c : idx) : bool := in_boxb (I3 0 0 0) N c.
Lemma in_meshb_spec N c : in_meshb N c = true <-> in_mesh N c.
Proof.
  unfold in_meshb. rewrite in_boxb_spec, in_box_coord. split; intros H d Hd; specialize (H d Hd);
    destruct d as [|[|[|d]]]; try lia; exact H.
Qed.
(** The fields inside the mesh, continued by those of [H]. *)
Definition clip (N : idx) (G H : gfields) : gfields :=
  mkG (fun c => if in_meshb N c then g_rho G c else g_rho H c) (fun c => if in_meshb N c then g_u G c else g_u H c)
      (fun c => if in_meshb N c then g_P G c else g_P H c) (fun c => if in_meshb N c then g_fx G c else g_fx H c).
Lemma clip_starts K N dims X L G H S : laid_out K N dims X L -> starts_from K dims L G S -> starts_from K dims L (clip N G H) S.
Proof.
  intros HL [A B C D].
  assert (E : forall r c, process (k_nd K) dims r -> owned (k_nd K) (k_ng K) (d_nloc (l_dec L r)) c ->
     in_meshb N (global_index (k_nd K) (k_ng K) (corner_min (d_range (l_dec L r))) c) = true).
  { intros r c Hr Hc. apply in_meshb_spec. eapply owned_in_mesh; eassumption. }
  split; intros r Hr c Hc; cbn [clip g_rho g_u g_P g_fx]; rewrite (E r c Hr Hc); [apply A|apply B|apply C|apply D]; assumption.
Qed.

(** ** C78: the runs themselves *)
Lemma setup_runs s K th N dims X L L1 : positional s -> runs_on K N dims X L -> laid_out K N one_process X L1 ->
  (forall ts, same_results K dims L (run K L ts (init_state K L (setup_state s K th N L))) (run K L1 ts (init_state K L1 (setup_state s K th N L1)))) /\
  (forall cfl n t, let end_ := run_cfl K L cfl n t (init_state K L (setup_state s K th N L)) in
     let end1 := run_cfl K L1 cfl n t (init_state K L1 (setup_state s K th N L1)) in
     fst end_ = fst end1 /\ same_results K dims L (snd end_) (snd end1)).
Proof.
  intros Hs HR HL1.
  pose proof (setup_starts K N dims X L th (ro_layout HR) s Hs) as H1. pose proof (setup_starts K N one_process X L1 th HL1 s Hs) as H2.
  split; [intros ts; exact (same_results_run K N dims X L HR L1 _ _ _ ts HL1 H1 H2)|].
  intros cfl n t. exact (same_results_cfl K N dims X L HR L1 _ _ _ cfl n t HL1 H1 H2).
Qed.

(** ** C83: positive runs *)
Definition rest_fields : gfields := mkG (fun _ => 1) (fun _ _ => 0) (fun _ => 1) (fun _ _ => 0).

Lemma setup_fields_positive s K th N X : positional s -> sound_thermo th -> positive_parameters s -> k_geom K = Cartesian ->
  weightless K -> (0 <= k_ng K)%Z -> increasing (k_nd K) N (k_ng K) X -> (forall a b c d e f g, s <> SRayleighTaylor3d a b c d e f g) ->
  forall c, in_mesh N c -> 0 < g_rho (global_fields s K th N X) c /\ 0 < g_P (global_fields s K th N X) c.
Proof.
  intros Hs Hth Hp Hg [g [Hgr Hg0]] Hng HX H3 c Hc. cbn [global_fields g_rho g_P].
  assert (Hmesh : forall d, (d < 3)%nat -> 0 < e_mesh (global_env K th N X) d (coord d c + 1)%Z - e_mesh (global_env K th N X) d (coord d c)).
  { intros d Hd. cbn [global_env e_mesh]. specialize (HX d (coord d c + ghosts (k_nd K) (k_ng K) d)%Z Hd). specialize (Hc d Hd).
    replace (coord d c + 1 + ghosts (k_nd K) (k_ng K) d)%Z with (coord d c + ghosts (k_nd K) (k_ng K) d + 1)%Z by lia.
    unfold ghosts in *. destruct (Nat.ltb d (k_nd K)); lapply HX; try lra; lia. }
  apply setup_positive; [exact Hth|exact Hp| |  |left; exact Hs].
  - assert (Eg : forall d, e_grav (global_env K th N X) c d = 0).
    { intros d. cbn [global_env e_grav]. unfold start_gravity. rewrite Hgr. apply Hg0. }
    destruct s; cbn [height_ok]; try exact I; [|exfalso; eapply H3; reflexivity]. rewrite Eg, Rabs_R0. lra.
  - unfold e_dv. cbn [global_env e_geom]. rewrite Hg. unfold dv, cart_dv, mdx.
    pose proof (Hmesh 0%nat ltac:(lia)) as A. pose proof (Hmesh 1%nat ltac:(lia)) as B. pose proof (Hmesh 2%nat ltac:(lia)) as C.
    cbn [coord global_env e_mesh] in A, B, C |- *. apply Rmult_lt_0_compat; [apply Rmult_lt_0_compat|]; assumption.
Qed.

(** A run of the whole program from the setup: initialisation, loop, outputs. *)
Lemma setup_run_positive s K gas N dims X L q cfl p clock n m v : positional s -> valid_gas gas -> positive_parameters s ->
  (forall a b c d e f g, s <> SRayleighTaylor3d a b c d e f g) ->
  runs_on K N dims X L -> k_eos K = pg_eos gas -> first_order K ->
  increasing (k_nd K) N (k_ng K) X -> graded (k_nd K) N (k_ng K) X q -> cfl_allowed K q cfl -> p_t_ini p < p_t_end p ->
  loop (hydro K L cfl) p clock n (fresh p (init_state K L (setup_state s K (pg_thermo gas) N L))) = (m, v) ->
  physical K dims L (m_st m) /\ (forall f, In f (m_files m) -> physical K dims L (fl_data f)) /\
  v <> Failed "detected invalid volumic internal energy".
Proof.
  intros Hs Hgas Hp H3 HR He HF HX Hq Hc Ht Hrun.
  pose proof (clip_starts K N dims X L _ rest_fields _ (ro_layout HR) (setup_starts K N dims X L (pg_thermo gas) (ro_layout HR) s Hs)) as HS.
  assert (HE : lawful_eos (k_eos K) /\ robust_eos (k_eos K)).
  { rewrite He. destruct gas as [ga mu]. destruct Hgas as [G1 G2]. cbn in G1, G2.
    apply (accepted_gas (XR ga) (XR mu)). unfold make_perfect_gas. cbn [xfinite negb orb xleb].
    unfold rleb. destruct (Rle_dec ga 1); [lra|]. destruct (Rle_dec mu 0); [lra|]. reflexivity. }
  apply (positive_loop K N dims X L q cfl HR (proj1 HE) (proj2 HE) HF HX Hq Hc _ _ p clock n m v HS); [|exact Ht|exact Hrun].
  intros c. cbn [clip g_rho g_P]. destruct (in_meshb N c) eqn:E; [|cbn; lra].
  apply (setup_fields_positive s K (pg_thermo gas) N X); try assumption.
  - now apply pg_sound_thermo.
  - apply (fo_geom HF).
  - apply (fo_grav HF).
  - pose proof (ro_ng HR). lia.
  - now apply in_meshb_spec.
Qed.

(** ** C83: the advection tests keep their bounds *)
Lemma advection_fields s K th N X u0 P0 lo hi : advection s u0 P0 lo hi -> 0 < lo ->
  positional s /\ carried_fields (diagonal (k_nd K) u0) P0 (global_fields s K th N X) /\
  (forall c, lo <= g_rho (global_fields s K th N X) c <= hi).
Proof.
  intros Ha Hlo. destruct s; try (destruct Ha; fail); (split; [exact I|]).
  - destruct Ha as (-> & -> & A & B).
    assert (H : forall c, lo <= g_rho (global_fields (SAdvectionGap rho0 rho1 u0 P0) K th N X) c <= hi).
    { intros c. cbn [global_fields g_rho setup_cell]. unfold k_advection_gap. cbv zeta. cbn [i_rho]. destruct (_ || _)%bool; assumption. }
    split; [|exact H]. intros c. split; [specialize (H c); lra|]. split; [intros k; reflexivity|reflexivity].
  - destruct Ha as (-> & -> & A & B).
    assert (H : forall c, lo <= g_rho (global_fields (SAdvectionSinus u0 P0) K th N X) c <= hi).
    { intros c. cbn [global_fields g_rho]. pose proof (sinus_bounds (global_env K th N X) c old_cell u0 P0). lra. }
    split; [|exact H]. intros c. split; [specialize (H c); lra|]. split; [intros k; reflexivity|reflexivity].
Qed.

Lemma advection_runs s K th N dims X L u0 P0 lo hi nu h : advection s u0 P0 lo hi -> 0 < lo -> 0 < P0 ->
  runs_on K N dims X L -> lawful_eos (k_eos K) -> energy_of_pressure (k_eos K) -> plain_flow K (diagonal (k_nd K) u0) ->
  increasing (k_nd K) N (k_ng K) X -> contact_solver (k_sol K) -> 0 < nu <= 1 ->
  (k_lim K = LConstant \/ k_nd K = 1%nat /\ regular_axis N (k_ng K) X h /\ safe_limiter (k_lim K) nu lo hi) ->
  forall n t, let S' := snd (run_cfl K L nu n t (init_state K L (setup_state s K th N L))) in
  carried K dims L (diagonal (k_nd K) u0) P0 S' /\ density_within K dims L lo hi S'.
Proof.
  intros Ha Hlo HP HR HE HEP HF HX HC Hnu Hcase n t.
  destruct (advection_fields s K th N X u0 P0 lo hi Ha Hlo) as (Hs & HG & HB).
  pose proof (setup_starts K N dims X L th (ro_layout HR) s Hs) as HS.
  destruct Hcase as [Hl|(H1 & H2 & H3)].
  - exact (proj2 (first_all K N dims X L _ P0 lo hi nu HR HE HEP HP HF HX HC Hlo (proj2 Hnu) Hl _ _ HS HG HB) n t (proj1 Hnu)).
  - exact (proj2 (limited_all K N dims X L _ P0 lo hi nu h HR HE HEP HP HF HX HC Hlo (proj2 Hnu) H1 H2 H3 _ _ HS HG HB) n t (proj1 Hnu)).
Qed.
