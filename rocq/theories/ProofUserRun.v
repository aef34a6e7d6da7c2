(** * Proofs for C101: from the parameter file to runs with boundary conditions of the setup. *)
From Coq Require Import List Ascii Reals Lra Lia ZifyBool.
From Coq Require String.
From Flocq Require Import Core.
From Verif Require Import Base RBase ModelMesh ModelGeom ModelBoundary ModelHydro ModelRad ModelScheme ModelStep ModelUtil ModelIni ModelMain ModelSetup ModelParam ModelUser ModelUserRun
  SpecMesh SpecGeom SpecBoundary SpecHydro SpecScheme SpecStep SpecPos SpecSetup SpecMain SpecIni SpecParam SpecUser SpecUserRun
  ProofBase ProofR ProofMesh ProofBoundary ProofBoundary2 ProofBcOrder ProofStep ProofLayout ProofStepEx ProofSetup ProofSetupRun ProofMain ProofRestart
  ProofParam ProofParamRun ProofParamRun2 ProofUser2 ProofUser3 ProofUser4.
Local Open Scope string_scope.
Local Open Scope Z_scope.
Local Open Scope list_scope.

Lemma runs_on_config K K' N dims X L : k_nd K' = k_nd K -> k_ng K' = k_ng K -> k_order K' = k_order K -> k_grav K' = k_grav K ->
  runs_on K N dims X L -> runs_on K' N dims X L.
Proof.
  intros E1 E2 E3 E4 [[D M C S] T G F W]. unfold gravity_ok in W. split; unfold gravity_ok; rewrite ?E1, ?E2, ?E3, ?E4; auto.
  split; rewrite ?E1, ?E2; auto.
Qed.

Section File.
Context (b : build) (T : list entry) (f : bytes) (p : param) (lo hi : nat -> R).
Context (bc : nat -> choice bcond) (g : gas) (lim : limiter) (sol : solver) (user : user_kind) (ak bk ck dk : R) (s : setup) (cfl : R) (P : params)
  (ps : list real_value).
Hypothesis Hf : file_with T f.
Hypothesis Hp : described T p.
Hypothesis Hc : own_chosen b T p bc g lim sol user.
Hypothesis Hd : described_setup T (b_setup b) ps.
Hypothesis Hso : forall b' r, b_setup b' = b_setup b -> r_setup r = ps -> setup_of b' r ak bk ck dk = Some s.
Hypothesis Hm : pm_shift_grid p <> "UserDefined".
Hypothesis Hi : implemented (b_geom b) s.
Hypothesis Ht : timing p cfl P.

Definition own_run (dec : decomp) : run :=
  mkRun p ps dec g (Some (Builtin RegularGrid)) (map bc (seq 0 (2 * b_nd b))) (map Some (seq 0 (2 * b_nd b))) lim sol (Builtin user)
    (String.eqb (pm_shift_grid p) "UserDefined") (String.eqb (pm_pressure_fix p) "On").
Lemma own_bcs_nth i x : (i < 2 * b_nd b)%nat -> nth i (map bc (seq 0 (2 * b_nd b))) x = bc i.
Proof. intros H. rewrite (nth_indep _ _ (bc 0%nat)) by (rewrite map_length, seq_length; exact H). now rewrite map_nth, seq_nth. Qed.
Lemma own_process_starts dims r : usable b p dims lo hi -> process (b_nd b) dims r ->
  startup b dims r (Some f) = Ok (own_run (decs (b_nd b) (extents p) dims (pm_ng p) r)).
Proof.
  intros Hu Hr. destruct Hc as [(ga & mu & Eg & Em & Lg & Lm & Hg) Hb Hl Hsl Hus].
  destruct (split_forall2 _ (fun w i => named bc_table w (bc i)) _ _ Hb) as (ws & W1 & W2).
  assert (W3 : Forall2 (named bc_table) ws (map bc (seq 0 (2 * b_nd b)))).
  { revert W2. generalize (seq 0 (2 * b_nd b)) as l. clear. induction ws as [|w ws IH]; intros l F; inversion F; subst; constructor; auto. }
  destruct (the_run_described b T f dims r p ps ga mu g (map bc (seq 0 (2 * b_nd b))) ws (Some (Builtin RegularGrid))
    (map Some (seq 0 (2 * b_nd b))) lim sol (Builtin user)) as (dec & Ed & E); try assumption.
  - exact (us_nd _ _ _ _ _ Hu).
  - exact (run_extents b dims p lo hi Hu).
  - exact (run_process b dims p lo hi Hu r Hr).
  - exact (us_grav _ _ _ _ _ Hu).
  - rewrite (us_new _ _ _ _ _ Hu), (us_grid _ _ _ _ _ Hu). exists (Builtin RegularGrid). split; [reflexivity|now left].
  - rewrite (us_order _ _ _ _ _ Hu). reflexivity.
  - pose proof (dcp_ok (run_decomposed b dims p lo hi Hu) Hr) as D.
    change (mpi_decomposition (b_nd b) (extents p) dims (pm_ng p) r = Ok dec) in Ed. rewrite Ed in D. injection D as D.
    rewrite E, D. reflexivity.
Qed.
Let dec0 := decs (b_nd b) (extents p) (I3 1 1 1) (pm_ng p) rank0.
Let K := config_of b (own_run dec0).
Let U := bounds_of s (own_run dec0).
Let L dims := layout_of b dims (program_runs b dims (Some f) (own_run (decs (b_nd b) (extents p) dims (pm_ng p) (I3 0 0 0)))).

Lemma own_file_runs dims : usable b p dims lo hi -> runs_on K (extents p) dims (coords_of b p) (L dims).
Proof.
  intros Hu. set (runs := fun r => the_run b p ps (fun _ => NullGradient) g lim sol user (decs (b_nd b) (extents p) dims (pm_ng p) r)).
  apply (runs_on_agree K _ dims _ (layout_of b dims runs)).
  - apply (runs_on_config (config_of b (runs rank0))); try reflexivity.
    exact (file_runs_on b dims p ps lo hi (fun _ => NullGradient) g lim sol user Hu).
  - reflexivity.
  - intros r Hr. unfold L, layout_of, program_runs. cbn [l_dec l_mesh]. rewrite (own_process_starts dims r Hu Hr). now split.
Qed.
Lemma own_run_composed dec : own_composed (own_run dec) = true.
Proof.
  unfold own_composed, own_run. cbn [r_param r_grid r_bcs r_user r_shift r_setup].
  pose proof (numbers_finite T p Hp) as F. pose proof (setup_finite T _ _ Hd) as F'. rewrite forallb_app, F, F'.
  destruct (String.eqb_spec (pm_shift_grid p) "UserDefined") as [E|_]; [contradiction|]. reflexivity.
Qed.
Lemma own_file_program dims clock n : usable b p dims lo hi ->
  own_program b dims (Some f) (ak, bk, ck, dk) clock n =
  if existsb (calls_bounds K (L dims) U) (ranks (mpi_dims (b_nd b) dims)) && negb (has_bounds s) then Throw "Boundary setup not implemented" else
  Ok (Some (loop (own_hydro K (extents p) (L dims) U cfl) P clock n (fresh P (own_init K (extents p) (L dims) U
    (setup_state s K (gas_thermo g) (extents p) (L dims)))))).
Proof.
  intros Hu. assert (H0 : process (b_nd b) dims (I3 0 0 0)) by exact (rank0_process (b_nd b) dims (us_dims _ _ _ _ _ Hu)).
  unfold own_program. rewrite (own_process_starts dims _ Hu H0). cbn [obind]. rewrite own_run_composed. cbn [negb].
  rewrite (Hso b (own_run _) eq_refl eq_refl). fold (L dims).
  set (r0 := own_run (decs (b_nd b) (extents p) dims (pm_ng p) (I3 0 0 0))).
  change (config_of b r0) with K. change (bounds_of s r0) with U. change (r_param r0) with p. change (r_gas r0) with g.
  assert (Ei : forall th N', initialise s K th N' (L dims) = Ok (setup_state s K th N' (L dims))).
  { intros th N'. unfold initialise, setup_check. change (k_geom K) with (b_geom b).
    destruct s; cbn [implemented] in Hi; try reflexivity; destruct (b_geom b); try reflexivity; now elim Hi. }
  rewrite Ei. cbn [obind]. destruct Ht as (T1 & T2 & T3 & T4 & T5 & T6 & T7).
  assert (EP : params_of r0 = P).
  { unfold params_of, r0, own_run. cbn [r_param]. rewrite T2, T3, T6, T7, <- T4, <- T5. now destruct P. }
  rewrite EP, T1. reflexivity.
Qed.
Lemma own_order : k_order K = seq 0 (2 * b_nd b).
Proof. cbn [K config_of k_order own_run r_order]. now rewrite applied_order_some. Qed.
Lemma own_face_iff i : (i < 2 * b_nd b)%nat -> ob_face U i = match bc i with FromSetup => true | Builtin _ => false end.
Proof. intros H. cbn [U bounds_of ob_face]. unfold own_faces. cbn [own_run r_bcs]. now rewrite own_bcs_nth. Qed.

Lemma own_file_executed dims : usable b p dims lo hi -> (wants_own (b_nd b) bc -> offers_own s) ->
  own_executes b f p lo hi bc g lim sol user (ak, bk, ck, dk) s cfl P (coords_of b p) K U dims (L dims).
Proof.
  intros Hu Hown. split; try reflexivity.
  - intros r Hr. eexists. split; [exact (own_process_starts dims r Hu Hr)|]. now split.
  - exact Hu.
  - exact (oc_gas _ _ _ _ _ _ _ _ Hc).
  - change (k_pf K) with (if String.eqb (pm_pressure_fix p) "On" then Some (value_of (pm_eps_pf p)) else None).
    destruct (String.eqb_spec (pm_pressure_fix p) "On") as [E|E]; [|reflexivity].
    destruct (real_finite _ _ _ _ _ (g_eps_pf _ _ Hp)) as (eps & Ee). exists eps. split; [exact Ee|]. now rewrite Ee.
  - intros i c Hi' E. rewrite own_face_iff, E by exact Hi'. split; [reflexivity|].
    cbn [K config_of k_bcs own_run r_bcs]. now rewrite own_bcs_nth, E by exact Hi'.
  - intros i Hi' E. now rewrite own_face_iff, E by exact Hi'.
  - exact own_order.
  - cbn [K config_of k_grav own_run r_param].
    destruct (real_finite _ _ _ _ _ (g_gx0 _ _ Hp)) as (g0 & E0). destruct (real_finite _ _ _ _ _ (g_gx1 _ _ Hp)) as (g1 & E1).
    destruct (real_finite _ _ _ _ _ (g_gx2 _ _ Hp)) as (g2 & E2). destruct (real_finite _ _ _ _ _ (g_M _ _ Hp)) as (M & EM).
    rewrite E0, E1, E2, EM. destruct (b_grav b).
    + eexists. split; [reflexivity|]. cbn [value_of]. split; [reflexivity|split; [reflexivity|]]. intros [|[|d]] Hd'; [lia|lia|reflexivity].
    + exists M. now split.
    + exists M. now split.
  - exact (own_file_runs dims Hu).
  - intros d i Hd'. destruct (us_lower _ _ _ _ _ Hu) as (A0 & A1 & A2). destruct (us_upper _ _ _ _ _ Hu) as (B0 & B1 & B2).
    unfold coords_of, regular_mesh, compute_regular_mesh_1d. cbn [a_at]. unfold nghost_of. rewrite coord_mk3 by exact Hd'.
    destruct d as [|[|[|d]]]; [| | |lia]; cbn [lower_bound upper_bound nth extents coord ii jj kk];
      [rewrite A0, B0|rewrite A1, B1|rewrite A2, B2]; reflexivity.
  - intros clock n N. rewrite own_file_program by exact Hu.
    assert (E : (existsb (calls_bounds K (L dims) U) (ranks (mpi_dims (b_nd b) dims)) && negb (has_bounds s))%bool = false).
    { destruct (has_bounds s) eqn:Eh; [now rewrite Bool.andb_false_r|]. cbn [negb]. rewrite Bool.andb_true_r.
      apply Bool.not_true_is_false. intros Q. apply existsb_exists in Q. destruct Q as (r & _ & Q). apply existsb_exists in Q.
      destruct Q as (i & Hi1 & Q). rewrite own_order in Hi1. apply in_seq in Hi1. apply andb_prop in Q. destruct Q as [Q _].
      rewrite own_face_iff in Q by lia. destruct (bc i) as [|?] eqn:Ei; [|discriminate Q].
      destruct Hown as [(x & y & z & Es)|(x & y & z & w & Es)]; [exists i; split; [lia|exact Ei]|rewrite Es in Eh; discriminate..]. }
    rewrite E. reflexivity.
Qed.

(** A face of the setup in a setup without conditions. *)
Lemma own_file_refused dims clock n : usable b p dims lo hi -> wants_own (b_nd b) bc -> ~ offers_own s ->
  own_program b dims (Some f) (ak, bk, ck, dk) clock n = Throw "Boundary setup not implemented".
Proof.
  intros Hu (i & Hi1 & Ei) Hno. rewrite own_file_program by exact Hu.
  assert (Eh : has_bounds s = false).
  { destruct s; try reflexivity; elim Hno; [right|left]; repeat eexists. }
  rewrite Eh. cbn [negb]. rewrite Bool.andb_true_r.
  assert (Q : existsb (calls_bounds K (L dims) U) (ranks (mpi_dims (b_nd b) dims)) = true); [|now rewrite Q].
  assert (Hnd := us_nd _ _ _ _ _ Hu).
  assert (Hdv : (Nat.div i 2 < 3)%nat) by (apply Nat.div_lt_upper_bound; lia).
  assert (Hds : forall d, (d < 3)%nat -> 1 <= coord d (mpi_dims (b_nd b) dims)) by (intros d H; exact (run_dims b dims p lo hi Hu d H)).
  apply existsb_exists.
  exists (if Nat.eqb (Nat.modulo i 2) 0 then I3 0 0 0 else mk3 (fun d => coord d (mpi_dims (b_nd b) dims) - 1)). split.
  - unfold ranks. apply in_box_cells.
    pose proof (Hds 0%nat ltac:(lia)). pose proof (Hds 1%nat ltac:(lia)). pose proof (Hds 2%nat ltac:(lia)).
    destruct (Nat.eqb (Nat.modulo i 2) 0); unfold in_box, mk3; cbn [coord ii jj kk] in *; lia.
  - apply existsb_exists. exists i. rewrite own_order. split; [apply in_seq; lia|]. rewrite own_face_iff, Ei by exact Hi1. cbn [andb].
    change (l_dims (L dims)) with (mpi_dims (b_nd b) dims). unfold is_border. destruct (Nat.modulo i 2) as [|n0]; cbn [Nat.eqb].
    + destruct (Nat.div i 2) as [|[|[|d]]]; reflexivity.
    + rewrite coord_mk3 by exact Hdv. lia.
Qed.
End File.
