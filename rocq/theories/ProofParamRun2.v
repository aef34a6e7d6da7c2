(** * Proofs for C91: the program, from the parameter file to the results. *)
From Coq Require Import List Ascii Reals Lra Lia ZifyBool.
From Coq Require String.
From Flocq Require Import Core.
From Verif Require Import Base RBase ModelMesh ModelGeom ModelBoundary ModelHydro ModelRad ModelScheme ModelStep ModelUtil ModelIni ModelMain ModelSetup ModelParam
  SpecMesh SpecGeom SpecBoundary SpecHydro SpecScheme SpecStep SpecPos SpecSetup SpecMain SpecIni SpecParam
  ProofBase ProofR ProofMesh ProofBoundary ProofBoundary2 ProofBcOrder ProofStep ProofLayout ProofStepEx ProofSetup ProofSetupRun ProofMain ProofRestart ProofParam ProofParamRun.
Local Open Scope string_scope.
Local Open Scope Z_scope.
Local Open Scope list_scope.

(** ** The initial conditions *)
Ltac reads := cbn [map]; repeat (apply Forall2_cons; [cbn [fst snd]; eassumption|]); apply Forall2_nil.
Ltac made := intros ? ? Q1 Q2; unfold setup_of; rewrite Q1, Q2; reflexivity.
Lemma starts_described T k ak bk ck dk s : starts_with T k (ak, bk, ck, dk) s ->
  exists vs, described_setup T k (map Finite vs) /\
    forall b r, b_setup b = k -> r_setup r = map Finite vs -> setup_of b r ak bk ck dk = Some s.
Proof.
  intros H.
  assert (G : forall vs1 vs2,
    Forall2 (fun e x => says_real T "Initialisation" (fst e) (snd e) x) (fst (setup_options k)) (map Finite vs1) ->
    Forall2 (fun e x => says_real T "Gravity" (fst e) (snd e) x) (snd (setup_options k)) (map Finite vs2) ->
    (forall b r, b_setup b = k -> r_setup r = map Finite (vs1 ++ vs2) -> setup_of b r ak bk ck dk = Some s) ->
    exists vs, described_setup T k (map Finite vs) /\ forall b r, b_setup b = k -> r_setup r = map Finite vs -> setup_of b r ak bk ck dk = Some s).
  { intros vs1 vs2 A B C. exists (vs1 ++ vs2). split; [|exact C]. exists (map Finite vs1), (map Finite vs2). split; [apply map_app|]. now split. }
  destruct s; cbn [starts_with] in H; cbv zeta in H;
    repeat match goal with H : _ /\ _ |- _ => destruct H | H : ex _ |- _ => destruct H | H : (_, _, _, _) = (_, _, _, _) |- _ => injection H as -> -> -> -> end;
    subst k; unfold setup_options in G; cbv zeta in G; cbn [map fst snd app] in G;
    first [ solve [refine (G [_] [] _ _ _); [reads|reads|made]] | solve [refine (G [_; _] [] _ _ _); [reads|reads|made]] | solve [refine (G [_; _; _] [] _ _ _); [reads|reads|made]] | solve [refine (G [_; _; _; _] [] _ _ _); [reads|reads|made]] | solve [refine (G [_; _; _; _; _] [] _ _ _); [reads|reads|made]]
          | solve [refine (G [_; _; _; _; _; _] [] _ _ _); [reads|reads|made]] | solve [refine (G [_; _; _; _; _; _; _] [] _ _ _); [reads|reads|made]] | solve [refine (G [_; _; _] [_] _ _ _); [reads|reads|made]] ].
Qed.

(** ** The run *)
Lemma real_finite T s n d x : says_real T s n d x -> exists r, x = Finite r.
Proof. intros [[_ ->]|(k & e & _ & _ & ->)]; now eexists. Qed.
Lemma numbers_finite T p : described T p ->
  forallb finite_number [pm_x0min p; pm_x0max p; pm_x1min p; pm_x1max p; pm_x2min p; pm_x2max p; pm_t_ini p; pm_t_end p; pm_cfl p;
    pm_time_freq p; pm_time_first p; pm_gx0 p; pm_gx1 p; pm_gx2 p; pm_M p; pm_eps_pf p] = true.
Proof.
  intros D. apply forallb_forall.
  assert (G : forall s n d x, says_real T s n d x -> finite_number x = true).
  { intros s n d x H. destruct (real_finite _ _ _ _ _ H) as (r & ->). reflexivity. }
  assert (F : finite_number (pm_time_first p) = true).
  { destruct (g_time_first _ _ D) as (d & (x & y & _ & _ & _ & ->) & [[_ ->]|(k & e & _ & _ & ->)]); reflexivity. }
  intros x Hx. cbn [In] in Hx. destruct D.
  repeat (destruct Hx as [<-|Hx]; [first [exact F|eapply G; eassumption]|]). contradiction.
Qed.
Lemma setup_finite T k ps : described_setup T k ps -> forallb finite_number ps = true.
Proof.
  intros (ps1 & ps2 & -> & A & B). rewrite forallb_app.
  assert (G : forall c l q, Forall2 (fun e x => says_real T c (fst e) (snd e) x) l q -> forallb finite_number q = true).
  { intros c l q F. induction F as [|e x l q H F IH]; [reflexivity|]. cbn [forallb]. rewrite IH.
    destruct (real_finite _ _ _ _ _ H) as (r & ->). reflexivity. }
  now rewrite (G _ _ _ A), (G _ _ _ B).
Qed.

Lemma runs_on_agree K N dims X L L' : runs_on K N dims X L -> l_dims L' = l_dims L ->
  (forall r, process (k_nd K) dims r -> l_dec L' r = l_dec L r /\ l_mesh L' r = l_mesh L r) -> runs_on K N dims X L'.
Proof.
  intros [[D M C S] T G F W] E A. split; auto.
  - split; auto.
    + destruct D as [D1 D2 D3 D4 D5]. split; auto. intros r Hr. rewrite (proj1 (A r Hr)). now apply D5.
    + now rewrite E.
    + intros r Hr. destruct (A r Hr) as [-> ->]. now apply S.
  - intros r Hr d Hd. rewrite (proj1 (A r Hr)). now apply T.
Qed.

Lemma rank0_process nd dims : (forall d, (d < 3)%nat -> 1 <= coord d dims) -> process nd dims (I3 0 0 0).
Proof.
  intros H d Hd. unfold mpi_dims. rewrite coord_mk3 by exact Hd. specialize (H d Hd).
  assert (coord d (I3 0 0 0) = 0) as -> by (destruct d as [|[|[|d]]]; reflexivity). destruct (Nat.ltb d nd); lia.
Qed.

Section File.
Context (b : build) (T : list entry) (f : bytes) (p : param) (lo hi : nat -> R).
Context (bc : nat -> bcond) (g : gas) (lim : limiter) (sol : solver) (user : user_kind) (ak bk ck dk : R) (s : setup) (cfl : R) (P : params)
  (ps : list real_value).
Hypothesis Hf : file_with T f.
Hypothesis Hp : described T p.
Hypothesis Hc : chosen b T p bc g lim sol user.
Hypothesis Hd : described_setup T (b_setup b) ps.
Hypothesis Hso : forall b' r, b_setup b' = b_setup b -> r_setup r = ps -> setup_of b' r ak bk ck dk = Some s.
Hypothesis Hm : pm_shift_grid p <> "UserDefined".
Hypothesis Hi : implemented (b_geom b) s.
Hypothesis Ht : timing p cfl P.

Theorem file_executed_as : exists X K, X = coords_of b p /\
  K = config_of b (the_run b p ps bc g lim sol user (decs (b_nd b) (extents p) (I3 1 1 1) (pm_ng p) rank0)) /\
  forall dims, usable b p dims lo hi -> exists L,
  L = layout_of b dims (program_runs b dims (Some f) (the_run b p ps bc g lim sol user (decs (b_nd b) (extents p) dims (pm_ng p) (I3 0 0 0)))) /\
  executes b f p lo hi bc g lim sol user (ak, bk, ck, dk) s cfl P X K dims L.
Proof.
  exists (coords_of b p), (config_of b (the_run b p ps bc g lim sol user (decs (b_nd b) (extents p) (I3 1 1 1) (pm_ng p) rank0))).
  split; [reflexivity|]. split; [reflexivity|]. intros dims Hu.
  set (runs := fun r => the_run b p ps bc g lim sol user (decs (b_nd b) (extents p) dims (pm_ng p) r)).
  assert (Hst : forall r, process (b_nd b) dims r -> startup b dims r (Some f) = Ok (runs r)).
  { intros r Hr. exact (every_process_starts b T f dims p ps lo hi bc g lim sol user Hf Hp Hd Hu Hc r Hr). }
  assert (H0 : process (b_nd b) dims (I3 0 0 0)) by exact (rank0_process (b_nd b) dims (us_dims _ _ _ _ _ Hu)).
  assert (HK : forall dec, config_of b (the_run b p ps bc g lim sol user dec) =
    config_of b (the_run b p ps bc g lim sol user (decs (b_nd b) (extents p) (I3 1 1 1) (pm_ng p) rank0))) by reflexivity.
  set (K := config_of b (the_run b p ps bc g lim sol user (decs (b_nd b) (extents p) (I3 1 1 1) (pm_ng p) rank0))).
  set (L := layout_of b dims (program_runs b dims (Some f) (runs (I3 0 0 0)))).
  exists L. split; [reflexivity|].
  split; try reflexivity.
  - intros r Hr. exists (runs r). split; [exact (Hst r Hr)|]. now split.
  - exact Hu.
  - exact (ch_gas _ _ _ _ _ _ _ _ Hc).
  - change (k_pf K) with (if String.eqb (pm_pressure_fix p) "On" then Some (value_of (pm_eps_pf p)) else None).
    destruct (String.eqb_spec (pm_pressure_fix p) "On") as [E|E]; [|reflexivity].
    destruct (real_finite _ _ _ _ _ (g_eps_pf _ _ Hp)) as (eps & Ee). exists eps. split; [exact Ee|]. now rewrite Ee.
  - intros i Hi'. exact (file_bc b (I3 1 1 1) p ps bc g lim sol user i Hi').
  - intros i Hi'. cbn [K config_of k_bcs the_run r_bcs]. rewrite nth_overflow by (rewrite map_length, seq_length; exact Hi'). reflexivity.
  - cbn [K config_of k_order the_run r_order]. now rewrite applied_order_some.
  - cbn [K config_of k_grav the_run r_param]. 
    destruct (real_finite _ _ _ _ _ (g_gx0 _ _ Hp)) as (g0 & E0). destruct (real_finite _ _ _ _ _ (g_gx1 _ _ Hp)) as (g1 & E1).
    destruct (real_finite _ _ _ _ _ (g_gx2 _ _ Hp)) as (g2 & E2). destruct (real_finite _ _ _ _ _ (g_M _ _ Hp)) as (M & EM).
    rewrite E0, E1, E2, EM. destruct (b_grav b).
    + eexists. split; [reflexivity|]. cbn [value_of]. split; [reflexivity|split; [reflexivity|]]. intros [|[|d]] Hd'; [lia|lia|reflexivity].
    + exists M. now split.
    + exists M. now split.
  - apply (runs_on_agree K _ dims _ (layout_of b dims runs)).
    + exact (file_runs_on b dims p ps lo hi bc g lim sol user Hu).
    + reflexivity.
    + intros r Hr. unfold L, layout_of, program_runs. cbn [l_dec l_mesh]. rewrite (Hst r Hr). now split.
  - intros d i Hd'. destruct (us_lower _ _ _ _ _ Hu) as (A0 & A1 & A2). destruct (us_upper _ _ _ _ _ Hu) as (B0 & B1 & B2).
    unfold coords_of, regular_mesh, compute_regular_mesh_1d. cbn [a_at]. unfold nghost_of. rewrite coord_mk3 by exact Hd'.
    destruct d as [|[|[|d]]]; [| | |lia]; cbn [lower_bound upper_bound nth extents coord ii jj kk];
      [rewrite A0, B0|rewrite A1, B1|rewrite A2, B2]; reflexivity.
  - intros clock n. unfold program. rewrite (Hst _ H0). cbn [obind].
    assert (Ec : composed (runs (I3 0 0 0)) = true).
    { unfold composed, runs, the_run. cbn [r_param r_grid r_bcs r_user r_shift r_setup].
      pose proof (numbers_finite T p Hp) as F. pose proof (setup_finite T _ _ Hd) as F'. rewrite forallb_app, F, F'.
      destruct (String.eqb_spec (pm_shift_grid p) "UserDefined") as [E|_]; [contradiction|]. cbn [is_builtin negb andb].
      rewrite !Bool.andb_true_r. apply forallb_forall. intros x Hx. apply in_map_iff in Hx. destruct Hx as (i & <- & _). reflexivity. }
    rewrite Ec. cbn [negb]. rewrite (Hso b (runs (I3 0 0 0)) eq_refl eq_refl).
    assert (Ei : forall th N', initialise s (config_of b (runs (I3 0 0 0))) th N' L = Ok (setup_state s (config_of b (runs (I3 0 0 0))) th N' L)).
    { intros th N'. unfold initialise, setup_check. change (k_geom (config_of b (runs (I3 0 0 0)))) with (b_geom b).
      destruct s; cbn [implemented] in Hi; try reflexivity; destruct (b_geom b); try reflexivity; now elim Hi. }
    fold L. rewrite Ei. cbn [obind]. destruct Ht as (T1 & T2 & T3 & T4 & T5 & T6 & T7).
    assert (EP : params_of (runs (I3 0 0 0)) = P).
    { unfold params_of, runs, the_run. cbn [r_param]. rewrite T2, T3, T6, T7, <- T4, <- T5. now destruct P. }
    rewrite EP. cbn [runs the_run r_param r_gas]. rewrite T1. reflexivity.
Qed.
End File.
Theorem file_executed b T f p lo hi bc g lim sol user amp s cfl P : file_with T f -> described T p -> chosen b T p bc g lim sol user ->
  starts_with T (b_setup b) amp s -> pm_shift_grid p <> "UserDefined" -> implemented (b_geom b) s -> timing p cfl P ->
  exists X K, forall dims, usable b p dims lo hi -> exists L, executes b f p lo hi bc g lim sol user amp s cfl P X K dims L.
Proof.
  intros Hf Hp Hc Hs Hm Hi Ht. destruct amp as [[[ak bk] ck] dk].
  destruct (starts_described T (b_setup b) ak bk ck dk s Hs) as (vs & Hd & Hso).
  destruct (file_executed_as b T f p lo hi bc g lim sol user ak bk ck dk s cfl P (map Finite vs) Hf Hp Hc Hd Hso Hm Hi Ht) as (X & K & _ & _ & H).
  exists X, K. intros dims Hu. destruct (H dims Hu) as (L & _ & HL). now exists L.
Qed.

(** ** What a run leaves behind *)
Section Left.
Context {S : Type} (D : dynamics S) (p : params) (clock : Z -> bool) (Q : S -> Prop).
Hypothesis HQ : forall t dt x, Q x -> Q (y_step D t dt x).
Lemma left_write m : (forall x, left_behind m x -> Q x) -> forall x, left_behind (write m) x -> Q x.
Proof.
  intros H x [->|(f & Hf & ->)]; [apply H; now left|]. cbn [write m_files] in Hf. apply in_app_iff in Hf.
  destruct Hf as [Hf|[<-|[]]]; apply H; [right; now exists f|left; reflexivity].
Qed.
Lemma left_same m m' : m_st m' = m_st m -> m_files m' = m_files m -> (forall x, left_behind m x -> Q x) -> forall x, left_behind m' x -> Q x.
Proof. unfold left_behind. intros E1 E2 H x Hx. apply H. now rewrite <- E1, <- E2. Qed.
Lemma left_output m : (forall x, left_behind m x -> Q x) -> forall x, left_behind (output m) x -> Q x.
Proof. intros H. unfold output. cbv zeta. apply left_write. now apply (left_same m). Qed.
Lemma left_body m m' v : (forall x, left_behind m x -> Q x) -> ModelMain.body D p clock m = (m', v) -> forall x, left_behind m' x -> Q x.
Proof.
  intros H. unfold ModelMain.body. destruct (negb _); [intros E; injection E as <- <-; exact H|].
  destruct (iter_schedule p m) as [[o1 iid]|w|w]; [|intros E; injection E as <- <-; exact H..].
  destruct (time_schedule p m _) as [[[o2 tid] dt2]|w|w]; [|intros E; injection E as <- <-; exact H..].
  destruct (clip_to_end p (m_t m) dt2) as [s1 dt]. cbv zeta. destruct (y_bad D (m_st m)).
  { intros E; injection E as <- <-. apply left_write. now apply (left_same m). }
  match goal with |- (if ?c then output ?m2 else ?m2, _) = _ -> _ => set (m2' := m2); destruct c end; intros E; injection E as <- <-.
  - apply left_output. intros x [->|(f & Hf & ->)]; [apply HQ, H; now left|apply H; right; now exists f].
  - intros x [->|(f & Hf & ->)]; [apply HQ, H; now left|apply H; right; now exists f].
Qed.
Lemma left_loop n : forall m m' v, (forall x, left_behind m x -> Q x) -> loop D p clock n m = (m', v) -> forall x, left_behind m' x -> Q x.
Proof.
  induction n as [|n IH]; intros m m' v H E; cbn [loop] in E; [injection E as <- <-; exact H|].
  destruct (ModelMain.body D p clock m) as [m1 v1] eqn:B. pose proof (left_body _ _ _ H B) as H1.
  destruct v1; [exact (IH _ _ _ H1 E)|injection E as <- <-; exact H1..].
Qed.
Lemma left_run s n m v : Q s -> loop D p clock n (fresh p s) = (m, v) -> forall x, left_behind m x -> Q x.
Proof.
  intros Hs. apply left_loop. unfold fresh. destruct (_ || _)%bool.
  - apply left_output. intros x [->|(f & [] & _)]. exact Hs.
  - intros x [->|(f & [] & _)]. exact Hs.
Qed.
End Left.

(** ** Any process grid *)
Section Grids.
Context (K : ModelStep.config) (N dims dims' : idx) (X : nat -> arr1) (L L' : layout) (cfl : R) (p : params) (clock : Z -> bool).
Hypothesis HR : runs_on K N dims X L.
Hypothesis HR' : runs_on K N dims' X L'.
Lemma grids_alike G St St' n : starts_from K dims L G St -> starts_from K dims' L' G St' ->
  let e := loop (hydro K L cfl) p clock n (fresh p (init_state K L St)) in
  let e' := loop (hydro K L' cfl) p clock n (fresh p (init_state K L' St')) in
  snd e' = snd e /\ m_oid (fst e') = m_oid (fst e) /\ m_iter (fst e') = m_iter (fst e) /\ m_t (fst e') = m_t (fst e) /\
  same_arrays K N X dims L dims' L' (m_st (fst e)) (m_st (fst e')) /\
  Forall2 (same_file (same_arrays K N X dims L dims' L') 0) (m_files (fst e)) (m_files (fst e')).
Proof.
  intros HS HS' e e'. destruct (serial_layout K N dims X L (ro_layout HR)) as (L1 & HL1).
  set (R1 := rel1 K dims dims' L L' L1).
  assert (I : R1 (init_state K L St) (init_state K L' St')).
  { exists (init_state K L1 (the_state K L1 G)). split.
    - exact (init_slice K N dims X L L1 (ro_layout HR) HL1 (ro_thick HR) (ro_faces HR) (ro_grav HR) G _ _ HS (the_state_ok K one_process L1 G)).
    - exact (init_slice K N dims' X L' L1 (ro_layout HR') HL1 (ro_thick HR') (ro_faces HR') (ro_grav HR') G _ _ HS' (the_state_ok K one_process L1 G)). }
  assert (HL : like R1 0 0 [] [] (fresh p (init_state K L St)) (fresh p (init_state K L' St'))).
  { assert (Y0 : forall i, like R1 0 0 [] [] (mkM (-1) i (-1) 0 (p_t_ini p) [] (init_state K L St) [])
      (mkM (-1) i (-1) 0 (p_t_ini p) [] (init_state K L' St') [])).
    { intro i. unfold like. cbn [m_oid m_iid m_tid m_iter m_t m_st m_files]. repeat split; auto; try lia. exists [], []. repeat split; constructor. }
    unfold fresh. cbv zeta. destruct ((0 <? p_iter_freq p) || rltb 0 (p_time_freq p))%bool; [|apply Y0].
    apply (like_output clock clock R1 0 (fun i _ => eq_refl)), Y0. }
  subst e e'. destruct (loop (hydro K L cfl) p clock n _) as [m v] eqn:E. destruct (loop (hydro K L' cfl) p clock n _) as [m' v'] eqn:E'. cbn [fst snd].
  destruct (loop_like (hydro K L cfl) (hydro K L' cfl) p clock clock R1 (rel_cong K N dims dims' X L L' cfl HR HR' L1 HL1) 0 (fun i _ => eq_refl) 0 [] [] n _ _ _ _ _ _ HL E E')
    as [-> (A & _ & _ & B & C & Rl & _ & F & F' & EF & EF' & FF)].
  cbn [app] in EF, EF'. subst F F'.
  split; [reflexivity|]. split; [lia|]. split; [exact B|]. split; [exact C|]. split.
  - exact (rel_same K N dims dims' X L L' L1 _ _ HL1 Rl).
  - exact (same_file_weaken K N dims dims' X L L' L1 _ _ _ HL1 FF).
Qed.
End Grids.

(** ** Consequences *)
Section Executed.
Context {b : build} {f : bytes} {p : param} {lo hi : nat -> R} {bc : nat -> bcond} {g : gas} {lim : limiter} {sol : solver} {user : user_kind}
  {amp : R * R * R * R} {s : setup} {cfl : R} {P : params} {X : nat -> arr1} {K : ModelStep.config} {dims : idx} {L : layout}.
Hypothesis HE : executes b f p lo hi bc g lim sol user amp s cfl P X K dims L.
Let N := I3 (pm_nx0 p) (pm_nx1 p) (pm_nx2 p).
Let Hu := xr_usable _ _ _ _ _ _ _ _ _ _ _ _ _ _ _ _ _ _ HE.
Let Hx := xr_coords _ _ _ _ _ _ _ _ _ _ _ _ _ _ _ _ _ _ HE.
Let Hnd := xr_nd _ _ _ _ _ _ _ _ _ _ _ _ _ _ _ _ _ _ HE.
Let Hng := xr_ng _ _ _ _ _ _ _ _ _ _ _ _ _ _ _ _ _ _ HE.
Lemma ex_width d i : (d < 3)%nat -> (a_at (X d) (i + 1) - a_at (X d) i = (hi d - lo d) / IZR (nth d [pm_nx0 p; pm_nx1 p; pm_nx2 p] 0%Z))%R.
Proof. intros Hd. rewrite !(Hx d) by exact Hd. rewrite !minus_IZR, plus_IZR. ring. Qed.
Lemma ex_width_pos d : (d < 3)%nat -> (0 < (hi d - lo d) / IZR (nth d [pm_nx0 p; pm_nx1 p; pm_nx2 p] 0%Z))%R.
Proof.
  intros Hd. pose proof (us_bounds _ _ _ _ _ Hu d Hd). apply Rdiv_lt_0_compat; [lra|]. apply IZR_lt.
  destruct (us_cells _ _ _ _ _ Hu (nth d [pm_nx0 p; pm_nx1 p; pm_nx2 p] 0)) as [Q _]; [|lia].
  apply nth_In. cbn [List.length]. lia.
Qed.
Lemma ex_nd_3 d : (d < k_nd K)%nat -> (d < 3)%nat.
Proof. pose proof (us_nd _ _ _ _ _ Hu) as H. rewrite Hnd. lia. Qed.
Lemma ex_increasing : increasing (k_nd K) N (k_ng K) X.
Proof. intros d i Hd _. pose proof (ex_width d i Hd). pose proof (ex_width_pos d Hd). lra. Qed.
Lemma ex_graded : graded (k_nd K) N (k_ng K) X 1.
Proof.
  intros d i Hd _ _ wd. apply ex_nd_3 in Hd. assert (E : wd i = wd (i + 1)) by (unfold wd; rewrite (ex_width d i Hd), (ex_width d (i + 1) Hd); reflexivity).
  rewrite E. lra.
Qed.
Lemma ex_widths_periodic : periodic_widths (k_nd K) N (k_ng K) X.
Proof. intros d i Hd _. apply ex_nd_3 in Hd. now rewrite (ex_width d i Hd), (ex_width d (coord d N + i) Hd). Qed.
Lemma ex_weightless : no_gravity b p -> weightless K.
Proof.
  intros (Eb & E0 & E1 & E2). pose proof (xr_grav _ _ _ _ _ _ _ _ _ _ _ _ _ _ _ _ _ _ HE) as G. rewrite Eb in G.
  destruct G as (gv & EK & A0 & A1 & A2). exists gv. split; [exact EK|].
  intros [|[|d]]; [congruence|congruence|]. specialize (A2 (Datatypes.S (Datatypes.S d)) ltac:(lia)). congruence.
Qed.

Theorem file_conserves : positional s -> b_geom b = Cartesian -> no_gravity b p -> (forall i, (i < 2 * b_nd b)%nat -> bc i = Periodic) ->
  forall clock n m v clock' n' m' v' St St',
  program b dims (Some f) amp clock n = Ok (Some (m, v)) -> program b dims (Some f) amp clock' n' = Ok (Some (m', v')) ->
  left_behind m St -> left_behind m' St' ->
  integrate K L (fun r c => c_rho (s_cell (St r) c)) = integrate K L (fun r c => c_rho (s_cell (St' r) c)) /\
  (forall k, integrate K L (fun r c => c_rhou (s_cell (St r) c) k) = integrate K L (fun r c => c_rhou (s_cell (St' r) c) k)) /\
  (pm_pressure_fix p <> "On" -> user = UOff ->
     integrate K L (fun r c => c_E (s_cell (St r) c)) = integrate K L (fun r c => c_E (s_cell (St' r) c))).
Proof.
  intros Hs Hg Hw Hb clock n m v clock' n' m' v' St St'.
  rewrite !(xr_program _ _ _ _ _ _ _ _ _ _ _ _ _ _ _ _ _ _ HE). intros E E' HS HS'. injection E as E. injection E' as E'.
  set (th := match g with PGas g => pg_thermo g | RGas g => rg_thermo g end) in *. fold N in E, E'.
  set (S0 := init_state K L (setup_state s K th N L)) in *.
  assert (HR := xr_runs _ _ _ _ _ _ _ _ _ _ _ _ _ _ _ _ _ _ HE). fold N in HR.
  pose proof (setup_starts K N dims X L th (ro_layout HR) s Hs) as Hst.
  assert (Q : forall t dt x, (exists ts, x = ModelStep.run K L ts S0) -> exists ts, full_step K L t dt x = ModelStep.run K L ts S0).
  { intros t dt x (ts & ->). exists (ts ++ [(t, dt)]). unfold ModelStep.run. now rewrite fold_left_app. }
  assert (Q0 : exists ts, S0 = ModelStep.run K L ts S0) by now exists [].
  destruct (left_run (hydro K L cfl) P clock (fun x => exists ts, x = ModelStep.run K L ts S0) Q S0 n m v Q0 E St HS) as (ts & ->).
  destruct (left_run (hydro K L cfl) P clock' (fun x => exists ts, x = ModelStep.run K L ts S0) Q S0 n' m' v' Q0 E' St' HS') as (ts' & ->).
  assert (Hb' : forall i, (i < 2 * k_nd K)%nat -> k_bcs K i = Periodic).
  { intros i Hi. rewrite Hnd in Hi. rewrite (xr_bcs _ _ _ _ _ _ _ _ _ _ _ _ _ _ _ _ _ _ HE i Hi). now apply Hb. }
  assert (Hg' : k_geom K = Cartesian) by (rewrite (xr_geom _ _ _ _ _ _ _ _ _ _ _ _ _ _ _ _ _ _ HE); exact Hg).
  pose proof (conserved K N dims X L HR _ _ ts Hb' Hg' (ex_weightless Hw) ex_widths_periodic ex_increasing Hst) as (A1 & A2 & A3).
  pose proof (conserved K N dims X L HR _ _ ts' Hb' Hg' (ex_weightless Hw) ex_widths_periodic ex_increasing Hst) as (B1 & B2 & B3).
  fold S0 in A1, A2, A3, B1, B2, B3.
  split; [congruence|]. split; [intros k; now rewrite A2, B2|].
  intros Hpf Hus. pose proof (xr_pf _ _ _ _ _ _ _ _ _ _ _ _ _ _ _ _ _ _ HE) as F. destruct (String.eqb_spec (pm_pressure_fix p) "On"); [contradiction|].
  assert (Hus' : k_user K = UOff) by (rewrite (xr_user _ _ _ _ _ _ _ _ _ _ _ _ _ _ _ _ _ _ HE); exact Hus).
  now rewrite A3, B3.
Qed.

Theorem file_physical : positional s -> (forall a b c d e f g, s <> SRayleighTaylor3d a b c d e f g) -> positive_parameters s ->
  b_eos b = PerfectGasEos -> b_geom b = Cartesian -> no_gravity b p -> lim = LConstant -> user = UOff -> pm_pressure_fix p <> "On" ->
  (0 < cfl)%R -> (sol = HLL /\ (INR (b_nd b) * cfl <= 1)%R \/ sol = HLLC /\ (2 * INR (b_nd b) * cfl <= 1)%R) -> (p_t_ini P < p_t_end P)%R ->
  forall clock n m v, program b dims (Some f) amp clock n = Ok (Some (m, v)) ->
  v <> Failed "detected invalid volumic internal energy" /\
  forall St, left_behind m St -> physical K dims L St.
Proof.
  intros Hs H3 Hpos Heos Hg Hw Hl Hus Hpf Hcfl Hsol Ht clock n m v.
  rewrite (xr_program _ _ _ _ _ _ _ _ _ _ _ _ _ _ _ _ _ _ HE). intros E. injection E as E.
  destruct (xr_gas _ _ _ _ _ _ _ _ _ _ _ _ _ _ _ _ _ _ HE) as (ga & mu & _ & _ & G1 & G2 & G3). rewrite Heos in G3. cbn [gas_is] in G3.
  pose proof (xr_eos _ _ _ _ _ _ _ _ _ _ _ _ _ _ _ _ _ _ HE) as Eeos. rewrite G3 in E, Eeos.
  assert (HR := xr_runs _ _ _ _ _ _ _ _ _ _ _ _ _ _ _ _ _ _ HE). fold N in HR, E.
  assert (HF : first_order K).
  { split.
    - rewrite (xr_geom _ _ _ _ _ _ _ _ _ _ _ _ _ _ _ _ _ _ HE); exact Hg.
    - rewrite (xr_lim _ _ _ _ _ _ _ _ _ _ _ _ _ _ _ _ _ _ HE); exact Hl.
    - pose proof (xr_pf _ _ _ _ _ _ _ _ _ _ _ _ _ _ _ _ _ _ HE) as F. now destruct (String.eqb_spec (pm_pressure_fix p) "On").
    - rewrite (xr_user _ _ _ _ _ _ _ _ _ _ _ _ _ _ _ _ _ _ HE); exact Hus.
    - exact (ex_weightless Hw). }
  destruct (setup_run_positive s K (mkPG ga mu) N dims X L 1 cfl P clock n m v) as (A & B & C); try assumption.
  - now split.
  - exact ex_increasing.
  - exact ex_graded.
  - split; [exact Hcfl|split; [lra|]]. rewrite (xr_sol _ _ _ _ _ _ _ _ _ _ _ _ _ _ _ _ _ _ HE), Hnd.
    destruct Hsol as [[-> Q]|[-> Q]]; rewrite Rmult_1_r; exact Q.
  - split; [exact C|]. intros St [->|(fl & Hfl & ->)]; [exact A|now apply B].
Qed.
End Executed.

Theorem file_any_grid b f p lo hi bc g lim sol user amp s cfl P X K dims dims' L L' :
  executes b f p lo hi bc g lim sol user amp s cfl P X K dims L -> executes b f p lo hi bc g lim sol user amp s cfl P X K dims' L' ->
  positional s -> forall clock n m v m' v',
  program b dims (Some f) amp clock n = Ok (Some (m, v)) -> program b dims' (Some f) amp clock n = Ok (Some (m', v')) ->
  v' = v /\ m_oid m' = m_oid m /\ m_iter m' = m_iter m /\ m_t m' = m_t m /\
  let same := same_arrays K (I3 (pm_nx0 p) (pm_nx1 p) (pm_nx2 p)) X dims L dims' L' in
  same (m_st m) (m_st m') /\ Forall2 (same_file same 0) (m_files m) (m_files m').
Proof.
  intros HE HE' Hs clock n m v m' v'.
  rewrite (xr_program _ _ _ _ _ _ _ _ _ _ _ _ _ _ _ _ _ _ HE), (xr_program _ _ _ _ _ _ _ _ _ _ _ _ _ _ _ _ _ _ HE').
  intros E E'. injection E as E. injection E' as E'.
  assert (HR := xr_runs _ _ _ _ _ _ _ _ _ _ _ _ _ _ _ _ _ _ HE). assert (HR' := xr_runs _ _ _ _ _ _ _ _ _ _ _ _ _ _ _ _ _ _ HE').
  set (N := I3 (pm_nx0 p) (pm_nx1 p) (pm_nx2 p)) in *. set (th := match g with PGas g => pg_thermo g | RGas g => rg_thermo g end) in *.
  pose proof (grids_alike K N dims dims' X L L' cfl P clock HR HR' _ _ _ n (setup_starts K N dims X L th (ro_layout HR) s Hs)
    (setup_starts K N dims' X L' th (ro_layout HR') s Hs)) as A. cbv zeta in A. rewrite E, E' in A. exact A.
Qed.
