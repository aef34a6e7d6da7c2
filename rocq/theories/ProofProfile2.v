(** * Proofs for C96: the grids of processes, the processes one by one, and the files that are refused. *)
From Coq Require Import List Ascii Reals Lra Lia ZifyBool FunctionalExtensionality.
From Coq Require String.
From Verif Require Import Base RBase ModelMesh ModelGeom ModelBoundary ModelHydro ModelRad ModelScheme ModelStep ModelUtil ModelIni ModelMain ModelMove ModelMPI
  ModelSetup ModelParam ModelH5 ModelLaunch ModelProfile
  SpecMesh SpecGeom SpecBoundary SpecHydro SpecScheme SpecStep SpecPos SpecSetup SpecMain SpecMove SpecMPI SpecIni SpecParam SpecLaunch SpecProfile
  ProofBase ProofR ProofMesh ProofGeom ProofBoundary ProofBoundary2 ProofBcOrder ProofUtil ProofStep ProofLayout ProofSetup ProofMain ProofRestart ProofParam ProofParamRun ProofParamRun2
  ProofMPI ProofMPIRun ProofMPIGrid ProofLaunch ProofProfile.
Local Open Scope string_scope.
Local Open Scope Z_scope.
Local Open Scope list_scope.

Section Launch.
Context (b : build) (T : list entry) (f : bytes) (p : param) (v : v1d_params).
Context (bc : nat -> bcond) (g : gas) (lim : limiter) (sol : solver) (user : user_kind) (cfl rmax : R) (P : params) (sh : shift_kind).
Context (disk : string -> option h5) (h : h5) (x rho u Pr : Z -> R) (fx : nat -> Z -> R).
Hypothesis Hf : file_with T f.
Hypothesis Hp : described T p.
Hypothesis Hv : described_v1d T v.
Hypothesis Hc : chosen b T p bc g lim sol user.
Hypothesis Ht : timing p cfl P.
Hypothesis Hm : SpecProfile.moves p v sh.
Hypothesis Hrm : pm_rmax_shift p = Finite rmax.
Hypothesis Hd : disk (vp_file v) = Some h.
Hypothesis Hh : profiles (pm_nx0 p) (pm_ng p) (Z.to_nat (pm_nfx p)) h x rho u Pr fx.
Let G := along_rays (Z.to_nat (pm_nfx p)) rho u Pr fx.

Theorem v1d_launched : exists X K, v1d_faces b p x X /\ forall dims, usable_v1d b p dims -> exists L St,
  v1d_executes b f disk p v bc g lim sol user cfl rmax P sh G X K dims L St /\
  (messages_fit b p dims -> criterion_ok sh L -> forall clock n,
     locks (mpi_dims (b_nd b) dims) (v1d_launch b dims (Some f) disk clock n)
       (fun r => Ret (mloc (fst (the_end K cfl P sh rmax (pm_nx0 p) L clock n X St)) r, snd (the_end K cfl P sh rmax (pm_nx0 p) L clock n X St)))).
Proof.
  destruct (v1d_executed_as b T f p v bc g lim sol user cfl rmax P sh disk h x rho u Pr fx Hf Hp Hv Hc Ht Hm Hrm Hd Hh) as (X & K & EK & HX & Hx).
  exists X, K. split; [exact HX|]. intros dims Hu. destruct (Hx dims Hu) as (L & St & EL & (ds & Eds & EX & Hread) & He). clear Hx.
  exists L, St. split; [exact He|]. intros Hfit Hcr clock n.
  pose proof (uv_dims _ _ _ Hu) as Hdims.
  set (runs := fun r => v1d_run b p bc g lim sol user (decs (b_nd b) (extents p) dims (pm_ng p) r)).
  assert (Hst : forall r, process (b_nd b) dims r -> startup b dims r (Some f) = Ok (runs r)).
  { intros r Hr. exact (v1d_starts b T f p bc g lim sol user Hf Hp Hc dims Hu r Hr). }
  pose proof (rank0_process (b_nd b) dims Hdims) as H0.
  assert (HL : relaid L X = L).
  { rewrite EL. unfold relaid, layout_with. cbn [l_dims l_dec l_mesh]. f_equal. apply functional_extensionality. intros r. now destruct (set_grid _ _). }
  assert (HLd : forall r, process (b_nd b) dims r -> l_dec L r = r_dec (runs r) /\
    l_mesh L r = match set_grid (r_dec (runs r)) X with Ok m => m | _ => fun _ _ => 0%R end).
  { intros r Hr. rewrite EL. unfold layout_with, program_runs. cbn [l_dec l_mesh]. rewrite (Hst r Hr). split; reflexivity. }
  assert (HLD : l_dims L = mpi_dims (b_nd b) dims) by (rewrite EL; reflexivity).
  assert (EP : forall r, params_of (runs r) = P).
  { intros r. destruct Ht as (T1 & T2 & T3 & T4 & T5 & T6 & T7).
    unfold params_of, runs, v1d_run. cbn [r_param]. rewrite T2, T3, T6, T7, <- T4, <- T5. now destruct P. }
  assert (Ecfl : value_of (pm_cfl p) = cfl) by (destruct Ht as (T1 & _); now rewrite T1).
  assert (Ermax : value_of (pm_rmax_shift p) = rmax) by now rewrite Hrm.
  assert (Esh : forall r, v1d_shift (runs r) v = sh) by (intros r; exact (moves_shift b p v bc g lim sol user sh Hm _)).
  set (TT := task_of K (pm_nfx p) cfl P sh rmax (pm_nx0 p) L clock).
  assert (Hjob : forall r, process (b_nd b) dims r -> v1d_job b dims (runs r) v X (clock r) r = TT r).
  { intros r Hr. unfold v1d_job, TT, task_of. destruct (HLd r Hr) as [-> ->]. rewrite HLD, <- Ecfl, <- (EP r), <- Ermax, EK, (Esh r). reflexivity. }
  set (nglob := I3 (pm_nx0 p) (pm_nx1 p) (pm_nx2 p)).
  pose proof (ve_runs _ _ _ _ _ _ _ _ _ _ _ _ _ _ _ _ _ _ _ _ He) as Hro. fold nglob in Hro.
  assert (Hnd : k_nd K = b_nd b) by (rewrite EK; reflexivity).
  assert (HD : decomposed (k_nd K) nglob dims (k_ng K) (l_dec L)) by exact (lo_dec (ro_layout Hro)).
  assert (HP : l_dims L = mpi_dims (k_nd K) dims) by exact (lo_dims (ro_layout Hro)).
  assert (Hsize : forall d r, (d < k_nd K)%nat -> In r (ranks (l_dims L)) -> message_size K (pm_nfx p) L d r <= int_max).
  { intros d r Hd' Hr. rewrite HLD in Hr. apply in_process in Hr. unfold message_size. rewrite Hnd in *.
    pose proof (Hfit d r (l_dec L r) Hd' Hr) as Q. cbv zeta in Q. replace (k_ng K) with (pm_ng p) by (rewrite EK; reflexivity).
    assert (int_max = 2 ^ 31 - 1) as -> by reflexivity. apply Q.
    pose proof (dcp_ok HD (rank := r)) as Q2. replace (k_ng K) with (pm_ng p) in Q2 by (rewrite EK; reflexivity). exact (Q2 Hr). }
  assert (Hgr : match k_grav K with GInternalMass _ => ii (l_dims L) = 1 | _ => True end).
  { pose proof (ro_grav Hro) as Q. unfold gravity_ok in Q. destruct (k_grav K); trivial. rewrite HP. exact Q. }
  assert (Hrun := run_locks (nfx := pm_nfx p) cfl P rmax (pm_nx0 p) clock HD HP Hsize Hgr n X St Hcr).
  destruct (startup_inv _ _ _ _ _ (Hst _ H0)) as (mm & names & R1 & R2 & R3 & R4 & R5 & R6 & R7 & R8).
  cbn [runs v1d_run r_param r_setup r_gas r_grid] in R2, R3, R5, R7.
  assert (Hall : forall r, process (b_nd b) dims r -> make_grid (b_nd b) p dims r = Ok (r_dec (runs r)) /\
    late b p [] (r_dec (runs r)) g names (Some FromSetup) = Ok (runs r)).
  { intros r Hr. destruct (startup_inv _ _ _ _ _ (Hst r Hr)) as (m2 & n2 & Q1 & Q2 & Q3 & Q4 & Q5 & Q6 & Q7 & Q8).
    rewrite R1 in Q1. injection Q1 as <-. rewrite R6 in Q6. injection Q6 as <-. split; [exact Q4|exact Q8]. }
  assert (R9 : read_v1d mm = Ok v).
  { destruct (file_reader T f Hf) as (m & Em & Hhm). change (reader_of (Some f)) with (reader_of (Some f)) in R1. rewrite Em in R1. injection R1 as <-. exact (says_v1d T m v Hhm Hv). }
  unfold v1d_launch. rewrite R1. cbn [own]. rewrite R2. cbn [own]. rewrite R9. cbn [own].
  apply sync_barrier.
  eapply locks_ext with (W := fun r => sync _).
  { intros r Hr. apply in_process in Hr. rewrite (proj1 (Hall r Hr)). cbn [own]. rewrite R5. cbn [own]. rewrite R6. cbn [own]. rewrite R7. cbn [own].
    rewrite (uv_new _ _ _ Hu). rewrite EX. cbn [own]. reflexivity. }
  apply sync_barrier. apply sync_barrier. cbv zeta.
  rewrite <- HLD.
  eapply locks_bind with (v := fun r => gravity_values K L (fun _ _ => zero_cell) r).
  { pose proof (gravity_locks (nfx := pm_nfx p) cfl P sh rmax (pm_nx0 p) clock HD HP Hsize Hgr (k_bcs K) X (fun _ _ => zero_cell)) as Q.
    rewrite with_own_bcs, HL in Q. eapply locks_ext; [|exact Q]. intros r Hr. rewrite HLD in Hr. apply in_process in Hr.
    cbv beta. change (task_of K (pm_nfx p) cfl P sh rmax (pm_nx0 p) L clock r) with (TT r). rewrite <- (Hjob r Hr). reflexivity. }
  rewrite Eds. cbn [own]. apply sync_barrier.
  eapply locks_ext; [|exact Hrun]. intros r Hr. rewrite HLD in Hr. apply in_process in Hr. cbv beta.
  destruct (Hread r Hr) as (F & EF & ES). cbn [runs v1d_run r_dec]. rewrite EF. cbn [own].
  pose proof (proj2 (Hall r Hr)) as Q. cbn [runs v1d_run r_dec] in Q. rewrite Q. cbn [own].
  change (mkRun p [] (decs (b_nd b) (extents p) dims (pm_ng p) r) g (Some FromSetup) (map (fun i : nat => Builtin (bc i)) (seq 0 (2 * b_nd b)))
      (map Some (seq 0 (2 * b_nd b))) lim sol (Builtin user) (String.eqb (pm_shift_grid p) "UserDefined") (String.eqb (pm_pressure_fix p) "On")) with (runs r).
  assert (Ec : composed_v1d (runs r) v = true).
  { unfold composed_v1d, runs, v1d_run. cbn [r_param r_grid r_bcs r_user]. cbv zeta.
    rewrite (numbers_finite_v1d T p v Hp Hv). cbn [is_builtin andb]. rewrite !Bool.andb_true_r.
    apply forallb_forall. intros y Hy. apply in_map_iff in Hy. destruct Hy as (i & <- & _). reflexivity. }
  rewrite Ec. cbn [negb]. rewrite (Hjob r Hr). fold (TT r).
  assert (EK' : config_of b (runs r) = K) by (rewrite EK; reflexivity). rewrite EK', ES. rewrite EK. reflexivity.
Qed.
End Launch.

(** ** The files that are refused *)
Section Refuse.
Context (b : build) (T : list entry) (f : bytes) (p : param) (v : v1d_params).
Context (bc : nat -> bcond) (g : gas) (lim : limiter) (sol : solver) (user : user_kind) (cfl : R) (P : params) (sh : shift_kind) (rmax : R).
Context (disk : string -> option h5).
Hypothesis Hf : file_with T f.
Hypothesis Hp : described T p.
Hypothesis Hv : described_v1d T v.
Hypothesis Hc : chosen b T p bc g lim sol user.
Hypothesis Hm : SpecProfile.moves p v sh.
Hypothesis Ht : timing p cfl P.
Hypothesis Hrm : pm_rmax_shift p = Finite rmax.
Context (dims : idx).
Hypothesis Hu : usable_v1d b p dims.
Hypothesis Hno : ~ exists h, disk (vp_file v) = Some h /\ fitting (pm_nx0 p) (pm_ng p) (pm_nfx p) h.
Let runs := fun r => v1d_run b p bc g lim sol user (decs (b_nd b) (extents p) dims (pm_ng p) r).

Lemma v1d_ghosts : coord 0 (nghost_of (b_nd b) (pm_ng p)) = pm_ng p.
Proof. unfold nghost_of. rewrite coord_mk3 by lia. pose proof (uv_nd _ _ _ Hu). destruct (Nat.ltb_spec 0 (b_nd b)); [reflexivity|lia]. Qed.
Lemma coords_given X : v1d_coords b p (Some FromSetup) disk v = Ok X -> global_coords (b_nd b) (extents p) (pm_ng p) X.
Proof.
  unfold v1d_coords. destruct (disk (vp_file v)) as [h|]; cbn [need obind]; [|discriminate]. unfold v1d_grid. cbv zeta.
  destruct (check_extent_dset h "x0" _) as [dx|w|w]; cbn [obind]; [|discriminate..]. intros [= <-]. intros d Hd3. destruct d as [|d].
  - cbn [a_ext]. unfold nghost_of, mk3. cbn [coord ii]. reflexivity.
  - unfold coords_of, regular_mesh, compute_regular_mesh_1d. cbn [a_ext]. unfold nghost_of. rewrite coord_mk3 by exact Hd3. reflexivity.
Qed.
Lemma refused_cases : (exists w, v1d_coords b p (Some FromSetup) disk v = Throw w) \/
  (exists X w, v1d_coords b p (Some FromSetup) disk v = Ok X /\ v1d_datasets p disk v = Throw w).
Proof.
  unfold v1d_coords, v1d_datasets. destruct (disk (vp_file v)) as [h|] eqn:Ed; cbn [need obind]; [|left; eauto].
  unfold v1d_grid. cbv zeta. rewrite v1d_ghosts.
  destruct (Classical_Prop.classic (has_dataset h "x0" [pm_nx0 p + 2 * pm_ng p + 1])) as [H1|H1].
  2: { left. destruct (unchecked _ _ _ H1) as (w & ->). cbn [obind]. eauto. }
  right. pose proof (proj2 (checked_iff _ _ _) H1) as (dx & ->). cbn [obind]. eexists.
  unfold v1d_checks.
  destruct (Classical_Prop.classic (has_dataset h "rho_1d" [pm_nx0 p])) as [H2|H2].
  2: { destruct (unchecked _ _ _ H2) as (w & ->). cbn [obind]. eauto. }
  pose proof (proj2 (checked_iff _ _ _) H2) as (d1 & ->). cbn [obind].
  destruct (Classical_Prop.classic (has_dataset h "u_1d" [pm_nx0 p])) as [H3|H3].
  2: { destruct (unchecked _ _ _ H3) as (w & ->). cbn [obind]. eauto. }
  pose proof (proj2 (checked_iff _ _ _) H3) as (d2 & ->). cbn [obind].
  destruct (Classical_Prop.classic (has_dataset h "P_1d" [pm_nx0 p])) as [H4|H4].
  2: { destruct (unchecked _ _ _ H4) as (w & ->). cbn [obind]. eauto. }
  pose proof (proj2 (checked_iff _ _ _) H4) as (d3 & ->). cbn [obind].
  destruct (Classical_Prop.classic (has_dataset h "fx_1d" [pm_nfx p; pm_nx0 p])) as [H5|H5].
  2: { destruct (unchecked2 _ _ _ _ H5) as (w & ->). cbn [obind]. eauto. }
  elim Hno. exists h. split; [reflexivity|]. now repeat split.
Qed.

Theorem v1d_refused : exists w, (forall clock n, v1d_program b dims (Some f) disk clock n = Throw w) /\
  (messages_fit b p dims -> forall clock n, locks (mpi_dims (b_nd b) dims) (v1d_launch b dims (Some f) disk clock n) (fun _ => Fail w)).
Proof.
  pose proof (uv_dims _ _ _ Hu) as Hdims.
  assert (Hst : forall r, process (b_nd b) dims r -> startup b dims r (Some f) = Ok (runs r)).
  { intros r Hr. exact (v1d_starts b T f p bc g lim sol user Hf Hp Hc dims Hu r Hr). }
  pose proof (rank0_process (b_nd b) dims Hdims) as H0.
  destruct (startup_inv _ _ _ _ _ (Hst _ H0)) as (mm & names & R1 & R2 & R3 & R4 & R5 & R6 & R7 & R8).
  cbn [runs v1d_run r_param r_setup r_gas r_grid] in R2, R3, R5, R7.
  assert (Hall : forall r, process (b_nd b) dims r -> make_grid (b_nd b) p dims r = Ok (r_dec (runs r))).
  { intros r Hr. destruct (startup_inv _ _ _ _ _ (Hst r Hr)) as (m2 & n2 & Q1 & Q2 & Q3 & Q4 & Q5 & Q6 & Q7 & Q8). exact Q4. }
  assert (R9 : read_v1d mm = Ok v).
  { destruct (file_reader T f Hf) as (m & Em & Hhm). rewrite Em in R1. injection R1 as <-. exact (says_v1d T m v Hhm Hv). }
  assert (Ec : forall r, composed_v1d (runs r) v = true).
  { intros r. unfold composed_v1d, runs, v1d_run. cbn [r_param r_grid r_bcs r_user]. cbv zeta.
    rewrite (numbers_finite_v1d T p v Hp Hv). cbn [is_builtin andb]. rewrite !Bool.andb_true_r.
    apply forallb_forall. intros y Hy. apply in_map_iff in Hy. destruct Hy as (i & <- & _). reflexivity. }
  assert (Hpro : forall X w, v1d_coords b p (Some FromSetup) disk v = Throw w \/
      v1d_coords b p (Some FromSetup) disk v = Ok X /\ v1d_datasets p disk v = Throw w ->
      forall clock n, v1d_program b dims (Some f) disk clock n = Throw w).
  { intros X w Hcase clock n. unfold v1d_program. rewrite (Hst _ H0). cbn [obind]. rewrite R1. cbn [obind]. rewrite R9. cbn [obind].
    rewrite Ec. cbn [negb]. cbv zeta. change (r_grid (runs (I3 0 0 0))) with (Some (A := choice grid_kind) FromSetup).
    change (r_param (runs (I3 0 0 0))) with p. destruct Hcase as [->|(-> & ->)]; reflexivity. }
  destruct refused_cases as [(w & Ew)|(X & w & EX & Ew)].
  - exists w. split; [exact (Hpro (fun _ => mkArr1 0 (fun _ => 0%R)) w (or_introl Ew))|]. intros _ clock n.
    unfold v1d_launch. rewrite R1. cbn [own]. rewrite R2. cbn [own]. rewrite R9. cbn [own].
    apply sync_barrier.
    eapply locks_ext with (W := fun r => sync _).
    { intros r Hr. apply in_process in Hr. rewrite (Hall r Hr). cbn [own]. rewrite R5. cbn [own]. rewrite R6. cbn [own]. rewrite R7. cbn [own].
      rewrite (uv_new _ _ _ Hu). rewrite Ew. cbn [own]. reflexivity. }
    apply sync_barrier. apply fail_locks.
  - exists w. split; [exact (Hpro X w (or_intror (conj EX Ew)))|]. intros Hfit clock n.
    set (pruns := program_runs b dims (Some f) (runs (I3 0 0 0))).
    set (L := layout_with b dims pruns X).
    set (K := config_of b (v1d_run b p bc g lim sol user (decs (b_nd b) (extents p) (I3 1 1 1) (pm_ng p) rank0))).
    assert (Hpr : forall r, process (b_nd b) dims r -> pruns r = runs r).
    { intros r Hr. unfold pruns, program_runs. now rewrite (Hst r Hr). }
    assert (Hro : runs_on K (extents p) dims X L).
    { apply (v1d_runs_on b p bc g lim sol user dims Hu X pruns (coords_given X EX)). intros r Hr. now rewrite (Hpr r Hr). }
    assert (HL : relaid L X = L).
    { unfold L, relaid, layout_with. cbn [l_dims l_dec l_mesh]. f_equal. apply functional_extensionality. intros r. now destruct (set_grid _ _). }
    assert (HLD : l_dims L = mpi_dims (b_nd b) dims) by reflexivity.
    assert (EP : forall r, params_of (runs r) = P).
    { intros r. destruct Ht as (T1 & T2 & T3 & T4 & T5 & T6 & T7).
      unfold params_of, runs, v1d_run. cbn [r_param]. rewrite T2, T3, T6, T7, <- T4, <- T5. now destruct P. }
    assert (Ecfl : value_of (pm_cfl p) = cfl) by (destruct Ht as (T1 & _); now rewrite T1).
    assert (Ermax : value_of (pm_rmax_shift p) = rmax) by now rewrite Hrm.
    assert (Esh : forall r, v1d_shift (runs r) v = sh) by (intros r; exact (moves_shift b p v bc g lim sol user sh Hm _)).
    set (TT := task_of K (pm_nfx p) cfl P sh rmax (pm_nx0 p) L clock).
    assert (Hjob : forall r, process (b_nd b) dims r -> v1d_job b dims (runs r) v X (clock r) r = TT r).
    { intros r Hr. unfold v1d_job, TT, task_of. unfold L at 2 3. cbn [layout_with l_dec l_mesh]. rewrite (Hpr r Hr), <- Ecfl, <- (EP r), <- Ermax, (Esh r). reflexivity. }
    assert (HD : decomposed (k_nd K) (extents p) dims (k_ng K) (l_dec L)) by exact (lo_dec (ro_layout Hro)).
    assert (HP : l_dims L = mpi_dims (k_nd K) dims) by exact (lo_dims (ro_layout Hro)).
    assert (Hsize : forall d r, (d < k_nd K)%nat -> In r (ranks (l_dims L)) -> message_size K (pm_nfx p) L d r <= int_max).
    { intros d r Hd' Hr. rewrite HLD in Hr. apply in_process in Hr. unfold message_size.
      pose proof (Hfit d r (l_dec L r) Hd' Hr) as Q. cbv zeta in Q. assert (int_max = 2 ^ 31 - 1) as -> by reflexivity. apply Q.
      exact (dcp_ok HD (rank := r) Hr). }
    assert (Hgr : match k_grav K with GInternalMass _ => ii (l_dims L) = 1 | _ => True end).
    { pose proof (ro_grav Hro) as Q. unfold gravity_ok in Q. destruct (k_grav K); trivial. }
    unfold v1d_launch. rewrite R1. cbn [own]. rewrite R2. cbn [own]. rewrite R9. cbn [own].
    apply sync_barrier.
    eapply locks_ext with (W := fun r => sync _).
    { intros r Hr. apply in_process in Hr. rewrite (Hall r Hr). cbn [own]. rewrite R5. cbn [own]. rewrite R6. cbn [own]. rewrite R7. cbn [own].
      rewrite (uv_new _ _ _ Hu). rewrite EX. cbn [own]. reflexivity. }
    apply sync_barrier. apply sync_barrier. cbv zeta.
    rewrite <- HLD.
    eapply locks_bind with (v := fun r => gravity_values K L (fun _ _ => zero_cell) r).
    { pose proof (gravity_locks (nfx := pm_nfx p) cfl P sh rmax (pm_nx0 p) clock HD HP Hsize Hgr (k_bcs K) X (fun _ _ => zero_cell)) as Q.
      rewrite with_own_bcs, HL in Q. eapply locks_ext; [|exact Q]. intros r Hr. rewrite HLD in Hr. apply in_process in Hr.
      cbv beta. change (task_of K (pm_nfx p) cfl P sh rmax (pm_nx0 p) L clock r) with (TT r). rewrite <- (Hjob r Hr). reflexivity. }
    rewrite Ew. cbn [own]. apply fail_locks.
Qed.
End Refuse.

(** ** Statements *)
Theorem v1d_launched_sound b T f p v bc g lim sol user cfl rmax P sh disk h x rho u Pr fx :
  file_with T f -> described T p -> described_v1d T v -> chosen b T p bc g lim sol user -> timing p cfl P -> SpecProfile.moves p v sh ->
  pm_rmax_shift p = Finite rmax -> disk (vp_file v) = Some h -> profiles (pm_nx0 p) (pm_ng p) (Z.to_nat (pm_nfx p)) h x rho u Pr fx ->
  exists X K, v1d_faces b p x X /\ forall dims, usable_v1d b p dims -> exists L St,
    v1d_executes b f disk p v bc g lim sol user cfl rmax P sh (along_rays (Z.to_nat (pm_nfx p)) rho u Pr fx) X K dims L St /\
    (messages_fit b p dims -> criterion_ok sh L -> forall clock n,
       let D := mpi_dims (b_nd b) dims in let W := v1d_launch b dims (Some f) disk clock n in
       sound D W /\
       forall m v, v1d_program b dims (Some f) disk (clock (I3 0 0 0)) n = Ok (Some (m, v)) ->
       forall x r, reaches D (start W) x -> In r (ranks D) -> ended (x r) -> pc (x r) = Ret (mloc m r, v)).
Proof.
  intros H1 H2 H3 H4 H5 H6 H7 H8 H9.
  destruct (v1d_launched b T f p v bc g lim sol user cfl rmax P sh disk h x rho u Pr fx H1 H2 H3 H4 H5 H6 H7 H8 H9) as (X & K & HX & H).
  exists X, K. split; [exact HX|]. intros dims Hu. destruct (H dims Hu) as (L & St & He & Hl). exists L, St. split; [exact He|].
  intros Hfit Hcr clock n D W. destruct (locks_sound _ _ _ (Hl Hfit Hcr clock n) (fun r _ => I)) as [S1 S2]. split; [exact S1|].
  intros m vv E xx r Hre Hin Hen. rewrite (S2 xx r Hre Hin Hen).
  pose proof (ve_program _ _ _ _ _ _ _ _ _ _ _ _ _ _ _ _ _ _ _ _ He Hcr (clock (I3 0 0 0)) n) as Q. rewrite E in Q. injection Q as Q.
  change (the_end K cfl P sh rmax (pm_nx0 p) L (fun _ => clock (I3 0 0 0)) n X St) with (the_end K cfl P sh rmax (pm_nx0 p) L clock n X St) in Q.
  rewrite <- Q. reflexivity.
Qed.

Theorem v1d_any_grid b f disk p v bc g lim sol user cfl rmax P sh G X K dims L St dims' L' St' :
  v1d_executes b f disk p v bc g lim sol user cfl rmax P sh G X K dims L St ->
  v1d_executes b f disk p v bc g lim sol user cfl rmax P sh G X K dims' L' St' ->
  threshold_ok sh -> criterion_ok sh L -> criterion_ok sh L' -> forall clock n, exists m m' w,
    v1d_program b dims (Some f) disk clock n = Ok (Some (m, w)) /\ v1d_program b dims' (Some f) disk clock n = Ok (Some (m', w)) /\
    m_oid m' = m_oid m /\ m_iter m' = m_iter m /\ m_t m' = m_t m /\
    same_moving K (I3 (pm_nx0 p) (pm_nx1 p) (pm_nx2 p)) dims L dims' L' (m_st m) (m_st m') /\
    Forall2 (same_file (same_moving K (I3 (pm_nx0 p) (pm_nx1 p) (pm_nx2 p)) dims L dims' L') 0) (m_files m) (m_files m').
Proof.
  intros He He' Ht Hc Hc' clock n.
  pose proof (ve_program _ _ _ _ _ _ _ _ _ _ _ _ _ _ _ _ _ _ _ _ He Hc clock n) as Q.
  pose proof (ve_program _ _ _ _ _ _ _ _ _ _ _ _ _ _ _ _ _ _ _ _ He' Hc' clock n) as Q'.
  pose proof (ve_runs _ _ _ _ _ _ _ _ _ _ _ _ _ _ _ _ _ _ _ _ He) as HR. pose proof (ve_runs _ _ _ _ _ _ _ _ _ _ _ _ _ _ _ _ _ _ _ _ He') as HR'.
  pose proof (ve_fields _ _ _ _ _ _ _ _ _ _ _ _ _ _ _ _ _ _ _ _ He) as HS. pose proof (ve_fields _ _ _ _ _ _ _ _ _ _ _ _ _ _ _ _ _ _ _ _ He') as HS'.
  destruct (ends_alike K (I3 (pm_nx0 p) (pm_nx1 p) (pm_nx2 p)) dims dims' X L L' cfl P sh rmax (fun _ => clock) (fun _ => clock) HR HR' Ht Hc Hc' (fun _ => eq_refl) G St St' n HS HS') as (V & A).
  cbn [ii] in V, A. destruct (the_end K cfl P sh rmax (pm_nx0 p) L (fun _ => clock) n X St) as [m w] eqn:E.
  destruct (the_end K cfl P sh rmax (pm_nx0 p) L' (fun _ => clock) n X St') as [m' w'] eqn:E'. cbn [fst snd] in V, A. subst w'.
  exists m, m', w. split; [exact Q|]. split; [exact Q'|]. exact A.
Qed.

Theorem v1d_refused_by_all b T f p v bc g lim sol user cfl rmax P sh disk dims :
  file_with T f -> described T p -> described_v1d T v -> chosen b T p bc g lim sol user -> timing p cfl P -> SpecProfile.moves p v sh ->
  pm_rmax_shift p = Finite rmax -> usable_v1d b p dims -> ~ (exists h, disk (vp_file v) = Some h /\ fitting (pm_nx0 p) (pm_ng p) (pm_nfx p) h) ->
  exists w, (forall clock n, v1d_program b dims (Some f) disk clock n = Throw w) /\
    (messages_fit b p dims -> forall clock n,
       let D := mpi_dims (b_nd b) dims in let W := v1d_launch b dims (Some f) disk clock n in
       sound D W /\ forall x r, reaches D (start W) x -> In r (ranks D) -> ended (x r) -> pc (x r) = Fail w).
Proof.
  intros H1 H2 H3 H4 H5 H6 H7 H8 H9.
  destruct (v1d_refused b T f p v bc g lim sol user cfl P sh rmax disk H1 H2 H3 H4 H6 H5 H7 dims H8 H9) as (w & A & B).
  exists w. split; [exact A|]. intros Hfit clock n D W. exact (locks_sound _ _ _ (B Hfit clock n) (fun r _ => I)).
Qed.
