(** * Proofs for C95: processes that execute the parameter file at their own speed. *)
From Coq Require Import List Ascii Reals Lra Lia ZifyBool.
From Coq Require String.
From Verif Require Import Base RBase ModelMesh ModelGeom ModelBoundary ModelHydro ModelRad ModelScheme ModelStep ModelUtil ModelIni ModelMain
  ModelMove ModelMPI ModelSetup ModelParam ModelLaunch
  SpecMesh SpecGeom SpecBoundary SpecHydro SpecScheme SpecStep SpecPos SpecSetup SpecMain SpecIni SpecParam SpecMove SpecMPI SpecLaunch
  ProofBase ProofR ProofMesh ProofBoundary ProofBoundary2 ProofBcOrder ProofStep ProofLayout ProofStepEx ProofSetup ProofSetupRun ProofMain ProofRestart
  ProofMove ProofMPI ProofMPIRun ProofParam ProofParamRun ProofParamRun2.
Local Open Scope string_scope.
Local Open Scope Z_scope.
Local Open Scope list_scope.

(** ** From lock-step executions *)
Lemma locks_sound {A : Type} dims (W F : idx -> prog A) : locks dims W F -> (forall r, In r (ranks dims) -> final (F r)) ->
  sound dims W /\ forall s r, reaches dims (start W) s -> In r (ranks dims) -> ended (s r) -> pc (s r) = F r.
Proof.
  intros [l H] Hf. split.
  - split.
    + intros s [n Hs]. exact (progress H Hf Hs).
    + intros s [n Hs]. exact (no_clash H Hf Hs).
    + eexists. intros k s Hs. exact (steps_bounded H Hf Hs).
    + intros s [n Hs]. exact (complete H Hf Hs).
  - intros s r [n Hs] Hr E. exact (same_end H Hf Hs Hr E).
Qed.
Lemma sync_barrier {A : Type} dims (W F : idx -> prog A) : locks dims W F -> locks dims (fun r => sync (W r)) F.
Proof.
  intros H. unfold sync. eapply locks_coll with (m := fun _ => MNone) (k := fun r _ => W r); [intros; reflexivity|split; [reflexivity|discriminate]|]. exact H.
Qed.
Lemma fail_locks {A : Type} dims w : locks (A := A) dims (fun _ => Fail w) (fun _ => Fail w).
Proof. now apply locks_ret. Qed.
Lemma in_process nd dims r : In r (ranks (mpi_dims nd dims)) <-> process nd dims r.
Proof.
  unfold ranks. rewrite in_box_cells, in_box_coord. unfold process. split; intros H d Hd; specialize (H d Hd); rewrite coord_zero in *; exact H.
Qed.

(** ** The grid objects: all processes alike *)
Lemma range_check_says N P r d nglob dims rank :
  N = coord d nglob -> P = coord d dims -> r = coord d rank -> (d < 3)%nat -> 1 <= P -> 0 <= r < P ->
  range_check (mk3 (fun d => decomp_cmin (coord d nglob) (coord d dims) (coord d rank)))
    (mk3 (fun d => coord d (mk3 (fun d => decomp_cmin (coord d nglob) (coord d dims) (coord d rank))) +
                   coord d (mk3 (fun d => decomp_nloc (coord d nglob) (coord d dims) (coord d rank))))) d =
  if N <? 0 then Throw "Cmin < 0 || Cmax < 0" else Ok tt.
Proof.
  intros EN EP Er Hd HP Hr. unfold range_check. rewrite !coord_mk3 by exact Hd. rewrite <- EN, <- EP, <- Er.
  unfold decomp_cmin, decomp_nloc. 
  pose proof (Z.quot_rem N P ltac:(lia)) as Q.
  destruct (Z.ltb_spec N 0) as [L|L].
  - pose proof (Z.rem_bound_pos (- N) P ltac:(lia) ltac:(lia)) as B. rewrite Z.rem_opp_l in B by lia.
    assert (Q0 : Z.quot N P <= 0) by nia.
    destruct (r <? Z.rem N P) eqn:C; [lia|].
    assert (Q1 : Z.quot N P * r <= 0) by nia.
    assert (Q2 : Z.quot N P = 0 \/ Z.quot N P < 0) by lia.
    assert (Z.quot N P * r + Z.rem N P < 0 \/ Z.quot N P * r + Z.rem N P + Z.quot N P < 0) by (destruct Q2 as [Q2|Q2]; [rewrite Q2 in *|]; lia).
    destruct (_ || _)%bool eqn:D; [reflexivity|]. lia.
  - pose proof (Z.rem_bound_pos N P ltac:(lia) ltac:(lia)) as B.
    assert (Q0 : 0 <= Z.quot N P) by nia.
    assert (0 <= Z.quot N P * r) by nia.
    destruct (r <? Z.rem N P) eqn:C.
    + destruct (_ || _)%bool eqn:D; [lia|]. match goal with |- (if ?c then _ else _) = _ => destruct c eqn:G end; [lia|reflexivity].
    + destruct (_ || _)%bool eqn:D; [lia|]. match goal with |- (if ?c then _ else _) = _ => destruct c eqn:G end; [lia|reflexivity].
Qed.
Lemma mpi_dims_pos nd dims d : (forall d, (d < 3)%nat -> 1 <= coord d dims) -> (d < 3)%nat -> 1 <= coord d (mpi_dims nd dims).
Proof. intros H Hd. unfold mpi_dims. rewrite coord_mk3 by exact Hd. destruct (Nat.ltb d nd); [now apply H|lia]. Qed.

(** Either every process refuses the extents, or none does. *)
Lemma decomposition_alike nd N dims ng : (forall d, (d < 3)%nat -> 1 <= coord d dims) ->
  (forall r, process nd dims r -> mpi_decomposition nd N dims ng r = Throw "Cmin < 0 || Cmax < 0") \/
  (forall r, process nd dims r -> exists dec, mpi_decomposition nd N dims ng r = Ok dec /\
     d_nloc dec = mk3 (fun d => decomp_nloc (coord d N) (coord d (mpi_dims nd dims)) (coord d r))).
Proof.
  intros HD.
  assert (H0 : forall d, (d < 3)%nat -> (coord d (mpi_dims nd dims) =? 0) = false).
  { intros d Hd. pose proof (mpi_dims_pos nd dims d HD Hd). lia. }
  set (o := obind (if coord 0 N <? 0 then Throw "Cmin < 0 || Cmax < 0" else Ok tt) (fun _ =>
            obind (if coord 1 N <? 0 then Throw "Cmin < 0 || Cmax < 0" else Ok tt) (fun _ =>
            if coord 2 N <? 0 then Throw "Cmin < 0 || Cmax < 0" else Ok tt))).
  assert (G : forall r, process nd dims r -> match mpi_decomposition nd N dims ng r with
     | Ok dec => o = Ok tt /\ d_nloc dec = mk3 (fun d => decomp_nloc (coord d N) (coord d (mpi_dims nd dims)) (coord d r))
     | Throw w => o = Throw w /\ w = "Cmin < 0 || Cmax < 0" | UB w => False end).
  { intros r Hr. unfold mpi_decomposition. cbv zeta. rewrite !H0 by lia. cbn [orb]. unfold make_range.
    rewrite (range_check_says (coord 0 N) (coord 0 (mpi_dims nd dims)) (coord 0 r) 0 N (mpi_dims nd dims) r) by
      (first [reflexivity|lia|apply (mpi_dims_pos nd dims 0 HD); lia|apply (Hr 0%nat); lia]).
    rewrite (range_check_says (coord 1 N) (coord 1 (mpi_dims nd dims)) (coord 1 r) 1 N (mpi_dims nd dims) r) by
      (first [reflexivity|lia|apply (mpi_dims_pos nd dims 1 HD); lia|apply (Hr 1%nat); lia]).
    rewrite (range_check_says (coord 2 N) (coord 2 (mpi_dims nd dims)) (coord 2 r) 2 N (mpi_dims nd dims) r) by
      (first [reflexivity|lia|apply (mpi_dims_pos nd dims 2 HD); lia|apply (Hr 2%nat); lia]).
    subst o. destruct (coord 0 N <? 0); cbn [obind]; [now split|]. destruct (coord 1 N <? 0); cbn [obind]; [now split|].
    destruct (coord 2 N <? 0); cbn [obind]; [now split|]. cbn [d_nloc]. now split. }
  destruct o as [[]|w|w] eqn:Eo.
  - right. intros r Hr. specialize (G r Hr). destruct (mpi_decomposition nd N dims ng r) as [dec|w|w]; [|destruct G; discriminate|contradiction].
    exists dec. now split.
  - left. intros r Hr. specialize (G r Hr). destruct (mpi_decomposition nd N dims ng r) as [dec|w'|w']; [destruct G; discriminate| |contradiction].
    destruct G as [_ ->]. reflexivity.
  - right. intros r Hr. specialize (G r Hr). destruct (mpi_decomposition nd N dims ng r) as [dec|w'|w']; [destruct G; discriminate|destruct G; discriminate|contradiction].
Qed.

(** ** Gravity of the empty arrays *)
Definition gravity_message : string :=
  "The function make_internal_mass_gravity does not handle more than 1 MPI process in the first dimension".
Section Start.
Context (b : build) (dims : idx) (clock : idx -> Z -> bool).
Hypothesis Hdims : forall d, (d < 3)%nat -> 1 <= coord d dims.
Local Notation D := (mpi_dims (b_nd b) dims).
Lemma zero_rank : In (I3 0 0 0) (ranks D).
Proof. apply in_process. exact (rank0_process _ _ Hdims). Qed.

Lemma gravity_early p ps g gt (dec : idx -> decomp) X :
  (forall r, process (b_nd b) dims r -> d_nloc (dec r) = mk3 (fun d => decomp_nloc (coord d (extents p)) (coord d D) (coord d r))) ->
  let j r := job b dims (early p ps (dec r) g gt) (clock r) r in
  match (match b_grav b with
         | InternalMassGrav => if coord 0 D =? 1 then Ok tt else Throw gravity_message
         | _ => Ok tt end) with
  | Throw w => locks D (fun r => pgravity (j r) (own_layout (j r) X) (fun _ => zero_cell)) (fun _ => Fail w)
  | _ => exists G, locks D (fun r => pgravity (j r) (own_layout (j r) X) (fun _ => zero_cell)) (fun r => Ret (G r))
  end.
Proof.
  intros Hd j. unfold pgravity.
  destruct (b_grav b) eqn:Eg.
  - assert (E : forall r, k_grav (j_K (j r)) = GUniform (fun d => match d with O => value_of (pm_gx0 p) | 1%nat => value_of (pm_gx1 p) | _ => value_of (pm_gx2 p) end)).
    { intro r. unfold j, job, config_of. cbn [j_K k_grav]. now rewrite Eg. }
    eexists. apply locks_ret. intros r _. rewrite E. reflexivity.
  - assert (E : forall r, k_grav (j_K (j r)) = GPointMass (value_of (pm_M p))).
    { intro r. unfold j, job, config_of. cbn [j_K k_grav]. now rewrite Eg. }
    exists (fun r => radial_gravity (l_mesh (own_layout (j r) X) (j_r (j r))) (fun _ => value_of (pm_M p))).
    apply locks_ret. intros r _. rewrite E. reflexivity.
  - assert (E : forall r, k_grav (j_K (j r)) = GInternalMass (value_of (pm_M p))).
    { intro r. unfold j, job, config_of. cbn [j_K k_grav]. now rewrite Eg. }
    change (coord 0 D) with (ii D). destruct (Z.eqb_spec (ii D) 1) as [E1|E1].
    + set (m := fun r => l_mesh (own_layout (j r) X) (j_r (j r))).
      set (gh := nghost_of (b_nd b) (pm_ng p)).
      set (n := fun r => ii (d_nloc (dec r)) + ii gh).
      set (vol := fun r c => dv (b_geom b) (b_nd b) (m r) c).
      set (shell := fun r (f : idx -> R) i => lsum f (shell_cells (d_nloc (dec r)) gh i)).
      assert (Hn : forall r q, In r (ranks D) -> In q (group D Horizontal r) -> n q = n r).
      { intros r q Hr Hq. pose proof (group_in Hr Hq) as Hq'. pose proof (proj1 (in_process _ _ _) Hq') as Pq. pose proof (proj1 (in_process _ _ _) Hr) as Pr.
        unfold n. rewrite (Hd r Pr), (Hd q Pq). cbn [mk3 ii]. f_equal. f_equal.
        pose proof (Pq 0%nat ltac:(lia)). pose proof (Pr 0%nat ltac:(lia)). change (coord 0 D) with (ii D) in *. rewrite E1 in *. lia. }
      eexists. 
      apply locks_coll with (c := Horizontal) (o := OSum) (m := fun r => MReals (n r) (shell r (vol r)))
        (k := fun r v => Call (Collective Horizontal OSum (MReals (n r) (shell r (fun c => (c_rho zero_cell * vol r c)%R)))) (fun w =>
          Ret (radial_gravity (m r) (mass_r (m r) (value_of (pm_M p)) (ii gh) (fun i => (reals_of w i / reals_of v i)%R))))).
      { intros r Hr. rewrite E. change (j_dims (j r)) with D. rewrite E1, Z.eqb_refl. reflexivity. }
      { split; [|discriminate]. intros r q Hr Hq. cbn [shape_of]. now rewrite (Hn r q Hr Hq). }
      eapply locks_coll with (c := Horizontal) (o := OSum) (m := fun r => MReals (n r) (shell r (fun c => (c_rho zero_cell * vol r c)%R))); [intros; reflexivity| |].
      { split; [|discriminate]. intros r q Hr Hq. cbn [shape_of]. now rewrite (Hn r q Hr Hq). }
      apply locks_ret. reflexivity.
    + apply locks_ret. intros r _. rewrite E. change (j_dims (j r)) with D. destruct (Z.eqb_spec (ii D) 1); [contradiction|reflexivity].
Qed.
Lemma amplitudes_locks {A : Type} (draw : idx -> R * R * R * R) (k : idx -> R * R * R * R -> prog A) F :
  locks D (fun r => k r (match b_setup b with KRayleighTaylor3d => draw (I3 0 0 0) | _ => draw r end)) F ->
  locks D (fun r => amplitudes (b_setup b) (draw r) (k r)) F.
Proof.
  intros H. unfold amplitudes. destruct (b_setup b) eqn:Es; try exact H.
  apply locks_coll with (c := World) (o := OBcast (I3 0 0 0))
    (m := fun r => MReals 4 (fun i => if i =? 0 then fst (fst (fst (draw r))) else if i =? 1 then snd (fst (fst (draw r))) else if i =? 2 then snd (fst (draw r)) else snd (draw r)))
    (k := fun r m => k r (reals_of m 0, reals_of m 1, reals_of m 2, reals_of m 3)).
  { intros r _. destruct (draw r) as [[[? ?] ?] ?]. reflexivity. }
  { split; [reflexivity|]. intros root r E Hr. injection E as <-. exact zero_rank. }
  eapply locks_ext; [|exact H]. intros r _. cbn [combine reals_of Z.eqb]. destruct (draw (I3 0 0 0)) as [[[? ?] ?] ?]. reflexivity.
Qed.
Lemma setup_of_amps x a1 b1 c1 d1 a2 b2 c2 d2 : b_setup b <> KRayleighTaylor3d -> setup_of b x a1 b1 c1 d1 = setup_of b x a2 b2 c2 d2.
Proof. intros H. unfold setup_of. destruct (b_setup b); try reflexivity. now elim H. Qed.
Lemma late_alike p ps d d' g names gt w : late b p ps d g names gt = Throw w -> late b p ps d' g names gt = Throw w.
Proof.
  unfold late. destruct (omap _ names); cbn [obind]; [|exact (fun h => h)|discriminate]. destruct (generate_order _ _); cbn [obind]; [|exact (fun h => h)|discriminate].
  destruct (factory_limiter _); cbn [obind]; [|exact (fun h => h)|discriminate]. destruct (factory_solver _); cbn [obind]; [|exact (fun h => h)|discriminate].
  destruct (or_setup _ _); cbn [obind]; [discriminate|exact (fun h => h)|discriminate].
Qed.

(** ** A file that is rejected *)

(** From the initialisation on. *)
Definition after (p : param) (ps : list real_value) (g : gas) (names : list string) (gt : option (choice grid_kind)) (n : nat)
  (dec : decomp) (r : idx) (grav : gravity) (amp : R * R * R * R) : prog (mstate lstate * verdict) :=
  let '(ak, bk, ck, dk) := amp in
  match setup_of b (early p ps dec g gt) ak bk ck dk with
  | None => own (late b p ps dec g names gt) (fun _ => Fail "not composed here")
  | Some s =>
      own (setup_check (b_geom b) s) (fun _ =>
      own (late b p ps dec g names gt) (fun x =>
      if negb (composed x) then Fail "not composed here" else
      prun (job b dims x (clock r) r) n (coords_of b p) (fun f => Some (k_bcs (config_of b x) f))
        (own_setup_state s (config_of b x) (gas_thermo g) (extents p) (own_layout (job b dims x (clock r) r) (coords_of b p)) r grav)))
  end.
Lemma start_locks file draw n : no_overflow b dims file ->
  (forall m p, reader_of file = Ok m -> read_param m = Ok p -> pm_restart p = false) ->
  (exists w, startup b dims (I3 0 0 0) file = Throw w /\ locks D (launch b dims file draw clock n) (fun _ => Fail w)) \/
  exists p ps g names gt dec G, startup b dims (I3 0 0 0) file = late b p ps (dec (I3 0 0 0)) g names gt /\
    forall F, locks D (fun r => after p ps g names gt n (dec r) r (G r) (match b_setup b with KRayleighTaylor3d => draw (I3 0 0 0) | _ => draw r end)) F ->
      locks D (launch b dims file draw clock n) F.
Proof.
  intros Ho Hre. pose proof (rank0_process (b_nd b) dims Hdims) as P0. pose proof (fun w => Ho _ w P0) as E. unfold no_overflow, startup in *. unfold launch.
  destruct (reader_of file) as [m|w1|w1]; cbn [obind own] in *; [|left; exists w1; split; [reflexivity|apply fail_locks]|now elim (E w1)].
  specialize (Hre m). unfold startup_from in *.
  destruct (read_param m) as [p|w1|w1]; cbn [obind own] in *; [|left; exists w1; split; [reflexivity|apply fail_locks]|now elim (E w1)].
  specialize (Hre p eq_refl eq_refl).
  destruct (read_setup m (b_setup b)) as [ps|w1|w1]; cbn [obind own] in *; [|left; exists w1; split; [reflexivity|apply fail_locks]|now elim (E w1)].
  assert (Hg : (forall r, process (b_nd b) dims r -> make_grid (b_nd b) p dims r = Throw "Cmin < 0 || Cmax < 0") \/
     exists dec, forall r, process (b_nd b) dims r -> make_grid (b_nd b) p dims r = Ok (dec r) /\
       d_nloc (dec r) = mk3 (fun d => decomp_nloc (coord d (extents p)) (coord d D) (coord d r))).
  { destruct (decomposition_alike (b_nd b) (extents p) dims (pm_ng p) Hdims) as [H|H].
    - left. intros r Hr. unfold make_grid. fold (extents p). cbv zeta. now rewrite (H r Hr).
    - right. exists (fun r => match mpi_decomposition (b_nd b) (extents p) dims (pm_ng p) r with Ok dec => dec | _ => mkDecomp (I3 0 0 0) (I3 0 0 0) (mkRange (I3 0 0 0) (I3 0 0 0) 0 0 (I3 0 0 0)) (fun _ => (false, false)) end).
      intros r Hr. destruct (H r Hr) as (dec & Ed & El). rewrite Ed. split; [|exact El].
      specialize (Ho r "signed overflow" Hr). unfold make_grid in *. fold (extents p) in *. cbv zeta in *. rewrite Ed in *. cbn [obind own] in *.
      destruct (forallb int32 _); [reflexivity|]. now elim Ho. }
  destruct Hg as [Hg|(dec & Hg)].
  { left. rewrite (Hg _ P0). cbn [obind]. eexists. split; [reflexivity|].
    apply sync_barrier. apply locks_ret. intros r Hr. rewrite (Hg r (proj1 (in_process _ _ _) Hr)). reflexivity. }
  rewrite (proj1 (Hg _ P0)) in *. cbn [obind own] in *.
  assert (Go : forall (W : idx -> decomp -> prog (mstate lstate * verdict)) F, locks D (fun r => W r (dec r)) F ->
    locks D (fun r => sync (own (make_grid (b_nd b) p dims r) (fun d => sync (W r d)))) F).
  { intros W F H. apply sync_barrier. eapply locks_ext; [|exact (sync_barrier _ _ _ H)]. intros r Hr. cbv beta. rewrite (proj1 (Hg r (proj1 (in_process _ _ _) Hr))). reflexivity. }
  destruct (make_eos (b_eos b) p) as [g|w1|w1]; cbn [obind own] in *; [|left; exists w1; split; [reflexivity|apply Go; apply fail_locks]|now elim (E w1)].
  destruct (bc_names (b_nd b) m) as [names|w1|w1]; cbn [obind own] in *; [|left; exists w1; split; [reflexivity|apply Go; apply fail_locks]|now elim (E w1)].
  rewrite Hre in *.
  destruct (obind (or_setup factory_grid_type (pm_grid_type p)) (fun t => Ok (Some t))) as [gt|w1|w1]; cbn [obind own] in *;
    [|left; exists w1; split; [reflexivity|apply Go; apply fail_locks]|now elim (E w1)].
  pose proof (gravity_early p ps g gt dec (coords_of b p) (fun r Hr => proj2 (Hg r Hr))) as Hgr. cbv zeta in Hgr.
  fold gravity_message in *.
  match type of Hgr with match ?x with _ => _ end => destruct x as [[]|w1|w1] end; cbn [obind own] in *.
  2:{ left. exists w1. split; [reflexivity|]. apply Go. cbn [own]. apply locks_bind_fail. exact Hgr. }
  2:{ now elim (E w1). }
  destruct Hgr as [G Hgr]. right. exists p, ps, g, names, gt, dec, G. split; [reflexivity|]. intros F HF.
  apply Go. cbn [own]. eapply locks_bind; [exact Hgr|]. cbv beta. apply amplitudes_locks. exact HF.
Qed.
Definition amp_of (draw : idx -> R * R * R * R) (r : idx) : R * R * R * R := match b_setup b with KRayleighTaylor3d => draw (I3 0 0 0) | _ => draw r end.
Definition same_setup draw p ps g gt dec r : (let '(ak, bk, ck, dk) := amp_of draw r in setup_of b (early p ps dec g gt) ak bk ck dk) =
  let '(ak, bk, ck, dk) := draw (I3 0 0 0) in setup_of b (early p ps dec g gt) ak bk ck dk.
Proof.
  unfold amp_of. destruct (draw r) as [[[? ?] ?] ?], (draw (I3 0 0 0)) as [[[? ?] ?] ?].
  destruct (b_setup b) eqn:Es; try (apply setup_of_amps; rewrite Es; discriminate). reflexivity.
Qed.
Lemma setup_of_setup x x' ak bk ck dk : r_setup x = r_setup x' -> setup_of b x ak bk ck dk = setup_of b x' ak bk ck dk.
Proof. intros H. unfold setup_of. rewrite H. reflexivity. Qed.

Lemma rejected_locks file draw n w : no_overflow b dims file ->
  (forall m p, reader_of file = Ok m -> read_param m = Ok p -> pm_restart p = false) ->
  program b dims file (draw (I3 0 0 0)) (clock (I3 0 0 0)) n = Throw w ->
  exists w', locks D (launch b dims file draw clock n) (fun _ => Fail w') /\
    (w' = w \/ startup b dims (I3 0 0 0) file = Throw w /\ exists s, setup_check (b_geom b) s = Throw w').
Proof.
  intros Ho Hre E. unfold program in E. 
  destruct (start_locks file draw n Ho Hre) as [(w1 & E1 & H1)|(p & ps & g & names & gt & dec & G & E1 & H1)].
  { exists w1. split; [exact H1|]. left. destruct (draw (I3 0 0 0)) as [[[? ?] ?] ?]. rewrite E1 in E. now injection E as ->. }
  pose proof (same_setup draw p ps g gt) as Hso. destruct (draw (I3 0 0 0)) as [[[ak bk] ck] dk] eqn:Ed. rewrite E1 in *.
  assert (Hafter : forall w', (late b p ps (dec (I3 0 0 0)) g names gt = Throw w' /\ setup_of b (early p ps (dec (I3 0 0 0)) g gt) ak bk ck dk = None) \/
     (exists s, setup_of b (early p ps (dec (I3 0 0 0)) g gt) ak bk ck dk = Some s /\
        (setup_check (b_geom b) s = Throw w' \/ setup_check (b_geom b) s = Ok tt /\ late b p ps (dec (I3 0 0 0)) g names gt = Throw w')) ->
     locks D (launch b dims file draw clock n) (fun _ => Fail w')).
  { intros w' C. apply H1. apply locks_ret. intros r Hr. specialize (Hso (dec r) r). unfold amp_of in Hso. rewrite ?Ed in Hso. unfold after.
    destruct (match b_setup b with KRayleighTaylor3d => (ak, bk, ck, dk) | _ => draw r end) as [[[a1 b1] c1] d1]. rewrite Hso.
    change (setup_of b (early p ps (dec r) g gt) ak bk ck dk) with (setup_of b (early p ps (dec (I3 0 0 0)) g gt) ak bk ck dk).
    destruct C as [[C1 C2]|(s & C1 & [C2|[C2 C3]])].
    - rewrite C2, (late_alike p ps _ (dec r) g names gt w' C1). reflexivity.
    - rewrite C1, C2. reflexivity.
    - rewrite C1, C2. cbn [own]. rewrite (late_alike p ps _ (dec r) g names gt w' C3). reflexivity. }
  destruct (setup_of b (early p ps (dec (I3 0 0 0)) g gt) ak bk ck dk) as [s|] eqn:Es.
  - assert (C : setup_check (b_geom b) s = Ok tt \/ exists w', setup_check (b_geom b) s = Throw w') by (unfold setup_check; destruct s; auto; destruct (b_geom b); eauto).
    destruct (late b p ps (dec (I3 0 0 0)) g names gt) as [x|w1|w1] eqn:El; cbn [obind] in E; [|injection E as ->|discriminate].
    + assert (Ex : r_setup x = ps /\ k_geom (config_of b x) = b_geom b).
      { split; [|reflexivity]. revert El. unfold late. destruct (omap _ names); cbn [obind]; [|discriminate|discriminate]. destruct (generate_order _ _); cbn [obind]; [|discriminate|discriminate].
        destruct (factory_limiter _); cbn [obind]; [|discriminate|discriminate]. destruct (factory_solver _); cbn [obind]; [|discriminate|discriminate].
        match goal with |- obind ?y _ = _ -> _ => destruct y end; cbn [obind]; [|discriminate|discriminate]. now intros [= <-]. }
      destruct (negb (composed x)); [discriminate|]. rewrite (setup_of_setup x (early p ps (dec (I3 0 0 0)) g gt)) in E by exact (proj1 Ex). rewrite Es in E.
      unfold initialise in E. rewrite (proj2 Ex) in E. destruct C as [C|[w' C]]; rewrite C in E; cbn [obind] in E; [discriminate|]. injection E as ->.
      exists w. split; [|now left]. apply Hafter. right. exists s. split; [reflexivity|now left].
    + destruct C as [C|[w' C]].
      * exists w. split; [|now left]. apply Hafter. right. exists s. split; [reflexivity|right; now split].
      * exists w'. split; [|right; split; [reflexivity|now exists s]]. apply Hafter. right. exists s. split; [reflexivity|now left].
  - destruct (late b p ps (dec (I3 0 0 0)) g names gt) as [x|w1|w1] eqn:El; cbn [obind] in E; [|injection E as ->|discriminate].
    + assert (Ex : r_setup x = ps).
      { revert El. unfold late. destruct (omap _ names); cbn [obind]; [|discriminate|discriminate]. destruct (generate_order _ _); cbn [obind]; [|discriminate|discriminate].
        destruct (factory_limiter _); cbn [obind]; [|discriminate|discriminate]. destruct (factory_solver _); cbn [obind]; [|discriminate|discriminate].
        match goal with |- obind ?y _ = _ -> _ => destruct y end; cbn [obind]; [|discriminate|discriminate]. now intros [= <-]. }
      destruct (negb (composed x)); [discriminate|]. rewrite (setup_of_setup x (early p ps (dec (I3 0 0 0)) g gt)) in E by exact Ex. rewrite Es in E. discriminate.
    + exists w. split; [|now left]. apply Hafter. left. now split.
Qed.
End Start.

(** ** The loop without grid shift *)
Section Embed.
Context {S S' : Type} (D : dynamics S) (D' : dynamics S') (e : S -> S') (p : params) (clock : Z -> bool).
Hypothesis Hdt : forall s, y_dt D' (e s) = y_dt D s.
Hypothesis Hbad : forall s, y_bad D' (e s) = y_bad D s.
Hypothesis Hstep : forall t dt s, y_step D' t dt (e s) = e (y_step D t dt s).
Definition efile (f : file S) : file S' := mkFile (fl_oid f) (fl_iid f) (fl_tid f) (fl_iter f) (fl_t f) (e (fl_data f)).
Definition emb (m : mstate S) : mstate S' :=
  mkM (m_oid m) (m_iid m) (m_tid m) (m_iter m) (m_t m) (m_record m) (e (m_st m)) (map efile (m_files m)).
Lemma emb_write m : write (emb m) = emb (write m).
Proof. unfold write, emb. cbn [m_oid m_iid m_tid m_iter m_t m_record m_st m_files]. f_equal. rewrite map_app. reflexivity. Qed.
Lemma emb_output m : output (emb m) = emb (output m).
Proof. unfold output. rewrite <- emb_write. reflexivity. Qed.
Lemma emb_body m : ModelMain.body D' p clock (emb m) = let (m', v) := ModelMain.body D p clock m in (emb m', v).
Proof.
  unfold ModelMain.body, iter_schedule, time_schedule. cbn [emb m_oid m_iid m_tid m_iter m_t m_record m_st m_files].
  destruct (negb (int32 (m_iter m + 1))); [reflexivity|].
  destruct (if 0 <? p_iter_freq p then _ else _) as [[out1 iid]|w|w]; [|reflexivity|reflexivity].
  rewrite Hdt. match goal with |- context [match ?x with Ok _ => _ | Throw _ => _ | UB _ => _ end] => destruct x as [[[out2 tid] dt2]|w|w] end; [|reflexivity|reflexivity].
  destruct (clip_to_end p (m_t m) dt2) as [stop1 dt]. rewrite Hbad. destruct (y_bad D (m_st m)).
  - rewrite <- emb_write. reflexivity.
  - rewrite Hstep. destruct (out1 || out2 || _)%bool; [rewrite <- emb_output|]; reflexivity.
Qed.
Lemma emb_loop n : forall m, loop D' p clock n (emb m) = let (m', v) := loop D p clock n m in (emb m', v).
Proof.
  induction n as [|n IH]; intros m; [reflexivity|]. cbn [loop]. rewrite emb_body. destruct (ModelMain.body D p clock m) as [m' v].
  destruct v; [apply IH|reflexivity..].
Qed.
Lemma emb_fresh s : fresh p (e s) = emb (fresh p s).
Proof. unfold fresh. destruct (_ || _)%bool; [rewrite <- emb_output|]; reflexivity. Qed.
End Embed.

Lemma still_run K cfl P L clock n X St Nx0 rmax : relaid L X = L ->
  the_end K cfl P ShiftOff rmax Nx0 L clock n X St =
  let (m, v) := loop (hydro K L cfl) P (clock (I3 0 0 0)) n (fresh P (init_state K L St)) in
  (emb (fun st => mkGS X true (k_bcs K) st) m, v).
Proof.
  intros HX. unfold the_end, move_init. rewrite HX.
  rewrite <- (emb_loop (hydro K L cfl) (moving K L Nx0 (decision K ShiftOff) rmax cfl)).
  - rewrite <- emb_fresh. reflexivity.
  - intros s. cbn [moving y_dt v_x v_st]. now rewrite HX.
  - intros s. cbn [moving y_bad v_x v_st]. now rewrite HX.
  - intros t dt s. cbn [moving y_step]. unfold move_step. cbn [v_x v_st v_bcs v_on]. rewrite HX, with_own_bcs. cbn [decision].
    rewrite Bool.andb_false_r. reflexivity.
Qed.
Lemma held_mloc X bcs m r : mloc (emb (fun st => mkGS X true bcs st) m) r = held X bcs m r.
Proof. unfold mloc, held, emb. cbn [m_oid m_iid m_tid m_iter m_t m_record m_st m_files]. f_equal. rewrite map_map. reflexivity. Qed.

(** ** What every process has done when start-up succeeds *)
Lemma startup_inv b dims r file x : startup b dims r file = Ok x ->
  exists m names, reader_of file = Ok m /\ read_param m = Ok (r_param x) /\ read_setup m (b_setup b) = Ok (r_setup x) /\
    make_grid (b_nd b) (r_param x) dims r = Ok (r_dec x) /\ make_eos (b_eos b) (r_param x) = Ok (r_gas x) /\ bc_names (b_nd b) m = Ok names /\
    (if pm_restart (r_param x) then Ok None else obind (or_setup factory_grid_type (pm_grid_type (r_param x))) (fun t => Ok (Some t))) = Ok (r_grid x) /\
    late b (r_param x) (r_setup x) (r_dec x) (r_gas x) names (r_grid x) = Ok x.
Proof.
  unfold startup, startup_from. intros E.
  destruct (reader_of file) as [m|w|w]; cbn [obind] in E; [|discriminate|discriminate].
  destruct (read_param m) as [p|w|w] eqn:E1; cbn [obind] in E; [|discriminate|discriminate].
  destruct (read_setup m (b_setup b)) as [ps|w|w] eqn:E2; cbn [obind] in E; [|discriminate|discriminate].
  destruct (make_grid (b_nd b) p dims r) as [dec|w|w] eqn:E3; cbn [obind] in E; [|discriminate|discriminate].
  destruct (make_eos (b_eos b) p) as [g|w|w] eqn:E4; cbn [obind] in E; [|discriminate|discriminate].
  destruct (bc_names (b_nd b) m) as [names|w|w] eqn:E5; cbn [obind] in E; [|discriminate|discriminate].
  match type of E with obind ?y _ = _ => destruct y as [gt|w|w] eqn:E6 end; cbn [obind] in E; [|discriminate|discriminate].
  match type of E with obind ?y _ = _ => destruct y as [[]|w|w] eqn:E7 end; cbn [obind] in E; [|discriminate|discriminate].
  fold (late b p ps dec g names gt) in E.
  exists m, names.
  assert (A : r_param x = p /\ r_setup x = ps /\ r_dec x = dec /\ r_gas x = g /\ r_grid x = gt).
  { revert E. unfold late. destruct (omap _ names); cbn [obind]; [|discriminate|discriminate]. destruct (generate_order _ _); cbn [obind]; [|discriminate|discriminate].
    destruct (factory_limiter _); cbn [obind]; [|discriminate|discriminate]. destruct (factory_solver _); cbn [obind]; [|discriminate|discriminate].
    match goal with |- obind ?y _ = _ -> _ => destruct y end; cbn [obind]; [|discriminate|discriminate]. intros [= <-]. now repeat split. }
  destruct A as (-> & -> & -> & -> & ->). repeat split; assumption.
Qed.

(** ** A file that is executed *)
Section File.
Context (b : build) (T : list entry) (f : bytes) (p : param) (lo hi : nat -> R).
Context (bc : nat -> bcond) (g : gas) (lim : limiter) (sol : solver) (user : user_kind) (draw : idx -> R * R * R * R) (s : setup) (cfl : R) (P : params).
Hypothesis Hf : file_with T f.
Hypothesis Hp : described T p.
Hypothesis Hc : chosen b T p bc g lim sol user.
Hypothesis Hs : starts_with T (b_setup b) (draw (I3 0 0 0)) s.
Hypothesis Hm : pm_shift_grid p <> "UserDefined".
Hypothesis Hi : implemented (b_geom b) s.
Hypothesis Ht : timing p cfl P.

Theorem file_launched : exists X K, forall dims, usable b p dims lo hi -> exists L,
  executes b f p lo hi bc g lim sol user (draw (I3 0 0 0)) s cfl P X K dims L /\
  (messages_fit b p dims -> forall clock n m v, program b dims (Some f) (draw (I3 0 0 0)) (clock (I3 0 0 0)) n = Ok (Some (m, v)) ->
     locks (mpi_dims (b_nd b) dims) (launch b dims (Some f) draw clock n) (fun r => Ret (held X (k_bcs K) m r, v))).
Proof.
  destruct (draw (I3 0 0 0)) as [[[ak bk] ck] dk] eqn:Eamp.
  destruct (starts_described T (b_setup b) ak bk ck dk s Hs) as (vs & Hd & Hso).
  set (ps := map Finite vs) in *.
  assert (Hx : exists X K, X = coords_of b p /\ K = config_of b (the_run b p ps bc g lim sol user (decs (b_nd b) (extents p) (I3 1 1 1) (pm_ng p) rank0)) /\
     forall dims, usable b p dims lo hi -> exists L, L = layout_of b dims (program_runs b dims (Some f) (the_run b p ps bc g lim sol user (decs (b_nd b) (extents p) dims (pm_ng p) (I3 0 0 0)))) /\
     executes b f p lo hi bc g lim sol user (ak, bk, ck, dk) s cfl P X K dims L).
  { exact (file_executed_as b T f p lo hi bc g lim sol user ak bk ck dk s cfl P ps Hf Hp Hc Hd Hso Hm Hi Ht). }
  destruct Hx as (X & K & EX & EK & Hx). exists X, K. intros dims Hu. destruct (Hx dims Hu) as (L & EL & He). clear Hx.
  exists L. split; [exact He|]. intros Hfit clock n m v Hv.
  pose proof (xr_program _ _ _ _ _ _ _ _ _ _ _ _ _ _ _ _ _ _ He (clock (I3 0 0 0)) n) as Hpr.
  pose proof (us_dims _ _ _ _ _ Hu) as Hdims.
  set (runs := fun r => the_run b p ps bc g lim sol user (decs (b_nd b) (extents p) dims (pm_ng p) r)).
  assert (Hst : forall r, process (b_nd b) dims r -> startup b dims r (Some f) = Ok (runs r)).
  { intros r Hr. exact (every_process_starts b T f dims p ps lo hi bc g lim sol user Hf Hp Hd Hu Hc r Hr). }
  pose proof (rank0_process (b_nd b) dims Hdims) as H0.
  assert (HL : relaid L X = L).
  { rewrite EL, EX. unfold relaid, layout_of. cbn [l_dims l_dec l_mesh]. f_equal. apply FunctionalExtensionality.functional_extensionality. intros r.
    assert (E : r_param (program_runs b dims (Some f) (runs (I3 0 0 0)) r) = p).
    { unfold program_runs. destruct (startup b dims r (Some f)) as [x|w|w] eqn:E; [|reflexivity|reflexivity].
      destruct (startup_inv _ _ _ _ _ E) as (m1 & n1 & R1 & R2 & _). destruct (startup_inv _ _ _ _ _ (Hst _ H0)) as (m2 & n2 & Q1 & Q2 & _).
      rewrite R1 in Q1. injection Q1 as <-. rewrite R2 in Q2. injection Q2 as ->. reflexivity. }
    fold (runs (I3 0 0 0)). rewrite E. destruct (set_grid _ _); reflexivity. }
  assert (HLd : forall r, process (b_nd b) dims r -> l_dec L r = r_dec (runs r) /\ l_mesh L r = own_mesh b (runs r)).
  { intros r Hr. rewrite EL. unfold layout_of, program_runs. cbn [l_dec l_mesh]. rewrite (Hst r Hr). split; reflexivity. }
  assert (HLD : l_dims L = mpi_dims (b_nd b) dims) by (rewrite EL; reflexivity).
  assert (EP : params_of (runs (I3 0 0 0)) = P).
  { destruct Ht as (T1 & T2 & T3 & T4 & T5 & T6 & T7).
    unfold params_of, runs, the_run. cbn [r_param]. rewrite T2, T3, T6, T7, <- T4, <- T5. now destruct P. }
  assert (Ecfl : value_of (pm_cfl p) = cfl) by (destruct Ht as (T1 & _); now rewrite T1).
  set (TT := task_of K (pm_nfx p) cfl P ShiftOff 0 (pm_nx0 p) L clock).
  assert (Hjob : forall r, process (b_nd b) dims r -> job b dims (runs r) (clock r) r = TT r).
  { intros r Hr. unfold job, TT, task_of. destruct (HLd r Hr) as [-> ->]. rewrite HLD, <- Ecfl, <- EP, EK. reflexivity. }
  set (nglob := I3 (pm_nx0 p) (pm_nx1 p) (pm_nx2 p)).
  pose proof (xr_runs _ _ _ _ _ _ _ _ _ _ _ _ _ _ _ _ _ _ He) as Hro. fold nglob in Hro.
  assert (Hnd : k_nd K = b_nd b) by (rewrite EK; reflexivity).
  assert (HD : decomposed (k_nd K) nglob dims (k_ng K) (l_dec L)) by exact (lo_dec (ro_layout Hro)).
  assert (HP : l_dims L = mpi_dims (k_nd K) dims) by exact (lo_dims (ro_layout Hro)).
  assert (Hsize : forall d r, (d < k_nd K)%nat -> In r (ranks (l_dims L)) -> message_size K (pm_nfx p) L d r <= int_max).
  { intros d r Hd' Hr. rewrite HLD in Hr. apply in_process in Hr. unfold message_size. rewrite Hnd in *.
    pose proof (Hfit d r (l_dec L r) Hd' Hr) as Q. cbv zeta in Q. change (k_ng K) with (k_ng K). replace (k_ng K) with (pm_ng p) by (rewrite EK; reflexivity).
    assert (int_max = 2 ^ 31 - 1) as -> by reflexivity. apply Q.
    pose proof (dcp_ok HD (rank := r)) as G. replace (k_ng K) with (pm_ng p) in G by (rewrite EK; reflexivity). exact (G Hr). }
  assert (Hgr : match k_grav K with GInternalMass _ => ii (l_dims L) = 1 | _ => True end).
  { pose proof (ro_grav Hro) as G. unfold gravity_ok in G. destruct (k_grav K); trivial. rewrite HP. exact G. }
  set (th := match g with PGas g => pg_thermo g | RGas g => rg_thermo g end) in *.
  set (St := setup_state s K th nglob L).
  assert (Hrun := run_locks (nfx := pm_nfx p) cfl P 0%R (pm_nx0 p) clock HD HP Hsize Hgr n X St (I : criterion_ok ShiftOff L)).
  rewrite (still_run K cfl P L clock n X St (pm_nx0 p) 0%R HL) in Hrun. fold nglob in Hpr. fold St in Hpr.
  rewrite Hv in Hpr. injection Hpr as Hpr. rewrite <- Hpr in Hrun. cbn [fst snd] in Hrun. 
  destruct (startup_inv _ _ _ _ _ (Hst _ H0)) as (mm & names & R1 & R2 & R3 & R4 & R5 & R6 & R7 & R8).
  cbn [runs the_run r_param r_setup r_gas r_grid] in R2, R3, R5, R7.
  assert (Hall : forall r, process (b_nd b) dims r -> make_grid (b_nd b) p dims r = Ok (r_dec (runs r)) /\
    late b p ps (r_dec (runs r)) g names (Some (Builtin RegularGrid)) = Ok (runs r)).
  { intros r Hr. destruct (startup_inv _ _ _ _ _ (Hst r Hr)) as (m2 & n2 & Q1 & Q2 & Q3 & Q4 & Q5 & Q6 & Q7 & Q8).
    rewrite R1 in Q1. injection Q1 as <-. rewrite R6 in Q6. injection Q6 as <-. split; [exact Q4|exact Q8]. }
  unfold launch. rewrite R1. cbn [own]. rewrite R2. cbn [own]. rewrite R3. cbn [own].
  apply sync_barrier.
  eapply locks_ext with (W := fun r => sync _).
  { intros r Hr. apply in_process in Hr. rewrite (proj1 (Hall r Hr)). cbn [own]. rewrite R5. cbn [own]. rewrite R6. cbn [own]. rewrite R7. cbn [own].
    rewrite (us_new _ _ _ _ _ Hu). reflexivity. }
  apply sync_barrier. cbv zeta.
  rewrite <- HLD.
  eapply locks_bind with (v := fun r => gravity_values K L (fun _ _ => zero_cell) r).
  { pose proof (gravity_locks (nfx := pm_nfx p) cfl P ShiftOff 0%R (pm_nx0 p) clock HD HP Hsize Hgr (k_bcs K) X (fun _ _ => zero_cell)) as G.
    rewrite with_own_bcs, HL in G. eapply locks_ext; [|exact G]. intros r Hr. rewrite HLD in Hr. apply in_process in Hr.
    cbv beta. change (task_of K (pm_nfx p) cfl P ShiftOff 0 (pm_nx0 p) L clock r) with (TT r). rewrite <- (Hjob r Hr). rewrite <- EX. reflexivity. }
  rewrite HLD. apply (amplitudes_locks b dims Hdims draw).
  assert (EF : (fun r => Ret (mloc (emb (fun st => mkGS X true (k_bcs K) st) m) r, v)) = (fun r => Ret (held X (k_bcs K) m r, v))).
  { apply FunctionalExtensionality.functional_extensionality. intros r. now rewrite held_mloc. }
  rewrite EF in Hrun. rewrite <- HLD. eapply locks_ext; [|exact Hrun]. intros r Hr. rewrite HLD in Hr. apply in_process in Hr. cbv beta.
  assert (Es : (let '(ak, bk, ck, dk) := match b_setup b with KRayleighTaylor3d => draw (I3 0 0 0) | _ => draw r end in
     setup_of b (early p ps (r_dec (runs r)) g (Some (Builtin RegularGrid))) ak bk ck dk) = Some s).
  { pose proof (Hso b (early p ps (r_dec (runs r)) g (Some (Builtin RegularGrid))) eq_refl eq_refl) as Q. rewrite Eamp.
    destruct (draw r) as [[[a1 b1] c1] d1].
    destruct (b_setup b) eqn:Ek; try exact Q; rewrite <- Q; apply setup_of_amps; rewrite Ek; discriminate. }
  destruct (match b_setup b with KRayleighTaylor3d => draw (I3 0 0 0) | _ => draw r end) as [[[a1 b1] c1] d1]. rewrite Es.
  assert (Ei : setup_check (b_geom b) s = Ok tt).
  { unfold setup_check. destruct s; cbn [implemented] in Hi; try reflexivity; destruct (b_geom b); try reflexivity; now elim Hi. }
  rewrite Ei. cbn [own]. rewrite (proj2 (Hall r Hr)). cbn [own].
  assert (Ec : composed (runs r) = true).
  { unfold composed, runs, the_run. cbn [r_param r_grid r_bcs r_user r_shift r_setup].
    pose proof (numbers_finite T p Hp) as F. pose proof (setup_finite T _ _ Hd) as F'. rewrite forallb_app, F, F'.
    destruct (String.eqb_spec (pm_shift_grid p) "UserDefined") as [E|_]; [contradiction|]. cbn [is_builtin negb andb].
    rewrite !Bool.andb_true_r. apply forallb_forall. intros x Hx. apply in_map_iff in Hx. destruct Hx as (i & <- & _). reflexivity. }
  rewrite Ec. cbn [negb]. rewrite (Hjob r Hr). fold (TT r).
  assert (EK' : config_of b (runs r) = K) by (rewrite EK; reflexivity). rewrite EK', <- EX. f_equal.
  assert (Em : l_mesh (own_layout (TT r) X) r = l_mesh L r) by exact (f_equal (fun l => l_mesh l r) HL).
  unfold St, setup_state, own_setup_state, setup_fields, setup_env. rewrite Em.
  change (sel K (own_layout (TT r) X) 0 r) with (sel K L 0 r). reflexivity.
Qed.
End File.

Theorem file_launched_sound b T f p lo hi bc g lim sol user draw s cfl P :
  file_with T f -> described T p -> chosen b T p bc g lim sol user -> starts_with T (b_setup b) (draw (I3 0 0 0)) s ->
  pm_shift_grid p <> "UserDefined" -> implemented (b_geom b) s -> timing p cfl P ->
  exists X K, forall dims, usable b p dims lo hi -> exists L,
    executes b f p lo hi bc g lim sol user (draw (I3 0 0 0)) s cfl P X K dims L /\
    (messages_fit b p dims -> forall clock n,
       let D := mpi_dims (b_nd b) dims in let W := launch b dims (Some f) draw clock n in
       sound D W /\
       forall m v, program b dims (Some f) (draw (I3 0 0 0)) (clock (I3 0 0 0)) n = Ok (Some (m, v)) ->
       forall x r, reaches D (start W) x -> In r (ranks D) -> ended (x r) -> pc (x r) = Ret (held X (k_bcs K) m r, v)).
Proof.
  intros Hf Hp Hc Hs Hm Hi Ht.
  destruct (file_launched b T f p lo hi bc g lim sol user draw s cfl P Hf Hp Hc Hs Hm Hi Ht) as (X & K & H). exists X, K. intros dims Hu.
  destruct (H dims Hu) as (L & He & Hl). exists L. split; [exact He|]. intros Hfit clock n D W.
  specialize (Hl Hfit clock n).
  assert (G : forall m v, program b dims (Some f) (draw (I3 0 0 0)) (clock (I3 0 0 0)) n = Ok (Some (m, v)) ->
    sound D W /\ forall x r, reaches D (start W) x -> In r (ranks D) -> ended (x r) -> pc (x r) = Ret (held X (k_bcs K) m r, v)).
  { intros m v E. exact (locks_sound _ _ _ (Hl m v E) (fun r _ => I)). }
  split; [|intros m v E; exact (proj2 (G m v E))].
  pose proof (xr_program _ _ _ _ _ _ _ _ _ _ _ _ _ _ _ _ _ _ He (clock (I3 0 0 0)) n) as E.
  destruct (loop _ _ _ n _) as [m v]. exact (proj1 (G m v E)).
Qed.

Theorem file_refused_by_all b dims file draw clock n w : (forall d, (d < 3)%nat -> 1 <= coord d dims) -> no_overflow b dims file ->
  (forall m p, reader_of file = Ok m -> read_param m = Ok p -> pm_restart p = false) ->
  program b dims file (draw (I3 0 0 0)) (clock (I3 0 0 0)) n = Throw w ->
  let D := mpi_dims (b_nd b) dims in let W := launch b dims file draw clock n in
  sound D W /\
  exists w', (w' = w \/ startup b dims (I3 0 0 0) file = Throw w /\ exists s, setup_check (b_geom b) s = Throw w') /\
    forall x r, reaches D (start W) x -> In r (ranks D) -> ended (x r) -> pc (x r) = Fail w'.
Proof.
  intros Hd Ho Hre E D W. destruct (rejected_locks b dims clock Hd file draw n w Ho Hre E) as (w' & Hl & Hw).
  destruct (locks_sound _ _ _ Hl (fun r _ => I)) as [S1 S2]. split; [exact S1|]. exists w'. split; [exact Hw|exact S2].
Qed.
