(** * Whole runs with moving grids on two process grids, and the examples of PropMPI.v. *)
From Coq Require Import Lra Lia.
From Verif Require Import Base RBase ModelMesh ModelGeom ModelBoundary ModelHydro ModelScheme ModelStep ModelMain ModelMove ModelMPI
  SpecMesh SpecGeom SpecBoundary SpecHydro SpecScheme SpecStep SpecMain SpecMove SpecMPI
  ProofBase ProofR ProofMesh ProofBoundary ProofBoundary2 ProofStep ProofLayout ProofMain ProofRestart ProofMove ProofMoveRun ProofStepEx ProofMainEx
  ProofMPI ProofMPIRun.
Local Open Scope R_scope.

(** Every run also fits on a single process. *)
Lemma single_process K N dims X L : runs_on K N dims X L -> exists L1, runs_on K N one_process X L1.
Proof.
  intros HR. pose proof (lo_dec (ro_layout HR)) as HD. pose proof (dcp_nd HD) as Hnd.
  exists (the_layout K N one_process X).
  assert (HL : laid_out K N one_process X (the_layout K N one_process X)).
  { apply the_layout_ok; [exact Hnd|exact (dcp_ng HD)|exact (fun d H => dcp_n HD H)| |exact (lo_coords (ro_layout HR))].
    intros d Hd. rewrite mpi_dims_one, coord_one. lia. }
  split.
  - exact HL.
  - intros r Hr d Hd.
    assert (r = rank0) as ->.
    { apply idx_ext. intros e He. specialize (Hr e He). rewrite mpi_dims_one, coord_one in Hr. rewrite coord_rank0. lia. }
    rewrite (s_nloc _ _ _ _ HL) by lia.
    assert (V0 : forall e, (e < 3)%nat -> (0 <= coord e rank0 < coord e (mpi_dims (k_nd K) dims))%Z).
    { intros e He. rewrite coord_rank0. pose proof (dcp_dims HD He). lia. }
    pose proof (ro_thick HR _ V0 d Hd) as Ht.
    assert (Hd3 : (d < 3)%nat) by lia. rewrite (dec_nloc _ _ _ _ _ HD _ d V0 Hd3) in Ht.
    pose proof (dcp_n HD Hd3). pose proof (dcp_dims HD Hd3).
    pose proof (cmax_le (coord d N) (coord d (mpi_dims (k_nd K) dims)) ltac:(lia) ltac:(lia) 0%Z ltac:(lia)).
    pose proof (cmin_nonneg (coord d N) (coord d (mpi_dims (k_nd K) dims)) ltac:(lia) ltac:(lia) 0%Z ltac:(lia)).
    rewrite coord_rank0 in Ht. unfold nl in Ht. lia.
  - exact (ro_ng HR).
  - exact (ro_faces HR).
  - unfold gravity_ok. destruct (k_grav K); trivial. now rewrite mpi_dims_one, coord_one.
Qed.

(** The criterion of a launched run decides alike on all process grids. *)
Lemma decision_alike K N dims X L L1 sh : runs_on K N dims X L -> runs_on K N one_process X L1 ->
  threshold_ok sh -> criterion_ok sh L -> decides_alike K N dims L L1 (decision K sh).
Proof.
  intros HR HR1 Ht Hc. destruct sh as [|cs vm]; [intros Y W W1 _ _; reflexivity|]. cbn [threshold_ok criterion_ok decision] in *.
  pose proof (lo_dec (ro_layout HR)) as HD. pose proof (lo_dims (ro_layout HR)) as HP. rewrite HP in Hc.
  assert (H0 : (0 < 3)%nat) by lia. pose proof (dcp_dims HD H0) as P0. cbn [coord] in P0.
  assert (V : forall e, (e < 3)%nat -> (0 <= coord e (I3 (ii (mpi_dims (k_nd K) dims) - 1) 0 0) < coord e (mpi_dims (k_nd K) dims))%Z).
  { intros e He. pose proof (dcp_dims HD He). destruct e as [|[|[|e]]]; cbn [coord ii jj kk] in *; lia. }
  pose proof (dec_nloc _ _ _ _ _ HD _ 0%nat V H0) as E. cbn [coord ii] in E. rewrite E in Hc.
  apply (v1d_alike K N dims X L L1 cs vm HR HR1 Ht).
  - intros r Hr Er. pose proof (dec_nloc _ _ _ _ _ HD _ 0%nat Hr H0) as E'. cbn [coord] in E'. rewrite E', Er. exact Hc.
  - pose proof (dcp_n HD H0) as N0. cbn [coord] in N0.
    pose proof (cmax_le (ii N) (ii (mpi_dims (k_nd K) dims)) ltac:(lia) ltac:(lia) (ii (mpi_dims (k_nd K) dims) - 1)%Z ltac:(lia)).
    pose proof (cmin_nonneg (ii N) (ii (mpi_dims (k_nd K) dims)) ltac:(lia) ltac:(lia) (ii (mpi_dims (k_nd K) dims) - 1)%Z ltac:(lia)). unfold nl in Hc. cbn [coord] in Hc. lia.
Qed.

(** ** Two process grids *)
Section Grids.
Variables (K : config) (N dims dims' : idx) (X : nat -> arr1) (L L' : layout) (cfl : R) (p : params) (sh : shift_kind) (rmax : R)
  (clock clock' : idx -> Z -> bool).
Hypothesis HR : runs_on K N dims X L.
Hypothesis HR' : runs_on K N dims' X L'.
Hypothesis Ht : threshold_ok sh.
Hypothesis Hc : criterion_ok sh L.
Hypothesis Hc' : criterion_ok sh L'.
Hypothesis Hclock : forall i, clock (I3 0 0 0) i = clock' (I3 0 0 0) i.

Lemma ends_alike G St St' n : starts_from K dims L G St -> starts_from K dims' L' G St' ->
  let e := the_end K cfl p sh rmax (ii N) L clock n X St in
  let e' := the_end K cfl p sh rmax (ii N) L' clock' n X St' in
  snd e' = snd e /\ m_oid (fst e') = m_oid (fst e) /\ m_iter (fst e') = m_iter (fst e) /\ m_t (fst e') = m_t (fst e) /\
  same_moving K N dims L dims' L' (m_st (fst e)) (m_st (fst e')) /\
  Forall2 (same_file (same_moving K N dims L dims' L') 0%Z) (m_files (fst e)) (m_files (fst e')).
Proof.
  intros HS HS' e e'. destruct (single_process _ _ _ _ _ HR) as [L1 HR1]. pose proof (ro_layout HR1) as HL1.
  pose proof (decision_alike _ _ _ _ _ _ _ HR HR1 Ht Hc) as D. pose proof (decision_alike _ _ _ _ _ _ _ HR' HR1 Ht Hc') as D'.
  pose proof (lo_coords HL1) as HX.
  set (R2 := rel2 K N dims dims' L L' rmax).
  assert (I : R2 (move_init K L X St) (move_init K L' X St')).
  { exists (move_init K L1 X (the_state K L1 G)). split.
    - exact (mrel_init K N dims X L L1 rmax HR HL1 X G St _ HX HS (the_state_ok _ _ _ _)).
    - exact (mrel_init K N dims' X L' L1 rmax HR' HL1 X G St' _ HX HS' (the_state_ok _ _ _ _)). }
  assert (HL : like R2 0%Z 0%Z [] [] (fresh p (move_init K L X St)) (fresh p (move_init K L' X St'))).
  { assert (Y0 : forall i, like R2 0%Z 0%Z [] [] (mkM (-1) i (-1) 0 (p_t_ini p) [] (move_init K L X St) [])
      (mkM (-1) i (-1) 0 (p_t_ini p) [] (move_init K L' X St') [])).
    { intro i. unfold like. cbn. repeat split; auto; try lia. exists [], []. repeat split; constructor. }
    unfold fresh. cbv zeta. destruct ((0 <? p_iter_freq p)%Z || rltb 0 (p_time_freq p))%bool; [|apply Y0].
    apply (like_output (clock (I3 0 0 0)) (clock' (I3 0 0 0)) R2 0%Z (fun i _ => Hclock i)), Y0. }
  destruct (the_end K cfl p sh rmax (ii N) L clock n X St) as [m v] eqn:E.
  destruct (the_end K cfl p sh rmax (ii N) L' clock' n X St') as [m' v'] eqn:E'.
  subst e e'. cbn [fst snd]. unfold the_end in E, E'.
  destruct (loop_like (moving K L (ii N) (decision K sh) rmax cfl) (moving K L' (ii N) (decision K sh) rmax cfl) p
    (clock (I3 0 0 0)) (clock' (I3 0 0 0)) R2
    (rel2_cong K N dims dims' X L L' L1 (decision K sh) rmax cfl HR HR' HL1 D D') 0%Z (fun i _ => Hclock i) 0%Z [] [] n _ _ _ _ _ _ HL E E')
    as [-> (A & _ & _ & B & C & Rl & _ & F & F' & EF & EF' & FF)].
  cbn [app] in EF, EF'. subst F F'.
  split; [reflexivity|]. split; [lia|]. split; [exact B|]. split; [exact C|]. split.
  - exact (rel2_same K N dims dims' X L L' L1 rmax HL1 _ _ Rl).
  - exact (same_moving_weaken K N dims dims' X L L' L1 rmax HL1 _ _ _ FF).
Qed.
End Grids.

(** ** The forms of PropMPI.v *)
Lemma any_schedule_on_any_grid K nfx nfx' cfl p sh rmax N dims dims' X L L' clock clock' n G St St' s s' :
  runs_on K N dims X L -> runs_on K N dims' X L' -> launched K nfx N dims X L -> launched K nfx' N dims' X L' ->
  threshold_ok sh -> criterion_ok sh L -> criterion_ok sh L' ->
  (forall i, clock (I3 0 0 0) i = clock' (I3 0 0 0) i) ->
  starts_from K dims L G St -> starts_from K dims' L' G St' ->
  reaches (l_dims L) (start (processes K nfx cfl p sh rmax (ii N) L clock n X (fun f => Some (k_bcs K f)) St)) s ->
  all_ended (l_dims L) s ->
  reaches (l_dims L') (start (processes K nfx' cfl p sh rmax (ii N) L' clock' n X (fun f => Some (k_bcs K f)) St')) s' ->
  all_ended (l_dims L') s' ->
  exists m m' v,
    (forall r, In r (ranks (l_dims L)) -> pc (s r) = Ret (mloc m r, v)) /\
    (forall r, In r (ranks (l_dims L')) -> pc (s' r) = Ret (mloc m' r, v)) /\
    m_oid m' = m_oid m /\ m_iter m' = m_iter m /\ m_t m' = m_t m /\
    same_moving K N dims L dims' L' (m_st m) (m_st m') /\
    Forall2 (same_file (same_moving K N dims L dims' L') 0%Z) (m_files m) (m_files m').
Proof.
  intros HR HR' HA HA' Ht Hc Hc' Hk HS HS' Hs He Hs' He'.
  destruct (ends_alike K N dims dims' X L L' cfl p sh rmax clock clock' HR HR' Ht Hc Hc' Hk G St St' n HS HS') as (V & A).
  eexists. eexists. eexists. split; [|split; [|exact A]].
  - intros r Hr. exact (any_schedule HA (ro_grav HR) Hc Hs Hr (He r Hr)).
  - intros r Hr. rewrite <- V. exact (any_schedule HA' (ro_grav HR') Hc' Hs' Hr (He' r Hr)).
Qed.

Lemma ex_launched b g : launched (ex_K b g) 1 ex_N ex_dims ex_X (ex_L b g).
Proof.
  split; [exact (ro_layout (ex_runs b g))|].
  assert (B : forallb (fun r => forallb (fun d => message_size (ex_K b g) 1 (ex_L b g) d r <=? int_max)%Z [0; 1]%nat)
    (ranks (l_dims (ex_L b g))) = true) by (vm_compute; reflexivity).
  intros d r Hd Hr. rewrite forallb_forall in B. specialize (B r Hr). rewrite forallb_forall in B.
  apply Z.leb_le. apply B. cbn [ex_K k_nd] in Hd. destruct d as [|[|d]]; cbn; auto; lia.
Qed.

(** The run of a setup without user-defined boundary in which UserDefined is asked for on the left. *)
Definition ex_user : nat -> option bcond := fun f => match f with O => None | _ => Some NullGradient end.
Lemma ex_missing : let L := ex_L ex_bcs Cartesian in
  In (I3 0 0 0) (ranks (l_dims L)) /\ In (I3 1 0 0) (ranks (l_dims L)) /\
  missing (ex_K ex_bcs Cartesian) L ex_user (I3 0 0 0) = true /\ missing (ex_K ex_bcs Cartesian) L ex_user (I3 1 0 0) = false.
Proof. cbv zeta. split; [vm_compute; auto 8|]. split; [vm_compute; auto 8|]. split; vm_compute; reflexivity. Qed.
