(** * C84, C85: processes that run at their own speed, exchanging messages. *)
From Verif Require Import Base RBase ModelMesh ModelGeom ModelBoundary ModelHydro ModelScheme ModelStep ModelMain ModelMove ModelMPI
  SpecBoundary SpecStep SpecMain SpecMove SpecMPI ProofLayout ProofStepEx ProofMainEx ProofMPI ProofMPIRun ProofMPIGrid.
Local Open Scope string_scope.
Local Open Scope Z_scope.
Local Open Scope list_scope.

(** ** C84 *)

(** However the processes have run so far, if they have not all ended then one of them can go on, even if no message is
    buffered ([strict_step]: MPI_Sendrecv_replace waits for both partners, collectives for all processes of the group). *)
Theorem C84_no_deadlock : forall K nfx cfl p sh rmax Nx0 N dims X L clock n St s, launched K nfx N dims X L ->
  reaches (l_dims L) (start (processes K nfx cfl p sh rmax Nx0 L clock n X (fun f => Some (k_bcs K f)) St)) s ->
  all_ended (l_dims L) s \/ exists s', strict_step (l_dims L) s s' /\ step (l_dims L) s s'.
Proof. exact (fun K nfx cfl p sh rmax Nx0 N dims X L clock n St s H => no_deadlock (cfl := cfl) (p := p) (sh := sh) (rmax := rmax) (Nx0 := Nx0) (clock := clock) (n := n) (St := St) H (s := s)). Qed.
Print Assumptions C84_no_deadlock.

(** No execution of [n] iterations goes on for ever, and each can be completed. *)
Theorem C84_executions_end : forall K nfx cfl p sh rmax Nx0 N dims X L clock n St, launched K nfx N dims X L ->
  let s0 := start (processes K nfx cfl p sh rmax Nx0 L clock n X (fun f => Some (k_bcs K f)) St) in
  exists B, (forall k s, steps (l_dims L) k s0 s -> (k <= B)%nat) /\
    forall s, reaches (l_dims L) s0 s -> exists s', reaches (l_dims L) s s' /\ all_ended (l_dims L) s'.
Proof. exact (fun K nfx cfl p sh rmax Nx0 N dims X L clock n St H => executions_end cfl p sh rmax Nx0 clock n St H). Qed.
Print Assumptions C84_executions_end.

(** Calls that meet belong together: all processes of the group call the same collective with the same operation, root
    and size; partners of an exchange use the tags and sizes of each other. *)
Theorem C84_calls_match : forall K nfx cfl p sh rmax Nx0 N dims X L clock n St s, launched K nfx N dims X L ->
  reaches (l_dims L) (start (processes K nfx cfl p sh rmax Nx0 L clock n X (fun f => Some (k_bcs K f)) St)) s ->
  ~ has_clash (l_dims L) s.
Proof. exact (fun K nfx cfl p sh rmax Nx0 N dims X L clock n St s H => calls_match (cfl := cfl) (p := p) (sh := sh) (rmax := rmax) (Nx0 := Nx0) (clock := clock) (n := n) (St := St) H (s := s)). Qed.
Print Assumptions C84_calls_match.

(** The result of a process does not depend on the schedule: it is its part of the run in which all communications are
    simultaneous updates of the arrays of all processes (the semantics of the other theorems), with process 0's clock. *)
Theorem C84_result_of_any_schedule : forall K nfx cfl p sh rmax Nx0 N dims X L clock n St s r, launched K nfx N dims X L ->
  gravity_ok K dims -> criterion_ok sh L ->
  reaches (l_dims L) (start (processes K nfx cfl p sh rmax Nx0 L clock n X (fun f => Some (k_bcs K f)) St)) s ->
  In r (ranks (l_dims L)) -> ended (s r) ->
  exists m v, pc (s r) = Ret (mloc m r, v) /\
    loop (moving K L Nx0 (decision K sh) rmax cfl) p (clock (I3 0 0 0)) n (fresh p (move_init K L X St)) = (m, v).
Proof.
  exact (fun K nfx cfl p sh rmax Nx0 N dims X L clock n St s r H Hg Hc Hs Hr He =>
    ex_intro _ _ (ex_intro _ _ (conj (any_schedule H Hg Hc Hs Hr He) (surjective_pairing _)))).
Qed.
Print Assumptions C84_result_of_any_schedule.

(** Two complete executions with any schedules on any two process grids agree in verdict, counters, time, arrays and
    outputs; the clocks of processes other than 0 do not matter. *)
Theorem C84_any_schedule_on_any_process_grid :
  forall K nfx nfx' cfl p sh rmax N dims dims' X L L' clock clock' n G St St' s s',
  runs_on K N dims X L -> runs_on K N dims' X L' -> launched K nfx N dims X L -> launched K nfx' N dims' X L' ->
  threshold_ok sh -> criterion_ok sh L -> criterion_ok sh L' ->
  (forall i, clock (I3 0 0 0) i = clock' (I3 0 0 0) i) ->
  starts_from K dims L G St -> starts_from K dims' L' G St' ->
  reaches (l_dims L) (start (processes K nfx cfl p sh rmax (ii N) L clock n X (fun f => Some (k_bcs K f)) St)) s ->
  all_ended (l_dims L) s ->
  reaches (l_dims L') (start (processes K nfx' cfl p sh rmax (ii N) L' clock' n X (fun f => Some (k_bcs K f)) St')) s' ->
  all_ended (l_dims L') s' ->
  exists m m' v,
    (forall r, In r (ranks (l_dims L)) -> pc (s r) = Ret (mloc m r, v)) /\
    (forall r, In r (ranks (l_dims L')) -> pc (s' r) = Ret (mloc m' r, v)) /\
    m_oid m' = m_oid m /\ m_iter m' = m_iter m /\ m_t m' = m_t m /\
    same_moving K N dims L dims' L' (m_st m) (m_st m') /\
    Forall2 (same_file (same_moving K N dims L dims' L') 0) (m_files m) (m_files m').
Proof. exact any_schedule_on_any_grid. Qed.
Print Assumptions C84_any_schedule_on_any_process_grid.

(** A gas on 7 x 5 cells and 3 x 2 processes, which does not end at once. *)
Example C84_example : let K := ex_K ex_bcs Cartesian in let L := ex_L ex_bcs Cartesian in
  launched K 1 ex_N ex_dims ex_X L /\ runs_on K ex_N ex_dims ex_X L /\ gravity_ok K ex_dims /\
  criterion_ok (ShiftV1d 2 1) L /\ threshold_ok (ShiftV1d 2 1) /\ List.length (ranks (l_dims L)) = 6%nat /\
  forall r, In r (ranks (l_dims L)) -> ~ ended (start (processes K 1 (1 / 2) gas_p (ShiftV1d 2 1) 9 7 L (fun _ => never) 3 ex_X (fun f => Some (ex_bcs f))
    (the_state K L (ex_G ex_u))) r).
Proof.
  cbv zeta. split; [apply ex_launched|]. split; [apply ex_runs|]. split; [exact I|]. split; [vm_compute; discriminate|].
  split; [exact Rlt_0_1|]. split; [reflexivity|]. intros r Hr. vm_compute in Hr.
  repeat (destruct Hr as [<-|Hr]; [intro H; hnf in H; exact H|]). destruct Hr.
Qed.

(** ** C85 *)

(** With boundary conditions that exist, errors are unanimous: either every process that ends returns, all with the same
    verdict (a failed verdict is an exception of the main loop), or every one throws the same exception.  This includes
    internal-mass gravity on several processes in x and a v1d window larger than the last process.  With C84: nobody waits
    for a process that has thrown. *)
Theorem C85_errors_are_unanimous : forall K nfx cfl p sh rmax Nx0 N dims X L clock n St, launched K nfx N dims X L ->
  let s0 := start (processes K nfx cfl p sh rmax Nx0 L clock n X (fun f => Some (k_bcs K f)) St) in
  (exists m v, forall s r, reaches (l_dims L) s0 s -> In r (ranks (l_dims L)) -> ended (s r) -> pc (s r) = Ret (mloc m r, v)) \/
  (exists what, forall s r, reaches (l_dims L) s0 s -> In r (ranks (l_dims L)) -> ended (s r) -> pc (s r) = Fail what).
Proof. exact (fun K nfx cfl p sh rmax Nx0 N dims X L clock n St H => unanimous cfl p sh rmax Nx0 clock n St H). Qed.
Print Assumptions C85_errors_are_unanimous.

(** A boundary condition UserDefined in a setup that has none: only processes at the border throw.  Whenever another
    process does not, the run can reach a state in which processes wait for ever. *)
Theorem C85_missing_boundary_deadlocks : forall K nfx cfl p sh rmax Nx0 N dims X L clock n bcs St r1 r2,
  launched K nfx N dims X L -> (forall M, k_grav K <> GInternalMass M) ->
  In r1 (ranks (l_dims L)) -> In r2 (ranks (l_dims L)) -> missing K L bcs r1 = true -> missing K L bcs r2 = false ->
  exists s, reaches (l_dims L) (start (processes K nfx cfl p sh rmax Nx0 L clock n X bcs St)) s /\ stuck (l_dims L) s.
Proof. exact boundary_deadlock. Qed.
Print Assumptions C85_missing_boundary_deadlocks.

Theorem C85_missing_boundary_refuted : exists K N dims X L bcs, launched K 1 N dims X L /\ bcs 0%nat = None /\
  forall cfl p clock n St, exists s,
    reaches (l_dims L) (start (processes K 1 cfl p ShiftOff 1 (ii N) L clock n X bcs St)) s /\ stuck (l_dims L) s.
Proof.
  exists (ex_K ex_bcs Cartesian), ex_N, ex_dims, ex_X, (ex_L ex_bcs Cartesian), ex_user.
  split; [apply ex_launched|]. split; [reflexivity|]. intros cfl p clock n St. destruct ex_missing as (A & B & C & D).
  exact (boundary_deadlock cfl p ShiftOff 1 (ii ex_N) clock n St (ex_launched ex_bcs Cartesian) ltac:(discriminate) A B C D).
Qed.
Print Assumptions C85_missing_boundary_refuted.

Example C85_example : launched (ex_K ex_bcs Cartesian) 1 ex_N ex_dims ex_X (ex_L ex_bcs Cartesian) /\
  missing (ex_K ex_bcs Cartesian) (ex_L ex_bcs Cartesian) ex_user (I3 0 0 0) = true /\
  missing (ex_K ex_bcs Cartesian) (ex_L ex_bcs Cartesian) ex_user (I3 1 0 0) = false.
Proof. split; [apply ex_launched|]. exact (proj2 (proj2 ex_missing)). Qed.
