(** * Cases for C95. *)
From Coq Require Import List Ascii Reals Lra Lia ZifyBool.
From Coq Require String.
From Verif Require Import Base RBase ModelMesh ModelGeom ModelBoundary ModelHydro ModelRad ModelScheme ModelStep ModelUtil ModelIni ModelMain
  ModelMove ModelMPI ModelSetup ModelParam ModelLaunch
  SpecMesh SpecGeom SpecBoundary SpecStep SpecSetup SpecMain SpecIni SpecParam SpecMPI SpecLaunch
  ProofBase ProofMesh ProofParamRun ProofParamRun2 ProofParamEx ProofParamEx2 ProofLaunch.
Local Open Scope string_scope.
Local Open Scope Z_scope.
Local Open Scope list_scope.

Lemma carried_fit : messages_fit carried_b carried_p (I3 2 2 1).
Proof.
  intros d r dec Hd Hr E. cbn [carried_b b_nd carried_p pm_ng pm_nx0 pm_nx1 pm_nx2 pm_nfx] in *.
  assert (C : (r = I3 0 0 0 \/ r = I3 1 0 0) \/ (r = I3 0 1 0 \/ r = I3 1 1 0)).
  { pose proof (Hr 0%nat ltac:(lia)) as A0. pose proof (Hr 1%nat ltac:(lia)) as A1. pose proof (Hr 2%nat ltac:(lia)) as A2. destruct r as [i j k].
    cbn in A0, A1, A2. assert (k = 0) by lia. assert (i = 0 \/ i = 1) by lia. assert (j = 0 \/ j = 1) by lia.
    destruct H0 as [->| ->], H1 as [->| ->]; subst k; tauto. }
  assert (D : d = 0%nat \/ d = 1%nat) by lia.
  destruct C as [[->| ->]|[->| ->]]; vm_compute in E; injection E as <-; destruct D as [->| ->]; vm_compute; discriminate.
Qed.

(** The same file, and a build that computes the gravity from the mass. *)
Definition massive_b : build := mkBuild 2 Cartesian PerfectGasEos InternalMassGrav KAdvectionGap.
Lemma massive_start (amp : R * R * R * R) r : process 2 (I3 2 2 1) r -> startup massive_b (I3 2 2 1) r (Some carried_f) = Throw gravity_message.
Proof.
  intros Hr. destruct (carried_executed amp) as (X & K & L & _ & He & _).
  destruct (xr_start _ _ _ _ _ _ _ _ _ _ _ _ _ _ _ _ _ _ He r Hr) as (x & Ex & _ & _).
  destruct (startup_inv _ _ _ _ _ Ex) as (m & names & R1 & R2 & R3 & R4 & R5 & R6 & R7 & R8).
  unfold startup, startup_from. rewrite R1. cbn [obind]. rewrite R2. cbn [obind]. change (b_setup massive_b) with (b_setup carried_b).
  rewrite R3. cbn [obind]. change (b_nd massive_b) with (b_nd carried_b). rewrite R4. cbn [obind]. change (b_eos massive_b) with (b_eos carried_b).
  rewrite R5. cbn [obind]. rewrite R6. cbn [obind]. rewrite R7. reflexivity.
Qed.
Lemma massive_rejected (amp : R * R * R * R) clock n : (forall d, (d < 3)%nat -> 1 <= coord d (I3 2 2 1)) /\ no_overflow massive_b (I3 2 2 1) (Some carried_f) /\
  (forall m p, reader_of (Some carried_f) = Ok m -> read_param m = Ok p -> pm_restart p = false) /\
  program massive_b (I3 2 2 1) (Some carried_f) amp clock n = Throw gravity_message.
Proof.
  assert (Hd : forall d, (d < 3)%nat -> 1 <= coord d (I3 2 2 1)) by (intros [|[|[|d]]] H; cbn [coord ii jj kk]; lia).
  split; [exact Hd|]. split.
  - intros r w Hr. rewrite (massive_start amp r Hr). discriminate.
  - split; [|destruct amp as [[[ak bk] ck] dk] eqn:Ea; unfold program; rewrite (massive_start amp _ (rank0_process 2 _ Hd)); reflexivity].
    intros m p E1 E2. destruct (carried_executed amp) as (X & K & L & _ & He & _).
    destruct (xr_start _ _ _ _ _ _ _ _ _ _ _ _ _ _ _ _ _ _ He (I3 0 0 0) (rank0_process 2 _ Hd)) as (x & Ex & Ep & _).
    destruct (startup_inv _ _ _ _ _ Ex) as (m' & names & R1 & R2 & _). rewrite E1 in R1. injection R1 as <-. rewrite E2 in R2. injection R2 as ->.
    rewrite Ep. reflexivity.
Qed.
