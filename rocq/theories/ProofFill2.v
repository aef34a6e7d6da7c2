(** * The order of the faces does not matter (C98). *)
From Coq Require Import FunctionalExtensionality ZifyBool ZifyNat.
From Verif Require Import Base RBase ModelMesh ModelGeom ModelBoundary ModelHydro ModelScheme ModelStep
  SpecMesh SpecGeom SpecBoundary SpecHydro SpecScheme SpecStep SpecFill SpecSym
  ProofBase ProofMesh ProofR ProofBoundary ProofBoundary2 ProofHydro ProofScheme ProofShift ProofReduce ProofStep ProofStepEx ProofLayout ProofMPIGrid ProofFill ProofSym ProofSym2.
Local Open Scope R_scope.

Lemma order_free nd N dims ng dec bcs order order' G (W W' : world cell) : decomposed nd N dims ng dec -> thick nd dims ng dec ->
  complete_order nd bcs order -> complete_order nd bcs order' ->
  holds_owned nd dims ng dec G W -> holds_owned nd dims ng dec G W' ->
  forall r c, process nd dims r -> in_array (d_nwg (dec r)) c ->
    boundary_update nd (mpi_dims nd dims) (fun r => d_nwg (dec r)) ng bcs order W r c
    = boundary_update nd (mpi_dims nd dims) (fun r => d_nwg (dec r)) ng bcs order' W' r c.
Proof.
  intros HD Ht Ho Ho' H H' r c Hr Hc.
  rewrite (boundary_filled nd N dims ng dec bcs order G W HD Ht Ho H r Hr c Hc).
  rewrite (boundary_filled nd N dims ng dec bcs order' G W' HD Ht Ho' H' r Hr c Hc). reflexivity.
Qed.

Section Reorder.
Variables (K : config) (o : list nat) (N : idx) (X : nat -> arr1) (L : layout).
Let K' := with_order K o.
Hypothesis HL : laid_out K N one_process X L.
Hypothesis Ht : thick (k_nd K) one_process (k_ng K) (l_dec L).
Hypothesis Hng : (2 <= k_ng K)%Z.
Hypothesis Ho : complete_order (k_nd K) (k_bcs K) (k_order K).
Hypothesis Ho' : complete_order (k_nd K) (k_bcs K) o.
Hypothesis Hg : gravity_ok K one_process.
Notation nd := (k_nd K).
Notation vr := (process nd one_process).
Notation cmn r := (corner_min (d_range (l_dec L r))).

Lemma reorder_bcs (W W' : world cell) : (forall r c, vr r -> owned nd (k_ng K) (d_nloc (l_dec L r)) c -> W' rank0 (iadd (cmn r) c) = W r c) ->
  slice_of nd one_process (l_dec L) (bcs_update K L W) (bcs_update K' L W' rank0).
Proof.
  intros H. destruct (holds_by_slice K N one_process X L L HL W W' H) as (G & HG & HG'). intros r Hr c Hc. unfold bcs_update, K'. cbn [with_order k_nd k_ng k_bcs k_order].
  rewrite (lo_dims HL).
  assert (Er : r = rank0).
  { apply idx_ext. intros d Hd. specialize (Hr d Hd). rewrite mpi_dims_one, coord_one in Hr. rewrite coord_rank0. lia. }
  subst r. assert (Ec : iadd (cmn rank0) c = c).
  { apply idx_ext. intros d Hd. rewrite coord_iadd, (s_cmin _ _ _ _ HL) by assumption. lia. }
  rewrite Ec. apply (order_free nd N one_process (k_ng K) (l_dec L) (k_bcs K) (k_order K) o G W W' (lo_dec HL) Ht Ho Ho' HG HG' rank0 c (rank0_ok _) Hc).
Qed.

Lemma reorder_step t dt S S' : in_step K one_process L S S' ->
  in_step K one_process L (full_step K L t dt S) (full_step K' L t dt S').
Proof.
  intros [(HC & HU & HP) HG]. unfold full_step.
  change (finish K' L) with (finish K L). change (step_user K' L t dt S') with (step_user K L t dt S').
  apply (finish_slice K N one_process X L L HL HL Hg). apply reorder_bcs.
  intros r c Hr Hc. pose proof (proj2 (sel_owned _ _ _ _ _ _ _ HL Hr) Hc) as Hs.
  assert (Hnd : (nd <= 3)%nat) by (pose proof (dcp_nd (lo_dec HL)); lia).
  apply (step_user_shift K L L r rank0 (cmn r) S S' dt Hnd t c).
  - intros x Hx. pose proof (sel_stencil _ _ _ _ _ _ _ _ _ HL Hr Hs Hx) as Hx1. cbn [Z.add] in Hx1.
    split; [now apply (geo_slice K N one_process X L L HL HL)|]. split; [|split; [exact Hx1|split; [now apply (sel_slice K N one_process X L L HL HL)|]]].
    + intros j. apply HG; [exact Hr|]. apply (array_stencil2 K N one_process X L HL Hng); [exact Hr|]. apply (sel_mono _ _ _ _ _ 1 _ _ _ HL Hr); [lia|exact Hx1].
    + intros y Hy. pose proof (sel_stencil _ _ _ _ _ _ _ _ _ HL Hr Hx1 Hy) as Hy2. cbn [Z.add Pos.add] in Hy2.
      pose proof (array_stencil2 K N one_process X L HL Hng r y Hr Hy2) as Hya.
      split; [symmetry; now apply HC|]. split; [symmetry; now apply HU|symmetry; now apply HP].
  - exact Hs.
  - now apply (sel_slice K N one_process X L L HL HL).
Qed.

Lemma reorder_init S : in_step K one_process L (init_state K L S) (init_state K' L S).
Proof.
  unfold init_state. change (finish K' L) with (finish K L). change (init_cons K' L S) with (init_cons K L S).
  apply (finish_slice K N one_process X L L HL HL Hg). apply reorder_bcs.
  intros r c Hr Hc. assert (Er : r = rank0).
  { apply idx_ext. intros d Hd. specialize (Hr d Hd). rewrite mpi_dims_one, coord_one in Hr. rewrite coord_rank0. lia. }
  subst r. assert (Ec : iadd (cmn rank0) c = c).
  { apply idx_ext. intros d Hd. rewrite coord_iadd, (s_cmin _ _ _ _ HL) by assumption. lia. }
  now rewrite Ec.
Qed.

Lemma reorder_run cfl n : forall t S S', in_step K one_process L S S' ->
  fst (run_cfl K' L cfl n t S') = fst (run_cfl K L cfl n t S) /\
  in_step K one_process L (snd (run_cfl K L cfl n t S)) (snd (run_cfl K' L cfl n t S')).
Proof.
  induction n as [|n IH]; intros t S S' H; cbn [run_cfl]; [split; [reflexivity|exact H]|].
  change (time_step K' L S') with (time_step K L S').
  rewrite (time_step_slice K N one_process X L L HL HL Hng S S' H). destruct (time_step K L S') as [h|]; [|split; [reflexivity|exact H]].
  apply IH. now apply reorder_step.
Qed.
End Reorder.

Lemma reordered_runs K o N dims dims' X L L' G S S' cfl n t :
  complete_order (k_nd K) (k_bcs K) (k_order K) -> complete_order (k_nd K) (k_bcs K) o ->
  runs_on K N dims X L -> runs_on (with_order K o) N dims' X L' ->
  starts_from K dims L G S -> starts_from (with_order K o) dims' L' G S' ->
  let e := run_cfl K L cfl n t (init_state K L S) in let e' := run_cfl (with_order K o) L' cfl n t (init_state (with_order K o) L' S') in
  fst e' = fst e /\ corresponding (fun g => g) (fun x => x) (fun v => v) K (with_order K o) dims dims' L L' (snd e) (snd e').
Proof.
  intros Ho Ho' HR HR' Hs Hs'. cbv zeta. set (K' := with_order K o) in *.
  destruct (single_process _ _ _ _ _ HR) as [L1 R1]. pose proof (ro_layout R1) as HL1.
  assert (HL1' : laid_out K' N one_process X L1) by (destruct HL1; split; assumption).
  set (S1 := the_state K L1 G).
  destruct (same_results_cfl K N dims X L HR L1 G S S1 cfl n t HL1 Hs (the_state_ok _ _ _ _)) as [F1 Q1].
  destruct (same_results_cfl K' N dims' X L' HR' L1 G S' S1 cfl n t HL1' Hs' (the_state_ok _ _ _ _)) as [F1' Q1'].
  destruct (reorder_run K o N X L1 HL1 (ro_thick R1) (ro_ng R1) Ho Ho' (ro_grav R1) cfl n t _ _
    (reorder_init K o N X L1 HL1 (ro_thick R1) Ho Ho' (ro_grav R1) S1)) as [F2 [(C1 & C2 & C3) _]].
  split; [rewrite F1, F1'; exact F2|].
  intros r c r' c' Hr Hc Hr' Hc' E. destruct Q1 as (A1 & A2 & A3). destruct Q1' as (B1 & B2 & B3).
  rewrite (A1 r Hr c Hc), (A2 r Hr c Hc), (A3 r Hr c Hc), (B1 r' Hr' c' Hc'), (B2 r' Hr' c' Hc'), (B3 r' Hr' c' Hc').
  assert (Ei : iadd (corner_min (d_range (l_dec L' r'))) c' = iadd (corner_min (d_range (l_dec L r))) c).
  { rewrite <- (number_local K' L' r' c'), <- (number_local K L r c), E. reflexivity. }
  rewrite Ei. set (x := iadd _ c).
  assert (Hx : in_array (d_nwg (l_dec L1 rank0)) x).
  { apply (sel_array _ _ _ _ _ _ _ HL1 (rank0_ok _)). apply (sel_slice K N dims X L L1 (ro_layout HR) HL1); [exact Hr|].
    now apply (sel_array _ _ _ _ _ _ _ (ro_layout HR) Hr). }
  assert (Ex : iadd (corner_min (d_range (l_dec L1 rank0))) x = x).
  { apply idx_ext. intros d Hd. rewrite coord_iadd, (s_cmin _ _ _ _ HL1) by assumption. lia. }
  pose proof (C1 rank0 (rank0_ok _) x Hx) as D1. pose proof (C2 rank0 (rank0_ok _) x Hx) as D2. pose proof (C3 rank0 (rank0_ok _) x Hx) as D3.
  rewrite Ex in D1, D2, D3. split; [now symmetry|]. split; now symmetry.
Qed.
