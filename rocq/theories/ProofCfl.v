(** * The CFL time step (C26) and global reductions (C27). *)
From Coq Require Import ZifyBool ZifyNat.
From Verif Require Import Base RBase ModelMesh ModelGeom ModelBoundary ModelHydro ModelScheme ModelStep
  SpecMesh SpecGeom SpecBoundary SpecHydro SpecScheme SpecStep
  ProofBase ProofMesh ProofR ProofBoundary ProofBoundary2 ProofHydro ProofScheme ProofMirror ProofShift ProofReduce ProofStep ProofSteady.
Local Open Scope R_scope.

Lemma dx_geom_width g nd m c d : (nd <= 3)%nat -> (d < nd)%nat -> dx_geom g nd m c d = width g m c d.
Proof.
  intros H3 Hd. unfold dx_geom, width, mdx, mxc. destruct g; [destruct d as [|[|[|d]]]; reflexivity|].
  destruct nd as [|[|[|[|nd]]]]; try lia; destruct d as [|[|[|d]]]; try lia; cbn [coord]; try reflexivity; ring.
Qed.

Lemma vsum_pos n f : (1 <= n)%nat -> (forall d, (d < n)%nat -> 0 < f d) -> 0 < vsum n f.
Proof.
  intros Hn H. destruct n as [|n]; [lia|]. rewrite vsum_S_first.
  apply Rplus_lt_le_0_compat; [apply H; lia|]. apply vsum_nonneg. intros d Hd. apply Rlt_le, H. lia.
Qed.

Section Cfl.
Variables (K : config) (N dims : idx) (X : nat -> arr1) (L : layout).
Hypothesis HL : laid_out K N dims X L.
Notation nd := (k_nd K).
Notation ng := (k_ng K).
Notation vr := (process nd dims).
Notation arr r := (in_array (d_nwg (l_dec L r))).
Let HD := lo_dec HL.

Lemma inverse_dt_rate S r c : cell_inverse_dt K L S r c = crossing_rate K L S r c.
Proof.
  unfold cell_inverse_dt, inverse_dt, crossing_rate. apply vsum_ext. intros d Hd.
  rewrite dx_geom_width; [reflexivity|pose proof (dcp_nd HD); lia|exact Hd].
Qed.

Lemma rate_values S v : In v (all_values K L ng (cell_inverse_dt K L S)) <->
  exists r c, vr r /\ arr r c /\ v = crossing_rate K L S r c.
Proof.
  unfold all_values. rewrite in_flat_map. split.
  - intros (r & Hr & Hv). apply in_map_iff in Hv. destruct Hv as (c & <- & Hc).
    apply (in_ranks' K N dims X L HL) in Hr. apply sel_cells_in in Hc. exists r, c. split; [exact Hr|]. split.
    + now apply (sel_array _ _ _ _ _ _ _ HL Hr).
    + apply inverse_dt_rate.
  - intros (r & c & Hr & Hc & ->). exists r. split; [now apply (in_ranks' K N dims X L HL)|].
    apply in_map_iff. exists c. split; [apply inverse_dt_rate|].
    apply sel_cells_in. now apply (sel_array _ _ _ _ _ _ _ HL Hr).
Qed.

(** There are cells. *)
Lemma some_owned : exists r c, vr r /\ owned nd ng (d_nloc (l_dec L r)) c.
Proof.
  destruct (owner_unique_3d nd N dims ng (I3 0 0 0)) as (r' & Hr' & (dec & Hdec & Hin) & _).
  { intros d Hd. pose proof (dcp_n HD Hd). lia. } { intros d Hd. apply (dcp_dims HD Hd). }
  { intros d Hd. pose proof (dcp_n HD Hd). destruct d as [|[|[|d]]]; cbn in *; lia. }
  rewrite (dcp_ok HD Hr') in Hdec. injection Hdec as <-.
  exists r', (mk3 (fun d => (0 - coord d (corner_min (d_range (l_dec L r'))) + ghosts nd ng d)%Z)). split; [exact Hr'|].
  intros d Hd. specialize (Hin d Hd). rewrite coord_mk3 by assumption.
  assert (E : coord d (I3 0 0 0) = 0%Z) by (destruct d as [|[|[|d]]]; reflexivity). rewrite E in Hin. lia.
Qed.

Lemma time_step_defined S : exists dt, time_step K L S = Some dt.
Proof.
  unfold time_step. destruct (max_list _) as [v|] eqn:E; [eauto|]. exfalso.
  apply max_list_none in E. destruct some_owned as (r & c & Hr & Hc).
  assert (H : In (crossing_rate K L S r c) (all_values K L ng (cell_inverse_dt K L S))).
  { apply rate_values. exists r, c. split; [exact Hr|]. split; [|reflexivity]. exact (owned_in_array K N dims X L HL r c Hr Hc). }
  rewrite E in H. destruct H.
Qed.

Lemma cfl_bound S dt : lawful_eos (k_eos K) ->
  (forall r c, vr r -> owned nd ng (d_nloc (l_dec L r)) c ->
     0 < c_rho (s_cell (S r) c) /\ 0 < s_P (S r) c /\ forall d, (d < nd)%nat -> 0 < width (k_geom K) (l_mesh L r) c d) ->
  time_step K L S = Some dt ->
  0 < dt /\ (forall r c, vr r -> arr r c -> dt * crossing_rate K L S r c <= 1) /\
  (exists r c, vr r /\ arr r c /\ dt * crossing_rate K L S r c = 1).
Proof.
  intros He Hpos. unfold time_step. destruct (max_list _) as [v|] eqn:E; [|discriminate]. intros [= <-].
  apply max_list_some in E. destruct E as [E1 E2].
  assert (Hv : 0 < v).
  { destruct some_owned as (r & c & Hr & Hc). apply Rlt_le_trans with (crossing_rate K L S r c).
    - destruct (Hpos r c Hr Hc) as (P1 & P2 & P3). pose proof (law_sound_pos _ He _ _ P1 P2) as Hs.
      pose proof (dcp_nd HD) as Hnd.
      assert (Hterm : forall d, (d < nd)%nat -> 0 < (Rabs (s_u (S r) c d) + eos_sound (k_eos K) (c_rho (s_cell (S r) c)) (s_P (S r) c)) / width (k_geom K) (l_mesh L r) c d).
      { intros d Hd. apply Rdiv_lt_0_compat; [pose proof (Rabs_pos (s_u (S r) c d)); lra|now apply P3]. }
      unfold crossing_rate. now apply vsum_pos.
    - apply E2, rate_values. exists r, c. split; [exact Hr|]. split; [|reflexivity]. exact (owned_in_array K N dims X L HL r c Hr Hc). }
  split; [|split].
  - apply Rdiv_lt_0_compat; lra.
  - intros r c Hr Hc. assert (H : crossing_rate K L S r c <= v) by (apply E2, rate_values; eauto).
    apply Rmult_le_reg_l with v; [exact Hv|]. replace (v * (1 / v * crossing_rate K L S r c)) with (crossing_rate K L S r c) by (field; lra). lra.
  - apply rate_values in E1. destruct E1 as (r & c & Hr & Hc & ->). exists r, c. split; [exact Hr|]. split; [exact Hc|]. field. lra.
Qed.

Lemma max_list_scal k l : 0 < k -> max_list (map (Rmult k) l) = option_map (Rmult k) (max_list l).
Proof.
  intros Hk. induction l as [|x l IH]; cbn [max_list map]; [reflexivity|]. rewrite IH.
  destruct (max_list l) as [y|]; cbn; [|reflexivity]. f_equal. unfold Rmax. destruct (Rle_dec (k * x) (k * y)), (Rle_dec x y); try reflexivity; nra.
Qed.

(** Scaling all speeds by [k] divides the time step by [k]. *)
Lemma cfl_scaling S S' k dt : 0 < k ->
  (forall r c, vr r -> arr r c ->
     (forall d, s_u (S' r) c d = k * s_u (S r) c d) /\
     eos_sound (k_eos K) (c_rho (s_cell (S' r) c)) (s_P (S' r) c)
     = k * eos_sound (k_eos K) (c_rho (s_cell (S r) c)) (s_P (S r) c)) ->
  time_step K L S = Some dt -> time_step K L S' = Some (dt / k).
Proof.
  intros Hk H. unfold time_step. 
  rewrite (max_list_same (all_values K L ng (cell_inverse_dt K L S')) (map (Rmult k) (all_values K L ng (cell_inverse_dt K L S)))).
  - rewrite max_list_scal by assumption. destruct (max_list _) as [v|]; [|discriminate]. intros [= <-]. cbn. f_equal.
    unfold Rdiv. rewrite Rinv_mult. ring.
  - intros x. rewrite rate_values, in_map_iff.
    assert (Er : forall r c, vr r -> arr r c -> crossing_rate K L S' r c = k * crossing_rate K L S r c).
    { intros r c Hr Hc. destruct (H r c Hr Hc) as [H1 H2]. unfold crossing_rate. rewrite <- vsum_scal. apply vsum_ext.
      intros d Hd. rewrite H1, H2, Rabs_mult, (Rabs_right k) by lra. unfold Rdiv. ring. }
    split.
    + intros (r & c & Hr & Hc & ->). exists (crossing_rate K L S r c). split; [symmetry; now apply Er|]. apply rate_values. eauto.
    + intros (y & <- & Hy). apply rate_values in Hy. destruct Hy as (r & c & Hr & Hc & ->). exists r, c.
      split; [exact Hr|]. split; [exact Hc|]. symmetry. now apply Er.
Qed.

(** Any order of the reductions. *)
Lemma time_step_any_order S v : reduction Rmax (all_values K L ng (cell_inverse_dt K L S)) v -> time_step K L S = Some (1 / v).
Proof. intros H. unfold time_step. now rewrite (reduction_max _ _ H). Qed.
Lemma min_energy_any_order S v : reduction Rmin (all_values K L 0 (cell_internal K S)) v -> minimum_internal_energy K L S = Some v.
Proof. intros H. unfold minimum_internal_energy. now rewrite (reduction_min _ _ H). Qed.
Lemma integrate_any_order f v :
  reduction Rplus (all_values K L 0 (fun r c => f r c * dv (k_geom K) nd (l_mesh L r) c)) v -> integrate K L f = v.
Proof.
  intros H. apply reduction_sum in H. rewrite <- H. unfold integrate, all_values. rewrite lsum_flat_map.
  apply lsum_ext. intros r _. now rewrite lsum_map.
Qed.
End Cfl.

(** Every non-empty list of values has a reduction. *)
Lemma reduction_exists op (x : R) l : exists v, reduction op (x :: l) v.
Proof.
  revert x. induction l as [|y l IH]; intros x; [eexists; constructor|].
  destruct (IH y) as (v & Hv). exists (op x v). apply (red_op op _ [x] (y :: l)); [reflexivity|constructor|exact Hv].
Qed.

(** ... and the same value on every process grid: the arrays being slices of one another is all it takes. *)
Section Reductions.
Variables (K : config) (N dims : idx) (X : nat -> arr1) (L L1 : layout).
Hypothesis HL : laid_out K N dims X L.
Hypothesis HL1 : laid_out K N one_process X L1.
Hypothesis Hng : (2 <= k_ng K)%Z.

Let still (S : idx -> pstate) : idx -> pstate := fun r =>
  mkState (s_cell (S r)) (s_u (S r)) (s_P (S r)) (s_rec (S r)) (s_new (S r)) (fun _ _ => 0).
Let still_in S S1 : same_results K dims L S S1 -> in_step K dims L (still S) (still S1).
Proof. intros H. split; [exact H|reflexivity]. Qed.

Lemma time_step_same S S1 : same_results K dims L S S1 -> time_step K L S = time_step K L1 S1.
Proof. intros H. exact (time_step_slice K N dims X L L1 HL HL1 Hng _ _ (still_in _ _ H)). Qed.
Lemma min_energy_same S S1 : same_results K dims L S S1 -> minimum_internal_energy K L S = minimum_internal_energy K L1 S1.
Proof. intros H. exact (min_energy_slice K N dims X L L1 HL HL1 Hng _ _ (still_in _ _ H)). Qed.
Lemma mass_same S S1 : same_results K dims L S S1 ->
  integrate K L (fun r c => c_rho (s_cell (S r) c)) = integrate K L1 (fun r c => c_rho (s_cell (S1 r) c)).
Proof.
  intros (HC & _). apply (integrate_slice K N dims X L L1 HL HL1). intros r c Hr Hs.
  rewrite (HC r Hr c); [reflexivity|]. apply (sel_array _ _ _ _ _ _ _ HL Hr).
  apply (sel_mono _ _ _ _ _ 0 _ _ _ HL Hr); [lia|exact Hs].
Qed.
End Reductions.
