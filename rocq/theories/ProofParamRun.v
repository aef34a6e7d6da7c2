(** * Proofs for C91: from the parameter file to the run of all processes. *)
From Coq Require Import List Ascii Reals Lra Lia ZifyBool.
From Coq Require String.
From Flocq Require Import Core.
From Verif Require Import Base RBase ModelMesh ModelGeom ModelBoundary ModelHydro ModelRad ModelStep ModelUtil ModelIni ModelMain ModelSetup ModelParam
  SpecMesh SpecGeom SpecBoundary SpecHydro SpecScheme SpecStep SpecPos SpecIni SpecParam
  ProofBase ProofR ProofMesh ProofGeom ProofBoundary ProofBoundary2 ProofBcOrder ProofStep ProofLayout ProofParam.
Local Open Scope string_scope.
Local Open Scope Z_scope.
Local Open Scope list_scope.

Section Run.
Context (b : build) (T : list entry) (f : bytes) (dims : idx) (p : param) (ps : list real_value) (lo hi : nat -> R).
Context (bc : nat -> bcond) (g : gas) (lim : limiter) (sol : solver) (user : user_kind).
Hypothesis Hf : file_with T f.
Hypothesis Hp : described T p.
Hypothesis Hs : described_setup T (b_setup b) ps.
Hypothesis Hu : usable b p dims lo hi.
Hypothesis Hc : chosen b T p bc g lim sol user.
Let nd := b_nd b.
Let ng := pm_ng p.
Let N := extents p.
Let X := coords_of b p.

Lemma run_process r : process nd dims r -> process_of nd dims r.
Proof.
  intros H d Hd. split; [exact (us_dims _ _ _ _ _ Hu d Hd)|]. specialize (H d Hd). unfold mpi_dims in H. rewrite coord_mk3 in H by exact Hd.
  destruct (Nat.ltb d nd); exact H.
Qed.
Lemma run_N d : (d < 3)%nat -> 1 <= coord d N /\ coord d N + 2 * ng + 3 < 2 ^ 31.
Proof.
  intros Hd. apply (us_cells _ _ _ _ _ Hu). destruct d as [|[|[|d]]]; [now left|right; now left|right; right; now left|lia].
Qed.
Lemma run_dims d : (d < 3)%nat -> 1 <= coord d (mpi_dims nd dims).
Proof. intros Hd. unfold mpi_dims. rewrite coord_mk3 by exact Hd. destruct (Nat.ltb d nd); [exact (us_dims _ _ _ _ _ Hu d Hd)|lia]. Qed.
Lemma run_ng : 2 <= ng. Proof. exact (us_ng _ _ _ _ _ Hu). Qed.
Lemma run_decomposed : decomposed nd N dims ng (decs nd N dims ng).
Proof.
  apply decs_decomposed; [exact (us_nd _ _ _ _ _ Hu)|pose proof run_ng; lia| |exact run_dims]. intros d Hd. apply (run_N d Hd).
Qed.
Lemma run_extents : extents_ok nd p.
Proof.
  pose proof run_ng. pose proof (run_N 0%nat ltac:(lia)). split; [unfold ng in *; lia|]. split; [unfold ng in *; lia|].
  intros n Hn. pose proof (us_cells _ _ _ _ _ Hu n Hn). fold ng in H1 |- *. lia.
Qed.

Definition the_run (dec : decomp) : run :=
  mkRun p ps dec g (Some (Builtin RegularGrid)) (map (fun i => Builtin (bc i)) (seq 0 (2 * nd))) (map Some (seq 0 (2 * nd))) lim sol (Builtin user)
    (String.eqb (pm_shift_grid p) "UserDefined") (String.eqb (pm_pressure_fix p) "On").
Lemma split_forall2 {A B C : Type} (P : A -> C -> Prop) (Q : C -> B -> Prop) l : forall m,
  Forall2 (fun a x => exists w, P a w /\ Q w x) l m -> exists ws, Forall2 P l ws /\ Forall2 Q ws m.
Proof.
  induction l as [|a l IH]; intros m H; inversion H as [|a' x l' m' (w & Pw & Qw) F]; subst; [exists []; split; constructor|].
  destruct (IH m' F) as (ws & A1 & A2). exists (w :: ws). split; now constructor.
Qed.
Lemma every_process_starts r : process nd dims r -> startup b dims r (Some f) = Ok (the_run (decs nd N dims ng r)).
Proof.
  intros Hr. destruct Hc as [(ga & mu & Eg & Em & Lg & Lm & Hg) Hb Hl Hso Hus].
  destruct (split_forall2 _ (fun w i => named bc_table w (Builtin (bc i))) _ _ Hb) as (ws & W1 & W2).
  assert (W3 : Forall2 (named bc_table) ws (map (fun i => Builtin (bc i)) (seq 0 (2 * nd)))).
  { fold nd in W2. revert W2. generalize (seq 0 (2 * nd)) as l. clear. induction ws as [|w ws IH]; intros l F; inversion F; subst; constructor; auto. }
  destruct (the_run_described b T f dims r p ps ga mu g (map (fun i => Builtin (bc i)) (seq 0 (2 * nd))) ws (Some (Builtin RegularGrid))
    (map Some (seq 0 (2 * nd))) lim sol (Builtin user)) as (dec & Ed & E); try assumption.
  - exact (us_nd _ _ _ _ _ Hu).
  - exact run_extents.
  - exact (run_process r Hr).
  - exact (us_grav _ _ _ _ _ Hu).
  - rewrite (us_new _ _ _ _ _ Hu), (us_grid _ _ _ _ _ Hu). exists (Builtin RegularGrid). split; [reflexivity|now left].
  - rewrite (us_order _ _ _ _ _ Hu). reflexivity.
  - pose proof (dcp_ok run_decomposed Hr) as D. change (mpi_decomposition nd N dims ng r = Ok dec) in Ed. rewrite Ed in D. injection D as D.
    rewrite E, D. reflexivity.
Qed.

Let runs (r : idx) : run := the_run (decs nd N dims ng r).
Let K : ModelStep.config := config_of b (runs rank0).
Let L : layout := layout_of b dims runs.
Lemma config_same r : config_of b (runs r) = K. Proof. reflexivity. Qed.
Lemma run_coords : global_coords nd N ng X.
Proof.
  intros d Hd. unfold X, coords_of, regular_mesh, compute_regular_mesh_1d. cbn [a_ext]. unfold nghost_of. rewrite coord_mk3 by exact Hd. reflexivity.
Qed.
Lemma file_runs_on : runs_on K N dims X L.
Proof.
  split.
  - split.
    + exact run_decomposed.
    + reflexivity.
    + exact run_coords.
    + intros r Hr. unfold L, layout_of. cbn [l_dec l_mesh runs the_run r_dec r_param].
      destruct (set_grid_ok nd N dims ng r (decs nd N dims ng r) X) as (m & E & _).
      * intros e He. pose proof (run_N e He). lia.
      * pose proof run_ng. lia.
      * exact Hr.
      * exact (dcp_ok run_decomposed Hr).
      * exact run_coords.
      * fold X. now rewrite E.
  - cbn [K L layout_of l_dec runs the_run r_dec config_of k_nd k_ng]. apply decs_thick.
    + exact (us_nd _ _ _ _ _ Hu).
    + pose proof run_ng. fold ng. lia.
    + intros d Hd. apply (run_N d Hd).
    + exact run_dims.
    + intros d Hd. pose proof (us_thick _ _ _ _ _ Hu d Hd) as Q. change (pm_ng p) with ng in Q.
      pose proof (us_nd _ _ _ _ _ Hu) as HN. fold nd in HN.
      assert (M : coord d (mpi_dims nd dims) = coord d dims).
      { unfold mpi_dims. rewrite coord_mk3 by lia. destruct (Nat.ltb_spec d nd); [reflexivity|lia]. }
      rewrite M. pose proof (us_dims _ _ _ _ _ Hu d ltac:(lia)).
      assert (coord d N = nth d [pm_nx0 p; pm_nx1 p; pm_nx2 p] 0) as -> by (destruct d as [|[|[|d]]]; [reflexivity..|lia]).
      apply Z.div_le_lower_bound; lia.
  - cbn [K config_of k_ng the_run runs r_param]. exact run_ng.
  - cbn [K config_of k_order k_nd runs the_run r_order]. rewrite applied_order_some. intros i Hi. apply in_seq in Hi. fold nd. lia.
  - unfold gravity_ok. cbn [K config_of k_grav k_nd]. destruct (b_grav b) eqn:E; [exact I|exact I|].
    unfold mpi_dims. rewrite coord_mk3 by lia. destruct (Nat.ltb 0 (b_nd b)); [exact (us_grav _ _ _ _ _ Hu E)|reflexivity].
Qed.

(** The regular grid *)
Lemma run_width d i : (d < 3)%nat -> (a_at (X d) (i + 1) - a_at (X d) i = (hi d - lo d) / IZR (coord d N))%R.
Proof.
  intros Hd. destruct (us_lower _ _ _ _ _ Hu) as (A0 & A1 & A2). destruct (us_upper _ _ _ _ _ Hu) as (B0 & B1 & B2).
  assert (E : value_of (lower_bound p d) = lo d /\ value_of (upper_bound p d) = hi d).
  { destruct d as [|[|[|d]]]; [| | |lia]; cbn [lower_bound upper_bound]; [rewrite A0, B0|rewrite A1, B1|rewrite A2, B2]; now split. }
  destruct E as [E1 E2]. unfold X, coords_of, regular_mesh, compute_regular_mesh_1d. cbn [a_at]. rewrite E1, E2. fold N.
  rewrite !minus_IZR, plus_IZR. ring.
Qed.
Lemma run_width_pos d : (d < 3)%nat -> (0 < (hi d - lo d) / IZR (coord d N))%R.
Proof.
  intros Hd. pose proof (us_bounds _ _ _ _ _ Hu d Hd). apply Rdiv_lt_0_compat; [lra|]. apply IZR_lt. pose proof (run_N d Hd). lia.
Qed.
Lemma file_increasing : increasing nd N ng X.
Proof. intros d i Hd _. pose proof (run_width d i Hd). pose proof (run_width_pos d Hd). lra. Qed.
Lemma nd_3 d : (d < nd)%nat -> (d < 3)%nat.
Proof. pose proof (us_nd _ _ _ _ _ Hu) as H. fold nd in H. lia. Qed.
Lemma file_graded : graded nd N ng X 1.
Proof.
  intros d i Hd _ _ wd. apply nd_3 in Hd. assert (E : wd i = wd (i + 1)) by (unfold wd; rewrite (run_width d i Hd), (run_width d (i + 1) Hd); reflexivity).
  rewrite E. lra.
Qed.
Lemma file_widths : periodic_widths nd N ng X.
Proof. intros d i Hd _. apply nd_3 in Hd. now rewrite (run_width d i Hd), (run_width d (coord d N + i) Hd). Qed.
Lemma file_bc i : (i < 2 * nd)%nat -> k_bcs K i = bc i.
Proof.
  intros Hi. cbn [K config_of k_bcs runs the_run r_bcs]. rewrite (nth_indep _ _ ((fun i => Builtin (bc i)) 0%nat)) by (rewrite map_length, seq_length; exact Hi).
  rewrite (map_nth (fun i => Builtin (bc i))), seq_nth by exact Hi. reflexivity.
Qed.
End Run.
