(** * Runs under a symmetry of the grid (C99): the part common to all symmetries. *)
From Coq Require Import FunctionalExtensionality ZifyBool ZifyNat.
From Verif Require Import Base RBase ModelMesh ModelGeom ModelBoundary ModelHydro ModelScheme ModelStep
  SpecMesh SpecBoundary SpecHydro SpecScheme SpecStep SpecFill
  ProofBase ProofMesh ProofR ProofBoundary ProofBoundary2 ProofHydro ProofScheme ProofMirror ProofShift ProofReduce ProofStep ProofFill.
Local Open Scope R_scope.

Lemma iadd_zero c : iadd (I3 0 0 0) c = c.
Proof. destruct c. reflexivity. Qed.

(** ** Arrays without their surroundings *)
Definition zero_cell : cell := mkCell 0 (fun _ => 0) 0 (fun _ => 0).
Definition clean_layout (X : nat -> arr1) (L : layout) : layout :=
  mkLayout (l_dims L) (l_dec L) (fun _ d i => if Nat.ltb d 3 then a_at (X d) i else 0).
Definition clean (K : config) (L : layout) (S : idx -> pstate) : idx -> pstate := fun _ =>
  let s := S rank0 in
  let p := sel K L (k_ng K) rank0 in
  mkState (fun c => if p c then s_cell s c else zero_cell) (fun c => if p c then s_u s c else fun _ => 0) (fun c => if p c then s_P s c else 0)
    (mkRec (fun _ _ _ => mkCons 0 (fun _ => 0) 0) (fun _ _ _ _ => 0)) (fun _ => zero_cell) (fun c => if p c then s_grav s c else fun _ => 0).

Lemma step_user_clean K N X L t dt S c : laid_out K N one_process X L -> (2 <= k_ng K)%Z -> sel K L 0 rank0 c = true ->
  step_user K L t dt S rank0 c = step_user K (clean_layout X L) t dt (clean K L S) rank0 c.
Proof.
  intros HL Hng Hc. pose proof (rank0_ok (k_nd K)) as Hr. symmetry.
  rewrite <- (iadd_zero c) at 1.
  assert (Hnd : (k_nd K <= 3)%nat) by (pose proof (dcp_nd (lo_dec HL)); lia).
  apply (step_user_shift K L (clean_layout X L) rank0 rank0 (I3 0 0 0) S (clean K L S) dt Hnd t c).
  - intros x Hx. pose proof (sel_stencil _ _ _ _ _ _ _ _ _ HL Hr Hc Hx) as Hx1. cbn [Z.add] in Hx1.
    assert (A : sel K L (k_ng K) rank0 x = true) by (apply (sel_mono _ _ _ _ _ 1 _ _ _ HL Hr); [lia|exact Hx1]).
    split; [|split; [|split; [exact Hx1|split; [now rewrite iadd_zero|]]]].
    + assert (E : forall d i, (d < 3)%nat -> l_mesh (clean_layout X L) rank0 d i = l_mesh L rank0 d i).
      { intros d i Hd. rewrite (set_grid_at _ _ _ (lo_mesh HL Hr)) by assumption. rewrite (s_cmin _ _ _ _ HL) by assumption.
        cbn [clean_layout l_mesh]. destruct (Nat.ltb_spec d 3); [|lia]. now rewrite Z.add_0_l. }
      unfold geo_agree. destruct (k_geom K); intros d j Hd Hj; rewrite ?coord_zero, Z.add_0_l; unfold mdx; now rewrite ?E by assumption.
    + intros j. rewrite iadd_zero. cbn [clean s_grav]. now rewrite A.
    + intros y Hy. pose proof (sel_stencil _ _ _ _ _ _ _ _ _ HL Hr Hx1 Hy) as Hy2. cbn [Z.add Pos.add] in Hy2.
      assert (B : sel K L (k_ng K) rank0 y = true) by (apply (sel_mono _ _ _ _ _ 2 _ _ _ HL Hr); [lia|exact Hy2]).
      unfold alike. rewrite iadd_zero. cbn [clean s_cell s_u s_P]. now rewrite B.
  - exact Hc.
  - now rewrite iadd_zero.
Qed.

(** ** A symmetry *)
Section Sym.
Variables (K K' : config) (N N' : idx) (X X' : nat -> arr1) (L L' : layout).
Variables (phi psi : idx -> idx) (T : cell -> cell) (V : vec -> vec) (good : R -> (idx -> pstate) -> Prop).
Hypothesis HL : laid_out K N one_process X L.
Hypothesis HL' : laid_out K' N' one_process X' L'.
Hypothesis Hng : (2 <= k_ng K)%Z.
Hypothesis Eng : k_ng K' = k_ng K.

Definition related (S S' : idx -> pstate) : Prop :=
  forall c, sel K L (k_ng K) rank0 c = true ->
    s_cell (S' rank0) (phi c) = T (s_cell (S rank0) c) /\ s_u (S' rank0) (phi c) = V (s_u (S rank0) c) /\
    s_P (S' rank0) (phi c) = s_P (S rank0) c /\ s_grav (S' rank0) (phi c) = V (s_grav (S rank0) c).

Hypothesis phi_psi : forall c, phi (psi c) = c.
Hypothesis phi_sel : forall n c, sel K' L' n rank0 (phi c) = sel K L n rank0 c.
Hypothesis step_sym : forall t dt S S', related S S' -> good dt S -> forall c, sel K L 0 rank0 c = true ->
  step_user K' L' t dt S' rank0 (phi c) = T (step_user K L t dt S rank0 c).
Hypothesis bcs_sym : forall W W' : world cell, (forall c, sel K L 0 rank0 c = true -> W' rank0 (phi c) = T (W rank0 c)) ->
  forall c, sel K L (k_ng K) rank0 c = true -> bcs_update K' L' W' rank0 (phi c) = T (bcs_update K L W rank0 c).
Hypothesis prim_sym : forall x, p_u (to_prim (k_nd K') (k_eos K') (cons_of (T x))) = V (p_u (to_prim (k_nd K) (k_eos K) (cons_of x))) /\
  p_P (to_prim (k_nd K') (k_eos K') (cons_of (T x))) = p_P (to_prim (k_nd K) (k_eos K) (cons_of x)).
Hypothesis cons_sym : forall rho u P fx,
  let q := to_cons (k_nd K) (k_eos K) (mkPrim rho u P) in let q' := to_cons (k_nd K') (k_eos K') (mkPrim rho (V u) P) in
  mkCell rho (q_m q') (q_E q') fx = T (mkCell rho (q_m q) (q_E q) fx).
Hypothesis grav_sym : forall A A' c, gravity_values K' L' A' rank0 (phi c) = V (gravity_values K L A rank0 c).
Hypothesis dt_sym : forall S S', related S S' -> forall c, sel K L (k_ng K) rank0 c = true ->
  cell_inverse_dt K' L' S' rank0 (phi c) = cell_inverse_dt K L S rank0 c.

Lemma finish_sym W W' rec rec' new new' S S' :
  (forall c, sel K L (k_ng K) rank0 c = true -> W' rank0 (phi c) = T (W rank0 c)) ->
  related (finish K L W rec new S) (finish K' L' W' rec' new' S').
Proof.
  intros H c Hc. pose proof (phi_sel (k_ng K) c) as Hc'. rewrite Hc, <- Eng in Hc'.
  cbn [finish s_cell s_u s_P s_grav conv_cons_to_prim fst snd]. unfold kwrite. rewrite Hc, Hc', H by assumption.
  split; [reflexivity|]. destruct (prim_sym (W rank0 c)) as [E1 E2]. split; [exact E1|]. split; [exact E2|]. apply grav_sym.
Qed.

Lemma full_step_sym t dt S S' : related S S' -> good dt S -> related (full_step K L t dt S) (full_step K' L' t dt S').
Proof.
  intros H Hg. unfold full_step. apply finish_sym. apply bcs_sym. now apply step_sym.
Qed.

Lemma init_sym S S' :
  (forall c, sel K L 0 rank0 c = true -> c_rho (s_cell (S' rank0) (phi c)) = c_rho (s_cell (S rank0) c) /\
     s_u (S' rank0) (phi c) = V (s_u (S rank0) c) /\ s_P (S' rank0) (phi c) = s_P (S rank0) c /\
     c_fx (s_cell (S' rank0) (phi c)) = c_fx (s_cell (S rank0) c)) ->
  related (init_state K L S) (init_state K' L' S').
Proof.
  intros H. unfold init_state. apply finish_sym. apply bcs_sym. intros c Hc. pose proof (phi_sel 0 c) as Hc'. rewrite Hc in Hc'.
  destruct (H c Hc) as (E1 & E2 & E3 & E4). unfold init_cons. cbn [conv_prim_to_cons fst snd]. unfold kwrite. rewrite Hc, Hc', E1, E2, E3, E4.
  apply cons_sym.
Qed.

Lemma time_step_sym S S' : related S S' -> time_step K' L' S' = time_step K L S.
Proof.
  intros H. unfold time_step. rewrite Eng. erewrite max_list_same; [reflexivity|].
  intros x. unfold all_values, ranks. rewrite (lo_dims HL), (lo_dims HL'), !mpi_dims_one.
  assert (Hb : box_cells (I3 0 0 0) one_process = [rank0]) by reflexivity. rewrite Hb. cbn [flat_map]. rewrite !app_nil_r, !in_map_iff.
  assert (I : forall Kx Lx n c, In c (sel_cells Kx Lx n rank0) <-> sel Kx Lx n rank0 c = true).
  { intros. unfold sel_cells, sel. symmetry. apply in_cells_iff. }
  split.
  - intros (c & <- & Hc). apply I in Hc. rewrite <- (phi_psi c), phi_sel in Hc. exists (psi c). split; [|now apply I].
    rewrite <- (phi_psi c) at 2. symmetry. now apply dt_sym.
  - intros (c & <- & Hc). apply I in Hc. exists (phi c). split; [now apply dt_sym|]. apply I. now rewrite phi_sel.
Qed.

(** Every step of the run is good. *)
Fixpoint good_steps (cfl : R) (n : nat) (t : R) (S : idx -> pstate) : Prop :=
  match n with
  | O => True
  | Datatypes.S n' =>
      match time_step K L S with
      | None => True
      | Some h => good (cfl * h) S /\ good_steps cfl n' (t + cfl * h) (full_step K L t (cfl * h) S)
      end
  end.

Lemma run_cfl_sym cfl n : forall t S S', related S S' -> good_steps cfl n t S ->
  fst (run_cfl K' L' cfl n t S') = fst (run_cfl K L cfl n t S) /\
  related (snd (run_cfl K L cfl n t S)) (snd (run_cfl K' L' cfl n t S')).
Proof.
  induction n as [|n IH]; intros t S S' H Hg; cbn [run_cfl good_steps] in *; [split; [reflexivity|exact H]|].
  rewrite (time_step_sym S S' H). destruct (time_step K L S) as [h|]; [|split; [reflexivity|exact H]].
  destruct Hg as [Hg1 Hg2]. apply IH; [|exact Hg2]. now apply full_step_sym.
Qed.
End Sym.

(** ** Ghost cells under a symmetry *)
Lemma continue_range bl br n x : (1 <= n)%Z -> (- n <= x < 2 * n)%Z -> (0 <= continue bl br n x < n)%Z.
Proof.
  intros Hn Hx. unfold continue. pose proof (Z.mod_pos_bound x n ltac:(lia)).
  destruct (Z.ltb_spec x 0); [destruct bl; lia|]. destruct (Z.leb_spec n x); [destruct br; lia|]. lia.
Qed.

Section OneBcs.
Variables (K : config) (N : idx) (X : nat -> arr1) (L : layout).
Hypothesis HL : laid_out K N one_process X L.
Hypothesis Hth : thick (k_nd K) one_process (k_ng K) (l_dec L).
Hypothesis Ho : complete_order (k_nd K) (k_bcs K) (k_order K).

(** The local number of a global cell. *)
Definition local (g : idx) : idx := mk3 (fun d => (coord d g + ghosts (k_nd K) (k_ng K) d)%Z).
Lemma local_gi c : local (global_index (k_nd K) (k_ng K) (corner_min (d_range (l_dec L rank0))) c) = c.
Proof.
  unfold local. apply idx_ext3. intros d Hd. rewrite coord_mk3 by assumption. unfold global_index. rewrite coord_mk3 by assumption.
  rewrite (s_cmin _ _ _ _ HL) by assumption. lia.
Qed.
Lemma bcs_filled W c : sel K L (k_ng K) rank0 c = true ->
  bcs_update K L W rank0 c
  = continuation (k_nd K) N (k_bcs K) (fun g => W rank0 (local g)) (mk3 (fun d => (coord d c - ghosts (k_nd K) (k_ng K) d)%Z)).
Proof.
  intros Hc. apply (sel_array _ _ _ _ _ _ _ HL (rank0_ok _)) in Hc. unfold bcs_update. rewrite (lo_dims HL).
  rewrite (boundary_filled (k_nd K) N one_process (k_ng K) (l_dec L) (k_bcs K) (k_order K) (fun g => W rank0 (local g)) W (lo_dec HL) Hth Ho); try assumption.
  - f_equal. unfold global_index. apply idx_ext3. intros d Hd. rewrite !coord_mk3 by assumption. rewrite (s_cmin _ _ _ _ HL) by assumption. lia.
  - intros r Hr c0 Hc0. assert (Er : r = rank0).
    { apply idx_ext. intros d Hd. specialize (Hr d Hd). rewrite mpi_dims_one, coord_one in Hr. rewrite coord_rank0. lia. }
    subst r. now rewrite local_gi.
  - apply rank0_ok.
Qed.
End OneBcs.
