(** * Conservation in periodic and walled boxes (C20, C22). *)
From Coq Require Import FunctionalExtensionality ZifyBool ZifyNat.
From Verif Require Import Base RBase ModelMesh ModelGeom ModelBoundary ModelHydro ModelScheme ModelStep
  SpecMesh SpecGeom SpecBoundary SpecHydro SpecScheme SpecStep SpecWall
  ProofBase ProofMesh ProofR ProofBoundary ProofBoundary2 ProofHydro ProofHydro2 ProofScheme ProofMirror ProofShift ProofReduce
  ProofStep ProofLayout ProofSteady ProofWall.
Local Open Scope R_scope.

Lemma lsum_box_shift (f : idx -> R) o b e :
  lsum f (box_cells (iadd o b) (iadd o e)) = lsum (fun c => f (iadd o c)) (box_cells b e).
Proof.
  destruct o as [oi oj ok], b as [bi bj bk], e as [ei ej ek]. rewrite !lsum_box. unfold iadd. cbn [ii jj kk].
  rewrite <- lsum_zrange_shift. apply lsum_ext. intros k _.
  rewrite <- lsum_zrange_shift. apply lsum_ext. intros j _.
  rewrite <- lsum_zrange_shift. reflexivity.
Qed.

(** A thick process grid fits in the mesh. *)
Lemma thick_serial K N dims X L L1 : laid_out K N dims X L -> laid_out K N one_process X L1 ->
  thick (k_nd K) dims (k_ng K) (l_dec L) -> thick (k_nd K) one_process (k_ng K) (l_dec L1).
Proof.
  intros HL HL1. exact (serial_thick _ _ _ _ _ _ (lo_dec HL) (lo_dec HL1)).
Qed.

Section Box.
Variables (K : config) (N : idx) (X : nat -> arr1) (L : layout).
Hypothesis HL : laid_out K N one_process X L.
Notation nd := (k_nd K).
Notation ng := (k_ng K).
Notation arr := (in_array (d_nwg (l_dec L rank0))).
Let HD := lo_dec HL.
Let Hnd : (1 <= nd <= 3)%nat := dcp_nd HD.
Let r0 := rank0_ok nd.

(** One period of direction [d]. *)
Definition period (d : nat) : idx := mk3 (fun k => if Nat.eqb k d then coord d N else 0%Z).
Lemma coord_period d k : (k < 3)%nat -> coord k (period d) = (if Nat.eqb k d then coord d N else 0)%Z.
Proof. intros H. unfold period. now rewrite coord_mk3. Qed.

Lemma sx d : (d < 3)%nat -> coord d (d_nwg (l_dec L rank0)) = (coord d N + 2 * ghosts nd ng d)%Z.
Proof. apply (s_ext _ _ _ _ HL). Qed.

Lemma mesh_at d i : (d < 3)%nat -> l_mesh L rank0 d i = a_at (X d) i.
Proof. intros Hd. rewrite (set_grid_at _ _ _ (lo_mesh HL r0)), (s_cmin _ _ _ _ HL) by assumption. reflexivity. Qed.
Lemma mdx_at d i : (d < 3)%nat -> mdx (l_mesh L rank0) d i = a_at (X d) (i + 1)%Z - a_at (X d) i.
Proof. intros Hd. unfold mdx. now rewrite !mesh_at. Qed.

Let b := mk3 (ghosts nd ng).
Let en := mk3 (fun d => (ghosts nd ng d + coord d N)%Z).

Lemma the_box_ok : box_ok b en.
Proof. intros d Hd. unfold b, en. rewrite !coord_mk3 by assumption. pose proof (dcp_n HD Hd). lia. Qed.
Lemma box_owned c : in_box b en c <-> owned nd ng (d_nloc (l_dec L rank0)) c.
Proof.
  rewrite in_box_coord. unfold owned, b, en.
  split; intros H d Hd; specialize (H d Hd); rewrite !coord_mk3, (s_nloc _ _ _ _ HL) in * by assumption; lia.
Qed.

Lemma integrate_total f : integrate K L (fun _ => f) = total (dv (k_geom K) nd (l_mesh L rank0)) f b en.
Proof.
  unfold integrate, total. rewrite (lo_dims HL), mpi_dims_one.
  change (ranks one_process) with [rank0]. cbn [lsum]. rewrite Rplus_0_r.
  rewrite (sel_cells_box K N one_process X L HL 0 rank0 r0).
  replace (mk3 (fun d => (ghosts nd ng d - (if Nat.ltb d nd then 0 else 0))%Z)) with b.
  2: { apply idx_ext. intros d Hd. unfold b. rewrite !coord_mk3 by assumption. destruct (Nat.ltb d nd); lia. }
  replace (mk3 (fun d => (ghosts nd ng d + nl nd N one_process d (coord d rank0) + (if Nat.ltb d nd then 0 else 0))%Z)) with en.
  2: { apply idx_ext. intros d Hd. unfold en. rewrite !coord_mk3, <- (dec_nloc _ _ _ _ _ HD), (s_nloc _ _ _ _ HL) by assumption.
       destruct (Nat.ltb d nd); lia. }
  apply lsum_ext. intros c _. ring.
Qed.

Lemma in_sel0 c : in_box b en c -> sel K L 0 rank0 c = true.
Proof. intros H. apply (sel_owned _ _ _ _ _ _ _ HL r0). now apply box_owned. Qed.

Hypothesis Hfaces : faces_ok nd (k_order K).

(** What a full step leaves in the owned cells, as far as the pressure fix and the user step do not touch it. *)
Lemma step_owned S t dt c : in_box b en c ->
  let x := s_cell (full_step K L t dt S rank0) c in
  let y := step_godunov K L dt S rank0 c in
  c_rho x = c_rho y /\ (forall k, c_rhou x k = c_rhou y k) /\
  (k_pf K = None -> k_user K = UOff -> c_E x = c_E y).
Proof.
  intros Hc. apply box_owned in Hc. cbv zeta. unfold full_step. cbn [finish s_cell].
  rewrite (bcs_owned K N one_process X L HL) by (assumption || exact r0).
  pose proof (proj2 (sel_owned _ _ _ _ _ _ _ HL r0) Hc) as Hs.
  unfold step_user, user_step. rewrite kwrite_in by assumption.
  assert (Hp : c_rho (step_pf K L dt S rank0 c) = c_rho (step_godunov K L dt S rank0 c) /\
               c_rhou (step_pf K L dt S rank0 c) = c_rhou (step_godunov K L dt S rank0 c)).
  { unfold step_pf. destruct (k_pf K) as [eps|]; [|auto]. unfold pressure_fix. rewrite kwrite_in by assumption.
    unfold pf_cell. destruct (rltb _ _); auto. }
  destruct Hp as [P1 P2]. split; [|split].
  - rewrite <- P1. unfold user_cell. destruct (k_user K); reflexivity.
  - intros k. rewrite <- P2. unfold user_cell. destruct (k_user K); reflexivity.
  - intros E1 E2. unfold user_cell. rewrite E2. unfold step_pf. now rewrite E1.
Qed.

Hypothesis Hng : (2 <= ng)%Z.
Hypothesis Hthick : thick nd one_process ng (l_dec L).
Hypothesis Hcart : k_geom K = Cartesian.
Hypothesis Hincr : increasing nd N ng X.

Lemma dv_nonzero c : in_box b en c -> dv (k_geom K) nd (l_mesh L rank0) c <> 0.
Proof.
  intros Hc. rewrite in_box_coord in Hc. rewrite Hcart. cbn [dv]. unfold cart_dv.
  assert (H : forall d, (d < 3)%nat -> 0 < mdx (l_mesh L rank0) d (coord d c)).
  { intros d Hd. rewrite mdx_at by assumption. specialize (Hc d Hd). unfold b, en in Hc. rewrite !coord_mk3 in Hc by assumption.
    pose proof (ghosts_nonneg _ _ _ _ _ HD d). pose proof (Hincr d (coord d c) Hd ltac:(lia)). lra. }
  pose proof (H 0%nat ltac:(lia)). pose proof (H 1%nat ltac:(lia)). pose proof (H 2%nat ltac:(lia)). cbn [coord] in *.
  apply Rgt_not_eq. apply Rmult_lt_0_compat; [apply Rmult_lt_0_compat|]; assumption.
Qed.

(** *** Periodic directions *)
Definition repeats (d : nat) (a : idx -> cell) : Prop :=
  forall c, arr c -> arr (iadd (period d) c) -> a (iadd (period d) c) = a c.

Lemma sync_repeats (A : world cell) d : (d < nd)%nat ->
  repeats d (sync_dims (mpi_dims nd one_process) (fun r => d_nwg (l_dec L r)) ng nd A rank0).
Proof.
  intros Hd c Hc Hc'. destruct (gather K N one_process X L HL A) as (G & HG).
  rewrite !(sync_periodic nd N one_process ng (l_dec L) HD G Hthick A HG rank0 r0) by assumption.
  f_equal. apply idx_ext. intros k Hk. unfold wrap, global_index.
  rewrite !coord_mk3, coord_iadd', coord_period by assumption. pose proof (dcp_n HD Hk).
  destruct (Nat.eqb_spec k d) as [->|_]; [|f_equal; lia].
  replace (coord d (corner_min (d_range (l_dec L rank0))) + (coord d N + coord d c) - ghosts nd ng d)%Z
    with (coord d (corner_min (d_range (l_dec L rank0))) + coord d c - ghosts nd ng d + 1 * coord d N)%Z by lia.
  apply Z.mod_add. lia.
Qed.

Lemma period_set d d' x c : (d < 3)%nat -> (d' < 3)%nat -> d <> d' ->
  iadd (period d) (set_coord d' x c) = set_coord d' x (iadd (period d) c).
Proof.
  intros H H' Hn. apply idx_ext. intros k Hk. rewrite coord_iadd', coord_period by assumption.
  destruct (Nat.eq_dec k d') as [->|Hk'].
  - rewrite !coord_set_same. destruct (Nat.eqb_spec d' d); [congruence|lia].
  - rewrite !coord_set_other by auto. now rewrite coord_iadd', coord_period.
Qed.

Lemma bc_step_repeats W d f : (d < nd)%nat -> (f < 2 * nd)%nat -> (f / 2 = d -> k_bcs K f = Periodic)%nat ->
  repeats d (W rank0) -> repeats d (bc_step (mpi_dims nd one_process) (fun r => d_nwg (l_dec L r)) ng (k_bcs K) W f rank0).
Proof.
  intros Hd Hf Hp H. unfold bc_step. destruct (is_border (mpi_dims nd one_process) rank0 (f / 2) (f mod 2)) eqn:Eb; [|exact H].
  assert (Hf2 : (f / 2 < nd)%nat) by (apply Nat.div_lt_upper_bound; lia).
  set (d' := (f / 2)%nat) in *. set (face' := (f mod 2)%nat) in *. clearbody d' face'.
  destruct (Nat.eq_dec d' d) as [E|Hdd]; [rewrite (Hp E); exact H|].
  assert (Hd'3 : (d' < 3)%nat) by lia. assert (Hd3 : (d < 3)%nat) by lia.
  pose proof (sx d' Hd'3) as Ee'. rewrite (ghosts_lt nd ng) in Ee' by assumption.
  pose proof (Hthick rank0 r0 d' Hf2) as Et'. rewrite (s_nloc _ _ _ _ HL) in Et' by assumption.
  intros c Hc Hc'.
  assert (Ec : coord d' (iadd (period d) c) = coord d' c).
  { rewrite coord_iadd', coord_period by assumption. apply Nat.eqb_neq in Hdd. rewrite Hdd. lia. }
  assert (Eiff : in_face (d_nwg (l_dec L rank0)) ng d' face' (iadd (period d) c) <-> in_face (d_nwg (l_dec L rank0)) ng d' face' c).
  { unfold in_face. rewrite Ec. tauto. }
  assert (Hset : forall x, (0 <= x < coord d' (d_nwg (l_dec L rank0)))%Z ->
    W rank0 (set_coord d' x (iadd (period d) c)) = W rank0 (set_coord d' x c)).
  { intros x Hx. rewrite <- period_set by auto. apply H.
    - now apply (set_coord_in_array (l_dec L) (l_dec L)).
    - rewrite period_set by auto. now apply (set_coord_in_array (l_dec L) (l_dec L)). }
  destruct (in_boxb (bc_begin (d_nwg (l_dec L rank0)) ng d' face') (bc_end (d_nwg (l_dec L rank0)) ng d' face') c) eqn:E.
  - apply in_boxb_spec, bc_box_iff in E; [|assumption|lia]. pose proof (proj2 Eiff E) as E'.
    destruct (k_bcs K f).
    + rewrite !null_gradient_value by (assumption || lia). apply Hset. destruct face'; lia.
    + now apply H.
    + rewrite !reflexive_value by (assumption || lia). rewrite Ec.
      rewrite Hset; [reflexivity|]. destruct E as [E0 E]. pose proof (E0 d' Hd'3). destruct face'; lia.
  - assert (En : ~ in_face (d_nwg (l_dec L rank0)) ng d' face' c).
    { intros Hx. apply bc_box_iff in Hx; [|assumption|lia]. apply in_boxb_spec in Hx. congruence. }
    rewrite !bc_apply_outside by (assumption || lia || tauto). now apply H.
Qed.

Lemma bcs_repeats (A : world cell) d : (d < nd)%nat -> k_bcs K (2 * d) = Periodic -> k_bcs K (2 * d + 1) = Periodic ->
  repeats d (bcs_update K L A rank0).
Proof.
  intros Hd P0 P1. unfold bcs_update, boundary_update. rewrite (lo_dims HL).
  pose proof (sync_repeats A d Hd) as H. revert H.
  generalize (sync_dims (mpi_dims nd one_process) (fun r => d_nwg (l_dec L r)) ng nd A). revert Hfaces.
  induction (k_order K) as [|f l IH]; intros Hf W HW; cbn [fold_left]; [exact HW|].
  apply IH; [intros y Hy; apply Hf; now right|].
  apply bc_step_repeats; [assumption|apply Hf; now left| |assumption].
  intros E. pose proof (Nat.div_mod f 2 ltac:(lia)) as Edm. pose proof (Nat.mod_upper_bound f 2 ltac:(lia)).
  rewrite E in Edm. destruct (f mod 2)%nat as [|[|]]; [| |lia].
  - rewrite Edm, Nat.add_0_r. exact P0.
  - rewrite Edm. exact P1.
Qed.

(** The state in which every step starts. *)
Definition box_state (S : idx -> pstate) : Prop :=
  (forall d c, (d < nd)%nat -> periodic_dir K N X d -> arr c -> arr (iadd (period d) c) -> alike rank0 rank0 (period d) S S c) /\
  (forall d face, (d < nd)%nat -> (face < 2)%nat -> walled_dir K N X d -> wall_state K one_process L d face S) /\
  (forall c j, s_grav (S rank0) c j = 0).

Hypothesis Hgrav : weightless K.

Lemma weightless_pull d : no_pull_along K d.
Proof. unfold no_pull_along. destruct Hgrav as (g & -> & Hg). apply Hg. Qed.

Lemma box_finish A rec new S : box_state (finish K L (bcs_update K L A) rec new S).
Proof.
  split; [|split].
  - intros d c Hd (P0 & P1 & _) Hc Hc'. unfold alike. cbn [finish s_cell s_u s_P conv_cons_to_prim fst snd]. unfold kwrite.
    rewrite (proj2 (sel_array _ _ _ _ _ _ _ HL r0) Hc), (proj2 (sel_array _ _ _ _ _ _ _ HL r0) Hc').
    rewrite (bcs_repeats A d Hd P0 P1 c Hc Hc'). auto.
  - intros d face Hd Hf (W0 & W1 & _). apply (wall_finish K N one_process X L HL); try assumption.
    + destruct face as [|[|]]; [assumption|assumption|lia].
    + apply weightless_pull.
  - intros c j. cbn [finish s_grav]. destruct Hgrav as (g & E & Hg). unfold gravity_values. rewrite E. apply Hg.
Qed.

(** Fluxes through the two ends of a row of cells are the same. *)
Lemma flux_repeats S dt d c : box_state S -> (d < nd)%nat -> periodic_dir K N X d -> coord d c = ng ->
  (forall k, (k < 3)%nat -> k <> d -> (ghosts nd ng k <= coord k c < ghosts nd ng k + coord k N)%Z) ->
  step_flux K L dt S rank0 (iadd (period d) c) d = step_flux K L dt S rank0 c d.
Proof.
  intros (HS & _ & Hg0) Hd Hper Ecd Hc. unfold step_flux. cbv zeta.
  assert (Hrec : forall x sd, (coord d x = ng \/ coord d x = ng - 1)%Z ->
    (forall k, (k < 3)%nat -> k <> d -> coord k x = coord k c) ->
    r_q (step_rec K L dt S rank0) (iadd (period d) x) sd d = r_q (step_rec K L dt S rank0) x sd d).
  { intros x sd Hx Hx'.
    assert (Hsel : forall y, (y = x \/ y = iadd (period d) x) -> sel K L 1 rank0 y = true).
    { intros y Hy. apply (sel_spec _ _ _ _ _ _ _ _ HL r0). intros k Hk. rewrite (s_nloc _ _ _ _ HL) by assumption.
      pose proof (dcp_n HD Hk).
      destruct (Nat.eq_dec k d) as [->|Hne].
      - rewrite (ghosts_lt nd ng) by assumption. rewrite (proj2 (Nat.ltb_lt d nd)) by assumption.
        destruct Hy as [->| ->]; [|rewrite coord_iadd', coord_period, Nat.eqb_refl by lia]; lia.
      - specialize (Hc k Hk Hne). specialize (Hx' k Hk Hne).
        destruct Hy as [->| ->]; [|rewrite coord_iadd', coord_period by lia; rewrite (proj2 (Nat.eqb_neq k d) Hne)];
          destruct (Nat.ltb k nd); lia. }
    apply step_rec_shift; auto.
    - lia.
    - rewrite Hcart. intros k j Hk Hj. rewrite !mdx_at, coord_period by assumption.
      destruct (Nat.eqb_spec k d) as [->|_].
      + rewrite <- (proj2 (proj2 Hper) (coord d x + j)%Z) by lia.
        f_equal; f_equal; lia.
      + replace (0 + coord k x + j)%Z with (coord k x + j)%Z by lia. reflexivity.
    - intros j. now rewrite !Hg0.
    - intros y Hy.
      assert (Hy0 : arr y) by (apply (stencil_array K N one_process X L HL Hng rank0 x y r0 (Hsel x (or_introl eq_refl)) Hy)).
      assert (Hy1 : in_stencil nd (iadd (period d) x) (iadd (period d) y)).
      { destruct Hy as [->|(k & Hk & [-> | ->])]; [now left| |]; right; exists k; (split; [exact Hk|]);
          [left; now rewrite lindex_iadd|right; now rewrite rindex_iadd]. }
      apply HS; [exact Hd|exact Hper|exact Hy0|].
      exact (stencil_array K N one_process X L HL Hng rank0 _ _ r0 (Hsel _ (or_intror eq_refl)) Hy1). }
  rewrite lindex_iadd, !Hrec; auto.
  - right. rewrite coord_lindex_same by lia. lia.
  - intros k Hk Hne. rewrite coord_lindex by assumption. destruct (Nat.eqb_spec d k); [congruence|lia].
Qed.


(** [pr] is not transmitted by walls. *)
Definition stopped (pr : flux -> R) : Prop :=
  forall d F, (d < nd)%nat -> walled_dir K N X d -> f_rho F = 0 -> f_E F = 0 -> (forall k, k <> d -> f_m F k = 0) -> pr F = 0.

Lemma box_inflow S dt (pr : flux -> R) : box_state S ->
  (forall d, (d < nd)%nat -> periodic_dir K N X d \/
     (walled_dir K N X d /\ stopped pr /\ lawful_eos (k_eos K) /\ admissible_faces K one_process L dt S)) ->
  inflow nd (ds (k_geom K) nd (l_mesh L rank0))
    (fun c d => pr (riemann (k_sol K) nd (k_eos K) (r_q (step_rec K L dt S rank0) (lindex d c) 1%nat d)
                   (r_q (step_rec K L dt S rank0) c 0%nat d) d)) b en = 0.
Proof.
  intros HS Hpr. change (inflow nd (ds (k_geom K) nd (l_mesh L rank0)) (fun c d => pr (step_flux K L dt S rank0 c d)) b en = 0).
  unfold inflow. apply vsum_0. intros d Hd.
  destruct (Hpr d Hd) as [Hper|(Hw & Hst & He & Hadm)].
  - apply Rminus_diag_eq. unfold lower_side, upper_side.
    assert (E1 : set_coord d (coord d en) b = iadd (period d) b).
    { apply idx_ext. intros k Hk. rewrite coord_iadd', coord_period by assumption. destruct (Nat.eqb_spec k d) as [->|Hne].
      - rewrite coord_set_same. unfold en, b. rewrite !coord_mk3 by lia. lia.
      - rewrite coord_set_other by (assumption || lia). lia. }
    assert (E2 : set_coord d (coord d en + 1)%Z en = iadd (period d) (set_coord d (coord d b + 1)%Z en)).
    { apply idx_ext. intros k Hk. rewrite coord_iadd', coord_period by assumption. destruct (Nat.eqb_spec k d) as [->|Hne].
      - rewrite !coord_set_same. unfold en, b. rewrite !coord_mk3 by lia. lia.
      - rewrite !coord_set_other by (assumption || lia). lia. }
    rewrite E1, E2, lsum_box_shift. apply lsum_ext. intros c Hc. apply in_box_cells in Hc.
    rewrite in_box_coord in Hc.
    assert (Hcd : coord d c = ng).
    { pose proof (Hc d ltac:(lia)) as H. rewrite coord_set_same in H. unfold b in H. rewrite coord_mk3, (ghosts_lt nd ng) in H by (assumption || lia). lia. }
    assert (Hck : forall k, (k < 3)%nat -> k <> d -> (ghosts nd ng k <= coord k c < ghosts nd ng k + coord k N)%Z).
    { intros k Hk Hne. pose proof (Hc k Hk) as H. rewrite coord_set_other in H by (assumption || lia). unfold b, en in H.
      rewrite !coord_mk3 in H by assumption. lia. }
    rewrite (flux_repeats S dt d c HS Hd Hper Hcd Hck). f_equal.
    rewrite Hcart. cbn [ds]. unfold cart_ds.
    assert (Em : forall k, (k < 3)%nat -> k <> d -> coord k (iadd (period d) c) = coord k c).
    { intros k Hk Hne. rewrite coord_iadd', coord_period by assumption. apply Nat.eqb_neq in Hne. rewrite Hne. lia. }
    destruct d as [|[|[|d]]]; cbn [Nat.eqb]; [now rewrite (Em 1%nat), (Em 2%nat) by lia|now rewrite (Em 0%nat), (Em 2%nat) by lia
      |now rewrite (Em 0%nat), (Em 1%nat) by lia|lia].
  - assert (Hz : forall face c, (face < 2)%nat -> on_wall K one_process L d face rank0 c -> pr (step_flux K L dt S rank0 c d) = 0).
    { intros face c Hf Hc. destruct HS as (_ & HW & _).
      assert (Hmw : mirrored_widths N ng X d face).
      { destruct Hw as (_ & _ & M0 & M1). destruct face as [|[|]]; [assumption|assumption|lia]. }
      assert (Hwl : wall K d face).
      { destruct Hw as (W0 & W1 & _). destruct face as [|[|]]; [assumption|assumption|lia]. }
      destruct (wall_flux K N one_process X L HL Hng Hthick d face Hd Hf Hwl Hcart Hmw He S dt rank0 c (HW d face Hd Hf Hw) r0 Hc) as (F1 & F2 & F3).
      { destruct Hc as [Hc Hk]. destruct face as [|[|]]; [| |lia]; (apply Hadm; [exact r0| |lia|assumption]).
        + intros k Hk3. destruct (Nat.eq_dec k d) as [->|Hne]; [|now apply Hk].
          rewrite (ghosts_lt nd ng), (s_nloc _ _ _ _ HL) by assumption. pose proof (dcp_n HD Hk3). lia.
        + intros k Hk3. destruct (Nat.eq_dec k d) as [->|Hne].
          * rewrite coord_lindex_same, (ghosts_lt nd ng) by assumption. rewrite (s_nloc _ _ _ _ HL) in * by assumption. pose proof (dcp_n HD Hk3). lia.
          * rewrite coord_lindex_other by (assumption || lia). now apply Hk. }
      apply (Hst d); assumption. }
    assert (Ed : coord d en = (ng + coord d N)%Z) by (unfold en; rewrite coord_mk3, (ghosts_lt nd ng) by (assumption || lia); reflexivity).
    assert (Eb : coord d b = ng) by (unfold b; rewrite coord_mk3, (ghosts_lt nd ng) by (assumption || lia); reflexivity).
    assert (Hk : forall c k, (k < 3)%nat -> (coord k b <= coord k c < coord k en)%Z ->
       (ghosts nd ng k <= coord k c < ghosts nd ng k + coord k (d_nloc (l_dec L rank0)))%Z).
    { intros c k Hk3 H. rewrite (s_nloc _ _ _ _ HL) by assumption. unfold b, en in H. rewrite !coord_mk3 in H by assumption. exact H. }
    assert (Z0 : lsum (fun c => pr (step_flux K L dt S rank0 c d) * ds (k_geom K) nd (l_mesh L rank0) c d) (lower_side b en d) = 0).
    { apply lsum_0. intros c Hc. unfold lower_side in Hc. apply in_box_cells in Hc. rewrite in_box_coord in Hc.
      rewrite (Hz 0%nat c); [ring|lia|]. split.
      - split; [apply coord_rank0|]. pose proof (Hc d ltac:(lia)) as H. rewrite coord_set_same, Eb in H. lia.
      - intros k Hk3 Hne. apply Hk; [assumption|]. specialize (Hc k Hk3). rewrite coord_set_other in Hc by (assumption || lia). exact Hc. }
    assert (Z1 : lsum (fun c => pr (step_flux K L dt S rank0 c d) * ds (k_geom K) nd (l_mesh L rank0) c d) (upper_side b en d) = 0).
    { apply lsum_0. intros c Hc. unfold upper_side in Hc. apply in_box_cells in Hc. rewrite in_box_coord in Hc.
      rewrite (Hz 1%nat c); [ring|lia|]. split.
      - split; [rewrite coord_rank0, mpi_dims_one, coord_one; reflexivity|]. pose proof (Hc d ltac:(lia)) as H. rewrite !coord_set_same, Ed in H.
        rewrite (s_nloc _ _ _ _ HL) by lia. lia.
      - intros k Hk3 Hne. apply Hk; [assumption|]. specialize (Hc k Hk3). rewrite !coord_set_other in Hc by (assumption || lia). exact Hc. }
    rewrite Z0, Z1. ring.
Qed.

Definition mass (S : idx -> pstate) : R := integrate K L (fun _ c => c_rho (s_cell (S rank0) c)).
Definition momentum (S : idx -> pstate) (k : nat) : R := integrate K L (fun _ c => c_rhou (s_cell (S rank0) c) k).
Definition energy (S : idx -> pstate) : R := integrate K L (fun _ c => c_E (s_cell (S rank0) c)).

(** Directions along which momentum is conserved: no walls across them. *)
Lemma box_step S t dt : box_state S ->
  (forall d, (d < nd)%nat -> periodic_dir K N X d \/
     (walled_dir K N X d /\ lawful_eos (k_eos K) /\ admissible_faces K one_process L dt S)) ->
  mass (full_step K L t dt S) = mass S /\
  (forall k, ((k < nd)%nat -> periodic_dir K N X k /\ k_bcs K (2 * k) <> Reflexive) -> momentum (full_step K L t dt S) k = momentum S k) /\
  (k_pf K = None -> k_user K = UOff -> energy (full_step K L t dt S) = energy S).
Proof.
  intros HS Hcl. pose proof HS as (_ & _ & Hg0). unfold mass, momentum, energy.
  set (T f := total (dv (k_geom K) nd (l_mesh L rank0)) f b en).
  assert (Ht : forall f, integrate K L (fun _ => f) = T f) by (intros f; apply integrate_total).
  assert (Hin : forall pr, stopped pr -> forall d, (d < nd)%nat -> periodic_dir K N X d \/
     (walled_dir K N X d /\ stopped pr /\ lawful_eos (k_eos K) /\ admissible_faces K one_process L dt S)).
  { intros pr Hp d Hd. destruct (Hcl d Hd) as [H|(H1 & H2 & H3)]; auto. }
  split; [|split].
  - rewrite !Ht. unfold T. rewrite (total_ext _ _ (fun c => c_rho (step_godunov K L dt S rank0 c))) by (intros c Hc; now apply step_owned).
    apply Rminus_diag_uniq. unfold step_godunov.
    rewrite god_mass_balance by (first [exact the_box_ok|exact in_sel0|exact dv_nonzero|lia]).
    rewrite (box_inflow S dt f_rho HS); [ring|]. apply Hin. intros d F _ _ H _ _. exact H.
  - intros k Hk. rewrite !Ht. unfold T. rewrite (total_ext _ _ (fun c => c_rhou (step_godunov K L dt S rank0 c) k)) by (intros c Hc; now apply step_owned).
    apply Rminus_diag_uniq. unfold step_godunov.
    rewrite god_momentum_balance by (first [exact the_box_ok|exact in_sel0|exact dv_nonzero|lia|exact Hcart|exact Hg0]).
    rewrite (box_inflow S dt (fun f => f_m f k) HS); [ring|]. apply Hin. intros d F Hd ((Hr & _) & _) _ _ H. apply H.
    intros ->. rewrite Nat.add_0_r in Hr. destruct (Hk Hd) as [_ Hn]. congruence.
  - intros E1 E2. rewrite !Ht. unfold T. rewrite (total_ext _ _ (fun c => c_E (step_godunov K L dt S rank0 c))) by (intros c Hc; now apply step_owned).
    apply Rminus_diag_uniq. unfold step_godunov.
    rewrite god_energy_balance by (first [exact the_box_ok|exact in_sel0|exact dv_nonzero|lia|exact Hg0]).
    rewrite (box_inflow S dt f_E HS); [ring|]. apply Hin. intros d F _ _ _ H _. exact H.
Qed.

Lemma box_run ts : forall S, box_state S ->
  (forall d, (d < nd)%nat -> periodic_dir K N X d \/ (walled_dir K N X d /\ lawful_eos (k_eos K) /\
     forall pre t dt post, ts = pre ++ (t, dt) :: post -> admissible_faces K one_process L dt (run K L pre S))) ->
  mass (run K L ts S) = mass S /\
  (forall k, ((k < nd)%nat -> periodic_dir K N X k /\ k_bcs K (2 * k) <> Reflexive) -> momentum (run K L ts S) k = momentum S k) /\
  (k_pf K = None -> k_user K = UOff -> energy (run K L ts S) = energy S).
Proof.
  induction ts as [|[t dt] ts IH]; intros S HS Hcl; [auto|].
  change (run K L ((t, dt) :: ts) S) with (run K L ts (full_step K L t dt S)).
  destruct (IH (full_step K L t dt S)) as (A1 & A2 & A3); [apply box_finish| |].
  - intros d Hd. destruct (Hcl d Hd) as [H|(H1 & H2 & H3)]; [now left|right]. split; [assumption|]. split; [assumption|].
    intros pre t' dt' post ->. apply (H3 ((t, dt) :: pre) t' dt' post). reflexivity.
  - destruct (box_step S t dt HS) as (B1 & B2 & B3).
    + intros d Hd. destruct (Hcl d Hd) as [H|(H1 & H2 & H3)]; [now left|right]. split; [assumption|]. split; [assumption|].
      apply (H3 [] t dt ts). reflexivity.
    + split; [|split].
      * now rewrite A1.
      * intros k Hk. now rewrite A2, B2.
      * intros E1 E2. now rewrite A3, B3.
Qed.
End Box.

(** On any process grid. *)
Section BoxPar.
Variables (K : config) (N dims : idx) (X : nat -> arr1) (L : layout).
Hypothesis HR : runs_on K N dims X L.
Hypothesis Hcart : k_geom K = Cartesian.
Hypothesis Hgrav : weightless K.
Hypothesis Hincr : increasing (k_nd K) N (k_ng K) X.

Lemma box_conservation G S ts : starts_from K dims L G S ->
  let S0 := init_state K L S in
  let S1 := run K L ts S0 in
  (forall d, (d < k_nd K)%nat -> periodic_dir K N X d \/ (walled_dir K N X d /\ lawful_eos (k_eos K) /\
     forall pre t dt post, ts = pre ++ (t, dt) :: post -> admissible_faces K dims L dt (run K L pre S0))) ->
  integrate K L (fun r c => c_rho (s_cell (S1 r) c)) = integrate K L (fun r c => c_rho (s_cell (S0 r) c)) /\
  (forall k, ((k < k_nd K)%nat -> periodic_dir K N X k /\ k_bcs K (2 * k) <> Reflexive) ->
     integrate K L (fun r c => c_rhou (s_cell (S1 r) c) k) = integrate K L (fun r c => c_rhou (s_cell (S0 r) c) k)) /\
  (k_pf K = None -> k_user K = UOff ->
     integrate K L (fun r c => c_E (s_cell (S1 r) c)) = integrate K L (fun r c => c_E (s_cell (S0 r) c))).
Proof.
  intros HS S0 S1 Hcl. pose proof (ro_layout HR) as HL. pose proof (ro_thick HR) as Hthick. pose proof (ro_ng HR) as Hng.
  pose proof (ro_faces HR) as Hfaces. pose proof (ro_grav HR) as Hgk.
  destruct (serial_layout _ _ _ _ _ HL) as (Ls & HLs).
  pose proof (thick_serial _ _ _ _ _ _ HL HLs Hthick) as Hts.
  pose proof (the_state_ok K one_process Ls G) as HSs. set (Ss := the_state K Ls G) in *.
  pose proof (init_slice K N dims X L Ls HL HLs Hthick Hfaces Hgk G S Ss HS HSs) as I0. fold S0 in I0.
  assert (I1 : forall l, in_step K dims L (run K L l S0) (run K Ls l (init_state K Ls Ss))).
  { intros l. exact (run_slice K N dims X L Ls HL HLs Hthick Hng Hfaces Hgk l _ _ I0). }
  assert (Hint : forall (q : cell -> R) U V, in_step K dims L U V ->
    integrate K L (fun r c => q (s_cell (U r) c)) = integrate K Ls (fun _ c => q (s_cell (V rank0) c))).
  { intros q U V [(HC & _) _]. apply (integrate_slice K N dims X L Ls HL HLs). intros r c Hr Hs.
    assert (Ha : in_array (d_nwg (l_dec L r)) c).
    { apply (sel_array _ _ _ _ _ _ _ HL Hr). apply (sel_mono _ _ _ _ _ 0 _ _ _ HL Hr); [lia|exact Hs]. }
    now rewrite (HC r Hr c Ha). }
  assert (Hadm : forall dt U V, in_step K dims L U V -> admissible_faces K dims L dt U -> admissible_faces K one_process Ls dt V).
  { intros dt U V HI HU r c sd k Hr Hc Hsd Hk.
    assert (Er : r = rank0) by (apply idx_ext; intros j Hj; specialize (Hr j Hj); rewrite mpi_dims_one, coord_one in Hr; rewrite coord_rank0; lia).
    subst r.
    pose proof (proj2 (sel_owned _ _ _ _ _ _ _ HLs Hr) Hc) as Hsel.
    destruct (covered K N dims X L Ls HL HLs 0 c ltac:(lia) Hsel) as (r & c' & Hr' & Hs' & <-).
    assert (H1 : sel K L 1 r c' = true) by (apply (sel_mono _ _ _ _ _ 0 _ _ _ HL Hr'); [lia|exact Hs']).
    destruct (step_rec_shift K L Ls r rank0 (corner_min (d_range (l_dec L r))) U V dt (Hnd3 K N dims X L HL) c' sd k Hk) as [E _].
    - now apply (geo_slice K N dims X L Ls HL HLs).
    - intros j. destruct HI as [_ Hg]. apply (Hg r c' j Hr'). now apply (sel1_array K N dims X L HL Hng).
    - intros x Hx. destruct HI as [(A1 & A2 & A3) _].
      pose proof (stencil_array K N dims X L HL Hng r c' x Hr' H1 Hx) as Ha.
      split; [|split]; symmetry; [now apply A1|now apply A2|now apply A3].
    - exact H1.
    - now apply (sel_slice K N dims X L Ls HL HLs).
    - rewrite E. apply HU; [assumption| |assumption|assumption]. now apply (sel_owned _ _ _ _ _ _ _ HL Hr'). }
  destruct (box_run K N X Ls HLs Hfaces Hng Hts Hcart Hincr Hgrav ts (init_state K Ls Ss)) as (C1 & C2 & C3).
  - now apply (box_finish K N X Ls).
  - intros d Hd. destruct (Hcl d Hd) as [H|(H1 & H2 & H3)]; [now left|right]. split; [assumption|]. split; [assumption|].
    intros pre t dt post E. apply (Hadm dt (run K L pre S0)); [apply I1|]. now apply (H3 pre t dt post).
  - unfold S1. split; [|split].
    + rewrite (Hint c_rho _ _ (I1 ts)), (Hint c_rho _ _ I0). exact C1.
    + intros k Hk. rewrite (Hint (fun x => c_rhou x k) _ _ (I1 ts)), (Hint (fun x => c_rhou x k) _ _ I0). now apply C2.
    + intros E1 E2. rewrite (Hint c_E _ _ (I1 ts)), (Hint c_E _ _ I0). now apply C3.
Qed.
End BoxPar.
