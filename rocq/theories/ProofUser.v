(** * Runs with the boundary conditions of the setup on any process grid (C100). *)
From Coq Require Import FunctionalExtensionality ZifyBool ZifyNat.
From Verif Require Import Base RBase ModelMesh ModelGeom ModelBoundary ModelHydro ModelScheme ModelStep ModelSetup ModelMain ModelUser
  SpecMesh SpecBoundary SpecHydro SpecScheme SpecStep SpecSetup SpecMain
  ProofBase ProofMesh ProofR ProofBoundary ProofBoundary2 ProofHydro ProofScheme ProofShift ProofReduce ProofStep ProofLayout ProofRestart.
Local Open Scope R_scope.

Lemma user_cell_local s gm nd th m m' r r' N g g' c c' o :
  mxc m 0 (ii c) = mxc m' 0 (ii c') -> g c 0%nat = g' c' 0%nat ->
  user_cell_of s (mkEnv gm nd th m r N g) c o = user_cell_of s (mkEnv gm nd th m' r' N g') c' o.
Proof. intros H1 H2. unfold user_cell_of. cbn [e_mesh e_grav e_th e_nd]. rewrite H1, H2. reflexivity. Qed.

Section Own.
Variables (K : config) (N dims : idx) (X : nat -> arr1) (L L1 : layout) (U : own_bounds).
Hypothesis HL : laid_out K N dims X L.
Hypothesis HL1 : laid_out K N one_process X L1.
Hypothesis Hthick : thick (k_nd K) dims (k_ng K) (l_dec L).
Hypothesis Hng : (2 <= k_ng K)%Z.
Hypothesis Hfaces : faces_ok (k_nd K) (k_order K).
Hypothesis Hgrav : gravity_ok K dims.
Notation nd := (k_nd K).
Notation ng := (k_ng K).
Notation cmn r := (corner_min (d_range (l_dec L r))).
Notation vr := (process nd dims).
Notation ext r := (d_nwg (l_dec L r)).
Notation ext1 := (d_nwg (l_dec L1 rank0)).
Let HD := lo_dec HL.
Let HD1 := lo_dec HL1.

(** A cell is written on some process exactly when it is on one process. *)
Lemma touched r d s c : vr r -> (d < nd)%nat -> (s < 2)%nat -> in_array (ext r) c ->
  (is_border (l_dims L) r d s && in_boxb (bc_begin (ext r) ng d s) (bc_end (ext r) ng d s) c)%bool
  = in_boxb (bc_begin ext1 ng d s) (bc_end ext1 ng d s) (iadd (cmn r) c).
Proof.
  intros Hr Hd Hs Hc. pose proof (dcp_nd HD) as Hnd. assert (Hd3 : (d < 3)%nat) by lia.
  rewrite (lo_dims HL). pose proof (slice_in_serial nd N dims ng (l_dec L) (l_dec L1) HD HD1 r c Hr Hc) as Hc1.
  pose proof (thick_nl _ _ _ _ _ HD r d Hthick Hr Hd) as Ht.
  pose proof (s_ext _ _ _ _ HL1 d Hd3) as Ee1. rewrite (ghosts_lt nd ng) in Ee1 by assumption.
  pose proof (dec_nwg _ _ _ _ _ HD r d Hr Hd3) as Ee. rewrite (ghosts_lt nd ng) in Ee by assumption.
  pose proof (dec_cmin _ _ _ _ _ HD r d Hr Hd3) as Ecm.
  pose proof (Hr d Hd3) as Hrd. pose proof (Hc d Hd3) as Hcd.
  pose proof (cm_nonneg _ _ _ _ _ HD d (coord d r) Hd3 ltac:(lia)) as Hcm0.
  pose proof (cm_max _ _ _ _ _ HD d (coord d r) Hd3 ltac:(lia)) as Hcm1.
  assert (Hg : (0 <= ng <= coord d (ext r))%Z) by lia.
  assert (Hg1 : (0 <= ng <= coord d ext1)%Z) by lia.
  rewrite (in_box_in_face (l_dec L) (l_dec L1) (ext r) ng d s c Hd3 Hg Hc), (in_box_in_face (l_dec L) (l_dec L1) ext1 ng d s (iadd (cmn r) c) Hd3 Hg1 Hc1). rewrite coord_iadd, Ecm, Ee1, Ee. unfold is_border.
  destruct s as [|[|s]]; [| |lia].
  - destruct (Z.eqb_spec (coord d r) 0) as [E0|E0].
    + rewrite E0, (cm_0 _ _ _ _ _ HD) by assumption. cbn [andb]. lia.
    + pose proof (cm_mono _ _ _ _ _ HD d 1 (coord d r) Hd3 ltac:(lia)) as Hm.
      pose proof (cm_succ _ _ _ _ _ HD d 0 Hd3) as Hsu. cbn in Hsu. rewrite (cm_0 _ _ _ _ _ HD) in Hsu by assumption.
      set (r0 := set_coord d 0%Z r).
      assert (Hr0 : vr r0).
      { intros e He. unfold r0. destruct (Nat.eq_dec d e) as [<-|Hne]; [rewrite coord_set_same; lia|].
        rewrite coord_set_other by assumption. now apply Hr. }
      pose proof (thick_nl _ _ _ _ _ HD r0 d Hthick Hr0 Hd) as H0. unfold r0 in H0. rewrite coord_set_same in H0. cbn [andb]. lia.
  - destruct (Z.eqb_spec (coord d r) (coord d (mpi_dims nd dims) - 1)) as [E0|E0].
    + assert (E : (cm nd N dims d (coord d r) + nl nd N dims d (coord d r) = coord d N)%Z).
      { rewrite <- (cm_succ _ _ _ _ _ HD) by assumption. rewrite E0. replace (coord d (mpi_dims nd dims) - 1 + 1)%Z with (coord d (mpi_dims nd dims)) by lia.
        now apply (cm_p _ _ _ _ _ HD). }
      cbn [andb]. lia.
    + set (rl := set_coord d (coord d (mpi_dims nd dims) - 1)%Z r).
      assert (Hrl : vr rl).
      { intros e He. unfold rl. destruct (Nat.eq_dec d e) as [<-|Hne]; [rewrite coord_set_same; lia|].
        rewrite coord_set_other by assumption. now apply Hr. }
      pose proof (thick_nl _ _ _ _ _ HD rl d Hthick Hrl Hd) as H0. unfold rl in H0. rewrite coord_set_same in H0.
      pose proof (cm_mono _ _ _ _ _ HD d (coord d r + 1) (coord d (mpi_dims nd dims) - 1) Hd3 ltac:(lia)) as Hm.
      rewrite (cm_succ _ _ _ _ _ HD) in Hm by assumption.
      pose proof (cm_succ _ _ _ _ _ HD d (coord d (mpi_dims nd dims) - 1) Hd3) as Hsu.
      replace (coord d (mpi_dims nd dims) - 1 + 1)%Z with (coord d (mpi_dims nd dims)) in Hsu by lia.
      rewrite (cm_p _ _ _ _ _ HD) in Hsu by assumption. cbn [andb]. lia.
Qed.

Definition grav_slice (g g1 : idx -> gravity) : Prop :=
  forall r c j, vr r -> in_array (ext r) c -> g1 rank0 (iadd (cmn r) c) j = g r c j.

Lemma own_step_slice g g1 f (W W1 : world cell) : grav_slice g g1 -> (f < 2 * nd)%nat ->
  slice_of nd dims (l_dec L) W (W1 rank0) ->
  slice_of nd dims (l_dec L) (own_step K N L U g W f) (own_step K N L1 U g1 W1 f rank0).
Proof.
  intros Hg Hf HW. unfold own_step. destruct (ob_face U f).
  2:{ rewrite (lo_dims HL), (lo_dims HL1). exact (bc_step_slice nd N dims ng (l_dec L) (l_dec L1) HD HD1 Hthick (k_bcs K) f W W1 Hf HW). }
  intros r Hr c Hc. set (d := Nat.div f 2). set (s := Nat.modulo f 2).
  assert (Hd : (d < nd)%nat) by (apply Nat.div_lt_upper_bound; lia).
  assert (Hs : (s < 2)%nat) by (apply Nat.mod_upper_bound; lia).
  assert (Eb1 : is_border (l_dims L1) rank0 d s = true).
  { unfold is_border. rewrite (lo_dims HL1), mpi_dims_one, coord_one, coord_rank0. destruct s; reflexivity. }
  rewrite Eb1. pose proof (touched r d s c Hr Hd Hs Hc) as E. unfold user_condition, kwrite.
  fold (cmn r). rewrite <- E.
  destruct (is_border (l_dims L) r d s); cbn [andb]; [|now apply HW].
  destruct (in_boxb (bc_begin (ext r) ng d s) (bc_end (ext r) ng d s) c); [|now apply HW].
  rewrite (HW r Hr c Hc). unfold bound_env.
  rewrite (user_cell_local (ob_setup U) (k_geom K) nd (ob_th U) (l_mesh L r) (l_mesh L1 rank0) r rank0 N (g r) (g1 rank0) c (iadd (cmn r) c)); [reflexivity| |symmetry; now apply Hg].
  unfold mxc. cbn [ii iadd]. rewrite <- Z.add_assoc. pose proof (mesh_slice K N dims X L L1 HL HL1 r 0 (ii c) Hr ltac:(lia)) as E1.
  pose proof (mesh_slice K N dims X L L1 HL HL1 r 0 (ii c + 1)%Z Hr ltac:(lia)) as E2. cbn [coord] in E1, E2. now rewrite E1, E2.
Qed.

Lemma own_fold_slice g g1 order : grav_slice g g1 -> faces_ok nd order -> forall (W W1 : world cell),
  slice_of nd dims (l_dec L) W (W1 rank0) ->
  slice_of nd dims (l_dec L) (fold_left (own_step K N L U g) order W) (fold_left (own_step K N L1 U g1) order W1 rank0).
Proof.
  intros Hg. induction order as [|f order IH]; intros Ho W W1 HW; cbn [fold_left]; [exact HW|].
  apply IH; [intros h Hh; apply Ho; now right|]. apply own_step_slice; [exact Hg|apply Ho; now left|exact HW].
Qed.

Lemma own_update_slice g g1 (W W1 : world cell) : grav_slice g g1 ->
  (forall r c, vr r -> owned nd ng (d_nloc (l_dec L r)) c -> W1 rank0 (iadd (cmn r) c) = W r c) ->
  slice_of nd dims (l_dec L) (own_update K N L U g W) (own_update K N L1 U g1 W1 rank0).
Proof.
  intros Hg H. destruct (holds_by_slice K N dims X L L1 HL1 W W1 H) as (G & HG & HG1). unfold own_update.
  apply own_fold_slice; [exact Hg|exact Hfaces|]. rewrite (lo_dims HL), (lo_dims HL1).
  exact (sync_slice nd N dims ng (l_dec L) (l_dec L1) HD HD1 Hthick G W W1 HG HG1).
Qed.

Lemma own_full_step_slice t dt S S1 : in_step K dims L S S1 -> in_step K dims L (own_full_step K N L U t dt S) (own_full_step K N L1 U t dt S1).
Proof.
  intros [(HC & HU & HP) HG]. unfold own_full_step. apply (finish_slice K N dims X L L1 HL HL1 Hgrav). apply own_update_slice; [exact HG|].
  intros r c Hr Hc. pose proof (proj2 (sel_owned _ _ _ _ _ _ _ HL Hr) Hc) as Hs.
  assert (Hnd : (nd <= 3)%nat) by (pose proof (dcp_nd HD); lia).
  apply (step_user_shift K L L1 r rank0 (cmn r) S S1 dt Hnd t c).
  - intros x Hx. pose proof (sel_stencil _ _ _ _ _ _ _ _ _ HL Hr Hs Hx) as Hx1. cbn [Z.add] in Hx1.
    split; [now apply (geo_slice K N dims X L L1 HL HL1)|]. split; [|split; [exact Hx1|split; [now apply (sel_slice K N dims X L L1 HL HL1)|]]].
    + intros j. apply HG; [exact Hr|]. apply (array_stencil2 K N dims X L HL Hng); [exact Hr|]. apply (sel_mono _ _ _ _ _ 1 _ _ _ HL Hr); [lia|exact Hx1].
    + intros y Hy. pose proof (sel_stencil _ _ _ _ _ _ _ _ _ HL Hr Hx1 Hy) as Hy2. cbn [Z.add Pos.add] in Hy2.
      pose proof (array_stencil2 K N dims X L HL Hng r y Hr Hy2) as Hya.
      split; [symmetry; now apply HC|]. split; [symmetry; now apply HU|symmetry; now apply HP].
  - exact Hs.
  - now apply (sel_slice K N dims X L L1 HL HL1).
Qed.

Lemma own_init_slice G S S1 : starts_from K dims L G S -> starts_from K one_process L1 G S1 ->
  grav_slice (fun r => s_grav (S r)) (fun r => s_grav (S1 r)) ->
  in_step K dims L (own_init K N L U S) (own_init K N L1 U S1).
Proof.
  intros H H1 Hg. unfold own_init. apply (finish_slice K N dims X L L1 HL HL1 Hgrav). apply own_update_slice; [exact Hg|].
  intros r c Hr Hc. pose proof (owned_slice K N dims X L L1 HL HL1 r c Hr Hc) as Hc1.
  pose proof (proj2 (sel_owned _ _ _ _ _ _ _ HL Hr) Hc) as Hs.
  assert (Eg : global_index nd ng (corner_min (d_range (l_dec L1 rank0))) (iadd (cmn r) c) = global_index nd ng (cmn r) c).
  { apply idx_ext. intros d Hd. unfold global_index. rewrite !coord_mk3, (s_cmin _ _ _ _ HL1), coord_iadd by assumption. lia. }
  pose proof (sf_rho H r Hr c Hc) as A1. pose proof (sf_rho H1 rank0 (rank0_ok nd) _ Hc1) as B1.
  pose proof (sf_fx H r Hr c Hc) as A2. pose proof (sf_fx H1 rank0 (rank0_ok nd) _ Hc1) as B2.
  pose proof (sf_u H r Hr c Hc) as A3. pose proof (sf_u H1 rank0 (rank0_ok nd) _ Hc1) as B3.
  pose proof (sf_P H r Hr c Hc) as A4. pose proof (sf_P H1 rank0 (rank0_ok nd) _ Hc1) as B4.
  cbn beta in *. rewrite Eg in B1, B2, B3, B4. rewrite <- A1 in B1. rewrite <- A2 in B2. rewrite <- A3 in B3. rewrite <- A4 in B4.
  unfold init_cons. cbn [conv_prim_to_cons fst snd]. unfold kwrite.
  rewrite Hs, (sel_slice K N dims X L L1 HL HL1 _ _ _ Hr Hs), B1, B2, B3, B4. reflexivity.
Qed.

(** The gravity object of the initialisation. *)
Lemma first_gravity_slice : grav_slice (gravity_values K L (fun _ _ => ModelSetup.zero_cell)) (gravity_values K L1 (fun _ _ => ModelSetup.zero_cell)).
Proof.
  intros r c j Hr Hc. apply (gravity_slice K N dims X L L1 HL HL1 Hgrav); [exact Hr|now intros ? ? ? ?|exact Hc].
Qed.
End Own.
