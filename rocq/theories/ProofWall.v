(** * Reflecting walls (C20). *)
From Coq Require Import FunctionalExtensionality ZifyBool ZifyNat.
From Verif Require Import Base RBase ModelMesh ModelGeom ModelBoundary ModelHydro ModelScheme ModelStep
  SpecMesh SpecGeom SpecBoundary SpecHydro SpecScheme SpecStep SpecWall
  ProofBase ProofMesh ProofR ProofBoundary ProofBoundary2 ProofHydro ProofHydro2 ProofScheme ProofAxes ProofMirror ProofShift ProofReduce
  ProofStep ProofLayout ProofSteady.
Local Open Scope R_scope.

Lemma negate_negate d x : negate_momentum d (negate_momentum d x) = x.
Proof.
  destruct x as [a b e f]. unfold negate_momentum. cbn. f_equal.
  apply functional_extensionality. intros n. destruct (Nat.eqb n d); [ring|reflexivity].
Qed.
Lemma negate_comm d d' x : negate_momentum d (negate_momentum d' x) = negate_momentum d' (negate_momentum d x).
Proof.
  unfold negate_momentum. cbn. f_equal. apply functional_extensionality. intros n.
  destruct (Nat.eqb n d), (Nat.eqb n d'); reflexivity.
Qed.

Lemma refl_set_other d M d' x c : (d < 3)%nat -> (d' < 3)%nat -> d <> d' ->
  refl d M (set_coord d' x c) = set_coord d' x (refl d M c).
Proof.
  intros H H' Hn. apply idx_ext3. intros k Hk.
  destruct (Nat.eq_dec k d) as [->|H1].
  - rewrite coord_refl_same, coord_set_other by auto.
    rewrite coord_set_other by auto. now rewrite coord_refl_same.
  - rewrite coord_refl_other by auto. destruct (Nat.eq_dec k d') as [->|H2].
    + now rewrite !coord_set_same.
    + rewrite !coord_set_other by auto. now rewrite coord_refl_other.
Qed.

Section Wall.
Variables (K : config) (N dims : idx) (X : nat -> arr1) (L : layout).
Hypothesis HL : laid_out K N dims X L.
Notation nd := (k_nd K).
Notation ng := (k_ng K).
Notation vr := (process nd dims).
Notation ext r := (d_nwg (l_dec L r)).
Notation arr r := (in_array (d_nwg (l_dec L r))).
Let HD := lo_dec HL.
Hypothesis Hng : (2 <= ng)%Z.
Hypothesis Hthick : thick nd dims ng (l_dec L).
Hypothesis Hfaces : faces_ok nd (k_order K).
Variables (d face : nat).
Hypothesis Hd : (d < nd)%nat.
Hypothesis Hface : (face < 2)%nat.
Hypothesis Hwall : wall K d face.

Let Hnd : (1 <= nd <= 3)%nat := dcp_nd HD.
Let Hd3 : (d < 3)%nat.
Proof. lia. Qed.

(** Positions [i] and [Mw r - i] are mirror images with respect to the wall. *)
Definition Mw (r : idx) : Z := match face with O => (2 * ng - 1)%Z | _ => (2 * (coord d (ext r) - ng) - 1)%Z end.

Definition at_border (r : idx) : Prop :=
  match face with O => coord d r = 0%Z | _ => coord d r = (coord d (mpi_dims nd dims) - 1)%Z end.

Lemma ext_d r k : vr r -> (k < nd)%nat -> coord k (ext r) = (coord k (d_nloc (l_dec L r)) + 2 * ng)%Z.
Proof.
  intros Hr Hk. rewrite (dec_nwg _ _ _ _ _ HD), (dec_nloc _ _ _ _ _ HD), (ghosts_lt nd ng) by (assumption || lia). lia.
Qed.
Lemma thick_d r k : vr r -> (k < nd)%nat -> (ng <= coord k (d_nloc (l_dec L r)))%Z.
Proof. intros Hr Hk. now apply Hthick. Qed.

Definition mirrored (r : idx) (a : idx -> cell) : Prop :=
  forall c, arr r c -> arr r (refl d (Mw r) c) -> a (refl d (Mw r) c) = negate_momentum d (a c).

Lemma mirrored_half r (a : idx -> cell) : vr r ->
  (forall c, in_face (ext r) ng d face c -> a c = negate_momentum d (a (refl d (Mw r) c))) -> mirrored r a.
Proof.
  intros Hr H c Hc Hc'. pose proof (ext_d r d Hr Hd) as Ee. pose proof (thick_d r d Hr Hd) as Et.
  pose proof (Hc d Hd3). pose proof (Hc' d Hd3) as Hx. rewrite coord_refl_same in Hx by assumption.
  assert (E : in_face (ext r) ng d face c \/ in_face (ext r) ng d face (refl d (Mw r) c)).
  { unfold in_face. rewrite coord_refl_same by assumption. unfold Mw in *.
    destruct face as [|[|]]; [| |lia].
    - destruct (Z.ltb_spec (coord d c) ng); [left|right]; (split; [assumption|lia]).
    - destruct (Z.leb_spec (coord d (ext r) - ng) (coord d c)); [left|right]; (split; [assumption|lia]). }
  destruct E as [E|E].
  - rewrite (H c E). now rewrite negate_negate.
  - rewrite (H _ E). now rewrite refl_refl.
Qed.

Lemma f_div : ((2 * d + face) / 2)%nat = d.
Proof. symmetry. apply (Nat.div_unique _ _ _ face); lia. Qed.
Lemma f_mod : ((2 * d + face) mod 2)%nat = face.
Proof. symmetry. apply (Nat.mod_unique _ _ d); lia. Qed.

Lemma bc_step_mirrored W f r : (f < 2 * nd)%nat -> vr r -> at_border r ->
  (f = (2 * d + face)%nat \/ mirrored r (W r)) ->
  mirrored r (bc_step (mpi_dims nd dims) (fun r => ext r) ng (k_bcs K) W f r).
Proof.
  intros Hf Hr Hb H. unfold bc_step.
  pose proof (ext_d r d Hr Hd) as Ee. pose proof (thick_d r d Hr Hd) as Et.
  destruct (Nat.eq_dec f (2 * d + face)) as [->|Hne].
  - (* the wall itself *)
    rewrite f_div, f_mod.
    replace (is_border (mpi_dims nd dims) r d face) with true
      by (unfold is_border, at_border in *; destruct face; lia).
    destruct Hwall as [-> _]. apply mirrored_half; [assumption|]. intros c Hc.
    rewrite reflexive_value by (assumption || lia).
    rewrite bc_apply_outside; [|assumption|lia|].
    + unfold refl, Mw. destruct face; reflexivity.
    + intros [_ Hx]. rewrite coord_refl_same in Hx by assumption. destruct Hc as [Hc0 Hc]. pose proof (Hc0 d Hd3).
      unfold Mw in Hx. destruct face; lia.
  - destruct H as [H|H]; [congruence|].
    destruct (is_border (mpi_dims nd dims) r (f / 2) (f mod 2)) eqn:Eb; [|exact H].
    assert (Hf2 : (f / 2 < nd)%nat) by (apply Nat.div_lt_upper_bound; lia).
    assert (Hm2 : (f mod 2 < 2)%nat) by (apply Nat.mod_upper_bound; lia).
    pose proof (Nat.div_mod f 2 ltac:(lia)) as Edm.
    set (d' := (f / 2)%nat) in *. set (face' := (f mod 2)%nat) in *. clearbody d' face'.
    pose proof (ext_d r d' Hr Hf2) as Ee'. pose proof (thick_d r d' Hr Hf2) as Et'.
    intros c Hc Hc'.
    destruct (Nat.eq_dec d d') as [<-|Hdd].
    + (* opposite face of the same direction: nothing changes near the wall *)
      assert (Hff : face' <> face) by lia.
      pose proof (Hc d Hd3). pose proof (Hc' d Hd3) as Hx. rewrite coord_refl_same in Hx by assumption. unfold Mw in Hx.
      rewrite !bc_apply_outside; [now apply H|assumption|lia| |assumption|lia| ].
      * intros [_ Hy]. destruct face as [|[|]], face' as [|[|]]; lia.
      * intros [_ Hy]. rewrite coord_refl_same in Hy by assumption. unfold Mw in Hy. destruct face as [|[|]], face' as [|[|]]; lia.
    + assert (Hd'3 : (d' < 3)%nat) by lia.
      assert (Eiff : in_face (ext r) ng d' face' (refl d (Mw r) c) <-> in_face (ext r) ng d' face' c).
      { unfold in_face. rewrite coord_refl_other by auto. tauto. }
      assert (Hset : forall x, (0 <= x < coord d' (ext r))%Z ->
        W r (set_coord d' x (refl d (Mw r) c)) = negate_momentum d (W r (set_coord d' x c))).
      { intros x Hx. rewrite <- refl_set_other by auto. apply H.
        - now apply (set_coord_in_array (l_dec L) (l_dec L)).
        - rewrite refl_set_other by auto. now apply (set_coord_in_array (l_dec L) (l_dec L)). }
      destruct (in_boxb (bc_begin (ext r) ng d' face') (bc_end (ext r) ng d' face') c) eqn:E.
      * apply in_boxb_spec, bc_box_iff in E; [|assumption|lia]. pose proof (proj2 Eiff E) as E'.
        destruct (k_bcs K f).
        -- rewrite !null_gradient_value by (assumption || lia). apply Hset. destruct face'; lia.
        -- now apply H.
        -- rewrite !reflexive_value by (assumption || lia). rewrite coord_refl_other by auto.
           rewrite Hset; [apply negate_comm|]. destruct E as [E0 E]. pose proof (E0 d' Hd'3). destruct face'; lia.
      * assert (En : ~ in_face (ext r) ng d' face' c).
        { intros Hx. apply bc_box_iff in Hx; [|assumption|lia]. apply in_boxb_spec in Hx. congruence. }
        rewrite !bc_apply_outside by (assumption || lia || tauto). now apply H.
Qed.

Lemma fold_mirrored l : faces_ok nd l -> forall W r, vr r -> at_border r ->
  (In (2 * d + face)%nat l \/ mirrored r (W r)) ->
  mirrored r (fold_left (bc_step (mpi_dims nd dims) (fun r => ext r) ng (k_bcs K)) l W r).
Proof.
  induction l as [|f l IH]; intros Hf W r Hr Hb H; cbn [fold_left].
  - destruct H as [[]|H]. exact H.
  - apply IH; [intros x Hx; apply Hf; now right|assumption|assumption|].
    destruct H as [[->|H]|H]; [right|now left|right];
      (apply bc_step_mirrored; [apply Hf; now left|assumption|assumption|auto]).
Qed.

Lemma bcs_mirrored (A : world cell) r : vr r -> at_border r -> mirrored r (bcs_update K L A r).
Proof.
  intros Hr Hb. unfold bcs_update, boundary_update. rewrite (lo_dims HL).
  apply fold_mirrored; auto. left. apply Hwall.
Qed.

Hypothesis Hcart : k_geom K = Cartesian.
Hypothesis Hwid : mirrored_widths N ng X d face.
Hypothesis Hpull : no_pull_along K d.
Hypothesis He : lawful_eos (k_eos K).

(** What holds after every boundary update and conversion. *)
Definition wall_state (S : idx -> pstate) : Prop := forall r, vr r -> at_border r ->
  mirrored r (s_cell (S r)) /\
  (forall c, arr r c -> arr r (refl d (Mw r) c) ->
     (forall k, s_u (S r) (refl d (Mw r) c) k = sg d k (s_u (S r) c k)) /\ s_P (S r) (refl d (Mw r) c) = s_P (S r) c) /\
  (forall c k, s_grav (S r) (refl d (Mw r) c) k = sg d k (s_grav (S r) c k)).

Lemma wall_finish A rec new S : wall_state (finish K L (bcs_update K L A) rec new S).
Proof.
  intros r Hr Hb. pose proof (bcs_mirrored A r Hr Hb) as Hm. split; [exact Hm|]. split.
  - intros c Hc Hc'. cbn [finish s_u s_P conv_cons_to_prim fst snd]. unfold kwrite.
    rewrite (proj2 (sel_array _ _ _ _ _ _ _ HL Hr) Hc), (proj2 (sel_array _ _ _ _ _ _ _ HL Hr) Hc').
    rewrite (Hm c Hc Hc'). cbn [negate_momentum c_rho c_rhou c_E].
    set (q := mkCons (c_rho (bcs_update K L A r c)) (c_rhou (bcs_update K L A r c)) (c_E (bcs_update K L A r c))).
    change (mkCons _ _ _) with (mirror d q). rewrite to_prim_mirror. cbn [mirror_prim p_u p_P].
    split; [|reflexivity]. intros k. unfold sg. destruct (Nat.eqb k d); reflexivity.
  - intros c k. cbn [finish s_grav]. unfold gravity_values. unfold no_pull_along in Hpull.
    assert (Hrad : d <> 0%nat -> forall Mr, radial_gravity (l_mesh L r) Mr (refl d (Mw r) c) k = sg d k (radial_gravity (l_mesh L r) Mr c k)).
    { intros Hd0 Mr. unfold radial_gravity, sg. destruct k as [|k].
      - destruct (Nat.eqb_spec 0 d); [congruence|]. pose proof (coord_refl_other d (Mw r) Hd3 0 c ltac:(lia) ltac:(lia)) as E.
        cbn [coord] in E. now rewrite E.
      - destruct (Nat.eqb (Datatypes.S k) d); ring. }
    destruct (k_grav K) as [g|M|M]; [|now apply Hrad|now apply Hrad].
    unfold sg. destruct (Nat.eqb_spec k d) as [->|_]; [|reflexivity]. rewrite Hpull. ring.
Qed.

Lemma mesh_wall r c : vr r -> at_border r ->
  (coord d c = ng + (match face with O => 0 | _ => coord d (d_nloc (l_dec L r)) - 1 end))%Z ->
  mesh_refl d (Mw r) (l_mesh L r) (l_mesh L r) c.
Proof.
  intros Hr Hb Hc k i Hk Hi. destruct (Nat.eqb_spec k d) as [->|_]; [|reflexivity].
  unfold mdx. rewrite !(set_grid_at _ _ _ (lo_mesh HL Hr)) by assumption.
  assert (Ecm : (coord d (corner_min (d_range (l_dec L r))) = match face with O => 0 | _ => coord d N - coord d (d_nloc (l_dec L r)) end)%Z).
  { rewrite (dec_cmin _ _ _ _ _ HD r d Hr Hd3). unfold at_border in Hb. destruct face.
    - rewrite Hb. apply (cm_0 _ _ _ _ _ HD d Hd3).
    - pose proof (cm_succ _ _ _ _ _ HD d (coord d r) Hd3) as E. rewrite <- (dec_nloc _ _ _ _ _ HD r d Hr Hd3) in E.
      replace (coord d r + 1)%Z with (coord d (mpi_dims nd dims)) in E by lia.
      rewrite (cm_p _ _ _ _ _ HD d Hd3) in E. lia. }
  pose proof (ext_d r d Hr Hd) as Ee.
  set (cmin := coord d (corner_min (d_range (l_dec L r)))) in *.
  assert (G : forall a b, (a = b)%Z -> a_at (X d) a = a_at (X d) b) by (intros; now f_equal).
  unfold mirrored_widths in Hwid. cbv zeta in Hwid. unfold Mw.
  destruct face as [|[|]]; [| |lia].
  - destruct (Z.leb_spec ng i) as [Hge|Hlt].
    + pose proof (Hwid (i - ng)%Z ltac:(lia)) as E.
      transitivity (a_at (X d) (ng - 1 - (i - ng) + 1)%Z - a_at (X d) (ng - 1 - (i - ng))%Z);
        [f_equal; apply G; lia|]. rewrite E. f_equal; apply G; lia.
    + pose proof (Hwid (ng - 1 - i)%Z ltac:(lia)) as E. symmetry.
      transitivity (a_at (X d) (ng - 1 - (ng - 1 - i) + 1)%Z - a_at (X d) (ng - 1 - (ng - 1 - i))%Z);
        [f_equal; apply G; lia|]. rewrite E. f_equal; apply G; lia.
  - set (edge := (coord d N + ng)%Z) in *.
    destruct (Z.leb_spec (ng + coord d (d_nloc (l_dec L r))) i) as [Hge|Hlt].
    + pose proof (Hwid (i + cmin - edge)%Z ltac:(lia)) as E.
      transitivity (a_at (X d) (edge - 1 - (i + cmin - edge) + 1)%Z - a_at (X d) (edge - 1 - (i + cmin - edge))%Z);
        [f_equal; apply G; lia|]. rewrite E. f_equal; apply G; lia.
    + pose proof (Hwid (edge - 1 - i - cmin)%Z ltac:(lia)) as E. symmetry.
      transitivity (a_at (X d) (edge - 1 - (edge - 1 - i - cmin) + 1)%Z - a_at (X d) (edge - 1 - (edge - 1 - i - cmin))%Z);
        [f_equal; apply G; lia|]. rewrite E. f_equal; apply G; lia.
Qed.

(** The owned cell behind the wall face. *)
Definition inner (r c : idx) : Prop :=
  coord d c = (ng + (match face with O => 0 | _ => coord d (d_nloc (l_dec L r)) - 1 end))%Z /\
  forall k, (k < 3)%nat -> k <> d -> (ghosts nd ng k <= coord k c < ghosts nd ng k + coord k (d_nloc (l_dec L r)))%Z.

Lemma inner_owned r c : vr r -> inner r c -> owned nd ng (d_nloc (l_dec L r)) c.
Proof.
  intros Hr [H1 H2] k Hk. destruct (Nat.eq_dec k d) as [->|Hne]; [|now apply H2].
  rewrite (ghosts_lt nd ng) by assumption. pose proof (thick_d r d Hr Hd). destruct face; lia.
Qed.

Lemma inner_sel r c : vr r -> inner r c -> sel K L 1 r c = true /\ sel K L 1 r (refl d (Mw r) c) = true.
Proof.
  intros Hr Hi. pose proof (inner_owned r c Hr Hi) as Ho. pose proof (thick_d r d Hr Hd). pose proof (ext_d r d Hr Hd).
  split; apply (sel_spec _ _ _ _ _ _ _ _ HL Hr); intros k Hk; specialize (Ho k Hk).
  - destruct (Nat.ltb k nd); lia.
  - destruct (Nat.eq_dec k d) as [->|Hne].
    + rewrite coord_refl_same by assumption. rewrite (proj2 (Nat.ltb_lt d nd) Hd), (ghosts_lt nd ng) by assumption.
      destruct Hi as [E _]. rewrite E. unfold Mw. destruct face; lia.
    + rewrite coord_refl_other by auto. destruct (Nat.ltb k nd); lia.
Qed.

Lemma wall_rec S dt r c sd : wall_state S -> vr r -> at_border r -> inner r c -> (sd < 2)%nat ->
  r_q (step_rec K L dt S r) (refl d (Mw r) c) sd d = mirror d (r_q (step_rec K L dt S r) c (1 - sd)%nat d) /\
  forall n, r_fx (step_rec K L dt S r) (refl d (Mw r) c) sd d n = r_fx (step_rec K L dt S r) c (1 - sd)%nat d n.
Proof.
  intros HS Hr Hb Hi Hsd. destruct (HS r Hr Hb) as (H1 & H2 & H3). destruct (inner_sel r c Hr Hi) as [S1 S2].
  assert (Hst : forall x, in_stencil nd c x -> arr r x /\ arr r (refl d (Mw r) x)).
  { intros x Hx. split; [exact (stencil_array K N dims X L HL Hng r c x Hr S1 Hx)|].
    apply (stencil_array K N dims X L HL Hng r _ _ Hr S2).
    destruct Hx as [->|(k & Hk & [->| ->])]; [now left| |]; right; exists k; (split; [exact Hk|]).
    - destruct (Nat.eq_dec k d) as [->|Hne]; [right; now rewrite rindex_refl|left; rewrite lindex_refl_other by (assumption || lia); reflexivity].
    - destruct (Nat.eq_dec k d) as [->|Hne]; [left; now rewrite lindex_refl|right; rewrite rindex_refl_other by (assumption || lia); reflexivity]. }
  assert (E : (1 - sd = flip d d sd)%nat) by (unfold flip; now rewrite Nat.eqb_refl). rewrite E.
  unfold step_rec. rewrite Hcart. apply recon_refl; try assumption; try lia.
  - apply mesh_wall; [assumption|assumption|apply Hi].
  - apply H3.
  - intros x Hx. destruct (Hst x Hx) as [A1 A2]. rewrite (H1 x A1 A2). reflexivity.
  - intros x Hx. destruct (Hst x Hx) as [A1 A2]. apply (H2 x A1 A2).
  - intros x k Hx. destruct (Hst x Hx) as [A1 A2]. apply (H2 x A1 A2).
  - intros x n Hx. destruct (Hst x Hx) as [A1 A2]. rewrite (H1 x A1 A2). reflexivity.
Qed.

(** Nothing crosses the wall. *)
Lemma wall_flux S dt r c : wall_state S -> vr r -> on_wall K dims L d face r c ->
  valid_cons nd (match face with O => r_q (step_rec K L dt S r) c 0%nat d | _ => r_q (step_rec K L dt S r) (lindex d c) 1%nat d end) ->
  let F := step_flux K L dt S r c d in
  f_rho F = 0 /\ f_E F = 0 /\ forall k, k <> d -> f_m F k = 0.
Proof.
  intros HS Hr [Hp Ht] Hv. cbv zeta. unfold step_flux. cbv zeta.
  pose proof (ext_d r d Hr Hd) as Ee.
  assert (Hb : at_border r) by (unfold at_border; destruct face; tauto).
  assert (Hcase : face = 0%nat \/ face = 1%nat) by lia.
  destruct Hcase as [Ef|Ef]; rewrite Ef in Hp, Hv.
  - assert (Hi : inner r c) by (unfold inner; rewrite Ef; split; [lia|exact Ht]).
    assert (E : lindex d c = refl d (Mw r) c).
    { apply idx_ext3. intros k Hk. destruct (Nat.eq_dec k d) as [->|Hne].
      - rewrite coord_lindex_same, coord_refl_same by assumption. unfold Mw. rewrite Ef. lia.
      - rewrite coord_lindex_other, coord_refl_other by auto. reflexivity. }
    rewrite E. destruct (wall_rec S dt r c 1 HS Hr Hb Hi ltac:(lia)) as [-> _].
    change (1 - 1)%nat with 0%nat.
    destruct (riemann_wall nd (k_eos K) He (k_sol K) _ d Hv) as (R1 & R2 & R3 & R4 & R5).
    split; [assumption|]. split; [assumption|]. intros k Hk. apply (R5 k Hk).
  - set (ci := lindex d c).
    assert (Hi : inner r ci).
    { unfold inner, ci. rewrite Ef. split; [rewrite coord_lindex_same by assumption; lia|].
      intros k Hk Hne. rewrite coord_lindex_other by auto. now apply Ht. }
    assert (E : c = refl d (Mw r) ci).
    { apply idx_ext3. intros k Hk. unfold ci. destruct (Nat.eq_dec k d) as [->|Hne].
      - rewrite coord_refl_same, coord_lindex_same by assumption. unfold Mw. rewrite Ef. lia.
      - rewrite coord_refl_other, coord_lindex_other by auto. reflexivity. }
    destruct (wall_rec S dt r ci 0 HS Hr Hb Hi ltac:(lia)) as [ER _]. rewrite <- E in ER. rewrite ER.
    change (1 - 0)%nat with 1%nat.
    destruct (riemann_wall nd (k_eos K) He (k_sol K) _ d Hv) as (R1 & R2 & R3 & R4 & R5).
    split; [assumption|]. split; [assumption|]. intros k Hk. apply (R5 k Hk).
Qed.
End Wall.

Lemma wall_run K N dims X L (HL : laid_out K N dims X L) d face ts S :
  (2 <= k_ng K)%Z -> thick (k_nd K) dims (k_ng K) (l_dec L) -> faces_ok (k_nd K) (k_order K) ->
  (d < k_nd K)%nat -> (face < 2)%nat -> wall K d face -> no_pull_along K d ->
  wall_state K dims L d face (run K L ts (init_state K L S)).
Proof.
  intros Hng Ht Hf Hd Hface Hw Hp.
  assert (H0 : wall_state K dims L d face (init_state K L S)) by (now apply (wall_finish K N dims X L HL)).
  revert H0. generalize (init_state K L S). induction ts as [|[t dt] ts IH]; intros U HU; [exact HU|].
  cbn [run fold_left fst snd]. apply IH. now apply (wall_finish K N dims X L HL).
Qed.
