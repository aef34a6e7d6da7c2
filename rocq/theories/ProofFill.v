(** * Closed form of the boundary update (C98). *)
From Coq Require Import FunctionalExtensionality.
From Verif Require Import Base RBase ModelMesh ModelBoundary SpecBoundary SpecFill ProofBase ProofMesh ProofBoundary ProofBoundary2 ProofScheme.
Local Open Scope Z_scope.

Lemma cell_ext (x y : cell) : c_rho x = c_rho y -> (forall k, c_rhou x k = c_rhou y k) -> c_E x = c_E y -> (forall k, c_fx x k = c_fx y k) -> x = y.
Proof.
  destruct x, y. cbn. intros -> H1 -> H2. f_equal; apply functional_extensionality; assumption.
Qed.

Section Fill.
Variables (nd : nat) (N : idx) (ng : Z) (dec1 : idx -> decomp) (G : idx -> cell) (bcs : nat -> bcond).
Hypothesis Hdec : decomposed nd N one_process ng dec1.
Hypothesis Hthick : thick nd one_process ng dec1.
Notation ext := (d_nwg (dec1 rank0)).
Notation gi := (global_index nd ng (corner_min (d_range (dec1 rank0)))).

Lemma one_ext d : (d < 3)%nat -> coord d ext = coord d N + 2 * ghosts nd ng d.
Proof. exact (serial_ext nd N N ng dec1 dec1 Hdec d). Qed.
Lemma one_gi d c : (d < 3)%nat -> coord d (gi c) = coord d c - ghosts nd ng d.
Proof. intros Hd. unfold global_index. rewrite coord_mk3 by assumption. rewrite (serial_cmin nd N N ng dec1 dec1 Hdec d Hd). lia. Qed.
Lemma one_thick d : (d < nd)%nat -> ng <= coord d N.
Proof.
  intros Hd. pose proof (dcp_nd Hdec) as Hnd. pose proof (Hthick rank0 (vrank0_serial nd N dec1 dec1) d Hd) as H.
  rewrite (serial_nloc nd N N ng dec1 dec1 Hdec d) in H by lia. exact H.
Qed.

(** The source cell. *)
Let src (b : nat -> bcond) (g : idx) : idx :=
  mk3 (fun d => if Nat.ltb d nd then continue (b (2 * d)%nat) (b (2 * d + 1)%nat) (coord d N) (coord d g) else coord d g).
Let tr (b : nat -> bcond) (g : idx) (k : nat) : bool :=
  (Nat.ltb k nd && turned (b (2 * k)%nat) (b (2 * k + 1)%nat) (coord k N) (coord k g))%bool.
Lemma cont_eq b b' g g' : src b g = src b' g' -> (forall k, (k < nd)%nat -> tr b g k = tr b' g' k) ->
  continuation nd N b G g = continuation nd N b' G g'.
Proof.
  intros H1 H2. unfold continuation. fold (src b g) (src b' g'). rewrite H1. apply cell_ext; try reflexivity.
  intros k. cbn [c_rhou]. fold (tr b g k) (tr b' g' k). destruct (Nat.ltb_spec k nd) as [Hk|Hk]; [now rewrite H2|].
  unfold tr. destruct (Nat.ltb_spec k nd); [lia|reflexivity].
Qed.
Lemma cont_turn d b b' g g' : (d < nd)%nat -> src b g = src b' g' -> tr b g d = true -> tr b' g' d = false ->
  (forall k, (k < nd)%nat -> k <> d -> tr b g k = tr b' g' k) ->
  continuation nd N b G g = negate_momentum d (continuation nd N b' G g').
Proof.
  intros Hd H1 H2 H3 H4. unfold continuation, negate_momentum. fold (src b g) (src b' g'). rewrite H1. apply cell_ext; try reflexivity.
  intros k. cbn [c_rhou]. fold (tr b g k) (tr b' g' k). destruct (Nat.eqb_spec k d) as [->|Hn]; [now rewrite H2, H3|].
  destruct (Nat.ltb_spec k nd) as [Hk|Hk]; [now rewrite H4|].
  unfold tr. destruct (Nat.ltb_spec k nd); [lia|reflexivity].
Qed.

Lemma face_split f : (f < 2 * nd)%nat -> exists d s, f = (2 * d + s)%nat /\ (s < 2)%nat /\ (d < nd)%nat /\ Nat.div f 2 = d /\ Nat.modulo f 2 = s.
Proof.
  intros Hf. exists (Nat.div f 2), (Nat.modulo f 2). pose proof (Nat.div_mod_eq f 2). pose proof (Nat.mod_upper_bound f 2 ltac:(lia)).
  repeat split; lia.
Qed.

Definition upd (b : nat -> bcond) (f : nat) : nat -> bcond := fun h => if Nat.eqb h f then bcs f else b h.

Lemma fill_step b f (W : world cell) : (f < 2 * nd)%nat -> (forall h, b h = Periodic \/ b h = bcs h) ->
  (forall c, in_array ext c -> W rank0 c = continuation nd N b G (gi c)) ->
  forall c, in_array ext c -> bc_step one_process (fun r => d_nwg (dec1 r)) ng bcs W f rank0 c = continuation nd N (upd b f) G (gi c).
Proof.
  intros Hf Hb HW c Hc. destruct (face_split f Hf) as (d & s & Ef & Hs & Hd & E1 & E2).
  pose proof (dcp_nd Hdec) as Hnd. pose proof (dcp_ng Hdec) as Hng. assert (Hd3 : (d < 3)%nat) by lia.
  pose proof (dcp_n Hdec Hd3) as HN. pose proof (one_thick d Hd) as HT.
  assert (Hgh : ghosts nd ng d = ng) by (unfold ghosts; destruct (Nat.ltb_spec d nd); [reflexivity|lia]).
  pose proof (one_ext d Hd3) as Hext. rewrite Hgh in Hext.
  unfold bc_step. rewrite E1, E2.
  assert (B : is_border one_process rank0 d s = true).
  { unfold is_border. destruct s as [|[|s]]; [| |lia]; rewrite ?coord_one, ?coord_rank0; reflexivity. }
  rewrite B. clear B.
  assert (Other : forall k g, (k < 3)%nat -> k <> d ->
     continue (upd b f (2 * k)%nat) (upd b f (2 * k + 1)%nat) (coord k N) g = continue (b (2 * k)%nat) (b (2 * k + 1)%nat) (coord k N) g /\
     turned (upd b f (2 * k)%nat) (upd b f (2 * k + 1)%nat) (coord k N) g = turned (b (2 * k)%nat) (b (2 * k + 1)%nat) (coord k N) g).
  { intros k g Hk Hn. unfold upd. destruct (Nat.eqb_spec (2 * k) f); [lia|]. destruct (Nat.eqb_spec (2 * k + 1) f); [lia|]. auto. }
  assert (Own : forall s', (s' < 2)%nat -> upd b f (2 * d + s')%nat = if Nat.eqb s' s then bcs f else b (2 * d + s')%nat).
  { intros s' Hs'. unfold upd. destruct (Nat.eqb_spec s' s) as [->|Hn]; [rewrite Ef, Nat.eqb_refl; reflexivity|].
    destruct (Nat.eqb_spec (2 * d + s') f); [lia|reflexivity]. }
  pose proof (Own 0%nat ltac:(lia)) as Own0. pose proof (Own 1%nat ltac:(lia)) as Own1. rewrite Nat.add_0_r in Own0. clear Own.
  assert (Cd : coord d (gi c) = coord d c - ng) by (rewrite one_gi by assumption; now rewrite Hgh).
  pose proof (Hc d Hd3) as Hcd. rewrite Hext in Hcd.
  assert (Dec : in_face ext ng d s c \/ ~ in_face ext ng d s c).
  { unfold in_face. destruct s.
    - destruct (Z_lt_dec (coord d c) ng); [left|right]; intuition.
    - destruct (Z_le_dec (coord d ext - ng) (coord d c)); [left|right]; intuition. }
  destruct Dec as [In|Out].
  2:{ (* elsewhere *)
    rewrite bc_apply_outside by (try assumption; lia). rewrite HW by assumption.
    assert (D : continue (upd b f (2 * d)%nat) (upd b f (2 * d + 1)%nat) (coord d N) (coord d (gi c))
                = continue (b (2 * d)%nat) (b (2 * d + 1)%nat) (coord d N) (coord d (gi c)) /\
                turned (upd b f (2 * d)%nat) (upd b f (2 * d + 1)%nat) (coord d N) (coord d (gi c))
                = turned (b (2 * d)%nat) (b (2 * d + 1)%nat) (coord d N) (coord d (gi c))).
    { rewrite Own0, Own1, Cd. destruct s as [|[|s]]; [| |lia]; cbn [Nat.eqb].
      - assert (~ coord d c < ng) by (intros H; apply Out; split; assumption).
        unfold continue, turned. destruct (Z.ltb_spec (coord d c - ng) 0); [lia|]. auto.
      - assert (~ coord d ext - ng <= coord d c) by (intros H; apply Out; split; assumption).
        unfold continue, turned. destruct (Z.leb_spec (coord d N) (coord d c - ng)); [lia|]. auto. }
    symmetry. apply cont_eq.
    - unfold src. apply idx_ext3. intros k Hk. rewrite !coord_mk3 by assumption. destruct (Nat.ltb k nd); [|reflexivity].
      destruct (Nat.eq_dec k d) as [->|Hn]; [apply D|now apply Other].
    - intros k Hk. unfold tr. f_equal. destruct (Nat.eq_dec k d) as [->|Hn]; [apply D|apply Other; lia]. }
  (* in the layer *)
  assert (SetIn : forall x, ng <= x < ng + coord d N -> in_array ext (set_coord d x c)).
  { intros x Hx k Hk. destruct (Nat.eq_dec k d) as [->|Hn]; [rewrite coord_set_same, Hext; lia|].
    rewrite coord_set_other by auto. now apply Hc. }
  assert (Setd : forall x, coord d (gi (set_coord d x c)) = x - ng).
  { intros x. rewrite one_gi by assumption. now rewrite coord_set_same, Hgh. }
  assert (Setk : forall x k, (k < 3)%nat -> k <> d -> coord k (gi (set_coord d x c)) = coord k (gi c)).
  { intros x k Hk Hn. rewrite !one_gi by assumption. now rewrite coord_set_other by auto. }
  assert (Inner : forall bl br x, ng <= x < ng + coord d N -> continue bl br (coord d N) (x - ng) = x - ng /\ turned bl br (coord d N) (x - ng) = false).
  { intros bl br x Hx. unfold continue, turned. destruct (Z.ltb_spec (x - ng) 0); [lia|]. destruct (Z.leb_spec (coord d N) (x - ng)); [lia|]. auto. }
  assert (Src : forall x, ng <= x < ng + coord d N ->
      continue (upd b f (2 * d)%nat) (upd b f (2 * d + 1)%nat) (coord d N) (coord d (gi c)) = x - ng ->
      src (upd b f) (gi c) = src b (gi (set_coord d x c))).
  { intros x Hx E. unfold src. apply idx_ext3. intros k Hk. rewrite !coord_mk3 by assumption. destruct (Nat.ltb_spec k nd) as [Hkn|Hkn].
    - destruct (Nat.eq_dec k d) as [->|Hn]; [rewrite E, Setd; symmetry; now apply Inner|rewrite Setk by assumption; now apply Other].
    - rewrite Setk by lia. reflexivity. }
  assert (TrO : forall x k, (k < nd)%nat -> k <> d -> tr (upd b f) (gi c) k = tr b (gi (set_coord d x c)) k).
  { intros x k Hk Hn. unfold tr. rewrite Setk by lia. f_equal. apply Other; lia. }
  assert (Td : forall x, ng <= x < ng + coord d N -> tr b (gi (set_coord d x c)) d = false).
  { intros x Hx. unfold tr. rewrite Setd. destruct (Inner (b (2 * d)%nat) (b (2 * d + 1)%nat) x Hx) as [_ ->]. apply andb_false_r. }
  assert (Ltd : Nat.ltb d nd = true) by now apply Nat.ltb_lt.
  assert (Lay : match s with O => coord d c < ng | _ => ng + coord d N <= coord d c end).
  { destruct In as [_ H]. destruct s; [exact H|rewrite Hext in H; lia]. }
  destruct (bcs f) eqn:Eb.
  - (* null gradient *)
    rewrite null_gradient_value by (try assumption; lia).
    set (x := match s with O => ng | _ => coord d ext - ng - 1 end).
    assert (Hx : ng <= x < ng + coord d N) by (unfold x; destruct s; lia).
    rewrite HW by now apply SetIn. symmetry. apply cont_eq.
    + apply Src; [exact Hx|]. rewrite Own0, Own1, Cd. unfold continue, x. destruct s as [|[|s]]; [| |lia]; cbn [Nat.eqb].
      * destruct (Z.ltb_spec (coord d c - ng) 0); lia.
      * destruct (Z.ltb_spec (coord d c - ng) 0); [lia|]. destruct (Z.leb_spec (coord d N) (coord d c - ng)); lia.
    + intros k Hk. destruct (Nat.eq_dec k d) as [->|Hn]; [|now apply TrO]. rewrite Td by exact Hx.
      unfold tr. rewrite Ltd, Own0, Own1, Cd. unfold turned. cbn [andb]. destruct s as [|[|s]]; [| |lia]; cbn [Nat.eqb].
      * destruct (Z.ltb_spec (coord d c - ng) 0); [reflexivity|lia].
      * destruct (Z.ltb_spec (coord d c - ng) 0); [lia|]. destruct (Z.leb_spec (coord d N) (coord d c - ng)); [reflexivity|lia].
  - (* periodic *)
    assert (Eq : forall h, upd b f h = b h).
    { intros h. unfold upd. destruct (Nat.eqb_spec h f) as [->|]; [|reflexivity]. destruct (Hb f); congruence. }
    cbn [bc_apply]. rewrite HW by assumption. apply functional_extensionality in Eq. now rewrite Eq.
  - (* reflexive *)
    rewrite reflexive_value by (try assumption; lia).
    set (x := match s with O => 2 * ng - 1 - coord d c | _ => 2 * (coord d ext - ng) - 1 - coord d c end).
    assert (Hx : ng <= x < ng + coord d N) by (unfold x; destruct s; lia).
    rewrite HW by now apply SetIn. symmetry. apply (cont_turn d); [exact Hd| | |now apply Td|intros k Hk Hn; now apply TrO].
    + apply Src; [exact Hx|]. rewrite Own0, Own1, Cd. unfold continue, x. destruct s as [|[|s]]; [| |lia]; cbn [Nat.eqb].
      * destruct (Z.ltb_spec (coord d c - ng) 0); lia.
      * destruct (Z.ltb_spec (coord d c - ng) 0); [lia|]. destruct (Z.leb_spec (coord d N) (coord d c - ng)); lia.
    + unfold tr. rewrite Ltd, Own0, Own1, Cd. unfold turned. cbn [andb]. destruct s as [|[|s]]; [| |lia]; cbn [Nat.eqb].
      * destruct (Z.ltb_spec (coord d c - ng) 0); [reflexivity|lia].
      * destruct (Z.ltb_spec (coord d c - ng) 0); [lia|]. destruct (Z.leb_spec (coord d N) (coord d c - ng)); [reflexivity|lia].
Qed.

Lemma fill_fold order : faces_ok nd order -> forall b (W : world cell), (forall h, b h = Periodic \/ b h = bcs h) ->
  (forall c, in_array ext c -> W rank0 c = continuation nd N b G (gi c)) ->
  forall c, in_array ext c ->
    fold_left (bc_step one_process (fun r => d_nwg (dec1 r)) ng bcs) order W rank0 c
    = continuation nd N (fun h => if existsb (Nat.eqb h) order then bcs h else b h) G (gi c).
Proof.
  induction order as [|f order IH]; intros Hf b W Hb HW c Hc; cbn [fold_left existsb]; [now apply HW|].
  rewrite (IH (fun g Hg => Hf g (or_intror Hg)) (upd b f)).
  - f_equal. apply functional_extensionality. intros h. unfold upd. destruct (existsb (Nat.eqb h) order); [now rewrite orb_true_r|].
    rewrite orb_false_r. destruct (Nat.eqb_spec h f) as [->|]; reflexivity.
  - intros h. unfold upd. destruct (Nat.eqb_spec h f) as [->|]; auto.
  - intros c0 Hc0. apply fill_step; auto. apply Hf. now left.
  - exact Hc.
Qed.

Lemma cont_bcs_ext b b' g : (forall f, (f < 2 * nd)%nat -> b f = b' f) -> continuation nd N b G g = continuation nd N b' G g.
Proof.
  intros H. apply cont_eq.
  - unfold src. apply idx_ext3. intros k Hk. rewrite !coord_mk3 by assumption. destruct (Nat.ltb_spec k nd); [|reflexivity]. now rewrite !H by lia.
  - intros k Hk. unfold tr. now rewrite !H by lia.
Qed.

Lemma one_process_filled order (W : world cell) : complete_order nd bcs order ->
  holds_owned nd one_process ng dec1 G W ->
  forall c, in_array ext c ->
    boundary_update nd (mpi_dims nd one_process) (fun r => d_nwg (dec1 r)) ng bcs order W rank0 c = continuation nd N bcs G (gi c).
Proof.
  intros [Hf Hcomp] HW c Hc. unfold boundary_update. rewrite mpi_dims_one.
  rewrite (fill_fold order Hf (fun _ => Periodic)); [|auto| |exact Hc].
  - apply cont_bcs_ext. intros f Hlt. destruct (existsb (Nat.eqb f) order) eqn:E; [reflexivity|].
    destruct (bcs f) eqn:Eb; try reflexivity; exfalso;
      (assert (HI : In f order) by (apply Hcomp; [exact Hlt|congruence]);
       assert (existsb (Nat.eqb f) order = true) by (apply existsb_exists; exists f; split; [exact HI|apply Nat.eqb_refl]); congruence).
  - intros c0 Hc0. pose proof (sync_periodic nd N one_process ng dec1 Hdec G Hthick W HW rank0 (vrank0_serial nd N dec1 dec1) c0 Hc0) as E.
    rewrite mpi_dims_one in E. rewrite E. pose proof (dcp_nd Hdec) as Hnd.
    unfold continuation. set (g := gi c0). set (y := mk3 _).
    assert (Ew : wrap N g = y).
    { unfold wrap, y. apply idx_ext3. intros k Hk. rewrite !coord_mk3 by assumption. pose proof (dcp_n Hdec Hk) as HN.
      pose proof (Hc0 k Hk) as Hck. rewrite one_ext in Hck by assumption. unfold g. rewrite one_gi by assumption.
      unfold ghosts in *. destruct (Nat.ltb_spec k nd).
      - unfold continue. destruct (Z.ltb_spec (coord k c0 - ng) 0); [reflexivity|].
        destruct (Z.leb_spec (coord k N) (coord k c0 - ng)); [reflexivity|]. apply Z.mod_small. lia.
      - apply Z.mod_small. lia. }
    rewrite Ew. apply cell_ext; try reflexivity. intros k. cbn [c_rhou]. unfold turned.
    destruct (coord k g <? 0), (coord k N <=? coord k g); now rewrite andb_false_r.
Qed.
End Fill.

(** On any process grid. *)
Lemma boundary_filled nd N dims ng dec bcs order G (W : world cell) :
  decomposed nd N dims ng dec -> thick nd dims ng dec -> complete_order nd bcs order ->
  holds_owned nd dims ng dec G W ->
  forall r, (forall d, (d < 3)%nat -> 0 <= coord d r < coord d (mpi_dims nd dims)) ->
  forall c, in_array (d_nwg (dec r)) c ->
    boundary_update nd (mpi_dims nd dims) (fun r => d_nwg (dec r)) ng bcs order W r c
    = continuation nd N bcs G (global_index nd ng (corner_min (d_range (dec r))) c).
Proof.
  intros Hdec Hth Ho HW r Hr c Hc.
  assert (Hdec1 : decomposed nd N one_process ng (decs nd N one_process ng)).
  { apply decs_decomposed; [exact (dcp_nd Hdec)|exact (dcp_ng Hdec)|intros d Hd; exact (dcp_n Hdec Hd)|].
    intros d Hd. rewrite mpi_dims_one. destruct d as [|[|[|d]]]; cbn; lia. }
  set (dec1 := decs nd N one_process ng) in *.
  pose proof (serial_thick nd N dims ng dec dec1 Hdec Hdec1 Hth) as Hth1.
  set (W1 := (fun r c => G (global_index nd ng (corner_min (d_range (dec1 r))) c)) : world cell).
  assert (HW1 : holds_owned nd one_process ng dec1 G W1) by (intros r0 _ c0 _; reflexivity).
  rewrite (boundary_slice nd N dims ng dec dec1 Hdec Hdec1 Hth G bcs order W W1 (proj1 Ho) HW HW1 r Hr c Hc).
  pose proof (slice_in_serial nd N dims ng dec dec1 Hdec Hdec1 r c Hr Hc) as Hc1.
  rewrite (one_process_filled nd N ng dec1 G bcs Hdec1 Hth1 order W1 Ho HW1 _ Hc1). f_equal.
  apply idx_ext3. intros k Hk. erewrite one_gi by (eassumption || exact (fun _ => NullGradient) || exact G). 
  unfold global_index. rewrite coord_mk3 by assumption. rewrite coord_iadd. reflexivity.
Qed.
