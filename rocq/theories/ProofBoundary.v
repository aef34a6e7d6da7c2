(** * Proofs about ghost exchange and boundary conditions. *)
From Coq Require Import Permutation.
From Verif Require Import Base RBase ModelMesh ModelBoundary SpecMesh SpecBoundary ProofBase ProofMesh.
From Coq Require Import ZifyBool ZifyNat.
Local Open Scope Z_scope.

(** ** Unpacking a decomposition *)

Section Decomposed.
Variables (nd : nat) (N dims0 : idx) (ng : Z) (dec : idx -> decomp).
Hypothesis HD : decomposed nd N dims0 ng dec.
Let p := mpi_dims nd dims0.

Definition vrank (r : idx) : Prop := forall d, (d < 3)%nat -> 0 <= coord d r < coord d p.

Definition cm (d : nat) (x : Z) : Z := decomp_cmin (coord d N) (coord d p) x.
Definition nl (d : nat) (x : Z) : Z := decomp_nloc (coord d N) (coord d p) x.

Lemma N_nonneg d : (d < 3)%nat -> 0 <= coord d N.
Proof. intros. pose proof (dcp_n HD H). lia. Qed.
Lemma dec_cmin r d : vrank r -> (d < 3)%nat -> coord d (corner_min (d_range (dec r))) = cm d (coord d r).
Proof.
  intros Hr Hd. pose proof (dcp_ok HD Hr) as H.
  rewrite mpi_decomposition_ok in H by (auto using N_nonneg).
  injection H as <-. unfold decomp_of. cbn [d_range corner_min]. now rewrite coord_mk3.
Qed.

Lemma dec_nloc r d : vrank r -> (d < 3)%nat -> coord d (d_nloc (dec r)) = nl d (coord d r).
Proof.
  intros Hr Hd. pose proof (dcp_ok HD Hr) as H.
  rewrite mpi_decomposition_ok in H by (auto using N_nonneg).
  injection H as <-. unfold decomp_of. cbn [d_nloc]. now rewrite coord_mk3.
Qed.

Lemma dec_nwg r d : vrank r -> (d < 3)%nat ->
  coord d (d_nwg (dec r)) = nl d (coord d r) + 2 * ghosts nd ng d.
Proof.
  intros Hr Hd. pose proof (dcp_ok HD Hr) as H.
  rewrite mpi_decomposition_ok in H by (auto using N_nonneg).
  injection H as <-. unfold decomp_of. cbn [d_nwg]. rewrite !coord_mk3 by assumption.
  unfold nghost_of, ghosts. now rewrite coord_mk3.
Qed.

Lemma p_pos d : (d < 3)%nat -> 1 <= coord d p.
Proof. intros. now apply (dcp_dims HD). Qed.

Lemma cm_0 d : (d < 3)%nat -> cm d 0 = 0.
Proof. intros. apply cmin_0; [now apply N_nonneg|now apply p_pos]. Qed.
Lemma cm_p d : (d < 3)%nat -> cm d (coord d p) = coord d N.
Proof. intros. apply cmin_p; [now apply N_nonneg|now apply p_pos]. Qed.
Lemma cm_succ d x : (d < 3)%nat -> cm d (x + 1) = cm d x + nl d x.
Proof. intros. apply cmin_succ; [now apply N_nonneg|now apply p_pos]. Qed.
Lemma nl_nonneg d x : (d < 3)%nat -> 0 <= nl d x.
Proof. intros. apply nloc_nonneg; [now apply N_nonneg|now apply p_pos]. Qed.
Lemma cm_nonneg d x : (d < 3)%nat -> 0 <= x -> 0 <= cm d x.
Proof. intros. apply cmin_nonneg; auto; [now apply N_nonneg|now apply p_pos]. Qed.
Lemma cm_max d x : (d < 3)%nat -> x < coord d p -> cm d x + nl d x <= coord d N.
Proof. intros. apply cmax_le; auto; [now apply N_nonneg|now apply p_pos]. Qed.
Lemma cm_mono d x y : (d < 3)%nat -> x <= y -> cm d x <= cm d y.
Proof. intros. apply cmin_mono; auto; [now apply N_nonneg|now apply p_pos]. Qed.

Lemma ghosts_nonneg d : 0 <= ghosts nd ng d.
Proof. unfold ghosts. pose proof (dcp_ng HD). destruct (Nat.ltb d nd); lia. Qed.
Lemma ghosts_lt d : (d < nd)%nat -> ghosts nd ng d = ng.
Proof. intros. unfold ghosts. destruct (Nat.ltb d nd) eqn:E; [reflexivity|lia]. Qed.
Lemma ghosts_ge d : (nd <= d)%nat -> ghosts nd ng d = 0.
Proof. intros. unfold ghosts. destruct (Nat.ltb d nd) eqn:E; [lia|reflexivity]. Qed.

Lemma vrank_neighbour r d s : vrank r -> (d < 3)%nat -> vrank (neighbour p d s r).
Proof.
  intros Hr Hd e He. unfold neighbour. destruct (Nat.eq_dec d e) as [->|Hne].
  - rewrite coord_set_same. apply Z.mod_pos_bound. pose proof (p_pos _ He). lia.
  - rewrite coord_set_other by assumption. now apply Hr.
Qed.

Lemma neighbour_other r d s e : (d < 3)%nat -> (e < 3)%nat -> d <> e ->
  coord e (neighbour p d s r) = coord e r.
Proof. intros. unfold neighbour. now rewrite coord_set_other. Qed.

Lemma next_cm r d : vrank r -> (d < 3)%nat ->
  (cm d (coord d (neighbour p d 1 r)) - (cm d (coord d r) + nl d (coord d r))) mod coord d N = 0.
Proof.
  intros Hr Hd. unfold neighbour. rewrite coord_set_same.
  pose proof (Hr d Hd) as Hrd. pose proof (dcp_n HD Hd) as HN.
  destruct (Z.eq_dec (coord d r + 1) (coord d p)) as [E|E].
  - rewrite E, Z.mod_same by lia. rewrite cm_0 by assumption.
    rewrite <- cm_succ, E, cm_p by assumption.
    rewrite Z.sub_0_l. apply Z.mod_opp_l_z; [lia|]. apply Z.mod_same. lia.
  - rewrite (Z.mod_small (coord d r + 1)) by lia. rewrite cm_succ by assumption. rewrite Z.sub_diag. apply Z.mod_0_l. lia.
Qed.

Lemma prev_cm r d : vrank r -> (d < 3)%nat ->
  let q := coord d (neighbour p d (-1) r) in
  (cm d (coord d r) - (cm d q + nl d q)) mod coord d N = 0.
Proof.
  intros Hr Hd q. pose proof (dcp_n HD Hd) as HN.
  assert (Hq : (q + 1) mod coord d p = coord d r).
  { unfold q, neighbour. rewrite coord_set_same. pose proof (p_pos _ Hd). pose proof (Hr d Hd).
    rewrite Zplus_mod_idemp_l. replace (coord d r + -1 + 1) with (coord d r) by lia.
    apply Z.mod_small. lia. }
  pose proof (vrank_neighbour r d (-1) Hr Hd) as Hv.
  pose proof (next_cm _ _ Hv Hd) as H. unfold neighbour at 1 in H. rewrite coord_set_same in H.
  fold q in H. rewrite Hq in H. exact H.
Qed.

Lemma thick_nl r d : thick nd dims0 ng dec -> vrank r -> (d < nd)%nat -> ng <= nl d (coord d r).
Proof.
  intros Hthick Hr Hd. pose proof (dcp_nd HD). rewrite <- dec_nloc by (assumption || lia). now apply Hthick.
Qed.

(** ** C06 *)
Section Sync.
Context {A : Type}.
Variable G : idx -> A.
Hypothesis Hthick : thick nd dims0 ng dec.
Let ext (r : idx) : idx := d_nwg (dec r).
Let cmn (r : idx) : idx := corner_min (d_range (dec r)).

Definition inv_range (k : nat) (r c : idx) : Prop :=
  forall d, (d < 3)%nat ->
    if Nat.ltb d k then 0 <= coord d c < nl d (coord d r) + 2 * ghosts nd ng d
    else ghosts nd ng d <= coord d c < ghosts nd ng d + nl d (coord d r).

Definition sync_inv (k : nat) (W : world A) : Prop :=
  forall r c, vrank r -> inv_range k r c -> W r c = G (wrap N (global_index nd ng (cmn r) c)).

Lemma wrap_owned r c : vrank r -> inv_range 0 r c ->
  wrap N (global_index nd ng (cmn r) c) = global_index nd ng (cmn r) c.
Proof.
  intros Hr Hc. apply idx_ext. intros d Hd. unfold wrap. rewrite coord_mk3 by assumption.
  unfold global_index. rewrite coord_mk3 by assumption. unfold cmn. rewrite dec_cmin by assumption.
  specialize (Hc d Hd). cbn [Nat.ltb Nat.leb] in Hc.
  pose proof (cm_nonneg d (coord d r) Hd ltac:(specialize (Hr d Hd); lia)).
  pose proof (cm_max d (coord d r) Hd ltac:(specialize (Hr d Hd); lia)).
  apply Z.mod_small. lia.
Qed.

(** Reading the neighbour in direction [d] at a shifted coordinate gives the same global cell. *)
Lemma wrap_shift r r' c d x :
  vrank r -> vrank r' -> (d < 3)%nat ->
  (forall e, (e < 3)%nat -> d <> e -> coord e r' = coord e r) ->
  (cm d (coord d r') + x - (cm d (coord d r) + coord d c)) mod coord d N = 0 ->
  wrap N (global_index nd ng (cmn r') (set_coord d x c)) = wrap N (global_index nd ng (cmn r) c).
Proof.
  intros Hr Hr' Hd Ho Hx. apply idx_ext. intros e He.
  unfold wrap, global_index. rewrite !coord_mk3 by assumption. unfold cmn.
  rewrite !dec_cmin by assumption.
  destruct (Nat.eq_dec d e) as [<-|Hne].
  - rewrite coord_set_same. pose proof (dcp_n HD Hd).
    replace (cm d (coord d r') + x - ghosts nd ng d)
      with ((cm d (coord d r) + coord d c - ghosts nd ng d)
            + (cm d (coord d r') + x - (cm d (coord d r) + coord d c))) by lia.
    rewrite <- Zplus_mod_idemp_r, Hx, Z.add_0_r. reflexivity.
  - rewrite coord_set_other by assumption. rewrite Ho by assumption. reflexivity.
Qed.

Lemma in_boxb_true b e c :
  (forall d, (d < 3)%nat -> coord d b <= coord d c < coord d e) -> in_boxb b e c = true.
Proof. intros. apply in_boxb_spec, in_box_coord. assumption. Qed.

Lemma in_boxb_false b e c d : (d < 3)%nat ->
  ~ (coord d b <= coord d c < coord d e) -> in_boxb b e c = false.
Proof.
  intros Hd H. destruct (in_boxb b e c) eqn:E; [|reflexivity].
  apply in_boxb_spec in E. rewrite in_box_coord in E. exfalso. apply H. now apply E.
Qed.

Lemma coord_zero d : coord d (I3 0 0 0) = 0.
Proof. destruct d as [|[|d]]; reflexivity. Qed.

Lemma ext_coord r d : vrank r -> (d < 3)%nat -> coord d (ext r) = nl d (coord d r) + 2 * ghosts nd ng d.
Proof. intros. unfold ext. now apply dec_nwg. Qed.

Lemma sync0_outside (W : world A) r c d : vrank r -> (d < nd)%nat ->
  coord d c < coord d (ext r) - ng -> ghost_sync p ext ng d 0 W r c = W r c.
Proof.
  intros Hr Hd Hc. pose proof (dcp_nd HD). unfold ghost_sync.
  rewrite (in_boxb_false _ _ _ d); [reflexivity|lia|]. rewrite !coord_set_same. lia.
Qed.

Lemma sync0_inside (W : world A) r c d : vrank r -> (d < nd)%nat ->
  (forall e, (e < 3)%nat -> 0 <= coord e c < coord e (ext r)) ->
  coord d (ext r) - ng <= coord d c ->
  ghost_sync p ext ng d 0 W r c
  = W (neighbour p d 1 r) (set_coord d (coord d c - coord d (ext r) + 2 * ng) c).
Proof.
  intros Hr Hd Hc Hlow. pose proof (dcp_nd HD). unfold ghost_sync.
  rewrite in_boxb_true.
  - f_equal. f_equal. lia.
  - intros e He. destruct (Nat.eq_dec d e) as [<-|Hne].
    + rewrite !coord_set_same. specialize (Hc d He). lia.
    + rewrite !coord_set_other by (assumption || lia). rewrite coord_zero. now apply Hc.
Qed.

Lemma sync1_outside (W : world A) r c d : vrank r -> (d < nd)%nat ->
  ng <= coord d c -> ghost_sync p ext ng d 1 W r c = W r c.
Proof.
  intros Hr Hd Hc. pose proof (dcp_nd HD). unfold ghost_sync.
  rewrite (in_boxb_false _ _ _ d); [reflexivity|lia|]. rewrite !coord_set_same. lia.
Qed.

Lemma sync1_inside (W : world A) r c d : vrank r -> (d < nd)%nat ->
  (forall e, (e < 3)%nat -> 0 <= coord e c < coord e (ext r)) ->
  coord d c < ng ->
  ghost_sync p ext ng d 1 W r c
  = W (neighbour p d (-1) r)
      (set_coord d (coord d (ext (neighbour p d (-1) r)) - 2 * ng + coord d c) c).
Proof.
  intros Hr Hd Hc Hlow. pose proof (dcp_nd HD). unfold ghost_sync.
  rewrite in_boxb_true.
  - f_equal. f_equal. lia.
  - intros e He. destruct (Nat.eq_dec d e) as [<-|Hne].
    + rewrite !coord_set_same. specialize (Hc d He). lia.
    + rewrite !coord_set_other by (assumption || lia). rewrite coord_zero. now apply Hc.
Qed.

Lemma inv_range_in_ext k r c : vrank r -> inv_range k r c ->
  forall e, (e < 3)%nat -> 0 <= coord e c < coord e (ext r).
Proof.
  intros Hr Hc e He. specialize (Hc e He). rewrite ext_coord by assumption.
  pose proof (ghosts_nonneg e). destruct (Nat.ltb e k); lia.
Qed.

Lemma inv_range_shift k r r' c x : vrank r -> (k < nd)%nat ->
  (forall e, (e < 3)%nat -> k <> e -> coord e r' = coord e r) ->
  inv_range (S k) r c -> ng <= x < ng + nl k (coord k r') ->
  inv_range k r' (set_coord k x c).
Proof.
  intros Hr Hk Ho Hc Hx d Hd. specialize (Hc d Hd). pose proof (dcp_nd HD).
  destruct (Nat.eq_dec k d) as [<-|Hne].
  - rewrite Nat.ltb_irrefl, coord_set_same. rewrite ghosts_lt by assumption. lia.
  - rewrite coord_set_other by (assumption || lia). rewrite Ho by assumption.
    destruct (Nat.ltb d k) eqn:E1; destruct (Nat.ltb d (S k)) eqn:E2; try lia; assumption.
Qed.

Lemma sync_step k (W : world A) : (k < nd)%nat -> sync_inv k W ->
  sync_inv (S k) (ghost_sync p ext ng k 1 (ghost_sync p ext ng k 0 W)).
Proof.
  intros Hk HW r c Hr Hc. pose proof (dcp_nd HD) as Hnd.
  assert (Hk3 : (k < 3)%nat) by lia.
  pose proof (inv_range_in_ext _ _ _ Hr Hc) as Hin.
  pose proof (Hc k Hk3) as Hck. rewrite (proj2 (Nat.ltb_lt k (S k))) in Hck by lia.
  rewrite ghosts_lt in Hck by assumption.
  pose proof (thick_nl r k Hthick Hr Hk) as Ht. pose proof (dcp_ng HD) as Hng.
  destruct (Z_lt_le_dec (coord k c) ng) as [Hlow|Hmid].
  - (* left ghosts *)
    rewrite sync1_inside by assumption.
    set (r' := neighbour p k (-1) r).
    assert (Hr' : vrank r') by (apply vrank_neighbour; assumption).
    pose proof (thick_nl r' k Hthick Hr' Hk) as Ht'.
    rewrite ext_coord by assumption. rewrite ghosts_lt by assumption.
    rewrite sync0_outside; [| assumption | assumption |].
    2: { rewrite coord_set_same, ext_coord, ghosts_lt by assumption. lia. }
    assert (Ho : forall e, (e < 3)%nat -> k <> e -> coord e r' = coord e r).
    { intros. now apply neighbour_other. }
    rewrite HW; [| assumption |].
    + f_equal. apply wrap_shift; auto.
      pose proof (prev_cm r k Hr Hk3) as Hp. cbv zeta in Hp. fold r' in Hp.
      match goal with |- ?a mod _ = 0 =>
        replace a with (- (cm k (coord k r) - (cm k (coord k r') + nl k (coord k r')))) by lia end.
      apply Z.mod_opp_l_z; [pose proof (dcp_n HD Hk3); lia|assumption].
    + apply inv_range_shift with (r := r); auto. lia.
  - rewrite sync1_outside by assumption.
    destruct (Z_lt_le_dec (coord k c) (ng + nl k (coord k r))) as [Hown|Hhigh].
    + (* owned *)
      rewrite sync0_outside; [|assumption|assumption|rewrite ext_coord, ghosts_lt by assumption; lia].
      apply HW; [assumption|]. intros d Hd. specialize (Hc d Hd).
      destruct (Nat.eq_dec k d) as [<-|Hne].
      * rewrite Nat.ltb_irrefl. rewrite ghosts_lt by assumption. lia.
      * destruct (Nat.ltb d k) eqn:E1; destruct (Nat.ltb d (S k)) eqn:E2; try lia; assumption.
    + (* right ghosts *)
      rewrite sync0_inside; [|assumption|assumption|assumption|rewrite ext_coord, ghosts_lt by assumption; lia].
      set (r' := neighbour p k 1 r).
      assert (Hr' : vrank r') by (apply vrank_neighbour; assumption).
      pose proof (thick_nl r' k Hthick Hr' Hk) as Ht'.
      rewrite ext_coord by assumption. rewrite ghosts_lt by assumption.
      assert (Ho : forall e, (e < 3)%nat -> k <> e -> coord e r' = coord e r).
      { intros. now apply neighbour_other. }
      rewrite HW; [| assumption |].
      * f_equal. apply wrap_shift; auto.
        pose proof (next_cm r k Hr Hk3) as Hp. fold r' in Hp.
        match goal with |- ?a mod _ = 0 =>
          replace a with (cm k (coord k r') - (cm k (coord k r) + nl k (coord k r))) by lia end.
        assumption.
      * apply inv_range_shift with (r := r); auto. lia.
Qed.

Lemma sync_dims_inv k (W : world A) : (k <= nd)%nat -> sync_inv 0 W -> sync_inv k (sync_dims p ext ng k W).
Proof.
  intros Hk HW. induction k as [|k IH]; cbn [sync_dims]; [assumption|].
  apply sync_step; [lia|]. apply IH. lia.
Qed.

Lemma sync_periodic (W : world A) : holds_owned nd dims0 ng dec G W ->
  forall r, vrank r -> forall c, in_array (ext r) c ->
    sync_dims p ext ng nd W r c = G (wrap N (global_index nd ng (cmn r) c)).
Proof.
  intros HW r Hr c Hc.
  assert (H0 : sync_inv 0 W).
  { intros r0 c0 Hr0 Hc0. rewrite wrap_owned by assumption. apply HW; [assumption|].
    intros d Hd. rewrite dec_nloc by assumption. now apply (Hc0 d Hd). }
  apply (sync_dims_inv nd W (le_n _) H0); [assumption|].
  intros d Hd. specialize (Hc d Hd). rewrite ext_coord in Hc by assumption.
  destruct (Nat.ltb d nd) eqn:E; [assumption|].
  rewrite ghosts_ge in * by lia. lia.
Qed.

(** Owned cells are not touched (with any width). *)
Lemma sync_dims_owned_k k (W : world A) r c : (k <= nd)%nat -> vrank r ->
  (forall d, (d < nd)%nat -> ng <= coord d c < coord d (ext r) - ng) ->
  sync_dims p ext ng k W r c = W r c.
Proof.
  intros Hk Hr Hc. induction k as [|k IH]; cbn [sync_dims]; [reflexivity|].
  pose proof (Hc k ltac:(lia)).
  rewrite sync1_outside by (assumption || lia).
  rewrite sync0_outside by (assumption || lia). apply IH. lia.
Qed.

End Sync.
End Decomposed.

(** ** Boundary kernels (C08) *)

Lemma run_inplace_spec {A : Type} (body : (idx -> A) -> idx -> A) (l : list idx) (a : idx -> A) :
  NoDup l ->
  (forall b b' c, In c l -> (forall x, ~ In x l -> b x = b' x) -> body b c = body b' c) ->
  (forall x, In x l -> run_inplace body l a x = body a x) /\
  (forall x, ~ In x l -> run_inplace body l a x = a x).
Proof.
  intros Hnd Hb.
  (* generalise: a prefix has been executed already *)
  assert (H : forall l2 b, NoDup l2 -> (forall x, In x l2 -> In x l) ->
    (forall x, ~ In x l -> b x = a x) ->
    (forall x, In x l2 -> run_inplace body l2 b x = body a x) /\
    (forall x, ~ In x l2 -> run_inplace body l2 b x = b x)).
  { induction l2 as [|c l2 IH]; intros b Hnd2 Hin Hba; cbn [run_inplace].
    - split; [intros x []|reflexivity].
    - inversion Hnd2 as [|? ? Hc Hl2]; subst.
      assert (Hstep : body b c = body a c).
      { apply Hb; [apply Hin; now left|]. intros; now apply Hba. }
      destruct (IH (update b c (body b c)) Hl2) as [IH1 IH2].
      { intros; apply Hin; now right. }
      { intros x Hx. unfold update. destruct (idx_eqb c x) eqn:E; [|now apply Hba].
        apply idx_eqb_spec in E. subst. exfalso. apply Hx. apply Hin. now left. }
      split.
      + intros x [<-|Hx].
        * rewrite IH2 by assumption. unfold update.
          rewrite (proj2 (idx_eqb_spec c c) eq_refl). assumption.
        * now apply IH1.
      + intros x Hx. rewrite IH2 by (intros ?; apply Hx; now right).
        unfold update. destruct (idx_eqb c x) eqn:E; [|reflexivity].
        apply idx_eqb_spec in E. subst. exfalso. apply Hx. now left. }
  apply (H l a); auto.
Qed.

Definition bc_body (b : bcond) (ext : idx) (ng : Z) (d face : nat) : (idx -> cell) -> idx -> cell :=
  match b with
  | NullGradient => null_gradient_body ext ng d face
  | Reflexive => reflexive_body ext ng d face
  | Periodic => fun a c => a c
  end.

Lemma bc_box_d ext ng d face c : (d < 3)%nat -> in_box (bc_begin ext ng d face) (bc_end ext ng d face) c ->
  match face with O => 0 <= coord d c < ng | _ => coord d ext - ng <= coord d c < coord d ext end.
Proof.
  intros Hd H. rewrite in_box_coord in H. specialize (H d Hd).
  unfold bc_begin, bc_end in H. rewrite !coord_set_same in H. destruct face; lia.
Qed.

Lemma bc_box_iff ext ng d face c : (d < 3)%nat ->
  (0 <= ng <= coord d ext) ->
  (in_box (bc_begin ext ng d face) (bc_end ext ng d face) c <-> in_face ext ng d face c).
Proof.
  intros Hd Hng. rewrite in_box_coord. unfold in_face, in_array. split.
  - intros H. split.
    + intros e He. specialize (H e He). unfold bc_begin, bc_end in H.
      destruct (Nat.eq_dec d e) as [<-|Hne].
      * rewrite !coord_set_same in H. destruct face; lia.
      * rewrite !coord_set_other, coord_zero in H by assumption. assumption.
    + specialize (H d Hd). unfold bc_begin, bc_end in H. rewrite !coord_set_same in H.
      destruct face; lia.
  - intros [Ha Hf] e He. specialize (Ha e He). unfold bc_begin, bc_end.
    destruct (Nat.eq_dec d e) as [<-|Hne].
    + rewrite !coord_set_same. destruct face; lia.
    + rewrite !coord_set_other, coord_zero by assumption. assumption.
Qed.

(** The cells a boundary kernel reads are never cells it writes. *)
Lemma bc_body_reads_elsewhere b ext ng d face l :
  b <> Periodic -> (d < 3)%nat ->
  (forall c, In c l <-> in_box (bc_begin ext ng d face) (bc_end ext ng d face) c) ->
  forall a a' c, In c l -> (forall x, ~ In x l -> a x = a' x) ->
    bc_body b ext ng d face a c = bc_body b ext ng d face a' c.
Proof.
  intros Hb Hd Hl a a' c Hc Heq. apply Hl in Hc. apply bc_box_d in Hc; [|assumption].
  destruct b; [| |]; cbn [bc_body]; [|congruence|].
  - unfold null_gradient_body. apply Heq. intros Hx. apply Hl in Hx. apply bc_box_d in Hx; [|assumption].
    unfold bc_begin, bc_end in Hx. rewrite !coord_set_same in Hx.
    destruct face; rewrite ?coord_set_same in Hx; lia.
  - unfold reflexive_body. f_equal. apply Heq. intros Hx. apply Hl in Hx.
    apply bc_box_d in Hx; [|assumption]. rewrite coord_set_same in Hx. destruct face; lia.
Qed.

Lemma bc_order_independent b ext ng d face l a : b <> Periodic -> (d < 3)%nat ->
  Permutation l (box_cells (bc_begin ext ng d face) (bc_end ext ng d face)) ->
  forall c, run_inplace (bc_body b ext ng d face) l a c = bc_apply b ext ng d face a c.
Proof.
  intros Hb Hd Hp c.
  assert (Hl : forall c, In c l <-> in_box (bc_begin ext ng d face) (bc_end ext ng d face) c).
  { intros x. rewrite <- in_box_cells. split; apply Permutation_in; [assumption|now symmetry]. }
  assert (Hnd : NoDup l).
  { eapply Permutation_NoDup; [symmetry; exact Hp|]. apply NoDup_box_cells. }
  destruct (run_inplace_spec (bc_body b ext ng d face) l a Hnd) as [H1 H2].
  { now apply bc_body_reads_elsewhere. }
  assert (E : bc_apply b ext ng d face a c
              = kwrite (in_boxb (bc_begin ext ng d face) (bc_end ext ng d face))
                       (bc_body b ext ng d face a) a c).
  { destruct b; [reflexivity|congruence|reflexivity]. }
  rewrite E. unfold kwrite.
  destruct (in_boxb (bc_begin ext ng d face) (bc_end ext ng d face) c) eqn:Ec.
  - apply H1. apply Hl. now apply in_boxb_spec.
  - apply H2. intros Hc. apply Hl, in_boxb_spec in Hc. congruence.
Qed.

Lemma bc_apply_outside b ext ng d face a c : (d < 3)%nat -> 0 <= ng <= coord d ext ->
  ~ in_face ext ng d face c -> bc_apply b ext ng d face a c = a c.
Proof.
  intros Hd Hng H. destruct b; cbn [bc_apply]; [|reflexivity|]; unfold kwrite;
  destruct (in_boxb (bc_begin ext ng d face) (bc_end ext ng d face) c) eqn:E; try reflexivity;
  apply in_boxb_spec, bc_box_iff in E; tauto.
Qed.

Lemma bc_apply_inside b ext ng d face a c : (d < 3)%nat -> 0 <= ng <= coord d ext ->
  in_face ext ng d face c -> b <> Periodic ->
  bc_apply b ext ng d face a c = bc_body b ext ng d face a c.
Proof.
  intros Hd Hng H Hb. apply bc_box_iff in H; [|assumption|assumption]. apply in_boxb_spec in H.
  destruct b; cbn [bc_apply bc_body]; [|congruence|]; unfold kwrite; now rewrite H.
Qed.

Lemma null_gradient_value ext ng d face a c : (d < 3)%nat -> 0 <= ng <= coord d ext ->
  in_face ext ng d face c ->
  bc_apply NullGradient ext ng d face a c
  = a (set_coord d (match face with O => ng | _ => coord d ext - ng - 1 end) c).
Proof.
  intros Hd Hng H. rewrite bc_apply_inside by (assumption || discriminate).
  cbn [bc_body]. unfold null_gradient_body, bc_begin, bc_end. rewrite !coord_set_same.
  destruct face; reflexivity.
Qed.

Lemma reflexive_value ext ng d face a c : (d < 3)%nat -> 0 <= ng <= coord d ext ->
  in_face ext ng d face c ->
  bc_apply Reflexive ext ng d face a c
  = negate_momentum d
      (a (set_coord d (match face with O => 2 * ng - 1 - coord d c
                       | _ => 2 * (coord d ext - ng) - 1 - coord d c end) c)).
Proof.
  intros Hd Hng H. rewrite bc_apply_inside by (assumption || discriminate).
  cbn [bc_body]. unfold reflexive_body. destruct face; reflexivity.
Qed.

Lemma bc_idempotent b ext ng d face a c : (d < 3)%nat -> 0 <= ng <= coord d ext ->
  bc_apply b ext ng d face (bc_apply b ext ng d face a) c = bc_apply b ext ng d face a c.
Proof.
  intros Hd Hng. destruct b; [|reflexivity|].
  - destruct (in_boxb (bc_begin ext ng d face) (bc_end ext ng d face) c) eqn:E.
    + pose proof E as E'. apply in_boxb_spec, bc_box_iff in E'; [|assumption|assumption].
      rewrite (null_gradient_value _ _ _ _ (bc_apply _ _ _ _ _ _) c), (null_gradient_value _ _ _ _ a c) by assumption.
      apply bc_apply_outside; [assumption|assumption|].
      intros [_ Hx]. rewrite coord_set_same in Hx. destruct face; lia.
    + cbn [bc_apply]. unfold kwrite at 1. rewrite E. reflexivity.
  - destruct (in_boxb (bc_begin ext ng d face) (bc_end ext ng d face) c) eqn:E.
    + pose proof E as E'. apply in_boxb_spec, bc_box_iff in E'; [|assumption|assumption].
      rewrite (reflexive_value _ _ _ _ (bc_apply _ _ _ _ _ _) c), (reflexive_value _ _ _ _ a c) by assumption. f_equal.
      apply bc_apply_outside; [assumption|assumption|].
      destruct E' as [Ea Ef]. specialize (Ea d Hd).
      intros [_ Hx]. rewrite coord_set_same in Hx. destruct face; lia.
    + cbn [bc_apply]. unfold kwrite at 1. rewrite E. reflexivity.
Qed.

(** ** Distributed = serial (C11) *)

Lemma coord_iadd d a b : coord d (iadd a b) = coord d a + coord d b.
Proof. destruct d as [|[|d]]; reflexivity. Qed.

Lemma iadd_set_coord d a x c : (d < 3)%nat ->
  iadd a (set_coord d x c) = set_coord d (coord d a + x) (iadd a c).
Proof.
  intros Hd. apply idx_ext. intros e He. rewrite coord_iadd.
  destruct (Nat.eq_dec d e) as [<-|Hne].
  - now rewrite !coord_set_same.
  - now rewrite !coord_set_other, coord_iadd by assumption.
Qed.

Lemma mpi_dims_one nd : mpi_dims nd one_process = one_process.
Proof.
  apply idx_ext. intros d Hd. rewrite mpi_dims_coord by assumption.
  unfold one_process. destruct (Nat.ltb d nd); destruct d as [|[|[|d]]]; try reflexivity; lia.
Qed.

Lemma coord_one d : coord d one_process = 1.
Proof. destruct d as [|[|d]]; reflexivity. Qed.
Lemma coord_rank0 d : coord d rank0 = 0.
Proof. destruct d as [|[|d]]; reflexivity. Qed.

Section Serial.
Variables (nd : nat) (N dims0 : idx) (ng : Z) (dec dec1 : idx -> decomp).
Hypothesis HD : decomposed nd N dims0 ng dec.
Hypothesis HD1 : decomposed nd N one_process ng dec1.
Hypothesis Hthick : thick nd dims0 ng dec.
Let p := mpi_dims nd dims0.
Let ext (r : idx) : idx := d_nwg (dec r).
Let ext1 (r : idx) : idx := d_nwg (dec1 r).
Let cmn (r : idx) : idx := corner_min (d_range (dec r)).

Notation vr := (vrank nd dims0).

Lemma vrank0_serial : vrank nd one_process rank0.
Proof. intros d Hd. rewrite mpi_dims_one, coord_one, coord_rank0. lia. Qed.

Lemma serial_rank r : vrank nd one_process r -> r = rank0.
Proof.
  intros Hr. apply idx_ext. intros d Hd. specialize (Hr d Hd).
  rewrite mpi_dims_one, coord_one in Hr. rewrite coord_rank0. lia.
Qed.

Lemma serial_cmin d : (d < 3)%nat -> coord d (corner_min (d_range (dec1 rank0))) = 0.
Proof.
  intros Hd. rewrite (dec_cmin _ _ _ _ _ HD1) by (auto using vrank0_serial).
  rewrite coord_rank0. now apply (cm_0 _ _ _ _ _ HD1).
Qed.

Lemma serial_nl d : (d < 3)%nat -> nl nd N one_process d 0 = coord d N.
Proof.
  intros Hd. pose proof (cm_succ _ _ _ _ _ HD1 d 0 Hd) as H.
  pose proof (cm_p _ _ _ _ _ HD1 d Hd) as Hp. rewrite mpi_dims_one, coord_one in Hp.
  rewrite (cm_0 _ _ _ _ _ HD1) in H by assumption. cbn in H. lia.
Qed.

Lemma serial_nloc d : (d < 3)%nat -> coord d (d_nloc (dec1 rank0)) = coord d N.
Proof.
  intros Hd. rewrite (dec_nloc _ _ _ _ _ HD1) by (auto using vrank0_serial).
  rewrite coord_rank0. now apply serial_nl.
Qed.

Lemma serial_ext d : (d < 3)%nat -> coord d (ext1 rank0) = coord d N + 2 * ghosts nd ng d.
Proof.
  intros Hd. unfold ext1. rewrite (dec_nwg _ _ _ _ _ HD1) by (auto using vrank0_serial).
  rewrite coord_rank0, serial_nl by assumption. reflexivity.
Qed.

Lemma vr0 : vr rank0.
Proof. intros d Hd. rewrite coord_rank0. pose proof (dcp_dims HD Hd). lia. Qed.

Lemma serial_thick : thick nd one_process ng dec1.
Proof.
  intros r Hr d Hd. pose proof (serial_rank r Hr). subst r. pose proof (dcp_nd HD).
  rewrite serial_nloc by lia.
  pose proof (thick_nl _ _ _ _ _ HD rank0 d Hthick vr0 Hd) as H1.
  rewrite coord_rank0 in H1.
  pose proof (cm_max _ _ _ _ _ HD d 0 ltac:(lia)) as H2.
  pose proof (dcp_dims HD (d := d) ltac:(lia)).
  rewrite (cm_0 _ _ _ _ _ HD) in H2 by lia. specialize (H2 ltac:(lia)). lia.
Qed.

Lemma ext_val r d : vr r -> (d < 3)%nat ->
  coord d (ext r) = nl nd N dims0 d (coord d r) + 2 * ghosts nd ng d.
Proof. intros. unfold ext. now apply (dec_nwg _ _ _ _ _ HD). Qed.

Lemma slice_in_serial r c : vr r -> in_array (ext r) c -> in_array (ext1 rank0) (iadd (cmn r) c).
Proof.
  intros Hr Hc d Hd. specialize (Hc d Hd). rewrite ext_val in Hc by assumption.
  rewrite serial_ext, coord_iadd by assumption. unfold cmn.
  rewrite (dec_cmin _ _ _ _ _ HD) by assumption.
  pose proof (cm_nonneg _ _ _ _ _ HD d (coord d r) Hd ltac:(specialize (Hr d Hd); lia)).
  pose proof (cm_max _ _ _ _ _ HD d (coord d r) Hd ltac:(specialize (Hr d Hd); lia)).
  lia.
Qed.

Lemma sync_slice {A : Type} (G : idx -> A) (W W1 : world A) :
  holds_owned nd dims0 ng dec G W -> holds_owned nd one_process ng dec1 G W1 ->
  slice_of nd dims0 dec (sync_dims p ext ng nd W)
    (sync_dims (mpi_dims nd one_process) ext1 ng nd W1 rank0).
Proof.
  intros HW HW1 r Hr c Hc.
  etransitivity; [exact (sync_periodic _ _ _ _ _ HD G Hthick W HW r Hr c Hc)|].
  symmetry.
  etransitivity; [exact (sync_periodic _ _ _ _ _ HD1 G serial_thick W1 HW1 rank0 vrank0_serial _
             (slice_in_serial r c Hr Hc))|].
  f_equal. f_equal. apply idx_ext. intros d Hd. unfold global_index.
  rewrite !coord_mk3 by assumption. rewrite serial_cmin by assumption.
  rewrite coord_iadd. unfold cmn. lia.
Qed.

Lemma set_coord_in_array e d x c : in_array e c -> 0 <= x < coord d e -> in_array e (set_coord d x c).
Proof.
  intros Hc Hx k Hk. destruct (Nat.eq_dec d k) as [<-|Hne].
  - rewrite coord_set_same. assumption.
  - destruct (Nat.lt_ge_cases d 3) as [Hd|Hd].
    + rewrite coord_set_other by assumption. now apply Hc.
    + specialize (Hc k Hk). destruct d as [|[|[|d]]]; try lia.
      destruct k as [|[|[|k]]]; cbn in *; lia.
Qed.

Lemma in_box_in_face e g d face c : (d < 3)%nat -> 0 <= g <= coord d e -> in_array e c ->
  in_boxb (bc_begin e g d face) (bc_end e g d face) c
  = match face with O => coord d c <? g | _ => coord d e - g <=? coord d c end.
Proof.
  intros Hd Hg Hc.
  destruct (in_boxb (bc_begin e g d face) (bc_end e g d face) c) eqn:E.
  - apply in_boxb_spec, bc_box_iff in E; [|assumption|assumption]. destruct E as [_ E].
    destruct face; lia.
  - destruct (match face with O => coord d c <? g | _ => coord d e - g <=? coord d c end) eqn:F;
      [|reflexivity].
    exfalso. assert (Hin : in_face e g d face c). { split; [assumption|]. destruct face; lia. }
    apply bc_box_iff in Hin; [|assumption|assumption]. apply in_boxb_spec in Hin. congruence.
Qed.

Lemma bc_step_slice bcs f (W W1 : world cell) : (f < 2 * nd)%nat ->
  slice_of nd dims0 dec W (W1 rank0) ->
  slice_of nd dims0 dec (bc_step p ext ng bcs W f)
    (bc_step (mpi_dims nd one_process) ext1 ng bcs W1 f rank0).
Proof.
  intros Hf HW r Hr c Hc. change (d_nwg (dec r)) with (ext r) in Hc.
  pose proof (dcp_nd HD) as Hnd. pose proof (dcp_ng HD) as Hng.
  set (d := Nat.div f 2). set (face := Nat.modulo f 2).
  assert (Hd : (d < nd)%nat) by (apply Nat.div_lt_upper_bound; lia).
  assert (Hd3 : (d < 3)%nat) by lia.
  assert (Hface : face = 0%nat \/ face = 1%nat).
  { unfold face. pose proof (Nat.mod_upper_bound f 2 ltac:(lia)). lia. }
  unfold bc_step. fold d face. change (corner_min (d_range (dec r))) with (cmn r).
  clearbody d face.
  assert (Eb1 : is_border (mpi_dims nd one_process) rank0 d face = true).
  { unfold is_border. rewrite mpi_dims_one, coord_one, coord_rank0. destruct face; reflexivity. }
  rewrite Eb1.
  pose proof (slice_in_serial r c Hr Hc) as Hc1.
  pose proof (thick_nl _ _ _ _ _ HD r d Hthick Hr Hd) as Ht.
  pose proof (serial_ext d Hd3) as Ee1. rewrite (ghosts_lt nd ng) in Ee1 by assumption.
  pose proof (ext_val r d Hr Hd3) as Ee. rewrite (ghosts_lt nd ng) in Ee by assumption.
  pose proof (dec_cmin _ _ _ _ _ HD r d Hr Hd3) as Ecm. fold (cmn r) in Ecm.
  pose proof (Hr d Hd3) as Hrd.
  pose proof (cm_nonneg _ _ _ _ _ HD d (coord d r) Hd3 ltac:(lia)) as Hcm0.
  pose proof (cm_max _ _ _ _ _ HD d (coord d r) Hd3 ltac:(lia)) as Hcm1.
  pose proof (Hc d Hd3) as Hcd.
  assert (Hg : 0 <= ng <= coord d (ext r)) by lia.
  assert (Hg1 : 0 <= ng <= coord d (ext1 rank0)) by lia.
  assert (Eii : coord d (iadd (cmn r) c) = cm nd N dims0 d (coord d r) + coord d c)
    by (rewrite coord_iadd, Ecm; reflexivity).
  destruct (is_border p r d face) eqn:Eb.
  - (* this process touches the face *)
    assert (Hoff : match face with O => cm nd N dims0 d (coord d r) = 0
                   | _ => cm nd N dims0 d (coord d r) + nl nd N dims0 d (coord d r) = coord d N end).
    { unfold is_border in Eb. destruct Hface as [-> | ->].
      - apply Z.eqb_eq in Eb. rewrite Eb. now apply (cm_0 _ _ _ _ _ HD).
      - apply Z.eqb_eq in Eb. rewrite <- (cm_succ _ _ _ _ _ HD) by assumption.
        rewrite Eb. replace (coord d p - 1 + 1) with (coord d p) by lia.
        now apply (cm_p _ _ _ _ _ HD). }
    assert (Ebox : in_boxb (bc_begin (ext r) ng d face) (bc_end (ext r) ng d face) c
                 = in_boxb (bc_begin (ext1 rank0) ng d face) (bc_end (ext1 rank0) ng d face)
                     (iadd (cmn r) c)).
    { rewrite !in_box_in_face by assumption. rewrite Eii, Ee, Ee1.
      destruct Hface as [-> | ->]; lia. }
    destruct (bcs f); cbn [bc_apply].
    + unfold kwrite. rewrite <- Ebox.
      destruct (in_boxb (bc_begin (ext r) ng d face) (bc_end (ext r) ng d face) c) eqn:E;
        [|now apply HW].
      assert (Hfc : match face with O => coord d c < ng | _ => coord d (ext r) - ng <= coord d c end).
      { rewrite in_box_in_face in E by assumption. destruct Hface as [-> | ->]; lia. }
      unfold null_gradient_body, bc_begin, bc_end. rewrite !coord_set_same.
      rewrite HW; [|assumption|apply (set_coord_in_array (ext r)); [assumption|destruct Hface as [-> | ->]; lia]].
      change (corner_min (d_range (dec r))) with (cmn r). rewrite iadd_set_coord by assumption. f_equal. f_equal. rewrite Ecm.
      destruct Hface as [-> | ->]; lia.
    + now apply HW.
    + unfold kwrite. rewrite <- Ebox.
      destruct (in_boxb (bc_begin (ext r) ng d face) (bc_end (ext r) ng d face) c) eqn:E;
        [|now apply HW].
      assert (Hfc : match face with O => coord d c < ng | _ => coord d (ext r) - ng <= coord d c end).
      { rewrite in_box_in_face in E by assumption. destruct Hface as [-> | ->]; lia. }
      unfold reflexive_body. f_equal.
      rewrite HW; [|assumption|apply (set_coord_in_array (ext r)); [assumption|destruct Hface as [-> | ->]; lia]].
      change (corner_min (d_range (dec r))) with (cmn r). rewrite iadd_set_coord by assumption. f_equal. f_equal. rewrite Ecm, Eii.
      destruct Hface as [-> | ->]; lia.
  - (* it does not: in the serial array the cell is not a ghost of that face *)
    rewrite bc_apply_outside; [now apply HW|assumption|assumption|].
    intros [_ Hx]. rewrite Eii, Ee1 in Hx. unfold is_border in Eb.
    destruct Hface as [-> | ->].
    + apply Z.eqb_neq in Eb.
      pose proof (cm_mono _ _ _ _ _ HD d 1 (coord d r) Hd3 ltac:(lia)) as Hm.
      pose proof (cm_succ _ _ _ _ _ HD d 0 Hd3) as Hs. cbn in Hs.
      rewrite (cm_0 _ _ _ _ _ HD) in Hs by assumption.
      pose proof (thick_nl _ _ _ _ _ HD rank0 d Hthick vr0 Hd) as H0. rewrite coord_rank0 in H0. lia.
    + apply Z.eqb_neq in Eb.
      (* the last process in direction d *)
      set (rl := set_coord d (coord d p - 1) r).
      assert (Hrl : vr rl).
      { intros e He. unfold rl. destruct (Nat.eq_dec d e) as [<-|Hne].
        - rewrite coord_set_same. fold p in Hrd. fold p. lia.
        - rewrite coord_set_other by assumption. now apply Hr. }
      pose proof (thick_nl _ _ _ _ _ HD rl d Hthick Hrl Hd) as H0.
      unfold rl in H0. rewrite coord_set_same in H0. fold p in Hrd.
      pose proof (cm_mono _ _ _ _ _ HD d (coord d r + 1) (coord d p - 1) Hd3 ltac:(lia)) as Hm.
      rewrite (cm_succ _ _ _ _ _ HD) in Hm by assumption.
      pose proof (cm_succ _ _ _ _ _ HD d (coord d p - 1) Hd3) as Hs.
      replace (coord d p - 1 + 1) with (coord d p) in Hs by lia.
      rewrite (cm_p _ _ _ _ _ HD) in Hs by assumption. lia.
Qed.

Lemma bc_fold_slice bcs order : faces_ok nd order -> forall (W W1 : world cell),
  slice_of nd dims0 dec W (W1 rank0) ->
  slice_of nd dims0 dec (fold_left (bc_step p ext ng bcs) order W)
    (fold_left (bc_step (mpi_dims nd one_process) ext1 ng bcs) order W1 rank0).
Proof.
  intros Ho. induction order as [|f order IH]; intros W W1 HW; cbn [fold_left]; [assumption|].
  apply IH.
  - intros g Hg. apply Ho. now right.
  - apply bc_step_slice; [apply Ho; now left|assumption].
Qed.

Lemma boundary_slice (G : idx -> cell) bcs order (W W1 : world cell) : faces_ok nd order ->
  holds_owned nd dims0 ng dec G W -> holds_owned nd one_process ng dec1 G W1 ->
  slice_of nd dims0 dec (boundary_update nd p ext ng bcs order W)
    (boundary_update nd (mpi_dims nd one_process) ext1 ng bcs order W1 rank0).
Proof.
  intros Ho HW HW1. unfold boundary_update. apply bc_fold_slice; [assumption|].
  now apply (sync_slice G).
Qed.

End Serial.
