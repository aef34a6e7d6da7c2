(** * Proofs about the order of application of boundary conditions and their names (C09, C10). *)
From Verif Require Import Base RBase ModelMesh ModelBoundary SpecBoundary ProofBase.
From Coq Require Import ZifyBool ZifyNat.
Local Open Scope string_scope.
Local Open Scope nat_scope.

Lemma set_nth_length {A} f (v : A) l : List.length (set_nth f v l) = List.length l.
Proof. revert l. induction f as [|f IH]; intros [|x l]; cbn; auto. Qed.

Lemma set_nth_same {A} f (v d : A) l : f < List.length l -> nth f (set_nth f v l) d = v.
Proof. revert l. induction f as [|f IH]; intros [|x l]; cbn; intros H; try lia; auto. apply IH. lia. Qed.

Lemma set_nth_other {A} f g (v d : A) l : f <> g -> nth g (set_nth f v l) d = nth g l d.
Proof.
  revert g l. induction f as [|f IH]; intros [|g] [|x l]; cbn; intros H; auto; try lia.
Qed.

Section Loop.
Variable nd : nat.

Lemma order_loop_faces toks : forall fs i ord cnt,
  map (face_of_token nd) toks = map Some fs -> NoDup fs -> (forall f, In f fs -> f < List.length ord) ->
  let res := order_loop nd toks i (ord, cnt) in
  snd res = cnt + List.length fs /\ List.length (fst res) = List.length ord /\
  (forall k, k < List.length fs -> nth (nth k fs 0) (fst res) None = Some (i + k)) /\
  (forall f, ~ In f fs -> nth f (fst res) None = nth f ord None).
Proof.
  induction toks as [|w toks IH]; intros fs i ord cnt Hm Hnd Hlt; destruct fs as [|f fs];
    try discriminate; cbn [order_loop].
  - cbn. repeat split; auto; lia.
  - cbn [map] in Hm. injection Hm as Hf Hm. rewrite Hf. cbn [fst snd].
    inversion Hnd as [|? ? Hnot Hnd']; subst.
    destruct (IH fs (S i) (set_nth f (Some i) ord) (S cnt)) as (H1 & H2 & H3 & H4); auto.
    { intros g Hg. rewrite set_nth_length. apply Hlt. now right. }
    repeat split.
    + rewrite H1. cbn. lia.
    + rewrite H2. apply set_nth_length.
    + intros [|k] Hk; cbn [nth List.length] in *.
      * rewrite H4 by assumption. rewrite set_nth_same; [f_equal; lia|]. apply Hlt. now left.
      * cbn in Hk. rewrite H3 by lia. f_equal. lia.
    + intros g Hg. cbn in Hg. rewrite H4 by tauto. apply set_nth_other. intros ->. tauto.
Qed.

(** The counter counts recognised tokens. *)
Lemma order_loop_counter toks : forall i ord cnt,
  snd (order_loop nd toks i (ord, cnt))
  = cnt + List.length (filter (fun w => match face_of_token nd w with Some _ => true | None => false end) toks).
Proof.
  induction toks as [|w toks IH]; intros i ord cnt; cbn [order_loop]; [cbn; lia|].
  cbn [filter fst snd]. destruct (face_of_token nd w); rewrite IH; cbn [List.length]; lia.
Qed.

End Loop.

Lemma applied_order_some l : applied_order (map Some l) = Ok l.
Proof. induction l as [|f l IH]; cbn; [reflexivity|]. rewrite IH. reflexivity. Qed.

Lemma applied_order_inv o l : applied_order o = Ok l -> o = map Some l.
Proof.
  revert l. induction o as [|[f|] o IH]; cbn; intros l H; try discriminate.
  - now injection H as <-.
  - destruct (applied_order o) as [r| |]; cbn in H; try discriminate.
    injection H as <-. cbn. f_equal. now apply IH.
Qed.

(** The face list [l] is read off the priority string. *)
Definition listed (nd : nat) (prio : string) (l : list nat) : Prop :=
  prio <> "" /\ map (face_of_token nd) (firstn (2 * nd) (words prio)) = map Some l.

Lemma perm_length nd (l : list nat) : NoDup l -> (forall f, f < 2 * nd <-> In f l) -> List.length l = 2 * nd.
Proof.
  intros Hnd Hin.
  assert (H1 : List.length l <= List.length (seq 0 (2 * nd))).
  { apply NoDup_incl_length; [assumption|]. intros f Hf. apply in_seq. apply Hin in Hf. lia. }
  assert (H2 : List.length (seq 0 (2 * nd)) <= List.length l).
  { apply NoDup_incl_length; [apply seq_NoDup|]. intros f Hf. apply in_seq in Hf. apply Hin. lia. }
  rewrite seq_length in *. lia.
Qed.

Lemma generate_order_perm nd prio l : listed nd prio l -> NoDup l ->
  (forall f, f < 2 * nd <-> In f l) ->
  exists ord, generate_order nd prio = Ok (rev ord) /\ List.length ord = 2 * nd /\
    forall k, k < 2 * nd -> nth (nth k l 0) ord None = Some k.
Proof.
  intros [Hne Hl] Hnd Hin. pose proof (perm_length nd l Hnd Hin) as Hlen.
  unfold generate_order.
  destruct (String.eqb prio "") eqn:E; [apply String.eqb_eq in E; congruence|].
  destruct (order_loop nd (firstn (2 * nd) (words prio)) 0 (repeat None (2 * nd), 0)) as [ord cnt] eqn:Eo.
  pose proof (order_loop_faces nd _ l 0 (repeat None (2 * nd)) 0 Hl Hnd) as H.
  rewrite repeat_length in H. cbv zeta in H. rewrite Eo in H. cbn [fst snd] in H.
  destruct H as (H1 & H2 & H3 & H4).
  { intros f Hf. now apply Hin. }
  rewrite H1, Hlen. cbn [Nat.add]. rewrite Nat.eqb_refl.
  exists ord. split; [reflexivity|]. split; [assumption|].
  intros k Hk. apply H3. lia.
Qed.

(** The applied order is the reverse of the listing exactly when the listing, as a map from position
    to face, is its own inverse. *)
Lemma applied_iff_involutive nd prio l : listed nd prio l -> NoDup l ->
  (forall f, f < 2 * nd <-> In f l) ->
  (obind (generate_order nd prio) applied_order = Ok (rev l) <->
   forall k, k < 2 * nd -> nth (nth k l 0) l 0 = k).
Proof.
  intros Hl Hnd Hin. pose proof (perm_length nd l Hnd Hin) as Hlen.
  destruct (generate_order_perm nd prio l Hl Hnd Hin) as (ord & Eg & Hol & Hord).
  rewrite Eg. cbn [obind].
  assert (Hsome : forall k, k < 2 * nd -> nth k l 0 < 2 * nd).
  { intros k Hk. apply Hin. apply nth_In. lia. }
  split.
  - intros H k Hk. apply applied_order_inv in H. rewrite map_rev in H.
    apply (f_equal (@rev _)) in H. rewrite !rev_involutive in H. subst ord.
    specialize (Hord k Hk).
    rewrite (nth_indep _ None (Some 0)) in Hord by (rewrite map_length; specialize (Hsome k Hk); lia).
    rewrite map_nth in Hord. now injection Hord as ->.
  - intros H.
    assert (Eo : ord = map Some l).
    { apply (nth_ext _ _ None None); [rewrite map_length; lia|].
      intros f Hf. rewrite Hol in Hf.
      (* f = l(k) with k = l(f) *)
      specialize (Hord (nth f l 0) (Hsome f Hf)). rewrite (H f Hf) in Hord. rewrite Hord.
      rewrite (nth_indep _ None (Some 0)) by (rewrite map_length; lia).
      rewrite map_nth. reflexivity. }
    subst ord. rewrite <- map_rev. apply applied_order_some.
Qed.

Lemma generate_order_rejects nd prio : prio <> "" ->
  (exists w, In w (firstn (2 * nd) (words prio)) /\ face_of_token nd w = None)
  \/ List.length (words prio) < 2 * nd ->
  generate_order nd prio = Throw "boundary priority not fully defined !".
Proof.
  intros Hne Hbad. unfold generate_order.
  destruct (String.eqb prio "") eqn:E; [apply String.eqb_eq in E; congruence|].
  set (toks := firstn (2 * nd) (words prio)) in *.
  pose proof (order_loop_counter nd toks 0 (repeat None (2 * nd)) 0) as Hc.
  destruct (order_loop nd toks 0 (repeat None (2 * nd), 0)) as [ord cnt]. cbn [snd] in Hc.
  set (good := fun w => match face_of_token nd w with Some _ => true | None => false end) in *.
  assert (Hlt : List.length (filter good toks) < 2 * nd).
  { assert (Hle : List.length toks <= 2 * nd) by (unfold toks; rewrite firstn_length; lia).
    destruct Hbad as [(w & Hw & Hf)|Hs].
    - assert (List.length (filter good toks) < List.length toks); [|lia].
      assert (Hg : good w = false) by (unfold good; now rewrite Hf).
      clearbody toks good. clear - Hw Hg. induction toks as [|x toks IH]; [inversion Hw|].
      cbn. destruct Hw as [->|Hw].
      + rewrite Hg. assert (List.length (filter good toks) <= List.length toks); [|lia].
        clear. induction toks as [|y t IHt]; cbn; [lia|]. destruct (good y); cbn; lia.
      + specialize (IH Hw). destruct (good x); cbn; lia.
    - assert (List.length toks < 2 * nd) by (unfold toks; rewrite firstn_length; lia).
      assert (List.length (filter good toks) <= List.length toks); [|lia].
      clearbody toks. clear. induction toks as [|y t IHt]; cbn; [lia|]. destruct (good y); cbn; lia. }
  destruct (Nat.eqb cnt (2 * nd)) eqn:En; [|reflexivity].
  apply Nat.eqb_eq in En. lia.
Qed.

Lemma default_order nd : obind (generate_order nd "") applied_order = Ok (seq 0 (2 * nd)).
Proof. unfold generate_order. cbn [String.eqb obind]. apply applied_order_some. Qed.

Lemma face_names nd w f : face_of_token nd w = Some f <->
    In (w, f) (firstn (match nd with 0 | 1 => 2 | 2 => 4 | 3 => 6 | _ => 4 end)
      [("X_left", 0); ("X_right", 1); ("Y_left", 2); ("Y_right", 3); ("Z_left", 4); ("Z_right", 5)])%nat.
Proof.
  unfold face_of_token.
  destruct (String.eqb_spec w "X_left") as [->|H0];
  [|destruct (String.eqb_spec w "X_right") as [->|H1];
  [|destruct (String.eqb_spec w "Y_left") as [->|H2];
  [|destruct (String.eqb_spec w "Y_right") as [->|H3];
  [|destruct (String.eqb_spec w "Z_left") as [->|H4];
  [|destruct (String.eqb_spec w "Z_right") as [->|H5]]]]]];
  destruct nd as [|[|[|[|nd]]]]; cbn; split; intros H; try discriminate;
  repeat match goal with
  | H : Some _ = Some _ |- _ => injection H as <-; tauto
  | H : _ \/ _ |- _ => destruct H
  | H : (_, _) = (_, _) |- _ => injection H as ? ?; subst; try discriminate; try congruence; try tauto
  | H : False |- _ => contradiction
  end; try congruence.
Qed.
