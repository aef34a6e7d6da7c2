(** * Lemmas about the shared vocabulary. *)
From Verif Require Import Base.
From Coq Require Import ZifyBool ZifyNat FinFun.
Local Open Scope Z_scope.

Lemma idx_eta (c : idx) : I3 (ii c) (jj c) (kk c) = c.
Proof. now destruct c. Qed.

Lemma idx_ext (a b : idx) :
  (forall d, (d < 3)%nat -> coord d a = coord d b) -> a = b.
Proof.
  intros H. destruct a as [a0 a1 a2], b as [b0 b1 b2].
  pose proof (H 0%nat ltac:(lia)) as H0. pose proof (H 1%nat ltac:(lia)) as H1.
  pose proof (H 2%nat ltac:(lia)) as H2. cbn in *. now subst.
Qed.

Lemma coord_mk3 (f : nat -> Z) (d : nat) : (d < 3)%nat -> coord d (mk3 f) = f d.
Proof. intros Hd. destruct d as [|[|[|d]]]; cbn; try reflexivity; lia. Qed.

Lemma coord_set_same (d : nat) (v : Z) (c : idx) : coord d (set_coord d v c) = v.
Proof. destruct d as [|[|d]]; reflexivity. Qed.

Lemma coord_set_other (d e : nat) (v : Z) (c : idx) :
  (d < 3)%nat -> (e < 3)%nat -> d <> e -> coord e (set_coord d v c) = coord e c.
Proof.
  intros Hd He Hne.
  destruct d as [|[|[|d]]]; destruct e as [|[|[|e]]]; cbn; try reflexivity; lia.
Qed.

Lemma forall3 (P : nat -> Prop) :
  (forall d, (d < 3)%nat -> P d) <-> P 0%nat /\ P 1%nat /\ P 2%nat.
Proof.
  split.
  - intros H. repeat split; apply H; lia.
  - intros (H0 & H1 & H2) d Hd. destruct d as [|[|[|d]]]; auto; lia.
Qed.

Lemma in_boxb_spec (b e c : idx) : in_boxb b e c = true <-> in_box b e c.
Proof. unfold in_boxb, in_box. rewrite !andb_true_iff, !Z.leb_le, !Z.ltb_lt. tauto. Qed.

Lemma in_box_coord (b e c : idx) :
  in_box b e c <-> forall d, (d < 3)%nat -> coord d b <= coord d c < coord d e.
Proof. rewrite (forall3 (fun d => coord d b <= coord d c < coord d e)). unfold in_box. reflexivity. Qed.

Lemma idx_eqb_spec (a b : idx) : idx_eqb a b = true <-> a = b.
Proof.
  unfold idx_eqb. rewrite !andb_true_iff, !Z.eqb_eq. destruct a, b; cbn. split.
  - intros [[-> ->] ->]. reflexivity.
  - intros H; inversion H; auto.
Qed.

Lemma in_zrange (a b x : Z) : In x (zrange a b) <-> a <= x < b.
Proof.
  unfold zrange. rewrite in_map_iff. split.
  - intros (n & <- & Hn). apply in_seq in Hn. lia.
  - intros H. exists (Z.to_nat (x - a)). split; [lia|]. apply in_seq. lia.
Qed.

Lemma NoDup_zrange (a b : Z) : NoDup (zrange a b).
Proof.
  unfold zrange. apply Injective_map_NoDup; [|apply seq_NoDup].
  intros x y H. lia.
Qed.

Lemma in_box_cells (b e c : idx) : In c (box_cells b e) <-> in_box b e c.
Proof.
  unfold box_cells, in_box. rewrite in_flat_map. split.
  - intros (k & Hk & H). apply in_flat_map in H. destruct H as (j & Hj & H).
    apply in_map_iff in H. destruct H as (i & <- & Hi).
    apply in_zrange in Hi, Hj, Hk. cbn. auto.
  - intros (Hi & Hj & Hk). exists (kk c). split; [now apply in_zrange|].
    apply in_flat_map. exists (jj c). split; [now apply in_zrange|].
    apply in_map_iff. exists (ii c). split; [apply idx_eta|now apply in_zrange].
Qed.

Lemma NoDup_flat_map_disjoint {A B : Type} (f : A -> list B) (l : list A) :
  NoDup l -> (forall a, In a l -> NoDup (f a)) ->
  (forall a a' x, In a l -> In a' l -> In x (f a) -> In x (f a') -> a = a') ->
  NoDup (flat_map f l).
Proof.
  induction l as [|a l IH]; cbn; intros Hnd Hf Hdisj; [constructor|].
  inversion Hnd as [|? ? Ha Hl]; subst.
  assert (Hrest : NoDup (flat_map f l)).
  { apply IH; auto. intros; eapply Hdisj; eauto. }
  assert (Hout : forall x, In x (f a) -> ~ In x (flat_map f l)).
  { intros x Hx Hx'. apply in_flat_map in Hx'. destruct Hx' as (a' & Ha' & Hxa').
    assert (a = a') by (eapply Hdisj; eauto). subst. contradiction. }
  assert (Hfa : NoDup (f a)) by auto.
  clear IH Hf Hdisj. induction (f a) as [|x xs IHx]; cbn; [assumption|].
  inversion Hfa; subst. constructor.
  - rewrite in_app_iff. intros [H|H]; [contradiction|]. apply (Hout x); cbn; auto.
  - apply IHx; auto. intros y Hy. apply Hout. now right.
Qed.

Lemma NoDup_box_cells (b e : idx) : NoDup (box_cells b e).
Proof.
  unfold box_cells. apply NoDup_flat_map_disjoint.
  - apply NoDup_zrange.
  - intros k _. apply NoDup_flat_map_disjoint.
    + apply NoDup_zrange.
    + intros j _. apply Injective_map_NoDup; [|apply NoDup_zrange].
      intros x y H. congruence.
    + intros j j' x _ _ H H'. apply in_map_iff in H, H'.
      destruct H as (? & <- & _). destruct H' as (? & H' & _). congruence.
  - intros k k' x _ _ H H'. apply in_flat_map in H, H'.
    destruct H as (? & _ & H). destruct H' as (? & _ & H').
    apply in_map_iff in H, H'.
    destruct H as (? & <- & _). destruct H' as (? & H' & _). congruence.
Qed.
