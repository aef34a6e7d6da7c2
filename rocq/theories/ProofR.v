(** * Lemmas about finite sums and comparisons of reals. *)
From Coq Require Import Permutation.
From Verif Require Import Base RBase.
Local Open Scope R_scope.

Lemma vsum_ext n f g : (forall i, (i < n)%nat -> f i = g i) -> vsum n f = vsum n g.
Proof.
  induction n as [|n IH]; intros H; cbn; [reflexivity|].
  rewrite IH, H; auto.
Qed.

Lemma vsum_0 n f : (forall i, (i < n)%nat -> f i = 0) -> vsum n f = 0.
Proof.
  induction n as [|n IH]; intros H; cbn; [reflexivity|].
  rewrite IH, H; auto; lra.
Qed.

Lemma vsum_plus n f g : vsum n (fun i => f i + g i) = vsum n f + vsum n g.
Proof. induction n as [|n IH]; cbn; [lra|]. rewrite IH. lra. Qed.

Lemma vsum_minus n f g : vsum n (fun i => f i - g i) = vsum n f - vsum n g.
Proof. induction n as [|n IH]; cbn; [lra|]. rewrite IH. lra. Qed.

Lemma vsum_scal n a f : vsum n (fun i => a * f i) = a * vsum n f.
Proof. induction n as [|n IH]; cbn; [lra|]. rewrite IH. lra. Qed.

Lemma vsum_scal_r n a f : vsum n (fun i => f i * a) = vsum n f * a.
Proof. induction n as [|n IH]; cbn; [lra|]. rewrite IH. lra. Qed.

Lemma vsum_opp n f : vsum n (fun i => - f i) = - vsum n f.
Proof. induction n as [|n IH]; cbn; [lra|]. rewrite IH. lra. Qed.

Lemma vsum_le n f g : (forall i, (i < n)%nat -> f i <= g i) -> vsum n f <= vsum n g.
Proof.
  induction n as [|n IH]; intros H; cbn; [lra|].
  pose proof (H n ltac:(lia)). assert (vsum n f <= vsum n g) by (apply IH; auto). lra.
Qed.

Lemma vsum_nonneg n f : (forall i, (i < n)%nat -> 0 <= f i) -> 0 <= vsum n f.
Proof.
  intros H. replace 0 with (vsum n (fun _ => 0)).
  - now apply vsum_le.
  - apply vsum_0; auto.
Qed.

Lemma vsum_pos_term n f k : (forall i, (i < n)%nat -> 0 <= f i) -> (k < n)%nat -> f k <= vsum n f.
Proof.
  induction n as [|n IH]; intros H Hk; [lia|]. cbn.
  destruct (Nat.eq_dec k n) as [->|Hne].
  - assert (0 <= vsum n f) by (apply vsum_nonneg; auto). lra.
  - assert (f k <= vsum n f) by (apply IH; auto; lia). pose proof (H n ltac:(lia)). lra.
Qed.

Lemma vsum_single n f k :
  (k < n)%nat -> (forall i, (i < n)%nat -> i <> k -> f i = 0) -> vsum n f = f k.
Proof.
  induction n as [|n IH]; intros Hk H; [lia|]. cbn.
  destruct (Nat.eq_dec k n) as [->|Hne].
  - rewrite vsum_0; [lra|]. intros i Hi. apply H; lia.
  - rewrite IH; [|lia|auto]. rewrite (H n) by lia. lra.
Qed.

Lemma vsum_telescope n (f : nat -> R) : vsum n (fun i => f (S i) - f i) = f n - f 0%nat.
Proof. induction n as [|n IH]; cbn; [lra|]. rewrite IH. lra. Qed.

Lemma vsum_S_first n f : vsum (S n) f = f 0%nat + vsum n (fun i => f (S i)).
Proof.
  induction n as [|n IH]; [cbn; lra|].
  change (vsum (S (S n)) f) with (vsum (S n) f + f (S n)). rewrite IH. cbn. lra.
Qed.

Lemma vsum_swap n m (f : nat -> nat -> R) :
  vsum n (fun i => vsum m (fun j => f i j)) = vsum m (fun j => vsum n (fun i => f i j)).
Proof.
  induction n as [|n IH]; cbn.
  - symmetry. apply vsum_0. auto.
  - rewrite IH, <- vsum_plus. reflexivity.
Qed.

Lemma lsum_app {A} (f : A -> R) l1 l2 : lsum f (l1 ++ l2) = lsum f l1 + lsum f l2.
Proof. induction l1 as [|a l1 IH]; cbn; [lra|]. rewrite IH. lra. Qed.

Lemma lsum_ext {A} (f g : A -> R) l : (forall a, In a l -> f a = g a) -> lsum f l = lsum g l.
Proof.
  induction l as [|a l IH]; intros H; cbn; [reflexivity|].
  rewrite (H a) by now left. rewrite IH; auto. intros. apply H. now right.
Qed.

Lemma lsum_plus {A} (f g : A -> R) l : lsum (fun a => f a + g a) l = lsum f l + lsum g l.
Proof. induction l as [|a l IH]; cbn; [lra|]. rewrite IH. lra. Qed.

Lemma lsum_minus {A} (f g : A -> R) l : lsum (fun a => f a - g a) l = lsum f l - lsum g l.
Proof. induction l as [|a l IH]; cbn; [lra|]. rewrite IH. lra. Qed.

Lemma lsum_scal {A} k (f : A -> R) l : lsum (fun a => k * f a) l = k * lsum f l.
Proof. induction l as [|a l IH]; cbn; [lra|]. rewrite IH. lra. Qed.

Lemma lsum_map {A B} (g : A -> B) (f : B -> R) l : lsum f (map g l) = lsum (fun a => f (g a)) l.
Proof. induction l as [|a l IH]; cbn; [reflexivity|]. rewrite IH. reflexivity. Qed.

Lemma lsum_flat_map {A B} (g : A -> list B) (f : B -> R) l :
  lsum f (flat_map g l) = lsum (fun a => lsum f (g a)) l.
Proof. induction l as [|a l IH]; cbn; [reflexivity|]. rewrite lsum_app, IH. reflexivity. Qed.

Lemma lsum_0 {A} (f : A -> R) l : (forall a, In a l -> f a = 0) -> lsum f l = 0.
Proof.
  induction l as [|a l IH]; intros H; cbn; [reflexivity|].
  rewrite (H a) by now left. rewrite IH; [lra|]. intros. apply H. now right.
Qed.

Lemma lsum_swap {A B} (f : A -> B -> R) la lb :
  lsum (fun a => lsum (f a) lb) la = lsum (fun b => lsum (fun a => f a b) la) lb.
Proof.
  induction la as [|a la IH]; cbn.
  - symmetry. apply lsum_0. auto.
  - rewrite IH, <- lsum_plus. reflexivity.
Qed.

Lemma lsum_vsum {A} (f : A -> nat -> R) n l :
  lsum (fun a => vsum n (f a)) l = vsum n (fun d => lsum (fun a => f a d) l).
Proof.
  induction l as [|a l IH]; cbn.
  - symmetry. apply vsum_0. auto.
  - rewrite IH, <- vsum_plus. reflexivity.
Qed.

Lemma lsum_perm {A} (f : A -> R) l1 l2 : Permutation l1 l2 -> lsum f l1 = lsum f l2.
Proof. induction 1; cbn; lra. Qed.

Lemma lsum_nonneg {A} (f : A -> R) l : (forall a, In a l -> 0 <= f a) -> 0 <= lsum f l.
Proof.
  induction l as [|a l IH]; intros H; cbn; [lra|].
  pose proof (H a (or_introl eq_refl)).
  assert (0 <= lsum f l) by (apply IH; intros; apply H; now right). lra.
Qed.

Lemma lsum_le {A} (f g : A -> R) l : (forall a, In a l -> f a <= g a) -> lsum f l <= lsum g l.
Proof.
  induction l as [|a l IH]; intros H; cbn; [lra|].
  pose proof (H a (or_introl eq_refl)).
  assert (lsum f l <= lsum g l) by (apply IH; intros; apply H; now right). lra.
Qed.

Lemma lsum_seq (f : nat -> R) a n : lsum f (seq a n) = vsum n (fun i => f (a + i)%nat).
Proof.
  revert a. induction n as [|n IH]; intros a; [reflexivity|].
  rewrite vsum_S_first. cbn [seq lsum].
  replace (a + 0)%nat with a by lia. f_equal.
  rewrite IH. apply vsum_ext. intros i _. f_equal. lia.
Qed.

Lemma lsum_zrange (f : Z -> R) a b :
  lsum f (zrange a b) = vsum (Z.to_nat (b - a)) (fun i => f (a + Z.of_nat i)%Z).
Proof. unfold zrange. rewrite lsum_map, lsum_seq. reflexivity. Qed.

(** Telescoping over an integer interval. *)
Lemma lsum_zrange_telescope (f : Z -> R) a b : (a <= b)%Z ->
  lsum (fun i => f (i + 1)%Z - f i) (zrange a b) = f b - f a.
Proof.
  intros Hab. rewrite lsum_zrange.
  rewrite (vsum_ext _ _ (fun i => (fun n => f (a + Z.of_nat n)%Z) (S i)
                                  - (fun n => f (a + Z.of_nat n)%Z) i)).
  - rewrite (vsum_telescope _ (fun n => f (a + Z.of_nat n)%Z)). rewrite Z2Nat.id by lia.
    replace (a + (b - a))%Z with b by lia.
    replace (a + Z.of_nat 0)%Z with a by lia. reflexivity.
  - intros i _. cbn beta. rewrite Nat2Z.inj_succ. f_equal. f_equal. lia.
Qed.

Lemma rltb_true a b : rltb a b = true <-> a < b.
Proof. unfold rltb. destruct (Rlt_dec a b); split; intros; try discriminate; auto; lra. Qed.
Lemma rltb_false a b : rltb a b = false <-> b <= a.
Proof. unfold rltb. destruct (Rlt_dec a b); split; intros; try discriminate; auto; lra. Qed.
Lemma rleb_true a b : rleb a b = true <-> a <= b.
Proof. unfold rleb. destruct (Rle_dec a b); split; intros; try discriminate; auto; lra. Qed.
Lemma rleb_false a b : rleb a b = false <-> b < a.
Proof. unfold rleb. destruct (Rle_dec a b); split; intros; try discriminate; auto; lra. Qed.
