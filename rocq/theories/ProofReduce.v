(** * Sums, maxima and minima over all processes (C27, C32, C35). *)
From Coq Require Import Permutation.
From Verif Require Import Base RBase ModelMesh ModelGeom ModelBoundary ModelHydro ModelScheme ModelStep SpecBoundary SpecHydro SpecScheme SpecStep
  ProofBase ProofMesh ProofR ProofScheme.
Local Open Scope R_scope.

(** ** max_list, min_list *)
Lemma max_list_some l v : max_list l = Some v <-> In v l /\ (forall x, In x l -> x <= v).
Proof.
  revert v. induction l as [|x l IH]; intros v; cbn [max_list].
  - split; [discriminate|intros [[] _]].
  - destruct (max_list l) as [y|] eqn:E.
    + destruct (proj1 (IH y) eq_refl) as [Hy Hmax]. split.
      * intros [= <-]. split.
        { unfold Rmax. destruct (Rle_dec x y); [right; assumption|left; reflexivity]. }
        intros z [<-|Hz]; [apply Rmax_l|]. eapply Rle_trans; [now apply Hmax|apply Rmax_r].
      * intros [Hv Hm]. f_equal. apply Rle_antisym.
        { apply Rmax_lub; [apply Hm; now left|apply Hm; now right]. }
        destruct Hv as [<-|Hv]; [apply Rmax_l|]. eapply Rle_trans; [now apply Hmax|apply Rmax_r].
    + assert (El : l = []).
      { destruct l as [|z l]; [reflexivity|]. cbn in E. destruct (max_list l); discriminate. }
      subst l. split.
      * intros [= <-]. split; [now left|]. intros z [<-|[]]. lra.
      * intros [[<-|[]] _]. reflexivity.
Qed.
Lemma max_list_none l : max_list l = None <-> l = [].
Proof. destruct l as [|x l]; cbn; [tauto|]. destruct (max_list l); split; discriminate. Qed.

Lemma max_list_same l l' : (forall x, In x l <-> In x l') -> max_list l = max_list l'.
Proof.
  intros H. destruct (max_list l) as [v|] eqn:E.
  - symmetry. apply max_list_some. apply max_list_some in E. destruct E as [E1 E2]. split; [now apply H|].
    intros x Hx. apply E2. now apply H.
  - symmetry. apply max_list_none. apply max_list_none in E. subst l. destruct l' as [|x l']; [reflexivity|].
    exfalso. apply (proj2 (H x)). now left.
Qed.

Lemma min_list_max l : min_list l = option_map Ropp (max_list (map Ropp l)).
Proof.
  induction l as [|x l IH]; cbn [min_list max_list map]; [reflexivity|]. rewrite IH.
  destruct (max_list (map Ropp l)) as [y|]; cbn; f_equal; [|ring].
  unfold Rmin, Rmax. destruct (Rle_dec x (- y)), (Rle_dec (- x) y); lra.
Qed.
Lemma min_list_same l l' : (forall x, In x l <-> In x l') -> min_list l = min_list l'.
Proof.
  intros H. rewrite !min_list_max. f_equal. apply max_list_same. intros x. rewrite !in_map_iff.
  split; intros (y & Hy & Hi); exists y; (split; [assumption|now apply H]).
Qed.
Lemma min_list_some l v : min_list l = Some v <-> In v l /\ (forall x, In x l -> v <= x).
Proof.
  rewrite min_list_max. destruct (max_list (map Ropp l)) as [w|] eqn:E; cbn.
  - apply max_list_some in E. destruct E as [E1 E2]. apply in_map_iff in E1. destruct E1 as (x & <- & Hx).
    assert (Hmin : forall y, In y l -> x <= y).
    { intros y Hy. assert (- y <= - x) by (apply E2, in_map_iff; eauto). lra. }
    split.
    + intros [= <-]. rewrite Ropp_involutive. split; assumption.
    + intros [Hv Hm]. f_equal. pose proof (Hmin v Hv). pose proof (Hm x Hx). lra.
  - apply max_list_none in E. destruct l; [|discriminate]. split; [discriminate|intros [[] _]].
Qed.

(** Every way of combining the values gives the same maximum, minimum or sum. *)
Lemma reduction_max l v : reduction Rmax l v -> max_list l = Some v.
Proof.
  induction 1 as [x|l l1 l2 a b Hp _ IH1 _ IH2].
  - reflexivity.
  - apply max_list_some in IH1, IH2. destruct IH1 as [A1 A2], IH2 as [B1 B2]. apply max_list_some. split.
    + apply (Permutation_in _ (Permutation_sym Hp)). apply in_or_app.
      unfold Rmax. destruct (Rle_dec a b); [now right|now left].
    + intros x Hx. apply (Permutation_in _ Hp) in Hx. apply in_app_or in Hx. destruct Hx as [Hx|Hx].
      * eapply Rle_trans; [now apply A2|apply Rmax_l].
      * eapply Rle_trans; [now apply B2|apply Rmax_r].
Qed.
Lemma reduction_min l v : reduction Rmin l v -> min_list l = Some v.
Proof.
  induction 1 as [x|l l1 l2 a b Hp _ IH1 _ IH2].
  - reflexivity.
  - apply min_list_some in IH1, IH2. destruct IH1 as [A1 A2], IH2 as [B1 B2]. apply min_list_some. split.
    + apply (Permutation_in _ (Permutation_sym Hp)). apply in_or_app.
      unfold Rmin. destruct (Rle_dec a b); [now left|now right].
    + intros x Hx. apply (Permutation_in _ Hp) in Hx. apply in_app_or in Hx. destruct Hx as [Hx|Hx].
      * eapply Rle_trans; [apply Rmin_l|now apply A2].
      * eapply Rle_trans; [apply Rmin_r|now apply B2].
Qed.
Lemma reduction_sum l v : reduction Rplus l v -> lsum (fun x => x) l = v.
Proof.
  induction 1 as [x|l l1 l2 a b Hp _ IH1 _ IH2]; cbn; [ring|].
  rewrite (lsum_perm _ _ _ Hp), lsum_app, IH1, IH2. reflexivity.
Qed.

(** ** Sums over consecutive blocks *)
Lemma zrange_split a b c : (a <= b <= c)%Z -> zrange a c = zrange a b ++ zrange b c.
Proof.
  intros H. unfold zrange. replace (Z.to_nat (c - a)) with (Z.to_nat (b - a) + Z.to_nat (c - b))%nat by lia.
  rewrite seq_app, map_app. f_equal. rewrite <- (Nat.add_0_r (0 + Z.to_nat (b - a))), Nat.add_comm.
  generalize (Z.to_nat (c - b)). intros n.
  assert (G : forall n s, map (fun i => (a + Z.of_nat i)%Z) (seq (s + Z.to_nat (b - a)) n)
                 = map (fun i => (b + Z.of_nat i)%Z) (seq s n)).
  { clear n. induction n as [|n IH]; intros s; cbn [seq map]; [reflexivity|]. f_equal; [lia|]. apply (IH (S s)). }
  exact (G n 0%nat).
Qed.
Lemma lsum_zrange_shift (f : Z -> R) o a b : lsum (fun i => f (o + i)%Z) (zrange a b) = lsum f (zrange (o + a) (o + b)).
Proof.
  unfold zrange. rewrite !lsum_map. replace (o + b - (o + a))%Z with (b - a)%Z by lia.
  apply lsum_ext. intros n _. f_equal. lia.
Qed.
Lemma zrange_empty a b : (b <= a)%Z -> zrange a b = [].
Proof. intros H. unfold zrange. replace (Z.to_nat (b - a)) with 0%nat by lia. reflexivity. Qed.

(** Blocks starting at [cm x] with [nl x] entries, x = 0 .. p-1, cover [0, N). *)
Lemma block_sum (f : Z -> R) (cm nl : Z -> Z) g p :
  (0 <= p)%Z -> cm 0%Z = 0%Z -> (forall x, (0 <= x < p)%Z -> cm (x + 1)%Z = (cm x + nl x)%Z /\ (0 <= nl x)%Z) ->
  lsum (fun x => lsum (fun j => f (cm x + j)%Z) (zrange g (g + nl x))) (zrange 0 p)
  = lsum f (zrange g (g + cm p)).
Proof.
  intros Hp H0 Hs.
  assert (G : forall n, (Z.of_nat n <= p)%Z -> (0 <= cm (Z.of_nat n))%Z /\
    lsum (fun x => lsum (fun j => f (cm x + j)%Z) (zrange g (g + nl x))) (zrange 0 (Z.of_nat n))
    = lsum f (zrange g (g + cm (Z.of_nat n)))).
  { induction n as [|n IH]; intros Hn.
    - cbn [Z.of_nat]. rewrite H0, Z.add_0_r, !zrange_empty by lia. split; [lia|reflexivity].
    - destruct (IH ltac:(lia)) as [IH1 IH2]. destruct (Hs (Z.of_nat n) ltac:(lia)) as [S1 S2].
      replace (Z.of_nat (S n)) with (Z.of_nat n + 1)%Z by lia. rewrite S1. split; [lia|].
      rewrite (zrange_split 0 (Z.of_nat n)) by lia. rewrite lsum_app, IH2.
      rewrite zrange_one. cbn [lsum]. rewrite Rplus_0_r, lsum_zrange_shift, <- lsum_app.
      replace (cm (Z.of_nat n) + g)%Z with (g + cm (Z.of_nat n))%Z by lia.
      replace (cm (Z.of_nat n) + (g + nl (Z.of_nat n)))%Z with (g + (cm (Z.of_nat n) + nl (Z.of_nat n)))%Z by lia.
      rewrite <- zrange_split by lia. reflexivity. }
  destruct (G (Z.to_nat p) ltac:(lia)) as [_ H]. now rewrite Z2Nat.id in H by lia.
Qed.

(** ... in three directions. *)
Lemma block_sum3 (f : idx -> R) (cm nl : nat -> Z -> Z) (g p : idx) :
  (forall d, (d < 3)%nat -> (0 <= coord d p)%Z /\ cm d 0%Z = 0%Z /\
     forall x, (0 <= x < coord d p)%Z -> cm d (x + 1)%Z = (cm d x + nl d x)%Z /\ (0 <= nl d x)%Z) ->
  lsum (fun r => lsum (fun c => f (iadd (mk3 (fun d => cm d (coord d r))) c))
                      (box_cells g (mk3 (fun d => (coord d g + nl d (coord d r))%Z))))
       (box_cells (I3 0 0 0) p)
  = lsum f (box_cells g (mk3 (fun d => (coord d g + cm d (coord d p))%Z))).
Proof.
  intros H. destruct (H 0%nat ltac:(lia)) as (P0 & Z0 & S0). destruct (H 1%nat ltac:(lia)) as (P1 & Z1 & S1).
  destruct (H 2%nat ltac:(lia)) as (P2 & Z2 & S2). clear H.
  destruct g as [gi gj gk], p as [pi pj pk]. cbn [coord ii jj kk] in *.
  rewrite !lsum_box. cbn [ii jj kk mk3 coord].
  (* inner sums written out *)
  rewrite <- (block_sum (fun k => lsum (fun j => lsum (fun i => f (I3 i j k)) (zrange gi (gi + cm 0%nat pi))) (zrange gj (gj + cm 1%nat pj)))
                (cm 2%nat) (nl 2%nat) gk pk P2 Z2 S2).
  apply lsum_ext. intros z _.
  transitivity (lsum (fun y => lsum (fun k => lsum (fun j => lsum (fun i => f (I3 i (cm 1%nat y + j) (cm 2%nat z + k)))
                     (zrange gi (gi + cm 0%nat pi))) (zrange gj (gj + nl 1%nat y))) (zrange gk (gk + nl 2%nat z))) (zrange 0 pj)).
  - apply lsum_ext. intros y _.
    transitivity (lsum (fun x => lsum (fun k => lsum (fun j => lsum (fun i => f (I3 (cm 0%nat x + i) (cm 1%nat y + j) (cm 2%nat z + k)))
                     (zrange gi (gi + nl 0%nat x))) (zrange gj (gj + nl 1%nat y))) (zrange gk (gk + nl 2%nat z))) (zrange 0 pi)).
    + apply lsum_ext. intros x _. rewrite lsum_box. reflexivity.
    + rewrite lsum_swap. apply lsum_ext. intros k _. rewrite lsum_swap. apply lsum_ext. intros j _.
      apply (block_sum (fun i => f (I3 i (cm 1%nat y + j) (cm 2%nat z + k))) (cm 0%nat) (nl 0%nat) gi pi P0 Z0 S0).
  - rewrite lsum_swap. apply lsum_ext. intros k _.
    apply (block_sum (fun j => lsum (fun i => f (I3 i j (cm 2%nat z + k))) (zrange gi (gi + cm 0%nat pi))) (cm 1%nat) (nl 1%nat) gj pj P1 Z1 S1).
Qed.
