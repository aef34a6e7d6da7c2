(** * Proofs about the small functions of ModelSmall. *)
From Coq Require Import Reals Lra Lia ZArith List Permutation Ascii String.
From Verif Require Import Base RBase ModelMesh ModelGeom ModelHydro ModelUtil ModelStep ModelSmall ProofBase ProofMesh ProofR.
Import ListNotations.
Local Open Scope Z_scope.

Lemma is_valid_spec rho P :
  is_valid rho P = true <-> exists a b, rho = XR a /\ P = XR b /\ (0 < a)%R /\ (0 < b)%R.
Proof.
  unfold is_valid. destruct rho as [a|s|], P as [b|t|]; cbn [xfinite xgtb].
  all: try (rewrite ?Bool.andb_false_r; cbn; split; [intros H; rewrite ?Bool.andb_false_r in H; discriminate|intros (a0 & b0 & H1 & H2 & _); discriminate]).
  destruct (Rlt_dec 0 a), (Rlt_dec 0 b); cbn.
  - split; [|reflexivity]. intros _. exists a, b. auto.
  - split; [discriminate|]. intros (a0 & b0 & H1 & H2 & ? & ?). injection H1 as ->. injection H2 as ->. contradiction.
  - split; [discriminate|]. intros (a0 & b0 & H1 & H2 & ? & ?). injection H1 as ->. injection H2 as ->. contradiction.
  - split; [discriminate|]. intros (a0 & b0 & H1 & H2 & ? & ?). injection H1 as ->. injection H2 as ->. contradiction.
Qed.

(** ** Lines of parameters *)

Lemma app_assoc_s a b c : ((a ++ b) ++ c = a ++ b ++ c)%string.
Proof. induction a as [|x a IH]; cbn; [reflexivity|now rewrite IH]. Qed.
Lemma app_nil_s a : (a ++ "" = a)%string.
Proof. induction a as [|x a IH]; cbn; [reflexivity|now rewrite IH]. Qed.
Lemma app_len a b : String.length (a ++ b) = (String.length a + String.length b)%nat.
Proof. induction a as [|x a IH]; cbn; [reflexivity|now rewrite IH]. Qed.
Lemma fill_len c n : String.length (fill c n) = n.
Proof. induction n as [|n IH]; cbn; [reflexivity|now rewrite IH]. Qed.
Lemma fill_add c n m : (fill c n ++ fill c m = fill c (n + m))%string.
Proof. induction n as [|n IH]; cbn; [reflexivity|now rewrite IH]. Qed.

Lemma print_info_text name value :
  print_info name value
  = (name ++ fill "." ((40 - String.length name) + (40 - String.length value)) ++ value ++ newline)%string.
Proof.
  unfold print_info, put_left, put_right, fill_width. rewrite !app_assoc_s, <- fill_add, !app_assoc_s. reflexivity.
Qed.
Lemma print_info_len name value :
  String.length (print_info name value)
  = (Nat.max 40 (String.length name) + Nat.max 40 (String.length value) + 1)%nat.
Proof.
  rewrite print_info_text, !app_len, fill_len. change (String.length newline) with 1%nat. lia.
Qed.

Lemma app_inv_len a a' b b' : String.length a = String.length a' -> (a ++ b = a' ++ b')%string -> a = a' /\ b = b'.
Proof.
  revert a'. induction a as [|x a IH]; intros [|x' a']; cbn; intros L E; try discriminate L.
  - auto.
  - injection E as -> E. injection L as L. destruct (IH a' L E) as (-> & ->). auto.
Qed.

(** The last character is not a dot, the first one is not. *)
Definition no_dot_end (s : string) : Prop := forall p, s <> (p ++ ".")%string.
Definition no_dot_start (s : string) : Prop := forall p, s <> ("." ++ p)%string.

Lemma fill_snoc c n : fill c (S n) = (fill c n ++ String c EmptyString)%string.
Proof. induction n as [|n IH]; [reflexivity|]. exact (f_equal (String c) IH). Qed.

Lemma pad_left_inj a b n m : no_dot_end a -> no_dot_end b -> (a ++ fill "." n = b ++ fill "." m)%string -> a = b.
Proof.
  revert m. induction n as [|n IH]; intros [|m] Ha Hb E.
  - cbn [fill] in E. rewrite !app_nil_s in E. exact E.
  - exfalso. cbn [fill] in E. change (String "." (fill "." m)) with (fill "." (S m)) in E. rewrite app_nil_s, fill_snoc, <- app_assoc_s in E. exact (Ha _ E).
  - exfalso. cbn [fill] in E. change (String "." (fill "." n)) with (fill "." (S n)) in E. rewrite app_nil_s, fill_snoc, <- app_assoc_s in E. exact (Hb _ (eq_sym E)).
  - apply (IH m Ha Hb). rewrite !fill_snoc, <- !app_assoc_s in E.
    refine (proj1 (app_inv_len _ _ _ _ _ E)).
    apply (f_equal String.length) in E. rewrite !app_len in E. cbn in E. rewrite !app_len. lia.
Qed.
Lemma pad_right_inj a b n m : no_dot_start a -> no_dot_start b -> (fill "." n ++ a = fill "." m ++ b)%string -> a = b.
Proof.
  revert m. induction n as [|n IH]; intros [|m] Ha Hb E; cbn in E.
  - exact E.
  - exfalso. exact (Ha _ E).
  - exfalso. exact (Hb _ (eq_sym E)).
  - injection E as E. exact (IH m Ha Hb E).
Qed.

Lemma print_info_inj n1 v1 n2 v2 :
  (String.length n1 <= 40)%nat -> (String.length n2 <= 40)%nat ->
  no_dot_end n1 -> no_dot_end n2 -> no_dot_start v1 -> no_dot_start v2 ->
  print_info n1 v1 = print_info n2 v2 -> n1 = n2 /\ v1 = v2.
Proof.
  intros L1 L2 A1 A2 B1 B2 E. unfold print_info, put_left, put_right, fill_width in E.
  apply app_inv_len in E; [|rewrite !app_len, !fill_len; lia]. destruct E as (E1 & E2).
  split; [exact (pad_left_inj _ _ _ _ A1 A2 E1)|].
  apply app_inv_len in E2.
  - exact (pad_right_inj _ _ _ _ B1 B2 (proj1 E2)).
  - apply (f_equal String.length) in E2. rewrite !(app_len _ newline) in E2. lia.
Qed.

(** ** Extents *)

Lemma equal_extents_spec idx v0 vs :
  equal_extents idx v0 vs = true <-> forall i v, In i idx -> In v vs -> extent v i = extent v0 i.
Proof.
  unfold equal_extents, equal_extent. rewrite forallb_forall. split.
  - intros H i v Hi Hv. specialize (H i Hi). rewrite forallb_forall in H. specialize (H v Hv).
    apply Z.eqb_eq in H. congruence.
  - intros H i Hi. apply forallb_forall. intros v Hv. apply Z.eqb_eq. symmetry. auto.
Qed.
Lemma equal_extents_array_spec idx vs :
  equal_extents_array idx vs = true <-> forall i v w, In i idx -> In v vs -> In w vs -> extent v i = extent w i.
Proof.
  unfold equal_extents_array, equal_extent_array. rewrite forallb_forall. split.
  - intros H i v w Hi Hv Hw. specialize (H i Hi). rewrite forallb_forall in H.
    pose proof (H v Hv) as H1. pose proof (H w Hw) as H2. apply Z.eqb_eq in H1, H2. congruence.
  - intros H i Hi. apply forallb_forall. intros v Hv. apply Z.eqb_eq. destruct vs as [|w vs]; [destruct Hv|].
    apply H; cbn; auto.
Qed.
Lemma equal_extents_both idx v0 vs : equal_extents_array idx (v0 :: vs) = equal_extents idx v0 vs.
Proof.
  apply Bool.eq_true_iff_eq. rewrite equal_extents_spec, equal_extents_array_spec. split.
  - intros H i v Hi Hv. apply H; cbn; auto.
  - intros H i v w Hi Hv Hw.
    assert (W : forall u, In u (v0 :: vs) -> extent u i = extent v0 i) by (intros u [->|Hu]; [reflexivity|auto]).
    rewrite (W v Hv), (W w Hw). reflexivity.
Qed.
Lemma equal_extents_perm idx vs ws : Permutation vs ws -> equal_extents_array idx vs = equal_extents_array idx ws.
Proof.
  intros P. apply Bool.eq_true_iff_eq. rewrite !equal_extents_array_spec. split; intros H i v w Hi Hv Hw; apply H; auto.
  - apply (Permutation_in _ (Permutation_sym P)); auto.
  - apply (Permutation_in _ (Permutation_sym P)); auto.
  - apply (Permutation_in _ P); auto.
  - apply (Permutation_in _ P); auto.
Qed.

(** ** Blocks *)

Lemma blocks_from_ok fuel : forall front last block,
  front <= last -> (front < last -> 1 <= block <= last - front) -> last - front <= Z.of_nat fuel ->
  exists l, blocks_from fuel front last block = Some l /\
    (forall b, In b l -> front <= fst b < snd b /\ snd b <= last /\ snd b - fst b <= block) /\
    (forall x, front <= x < last -> exists b, In b l /\ fst b <= x < snd b) /\
    (forall b b' x, In b l -> In b' l -> fst b <= x < snd b -> fst b' <= x < snd b' -> b = b').
Proof.
  induction fuel as [|k IH]; intros front last block Hf Hb Hn; cbn [blocks_from].
  - assert (front = last) by lia. subst last. rewrite Z.eqb_refl. exists []. split; [reflexivity|].
    split; [intros b []|]. split; [intros x Hx; lia|intros b b' x []].
  - destruct (Z.eqb_spec front last) as [->|N].
    + exists []. split; [reflexivity|]. split; [intros b []|]. split; [intros x Hx; lia|intros b b' x []].
    + assert (B : 1 <= block <= last - front) by (apply Hb; lia).
      set (front' := front + block). set (block' := if last <? front' + block then last - front' else block).
      assert (B' : block' <= block /\ (front' < last -> 1 <= block' <= last - front')).
      { unfold block'. destruct (Z.ltb_spec last (front' + block)); unfold front' in *; lia. }
      destruct (IH front' last block') as (l & E & H1 & H2 & H3); [unfold front'; lia|exact (proj2 B')|unfold front'; lia|].
      rewrite E. exists ((front, front') :: l). split; [reflexivity|]. split; [|split].
      * intros b [<-|Hb']; cbn [fst snd]; [unfold front'; lia|]. specialize (H1 b Hb'). unfold front' in *. lia.
      * intros x Hx. destruct (Z_lt_le_dec x front') as [Hl|Hl].
        -- exists (front, front'). split; [now left|cbn [fst snd]; lia].
        -- destruct (H2 x) as (b & Hb' & Hx'); [lia|]. exists b. split; [now right|exact Hx'].
      * intros b b' x [<-|Hi] [<-|Hi'] X X'; cbn [fst snd] in *; [reflexivity| | |eauto].
        -- specialize (H1 b' Hi'). lia.
        -- specialize (H1 b Hi). lia.
Qed.

Lemma blocks_ok size block fuel : 0 <= size -> 1 <= block -> size <= Z.of_nat fuel ->
  exists l, blocks fuel size block = Some l /\
    (forall b, In b l -> 0 <= fst b < snd b /\ snd b <= size /\ snd b - fst b <= block) /\
    (forall x, 0 <= x < size -> exists b, In b l /\ fst b <= x < snd b) /\
    (forall b b' x, In b l -> In b' l -> fst b <= x < snd b -> fst b' <= x < snd b' -> b = b').
Proof.
  intros Hs Hb Hf. unfold blocks.
  destruct (blocks_from_ok fuel 0 size (Z.min block (size - 0))) as (l & E & H1 & H2 & H3); [lia|lia|lia|].
  exists l. split; [exact E|]. split; [|split; assumption]. intros b Hi. specialize (H1 b Hi). lia.
Qed.

Lemma blocks_never size block : 0 < size -> block <= 0 -> forall fuel, blocks fuel size block = None.
Proof.
  intros Hs Hb fuel. unfold blocks. rewrite Z.min_l by lia.
  assert (W : forall k front, front <= 0 -> blocks_from k front size block = None).
  { induction k as [|k IH]; intros front Hf; cbn [blocks_from]; (destruct (Z.eqb_spec front size) as [E|_]; [lia|]).
    - reflexivity.
    - destruct (Z.ltb_spec size (front + block + block)); [lia|]. rewrite IH by lia. reflexivity. }
  apply W. lia.
Qed.

Definition shift_by (b0 b1 b2 : Z * Z) (c : idx) : idx := I3 (fst b0 + ii c) (fst b1 + jj c) (fst b2 + kk c).

Lemma part_cells nd ng cmin cmax r : make_range nd cmin cmax ng = Ok r -> 0 <= ng ->
  exists r0, no_ghosts r = Ok r0 /\ forall c, In c (cells_of nd r0) <->
    forall d, (d < 3)%nat ->
      (if Nat.ltb d nd then ng else 0) <= coord d c < (if Nat.ltb d nd then ng else 0) + (coord d cmax - coord d cmin).
Proof.
  intros H Hn. destruct (proj1 (no_all_ghosts_cells nd cmin cmax ng r H Hn)) as (r0 & E & W). exists r0. split; [exact E|].
  intros c. rewrite W. split; intros X d Hd; specialize (X d Hd); destruct (Nat.ltb d nd); exact X.
Qed.

Lemma range_ok nd cmin cmax ng : (forall d, (d < 3)%nat -> 0 <= coord d cmin <= coord d cmax) -> exists r, make_range nd cmin cmax ng = Ok r.
Proof.
  intros H. destruct (make_range_not_ub nd cmin cmax ng) as [X|X]; [exact X|].
  apply (proj1 (make_range_throw_iff nd cmin cmax ng)) in X. destruct X as (d & Hd & X). specialize (H d Hd). lia.
Qed.

Lemma coord3 (P : nat -> Prop) : (forall d, (d < 3)%nat -> P d) <-> P 0%nat /\ P 1%nat /\ P 2%nat.
Proof.
  split; [intros H; repeat split; apply H; lia|]. intros (A & B & C) [|[|[|d]]] H; auto; lia.
Qed.

Lemma blocks_cover nd ng (N : idx) (B : idx) fuel :
  0 <= ng -> (forall d, (d < 3)%nat -> 0 <= coord d N /\ 1 <= coord d B /\ coord d N <= Z.of_nat fuel) ->
  exists l0 l1 l2 r r0,
    blocks fuel (ii N) (ii B) = Some l0 /\ blocks fuel (jj N) (jj B) = Some l1 /\ blocks fuel (kk N) (kk B) = Some l2 /\
    make_range nd (I3 0 0 0) N ng = Ok r /\ no_ghosts r = Ok r0 /\
    (forall b0 b1 b2, In b0 l0 -> In b1 l1 -> In b2 l2 -> exists q q0,
       make_range_of nd b0 b1 b2 ng = Ok q /\ no_ghosts q = Ok q0 /\
       forall c, In c (cells_of nd q0) -> In (shift_by b0 b1 b2 c) (cells_of nd r0)) /\
    (forall e, In e (cells_of nd r0) ->
       exists b0 b1 b2 q q0 c, In b0 l0 /\ In b1 l1 /\ In b2 l2 /\
         make_range_of nd b0 b1 b2 ng = Ok q /\ no_ghosts q = Ok q0 /\ In c (cells_of nd q0) /\ e = shift_by b0 b1 b2 c /\
         forall b0' b1' b2' q' q0' c', In b0' l0 -> In b1' l1 -> In b2' l2 ->
           make_range_of nd b0' b1' b2' ng = Ok q' -> no_ghosts q' = Ok q0' -> In c' (cells_of nd q0') ->
           e = shift_by b0' b1' b2' c' -> b0' = b0 /\ b1' = b1 /\ b2' = b2 /\ c' = c).
Proof.
  intros Hg H. apply coord3 in H. cbn [coord] in H. destruct H as ((N0 & B0 & F0) & (N1 & B1 & F1) & (N2 & B2 & F2)).
  destruct (blocks_ok _ _ fuel N0 B0 F0) as (l0 & E0 & I0 & C0 & U0).
  destruct (blocks_ok _ _ fuel N1 B1 F1) as (l1 & E1 & I1 & C1 & U1).
  destruct (blocks_ok _ _ fuel N2 B2 F2) as (l2 & E2 & I2 & C2 & U2).
  destruct (range_ok nd (I3 0 0 0) N ng) as (r & Er); [apply coord3; cbn; lia|].
  destruct (part_cells nd ng _ _ _ Er Hg) as (r0 & Er0 & W).
  exists l0, l1, l2, r, r0. do 5 (split; [assumption|]).
  assert (Q : forall b0 b1 b2, In b0 l0 -> In b1 l1 -> In b2 l2 -> exists q q0,
       make_range_of nd b0 b1 b2 ng = Ok q /\ no_ghosts q = Ok q0 /\
       forall c, In c (cells_of nd q0) <-> forall d, (d < 3)%nat ->
         (if Nat.ltb d nd then ng else 0) <= coord d c < (if Nat.ltb d nd then ng else 0) +
           (coord d (I3 (snd b0) (snd b1) (snd b2)) - coord d (I3 (fst b0) (fst b1) (fst b2)))).
  { intros b0 b1 b2 A0 A1 A2. specialize (I0 _ A0). specialize (I1 _ A1). specialize (I2 _ A2).
    unfold make_range_of.
    destruct (range_ok nd (I3 (fst b0) (fst b1) (fst b2)) (I3 (snd b0) (snd b1) (snd b2)) ng) as (q & Eq); [apply coord3; cbn; lia|].
    destruct (part_cells nd ng _ _ _ Eq Hg) as (q0 & Eq0 & Wq). exists q, q0. auto. }
  split.
  - intros b0 b1 b2 A0 A1 A2. destruct (Q b0 b1 b2 A0 A1 A2) as (q & q0 & Eq & Eq0 & Wq). exists q, q0. do 2 (split; [assumption|]).
    intros c Hc. pose proof (proj1 (Wq c) Hc) as Hc1. clear Hc. rename Hc1 into Hc. apply (W (shift_by b0 b1 b2 c)). apply coord3 in Hc. apply coord3. unfold shift_by. cbn [coord ii jj kk] in *.
    specialize (I0 _ A0). specialize (I1 _ A1). specialize (I2 _ A2). lia.
  - intros e He. pose proof (proj1 (W e) He) as He1. clear He. rename He1 into He. apply coord3 in He. cbn [coord ii jj kk] in He.
    set (g0 := if Nat.ltb 0 nd then ng else 0) in *. set (g1 := if Nat.ltb 1 nd then ng else 0) in *.
    set (g2 := if Nat.ltb 2 nd then ng else 0) in *.
    destruct (C0 (ii e - g0)) as (b0 & A0 & X0); [lia|]. destruct (C1 (jj e - g1)) as (b1 & A1 & X1); [lia|].
    destruct (C2 (kk e - g2)) as (b2 & A2 & X2); [lia|].
    destruct (Q b0 b1 b2 A0 A1 A2) as (q & q0 & Eq & Eq0 & Wq).
    exists b0, b1, b2, q, q0, (I3 (ii e - fst b0) (jj e - fst b1) (kk e - fst b2)).
    do 5 (split; [assumption|]). split; [|split].
    + apply (Wq (I3 (ii e - fst b0) (jj e - fst b1) (kk e - fst b2))). apply coord3. cbn [coord ii jj kk]. fold g0 g1 g2. lia.
    + unfold shift_by. destruct e as [e0 e1 e2]; cbn [ii jj kk]. f_equal; lia.
    + intros b0' b1' b2' q' q0' c' A0' A1' A2' Eq' Eq0' Hc' Ee.
      destruct (Q b0' b1' b2' A0' A1' A2') as (q1 & q10 & Eq1 & Eq10 & Wq1).
      rewrite Eq1 in Eq'. injection Eq' as <-. rewrite Eq10 in Eq0'. injection Eq0' as <-.
      pose proof (proj1 (Wq1 c') Hc') as Hc1. clear Hc'. rename Hc1 into Hc'. apply coord3 in Hc'. cbn [coord ii jj kk] in Hc'. fold g0 g1 g2 in Hc'.
      subst e. unfold shift_by in *. cbn [ii jj kk] in *.
      assert (b0' = b0) by (apply (U0 b0' b0 (fst b0' + ii c' - g0)); auto; lia).
      assert (b1' = b1) by (apply (U1 b1' b1 (fst b1' + jj c' - g1)); auto; lia).
      assert (b2' = b2) by (apply (U2 b2' b2 (fst b2' + kk c' - g2)); auto; lia).
      subst. repeat split. destruct c' as [x y z]; cbn [ii jj kk]. f_equal; lia.
Qed.
