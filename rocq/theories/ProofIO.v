(** * Proofs about distributed files. *)
From Coq Require Import Permutation ZifyBool.
From Verif Require Import Base RBase ModelMesh ModelGeom ModelBoundary ModelMain ModelIO SpecMesh SpecBoundary SpecIO ProofBase ProofMesh ProofBoundary ProofUtil.
Local Open Scope Z_scope.
Local Open Scope list_scope.

(** ** Selections *)
Definition addl (a b : list Z) : list Z := map (fun p => fst p + snd p) (combine a b).
Definition origin (size : list Z) : list Z := map (fun _ => 0) size.

Lemma selection_shift start size : List.length start = List.length size ->
  selection start size = map (addl start) (selection (origin size) size).
Proof.
  revert size. induction start as [|s start IH]; intros [|n size] E; cbn in *; try discriminate; [reflexivity|].
  injection E as E. specialize (IH size E). rewrite IH. clear IH.
  rewrite flat_map_concat_map, flat_map_concat_map, concat_map, map_map. f_equal. apply map_ext. intros i.
  rewrite !map_map. apply map_ext. intros l. reflexivity.
Qed.

Lemma selection_in size l : In l (selection (origin size) size) <->
  List.length l = List.length size /\ forall k i n, nth_error l k = Some i -> nth_error size k = Some n -> 0 <= i < n.
Proof.
  revert l. induction size as [|n size IH]; intros l; cbn.
  - split.
    + intros [<-|[]]. split; [reflexivity|]. intros [|k] i m; discriminate.
    + intros [E _]. destruct l; [now left|discriminate].
  - rewrite in_flat_map. split.
    + intros (i & Hi & Hl). apply in_map_iff in Hl. destruct Hl as (l' & <- & Hl'). apply IH in Hl'. destruct Hl' as [E H].
      split; [cbn; congruence|]. apply in_zrange in Hi. intros [|k] j m; cbn; [intros [= <-] [= <-]; lia|apply H].
    + intros [E H]. destruct l as [|i l]; [discriminate|]. exists i. split.
      * apply in_zrange. exact (H 0%nat i n eq_refl eq_refl).
      * apply in_map_iff. exists l. split; [reflexivity|]. apply IH. split; [cbn in E; congruence|]. intros k. apply (H (S k)).
Qed.

Lemma NoDup_map_in {A B : Type} (f : A -> B) l : (forall a b, In a l -> In b l -> f a = f b -> a = b) -> NoDup l -> NoDup (map f l).
Proof.
  induction l as [|a l IH]; cbn; intros H D; [constructor|]. inversion D as [|? ? D1 D2]; subst. constructor.
  - intros I. apply in_map_iff in I. destruct I as (b & E & I). apply D1. rewrite <- (H b a); auto.
  - apply IH; auto.
Qed.

Lemma NoDup_selection size : NoDup (selection (origin size) size).
Proof.
  induction size as [|n size IH]; cbn; [repeat constructor; tauto|].
  apply NoDup_flat_map_disjoint.
  - apply NoDup_zrange.
  - intros i _. apply FinFun.Injective_map_NoDup; [intros a b [=]; assumption|exact IH].
  - intros i j b _ _ Hi Hj. apply in_map_iff in Hi, Hj. destruct Hi as (x & <- & _), Hj as (y & [= E _] & _). congruence.
Qed.

(** ** Scattering a list of values *)
Section Scatter.
  Context {V : Type}.
  Definition scatter (src : Z -> V) (l : list (Z * Z)) (dst : Z -> V) : Z -> V :=
    fold_left (fun a pq => fun k => if k =? snd pq then src (fst pq) else a k) l dst.

  Lemma scatter_out src l dst k : ~ In k (map snd l) -> scatter src l dst k = dst k.
  Proof.
    unfold scatter. revert dst. induction l as [|[p q] l IH]; intros dst H; cbn in *; [reflexivity|].
    rewrite IH by tauto. destruct (Z.eqb_spec k q) as [->|]; [tauto|reflexivity].
  Qed.
  Lemma scatter_in src l dst p q : NoDup (map snd l) -> In (p, q) l -> scatter src l dst q = src p.
  Proof.
    revert dst. induction l as [|[p' q'] l IH]; intros dst D I; cbn in *; [tauto|].
    inversion D as [|? ? D1 D2]; subst. destruct I as [[= -> ->]|I].
    - change (scatter src l (fun k => if k =? q then src p else dst k) q = src p). rewrite scatter_out by exact D1. now rewrite Z.eqb_refl.
    - change (scatter src l (fun k => if k =? q' then src p' else dst k) q = src p). now apply IH.
  Qed.
End Scatter.

(** ** Linear positions *)
Lemma lin3_inj n1 n0 k j i k' j' i' : 0 <= i < n0 -> 0 <= i' < n0 -> 0 <= j < n1 -> 0 <= j' < n1 ->
  (k * n1 + j) * n0 + i = (k' * n1 + j') * n0 + i' -> k = k' /\ j = j' /\ i = i'.
Proof.
  intros Hi Hi' Hj Hj' E.
  assert (A : k * n1 + j = k' * n1 + j') by nia. assert (B : i = i') by (rewrite A in E; lia).
  assert (C : k = k') by nia. subst. repeat split; lia.
Qed.

(** The three-dimensional boxes of ModelIO. *)
Definition rm3 (n c : idx) : Z := (kk c * jj n + jj c) * ii n + ii c.
Lemma at_file_rm n g : at_file n g = rm3 n g.
Proof. unfold at_file, rm3. cbn. ring. Qed.
Lemma at3_rm n c : at3 n c = rm3 n c.
Proof. unfold at3, rm3. cbn. ring. Qed.
Lemma at4_rm n c m v : at4 n c m v = rm3 n c + ii n * jj n * kk n * v.
Proof. unfold at4, rm3. cbn. ring. Qed.

Lemma rm3_inj n a b : (forall d, (d < 3)%nat -> 0 <= coord d a < coord d n) -> (forall d, (d < 3)%nat -> 0 <= coord d b < coord d n) ->
  rm3 n a = rm3 n b -> a = b.
Proof.
  intros Ha Hb E. unfold rm3 in E.
  pose proof (Ha 0%nat ltac:(lia)). pose proof (Ha 1%nat ltac:(lia)). pose proof (Hb 0%nat ltac:(lia)). pose proof (Hb 1%nat ltac:(lia)). cbn [coord] in *.
  destruct (lin3_inj (jj n) (ii n) (kk a) (jj a) (ii a) (kk b) (jj b) (ii b)) as (A & B & C); try assumption.
  destruct a, b; cbn in *; congruence.
Qed.
Lemma rm3_range n a : (forall d, (d < 3)%nat -> 0 <= coord d a < coord d n) -> 0 <= rm3 n a < kk n * jj n * ii n.
Proof.
  intros Ha. pose proof (Ha 0%nat ltac:(lia)). pose proof (Ha 1%nat ltac:(lia)). pose proof (Ha 2%nat ltac:(lia)). cbn [coord] in *. unfold rm3.
  assert (0 <= kk a * jj n + jj a <= kk n * jj n - 1) by nia. nia.
Qed.

(** A box selection: every offset inside the block, in some fixed order. *)
Definition box3 (size : idx) : list idx := map (fun l => I3 (nth 2 l 0) (nth 1 l 0) (nth 0 l 0)) (selection (origin [kk size; jj size; ii size]) [kk size; jj size; ii size]).

Lemma box3_in size o : In o (box3 size) <-> forall d, (d < 3)%nat -> 0 <= coord d o < coord d size.
Proof.
  unfold box3. rewrite in_map_iff. split.
  - intros (l & <- & H). apply selection_in in H. destruct H as [E H]. destruct l as [|a [|b [|c [|]]]]; try discriminate.
    pose proof (H 0%nat a _ eq_refl eq_refl). pose proof (H 1%nat b _ eq_refl eq_refl). pose proof (H 2%nat c _ eq_refl eq_refl).
    intros [|[|[|d]]] Hd; cbn; lia.
  - intros H. exists [kk o; jj o; ii o]. split; [destruct o; reflexivity|]. apply selection_in. split; [reflexivity|].
    pose proof (H 0%nat ltac:(lia)). pose proof (H 1%nat ltac:(lia)). pose proof (H 2%nat ltac:(lia)). cbn [coord] in *.
    intros [|[|[|[|k]]]] i m; cbn; try discriminate; intros [= <-] [= <-]; assumption.
Qed.
Lemma NoDup_box3 size : NoDup (box3 size).
Proof.
  unfold box3. apply NoDup_map_in; [|apply NoDup_selection].
  intros a b Ha Hb E. apply selection_in in Ha, Hb. destruct Ha as [La _], Hb as [Lb _].
  destruct a as [|a0 [|a1 [|a2 [|]]]]; try discriminate. destruct b as [|b0 [|b1 [|b2 [|]]]]; try discriminate.
  cbn in E. congruence.
Qed.

Lemma sel3_positions (dims start size : idx) :
  positions (mkSlab [kk dims; jj dims; ii dims] [kk start; jj start; ii start] [kk size; jj size; ii size])
  = map (fun o => rm3 dims (iadd start o)) (box3 size).
Proof.
  unfold positions, box3. cbn [sl_dims sl_start sl_size]. rewrite selection_shift by reflexivity. rewrite !map_map. apply map_ext_in.
  intros l Hl. apply selection_in in Hl. destruct Hl as [El _]. destruct l as [|a [|b [|c [|]]]]; try discriminate.
  unfold addl, rm3, iadd. cbn. ring.
Qed.
Lemma sel4_positions (dims start size : idx) n v :
  positions (mkSlab [n; kk dims; jj dims; ii dims] [v; kk start; jj start; ii start] [1; kk size; jj size; ii size])
  = map (fun o => rm3 dims (iadd start o) + ii dims * jj dims * kk dims * v) (box3 size).
Proof.
  unfold positions, box3. cbn [sl_dims sl_start sl_size]. rewrite selection_shift by reflexivity.
  assert (E : selection (origin [1; kk size; jj size; ii size]) [1; kk size; jj size; ii size]
            = map (fun l => 0 :: l) (selection (origin [kk size; jj size; ii size]) [kk size; jj size; ii size])).
  { change (zrange 0 1) with [0]. cbn [selection origin map]. change (zrange 0 1) with [0]. cbn [flat_map]. rewrite app_nil_r. reflexivity. }
  rewrite E, !map_map. apply map_ext_in.
  intros l Hl. apply selection_in in Hl. destruct Hl as [El _]. destruct l as [|a [|b [|c [|]]]]; try discriminate.
  unfold addl, rm3, iadd. cbn. ring.
Qed.

Lemma combine_map {A B C : Type} (f : A -> B) (g : A -> C) l : combine (map f l) (map g l) = map (fun a => (f a, g a)) l.
Proof. induction l; cbn; congruence. Qed.

Lemma transfer_ok {V : Type} from to (src dst : Z -> V) (l : list idx) P Q :
  fits (sl_dims from) (sl_start from) (sl_size from) = true -> fits (sl_dims to) (sl_start to) (sl_size to) = true ->
  positions from = map P l -> positions to = map Q l ->
  transfer from to src dst = Ok (scatter src (map (fun o => (P o, Q o)) l) dst).
Proof.
  intros F T EP EQ. unfold transfer. rewrite F, T, EP, EQ, !map_length, Nat.eqb_refl, combine_map. reflexivity.
Qed.

(** ** The whole dataset *)
Section File.
  Variables (nd : nat) (N dims : idx) (ng : Z) (dec : idx -> decomp).
  Hypothesis D : decomposed nd N dims ng dec.
  Let vr (r : idx) : Prop := forall d, (d < 3)%nat -> 0 <= coord d r < coord d (mpi_dims nd dims).
  Let cmn (r : idx) : idx := corner_min (d_range (dec r)).
  Let nlc (r : idx) : idx := d_nloc (dec r).

  Lemma block_facts r d : vr r -> (d < 3)%nat ->
    0 <= coord d (cmn r) /\ 0 <= coord d (nlc r) /\ coord d (cmn r) + coord d (nlc r) <= coord d N /\
    coord d (d_nwg (dec r)) = coord d (nlc r) + 2 * ghosts nd ng d /\ coord d (nghost_of nd ng) = ghosts nd ng d /\ 0 <= ghosts nd ng d.
  Proof.
    intros Hr Hd. unfold cmn, nlc.
    rewrite (dec_cmin nd N dims ng dec D r d Hr Hd), (dec_nloc nd N dims ng dec D r d Hr Hd), (dec_nwg nd N dims ng dec D r d Hr Hd).
    pose proof (Hr d Hd).
    pose proof (cm_nonneg nd N dims ng dec D d (coord d r) Hd ltac:(lia)).
    pose proof (cm_max nd N dims ng dec D d (coord d r) Hd ltac:(lia)).
    pose proof (nl_nonneg nd N dims ng dec D d (coord d r) Hd).
    pose proof (ghosts_nonneg nd N dims ng dec D d).
    unfold nghost_of. rewrite coord_mk3 by exact Hd. unfold ghosts in *. repeat split; lia.
  Qed.

  Lemma dset_positions r : positions (dset N (dec r)) = map (fun o => rm3 N (iadd (cmn r) o)) (box3 (nlc r)).
  Proof. unfold dset. exact (sel3_positions N (cmn r) (nlc r)). Qed.
  Lemma dset_fits r : vr r -> fits (sl_dims (dset N (dec r))) (sl_start (dset N (dec r))) (sl_size (dset N (dec r))) = true.
  Proof.
    intros Hr. unfold dset. cbn [sl_dims sl_start sl_size fits].
    pose proof (block_facts r 0 Hr ltac:(lia)). pose proof (block_facts r 1 Hr ltac:(lia)). pose proof (block_facts r 2 Hr ltac:(lia)).
    unfold cmn, nlc in *. cbn [coord] in *. lia.
  Qed.

  Lemma in_dataset r o : vr r -> In o (box3 (nlc r)) -> forall d, (d < 3)%nat -> 0 <= coord d (iadd (cmn r) o) < coord d N.
  Proof.
    intros Hr Ho d Hd. apply box3_in with (d := d) in Ho; [|exact Hd]. rewrite coord_iadd. pose proof (block_facts r d Hr Hd). lia.
  Qed.

  Lemma dset_NoDup r : vr r -> NoDup (map (fun o => rm3 N (iadd (cmn r) o)) (box3 (nlc r))).
  Proof.
    intros Hr. apply NoDup_map_in; [|apply NoDup_box3]. intros a b Ha Hb E.
    apply rm3_inj in E; [|now apply in_dataset|now apply in_dataset].
    apply idx_ext. intros d Hd. apply (f_equal (coord d)) in E. rewrite !coord_iadd in E. lia.
  Qed.

  Lemma dset_disjoint r r' o o' : vr r -> vr r' -> In o (box3 (nlc r)) -> In o' (box3 (nlc r')) ->
    rm3 N (iadd (cmn r) o) = rm3 N (iadd (cmn r') o') -> r = r'.
  Proof.
    intros Hr Hr' Ho Ho' E. apply rm3_inj in E; [|now apply in_dataset|now apply in_dataset].
    assert (Nn : forall d, (d < 3)%nat -> 0 <= coord d N) by (intros d Hd; pose proof (dcp_n D Hd); lia).
    destruct (owner_unique_3d nd N dims ng (iadd (cmn r) o) Nn (fun d => dcp_dims D (d := d))) as (w & _ & _ & U).
    { intros d Hd. now apply in_dataset. }
    rewrite (U r (dec r) Hr (dcp_ok D Hr)), (U r' (dec r') Hr' (dcp_ok D Hr')); [reflexivity| |].
    - rewrite E. intros d Hd. rewrite coord_iadd. apply box3_in with (d := d) in Ho'; [|exact Hd]. unfold cmn, nlc in *. lia.
    - intros d Hd. rewrite coord_iadd. apply box3_in with (d := d) in Ho; [|exact Hd]. unfold cmn, nlc in *. lia.
  Qed.

  (** Every element of the dataset is written exactly once. *)
  Lemma written_once ranks : NoDup ranks -> (forall r, In r ranks <-> vr r) ->
    Permutation (flat_map (fun r => positions (dset N (dec r))) ranks) (zrange 0 (kk N * jj N * ii N)).
  Proof.
    intros ND Hr. apply NoDup_Permutation.
    - apply NoDup_flat_map_disjoint; [exact ND| |].
      + intros r I. rewrite dset_positions. apply dset_NoDup, Hr, I.
      + intros a b x Ia Ib Ha Hb. rewrite dset_positions in Ha, Hb. apply in_map_iff in Ha, Hb.
        destruct Ha as (o & <- & Ho), Hb as (o' & E & Ho'). apply (dset_disjoint a b o o'); auto; now apply Hr.
    - apply NoDup_zrange.
    - intros x. rewrite in_flat_map, in_zrange. split.
      + intros (r & I & Hx). rewrite dset_positions in Hx. apply in_map_iff in Hx. destruct Hx as (o & <- & Ho).
        apply rm3_range. apply in_dataset; [now apply Hr|exact Ho].
      + intros Hx.
        assert (P0 : 0 < ii N) by (pose proof (dcp_n D (d := 0%nat) ltac:(lia)); cbn [coord] in *; lia).
        assert (P1 : 0 < jj N) by (pose proof (dcp_n D (d := 1%nat) ltac:(lia)); cbn [coord] in *; lia).
        assert (P2 : 0 < kk N) by (pose proof (dcp_n D (d := 2%nat) ltac:(lia)); cbn [coord] in *; lia).
        set (g := I3 (x mod ii N) (x / ii N mod jj N) (x / ii N / jj N)).
        assert (E : rm3 N g = x).
        { unfold rm3, g. cbn. pose proof (Z.div_mod x (ii N) ltac:(lia)). pose proof (Z.div_mod (x / ii N) (jj N) ltac:(lia)). nia. }
        assert (Gg : global_cell N g).
        { unfold global_cell. apply forall3. unfold g; cbn [coord ii jj kk].
          split; [apply Z.mod_pos_bound; lia|]. split; [apply Z.mod_pos_bound; lia|].
          split; [apply Z.div_pos; [apply Z.div_pos|]; lia|]. rewrite Z.div_div by lia. apply Z.div_lt_upper_bound; [nia|]. nia. }
        assert (Nn : forall d, (d < 3)%nat -> 0 <= coord d N) by (intros d Hd; pose proof (dcp_n D Hd); lia).
        destruct (owner_unique_3d nd N dims ng g Nn (fun d => dcp_dims D (d := d)) Gg) as (r & Vr & (dc & Edc & B) & _).
        assert (dc = dec r) by (rewrite (dcp_ok D Vr) in Edc; injection Edc; auto). subst dc.
        exists r. split; [now apply Hr|]. rewrite dset_positions. apply in_map_iff. exists (isub g (cmn r)). split.
        * rewrite <- E. f_equal. unfold iadd, isub. destruct g; cbn. f_equal; lia.
        * apply box3_in. intros d Hd. specialize (B d Hd). replace (coord d (isub g (cmn r))) with (coord d g - coord d (cmn r)) by (destruct d as [|[|d]]; reflexivity).
          unfold cmn, nlc in *. lia.
  Qed.

  (** Generic memory selections: [P r o] is the memory position of offset [o] in the block of [r]. *)
  Section Memory.
    Context {V : Type}.
    Variable memory : idx -> slab.
    Variable P : idx -> idx -> Z.
    Hypothesis MP : forall r, vr r -> positions (memory r) = map (P r) (box3 (nlc r)).
    Hypothesis MF : forall r, vr r -> fits (sl_dims (memory r)) (sl_start (memory r)) (sl_size (memory r)) = true.
    Variable data : idx -> Z -> V.

    Lemma write_all_ok ranks : (forall r, In r ranks -> vr r) -> NoDup ranks -> forall ds,
      exists ds', write_all N memory dec ranks data ds = Ok ds' /\
       (forall r o, In r ranks -> In o (box3 (nlc r)) -> ds' (rm3 N (iadd (cmn r) o)) = data r (P r o)) /\
       (forall x, (forall r o, In r ranks -> In o (box3 (nlc r)) -> x <> rm3 N (iadd (cmn r) o)) -> ds' x = ds x).
    Proof.
      induction ranks as [|r ranks IH]; intros Hv ND ds; cbn [write_all].
      - exists ds. split; [reflexivity|]. split; [intros r o []|reflexivity].
      - inversion ND as [|? ? N1 N2]; subst. assert (Vr : vr r) by (apply Hv; now left).
        rewrite (transfer_ok (memory r) (dset N (dec r)) (data r) ds (box3 (nlc r)) (P r) (fun o => rm3 N (iadd (cmn r) o)) (MF r Vr) (dset_fits r Vr) (MP r Vr) (dset_positions r)).
        cbn [obind]. destruct (IH (fun q I => Hv q (or_intror I)) N2 (scatter (data r) (map (fun o => (P r o, rm3 N (iadd (cmn r) o))) (box3 (nlc r))) ds)) as (ds' & E & A & B).
        exists ds'. split; [exact E|]. split.
        + intros q o [<-|I] Ho; [|now apply A]. rewrite B.
          * apply scatter_in.
            -- rewrite map_map. cbn [snd]. now apply dset_NoDup.
            -- apply in_map_iff. now exists o.
          * intros q o' Iq Ho' E'. apply N1. rewrite (dset_disjoint r q o o'); auto. apply Hv. now right.
        + intros x Hx. rewrite B.
          * apply scatter_out. rewrite map_map. cbn [snd]. intros I. apply in_map_iff in I. destruct I as (o & E' & Ho). apply (Hx r o); [now left|exact Ho|now symmetry].
          * intros q o Iq Ho. apply Hx; [now right|exact Ho].
    Qed.

    Lemma read_one_ok r ds old : vr r -> (forall a b, In a (box3 (nlc r)) -> In b (box3 (nlc r)) -> P r a = P r b -> a = b) ->
      exists m, read_one N (memory r) (dec r) ds old = Ok m /\
       (forall o, In o (box3 (nlc r)) -> m (P r o) = ds (rm3 N (iadd (cmn r) o)) :> V) /\
       (forall x, (forall o, In o (box3 (nlc r)) -> x <> P r o) -> m x = old x).
    Proof.
      intros Vr Inj. unfold read_one.
      rewrite (transfer_ok (dset N (dec r)) (memory r) ds old (box3 (nlc r)) (fun o => rm3 N (iadd (cmn r) o)) (P r) (dset_fits r Vr) (MF r Vr) (dset_positions r) (MP r Vr)).
      eexists. split; [reflexivity|]. split.
      - intros o Ho. apply scatter_in.
        + rewrite map_map. cbn [snd]. apply NoDup_map_in; [exact Inj|apply NoDup_box3].
        + apply in_map_iff. now exists o.
      - intros x Hx. apply scatter_out. rewrite map_map. cbn [snd]. intros I. apply in_map_iff in I. destruct I as (o & E' & Ho). now apply (Hx o).
    Qed.
  End Memory.

  (** ** Fields *)
  Definition P3 (r o : idx) : Z := rm3 (d_nwg (dec r)) (iadd (nghost_of nd ng) o).
  Definition P4 (v : Z) (r o : idx) : Z := rm3 (d_nwg (dec r)) (iadd (nghost_of nd ng) o) + ii (d_nwg (dec r)) * jj (d_nwg (dec r)) * kk (d_nwg (dec r)) * v.

  Lemma mem3_positions r : positions (mem3 nd ng (dec r)) = map (P3 r) (box3 (nlc r)).
  Proof. unfold mem3. exact (sel3_positions (d_nwg (dec r)) (nghost_of nd ng) (nlc r)). Qed.
  Lemma mem4_positions n v r : positions (mem4 nd ng (dec r) n v) = map (P4 v r) (box3 (nlc r)).
  Proof. unfold mem4. exact (sel4_positions (d_nwg (dec r)) (nghost_of nd ng) (nlc r) n v). Qed.
  Lemma mem3_fits r : vr r -> fits (sl_dims (mem3 nd ng (dec r))) (sl_start (mem3 nd ng (dec r))) (sl_size (mem3 nd ng (dec r))) = true.
  Proof.
    intros Hr. unfold mem3. cbn [sl_dims sl_start sl_size fits].
    pose proof (block_facts r 0 Hr ltac:(lia)). pose proof (block_facts r 1 Hr ltac:(lia)). pose proof (block_facts r 2 Hr ltac:(lia)).
    unfold nlc in *. change (coord 0) with ii in *. change (coord 1) with jj in *. change (coord 2) with kk in *. lia.
  Qed.
  Lemma mem4_fits n v r : vr r -> 0 <= v < n -> fits (sl_dims (mem4 nd ng (dec r) n v)) (sl_start (mem4 nd ng (dec r) n v)) (sl_size (mem4 nd ng (dec r) n v)) = true.
  Proof.
    intros Hr Hv. pose proof (mem3_fits r Hr) as H. unfold mem3 in H. unfold mem4. cbn [sl_dims sl_start sl_size fits] in *. lia.
  Qed.

  Lemma coord_nghost d : (d < 3)%nat -> coord d (nghost_of nd ng) = ghosts nd ng d.
  Proof. intros Hd. unfold nghost_of, ghosts. now rewrite coord_mk3. Qed.

  Lemma local_in_array r o : vr r -> In o (box3 (nlc r)) -> forall d, (d < 3)%nat -> 0 <= coord d (iadd (nghost_of nd ng) o) < coord d (d_nwg (dec r)).
  Proof.
    intros Hr Ho d Hd. apply box3_in with (d := d) in Ho; [|exact Hd]. rewrite coord_iadd. pose proof (block_facts r d Hr Hd). lia.
  Qed.
  Lemma owned_offset r c : owned nd ng (nlc r) c <-> In (isub c (nghost_of nd ng)) (box3 (nlc r)).
  Proof.
    rewrite box3_in. unfold owned. split; intros H d Hd; specialize (H d Hd); pose proof (coord_nghost d Hd) as E.
    - replace (coord d (isub c (nghost_of nd ng))) with (coord d c - coord d (nghost_of nd ng)) by (destruct d as [|[|d]]; reflexivity). lia.
    - replace (coord d (isub c (nghost_of nd ng))) with (coord d c - coord d (nghost_of nd ng)) in H by (destruct d as [|[|d]]; reflexivity). lia.
  Qed.
  Lemma add_sub a b : iadd a (isub b a) = b.
  Proof. unfold iadd, isub. destruct b; cbn. f_equal; lia. Qed.
  Lemma global_of_offset r o : global_index nd ng (cmn r) (iadd (nghost_of nd ng) o) = iadd (cmn r) o.
  Proof.
    apply idx_ext. intros d Hd. unfold global_index. rewrite coord_mk3, !coord_iadd, coord_nghost by exact Hd. lia.
  Qed.
  Lemma P3_inj r a b : vr r -> In a (box3 (nlc r)) -> In b (box3 (nlc r)) -> P3 r a = P3 r b -> a = b.
  Proof.
    intros Hr Ha Hb E. unfold P3 in E. apply rm3_inj in E; [|now apply local_in_array|now apply local_in_array].
    apply idx_ext. intros d Hd. apply (f_equal (coord d)) in E. rewrite !coord_iadd in E. lia.
  Qed.

  Lemma every_cell_written ranks g : (forall r, vr r -> In r ranks) -> global_cell N g -> exists r o, In r ranks /\ vr r /\ In o (box3 (nlc r)) /\ g = iadd (cmn r) o.
  Proof.
    intros Hr Gg. assert (Nn : forall d, (d < 3)%nat -> 0 <= coord d N) by (intros d Hd; pose proof (dcp_n D Hd); lia).
    destruct (owner_unique_3d nd N dims ng g Nn (fun d => dcp_dims D (d := d)) Gg) as (r & Vr & (dc & Edc & B) & _).
    assert (dc = dec r) by (rewrite (dcp_ok D Vr) in Edc; injection Edc; auto). subst dc.
    exists r, (isub g (cmn r)). split; [now apply Hr|]. split; [exact Vr|]. split; [|now rewrite add_sub].
    apply box3_in. intros d Hd. specialize (B d Hd). replace (coord d (isub g (cmn r))) with (coord d g - coord d (cmn r)) by (destruct d as [|[|d]]; reflexivity).
    unfold cmn, nlc in *. lia.
  Qed.

  Section Fields.
    Context {V : Type}.

    Lemma write_field ranks (G : idx -> V) data ds : NoDup ranks -> (forall r, In r ranks <-> vr r) ->
      holds_owned nd dims ng dec G (fun r c => data r (at3 (d_nwg (dec r)) c)) ->
      exists ds', write_all N (fun r => mem3 nd ng (dec r)) dec ranks data ds = Ok ds' /\ forall g, global_cell N g -> ds' (at_file N g) = G g.
    Proof.
      intros ND Hr H.
      destruct (write_all_ok (fun r => mem3 nd ng (dec r)) P3 (fun r _ => mem3_positions r) mem3_fits data ranks (fun r I => proj1 (Hr r) I) ND ds) as (ds' & E & A & _).
      exists ds'. split; [exact E|]. intros g Gg. destruct (every_cell_written ranks g (fun r V => proj2 (Hr r) V) Gg) as (r & o & I & Vr & Ho & ->).
      rewrite at_file_rm, (A r o I Ho). unfold P3. rewrite <- at3_rm.
      rewrite (H r Vr (iadd (nghost_of nd ng) o)); [now rewrite <- global_of_offset|].
      apply owned_offset. replace (isub (iadd (nghost_of nd ng) o) (nghost_of nd ng)) with o; [exact Ho|]. unfold isub, iadd. destruct o; cbn. f_equal; lia.
    Qed.

    Lemma read_field (G : idx -> V) ds r old : (forall g, global_cell N g -> ds (at_file N g) = G g) -> vr r ->
      exists m, read_one N (mem3 nd ng (dec r)) (dec r) ds old = Ok m /\
       (forall c, owned nd ng (d_nloc (dec r)) c -> m (at3 (d_nwg (dec r)) c) = G (global_index nd ng (corner_min (d_range (dec r))) c)) /\
       (forall c, in_array (d_nwg (dec r)) c -> ~ owned nd ng (d_nloc (dec r)) c -> m (at3 (d_nwg (dec r)) c) = old (at3 (d_nwg (dec r)) c)).
    Proof.
      intros H Vr.
      destruct (read_one_ok (fun r => mem3 nd ng (dec r)) P3 (fun r _ => mem3_positions r) mem3_fits r ds old Vr) as (m & E & A & B).
      { intros a b. now apply P3_inj. }
      exists m. split; [exact E|]. split.
      - intros c Hc. apply owned_offset in Hc. specialize (A _ Hc). unfold P3 in A. rewrite add_sub in A. rewrite at3_rm, A, <- at_file_rm.
        rewrite H by (intros d Hd; now apply in_dataset). now rewrite <- global_of_offset, add_sub.
      - intros c Ac Hc. rewrite !at3_rm. apply B. intros o Ho E'. apply Hc. unfold P3 in E'.
        apply rm3_inj in E'; [|exact Ac|now apply local_in_array]. subst c. apply owned_offset.
        replace (isub (iadd (nghost_of nd ng) o) (nghost_of nd ng)) with o; [exact Ho|]. unfold isub, iadd. destruct o; cbn. f_equal; lia.
    Qed.

    Lemma write_component ranks n v (G : idx -> V) data ds : 0 <= v < n -> NoDup ranks -> (forall r, In r ranks <-> vr r) ->
      holds_owned nd dims ng dec G (fun r c => data r (at4 (d_nwg (dec r)) c n v)) ->
      exists ds', write_all N (fun r => mem4 nd ng (dec r) n v) dec ranks data ds = Ok ds' /\ forall g, global_cell N g -> ds' (at_file N g) = G g.
    Proof.
      intros Hv ND Hr H.
      destruct (write_all_ok (fun r => mem4 nd ng (dec r) n v) (P4 v) (fun r _ => mem4_positions n v r) (fun r V => mem4_fits n v r V Hv) data ranks (fun r I => proj1 (Hr r) I) ND ds) as (ds' & E & A & _).
      exists ds'. split; [exact E|]. intros g Gg. destruct (every_cell_written ranks g (fun r V => proj2 (Hr r) V) Gg) as (r & o & I & Vr & Ho & ->).
      rewrite at_file_rm, (A r o I Ho). unfold P4. rewrite <- at4_rm with (m := n).
      rewrite (H r Vr (iadd (nghost_of nd ng) o)); [now rewrite <- global_of_offset|].
      apply owned_offset. replace (isub (iadd (nghost_of nd ng) o) (nghost_of nd ng)) with o; [exact Ho|]. unfold isub, iadd. destruct o; cbn. f_equal; lia.
    Qed.

    Lemma read_component n v (G : idx -> V) ds r old : 0 <= v < n -> (forall g, global_cell N g -> ds (at_file N g) = G g) -> vr r ->
      exists m, read_one N (mem4 nd ng (dec r) n v) (dec r) ds old = Ok m /\
       (forall c, owned nd ng (d_nloc (dec r)) c -> m (at4 (d_nwg (dec r)) c n v) = G (global_index nd ng (corner_min (d_range (dec r))) c)) /\
       (forall c w, in_array (d_nwg (dec r)) c -> 0 <= w < n -> (w <> v \/ ~ owned nd ng (d_nloc (dec r)) c) ->
          m (at4 (d_nwg (dec r)) c n w) = old (at4 (d_nwg (dec r)) c n w)).
    Proof.
      intros Hv H Vr.
      destruct (read_one_ok (fun r => mem4 nd ng (dec r) n v) (P4 v) (fun r _ => mem4_positions n v r) (fun r V => mem4_fits n v r V Hv) r ds old Vr) as (m & E & A & B).
      { intros a b Ha Hb E. apply (P3_inj r a b Vr Ha Hb). unfold P4 in E. unfold P3. lia. }
      exists m. split; [exact E|]. split.
      - intros c Hc. apply owned_offset in Hc. specialize (A _ Hc). unfold P4 in A. rewrite add_sub in A. rewrite at4_rm, A, <- at_file_rm.
        rewrite H by (intros d Hd; now apply in_dataset). now rewrite <- global_of_offset, add_sub.
      - intros c w Ac Hw Hc. rewrite !at4_rm. apply B. intros o Ho E'. unfold P4 in E'.
        pose proof (rm3_range (d_nwg (dec r)) c Ac). pose proof (rm3_range _ _ (local_in_array r o Vr Ho)).
        set (vol := ii (d_nwg (dec r)) * jj (d_nwg (dec r)) * kk (d_nwg (dec r))) in *.
        assert (Ev : kk (d_nwg (dec r)) * jj (d_nwg (dec r)) * ii (d_nwg (dec r)) = vol) by (unfold vol; ring).
        rewrite Ev in *. assert (w = v) by nia. subst w. destruct Hc as [Hc|Hc]; [congruence|]. apply Hc.
        assert (E2 : rm3 (d_nwg (dec r)) c = rm3 (d_nwg (dec r)) (iadd (nghost_of nd ng) o)) by lia.
        apply rm3_inj in E2; [|exact Ac|now apply local_in_array]. subst c. apply owned_offset.
        replace (isub (iadd (nghost_of nd ng) o) (nghost_of nd ng)) with o; [exact Ho|]. unfold isub, iadd. destruct o; cbn. f_equal; lia.
    Qed.
  End Fields.
End File.
