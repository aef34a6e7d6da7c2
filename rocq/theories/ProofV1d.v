(** * The shift criterion of the v1d setup. *)
From Coq Require Import Lra ZifyBool.
From Verif Require Import Base RBase ModelMesh ModelGeom ModelBoundary ModelHydro ModelScheme ModelStep ModelMain ModelMove
  SpecMesh SpecGeom SpecBoundary SpecHydro SpecScheme SpecStep SpecMain SpecMove
  ProofBase ProofR ProofMesh ProofGeom ProofBoundary ProofBoundary2 ProofStep ProofLayout ProofReduce ProofMove.
Local Open Scope R_scope.

Section V1d.
Variables (K : config) (N dims : idx) (X : nat -> arr1) (L : layout).
Hypothesis HR : runs_on K N dims X L.
Notation nd := (k_nd K).
Notation ng := (k_ng K).
Let HL := ro_layout HR.
Let HD := lo_dec HL.
Notation p := (mpi_dims nd dims).
Notation cmn r := (corner_min (d_range (l_dec L r))).

Lemma nd1 : (1 <= nd <= 3)%nat. Proof. exact (dcp_nd HD). Qed.
Lemma gh0 : ghosts nd ng 0 = ng.
Proof. pose proof nd1. unfold ghosts. replace (Nat.ltb 0 nd) with true; [reflexivity|symmetry; apply Nat.ltb_lt; lia]. Qed.

(** The column of processes at the outer boundary. *)
Lemma last_column r : process nd dims r -> ii r = (ii p - 1)%Z ->
  (ii (cmn r) + ii (d_nloc (l_dec L r)) = ii N)%Z.
Proof.
  intros Hr E. pose proof (dec_cmin _ _ _ _ _ HD r 0%nat Hr ltac:(lia)) as C. pose proof (dec_nloc _ _ _ _ _ HD r 0%nat Hr ltac:(lia)) as C2.
  cbn [coord] in C, C2. rewrite C, C2, E. rewrite <- (cm_succ _ _ _ _ _ HD) by lia.
  replace (ii p - 1 + 1)%Z with (coord 0 p) by (cbn [coord]; lia). exact (cm_p _ _ _ _ _ HD 0%nat ltac:(lia)).
Qed.

Lemma nloc_last r : process nd dims r -> ii r = (ii p - 1)%Z ->
  ii (d_nloc (l_dec L r)) = ii (d_nloc (l_dec L (I3 (ii p - 1) 0 0))).
Proof.
  intros Hr E.
  assert (H0 : process nd dims (I3 (ii p - 1) 0 0)).
  { intros d Hd. pose proof (dcp_dims HD (d := d) Hd). destruct d as [|[|[|d]]]; cbn [coord ii jj kk] in *; lia. }
  pose proof (dec_nloc _ _ _ _ _ HD r 0%nat Hr ltac:(lia)) as A. pose proof (dec_nloc _ _ _ _ _ HD _ 0%nat H0 ltac:(lia)) as B.
  cbn [coord ii] in A, B. rewrite A, B, E. reflexivity.
Qed.

Variables (cs : Z) (W : world cell) (S : idx -> cell).
Hypothesis HW : slice_of nd dims (l_dec L) W S.
Hypothesis Hpass : (cs <= ii (d_nloc (l_dec L (I3 (ii (l_dims L) - 1) 0 0))))%Z.

Lemma v1d_in v : In v (v1d_values K L cs W) <->
  (exists c, in_shell K N (ii N - cs) (ii N + ng) c /\ v = radial_velocity (S c)) \/ ((1 < ii p)%Z /\ v = 0).
Proof.
  unfold v1d_values. rewrite (lo_dims HL) in *. rewrite in_flat_map. pose proof (ro_ng HR) as Hng.
  assert (Hrk : forall r, In r (ranks p) <-> process nd dims r).
  { intros r. rewrite <- (lo_dims HL). exact (in_ranks K N dims X L HL r). }
  split.
  - intros (r & Hr & Hv). apply Hrk in Hr. destruct (Z.eqb_spec (ii r) (ii p - 1)) as [E|E].
    + left. apply in_map_iff in Hv. destruct Hv as (c & <- & Hc). apply in_box_cells in Hc.
      pose proof (last_column r Hr E) as EL. rewrite <- (nloc_last r Hr E) in Hpass.
      unfold in_box in Hc. cbn [iadd ii jj kk] in Hc.
      assert (G : forall d, (d < 3)%nat -> coord d (nghost_of nd ng) = ghosts nd ng d) by (intros d Hd; unfold nghost_of; now rewrite coord_mk3).
      pose proof (G 0%nat ltac:(lia)) as G0. pose proof (G 1%nat ltac:(lia)) as G1. pose proof (G 2%nat ltac:(lia)) as G2. rewrite gh0 in G0. cbn [coord] in G0, G1, G2.
      rewrite G0, G1, G2 in Hc.
      assert (Hin : in_array (d_nwg (l_dec L r)) c).
      { intros d Hd. rewrite (dec_nwg _ _ _ _ _ HD) by assumption. pose proof (ghosts_nonneg _ _ _ _ _ HD d) as Hg.
        pose proof (dec_nloc _ _ _ _ _ HD r d Hr Hd) as En. rewrite <- En. pose proof gh0. destruct d as [|[|[|d]]]; cbn [coord] in *; lia. }
      exists (iadd (cmn r) c). rewrite <- (HW r Hr c Hin). split; [|reflexivity]. split.
      * cbn [iadd ii]. lia.
      * intros d Hd. rewrite coord_iadd. pose proof (dec_nloc _ _ _ _ _ HD r d Hr ltac:(lia)) as En.
        pose proof (dec_cmin _ _ _ _ _ HD r d Hr ltac:(lia)) as Ec. pose proof (cm_nonneg _ _ _ _ _ HD d (coord d r) ltac:(lia) ltac:(apply Hr; lia)).
        pose proof (cm_max _ _ _ _ _ HD d (coord d r) ltac:(lia) ltac:(apply Hr; lia)).
        destruct d as [|[|[|d]]]; cbn [coord] in *; lia.
    + right. destruct Hv as [<-|[]]. split; [|reflexivity]. pose proof (Hr 0%nat ltac:(lia)) as H0. cbn [coord] in H0. lia.
  - intros [(c & [H0 Hc] & ->)|[Hp ->]].
    + destruct (serial_layout K N dims X L HL) as (L1 & HL1).
      assert (Hs : sel K L1 0 rank0 (I3 (ii N + ng - 1) (jj c) (kk c)) = true).
      { apply (sel_owned _ _ _ _ _ _ _ HL1 (rank0_ok nd)). intros d Hd. rewrite (s_nloc _ _ _ _ HL1) by assumption.
        pose proof (dcp_n HD (d := d) Hd). destruct d as [|[|[|d]]]; [rewrite gh0; cbn [coord ii]; cbn [coord] in *; lia|specialize (Hc 1%nat ltac:(lia)); exact Hc|specialize (Hc 2%nat ltac:(lia)); exact Hc|lia]. }
      destruct (covered K N dims X L L1 HL HL1 0 _ ltac:(lia) Hs) as (r & c' & Hr & Hs' & Ec).
      apply (sel_owned _ _ _ _ _ _ _ HL Hr) in Hs'.
      assert (E : ii r = (ii p - 1)%Z).
      { pose proof (Hr 0%nat ltac:(lia)) as R0. cbn [coord] in R0. destruct (Z.eq_dec (ii r) (ii p - 1)) as [|Hne]; [assumption|exfalso].
        pose proof (Hs' 0%nat ltac:(lia)) as O0. rewrite gh0 in O0. apply (f_equal ii) in Ec. cbn [iadd ii] in Ec.
        pose proof (dec_cmin _ _ _ _ _ HD r 0%nat Hr ltac:(lia)) as C1. pose proof (dec_nloc _ _ _ _ _ HD r 0%nat Hr ltac:(lia)) as C2.
        pose proof (cm_succ _ _ _ _ _ HD 0%nat (ii r) ltac:(lia)) as C3.
        pose proof (cm_mono _ _ _ _ _ HD 0%nat (ii r + 1)%Z (ii p - 1)%Z ltac:(lia) ltac:(lia)) as C4.
        assert (Hl : process nd dims (I3 (ii p - 1) 0 0)).
        { intros d Hd. pose proof (dcp_dims HD (d := d) Hd). destruct d as [|[|[|d]]]; cbn [coord ii jj kk] in *; lia. }
        pose proof (ro_thick HR _ Hl 0%nat ltac:(pose proof nd1; lia)) as T. pose proof (last_column _ Hl eq_refl) as T2.
        pose proof (dec_cmin _ _ _ _ _ HD _ 0%nat Hl ltac:(lia)) as C5. cbn [coord ii] in *. lia. }
      pose proof (last_column r Hr E) as EL. pose proof (nloc_last r Hr E) as EN. 
      exists r. split; [now apply Hrk|]. replace (ii r =? ii p - 1)%Z with true by lia.
      assert (Ecc : c = iadd (cmn r) (I3 (ii c - ii (cmn r)) (jj c') (kk c'))).
      { pose proof (f_equal jj Ec) as Ej. pose proof (f_equal kk Ec) as Ek. cbn [iadd jj kk] in Ej, Ek. destruct c as [ci cj ck]. unfold iadd. cbn [ii jj kk] in *. f_equal; lia. }
      assert (G : forall d, (d < 3)%nat -> coord d (nghost_of nd ng) = ghosts nd ng d) by (intros d Hd; unfold nghost_of; now rewrite coord_mk3).
      pose proof (G 0%nat ltac:(lia)) as G0. pose proof (G 1%nat ltac:(lia)) as G1. pose proof (G 2%nat ltac:(lia)) as G2. rewrite gh0 in G0. cbn [coord] in G0, G1, G2.
      apply in_map_iff. exists (I3 (ii c - ii (cmn r)) (jj c') (kk c')).
      pose proof (Hs' 1%nat ltac:(lia)) as O1. pose proof (Hs' 2%nat ltac:(lia)) as O2. cbn [coord] in O1, O2. split.
      * unfold radial_velocity. rewrite Ecc at 3 4. rewrite <- (HW r Hr); [reflexivity|].
        intros d Hd. rewrite (dec_nwg _ _ _ _ _ HD) by assumption. pose proof (ghosts_nonneg _ _ _ _ _ HD d) as Hg.
        pose proof (dec_nloc _ _ _ _ _ HD r d Hr Hd) as En. rewrite <- En. pose proof gh0. destruct d as [|[|[|d]]]; cbn [coord ii jj kk] in *; lia.
      * apply in_box_cells. unfold in_box. cbn [iadd ii jj kk]. rewrite G0, G1, G2. lia.
    + exists (I3 0 0 0). split.
      * apply Hrk. intros d Hd. pose proof (dcp_dims HD (d := d) Hd). destruct d as [|[|[|d]]]; cbn [coord ii jj kk] in *; lia.
      * cbn [ii]. replace (0 =? ii p - 1)%Z with false by lia. left. reflexivity.
Qed.

Lemma v1d_fires thr b : v1d_criterion K L cs thr W = Ok b ->
  b = true <-> (exists c, in_shell K N (ii N - cs) (ii N + ng) c /\ thr <= radial_velocity (S c)) \/ ((1 < ii p)%Z /\ thr <= 0).
Proof.
  unfold v1d_criterion. destruct (_ <? cs)%Z; [discriminate|]. intros [= <-].
  assert (E : (exists c, in_shell K N (ii N - cs) (ii N + ng) c /\ thr <= radial_velocity (S c)) \/ ((1 < ii p)%Z /\ thr <= 0) <->
    exists v, In v (v1d_values K L cs W) /\ thr <= v).
  { split.
    - intros [(c & Hc & Hv)|[Hp Hv]]; [exists (radial_velocity (S c))|exists 0]; (split; [apply v1d_in|exact Hv]); [left; eauto|right; auto].
    - intros (v & Hv & Ht). apply v1d_in in Hv. destruct Hv as [(c & Hc & ->)|[Hp ->]]; [left; eauto|right; auto]. }
  rewrite E. clear E. destruct (max_list _) as [v|] eqn:Em.
  - apply max_list_some in Em. destruct Em as [M1 M2]. rewrite rleb_true. split; [eauto|]. intros (w & Hw & Ht). specialize (M2 w Hw). lra.
  - apply max_list_none in Em. rewrite Em. split; [discriminate|]. intros (w & [] & _).
Qed.
End V1d.

Lemma v1d_passes K N dims X L cs thr W : runs_on K N dims X L -> forall r, process (k_nd K) dims r ->
  ii r = (ii (mpi_dims (k_nd K) dims) - 1)%Z ->
  ((exists what, v1d_criterion K L cs thr W = Throw what) <-> (ii (d_nloc (l_dec L r)) < cs)%Z) /\
  ((exists b, v1d_criterion K L cs thr W = Ok b) <-> (cs <= ii (d_nloc (l_dec L r)))%Z).
Proof.
  intros HR r Hr E. rewrite (nloc_last K N dims X L HR r Hr E). unfold v1d_criterion. rewrite (lo_dims (ro_layout HR)).
  destruct (Z.ltb_spec (ii (d_nloc (l_dec L (I3 (ii (mpi_dims (k_nd K) dims) - 1) 0 0)))) cs) as [H|H].
  - split; (split; [intros (? & Q); try discriminate; lia|intros; eauto; lia]).
  - split; (split; [intros (? & Q); try discriminate; lia|intros; eauto; lia]).
Qed.

Lemma v1d_ok_pass K L cs thr W b : v1d_criterion K L cs thr W = Ok b -> (cs <= ii (d_nloc (l_dec L (I3 (ii (l_dims L) - 1) 0 0))))%Z.
Proof. unfold v1d_criterion. destruct (Z.ltb_spec (ii (d_nloc (l_dec L (I3 (ii (l_dims L) - 1) 0 0)))) cs); [discriminate|auto]. Qed.

(** Global data: the same decision on all process grids that pass the check. *)
Lemma v1d_same K N dims dims' X L L' cs thr W W' S b b' : runs_on K N dims X L -> runs_on K N dims' X L' -> 0 < thr ->
  slice_of (k_nd K) dims (l_dec L) W S -> slice_of (k_nd K) dims' (l_dec L') W' S ->
  v1d_criterion K L cs thr W = Ok b -> v1d_criterion K L' cs thr W' = Ok b' -> b = b'.
Proof.
  intros HR HR' Ht HW HW' H H'. pose proof (v1d_fires K N dims X L HR cs W S HW (v1d_ok_pass _ _ _ _ _ _ H) thr b H) as F.
  pose proof (v1d_fires K N dims' X L' HR' cs W' S HW' (v1d_ok_pass _ _ _ _ _ _ H') thr b' H') as F'.
  destruct b, b'; try reflexivity; exfalso.
  - destruct (proj1 F eq_refl) as [Q|[_ Q]]; [|lra]. pose proof (proj2 F' (or_introl Q)). discriminate.
  - destruct (proj1 F' eq_refl) as [Q|[_ Q]]; [|lra]. pose proof (proj2 F (or_introl Q)). discriminate.
Qed.
