(** * Proofs about the mesh model (C01, C02). *)
From Verif Require Import Base ModelMesh SpecMesh ProofBase.
From Coq Require Import ZifyBool ZifyNat.
Local Open Scope Z_scope.

(** ** One-dimensional decomposition *)

Section OneDim.
Variables N p : Z.
Hypothesis HN : 0 <= N.
Hypothesis Hp : 1 <= p.

Let q := N / p.
Let m := N mod p.

Lemma decomp_eq : N = p * q + m /\ 0 <= m < p /\ 0 <= q.
Proof.
  unfold q, m. pose proof (Z.div_mod N p ltac:(lia)).
  pose proof (Z.mod_pos_bound N p ltac:(lia)).
  pose proof (Z.div_pos N p HN ltac:(lia)). lia.
Qed.

Lemma nloc_eq r : decomp_nloc N p r = q + (if r <? m then 1 else 0).
Proof.
  unfold decomp_nloc, q, m.
  rewrite Z.quot_div_nonneg, Z.rem_mod_nonneg by lia.
  destruct (r <? N mod p); lia.
Qed.

Lemma cmin_eq r : decomp_cmin N p r = q * r + Z.min r m.
Proof.
  unfold decomp_cmin, q, m.
  rewrite Z.quot_div_nonneg, Z.rem_mod_nonneg by lia.
  destruct (r <? N mod p) eqn:E; lia.
Qed.

Lemma nloc_nonneg r : 0 <= decomp_nloc N p r.
Proof. rewrite nloc_eq. destruct decomp_eq as (? & ? & ?). destruct (r <? m); lia. Qed.

Lemma cmin_0 : decomp_cmin N p 0 = 0.
Proof. rewrite cmin_eq. destruct decomp_eq as (? & ? & ?). nia. Qed.

Lemma cmin_p : decomp_cmin N p p = N.
Proof. rewrite cmin_eq. destruct decomp_eq as (? & ? & ?). nia. Qed.

Lemma cmin_succ r : decomp_cmin N p (r + 1) = decomp_cmin N p r + decomp_nloc N p r.
Proof.
  rewrite !cmin_eq, nloc_eq. destruct decomp_eq as (? & ? & ?).
  destruct (r <? m) eqn:E; lia.
Qed.

Lemma cmin_mono r s : r <= s -> decomp_cmin N p r <= decomp_cmin N p s.
Proof. rewrite !cmin_eq. destruct decomp_eq as (? & ? & ?). intros. nia. Qed.

Lemma cmin_nonneg r : 0 <= r -> 0 <= decomp_cmin N p r.
Proof. intros. rewrite <- cmin_0. apply cmin_mono. lia. Qed.

Lemma cmax_le r : r < p -> decomp_cmin N p r + decomp_nloc N p r <= N.
Proof. intros. rewrite <- cmin_succ. rewrite <- cmin_p at 2. apply cmin_mono. lia. Qed.

Lemma owner_exists g : 0 <= g < N ->
  exists r, 0 <= r < p /\ decomp_cmin N p r <= g < decomp_cmin N p r + decomp_nloc N p r.
Proof.
  intros Hg.
  assert (H : forall n : nat, g < decomp_cmin N p (Z.of_nat n) ->
    exists r, 0 <= r < Z.of_nat n /\
              decomp_cmin N p r <= g < decomp_cmin N p r + decomp_nloc N p r).
  { induction n as [|n IH]; intros H.
    - cbn in H. rewrite cmin_0 in H. lia.
    - destruct (Z_lt_le_dec g (decomp_cmin N p (Z.of_nat n))) as [Hlt|Hge].
      + destruct (IH Hlt) as (r & Hr & Hb). exists r. split; [lia|assumption].
      + exists (Z.of_nat n). split; [lia|].
        rewrite Nat2Z.inj_succ in H. rewrite <- Z.add_1_r, cmin_succ in H. lia. }
  destruct (H (Z.to_nat p)) as (r & Hr & Hb).
  - rewrite Z2Nat.id by lia. rewrite cmin_p. lia.
  - exists r. split; [lia|assumption].
Qed.

Lemma owner_unique g r s :
  decomp_cmin N p r <= g < decomp_cmin N p r + decomp_nloc N p r ->
  decomp_cmin N p s <= g < decomp_cmin N p s + decomp_nloc N p s -> r = s.
Proof.
  intros Hr Hs. rewrite <- cmin_succ in Hr, Hs.
  destruct (Z.lt_trichotomy r s) as [H|[H|H]]; auto; exfalso.
  - pose proof (cmin_mono (r + 1) s ltac:(lia)). lia.
  - pose proof (cmin_mono (s + 1) r ltac:(lia)). lia.
Qed.

Lemma nloc_balanced r s : Z.abs (decomp_nloc N p r - decomp_nloc N p s) <= 1.
Proof. rewrite !nloc_eq. destruct (r <? m), (s <? m); lia. Qed.

End OneDim.

(** ** The three-dimensional decomposition *)

Lemma mpi_dims_coord nd dims d : (d < 3)%nat ->
  coord d (mpi_dims nd dims) = if Nat.ltb d nd then coord d dims else 1.
Proof. intros. unfold mpi_dims. now rewrite coord_mk3. Qed.

Lemma range_check_ok cmin cmax d :
  range_check cmin cmax d = Ok tt <-> (0 <= coord d cmin <= coord d cmax).
Proof.
  unfold range_check.
  destruct (coord d cmin <? 0) eqn:E1, (coord d cmax <? 0) eqn:E2,
           (coord d cmax <? coord d cmin) eqn:E3; cbn;
    split; intros H; try discriminate; try reflexivity; lia.
Qed.

Lemma range_check_throw cmin cmax d :
  range_check cmin cmax d <> Ok tt -> exists w, range_check cmin cmax d = Throw w.
Proof.
  unfold range_check. destruct (_ || _)%bool; eauto. destruct (_ <? _); eauto. congruence.
Qed.

Lemma make_range_ok_iff nd cmin cmax ng :
  (exists r, make_range nd cmin cmax ng = Ok r) <->
  (forall d, (d < 3)%nat -> 0 <= coord d cmin <= coord d cmax).
Proof.
  rewrite (forall3 (fun d => 0 <= coord d cmin <= coord d cmax)).
  unfold make_range. split.
  - intros (r & H).
    destruct (range_check cmin cmax 0) as [[]| |] eqn:E0; cbn in H; try discriminate.
    destruct (range_check cmin cmax 1) as [[]| |] eqn:E1; cbn in H; try discriminate.
    destruct (range_check cmin cmax 2) as [[]| |] eqn:E2; cbn in H; try discriminate.
    apply range_check_ok in E0, E1, E2. auto.
  - intros (H0 & H1 & H2).
    apply range_check_ok in H0, H1, H2. rewrite H0, H1, H2. cbn. eauto.
Qed.

Lemma make_range_ok_val nd cmin cmax ng r :
  make_range nd cmin cmax ng = Ok r -> r = mkRange cmin cmax ng 0 (nghost_of nd ng).
Proof.
  unfold make_range.
  destruct (range_check cmin cmax 0) as [[]| |]; cbn; try discriminate.
  destruct (range_check cmin cmax 1) as [[]| |]; cbn; try discriminate.
  destruct (range_check cmin cmax 2) as [[]| |]; cbn; try discriminate.
  now intros [= <-].
Qed.

Lemma make_range_not_ub nd cmin cmax ng :
  (exists r, make_range nd cmin cmax ng = Ok r) \/ (exists w, make_range nd cmin cmax ng = Throw w).
Proof.
  unfold make_range.
  destruct (range_check cmin cmax 0) as [[]| |] eqn:E0; cbn; eauto;
    [|now destruct (range_check_throw cmin cmax 0 ltac:(congruence)) as (? & ?); congruence].
  destruct (range_check cmin cmax 1) as [[]| |] eqn:E1; cbn; eauto;
    [|now destruct (range_check_throw cmin cmax 1 ltac:(congruence)) as (? & ?); congruence].
  destruct (range_check cmin cmax 2) as [[]| |] eqn:E2; cbn; eauto;
    now destruct (range_check_throw cmin cmax 2 ltac:(congruence)) as (? & ?); congruence.
Qed.

(** The decomposition computed for a valid process. *)
Definition decomp_of (nd : nat) (nglob dims : idx) (ng : Z) (rank : idx) : decomp :=
  let nloc := mk3 (fun d => decomp_nloc (coord d nglob) (coord d dims) (coord d rank)) in
  let cmin := mk3 (fun d => decomp_cmin (coord d nglob) (coord d dims) (coord d rank)) in
  mkDecomp nloc (mk3 (fun d => coord d nloc + 2 * coord d (nghost_of nd ng)))
    (mkRange cmin (mk3 (fun d => coord d cmin + coord d nloc)) ng 0 (nghost_of nd ng))
    (fun d => (coord d rank =? 0, coord d rank =? coord d dims - 1)).

Lemma mpi_decomposition_ok nd nglob dims0 ng rank :
  (forall d, (d < 3)%nat -> 0 <= coord d nglob) ->
  valid_rank (mpi_dims nd dims0) rank ->
  mpi_decomposition nd nglob dims0 ng rank
  = Ok (decomp_of nd nglob (mpi_dims nd dims0) ng rank).
Proof.
  intros Hn Hr. set (dims := mpi_dims nd dims0) in *.
  unfold mpi_decomposition. fold dims.
  pose proof (Hr 0%nat ltac:(lia)). pose proof (Hr 1%nat ltac:(lia)). pose proof (Hr 2%nat ltac:(lia)).
  assert (E : ((coord 0 dims =? 0) || (coord 1 dims =? 0) || (coord 2 dims =? 0))%bool = false) by lia.
  rewrite E. cbv zeta.
  set (nloc := mk3 (fun d => decomp_nloc (coord d nglob) (coord d dims) (coord d rank))).
  set (cmin := mk3 (fun d => decomp_cmin (coord d nglob) (coord d dims) (coord d rank))).
  set (cmax := mk3 (fun d => coord d cmin + coord d nloc)).
  destruct (make_range_ok_iff nd cmin cmax ng) as [_ Hok].
  destruct Hok as [r Er].
  { intros d Hd. unfold cmax. rewrite coord_mk3 by assumption.
    unfold cmin, nloc. rewrite !coord_mk3 by assumption.
    specialize (Hr d Hd). specialize (Hn d Hd).
    pose proof (cmin_nonneg (coord d nglob) (coord d dims) Hn ltac:(lia) (coord d rank) ltac:(lia)).
    pose proof (nloc_nonneg (coord d nglob) (coord d dims) Hn ltac:(lia) (coord d rank)). lia. }
  rewrite Er. cbn [obind].
  apply make_range_ok_val in Er. subst r. reflexivity.
Qed.

Lemma owner_unique_3d nd nglob dims0 ng g :
  (forall d, (d < 3)%nat -> 0 <= coord d nglob) ->
  (forall d, (d < 3)%nat -> 1 <= coord d (mpi_dims nd dims0)) ->
  global_cell nglob g ->
  exists rank, valid_rank (mpi_dims nd dims0) rank
    /\ (exists dec, mpi_decomposition nd nglob dims0 ng rank = Ok dec
                    /\ in_block (corner_min (d_range dec)) (d_nloc dec) g)
    /\ forall rank' dec', valid_rank (mpi_dims nd dims0) rank' ->
         mpi_decomposition nd nglob dims0 ng rank' = Ok dec' ->
         in_block (corner_min (d_range dec')) (d_nloc dec') g -> rank' = rank.
Proof.
  intros Hn Hd Hg. set (dims := mpi_dims nd dims0) in *.
  assert (Hex : forall d, (d < 3)%nat -> exists r, 0 <= r < coord d dims /\
    decomp_cmin (coord d nglob) (coord d dims) r <= coord d g <
    decomp_cmin (coord d nglob) (coord d dims) r + decomp_nloc (coord d nglob) (coord d dims) r).
  { intros d Hlt. apply owner_exists; auto. }
  destruct (Hex 0%nat ltac:(lia)) as (r0 & Hr0 & Hb0).
  destruct (Hex 1%nat ltac:(lia)) as (r1 & Hr1 & Hb1).
  destruct (Hex 2%nat ltac:(lia)) as (r2 & Hr2 & Hb2).
  set (rank := I3 r0 r1 r2).
  assert (Hv : valid_rank dims rank).
  { unfold valid_rank. apply forall3. cbn. auto. }
  exists rank. split; [assumption|]. split.
  - exists (decomp_of nd nglob dims ng rank). split.
    + now apply mpi_decomposition_ok.
    + unfold in_block, decomp_of. cbn [d_range corner_min d_nloc].
      intros d Hlt. rewrite !coord_mk3 by assumption.
      destruct d as [|[|[|d]]]; cbn in *; try assumption; lia.
  - intros rank' dec' Hv' Hdec' Hin.
    rewrite mpi_decomposition_ok in Hdec' by assumption.
    injection Hdec' as <-. apply idx_ext. intros d Hlt.
    specialize (Hin d Hlt). unfold decomp_of in Hin. cbn [d_range corner_min d_nloc] in Hin.
    rewrite !coord_mk3 in Hin by assumption.
    apply (owner_unique (coord d nglob) (coord d dims) (Hn d Hlt) (Hd d Hlt) (coord d g)).
    + exact Hin.
    + destruct d as [|[|[|d]]]; cbn in *; try assumption; lia.
Qed.

(** ** Ranges (C02) *)

Lemma with_ghosts_throw_iff r g : (exists w, with_ghosts r g = Throw w) <-> rng_ng r < g.
Proof.
  unfold with_ghosts. destruct (rng_ng r <? g) eqn:E; split; intros H; eauto; try lia.
  destruct H; discriminate.
Qed.

Lemma with_ghosts_ok r g : g <= rng_ng r ->
  with_ghosts r g = Ok (mkRange (corner_min r) (corner_max r) (rng_ng r) g (rng_nghost r)).
Proof. intros. unfold with_ghosts. destruct (rng_ng r <? g) eqn:E; [lia|reflexivity]. Qed.

Lemma cells_with_ghosts nd cmin cmax ng r g rg c :
  make_range nd cmin cmax ng = Ok r -> with_ghosts r g = Ok rg ->
  In c (cells_of nd rg) <->
  forall d, (d < 3)%nat ->
    if Nat.ltb d nd
    then ng - g <= coord d c < ng + (coord d cmax - coord d cmin) + g
    else 0 <= coord d c < coord d cmax - coord d cmin.
Proof.
  intros Hr Hrg. apply make_range_ok_val in Hr. subst r.
  unfold with_ghosts in Hrg. cbn [rng_ng] in Hrg.
  destruct (ng <? g) eqn:E; [discriminate|]. injection Hrg as <-.
  unfold cells_of. rewrite in_box_cells, in_box_coord.
  unfold cell_begin, cell_end, nghost_of. cbn [rng_nghost rng_ngeff corner_max corner_min].
  split; intros H d Hd; specialize (H d Hd); rewrite !coord_mk3 in * by assumption;
    destruct (Nat.ltb d nd) eqn:El; lia.
Qed.

Lemma in_cells_iff nd r c : in_cells nd r c = true <-> In c (cells_of nd r).
Proof. unfold in_cells, cells_of. rewrite in_boxb_spec, in_box_cells. reflexivity. Qed.

Lemma cells_of_NoDup nd r : NoDup (cells_of nd r).
Proof. apply NoDup_box_cells. Qed.

Lemma make_range_throw_iff nd cmin cmax ng :
  (exists w, make_range nd cmin cmax ng = Throw w) <->
  exists d, (d < 3)%nat /\ (coord d cmin < 0 \/ coord d cmax < 0 \/ coord d cmax < coord d cmin).
Proof.
  split.
  - intros (w & Hw).
    assert (Hn : ~ (forall d, (d < 3)%nat -> 0 <= coord d cmin <= coord d cmax)).
    { intros H. apply (make_range_ok_iff nd cmin cmax ng) in H. destruct H. congruence. }
    rewrite (forall3 (fun d => 0 <= coord d cmin <= coord d cmax)) in Hn.
    destruct (Z_le_dec 0 (coord 0 cmin)); [|exists 0%nat; lia].
    destruct (Z_le_dec (coord 0 cmin) (coord 0 cmax)); [|exists 0%nat; lia].
    destruct (Z_le_dec 0 (coord 1 cmin)); [|exists 1%nat; lia].
    destruct (Z_le_dec (coord 1 cmin) (coord 1 cmax)); [|exists 1%nat; lia].
    destruct (Z_le_dec 0 (coord 2 cmin)); [|exists 2%nat; lia].
    destruct (Z_le_dec (coord 2 cmin) (coord 2 cmax)); [|exists 2%nat; lia].
    exfalso. apply Hn. lia.
  - intros (d & Hd & H).
    destruct (make_range_not_ub nd cmin cmax ng) as [Hok|]; auto.
    pose proof (proj1 (make_range_ok_iff nd cmin cmax ng) Hok) as Hall.
    specialize (Hall d Hd). lia.
Qed.

Lemma decomposition_blocks nd nglob dims0 ng :
  (forall d, (d < 3)%nat -> 0 <= coord d nglob) ->
  (forall d, (d < 3)%nat -> 1 <= coord d (mpi_dims nd dims0)) ->
  exists dec : idx -> decomp,
    (forall rank, valid_rank (mpi_dims nd dims0) rank ->
       mpi_decomposition nd nglob dims0 ng rank = Ok (dec rank)) /\
    (* blocks are contiguous intervals following each other in rank order from 0 to N *)
    (forall rank d, valid_rank (mpi_dims nd dims0) rank -> (d < 3)%nat ->
       let b := coord d (corner_min (d_range (dec rank))) in
       let n := coord d (d_nloc (dec rank)) in
       0 <= n
       /\ coord d (corner_max (d_range (dec rank))) = b + n
       /\ (coord d rank = 0 -> b = 0)
       /\ (coord d rank = coord d (mpi_dims nd dims0) - 1 -> b + n = coord d nglob)
       /\ (forall rank', valid_rank (mpi_dims nd dims0) rank' ->
             coord d rank' = coord d rank + 1 ->
             coord d (corner_min (d_range (dec rank'))) = b + n)
       /\ (forall rank', valid_rank (mpi_dims nd dims0) rank' ->
             Z.abs (coord d (d_nloc (dec rank')) - n) <= 1)
       /\ (fst (d_border (dec rank) d) = true <-> coord d rank = 0)
       /\ (snd (d_border (dec rank) d) = true <->
             coord d rank = coord d (mpi_dims nd dims0) - 1)
       /\ coord d (d_nwg (dec rank))
          = n + 2 * (if Nat.ltb d nd then ng else 0)).
Proof.
  intros Hn Hp. set (dims := mpi_dims nd dims0) in *.
  exists (decomp_of nd nglob dims ng). split.
  { intros rank Hr. now apply mpi_decomposition_ok. }
  intros rank d Hr Hd. unfold decomp_of.
  cbn [d_range corner_min corner_max d_nloc d_border d_nwg fst snd].
  rewrite !coord_mk3 by assumption. cbv zeta.
  specialize (Hn d Hd). specialize (Hp d Hd). pose proof (Hr d Hd) as Hrd.
  pose proof (cmin_0 _ _ Hn Hp) as H0. pose proof (cmin_p _ _ Hn Hp) as HP.
  pose proof (cmin_succ _ _ Hn Hp) as HS.
  pose proof (nloc_nonneg _ _ Hn Hp (coord d rank)) as Hnn.
  repeat match goal with |- _ /\ _ => split end.
  - assumption.
  - reflexivity.
  - intros ->. exact H0.
  - intros E. rewrite <- HS, E. etransitivity; [|exact HP]. f_equal. lia.
  - intros rank' Hr' E. rewrite coord_mk3 by assumption. rewrite E. apply HS.
  - intros rank' Hr'. rewrite coord_mk3 by assumption. now apply nloc_balanced.
  - rewrite Z.eqb_eq. reflexivity.
  - rewrite Z.eqb_eq. reflexivity.
  - unfold nghost_of. rewrite coord_mk3 by assumption. reflexivity.
Qed.

Lemma owned_cells_are_global nd nglob dims0 ng rank dec g :
  (forall d, (d < 3)%nat -> 0 <= coord d nglob) ->
  valid_rank (mpi_dims nd dims0) rank ->
  mpi_decomposition nd nglob dims0 ng rank = Ok dec ->
  in_block (corner_min (d_range dec)) (d_nloc dec) g -> global_cell nglob g.
Proof.
  intros Hn Hr Hd Hin d Hlt. rewrite mpi_decomposition_ok in Hd by assumption.
  injection Hd as <-. specialize (Hin d Hlt). unfold decomp_of in Hin.
  cbn [d_range corner_min d_nloc] in Hin. rewrite !coord_mk3 in Hin by assumption.
  specialize (Hr d Hlt). specialize (Hn d Hlt).
  pose proof (cmin_nonneg _ (coord d (mpi_dims nd dims0)) Hn ltac:(lia) (coord d rank) ltac:(lia)).
  pose proof (cmax_le _ (coord d (mpi_dims nd dims0)) Hn ltac:(lia) (coord d rank) ltac:(lia)). lia.
Qed.

Lemma no_all_ghosts_cells nd cmin cmax ng r :
  make_range nd cmin cmax ng = Ok r -> 0 <= ng ->
    (exists r0, no_ghosts r = Ok r0 /\ forall c, In c (cells_of nd r0) <->
       forall d, (d < 3)%nat ->
         if Nat.ltb d nd then ng <= coord d c < ng + (coord d cmax - coord d cmin)
         else 0 <= coord d c < coord d cmax - coord d cmin) /\
    (exists ra, all_ghosts r = Ok ra /\ forall c, In c (cells_of nd ra) <->
       forall d, (d < 3)%nat ->
         0 <= coord d c < coord d cmax - coord d cmin + (if Nat.ltb d nd then 2 * ng else 0)).
Proof.
  intros Hr Hng. assert (Eng : rng_ng r = ng).
  { rewrite (make_range_ok_val _ _ _ _ _ Hr). reflexivity. }
  split.
  - eexists. split; [apply with_ghosts_ok; lia|]. intros c.
    rewrite (cells_with_ghosts nd cmin cmax ng r 0 _ c Hr) by (apply with_ghosts_ok; lia).
    split; intros H d Hd; specialize (H d Hd); destruct (Nat.ltb d nd); lia.
  - eexists. split; [apply with_ghosts_ok; lia|]. intros c.
    rewrite (cells_with_ghosts nd cmin cmax ng r (rng_ng r) _ c Hr) by (apply with_ghosts_ok; lia).
    split; intros H d Hd; specialize (H d Hd); destruct (Nat.ltb d nd); lia.
Qed.

Lemma with_ghosts_outcomes nd cmin cmax ng r g :
  make_range nd cmin cmax ng = Ok r ->
    ((exists w, with_ghosts r g = Throw w) <-> ng < g) /\
    (g <= ng -> exists rg, with_ghosts r g = Ok rg).
Proof.
  intros Hr. assert (Eng : rng_ng r = ng).
  { rewrite (make_range_ok_val _ _ _ _ _ Hr). reflexivity. }
  rewrite <- Eng. split; [apply with_ghosts_throw_iff|].
  intros Hg. eexists. now apply with_ghosts_ok.
Qed.
