(** * Proofs about coordinates and geometry (C03, C04, C05). *)
From Coquelicot Require Import Coquelicot.
From Verif Require Import Base RBase ModelMesh ModelGeom SpecMesh SpecGeom ProofBase ProofR ProofMesh.
From Coq Require Import ZifyBool ZifyNat.
Local Open Scope R_scope.

(** ** C03 *)

Lemma subview1_ok x b e : (0 <= b <= e)%Z -> (e <= a_ext x)%Z ->
  subview1 x b e = Ok (mkArr1 (e - b) (fun i => a_at x (b + i)%Z)).
Proof. intros. unfold subview1. destruct (_ && _ && _)%Z%bool eqn:E; [reflexivity|lia]. Qed.

Lemma set_grid_1d_ok nd nglob dims0 ng rank dec xglob d :
  (forall e, (e < 3)%nat -> (0 <= coord e nglob)%Z) -> (0 <= ng)%Z ->
  valid_rank (mpi_dims nd dims0) rank ->
  mpi_decomposition nd nglob dims0 ng rank = Ok dec ->
  global_coords nd nglob ng xglob -> (d < 3)%nat ->
  set_grid_1d dec d (xglob d) =
    Ok (mkArr1 (coord d (d_nwg dec) + 1)
               (fun i => a_at (xglob d) (coord d (corner_min (d_range dec)) + i)%Z)).
Proof.
  intros Hn Hng Hr Hdec Hext Hd. rewrite mpi_decomposition_ok in Hdec by assumption.
  injection Hdec as <-. unfold set_grid_1d, decomp_of.
  cbn [d_range corner_min d_nwg]. rewrite !coord_mk3 by assumption.
  specialize (Hr d Hd). specialize (Hn d Hd). specialize (Hext d Hd).
  set (dims := mpi_dims nd dims0) in *.
  pose proof (cmin_nonneg _ (coord d dims) Hn ltac:(lia) (coord d rank) ltac:(lia)).
  pose proof (cmax_le _ (coord d dims) Hn ltac:(lia) (coord d rank) ltac:(lia)).
  pose proof (nloc_nonneg _ (coord d dims) Hn ltac:(lia) (coord d rank)).
  unfold nghost_of. rewrite coord_mk3 by assumption.
  rewrite subview1_ok.
  - f_equal. f_equal. lia.
  - destruct (Nat.ltb d nd); lia.
  - rewrite Hext. destruct (Nat.ltb d nd); lia.
Qed.

Lemma set_grid_ok nd nglob dims0 ng rank dec xglob :
  (forall e, (e < 3)%nat -> (0 <= coord e nglob)%Z) -> (0 <= ng)%Z ->
  valid_rank (mpi_dims nd dims0) rank ->
  mpi_decomposition nd nglob dims0 ng rank = Ok dec ->
  global_coords nd nglob ng xglob ->
  exists m, set_grid dec xglob = Ok m /\
    forall d i, (d < 3)%nat ->
      m d i = a_at (xglob d) (coord d (corner_min (d_range dec)) + i)%Z.
Proof.
  intros Hn Hng Hr Hdec Hext.
  pose proof (set_grid_1d_ok nd nglob dims0 ng rank dec xglob) as H.
  unfold set_grid.
  rewrite (H 0%nat), (H 1%nat), (H 2%nat); auto; try lia. cbn [obind].
  eexists. split; [reflexivity|].
  intros d i Hd. destruct d as [|[|[|d]]]; cbn; try reflexivity; lia.
Qed.

Lemma ds_agree g nd m m' c c' d :
  (forall e, (e < 3)%nat -> m e (coord e c) = m' e (coord e c') /\
                           m e (coord e c + 1)%Z = m' e (coord e c' + 1)%Z) ->
  ds g nd m c d = ds g nd m' c' d.
Proof.
  intros H.
  destruct (H 0%nat ltac:(lia)) as [A0 B0]. destruct (H 1%nat ltac:(lia)) as [A1 B1].
  destruct (H 2%nat ltac:(lia)) as [A2 B2]. cbn [coord] in *.
  destruct g; cbn [ds].
  - unfold cart_ds, mdx. cbn [coord]. rewrite A0, B0, A1, B1, A2, B2. reflexivity.
  - unfold sph_ds, sph_dcos, mdx. rewrite A0, B0, A1, B1, A2, B2. reflexivity.
Qed.

Lemma dv_agree g nd m m' c c' :
  (forall e, (e < 3)%nat -> m e (coord e c) = m' e (coord e c') /\
                           m e (coord e c + 1)%Z = m' e (coord e c' + 1)%Z) ->
  dv g nd m c = dv g nd m' c'.
Proof.
  intros H.
  destruct (H 0%nat ltac:(lia)) as [A0 B0]. destruct (H 1%nat ltac:(lia)) as [A1 B1].
  destruct (H 2%nat ltac:(lia)) as [A2 B2]. cbn [coord] in *.
  destruct g; cbn [dv].
  - unfold cart_dv, mdx. rewrite A0, B0, A1, B1, A2, B2. reflexivity.
  - unfold sph_dv, sph_dcos, mdx. rewrite A0, B0, A1, B1, A2, B2. reflexivity.
Qed.

(** Two processes that hold the same global cell agree on everything geometric about it. *)
Lemma same_mesh nd nglob dims0 ng xglob rank rank' dec dec' m m' c c' :
  (forall e, (e < 3)%nat -> (0 <= coord e nglob)%Z) -> (0 <= ng)%Z ->
  global_coords nd nglob ng xglob ->
  valid_rank (mpi_dims nd dims0) rank -> valid_rank (mpi_dims nd dims0) rank' ->
  mpi_decomposition nd nglob dims0 ng rank = Ok dec ->
  mpi_decomposition nd nglob dims0 ng rank' = Ok dec' ->
  set_grid dec xglob = Ok m -> set_grid dec' xglob = Ok m' ->
  iadd (corner_min (d_range dec)) c = iadd (corner_min (d_range dec')) c' ->
  (forall d, (d < 3)%nat ->
     m d (coord d c) = m' d (coord d c') /\
     m d (coord d c + 1)%Z = m' d (coord d c' + 1)%Z /\
     mdx m d (coord d c) = mdx m' d (coord d c') /\
     mxc m d (coord d c) = mxc m' d (coord d c')) /\
  (forall g d, ds g nd m c d = ds g nd m' c' d) /\
  (forall g, dv g nd m c = dv g nd m' c').
Proof.
  intros Hn Hng Hext Hr Hr' Hdec Hdec' Hm Hm' Hc.
  destruct (set_grid_ok nd nglob dims0 ng rank dec xglob) as (m1 & E1 & H1); auto.
  destruct (set_grid_ok nd nglob dims0 ng rank' dec' xglob) as (m2 & E2 & H2); auto.
  assert (m1 = m) by congruence. assert (m2 = m') by congruence. subst m1 m2.
  assert (Hcd : forall d, (d < 3)%nat ->
    (coord d (corner_min (d_range dec)) + coord d c
     = coord d (corner_min (d_range dec')) + coord d c')%Z).
  { intros d Hd. unfold iadd in Hc. injection Hc as C0 C1 C2.
    destruct d as [|[|[|d]]]; cbn [coord]; auto; lia. }
  assert (Hall : forall e, (e < 3)%nat -> m e (coord e c) = m' e (coord e c') /\
                           m e (coord e c + 1)%Z = m' e (coord e c' + 1)%Z).
  { intros d Hd. rewrite !H1, !H2 by assumption. specialize (Hcd d Hd).
    split; f_equal; lia. }
  split; [|split].
  - intros d Hd. destruct (Hall d Hd) as [A B]. unfold mdx, mxc. rewrite A, B. auto.
  - intros g d. now apply ds_agree.
  - intros g. now apply dv_agree.
Qed.

(** ** C04 *)

Lemma regular_first nglob ng xmin xmax : a_at (regular_mesh nglob ng xmin xmax) ng = xmin.
Proof. cbn. rewrite Z.sub_diag. lra. Qed.

Lemma regular_last nglob ng xmin xmax : (0 < nglob)%Z ->
  a_at (regular_mesh nglob ng xmin xmax) (ng + nglob) = xmax.
Proof.
  intros H. cbn. replace (ng + nglob - ng)%Z with nglob by lia.
  assert (IZR nglob <> 0) by (apply not_0_IZR; lia). field. assumption.
Qed.

Lemma regular_size nglob ng xmin xmax i :
  a_at (cell_size (regular_mesh nglob ng xmin xmax)) i = (xmax - xmin) / IZR nglob.
Proof.
  cbn. replace (i + 1 - ng)%Z with ((i - ng) + 1)%Z by lia. rewrite plus_IZR. lra.
Qed.

Lemma regular_increasing nglob ng xmin xmax i j : (0 < nglob)%Z -> xmin < xmax -> (i < j)%Z ->
  a_at (regular_mesh nglob ng xmin xmax) i < a_at (regular_mesh nglob ng xmin xmax) j.
Proof.
  intros Hn Hx Hij. cbn.
  assert (0 < IZR nglob) by (apply IZR_lt; lia).
  assert (0 < (xmax - xmin) / IZR nglob) by (apply Rdiv_lt_0_compat; lra).
  apply Rplus_lt_compat_l. apply Rmult_lt_compat_r; [assumption|]. apply IZR_lt. lia.
Qed.

(** ** C05: integrals *)

Ltac eqR := match goal with |- @eq _ ?a ?b => change (@eq R a b) end.

Lemma RInt_cst (a b c : R) : RInt (fun _ => c) a b = (b - a) * c.
Proof. rewrite RInt_const. reflexivity. Qed.

Lemma is_RInt_poly1 a b k : is_RInt (fun x => k * x) a b (k * ((b * b) - (a * a)) / 2).
Proof.
  replace (k * ((b * b) - (a * a)) / 2) with (minus (k * (b * b) / 2) (k * (a * a) / 2))
    by (unfold minus, plus, opp; cbn; lra).
  apply (is_RInt_derive (fun x => k * (x * x) / 2)).
  - intros x _. auto_derive; auto. lra.
  - intros x _. apply (continuous_scal_r k (fun y : R => y)). apply continuous_id.
Qed.

Lemma is_RInt_poly2 a b k : is_RInt (fun x => k * (x * x)) a b (k * ((b * b * b) - (a * a * a)) / 3).
Proof.
  replace (k * ((b * b * b) - (a * a * a)) / 3)
    with (minus (k * (b * b * b) / 3) (k * (a * a * a) / 3))
    by (unfold minus, plus, opp; cbn; lra).
  apply (is_RInt_derive (fun x => k * (x * x * x) / 3)).
  - intros x _. auto_derive; auto. lra.
  - intros x _. apply (continuous_scal_r k (fun y : R => y * y)).
    apply (continuous_mult (fun y : R => y) (fun y : R => y)); apply continuous_id.
Qed.

Lemma is_RInt_sin a b k : is_RInt (fun x => k * sin x) a b (k * (cos a - cos b)).
Proof.
  replace (k * (cos a - cos b)) with (minus (- k * cos b) (- k * cos a))
    by (unfold minus, plus, opp; cbn; lra).
  apply (is_RInt_derive (fun x => - k * cos x)).
  - intros x _. auto_derive; auto. lra.
  - intros x _. apply (continuous_scal_r k sin). apply continuous_sin.
Qed.

Lemma sph_area_r_val r th thp ph php :
  sph_area_r r th thp ph php = r * r * (cos th - cos thp) * (php - ph).
Proof.
  unfold sph_area_r.
  rewrite (RInt_ext _ (fun b => ((php - ph) * (r * r)) * sin b)).
  2: { intros x _. rewrite RInt_cst. eqR. ring. }
  rewrite (is_RInt_unique _ _ _ _ (is_RInt_sin th thp _)). ring.
Qed.

Lemma sph_area_th_val th r rp ph php :
  sph_area_th th r rp ph php = (1 / 2) * ((rp * rp) - (r * r)) * sin th * (php - ph).
Proof.
  unfold sph_area_th.
  rewrite (RInt_ext _ (fun b => ((php - ph) * sin th) * b)).
  2: { intros x _. rewrite RInt_cst. eqR. ring. }
  rewrite (is_RInt_unique _ _ _ _ (is_RInt_poly1 r rp _)). field.
Qed.

Lemma sph_area_ph_val r rp th thp :
  sph_area_ph r rp th thp = (1 / 2) * ((rp * rp) - (r * r)) * (thp - th).
Proof.
  unfold sph_area_ph.
  rewrite (RInt_ext _ (fun b => (thp - th) * b)).
  2: { intros x _. rewrite RInt_cst. eqR. ring. }
  rewrite (is_RInt_unique _ _ _ _ (is_RInt_poly1 r rp _)). field.
Qed.

Lemma sph_volume_val r rp th thp ph php :
  sph_volume r rp th thp ph php
  = (1 / 3) * ((rp * rp * rp) - (r * r * r)) * (cos th - cos thp) * (php - ph).
Proof.
  unfold sph_volume.
  rewrite (RInt_ext _ (fun a => ((php - ph) * (cos th - cos thp)) * (a * a))).
  2: { intros x _.
       rewrite (RInt_ext _ (fun b => ((php - ph) * (x * x)) * sin b)).
       2: { intros y _. rewrite RInt_cst. eqR. ring. }
       rewrite (is_RInt_unique _ _ _ _ (is_RInt_sin th thp _)). eqR. ring. }
  rewrite (is_RInt_unique _ _ _ _ (is_RInt_poly2 r rp _)). field.
Qed.

Lemma spherical_exact nd m c : (1 <= nd <= 3)%nat ->
  let r := m 0%nat (ii c) in
  let rp := m 0%nat (ii c + 1)%Z in
  let '((th, thp), (ph, php)) := sph_bounds nd m c in
  dv Spherical nd m c = sph_volume r rp th thp ph php
  /\ ds Spherical nd m c 0 = sph_area_r r th thp ph php
  /\ ((2 <= nd)%nat -> ds Spherical nd m c 1 = sph_area_th th r rp ph php).
Proof.
  intros Hnd. unfold sph_bounds.
  assert (E : nd = 1%nat \/ nd = 2%nat \/ nd = 3%nat) by lia.
  destruct E as [->|[->| ->]]; cbn [Nat.ltb Nat.leb ds dv sph_ds sph_dv];
    rewrite sph_volume_val, sph_area_r_val, ?sph_area_th_val; unfold sph_dcos, mdx.
  - rewrite cos_0, cos_PI. split; [field|]. split; [field|]. lia.
  - split; [field|]. split; [field|]. intros _. field.
  - split; [field|]. split; [field|]. intros _. field.
Qed.

Lemma cos_decr_strict a b : 0 <= a -> a < b -> b <= PI -> cos b < cos a.
Proof. intros. apply cos_decreasing_1; lra. Qed.

Lemma spherical_positive nd m c : (1 <= nd <= 3)%nat ->
  0 < m 0%nat (ii c) -> m 0%nat (ii c) < m 0%nat (ii c + 1)%Z ->
  0 <= m 1%nat (jj c) -> m 1%nat (jj c) < m 1%nat (jj c + 1)%Z -> m 1%nat (jj c + 1)%Z <= PI ->
  m 2%nat (kk c) < m 2%nat (kk c + 1)%Z ->
  0 < dv Spherical nd m c /\ 0 < ds Spherical nd m c 0 /\
  (0 < m 1%nat (jj c) -> (2 <= nd)%nat -> 0 < ds Spherical nd m c 1) /\
  (nd = 3%nat -> 0 < ds Spherical nd m c 2).
Proof.
  intros Hnd Hr Hrr Hth Hthh Hpi Hph.
  set (r := m 0%nat (ii c)) in *. set (rp := m 0%nat (ii c + 1)%Z) in *.
  pose proof PI_RGT_0 as Hpi0.
  assert (Hcos : 0 < sph_dcos m c).
  { unfold sph_dcos. pose proof (cos_decr_strict _ _ Hth Hthh Hpi). lra. }
  assert (Hr2 : 0 < rp * rp - r * r) by nra.
  assert (Hr3 : 0 < rp * rp * rp - r * r * r) by nra.
  assert (Hrr2 : 0 < r * r) by nra.
  assert (Hdz : 0 < mdx m 2 (kk c)) by (unfold mdx; lra).
  assert (Hdx : 0 < mdx m 0 (ii c)) by (unfold mdx; fold r rp; lra).
  assert (Hdy : 0 < mdx m 1 (jj c)) by (unfold mdx; lra).
  assert (Hsin : 0 < m 1%nat (jj c) -> 0 < sin (m 1%nat (jj c))).
  { intros. apply sin_gt_0; lra. }
  assert (E : nd = 1%nat \/ nd = 2%nat \/ nd = 3%nat) by lia.
  destruct E as [->|[->| ->]]; cbn [ds dv sph_ds sph_dv]; fold r rp;
    (split; [|split; [|split]]); try (intros; lia); try (intros Hp _; specialize (Hsin Hp));
    try (intros _);
    try (apply Rdiv_lt_0_compat; [|lra]); repeat (apply Rmult_lt_0_compat; try lra).
Qed.

Lemma cartesian_positive nd m c :
  (forall d, (d < 3)%nat -> m d (coord d c) < m d (coord d c + 1)%Z) ->
  0 < dv Cartesian nd m c /\ forall d, (d < 3)%nat -> 0 < ds Cartesian nd m c d.
Proof.
  intros H. pose proof (H 0%nat ltac:(lia)) as H0. pose proof (H 1%nat ltac:(lia)) as H1.
  pose proof (H 2%nat ltac:(lia)) as H2. cbn [coord] in *.
  cbn [dv ds]. unfold cart_dv, cart_ds, mdx. cbn [coord]. split.
  - repeat apply Rmult_lt_0_compat; lra.
  - intros d Hd. destruct d as [|[|[|d]]]; [| | |lia]; cbn [Nat.eqb];
    repeat apply Rmult_lt_0_compat; lra.
Qed.

Lemma cartesian_volume_area nd m c d : (d < 3)%nat ->
  dv Cartesian nd m c = mdx m d (coord d c) * ds Cartesian nd m c d.
Proof.
  intros Hd. cbn [dv ds]. unfold cart_dv, cart_ds.
  destruct d as [|[|[|d]]]; [| | |lia]; cbn [Nat.eqb coord]; ring.
Qed.

Lemma merged_volume g nd m d a b c : (1 <= nd <= 3)%nat -> (d < nd)%nat -> (a <= b)%Z ->
  lsum (fun i => dv g nd m (set_coord d i c)) (zrange a b)
  = dv g nd (merged m d a b) (set_coord d a c).
Proof.
  intros Hnd Hd Hab.
  (* the volume is a difference of a primitive in the coordinate of direction d *)
  assert (Hprim : exists F : R -> R,
    (forall i, dv g nd m (set_coord d i c) = F (m d (i + 1)%Z) - F (m d i)) /\
    dv g nd (merged m d a b) (set_coord d a c) = F (m d b) - F (m d a)).
  { assert (Hle : (a <=? a)%Z = true) by lia.
    assert (Hgt : (a + 1 <=? a)%Z = false) by lia.
    assert (E : nd = 1%nat \/ nd = 2%nat \/ nd = 3%nat) by lia.
    destruct g; cbn [dv].
    - assert (Ed : d = 0%nat \/ d = 1%nat \/ d = 2%nat) by lia.
      destruct Ed as [->|[->| ->]]; unfold cart_dv, mdx, merged;
        cbn [set_coord ii jj kk Nat.eqb]; rewrite Hle, Hgt.
      + exists (fun x => x * mdx m 1 (jj c) * mdx m 2 (kk c)). unfold mdx. split; intros; ring.
      + exists (fun x => mdx m 0 (ii c) * x * mdx m 2 (kk c)). unfold mdx. split; intros; ring.
      + exists (fun x => mdx m 0 (ii c) * mdx m 1 (jj c) * x). unfold mdx. split; intros; ring.
    - destruct E as [->|[->| ->]].
      + assert (d = 0%nat) by lia. subst d.
        unfold sph_dv, merged; cbn [set_coord ii jj kk Nat.eqb]. rewrite Hle, Hgt.
        exists (fun x => 4 * PI * (x * x * x) / 3). split; intros; field.
      + assert (Ed : d = 0%nat \/ d = 1%nat) by lia.
        destruct Ed as [->| ->]; unfold sph_dv, sph_dcos, merged;
          cbn [set_coord ii jj kk Nat.eqb]; rewrite Hle, Hgt.
        * exists (fun x => (2 * PI / 3) * (x * x * x)
                           * (cos (m 1%nat (jj c)) - cos (m 1%nat (jj c + 1)%Z))).
          split; intros; ring.
        * exists (fun x => - ((2 * PI / 3) * (m 0%nat (ii c + 1)%Z * m 0%nat (ii c + 1)%Z * m 0%nat (ii c + 1)%Z
                    - m 0%nat (ii c) * m 0%nat (ii c) * m 0%nat (ii c)) * cos x)).
          split; intros; ring.
      + assert (Ed : d = 0%nat \/ d = 1%nat \/ d = 2%nat) by lia.
        destruct Ed as [->|[->| ->]]; unfold sph_dv, sph_dcos, mdx, merged;
          cbn [set_coord ii jj kk Nat.eqb]; rewrite Hle, Hgt.
        * exists (fun x => (1 / 3) * (x * x * x)
                           * (cos (m 1%nat (jj c)) - cos (m 1%nat (jj c + 1)%Z))
                           * (m 2%nat (kk c + 1)%Z - m 2%nat (kk c))).
          split; intros; ring.
        * exists (fun x => - ((1 / 3) * (m 0%nat (ii c + 1)%Z * m 0%nat (ii c + 1)%Z * m 0%nat (ii c + 1)%Z
                    - m 0%nat (ii c) * m 0%nat (ii c) * m 0%nat (ii c)) * cos x
                    * (m 2%nat (kk c + 1)%Z - m 2%nat (kk c)))).
          split; intros; ring.
        * exists (fun x => (1 / 3) * (m 0%nat (ii c + 1)%Z * m 0%nat (ii c + 1)%Z * m 0%nat (ii c + 1)%Z
                    - m 0%nat (ii c) * m 0%nat (ii c) * m 0%nat (ii c))
                    * (cos (m 1%nat (jj c)) - cos (m 1%nat (jj c + 1)%Z)) * x).
          split; intros; ring. }
  destruct Hprim as (F & HF & ->).
  rewrite (lsum_ext _ (fun i => (fun z => F (m d z)) (i + 1)%Z - (fun z => F (m d z)) i)).
  - now rewrite (lsum_zrange_telescope (fun z => F (m d z))).
  - intros i _. apply HF.
Qed.

Lemma azimuthal_area_error m c :
  sph_area_ph (m 0%nat (ii c)) (m 0%nat (ii c + 1)%Z) (m 1%nat (jj c)) (m 1%nat (jj c + 1)%Z)
  - ds Spherical 3 m c 2 = mdx m 0 (ii c) * mdx m 0 (ii c) * mdx m 1 (jj c) / 2.
Proof. rewrite sph_area_ph_val. cbn [ds sph_ds]. unfold mdx. field. Qed.

Lemma azimuthal_area_wrong : exists (m : mesh) (c : idx),
    ds Spherical 3 m c 2 <>
    sph_area_ph (m 0%nat (ii c)) (m 0%nat (ii c + 1)%Z) (m 1%nat (jj c)) (m 1%nat (jj c + 1)%Z).
Proof.
  set (m := (fun _ i => 1 + IZR i) : mesh). exists m, (I3 0 0 0). intros E.
  pose proof (azimuthal_area_error m (I3 0 0 0)) as H.
  rewrite <- E in H. unfold mdx, m in H. cbn [ii jj kk] in H.
  replace (0 + 1)%Z with 1%Z in H by reflexivity. lra.
Qed.

Lemma sizes_and_centres (x : arr1) (i : Z) :
    a_at (cell_size x) i = a_at x (i + 1)%Z - a_at x i /\
    a_at (cell_center x) i - a_at x i = a_at x (i + 1)%Z - a_at (cell_center x) i /\
    a_ext (cell_size x) = (a_ext x - 1)%Z /\ a_ext (cell_center x) = (a_ext x - 1)%Z /\
    forall (m : mesh) (d : nat), (forall j, m d j = a_at x j) ->
      mdx m d i = a_at (cell_size x) i /\ mxc m d i = a_at (cell_center x) i.
Proof.
  cbn. split; [reflexivity|]. split; [lra|]. split; [reflexivity|]. split; [reflexivity|].
  intros m d H. unfold mdx, mxc. now rewrite !H.
Qed.
