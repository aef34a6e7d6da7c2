(** * The kernels commute with translations (C22, C35): what a kernel computes at a cell depends only on
    the neighbourhood of the cell. *)
From Coq Require Import FunctionalExtensionality.
From Verif Require Import Base RBase ModelMesh ModelGeom ModelBoundary ModelHydro ModelScheme ModelStep SpecHydro SpecScheme
  ProofBase ProofR ProofHydro ProofHydro2 ProofScheme ProofMirror.
Local Open Scope R_scope.

Lemma coord_iadd' d a b : coord d (iadd a b) = (coord d a + coord d b)%Z.
Proof. destruct d as [|[|d]]; reflexivity. Qed.
Lemma rindex_iadd k o c : rindex k (iadd o c) = iadd o (rindex k c).
Proof. destruct o, c. unfold rindex, iadd. cbn. f_equal; lia. Qed.
Lemma lindex_iadd k o c : lindex k (iadd o c) = iadd o (lindex k c).
Proof. destruct o, c. unfold lindex, iadd. cbn. f_equal; lia. Qed.

(** The meshes look the same around [c] and [c + o]: coordinates in spherical geometry, cell widths in
    Cartesian geometry. *)
Definition geo_agree (g : geom) (m m' : mesh) (o c : idx) : Prop :=
  match g with
  | Spherical => forall d j, (d < 3)%nat -> (-1 <= j <= 2)%Z -> m' d (coord d o + coord d c + j)%Z = m d (coord d c + j)%Z
  | Cartesian => forall d j, (d < 3)%nat -> (-1 <= j <= 1)%Z -> mdx m' d (coord d o + coord d c + j)%Z = mdx m d (coord d c + j)%Z
  end.

Section Shift.
Variables (g : geom) (nd : nat) (m m' : mesh) (o c : idx).
Hypothesis Hgeo : geo_agree g m m' o c.

Lemma geo_mdx d j : (d < 3)%nat -> (-1 <= j <= 1)%Z -> mdx m' d (coord d o + coord d c + j)%Z = mdx m d (coord d c + j)%Z.
Proof.
  intros Hd Hj. unfold geo_agree in Hgeo. destruct g; [now apply Hgeo|].
  unfold mdx. rewrite Hgeo by lia.
  replace (coord d o + coord d c + j + 1)%Z with (coord d o + coord d c + (j + 1))%Z by lia.
  rewrite Hgeo by lia. now rewrite Z.add_assoc.
Qed.
Lemma geo_mdx0 d : (d < 3)%nat -> mdx m' d (coord d (iadd o c)) = mdx m d (coord d c).
Proof. intros Hd. pose proof (geo_mdx d 0 Hd ltac:(lia)) as H. rewrite coord_iadd'. now rewrite !Z.add_0_r in H. Qed.
Lemma geo_mdx_rindex d k : (d < 3)%nat -> mdx m' d (coord d (rindex k (iadd o c))) = mdx m d (coord d (rindex k c)).
Proof.
  intros Hd. rewrite !coord_rindex, coord_iadd' by assumption.
  rewrite (geo_mdx d (if Nat.eqb k d then 1 else 0)%Z Hd) by (destruct (Nat.eqb k d); lia). reflexivity.
Qed.
Lemma dv_shift : dv g nd m' (iadd o c) = dv g nd m c.
Proof.
  pose proof (geo_mdx0 0 ltac:(lia)) as E0. pose proof (geo_mdx0 1 ltac:(lia)) as E1. pose proof (geo_mdx0 2 ltac:(lia)) as E2.
  cbn [coord] in *. unfold geo_agree in Hgeo. destruct g; cbn [dv].
  - unfold cart_dv. now rewrite E0, E1, E2.
  - pose proof (Hgeo 0%nat 0%Z ltac:(lia) ltac:(lia)) as R0. pose proof (Hgeo 0%nat 1%Z ltac:(lia) ltac:(lia)) as R1.
    pose proof (Hgeo 1%nat 0%Z ltac:(lia) ltac:(lia)) as T0. pose proof (Hgeo 1%nat 1%Z ltac:(lia) ltac:(lia)) as T1.
    cbn [coord] in *. rewrite !Z.add_0_r in *.
    unfold sph_dv, sph_dcos. cbn [ii jj kk iadd] in *. rewrite E2, R0, R1, T0, T1. reflexivity.
Qed.
Lemma ds_shift_gen k d : ds g nd m' (rindex k (iadd o c)) d = ds g nd m (rindex k c) d.
Proof.
  pose proof (geo_mdx_rindex 0 k ltac:(lia)) as E0. pose proof (geo_mdx_rindex 1 k ltac:(lia)) as E1.
  pose proof (geo_mdx_rindex 2 k ltac:(lia)) as E2. unfold geo_agree in Hgeo. destruct g; cbn [ds].
  - unfold cart_ds. rewrite E0, E1, E2. reflexivity.
  - assert (K : forall e, (0 <= kron k e <= 1)%Z) by (intros; unfold kron; destruct (Nat.eqb k e); lia).
    pose proof (K 0%nat). pose proof (K 1%nat).
    pose proof (Hgeo 0%nat (kron k 0) ltac:(lia) ltac:(lia)) as R0. pose proof (Hgeo 0%nat (kron k 0 + 1)%Z ltac:(lia) ltac:(lia)) as R1.
    pose proof (Hgeo 1%nat (kron k 1) ltac:(lia) ltac:(lia)) as T0. pose proof (Hgeo 1%nat (kron k 1 + 1)%Z ltac:(lia) ltac:(lia)) as T1.
    unfold sph_ds, sph_dcos. cbn [coord ii jj kk iadd rindex] in *. rewrite !Z.add_assoc in *.
    rewrite E0, E1, E2, R0, R1, T0, T1. reflexivity.
Qed.
Lemma ds_shift d : ds g nd m' (iadd o c) d = ds g nd m c d.
Proof.
  (* direction 3 does not exist: rindex leaves the cell alone *)
  pose proof (ds_shift_gen 3 d) as H.
  assert (E : forall x, rindex 3 x = x) by (intros [i j k]; unfold rindex, kron; cbn; now rewrite !Z.add_0_r).
  now rewrite !E in H.
Qed.

Lemma flux_diff_shift dt d fL fR : flux_diff g nd m' dt (iadd o c) d fL fR = flux_diff g nd m dt c d fL fR.
Proof. unfold flux_diff. now rewrite dv_shift, ds_shift, ds_shift_gen. Qed.

Lemma geo_source_shift dtodv pL pR d k : geo_source g nd m' (iadd o c) dtodv pL pR d k = geo_source g nd m c dtodv pL pR d k.
Proof.
  pose proof ds_shift as Hds. pose proof ds_shift_gen as Hdsr.
  unfold geo_source. unfold geo_agree in Hgeo. destruct g; [reflexivity|].
  rewrite Hds, Hdsr.
  pose proof (Hgeo 0%nat 0%Z ltac:(lia) ltac:(lia)) as R0. pose proof (Hgeo 0%nat 1%Z ltac:(lia) ltac:(lia)) as R1.
  pose proof (Hgeo 1%nat 0%Z ltac:(lia) ltac:(lia)) as T0. pose proof (Hgeo 1%nat 1%Z ltac:(lia) ltac:(lia)) as T1.
  cbn [coord] in *. rewrite !Z.add_0_r in *. cbn [ii jj kk iadd]. rewrite R0, R1, T0, T1. reflexivity.
Qed.

Lemma face_value_shift l (f f' : field3) side k : (k < 3)%nat ->
  f' (iadd o c) = f c -> f' (iadd o (lindex k c)) = f (lindex k c) -> f' (iadd o (rindex k c)) = f (rindex k c) ->
  face_value l m' f' (iadd o c) side k = face_value l m f c side k.
Proof.
  intros Hk H0 HL HR.
  unfold face_value, face_slope. rewrite !cell_width_mdx by assumption.
  rewrite !coord_rindex_same, !coord_lindex_same by assumption. rewrite rindex_iadd, lindex_iadd, H0, HL, HR.
  rewrite coord_iadd'. pose proof (geo_mdx k 0 Hk ltac:(lia)) as E0. pose proof (geo_mdx k 1 Hk ltac:(lia)) as E1.
  pose proof (geo_mdx k (-1) Hk ltac:(lia)) as Em. rewrite !Z.add_0_r in E0.
  change (mdx m' k (coord k o + coord k c - 1) = mdx m k (coord k c - 1)) in Em.
  rewrite E0, E1, Em. reflexivity.
Qed.
End Shift.

(** ** Reconstruction at a cell *)
Section ReconShift.
Variables (g : geom) (nd : nat) (e : eos) (l : limiter) (m m' : mesh) (o c : idx) (dt : R).
Variables (rho rho' P P' : field3) (u u' fx fx' : field4) (p p' : idx -> bool) (old old' : recon) (grav grav' : gravity).
Hypothesis Hnd : (nd <= 3)%nat.
Hypothesis Hgeo : geo_agree g m m' o c.
Hypothesis Hg : forall k, grav' (iadd o c) k = grav c k.
Hypothesis Hrho : forall x, in_stencil nd c x -> rho' (iadd o x) = rho x.
Hypothesis HP : forall x, in_stencil nd c x -> P' (iadd o x) = P x.
Hypothesis Hu : forall x, in_stencil nd c x -> u' (iadd o x) = u x.
Hypothesis Hfx : forall x, in_stencil nd c x -> fx' (iadd o x) = fx x.
Hypothesis Hp : p c = true.
Hypothesis Hp' : p' (iadd o c) = true.

Let st0 : in_stencil nd c c := or_introl eq_refl.
Let stL k (H : (k < nd)%nat) : in_stencil nd c (lindex k c) := or_intror (ex_intro _ k (conj H (or_introl eq_refl))).
Let stR k (H : (k < nd)%nat) : in_stencil nd c (rindex k c) := or_intror (ex_intro _ k (conj H (or_intror eq_refl))).

Lemma face_prim_shift sd k : (k < nd)%nat ->
  face_prim l m' rho' u' P' (iadd o c) sd k = face_prim l m rho u P c sd k.
Proof.
  intros Hk. unfold face_prim. apply prim_ext; cbn [p_rho p_u p_P].
  - apply (face_value_shift g m m' o c Hgeo); auto; lia.
  - intros n. apply (face_value_shift g m m' o c Hgeo); try lia; rewrite Hu; auto.
  - apply (face_value_shift g m m' o c Hgeo); auto; lia.
Qed.
Lemma face_fx_shift sd k n : (k < nd)%nat -> face_fx l m' fx' (iadd o c) sd k n = face_fx l m fx c sd k n.
Proof. intros Hk. unfold face_fx. apply (face_value_shift g m m' o c Hgeo); try lia; rewrite Hfx; auto. Qed.

Lemma hancock_shift sd k : (k < nd)%nat ->
  hancock_cons g nd e m' grav' dt (face_prim l m' rho' u' P' (iadd o c)) (iadd o c) sd k
  = hancock_cons g nd e m grav dt (face_prim l m rho u P c) c sd k.
Proof.
  intros Hk. unfold hancock_cons. rewrite face_prim_shift by assumption.
  apply cons_ext; cbn [q_rho q_m q_E].
  - f_equal. apply vsum_ext. intros d Hd. rewrite !face_prim_shift by assumption. now rewrite (flux_diff_shift g nd m m' o c Hgeo).
  - intros j. rewrite Hg. f_equal. f_equal. apply vsum_ext. intros d Hd. rewrite !face_prim_shift by assumption.
    rewrite (flux_diff_shift g nd m m' o c Hgeo), (geo_source_shift g nd m m' o c Hgeo), (dv_shift g nd m m' o c Hgeo). reflexivity.
  - f_equal. apply vsum_ext. intros d Hd. rewrite !face_prim_shift by assumption. now rewrite Hg, (flux_diff_shift g nd m m' o c Hgeo).
Qed.

Lemma recon_shift sd k : (k < nd)%nat ->
  let r := hydro_reconstruction p g nd e l m grav dt rho u P fx old in
  let r' := hydro_reconstruction p' g nd e l m' grav' dt rho' u' P' fx' old' in
  r_q r' (iadd o c) sd k = r_q r c sd k /\ (forall n, r_fx r' (iadd o c) sd k n = r_fx r c sd k n).
Proof.
  intros Hk. cbv zeta. cbn [hydro_reconstruction r_q r_fx]. unfold kwrite. rewrite Hp, Hp'. split.
  - now apply hancock_shift.
  - intros n. unfold hancock_fx. rewrite hancock_shift by assumption.
    rewrite face_fx_shift, face_prim_shift by assumption. f_equal. f_equal.
    apply vsum_ext. intros d Hd. rewrite !face_fx_shift, !face_prim_shift by assumption.
    apply (flux_diff_shift g nd m m' o c Hgeo).
Qed.
End ReconShift.

(** ** Update of a cell *)
Section UpdateShift.
Variables (g : geom) (nd : nat) (e : eos) (s : solver) (m m' : mesh) (o c : idx) (dt : R).
Variables (a a' : idx -> cell) (r r' : recon) (grav grav' : gravity).
Hypothesis Hnd : (nd <= 3)%nat.
Hypothesis Hgeo : geo_agree g m m' o c.
Hypothesis Hg : forall k, grav' (iadd o c) k = grav c k.
Hypothesis Hr : forall x sd k, in_stencil nd c x -> (k < nd)%nat -> r_q r' (iadd o x) sd k = r_q r x sd k.
Hypothesis Hrx : forall x sd k n, in_stencil nd c x -> (k < nd)%nat -> r_fx r' (iadd o x) sd k n = r_fx r x sd k n.

Let st0 : in_stencil nd c c := or_introl eq_refl.
Let stL k (H : (k < nd)%nat) : in_stencil nd c (lindex k c) := or_intror (ex_intro _ k (conj H (or_introl eq_refl))).
Let stR k (H : (k < nd)%nat) : in_stencil nd c (rindex k c) := or_intror (ex_intro _ k (conj H (or_intror eq_refl))).

Lemma flux_left_shift d : (d < nd)%nat -> flux_left s nd e r' (iadd o c) d = flux_left s nd e r c d.
Proof. intros Hd. unfold flux_left, face_flux. rewrite lindex_iadd, !Hr; auto. Qed.
Lemma flux_right_shift d : (d < nd)%nat -> flux_right s nd e r' (iadd o c) d = flux_right s nd e r c d.
Proof. intros Hd. unfold flux_right. rewrite rindex_iadd, !Hr; auto. Qed.
Lemma fx_left_shift d n : (d < nd)%nat -> fx_left s nd e r' (iadd o c) d n = fx_left s nd e r c d n.
Proof. intros Hd. unfold fx_left. rewrite flux_left_shift, lindex_iadd, !Hrx; auto. Qed.
Lemma fx_right_shift d n : (d < nd)%nat -> fx_right s nd e r' (iadd o c) d n = fx_right s nd e r c d n.
Proof. intros Hd. unfold fx_right. rewrite flux_right_shift, rindex_iadd, !Hrx; auto. Qed.

Lemma god_cell_shift : a' (iadd o c) = a c ->
  god_cell g nd e s m' grav' dt a' r' (iadd o c) = god_cell g nd e s m grav dt a r c.
Proof.
  intros Ha.
  assert (E1 : god_rho g nd e s m' dt a' r' (iadd o c) = god_rho g nd e s m dt a r c).
  { unfold god_rho. rewrite Ha. f_equal. apply vsum_ext. intros d Hd.
    now rewrite flux_left_shift, flux_right_shift, (flux_diff_shift g nd m m' o c Hgeo). }
  unfold god_cell. f_equal.
  - exact E1.
  - apply functional_extensionality. intros j. unfold god_rhou. rewrite Ha, Hg. f_equal. f_equal.
    apply vsum_ext. intros d Hd. rewrite flux_left_shift, flux_right_shift by assumption.
    rewrite (flux_diff_shift g nd m m' o c Hgeo), (geo_source_shift g nd m m' o c Hgeo), (dv_shift g nd m m' o c Hgeo).
    now rewrite !Hr by auto.
  - unfold god_E. rewrite Ha. f_equal. apply vsum_ext. intros d Hd. rewrite flux_left_shift, flux_right_shift by assumption.
    now rewrite Hg, (flux_diff_shift g nd m m' o c Hgeo).
  - apply functional_extensionality. intros n. rewrite E1. f_equal. f_equal. unfold god_rhofx. rewrite Ha. f_equal.
    apply vsum_ext. intros d Hd. rewrite flux_left_shift, flux_right_shift, fx_left_shift, fx_right_shift by assumption.
    now rewrite (flux_diff_shift g nd m m' o c Hgeo).
Qed.

Lemma us_left_shift d k : (d < nd)%nat -> us_left nd e r' (iadd o c) d k = us_left nd e r c d k.
Proof. intros Hd. unfold us_left. rewrite lindex_iadd, !Hr; auto. Qed.
Lemma us_right_shift d k : (d < nd)%nat -> us_right nd e r' (iadd o c) d k = us_right nd e r c d k.
Proof. intros Hd. unfold us_right. rewrite rindex_iadd, !Hr; auto. Qed.

Lemma pf_cell_shift eps a_new a_new' : (forall x, in_stencil nd c x -> a' (iadd o x) = a x) ->
  a_new' (iadd o c) = a_new c ->
  pf_cell g nd e m' dt eps a' r' a_new' (iadd o c) = pf_cell g nd e m dt eps a r a_new c.
Proof.
  intros Ha Hn. unfold pf_cell, ekin. rewrite Ha, Hn by auto.
  destruct (rltb (eint nd (a c)) (eps * ek_cons nd (cons_of (a c)))); [|reflexivity]. f_equal.
  unfold pf_energy. rewrite Hn, !Ha by auto. unfold alpha, ekin. rewrite Ha by auto.
  assert (Ediv : div_u g nd e m' r' (iadd o c) = div_u g nd e m r c).
  { unfold div_u. apply vsum_ext. intros d Hd. apply vsum_ext. intros k Hk.
    now rewrite us_left_shift, us_right_shift, (dv_shift g nd m m' o c Hgeo), (ds_shift g nd m m' o c Hgeo), (ds_shift_gen g nd m m' o c Hgeo). }
  assert (Edue : div_ue g nd e m' a' r' (iadd o c) = div_ue g nd e m a r c).
  { unfold div_ue. apply vsum_ext. intros d Hd. apply vsum_ext. intros k Hk. unfold ein_left, ein_right.
    rewrite us_left_shift, us_right_shift by assumption.
    rewrite (dv_shift g nd m m' o c Hgeo), (ds_shift g nd m m' o c Hgeo), (ds_shift_gen g nd m m' o c Hgeo).
    rewrite rindex_iadd, lindex_iadd, !Ha by auto. reflexivity. }
  unfold de_pf. rewrite Ediv, Edue, Ha by auto. reflexivity.
Qed.
End UpdateShift.
