(** * Reflection of the Cartesian scheme about a plane normal to an axis (C20, C63). *)
From Coq Require Import FunctionalExtensionality.
From Verif Require Import Base RBase ModelMesh ModelGeom ModelBoundary ModelHydro ModelScheme SpecHydro SpecScheme
  ProofBase ProofR ProofHydro ProofHydro2 ProofScheme ProofAxes.
Local Open Scope R_scope.

(** The cell opposite to [c] with respect to the plane: positions [i] and [M - i] in direction [d]. *)
Definition refl (d : nat) (M : Z) (c : idx) : idx := set_coord d (M - coord d c)%Z c.
(** Components along [d] change sign. *)
Definition sg (d k : nat) (x : R) : R := if Nat.eqb k d then - x else x.
(** Left and right faces of direction [d] are exchanged. *)
Definition flip (d k side : nat) : nat := if Nat.eqb k d then (1 - side)%nat else side.

Section Refl.
Variables (d : nat) (M : Z).
Hypothesis Hd : (d < 3)%nat.
Notation rc := (refl d M).

Lemma coord_refl_same c : coord d (rc c) = (M - coord d c)%Z.
Proof. unfold refl. now rewrite coord_set_same. Qed.
Lemma coord_refl_other k c : (k < 3)%nat -> k <> d -> coord k (rc c) = coord k c.
Proof. intros H H'. unfold refl. apply coord_set_other; auto. Qed.
Lemma refl_refl c : rc (rc c) = c.
Proof.
  apply idx_ext3. intros k Hk. destruct (Nat.eq_dec k d) as [->|Hn].
  - rewrite !coord_refl_same. lia.
  - now rewrite !coord_refl_other.
Qed.
Lemma rindex_refl c : rindex d (rc c) = rc (lindex d c).
Proof.
  apply idx_ext3. intros k Hk. rewrite coord_rindex by assumption. destruct (Nat.eqb_spec d k) as [<-|Hn].
  - rewrite !coord_refl_same, coord_lindex_same by assumption. lia.
  - rewrite !coord_refl_other, coord_lindex_other by auto. lia.
Qed.
Lemma lindex_refl c : lindex d (rc c) = rc (rindex d c).
Proof.
  apply idx_ext3. intros k Hk. rewrite coord_lindex by assumption. destruct (Nat.eqb_spec d k) as [<-|Hn].
  - rewrite !coord_refl_same, coord_rindex_same by assumption. lia.
  - rewrite !coord_refl_other, coord_rindex_other by auto. lia.
Qed.
Lemma rindex_refl_other k c : (k < 3)%nat -> k <> d -> rindex k (rc c) = rc (rindex k c).
Proof.
  intros Hk Hn. apply idx_ext3. intros j Hj. rewrite coord_rindex by assumption.
  destruct (Nat.eq_dec j d) as [->|Hj'].
  - rewrite !coord_refl_same, coord_rindex_other by auto. destruct (Nat.eqb_spec k d); [congruence|lia].
  - now rewrite !coord_refl_other, coord_rindex by auto.
Qed.
Lemma lindex_refl_other k c : (k < 3)%nat -> k <> d -> lindex k (rc c) = rc (lindex k c).
Proof.
  intros Hk Hn. apply idx_ext3. intros j Hj. rewrite coord_lindex by assumption.
  destruct (Nat.eq_dec j d) as [->|Hj'].
  - rewrite !coord_refl_same, coord_lindex_other by auto. destruct (Nat.eqb_spec k d); [congruence|lia].
  - now rewrite !coord_refl_other, coord_lindex by auto.
Qed.

Lemma sg_sg k x : sg d k (sg d k x) = x.
Proof. unfold sg. destruct (Nat.eqb k d); ring. Qed.

(** The mesh [m'] is the reflection of [m] around cell [c] (widths of the cell and its neighbours). *)
Definition mesh_refl (m m' : mesh) (c : idx) : Prop :=
  forall k i, (k < 3)%nat -> (coord k c - 1 <= i <= coord k c + 1)%Z ->
    mdx m' k (if Nat.eqb k d then M - i else i)%Z = mdx m k i.

Section At.
Variables (m m' : mesh) (c : idx).
Hypothesis Hm : mesh_refl m m' c.

Lemma mdx_refl k : (k < 3)%nat -> mdx m' k (coord k (rc c)) = mdx m k (coord k c).
Proof.
  intros Hk. rewrite <- (Hm k (coord k c)) by lia. f_equal.
  destruct (Nat.eqb_spec k d) as [->|Hn]; [apply coord_refl_same|now apply coord_refl_other].
Qed.
Lemma cart_ds_refl k : ds Cartesian 0 m' (rc c) k = ds Cartesian 0 m c k.
Proof. cbn [ds]. unfold cart_ds. now rewrite !mdx_refl by lia. Qed.
Lemma cart_dv_refl nd : dv Cartesian nd m' (rc c) = dv Cartesian nd m c.
Proof.
  cbn [dv]. unfold cart_dv. pose proof (mdx_refl 0 ltac:(lia)) as E0. pose proof (mdx_refl 1 ltac:(lia)) as E1.
  pose proof (mdx_refl 2 ltac:(lia)) as E2. cbn [coord] in *. now rewrite E0, E1, E2.
Qed.
End At.

Lemma cart_flux_diff nd m dt c k fL fR : (k < 3)%nat ->
  flux_diff Cartesian nd m dt c k fL fR = dt / dv Cartesian nd m c * ds Cartesian 0 m c k * (fL - fR).
Proof.
  intros Hk. unfold flux_diff. rewrite cart_ds_rindex' by assumption.
  change (ds Cartesian nd m c k) with (ds Cartesian 0 m c k). ring.
Qed.

Lemma flux_diff_refl_other nd m m' dt c k fL fR : mesh_refl m m' c -> (k < 3)%nat -> k <> d ->
  flux_diff Cartesian nd m' dt (rc c) k fL fR = flux_diff Cartesian nd m dt c k fL fR.
Proof. intros Hm Hk Hn. rewrite !cart_flux_diff, (cart_ds_refl m m'), (cart_dv_refl m m') by assumption. reflexivity. Qed.
Lemma flux_diff_refl_same nd m m' dt c fL fR : mesh_refl m m' c ->
  flux_diff Cartesian nd m' dt (rc c) d fR fL = - flux_diff Cartesian nd m dt c d fL fR.
Proof. intros Hm. rewrite !cart_flux_diff, (cart_ds_refl m m'), (cart_dv_refl m m') by assumption. ring. Qed.
Lemma flux_diff_opp g nd m dt c k fL fR : flux_diff g nd m dt c k (- fL) (- fR) = - flux_diff g nd m dt c k fL fR.
Proof. unfold flux_diff. ring. Qed.

(** Face values. *)
Lemma face_value_refl l m m' (f f' : field3) c side k (eps : R) :
  (k < 3)%nat -> (side < 2)%nat -> (eps = 1 \/ eps = -1) -> mesh_refl m m' c ->
  f' (rc c) = eps * f c -> f' (rc (lindex k c)) = eps * f (lindex k c) -> f' (rc (rindex k c)) = eps * f (rindex k c) ->
  face_value l m' f' (rc c) side k = eps * face_value l m f c (flip d k side) k.
Proof.
  intros Hk Hs He Hm H0 HL HR. rewrite !face_value_eq by assumption. unfold flip.
  assert (SE : forall x y, slope l (eps * x) (eps * y) = eps * slope l x y) by (intros; apply slope_homog).
  rewrite (mdx_refl m m') by assumption.
  destruct (Nat.eqb_spec k d) as [->|Hn].
  - rewrite rindex_refl, lindex_refl, H0, HL, HR. rewrite coord_refl_same.
    assert (Em : mdx m' d (M - coord d c - 1) = mdx m d (coord d c + 1)).
    { rewrite <- (Hm d (coord d c + 1)%Z) by (assumption || lia). rewrite Nat.eqb_refl. f_equal. lia. }
    assert (Ep : mdx m' d (M - coord d c + 1) = mdx m d (coord d c - 1)).
    { rewrite <- (Hm d (coord d c - 1)%Z) by (assumption || lia). rewrite Nat.eqb_refl. f_equal. lia. }
    rewrite Em, Ep.
    replace ((eps * f (lindex d c) - eps * f c) / ((mdx m d (coord d c) + mdx m d (coord d c - 1)) / 2))
      with (- eps * ((f c - f (lindex d c)) / ((mdx m d (coord d c - 1) + mdx m d (coord d c)) / 2)))
      by (rewrite (Rplus_comm (mdx m d (coord d c)) (mdx m d (coord d c - 1))); unfold Rdiv; ring).
    replace ((eps * f c - eps * f (rindex d c)) / ((mdx m d (coord d c + 1) + mdx m d (coord d c)) / 2))
      with (- eps * ((f (rindex d c) - f c) / ((mdx m d (coord d c) + mdx m d (coord d c + 1)) / 2)))
      by (rewrite (Rplus_comm (mdx m d (coord d c + 1)) (mdx m d (coord d c))); unfold Rdiv; ring).
    rewrite slope_homog, slope_sym. destruct side as [|[|side]]; cbn [Nat.sub]; try lia; ring.
  - rewrite rindex_refl_other, lindex_refl_other, H0, HL, HR, coord_refl_other by assumption.
    assert (E : forall i, (coord k c - 1 <= i <= coord k c + 1)%Z -> mdx m' k i = mdx m k i).
    { intros i Hi. rewrite <- (Hm k i) by assumption. destruct (Nat.eqb_spec k d); [congruence|reflexivity]. }
    rewrite !E by lia.
    rewrite <- (Rmult_minus_distr_l eps (f (rindex k c))), <- (Rmult_minus_distr_l eps (f c)).
    unfold Rdiv at 2 4. rewrite !Rmult_assoc. fold (Rdiv (f (rindex k c) - f c) ((mdx m k (coord k c) + mdx m k (coord k c + 1)) / 2)).
    fold (Rdiv (f c - f (lindex k c)) ((mdx m k (coord k c - 1) + mdx m k (coord k c)) / 2)).
    rewrite SE. ring.
Qed.

(** Fluxes of mirrored states through faces along and across [d]. *)
Lemma flux_prim_mirror_other nd e p k : k <> d ->
  let f' := flux_prim nd e (mirror_prim d p) k in
  let f := flux_prim nd e p k in
  f_rho f' = f_rho f /\ (forall j, f_m f' j = sg d j (f_m f j)) /\ f_E f' = f_E f.
Proof.
  intros Hn. cbv zeta. unfold flux_prim. rewrite ek_prim_mirror. cbn.
  destruct (Nat.eqb_spec k d) as [|_]; [congruence|]. repeat split.
  intros j. unfold sg. destruct (Nat.eqb_spec j d) as [->|Hj]; [|reflexivity].
  destruct (Nat.eqb_spec d k) as [|_]; [congruence|]. ring.
Qed.

Section Hancock.
Variables (nd : nat) (e : eos) (m m' : mesh) (grav grav' : gravity) (dt : R) (c : idx).
Variables (fp fp' : nat -> nat -> prim) (ffx ffx' : nat -> nat -> vec).
Hypothesis Hnd : (nd <= 3)%nat.
Hypothesis Hm : mesh_refl m m' c.
Hypothesis Hg : forall k, grav' (rc c) k = sg d k (grav c k).
Hypothesis Hfp : forall sd k, (sd < 2)%nat -> (k < nd)%nat -> fp' sd k = mirror_prim d (fp (flip d k sd) k).
Hypothesis Hffx : forall sd k n, (sd < 2)%nat -> (k < nd)%nat -> ffx' sd k n = ffx (flip d k sd) k n.

Lemma to_cons_mirror p : to_cons nd e (mirror_prim d p) = mirror d (to_cons nd e p).
Proof.
  unfold to_cons. rewrite ek_prim_mirror. apply cons_ext; cbn; try reflexivity.
  intros k. destruct (Nat.eqb k d); [ring|reflexivity].
Qed.

Lemma flux_terms k : (k < nd)%nat ->
  let FL' := flux_prim nd e (fp' 0%nat k) k in let FR' := flux_prim nd e (fp' 1%nat k) k in
  let FL := flux_prim nd e (fp 0%nat k) k in let FR := flux_prim nd e (fp 1%nat k) k in
  flux_diff Cartesian nd m' dt (rc c) k (f_rho FL') (f_rho FR') = flux_diff Cartesian nd m dt c k (f_rho FL) (f_rho FR) /\
  (forall j, flux_diff Cartesian nd m' dt (rc c) k (f_m FL' j) (f_m FR' j)
             = sg d j (flux_diff Cartesian nd m dt c k (f_m FL j) (f_m FR j))) /\
  flux_diff Cartesian nd m' dt (rc c) k (f_E FL') (f_E FR') = flux_diff Cartesian nd m dt c k (f_E FL) (f_E FR) /\
  (forall n, flux_diff Cartesian nd m' dt (rc c) k (ffx' 0%nat k n * f_rho FL') (ffx' 1%nat k n * f_rho FR')
     = flux_diff Cartesian nd m dt c k (ffx 0%nat k n * f_rho FL) (ffx 1%nat k n * f_rho FR)).
Proof.
  intros Hk. cbv zeta. rewrite !Hfp by lia.
  assert (HX : forall n, ffx' 0%nat k n = ffx (flip d k 0) k n) by (intros; apply Hffx; lia).
  assert (HX1 : forall n, ffx' 1%nat k n = ffx (flip d k 1) k n) by (intros; apply Hffx; lia).
  unfold flip in *. destruct (Nat.eqb_spec k d) as [->|Hn]; cbn [Nat.sub] in *.
  - rewrite !flux_prim_mirror. cbn [mirror_flux f_rho f_m f_E].
    set (FL := flux_prim nd e (fp 0%nat d) d). set (FR := flux_prim nd e (fp 1%nat d) d). clearbody FL FR.
    assert (S : forall x y, flux_diff Cartesian nd m' dt (rc c) d (- x) (- y) = flux_diff Cartesian nd m dt c d y x).
    { intros x y. rewrite flux_diff_opp, (flux_diff_refl_same nd m m') by assumption. ring. }
    repeat split.
    + apply S.
    + intros j. unfold sg. destruct (Nat.eqb j d); [|apply S]. now apply flux_diff_refl_same.
    + apply S.
    + intros n. rewrite HX, HX1, <- !Ropp_mult_distr_r. apply S.
  - destruct (flux_prim_mirror_other nd e (fp 0%nat k) k Hn) as (L1 & L2 & L3).
    destruct (flux_prim_mirror_other nd e (fp 1%nat k) k Hn) as (R1 & R2 & R3).
    rewrite L1, R1, L3, R3. rewrite !(flux_diff_refl_other nd m m') by (assumption || lia).
    repeat split.
    + intros j. rewrite L2, R2, (flux_diff_refl_other nd m m') by (assumption || lia).
      unfold sg. destruct (Nat.eqb j d); [apply flux_diff_opp|reflexivity].
    + intros n. rewrite HX, HX1. apply (flux_diff_refl_other nd m m'); assumption || lia.
Qed.

Lemma hancock_refl side ipos : (side < 2)%nat -> (ipos < nd)%nat ->
  hancock_cons Cartesian nd e m' grav' dt fp' (rc c) side ipos
  = mirror d (hancock_cons Cartesian nd e m grav dt fp c (flip d ipos side) ipos).
Proof.
  intros Hs Hi. unfold hancock_cons. rewrite (Hfp side ipos Hs Hi), to_cons_mirror.
  set (q := to_cons nd e (fp (flip d ipos side) ipos)).
  apply cons_ext; cbn [mirror q_rho q_m q_E].
  - f_equal. apply vsum_ext. intros k Hk. apply (flux_terms k Hk).
  - intros j. rewrite Hg.
    rewrite (vsum_ext nd _ (fun k => sg d j (flux_diff Cartesian nd m dt c k (f_m (flux_prim nd e (fp 0%nat k) k) j)
                                               (f_m (flux_prim nd e (fp 1%nat k) k) j)))).
    2:{ intros k Hk. cbn [geo_source]. rewrite Rplus_0_r. apply (flux_terms k Hk). }
    cbn [geo_source]. unfold sg. destruct (Nat.eqb j d).
    + rewrite vsum_opp. rewrite (vsum_ext nd (fun k => _ + 0) _ (fun k _ => Rplus_0_r _)). ring.
    + rewrite (vsum_ext nd (fun k => _ + 0) _ (fun k _ => Rplus_0_r _)). reflexivity.
  - f_equal. apply vsum_ext. intros k Hk. f_equal; [apply (flux_terms k Hk)|].
    rewrite Hg. unfold sg. destruct (Nat.eqb k d); ring.
Qed.

Lemma hancock_fx_refl side ipos n : (side < 2)%nat -> (ipos < nd)%nat ->
  hancock_fx Cartesian nd e m' grav' dt fp' ffx' (rc c) side ipos n
  = hancock_fx Cartesian nd e m grav dt fp ffx c (flip d ipos side) ipos n.
Proof.
  intros Hs Hi. unfold hancock_fx. rewrite hancock_refl by assumption. cbn [mirror q_rho].
  rewrite Hffx, (Hfp side ipos Hs Hi) by assumption. cbn [mirror_prim p_rho]. f_equal. f_equal.
  apply vsum_ext. intros k Hk. apply (flux_terms k Hk).
Qed.
End Hancock.
End Refl.

(** ** Cells whose neighbourhood is reflected *)

(** The cells read by the reconstruction of cell [c]. *)
Definition in_stencil (nd : nat) (c c' : idx) : Prop :=
  c' = c \/ exists k, (k < nd)%nat /\ (c' = lindex k c \/ c' = rindex k c).

Section Recon.
Variables (d : nat) (M : Z) (nd : nat) (e : eos) (l : limiter) (m m' : mesh) (grav grav' : gravity) (dt : R) (c : idx).
Variables (rho rho' P P' : field3) (u u' fx fx' : field4) (p p' : idx -> bool) (old old' : recon).
Hypothesis Hd : (d < 3)%nat.
Hypothesis Hnd : (nd <= 3)%nat.
Hypothesis Hm : mesh_refl d M m m' c.
Hypothesis Hg : forall k, grav' (refl d M c) k = sg d k (grav c k).
Hypothesis Hrho : forall c', in_stencil nd c c' -> rho' (refl d M c') = rho c'.
Hypothesis HP : forall c', in_stencil nd c c' -> P' (refl d M c') = P c'.
Hypothesis Hu : forall c' k, in_stencil nd c c' -> u' (refl d M c') k = sg d k (u c' k).
Hypothesis Hfx : forall c' n, in_stencil nd c c' -> fx' (refl d M c') n = fx c' n.
Hypothesis Hp : p c = true.
Hypothesis Hp' : p' (refl d M c) = true.

Let st0 : in_stencil nd c c := or_introl eq_refl.
Let stL k (H : (k < nd)%nat) : in_stencil nd c (lindex k c) := or_intror (ex_intro _ k (conj H (or_introl eq_refl))).
Let stR k (H : (k < nd)%nat) : in_stencil nd c (rindex k c) := or_intror (ex_intro _ k (conj H (or_intror eq_refl))).

Lemma face_prim_refl sd k : (sd < 2)%nat -> (k < nd)%nat ->
  face_prim l m' rho' u' P' (refl d M c) sd k = mirror_prim d (face_prim l m rho u P c (flip d k sd) k).
Proof.
  intros Hs Hk. unfold face_prim. apply prim_ext; cbn [mirror_prim p_rho p_u p_P].
  - rewrite (face_value_refl d M Hd l m m' rho rho' c sd k 1); try (assumption || lia || lra); rewrite ?Rmult_1_l; auto.
  - intros n. destruct (Nat.eqb n d) eqn:En.
    + rewrite (face_value_refl d M Hd l m m' (fun c' => u c' n) (fun c' => u' c' n) c sd k (-1)); try (assumption || lia || lra);
        rewrite ?Hu by auto; unfold sg; rewrite ?En; try ring.
    + rewrite (face_value_refl d M Hd l m m' (fun c' => u c' n) (fun c' => u' c' n) c sd k 1); try (assumption || lia || lra);
        rewrite ?Hu by auto; unfold sg; rewrite ?En; try ring.
  - rewrite (face_value_refl d M Hd l m m' P P' c sd k 1); try (assumption || lia || lra); rewrite ?Rmult_1_l; auto.
Qed.
Lemma face_fx_refl sd k n : (sd < 2)%nat -> (k < nd)%nat ->
  face_fx l m' fx' (refl d M c) sd k n = face_fx l m fx c (flip d k sd) k n.
Proof.
  intros Hs Hk. unfold face_fx.
  rewrite (face_value_refl d M Hd l m m' (fun c' => fx c' n) (fun c' => fx' c' n) c sd k 1); try (assumption || lia || lra);
    rewrite ?Rmult_1_l; auto.
Qed.

Lemma recon_refl side ipos : (side < 2)%nat -> (ipos < nd)%nat ->
  let r := hydro_reconstruction p Cartesian nd e l m grav dt rho u P fx old in
  let r' := hydro_reconstruction p' Cartesian nd e l m' grav' dt rho' u' P' fx' old' in
  r_q r' (refl d M c) side ipos = mirror d (r_q r c (flip d ipos side) ipos) /\
  forall n, r_fx r' (refl d M c) side ipos n = r_fx r c (flip d ipos side) ipos n.
Proof.
  intros Hs Hi. cbv zeta. cbn [hydro_reconstruction r_q r_fx]. unfold kwrite. rewrite Hp, Hp'. split.
  - apply (hancock_refl d M Hd nd e m m' grav grav' dt c _ _ (face_fx l m fx c) (face_fx l m' fx' (refl d M c))); try assumption; intros; [now apply face_prim_refl|now apply face_fx_refl].
  - intros n. apply hancock_fx_refl; try assumption; intros; [now apply face_prim_refl|now apply face_fx_refl].
Qed.
End Recon.

(** ** The update *)
Lemma riemann_mirror_other nd e d s qL qR k : k <> d ->
  let f' := riemann s nd e (mirror d qL) (mirror d qR) k in
  let f := riemann s nd e qL qR k in
  f_rho f' = f_rho f /\ (forall j, f_m f' j = sg d j (f_m f j)) /\ f_E f' = f_E f.
Proof.
  intros Hn. cbv zeta.
  assert (Hu : forall p, p_u (mirror_prim d p) k = p_u p k).
  { intros p. cbn. destruct (Nat.eqb_spec k d); [congruence|reflexivity]. }
  assert (HwL : forall pL pR, wave_L e (mirror_prim d pL) (mirror_prim d pR) k = wave_L e pL pR k).
  { intros. unfold wave_L. rewrite !Hu. reflexivity. }
  assert (HwR : forall pL pR, wave_R e (mirror_prim d pL) (mirror_prim d pR) k = wave_R e pL pR k).
  { intros. unfold wave_R. rewrite !Hu. reflexivity. }
  destruct (flux_prim_mirror_other d nd e (to_prim nd e qL) k Hn) as (L1 & L2 & L3).
  destruct (flux_prim_mirror_other d nd e (to_prim nd e qR) k Hn) as (R1 & R2 & R3).
  destruct s; cbn [riemann].
  - unfold hll. rewrite !to_prim_mirror, HwL, HwR. cbv zeta. cbn [f_rho f_m f_E]. rewrite L1, R1, L3, R3.
    repeat split. intros j. rewrite L2, R2. unfold sg, flux_hll, mirror. cbn [q_m].
    destruct (Nat.eqb j d); [unfold Rdiv; ring|reflexivity].
  - unfold hllc. rewrite !to_prim_mirror, HwL, HwR, !Hu. cbv zeta. cbn [mirror_prim p_rho p_P].
    set (wl := wave_L e (to_prim nd e qL) (to_prim nd e qR) k).
    set (wr := wave_R e (to_prim nd e qL) (to_prim nd e qR) k). clearbody wl wr.
    set (pL := to_prim nd e qL) in *. set (pR := to_prim nd e qR) in *. clearbody pL pR.
    match goal with |- context [if rltb 0 ?u then wl else wr] => set (us := u) end. clearbody us.
    destruct (rltb 0 us), (rltb 0 (wl * wr)).
    + cbn [mirror_prim p_rho p_u p_P] in *. repeat split; assumption.
    + fold (mirror_prim d pL). fold (mirror_prim d pR). rewrite Hu, L1, L3. cbn [f_rho f_m f_E]. repeat split.
      intros j. unfold sg. cbn [mirror_prim p_u mirror q_rho].
      destruct (Nat.eqb_spec j k) as [->|Hj]; [destruct (Nat.eqb_spec k d); [congruence|reflexivity]|].
      destruct (Nat.eqb j d); [ring|reflexivity].
    + cbn [mirror_prim p_rho p_u p_P] in *. repeat split; assumption.
    + fold (mirror_prim d pL). fold (mirror_prim d pR). rewrite Hu, R1, R3. cbn [f_rho f_m f_E]. repeat split.
      intros j. unfold sg. cbn [mirror_prim p_u mirror q_rho].
      destruct (Nat.eqb_spec j k) as [->|Hj]; [destruct (Nat.eqb_spec k d); [congruence|reflexivity]|].
      destruct (Nat.eqb j d); [ring|reflexivity].
  - unfold splitting. rewrite !to_prim_mirror, !Hu. cbv zeta. cbn [mirror_prim p_rho p_P].
    match goal with |- context [if rltb 0 ?u then _ else _] => set (us := u) end.
    match goal with |- context [if Nat.eqb _ _ then ?x else 0] => set (Ps := x) end.
    cbn [f_rho f_m f_E]. destruct (rltb 0 us); cbn [mirror q_rho q_m q_E]; repeat split;
      (intros j; unfold sg; destruct (Nat.eqb_spec j d) as [->|Hj]; [|reflexivity];
       destruct (Nat.eqb_spec d k); [congruence|ring]).
Qed.

(** A cell reflected: the momentum along [d] is reversed. *)
Section Update.
Variables (d : nat) (M : Z) (nd : nat) (e : eos) (s : solver) (m m' : mesh) (grav grav' : gravity) (dt : R) (c : idx).
Variables (a a' : idx -> cell) (r r' : recon).
Hypothesis He : lawful_eos e.
Hypothesis Hd : (d < nd)%nat.
Hypothesis Hnd : (nd <= 3)%nat.
Hypothesis Hm : mesh_refl d M m m' c.
Hypothesis Hg : forall k, grav' (refl d M c) k = sg d k (grav c k).
Hypothesis Ha : a' (refl d M c) = negate_momentum d (a c).
Hypothesis Hr : forall c' sd k, in_stencil nd c c' -> (sd < 2)%nat -> (k < nd)%nat ->
  r_q r' (refl d M c') sd k = mirror d (r_q r c' (flip d k sd) k).
Hypothesis Hrx : forall c' sd k n, in_stencil nd c c' -> (sd < 2)%nat -> (k < nd)%nat ->
  r_fx r' (refl d M c') sd k n = r_fx r c' (flip d k sd) k n.
Hypothesis Hval : forall c' sd k, in_stencil nd c c' -> (sd < 2)%nat -> (k < nd)%nat -> valid_cons nd (r_q r c' sd k).

Let Hd3 : (d < 3)%nat.
Proof. lia. Qed.
Let st0 : in_stencil nd c c := or_introl eq_refl.
Let stL k (H : (k < nd)%nat) : in_stencil nd c (lindex k c) := or_intror (ex_intro _ k (conj H (or_introl eq_refl))).
Let stR k (H : (k < nd)%nat) : in_stencil nd c (rindex k c) := or_intror (ex_intro _ k (conj H (or_intror eq_refl))).

Lemma upd_terms k : (k < nd)%nat ->
  let FL' := flux_left s nd e r' (refl d M c) k in let FR' := flux_right s nd e r' (refl d M c) k in
  let FL := flux_left s nd e r c k in let FR := flux_right s nd e r c k in
  flux_diff Cartesian nd m' dt (refl d M c) k (f_rho FL') (f_rho FR') = flux_diff Cartesian nd m dt c k (f_rho FL) (f_rho FR) /\
  (forall j, flux_diff Cartesian nd m' dt (refl d M c) k (f_m FL' j) (f_m FR' j)
             = sg d j (flux_diff Cartesian nd m dt c k (f_m FL j) (f_m FR j))) /\
  flux_diff Cartesian nd m' dt (refl d M c) k (f_E FL') (f_E FR') = flux_diff Cartesian nd m dt c k (f_E FL) (f_E FR) /\
  (forall n, flux_diff Cartesian nd m' dt (refl d M c) k (fx_left s nd e r' (refl d M c) k n * f_rho FL')
                (fx_right s nd e r' (refl d M c) k n * f_rho FR')
     = flux_diff Cartesian nd m dt c k (fx_left s nd e r c k n * f_rho FL) (fx_right s nd e r c k n * f_rho FR)).
Proof.
  intros Hk. cbv zeta. destruct (Nat.eq_dec k d) as [->|Hn].
  - assert (EL : flux_left s nd e r' (refl d M c) d = mirror_flux d (flux_right s nd e r c d)).
    { unfold flux_left, face_flux, flux_right. rewrite lindex_refl by assumption.
      rewrite !Hr by (auto || lia). unfold flip. rewrite Nat.eqb_refl. cbn [Nat.sub].
      apply riemann_mirror; [assumption|apply Hval; auto|apply Hval; auto]. }
    assert (ER : flux_right s nd e r' (refl d M c) d = mirror_flux d (flux_left s nd e r c d)).
    { unfold flux_left, face_flux, flux_right. rewrite rindex_refl by assumption.
      rewrite !Hr by (auto || lia). unfold flip. rewrite Nat.eqb_refl. cbn [Nat.sub].
      apply riemann_mirror; [assumption|apply Hval; auto|apply Hval; auto]. }
    assert (S : forall x y, flux_diff Cartesian nd m' dt (refl d M c) d (- x) (- y) = flux_diff Cartesian nd m dt c d y x).
    { intros x y. rewrite flux_diff_opp, (flux_diff_refl_same d M Hd3 nd m m') by assumption. ring. }
    assert (XL : forall n, fx_left s nd e r' (refl d M c) d n * f_rho (flux_left s nd e r' (refl d M c) d)
                 = - (fx_right s nd e r c d n * f_rho (flux_right s nd e r c d))).
    { intros n. unfold fx_left, fx_right. rewrite EL. cbn [mirror_flux f_rho].
      rewrite lindex_refl, !Hrx by (auto || lia). unfold flip. rewrite Nat.eqb_refl. cbn [Nat.sub].
      set (f := f_rho (flux_right s nd e r c d)).
      destruct (rltb (- f) 0) eqn:E1; destruct (rltb f 0) eqn:E2; try ring.
      - apply rltb_true in E1, E2. lra.
      - apply rltb_false in E1, E2. replace f with 0 by lra. ring. }
    assert (XR : forall n, fx_right s nd e r' (refl d M c) d n * f_rho (flux_right s nd e r' (refl d M c) d)
                 = - (fx_left s nd e r c d n * f_rho (flux_left s nd e r c d))).
    { intros n. unfold fx_left, fx_right. rewrite ER. cbn [mirror_flux f_rho].
      rewrite rindex_refl, !Hrx by (auto || lia). unfold flip. rewrite Nat.eqb_refl. cbn [Nat.sub].
      set (f := f_rho (flux_left s nd e r c d)).
      destruct (rltb (- f) 0) eqn:E1; destruct (rltb f 0) eqn:E2; try ring.
      - apply rltb_true in E1, E2. lra.
      - apply rltb_false in E1, E2. replace f with 0 by lra. ring. }
    repeat split.
    + rewrite EL, ER. apply S.
    + intros j. rewrite EL, ER. cbn [mirror_flux f_m]. unfold sg. destruct (Nat.eqb j d); [|apply S].
      now apply (flux_diff_refl_same d M Hd3).
    + rewrite EL, ER. apply S.
    + intros n. rewrite XL, XR. apply S.
  - assert (Hk3 : (k < 3)%nat) by lia.
    assert (Hf : flip d k = fun sd => sd).
    { apply functional_extensionality. intros sd. unfold flip. destruct (Nat.eqb_spec k d); [congruence|reflexivity]. }
    assert (EL : flux_left s nd e r' (refl d M c) k
                 = riemann s nd e (mirror d (r_q r (lindex k c) 1%nat k)) (mirror d (r_q r c 0%nat k)) k).
    { unfold flux_left, face_flux. rewrite lindex_refl_other by assumption.
      rewrite !Hr by (auto || lia). now rewrite Hf. }
    assert (ER : flux_right s nd e r' (refl d M c) k
                 = riemann s nd e (mirror d (r_q r c 1%nat k)) (mirror d (r_q r (rindex k c) 0%nat k)) k).
    { unfold flux_right. rewrite rindex_refl_other by assumption.
      rewrite !Hr by (auto || lia). now rewrite Hf. }
    destruct (riemann_mirror_other nd e d s (r_q r (lindex k c) 1%nat k) (r_q r c 0%nat k) k Hn) as (L1 & L2 & L3).
    destruct (riemann_mirror_other nd e d s (r_q r c 1%nat k) (r_q r (rindex k c) 0%nat k) k Hn) as (R1 & R2 & R3).
    fold (face_flux s nd e r c k) in L1, L2, L3. fold (flux_left s nd e r c k) in L1, L2, L3.
    fold (flux_right s nd e r c k) in R1, R2, R3. rewrite <- EL in L1, L2, L3. rewrite <- ER in R1, R2, R3.
    repeat split.
    + rewrite L1, R1. apply (flux_diff_refl_other d M Hd3); assumption.
    + intros j. rewrite L2, R2, (flux_diff_refl_other d M Hd3 nd m m') by assumption.
      unfold sg. destruct (Nat.eqb j d); [apply flux_diff_opp|reflexivity].
    + rewrite L3, R3. apply (flux_diff_refl_other d M Hd3); assumption.
    + intros n. unfold fx_left, fx_right. rewrite L1, R1, lindex_refl_other, rindex_refl_other by assumption.
      rewrite !Hrx by (auto || lia). rewrite !Hf. apply (flux_diff_refl_other d M Hd3); assumption.
Qed.

Lemma god_cell_refl :
  god_cell Cartesian nd e s m' grav' dt a' r' (refl d M c)
  = negate_momentum d (god_cell Cartesian nd e s m grav dt a r c).
Proof.
  assert (E1 : god_rho Cartesian nd e s m' dt a' r' (refl d M c) = god_rho Cartesian nd e s m dt a r c).
  { unfold god_rho. rewrite Ha. cbn [negate_momentum c_rho]. f_equal. apply vsum_ext. intros k Hk. apply (upd_terms k Hk). }
  unfold god_cell, negate_momentum. cbn [c_rho c_rhou c_E c_fx]. f_equal.
  - exact E1.
  - apply functional_extensionality. intros j. unfold god_rhou. rewrite Ha, Hg. cbn [negate_momentum c_rho c_rhou geo_source].
    rewrite (vsum_ext nd (fun k => _ + 0) (fun k => sg d j (flux_diff Cartesian nd m dt c k (f_m (flux_left s nd e r c k) j) (f_m (flux_right s nd e r c k) j)))).
    2:{ intros k Hk. rewrite Rplus_0_r. apply (upd_terms k Hk). }
    rewrite (vsum_ext nd (fun k => flux_diff Cartesian nd m dt c k (f_m (flux_left s nd e r c k) j) (f_m (flux_right s nd e r c k) j) + 0)
                         (fun k => flux_diff Cartesian nd m dt c k (f_m (flux_left s nd e r c k) j) (f_m (flux_right s nd e r c k) j)))
      by (intros; apply Rplus_0_r).
    unfold sg. destruct (Nat.eqb j d); [rewrite vsum_opp; ring|reflexivity].
  - unfold god_E. rewrite Ha. cbn [negate_momentum c_E c_rhou]. f_equal. apply vsum_ext. intros k Hk.
    f_equal; [apply (upd_terms k Hk)|]. rewrite Hg. unfold sg. destruct (Nat.eqb k d); ring.
  - apply functional_extensionality. intros n. rewrite E1. do 2 f_equal. unfold god_rhofx. rewrite Ha.
    cbn [negate_momentum c_rho c_fx]. f_equal. apply vsum_ext. intros k Hk. apply (upd_terms k Hk).
Qed.
End Update.
