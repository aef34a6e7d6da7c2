(** * Mirror symmetry of a first-order step in any sign-symmetric arithmetic (C97). *)
From Verif Require Import Base RBase ModelMesh ModelGeom ModelBoundary ModelHydro ModelScheme ModelStep ModelArith SpecHydro SpecScheme SpecMirror
  ProofBase ProofR ProofHydro ProofHydro2 ProofScheme ProofAxes ProofMirror ProofMirrorBits.
Local Open Scope R_scope.

Section Step.
Variables (A : arith) (same : R -> R -> Prop) (nonzero finite : R -> Prop).
Hypothesis HA : sign_symmetric A same nonzero finite.
Notation "x ⊕ y" := (a_add A x y) (at level 50, left associativity).
Notation "x ⊖ y" := (a_sub A x y) (at level 50, left associativity).
Notation "x ⊗ y" := (a_mul A x y) (at level 40, left associativity).
Notation "x ⊘ y" := (a_div A x y) (at level 40, left associativity).
Notation tw := (twin same).
Variables (nd : nat) (e : eos) (d : nat) (M : Z) (m m' : mesh) (c : idx).
Hypothesis He : plain_eos same nonzero e.
Hypothesis Hd : (d < 3)%nat.
Hypothesis Hm : mesh_twin A same d M m m' c.
Notation rc := (refl d M).

Lemma twin_dx k : (k < 3)%nat -> tw false (adx A m k (coord k c)) (adx A m' k (coord k (rc c))).
Proof.
  intros Hk. replace (coord k (rc c)) with (if Nat.eqb k d then M - coord k c else coord k c)%Z; [now apply Hm|].
  destruct (Nat.eqb_spec k d) as [->|Hn]; [now rewrite coord_refl_same|now rewrite coord_refl_other].
Qed.
Lemma twin_ds k : tw false (acart_ds A m c k) (acart_ds A m' (rc c) k).
Proof.
  assert (T : forall n, (n < 3)%nat -> tw false (if Nat.eqb n k then a_lit A 1 0 else adx A m n (coord n c))
                                               (if Nat.eqb n k then a_lit A 1 0 else adx A m' n (coord n (rc c)))).
  { intros n Hn. destruct (Nat.eqb n k); [apply (twin_lit _ _ _ _ HA)|now apply twin_dx]. }
  unfold acart_ds. cbn zeta. repeat apply (twin_mulE _ _ _ _ HA); apply T; lia.
Qed.
Lemma twin_dv : tw false (acart_dv A m c) (acart_dv A m' (rc c)).
Proof.
  unfold acart_dv. pose proof (twin_dx 0 ltac:(lia)). pose proof (twin_dx 1 ltac:(lia)). pose proof (twin_dx 2 ltac:(lia)).
  now repeat apply (twin_mulE _ _ _ _ HA).
Qed.
Lemma acart_ds_rindex mm c0 k : (k < 3)%nat -> acart_ds A mm (rindex k c0) k = acart_ds A mm c0 k.
Proof.
  intros Hk. unfold acart_ds. cbn zeta.
  assert (E : forall n, (n < 3)%nat -> (if Nat.eqb n k then a_lit A 1 0 else adx A mm n (coord n (rindex k c0)))
                                      = (if Nat.eqb n k then a_lit A 1 0 else adx A mm n (coord n c0))).
  { intros n Hn. destruct (Nat.eqb_spec n k) as [->|Hne]; [reflexivity|]. now rewrite coord_rindex_other by auto. }
  now rewrite !E by lia.
Qed.

Lemma twin_flux_diff b dt k fL fL' fR fR' : (k < 3)%nat -> same dt dt -> nonzero (acart_dv A m c) ->
  (if Nat.eqb k d then tw (negb b) fL fR' /\ tw (negb b) fR fL' else tw b fL fL' /\ tw b fR fR') ->
  tw b (aflux_diff A Cartesian nd m dt c k fL fR) (aflux_diff A Cartesian nd m' dt (rc c) k fL' fR').
Proof.
  intros Hk Hdt N H. unfold aflux_diff. cbn [adv ads]. rewrite !acart_ds_rindex by assumption.
  pose proof (twin_ds k) as D. pose proof twin_dv as V.
  apply (twin_mulE _ _ _ _ HA). { apply (twin_div _ _ _ _ HA); [now apply twin_refl|assumption..]. }
  assert (C : forall b x x', tw b x x' -> tw b (x ⊗ acart_ds A m c k) (x' ⊗ acart_ds A m' (rc c) k)).
  { intros b0 x x' Hx. pose proof (twin_mul _ _ _ _ HA _ _ _ _ _ _ Hx D) as T. now rewrite xorb_false_r in T. }
  destruct (Nat.eqb k d); destruct H as [H1 H2].
  - rewrite <- (negb_involutive b). apply (twin_sub_swap _ _ _ _ HA); now apply C.
  - apply (twin_sub _ _ _ _ HA); now apply C.
Qed.

(** First-order face values: any two faces of opposite cells. *)
Lemma twin_width k : tw false (acell_width A m c k) (acell_width A m' (rc c) k).
Proof.
  unfold acell_width. pose proof (twin_dx 0 ltac:(lia)). pose proof (twin_dx 1 ltac:(lia)). pose proof (twin_dx 2 ltac:(lia)).
  repeat apply (twin_add _ _ _ _ HA); apply (twin_mulE _ _ _ _ HA); try assumption; apply (twin_lit _ _ _ _ HA).
Qed.
Lemma twin_face b (f f' : field3) s s' k : tw b (f c) (f' (rc c)) ->
  tw b (aface_value A LConstant m f c s k) (aface_value A LConstant m' f' (rc c) s' k).
Proof.
  intros Hf. unfold aface_value. cbn zeta. cbn [aslope].
  assert (Z : forall b, tw b (acell_width A m c k ⊘ a_lit A 2 0 ⊗ a_lit A 0 0) (acell_width A m' (rc c) k ⊘ a_lit A 2 0 ⊗ a_lit A 0 0)).
  { intros b0. apply (twin_mulE _ _ _ _ HA); [apply (twin_half _ _ _ _ HA), twin_width|apply (twin_zero _ _ _ _ HA)]. }
  revert Z. generalize (acell_width A m c k ⊘ a_lit A 2 0 ⊗ a_lit A 0 0) (acell_width A m' (rc c) k ⊘ a_lit A 2 0 ⊗ a_lit A 0 0).
  intros z z' Z. pose proof (twin_l _ _ _ _ HA _ _ _ (Z b)) as Sz. pose proof (twin_r _ _ _ _ HA _ _ _ (Z b)) as Sz'.
  assert (Zn : tw b (- z) z').
  { pose proof (Z (negb b)) as T. apply (twin_neg same) in T. now rewrite negb_involutive in T. }
  assert (Zn' : tw b z (- z')).
  { apply (twin_opp _ _ _ _ HA) in Zn. now rewrite Ropp_involutive in Zn. }
  destruct s, s'; [apply (twin_sub _ _ _ _ HA)| | |apply (twin_add _ _ _ _ HA)]; auto.
  - eapply (twin_trans_l _ _ _ _ HA); [apply (ss_sub HA); [eapply (twin_l _ _ _ _ HA); eauto|assumption]|]. now apply (twin_add _ _ _ _ HA).
  - eapply (twin_trans_r _ _ _ _ HA); [|apply (ss_sym HA), (ss_sub HA); [eapply (twin_r _ _ _ _ HA); eauto|assumption]]. now apply (twin_add _ _ _ _ HA).
Qed.

Variables (grav grav' : gravity) (dth dt : R).
Hypothesis Hdth : same dth dth.
Hypothesis Hdt : same dt dt.

(** Predictor step. *)
Lemma twin_hancock fp fp' : (nd <= 3)%nat -> nonzero (acart_dv A m c) ->
  (forall k, tw (Nat.eqb k d) (grav c k) (grav' (rc c) k)) ->
  (forall s s' k, twin_prim same d (fp s k) (fp' s' k)) -> (forall s k, nonzero (p_rho (fp s k))) ->
  forall s s' ipos, twin_cons same d (ahancock_cons A Cartesian nd e m grav dth fp c s ipos)
                                     (ahancock_cons A Cartesian nd e m' grav' dth fp' (rc c) s' ipos).
Proof.
  intros Hnd N Hg Hp Np s s' ipos.
  pose proof (twin_ato_cons _ _ _ _ HA nd e d He _ _ (Hp s s' ipos) (Np s ipos)) as (Q1 & Q2 & Q3).
  assert (FF : forall a a' k, twin_flux same d k (aflux_prim A nd e (fp a k) k) (aflux_prim A nd e (fp' a' k) k)).
  { intros a a' k. now apply (twin_aflux_prim _ _ _ _ HA). }
  unfold ahancock_cons, twin_cons. cbn zeta. cbn [q_rho q_m q_E]. split; [|split].
  - apply (twin_loop same); [|assumption]. intros k y y' Hk Hy. apply (twin_add _ _ _ _ HA); [assumption|].
    apply twin_flux_diff; [lia|assumption..|]. pose proof (proj1 (FF 0%nat 0%nat k)). pose proof (proj1 (FF 1%nat 0%nat k)).
    pose proof (proj1 (FF 0%nat 1%nat k)). pose proof (proj1 (FF 1%nat 1%nat k)).
    destruct (Nat.eqb k d); split; assumption.
  - intros j.
    assert (Pull : forall y y', tw (Nat.eqb j d) y y' ->
              tw (Nat.eqb j d) (y ⊕ dth ⊗ grav c j ⊗ q_rho (ato_cons A nd e (fp s ipos)))
                               (y' ⊕ dth ⊗ grav' (rc c) j ⊗ q_rho (ato_cons A nd e (fp' s' ipos)))).
    { intros y y' Hy. apply (twin_add _ _ _ _ HA); [assumption|].
      pose proof (twin_mul _ _ _ _ HA _ _ _ _ _ _ (twin_mulE _ _ _ _ HA _ _ _ _ _ (twin_refl _ _ Hdth) (Hg j)) Q1) as T.
      now rewrite xorb_false_r in T. }
    assert (X : tw (Nat.eqb j d)
      (loop nd (fun idim x => let x1 := x ⊕ aflux_diff A Cartesian nd m dth c idim (f_m (aflux_prim A nd e (fp 0%nat idim) idim) j) (f_m (aflux_prim A nd e (fp 1%nat idim) idim) j) in
                  let x2 := ageo A Cartesian nd m c (dth ⊘ adv A Cartesian nd m c) (fp 0%nat idim) (fp 1%nat idim) idim j x1 in
                  if Nat.eqb j idim then x2 ⊕ dth ⊗ grav c j ⊗ q_rho (ato_cons A nd e (fp s ipos)) else x2) (q_m (ato_cons A nd e (fp s ipos)) j))
      (loop nd (fun idim x => let x1 := x ⊕ aflux_diff A Cartesian nd m' dth (rc c) idim (f_m (aflux_prim A nd e (fp' 0%nat idim) idim) j) (f_m (aflux_prim A nd e (fp' 1%nat idim) idim) j) in
                  let x2 := ageo A Cartesian nd m' (rc c) (dth ⊘ adv A Cartesian nd m' (rc c)) (fp' 0%nat idim) (fp' 1%nat idim) idim j x1 in
                  if Nat.eqb j idim then x2 ⊕ dth ⊗ grav' (rc c) j ⊗ q_rho (ato_cons A nd e (fp' s' ipos)) else x2) (q_m (ato_cons A nd e (fp' s' ipos)) j))).
    { apply (twin_loop same); [|apply Q2]. intros k y y' Hk Hy. cbn zeta. cbn [ageo].
      assert (Y : tw (Nat.eqb j d)
        (y ⊕ aflux_diff A Cartesian nd m dth c k (f_m (aflux_prim A nd e (fp 0%nat k) k) j) (f_m (aflux_prim A nd e (fp 1%nat k) k) j))
        (y' ⊕ aflux_diff A Cartesian nd m' dth (rc c) k (f_m (aflux_prim A nd e (fp' 0%nat k) k) j) (f_m (aflux_prim A nd e (fp' 1%nat k) k) j))).
      { apply (twin_add _ _ _ _ HA); [assumption|]. apply twin_flux_diff; [lia|assumption..|].
        pose proof (proj1 (proj2 (FF 0%nat 0%nat k)) j) as T1. pose proof (proj1 (proj2 (FF 1%nat 0%nat k)) j) as T2.
        pose proof (proj1 (proj2 (FF 0%nat 1%nat k)) j) as T3. pose proof (proj1 (proj2 (FF 1%nat 1%nat k)) j) as T4.
        destruct (Nat.eqb k d); rewrite ?xorb_true_l, ?xorb_false_l in *; split; assumption. }
      destruct (Nat.eqb j k); [now apply Pull|exact Y]. }
    destruct (Nat.ltb j nd); [exact X|exact (Pull _ _ X)].
  - apply (twin_loop same); [|assumption]. intros k y y' Hk Hy. apply (twin_add _ _ _ _ HA); [apply (twin_add _ _ _ _ HA); [assumption|]|].
    + apply twin_flux_diff; [lia|assumption..|]. pose proof (proj2 (proj2 (FF 0%nat 0%nat k))). pose proof (proj2 (proj2 (FF 1%nat 0%nat k))).
      pose proof (proj2 (proj2 (FF 0%nat 1%nat k))). pose proof (proj2 (proj2 (FF 1%nat 1%nat k))).
      destruct (Nat.eqb k d); split; assumption.
    + pose proof (twin_mul _ _ _ _ HA _ _ _ _ _ _ (twin_mulE _ _ _ _ HA _ _ _ _ _ (twin_refl _ _ Hdth) (Hg k)) (Q2 k)) as T.
      now rewrite xorb_nilpotent in T.
Qed.

(** Corrector step. *)
Section Godunov.
Variables (s : solver) (a a' : idx -> cell) (r r' : recon).
Hypothesis Hnd : (nd <= 3)%nat.
Hypothesis Nv : nonzero (acart_dv A m c).
Hypothesis Hg : forall k, tw (Nat.eqb k d) (grav c k) (grav' (rc c) k).
Hypothesis Ha : twin_cell same d (a c) (a' (rc c)).
Hypothesis Hr : forall c0 sd sd' k, (k < nd)%nat -> in_stencil nd c c0 -> twin_cons same d (r_q r c0 sd k) (r_q r' (rc c0) sd' k).
Hypothesis Ht : forall k, (k < nd)%nat ->
  tame A nonzero finite s nd e (r_q r (lindex k c) 1%nat k) (r_q r c 0%nat k) k /\
  tame A nonzero finite s nd e (r_q r c 1%nat k) (r_q r (rindex k c) 0%nat k) k.

Lemma twin_faces k : (k < nd)%nat ->
  if Nat.eqb k d
  then twin_flux same d k (aflux_left A s nd e r c k) (aflux_right A s nd e r' (rc c) k) /\
       twin_flux same d k (aflux_right A s nd e r c k) (aflux_left A s nd e r' (rc c) k)
  else twin_flux same d k (aflux_left A s nd e r c k) (aflux_left A s nd e r' (rc c) k) /\
       twin_flux same d k (aflux_right A s nd e r c k) (aflux_right A s nd e r' (rc c) k).
Proof.
  intros Hk. destruct (Ht k Hk) as [TL TR]. unfold aflux_left, aflux_right.
  assert (SL : in_stencil nd c (lindex k c)) by (right; exists k; auto). assert (SR : in_stencil nd c (rindex k c)) by (right; exists k; auto).
  assert (SC : in_stencil nd c c) by now left.
  destruct (Nat.eqb_spec k d) as [->|Hn].
  - rewrite lindex_refl, rindex_refl by assumption. split; apply (riemann_across _ _ _ _ HA); try assumption; apply Hr; auto.
  - rewrite lindex_refl_other, rindex_refl_other by (assumption || lia).
    split; apply (riemann_along _ _ _ _ HA); try assumption; apply Hr; auto.
Qed.

Lemma twin_godunov : twin_cell same d (agod_cell A Cartesian nd e s m grav dt a r c) (agod_cell A Cartesian nd e s m' grav' dt a' r' (rc c)).
Proof.
  destruct Ha as (Q1 & Q2 & Q3). cbn [cons_of q_rho q_m q_E] in Q1, Q2, Q3.
  unfold twin_cell, twin_cons, agod_cell, cons_of. cbn [c_rho c_rhou c_E q_rho q_m q_E]. split; [|split].
  - unfold agod_rho. apply (twin_loop same); [|assumption]. intros k y y' Hk Hy. apply (twin_add _ _ _ _ HA); [assumption|].
    apply twin_flux_diff; [lia|assumption..|]. pose proof (twin_faces k Hk) as F. unfold twin_flux in F.
    destruct (Nat.eqb k d); destruct F as [F1 F2]; split; [apply F1|apply F2|apply F1|apply F2].
  - intros j. unfold agod_rhou. cbn zeta.
    assert (Pull : forall y y', tw (Nat.eqb j d) y y' ->
              tw (Nat.eqb j d) (y ⊕ dt ⊗ grav c j ⊗ c_rho (a c)) (y' ⊕ dt ⊗ grav' (rc c) j ⊗ c_rho (a' (rc c)))).
    { intros y y' Hy. apply (twin_add _ _ _ _ HA); [assumption|].
      pose proof (twin_mul _ _ _ _ HA _ _ _ _ _ _ (twin_mulE _ _ _ _ HA _ _ _ _ _ (twin_refl _ _ Hdt) (Hg j)) Q1) as T.
      now rewrite xorb_false_r in T. }
    cbn [ageo].
    assert (X : tw (Nat.eqb j d)
      (loop nd (fun k x => if Nat.eqb j k
          then x ⊕ aflux_diff A Cartesian nd m dt c k (f_m (aflux_left A s nd e r c k) j) (f_m (aflux_right A s nd e r c k) j) ⊕ dt ⊗ grav c j ⊗ c_rho (a c)
          else x ⊕ aflux_diff A Cartesian nd m dt c k (f_m (aflux_left A s nd e r c k) j) (f_m (aflux_right A s nd e r c k) j)) (c_rhou (a c) j))
      (loop nd (fun k x => if Nat.eqb j k
          then x ⊕ aflux_diff A Cartesian nd m' dt (rc c) k (f_m (aflux_left A s nd e r' (rc c) k) j) (f_m (aflux_right A s nd e r' (rc c) k) j) ⊕ dt ⊗ grav' (rc c) j ⊗ c_rho (a' (rc c))
          else x ⊕ aflux_diff A Cartesian nd m' dt (rc c) k (f_m (aflux_left A s nd e r' (rc c) k) j) (f_m (aflux_right A s nd e r' (rc c) k) j)) (c_rhou (a' (rc c)) j))).
    { apply (twin_loop same); [|apply Q2]. intros k y y' Hk Hy.
      assert (Y : tw (Nat.eqb j d)
        (y ⊕ aflux_diff A Cartesian nd m dt c k (f_m (aflux_left A s nd e r c k) j) (f_m (aflux_right A s nd e r c k) j))
        (y' ⊕ aflux_diff A Cartesian nd m' dt (rc c) k (f_m (aflux_left A s nd e r' (rc c) k) j) (f_m (aflux_right A s nd e r' (rc c) k) j))).
      { apply (twin_add _ _ _ _ HA); [assumption|]. apply twin_flux_diff; [lia|assumption..|].
        pose proof (twin_faces k Hk) as F. unfold twin_flux in F.
        destruct (Nat.eqb k d); destruct F as [(_ & F1 & _) (_ & F2 & _)]; specialize (F1 j); specialize (F2 j);
          rewrite ?xorb_true_l, ?xorb_false_l in *; split; assumption. }
      destruct (Nat.eqb j k); [now apply Pull|exact Y]. }
    destruct (Nat.ltb j nd); [exact X|exact (Pull _ _ X)].
  - unfold agod_E. apply (twin_loop same); [|assumption]. intros k y y' Hk Hy. apply (twin_add _ _ _ _ HA); [apply (twin_add _ _ _ _ HA); [assumption|]|].
    + apply twin_flux_diff; [lia|assumption..|]. pose proof (twin_faces k Hk) as F. unfold twin_flux in F.
      destruct (Nat.eqb k d); destruct F as [F1 F2]; split; [apply F1|apply F2|apply F1|apply F2].
    + pose proof (twin_mul _ _ _ _ HA _ _ _ _ _ _ (twin_mulE _ _ _ _ HA _ _ _ _ _ (twin_refl _ _ Hdt) (Hg k)) (Q2 k)) as T.
      now rewrite xorb_nilpotent in T.
Qed.
End Godunov.
End Step.
