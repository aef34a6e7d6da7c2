(** * In every arithmetic the step on a process grid gives the slices of the single-process step (C86). *)
From Coq Require Import FunctionalExtensionality ZifyBool ZifyNat.
From Verif Require Import Base RBase ModelMesh ModelGeom ModelBoundary ModelHydro ModelScheme ModelStep ModelArith
  SpecMesh SpecBoundary SpecHydro SpecScheme SpecStep SpecArith
  ProofBase ProofMesh ProofR ProofBoundary ProofBoundary2 ProofHydro ProofScheme ProofMirror ProofShift ProofReduce ProofStep
  ProofArithReal.
Local Open Scope R_scope.

(** ** Kernels commute with translations *)
Definition mesh_agree (m m' : mesh) (o : idx) : Prop := forall d i, (d < 3)%nat -> m' d (coord d o + i)%Z = m d i.

Section Shift.
Variable A : arith.
Variables (g : geom) (nd : nat) (m m' : mesh) (o c : idx).
Hypothesis Hm : mesh_agree m m' o.

Lemma adx_shift d j : (d < 3)%nat -> adx A m' d (coord d o + j)%Z = adx A m d j.
Proof. intros Hd. unfold adx. now rewrite <- Z.add_assoc, !Hm. Qed.
Lemma axc_shift d j : (d < 3)%nat -> axc A m' d (coord d o + j)%Z = axc A m d j.
Proof. intros Hd. unfold axc. now rewrite <- Z.add_assoc, !Hm. Qed.
Lemma m0 j : m' 0%nat (ii o + j)%Z = m 0%nat j. Proof. exact (Hm 0%nat j ltac:(lia)). Qed.
Lemma m1 j : m' 1%nat (jj o + j)%Z = m 1%nat j. Proof. exact (Hm 1%nat j ltac:(lia)). Qed.
Lemma adx0 j : adx A m' 0%nat (ii o + j)%Z = adx A m 0%nat j. Proof. exact (adx_shift 0%nat j ltac:(lia)). Qed.
Lemma adx1 j : adx A m' 1%nat (jj o + j)%Z = adx A m 1%nat j. Proof. exact (adx_shift 1%nat j ltac:(lia)). Qed.
Lemma adx2 j : adx A m' 2%nat (kk o + j)%Z = adx A m 2%nat j. Proof. exact (adx_shift 2%nat j ltac:(lia)). Qed.
Lemma axc0 j : axc A m' 0%nat (ii o + j)%Z = axc A m 0%nat j. Proof. exact (axc_shift 0%nat j ltac:(lia)). Qed.
Lemma axc1 j : axc A m' 1%nat (jj o + j)%Z = axc A m 1%nat j. Proof. exact (axc_shift 1%nat j ltac:(lia)). Qed.

Lemma ads_shift x d : ads A g nd m' (iadd o x) d = ads A g nd m x d.
Proof.
  destruct g; cbn [ads].
  - unfold acart_ds. cbn [coord iadd ii jj kk]. now rewrite adx0, adx1, adx2.
  - unfold asph_ds, asph_dcos. cbn [iadd ii jj kk]. rewrite <- !Z.add_assoc, !m0, !m1, adx0, adx1, adx2. reflexivity.
Qed.
Lemma adv_shift x : adv A g nd m' (iadd o x) = adv A g nd m x.
Proof.
  destruct g; cbn [adv].
  - unfold acart_dv. cbn [iadd ii jj kk]. now rewrite adx0, adx1, adx2.
  - unfold asph_dv, asph_dcos. cbn [iadd ii jj kk]. rewrite <- !Z.add_assoc, !m0, !m1, adx2. reflexivity.
Qed.
Lemma aflux_diff_shift dt d x y : aflux_diff A g nd m' dt (iadd o c) d x y = aflux_diff A g nd m dt c d x y.
Proof. unfold aflux_diff. now rewrite adv_shift, ads_shift, rindex_iadd, ads_shift. Qed.
Lemma ageo_shift dtodv pL pR d k x : ageo A g nd m' (iadd o c) dtodv pL pR d k x = ageo A g nd m c dtodv pL pR d k x.
Proof.
  unfold ageo. destruct g eqn:E; [reflexivity|]. rewrite <- E. rewrite rindex_iadd, !ads_shift.
  cbn [iadd ii jj kk]. rewrite <- !Z.add_assoc, !m0, !m1. reflexivity.
Qed.
Lemma acell_width_shift x d : acell_width A m' (iadd o x) d = acell_width A m x d.
Proof. unfold acell_width. cbn [iadd ii jj kk]. now rewrite adx0, adx1, adx2. Qed.
Lemma aface_value_shift l (f f' : field3) side k :
  f' (iadd o c) = f c -> f' (iadd o (lindex k c)) = f (lindex k c) -> f' (iadd o (rindex k c)) = f (rindex k c) ->
  aface_value A l m' f' (iadd o c) side k = aface_value A l m f c side k.
Proof.
  intros H0 HL HR. unfold aface_value. rewrite lindex_iadd, rindex_iadd, H0, HL, HR, !acell_width_shift. reflexivity.
Qed.
End Shift.

(** ** Reconstruction at a cell *)
Lemma if_pull A (t : bool) (a b z : R) : a = b -> (if t then a else a_add A a z) = (if t then b else a_add A b z).
Proof. now intros ->. Qed.
Section ReconShift.
Variable A : arith.
Variables (g : geom) (nd : nat) (e : eos) (l : limiter) (m m' : mesh) (o c : idx) (dt : R).
Variables (rho rho' P P' : field3) (u u' fx fx' : field4) (p p' : idx -> bool) (old old' : recon) (grav grav' : gravity).
Hypothesis Hm : mesh_agree m m' o.
Hypothesis Hg : forall k, grav' (iadd o c) k = grav c k.
Hypothesis Hrho : forall x, in_stencil nd c x -> rho' (iadd o x) = rho x.
Hypothesis HP : forall x, in_stencil nd c x -> P' (iadd o x) = P x.
Hypothesis Hu : forall x, in_stencil nd c x -> u' (iadd o x) = u x.
Hypothesis Hfx : forall x, in_stencil nd c x -> fx' (iadd o x) = fx x.
Hypothesis Hp : p c = true.
Hypothesis Hp' : p' (iadd o c) = true.

Let st0 : in_stencil nd c c := or_introl eq_refl.
Let stL k (H : (k < nd)%nat) : in_stencil nd c (lindex k c) := or_intror (ex_intro _ k (conj H (or_introl eq_refl))).
Let stR k (H : (k < nd)%nat) : in_stencil nd c (rindex k c) := or_intror (ex_intro _ k (conj H (or_intror eq_refl))).

Lemma aface_prim_shift sd k : (k < nd)%nat ->
  aface_prim A l m' rho' u' P' (iadd o c) sd k = aface_prim A l m rho u P c sd k.
Proof.
  intros Hk. unfold aface_prim. apply prim_ext; cbn [p_rho p_u p_P].
  - apply (aface_value_shift A m m' o c Hm); auto.
  - intros n. apply (aface_value_shift A m m' o c Hm); rewrite Hu; auto.
  - apply (aface_value_shift A m m' o c Hm); auto.
Qed.
Lemma aface_fx_shift sd k n : (k < nd)%nat -> aface_fx A l m' fx' (iadd o c) sd k n = aface_fx A l m fx c sd k n.
Proof. intros Hk. unfold aface_fx. apply (aface_value_shift A m m' o c Hm); rewrite Hfx; auto. Qed.

Lemma ahancock_shift sd k : (k < nd)%nat ->
  ahancock_cons A g nd e m' grav' dt (aface_prim A l m' rho' u' P' (iadd o c)) (iadd o c) sd k
  = ahancock_cons A g nd e m grav dt (aface_prim A l m rho u P c) c sd k.
Proof.
  intros Hk. unfold ahancock_cons. rewrite aface_prim_shift by assumption.
  apply cons_ext; cbn [q_rho q_m q_E].
  - apply loop_ext. intros d s Hd. rewrite !aface_prim_shift by assumption. now rewrite (aflux_diff_shift A g nd m m' o c Hm).
  - intros j. rewrite Hg, (adv_shift A g nd m m' o Hm).
    cbv zeta. apply if_pull.
    apply loop_ext. intros d s Hd. rewrite !aface_prim_shift by assumption.
    rewrite (aflux_diff_shift A g nd m m' o c Hm), (ageo_shift A g nd m m' o c Hm). reflexivity.
  - apply loop_ext. intros d s Hd. rewrite !aface_prim_shift by assumption. now rewrite Hg, (aflux_diff_shift A g nd m m' o c Hm).
Qed.

Lemma arecon_shift sd k : (k < nd)%nat ->
  let r := ahydro_reconstruction A p g nd e l m grav dt rho u P fx old in
  let r' := ahydro_reconstruction A p' g nd e l m' grav' dt rho' u' P' fx' old' in
  r_q r' (iadd o c) sd k = r_q r c sd k /\ (forall n, r_fx r' (iadd o c) sd k n = r_fx r c sd k n).
Proof.
  intros Hk. cbv zeta. cbn [ahydro_reconstruction r_q r_fx]. unfold kwrite. rewrite Hp, Hp'. split.
  - now apply ahancock_shift.
  - intros n. unfold ahancock_fx. rewrite ahancock_shift by assumption.
    rewrite aface_fx_shift, aface_prim_shift by assumption. f_equal.
    apply loop_ext. intros d s Hd. rewrite !aface_fx_shift, !aface_prim_shift by assumption.
    now rewrite (aflux_diff_shift A g nd m m' o c Hm).
Qed.
End ReconShift.

(** ** Update of a cell *)
Section UpdateShift.
Variable A : arith.
Variables (g : geom) (nd : nat) (e : eos) (s : solver) (m m' : mesh) (o c : idx) (dt : R).
Variables (a a' : idx -> cell) (r r' : recon) (grav grav' : gravity).
Hypothesis Hm : mesh_agree m m' o.
Hypothesis Hg : forall k, grav' (iadd o c) k = grav c k.
Hypothesis Hr : forall x sd k, in_stencil nd c x -> (k < nd)%nat -> r_q r' (iadd o x) sd k = r_q r x sd k.
Hypothesis Hrx : forall x sd k n, in_stencil nd c x -> (k < nd)%nat -> r_fx r' (iadd o x) sd k n = r_fx r x sd k n.

Let st0 : in_stencil nd c c := or_introl eq_refl.
Let stL k (H : (k < nd)%nat) : in_stencil nd c (lindex k c) := or_intror (ex_intro _ k (conj H (or_introl eq_refl))).
Let stR k (H : (k < nd)%nat) : in_stencil nd c (rindex k c) := or_intror (ex_intro _ k (conj H (or_intror eq_refl))).

Lemma aflux_left_shift d : (d < nd)%nat -> aflux_left A s nd e r' (iadd o c) d = aflux_left A s nd e r c d.
Proof. intros Hd. unfold aflux_left. rewrite lindex_iadd, !Hr; auto. Qed.
Lemma aflux_right_shift d : (d < nd)%nat -> aflux_right A s nd e r' (iadd o c) d = aflux_right A s nd e r c d.
Proof. intros Hd. unfold aflux_right. rewrite rindex_iadd, !Hr; auto. Qed.
Lemma afx_left_shift d n : (d < nd)%nat -> afx_left A s nd e r' (iadd o c) d n = afx_left A s nd e r c d n.
Proof. intros Hd. unfold afx_left. rewrite aflux_left_shift, lindex_iadd, !Hrx; auto. Qed.
Lemma afx_right_shift d n : (d < nd)%nat -> afx_right A s nd e r' (iadd o c) d n = afx_right A s nd e r c d n.
Proof. intros Hd. unfold afx_right. rewrite aflux_right_shift, rindex_iadd, !Hrx; auto. Qed.

Lemma agod_cell_shift : a' (iadd o c) = a c ->
  agod_cell A g nd e s m' grav' dt a' r' (iadd o c) = agod_cell A g nd e s m grav dt a r c.
Proof.
  intros Ha.
  assert (E1 : agod_rho A g nd e s m' dt a' r' (iadd o c) = agod_rho A g nd e s m dt a r c).
  { unfold agod_rho. rewrite Ha. apply loop_ext. intros d x Hd.
    now rewrite aflux_left_shift, aflux_right_shift, (aflux_diff_shift A g nd m m' o c Hm). }
  unfold agod_cell. f_equal.
  - exact E1.
  - apply functional_extensionality. intros j. unfold agod_rhou. rewrite Ha, Hg, (adv_shift A g nd m m' o Hm).
    cbv zeta. apply if_pull.
    apply loop_ext. intros d x Hd. rewrite aflux_left_shift, aflux_right_shift by assumption.
    rewrite (aflux_diff_shift A g nd m m' o c Hm), (ageo_shift A g nd m m' o c Hm).
    now rewrite !Hr by auto.
  - unfold agod_E. rewrite Ha. apply loop_ext. intros d x Hd. rewrite aflux_left_shift, aflux_right_shift by assumption.
    now rewrite Hg, (aflux_diff_shift A g nd m m' o c Hm).
  - apply functional_extensionality. intros n. rewrite E1. f_equal. f_equal. unfold agod_rhofx. rewrite Ha.
    apply loop_ext. intros d x Hd. rewrite aflux_left_shift, aflux_right_shift, afx_left_shift, afx_right_shift by assumption.
    now rewrite (aflux_diff_shift A g nd m m' o c Hm).
Qed.

Lemma aus_left_shift d k : (d < nd)%nat -> aus_left A nd e r' (iadd o c) d k = aus_left A nd e r c d k.
Proof. intros Hd. unfold aus_left. rewrite lindex_iadd, !Hr; auto. Qed.
Lemma aus_right_shift d k : (d < nd)%nat -> aus_right A nd e r' (iadd o c) d k = aus_right A nd e r c d k.
Proof. intros Hd. unfold aus_right. rewrite rindex_iadd, !Hr; auto. Qed.

Lemma apf_cell_shift eps a_new a_new' : (forall x, in_stencil nd c x -> a' (iadd o x) = a x) ->
  a_new' (iadd o c) = a_new c ->
  apf_cell A g nd e m' dt eps a' r' a_new' (iadd o c) = apf_cell A g nd e m dt eps a r a_new c.
Proof.
  intros Ha Hn.
  assert (Ediv : adiv_u A g nd e m' r' (iadd o c) = adiv_u A g nd e m r c).
  { unfold adiv_u. apply loop_ext. intros d x Hd. apply loop_ext. intros k y Hk.
    now rewrite aus_left_shift, aus_right_shift, rindex_iadd, (adv_shift A g nd m m' o Hm), !(ads_shift A g nd m m' o Hm). }
  assert (Edue : adiv_ue A g nd e m' a' r' (iadd o c) = adiv_ue A g nd e m a r c).
  { unfold adiv_ue. apply loop_ext. intros d x Hd. apply loop_ext. intros k y Hk. unfold aein_left, aein_right.
    rewrite aus_left_shift, aus_right_shift by assumption.
    rewrite rindex_iadd, lindex_iadd, (adv_shift A g nd m m' o Hm), !(ads_shift A g nd m m' o Hm), !Ha by auto. reflexivity. }
  unfold apf_cell, apf_energy, ade_pf, aalpha, aekin. rewrite Hn, !Ha, Ediv, Edue by auto. reflexivity.
Qed.
End UpdateShift.

Section StepShift.
Variable A : arith.
Variables (K : config) (L L' : layout) (r r' : idx) (o : idx) (S S' : idx -> pstate) (dt : R).
Hypothesis Hm : mesh_agree (l_mesh L r) (l_mesh L' r') o.
Notation alike := (alike r r' o S S').

Lemma astep_rec_shift c sd k : (k < k_nd K)%nat ->
  (forall j, s_grav (S' r') (iadd o c) j = s_grav (S r) c j) ->
  (forall x, in_stencil (k_nd K) c x -> alike x) ->
  sel K L 1 r c = true -> sel K L' 1 r' (iadd o c) = true ->
  r_q (astep_rec A K L' dt S' r') (iadd o c) sd k = r_q (astep_rec A K L dt S r) c sd k /\
  (forall n, r_fx (astep_rec A K L' dt S' r') (iadd o c) sd k n = r_fx (astep_rec A K L dt S r) c sd k n).
Proof.
  intros Hk Hg Hal Hp Hp'. unfold astep_rec. apply arecon_shift; try assumption.
  - intros x Hx. destruct (Hal x Hx) as (-> & _). reflexivity.
  - intros x Hx. now destruct (Hal x Hx) as (_ & _ & ->).
  - intros x Hx. now destruct (Hal x Hx) as (_ & -> & _).
  - intros x Hx. destruct (Hal x Hx) as (-> & _). reflexivity.
Qed.

Lemma astep_user_shift t c :
  (forall x, in_stencil (k_nd K) c x ->
     (forall j, s_grav (S' r') (iadd o x) j = s_grav (S r) x j) /\
     sel K L 1 r x = true /\ sel K L' 1 r' (iadd o x) = true /\
     forall y, in_stencil (k_nd K) x y -> alike y) ->
  sel K L 0 r c = true -> sel K L' 0 r' (iadd o c) = true ->
  astep_user A K L' t dt S' r' (iadd o c) = astep_user A K L t dt S r c.
Proof.
  intros H Hp Hp'.
  assert (H0 : in_stencil (k_nd K) c c) by (left; reflexivity).
  destruct (H c H0) as (Hg & _ & _ & Hal0).
  assert (Hr : forall x sd k, in_stencil (k_nd K) c x -> (k < k_nd K)%nat ->
    r_q (astep_rec A K L' dt S' r') (iadd o x) sd k = r_q (astep_rec A K L dt S r) x sd k).
  { intros x sd k Hx Hk. destruct (H x Hx) as (A2 & A3 & A4 & A5). now apply astep_rec_shift. }
  assert (Hrx : forall x sd k n, in_stencil (k_nd K) c x -> (k < k_nd K)%nat ->
    r_fx (astep_rec A K L' dt S' r') (iadd o x) sd k n = r_fx (astep_rec A K L dt S r) x sd k n).
  { intros x sd k n Hx Hk. destruct (H x Hx) as (A2 & A3 & A4 & A5). now apply astep_rec_shift. }
  assert (Ha : forall x, in_stencil (k_nd K) c x -> s_cell (S' r') (iadd o x) = s_cell (S r) x).
  { intros x Hx. now destruct (Hal0 x Hx). }
  assert (Eg : astep_godunov A K L' dt S' r' (iadd o c) = astep_godunov A K L dt S r c).
  { unfold astep_godunov. rewrite !kwrite_in by assumption. apply agod_cell_shift; auto. }
  unfold astep_user. rewrite !kwrite_in by assumption. f_equal.
  unfold astep_pf. destruct (k_pf K) as [eps|]; [|exact Eg].
  rewrite !kwrite_in by assumption. apply apf_cell_shift; auto.
Qed.
End StepShift.

(** ** The process grid *)
Section Par.
Variable A : arith.
Variables (K : config) (N dims : idx) (X : nat -> arr1) (L L1 : layout).
Hypothesis HL : laid_out K N dims X L.
Hypothesis HL1 : laid_out K N one_process X L1.
Hypothesis Hthick : thick (k_nd K) dims (k_ng K) (l_dec L).
Hypothesis Hng : (2 <= k_ng K)%Z.
Hypothesis Hfaces : faces_ok (k_nd K) (k_order K).
Hypothesis Hgrav : local_gravity K.
Notation nd := (k_nd K).
Notation ng := (k_ng K).
Notation cmn r := (corner_min (d_range (l_dec L r))).
Notation vr := (process nd dims).
Notation in_step := (in_step K dims L).

Lemma agrees r : vr r -> mesh_agree (l_mesh L r) (l_mesh L1 rank0) (cmn r).
Proof. intros Hr d i Hd. now apply (mesh_slice K N dims X L L1 HL HL1). Qed.

Lemma agravity_slice r c d : vr r ->
  match agravity_values A K L1 rank0, agravity_values A K L r with
  | Some g1, Some g => g1 (iadd (cmn r) c) d = g c d
  | None, None => False
  | _, _ => False
  end.
Proof.
  intros Hr. unfold agravity_values. destruct (k_grav K) as [g|M|M] eqn:E; [reflexivity| |now destruct (Hgrav M)].
  destruct d as [|d]; [|reflexivity]. cbn [iadd ii]. now rewrite !(axc0 A _ _ _ (agrees r Hr)).
Qed.

Lemma afinish_slice W W1 rec rec1 new new1 S S1 :
  slice_of nd dims (l_dec L) W (W1 rank0) -> in_step (afinish A K L W rec new S) (afinish A K L1 W1 rec1 new1 S1).
Proof.
  intros HW. split.
  - assert (Hin : forall r c, vr r -> in_array (d_nwg (l_dec L r)) c ->
      sel K L ng r c = true /\ sel K L1 ng rank0 (iadd (cmn r) c) = true).
    { intros r c Hr Hc. apply (sel_array _ _ _ _ _ _ _ HL Hr) in Hc. split; [exact Hc|].
      now apply (sel_slice K N dims X L L1 HL HL1). }
    split; [exact HW|]. split; intros r Hr c Hc; destruct (Hin r c Hr Hc) as [E1 E2];
      cbn [afinish s_u s_P]; unfold kwrite; rewrite E1, E2, (HW r Hr c Hc); reflexivity.
  - intros r c j Hr Hc. cbn [afinish s_grav]. pose proof (agravity_slice r c j Hr) as H.
    destruct (agravity_values A K L1 rank0), (agravity_values A K L r); [exact H|now destruct H..].
Qed.

Lemma afull_step_slice t dt S S1 : in_step S S1 -> in_step (afull_step A K L t dt S) (afull_step A K L1 t dt S1).
Proof.
  intros [(HC & HU & HP) HG]. unfold afull_step. apply afinish_slice.
  apply (bcs_slice K N dims X L L1 HL HL1 Hthick Hfaces).
  intros r c Hr Hc. pose proof (proj2 (sel_owned _ _ _ _ _ _ _ HL Hr) Hc) as Hs.
  apply (astep_user_shift A K L L1 r rank0 (cmn r) S S1 dt (agrees r Hr) t c).
  - intros x Hx. pose proof (sel_stencil _ _ _ _ _ _ _ _ _ HL Hr Hs Hx) as Hx1. cbn [Z.add] in Hx1.
    split; [|split; [exact Hx1|split; [now apply (sel_slice K N dims X L L1 HL HL1)|]]].
    + intros j. apply HG; [exact Hr|]. apply (array_stencil2 K N dims X L HL Hng); [exact Hr|].
      apply (sel_mono _ _ _ _ _ 1 _ _ _ HL Hr); [lia|exact Hx1].
    + intros y Hy. pose proof (sel_stencil _ _ _ _ _ _ _ _ _ HL Hr Hx1 Hy) as Hy2. cbn [Z.add Pos.add] in Hy2.
      pose proof (array_stencil2 K N dims X L HL Hng r y Hr Hy2) as Hya.
      split; [symmetry; now apply HC|]. split; [symmetry; now apply HU|symmetry; now apply HP].
  - exact Hs.
  - now apply (sel_slice K N dims X L L1 HL HL1).
Qed.

Lemma ainit_slice G S S1 : starts_from K dims L G S -> starts_from K one_process L1 G S1 ->
  in_step (ainit_state A K L S) (ainit_state A K L1 S1).
Proof.
  intros H H1. unfold ainit_state. apply afinish_slice. apply (bcs_slice K N dims X L L1 HL HL1 Hthick Hfaces).
  intros r c Hr Hc. pose proof (owned_slice K N dims X L L1 HL HL1 r c Hr Hc) as Hc1.
  pose proof (proj2 (sel_owned _ _ _ _ _ _ _ HL Hr) Hc) as Hs.
  assert (Eg : global_index nd ng (corner_min (d_range (l_dec L1 rank0))) (iadd (cmn r) c) = global_index nd ng (cmn r) c).
  { apply idx_ext. intros d Hd. unfold global_index. rewrite !coord_mk3, (s_cmin _ _ _ _ HL1), coord_iadd by assumption. lia. }
  pose proof (sf_rho H r Hr c Hc) as A1. pose proof (sf_rho H1 rank0 (rank0_ok nd) _ Hc1) as B1.
  pose proof (sf_fx H r Hr c Hc) as A2. pose proof (sf_fx H1 rank0 (rank0_ok nd) _ Hc1) as B2.
  pose proof (sf_u H r Hr c Hc) as A3. pose proof (sf_u H1 rank0 (rank0_ok nd) _ Hc1) as B3.
  pose proof (sf_P H r Hr c Hc) as A4. pose proof (sf_P H1 rank0 (rank0_ok nd) _ Hc1) as B4.
  cbn beta in *. rewrite Eg in B1, B2, B3, B4. rewrite <- A1 in B1. rewrite <- A2 in B2. rewrite <- A3 in B3. rewrite <- A4 in B4.
  unfold ainit_cons, kwrite.
  rewrite Hs, (sel_slice K N dims X L L1 HL HL1 _ _ _ Hr Hs), B1, B2, B3, B4. reflexivity.
Qed.

Lemma ainverse_slice S S1 r c : in_step S S1 -> vr r -> sel K L ng r c = true ->
  acell_inverse_dt A K L S r c = acell_inverse_dt A K L1 S1 rank0 (iadd (cmn r) c).
Proof.
  intros [(HC & HU & HP) _] Hr Hs. apply (sel_array _ _ _ _ _ _ _ HL Hr) in Hs.
  unfold acell_inverse_dt. rewrite (HC r Hr c Hs), (HU r Hr c Hs), (HP r Hr c Hs).
  pose proof (Hnd3 K N dims X L HL) as H3. unfold asum. apply loop_ext. intros d x Hd. f_equal. f_equal.
  pose proof (agrees r Hr) as Hm.
  unfold adx_geom. rewrite coord_iadd by lia. rewrite (adx_shift A _ _ _ Hm) by lia. cbn [iadd ii jj kk].
  rewrite (axc0 A _ _ _ Hm), (axc1 A _ _ _ Hm), (adx1 A _ _ _ Hm), (adx2 A _ _ _ Hm). reflexivity.
Qed.
Lemma avalues_slice S S1 : in_step S S1 -> forall x,
  In x (all_values K L ng (acell_inverse_dt A K L S)) <-> In x (all_values K L1 ng (acell_inverse_dt A K L1 S1)).
Proof.
  intros H. apply (values_slice K N dims X L L1 HL HL1); [lia|]. intros r c Hr Hs. now apply ainverse_slice.
Qed.
End Par.

(** ** Reductions in any order *)
Section Reduce.
Variables (A : arith) (good : R -> Prop).
Hypothesis Ho : ordered A good.

Lemma reduces_max l v : (forall x, In x l -> good x) -> reduces A l v ->
  In v l /\ forall x, In x l -> a_lt A v x = false.
Proof.
  intros Hl H. induction H as [x|l1 l2 l a b Hin H1 IH1 H2 IH2].
  - split; [now left|]. intros y [<-|[]]. apply (ord_irrefl _ _ Ho). apply Hl. now left.
  - destruct IH1 as [I1 M1]; [intros x Hx; apply Hl, Hin; now left|].
    destruct IH2 as [I2 M2]; [intros x Hx; apply Hl, Hin; now right|].
    assert (Ga : good a) by (apply Hl, Hin; now left). assert (Gb : good b) by (apply Hl, Hin; now right).
    unfold akmax. destruct (a_lt A a b) eqn:E.
    + split; [apply Hin; now right|]. intros x Hx. apply Hin in Hx. destruct Hx as [Hx|Hx]; [|now apply M2].
      destruct (a_lt A b x) eqn:F; [|reflexivity]. rewrite <- (M1 x Hx). symmetry. apply (ord_trans _ _ Ho a b x); auto.
      apply Hl, Hin. now left.
    + split; [apply Hin; now left|]. intros x Hx. assert (Gx : good x) by now apply Hl.
      apply Hin in Hx. destruct Hx as [Hx|Hx]; [now apply M1|].
      destruct (a_lt A a x) eqn:F; [|reflexivity].
      destruct (a_lt A b a) eqn:G.
      * rewrite <- (M2 x Hx). symmetry. now apply (ord_trans _ _ Ho b a x).
      * assert (a = b) by now apply (ord_total _ _ Ho). subst b. rewrite <- (M2 x Hx). now symmetry.
Qed.
Lemma reduces_unique l l' v v' : (forall x, In x l <-> In x l') -> (forall x, In x l' -> good x) ->
  reduces A l v -> reduces A l' v' -> v = v'.
Proof.
  intros E Hg H H'. assert (Hg0 : forall x, In x l -> good x) by (intros x Hx; apply Hg, E, Hx).
  destruct (reduces_max l v Hg0 H) as [I M]. destruct (reduces_max l' v' Hg H') as [I' M'].
  apply (ord_total _ _ Ho); [auto..| |].
  - apply M. now apply E.
  - apply M'. now apply E.
Qed.
End Reduce.

Section Runs.
Variables (A : arith) (good : R -> Prop).
Hypothesis Ho : ordered A good.
Variables (K : config) (N dims : idx) (X : nat -> arr1) (L L1 : layout).
Hypothesis HL : laid_out K N dims X L.
Hypothesis HL1 : laid_out K N one_process X L1.
Hypothesis Hthick : thick (k_nd K) dims (k_ng K) (l_dec L).
Hypothesis Hng : (2 <= k_ng K)%Z.
Hypothesis Hfaces : faces_ok (k_nd K) (k_order K).
Hypothesis Hgrav : local_gravity K.

Lemma aruns_slice cfl n : forall t S S1 t' S' t1' S1',
  in_step K dims L S S1 -> good_run A good K L1 cfl n t S1 ->
  aruns A K L cfl n t S t' S' -> aruns A K L1 cfl n t S1 t1' S1' ->
  t' = t1' /\ in_step K dims L S' S1'.
Proof.
  induction n as [|n IH]; intros t S S1 t' S' t1' S1' Hin Hgood H H1.
  - inversion H; subst. inversion H1; subst. split; [reflexivity|exact Hin].
  - inversion H as [|? ? ? v ? ? Hv Hr]; subst. inversion H1 as [|? ? ? v1 ? ? Hv1 Hr1]; subst.
    inversion Hgood as [|? ? ? Hg Hnext]; subst.
    assert (E : v = v1).
    { apply (reduces_unique A good Ho _ _ v v1 (avalues_slice A K N dims X L L1 HL HL1 Hng S S1 Hin) Hg Hv Hv1). }
    subst v1. cbv zeta in Hr, Hr1, Hnext. eapply IH; [|exact (Hnext v Hv1)|exact Hr|exact Hr1].
    now apply (afull_step_slice A K N dims X L L1).
Qed.
End Runs.
