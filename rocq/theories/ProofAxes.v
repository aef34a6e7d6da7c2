(** * C58: the Cartesian scheme is equivariant under relabelling of the axes. *)
From Coq Require Import FunctionalExtensionality Permutation.
From Verif Require Import Base RBase ModelMesh ModelGeom ModelBoundary ModelHydro ModelScheme SpecHydro SpecScheme
  ProofBase ProofR ProofHydro ProofHydro2 ProofScheme.
Local Open Scope R_scope.

Section Axes.
Variables (nd : nat) (sigma tau : nat -> nat).
Hypothesis Hnd : (nd <= 3)%nat.
Hypothesis HA : axis_perm nd sigma tau.

Notation pidx := (relabel_idx tau).
Notation pvec := (relabel_vec tau).
Notation pcell := (relabel_cell tau).
Notation pcons := (relabel_cons tau).
Definition pprim (p : prim) : prim := mkPrim (p_rho p) (pvec (p_u p)) (p_P p).
Definition pflux (f : flux) : flux := mkFlux (f_rho f) (pvec (f_m f)) (f_E f).

Lemma vsum_tau (f : nat -> R) : vsum nd (fun d => f (tau d)) = vsum nd f.
Proof.
  assert (V : forall h : nat -> R, vsum nd h = lsum h (seq 0 nd)) by (intros h; symmetry; apply (lsum_seq h)).
  rewrite !V, <- (lsum_map tau f). apply lsum_perm. apply NoDup_Permutation.
  - apply FinFun.Injective_map_NoDup; [|apply seq_NoDup].
    intros x y H. rewrite <- (ax_st _ _ _ HA x), H. apply (ax_st _ _ _ HA).
  - apply seq_NoDup.
  - intros x. rewrite in_map_iff, in_seq. split.
    + intros (d & <- & Hd). apply in_seq in Hd. pose proof (ax_nd _ _ _ HA d). lia.
    + intros Hx. exists (sigma x). rewrite (ax_ts _ _ _ HA). split; [reflexivity|]. apply in_seq.
      pose proof (ax_nd _ _ _ HA (sigma x)) as H. rewrite (ax_ts _ _ _ HA) in H. lia.
Qed.

Lemma vsum_tau2 (f g : nat -> R) : (forall d, (d < nd)%nat -> f d = g (tau d)) -> vsum nd f = vsum nd g.
Proof. intros H. rewrite <- (vsum_tau g). now apply vsum_ext. Qed.

Lemma eqb_tau k d : Nat.eqb (tau k) (tau d) = Nat.eqb k d.
Proof.
  destruct (Nat.eqb_spec k d) as [->|H]; [apply Nat.eqb_refl|]. apply Nat.eqb_neq. intros E. apply H.
  rewrite <- (ax_st _ _ _ HA k), E. apply (ax_st _ _ _ HA).
Qed.

Lemma coord_pidx d c : (d < 3)%nat -> coord d (pidx c) = coord (tau d) c.
Proof. intros H. unfold relabel_idx. now rewrite coord_mk3. Qed.

Lemma tau_lt d : (d < 3)%nat -> (tau d < 3)%nat.
Proof. intros. now apply (ax_3 _ _ _ HA). Qed.

Lemma rindex_pidx d c : rindex d (pidx c) = pidx (rindex (tau d) c).
Proof.
  apply idx_ext3. intros k Hk. rewrite coord_rindex, !coord_pidx, coord_rindex by (assumption || now apply tau_lt).
  now rewrite eqb_tau.
Qed.
Lemma lindex_pidx d c : lindex d (pidx c) = pidx (lindex (tau d) c).
Proof.
  apply idx_ext3. intros k Hk. rewrite coord_lindex, !coord_pidx, coord_lindex by (assumption || now apply tau_lt).
  now rewrite eqb_tau.
Qed.

(** ** Geometry *)
Variable m : mesh.
Let m' : mesh := fun d => m (tau d).

Lemma prod3_tau (f : nat -> R) : f (tau 0%nat) * f (tau 1%nat) * f (tau 2%nat) = f 0%nat * f 1%nat * f 2%nat.
Proof.
  pose proof (tau_lt 0 ltac:(lia)) as L0. pose proof (tau_lt 1 ltac:(lia)) as L1. pose proof (tau_lt 2 ltac:(lia)) as L2.
  pose proof (ax_st _ _ _ HA 0%nat) as E0. pose proof (ax_st _ _ _ HA 1%nat) as E1. pose proof (ax_st _ _ _ HA 2%nat) as E2.
  assert (D01 : tau 0%nat <> tau 1%nat) by congruence.
  assert (D02 : tau 0%nat <> tau 2%nat) by congruence.
  assert (D12 : tau 1%nat <> tau 2%nat) by congruence.
  clear E0 E1 E2.
  destruct (tau 0%nat) as [|[|[|x]]]; try lia; destruct (tau 1%nat) as [|[|[|y]]]; try lia;
    destruct (tau 2%nat) as [|[|[|z]]]; try lia; ring.
Qed.

Lemma mdx_tau d c : (d < 3)%nat -> mdx m' d (coord d (pidx c)) = mdx m (tau d) (coord (tau d) c).
Proof. intros H. rewrite coord_pidx by assumption. reflexivity. Qed.

Lemma cart_ds_tau c d : cart_ds m' (pidx c) d = cart_ds m c (tau d).
Proof.
  unfold cart_ds. rewrite !mdx_tau by lia. rewrite <- (eqb_tau 0 d), <- (eqb_tau 1 d), <- (eqb_tau 2 d).
  exact (prod3_tau (fun n => if Nat.eqb n (tau d) then 1 else mdx m n (coord n c))).
Qed.
Lemma cart_dv_tau c : cart_dv m' (pidx c) = cart_dv m c.
Proof.
  unfold cart_dv. change (ii (pidx c)) with (coord 0 (pidx c)). change (jj (pidx c)) with (coord 1 (pidx c)).
  change (kk (pidx c)) with (coord 2 (pidx c)). rewrite !mdx_tau by lia.
  exact (prod3_tau (fun n => mdx m n (coord n c))).
Qed.
Lemma flux_diff_tau dt c d fL fR :
  flux_diff Cartesian nd m' dt (pidx c) d fL fR = flux_diff Cartesian nd m dt c (tau d) fL fR.
Proof. unfold flux_diff. cbn [ds dv]. now rewrite rindex_pidx, !cart_ds_tau, cart_dv_tau. Qed.

(** ** Local physics *)
Variable e : eos.
Lemma ek_cons_tau q : ek_cons nd (pcons q) = ek_cons nd q.
Proof. unfold ek_cons. cbn. unfold relabel_vec. now rewrite (vsum_tau (fun d => q_m q d * q_m q d)). Qed.
Lemma ek_prim_tau p : ek_prim nd (pprim p) = ek_prim nd p.
Proof. unfold ek_prim. cbn. unfold relabel_vec. now rewrite (vsum_tau (fun d => p_u p d * p_u p d)). Qed.
Lemma to_prim_tau q : to_prim nd e (pcons q) = pprim (to_prim nd e q).
Proof. unfold to_prim, evol_cons. rewrite ek_cons_tau. reflexivity. Qed.
Lemma to_cons_tau p : to_cons nd e (pprim p) = pcons (to_cons nd e p).
Proof. unfold to_cons. rewrite ek_prim_tau. reflexivity. Qed.
Lemma flux_prim_tau p d : flux_prim nd e (pprim p) d = pflux (flux_prim nd e p (tau d)).
Proof.
  unfold flux_prim. rewrite ek_prim_tau. apply flux_ext; cbn; try reflexivity.
  intros k. unfold relabel_vec. now rewrite eqb_tau.
Qed.
Lemma wave_L_tau pL pR d : wave_L e (pprim pL) (pprim pR) d = wave_L e pL pR (tau d).
Proof. reflexivity. Qed.
Lemma wave_R_tau pL pR d : wave_R e (pprim pL) (pprim pR) d = wave_R e pL pR (tau d).
Proof. reflexivity. Qed.

Lemma riemann_tau s qL qR d : riemann s nd e (pcons qL) (pcons qR) d = pflux (riemann s nd e qL qR (tau d)).
Proof.
  destruct s; cbn [riemann].
  - unfold hll. rewrite !to_prim_tau, !flux_prim_tau, wave_L_tau, wave_R_tau. reflexivity.
  - unfold hllc. rewrite !to_prim_tau, !flux_prim_tau, wave_L_tau, wave_R_tau.
    cbn [pprim p_rho p_u p_P].
    assert (Hv : forall p, relabel_vec tau (p_u p) d = p_u p (tau d)) by reflexivity. rewrite !Hv.
    set (wl := wave_L e (to_prim nd e qL) (to_prim nd e qR) (tau d)).
    set (wr := wave_R e (to_prim nd e qL) (to_prim nd e qR) (tau d)). clearbody wl wr.
    match goal with |- context [if rltb 0 ?u then wl else wr] => destruct (rltb 0 u) end;
      destruct (rltb 0 (wl * wr)); try reflexivity;
      (apply flux_ext; [reflexivity| |reflexivity]; intros k; cbn [f_m pflux]; unfold relabel_vec;
       cbn [f_m]; rewrite eqb_tau; reflexivity).
  - unfold splitting. rewrite !to_prim_tau. cbn [pprim p_rho p_u p_P]. unfold relabel_vec.
    apply flux_ext; cbn [pflux f_rho f_m f_E].
    + match goal with |- context [if ?b then _ else _] => destruct b end; reflexivity.
    + intros k. unfold relabel_vec. rewrite eqb_tau.
      match goal with |- context [if rltb 0 ?u then _ else _] => destruct (rltb 0 u) end; reflexivity.
    + match goal with |- context [if ?b then _ else _] => destruct b end; reflexivity.
Qed.

(** ** Reconstruction *)
Section Fields.
Variables (rho rho' P P' : field3) (u u' : field4) (fx fx' : field4) (grav grav' : gravity) (a a' : idx -> cell).
Hypothesis Hrho : forall c, rho' (pidx c) = rho c.
Hypothesis HP : forall c, P' (pidx c) = P c.
Hypothesis Hu : forall c d, u' (pidx c) d = u c (tau d).
Hypothesis Hfx : forall c n, fx' (pidx c) n = fx c n.
Hypothesis Hgrav : forall c d, grav' (pidx c) d = grav c (tau d).
Hypothesis Ha : forall c, a' (pidx c) = pcell (a c).

Lemma face_value_tau l (f f' : field3) c side d : (d < 3)%nat -> (forall c, f' (pidx c) = f c) ->
  face_value l m' f' (pidx c) side d = face_value l m f c side (tau d).
Proof.
  intros Hd H. unfold face_value, face_slope. rewrite !cell_width_mdx by (assumption || now apply tau_lt).
  rewrite lindex_pidx, rindex_pidx, !mdx_tau by assumption. rewrite !H. reflexivity.
Qed.

Lemma face_prim_tau l c side d : (d < 3)%nat ->
  face_prim l m' rho' u' P' (pidx c) side d = pprim (face_prim l m rho u P c side (tau d)).
Proof.
  intros Hd. unfold face_prim. apply prim_ext; cbn [pprim p_rho p_u p_P].
  - now apply face_value_tau.
  - intros n. unfold relabel_vec. apply (face_value_tau l (fun c' => u c' (tau n)) (fun c' => u' c' n)); auto.
  - now apply face_value_tau.
Qed.

Lemma face_fx_tau l c side d n : (d < 3)%nat ->
  face_fx l m' fx' (pidx c) side d n = face_fx l m fx c side (tau d) n.
Proof. intros Hd. apply (face_value_tau l (fun c' => fx c' n) (fun c' => fx' c' n)); auto. Qed.

Lemma hancock_cons_tau dt fp fp' c side ipos : (ipos < 3)%nat ->
  (forall sd d, (d < 3)%nat -> fp' sd d = pprim (fp sd (tau d))) ->
  hancock_cons Cartesian nd e m' grav' dt fp' (pidx c) side ipos
  = pcons (hancock_cons Cartesian nd e m grav dt fp c side (tau ipos)).
Proof.
  intros Hi Hf. unfold hancock_cons. rewrite (Hf side ipos Hi), to_cons_tau.
  apply cons_ext; cbn [relabel_cons q_rho q_m q_E].
  - f_equal. apply (vsum_tau2 _ (fun d => flux_diff Cartesian nd m dt c d _ _)).
    intros d Hd. rewrite !(Hf _ d) by lia. rewrite !flux_prim_tau, flux_diff_tau. reflexivity.
  - intros k. unfold relabel_vec. rewrite Hgrav. f_equal. f_equal.
    apply vsum_tau2. intros d Hd. rewrite !(Hf _ d) by lia. rewrite !flux_prim_tau, flux_diff_tau. reflexivity.
  - f_equal. apply vsum_tau2.
    intros d Hd. rewrite !(Hf _ d) by lia. rewrite !flux_prim_tau, flux_diff_tau, Hgrav. reflexivity.
Qed.

Lemma hancock_fx_tau dt fp fp' ffx ffx' c side ipos n : (ipos < 3)%nat ->
  (forall sd d, (d < 3)%nat -> fp' sd d = pprim (fp sd (tau d))) ->
  (forall sd d n, (d < 3)%nat -> ffx' sd d n = ffx sd (tau d) n) ->
  hancock_fx Cartesian nd e m' grav' dt fp' ffx' (pidx c) side ipos n
  = hancock_fx Cartesian nd e m grav dt fp ffx c side (tau ipos) n.
Proof.
  intros Hi Hf Hx. unfold hancock_fx. rewrite (hancock_cons_tau dt fp fp') by assumption.
  rewrite Hx by assumption. rewrite (Hf side ipos) by assumption. cbn [pprim p_rho relabel_cons q_rho].
  f_equal. f_equal. apply vsum_tau2. intros d Hd. rewrite !(Hf _ d), !Hx by lia.
  rewrite !flux_prim_tau, flux_diff_tau. reflexivity.
Qed.

(** ** Update *)
Variables (r r' : recon).
Hypothesis Hr : forall c sd d, (d < 3)%nat -> r_q r' (pidx c) sd d = pcons (r_q r c sd (tau d)).
Hypothesis Hrx : forall c sd d n, (d < 3)%nat -> r_fx r' (pidx c) sd d n = r_fx r c sd (tau d) n.

Lemma flux_left_tau s c d : (d < 3)%nat -> flux_left s nd e r' (pidx c) d = pflux (flux_left s nd e r c (tau d)).
Proof. intros Hd. unfold flux_left, face_flux. rewrite lindex_pidx, !Hr by assumption. apply riemann_tau. Qed.
Lemma flux_right_tau s c d : (d < 3)%nat -> flux_right s nd e r' (pidx c) d = pflux (flux_right s nd e r c (tau d)).
Proof. intros Hd. unfold flux_right. rewrite rindex_pidx, !Hr by assumption. apply riemann_tau. Qed.
Lemma fx_left_tau s c d n : (d < 3)%nat -> fx_left s nd e r' (pidx c) d n = fx_left s nd e r c (tau d) n.
Proof. intros Hd. unfold fx_left. rewrite flux_left_tau, lindex_pidx, !Hrx by assumption. reflexivity. Qed.
Lemma fx_right_tau s c d n : (d < 3)%nat -> fx_right s nd e r' (pidx c) d n = fx_right s nd e r c (tau d) n.
Proof. intros Hd. unfold fx_right. rewrite flux_right_tau, rindex_pidx, !Hrx by assumption. reflexivity. Qed.

Lemma god_cell_tau s dt c :
  god_cell Cartesian nd e s m' grav' dt a' r' (pidx c) = pcell (god_cell Cartesian nd e s m grav dt a r c).
Proof.
  assert (E1 : god_rho Cartesian nd e s m' dt a' r' (pidx c) = god_rho Cartesian nd e s m dt a r c).
  { unfold god_rho. rewrite Ha. cbn [relabel_cell c_rho]. f_equal. apply vsum_tau2. intros d Hd.
    rewrite flux_left_tau, flux_right_tau, flux_diff_tau by lia. reflexivity. }
  unfold god_cell, relabel_cell. cbn [c_rho c_rhou c_E c_fx]. f_equal.
  - exact E1.
  - apply functional_extensionality. intros k. unfold relabel_vec, god_rhou. rewrite Ha, Hgrav.
    cbn [relabel_cell c_rho c_rhou]. unfold relabel_vec. f_equal. f_equal. apply vsum_tau2. intros d Hd.
    rewrite flux_left_tau, flux_right_tau, flux_diff_tau by lia. reflexivity.
  - unfold god_E. rewrite Ha. cbn [relabel_cell c_E c_rhou]. f_equal. apply vsum_tau2. intros d Hd.
    rewrite flux_left_tau, flux_right_tau, flux_diff_tau, Hgrav by lia. reflexivity.
  - apply functional_extensionality. intros n. rewrite E1. do 2 f_equal. unfold god_rhofx. rewrite Ha.
    cbn [relabel_cell c_rho c_fx]. f_equal. apply vsum_tau2. intros d Hd.
    rewrite flux_left_tau, flux_right_tau, fx_left_tau, fx_right_tau, flux_diff_tau by lia. reflexivity.
Qed.
End Fields.

End Axes.

(** One update: reconstruction, half step, Godunov. *)
Lemma step_relabel nd sigma tau (Hnd : (nd <= 3)%nat) (HA : axis_perm nd sigma tau)
  e l s (m : mesh) dth dt p1 p1' p2 p2' rho rho' u u' P P' fx fx' grav grav' a a' rold rold' old old' :
  (forall c, p1' (relabel_idx tau c) = p1 c) -> (forall c, p2' (relabel_idx tau c) = p2 c) ->
  (forall c, rho' (relabel_idx tau c) = rho c) -> (forall c, P' (relabel_idx tau c) = P c) ->
  (forall c d, u' (relabel_idx tau c) d = u c (tau d)) -> (forall c n, fx' (relabel_idx tau c) n = fx c n) ->
  (forall c d, grav' (relabel_idx tau c) d = grav c (tau d)) ->
  (forall c, a' (relabel_idx tau c) = relabel_cell tau (a c)) ->
  (forall c, old' (relabel_idx tau c) = relabel_cell tau (old c)) ->
  (forall c sd d, (d < 3)%nat -> r_q rold' (relabel_idx tau c) sd d = relabel_cons tau (r_q rold c sd (tau d))) ->
  (forall c sd d n, (d < 3)%nat -> r_fx rold' (relabel_idx tau c) sd d n = r_fx rold c sd (tau d) n) ->
  forall c,
    godunov p2' Cartesian nd e s (fun d => m (tau d)) grav' dt a'
      (hydro_reconstruction p1' Cartesian nd e l (fun d => m (tau d)) grav' dth rho' u' P' fx' rold') old'
      (relabel_idx tau c)
    = relabel_cell tau
        (godunov p2 Cartesian nd e s m grav dt a
          (hydro_reconstruction p1 Cartesian nd e l m grav dth rho u P fx rold) old c).
Proof.
  intros Hp1 Hp2 Hrho HP Hu Hfx Hg Ha Ho Hr Hrx c. unfold godunov, kwrite. rewrite Hp2.
  destruct (p2 c); [|apply Ho].
  eapply god_cell_tau; eauto; cbn [hydro_reconstruction r_q r_fx]; unfold kwrite.
  - intros c0 sd d Hd. rewrite Hp1. destruct (p1 c0); [|now apply Hr].
    eapply (hancock_cons_tau nd sigma); eauto. intros sd' d' Hd'. eapply (face_prim_tau nd sigma); eauto.
  - intros c0 sd d n Hd. rewrite Hp1. destruct (p1 c0); [|now apply Hrx].
    eapply (hancock_fx_tau nd sigma); eauto.
    + intros sd' d' Hd'. eapply (face_prim_tau nd sigma); eauto.
    + intros sd' d' n' Hd'. eapply (face_fx_tau nd sigma); eauto.
Qed.
