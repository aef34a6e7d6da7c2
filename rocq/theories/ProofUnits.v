(** * Change of units: cell-local physics. *)
From Coq Require Import FunctionalExtensionality Lra.
From Verif Require Import Base RBase ModelMesh ModelGeom ModelBoundary ModelHydro ModelScheme ModelStep ProofR SpecStep SpecUnits.
Local Open Scope R_scope.

Lemma sdiv a b x y : b <> 0 -> (a * x) / (b * y) = (a / b) * (x / y).
Proof. intros H. unfold Rdiv. rewrite Rinv_mult. ring. Qed.
Lemma rltb_scale k x y : 0 < k -> rltb (k * x) (k * y) = rltb x y.
Proof.
  intros H. unfold rltb. destruct (Rlt_dec (k * x) (k * y)) as [A|A], (Rlt_dec x y) as [B|B]; auto; exfalso.
  - apply B. now apply (Rmult_lt_reg_l k).
  - apply A. now apply Rmult_lt_compat_l.
Qed.
Lemma rltb_scale0 k y : 0 < k -> rltb 0 (k * y) = rltb 0 y.
Proof. intros H. rewrite <- (rltb_scale k 0 y H). now rewrite Rmult_0_r. Qed.
Lemma rltb_scale_0 k y : 0 < k -> rltb (k * y) 0 = rltb y 0.
Proof. intros H. rewrite <- (rltb_scale k y 0 H). now rewrite Rmult_0_r. Qed.
Lemma rleb_scale k x y : 0 < k -> rleb (k * x) (k * y) = rleb x y.
Proof.
  intros H. unfold rleb. destruct (Rle_dec (k * x) (k * y)) as [A|A], (Rle_dec x y) as [B|B]; auto; exfalso.
  - apply B. now apply (Rmult_le_reg_l k).
  - apply A. apply Rmult_le_compat_l; lra.
Qed.
Lemma Rmin_scale k x y : 0 < k -> Rmin (k * x) (k * y) = k * Rmin x y.
Proof.
  intros H. unfold Rmin. destruct (Rle_dec (k * x) (k * y)) as [A|A], (Rle_dec x y) as [B|B]; auto; exfalso.
  - apply B. now apply (Rmult_le_reg_l k).
  - apply A. apply Rmult_le_compat_l; lra.
Qed.
Lemma Rmax_scale k x y : 0 < k -> Rmax (k * x) (k * y) = k * Rmax x y.
Proof.
  intros H. unfold Rmax. destruct (Rle_dec (k * x) (k * y)) as [A|A], (Rle_dec x y) as [B|B]; auto; exfalso.
  - apply B. now apply (Rmult_le_reg_l k).
  - apply A. apply Rmult_le_compat_l; lra.
Qed.

(** ** Slopes and face values *)
Lemma slope_scale l k dR dL : 0 < k -> slope l (k * dR) (k * dL) = k * slope l dR dL.
Proof.
  intros H.
  assert (E : k * dR / (k * dL) = dR / dL) by (rewrite sdiv by lra; replace (k / k) with 1 by (field; lra); ring).
  assert (C : rltb 0 (k * dL * (k * dR)) = rltb 0 (dL * dR)).
  { replace (k * dL * (k * dR)) with (k * (k * (dL * dR))) by ring. now rewrite !rltb_scale0 by exact H. }
  destruct l; cbn [slope]; [ring| | |]; unfold van_leer, minmod, van_albada; cbv zeta; rewrite C, ?E; generalize (dR / dL); intros r;
    destruct (rltb 0 (dL * dR)); try (symmetry; apply Rmult_0_r); unfold Rdiv;
    [generalize (/ ((r + 1) * (r + 1)))|generalize (/ (1 + r)) (Rmin 1 r)|generalize (/ (r * r + 1))]; intros; ring.
Qed.

Lemma kron_width m c d : cell_width m c d = match d with O => mdx m 0 (ii c) | 1%nat => mdx m 1 (jj c) | 2%nat => mdx m 2 (kk c) | _ => 0 end.
Proof. unfold cell_width, kron. destruct d as [|[|[|d]]]; cbn; ring. Qed.

Section U.
Variables (U : units) (g : geom) (nd : nat).
Hypothesis HU : unit_system g nd U.
Hypothesis Hnd : (1 <= nd <= 3)%nat.
Notation D := (u_D U). Notation V := (u_V U). Notation L := (u_L U).

Lemma D_pos : 0 < D. Proof. apply HU. Qed.
Lemma V_pos : 0 < V. Proof. apply HU. Qed.
Lemma L_pos : 0 < L. Proof. apply HU. Qed.
Lemma X_pos d : 0 < u_X U d. Proof. apply HU. Qed.
Lemma T_pos : 0 < u_T U. Proof. apply Rdiv_lt_0_compat; apply HU. Qed.
Lemma M_pos : 0 < u_M U. Proof. apply Rmult_lt_0_compat; apply HU. Qed.
Lemma E_pos : 0 < u_E U. Proof. apply Rmult_lt_0_compat; [apply M_pos|apply HU]. Qed.
#[local] Hint Resolve D_pos V_pos L_pos X_pos T_pos M_pos E_pos : core.
Lemma neq k : 0 < k -> k <> 0. Proof. lra. Qed.
#[local] Hint Resolve neq : core.

Definition mesh_in (m : mesh) : mesh := fun d i => u_X U (match d with O => 0 | 1 => 1 | _ => 2 end)%nat * m d i.

Lemma width_in m c d : cell_width (mesh_in m) c d = u_X U d * cell_width m c d.
Proof. rewrite !kron_width. destruct d as [|[|[|d]]]; unfold mdx, mesh_in; ring. Qed.

Lemma face_slope_in l m k var c d : 0 < k ->
  face_slope l (mesh_in m) (fun c => k * var c) c d = k / u_X U d * face_slope l m var c d.
Proof.
  intros Hk. unfold face_slope. cbv zeta. rewrite !width_in. pose proof (X_pos d) as HX.
  assert (E : forall x y a b, (k * x - k * y) / ((u_X U d * a + u_X U d * b) / 2) = k / u_X U d * ((x - y) / ((a + b) / 2))).
  { intros. rewrite <- sdiv by auto. f_equal; [ring|]. field. }
  rewrite !E. apply slope_scale. now apply Rdiv_lt_0_compat.
Qed.
Lemma face_value_in l m k var c sd d : 0 < k ->
  face_value l (mesh_in m) (fun c => k * var c) c sd d = k * face_value l m var c sd d.
Proof.
  intros Hk. unfold face_value. cbv zeta. rewrite face_slope_in, width_in by auto. pose proof (X_pos d) as HX.
  destruct sd; field; lra.
Qed.
Lemma face_value_1 l m var c sd d : face_value l (mesh_in m) var c sd d = face_value l m var c sd d.
Proof.
  pose proof (face_value_in l m 1 var c sd d Rlt_0_1) as H. rewrite Rmult_1_l in H. rewrite <- H. f_equal.
  apply functional_extensionality. intros x. now rewrite Rmult_1_l.
Qed.

(** ** Euler equations *)
Variables (e e' : eos).
Hypothesis He : same_gas U e e'.

Definition prim_in (p : prim) : prim := mkPrim (D * p_rho p) (fun d => V * p_u p d) (u_E U * p_P p).
Definition flux_in (f : flux) : flux := mkFlux (u_M U * f_rho f) (fun d => u_E U * f_m f d) (u_E U * V * f_E f).

Lemma evol_in rho x : eos_evol e' (D * rho) (u_E U * x) = u_E U * eos_evol e rho x. Proof. apply He. Qed.
Lemma pres_in rho x : eos_pres e' (D * rho) (u_E U * x) = u_E U * eos_pres e rho x. Proof. apply He. Qed.
Lemma sound_in rho x : eos_sound e' (D * rho) (u_E U * x) = V * eos_sound e rho x. Proof. apply He. Qed.

Lemma ek_cons_in q : ek_cons nd (cons_in U q) = u_E U * ek_cons nd q.
Proof.
  unfold ek_cons, cons_in; cbn [q_rho q_m].
  rewrite (vsum_ext nd _ (fun d => (u_M U * u_M U) * (q_m q d * q_m q d))) by (intros; ring).
  rewrite vsum_scal. rewrite sdiv by auto. replace (u_M U * u_M U / D) with (u_E U) by (unfold u_M, u_E; field; auto). unfold Rdiv. ring.
Qed.
Lemma ek_prim_in p : ek_prim nd (prim_in p) = u_E U * ek_prim nd p.
Proof.
  unfold ek_prim, prim_in; cbn [p_rho p_u].
  rewrite (vsum_ext nd _ (fun d => (V * V) * (p_u p d * p_u p d))) by (intros; ring).
  rewrite vsum_scal. unfold u_E. field.
Qed.
Lemma evol_cons_in q : evol_cons nd (cons_in U q) = u_E U * evol_cons nd q.
Proof. unfold evol_cons. rewrite ek_cons_in. unfold cons_in; cbn [q_E]. ring. Qed.

Lemma vel_in m rho : u_M U * m / (D * rho) = V * (m / rho).
Proof. rewrite sdiv by auto. unfold u_M. f_equal. field. auto. Qed.
Lemma to_prim_in q : to_prim nd e' (cons_in U q) = prim_in (to_prim nd e q).
Proof.
  unfold to_prim, prim_in; cbn [p_rho p_u p_P]. rewrite evol_cons_in. unfold cons_in; cbn [q_rho q_m]. rewrite pres_in.
  f_equal. apply functional_extensionality. intros d. apply vel_in.
Qed.
Lemma to_cons_in p : to_cons nd e' (prim_in p) = cons_in U (to_cons nd e p).
Proof.
  unfold to_cons, cons_in; cbn [q_rho q_m q_E]. rewrite ek_prim_in. unfold prim_in; cbn [p_rho p_u p_P]. rewrite evol_in.
  f_equal; [|ring]. apply functional_extensionality. intros d. unfold u_M. ring.
Qed.
Lemma flux_prim_in p dir : flux_prim nd e' (prim_in p) dir = flux_in (flux_prim nd e p dir).
Proof.
  unfold flux_prim, flux_in; cbv zeta; cbn [f_rho f_m f_E]. rewrite ek_prim_in. unfold prim_in; cbn [p_rho p_u p_P]. rewrite evol_in.
  f_equal; [unfold u_M; ring| |ring]. apply functional_extensionality. intros d. destruct (Nat.eqb d dir); unfold u_E; ring.
Qed.

(** ** Riemann solvers *)
Lemma wave_L_in pL pR dir : wave_L e' (prim_in pL) (prim_in pR) dir = V * wave_L e pL pR dir.
Proof. unfold wave_L, prim_in; cbn [p_rho p_u p_P]. rewrite !sound_in, <- Rmin_scale by auto. f_equal; ring. Qed.
Lemma wave_R_in pL pR dir : wave_R e' (prim_in pL) (prim_in pR) dir = V * wave_R e pL pR dir.
Proof. unfold wave_R, prim_in; cbn [p_rho p_u p_P]. rewrite !sound_in, <- Rmax_scale by auto. f_equal; ring. Qed.

Lemma flux_hll_in k UL UR FL FR a b : flux_hll (k * UL) (k * UR) (k * V * FL) (k * V * FR) (V * a) (V * b) = k * V * flux_hll UL UR FL FR a b.
Proof.
  unfold flux_hll. replace (V * b - V * a) with (V * (b - a)) by ring.
  match goal with |- ?x / _ = _ * (?y / _) => replace x with ((k * V * V) * y) by ring end.
  rewrite sdiv by auto. f_equal. field. auto.
Qed.
Lemma hll_in qL qR dir : hll nd e' (cons_in U qL) (cons_in U qR) dir = flux_in (hll nd e qL qR dir).
Proof.
  unfold hll. cbv zeta. rewrite !to_prim_in, wave_L_in, wave_R_in, !flux_prim_in.
  set (a := wave_L _ _ _ _). set (b := wave_R _ _ _ _).
  replace (Rmin (V * a) 0) with (V * Rmin a 0) by (rewrite <- Rmin_scale by auto; f_equal; ring).
  replace (Rmax (V * b) 0) with (V * Rmax b 0) by (rewrite <- Rmax_scale by auto; f_equal; ring).
  unfold flux_in at 7; cbn [f_rho f_m f_E]. unfold flux_in, cons_in; cbn [q_rho q_m q_E f_rho f_m f_E].
  f_equal; [apply flux_hll_in| |apply flux_hll_in]. apply functional_extensionality. intros d. apply (flux_hll_in (u_M U)).
Qed.

Lemma hllc_in qL qR dir : hllc nd e' (cons_in U qL) (cons_in U qR) dir = flux_in (hllc nd e qL qR dir).
Proof.
  unfold hllc. cbv zeta. rewrite !to_prim_in, wave_L_in, wave_R_in, !flux_prim_in.
  set (a := wave_L _ _ _ _). set (b := wave_R _ _ _ _). set (pL := to_prim nd e qL). set (pR := to_prim nd e qR).
  set (fL := flux_prim nd e pL dir). set (fR := flux_prim nd e pR dir).
  cbn [prim_in p_rho p_u p_P].
  set (rL := p_rho pL * (a - p_u pL dir)). set (rR := p_rho pR * (b - p_u pR dir)).
  replace (D * p_rho pL * (V * a - V * p_u pL dir)) with (u_M U * rL) by (unfold rL, u_M; ring).
  replace (D * p_rho pR * (V * b - V * p_u pR dir)) with (u_M U * rR) by (unfold rR, u_M; ring).
  set (us := (p_P pR - p_P pL + rL * p_u pL dir - rR * p_u pR dir) / (rL - rR)).
  assert (Eu : (u_E U * p_P pR - u_E U * p_P pL + u_M U * rL * (V * p_u pL dir) - u_M U * rR * (V * p_u pR dir)) / (u_M U * rL - u_M U * rR) = V * us).
  { unfold us. replace (u_M U * rL - u_M U * rR) with (u_M U * (rL - rR)) by ring.
    match goal with |- ?x / _ = _ * (?y / _) => replace x with (u_E U * y) by (unfold u_E, u_M; ring) end.
    rewrite sdiv by auto. f_equal. unfold u_E, u_M. field. split; auto. }
  rewrite !Eu. set (ps := 1 / 2 * _). fold rL rR us.
  assert (Ep : ps = u_E U * (1 / 2 * (p_P pL + p_P pR + rL * (us - p_u pL dir) + rR * (us - p_u pR dir)))) by (unfold ps, u_E, u_M; ring).
  rewrite Ep. clear Ep. clear ps. set (ps := 1 / 2 * _).
  replace (V * a * (V * b)) with (V * (V * (a * b))) by ring. rewrite !(rltb_scale0 V) by auto.
  set (w := if rltb 0 us then a else b). set (p := if rltb 0 us then pL else pR). set (f := if rltb 0 us then fL else fR).
  set (q := if rltb 0 us then qL else qR).
  replace (if rltb 0 us then V * a else V * b) with (V * w) by (unfold w; destruct (rltb 0 us); reflexivity).
  replace (if rltb 0 us then cons_in U qL else cons_in U qR) with (cons_in U q) by (unfold q; destruct (rltb 0 us); reflexivity).
  replace (if rltb 0 us then prim_in pL else prim_in pR) with (prim_in p) by (unfold p; destruct (rltb 0 us); reflexivity).
  replace (if rltb 0 us then flux_in fL else flux_in fR) with (flux_in f) by (unfold f; destruct (rltb 0 us); reflexivity).
  destruct (rltb 0 (a * b)); [reflexivity|]. cbn [prim_in p_rho p_u p_P cons_in q_rho q_m q_E].
  assert (Q : forall k x, k * x / (V * w - V * us) = k / V * (x / (w - us))).
  { intros. replace (V * w - V * us) with (V * (w - us)) by ring. apply sdiv; auto. }
  assert (Er : D * q_rho q * (V * w - V * p_u p dir) / (V * w - V * us) = D * (q_rho q * (w - p_u p dir) / (w - us))).
  { replace (D * q_rho q * (V * w - V * p_u p dir)) with (D * V * (q_rho q * (w - p_u p dir))) by ring. rewrite Q. f_equal. field. auto. }
  rewrite Er. set (rs := q_rho q * (w - p_u p dir) / (w - us)).
  replace (V * w - V * p_u p dir) with (V * (w - p_u p dir)) by ring. replace (V * us - V * p_u p dir) with (V * (us - p_u p dir)) by ring.
  rewrite !Q. set (x1 := (w - p_u p dir) / (w - us)). set (x2 := (us - p_u p dir) / (w - us)). unfold flux_in, flux_hllc; cbn [f_rho f_m f_E].
  f_equal; [unfold u_M; ring| |unfold u_E; field; auto].
  apply functional_extensionality. intros d. destruct (Nat.eqb d dir); unfold u_E; ring.
Qed.

Lemma splitting_in qL qR dir : splitting nd e' (cons_in U qL) (cons_in U qR) dir = flux_in (splitting nd e qL qR dir).
Proof.
  unfold splitting. cbv zeta. rewrite !to_prim_in.
  set (pL := to_prim nd e qL). set (pR := to_prim nd e qR). cbn [prim_in p_rho p_u p_P]. rewrite !sound_in.
  set (cL := eos_sound e (p_rho pL) (p_P pL)). set (cR := eos_sound e (p_rho pR) (p_P pR)).
  assert (Ea : 11 / 10 * Rmax (D * p_rho pL * (V * cL)) (D * p_rho pR * (V * cR)) = u_M U * (11 / 10 * Rmax (p_rho pL * cL) (p_rho pR * cR))).
  { replace (D * p_rho pL * (V * cL)) with (u_M U * (p_rho pL * cL)) by (unfold u_M; ring).
    replace (D * p_rho pR * (V * cR)) with (u_M U * (p_rho pR * cR)) by (unfold u_M; ring). rewrite Rmax_scale by auto. ring. }
  rewrite !Ea. set (a := 11 / 10 * Rmax (p_rho pL * cL) (p_rho pR * cR)).
  set (us := (p_u pL dir + p_u pR dir) / 2 - 1 / (2 * a) * (p_P pR - p_P pL)).
  assert (Eu : (V * p_u pL dir + V * p_u pR dir) / 2 - 1 / (2 * (u_M U * a)) * (u_E U * p_P pR - u_E U * p_P pL) = V * us).
  { unfold us. replace (1 / (2 * (u_M U * a))) with (1 / u_M U * (1 / (2 * a))) by (unfold Rdiv; rewrite !Rinv_mult; ring).
    generalize (1 / (2 * a)). intros x. unfold u_E, u_M. field. split; auto. }
  rewrite !Eu. rewrite Rabs_mult, (Rabs_pos_eq V) by (left; auto). rewrite Rmin_scale, sdiv by auto.
  replace (V / V) with 1 by (field; auto). rewrite Rmult_1_l. set (th := Rmin 1 _).
  rewrite rltb_scale0 by auto.
  set (q := if rltb 0 us then qL else qR).
  replace (if rltb 0 us then cons_in U qL else cons_in U qR) with (cons_in U q) by (unfold q; destruct (rltb 0 us); reflexivity).
  cbn [cons_in q_rho q_m q_E]. unfold flux_in; cbn [f_rho f_m f_E].
  f_equal; [unfold u_M; ring| |unfold u_E, u_M; field].
  apply functional_extensionality. intros d. destruct (Nat.eqb d dir); unfold u_E, u_M; field.
Qed.
Lemma riemann_in s qL qR dir : riemann s nd e' (cons_in U qL) (cons_in U qR) dir = flux_in (riemann s nd e qL qR dir).
Proof. destruct s; [apply hll_in|apply hllc_in|apply splitting_in]. Qed.
End U.
