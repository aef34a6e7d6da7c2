(** * Change of units: geometry, reconstruction, Godunov update, pressure fix. *)
From Coq Require Import FunctionalExtensionality Lra Lia.
From Verif Require Import Base RBase ModelMesh ModelGeom ModelBoundary ModelHydro ModelScheme ModelStep ProofR SpecStep SpecUnits ProofUnits.
Local Open Scope R_scope.

Ltac open_rhs := match goal with |- ?l = cell_in ?U ?x => let y := eval cbv beta delta [cell_in] in (cell_in U x) in change (l = y) end.
Ltac fext x := apply functional_extensionality; intros x.

(** Face areas. *)
Definition u_S (U : units) (g : geom) : R :=
  match g with Cartesian => u_X U 0%nat * u_X U 1%nat * u_X U 2%nat / u_L U | Spherical => u_L U * u_L U end.
Lemma S_pos U g nd : unit_system g nd U -> 0 < u_S U g.
Proof.
  intros (A & B & C & X & _). unfold u_S. destruct g; [apply Rdiv_lt_0_compat; auto; repeat apply Rmult_lt_0_compat; auto|apply Rmult_lt_0_compat; auto].
Qed.

Lemma dcos_in U m c : u_X U 1%nat = 1 -> sph_dcos (mesh_in U m) c = sph_dcos m c.
Proof. intros H. unfold sph_dcos, mesh_in. now rewrite H, !Rmult_1_l. Qed.
Lemma ds_in' U g nd m c d : unit_system g nd U -> (1 <= nd <= 3)%nat -> (d < nd)%nat -> ds g nd (mesh_in U m) c d = u_S U g * ds g nd m c d.
Proof.
  intros (_ & _ & HL & _ & HX) Hnd Hd. unfold ds, u_S. destruct g.
  - unfold cart_ds. cbv zeta. pose proof (HX d Hd) as E. unfold mdx, mesh_in.
    destruct d as [|[|[|d]]]; [| | |lia]; cbn [Nat.eqb coord]; rewrite <- E; field; rewrite E; lra.
  - destruct HX as (H0 & H1 & H2). unfold sph_ds. cbv zeta. rewrite dcos_in by exact H1. unfold mdx, mesh_in. rewrite H0, H1, H2, !Rmult_1_l.
    destruct nd as [|[|[|[|n]]]]; [lia| | | |lia]; destruct d as [|[|[|d]]]; try lia; field.
Qed.
Lemma dv_in' U g nd m c : unit_system g nd U -> (1 <= nd <= 3)%nat -> dv g nd (mesh_in U m) c = u_S U g * u_L U * dv g nd m c.
Proof.
  intros (_ & _ & HL & _ & HX) Hnd. unfold dv, u_S. destruct g.
  - unfold cart_dv, mdx, mesh_in. field. lra.
  - destruct HX as (H0 & H1 & H2). unfold sph_dv. cbv zeta. rewrite dcos_in by exact H1. unfold mdx, mesh_in. rewrite H0, H2, !Rmult_1_l.
    destruct nd as [|[|[|[|n]]]]; [lia| | | |lia]; field.
Qed.

Lemma ratio_in k a b : k <> 0 -> (k * a - k * b) / (k * a + k * b) = (a - b) / (a + b).
Proof.
  intros H. replace (k * a - k * b) with (k * (a - b)) by ring. replace (k * a + k * b) with (k * (a + b)) by ring.
  rewrite sdiv by exact H. replace (k / k) with 1 by (field; exact H). ring.
Qed.

Section Geo.
Variables (U : units) (k : R) (pL pR : prim) (dtodv s s' : R).
Hypotheses (HV : u_V U <> 0) (Hk : k <> 0) (HL : u_L U <> 0).
Notation V := (u_V U). Notation L := (u_L U).
Notation dtodv' := (1 / (V * k) * dtodv).
Notation pL' := (prim_in U pL). Notation pR' := (prim_in U pR).
Lemma G1 : source_grad_pres dtodv' (p_P pL') (p_P pR') (k * s) (k * s')
    = u_M U * source_grad_pres dtodv (p_P pL) (p_P pR) s s'.
Proof.
  unfold source_grad_pres, prim_in, u_M, u_E; cbn [p_rho p_u p_P]. field. split; auto.
Qed.
Lemma G2 n : source_grad_u_r dtodv' (p_rho pL') (p_rho pR') (p_u pL' n) (p_u pR' n) (k * s) (k * s')
    = u_M U * source_grad_u_r dtodv (p_rho pL) (p_rho pR) (p_u pL n) (p_u pR n) s s'.
Proof.
  intros. unfold source_grad_u_r, prim_in, u_M; cbn [p_rho p_u p_P]. field. split; auto.
Qed.
Lemma G3 n r rp : source_grad_u_idir_r dtodv' (L * r) (L * rp) (p_rho pL') (p_rho pR')
      (p_u pL' 0%nat) (p_u pR' 0%nat) (p_u pL' n) (p_u pR' n) (k * s) (k * s')
    = u_M U * source_grad_u_idir_r dtodv r rp (p_rho pL) (p_rho pR) (p_u pL 0%nat) (p_u pR 0%nat) (p_u pL n) (p_u pR n) s s'.
Proof.
  intros. unfold source_grad_u_idir_r, prim_in, u_M; cbn [p_rho p_u p_P].
    replace (dtodv' * (L * rp - L * r) / (L * rp + L * r)) with (dtodv' * ((rp - r) / (rp + r)))
      by (rewrite <- (ratio_in L rp r) by auto; unfold Rdiv; ring).
    replace (dtodv * (rp - r) / (rp + r)) with (dtodv * ((rp - r) / (rp + r))) by (unfold Rdiv; ring).
    generalize ((rp - r) / (rp + r)). intros. field. split; auto.
Qed.
Lemma G4 t tp n : source_grad_u_th dtodv' t tp (p_rho pL') (p_rho pR') (p_u pL' n) (p_u pR' n) (k * s) (k * s')
    = u_M U * source_grad_u_th dtodv t tp (p_rho pL) (p_rho pR) (p_u pL n) (p_u pR n) s s'.
Proof.
  intros. unfold source_grad_u_th, prim_in, u_M; cbn [p_rho p_u p_P]. generalize (cos ((t + tp) / 2) / sin ((t + tp) / 2)). intros. field. split; auto.
Qed.
Lemma G5 t tp n j : source_grad_u_phi dtodv' t tp (p_rho pL') (p_rho pR') (p_u pL' n) (p_u pR' n)
      (p_u pL' j) (p_u pR' j) (k * s) (k * s')
    = u_M U * source_grad_u_phi dtodv t tp (p_rho pL) (p_rho pR) (p_u pL n) (p_u pR n) (p_u pL j) (p_u pR j) s s'.
Proof.
  intros. unfold source_grad_u_phi, prim_in, u_M; cbv zeta; cbn [p_rho p_u p_P].
    replace (dtodv' * (sin tp - sin t) / (sin tp + sin t)) with (dtodv' * ((sin tp - sin t) / (sin tp + sin t))) by (unfold Rdiv; ring).
    replace (dtodv * (sin tp - sin t) / (sin tp + sin t)) with (dtodv * ((sin tp - sin t) / (sin tp + sin t))) by (unfold Rdiv; ring).
    generalize ((sin tp - sin t) / (sin tp + sin t)). intros. field. split; auto.
Qed.
End Geo.

Lemma geo_source_in' U g nd m c dtodv pL pR d comp : unit_system g nd U -> (1 <= nd <= 3)%nat -> (d < nd)%nat ->
  geo_source g nd (mesh_in U m) c (1 / (u_V U * u_S U g) * dtodv) (prim_in U pL) (prim_in U pR) d comp = u_M U * geo_source g nd m c dtodv pL pR d comp.
Proof.
  intros HU Hnd Hd. unfold geo_source. pose proof (S_pos U g nd HU) as HS. pose proof (ds_in' U g nd) as E. destruct g; [ring|]. cbv zeta.
  rewrite !E by assumption.
  set (s := ds Spherical nd m c d). set (s' := ds Spherical nd m (rindex d c) d).
  destruct HU as (_ & HV & HL & _ & H0 & H1 & H2).
  assert (R1 : forall i, mesh_in U m 1%nat i = m 1%nat i) by (intros; unfold mesh_in; rewrite H1; ring).
  assert (R0 : forall i, mesh_in U m 0%nat i = u_L U * m 0%nat i) by (intros; unfold mesh_in; rewrite H0; ring).
  rewrite !R1, !R0. apply Rgt_not_eq in HS, HV, HL.
  destruct d as [|[|d]]; destruct comp as [|[|[|comp]]]; rewrite ?G1, ?G2, ?G3, ?G4, ?G5 by assumption;
    repeat match goal with |- context [if ?b then _ else _] => destruct b end; ring.
Qed.

Section U.
Variables (U : units) (g : geom) (nd : nat).
Hypothesis HU : unit_system g nd U.
Hypothesis Hnd : (1 <= nd <= 3)%nat.
Notation D := (u_D U). Notation V := (u_V U). Notation L := (u_L U).
Let D0 := D_pos U g nd HU. Let V0 := V_pos U g nd HU. Let L0 := L_pos U g nd HU. Let X0 := X_pos U g nd HU.
Let T0 := T_pos U g nd HU. Let M0 := M_pos U g nd HU. Let E0 := E_pos U g nd HU.
#[local] Hint Resolve D0 V0 L0 X0 T0 M0 E0 neq : core.
Notation mi := (mesh_in U).

Notation uS := (u_S U g).
Let S0 := S_pos U g nd HU.
#[local] Hint Resolve S0 : core.
Lemma ds_in m c d : (d < nd)%nat -> ds g nd (mi m) c d = uS * ds g nd m c d.
Proof. intros. now apply ds_in'. Qed.
Lemma dv_in m c : dv g nd (mi m) c = uS * L * dv g nd m c.
Proof. now apply dv_in'. Qed.
Lemma geo_source_in m c dtodv pL pR d comp : (d < nd)%nat ->
  geo_source g nd (mi m) c (1 / (V * uS) * dtodv) (prim_in U pL) (prim_in U pR) d comp = u_M U * geo_source g nd m c dtodv pL pR d comp.
Proof. intros. now apply geo_source_in'. Qed.
Lemma dtodv_in m c dt : u_T U * dt / dv g nd (mi m) c = 1 / (V * uS) * (dt / dv g nd m c).
Proof.
  rewrite dv_in, sdiv by (apply neq, Rmult_lt_0_compat; auto). f_equal. unfold u_T. field. repeat split; auto.
Qed.
Lemma flux_diff_in k m dt c d fL fR : (d < nd)%nat ->
  flux_diff g nd (mi m) (u_T U * dt) c d (k * V * fL) (k * V * fR) = k * flux_diff g nd m dt c d fL fR.
Proof.
  intros Hd. unfold flux_diff. rewrite dtodv_in, !ds_in by exact Hd. generalize (dt / dv g nd m c). intros. field. split; auto.
Qed.

(** ** Reconstruction *)
Variables (e e' : eos).
Hypothesis He : same_gas U e e'.

Lemma face_prim_in l m rho u P c sd d :
  face_prim l (mi m) (fun c => D * rho c) (fun c n => V * u c n) (fun c => u_E U * P c) c sd d = prim_in U (face_prim l m rho u P c sd d).
Proof.
  unfold face_prim, prim_in; cbn [p_rho p_u p_P]. f_equal; [now apply (face_value_in U g nd HU)| |now apply (face_value_in U g nd HU)].
  fext n. now apply (face_value_in U g nd HU l m V (fun c' => u c' n)).
Qed.
Lemma face_fx_in l m fx c sd d : face_fx l (mi m) fx c sd d = face_fx l m fx c sd d.
Proof. unfold face_fx. fext n. apply (face_value_1 U g nd HU). Qed.

Variables (gr : gravity) (m : mesh) (dt : R).
Notation gr' := (fun c d => u_A U * gr c d).
Notation dt' := (u_T U * dt).

Lemma vsum_in k f f' : (forall d, (d < nd)%nat -> f' d = k * f d) -> vsum nd f' = k * vsum nd f.
Proof. intros H. rewrite <- vsum_scal. now apply vsum_ext. Qed.
Lemma TA : u_T U * u_A U = V. Proof. unfold u_T, u_A. field. split; auto. Qed.

Lemma hancock_cons_in fp c sd ip :
  hancock_cons g nd e' (mi m) gr' dt' (fun a b => prim_in U (fp a b)) c sd ip = cons_in U (hancock_cons g nd e m gr dt fp c sd ip).
Proof.
  unfold hancock_cons. cbv zeta. rewrite dtodv_in, (to_cons_in U nd e e' He).
  unfold cons_in at 6; cbn [q_rho q_m q_E]. pose proof TA as HT.
  assert (F : forall a d, flux_prim nd e' (prim_in U (fp a d)) d = flux_in U (flux_prim nd e (fp a d) d)) by (intros; apply (flux_prim_in U nd e e' He)).
  set (q := to_cons nd e (fp sd ip)). unfold cons_in; cbn [q_rho q_m q_E].
  f_equal.
  - rewrite Rmult_plus_distr_l. f_equal. apply vsum_in. intros d Hd. rewrite !F. unfold flux_in; cbn [f_rho]. now apply (flux_diff_in D).
  - fext idr.
    replace (u_T U * dt * (u_A U * gr c idr) * (D * q_rho q)) with (u_M U * (dt * gr c idr * q_rho q)) by (unfold u_M; rewrite <- HT; ring).
    rewrite !Rmult_plus_distr_l. f_equal. f_equal. apply vsum_in. intros d Hd. rewrite !F. unfold flux_in; cbn [f_m].
    rewrite geo_source_in by exact Hd. unfold u_E. fold (u_M U). rewrite flux_diff_in by exact Hd. ring.
  - rewrite Rmult_plus_distr_l. f_equal. apply vsum_in. intros d Hd. rewrite !F. unfold flux_in; cbn [f_E].
    rewrite flux_diff_in by exact Hd.
    replace (u_T U * dt * (u_A U * gr c d) * (u_M U * q_m q d)) with (u_E U * (dt * gr c d * q_m q d)) by (unfold u_E, u_M; rewrite <- HT; ring). ring.
Qed.

Lemma hancock_fx_in fp ffx c sd ip :
  hancock_fx g nd e' (mi m) gr' dt' (fun a b => prim_in U (fp a b)) ffx c sd ip = hancock_fx g nd e m gr dt fp ffx c sd ip.
Proof.
  unfold hancock_fx. cbv zeta. fext n. rewrite hancock_cons_in.
  assert (F : forall a d, flux_prim nd e' (prim_in U (fp a d)) d = flux_in U (flux_prim nd e (fp a d) d)) by (intros; apply (flux_prim_in U nd e e' He)).
  unfold cons_in; cbn [q_rho]. unfold prim_in at 1; cbn [p_rho].
  match goal with |- ?x / _ = ?y / _ => replace x with (D * y) end.
  - rewrite sdiv by auto. replace (D / D) with 1 by (field; auto). ring.
  - rewrite Rmult_plus_distr_l. f_equal; [ring|]. symmetry. apply vsum_in. intros d Hd. rewrite !F. unfold flux_in; cbn [f_rho].
    rewrite <- (flux_diff_in D) by exact Hd. unfold u_M. f_equal; ring.
Qed.

Lemma reconstruction_in p l rho u P fx old :
  hydro_reconstruction p g nd e' l (mi m) gr' dt' (fun c => D * rho c) (fun c n => V * u c n) (fun c => u_E U * P c) fx (recon_in U old)
  = recon_in U (hydro_reconstruction p g nd e l m gr dt rho u P fx old).
Proof.
  unfold hydro_reconstruction, recon_in; cbn [r_q r_fx]. 
  assert (A : forall c, face_prim l (mi m) (fun c => D * rho c) (fun c n => V * u c n) (fun c => u_E U * P c) c
    = fun a b => prim_in U (face_prim l m rho u P c a b)) by (intros; fext a; fext b; apply face_prim_in).
  assert (B : forall c, face_fx l (mi m) fx c = face_fx l m fx c) by (intros; fext a; fext b; apply face_fx_in).
  f_equal; unfold kwrite.
  - fext c. fext sd. fext d. destruct (p c); [|reflexivity]. now rewrite A, hancock_cons_in.
  - fext c. destruct (p c); [|reflexivity]. fext sd. fext d. now rewrite A, B, hancock_fx_in.
Qed.

(** ** Godunov update *)
Variables (s : solver) (a : idx -> cell) (r : recon).
Notation a' := (fun c => cell_in U (a c)).
Notation r' := (recon_in U r).

Lemma left_in c d : flux_left s nd e' r' c d = flux_in U (flux_left s nd e r c d).
Proof. unfold flux_left, face_flux, recon_in; cbn [r_q]. now apply (riemann_in U g nd HU). Qed.
Lemma right_in c d : flux_right s nd e' r' c d = flux_in U (flux_right s nd e r c d).
Proof. unfold flux_right, recon_in; cbn [r_q]. now apply (riemann_in U g nd HU). Qed.
Lemma fx_left_in c d n : fx_left s nd e' r' c d n = fx_left s nd e r c d n.
Proof. unfold fx_left. rewrite left_in. unfold flux_in; cbn [f_rho]. now rewrite rltb_scale_0 by auto. Qed.
Lemma fx_right_in c d n : fx_right s nd e' r' c d n = fx_right s nd e r c d n.
Proof. unfold fx_right. rewrite right_in. unfold flux_in; cbn [f_rho]. now rewrite rltb_scale_0 by auto. Qed.

Lemma god_rho_in c : god_rho g nd e' s (mi m) dt' a' r' c = D * god_rho g nd e s m dt a r c.
Proof.
  unfold god_rho. rewrite Rmult_plus_distr_l. f_equal. apply vsum_in. intros d Hd. rewrite left_in, right_in.
  unfold flux_in; cbn [f_rho]. now apply (flux_diff_in D).
Qed.
Lemma god_cell_in c : god_cell g nd e' s (mi m) gr' dt' a' r' c = cell_in U (god_cell g nd e s m gr dt a r c).
Proof.
  pose proof TA as HT. unfold god_cell. open_rhs; cbn [c_rho c_rhou c_E c_fx]. rewrite god_rho_in. f_equal.
  - fext idr. unfold god_rhou. unfold cell_in; cbn [c_rho c_rhou].
    replace (u_T U * dt * (u_A U * gr c idr) * (D * c_rho (a c))) with (u_M U * (dt * gr c idr * c_rho (a c))) by (unfold u_M; rewrite <- HT; ring).
    rewrite !Rmult_plus_distr_l. f_equal. f_equal. apply vsum_in. intros d Hd. rewrite left_in, right_in, dtodv_in.
    unfold recon_in; cbn [r_q]. rewrite !(to_prim_in U g nd HU e e' He), geo_source_in by exact Hd. unfold flux_in; cbn [f_m]. unfold u_E. fold (u_M U).
    rewrite flux_diff_in by exact Hd. ring.
  - unfold god_E. unfold cell_in; cbn [c_E c_rhou]. rewrite Rmult_plus_distr_l. f_equal. apply vsum_in. intros d Hd.
    rewrite left_in, right_in. unfold flux_in; cbn [f_E]. rewrite flux_diff_in by exact Hd.
    replace (u_T U * dt * (u_A U * gr c d) * (u_M U * c_rhou (a c) d)) with (u_E U * (dt * gr c d * c_rhou (a c) d)) by (unfold u_E, u_M; rewrite <- HT; ring). ring.
  - fext n. f_equal.
    replace (god_rhofx g nd e' s (mi m) dt' a' r' c n) with (D * god_rhofx g nd e s m dt a r c n).
    + rewrite sdiv by auto. replace (D / D) with 1 by (field; auto). ring.
    + unfold god_rhofx, cell_in; cbn [c_fx c_rho]. rewrite Rmult_plus_distr_l. f_equal; [ring|]. symmetry. apply vsum_in. intros d Hd.
      rewrite left_in, right_in, fx_left_in, fx_right_in. unfold flux_in; cbn [f_rho]. rewrite <- (flux_diff_in D) by exact Hd. unfold u_M. f_equal; ring.
Qed.

(** ** Pressure fix *)
Lemma cons_of_in x : cons_of (cell_in U x) = cons_in U (cons_of x). Proof. reflexivity. Qed.
Lemma eint_in x : eint nd (cell_in U x) = u_E U * eint nd x.
Proof. unfold eint. rewrite cons_of_in, (ek_cons_in U g nd HU). unfold cell_in; cbn [c_E]. ring. Qed.
Lemma ekin_in c : ekin nd a' c = u_E U * ekin nd a c.
Proof. unfold ekin. now rewrite cons_of_in, (ek_cons_in U g nd HU). Qed.
Lemma us_left_in c d i : us_left nd e' r' c d i = V * us_left nd e r c d i.
Proof. unfold us_left, recon_in; cbn [r_q]. rewrite !(to_prim_in U g nd HU e e' He). unfold prim_in; cbn [p_u]. field. Qed.
Lemma us_right_in c d i : us_right nd e' r' c d i = V * us_right nd e r c d i.
Proof. unfold us_right, recon_in; cbn [r_q]. rewrite !(to_prim_in U g nd HU e e' He). unfold prim_in; cbn [p_u]. field. Qed.
Lemma ein_right_in c d i : ein_right nd e' a' r' c d i = u_E U * ein_right nd e a r c d i.
Proof. unfold ein_right. rewrite us_right_in, rltb_scale0, !eint_in by auto. now destruct (rltb _ _). Qed.
Lemma ein_left_in c d i : ein_left nd e' a' r' c d i = u_E U * ein_left nd e a r c d i.
Proof. unfold ein_left. rewrite us_left_in, rltb_scale_0, !eint_in by auto. now destruct (rltb _ _). Qed.
Lemma quot_in k c x : uS * k * x / dv g nd (mi m) c = k / L * (x / dv g nd m c).
Proof. rewrite dv_in, sdiv by (apply neq, Rmult_lt_0_compat; auto). f_equal. field. split; auto. Qed.
Lemma div_u_in c : div_u g nd e' (mi m) r' c = V / L * div_u g nd e m r c.
Proof.
  unfold div_u. apply vsum_in. intros d Hd. apply vsum_in. intros i Hi. rewrite us_left_in, us_right_in, !ds_in by auto.
  rewrite <- quot_in. f_equal. ring.
Qed.
Lemma div_ue_in c : div_ue g nd e' (mi m) a' r' c = V * u_E U / L * div_ue g nd e m a r c.
Proof.
  unfold div_ue. apply vsum_in. intros d Hd. apply vsum_in. intros i Hi. rewrite us_left_in, us_right_in, ein_left_in, ein_right_in, !ds_in by auto.
  rewrite <- quot_in. f_equal. ring.
Qed.
Lemma de_pf_in c : de_pf g nd e' (mi m) dt' a' r' c = u_E U * de_pf g nd e m dt a r c.
Proof.
  unfold de_pf. rewrite cons_of_in, (to_prim_in U g nd HU e e' He), div_u_in, div_ue_in. unfold prim_in; cbn [p_P]. unfold u_T. field. split; auto.
Qed.
Lemma alpha_in eps c : alpha nd eps a' c = alpha nd eps a c.
Proof.
  unfold alpha. rewrite eint_in, ekin_in. replace (eps / 10 * (u_E U * ekin nd a c)) with (u_E U * (eps / 10 * ekin nd a c)) by ring.
  rewrite rltb_scale by auto. destruct (rltb _ _); [reflexivity|].
  replace (u_E U * eint nd (a c) * (u_E U * eint nd (a c))) with (u_E U * u_E U * (eint nd (a c) * eint nd (a c))) by ring.
  replace (u_E U * ekin nd a c * (u_E U * ekin nd a c) * eps * eps) with (u_E U * u_E U * (ekin nd a c * ekin nd a c * eps * eps)) by ring.
  rewrite sdiv by (apply neq, Rmult_lt_0_compat; auto). replace (u_E U * u_E U / (u_E U * u_E U)) with 1 by (field; auto). ring.
Qed.
Lemma pf_cell_in eps n c : pf_cell g nd e' (mi m) dt' eps a' r' (fun c => cell_in U (n c)) c = cell_in U (pf_cell g nd e m dt eps a r n c).
Proof.
  unfold pf_cell. rewrite eint_in, ekin_in. replace (eps * (u_E U * ekin nd a c)) with (u_E U * (eps * ekin nd a c)) by ring.
  rewrite rltb_scale by auto. destruct (rltb _ _); [|reflexivity].
  open_rhs; cbn [c_rho c_rhou c_E c_fx]. f_equal.
  unfold pf_energy. cbv zeta. rewrite alpha_in, de_pf_in, !eint_in.
  rewrite (vsum_in (u_E U) (fun idr => c_rhou (a c) idr * c_rhou (a c) idr / c_rho (a c))); [ring|].
  intros d _. unfold cell_in; cbn [c_rhou c_rho].
  replace (u_M U * c_rhou (a c) d * (u_M U * c_rhou (a c) d)) with (u_M U * u_M U * (c_rhou (a c) d * c_rhou (a c) d)) by ring.
  rewrite sdiv by auto. f_equal. unfold u_M, u_E. field. auto.
Qed.
End U.
