(** * The vortex of gresho_vortex is a steady rotation for rho0 = 1, u0 = 0 and for no other values (C81). *)
From Verif Require Import Base RBase ModelMesh ModelGeom ModelBoundary ModelHydro ModelRad ModelScheme ModelStep ModelSetup
  SpecMesh SpecGeom SpecHydro SpecSetup ProofBase ProofR ProofHydro ProofSetupEq.
Local Open Scope R_scope.

Lemma cos_sin_atan2 x y : let r := sqrt (x ^ 2 + y ^ 2) in 0 < r -> cos (atan2 y x) = x / r /\ sin (atan2 y x) = y / r.
Proof.
  intros r Hr. unfold atan2.
  assert (Hs : 0 < x ^ 2 + y ^ 2).
  { destruct (Rle_or_lt (x ^ 2 + y ^ 2) 0) as [H|H]; [|exact H]. unfold r in Hr. rewrite sqrt_neg_0 in Hr; [lra|exact H]. }
  assert (Hq : x <> 0 -> sqrt (1 + Rsqr (y / x)) = r / Rabs x).
  { intros Hx. unfold r. rewrite <- sqrt_Rsqr_abs, <- sqrt_div_alt by (apply Rsqr_pos_lt; exact Hx). f_equal. unfold Rsqr. field. exact Hx. }
  unfold rltb, rleb. destruct (Rlt_dec 0 x) as [Hx|Hx].
  - rewrite cos_atan, sin_atan, Hq, Rabs_pos_eq by lra. split; field; split; lra.
  - destruct (Rlt_dec x 0) as [Hx'|Hx'].
    + assert (H : cos (atan (y / x)) = - x / r /\ sin (atan (y / x)) = - y / r).
      { rewrite cos_atan, sin_atan, Hq, Rabs_left by lra. split; field; split; lra. }
      destruct H as [Hc Hn]. destruct (Rle_dec 0 y).
      * rewrite neg_cos, neg_sin, Hc, Hn. split; field; lra.
      * assert (E1 : forall a, cos (a - PI) = - cos a) by (intros; rewrite cos_minus, cos_PI, sin_PI; ring).
        assert (E2 : forall a, sin (a - PI) = - sin a) by (intros; rewrite sin_minus, cos_PI, sin_PI; ring).
        rewrite E1, E2, Hc, Hn. split; field; lra.
    + assert (x = 0) by lra. subst x.
      assert (Hy : r = Rabs y) by (unfold r; rewrite <- sqrt_Rsqr_abs; f_equal; unfold Rsqr; ring).
      destruct (Rlt_dec 0 y) as [H|H].
      * rewrite cos_PI2, sin_PI2. rewrite Hy, Rabs_pos_eq by lra. split; field; lra.
      * destruct (Rlt_dec y 0) as [H'|H'].
        -- rewrite cos_neg, sin_neg, cos_PI2, sin_PI2. rewrite Hy, Rabs_left by lra. split; field; lra.
        -- exfalso. assert (y = 0) by lra. subst y. lra.
Qed.

(** The tangential velocity and the pressure as functions of the radius. *)
Definition vortex_v (r : R) : R := if Rlt_dec r (2 / 10) then 5 * r else if Rlt_dec r (4 / 10) then 2 - 5 * r else 0.
Definition vortex_P (P0 r : R) : R :=
  if Rlt_dec r (2 / 10) then P0 + 125 / 10 * r * r
  else if Rlt_dec r (4 / 10) then P0 + 125 / 10 * r * r + 4 - 20 * r + 4 * ln (5 * r) else P0 - 2 + 4 * ln 2.

Lemma vortex_v_lipschitz r s : Rabs (vortex_v r - vortex_v s) <= 5 * Rabs (r - s).
Proof.
  unfold vortex_v. repeat destruct (Rlt_dec _ _); unfold Rabs; repeat destruct (Rcase_abs _); lra.
Qed.
Lemma vortex_v_continuous r : continuity_pt vortex_v r.
Proof.
  intros eps He. exists (eps / 5). split; [lra|]. intros x [_ Hx]. cbn in *. unfold R_dist in *.
  pose proof (vortex_v_lipschitz x r). lra.
Qed.

Lemma deriv_quad a b c x : derivable_pt_lim (fun r => a + b * r * r + c * r) x (2 * b * x + c).
Proof.
  apply (deriv_ext (plus_fct (fun r => a + b * (r * r)) (fun r => c * r))); [intros y; unfold plus_fct; ring|].
  replace (2 * b * x + c) with ((0 + b * (1 * x + x * 1)) + c * 1) by ring.
  apply derivable_pt_lim_plus.
  - apply (derivable_pt_lim_plus (fun _ => a) (fun r => b * (r * r))); [apply derivable_pt_lim_const|].
    apply (derivable_pt_lim_scal (fun r => r * r)). apply (derivable_pt_lim_mult id id); apply derivable_pt_lim_id.
  - apply (derivable_pt_lim_scal id). apply derivable_pt_lim_id.
Qed.
Lemma deriv_inner P0 x : derivable_pt_lim (fun r => P0 + 125 / 10 * r * r) x (25 * x).
Proof.
  pose proof (deriv_quad P0 (125 / 10) 0 x) as D. replace (2 * (125 / 10) * x + 0) with (25 * x) in D by field.
  revert D. apply deriv_ext. intros; ring.
Qed.
Lemma deriv_middle P0 x : 0 < x -> derivable_pt_lim (fun r => P0 + 125 / 10 * r * r + 4 - 20 * r + 4 * ln (5 * r)) x (25 * x - 20 + 4 / x).
Proof.
  intros Hx. pose proof (deriv_quad (P0 + 4) (125 / 10) (-20) x) as D.
  assert (D' : derivable_pt_lim (fun r => 4 * ln (5 * r)) x (4 * (/ (5 * x) * 5))).
  { apply (derivable_pt_lim_scal (fun r => ln (5 * r))). apply (derivable_pt_lim_comp (fun r => 5 * r) ln).
    - pose proof (deriv_affine 5 0 x) as A. revert A. apply deriv_ext. intros; ring.
    - apply derivable_pt_lim_ln. lra. }
  pose proof (derivable_pt_lim_plus _ _ _ _ _ D D') as S.
  replace (2 * (125 / 10) * x + -20 + 4 * (/ (5 * x) * 5)) with (25 * x - 20 + 4 / x) in S by (field; lra).
  revert S. apply deriv_ext. intros y. unfold plus_fct. ring.
Qed.

Lemma vortex_balance P0 r : 0 < r -> derivable_pt_lim (vortex_P P0) r (1 * vortex_v r ^ 2 / r).
Proof.
  intros Hr. set (f1 := fun r => P0 + 125 / 10 * r * r).
  set (f2 := fun r => P0 + 125 / 10 * r * r + 4 - 20 * r + 4 * ln (5 * r)). set (f3 := fun _ : R => P0 - 2 + 4 * ln 2).
  assert (B1 : f1 (2 / 10) = f2 (2 / 10)).
  { unfold f1, f2. replace (5 * (2 / 10)) with 1 by field. rewrite ln_1. field. }
  assert (B2 : f2 (4 / 10) = f3 (4 / 10)).
  { unfold f2, f3. replace (5 * (4 / 10)) with 2 by field. field. }
  assert (A1 : forall x, x < 2 / 10 -> f1 x = vortex_P P0 x).
  { intros x H. unfold vortex_P, f1. destruct (Rlt_dec x (2 / 10)); [reflexivity|lra]. }
  assert (A2 : forall x, 2 / 10 <= x < 4 / 10 -> f2 x = vortex_P P0 x).
  { intros x H. unfold vortex_P, f2. destruct (Rlt_dec x (2 / 10)); [lra|]. destruct (Rlt_dec x (4 / 10)); [reflexivity|lra]. }
  assert (A3 : forall x, 4 / 10 <= x -> f3 x = vortex_P P0 x).
  { intros x H. unfold vortex_P, f3. destruct (Rlt_dec x (2 / 10)); [lra|]. destruct (Rlt_dec x (4 / 10)); [lra|reflexivity]. }
  assert (D3 : forall x, derivable_pt_lim f3 x 0) by (intros; apply derivable_pt_lim_const).
  unfold vortex_v. destruct (Rlt_dec r (2 / 10)) as [H1|H1].
  { apply (deriv_near f1 _ r _ 0 (2 / 10)); [lra|intros; apply A1; lra|].
    replace (1 * (5 * r) ^ 2 / r) with (25 * r) by (field; lra). apply deriv_inner. }
  assert (E2 : 1 * (2 - 5 * r) ^ 2 / r = 25 * r - 20 + 4 / r) by (field; lra).
  destruct (Rlt_dec r (4 / 10)) as [H2|H2].
  { rewrite E2. destruct (Req_dec r (2 / 10)) as [->|Hn].
    - apply (deriv_near (fun x => if Rlt_dec x (2 / 10) then f1 x else f2 x) _ _ _ 0 (4 / 10)); [lra| |].
      + intros y Hy. destruct (Rlt_dec y (2 / 10)); [apply A1; lra|apply A2; lra].
      + apply (deriv_glue _ f1 f2).
        * intros x H. destruct (Rlt_dec x (2 / 10)); [reflexivity|lra].
        * intros x H. destruct (Rlt_dec x (2 / 10)); [lra|reflexivity].
        * exact B1.
        * replace (25 * (2 / 10) - 20 + 4 / (2 / 10)) with (25 * (2 / 10)) by field. apply deriv_inner.
        * apply deriv_middle. lra.
    - apply (deriv_near f2 _ r _ (2 / 10) (4 / 10)); [lra|intros; apply A2; lra|]. apply deriv_middle. lra. }
  replace (1 * 0 ^ 2 / r) with 0 by (field; lra).
  destruct (Req_dec r (4 / 10)) as [->|Hn].
  - apply (deriv_near (fun x => if Rlt_dec x (4 / 10) then f2 x else f3 x) _ _ _ (2 / 10) 1); [lra| |].
    + intros y Hy. destruct (Rlt_dec y (4 / 10)); [apply A2; lra|apply A3; lra].
    + apply (deriv_glue _ f2 f3).
      * intros x H. destruct (Rlt_dec x (4 / 10)); [reflexivity|lra].
      * intros x H. destruct (Rlt_dec x (4 / 10)); [lra|reflexivity].
      * exact B2.
      * pose proof (deriv_middle P0 (4 / 10) ltac:(lra)) as D. replace (25 * (4 / 10) - 20 + 4 / (4 / 10)) with 0 in D by field. exact D.
      * apply D3.
  - apply (deriv_near f3 _ r _ (4 / 10) (r + 1)); [lra|intros; apply A3; lra|]. apply D3.
Qed.

Section Vortex.
Variables (gm : geom) (th : thermo) (rk N : idx) (gr : gravity) (o : icell) (rho0 u0 Ma : R).
Definition vortex_cell (m : mesh) (c : idx) : icell := setup_cell (SGresho rho0 u0 Ma) (mkEnv gm 2 th m rk N gr) c o.

Lemma vortex_values m c : let x := centre 0 m c in let y := centre 1 m c in let r := sqrt (x ^ 2 + y ^ 2) in 0 < r ->
  i_rho (vortex_cell m c) = rho0 /\ i_P (vortex_cell m c) = vortex_P (1 / (th_gamma th * Ma * Ma)) r /\
  i_u (vortex_cell m c) 0%nat = (if Rlt_dec r (4 / 10) then - vortex_v r * (y / r) else u0) /\
  i_u (vortex_cell m c) 1%nat = (if Rlt_dec r (4 / 10) then vortex_v r * (x / r) else u0).
Proof.
  intros x y r Hr. destruct (cos_sin_atan2 x y Hr) as [Hc Hs]. fold r in Hc, Hs.
  assert (Er : sqrt (x * x + y * y) = r) by (unfold r; f_equal; ring).
  unfold vortex_cell. cbn [setup_cell]. unfold k_gresho. cbv zeta. cbn [e_mesh e_nd e_th].
  change (mxc m 0 (ii c)) with x. change (mxc m 1 (jj c)) with y. rewrite Er.
  unfold rltb, vortex_P, vortex_v. destruct (Rlt_dec r (2 / 10)); destruct (Rlt_dec r (4 / 10)); try lra; cbn [i_rho i_P i_u];
    rewrite ?Hc, ?Hs; unfold two_u, all_u; cbn [Nat.ltb Nat.leb]; repeat split; reflexivity.
Qed.

Lemma vortex_steady_iff : steady_rotation vortex_cell <-> rho0 = 1 /\ u0 = 0.
Proof.
  split.
  - intros (rho & v & P & H & D). split.
    + assert (E : forall x, 0 < x < 2 / 10 -> rho x = rho0 /\ v x = 5 * x /\ P x = 1 / (th_gamma th * Ma * Ma) + 125 / 10 * x * x).
      { intros x Hx. destruct (centre_at x 0 (I3 0 0 0)) as [Cx Cy].
        pose proof (H (mesh_at x 0) (I3 0 0 0)) as H'. cbv zeta in H'. pose proof (vortex_values (mesh_at x 0) (I3 0 0 0)) as V. cbv zeta in V.
        rewrite Cx, Cy in H', V. assert (Er : sqrt (x ^ 2 + 0 ^ 2) = x) by (replace (x ^ 2 + 0 ^ 2) with (x * x) by ring; apply sqrt_square; lra).
        rewrite Er in H', V. destruct (H' ltac:(lra)) as (A & _ & B & C). destruct (V ltac:(lra)) as (A' & C' & _ & B').
        unfold vortex_P, vortex_v in *. destruct (Rlt_dec x (2 / 10)); [|lra]. destruct (Rlt_dec x (4 / 10)); [|lra].
        split; [congruence|]. split; [|congruence]. rewrite B in B'. replace (x / x) with 1 in B' by (field; lra). lra. }
      destruct (D (1 / 10) ltac:(lra)) as [_ D1]. pose proof (deriv_inner (1 / (th_gamma th * Ma * Ma)) (1 / 10)) as D2.
      apply (deriv_near _ P _ _ 0 (2 / 10)) in D2; [|lra|intros y Hy; symmetry; apply E; lra].
      pose proof (deriv_unique _ _ _ _ D1 D2) as F. destruct (E (1 / 10) ltac:(lra)) as (-> & Hv & _) in F. rewrite Hv in F. lra.
    + destruct (centre_at 1 0 (I3 0 0 0)) as [Cx Cy].
      pose proof (H (mesh_at 1 0) (I3 0 0 0)) as H'. cbv zeta in H'. pose proof (vortex_values (mesh_at 1 0) (I3 0 0 0)) as V. cbv zeta in V.
      rewrite Cx, Cy in H', V. assert (Er : sqrt (1 ^ 2 + 0 ^ 2) = 1) by (replace (1 ^ 2 + 0 ^ 2) with (1 * 1) by ring; apply sqrt_square; lra).
      rewrite Er in H', V. destruct (H' ltac:(lra)) as (_ & B & _). destruct (V ltac:(lra)) as (_ & _ & B' & _).
      destruct (Rlt_dec 1 (4 / 10)); [lra|]. lra.
  - intros [Er Eu]. exists (fun _ => 1), vortex_v, (vortex_P (1 / (th_gamma th * Ma * Ma))). split.
    + intros m c x y r Hr. destruct (vortex_values m c Hr) as (A & B & C & D). fold x y r in B, C, D.
      split; [congruence|]. split; [|split; [|exact B]].
      * rewrite C. destruct (Rlt_dec r (4 / 10)); [reflexivity|]. unfold vortex_v. destruct (Rlt_dec r (2 / 10)); [lra|]. destruct (Rlt_dec r (4 / 10)); [lra|]. lra.
      * rewrite D. destruct (Rlt_dec r (4 / 10)); [reflexivity|]. unfold vortex_v. destruct (Rlt_dec r (2 / 10)); [lra|]. destruct (Rlt_dec r (4 / 10)); [lra|]. lra.
    + intros r Hr. split; [apply vortex_v_continuous|apply vortex_balance; exact Hr].
Qed.
End Vortex.
