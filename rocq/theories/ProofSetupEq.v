(** * Equilibria among the initial conditions (C79, C81) and the ghost states of the atmospheres (C80). *)
From Coq Require Import ZifyBool ZifyNat Ranalysis5.
From Verif Require Import Base RBase ModelMesh ModelGeom ModelBoundary ModelHydro ModelRad ModelScheme ModelStep ModelSetup
  SpecMesh SpecGeom SpecBoundary SpecHydro SpecScheme SpecStep SpecSetup
  ProofBase ProofMesh ProofR ProofBoundary ProofHydro ProofShift ProofStep ProofLayout ProofSetup.
Local Open Scope R_scope.

Lemma pg_gas_law g : valid_gas g -> gas_law (pg_thermo g).
Proof. intros [_ H]. split; [exact H|]. exists (fun _ => 0). intros rho T. cbn [pg_thermo th_pres_T th_mmw]. unfold pg_pres_from_temp. ring. Qed.
Lemma rg_gas_law g : 0 < rg_mmw g -> gas_law (rg_thermo g).
Proof. intros H. split; [exact H|]. exists (fun T => ar * (T * T * T * T) / 3). intros rho T. reflexivity. Qed.

(** Derivatives of exponential profiles. *)
Lemma deriv_exp f f' x : derivable_pt_lim f x f' -> derivable_pt_lim (fun y => exp (f y)) x (exp (f x) * f').
Proof. intros H. exact (derivable_pt_lim_comp f exp x f' (exp (f x)) H (derivable_pt_lim_exp (f x))). Qed.
Lemma deriv_affine a b x : derivable_pt_lim (fun y => a * y + b) x a.
Proof.
  assert (D : derivable_pt_lim (fun y => a * y + b) x (a * 1 + 0)).
  { apply (derivable_pt_lim_plus (fun y => a * y) (fun _ => b)); [|apply derivable_pt_lim_const].
    apply (derivable_pt_lim_scal id). apply derivable_pt_lim_id. }
  replace a with (a * 1 + 0) by ring. revert D. replace (a * 1 + 0) with a by ring. trivial.
Qed.
Lemma deriv_ext f g x l : (forall y, f y = g y) -> derivable_pt_lim f x l -> derivable_pt_lim g x l.
Proof. intros E H eps He. destruct (H eps He) as (d & Hd). exists d. intros h H1 H2. rewrite <- !E. now apply Hd. Qed.
(** Only the values near the point matter. *)
Lemma deriv_near f g x l a b : a < x < b -> (forall y, a < y < b -> f y = g y) -> derivable_pt_lim f x l -> derivable_pt_lim g x l.
Proof.
  intros [Ha Hb] E H eps He. destruct (H eps He) as (d & Hd).
  assert (Hm : 0 < Rmin d (Rmin (x - a) (b - x))) by (repeat apply Rmin_pos; try lra; apply cond_pos).
  exists (mkposreal _ Hm). cbn [pos]. intros h H1 H2.
  assert (L1 := Rmin_l d (Rmin (x - a) (b - x))). assert (L2 := Rmin_r d (Rmin (x - a) (b - x))).
  assert (L3 := Rmin_l (x - a) (b - x)). assert (L4 := Rmin_r (x - a) (b - x)).
  assert (Rabs h < d /\ Rabs h < x - a /\ Rabs h < b - x) as (B1 & B2 & B3) by (repeat split; lra).
  destruct (Rabs_def2 h (x - a) B2). destruct (Rabs_def2 h (b - x) B3).
  rewrite <- !E by lra. now apply Hd.
Qed.
Lemma deriv_unique f x l l' : derivable_pt_lim f x l -> derivable_pt_lim f x l' -> l = l'.
Proof. apply uniqueness_limite. Qed.

Lemma deriv_inv x : x <> 0 -> derivable_pt_lim (fun y => / y) x (- 1 / Rsqr x).
Proof.
  intros Hx. pose proof (derivable_pt_lim_div (fun _ => 1) id x 0 1 (derivable_pt_lim_const 1 x) (derivable_pt_lim_id x) Hx) as D.
  cbv beta in D. replace ((0 * id x - 1 * 1) / (id x)²) with (- 1 / Rsqr x) in D by (unfold id, Rdiv; ring).
  revert D. apply deriv_ext. intros y. unfold div_fct, id, Rdiv. ring.
Qed.

(** Two branches that meet with the same value and slope. *)
Lemma deriv_glue (f f1 f2 : R -> R) a l : (forall x, x < a -> f x = f1 x) -> (forall x, a <= x -> f x = f2 x) -> f1 a = f2 a ->
  derivable_pt_lim f1 a l -> derivable_pt_lim f2 a l -> derivable_pt_lim f a l.
Proof.
  intros E1 E2 E0 D1 D2 eps He. destruct (D1 eps He) as (d1 & H1). destruct (D2 eps He) as (d2 & H2).
  assert (Hm : 0 < Rmin d1 d2) by (apply Rmin_pos; apply cond_pos).
  exists (mkposreal _ Hm). cbn [pos]. intros h Hh Hd. pose proof (Rmin_l d1 d2). pose proof (Rmin_r d1 d2).
  rewrite (E2 a) by lra. destruct (Rlt_or_le h 0) as [Hn|Hp].
  - rewrite E1, <- E0 by lra. apply H1; [exact Hh|lra].
  - rewrite E2 by lra. apply H2; [exact Hh|lra].
Qed.

(** ** stratified_atm *)
Section Stratified.
Variables (gm : geom) (nd : nat) (th : thermo) (r N : idx) (o : icell) (rho0 u0 T0 g : R).
Hypothesis Hth : gas_law th.
Hypothesis HT : 0 < T0.
Definition strat_cell (m : mesh) (c : idx) : icell :=
  setup_cell (SStratifiedAtm rho0 u0 T0) (mkEnv gm nd th m r N (fun _ d => match d with O => g | _ => 0 end)) c o.

Lemma strat_profile x : g <> 0 ->
  derivable_pt_lim (fun x => th_pres_T th (stratified_rho th rho0 T0 g x) T0) x (stratified_rho th rho0 T0 g x * - Rabs g).
Proof.
  intros Hg. destruct Hth as [Hm (q & Hq)]. pose proof kb_pos. pose proof mp_pos. pose proof (Rabs_pos_lt g Hg).
  apply (deriv_ext (fun x => rho0 * kb * T0 / (th_mmw th * mp) * exp (- (th_mmw th * mp * Rabs g / (kb * T0)) * x + 0) + q T0)).
  { intros y. rewrite Hq. unfold stratified_rho. replace (- y / (kb * T0 / (th_mmw th * mp * Rabs g)))
      with (- (th_mmw th * mp * Rabs g / (kb * T0)) * y + 0) by (field; repeat split; lra). unfold Rdiv. ring. }
  replace (stratified_rho th rho0 T0 g x * - Rabs g)
    with (rho0 * kb * T0 / (th_mmw th * mp) * (exp (- (th_mmw th * mp * Rabs g / (kb * T0)) * x + 0) * - (th_mmw th * mp * Rabs g / (kb * T0))) + 0).
  2:{ unfold stratified_rho. replace (- x / (kb * T0 / (th_mmw th * mp * Rabs g)))
      with (- (th_mmw th * mp * Rabs g / (kb * T0)) * x + 0) by (field; repeat split; lra). field. repeat split; lra. }
  apply (derivable_pt_lim_plus _ (fun _ => q T0)); [|apply derivable_pt_lim_const].
  apply (derivable_pt_lim_scal (fun y => exp (- (th_mmw th * mp * Rabs g / (kb * T0)) * y + 0))).
  apply (deriv_exp (fun y => - (th_mmw th * mp * Rabs g / (kb * T0)) * y + 0)). apply deriv_affine.
Qed.

Lemma strat_equilibrium : g < 0 -> hydrostatic strat_cell (centre 0) (fun _ _ => True) (fun _ => g).
Proof.
  intros Hg. exists (stratified_rho th rho0 T0 g), (fun x => th_pres_T th (stratified_rho th rho0 T0 g x) T0).
  intros m c _. split; [reflexivity|]. split; [reflexivity|].
  pose proof (strat_profile (centre 0 m c) ltac:(lra)) as D. replace (- Rabs g) with g in D by (rewrite Rabs_left by lra; ring). exact D.
Qed.

(** A mesh with a prescribed centre. *)
Definition mesh_at (x y : R) : mesh := fun d _ => match d with O => x | S O => y | _ => 0 end.
Lemma centre_at x y c : centre 0 (mesh_at x y) c = x /\ centre 1 (mesh_at x y) c = y.
Proof. unfold centre, mesh_at. split; field. Qed.

Lemma strat_upward : 0 < g -> rho0 <> 0 -> ~ hydrostatic strat_cell (centre 0) (fun _ _ => True) (fun _ => g).
Proof.
  intros Hg Hr (rho & P & H).
  assert (E : forall x, P x = th_pres_T th (stratified_rho th rho0 T0 g x) T0 /\ rho x = stratified_rho th rho0 T0 g x).
  { intros x. destruct (H (mesh_at x 0) (I3 0 0 0) I) as (A & B & _). rewrite (proj1 (centre_at x 0 _)) in A, B.
    cbn [strat_cell setup_cell] in A, B. unfold k_stratified in A, B. cbv zeta in A, B. cbn [i_rho i_P e_th e_grav e_mesh] in A, B.
    change (mxc (mesh_at x 0) 0 (ii (I3 0 0 0))) with (centre 0 (mesh_at x 0) (I3 0 0 0)) in A, B. rewrite (proj1 (centre_at x 0 _)) in A, B.
    split; now symmetry. }
  destruct (H (mesh_at 0 0) (I3 0 0 0) I) as (_ & _ & D). rewrite (proj1 (centre_at 0 0 _)) in D.
  pose proof (strat_profile 0 ltac:(lra)) as D'.
  apply (deriv_ext _ P) in D'; [|intros y; symmetry; apply E].
  pose proof (deriv_unique _ _ _ _ D D') as F. rewrite (proj2 (E 0)) in F. rewrite (Rabs_pos_eq g) in F by lra.
  unfold stratified_rho in F. pose proof (exp_pos (- 0 / (kb * T0 / (th_mmw th * mp * Rabs g)))) as He.
  set (ex := exp _) in *. apply Hr. apply (Rmult_eq_reg_r (2 * ex * g)); [lra|]. apply Rgt_not_eq. apply Rmult_lt_0_compat; lra.
Qed.
End Stratified.

(** ** eq_hydro_sphe *)
Section Sphere.
Variables (gm : geom) (nd : nat) (th : thermo) (r N : idx) (o : icell) (rho0 u0 T0 M : R).
Hypothesis Hth : gas_law th.
Hypothesis HT : 0 < T0.
Hypothesis HM : 0 < M.
Definition sphere_cell (m : mesh) (c : idx) : icell :=
  setup_cell (SEqHydroSphe rho0 u0 T0 M) (mkEnv gm nd th m r N (radial_gravity m (fun _ => M))) c o.

Lemma sphere_profile x : 0 < x ->
  derivable_pt_lim (fun x => th_pres_T th (eq_hydro_rho th rho0 T0 M x) T0) x (eq_hydro_rho th rho0 T0 M x * (- Ggrav * M / (x * x))).
Proof.
  intros Hx. destruct Hth as [Hm (q & Hq)]. pose proof kb_pos. pose proof mp_pos. pose proof Ggrav_pos.
  set (b := th_mmw th * mp * Ggrav * M / (kb * T0)).
  assert (Hb : forall y, y <> 0 -> 1 / (y * (kb * T0 / (th_mmw th * mp * Ggrav * M))) = b * / y).
  { intros y Hy. unfold b. field. repeat split; lra. }
  apply (deriv_near (fun x => rho0 * kb * T0 / (th_mmw th * mp) * exp (b * / x) + q T0) _ x _ (x / 2) (x + 1)); [lra| |].
  { intros y Hy. rewrite Hq. unfold eq_hydro_rho. rewrite Hb by lra. unfold Rdiv. ring. }
  replace (eq_hydro_rho th rho0 T0 M x * (- Ggrav * M / (x * x)))
    with (rho0 * kb * T0 / (th_mmw th * mp) * (exp (b * / x) * (b * (- 1 / (Rsqr x)))) + 0).
  2:{ unfold eq_hydro_rho. rewrite Hb by lra. unfold Rsqr. set (e := exp _). unfold b. field. repeat split; lra. }
  apply (derivable_pt_lim_plus _ (fun _ => q T0)); [|apply derivable_pt_lim_const].
  apply (derivable_pt_lim_scal (fun y => exp (b * / y))).
  apply (deriv_exp (fun y => b * / y)). apply (derivable_pt_lim_scal (fun y => / y)).
  apply deriv_inv. lra.
Qed.

Lemma sphere_equilibrium : hydrostatic sphere_cell (centre 0) (fun m c => 0 < centre 0 m c) (fun x => - Ggrav * M / x ^ 2).
Proof.
  exists (eq_hydro_rho th rho0 T0 M), (fun x => th_pres_T th (eq_hydro_rho th rho0 T0 M x) T0).
  intros m c Hx. split; [reflexivity|]. split; [reflexivity|]. cbv beta.
  replace (centre 0 m c ^ 2) with (centre 0 m c * centre 0 m c) by ring. now apply sphere_profile.
Qed.
End Sphere.

(** ** rayleigh_taylor (2D) *)
Section RT2.
Variables (gm : geom) (nd : nat) (th : thermo) (r N : idx) (o : icell) (rho0 rho1 u fx0 fx1 g : R).
Definition rt2_cell (m : mesh) (c : idx) : icell :=
  setup_cell (SRayleighTaylor rho0 rho1 u fx0 fx1) (mkEnv gm nd th m r N (fun _ d => match d with S O => g | _ => 0 end)) c o.
Definition rt2_rho (x y : R) : R := rho1 + (rho0 - rho1) / 2 * (1 + tanh ((y - 1 / 100 * cos (4 * PI * x)) / (5 / 1000))).
Lemma rt2_eq m c : i_rho (rt2_cell m c) = rt2_rho (centre 0 m c) (centre 1 m c) /\
  i_P (rt2_cell m c) = 10 / 7 + 1 / 4 - rho0 * Rabs g * centre 1 m c /\
  i_fx (rt2_cell m c) 0%nat = (fx0 - fx1) / 2 * (1 + tanh ((centre 1 m c - 1 / 100 * cos (4 * PI * centre 0 m c)) / (5 / 1000))).
Proof. split; [reflexivity|split; reflexivity]. Qed.

Lemma rt2_slope y : derivable_pt_lim (fun y => 10 / 7 + 1 / 4 - rho0 * Rabs g * y) y (- (rho0 * Rabs g)).
Proof. apply (deriv_ext (fun y => - (rho0 * Rabs g) * y + (10 / 7 + 1 / 4))); [intros; ring|]. apply deriv_affine. Qed.

Lemma tanh_lt1 t : tanh t < 1.
Proof.
  unfold tanh, sinh, cosh. pose proof (exp_pos t). pose proof (exp_pos (- t)).
  apply (Rmult_lt_reg_r ((exp t + exp (- t)) / 2)); [lra|]. field_simplify; [lra|lra].
Qed.
Lemma tanh_odd t : tanh (- t) = - tanh t.
Proof. unfold tanh, sinh, cosh. rewrite Ropp_involutive. pose proof (exp_pos t). pose proof (exp_pos (- t)). field. lra. Qed.
Lemma tanh_gt t : -1 < tanh t.
Proof. pose proof (tanh_lt1 (- t)) as H. rewrite tanh_odd in H. lra. Qed.

Lemma rt2_balance x : g < 0 -> (hydrostatic rt2_cell (centre 1) (fun m c => centre 0 m c = x) (fun _ => g) <-> rho0 = rho1).
Proof.
  intros Hg. split.
  - intros (rho & P & H).
    assert (E : forall y, rho y = rt2_rho x y /\ P y = 10 / 7 + 1 / 4 - rho0 * Rabs g * y).
    { intros y. destruct (centre_at x y (I3 0 0 0)) as [Cx Cy]. destruct (H (mesh_at x y) (I3 0 0 0) Cx) as (A & B & _).
      destruct (rt2_eq (mesh_at x y) (I3 0 0 0)) as (A' & B' & _). rewrite Cx, Cy in *. split; congruence. }
    destruct (centre_at x 0 (I3 0 0 0)) as [Cx Cy]. destruct (H (mesh_at x 0) (I3 0 0 0) Cx) as (_ & _ & D). rewrite Cy in D.
    pose proof (rt2_slope 0) as D'. apply (deriv_ext _ P) in D'; [|intros y; symmetry; apply E].
    pose proof (deriv_unique _ _ _ _ D D') as F. rewrite (proj1 (E 0)) in F. rewrite Rabs_left in F by lra.
    unfold rt2_rho in F. set (t := tanh _) in F. pose proof (tanh_lt1 ((0 - 1 / 100 * cos (4 * PI * x)) / (5 / 1000))) as Ht. fold t in Ht.
    assert (F' : rho1 + (rho0 - rho1) / 2 * (1 + t) = rho0) by (apply (Rmult_eq_reg_r g); lra).
    assert ((rho0 - rho1) * (1 - t) = 0) by lra.
    apply Rmult_integral in H0. destruct H0; lra.
  - intros E. exists (rt2_rho x), (fun y => 10 / 7 + 1 / 4 - rho0 * Rabs g * y). intros m c Hx.
    destruct (rt2_eq m c) as (A & B & _). rewrite Hx in A. split; [exact A|]. split; [exact B|].
    replace (rt2_rho x (centre 1 m c) * g) with (- (rho0 * Rabs g)); [apply rt2_slope|].
    unfold rt2_rho. rewrite Rabs_left by lra. rewrite E. unfold Rdiv. ring.
Qed.
End RT2.

(** ** rayleigh_taylor3d *)
Section RT3.
Variables (gm : geom) (nd : nat) (th : thermo) (r N : idx) (o : icell) (rho0 rho1 u0 ak bk ck dk g : R).
Hypothesis H0 : 0 < rho0.
Hypothesis H1 : 0 < rho1.
Hypothesis Hg : g < 0.
Definition rt3_cell (m : mesh) (c : idx) : icell :=
  setup_cell (SRayleighTaylor3d rho0 rho1 u0 ak bk ck dk) (mkEnv gm nd th m r N (fun _ d => match d with 2%nat => g | _ => 0 end)) c o.

Lemma rt3_P0_pos : 0 < rt3_P0 rho0 rho1 g.
Proof. unfold rt3_P0. pose proof PI_RGT_0. pose proof (Rabs_pos_lt g ltac:(lra)).
  apply Rmult_lt_0_compat; [|lra]. apply Rmult_lt_0_compat; [|lra]. apply Rmult_lt_0_compat; lra. Qed.

Lemma rt3_profile rr z : 0 < rr -> 0 < rt3_base rho0 rho1 rr g z ->
  derivable_pt_lim (rt3_P rho0 rho1 rr g) z (rt3_rho rho0 rho1 rr g z * g).
Proof.
  intros Hr Hb. pose proof rt3_P0_pos as HP. set (P0 := rt3_P0 rho0 rho1 g) in *.
  set (k := rr * Rabs g / P0).
  assert (Eb : forall y, rt3_base rho0 rho1 rr g y = 1 - 2 / 5 * k * y).
  { intros y. unfold rt3_base, k. cbv zeta. fold P0. field. lra. }
  assert (Hk : 0 < k) by (unfold k; apply Rdiv_lt_0_compat; [apply Rmult_lt_0_compat; [lra|apply Rabs_pos_lt; lra]|exact HP]).
  rewrite Eb in Hb.
  set (zt := 5 / 2 / k). assert (Hzt : z < zt).
  { unfold zt. apply (Rmult_lt_reg_r k); [exact Hk|]. unfold Rdiv. rewrite Rmult_assoc, Rinv_l by lra. lra. }
  assert (Hpos : forall y, y < zt -> 0 < 1 - 2 / 5 * k * y).
  { intros y Hy. unfold zt in Hy. apply (Rmult_lt_compat_r k) in Hy; [|exact Hk]. unfold Rdiv in Hy. rewrite Rmult_assoc, Rinv_l in Hy by lra. lra. }
  apply (deriv_near (fun y => P0 * Rpower (1 - 2 / 5 * k * y) (5 / 2)) _ z _ (z - 1) zt); [lra| |].
  { intros y [_ Hy]. unfold rt3_P, rt3_rho. fold P0. rewrite Eb. f_equal.
    replace (rr * Rpower (1 - 2 / 5 * k * y) (1 / (5 / 3 - 1)) / rr) with (Rpower (1 - 2 / 5 * k * y) (3 / 2)).
    - rewrite Rpower_mult. f_equal. field.
    - replace (1 / (5 / 3 - 1)) with (3 / 2) by field. field. lra. }
  replace (rt3_rho rho0 rho1 rr g z * g) with (P0 * ((5 / 2 * Rpower (1 - 2 / 5 * k * z) (5 / 2 - 1)) * (- (2 / 5) * k))).
  2:{ unfold rt3_rho. rewrite Eb. replace (1 / (5 / 3 - 1)) with (5 / 2 - 1) by field. set (w := Rpower _ _). unfold k.
      rewrite Rabs_left by lra. field. lra. }
  apply (derivable_pt_lim_scal (fun y => Rpower (1 - 2 / 5 * k * y) (5 / 2))).
  apply (derivable_pt_lim_comp (fun y => 1 - 2 / 5 * k * y) (fun t => Rpower t (5 / 2))).
  - apply (deriv_ext (fun y => - (2 / 5) * k * y + 1)); [intros; ring|]. apply deriv_affine.
  - apply derivable_pt_lim_power. lra.
Qed.

Lemma rt3_equilibrium (upper : bool) :
  let base := if upper then rho0 else rho1 in
  hydrostatic rt3_cell (lower_face 2)
    (fun m c => (if upper then Rle else Rgt) (interface_height ak bk ck dk (lower_face 0 m c) (lower_face 1 m c)) (lower_face 2 m c) /\
                2 / 5 * base * Rabs g * lower_face 2 m c < 2 * PI * (rho0 + rho1) * Rabs g * 10)
    (fun _ => g).
Proof.
  intros rr. exists (rt3_rho rho0 rho1 rr g), (rt3_P rho0 rho1 rr g). intros m c [Hi Hb].
  assert (Hr : 0 < rr) by (unfold rr; destruct upper; assumption).
  assert (E : (if rleb (interface_height ak bk ck dk (lower_face 0 m c) (lower_face 1 m c)) (lower_face 2 m c) then rho0 else rho1) = rr).
  { unfold rr, rleb. destruct upper; destruct (Rle_dec _ _); try reflexivity; lra. }
  unfold lower_face in E. cbn [coord] in E.
  split; [|split].
  - cbn [rt3_cell setup_cell]. unfold k_rayleigh_taylor3d. cbv zeta. cbn [i_rho e_mesh e_grav]. rewrite E. reflexivity.
  - cbn [rt3_cell setup_cell]. unfold k_rayleigh_taylor3d. cbv zeta. cbn [i_P e_mesh e_grav]. rewrite E. reflexivity.
  - apply rt3_profile; [exact Hr|]. unfold rt3_base. cbv zeta. pose proof rt3_P0_pos as HP. unfold rt3_P0 in *.
    set (D := 2 * PI * (rho0 + rho1) * Rabs g * 10) in *.
    apply (Rmult_lt_reg_r D); [exact HP|]. field_simplify; [|lra]. lra.
Qed.
End RT3.
