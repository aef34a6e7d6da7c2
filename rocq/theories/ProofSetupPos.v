(** * Densities, pressures and scalars at the start (C83). *)
From Verif Require Import Base RBase ModelMesh ModelGeom ModelBoundary ModelHydro ModelRad ModelScheme ModelStep ModelSetup
  SpecMesh SpecGeom SpecHydro SpecSetup ProofBase ProofR ProofHydro ProofSetup ProofSetupEq ProofSetupGresho.
Local Open Scope R_scope.

Lemma tanh_exp t : tanh t = 1 - 2 / (exp (2 * t) + 1).
Proof.
  unfold tanh, sinh, cosh. replace (2 * t) with (t + t) by ring. rewrite exp_plus, exp_Ropp. pose proof (exp_pos t). field.
  repeat split; nra.
Qed.
Lemma tanh_increasing a b : a < b -> tanh a < tanh b.
Proof.
  intros H. rewrite !tanh_exp. pose proof (exp_pos (2 * a)). pose proof (exp_increasing (2 * a) (2 * b) ltac:(lra)).
  assert (2 / (exp (2 * b) + 1) < 2 / (exp (2 * a) + 1)); [|lra].
  unfold Rdiv. apply Rmult_lt_compat_l; [lra|]. apply Rinv_lt_contravar; [nra|lra].
Qed.

Lemma pg_sound_thermo g : valid_gas g -> sound_thermo (pg_thermo g).
Proof.
  intros [H1 H2]. pose proof kb_pos. pose proof mp_pos.
  assert (P1 : forall rho T, 0 < rho -> 0 < T -> 0 < pg_pres_from_temp g rho T).
  { intros rho T Hr HT. unfold pg_pres_from_temp. apply Rdiv_lt_0_compat; repeat apply Rmult_lt_0_compat; lra. }
  assert (P2 : forall rho ev, 0 < rho -> 0 < ev -> 0 < pg_temp_from_evol g rho ev).
  { intros rho T Hr HT. unfold pg_temp_from_evol. apply Rdiv_lt_0_compat; repeat apply Rmult_lt_0_compat; lra. }
  split; [split; assumption|]. split; [exact P1|]. split; [exact P2|].
  intros rho ev Hr He. cbn [pg_thermo th_pres_e]. unfold pg_pres_from_evol. apply P1; [exact Hr|]. now apply P2.
Qed.

(** ln x > 1 - 1/x for x > 0, x <> 1; with equality allowed at 1. *)
Lemma ln_lower x : 0 < x -> 1 - / x <= ln x.
Proof.
  intros Hx. destruct (Req_dec x 1) as [->|Hn]; [rewrite ln_1; lra|].
  assert (Hl : - ln x <> 0).
  { intros E. apply Hn. apply ln_inv; [exact Hx|lra|]. rewrite ln_1. lra. }
  pose proof (exp_ineq1 (- ln x) Hl) as E. rewrite exp_Ropp, exp_ln in E by exact Hx. lra.
Qed.
Lemma ln2_half : / 2 < ln 2.
Proof.
  assert (Hl : - ln 2 <> 0) by (pose proof ln_lt_2; lra). pose proof ln_lt_2. lra.
Qed.
Lemma vortex_P_pos P0 r : 0 < P0 -> 0 <= r -> 0 < vortex_P P0 r.
Proof.
  intros HP Hr. unfold vortex_P. destruct (Rlt_dec r (2 / 10)) as [H1|H1]; [nra|]. destruct (Rlt_dec r (4 / 10)) as [H2|H2].
  - pose proof (ln_lower (5 * r) ltac:(lra)) as L.
    assert (K : 0 <= 125 / 10 * r * r + 4 - 20 * r + 4 * (1 - / (5 * r))).
    { apply (Rmult_le_reg_r (5 * r)); [lra|]. rewrite Rmult_0_l.
      replace ((125 / 10 * r * r + 4 - 20 * r + 4 * (1 - / (5 * r))) * (5 * r)) with ((2 - 5 * r) * (3 * (5 * r) - 2 - 1 / 2 * (5 * r) * (5 * r))) by (field; lra).
      apply Rmult_le_pos; [lra|]. nra. }
    lra.
  - pose proof ln2_half. lra.
Qed.

Lemma rt3_base_pos rho0 rho1 r g z : 0 < rho0 -> 0 < rho1 -> (r = rho0 \/ r = rho1) -> g <> 0 -> z < 50 * PI -> 0 < rt3_base rho0 rho1 r g z.
Proof.
  intros H0 H1 Hr Hg Hz. unfold rt3_base, rt3_P0. cbv zeta. pose proof PI_RGT_0. pose proof (Rabs_pos_lt g Hg) as Ha.
  set (a := Rabs g) in *. assert (Hd : 0 < 2 * PI * (rho0 + rho1) * a * 10).
  { apply Rmult_lt_0_compat; [|lra]. apply Rmult_lt_0_compat; [|lra]. apply Rmult_lt_0_compat; lra. }
  apply (Rmult_lt_reg_r (2 * PI * (rho0 + rho1) * a * 10)); [exact Hd|]. rewrite Rmult_0_l.
  replace ((1 - (5 / 3 - 1) / (5 / 3) * (r * a * z) / (2 * PI * (rho0 + rho1) * a * 10)) * (2 * PI * (rho0 + rho1) * a * 10))
    with (2 / 5 * a * (50 * PI * (rho0 + rho1) - r * z)) by (field; repeat split; lra).
  apply Rmult_lt_0_compat; [lra|]. assert (r * z < 50 * PI * (rho0 + rho1)); [|lra].
  apply Rlt_le_trans with (r * (50 * PI)); [apply Rmult_lt_compat_l; destruct Hr; lra|].
  destruct Hr as [->| ->]; nra.
Qed.

Section Start.
Variables (e : senv) (c : idx) (o : icell).
Hypothesis Hth : sound_thermo (e_th e).

Lemma setup_positive s : positive_parameters s ->
  height_ok s (e_grav e c 1%nat) (e_grav e c 2%nat) (e_mesh e) c -> 0 < e_dv e c -> (positional s \/ 0 < e_dv e (I3 2 0 0)) ->
  0 < i_rho (setup_cell s e c o) /\ 0 < i_P (setup_cell s e c o).
Proof.
  intros Hp Hh Hv Hv0. destruct Hth as ([Hg Hm] & T1 & T2 & T3).
  destruct s; cbn [positive_parameters] in Hp; cbn [setup_cell].
  - destruct Hp as (A & B & C). unfold k_advection_gap. cbv zeta. cbn [i_rho i_P]. split; [destruct (_ || _)%bool; assumption|exact C].
  - unfold k_advection_sinus. cbv zeta. cbn [i_rho i_P]. split; [|exact Hp]. pose proof (SIN_bound (2 * PI * mxc (e_mesh e) 0 (ii c))). lra.
  - destruct Hp as [A B]. unfold k_eq_hydro. cbv zeta. cbn [i_rho i_P].
    assert (0 < eq_hydro_rho (e_th e) rho0 T0 M (mxc (e_mesh e) 0 (ii c))) by (unfold eq_hydro_rho; apply Rmult_lt_0_compat; [exact A|apply exp_pos]).
    split; [assumption|]. now apply T1.
  - destruct Hp as [A B]. unfold k_gresho. cbv zeta. set (r := sqrt _). set (P0 := 1 / _).
    assert (HP : 0 < P0) by (unfold P0; apply Rdiv_lt_0_compat; [lra|]; apply Rmult_lt_0_compat; [apply Rmult_lt_0_compat|]; lra).
    pose proof (vortex_P_pos P0 r HP (sqrt_pos _)) as V. unfold vortex_P in V. unfold rltb.
    destruct (Rlt_dec r (2 / 10)); [|destruct (Rlt_dec r (4 / 10))]; cbn [i_rho i_P]; split; assumption.
  - destruct Hp as [A B]. unfold k_heat_nickel. cbn [i_rho i_P]. split; [exact A|]. now apply T1.
  - destruct Hp as (A & B & C & D). unfold k_implosion. cbv zeta. cbn [i_rho i_P]. split; destruct (rltb _ _); assumption.
  - unfold k_kelvin_helmholtz. cbv zeta. cbn [i_rho i_P]. split; [|exact Hp].
    set (y := mxc (e_mesh e) 1 (jj c)). pose proof (tanh_increasing ((y - 15 / 10) / (5 / 100)) ((y - 5 / 10) / (5 / 100)) ltac:(lra)). lra.
  - destruct Hp as [A B]. unfold k_rayleigh_taylor. cbv zeta. cbn [i_rho i_P]. match goal with |- context[tanh ?a] => set (t := a) end.
    pose proof (tanh_lt1 t). pose proof (tanh_gt t). split.
    { pose proof (Rmult_lt_0_compat rho1 (1 - tanh t) B ltac:(lra)). pose proof (Rmult_lt_0_compat rho0 (1 + tanh t) A ltac:(lra)). lra. }
    cbn [height_ok] in Hh. unfold centre in Hh. cbn [coord] in Hh.
    unfold mxc. lra.
  - destruct Hp as [A B]. destruct Hh as [G Z]. unfold k_rayleigh_taylor3d. cbv zeta. cbn [i_rho i_P].
    set (b := rleb _ _). set (r := if b then rho0 else rho1). assert (Hr : 0 < r) by (unfold r; destruct b; assumption).
    pose proof PI_RGT_0. unfold rt3_rho, rt3_P. unfold Rpower at 1. split; [apply Rmult_lt_0_compat; [exact Hr|apply exp_pos]|].
    apply Rmult_lt_0_compat; [|apply exp_pos]. unfold rt3_P0. pose proof (Rabs_pos_lt _ G).
    apply Rmult_lt_0_compat; [|lra]. apply Rmult_lt_0_compat; [|lra]. apply Rmult_lt_0_compat; lra.
  - destruct Hp as (A & B & C). unfold k_sedov1d. cbv zeta. cbn [i_rho i_P]. split; [exact A|]. apply T1; [exact A|]. destruct Hv0 as [[]|Hv0].
    destruct (_ && _)%bool; apply T2; try exact A; apply Rdiv_lt_0_compat; try assumption.
    apply Rmult_lt_0_compat; [|exact C]. destruct (e_geom e); lra.
  - destruct Hp as (A & B & C). unfold k_sedov2d. cbv zeta. cbn [i_rho i_P]. split; [exact A|]. apply T3; [exact A|].
    apply Rdiv_lt_0_compat; [destruct (rltb _ _); assumption|exact Hv].
  - destruct Hp as (A & B & C). unfold k_sedov3d. cbv zeta. cbn [i_rho i_P]. split; [exact A|].
    destruct (_ && _)%bool; [|exact B]. apply T3; [exact A|]. now apply Rdiv_lt_0_compat.
  - destruct Hp as (A & B & C & D). unfold k_shock_tube. cbv zeta. cbn [i_rho i_P]. split; destruct (rleb _ _); assumption.
  - destruct Hp as [A B]. unfold k_shock_wall. cbn [i_rho i_P]. split; assumption.
  - destruct Hp as [A B]. unfold k_stratified. cbv zeta. cbn [i_rho i_P].
    assert (0 < stratified_rho (e_th e) rho0 T0 (e_grav e c 0%nat) (mxc (e_mesh e) 0 (ii c))) by (unfold stratified_rho; apply Rmult_lt_0_compat; [exact A|apply exp_pos]).
    split; [assumption|]. now apply T1.
Qed.

(** The arguments of the power function stay positive. *)
Lemma rt3_defined rho0 rho1 u0 ak bk ck dk : positive_parameters (SRayleighTaylor3d rho0 rho1 u0 ak bk ck dk) ->
  height_ok (SRayleighTaylor3d rho0 rho1 u0 ak bk ck dk) (e_grav e c 1%nat) (e_grav e c 2%nat) (e_mesh e) c ->
  forall r, r = rho0 \/ r = rho1 -> 0 < rt3_base rho0 rho1 r (e_grav e c 2%nat) (e_mesh e 2%nat (kk c)).
Proof. intros [A B] [G Z] r Hr. now apply rt3_base_pos. Qed.

(** Sharper bounds. *)
Lemma sinus_bounds u0 P0 : 9 / 10 <= i_rho (setup_cell (SAdvectionSinus u0 P0) e c o) <= 11 / 10.
Proof. cbn [setup_cell]. unfold k_advection_sinus. cbv zeta. cbn [i_rho]. pose proof (SIN_bound (2 * PI * mxc (e_mesh e) 0 (ii c))). lra. Qed.
Lemma shear_bounds P0 : let v := setup_cell (SKelvinHelmholtz P0) e c o in
  1 < i_rho v < 3 /\ i_u v 0%nat = i_rho v - 1 /\ Rabs (i_u v 1%nat) <= 2 / 100.
Proof.
  cbn [setup_cell]. unfold k_kelvin_helmholtz. cbv zeta. cbn [i_rho i_u two_u].
  set (y := mxc (e_mesh e) 1 (jj c)). pose proof (tanh_increasing ((y - 15 / 10) / (5 / 100)) ((y - 5 / 10) / (5 / 100)) ltac:(lra)).
  pose proof (tanh_lt1 ((y - 5 / 10) / (5 / 100))). pose proof (tanh_gt ((y - 15 / 10) / (5 / 100))).
  split; [lra|]. split; [lra|].
  assert (He : forall t, t <= 0 -> 0 < exp t <= 1).
  { intros t Ht. split; [apply exp_pos|]. rewrite <- exp_0. destruct Ht as [Ht| ->]; [left; now apply exp_increasing|lra]. }
  assert (Hq : forall t, - t * t / (2 / 10 * (2 / 10)) <= 0).
  { intros t. replace (- t * t / (2 / 10 * (2 / 10))) with (- (25 * (t * t))) by field. nra. }
  pose proof (He _ (Hq (y - 5 / 10))). pose proof (He _ (Hq (y - 15 / 10))).
  set (e1 := exp _) in *. set (e2 := exp _) in *. pose proof (SIN_bound (PI * mxc (e_mesh e) 0 (ii c))) as Hs. set (t := sin _) in *.
  apply Rabs_le. split; nra.
Qed.
Lemma rt2_bounds rho0 rho1 u fx0 fx1 : let v := setup_cell (SRayleighTaylor rho0 rho1 u fx0 fx1) e c o in
  Rmin rho0 rho1 <= i_rho v <= Rmax rho0 rho1.
Proof.
  cbn [setup_cell]. unfold k_rayleigh_taylor. cbv zeta. cbn [i_rho]. match goal with |- context[tanh ?a] => set (t := a) end.
  pose proof (tanh_lt1 t). pose proof (tanh_gt t). unfold Rmin, Rmax. destruct (Rle_dec rho0 rho1);
    [pose proof (Rmult_le_pos (rho1 - rho0) (1 - tanh t) ltac:(lra) ltac:(lra)); pose proof (Rmult_le_pos (rho1 - rho0) (1 + tanh t) ltac:(lra) ltac:(lra))
    |pose proof (Rmult_le_pos (rho0 - rho1) (1 - tanh t) ltac:(lra) ltac:(lra)); pose proof (Rmult_le_pos (rho0 - rho1) (1 + tanh t) ltac:(lra) ltac:(lra))]; lra.
Qed.
Lemma rt2_scalar rho0 rho1 u fx0 : let v := setup_cell (SRayleighTaylor rho0 rho1 u fx0 0) e c o in
  Rmin fx0 0 <= i_fx v 0%nat <= Rmax fx0 0.
Proof.
  cbn [setup_cell]. unfold k_rayleigh_taylor. cbv zeta. cbn [i_fx one_fx]. match goal with |- context[tanh ?a] => set (t := a) end.
  pose proof (tanh_lt1 t). pose proof (tanh_gt t). unfold Rmin, Rmax. destruct (Rle_dec fx0 0);
    [pose proof (Rmult_le_pos (- fx0) (1 - tanh t) ltac:(lra) ltac:(lra)); pose proof (Rmult_le_pos (- fx0) (1 + tanh t) ltac:(lra) ltac:(lra))
    |pose proof (Rmult_le_pos fx0 (1 - tanh t) ltac:(lra) ltac:(lra)); pose proof (Rmult_le_pos fx0 (1 + tanh t) ltac:(lra) ltac:(lra))]; lra.
Qed.
Lemma rt2_scalar_lost rho0 rho1 u f : i_fx (setup_cell (SRayleighTaylor rho0 rho1 u f f) e c o) 0%nat = 0.
Proof. cbn [setup_cell]. unfold k_rayleigh_taylor. cbv zeta. cbn [i_fx one_fx]. unfold Rdiv. ring. Qed.
End Start.

(** High above the interface the pressure of rayleigh_taylor is negative. *)
Lemma rt2_pressure_negative e c o rho0 rho1 u fx0 fx1 : 10 / 7 + 1 / 4 < rho0 * Rabs (e_grav e c 1%nat) * centre 1 (e_mesh e) c ->
  i_P (setup_cell (SRayleighTaylor rho0 rho1 u fx0 fx1) e c o) < 0.
Proof. intros H. cbn [setup_cell]. unfold k_rayleigh_taylor. cbv zeta. cbn [i_P]. unfold centre in H. cbn [coord] in H. unfold mxc. lra. Qed.
