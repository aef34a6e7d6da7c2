(** * Change of units: gases, grids and initial fields. *)
From Coq Require Import FunctionalExtensionality Lra Lia.
From Verif Require Import Base RBase ModelMesh ModelGeom ModelBoundary ModelHydro ModelScheme ModelStep ModelMain ModelRad ProofR
  SpecMesh SpecGeom SpecBoundary SpecStep SpecUnits ProofUnits ProofUnits2 ProofUnits3.
Local Open Scope R_scope.

(** Perfect gases: the molecular weight plays no part in the dynamics ... *)
Lemma perfect_gas_units U gas k : 0 < u_D U -> 0 < u_V U -> k <> 0 ->
  same_gas U (pg_eos gas) (pg_eos (mkPG (pg_gamma gas) (k * pg_mmw gas))).
Proof.
  intros HD HV Hk rho x. cbn [eos_evol eos_pres eos_sound pg_eos].
  unfold pg_evol_from_pres, pg_pres_from_evol, pg_evol_from_temp, pg_pres_from_temp, pg_temp_from_pres, pg_temp_from_evol, pg_sound. cbn [pg_gamma pg_mmw].
  assert (Q : forall y, y / (u_D U * rho * kb) = / u_D U * (y / (rho * kb))) by (intros; unfold Rdiv; rewrite !Rinv_mult; ring).
  assert (C : forall a b c, u_D U * a * b * (/ u_D U * c) = a * b * c) by (intros; field; lra).
  repeat split.
  - rewrite Q, C. unfold Rdiv. rewrite !Rinv_mult. set (a := / rho). set (b := / kb). set (c := / pg_mmw gas). set (d := / mp). set (h := / (pg_gamma gas - 1)). field. exact Hk.
  - rewrite Q, C. unfold Rdiv. rewrite !Rinv_mult. set (a := / rho). set (b := / kb). set (c := / pg_mmw gas). set (d := / mp). field. exact Hk.
  - replace (pg_gamma gas * (u_E U * x) / (u_D U * rho)) with (u_V U * u_V U * (pg_gamma gas * x / rho)).
    + rewrite sqrt_mult_alt by nra. rewrite sqrt_square; [reflexivity|lra].
    + replace (pg_gamma gas * (u_E U * x)) with (u_E U * (pg_gamma gas * x)) by ring. rewrite sdiv by lra.
      f_equal. unfold u_E. field. lra.
Qed.
(** ... and gives the same temperatures when it absorbs the unit of the squared velocity. *)
Lemma temperature_units U gas rho P : 0 < u_D U -> 0 < u_V U ->
  pg_temp_from_pres (mkPG (pg_gamma gas) (/ (u_V U * u_V U) * pg_mmw gas)) (u_D U * rho) (u_E U * P) = pg_temp_from_pres gas rho P.
Proof.
  intros HD HV. unfold pg_temp_from_pres. cbn [pg_mmw]. unfold u_E, Rdiv. rewrite (Rinv_mult (u_D U * rho)), (Rinv_mult (u_D U)), (Rinv_mult rho).
  set (a := / rho). set (b := / kb). field. lra.
Qed.

(** Gas and radiation: temperatures stay what they are, the gas particles get lighter. *)
Lemma rad_gas_units U gas : 0 < u_D U -> 0 < u_V U -> u_E U = 1 ->
  same_gas U (rg_eos gas) (rg_eos (mkRG (rg_gamma gas) (u_D U * rg_mmw gas))).
Proof.
  intros HD HV HE rho x. rewrite HE, !Rmult_1_l. cbn [eos_evol eos_pres eos_sound rg_eos].
  set (gas' := mkRG _ _).
  assert (C1 : u_D U * rho * kb / (rg_mmw gas' * mp) = rho * kb / (rg_mmw gas * mp)).
  { cbn [gas' rg_mmw]. unfold Rdiv. rewrite !Rinv_mult. set (a := / rg_mmw gas). set (b := / mp). field. lra. }
  assert (C2 : u_D U * rho * kb / (rg_mmw gas' * mp * (rg_gamma gas' - 1)) = rho * kb / (rg_mmw gas * mp * (rg_gamma gas - 1))).
  { cbn [gas' rg_mmw rg_gamma]. unfold Rdiv. rewrite !Rinv_mult. set (a := / rg_mmw gas). set (b := / mp). set (c := / (rg_gamma gas - 1)). field. lra. }
  assert (T1 : rg_temp_from_pres gas' (u_D U * rho) x = rg_temp_from_pres gas rho x)
    by (unfold rg_temp_from_pres, solve_pres; rewrite C1; generalize max_itr; intros; reflexivity).
  assert (T2 : rg_temp_from_evol gas' (u_D U * rho) x = rg_temp_from_evol gas rho x)
    by (unfold rg_temp_from_evol, solve_evol; rewrite C2; generalize max_itr; intros; reflexivity).
  revert T1 T2. unfold rg_evol_from_pres, rg_pres_from_evol, rg_sound. generalize (rg_temp_from_pres gas' (u_D U * rho) x) (rg_temp_from_evol gas' (u_D U * rho) x)
    (rg_temp_from_pres gas rho x) (rg_temp_from_evol gas rho x). intros t1 t2 t3 t4 -> ->.
  assert (C1' : forall T, u_D U * rho * kb * T / (rg_mmw gas' * mp) = rho * kb * T / (rg_mmw gas * mp)).
  { intros. transitivity (u_D U * rho * kb / (rg_mmw gas' * mp) * T); [unfold Rdiv; ring|]. rewrite C1. unfold Rdiv. ring. }
  assert (C2' : forall T, u_D U * rho * kb * T / (rg_mmw gas' * mp * (rg_gamma gas' - 1)) = rho * kb * T / (rg_mmw gas * mp * (rg_gamma gas - 1))).
  { intros. transitivity (u_D U * rho * kb / (rg_mmw gas' * mp * (rg_gamma gas' - 1)) * T); [unfold Rdiv; ring|]. rewrite C2. unfold Rdiv. ring. }
  repeat split.
  - unfold rg_evol_from_temp. now rewrite C2'.
  - unfold rg_pres_from_temp. now rewrite C1'.
  - cbv zeta. rewrite C1'. cbn [gas' rg_gamma].
    match goal with |- sqrt (?a / _) = _ => set (y := a) end.
    replace (y / (u_D U * rho)) with (u_V U * u_V U * (y / rho)).
    + rewrite sqrt_mult_alt by nra. rewrite sqrt_square; [reflexivity|lra].
    + unfold Rdiv. rewrite Rinv_mult. unfold u_E in HE. replace (/ u_D U) with (u_V U * u_V U); [ring|].
      apply Rmult_eq_reg_l with (u_D U); [|lra]. rewrite Rinv_r by lra. rewrite <- HE. ring.
Qed.

Section Grid.
Variables (U : units) (e' : eos) (K : config) (N dims : idx) (X : nat -> arr1) (L : layout).
Notation K' := (config_in U e' K). Notation L' := (layout_in U L). Notation X' := (coords_in U X).

Lemma set_grid_in dec m : set_grid dec X = Ok m -> set_grid dec X' = Ok (mesh_in U m).
Proof.
  unfold set_grid, set_grid_1d, subview1. cbv zeta. cbn [coords_in a_ext].
  repeat (destruct ((_ && _ && _)%bool); cbn [obind]; [|discriminate]). intros H. injection H as <-. f_equal.
  fext d. fext i. unfold mesh_in. destruct d as [|[|d]]; reflexivity.
Qed.
Lemma runs_on_in : runs_on K N dims X L -> runs_on K' N dims X' L'.
Proof.
  intros [[A B C E] F G H I]. split; auto.
  - split; auto. intros r Hr. apply set_grid_in. now apply E.
  - unfold gravity_ok in *. cbn [config_in k_grav k_nd]. destruct (k_grav K); exact I.
Qed.
Lemma starts_from_in G S : starts_from K dims L G S -> starts_from K' dims L' (fields_in U G) (states_in U S).
Proof.
  intros [A B C E]. split; intros r Hr c Hc; cbn [fields_in g_rho g_u g_P g_fx states_in state_in s_cell s_u s_P cell_in c_rho c_fx];
    cbn [layout_in l_dec config_in k_nd k_ng] in *.
  - now rewrite (A r Hr c Hc).
  - now rewrite (B r Hr c Hc).
  - fext d. now rewrite (C r Hr c Hc).
  - now rewrite (E r Hr c Hc).
Qed.
End Grid.

(** ** Whole runs *)
Lemma units_run U e' K N dims X L : compatible U e' K -> runs_on K N dims X L ->
  runs_on (config_in U e' K) N dims (coords_in U X) (layout_in U L) /\
  forall G S, starts_from K dims L G S ->
  starts_from (config_in U e' K) dims (layout_in U L) (fields_in U G) (states_in U S) /\
  forall cfl p clock n m v, loop (hydro K L cfl) p clock n (fresh p (init_state K L S)) = (m, v) ->
  loop (hydro (config_in U e' K) (layout_in U L) cfl) (params_in U p) clock n
    (fresh (params_in U p) (init_state (config_in U e' K) (layout_in U L) (states_in U S))) = (main_in U m, v).
Proof.
  intros HC HR. split; [now apply runs_on_in|]. intros G S HG. split; [now apply starts_from_in|]. intros cfl p clock n m v H.
  rewrite (init_state_in U e' K L HC), (fresh_in U e' K HC), (loop_in U e' K L HC), H. reflexivity.
Qed.
Lemma units_restart U e' K L : compatible U e' K -> forall f S cfl p clock n m v,
  loop (hydro K L cfl) p clock n (restarted f (init_state K L S)) = (m, v) ->
  loop (hydro (config_in U e' K) (layout_in U L) cfl) (params_in U p) clock n
    (restarted (file_in U f) (init_state (config_in U e' K) (layout_in U L) (states_in U S))) = (main_in U m, v).
Proof.
  intros HC f S cfl p clock n m v H. rewrite (init_state_in U e' K L HC).
  change (restarted (file_in U f) (states_in U (init_state K L S))) with (main_in U (restarted f (init_state K L S))).
  rewrite (loop_in U e' K L HC), H. reflexivity.
Qed.
