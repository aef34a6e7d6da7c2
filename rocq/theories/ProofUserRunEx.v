(** * inputs/stratified_atm.ini, as shipped, for C101. *)
From Coq Require Import List Ascii Reals Lra Lia ZifyBool.
From Coq Require String.
From Flocq Require Import Core.
From Verif Require Import Base RBase ModelMesh ModelGeom ModelBoundary ModelHydro ModelRad ModelStep ModelUtil ModelIni ModelMain ModelSetup ModelParam ModelUser ModelUserRun
  SpecMesh SpecGeom SpecHydro SpecStep SpecPos SpecSetup SpecIni SpecParam SpecUser SpecUserRun
  ProofBase ProofR ProofMesh ProofIni ProofIniNum ProofParam ProofParam2 ProofParamEx ProofParamEx2 ProofParamRun2 ProofUserRun2.
Local Open Scope string_scope.
Local Open Scope Z_scope.
Local Open Scope list_scope.

Definition strat : list tagged :=
  [TInert "; SPDX-FileCopyrightText: 2025 The HERACLES++ development team, see COPYRIGHT.md file"; TInert ";";
   TInert "; SPDX-License-Identifier: MIT"; TInert "";
   THeader "Grid"; TSetting "Nx0_glob" "10000"; TSetting "Nx1_glob" "1"; TSetting "Nx2_glob" "1"; TInert "";
   TSetting "x0max" "1e6"; TSetting "x0min" "0"; TInert "";
   THeader "Run"; TSetting "t_end" "400"; TSetting "cfl" "0.4"; TInert "";
   THeader "Output"; TSetting "max_iter" "10000000"; TSetting "time_frequency" "200"; TSetting "prefix" "strat_atm"; TInert "";
   THeader "Hydro"; TSetting "reconstruction" "VanLeer"; TSetting "riemann_solver" "HLLC"; TInert "";
   THeader "Gravity"; TSetting "gx0" "-10"; TInert "";
   THeader "Boundary Condition"; TSetting "BC_X0_left" "UserDefined"; TSetting "BC_X0_right" "UserDefined"; TInert "";
   THeader "Initialisation"; TSetting "rho0" "10"; TSetting "u0" "0"; TSetting "T0" "100"].
Definition strat_T : list entry := entries_of [] strat.
Definition strat_f : bytes := unlines (map line_of strat).
Definition strat_p : param :=
  let zero := def 0 in let one := def 1 in
  mkParam "ShockTube" false "None" (def (10 ^ 20)) 10000 1 1 "Regular" 2 (dbl 0 0) (dbl 1 6) zero one zero one "Off" false 0 0 0
    zero (dbl 400 0) (dbl 4 (-1)) 10000000 0 (dbl 200 0) (Finite (double_of (double_of 0 + double_of (IZR 200 * powerRZ 10 0))))
    "." "strat_atm" 20 "VanLeer" "HLLC" (dbl (-10) 0) zero zero one (def (5 / 3)) one "" "" 0 "Off" "Off" (def (1 / 1000000)).
Definition strat_b : build := mkBuild 1 Cartesian PerfectGasEos UniformGrav KStratifiedAtm.
Definition strat_bc : nat -> choice bcond := fun _ => FromSetup.
Definition strat_gas : perfect_gas := mkPG (double_of (5 / 3)) (double_of 1).
Definition strat_s : setup := SStratifiedAtm (double_of (IZR 10 * powerRZ 10 0)) (double_of (IZR 0 * powerRZ 10 0)) (double_of (IZR 100 * powerRZ 10 0)).
Definition strat_cfl : R := double_of (IZR 4 * powerRZ 10 (-1)).
Definition strat_P : params := mkParams 0 (double_of (IZR 400 * powerRZ 10 0)) 10000000 0 (double_of (IZR 200 * powerRZ 10 0))
  (double_of (double_of 0 + double_of (IZR 200 * powerRZ 10 0))).
Definition strat_lo : nat -> R := fun _ => 0%R.
Definition strat_hi : nat -> R := fun d => match d with O => 1000000%R | _ => 1%R end.

Lemma pow10_6 : powerRZ 10 6 = 1000000%R. Proof. change (10 * (10 * (10 * (10 * (10 * (10 * 1))))) = 1000000)%R. lra. Qed.
Lemma exp_literal sg ip es : sg = "" \/ sg = "-" -> forallb digitb ip = true -> ip <> [] -> forallb digitb es = true -> es <> [] ->
  decimal_literal (lit sg ++ ip ++ "e"%char :: es) (if String.eqb sg "" then number ip else - number ip) (number es).
Proof.
  intros S I N E M. exists (lit sg), ip, [], [], ("e"%char :: es), (number es). split; [reflexivity|]. split; [now apply digits_ok|].
  split; [intros c []|]. split; [now rewrite app_nil_r|]. split; [right; now split|].
  split. { right. exists "e"%char, es. split; [reflexivity|]. split; [now left|]. now apply int_literal. }
  split; [|cbn [List.length]; lia]. rewrite app_nil_r. destruct S as [-> | ->]; [left; split; [now left|reflexivity]|right; split; reflexivity].
Qed.
Lemma strat_described : described strat_T strat_p.
Proof.
  constructor; unfold strat_p; cbv zeta; cbn [pm_problem pm_restart pm_restart_file pm_rmax_shift pm_nx0 pm_nx1 pm_nx2 pm_grid_type pm_ng pm_x0min pm_x0max
    pm_x1min pm_x1max pm_x2min pm_x2max pm_shift_grid pm_device_aware pm_dims0 pm_dims1 pm_dims2 pm_t_ini pm_t_end pm_cfl pm_max_iter pm_iter_freq
    pm_time_freq pm_time_first pm_directory pm_prefix pm_time_job pm_reconstruction pm_riemann pm_gx0 pm_gx1 pm_gx2 pm_M pm_gamma pm_mu pm_bc pm_priority
    pm_nfx pm_user_step pm_pressure_fix pm_eps_pf]; unfold def, dbl.
  all: try solve [default_tac].
  all: try solve [word_tac].
  all: try solve [int_tac].
  - real_tac 0 0 ltac:(who_tac "" "0").
  - right; exists 1, 6; split; [|split; [rewrite pow10_6; ordinary_tac|reflexivity]].
    apply (exp_literal "" (lit "1") (lit "6")); [now left|reflexivity|discriminate|reflexivity|discriminate].
  - real_tac 400 0 ltac:(who_tac "" "400").
  - real_tac 4 (-1) ltac:(dot_tac "" "0" "4").
  - real_tac 200 0 ltac:(who_tac "" "200").
  - eexists. split; [|left; split; [vm_compute; reflexivity|reflexivity]].
    exists (double_of 0), (double_of (IZR 200 * powerRZ 10 0)). split; [reflexivity|split; [reflexivity|split; [|reflexivity]]].
    rewrite double_0, Rplus_0_l. apply Rle_lt_trans with (bpow radix2 8); [|apply bpow_lt; lia]. apply double_upper; [lia|].
    apply double_upper; [lia|]. rewrite pow10_0. change (bpow radix2 8) with 256%R. rewrite Rabs_pos_eq; lra.
  - real_tac (-10) 0 ltac:(who_tac "-" "10").
Qed.
Lemma strat_file : file_with strat_T strat_f.
Proof. apply tagged_file; vm_compute; reflexivity. Qed.
Lemma whole_double k : Z.abs k < 2 ^ 53 -> double_of (IZR k * powerRZ 10 0) = IZR k.
Proof.
  intros H. rewrite pow10_0, Rmult_1_r. replace (IZR k) with (F2R (Float radix2 k 0)) by (unfold F2R; cbn; ring). now apply double_F.
Qed.
Lemma strat_usable n : 1 <= n <= 5000 -> usable strat_b strat_p (I3 n 1 1) strat_lo strat_hi.
Proof.
  intros Hn. unfold strat_p, strat_b, def, dbl, strat_lo, strat_hi. cbv zeta.
  split; cbn [b_nd b_grav pm_restart pm_grid_type pm_priority pm_ng pm_x0min pm_x0max pm_x1min pm_x1max pm_x2min pm_x2max pm_nx0 pm_nx1 pm_nx2];
    try reflexivity; try lia.
  - rewrite double_0, whole_double by lia. auto.
  - rewrite double_1, pow10_6, Rmult_1_l. split; [|split; reflexivity]. do 1 f_equal.
    replace 1000000%R with (F2R (Float radix2 1000000 0)) by (unfold F2R; cbn; ring). now apply double_F.
  - intros [|d] _; lra.
  - intros m [<-|[<-|[<-|[]]]]; lia.
  - intros [|[|[|d]]] Hd; cbn [coord ii jj kk]; lia.
  - intros [|d] Hd; cbn [coord ii jj kk nth]; lia.
  - discriminate.
Qed.
Lemma strat_chosen : own_chosen strat_b strat_T strat_p strat_bc (PGas strat_gas) LVanLeer HLLC UOff.
Proof.
  split.
  - exists (double_of (5 / 3)), (double_of 1). split; [reflexivity|split; [reflexivity|split; [exact dbl_53|]]].
    split; [rewrite double_1; lra|reflexivity].
  - cbn [strat_b b_nd Nat.mul Nat.add seq firstn face_names].
    repeat (apply Forall2_cons; [exists "UserDefined"; split; [vm_compute; reflexivity|cbn; tauto]|]). apply Forall2_nil.
  - cbn. tauto.
  - cbn. tauto.
  - now left.
Qed.
Lemma strat_starts amp : starts_with strat_T KStratifiedAtm amp strat_s.
Proof.
  cbn [starts_with strat_s]. split; [reflexivity|]. split; [real_tac 10 0 ltac:(who_tac "" "10")|]. split; [real_tac 0 0 ltac:(who_tac "" "0")|].
  split; [real_tac 100 0 ltac:(who_tac "" "100")|]. eexists. default_tac.
Qed.
Lemma strat_timing : timing strat_p strat_cfl strat_P.
Proof.
  unfold timing, strat_p, strat_P, strat_cfl, def, dbl. cbv zeta. cbn [pm_cfl pm_t_ini pm_t_end pm_max_iter pm_iter_freq pm_time_freq pm_time_first
    p_t_ini p_t_end p_max_iter p_iter_freq p_time_freq p_time_first]. rewrite !double_0. repeat split; reflexivity.
Qed.
Lemma strat_atmosphere : atmosphere strat_s 10 0 100.
Proof. left. unfold strat_s. now rewrite !whole_double by lia. Qed.
Lemma strat_executed amp : exists X K U L L1,
  own_executes strat_b strat_f strat_p strat_lo strat_hi strat_bc (PGas strat_gas) LVanLeer HLLC UOff amp strat_s strat_cfl strat_P X K U (I3 64 1 1) L /\
  own_executes strat_b strat_f strat_p strat_lo strat_hi strat_bc (PGas strat_gas) LVanLeer HLLC UOff amp strat_s strat_cfl strat_P X K U (I3 1 1 1) L1.
Proof.
  destruct (own_executed strat_b strat_T strat_f strat_p strat_lo strat_hi strat_bc (PGas strat_gas) LVanLeer HLLC UOff amp strat_s strat_cfl strat_P
    strat_file strat_described strat_chosen (strat_starts amp)) as (X & K & U & H).
  - unfold strat_p. cbv zeta. cbn [pm_shift_grid]. discriminate.
  - exact I.
  - exact strat_timing.
  - intros _. left. unfold strat_s. repeat eexists.
  - destruct (H _ (strat_usable 64 ltac:(lia))) as (L & HL). destruct (H _ (strat_usable 1 ltac:(lia))) as (L1 & HL1). now exists X, K, U, L, L1.
Qed.

(** The same file for an executable built with the shock tube, which has no conditions of its own. *)
Definition tube_b : build := mkBuild 1 Cartesian PerfectGasEos UniformGrav KShockTube.
Definition tube_s : setup := SShockTube (double_of (IZR 10 * powerRZ 10 0)) (double_of 1) (double_of (IZR 0 * powerRZ 10 0)) (double_of 1) (double_of 1) (double_of 1) (double_of 1).
Lemma tube_starts amp : starts_with strat_T KShockTube amp tube_s.
Proof.
  cbn [starts_with tube_s]. split; [reflexivity|]. split; [real_tac 10 0 ltac:(who_tac "" "10")|]. split; [default_tac|].
  split; [real_tac 0 0 ltac:(who_tac "" "0")|]. split; [default_tac|]. split; [default_tac|]. split; default_tac.
Qed.
Lemma tube_usable : usable tube_b strat_p (I3 4 1 1) strat_lo strat_hi.
Proof. destruct (strat_usable 4 ltac:(lia)). split; assumption. Qed.
Lemma tube_chosen : own_chosen tube_b strat_T strat_p strat_bc (PGas strat_gas) LVanLeer HLLC UOff.
Proof. destruct strat_chosen. split; assumption. Qed.
Lemma tube_refused amp clock n : own_program tube_b (I3 4 1 1) (Some strat_f) amp clock n = Throw "Boundary setup not implemented".
Proof.
  apply (own_refused tube_b strat_T strat_f strat_p strat_lo strat_hi strat_bc (PGas strat_gas) LVanLeer HLLC UOff amp tube_s strat_cfl strat_P
    strat_file strat_described tube_chosen (tube_starts amp)).
  - unfold strat_p. cbv zeta. cbn [pm_shift_grid]. discriminate.
  - exact I.
  - exact strat_timing.
  - exists 0%nat. split; [cbn; lia|reflexivity].
  - intros [(x & y & z & E)|(x & y & z & w & E)]; discriminate.
  - exact tube_usable.
Qed.
