(** * A parameter file for C91. *)
From Coq Require Import List Ascii Reals Lra Lia ZifyBool.
From Coq Require String.
From Flocq Require Import Core.
From Verif Require Import Base RBase ModelMesh ModelGeom ModelBoundary ModelHydro ModelRad ModelStep ModelUtil ModelIni ModelMain ModelSetup ModelParam
  SpecMesh SpecGeom SpecStep SpecPos SpecSetup SpecIni SpecParam ProofBase ProofR ProofMesh ProofIni ProofIniNum ProofParam ProofParam2 ProofParamEx ProofParamRun2.
Local Open Scope string_scope.
Local Open Scope Z_scope.
Local Open Scope list_scope.

(** A gas carried around a periodic box, on 2 x 2 processes. *)
Definition carried : list tagged :=
  [TInert "; a density step in a moving gas";
   THeader "Grid"; TSetting "Nx0_glob" "8"; TSetting "Nx1_glob" "6"; TSetting "Nx2_glob" "1";
   THeader "Run"; TSetting "cfl" "0.25";
   THeader "Output"; TSetting "iter_frequency" "1"; TSetting "time_frequency" "0.1";
   THeader "Hydro"; TSetting "reconstruction" "Constant"; TSetting "riemann_solver" "HLLC";
   THeader "Perfect Gas"; TSetting "gamma" "1.4";
   THeader "Boundary Condition"; TSetting "BC" "Periodic";
   THeader "Initialisation"; TSetting "rho1" "0.125"; TSetting "u0" "-1"].
Definition carried_T : list entry := entries_of [] carried.
Definition carried_f : bytes := unlines (map line_of carried).
Definition carried_p : param :=
  let zero := def 0 in let one := def 1 in
  mkParam "ShockTube" false "None" (def (10 ^ 20)) 8 6 1 "Regular" 2 zero one zero one zero one "Off" false 0 0 0
    zero (def (1 / 5)) (dbl 25 (-2)) 10000 1 (dbl 1 (-1)) (Finite (double_of (double_of 0 + double_of (IZR 1 * powerRZ 10 (-1)))))
    "." "result" 20 "Constant" "HLLC" zero zero zero one (dbl 14 (-1)) one "Periodic" "" 0 "Off" "Off" (def (1 / 1000000)).
Definition carried_b : build := mkBuild 2 Cartesian PerfectGasEos UniformGrav KAdvectionGap.
Definition carried_s : setup := SAdvectionGap (double_of 1) (double_of (IZR 125 * powerRZ 10 (-3))) (double_of (IZR (-1) * powerRZ 10 0)) (double_of 1).
Definition carried_g : gas := PGas (mkPG (double_of (IZR 14 * powerRZ 10 (-1))) (double_of 1)).
Definition carried_P : params := mkParams 0 (double_of (1 / 5)) 10000 1 (double_of (IZR 1 * powerRZ 10 (-1)))
  (double_of (double_of 0 + double_of (IZR 1 * powerRZ 10 (-1)))).
Definition unit_lo : nat -> R := fun _ => 0%R.
Definition unit_hi : nat -> R := fun _ => 1%R.

Lemma pow10_m2 : powerRZ 10 (-2) = (/ 100)%R. Proof. change (/ (10 * (10 * 1)) = / 100)%R. f_equal. lra. Qed.
Ltac ordinary2 := rewrite ?pow10_m2; ordinary_tac.
Lemma carried_described : described carried_T carried_p.
Proof.
  constructor; unfold carried_p; cbv zeta; cbn [pm_problem pm_restart pm_restart_file pm_rmax_shift pm_nx0 pm_nx1 pm_nx2 pm_grid_type pm_ng pm_x0min pm_x0max
    pm_x1min pm_x1max pm_x2min pm_x2max pm_shift_grid pm_device_aware pm_dims0 pm_dims1 pm_dims2 pm_t_ini pm_t_end pm_cfl pm_max_iter pm_iter_freq
    pm_time_freq pm_time_first pm_directory pm_prefix pm_time_job pm_reconstruction pm_riemann pm_gx0 pm_gx1 pm_gx2 pm_M pm_gamma pm_mu pm_bc pm_priority
    pm_nfx pm_user_step pm_pressure_fix pm_eps_pf]; unfold def, dbl.
  all: try solve [default_tac].
  all: try solve [word_tac].
  all: try solve [int_tac].
  - right; exists 25, (-2); split; [dot_tac "" "0" "25"|split; [ordinary2|reflexivity]].
  - real_tac 1 (-1) ltac:(dot_tac "" "0" "1").
  - eexists. split; [|left; split; [vm_compute; reflexivity|reflexivity]].
    exists (double_of 0), (double_of (IZR 1 * powerRZ 10 (-1))). split; [reflexivity|split; [reflexivity|split; [|reflexivity]]].
    rewrite double_0, Rplus_0_l. apply Rle_lt_trans with (bpow radix2 0); [|apply bpow_lt; lia]. apply double_upper; [lia|].
    apply double_upper; [lia|]. rewrite pow10_m1. change (bpow radix2 0) with 1%R. rewrite Rabs_pos_eq; lra.
  - real_tac 14 (-1) ltac:(dot_tac "" "1" "4").
Qed.
Lemma carried_file : file_with carried_T carried_f.
Proof. apply tagged_file; vm_compute; reflexivity. Qed.
Lemma carried_usable : usable carried_b carried_p (I3 2 2 1) unit_lo unit_hi.
Proof.
  unfold carried_p, carried_b, def, unit_lo, unit_hi. cbv zeta.
  split; cbn [b_nd b_grav pm_restart pm_grid_type pm_priority pm_ng pm_x0min pm_x0max pm_x1min pm_x1max pm_x2min pm_x2max pm_nx0 pm_nx1 pm_nx2];
    try reflexivity; try lia.
  - rewrite double_0. auto.
  - rewrite double_1. auto.
  - intros; lra.
  - intros n [<-|[<-|[<-|[]]]]; lia.
  - intros [|[|[|d]]] Hd; cbn [coord ii jj kk]; lia.
  - intros [|[|d]] Hd; cbn [coord ii jj kk nth]; lia.
  - discriminate.
Qed.
Lemma carried_one : usable carried_b carried_p (I3 1 1 1) unit_lo unit_hi.
Proof.
  unfold carried_p, carried_b, def, unit_lo, unit_hi. cbv zeta.
  split; cbn [b_nd b_grav pm_restart pm_grid_type pm_priority pm_ng pm_x0min pm_x0max pm_x1min pm_x1max pm_x2min pm_x2max pm_nx0 pm_nx1 pm_nx2];
    try reflexivity; try lia.
  - rewrite double_0. auto.
  - rewrite double_1. auto.
  - intros; lra.
  - intros n [<-|[<-|[<-|[]]]]; lia.
  - intros [|[|[|d]]] Hd; cbn [coord ii jj kk]; lia.
  - intros [|[|d]] Hd; cbn [coord ii jj kk nth]; lia.
Qed.
Lemma carried_chosen : chosen carried_b carried_T carried_p (fun _ => Periodic) carried_g LConstant HLLC UOff.
Proof.
  split.
  - exists (double_of (IZR 14 * powerRZ 10 (-1))), (double_of 1). split; [reflexivity|split; [reflexivity|split; [exact dbl_14|]]].
    split; [rewrite double_1; lra|reflexivity].
  - cbn [carried_b b_nd Nat.mul Nat.add seq firstn face_names].
    repeat (apply Forall2_cons; [exists "Periodic"; split; [vm_compute; reflexivity|right; now left]|]). apply Forall2_nil.
  - now left.
  - right. now left.
  - now left.
Qed.
Lemma carried_starts amp : starts_with carried_T KAdvectionGap amp carried_s.
Proof.
  cbn [starts_with carried_s]. split; [reflexivity|]. split; [default_tac|]. split; [real_tac 125 (-3) ltac:(dot_tac "" "0" "125")|].
  split; [real_tac (-1) 0 ltac:(who_tac "-" "1")|default_tac].
Qed.
Lemma quarter : double_of (IZR 25 * powerRZ 10 (-2)) = (1 / 4)%R.
Proof.
  rewrite pow10_m2. replace (IZR 25 * / 100)%R with (F2R (Float radix2 1 (-2))) by (unfold F2R; cbn; lra). rewrite double_F by lia. unfold F2R. cbn. lra.
Qed.
Lemma carried_timing : timing carried_p (1 / 4) carried_P.
Proof.
  unfold timing, carried_p, carried_P, def, dbl. cbv zeta. cbn [pm_cfl pm_t_ini pm_t_end pm_max_iter pm_iter_freq pm_time_freq pm_time_first
    p_t_ini p_t_end p_max_iter p_iter_freq p_time_freq p_time_first]. rewrite quarter, double_0. repeat split; reflexivity.
Qed.
Lemma carried_no_gravity : no_gravity carried_b carried_p.
Proof. unfold no_gravity, carried_p, def. cbv zeta. cbn [pm_gx0 pm_gx1 pm_gx2]. rewrite double_0. repeat split; reflexivity. Qed.
Lemma carried_executed amp : exists X K L L1,
  executes carried_b carried_f carried_p unit_lo unit_hi (fun _ => Periodic) carried_g LConstant HLLC UOff amp carried_s (1 / 4) carried_P X K (I3 2 2 1) L /\
  executes carried_b carried_f carried_p unit_lo unit_hi (fun _ => Periodic) carried_g LConstant HLLC UOff amp carried_s (1 / 4) carried_P X K (I3 1 1 1) L1.
Proof.
  destruct (file_executed carried_b carried_T carried_f carried_p unit_lo unit_hi (fun _ => Periodic) carried_g LConstant HLLC UOff amp carried_s (1 / 4) carried_P
    carried_file carried_described carried_chosen (carried_starts amp)) as (X & K & H).
  - unfold carried_p. cbv zeta. cbn [pm_shift_grid]. discriminate.
  - exact I.
  - exact carried_timing.
  - destruct (H _ carried_usable) as (L & HL). destruct (H _ carried_one) as (L1 & HL1). now exists X, K, L, L1.
Qed.
Lemma carried_conditions : positional carried_s /\ (forall a b c d e f g, carried_s <> SRayleighTaylor3d a b c d e f g) /\ positive_parameters carried_s /\
  b_eos carried_b = PerfectGasEos /\ b_geom carried_b = Cartesian /\ no_gravity carried_b carried_p /\ pm_pressure_fix carried_p <> "On" /\
  (2 * INR (b_nd carried_b) * (1 / 4) <= 1)%R /\ (p_t_ini carried_P < p_t_end carried_P)%R.
Proof.
  split; [exact I|]. split; [discriminate|].
  assert (D8 : (0 < double_of (IZR 125 * powerRZ 10 (-3)))%R).
  { rewrite pow10_m3. replace (IZR 125 * / 1000)%R with (F2R (Float radix2 1 (-3))) by (unfold F2R; cbn; lra). rewrite double_F by lia. unfold F2R. cbn. lra. }
  assert (D5 : (0 < double_of (1 / 5))%R).
  { apply Rlt_le_trans with (F2R (Float radix2 1 (-3))); [unfold F2R; cbn; lra|]. rewrite <- (double_F 1 (-3)) by lia. apply double_le. unfold F2R. cbn. lra. }
  split. { cbn [carried_s positive_parameters]. rewrite double_1. lra. }
  split; [reflexivity|split; [reflexivity|split; [exact carried_no_gravity|]]].
  split. { unfold carried_p. cbv zeta. cbn [pm_pressure_fix]. discriminate. }
  split; [cbn [carried_b b_nd]; simpl INR; lra|exact D5].
Qed.
