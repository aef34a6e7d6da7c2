(** * The options of a run: C89, C90. *)
From Coq Require Import Ascii Reals.
From Coq Require String.
From Flocq Require Import Core.
From Verif Require Import Base RBase ModelMesh ModelGeom ModelBoundary ModelHydro ModelRad ModelStep ModelUtil ModelIni ModelMain ModelSetup ModelParam
  SpecMesh SpecIni SpecParam ProofSteady ProofLayout ProofStepEx ProofMainEx ProofParam ProofParam2 ProofParamEx ProofParamBack.
Local Open Scope string_scope.
Local Open Scope Z_scope.
Local Open Scope list_scope.

(** ** C89 *)

(** However the file is laid out: every process starts the run that the entries of the file describe, with the defaults for
    what is not mentioned. *)
Theorem C89_the_run_is_the_one_described : forall b T f dims rank p ps ga mu g bcs ws gt order lim sol us,
  (1 <= b_nd b <= 3)%nat -> file_with T f ->
  described T p -> described_setup T (b_setup b) ps ->
  extents_ok (b_nd b) p -> process_of (b_nd b) dims rank ->
  (b_grav b = InternalMassGrav -> coord 0 dims = 1) ->
  pm_gamma p = Finite ga -> pm_mu p = Finite mu -> (1 < ga)%R -> (0 < mu)%R -> gas_is (b_eos b) ga mu g ->
  Forall2 (fun e w => lit w = face_value T e) (firstn (2 * b_nd b) face_names) ws -> Forall2 (named bc_table) ws bcs ->
  (if pm_restart p then gt = None else exists c, gt = Some c /\ named grid_table (pm_grid_type p) c) ->
  generate_order (b_nd b) (pm_priority p) = Ok order ->
  named limiter_table (pm_reconstruction p) lim -> named solver_table (pm_riemann p) sol -> named user_table (pm_user_step p) us ->
  exists dec, mpi_decomposition (b_nd b) (I3 (pm_nx0 p) (pm_nx1 p) (pm_nx2 p)) dims (pm_ng p) rank = Ok dec /\
    startup b dims rank (Some f) =
    Ok (mkRun p ps dec g gt bcs order lim sol us (String.eqb (pm_shift_grid p) "UserDefined") (String.eqb (pm_pressure_fix p) "On")).
Proof. exact the_run_described. Qed.
Print Assumptions C89_the_run_is_the_one_described.

(** inputs/shock_tube1d_sph.ini, as shipped, meets the hypotheses. *)
Example C89_shipped_file :
  file_with shipped_T shipped_f /\ described shipped_T shipped_p /\ described_setup shipped_T KShockTube shipped_ps /\
  (let p := shipped_p in exists ga mu g bcs ws gt order,
    extents_ok 1 p /\ process_of 1 (I3 1 1 1) (I3 0 0 0) /\
    pm_gamma p = Finite ga /\ pm_mu p = Finite mu /\ (1 < ga)%R /\ (0 < mu)%R /\ gas_is PerfectGasEos ga mu g /\
    Forall2 (fun e w => lit w = face_value shipped_T e) (firstn (2 * 1) face_names) ws /\ Forall2 (named bc_table) ws bcs /\
    (if pm_restart p then gt = None else exists c, gt = Some c /\ named grid_table (pm_grid_type p) c) /\
    generate_order 1 (pm_priority p) = Ok order /\
    named limiter_table (pm_reconstruction p) LMinmod /\ named solver_table (pm_riemann p) HLLC /\
    named user_table (pm_user_step p) (Builtin UOff)) /\
  exists r, startup sph1d (I3 1 1 1) (I3 0 0 0) (Some shipped_f) = Ok r /\ r_param r = shipped_p /\ r_setup r = shipped_ps.
Proof.
  split; [exact shipped_file|split; [exact shipped_described|split; [exact shipped_setup|split; [exact shipped_conditions|exact shipped_run]]]].
Qed.

(** Two files with the same values for the options in the table, whatever else they contain, start the same run or fail in
    the same way. *)
Theorem C89_other_options_are_ignored : forall b T1 T2 f1 f2 dims rank, (b_nd b <= 3)%nat -> file_with T1 f1 -> file_with T2 f2 ->
  (forall s n, In (s, n) (known_options b) -> given T1 s n = given T2 s n) ->
  startup b dims rank (Some f1) = startup b dims rank (Some f2).
Proof. exact other_options_ignored. Qed.
Print Assumptions C89_other_options_are_ignored.

(** The shipped file contains "[Run] timeout = 0.2", which is not an option.  Whatever is written there, the run is accepted
    without a message and ends at the default t_end. *)
Theorem C89_unknown_options_refuted :
  In (lit "Run", lit "timeout", lit "0.2") shipped_T /\ file_with shipped_T shipped_f /\
  (forall s n, In (s, n) (known_options sph1d) -> alike (lit "Run") (lit s) && alike (lit "timeout") (lit n) = false) /\
  forall w, goodb (TSetting "timeout" w) = true ->
    exists r, startup sph1d (I3 1 1 1) (I3 0 0 0) (Some (unlines (map line_of (shipped_with w)))) = Ok r /\
      pm_t_end (r_param r) = Finite (double_of (1 / 5)).
Proof. exact unknown_option. Qed.
Print Assumptions C89_unknown_options_refuted.
Example C89_any_timeout : goodb (TSetting "timeout" "2000") = true /\ goodb (TSetting "timeout" "forever") = true.
Proof. split; reflexivity. Qed.

(** ** C90 *)

(** What holds once a run has started. *)
Theorem C90_accepted_files : forall b dims rank f r, process_of (b_nd b) dims rank -> startup b dims rank f = Ok r ->
  let p := r_param r in
  (exists ga mu, pm_gamma p = Finite ga /\ pm_mu p = Finite mu /\ (1 < ga)%R /\ (0 < mu)%R /\ gas_is (b_eos b) ga mu (r_gas r)) /\
  0 <= pm_nx0 p /\ 0 <= pm_nx1 p /\ 0 <= pm_nx2 p /\
  (exists ws, List.length ws = (2 * b_nd b)%nat /\ Forall2 (named bc_table) ws (r_bcs r)) /\
  (if pm_restart p then r_grid r = None else exists c, r_grid r = Some c /\ named grid_table (pm_grid_type p) c) /\
  generate_order (b_nd b) (pm_priority p) = Ok (r_order r) /\
  named limiter_table (pm_reconstruction p) (r_lim r) /\ named solver_table (pm_riemann p) (r_sol r) /\
  named user_table (pm_user_step p) (r_user r).
Proof. exact accepted_file. Qed.
Print Assumptions C90_accepted_files.
Example C90_shipped_file : process_of 1 (I3 1 1 1) (I3 0 0 0) /\ exists r, startup sph1d (I3 1 1 1) (I3 0 0 0) (Some shipped_f) = Ok r.
Proof. split; [apply one_of_one|]. destruct shipped_run as (r & E & _). now exists r. Qed.

(** No cells, no ghost cells, an interval with its ends exchanged, an end before the beginning, a negative CFL number and
    a negative number of iterations: accepted. *)
Theorem C90_meaningless_values_refuted : exists r,
  startup cart1d (I3 1 1 1) (I3 0 0 0) (Some (unlines (map line_of nonsense))) = Ok r /\
  let p := r_param r in
  pm_nx0 p = 0 /\ pm_ng p = 0 /\ pm_x0min p = Finite 0 /\ pm_x0max p = Finite (-1) /\ pm_t_ini p = Finite 0 /\ pm_t_end p = Finite (-1) /\
  pm_cfl p = Finite (-1) /\ pm_max_iter p = -7.
Proof. exact nonsense_accepted. Qed.
Print Assumptions C90_meaningless_values_refuted.

(** With too many cells, the number of cells with ghosts overflows before any check. *)
Theorem C90_overflow_refuted : forall b T f dims rank p ps, (1 <= b_nd b <= 3)%nat -> file_with T f ->
  described T p -> described_setup T (b_setup b) ps -> process_of (b_nd b) dims rank ->
  0 <= pm_ng p -> 0 <= pm_nx0 p -> 0 <= pm_nx1 p -> 0 <= pm_nx2 p -> 2 ^ 31 <= pm_nx0 p + 2 * pm_ng p + 1 ->
  startup b dims rank (Some f) = UB "signed overflow".
Proof. exact overflow. Qed.
Print Assumptions C90_overflow_refuted.
Example C90_too_many_cells : file_with huge_T (unlines (map line_of huge)) /\ described huge_T huge_p /\
  startup cart1d (I3 1 1 1) (I3 0 0 0) (Some (unlines (map line_of huge))) = UB "signed overflow".
Proof. split; [apply tagged_file; vm_compute; reflexivity|split; [exact huge_described|exact huge_overflow]]. Qed.

(** With a negative CFL number, the loop runs and the time never passes its initial value. *)
Theorem C90_backwards_refuted : forall K L cfl p clock s, (cfl < 0)%R -> (p_t_ini p < p_t_end p)%R ->
  ((0 < p_time_freq p)%R -> (p_t_ini p < p_time_first p)%R) ->
  (forall k x, loop (hydro K L cfl) p clock k (fresh p s) = (x, Going) -> exists h, time_step K L (m_st x) = Some h /\ (0 < h)%R) ->
  forall n m' v, loop (hydro K L cfl) p clock n (fresh p s) = (m', v) -> (m_t m' <= p_t_ini p)%R.
Proof. exact negative_cfl. Qed.
Print Assumptions C90_backwards_refuted.
Example C90_gas : let K := ex_K ex_bcs Cartesian in let L := ex_L ex_bcs Cartesian in
  let S0 := init_state K L (the_state K L (ex_G ex_u)) in
  forall p clock, (p_t_ini p < p_t_end p)%R -> ((0 < p_time_freq p)%R -> (p_t_ini p < p_time_first p)%R) ->
  (forall k x, loop (hydro K L (-1 / 2)) p clock k (fresh p S0) = (x, Going) -> exists h, time_step K L (m_st x) = Some h /\ (0 < h)%R) /\
  forall n m' v, loop (hydro K L (-1 / 2)) p clock n (fresh p S0) = (m', v) -> (m_t m' <= p_t_ini p)%R.
Proof. exact gas_backwards. Qed.
