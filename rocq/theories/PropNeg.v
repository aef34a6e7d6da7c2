(** * Positivity under the other Riemann solvers: C104. *)
From Verif Require Import Base RBase ModelMesh ModelGeom ModelBoundary ModelHydro ModelScheme ModelStep ModelMain
  SpecMesh SpecGeom SpecBoundary SpecHydro SpecScheme SpecStep SpecSetup SpecSource SpecMain SpecPos SpecNeg
  ProofLayout ProofMain ProofNeg ProofNeg2 ProofNeg3 ProofNeg4.
Local Open Scope R_scope.

(** ** C104 *)

(** Refuted for "HLLC" between 3/4 and 1, where "HLL" is positive (C36): three cells of positive density and pressure, of which the
    middle one has a negative internal energy after the first step, so that the program throws in its second iteration; with
    "HLL" the same run never does. *)
Theorem C104_hllc_refuted :
  forall cfl p clock, 3 / 4 <= cfl <= 1 ->
  p_time_freq p <= 0 -> (p_iter_freq p <= 0)%Z -> (2 <= p_max_iter p)%Z -> (forall i, clock i = false) -> p_t_ini p + cfl < p_t_end p ->
  exists K N dims X L G S m, three_cells HLLC K N dims X L /\ starts_from K dims L G S /\ (forall c, 0 < g_rho G c /\ 0 < g_P G c) /\
  loop (hydro K L cfl) p clock 2 (fresh p (init_state K L S)) = (m, Failed "detected invalid volumic internal energy") /\ m_iter m = 1%Z /\
  (exists r c, process 1 dims r /\ owned 1 (k_ng K) (d_nloc (l_dec L r)) c /\
     0 < c_rho (s_cell (m_st m r) c) /\ internal 1 (conserved_of (s_cell (m_st m r) c)) < 0) /\
  (forall n m v, loop (hydro (with_solver HLL K) L (Rmin cfl 1)) p clock n (fresh p (init_state (with_solver HLL K) L S)) = (m, v) ->
     physical (with_solver HLL K) dims L (m_st m) /\ v <> Failed "detected invalid volumic internal energy").
Proof. exact (fun cfl p clock H => hllc_refuted cfl H p clock). Qed.
Print Assumptions C104_hllc_refuted.

(** Refuted for "Low Mach" at every Courant number, however small. *)
Theorem C104_low_mach_refuted :
  forall cfl p clock, 0 < cfl ->
  p_time_freq p <= 0 -> (p_iter_freq p <= 0)%Z -> (2 <= p_max_iter p)%Z -> (forall i, clock i = false) -> p_t_ini p + cfl < p_t_end p ->
  exists K N dims X L G S m, three_cells LowMach K N dims X L /\ starts_from K dims L G S /\ (forall c, 0 < g_rho G c /\ 0 < g_P G c) /\
  loop (hydro K L cfl) p clock 2 (fresh p (init_state K L S)) = (m, Failed "detected invalid volumic internal energy") /\ m_iter m = 1%Z /\
  (exists r c, process 1 dims r /\ owned 1 (k_ng K) (d_nloc (l_dec L r)) c /\
     0 < c_rho (s_cell (m_st m r) c) /\ internal 1 (conserved_of (s_cell (m_st m r) c)) < 0) /\
  (forall n m v, loop (hydro (with_solver HLL K) L (Rmin cfl 1)) p clock n (fresh p (init_state (with_solver HLL K) L S)) = (m, v) ->
     physical (with_solver HLL K) dims L (m_st m) /\ v <> Failed "detected invalid volumic internal energy").
Proof. exact (fun cfl p clock H => lowmach_refuted cfl H p clock). Qed.
Print Assumptions C104_low_mach_refuted.

(** What "Low Mach" keeps: an iteration that starts from positive densities and internal energies leaves positive densities, up to
    cfl = 1 / (2 ndim q), in any number of dimensions, on any process grid, for any output schedule and boundary conditions. *)
Theorem C104_low_mach_density :
  forall K N dims X L q cfl,
  runs_on K N dims X L -> lawful_eos (k_eos K) -> robust_eos (k_eos K) -> pressure_below_sound (k_eos K) -> first_order K ->
  increasing (k_nd K) N (k_ng K) X -> graded (k_nd K) N (k_ng K) X q -> k_sol K = LowMach ->
  1 <= q -> 0 < cfl -> 2 * INR (k_nd K) * q * cfl <= 1 ->
  forall G S p clock n m m' v, starts_from K dims L G S -> p_t_ini p < p_t_end p ->
  loop (hydro K L cfl) p clock n (fresh p (init_state K L S)) = (m, Going) -> physical K dims L (m_st m) ->
  loop (hydro K L cfl) p clock (Datatypes.S n) (fresh p (init_state K L S)) = (m', v) -> completed v ->
  forall r c, process (k_nd K) dims r -> in_array (d_nwg (l_dec L r)) c -> 0 < c_rho (s_cell (m_st m' r) c).
Proof. exact lm_density. Qed.
Print Assumptions C104_low_mach_density.

Theorem C104_perfect_gas : forall g, 1 < pg_gamma g -> 0 < pg_mmw g -> pressure_below_sound (pg_eos g).
Proof. exact perfect_gas_below. Qed.
Print Assumptions C104_perfect_gas.

(** Parameters of the refutations, and cells for the positive part: two cold ones at rest beside a hot one that moves. *)
Example C104_example :
  let p := mkParams 0 10 100 0 0 0 in
  (3 / 4 <= 1 <= 1 /\ p_time_freq p <= 0 /\ (p_iter_freq p <= 0)%Z /\ (2 <= p_max_iter p)%Z /\ p_t_ini p + 1 < p_t_end p) /\
  let K := tri_K LowMach in let L := tri_L LowMach in let G := tri_G (lm_cold (1 / 40)) (lm_cold (1 / 40)) (lm_hot (1 / 40)) in
  runs_on K tri_N one_process tri_X L /\ lawful_eos (k_eos K) /\ robust_eos (k_eos K) /\ pressure_below_sound (k_eos K) /\ first_order K /\
  increasing 1 tri_N 2 tri_X /\ graded 1 tri_N 2 tri_X 1 /\ 2 * INR 1 * 1 * (1 / 2) <= 1 /\
  starts_from K one_process L G (the_state K L G) /\ physical K one_process L (init_state K L (the_state K L G)) /\
  exists c c', g_u G c 0%nat <> g_u G c' 0%nat /\ g_P G c <> g_P G c'.
Proof. split; [cbn; repeat split; try Lra.lra; discriminate|exact neg_example]. Qed.
