(** * Positivity of density and internal energy: C36. *)
From Verif Require Import Base RBase ModelMesh ModelGeom ModelBoundary ModelHydro ModelScheme ModelStep ModelMain
  SpecGeom SpecBoundary SpecHydro SpecScheme SpecStep SpecMain SpecPos ProofLayout ProofStepEx ProofPos ProofPosEx.
Local Open Scope R_scope.

(** ** C36 *)

(** A fresh run of the program from positive densities and pressures, first-order scheme, Cartesian mesh whose
    neighbouring widths are in a ratio of at most [q], no sources, any boundary conditions, any process grid: after
    any number of iterations, with any output schedule, end time and job limit, every cell (ghosts included) has
    positive density, internal energy and pressure, in memory and in every file, and the run never ends with the
    "invalid internal energy" error.  HLL needs cfl <= 1 / (ndim q), HLLC half of that. *)
Theorem C36_run_stays_physical :
  forall K N dims X L q cfl,
  runs_on K N dims X L -> lawful_eos (k_eos K) -> robust_eos (k_eos K) -> first_order K ->
  increasing (k_nd K) N (k_ng K) X -> graded (k_nd K) N (k_ng K) X q -> cfl_allowed K q cfl ->
  forall G S p clock n m v, starts_from K dims L G S -> (forall c, 0 < g_rho G c /\ 0 < g_P G c) -> p_t_ini p < p_t_end p ->
  loop (hydro K L cfl) p clock n (fresh p (init_state K L S)) = (m, v) ->
  physical K dims L (m_st m) /\ (forall f, In f (m_files m) -> physical K dims L (fl_data f)) /\
  v <> Failed "detected invalid volumic internal energy".
Proof. exact positive_loop. Qed.
Print Assumptions C36_run_stays_physical.

(** A run restarted from a file. *)
Theorem C36_restarted_run :
  forall K N dims X L q cfl,
  runs_on K N dims X L -> lawful_eos (k_eos K) -> robust_eos (k_eos K) -> first_order K ->
  increasing (k_nd K) N (k_ng K) X -> graded (k_nd K) N (k_ng K) X q -> cfl_allowed K q cfl ->
  forall G S p clock n m v f, starts_from K dims L G S -> (forall c, 0 < g_rho G c /\ 0 < g_P G c) -> fl_t f < p_t_end p ->
  loop (hydro K L cfl) p clock n (restarted f (init_state K L S)) = (m, v) ->
  physical K dims L (m_st m) /\ (forall f, In f (m_files m) -> physical K dims L (fl_data f)) /\
  v <> Failed "detected invalid volumic internal energy".
Proof. exact positive_restart. Qed.
Print Assumptions C36_restarted_run.

(** The same without outputs and end time: every step as long as the CFL condition allows. *)
Theorem C36_longest_steps :
  forall K N dims X L q cfl,
  runs_on K N dims X L -> lawful_eos (k_eos K) -> robust_eos (k_eos K) -> first_order K ->
  increasing (k_nd K) N (k_ng K) X -> graded (k_nd K) N (k_ng K) X q -> cfl_allowed K q cfl ->
  forall G S t n, starts_from K dims L G S -> (forall c, 0 < g_rho G c /\ 0 < g_P G c) ->
  physical K dims L (snd (run_cfl K L cfl n t (init_state K L S))).
Proof. exact positive_run_cfl. Qed.
Print Assumptions C36_longest_steps.

(** Every perfect gas the program accepts has the sound speed that is needed. *)
Theorem C36_perfect_gas : forall gam mmw g, make_perfect_gas gam mmw = Ok g -> lawful_eos (pg_eos g) /\ robust_eos (pg_eos g).
Proof. exact accepted_gas. Qed.
Print Assumptions C36_perfect_gas.

(** A blast on 3 x 2 processes (densities 10^6 and pressures 10^12 apart in neighbouring cells, colliding at
    velocity 200) meets the hypotheses, for both solvers. *)
Example C36_example : forall s, s = HLL \/ s = HLLC ->
  let K := pos_K s in let L := pos_L s in
  runs_on K ex_N ex_dims ex_X L /\ lawful_eos (k_eos K) /\ robust_eos (k_eos K) /\ first_order K /\
  increasing 2 ex_N 2 ex_X /\ graded 2 ex_N 2 ex_X 1 /\ cfl_allowed K 1 (1 / 4) /\
  starts_from K ex_dims L pos_G (the_state K L pos_G) /\ (forall c, 0 < g_rho pos_G c /\ 0 < g_P pos_G c) /\
  (exists c c' c'', g_rho pos_G c <> g_rho pos_G c' /\ g_u pos_G c 0%nat <> g_u pos_G c' 0%nat /\ g_P pos_G c <> g_P pos_G c'').
Proof. exact positive_example. Qed.
