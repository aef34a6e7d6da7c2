(** * C102: the equilibrium of the atmosphere under the first-order scheme. *)
From Verif Require Import Base RBase ModelMesh ModelGeom ModelBoundary ModelHydro ModelScheme ModelStep ModelSetup ModelUser
  SpecMesh SpecBoundary SpecHydro SpecStep SpecSetup SpecUser SpecBalance
  ProofStepEx ProofUserEx ProofBalance4.
Local Open Scope R_scope.

(** One step of any duration that leaves the gas subsonic, on any process grid: every owned cell, the ones next to the
    boundary included, gets the same multiples of its own density. *)
Theorem C102_one_step :
  forall K N dims X L U gas rho0 T0 g h, atmosphere_run K N dims X L U gas rho0 T0 g h ->
  forall t dt r c, let gam := pg_gamma gas in let a := isothermal gas T0 in let S := atmosphere_start K N L U gas in
  subsonic gam a g dt -> process (k_nd K) dims r -> owned (k_nd K) (k_ng K) (d_nloc (l_dec L r)) c ->
  let x := s_cell (S r) c in let x' := s_cell (own_full_step K N L U t dt S r) c in
  c_rho x' = c_rho x * new_mass gam a g h dt /\ c_rhou x' 0%nat = c_rho x * new_momentum gam a g h dt /\
  (forall k, (0 < k < k_nd K)%nat -> c_rhou x' k = 0) /\ c_E x' = c_rho x * new_energy gam a g h dt /\
  0 < c_rho x /\ (forall k, (k < k_nd K)%nat -> c_rhou x k = 0).
Proof. exact atmosphere_step. Qed.
Print Assumptions C102_one_step.

(** The equilibrium is lost: after every sufficiently short step, every cell of the atmosphere is heavier than before and
    moves upwards. *)
Theorem C102_atmosphere_stays_at_rest_refuted :
  forall K N dims X L U gas rho0 T0 g h, atmosphere_run K N dims X L U gas rho0 T0 g h ->
  let S := atmosphere_start K N L U gas in
  exists dt0, 0 < dt0 /\ forall t dt r c, 0 < dt < dt0 ->
  process (k_nd K) dims r -> owned (k_nd K) (k_ng K) (d_nloc (l_dec L r)) c ->
  let x := s_cell (S r) c in let x' := s_cell (own_full_step K N L U t dt S r) c in
  c_rhou x 0%nat = 0 /\ 0 < c_rhou x' 0%nat /\ c_rho x < c_rho x'.
Proof. exact atmosphere_moves. Qed.
Print Assumptions C102_atmosphere_stays_at_rest_refuted.

(** The rates at which this happens as the step shrinks; [k] is the width of a cell in scale heights. *)
Theorem C102_spurious_rates :
  forall K N dims X L U gas rho0 T0 g h, atmosphere_run K N dims X L U gas rho0 T0 g h ->
  let S := atmosphere_start K N L U gas in let a := isothermal gas T0 in
  forall eps, 0 < eps -> exists dt0, 0 < dt0 /\ forall t dt r c, 0 < dt < dt0 ->
  process (k_nd K) dims r -> owned (k_nd K) (k_ng K) (d_nloc (l_dec L r)) c ->
  let x := s_cell (S r) c in let x' := s_cell (own_full_step K N L U t dt S r) c in let k := h * g / a in
  Rabs ((c_rho x' - c_rho x) / dt / c_rho x - sqrt (pg_gamma gas * a) * (cosh k - 1) / h) < eps /\
  Rabs (c_rhou x' 0%nat / dt / c_rho x - g * (sinh k / k - 1)) < eps.
Proof. exact atmosphere_rates. Qed.
Print Assumptions C102_spurious_rates.

(** They vanish with the mesh: the acceleration with the square of the cell width, the compression with the cell width. *)
Theorem C102_rates_vanish_with_the_cell_width :
  forall K N dims X L U gas rho0 T0 g h, atmosphere_run K N dims X L U gas rho0 T0 g h ->
  let k := h * g / isothermal gas T0 in
  0 < k /\ 0 < cosh k - 1 <= k * k / 2 * cosh k /\ k * k / 6 <= sinh k / k - 1 <= k * k / 6 * cosh k.
Proof. exact atmosphere_scale. Qed.
Print Assumptions C102_rates_vanish_with_the_cell_width.

(** The atmosphere of inputs/stratified_atm.ini in two dimensions on 3 x 2 processes, and a step of a millisecond. *)
Example C102_example :
  atmosphere_run bal_K ex_N ex_dims ex_X bal_L own_U own_gas 10 100 10 1 /\
  subsonic (pg_gamma own_gas) (isothermal own_gas 100) 10 (1 / 1000).
Proof. exact (conj bal_run bal_quiet). Qed.
