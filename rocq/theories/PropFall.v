(** * C103: a uniform gas in free fall over whole runs. *)
From Verif Require Import Base RBase ModelMesh ModelGeom ModelBoundary ModelHydro ModelScheme ModelStep ModelMain
  SpecMesh SpecBoundary SpecHydro SpecStep SpecSetup SpecSource SpecFall
  ProofLayout ProofStepEx ProofFall2 ProofFall3.
Local Open Scope R_scope.

(** After any number of steps of any durations, every cell of every array (ghost cells included) falls at exactly the
    velocity of free fall, and has lost rho |g|^2 / 2 times the sum of the squares of the durations. *)
Theorem C103_state_after_any_steps :
  forall K N dims X L gas gv u rho P, falling_run K N dims X L gas gv u -> 0 < rho ->
  forall G S, starts_from K dims L G S -> same_everywhere G rho u P ->
  forall ts r c, process (k_nd K) dims r -> in_array (d_nwg (l_dec L r)) c ->
  let x := s_cell (run K L ts (init_state K L S) r) c in
  c_rho x = rho /\ (forall k, c_rhou x k = rho * (u k + elapsed ts * gv k)) /\
  internal (k_nd K) (conserved_of x) = P / (pg_gamma gas - 1) - rho * norm2 (k_nd K) gv / 2 * squares ts.
Proof. exact fall_state. Qed.
Print Assumptions C103_state_after_any_steps.

(** The time steps the program chooses are long enough to lose, by the time [tau], at least a multiple of the logarithm
    of the factor by which the gas has become faster. *)
Theorem C103_cooling_law :
  forall K N dims X L gas gv u rho P, falling_run K N dims X L gas gv u -> 0 < rho ->
  forall w W cfl, widths_within (k_nd K) N (k_ng K) X w W -> 0 < P -> 0 < cfl ->
  (forall d, (d < k_nd K)%nat -> 0 <= u d * gv d) -> (exists d, (d < k_nd K)%nat /\ gv d <> 0) ->
  forall p clock, p_time_freq p <= 0 -> forall G S, starts_from K dims L G S -> same_everywhere G rho u P ->
  forall n m, loop (hydro K L cfl) p clock n (fresh p (init_state K L S)) = (m, Going) ->
  let tau := m_t m - p_t_ini p in 0 <= tau /\
  forall r c, process (k_nd K) dims r -> in_array (d_nwg (l_dec L r)) c -> let x := s_cell (m_st m r) c in
  c_rho x = rho /\ (forall k, c_rhou x k = rho * (u k + tau * gv k)) /\
  internal (k_nd K) (conserved_of x)
  <= P / (pg_gamma gas - 1)
     - cooling (k_nd K) w rho gv cfl * ln (1 + fall_rate (k_nd K) w gv * tau / start_rate (k_nd K) gas w rho u P).
Proof. exact fall_cools. Qed.
Print Assumptions C103_cooling_law.

(** So no step starts later than [lifetime] ... *)
Theorem C103_no_step_after_the_lifetime :
  forall K N dims X L gas gv u rho P, falling_run K N dims X L gas gv u -> 0 < rho ->
  forall w W cfl, widths_within (k_nd K) N (k_ng K) X w W -> 0 < P -> 0 < cfl ->
  (forall d, (d < k_nd K)%nat -> 0 <= u d * gv d) -> (exists d, (d < k_nd K)%nat /\ gv d <> 0) ->
  forall p clock, p_time_freq p <= 0 -> forall G S, starts_from K dims L G S -> same_everywhere G rho u P ->
  forall n m m' v, loop (hydro K L cfl) p clock n (fresh p (init_state K L S)) = (m, Going) ->
  body (hydro K L cfl) p clock m = (m', v) -> v = Going \/ v = Finished ->
  m_t m - p_t_ini p <= lifetime (k_nd K) gas w rho u P gv cfl.
Proof. exact fall_ends. Qed.
Print Assumptions C103_no_step_after_the_lifetime.

(** ... and a run that is to last longer than that is given up, all cells having a negative internal energy. *)
Theorem C103_falls_to_the_end_refuted :
  forall K N dims X L gas gv u rho P, falling_run K N dims X L gas gv u -> 0 < rho ->
  forall w W cfl, widths_within (k_nd K) N (k_ng K) X w W -> 0 < P -> 0 < cfl ->
  (forall d, (d < k_nd K)%nat -> 0 <= u d * gv d) -> (exists d, (d < k_nd K)%nat /\ gv d <> 0) ->
  forall p clock, p_time_freq p <= 0 -> forall G S, starts_from K dims L G S -> same_everywhere G rho u P ->
  (p_iter_freq p <= 0)%Z -> (forall i, clock i = false) ->
  let T := lifetime (k_nd K) gas w rho u P gv cfl in let D := longest_step (k_nd K) gas w W rho u P gv cfl in
  let M := steps_bound (k_nd K) gas w rho u P gv cfl in
  p_t_ini p + T + D < p_t_end p -> M + 2 < IZR (p_max_iter p) -> (p_max_iter p <= int_max)%Z ->
  exists n m, loop (hydro K L cfl) p clock n (fresh p (init_state K L S)) = (m, Failed "detected invalid volumic internal energy") /\
  m_t m - p_t_ini p <= T + D /\ IZR (m_iter m) <= M + 1 /\
  forall r c, process (k_nd K) dims r -> in_array (d_nwg (l_dec L r)) c -> internal (k_nd K) (conserved_of (s_cell (m_st m r) c)) < 0.
Proof. exact fall_fails. Qed.
Print Assumptions C103_falls_to_the_end_refuted.

(** A gas at rest with rho = P = 1 in cells of width 1 under gravity 10, in two dimensions on 3 x 2 processes, cfl = 1/2:
    meant to run until t = 100. *)
Example C103_example :
  let T := lifetime 2 fall_gas fall_w 1 fall_u 1 fall_gv (1 / 2) in
  falling_run fall_K ex_N ex_dims ex_X fall_L fall_gas fall_gv fall_u /\
  starts_from fall_K ex_dims fall_L fall_G (the_state fall_K fall_L fall_G) /\ same_everywhere fall_G 1 fall_u 1 /\
  widths_within 2 ex_N 2 ex_X fall_w fall_w /\
  ((forall d, (d < 2)%nat -> 0 <= fall_u d * fall_gv d) /\ exists d, (d < 2)%nat /\ fall_gv d <> 0) /\
  0 < T < 1 /\
  (p_t_ini fall_p + T + longest_step 2 fall_gas fall_w fall_w 1 fall_u 1 fall_gv (1 / 2) < p_t_end fall_p /\
   steps_bound 2 fall_gas fall_w 1 fall_u 1 fall_gv (1 / 2) + 2 < IZR (p_max_iter fall_p)) /\
  (p_max_iter fall_p <= int_max)%Z.
Proof.
  refine (conj fall_setup (conj fall_start (conj fall_same (conj fall_widths (conj fall_down (conj _ (conj fall_numbers _))))))).
  - pose proof fall_T. Lra.lra.
  - discriminate.
Qed.
