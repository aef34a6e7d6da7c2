(** * Flows of uniform velocity and pressure: C76, C77. *)
From Verif Require Import Base RBase ModelMesh ModelGeom ModelBoundary ModelHydro ModelScheme ModelStep
  SpecBoundary SpecHydro SpecScheme SpecStep SpecAdvect ProofLayout ProofStepEx ProofAdvectEx.
Local Open Scope R_scope.

(** ** C76 *)

(** Velocity and pressure uniform at the start, any density: they stay uniform for the whole run, for every solver
    and limiter, any Cartesian mesh, any number of dimensions, any process grid, as long as the densities met stay
    positive. *)
Theorem C76_contacts_keep_velocity_and_pressure :
  forall K N dims X L u0 P0 G S ts,
  runs_on K N dims X L -> lawful_eos (k_eos K) -> energy_of_pressure (k_eos K) -> 0 < P0 -> plain_flow K u0 ->
  starts_from K dims L G S -> carried_fields u0 P0 G -> positive_run K dims L ts (init_state K L S) ->
  carried K dims L u0 P0 (run K L ts (init_state K L S)).
Proof. exact advect_any. Qed.
Print Assumptions C76_contacts_keep_velocity_and_pressure.

(** Perfect gases qualify. *)
Theorem C76_perfect_gas :
  forall gamma mmw, 1 < gamma -> 0 < mmw -> energy_of_pressure (pg_eos (mkPG gamma mmw)).
Proof. exact (fun gamma mmw => pg_energy_of_pressure (mkPG gamma mmw)). Qed.
Print Assumptions C76_perfect_gas.

(** A chessboard of densities 1 and 1000 on 3 x 2 processes, periodic in one direction and open in the other. *)
Example C76_example : forall s, contact_solver s ->
  let K := adv_K s in let L := adv_L s in
  runs_on K ex_N ex_dims ex_X L /\ lawful_eos (k_eos K) /\ energy_of_pressure (k_eos K) /\ plain_flow K adv_u /\
  increasing 2 ex_N 2 ex_X /\ k_lim K = LConstant /\
  starts_from K ex_dims L (adv_G 1000) (the_state K L (adv_G 1000)) /\ carried_fields adv_u 1 (adv_G 1000) /\
  (forall c, 1 <= g_rho (adv_G 1000) c <= 1000) /\
  courant_steps K ex_dims L adv_u 1 [(0, 1 / 5); (1 / 5, 1 / 10)] /\
  positive_run K ex_dims L [(0, 1 / 5); (1 / 5, 1 / 10)] (init_state K L (the_state K L (adv_G 1000))) /\
  g_rho (adv_G 1000) (I3 0 0 0) <> g_rho (adv_G 1000) (I3 1 0 0).
Proof. exact adv_example. Qed.

(** ** C77 *)

(** First order, HLLC or Low-Mach, any dimension and any Cartesian mesh: the densities stay between the least and the
    greatest initial ones (so the positivity asked for in C76 holds by itself), for steps during which the flow crosses
    at most one cell, in particular for those the program chooses with cfl <= 1. *)
Theorem C77_first_order_bounds :
  forall K N dims X L u0 P0 lo hi nu,
  runs_on K N dims X L -> lawful_eos (k_eos K) -> energy_of_pressure (k_eos K) -> 0 < P0 -> plain_flow K u0 ->
  increasing (k_nd K) N (k_ng K) X -> contact_solver (k_sol K) -> 0 < lo -> nu <= 1 -> k_lim K = LConstant ->
  forall G S, starts_from K dims L G S -> carried_fields u0 P0 G -> (forall c, lo <= g_rho G c <= hi) ->
  (forall ts, courant_steps K dims L u0 nu ts ->
     carried K dims L u0 P0 (run K L ts (init_state K L S)) /\ density_within K dims L lo hi (run K L ts (init_state K L S))) /\
  (forall n t, 0 < nu -> let S' := snd (run_cfl K L nu n t (init_state K L S)) in
     carried K dims L u0 P0 S' /\ density_within K dims L lo hi S').
Proof. exact first_all. Qed.
Print Assumptions C77_first_order_bounds.

(** Second order in one dimension on a regular mesh: the same bounds, hence no overshoot.  Minmod needs nothing more;
    van Albada a Courant number of 1/2 or densities within a factor 3; van Leer densities within a factor 3. *)
Theorem C77_limited_bounds :
  forall K N dims X L u0 P0 lo hi nu h,
  runs_on K N dims X L -> lawful_eos (k_eos K) -> energy_of_pressure (k_eos K) -> 0 < P0 -> plain_flow K u0 ->
  increasing (k_nd K) N (k_ng K) X -> contact_solver (k_sol K) -> 0 < lo -> nu <= 1 ->
  k_nd K = 1%nat -> regular_axis N (k_ng K) X h -> safe_limiter (k_lim K) nu lo hi ->
  forall G S, starts_from K dims L G S -> carried_fields u0 P0 G -> (forall c, lo <= g_rho G c <= hi) ->
  (forall ts, courant_steps K dims L u0 nu ts ->
     carried K dims L u0 P0 (run K L ts (init_state K L S)) /\ density_within K dims L lo hi (run K L ts (init_state K L S))) /\
  (forall n t, 0 < nu -> let S' := snd (run_cfl K L nu n t (init_state K L S)) in
     carried K dims L u0 P0 S' /\ density_within K dims L lo hi S').
Proof. exact limited_all. Qed.
Print Assumptions C77_limited_bounds.

(** Without the factor 3, the van Leer limiter hands the Riemann solver negative densities: for every flow velocity,
    every mesh spacing and every time step, however short, there is a positive density profile in uniform flow whose
    half-step face density is negative. *)
Theorem C77_van_leer_negative_density_refuted :
  forall e m c u0 P0 h dt old, regular_at m 0 (coord 0 c) h -> (forall d, (d < 3)%nat -> 0 < mdx m d (coord d c)) ->
  0 < dt -> 0 < u0 0%nat ->
  exists rho : field3, (forall x, 0 < rho x) /\
    q_rho (r_q (hydro_reconstruction (fun _ => true) Cartesian 1 e LVanLeer m (fun _ _ => 0) (dt / 2) rho (fun _ => u0) (fun _ => P0)
                  (fun _ _ => 0) old) c 0%nat 0%nat) < 0.
Proof. exact van_leer_negative. Qed.
Print Assumptions C77_van_leer_negative_density_refuted.

(** A line of cells on three processes, for each limiter. *)
Example C77_example : forall l s, contact_solver s ->
  let K := line_K l s in let L := line_L l s in
  runs_on K line_N line_dims line_X L /\ lawful_eos (k_eos K) /\ energy_of_pressure (k_eos K) /\ plain_flow K adv_u /\
  increasing 1 line_N 2 line_X /\ regular_axis line_N 2 line_X (1 / 10) /\
  safe_limiter l (1 / 2) 1 (match l with LVanLeer => 29 / 10 | _ => 1000 end) /\
  (forall hi, 1 <= hi -> starts_from K line_dims L (adv_G hi) (the_state K L (adv_G hi)) /\ carried_fields adv_u 1 (adv_G hi) /\
     (forall c, 1 <= g_rho (adv_G hi) c <= hi)) /\
  courant_steps K line_dims L adv_u (1 / 2) [(0, 1 / 60); (1 / 60, 1 / 70)].
Proof. exact line_example. Qed.
