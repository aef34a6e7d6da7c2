(** * Reflecting walls: C20. *)
From Verif Require Import Base RBase ModelMesh ModelGeom ModelBoundary ModelHydro ModelScheme ModelStep
  SpecMesh SpecGeom SpecBoundary SpecHydro SpecScheme SpecStep SpecWall
  ProofLayout ProofBox ProofStepEx ProofWallEx.
Local Open Scope R_scope.

(** At every step of every run, whatever the initial fields: nothing but normal momentum crosses a wall face,
    for each solver, limiter and process grid, provided gravity does not pull through the wall, the ghost
    cells are as wide as the cells they mirror and the half-step state inside the wall is admissible. *)
Theorem C20_walls_are_impermeable :
  forall K N dims X L, runs_on K N dims X L ->
  forall d face S ts dt r c,
    (d < k_nd K)%nat -> (face < 2)%nat -> wall K d face -> k_geom K = Cartesian ->
    mirrored_widths N (k_ng K) X d face -> no_pull_along K d -> lawful_eos (k_eos K) ->
    process (k_nd K) dims r -> on_wall K dims L d face r c ->
    let now := run K L ts (init_state K L S) in
    valid_cons (k_nd K) (inner_face K L dt now d face r c) ->
    let F := step_flux K L dt now r c d in
    f_rho F = 0 /\ f_E F = 0 /\ (forall k, k <> d -> f_m F k = 0) /\
    (forall n, step_scalar_flux K L dt now r c d n = 0).
Proof. exact walls_impermeable. Qed.
Print Assumptions C20_walls_are_impermeable.

(** A box closed by walls in some directions and periodic in the others keeps its mass, the momenta along its
    periodic and unused directions and, without pressure fix and user step, its energy. *)
Theorem C20_closed_box_conserves :
  forall K N dims X L, runs_on K N dims X L -> k_geom K = Cartesian -> weightless K ->
    increasing (k_nd K) N (k_ng K) X ->
  forall G S ts, starts_from K dims L G S ->
    let S0 := init_state K L S in
    let S1 := run K L ts S0 in
    (forall d, (d < k_nd K)%nat -> periodic_dir K N X d \/ (walled_dir K N X d /\ lawful_eos (k_eos K) /\
       forall pre t dt post, ts = pre ++ (t, dt) :: post -> admissible_faces K dims L dt (run K L pre S0))) ->
    integrate K L (fun r c => c_rho (s_cell (S1 r) c)) = integrate K L (fun r c => c_rho (s_cell (S0 r) c)) /\
    (forall k, ((k < k_nd K)%nat -> periodic_dir K N X k /\ k_bcs K (2 * k) <> Reflexive) ->
       integrate K L (fun r c => c_rhou (s_cell (S1 r) c) k) = integrate K L (fun r c => c_rhou (s_cell (S0 r) c) k)) /\
    (k_pf K = None -> k_user K = UOff ->
       integrate K L (fun r c => c_E (s_cell (S1 r) c)) = integrate K L (fun r c => c_E (s_cell (S0 r) c))).
Proof. exact box_conservation. Qed.
Print Assumptions C20_closed_box_conserves.

(** The box of the examples meets both sets of hypotheses, for any durations. *)
Example C20_example :
  let K := ex_K box_bcs Cartesian in let L := ex_L box_bcs Cartesian in
  let S := the_state K L (ex_G ex_u) in
  runs_on K ex_N ex_dims ex_X L /\ weightless K /\ no_pull_along K 1 /\ increasing 2 ex_N 2 ex_X /\ lawful_eos (k_eos K) /\
  starts_from K ex_dims L (ex_G ex_u) S /\
  periodic_dir K ex_N ex_X 0 /\ walled_dir K ex_N ex_X 1 /\
  on_wall K ex_dims L 1 0 (I3 1 0 0) (I3 3 2 0) /\
  forall ts pre t dt post, ts = pre ++ (t, dt) :: post -> admissible_faces K ex_dims L dt (run K L pre (init_state K L S)).
Proof. exact c20_example. Qed.

(** "Exactly zero" fails under gravity normal to the wall: the half step gives gas at rest the momentum
    rho g dt/2 on both sides of the wall, and that mass flows through it in the very first step. *)
Theorem C20_gravity_through_the_wall_refuted :
  forall K N dims X L, runs_on K N dims X L ->
  forall g G S rho0 P0 fx0 dt d face r c,
    k_grav K = GUniform g -> lawful_eos (k_eos K) -> 0 < rho0 -> 0 < P0 ->
    uniform_fields rho0 (fun _ => 0) P0 fx0 G -> starts_from K dims L G S ->
    (d < k_nd K)%nat -> (face < 2)%nat -> process (k_nd K) dims r -> on_wall K dims L d face r c ->
    rho0 * vsum (k_nd K) (fun j => g j ^ 2) * dt ^ 2 / 8 < eos_evol (k_eos K) rho0 P0 ->
    let now := init_state K L S in
    valid_cons (k_nd K) (inner_face K L dt now d face r c) /\
    f_rho (step_flux K L dt now r c d) = rho0 * g d * dt / 2.
Proof. exact gravity_leaks. Qed.
Print Assumptions C20_gravity_through_the_wall_refuted.

Example C20_refuted_example :
  exists K N dims X L g G S dt r c,
    runs_on K N dims X L /\ wall K 1 0 /\ mirrored_widths N (k_ng K) X 1 0 /\ k_geom K = Cartesian /\
    k_grav K = GUniform g /\ lawful_eos (k_eos K) /\ uniform_fields 1 (fun _ => 0) 2 (fun _ => 0) G /\
    starts_from K dims L G S /\ process (k_nd K) dims r /\ on_wall K dims L 1 0 r c /\
    f_rho (step_flux K L dt (init_state K L S) r c 1) <> 0.
Proof. exact c20_refuted_example. Qed.
