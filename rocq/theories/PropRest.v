(** * Layered gases at rest: C109. *)
From Verif Require Import Base RBase ModelMesh ModelGeom ModelBoundary ModelHydro ModelScheme ModelStep
  SpecBoundary SpecHydro SpecScheme SpecStep SpecAdvect SpecRest ProofLayout ProofStepEx ProofAdvectEx ProofRest ProofRest2 ProofRestEx.
Local Open Scope R_scope.

(** HLLC or Low-Mach: whatever the densities, the steps (of any length, given or chosen by the program with any cfl),
    the number of dimensions, the geometry, the pressure fix, the process grid and the boundary conditions, walls
    included, every cell keeps its density and its scalars and no velocity appears.  Minmod and first order need nothing of the mesh; van Leer and van Albada
    equal cell widths along each direction. *)
Theorem C109_layers_stay :
  forall K N dims X L P0,
  runs_on K N dims X L -> lawful_eos (k_eos K) -> energy_of_pressure (k_eos K) -> 0 < P0 -> k_user K = UOff -> weightless K ->
  increasing (k_nd K) N (k_ng K) X -> bounded_faces (k_lim K) (k_nd K) N (k_ng K) X -> contact_solver (k_sol K) ->
  forall G S, starts_from K dims L G S -> layers_at_rest P0 G ->
  (forall ts, unmoved K dims L P0 G (run K L ts (init_state K L S))) /\
  (forall cfl n t, unmoved K dims L P0 G (snd (run_cfl K L cfl n t (init_state K L S)))).
Proof. exact layers_stay. Qed.
Print Assumptions C109_layers_stay.

(** HLL: a cell whose right neighbour has another density does not keep its own in the first step, however short (one
    dimension, first order). *)
Theorem C109_hll_refuted :
  forall K N dims X L P0,
  runs_on K N dims X L -> lawful_eos (k_eos K) -> energy_of_pressure (k_eos K) -> 0 < P0 -> plain_flow K no_velocity ->
  increasing (k_nd K) N (k_ng K) X -> k_lim K = LConstant -> k_sol K = HLL -> k_nd K = 1%nat ->
  forall G S t dt r c, starts_from K dims L G S -> layers_at_rest P0 G -> process (k_nd K) dims r ->
  let own x := owned (k_nd K) (k_ng K) (d_nloc (l_dec L r)) x in
  own c -> own (lindex 0 c) -> own (rindex 0 c) -> dt <> 0 ->
  let at_ x := g_rho G (global_index (k_nd K) (k_ng K) (corner_min (d_range (l_dec L r))) x) in
  at_ (lindex 0 c) = at_ c -> at_ (rindex 0 c) <> at_ c ->
  c_rho (s_cell (full_step K L t dt (init_state K L S) r) c) <> at_ c.
Proof. exact hll_smears. Qed.
Print Assumptions C109_hll_refuted.

(** Van Leer on an uneven mesh: wherever a cell is followed by a narrower one, some positive densities give it a negative
    density at the common face, before any step is taken. *)
Theorem C109_narrower_cell_refuted :
  forall m c d, (d < 3)%nat ->
  0 < mdx m d (coord d c - 1) -> 0 < mdx m d (coord d c) -> 0 < mdx m d (coord d c + 1) ->
  mdx m d (coord d c + 1) < mdx m d (coord d c) ->
  exists rho : field3, (forall x, 0 < rho x) /\ face_value LVanLeer m rho c 1 d < 0.
Proof. exact narrow_face. Qed.
Print Assumptions C109_narrower_cell_refuted.

(** 9 cells on 3 processes, density 2 then 1, for every limiter and solver; the change of density lies to the right of
    a cell whose neighbours the same process owns. *)
Example C109_example : forall l s,
  let K := line_K l s in let L := line_L l s in
  runs_on K line_N line_dims line_X L /\ lawful_eos (k_eos K) /\ energy_of_pressure (k_eos K) /\ plain_flow K no_velocity /\
  increasing 1 line_N 2 line_X /\ bounded_faces l 1 line_N 2 line_X /\
  starts_from K line_dims L rest_G (the_state K L rest_G) /\ layers_at_rest 1 rest_G /\
  let r := I3 1 0 0 in let c := I3 3 0 0 in let at_ x := g_rho rest_G (global_index 1 2 (corner_min (d_range (l_dec L r))) x) in
  process 1 line_dims r /\ owned 1 2 (d_nloc (l_dec L r)) c /\ owned 1 2 (d_nloc (l_dec L r)) (lindex 0 c) /\
  owned 1 2 (d_nloc (l_dec L r)) (rindex 0 c) /\ at_ (lindex 0 c) = at_ c /\ at_ (rindex 0 c) <> at_ c.
Proof. exact rest_example. Qed.

(** 7 x 5 cells of a spherical mesh on 3 x 2 processes, with a wall and the pressure fix. *)
Example C109_spherical_example : forall s,
  let K := sphere_K s in let L := sphere_L s in
  runs_on K ex_N ex_dims ex_X L /\ lawful_eos (k_eos K) /\ energy_of_pressure (k_eos K) /\ weightless K /\
  increasing 2 ex_N 2 ex_X /\ bounded_faces (k_lim K) 2 ex_N 2 ex_X /\ k_bcs K 2 = Reflexive /\
  starts_from K ex_dims L rest_G (the_state K L rest_G) /\ layers_at_rest 1 rest_G /\
  g_rho rest_G (I3 4 0 0) <> g_rho rest_G (I3 5 0 0).
Proof. exact sphere_example. Qed.
