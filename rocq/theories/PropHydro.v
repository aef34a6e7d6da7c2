(** * C12-C19: equation of state, conversions, limiters, face reconstruction, Riemann solvers. *)
From Verif Require Import Base RBase ModelMesh ModelGeom ModelHydro SpecHydro ProofR ProofHydro ProofHydro2
  ProofHydro3.
Local Open Scope string_scope.
Local Open Scope R_scope.

(** C12: construction accepts exactly the finite gamma > 1, mu > 0 and keeps them. *)
Theorem C12_construction_accepts_exactly :
  forall gamma mmw,
    (forall g m, make_perfect_gas gamma mmw = Ok (mkPG g m) <->
       gamma = XR g /\ mmw = XR m /\ 1 < g /\ 0 < m) /\
    ((exists w, make_perfect_gas gamma mmw = Throw w) <->
       ~ (exists g m, gamma = XR g /\ mmw = XR m /\ 1 < g /\ 0 < m)).
Proof. exact make_perfect_gas_spec. Qed.
Print Assumptions C12_construction_accepts_exactly.

(** C12: the three pairs of conversions are mutual inverses. *)
Theorem C12_conversions_are_inverse :
  forall gamma mu rho x, 1 < gamma -> 0 < mu -> 0 < rho ->
    let g := mkPG gamma mu in
    pg_pres_from_temp g rho (pg_temp_from_pres g rho x) = x /\
    pg_temp_from_pres g rho (pg_pres_from_temp g rho x) = x /\
    pg_evol_from_temp g rho (pg_temp_from_evol g rho x) = x /\
    pg_temp_from_evol g rho (pg_evol_from_temp g rho x) = x /\
    pg_pres_from_evol g rho (pg_evol_from_pres g rho x) = x /\
    pg_evol_from_pres g rho (pg_pres_from_evol g rho x) = x.
Proof. exact pg_inverses. Qed.
Print Assumptions C12_conversions_are_inverse.

(** C12: the ideal-gas laws P = rho kB T / (mu mp), e = P / (gamma - 1), c^2 = gamma P / rho, c > 0. *)
Theorem C12_ideal_gas_law :
  forall gamma mu rho T P, 1 < gamma -> 0 < mu -> 0 < rho ->
    let g := mkPG gamma mu in
    pg_pres_from_temp g rho T * (mu * mp) = rho * kb * T /\
    pg_evol_from_pres g rho P = P / (gamma - 1) /\
    (0 < P -> pg_sound g rho P * pg_sound g rho P = gamma * P / rho /\ 0 < pg_sound g rho P).
Proof. exact pg_laws. Qed.
Print Assumptions C12_ideal_gas_law.

(** C12: every conversion is strictly increasing and positive on positive arguments. *)
Theorem C12_increasing_and_positive :
  forall gamma mu rho x y, 1 < gamma -> 0 < mu -> 0 < rho -> x < y ->
    let g := mkPG gamma mu in
    forall f, In f [pg_pres_from_temp g rho; pg_temp_from_pres g rho; pg_evol_from_temp g rho;
                    pg_temp_from_evol g rho; pg_evol_from_pres g rho; pg_pres_from_evol g rho] ->
    f x < f y /\ (0 < x -> 0 < f x).
Proof. exact pg_monotone. Qed.
Print Assumptions C12_increasing_and_positive.

(** C12: hence a perfect gas is an equation of state the hydrodynamics theorems below apply to. *)
Theorem C12_perfect_gas_is_lawful :
  forall gamma mu, 1 < gamma -> 0 < mu -> lawful_eos (pg_eos (mkPG gamma mu)).
Proof. exact (fun gamma mu H1 H2 => pg_lawful (mkPG gamma mu) (conj H1 H2)). Qed.
Print Assumptions C12_perfect_gas_is_lawful.

Example C12_example : make_perfect_gas (XR (7 / 5)) (XR 1) = Ok (mkPG (7 / 5) 1)
  /\ 0 < kb /\ 0 < mp.
Proof. split; [apply make_perfect_gas_spec; repeat split; lra|split; [apply kb_pos|apply mp_pos]]. Qed.

(** C13: round trips, for every equation of state, and what each component is. *)
Theorem C13_round_trips :
  forall nd e, lawful_eos e ->
    (forall p, valid_prim p -> to_prim nd e (to_cons nd e p) = p /\ valid_cons nd (to_cons nd e p)) /\
    (forall q, valid_cons nd q -> to_cons nd e (to_prim nd e q) = q /\ valid_prim (to_prim nd e q)).
Proof.
  exact (fun nd e He => conj (fun p H => conj (to_prim_to_cons nd e He p H) (valid_to_cons nd e He p H))
                             (fun q H => conj (to_cons_to_prim nd e He q H) (valid_to_prim nd e He q H))).
Qed.
Print Assumptions C13_round_trips.

Theorem C13_components :
  forall nd e p, 0 < p_rho p ->
    q_rho (to_cons nd e p) = p_rho p /\
    (forall d, velocity (to_cons nd e p) d = p_u p d) /\
    kinetic nd (to_cons nd e p) = p_rho p * vsum nd (fun d => p_u p d ^ 2) / 2 /\
    internal nd (to_cons nd e p) = eos_evol e (p_rho p) (p_P p).
Proof. exact to_cons_components. Qed.
Print Assumptions C13_components.

(** C13: internal energy is what remains after removing the kinetic energy. *)
Theorem C13_internal_energy :
  forall nd q, 0 < q_rho q -> evol_cons nd q = internal nd q.
Proof. exact evol_cons_internal. Qed.
Print Assumptions C13_internal_energy.

(** C13: the array conversions round-trip on the cells of the range and leave all others alone. *)
Theorem C13_arrays_prim_cons_prim :
  forall nd e p rho u P rhou E, lawful_eos e ->
    (forall c, p c = true -> 0 < rho c /\ 0 < P c) ->
    let '(rhou', E') := conv_prim_to_cons p nd e rho u P rhou E in
    (forall c, p c = false -> rhou' c = rhou c /\ E' c = E c) /\
    (forall u0 P0, let '(u', P') := conv_cons_to_prim p nd e rho rhou' E' u0 P0 in
      (forall c, p c = true -> u' c = u c /\ P' c = P c) /\
      (forall c, p c = false -> u' c = u0 c /\ P' c = P0 c)).
Proof. exact conv_round_trip. Qed.
Print Assumptions C13_arrays_prim_cons_prim.

Theorem C13_arrays_cons_prim_cons :
  forall nd e p rho rhou E u P, lawful_eos e ->
    (forall c, p c = true -> 0 < rho c /\ 0 < internal nd (mkCons (rho c) (rhou c) (E c))) ->
    let '(u', P') := conv_cons_to_prim p nd e rho rhou E u P in
    (forall c, p c = false -> u' c = u c /\ P' c = P c) /\
    (forall m0 E0, let '(rhou', E') := conv_prim_to_cons p nd e rho u' P' m0 E0 in
      (forall c, p c = true -> rhou' c = rhou c /\ E' c = E c) /\
      (forall c, p c = false -> rhou' c = m0 c /\ E' c = E0 c)).
Proof. exact conv_round_trip_cons. Qed.
Print Assumptions C13_arrays_cons_prim_cons.

(** Non-vacuity for C13 and C16-C19: concrete valid states. *)
Definition demo_gas : eos := pg_eos (mkPG 2 1).
Definition demo_L : cons := mkCons 1 (fun d => match d with O => 0 | _ => 2 end) 4.
Definition demo_R : cons := mkCons 4 (fun d => match d with O => 0 | _ => -4 end) 4.
Example C13_example :
  lawful_eos demo_gas /\ valid_cons 3 (mkCons 1 (fun d => match d with O => 0 | _ => 2 end) 5) /\
  valid_cons 2 demo_L /\ valid_cons 2 demo_R /\
  valid_prim (to_prim 2 demo_gas demo_L).
Proof. exact demo_states. Qed.

(** C14 *)
Theorem C14_symmetric_odd_homogeneous :
  forall l a b k, slope l a b = slope l b a /\ slope l (- a) (- b) = - slope l a b /\
    slope l (k * a) (k * b) = k * slope l a b.
Proof. exact (fun l a b k => conj (slope_sym l a b) (conj (slope_odd l a b) (slope_homog l k a b))). Qed.
Print Assumptions C14_symmetric_odd_homogeneous.

Theorem C14_zero_at_extrema : forall l a b, a * b <= 0 -> slope l a b = 0.
Proof. exact slope_opposite. Qed.
Print Assumptions C14_zero_at_extrema.

Theorem C14_sign_and_bound :
  forall l a b, 0 < a -> 0 < b ->
    0 <= slope l a b <= 2 * Rmin a b /\ (l = LMinmod -> slope l a b = Rmin a b) /\
    (l <> LConstant -> 0 < slope l a b).
Proof. exact slope_bounds. Qed.
Print Assumptions C14_sign_and_bound.

Theorem C14_bound_in_magnitude :
  forall l a b,
    Rabs (slope l a b) <= 2 * Rmin (Rabs a) (Rabs b) /\
    (l = LMinmod -> Rabs (slope l a b) <= Rmin (Rabs a) (Rabs b)) /\
    0 <= slope l a b * a /\ 0 <= slope l a b * b.
Proof. exact slope_abs. Qed.
Print Assumptions C14_bound_in_magnitude.

(** C14: agreement on equal slopes; the Constant limiter is zero; the mean used by each limiter. *)
Theorem C14_values :
  (forall l a, l <> LConstant -> slope l a a = a) /\
  (forall a b, slope LConstant a b = 0) /\
  (forall a b, 0 < a * b -> slope LVanLeer a b = 2 / (/ a + / b)) /\
  (forall a b, 0 < a * b -> slope LVanAlbada a b = a * b * (a + b) / (a ^ 2 + b ^ 2)).
Proof. exact slope_values. Qed.
Print Assumptions C14_values.

Example C14_example : slope LVanLeer 1 3 = 3 / 2 /\ slope LMinmod 1 3 = 1 /\ slope LVanAlbada 1 3 = 6 / 5.
Proof.
  cbn. rewrite van_leer_form, minmod_form, van_albada_form, Rmin_left by lra. repeat split; field.
Qed.

(** C15 *)
Theorem C15_faces_average_to_the_cell :
  forall l m var c d, (face_value l m var c 0 d + face_value l m var c 1 d) / 2 = var c.
Proof. exact faces_average. Qed.
Print Assumptions C15_faces_average_to_the_cell.

Theorem C15_constants_preserved :
  forall l m var c d, (d < 3)%nat -> forall side,
    var (lindex d c) = var c -> var (rindex d c) = var c -> face_value l m var c side d = var c.
Proof. exact faces_constant. Qed.
Print Assumptions C15_constants_preserved.

(** Linear data are reproduced on every mesh, regular or not. *)
Theorem C15_linear_exact :
  forall l m var c d, (d < 3)%nat -> forall a b, l <> LConstant ->
    0 < mdx m d (coord d c) -> 0 < mdx m d (coord d c - 1) -> 0 < mdx m d (coord d c + 1) ->
    var c = a + b * mxc m d (coord d c) ->
    var (lindex d c) = a + b * mxc m d (coord d c - 1) ->
    var (rindex d c) = a + b * mxc m d (coord d c + 1) ->
    face_value l m var c 0 d = a + b * m d (coord d c) /\
    face_value l m var c 1 d = a + b * m d (coord d c + 1)%Z.
Proof. exact faces_linear. Qed.
Print Assumptions C15_linear_exact.

Theorem C15_monotone_on_regular_meshes :
  forall l m var c d, (d < 3)%nat ->
    0 < mdx m d (coord d c) -> mdx m d (coord d c - 1) = mdx m d (coord d c) ->
    mdx m d (coord d c + 1) = mdx m d (coord d c) ->
    (Rmin (var c) (var (lindex d c)) <= face_value l m var c 0 d <= Rmax (var c) (var (lindex d c))) /\
    (Rmin (var c) (var (rindex d c)) <= face_value l m var c 1 d <= Rmax (var c) (var (rindex d c))).
Proof. exact faces_between_regular. Qed.
Print Assumptions C15_monotone_on_regular_meshes.

Theorem C15_minmod_monotone_on_any_mesh :
  forall m var c d, (d < 3)%nat ->
    0 < mdx m d (coord d c) -> 0 < mdx m d (coord d c - 1) -> 0 < mdx m d (coord d c + 1) ->
    (Rmin (var c) (var (lindex d c)) <= face_value LMinmod m var c 0 d <= Rmax (var c) (var (lindex d c))) /\
    (Rmin (var c) (var (rindex d c)) <= face_value LMinmod m var c 1 d <= Rmax (var c) (var (rindex d c))).
Proof. exact (fun m var c d Hd => faces_between_minmod LMinmod m var c d Hd eq_refl). Qed.
Print Assumptions C15_minmod_monotone_on_any_mesh.

(** The restriction to regular meshes is needed for VanLeer. *)
Theorem C15_van_leer_overshoots_on_stretched_mesh :
  exists (m : mesh) (var : field3) (c : idx),
    0 < mdx m 0 (ii c - 1) /\ 0 < mdx m 0 (ii c) /\ 0 < mdx m 0 (ii c + 1) /\
    var (lindex 0 c) < var c < var (rindex 0 c) /\
    var (rindex 0 c) < face_value LVanLeer m var c 1 0.
Proof. exact van_leer_stretched_overshoot. Qed.
Print Assumptions C15_van_leer_overshoots_on_stretched_mesh.

Theorem C15_kernel_range :
  forall p l m var old c,
    (p c = true -> face_reconstruction p l m var old c = face_value l m var c) /\
    (p c = false -> face_reconstruction p l m var old c = old c).
Proof. exact face_kernel. Qed.
Print Assumptions C15_kernel_range.

Example C15_example :
  let m : mesh := fun _ i => IZR i in
  let var : field3 := fun c => IZR (ii c * ii c) in
  regular_at m 0 2 1 /\
  face_value LMinmod m var (I3 2 0 0) 0 0 = 5 / 2 /\ face_value LMinmod m var (I3 2 0 0) 1 0 = 11 / 2.
Proof. exact faces_demo. Qed.

(** C16 *)
Theorem C16_solvers_consistent :
  forall nd e, lawful_eos e -> forall s q dir, valid_cons nd q ->
    riemann s nd e q q dir = euler_flux nd e q dir.
Proof. exact riemann_consistent. Qed.
Print Assumptions C16_solvers_consistent.

(** C16: the two physical flux routines agree with the Euler flux. *)
Theorem C16_flux_routines :
  forall nd e, lawful_eos e -> forall q dir, valid_cons nd q ->
    flux_cons nd e q dir = euler_flux nd e q dir /\
    flux_prim nd e (to_prim nd e q) dir = euler_flux nd e q dir.
Proof.
  exact (fun nd e He q dir Hq => conj (flux_cons_euler nd e q dir (proj1 Hq))
                                      (flux_prim_euler nd e He q dir Hq)).
Qed.
Print Assumptions C16_flux_routines.

Example C16_example :
  valid_cons 2 demo_L /\ f_rho (euler_flux 2 demo_gas demo_L 1) = 2 /\
  f_m (euler_flux 2 demo_gas demo_L 1) 1%nat = 6.
Proof. exact demo_flux. Qed.

(** C17 *)
Theorem C17_hll_upwinds :
  forall nd e, lawful_eos e -> forall qL qR dir, valid_cons nd qL -> valid_cons nd qR ->
    (sound nd e qL <= velocity qL dir -> sound nd e qR <= velocity qR dir ->
       hll nd e qL qR dir = euler_flux nd e qL dir) /\
    (velocity qL dir <= - sound nd e qL -> velocity qR dir <= - sound nd e qR ->
       hll nd e qL qR dir = euler_flux nd e qR dir).
Proof.
  exact (fun nd e He qL qR dir HL HR => conj (hll_supersonic_right nd e He qL qR dir HL HR)
                                             (hll_supersonic_left nd e He qL qR dir HL HR)).
Qed.
Print Assumptions C17_hll_upwinds.

Theorem C17_hllc_upwinds :
  forall nd e, lawful_eos e -> forall qL qR dir, valid_cons nd qL -> valid_cons nd qR ->
    (sound nd e qL < velocity qL dir -> sound nd e qR < velocity qR dir ->
       hllc nd e qL qR dir = euler_flux nd e qL dir) /\
    (velocity qL dir < - sound nd e qL -> velocity qR dir < - sound nd e qR ->
       hllc nd e qL qR dir = euler_flux nd e qR dir).
Proof.
  exact (fun nd e He qL qR dir HL HR => conj (hllc_supersonic_right nd e He qL qR dir HL HR)
                                             (hllc_supersonic_left nd e He qL qR dir HL HR)).
Qed.
Print Assumptions C17_hllc_upwinds.

Example C17_example :
  let q := mkCons 1 (fun d => match d with O => 10 | _ => 0 end) 52 in
  valid_cons 1 q /\ sound 1 demo_gas q < velocity q 0.
Proof. exact demo_supersonic. Qed.

(** C18: all three solvers, all pairs of admissible states. *)
Theorem C18_mirror_symmetric :
  forall nd e, lawful_eos e -> forall s qL qR dir, valid_cons nd qL -> valid_cons nd qR ->
    riemann s nd e (mirror dir qR) (mirror dir qL) dir = mirror_flux dir (riemann s nd e qL qR dir).
Proof. exact riemann_mirror. Qed.
Print Assumptions C18_mirror_symmetric.

Example C18_example : lawful_eos demo_gas /\ valid_cons 2 demo_L /\ valid_cons 2 demo_R /\ demo_L <> demo_R.
Proof. exact demo_pair. Qed.

(** C19 *)
Theorem C19_hllc_keeps_contacts :
  forall nd e, lawful_eos e -> forall qL qR dir, valid_cons nd qL -> valid_cons nd qR ->
    velocity qL dir = velocity qR dir -> pressure nd e qL = pressure nd e qR ->
    hllc nd e qL qR dir
    = (if rltb 0 (velocity qL dir) then euler_flux nd e qL dir else euler_flux nd e qR dir).
Proof. exact hllc_contact. Qed.
Print Assumptions C19_hllc_keeps_contacts.

Theorem C19_hllc_stationary_contact :
  forall nd e, lawful_eos e -> forall qL qR dir, valid_cons nd qL -> valid_cons nd qR ->
    velocity qL dir = 0 -> velocity qR dir = 0 -> pressure nd e qL = pressure nd e qR ->
    f_rho (hllc nd e qL qR dir) = 0 /\ f_E (hllc nd e qL qR dir) = 0 /\
    forall d, f_m (hllc nd e qL qR dir) d = if Nat.eqb d dir then pressure nd e qL else 0.
Proof. exact hllc_stationary_contact. Qed.
Print Assumptions C19_hllc_stationary_contact.

(** HLL lets mass through every stationary contact between different densities. *)
Theorem C19_hll_diffuses_contacts :
  forall nd e, lawful_eos e -> forall qL qR dir, valid_cons nd qL -> valid_cons nd qR ->
    velocity qL dir = 0 -> velocity qR dir = 0 -> q_rho qL <> q_rho qR ->
    f_rho (hll nd e qL qR dir) <> 0.
Proof. exact hll_diffuses_contacts. Qed.
Print Assumptions C19_hll_diffuses_contacts.

Example C19_example :
  velocity demo_L 0 = 0 /\ velocity demo_R 0 = 0 /\ q_rho demo_L <> q_rho demo_R /\
  pressure 2 demo_gas demo_L = pressure 2 demo_gas demo_R.
Proof. exact demo_contact. Qed.
