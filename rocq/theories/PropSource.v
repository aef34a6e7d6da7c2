(** * Sources of momentum and energy: C29-C32, C34, C61, C62, C64. *)
From Coquelicot Require Import Coquelicot.
From Verif Require Import Base RBase ModelMesh ModelGeom ModelBoundary ModelHydro ModelScheme ModelStep
  SpecMesh SpecGeom SpecBoundary SpecHydro SpecScheme SpecStep SpecSource
  ProofLayout ProofSource ProofFix ProofGrav ProofStepEx ProofSourceEx.
Local Open Scope R_scope.

(** ** C29 *)

(** Switching the pressure fix on changes, in every step of any run, nothing but the energy of owned cells
    whose internal energy is below eps times their kinetic energy. *)
Theorem C29_only_energy_of_cold_cells :
  forall K N dims X L t dt S r c, laid_out K N dims X L -> process (k_nd K) dims r ->
  let on := step_user K L t dt S r c in
  let off := step_user (without_fix K) L t dt S r c in
  c_rho on = c_rho off /\ c_rhou on = c_rhou off /\ c_fx on = c_fx off /\
  (c_E on <> c_E off ->
     owned (k_nd K) (k_ng K) (d_nloc (l_dec L r)) c /\
     exists eps, k_pf K = Some eps /\
       internal (k_nd K) (conserved_of (s_cell (S r) c)) < eps * kinetic (k_nd K) (conserved_of (s_cell (S r) c))).
Proof. exact fix_step. Qed.
Print Assumptions C29_only_energy_of_cold_cells.

Example C29_example : laid_out gm_K gm_N gm_dims gm_X gm_L /\ process 2 gm_dims (I3 0 1 0).
Proof.
  split; [exact (ro_layout gm_runs)|].
  intros d Hd. destruct d as [|[|[|d]]]; [cbn; lia..|lia].
Qed.

(** ** C30 *)

(** What the fix leaves in a cell where it acts: the blended internal energy, plus the kinetic energy lost
    since the beginning of the step. *)
Theorem C30_energy_after_the_fix_partial :
  forall p g nd e m dt eps a r a_new c,
    p c = true -> (1 <= nd)%nat -> c_rho (a c) <> 0 ->
    internal nd (conserved_of (a c)) < eps * kinetic nd (conserved_of (a c)) ->
    internal nd (conserved_of (pressure_fix p g nd e m dt eps a r a_new c))
    = internal nd (conserved_of (a c))
      + (alpha nd eps a c * (internal nd (conserved_of (a_new c)) - internal nd (conserved_of (a c)))
         + (1 - alpha nd eps a c) * de_pf g nd e m dt a r c)
      + (kinetic nd (conserved_of (a c)) - kinetic nd (conserved_of (a_new c))).
Proof. exact fix_energy. Qed.
Print Assumptions C30_energy_after_the_fix_partial.

(** The internal energy left by the fix is therefore not the blended one: uniform gas accelerated by a uniform
    field loses, on top of everything else, the work done by gravity during the step. *)
Theorem C30_fix_takes_the_work_of_gravity_refuted :
  forall e l s m gv dt rho0 u0 P0 fx0 old eps c, 0 < rho0 -> 0 < eps -> dv Cartesian 1 m c <> 0 ->
  let x0 := gas 1 e rho0 u0 P0 fx0 in
  internal 1 (conserved_of x0) < eps / 10 * kinetic 1 (conserved_of x0) ->
  internal 1 (conserved_of (fixed 1 e l s m (fun _ => gv) dt eps (fun _ => x0) (fun _ => u0) (fun _ => P0) old c))
  = internal 1 (conserved_of x0) - rho0 * (u0 0%nat * gv 0%nat * dt + (gv 0%nat * dt) ^ 2 / 2).
Proof.
  exact (fun e l s m gv dt rho0 u0 P0 fx0 old eps c Hr He Hv Hc =>
    fall_fixed 1 e l s m gv dt (conj (le_n 1) (le_S _ _ (le_S _ _ (le_n 1)))) rho0 u0 P0 fx0 Hr old eps c eq_refl Hc He Hv).
Qed.
Print Assumptions C30_fix_takes_the_work_of_gravity_refuted.

(** It can be negative although the unfixed scheme leaves it positive. *)
Theorem C30_negative_internal_energy_refuted :
  let u := fun d : nat => 10 in
  let a := fun _ : idx => gas 1 w_eos 1 u (2 / 3) (fun _ => 0) in
  let g : gravity := fun _ _ => 1 in
  forall l s old c,
  internal 1 (conserved_of (a c)) = 1 /\
  internal 1 (conserved_of (updated 1 w_eos l s line_mesh g (2 / 10) a (fun _ => u) (fun _ => 2 / 3) old c)) = 98 / 100 /\
  internal 1 (conserved_of (fixed 1 w_eos l s line_mesh g (2 / 10) 1 a (fun _ => u) (fun _ => 2 / 3) old c)) = - (102 / 100).
Proof. exact cold_fall. Qed.
Print Assumptions C30_negative_internal_energy_refuted.

(** ** C31 *)

(** Uniform flow in one dimension, or on cells of constant width: the fix leaves the energy alone. *)
Theorem C31_uniform_flow_on_even_mesh :
  forall nd e l s m dt rho0 u0 P0 fx0 old eps c, (1 <= nd <= 3)%nat -> 0 < rho0 ->
    nd = 1%nat \/ (exists h, even_mesh m h) ->
    c_E (fixed nd e l s m (fun _ _ => 0) dt eps (fun _ => gas nd e rho0 u0 P0 fx0) (fun _ => u0) (fun _ => P0) old c)
    = c_E (gas nd e rho0 u0 P0 fx0).
Proof.
  exact (fun nd e l s m dt rho0 u0 P0 fx0 old eps c Hn Hr Hm =>
    quiet_fixed nd e l s m (fun _ => 0) dt Hn rho0 u0 P0 fx0 Hr old eps c Hm (fun _ => eq_refl)).
Qed.
Print Assumptions C31_uniform_flow_on_even_mesh.

Example C31_example : even_mesh line_mesh (fun _ => 1).
Proof. exact line_even. Qed.

(** In two dimensions a pure shear (an exact steady state) is heated or cooled at the rate
    (P + e) du/dy dy/dx. *)
Theorem C31_shear_is_heated_refuted :
  forall e l m h dt eps rate, lawful_eos e -> (forall d, (d < 3)%nat -> 0 < h d) -> even_mesh m h ->
  forall rho0 P0 fx0, 0 < rho0 -> 0 < P0 -> forall old a_new c,
    eos_evol e rho0 P0 < eps / 10 * (rho0 * (rate * mxc m 1 (jj c)) ^ 2 / 2) -> 0 < eps ->
    let u : field4 := fun c k => match k with O => rate * mxc m 1 (jj c) | _ => 0 end in
    let a := fun c => gas 2 e rho0 (u c) P0 fx0 in
    c_E (pressure_fix (fun _ => true) Cartesian 2 e m dt eps a
           (half_step 2 e l m (fun _ _ => 0) dt a u (fun _ => P0) old) a_new c)
    = c_E (a c) - dt * (P0 + eos_evol e rho0 P0) * (rate * h 1%nat / h 0%nat).
Proof. exact shear_fixed. Qed.
Print Assumptions C31_shear_is_heated_refuted.

(** And so is a uniform flow on cells of varying width. *)
Theorem C31_uniform_flow_on_stretched_mesh_refuted :
  forall e l s m dt, lawful_eos e -> (forall d i, (d < 3)%nat -> mdx m d i <> 0) ->
  forall rho0 u0 P0 fx0 old eps c, 0 < rho0 -> 0 < P0 -> 0 < eps ->
    let x0 := gas 2 e rho0 u0 P0 fx0 in
    internal 2 (conserved_of x0) < eps / 10 * kinetic 2 (conserved_of x0) ->
    c_E (fixed 2 e l s m (fun _ _ => 0) dt eps (fun _ => x0) (fun _ => u0) (fun _ => P0) old c)
    = c_E x0 - dt * (P0 + eos_evol e rho0 P0) *
        (u0 1%nat * (mdx m 0 (ii c + 1) - mdx m 0 (ii c)) + u0 0%nat * (mdx m 1 (jj c + 1) - mdx m 1 (jj c)))
        / (mdx m 0 (ii c) * mdx m 1 (jj c)).
Proof.
  exact (fun e l s m dt He Hw rho0 u0 P0 fx0 old eps c Hr HP Hs Hc =>
    stretched_fixed 2 e l s m (fun _ => 0) dt He (conj (le_S _ _ (le_n 1)) (le_S _ _ (le_n 2))) rho0 u0 P0 fx0 Hr HP old eps c
      eq_refl (fun _ => eq_refl) Hc Hs Hw).
Qed.
Print Assumptions C31_uniform_flow_on_stretched_mesh_refuted.

(** ** C32 *)

Theorem C32_uniform :
  forall K L A g r c d, k_grav K = GUniform g ->
    make_gravity K L A = Ok (gravity_values K L A) /\ gravity_values K L A r c d = g d.
Proof. intros K L A g r c d H. unfold make_gravity, gravity_values. rewrite H. auto. Qed.
Print Assumptions C32_uniform.

(** Radial, inverse-square, proportional to the mass, attractive. *)
Theorem C32_point_mass :
  forall K L A M r c (d : nat), k_grav K = GPointMass M ->
    let x := mxc (l_mesh L r) 0 (ii c) in
    x <> 0 ->
    gravity_values K L A r c 0%nat * x ^ 2 = - Ggrav * M /\
    (0 < M -> gravity_values K L A r c 0%nat < 0) /\ ((1 <= d)%nat -> gravity_values K L A r c d = 0).
Proof. exact point_mass. Qed.
Print Assumptions C32_point_mass.

(** At every moment of every run, on any process grid it accepts, the internal-mass gravity of every cell is
    that of the mass inside it: the central mass, the full shells below and the lower part of its own
    shell, of the gas of the whole domain. *)
Theorem C32_internal_mass :
  forall K N dims X L, runs_on K N dims X L ->
  forall M G S ts, k_grav K = GInternalMass M -> starts_from K dims L G S ->
  let now := run K L ts (init_state K L S) in
  exists D, slice_of (k_nd K) dims (l_dec L) (fun r => s_cell (now r)) D /\
  forall r c d, process (k_nd K) dims r -> in_array (d_nwg (l_dec L r)) c ->
  s_grav (now r) c d =
  match d with
  | O => let x := mxc (global_mesh X) 0 (ii c) in
         - Ggrav * (if (ii c <? k_ng K)%Z then M
                    else mass_inside (global_mesh X) (k_ng K) M
                           (mean_density (k_geom K) (k_nd K) (k_ng K) N (global_mesh X) (fun c => c_rho (D c))) (ii c)) / (x * x)
  | _ => 0
  end.
Proof. exact run_internal_mass. Qed.
Print Assumptions C32_internal_mass.

(** On a mesh covering all directions, each shell counts for the mass of the gas it holds. *)
Theorem C32_mass_of_the_gas :
  forall nd ng N m M rho i,
    (1 <= nd <= 3)%nat -> (forall d, (d < 3)%nat -> (1 <= coord d N)%Z) ->
    (forall d, (nd <= d)%nat -> (d < 3)%nat -> coord d N = 1%Z) -> whole_sphere nd ng N m ->
    0 <= m 0%nat ng -> (forall j, (ng <= j <= i)%Z -> m 0%nat j < m 0%nat (j + 1)%Z) -> (ng <= i)%Z ->
    let mass j := shell nd ng N (fun c => rho c * dv Spherical nd m c) j in
    mass_inside m ng M (mean_density Spherical nd ng N m rho) i
    = M + lsum mass (zrange ng i)
        + mass i * ((ball (mxc m 0 i) - ball (m 0%nat i)) / (ball (m 0%nat (i + 1)%Z) - ball (m 0%nat i))).
Proof. exact mass_inside_gas. Qed.
Print Assumptions C32_mass_of_the_gas.

(** It starts at the central mass and never decreases outwards. *)
Theorem C32_enclosed_mass_increases :
  forall m ng M rm i i',
    0 <= m 0%nat ng -> (forall j, (ng <= j <= i')%Z -> m 0%nat j <= m 0%nat (j + 1)%Z) ->
    (forall j, (ng <= j <= i')%Z -> 0 <= rm j) -> (ng <= i <= i')%Z ->
    M <= mass_inside m ng M rm i <= mass_inside m ng M rm i'.
Proof. exact mass_inside_mono. Qed.
Print Assumptions C32_enclosed_mass_increases.

(** Radial splitting is refused, and nothing else is. *)
Theorem C32_radial_splitting_refused :
  forall K L A,
  (make_gravity K L A = Ok (gravity_values K L A) <->
     (forall M, k_grav K = GInternalMass M -> ii (l_dims L) = 1%Z)) /\
  ((exists M, k_grav K = GInternalMass M) -> ii (l_dims L) <> 1%Z -> exists msg, make_gravity K L A = Throw msg).
Proof. exact gravity_refusal. Qed.
Print Assumptions C32_radial_splitting_refused.

Example C32_example :
  runs_on gm_K gm_N gm_dims gm_X gm_L /\ k_grav gm_K = GInternalMass 5 /\
  starts_from gm_K gm_dims gm_L (ex_G ex_u) (the_state gm_K gm_L (ex_G ex_u)) /\
  whole_sphere 2 2 gm_N (global_mesh gm_X) /\
  global_mesh gm_X 0%nat 2%Z = 2 /\ forall j, global_mesh gm_X 0%nat j < global_mesh gm_X 0%nat (j + 1)%Z.
Proof.
  exact (conj gm_runs (conj eq_refl (conj (the_state_ok gm_K gm_dims gm_L (ex_G ex_u)) gm_whole))).
Qed.

(** ** C34 *)

(** In every step: "Off" does nothing, "Heat_nickel" adds fx0 rho rate(t) dt to the energy of the owned
    cells and touches nothing else. *)
Theorem C34_effect_of_the_user_step :
  forall K N dims X L t dt S r c, laid_out K N dims X L -> process (k_nd K) dims r ->
  let on := step_user K L t dt S r c in
  let off := step_user (without_user K) L t dt S r c in
  c_rho on = c_rho off /\ c_rhou on = c_rhou off /\ c_fx on = c_fx off /\
  (k_user K = UOff -> on = off) /\
  (k_user K = UHeatNickel -> owned (k_nd K) (k_ng K) (d_nloc (l_dec L r)) c ->
     c_E on = c_E off + c_fx off 0%nat * c_rho off * nickel_rate t * dt) /\
  (~ owned (k_nd K) (k_ng K) (d_nloc (l_dec L r)) c -> on = off).
Proof. exact user_effect. Qed.
Print Assumptions C34_effect_of_the_user_step.

(** The rate is positive, decays, and releases in all one decay energy of 56Ni and one of 56Co per nucleus. *)
Theorem C34_nickel_rate :
  (forall t, 0 < nickel_rate t) /\ (forall t t', t < t' -> nickel_rate t' < nickel_rate t) /\
  (forall T, is_RInt nickel_rate 0 T (nickel_released T)) /\
  is_lim nickel_released p_infty ((Q_ni56 + Q_co56) / m_ni56).
Proof. exact (conj nickel_rate_pos (conj nickel_rate_decays (conj nickel_integral nickel_limit))). Qed.
Print Assumptions C34_nickel_rate.

Example C34_example : laid_out gm_K gm_N gm_dims gm_X gm_L /\ k_user gm_K = UHeatNickel.
Proof. exact (conj (ro_layout gm_runs) eq_refl). Qed.

(** ** C61 *)

(** The half step of the reconstruction transports angular momentum about the axis through the faces of the
    cell, with lever arms at the faces. *)
Theorem C61_half_step :
  forall e m grav dt fp c side ipos, proper_cell 3 m c ->
  let q := to_cons 3 e (fp side ipos) in
  let F p d := p_rho p * p_u p d * p_u p 2%nat + (if Nat.eqb 2 d then p_P p else 0) in
  arm m c * (q_m (hancock_cons Spherical 3 e m grav dt fp c side ipos) 2%nat - q_m q 2%nat - dt * grav c 2%nat * q_rho q)
  = dt / dv Spherical 3 m c * torque m c (fun d => F (fp 0%nat d) d) (fun d => F (fp 1%nat d) d).
Proof. exact half_balance. Qed.
Print Assumptions C61_half_step.

(** The full step: up to a torque that vanishes where the fluxes of the Riemann solver are those of the
    face states of the cell itself. *)
Theorem C61_full_step_partial :
  forall e s m grav dt a r c, proper_cell 3 m c ->
  let FL d := f_m (flux_left s 3 e r c d) 2%nat in
  let FR d := f_m (flux_right s 3 e r c d) 2%nat in
  arm m c * (c_rhou (god_cell Spherical 3 e s m grav dt a r c) 2%nat - c_rhou (a c) 2%nat - dt * grav c 2%nat * c_rho (a c))
  = dt / dv Spherical 3 m c *
    (torque m c FL FR
     + spurious_torque m c FL FR (fun d => to_prim 3 e (r_q r c 0%nat d)) (fun d => to_prim 3 e (r_q r c 1%nat d))).
Proof. exact step_balance. Qed.
Print Assumptions C61_full_step_partial.

(** It does not vanish in general: gas with swirl flowing supersonically into a cell without. *)
Theorem C61_angular_momentum_created_refuted :
  forall dt (a : idx -> cell) (grav : gravity), 0 < dt ->
  let c := I3 0 0 0 in
  let FL d := f_m (flux_left HLL 3 w_eos w_rec c d) 2%nat in
  let FR d := f_m (flux_right HLL 3 w_eos w_rec c d) 2%nat in
  proper_cell 3 w_mesh c /\ (forall c' sd d, valid_cons 3 (r_q w_rec c' sd d)) /\
  arm w_mesh c * (c_rhou (god_cell Spherical 3 w_eos HLL w_mesh grav dt a w_rec c) 2%nat - c_rhou (a c) 2%nat - dt * grav c 2%nat * c_rho (a c))
  > dt / dv Spherical 3 w_mesh c * torque w_mesh c FL FR.
Proof. exact w_spurious. Qed.
Print Assumptions C61_angular_momentum_created_refuted.

(** ** C62 *)

(** The update of a uniform state: Euler fluxes through the faces, gravity and the cell average of the
    curvature source, exactly so for the radial momentum; the two others carry the two errors spelt out. *)
Theorem C62_uniform_state_partial :
  forall nd e s m grav dt a r c q k, (1 <= nd <= 3)%nat -> proper_cell nd m c -> lawful_eos e -> valid_cons nd q ->
  (forall c' sd d, r_q r c' sd d = q) -> (k < nd)%nat ->
  let rr := m 0%nat (ii c) in let rp := m 0%nat (ii c + 1)%Z in
  let th := m 1%nat (jj c) in let thp := m 1%nat (jj c + 1)%Z in
  c_rhou (god_cell Spherical nd e s m grav dt a r c) k
  = c_rhou (a c) k + dt * face_balance nd e m c q k + dt * momentum_source nd e m c q k + dt * grav c k * c_rho (a c)
    + match k with
      | O => 0
      | _ => - dt * mean_inv_r rr rp * (q_rho q * velocity q 0 * velocity q k) * ((rp - rr) / (rp + rr)) ^ 2
      end
    + (if (Nat.eqb k 1 && Nat.eqb nd 3)%bool
       then dt * mean_inv_r rr rp * mean_cot th thp * (q_rho q * velocity q 2 ^ 2)
            * (cos (mxc m 1 (jj c)) / sin (mxc m 1 (jj c)) / 2 - 1)
       else 0).
Proof. exact uniform_update. Qed.
Print Assumptions C62_uniform_state_partial.

(** The centrifugal force of rotating gas on the polar momentum is right only where cot(theta) = 2. *)
Theorem C62_polar_centrifugal_force_refuted :
  forall e s m grav dt a r c q, proper_cell 3 m c -> lawful_eos e -> valid_cons 3 q ->
  (forall c' sd d, r_q r c' sd d = q) -> dt <> 0 -> velocity q 0 = 0 -> velocity q 2 <> 0 ->
  mean_cot (m 1%nat (jj c)) (m 1%nat (jj c + 1)%Z) <> 0 ->
  (c_rhou (god_cell Spherical 3 e s m grav dt a r c) 1%nat
   = c_rhou (a c) 1%nat + dt * face_balance 3 e m c q 1 + dt * momentum_source 3 e m c q 1 + dt * grav c 1%nat * c_rho (a c)
   <-> cos (mxc m 1 (jj c)) / sin (mxc m 1 (jj c)) = 2).
Proof. exact polar_wrong. Qed.
Print Assumptions C62_polar_centrifugal_force_refuted.

Example C62_example :
  proper_cell 3 w_mesh (I3 0 0 0) /\ valid_cons 3 (w_state 1) /\ lawful_eos w_eos /\
  mean_cot (w_mesh 1%nat 0%Z) (w_mesh 1%nat 1%Z) <> 0 /\ cos (mxc w_mesh 1 0) / sin (mxc w_mesh 1 0) <> 2.
Proof. exact (conj w_proper (conj (w_valid 1) (conj ex_eos w_cot))). Qed.

(** ** C64 *)

(** Uniform gas falling in a uniform field: density and acceleration are exact, ... *)
Theorem C64_free_fall :
  forall nd e l s m gv dt, (1 <= nd <= 3)%nat -> forall rho0 u0 P0 fx0 old c,
  let new := updated nd e l s m (fun _ => gv) dt (fun _ => gas nd e rho0 u0 P0 fx0) (fun _ => u0) (fun _ => P0) old c in
  c_rho new = rho0 /\ (forall k, c_rhou new k = rho0 * (u0 k + dt * gv k)) /\
  c_E new = c_E (gas nd e rho0 u0 P0 fx0) + dt * (rho0 * vsum nd (fun k => u0 k * gv k)).
Proof. exact fall_update. Qed.
Print Assumptions C64_free_fall.

(** ... but the gas cools by rho |g|^2 dt^2 / 2 at every step. *)
Theorem C64_free_fall_cools_refuted :
  forall nd e l s m gv dt, (1 <= nd <= 3)%nat -> forall rho0 u0 P0 fx0, 0 < rho0 -> forall old c,
  let x0 := gas nd e rho0 u0 P0 fx0 in
  internal nd (conserved_of (updated nd e l s m (fun _ => gv) dt (fun _ => x0) (fun _ => u0) (fun _ => P0) old c))
  = internal nd (conserved_of x0) - rho0 * vsum nd (fun k => gv k ^ 2) * dt ^ 2 / 2.
Proof. exact fall_internal. Qed.
Print Assumptions C64_free_fall_cools_refuted.
