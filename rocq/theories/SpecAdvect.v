(** * Vocabulary for flows of uniform velocity and pressure (C76, C77). *)
From Verif Require Import Base RBase ModelMesh ModelGeom ModelBoundary ModelHydro ModelScheme ModelStep SpecGeom SpecBoundary SpecHydro SpecScheme SpecStep.
Local Open Scope R_scope.

(** The internal energy per unit volume depends on the pressure only (as in a perfect gas). *)
Definition energy_of_pressure (e : eos) : Prop :=
  forall rho rho' P, 0 < rho -> 0 < rho' -> 0 < P -> eos_evol e rho P = eos_evol e rho' P.

(** The densities met during the step (face values before and after the half step, updated cells) are positive. *)
Definition positive_densities (K : config) (dims : idx) (L : layout) (dt : R) (S : idx -> pstate) : Prop :=
  forall r, process (k_nd K) dims r ->
    (forall c sd k, sel K L 1 r c = true -> (sd < 2)%nat -> (k < k_nd K)%nat ->
       0 < face_value (k_lim K) (l_mesh L r) (fun c => c_rho (s_cell (S r) c)) c sd k /\
       0 < q_rho (r_q (step_rec K L dt S r) c sd k)) /\
    (forall c, owned (k_nd K) (k_ng K) (d_nloc (l_dec L r)) c -> 0 < c_rho (step_godunov K L dt S r c)).

(** The densities met during every step of the run [ts] from [S]. *)
Fixpoint positive_run (K : config) (dims : idx) (L : layout) (ts : list (R * R)) (S : idx -> pstate) : Prop :=
  match ts with
  | [] => True
  | (t, dt) :: ts' => positive_densities K dims L dt S /\ positive_run K dims L ts' (full_step K L t dt S)
  end.

(** Velocity [u0] and pressure [P0] in every cell of every process, ghost cells included, with momentum and
    energy to match; the densities are positive and otherwise arbitrary. *)
Definition carried (K : config) (dims : idx) (L : layout) (u0 : vec) (P0 : R) (S : idx -> pstate) : Prop :=
  forall r c, process (k_nd K) dims r -> in_array (d_nwg (l_dec L r)) c ->
    let rho := c_rho (s_cell (S r) c) in
    0 < rho /\ (forall k, c_rhou (s_cell (S r) c) k = rho * u0 k) /\
    c_E (s_cell (S r) c) = eos_evol (k_eos K) rho P0 + rho * vsum (k_nd K) (fun d => u0 d ^ 2) / 2 /\
    (forall k, s_u (S r) c k = u0 k) /\ s_P (S r) c = P0.

(** Initial fields with uniform velocity and pressure. *)
Definition carried_fields (u0 : vec) (P0 : R) (G : gfields) : Prop :=
  forall c, 0 < g_rho G c /\ (forall k, g_u G c k = u0 k) /\ g_P G c = P0.

(** Equal cell widths in the first direction, ghost cells included. *)
Definition regular_axis (nglob : idx) (ng : Z) (X : nat -> arr1) (h : R) : Prop :=
  0 < h /\ forall i, (0 <= i < coord 0 nglob + 2 * ng)%Z -> a_at (X 0%nat) (i + 1)%Z - a_at (X 0%nat) i = h.

(** The flow crosses at most the fraction [nu] of any cell during each step of the run. *)
Definition courant_steps (K : config) (dims : idx) (L : layout) (u0 : vec) (nu : R) (ts : list (R * R)) : Prop :=
  forall t dt, In (t, dt) ts -> 0 <= dt /\
    forall r c, process (k_nd K) dims r -> in_array (d_nwg (l_dec L r)) c ->
      dt * vsum (k_nd K) (fun d => Rabs (u0 d) / width (k_geom K) (l_mesh L r) c d) <= nu.

(** The solvers that resolve contacts. *)
Definition contact_solver (s : solver) : Prop := s = HLLC \/ s = LowMach.

(** Condition under which the half-step face densities stay positive. *)
Definition safe_limiter (l : limiter) (nu lo hi : R) : Prop :=
  match l with
  | LConstant | LMinmod => True
  | LVanAlbada => nu <= 1 / 2 \/ hi < 3 * lo
  | LVanLeer => hi < 3 * lo
  end.

(** Every density, ghost cells included, lies in [lo, hi]. *)
Definition density_within (K : config) (dims : idx) (L : layout) (lo hi : R) (S : idx -> pstate) : Prop :=
  forall r c, process (k_nd K) dims r -> in_array (d_nwg (l_dec L r)) c -> lo <= c_rho (s_cell (S r) c) <= hi.

(** No sources, no corrections, Cartesian mesh, and no wall across the flow. *)
Record plain_flow (K : config) (u0 : vec) : Prop := {
  pw_geom : k_geom K = Cartesian;
  pw_pf : k_pf K = None;
  pw_user : k_user K = UOff;
  pw_grav : weightless K;
  pw_wall : forall f, (f < 2 * k_nd K)%nat -> k_bcs K f = Reflexive -> u0 (f / 2)%nat = 0 }.
Arguments pw_geom {K u0} _.
Arguments pw_pf {K u0} _.
Arguments pw_user {K u0} _.
Arguments pw_grav {K u0} _.
Arguments pw_wall {K u0} _.
