(** * Specification vocabulary: one step of the first-order scheme on an isothermal atmosphere at rest (C102). *)
From Verif Require Import Base RBase ModelMesh ModelGeom ModelBoundary ModelHydro ModelScheme ModelStep ModelSetup ModelUser SpecMesh SpecStep SpecSetup SpecUser.
Local Open Scope R_scope.

(** P / rho of an ideal gas at temperature [T0]. *)
Definition isothermal (gas : perfect_gas) (T0 : R) : R := kb * T0 / (pg_mmw gas * mp).

(** Cells of the same width in the first direction. *)
Definition evenly_spaced (X : nat -> arr1) (N : idx) (ng : Z) (h : R) : Prop :=
  forall i, (0 <= i < ii N + 2 * ng)%Z -> a_at (X 0%nat) (i + 1)%Z - a_at (X 0%nat) i = h.

(** A constant acceleration [g] towards the left, nothing in the other directions. *)
Definition downward (nd : nat) (f : nat -> R) (g : R) : Prop :=
  f 0%nat = - g /\ forall d, (0 < d < nd)%nat -> f d = 0.

(** The setup stratified_atm without initial velocity, its own conditions on both faces of the first direction, gravity
    [g] towards the left, even Cartesian cells of width [h]; the first-order scheme with HLL, nothing else switched on. *)
Record atmosphere_run (K : config) (N dims : idx) (X : nat -> arr1) (L : layout) (U : own_bounds) (gas : perfect_gas) (rho0 T0 g h : R) : Prop := {
  ar_runs : runs_on K N dims X L;
  ar_gas : valid_gas gas;
  ar_eos : k_eos K = pg_eos gas;
  ar_th : ob_th U = pg_thermo gas;
  ar_setup : ob_setup U = SStratifiedAtm rho0 0 T0;
  ar_rho0 : 0 < rho0;
  ar_T0 : 0 < T0;
  ar_faces : forall f, (f < 2)%nat -> ob_face U f = true /\ In f (k_order K);
  ar_geom : k_geom K = Cartesian;
  ar_lim : k_lim K = LConstant;
  ar_sol : k_sol K = HLL;
  ar_pf : k_pf K = None;
  ar_user : k_user K = UOff;
  ar_grav : exists f, k_grav K = GUniform f /\ downward (k_nd K) f g;
  ar_g : 0 < g;
  ar_coords : increasing (k_nd K) N (k_ng K) X;
  ar_even : evenly_spaced X N (k_ng K) h }.
Definition atmosphere_start (K : config) (N : idx) (L : layout) (U : own_bounds) (gas : perfect_gas) : idx -> pstate :=
  own_init K N L U (setup_state (ob_setup U) K (pg_thermo gas) N L).

(** The numbers of one step of duration [dt]: gas with adiabatic index [gam] and P / rho = [a], cells of width [h]. *)
Section Numbers.
Variables (gam a g h dt : R).
(** Velocity, P / rho and sound speed of the gas after half a step. *)
Definition half_u : R := - g * dt / 2.
Definition half_a : R := a - (gam - 1) * (half_u * half_u) / 2.
Definition half_c : R := sqrt (gam * half_a).
(** Cells per scale height: [h] / (a / g). *)
Definition thickness : R := h * g / a.
Definition subsonic : Prop := half_u * half_u < gam * half_a.

(** What one step makes of the density, the momentum and the energy, each per density before the step. *)
Definition new_mass : R := 1 + dt / h * (half_u * sinh thickness + half_c * (cosh thickness - 1)).
Definition new_momentum : R :=
  dt * (((half_u * half_u + half_a) * sinh thickness + half_u * (half_a + half_c * half_c) / half_c * (cosh thickness - 1)) / h - g).
Definition new_energy : R :=
  let e := a / (gam - 1) in
  e + dt / h * (half_u * (e + half_a) * sinh thickness + (half_u * half_u * half_a / half_c + half_c * e) * (cosh thickness - 1)).
End Numbers.
