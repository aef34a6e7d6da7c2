(** * From the parameter file to runs with boundary conditions of the setup (C101). *)
From Coq Require Import Ascii Reals.
From Coq Require String.
From Verif Require Import Base RBase ModelMesh ModelGeom ModelBoundary ModelHydro ModelRad ModelScheme ModelStep ModelUtil ModelIni ModelMain ModelSetup ModelParam ModelUser ModelUserRun
  SpecMesh SpecBoundary SpecScheme SpecStep SpecSetup SpecIni SpecParam SpecUser.
Local Open Scope string_scope.
Local Open Scope Z_scope.
Local Open Scope list_scope.

(** The operators named in the file, as [chosen]; a face may have the condition of the setup. *)
Record own_chosen (b : build) (T : list entry) (p : param) (bc : nat -> choice bcond) (g : gas) (lim : limiter) (sol : solver) (user : user_kind) : Prop := {
  oc_gas : exists ga mu, pm_gamma p = Finite ga /\ pm_mu p = Finite mu /\ (1 < ga)%R /\ (0 < mu)%R /\ gas_is (b_eos b) ga mu g;
  oc_bc : Forall2 (fun e f => exists w, lit w = face_value T e /\ named bc_table w (bc f))
            (firstn (2 * b_nd b) face_names) (seq 0 (2 * b_nd b));
  oc_lim : named limiter_table (pm_reconstruction p) lim;
  oc_sol : named solver_table (pm_riemann p) sol;
  oc_user : named user_table (pm_user_step p) (Builtin user) }.

(** Some face has the condition of the setup; the setup has one. *)
Definition wants_own (nd : nat) (bc : nat -> choice bcond) : Prop := exists f, (f < 2 * nd)%nat /\ bc f = FromSetup.
Definition offers_own (s : setup) : Prop :=
  (exists rho0 u0 T0, s = SStratifiedAtm rho0 u0 T0) \/ (exists rho0 u0 T0 M, s = SEqHydroSphe rho0 u0 T0 M).

(** The processes [dims] and the layout [L] execute the run that the file describes, with the coordinates [X], the
    operators [K] and the conditions [U] of the setup. *)
Record own_executes (b : build) (f : bytes) (p : param) (lo hi : nat -> R) (bc : nat -> choice bcond) (g : gas) (lim : limiter) (sol : solver)
  (user : user_kind) (amp : R * R * R * R) (s : setup) (cfl : R) (P : params)
  (X : nat -> arr1) (K : ModelStep.config) (U : own_bounds) (dims : idx) (L : layout) : Prop := {
  oe_start : forall r, process (b_nd b) dims r -> exists x, startup b dims r (Some f) = Ok x /\ r_param x = p /\ r_gas x = g;
  oe_usable : usable b p dims lo hi;
  oe_gas : exists ga mu, pm_gamma p = Finite ga /\ pm_mu p = Finite mu /\ (1 < ga)%R /\ (0 < mu)%R /\ gas_is (b_eos b) ga mu g;
  oe_geom : k_geom K = b_geom b;
  oe_nd : k_nd K = b_nd b;
  oe_ng : k_ng K = pm_ng p;
  oe_lim : k_lim K = lim;
  oe_sol : k_sol K = sol;
  oe_user : k_user K = user;
  oe_eos : k_eos K = match g with PGas g => pg_eos g | RGas g => rg_eos g end;
  oe_pf : if String.eqb (pm_pressure_fix p) "On" then exists eps, pm_eps_pf p = Finite eps /\ k_pf K = Some eps else k_pf K = None;
  oe_bcs : forall i c, (i < 2 * b_nd b)%nat -> bc i = Builtin c -> ob_face U i = false /\ k_bcs K i = c;
  oe_own : forall i, (i < 2 * b_nd b)%nat -> bc i = FromSetup -> ob_face U i = true;
  oe_setup : ob_setup U = s;
  oe_thermo : ob_th U = match g with PGas g => pg_thermo g | RGas g => rg_thermo g end;
  oe_order : k_order K = seq 0 (2 * b_nd b);
  oe_grav : match b_grav b with
            | UniformGrav => exists gv, k_grav K = GUniform gv /\ pm_gx0 p = Finite (gv 0%nat) /\ pm_gx1 p = Finite (gv 1%nat) /\
                               forall d, (2 <= d)%nat -> pm_gx2 p = Finite (gv d)
            | PointMassGrav => exists M, pm_M p = Finite M /\ k_grav K = GPointMass M
            | InternalMassGrav => exists M, pm_M p = Finite M /\ k_grav K = GInternalMass M
            end;
  oe_runs : runs_on K (I3 (pm_nx0 p) (pm_nx1 p) (pm_nx2 p)) dims X L;
  oe_coords : forall d i, (d < 3)%nat ->
    a_at (X d) i = (lo d + IZR (i - (if Nat.ltb d (b_nd b) then pm_ng p else 0%Z)) * ((hi d - lo d) / IZR (nth d [pm_nx0 p; pm_nx1 p; pm_nx2 p] 0%Z)))%R;
  oe_program : forall clock n,
    let N := I3 (pm_nx0 p) (pm_nx1 p) (pm_nx2 p) in
    own_program b dims (Some f) amp clock n =
    Ok (Some (loop (own_hydro K N L U cfl) P clock n (fresh P (own_init K N L U
      (setup_state s K (match g with PGas g => pg_thermo g | RGas g => rg_thermo g end) N L))))) }.
