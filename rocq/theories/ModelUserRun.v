(** * From the parameter file to runs with boundary conditions of the setup (src/main.cpp:57-585).

    As [program] of ModelParam.v, for runs whose faces may be "UserDefined". *)
From Coq Require Import Ascii Reals.
From Verif Require Import Base RBase ModelMesh ModelGeom ModelBoundary ModelHydro ModelScheme ModelStep ModelUtil ModelIni ModelMain ModelSetup ModelParam ModelUser.
Local Open Scope string_scope.
Local Open Scope Z_scope.
Local Open Scope list_scope.

(** src/main.cpp:271-272 *)
Definition own_faces (r : run) (f : nat) : bool :=
  match nth f (r_bcs r) (Builtin NullGradient) with FromSetup => true | Builtin _ => false end.
Definition bounds_of (s : setup) (r : run) : own_bounds := mkOwn s (gas_thermo (r_gas r)) (own_faces r).

(** The runs composed here: new, on the regular grid, without moving grid and user step of the setup header, with finite
    numbers. *)
Definition own_composed (r : run) : bool :=
  let p := r_param r in
  match r_grid r with Some g => is_builtin g | None => false end && is_builtin (r_user r) && negb (r_shift r) &&
  forallb finite_number ([pm_x0min p; pm_x0max p; pm_x1min p; pm_x1max p; pm_x2min p; pm_x2max p; pm_t_ini p; pm_t_end p; pm_cfl p;
    pm_time_freq p; pm_time_first p; pm_gx0 p; pm_gx1 p; pm_gx2 p; pm_M p; pm_eps_pf p] ++ r_setup r).

(** The class BoundarySetup of the setup: stratified_atm/setup.hpp:100-161, eq_hydro_sphe/setup.hpp:93-152; the others have
    that of src/default_boundary_setup.hpp:19-35, whose [execute] throws. *)
Definition has_bounds (s : setup) : bool := match s with SStratifiedAtm _ _ _ | SEqHydroSphe _ _ _ _ => true | _ => false end.
(** Process [r] calls [execute] of the class (src/boundary_distribute.hpp:69-75). *)
Definition calls_bounds (K : config) (L : layout) (U : own_bounds) (r : idx) : bool :=
  existsb (fun f => ob_face U f && is_border (l_dims L) r (Nat.div f 2) (Nat.modulo f 2)) (k_order K).

(** [amp]: the random amplitudes of rayleigh_taylor3d.  None: not composed here.  The exception is that of one of the
    processes; the others may be left waiting (C85). *)
Definition own_program (b : build) (dims : idx) (file : option bytes) (amp : R * R * R * R) (clock : Z -> bool) (n : nat)
  : outcome (option (mstate (idx -> pstate) * verdict)) :=
  let '(ak, bk, ck, dk) := amp in
  obind (startup b dims (I3 0 0 0) file) (fun r0 =>
  if negb (own_composed r0) then Ok None else
  match setup_of b r0 ak bk ck dk with
  | None => Ok None
  | Some s =>
      let K := config_of b r0 in
      let N := extents (r_param r0) in
      let L := layout_of b dims (program_runs b dims file r0) in
      let U := bounds_of s r0 in
      let P := params_of r0 in
      obind (initialise s K (gas_thermo (r_gas r0)) N L) (fun st =>
      if existsb (calls_bounds K L U) (ranks (l_dims L)) && negb (has_bounds s) then Throw "Boundary setup not implemented" else
      Ok (Some (loop (own_hydro K N L U (value_of (pm_cfl (r_param r0)))) P clock n (fresh P (own_init K N L U st)))))
  end).
