(** * Runs with the boundary conditions of the setup (src/main.cpp:267-278).

    Faces named "UserDefined" in the parameter file get the class BoundarySetup of the setup; the other faces, the order
    of application and everything else are as in ModelStep.v and ModelMain.v. *)
From Verif Require Import Base RBase ModelMesh ModelGeom ModelBoundary ModelHydro ModelScheme ModelStep ModelSetup ModelMain.
Local Open Scope R_scope.

(** The setup with its parameters, the equation of state given to BoundarySetup, and the faces "UserDefined". *)
Record own_bounds : Type := mkOwn { ob_setup : setup; ob_th : thermo; ob_face : nat -> bool }.

Section User.
Variables (K : config) (N : idx) (L : layout) (U : own_bounds).

(** What BoundarySetup::execute reads on process [r]; [g] is the gravity object of the call. *)
Definition bound_env (g : gravity) (r : idx) : senv := mkEnv (k_geom K) (k_nd K) (ob_th U) (l_mesh L r) r N g.

(** src/boundary_distribute.hpp:69-75 *)
Definition own_step (g : idx -> gravity) (W : world cell) (f : nat) : world cell :=
  if ob_face U f then
    fun r => if is_border (l_dims L) r (Nat.div f 2) (Nat.modulo f 2)
             then user_condition (ob_setup U) (bound_env (g r) r) (d_nwg (l_dec L r)) (k_ng K) (Nat.div f 2) (Nat.modulo f 2) (W r)
             else W r
  else bc_step (l_dims L) (fun r => d_nwg (l_dec L r)) (k_ng K) (k_bcs K) W f.

(** src/boundary_distribute.hpp:42-76, called in main.cpp:307 and 479 with the gravity object of that moment. *)
Definition own_update (g : idx -> gravity) (W : world cell) : world cell :=
  fold_left (own_step g) (k_order K) (sync_dims (l_dims L) (fun r => d_nwg (l_dec L r)) (k_ng K) (k_nd K) W).

(** src/main.cpp:427-528, as [full_step]. *)
Definition own_full_step (t dt : R) (S : idx -> pstate) : idx -> pstate :=
  let A := own_update (fun r => s_grav (S r)) (step_user K L t dt S) in
  finish K L A (step_rec K L dt S) A S.

(** src/main.cpp:305-311, as [init_state]. *)
Definition own_init (S : idx -> pstate) : idx -> pstate :=
  let A := own_update (fun r => s_grav (S r)) (init_cons K L S) in
  finish K L A (fun r => s_rec (S r)) (fun r => s_new (S r)) S.

(** The loop of main.cpp, as [hydro]. *)
Definition own_hydro (cfl : R) : dynamics (idx -> pstate) :=
  mkDyn (y_dt (hydro K L cfl)) (y_bad (hydro K L cfl)) own_full_step.
End User.
