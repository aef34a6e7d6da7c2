(** * Runs with the boundary conditions of the setup (C100). *)
From Verif Require Import Base RBase ModelMesh ModelGeom ModelBoundary ModelHydro ModelScheme ModelStep ModelSetup ModelMain
  SpecMesh SpecBoundary SpecStep SpecSetup.
Local Open Scope R_scope.

(** The gravity only depends on the mesh. *)
Definition mesh_gravity (K : config) : Prop := match k_grav K with GInternalMass _ => False | _ => True end.

(** The object [g] of the class Gravity was made from the mesh of process [r] and from some density. *)
Definition made_on (K : config) (L : layout) (r : idx) (g : gravity) : Prop := exists A, g = gravity_values K L A r.

(** The face [f] (= 2 direction + side) is a border of process [r], and [c] is one of the ghost cells beyond it. *)
Definition beyond (K : config) (L : layout) (f : nat) (r c : idx) : Prop :=
  is_border (l_dims L) r (Nat.div f 2) (Nat.modulo f 2) = true /\
  in_face (d_nwg (l_dec L r)) (k_ng K) (Nat.div f 2) (Nat.modulo f 2) c.

(** The cell holds the conservative variables of a gas at rest with the density and pressure of [v]. *)
Definition at_rest_with (nd : nat) (gas : perfect_gas) (v : icell) (w : cell) : Prop :=
  c_rho w = i_rho v /\ (forall k, (k < nd)%nat -> c_rhou w k = 0) /\ c_E w = pg_evol_from_pres gas (i_rho v) (i_P v).
