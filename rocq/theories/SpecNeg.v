(** * Vocabulary of C104. *)
From Verif Require Import Base RBase ModelMesh ModelGeom ModelBoundary ModelHydro ModelScheme ModelStep ModelMain SpecGeom SpecBoundary SpecHydro SpecStep.
Local Open Scope R_scope.

(** The pressure is at most density times the square of the sound speed. *)
Definition pressure_below_sound (e : eos) : Prop := forall rho P, 0 < rho -> 0 < P -> P <= rho * eos_sound e rho P ^ 2.

(** A run of [N] = 3 cells of width 1 on one process, one-dimensional, closed by null-gradient faces, no sources, first order,
    perfect gas. *)
Record three_cells (s : solver) (K : config) (N dims : idx) (X : nat -> arr1) (L : layout) : Prop := {
  tc_runs : runs_on K N dims X L;
  tc_nd : k_nd K = 1%nat;
  tc_N : N = I3 3 1 1;
  tc_geom : k_geom K = Cartesian;
  tc_sol : k_sol K = s;
  tc_lim : k_lim K = LConstant;
  tc_pf : k_pf K = None;
  tc_user : k_user K = UOff;
  tc_bcs : forall f, (f < 2)%nat -> k_bcs K f = NullGradient;
  tc_grav : k_grav K = GUniform (fun _ => 0);
  tc_eos : exists g, k_eos K = pg_eos g /\ 1 < pg_gamma g /\ 0 < pg_mmw g;
  tc_width : forall i, a_at (X 0%nat) (i + 1)%Z - a_at (X 0%nat) i = 1 }.

(** The same run with another Riemann solver. *)
Definition with_solver (s : solver) (K : config) : config :=
  mkConfig (k_geom K) (k_nd K) (k_ng K) (k_eos K) (k_lim K) s (k_pf K) (k_user K) (k_grav K) (k_bcs K) (k_order K).
