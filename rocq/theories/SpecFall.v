(** * Specification vocabulary: a uniform gas falling in a uniform field over whole runs (C103). *)
From Verif Require Import Base RBase ModelMesh ModelGeom ModelBoundary ModelHydro ModelScheme ModelStep SpecMesh SpecBoundary SpecStep SpecSetup.
Local Open Scope R_scope.

(** A perfect gas on a Cartesian grid under the uniform gravity [gv]: any limiter, solver and process grid, no pressure
    correction, nothing user-defined.  A wall may only stand where neither the velocity [u] nor gravity has a component. *)
Record falling_run (K : config) (N dims : idx) (X : nat -> arr1) (L : layout) (gas : perfect_gas) (gv u : vec) : Prop := {
  fr_runs : runs_on K N dims X L;
  fr_gas : valid_gas gas;
  fr_eos : k_eos K = pg_eos gas;
  fr_geom : k_geom K = Cartesian;
  fr_pf : k_pf K = None;
  fr_user : k_user K = UOff;
  fr_grav : k_grav K = GUniform gv;
  fr_walls : forall f, (f < 2 * k_nd K)%nat -> k_bcs K f = Reflexive -> u (f / 2)%nat = 0 /\ gv (f / 2)%nat = 0 }.

(** The same gas everywhere. *)
Definition same_everywhere (G : gfields) (rho : R) (u : vec) (P : R) : Prop :=
  forall c, g_rho G c = rho /\ (forall k, g_u G c k = u k) /\ g_P G c = P.

(** All cells, ghost cells included, are between [w d] and [W d] wide. *)
Definition widths_within (nd : nat) (N : idx) (ng : Z) (X : nat -> arr1) (w W : nat -> R) : Prop :=
  forall d, (d < nd)%nat -> 0 < w d /\
  forall i, (0 <= i < coord d N + 2 * ghosts nd ng d)%Z -> w d <= a_at (X d) (i + 1)%Z - a_at (X d) i <= W d.

(** Sums over the steps ([start], duration) of a run. *)
Definition elapsed (ts : list (R * R)) : R := fold_right (fun x s => snd x + s) 0 ts.
Definition squares (ts : list (R * R)) : R := fold_right (fun x s => snd x * snd x + s) 0 ts.

(** How often the gas crosses a cell per unit of time, at the speeds [s]; the square of a vector. *)
Definition crossings (nd : nat) (w : nat -> R) (s : nat -> R) : R := vsum nd (fun d => s d / w d).
Definition norm2 (nd : nat) (v : vec) : R := vsum nd (fun d => v d * v d).

(** The gas at the start crosses a cell [start_rate] times per unit of time, and [fall_rate] times more often after each
    further unit of time; while the rate grows by a factor e, at least [cooling] of internal energy per volume is lost. *)
Definition start_rate (nd : nat) (gas : perfect_gas) (w : nat -> R) (rho : R) (u : vec) (P : R) : R :=
  crossings nd w (fun d => Rabs (u d) + sqrt (pg_gamma gas * P / rho)).
Definition fall_rate (nd : nat) (w : nat -> R) (gv : vec) : R := crossings nd w (fun d => Rabs (gv d)).
Definition cooling (nd : nat) (w : nat -> R) (rho : R) (gv : vec) (cfl : R) : R := rho * norm2 nd gv / 2 * cfl / fall_rate nd w gv.

(** The time the internal energy [P / (gamma - 1)] lasts at most. *)
Definition lifetime (nd : nat) (gas : perfect_gas) (w : nat -> R) (rho : R) (u : vec) (P : R) (gv : vec) (cfl : R) : R :=
  start_rate nd gas w rho u P / fall_rate nd w gv * (exp (P / (pg_gamma gas - 1) / cooling nd w rho gv cfl) - 1).
(** No step is longer than this, if no cell is wider than [W]. *)
Definition longest_step (nd : nat) (gas : perfect_gas) (w W : nat -> R) (rho : R) (u : vec) (P : R) (gv : vec) (cfl : R) : R :=
  cfl / start_rate nd gas W rho u P + start_rate nd gas w rho u P / fall_rate nd W gv.
(** No more than this many steps fit into the lifetime. *)
Definition steps_bound (nd : nat) (gas : perfect_gas) (w : nat -> R) (rho : R) (u : vec) (P : R) (gv : vec) (cfl : R) : R :=
  let T := lifetime nd gas w rho u P gv cfl in
  T * (start_rate nd gas w rho u P + fall_rate nd w gv * T) / cfl.
