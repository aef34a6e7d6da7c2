(** * Vocabulary for the positivity of density and internal energy (C36). *)
From Verif Require Import Base RBase ModelMesh ModelGeom ModelBoundary ModelHydro ModelScheme ModelStep ModelMain
  SpecGeom SpecBoundary SpecHydro SpecScheme SpecStep.
Local Open Scope R_scope.

(** The sound speed is large enough for the pressure work never to exhaust the internal energy: sqrt(rho / 2 eps) P < rho c. *)
Definition robust_eos (e : eos) : Prop :=
  forall rho P, 0 < rho -> 0 < P -> P ^ 2 < 2 * rho * eos_sound e rho P ^ 2 * eos_evol e rho P.

(** Neighbouring cells have widths in a ratio of at most [q]; [q = 1] is the uniform mesh. *)
Definition graded (nd : nat) (nglob : idx) (ng : Z) (X : nat -> arr1) (q : R) : Prop :=
  forall d i, (d < nd)%nat -> (0 <= i)%Z -> (i + 1 < coord d nglob + 2 * ng)%Z ->
    let wd j := a_at (X d) (j + 1)%Z - a_at (X d) j in
    wd i <= q * wd (i + 1)%Z /\ wd (i + 1)%Z <= q * wd i.

(** First-order scheme on a Cartesian mesh without sources. *)
Record first_order (K : config) : Prop := {
  fo_geom : k_geom K = Cartesian;
  fo_lim : k_lim K = LConstant;
  fo_pf : k_pf K = None;
  fo_user : k_user K = UOff;
  fo_grav : weightless K }.
Arguments fo_geom {K} _.
Arguments fo_lim {K} _.
Arguments fo_pf {K} _.
Arguments fo_user {K} _.
Arguments fo_grav {K} _.

(** The CFL number allowed by the solver: 1 / (ndim q) for HLL, half of it for HLLC. *)
Definition cfl_allowed (K : config) (q cfl : R) : Prop :=
  0 < cfl /\ 1 <= q /\
  match k_sol K with
  | HLL => INR (k_nd K) * q * cfl <= 1
  | HLLC => 2 * INR (k_nd K) * q * cfl <= 1
  | LowMach => False
  end.

(** Every cell of every process, ghost cells included, has positive density, internal energy and pressure. *)
Definition physical (K : config) (dims : idx) (L : layout) (S : idx -> pstate) : Prop :=
  forall r c, process (k_nd K) dims r -> in_array (d_nwg (l_dec L r)) c ->
    valid_cons (k_nd K) (cons_of (s_cell (S r) c)) /\ 0 < s_P (S r) c.
