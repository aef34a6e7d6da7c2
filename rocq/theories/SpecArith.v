(** * Vocabulary for results that hold in every arithmetic (C86-C89). *)
From Verif Require Import Base RBase ModelMesh ModelGeom ModelBoundary ModelHydro ModelScheme ModelStep ModelArith
  SpecBoundary SpecHydro SpecStep.
Local Open Scope R_scope.

(** Gravity is uniform or that of a point mass. *)
Definition local_gravity (K : config) : Prop := forall M, k_grav K <> GInternalMass M.

(** On the numbers satisfying [good], [<] is a strict total order (in binary64: every number that is neither
    NaN nor -0). *)
Record ordered (A : arith) (good : R -> Prop) : Prop := {
  ord_irrefl : forall x, good x -> a_lt A x x = false;
  ord_trans : forall x y z, good x -> good y -> good z -> a_lt A x y = true -> a_lt A y z = true -> a_lt A x z = true;
  ord_total : forall x y, good x -> good y -> a_lt A x y = false -> a_lt A y x = false -> x = y }.

(** Every inverse time step a single process meets during the run is [good]. *)
Inductive good_run (A : arith) (good : R -> Prop) (K : config) (L : layout) (cfl : R) : nat -> R -> (idx -> pstate) -> Prop :=
| good_end t S : good_run A good K L cfl 0 t S
| good_step n t S :
    (forall x, In x (all_values K L (k_ng K) (acell_inverse_dt A K L S)) -> good x) ->
    (forall v, reduces A (all_values K L (k_ng K) (acell_inverse_dt A K L S)) v ->
       let dt := a_mul A cfl (a_div A (a_lit A 1 0) v) in
       good_run A good K L cfl n (a_add A t dt) (afull_step A K L t dt S)) ->
    good_run A good K L cfl (Datatypes.S n) t S.

(** ** Uniform flow (C88) *)

(** Adding or subtracting [z] changes no [plain] number. *)
Definition negligible (A : arith) (plain : R -> Prop) (z : R) : Prop :=
  forall x, plain x -> a_add A x z = x /\ a_sub A x z = x.

(** What binary64 shares with the reals: the difference of equal finite numbers is 0, multiples of 0 are
    negligible. *)
Record cancelling (A : arith) (finite plain : R -> Prop) : Prop := {
  can_sub : forall x, finite x -> a_sub A x x = a_lit A 0 0;
  can_mul : forall x, finite x -> negligible A plain (a_mul A x (a_lit A 0 0));
  can_pull : forall x y, finite x -> finite y -> negligible A plain (a_mul A (a_mul A x (a_lit A 0 0)) y);
  can_slopes : forall a b, a_lt A (a_lit A 0 0) (a_mul A (a_div A (a_lit A 0 0) a) (a_div A (a_lit A 0 0) b)) = false }.

(** Velocity and pressure of a cell, and the conservative values computed back from them. *)
Definition cell_prim (A : arith) (K : config) (x : cell) : prim := ato_prim A (k_nd K) (k_eos K) (cons_of x).
Definition cell_back (A : arith) (K : config) (x : cell) : cons := ato_cons A (k_nd K) (k_eos K) (cell_prim A K x).

(** All components of a flux through a face of area [ds] are [finite]. *)
Definition flux_finite (A : arith) (finite : R -> Prop) (f : flux) (fx : vec) (ds : R) : Prop :=
  finite (a_mul A (f_rho f) ds) /\ (forall d, finite (a_mul A (f_m f d) ds)) /\ finite (a_mul A (f_E f) ds) /\
  (forall n, finite (a_mul A (a_mul A (fx n) (f_rho f)) ds)).

(** What a uniform step makes of a scalar, and of a cell: the scalar is multiplied by the density, divided by
    it and clamped to [0, 1]; all else stays. *)
Definition carried (A : arith) (x : cell) (n : nat) : R := a_div A (a_mul A (c_fx x n) (c_rho x)) (c_rho x).
Definition next_cell (A : arith) (x : cell) : cell :=
  mkCell (c_rho x) (c_rhou x) (c_E x)
    (fun n => if a_lt A (carried A x n) (a_lit A 0 0) then a_lit A 0 0
              else if a_lt A (a_lit A 1 0) (carried A x n) then a_lit A 1 0 else carried A x n).

(** A uniform flow of cells [x] in which no number overflows during a step [dt]. *)
Record calm (A : arith) (finite plain : R -> Prop) (K : config) (dims : idx) (L : layout) (x : cell) (dt : R) : Prop := {
  calm_cell : plain (c_rho x) /\ (forall d, plain (c_rhou x d)) /\ plain (c_E x);
  calm_prim : (forall d, plain (p_u (cell_prim A K x) d)) /\ plain (p_P (cell_prim A K x));
  calm_back : (forall d, plain (q_m (cell_back A K x) d)) /\ plain (q_E (cell_back A K x));
  calm_finite : finite (c_rho x) /\ (forall d, finite (p_u (cell_prim A K x) d)) /\ finite (p_P (cell_prim A K x)) /\
    (forall d, finite (c_rhou x d)) /\ (forall d, finite (q_m (cell_back A K x) d)) /\ (forall n, finite (c_fx x n)) /\
    finite dt /\ finite (a_div A dt (a_lit A 2 0));
  calm_scalars : forall n, plain (c_fx x n) /\ plain (a_mul A (c_fx x n) (c_rho x));
  calm_mesh : forall r c d, process (k_nd K) dims r -> in_array (d_nwg (l_dec L r)) c -> (d < k_nd K)%nat ->
    let m := l_mesh L r in
    let dv := adv A (k_geom K) (k_nd K) m c in
    let ds := ads A (k_geom K) (k_nd K) m c d in
    finite (a_div A dt dv) /\ finite (a_div A (a_div A dt (a_lit A 2 0)) dv) /\
    finite (a_div A (acell_width A m c d) (a_lit A 2 0)) /\
    flux_finite A finite (aflux_prim A (k_nd K) (k_eos K) (cell_prim A K x) d) (c_fx x) ds /\
    flux_finite A finite (ariemann A (k_sol K) (k_nd K) (k_eos K) (cell_back A K x) (cell_back A K x) d) (carried A x) ds }.

(** Every cell of every process, ghosts included, holds exactly [x] and its velocity and pressure. *)
Definition filled_with (A : arith) (K : config) (dims : idx) (L : layout) (x : cell) (S : idx -> pstate) : Prop :=
  forall r c, process (k_nd K) dims r -> in_array (d_nwg (l_dec L r)) c ->
    s_cell (S r) c = x /\ s_u (S r) c = p_u (cell_prim A K x) /\ s_P (S r) c = p_P (cell_prim A K x).

(** Cartesian geometry, no walls, no gravity, no heating, pressure fix off or not triggered. *)
Record free_flow (A : arith) (K : config) (x : cell) : Prop := {
  ff_geom : k_geom K = Cartesian;
  ff_walls : forall f, (f < 2 * k_nd K)%nat -> k_bcs K f <> Reflexive;
  ff_grav : exists g, k_grav K = GUniform g /\ forall d, g d = a_lit A 0 0;
  ff_user : k_user K = UOff;
  ff_pf : forall eps, k_pf K = Some eps -> a_lt A (aeint A (k_nd K) x) (a_mul A eps (aek_cons A (k_nd K) (cons_of x))) = false }.
