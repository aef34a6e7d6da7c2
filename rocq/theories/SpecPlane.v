(** * Flows that vary only along the first axes, in runs with more dimensions (C107). *)
From Verif Require Import Base RBase ModelMesh ModelGeom ModelBoundary ModelHydro ModelScheme ModelStep
  SpecGeom SpecBoundary SpecHydro SpecScheme SpecStep SpecFill SpecSym.
Local Open Scope R_scope.

(** The cells [c] and [c'] have the same numbers along the first [nd] axes. *)
Definition above (nd : nat) (c c' : idx) : Prop := forall d, (d < nd)%nat -> coord d c' = coord d c.

(** [v'] has the first [nd] components of [v]; its other ones, up to [nd'], are zero. *)
Definition padded (nd nd' : nat) (v v' : vec) : Prop :=
  (forall d, (d < nd)%nat -> v' d = v d) /\ forall d, (nd <= d < nd')%nat -> v' d = 0.

(** The same run with [k_nd K'] instead of [k_nd K] dimensions.  The conditions on the additional faces are
    arbitrary.  In spherical geometry the pressure fix is off and the solver is HLLC or Low Mach. *)
Record extruded_run (K K' : config) : Prop := {
  xr_nd : (k_nd K <= k_nd K')%nat; xr_geom : k_geom K' = k_geom K; xr_ng : k_ng K' = k_ng K; xr_eos : k_eos K' = k_eos K;
  xr_lim : k_lim K' = k_lim K; xr_sol : k_sol K' = k_sol K; xr_pf : k_pf K' = k_pf K; xr_user : k_user K' = k_user K;
  xr_sph : k_geom K = Spherical -> k_pf K = None /\ k_sol K <> HLL;
  xr_grav : (exists g g', k_grav K = GUniform g /\ k_grav K' = GUniform g' /\ padded (k_nd K) (k_nd K') g g') \/
            (exists M, k_grav K = GPointMass M /\ k_grav K' = GPointMass M);
  xr_bcs : forall f, (f < 2 * k_nd K)%nat -> k_bcs K' f = k_bcs K f;
  xr_order : complete_order (k_nd K) (k_bcs K) (k_order K);
  xr_order' : complete_order (k_nd K') (k_bcs K') (k_order K') }.

(** The meshes agree along the first axes; no cell, ghost cells included, has a zero volume. *)
Definition extruded_mesh (nd : nat) (N N' : idx) (X X' : nat -> arr1) : Prop :=
  forall d, (d < nd)%nat -> coord d N' = coord d N /\ forall i, a_at (X' d) i = a_at (X d) i.
Definition no_flat_cells (K : config) (N : idx) (X : nat -> arr1) : Prop :=
  forall c, (forall d, (d < 3)%nat -> (0 <= coord d c < coord d N + 2 * ghosts (k_nd K) (k_ng K) d)%Z) ->
    dv (k_geom K) (k_nd K) (fun d => a_at (X d)) c <> 0.

(** All the cells have the same width along each of the additional axes. *)
Definition even_along (nd nd' : nat) (X' : nat -> arr1) : Prop :=
  forall d, (nd <= d < nd')%nat -> exists h, forall i, a_at (X' d) (i + 1)%Z - a_at (X' d) i = h.

(** The initial fields vary along the first axes only, and nothing moves along the others. *)
Definition extruded_fields (nd nd' : nat) (N N' : idx) (G G' : gfields) : Prop :=
  forall c c', in_array N c -> in_array N' c' -> above nd c c' ->
    g_rho G' c' = g_rho G c /\ padded nd nd' (g_u G c) (g_u G' c') /\ g_P G' c' = g_P G c /\ forall n, g_fx G' c' n = g_fx G c n.

(** Two states, each on its process grid: cells with the same numbers along the first axes hold the same values. *)
Definition extruded_results (K K' : config) (dims dims' : idx) (L L' : layout) (S S' : idx -> pstate) : Prop :=
  forall r c r' c', process (k_nd K) dims r -> in_array (d_nwg (l_dec L r)) c ->
    process (k_nd K') dims' r' -> in_array (d_nwg (l_dec L' r')) c' ->
    above (k_nd K) (cell_number K L r c) (cell_number K' L' r' c') ->
    let x := s_cell (S r) c in let x' := s_cell (S' r') c' in
    c_rho x' = c_rho x /\ padded (k_nd K) (k_nd K') (c_rhou x) (c_rhou x') /\ c_E x' = c_E x /\ (forall n, c_fx x' n = c_fx x n) /\
    padded (k_nd K) (k_nd K') (s_u (S r) c) (s_u (S' r') c') /\ s_P (S' r') c' = s_P (S r) c.
