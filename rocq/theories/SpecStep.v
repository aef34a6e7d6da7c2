(** * Vocabulary for whole time steps on a process grid (C20, C22-C27, C32, C35). *)
From Coq Require Import Permutation.
From Verif Require Import Base RBase ModelMesh ModelGeom ModelBoundary ModelHydro ModelScheme ModelStep SpecGeom SpecBoundary SpecHydro SpecScheme.
Local Open Scope R_scope.

(** Coordinates of a process that exists. *)
Definition process (nd : nat) (dims r : idx) : Prop :=
  forall d, (d < 3)%nat -> (0 <= coord d r < coord d (mpi_dims nd dims))%Z.

(** [L] is what Grid's constructor and set_grid leave on the processes of the process grid [dims], for a mesh
    of [nglob] cells with the global interface coordinates [X]. *)
Record laid_out (K : config) (nglob dims : idx) (X : nat -> arr1) (L : layout) : Prop := {
  lo_dec : decomposed (k_nd K) nglob dims (k_ng K) (l_dec L);
  lo_dims : l_dims L = mpi_dims (k_nd K) dims;
  lo_coords : global_coords (k_nd K) nglob (k_ng K) X;
  lo_mesh : forall r, process (k_nd K) dims r -> set_grid (l_dec L r) X = Ok (l_mesh L r) }.
Arguments lo_dec {K nglob dims X L} _.
Arguments lo_dims {K nglob dims X L} _.
Arguments lo_coords {K nglob dims X L} _.
Arguments lo_mesh {K nglob dims X L} _ {r} _.

(** The initial (or restart) primitive fields, globally numbered. *)
Record gfields : Type := mkG { g_rho : field3; g_u : field4; g_P : field3; g_fx : field4 }.

(** The owned cells of every process hold the global fields; everything else is arbitrary. *)
Record starts_from (K : config) (dims : idx) (L : layout) (G : gfields) (S : idx -> pstate) : Prop := {
  sf_rho : holds_owned (k_nd K) dims (k_ng K) (l_dec L) (g_rho G) (fun r c => c_rho (s_cell (S r) c));
  sf_fx : holds_owned (k_nd K) dims (k_ng K) (l_dec L) (g_fx G) (fun r c => c_fx (s_cell (S r) c));
  sf_u : holds_owned (k_nd K) dims (k_ng K) (l_dec L) (g_u G) (fun r c => s_u (S r) c);
  sf_P : holds_owned (k_nd K) dims (k_ng K) (l_dec L) (g_P G) (fun r c => s_P (S r) c) }.
Arguments sf_rho {K dims L G S} _.
Arguments sf_fx {K dims L G S} _.
Arguments sf_u {K dims L G S} _.
Arguments sf_P {K dims L G S} _.

(** Internal-mass gravity is refused on process grids that split the first direction. *)
Definition gravity_ok (K : config) (dims : idx) : Prop :=
  match k_grav K with GInternalMass _ => coord 0 (mpi_dims (k_nd K) dims) = 1%Z | _ => True end.

(** Every process's rho, rhou, E, fx, u and P arrays (ghost cells included) are the slices of those of the
    single process. *)
Definition same_results (K : config) (dims : idx) (L : layout) (S S1 : idx -> pstate) : Prop :=
  slice_of (k_nd K) dims (l_dec L) (fun r => s_cell (S r)) (s_cell (S1 rank0)) /\
  slice_of (k_nd K) dims (l_dec L) (fun r => s_u (S r)) (s_u (S1 rank0)) /\
  slice_of (k_nd K) dims (l_dec L) (fun r => s_P (S r)) (s_P (S1 rank0)).

(** [v] is a possible result of reducing the values [l] with [op], in any order and association. *)
Inductive reduction (op : R -> R -> R) : list R -> R -> Prop :=
| red_one x : reduction op [x] x
| red_op l l1 l2 a b : Permutation l (l1 ++ l2) -> reduction op l1 a -> reduction op l2 b -> reduction op l (op a b).

(** A run on a process grid whose subdomains are at least as wide as the ghost layers. *)
Record runs_on (K : config) (nglob dims : idx) (X : nat -> arr1) (L : layout) : Prop := {
  ro_layout : laid_out K nglob dims X L;
  ro_thick : thick (k_nd K) dims (k_ng K) (l_dec L);
  ro_ng : (2 <= k_ng K)%Z;
  ro_faces : faces_ok (k_nd K) (k_order K);
  ro_grav : gravity_ok K dims }.
Arguments ro_layout {K nglob dims X L} _.
Arguments ro_thick {K nglob dims X L} _.
Arguments ro_ng {K nglob dims X L} _.
Arguments ro_faces {K nglob dims X L} _.
Arguments ro_grav {K nglob dims X L} _.

(** Gravity switched off. *)
Definition weightless (K : config) : Prop := exists g, k_grav K = GUniform g /\ forall d, g d = 0.

(** Every process holds the uniform state on its whole arrays. *)
Definition uniform_everywhere (K : config) (dims : idx) (L : layout) (rho0 : R) (u0 : vec) (P0 : R) (fx0 : vec)
  (S : idx -> pstate) : Prop :=
  forall r c, process (k_nd K) dims r -> in_array (d_nwg (l_dec L r)) c ->
    c_rho (s_cell (S r) c) = rho0 /\ (forall k, c_rhou (s_cell (S r) c) k = rho0 * u0 k) /\
    c_E (s_cell (S r) c) = eos_evol (k_eos K) rho0 P0 + rho0 * vsum (k_nd K) (fun d => u0 d ^ 2) / 2 /\
    (forall n, c_fx (s_cell (S r) c) n = fx0 n) /\
    (forall k, s_u (S r) c k = u0 k) /\ s_P (S r) c = P0.

Definition uniform_fields (rho0 : R) (u0 : vec) (P0 : R) (fx0 : vec) (G : gfields) : Prop :=
  forall c, g_rho G c = rho0 /\ (forall k, g_u G c k = u0 k) /\ g_P G c = P0 /\ (forall n, g_fx G c n = fx0 n).

(** No density met during the step (half-step face values, updated cells) is zero. *)
Definition no_vacuum (K : config) (dims : idx) (L : layout) (dt : R) (S : idx -> pstate) : Prop :=
  forall r, process (k_nd K) dims r ->
    (forall c sd k, sel K L 1 r c = true -> (sd < 2)%nat -> (k < k_nd K)%nat -> q_rho (r_q (step_rec K L dt S r) c sd k) <> 0) /\
    (forall c, owned (k_nd K) (k_ng K) (d_nloc (l_dec L r)) c -> c_rho (step_godunov K L dt S r c) <> 0).

(** Physical width of a cell in direction [d]. *)
Definition width (g : geom) (m : mesh) (c : idx) (d : nat) : R :=
  let delta k := m k (coord k c + 1)%Z - m k (coord k c) in
  let mid k := (m k (coord k c) + m k (coord k c + 1)%Z) / 2 in
  match g, d with
  | Spherical, 1%nat => mid 0%nat * delta 1%nat
  | Spherical, 2%nat => mid 0%nat * sin (mid 1%nat) * delta 2%nat
  | _, _ => delta d
  end.

(** Sum over the directions of (|u_d| + c) / width. *)
Definition crossing_rate (K : config) (L : layout) (S : idx -> pstate) (r c : idx) : R :=
  vsum (k_nd K) (fun d => (Rabs (s_u (S r) c d) + eos_sound (k_eos K) (c_rho (s_cell (S r) c)) (s_P (S r) c))
                          / width (k_geom K) (l_mesh L r) c d).

(** Global coordinates increase; cell widths continue periodically into the ghost cells. *)
Definition increasing (nd : nat) (nglob : idx) (ng : Z) (X : nat -> arr1) : Prop :=
  forall d i, (d < 3)%nat -> (0 <= i < coord d nglob + 2 * ghosts nd ng d)%Z -> a_at (X d) i < a_at (X d) (i + 1)%Z.
Definition periodic_widths (nd : nat) (nglob : idx) (ng : Z) (X : nat -> arr1) : Prop :=
  forall d i, (d < nd)%nat -> (0 <= i < 2 * ng)%Z ->
    a_at (X d) (coord d nglob + i + 1)%Z - a_at (X d) (coord d nglob + i)%Z = a_at (X d) (i + 1)%Z - a_at (X d) i.
