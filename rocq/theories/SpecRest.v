(** * Vocabulary for layered gases at rest (C109). *)
From Verif Require Import Base RBase ModelMesh ModelGeom ModelBoundary ModelHydro ModelScheme ModelStep SpecGeom SpecBoundary SpecHydro SpecScheme SpecStep SpecAdvect.
Local Open Scope R_scope.

Definition no_velocity : vec := fun _ => 0.

(** Equal cell widths along each simulated direction, ghost cells included. *)
Definition even_axes (nd : nat) (nglob : idx) (ng : Z) (X : nat -> arr1) : Prop :=
  forall d, (d < nd)%nat -> exists h, forall i, (0 <= i < coord d nglob + 2 * ng)%Z -> a_at (X d) (i + 1)%Z - a_at (X d) i = h.

(** The limiters whose face values lie between neighbouring cells on the mesh. *)
Definition bounded_faces (l : limiter) (nd : nat) (nglob : idx) (ng : Z) (X : nat -> arr1) : Prop :=
  match l with
  | LConstant | LMinmod => True
  | LVanAlbada | LVanLeer => even_axes nd nglob ng X
  end.

(** The start: at rest under the pressure [P0], densities positive and otherwise arbitrary. *)
Definition layers_at_rest (P0 : R) (G : gfields) : Prop :=
  forall c, 0 < g_rho G c /\ (forall k, g_u G c k = 0) /\ g_P G c = P0.

(** Every owned cell still holds the density and the scalars of the start, and no momentum; everywhere, ghost cells
    included, velocity zero and pressure [P0]. *)
Definition unmoved (K : config) (dims : idx) (L : layout) (P0 : R) (G : gfields) (S : idx -> pstate) : Prop :=
  holds_owned (k_nd K) dims (k_ng K) (l_dec L) (g_rho G) (fun r c => c_rho (s_cell (S r) c)) /\
  (forall n, (forall c, 0 <= g_fx G c n <= 1) ->
     holds_owned (k_nd K) dims (k_ng K) (l_dec L) (fun c => g_fx G c n) (fun r c => c_fx (s_cell (S r) c) n)) /\
  forall r c, process (k_nd K) dims r -> in_array (d_nwg (l_dec L r)) c ->
    0 < c_rho (s_cell (S r) c) /\ (forall k, c_rhou (s_cell (S r) c) k = 0) /\
    c_E (s_cell (S r) c) = eos_evol (k_eos K) (c_rho (s_cell (S r) c)) P0 /\
    (forall k, s_u (S r) c k = 0) /\ s_P (S r) c = P0.
