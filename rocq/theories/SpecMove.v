(** * Vocabulary for the moving grid (C43, C54, C57). *)
From Verif Require Import Base RBase ModelMesh ModelGeom ModelBoundary ModelHydro ModelScheme ModelStep ModelMain ModelMove
  SpecGeom SpecBoundary SpecHydro SpecScheme SpecStep SpecMain.
Local Open Scope R_scope.

(** Interfaces in strictly increasing order. *)
Definition rising (x : arr1) : Prop := forall i, (0 <= i < a_ext x - 1)%Z -> a_at x i < a_at x (i + 1)%Z.

(** [y] is [x] after [k] grid shifts. *)
Inductive shifts : nat -> arr1 -> arr1 -> Prop :=
| shifts_0 x : shifts 0 x x
| shifts_S k x y z : shift_coords x = Ok y -> shifts k y z -> shifts (S k) x z.

(** The right neighbour of a cell. *)
Definition east (c : idx) : idx := I3 (ii c + 1) (jj c) (kk c).

(** The shift criterion looks at global data only: it answers alike on the process grid of [L] and on a single
    process ([L1]) whose array [W1] is the global one. *)
Definition decides_alike (K : config) (N dims : idx) (L L1 : layout) (crit : layout -> world cell -> bool) : Prop :=
  forall X W W1, global_coords (k_nd K) N (k_ng K) X -> slice_of (k_nd K) dims (l_dec L) W (W1 rank0) ->
    crit (relaid L X) W = crit (relaid L1 X) W1.

(** Two runs with moving grids, on (possibly different) process grids, are in the same state: coordinates, boundary
    conditions and global arrays. *)
Definition same_moving (K : config) (N : idx) (dims : idx) (L : layout) (dims' : idx) (L' : layout)
  (g g' : gstate) : Prop :=
  v_x g = v_x g' /\ v_bcs g = v_bcs g' /\ same_arrays K N (v_x g) dims L dims' L' (v_st g) (v_st g').

(** The radial velocity of a cell. *)
Definition radial_velocity (x : cell) : R := c_rhou x 0%nat / c_rho x.

(** Cells of the single-process arrays: transverse position owned, radial position in [a, b). *)
Definition in_shell (K : config) (N : idx) (a b : Z) (c : idx) : Prop :=
  (a <= ii c < b)%Z /\
  forall d, (0 < d < 3)%nat -> (ghosts (k_nd K) (k_ng K) d <= coord d c < ghosts (k_nd K) (k_ng K) d + coord d N)%Z.

(** The last [n] owned radial cells. *)
Definition last_cells (K : config) (N : idx) (n : Z) : idx -> Prop :=
  in_shell K N (ii N + k_ng K - n) (ii N + k_ng K).
