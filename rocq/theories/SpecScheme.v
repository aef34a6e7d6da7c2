(** * Vocabulary for the scheme properties (C20-C25, C33, C36, C58, C61). *)
From Verif Require Import Base RBase ModelMesh ModelGeom ModelBoundary ModelHydro SpecHydro.
Local Open Scope R_scope.

(** [b, e) is a box of cells (possibly empty in some direction, never reversed). *)
Definition box_ok (b e : idx) : Prop := forall d, (d < 3)%nat -> (coord d b <= coord d e)%Z.

(** The cells whose lower faces in direction [d] form the lower / upper side of the box [b, e). *)
Definition lower_side (b e : idx) (d : nat) : list idx := box_cells b (set_coord d (coord d b + 1)%Z e).
Definition upper_side (b e : idx) (d : nat) : list idx :=
  box_cells (set_coord d (coord d e) b) (set_coord d (coord d e + 1)%Z e).

(** No gravity. *)
Definition no_gravity (grav : idx -> nat -> R) : Prop := forall c d, grav c d = 0.

(** A cell with admissible hydrodynamic state. *)
Definition admissible (nd : nat) (x : cell) : Prop :=
  valid_cons nd (mkCons (c_rho x) (c_rhou x) (c_E x)).

(** Total of a quantity over a box. *)
Definition total (vol : idx -> R) (q : idx -> R) (b e : idx) : R :=
  lsum (fun c => vol c * q c) (box_cells b e).

(** Net amount entering the box [b, e) in unit time through its six sides, for the flux density [phi c d]
    through the lower face of cell [c] in direction [d] of area [area c d]. *)
Definition inflow (nd : nat) (area phi : idx -> nat -> R) (b e : idx) : R :=
  vsum nd (fun d => lsum (fun c => phi c d * area c d) (lower_side b e d)
                    - lsum (fun c => phi c d * area c d) (upper_side b e d)).

(** Relabelling of the axes: [sigma] and [tau] are inverse permutations of the axes that keep simulated
    axes simulated. *)
Record axis_perm (nd : nat) (sigma tau : nat -> nat) : Prop := {
  ax_st : forall d, sigma (tau d) = d;
  ax_ts : forall d, tau (sigma d) = d;
  ax_nd : forall d, (tau d < nd)%nat <-> (d < nd)%nat;
  ax_3 : forall d, (tau d < 3)%nat <-> (d < 3)%nat }.

(** Axis [d] of the relabelled problem is axis [tau d] of the original one. *)
Definition relabel_idx (tau : nat -> nat) (c : idx) : idx := mk3 (fun d => coord (tau d) c).
Definition relabel_vec (tau : nat -> nat) (v : vec) : vec := fun d => v (tau d).
Definition relabel_cell (tau : nat -> nat) (x : cell) : cell :=
  mkCell (c_rho x) (relabel_vec tau (c_rhou x)) (c_E x) (c_fx x).
Definition relabel_cons (tau : nat -> nat) (q : cons) : cons :=
  mkCons (q_rho q) (relabel_vec tau (q_m q)) (q_E q).
