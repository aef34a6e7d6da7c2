(** * Vocabulary for reflecting walls (C20). *)
From Verif Require Import Base RBase ModelMesh ModelGeom ModelBoundary ModelHydro ModelScheme ModelStep SpecBoundary SpecHydro SpecStep.
Local Open Scope R_scope.

(** Face [face] (0: lower end, 1: upper end) of direction [d] is a reflecting wall whose condition is applied. *)
Definition wall (K : config) (d face : nat) : Prop :=
  k_bcs K (2 * d + face) = Reflexive /\ In (2 * d + face)%nat (k_order K).

(** The two ghost cells next to the wall are as wide as the two cells they mirror. *)
Definition mirrored_widths (nglob : idx) (ng : Z) (X : nat -> arr1) (d face : nat) : Prop :=
  let w i := a_at (X d) (i + 1)%Z - a_at (X d) i in
  let edge := match face with O => ng | _ => (coord d nglob + ng)%Z end in
  forall j, (0 <= j < 2)%Z -> w (edge - 1 - j)%Z = w (edge + j)%Z.

(** Gravity does not pull across faces normal to [d]. *)
Definition no_pull_along (K : config) (d : nat) : Prop :=
  match k_grav K with GUniform g => g d = 0 | _ => d <> 0%nat end.

(** The lower face of cell [c] of process [r], in direction [d], lies on the wall. *)
Definition on_wall (K : config) (dims : idx) (L : layout) (d face : nat) (r c : idx) : Prop :=
  match face with
  | O => coord d r = 0%Z /\ coord d c = k_ng K
  | _ => coord d r = (coord d (mpi_dims (k_nd K) dims) - 1)%Z /\ coord d c = (k_ng K + coord d (d_nloc (l_dec L r)))%Z
  end /\
  forall k, (k < 3)%nat -> k <> d ->
    (ghosts (k_nd K) (k_ng K) k <= coord k c < ghosts (k_nd K) (k_ng K) k + coord k (d_nloc (l_dec L r)))%Z.

(** The flux that the step starting from [S] sends through the lower face of cell [c] in direction [d]. *)
Definition step_flux (K : config) (L : layout) (dt : R) (S : idx -> pstate) (r c : idx) (d : nat) : flux :=
  let rec := step_rec K L dt S r in
  riemann (k_sol K) (k_nd K) (k_eos K) (r_q rec (lindex d c) 1%nat d) (r_q rec c 0%nat d) d.

(** The passive scalar it carries: the mass flux times the value on the side the mass comes from. *)
Definition step_scalar_flux (K : config) (L : layout) (dt : R) (S : idx -> pstate) (r c : idx) (d n : nat) : R :=
  let rec := step_rec K L dt S r in
  let F := f_rho (step_flux K L dt S r c d) in
  F * (if rltb 0 F then r_fx rec (lindex d c) 1%nat d n else r_fx rec c 0%nat d n).
(** The half-step state on the inner side of a wall face. *)
Definition inner_face (K : config) (L : layout) (dt : R) (S : idx -> pstate) (d face : nat) (r c : idx) : cons :=
  match face with
  | O => r_q (step_rec K L dt S r) c 0%nat d
  | _ => r_q (step_rec K L dt S r) (lindex d c) 1%nat d
  end.

(** The half-step face states of the owned cells have positive density and internal energy. *)
Definition admissible_faces (K : config) (dims : idx) (L : layout) (dt : R) (S : idx -> pstate) : Prop :=
  forall r c sd k, process (k_nd K) dims r -> owned (k_nd K) (k_ng K) (d_nloc (l_dec L r)) c ->
    (sd < 2)%nat -> (k < k_nd K)%nat -> valid_cons (k_nd K) (r_q (step_rec K L dt S r) c sd k).

(** Directions whose two ends are connected, or closed by walls. *)
Definition periodic_dir (K : config) (nglob : idx) (X : nat -> arr1) (d : nat) : Prop :=
  k_bcs K (2 * d) = Periodic /\ k_bcs K (2 * d + 1) = Periodic /\
  forall i, (0 <= i < 2 * k_ng K)%Z ->
    a_at (X d) (coord d nglob + i + 1)%Z - a_at (X d) (coord d nglob + i)%Z = a_at (X d) (i + 1)%Z - a_at (X d) i.
Definition walled_dir (K : config) (nglob : idx) (X : nat -> arr1) (d : nat) : Prop :=
  wall K d 0 /\ wall K d 1 /\ mirrored_widths nglob (k_ng K) X d 0 /\ mirrored_widths nglob (k_ng K) X d 1.
