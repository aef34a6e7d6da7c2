(** * What boundary handling should achieve (C06-C11), independent of how the code does it. *)
From Verif Require Import Base RBase ModelMesh ModelBoundary.
Local Open Scope Z_scope.

(** Ghost layers in direction [d]. *)
Definition ghosts (nd : nat) (ng : Z) (d : nat) : Z := if Nat.ltb d nd then ng else 0.

(** The global cell (numbered from 0, ghosts negative or beyond the end) behind the local cell [c] of
    a process whose first owned cell is [cmin]. *)
Definition global_index (nd : nat) (ng : Z) (cmin c : idx) : idx :=
  mk3 (fun d => coord d cmin + coord d c - ghosts nd ng d).

(** Periodic continuation of a cell number. *)
Definition wrap (n g : idx) : idx := mk3 (fun d => coord d g mod coord d n).

(** [c] is inside an array of extents [ext]. *)
Definition in_array (ext c : idx) : Prop := forall d, (d < 3)%nat -> 0 <= coord d c < coord d ext.

(** [c] is an owned cell of a local array with [nloc] owned cells. *)
Definition owned (nd : nat) (ng : Z) (nloc c : idx) : Prop :=
  forall d, (d < 3)%nat -> ghosts nd ng d <= coord d c < ghosts nd ng d + coord d nloc.

(** [dec] is the decomposition of a mesh of [nglob] cells over a valid process grid. *)
Record decomposed (nd : nat) (nglob dims : idx) (ng : Z) (dec : idx -> decomp) : Prop := {
  dcp_nd : (1 <= nd <= 3)%nat;
  dcp_ng : 0 <= ng;
  dcp_n : forall d, (d < 3)%nat -> 1 <= coord d nglob;
  dcp_dims : forall d, (d < 3)%nat -> 1 <= coord d (mpi_dims nd dims);
  dcp_ok : forall rank, (forall d, (d < 3)%nat -> 0 <= coord d rank < coord d (mpi_dims nd dims)) ->
           mpi_decomposition nd nglob dims ng rank = Ok (dec rank) }.

Arguments dcp_nd {nd nglob dims ng dec} _.
Arguments dcp_ng {nd nglob dims ng dec} _.
Arguments dcp_n {nd nglob dims ng dec} _ {d} _.
Arguments dcp_dims {nd nglob dims ng dec} _ {d} _.
Arguments dcp_ok {nd nglob dims ng dec} _ {rank} _.

(** Every process owns at least as many cells as there are ghost layers. *)
Definition thick (nd : nat) (dims : idx) (ng : Z) (dec : idx -> decomp) : Prop :=
  forall rank, (forall d, (d < 3)%nat -> 0 <= coord d rank < coord d (mpi_dims nd dims)) ->
  forall d, (d < nd)%nat -> ng <= coord d (d_nloc (dec rank)).

(** The owned cells of every process hold the global field [G]. *)
Definition holds_owned {A : Type} (nd : nat) (dims : idx) (ng : Z) (dec : idx -> decomp)
  (G : idx -> A) (W : world A) : Prop :=
  forall rank, (forall d, (d < 3)%nat -> 0 <= coord d rank < coord d (mpi_dims nd dims)) ->
  forall c, owned nd ng (d_nloc (dec rank)) c ->
    W rank c = G (global_index nd ng (corner_min (d_range (dec rank))) c).

(** The single-process decomposition. *)
Definition one_process : idx := I3 1 1 1.
Definition rank0 : idx := I3 0 0 0.

(** Every process's array is the slice of the array [S] of a single-process run that starts at its
    first cell. *)
Definition slice_of {A : Type} (nd : nat) (dims : idx) (dec : idx -> decomp) (W : world A) (S : idx -> A)
  : Prop :=
  forall rank, (forall d, (d < 3)%nat -> 0 <= coord d rank < coord d (mpi_dims nd dims)) ->
  forall c, in_array (d_nwg (dec rank)) c ->
    W rank c = S (iadd (corner_min (d_range (dec rank))) c).

(** Face ids of a run with [nd] dimensions. *)
Definition faces_ok (nd : nat) (order : list nat) : Prop := forall f, In f order -> (f < 2 * nd)%nat.

(** [c] lies in the ghost layers of face [face] of direction [d]. *)
Definition in_face (ext : idx) (ng : Z) (d face : nat) (c : idx) : Prop :=
  in_array ext c /\
  match face with O => coord d c < ng | _ => coord d ext - ng <= coord d c end.
