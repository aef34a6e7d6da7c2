(** * Specification vocabulary for the mesh properties (C01-C03). *)
From Verif Require Import Base.
Local Open Scope Z_scope.

(** A valid run configuration: 1 to 3 simulated dimensions, every direction has a non-negative
    number of cells (exactly as many as the user asked for) and at least one process. *)
Definition ndim_ok (nd : nat) : Prop := (1 <= nd <= 3)%nat.

(** [rank] is the coordinate triple of a process of the process grid [dims]. *)
Definition valid_rank (dims rank : idx) : Prop :=
  forall d, (d < 3)%nat -> 0 <= coord d rank < coord d dims.

(** The global cell [g] exists in a mesh of [n] cells. *)
Definition global_cell (n g : idx) : Prop :=
  forall d, (d < 3)%nat -> 0 <= coord d g < coord d n.

(** The cell [g] belongs to the block starting at [cmin] with extent [nloc]. *)
Definition in_block (cmin nloc g : idx) : Prop :=
  forall d, (d < 3)%nat -> coord d cmin <= coord d g < coord d cmin + coord d nloc.
