(** * Real-valued data: vectors, sums, fields.

    C++ [double] is [R] (exact arithmetic; DESIGN.md "Modelling conventions"). *)
From Coq Require Export Reals Lra.
From Verif Require Export Base.
Local Open Scope R_scope.

(** A small vector (velocity, momentum, passive scalars ...).  Only the components below the
    number of dimensions (or of scalars) are meaningful. *)
Definition vec := nat -> R.

(** A Kokkos view of rank 3 / rank 4 (the fourth index is a vector component). *)
Definition field3 := idx -> R.
Definition field4 := idx -> vec.

(** [sum_{n < N} f n], the accumulation loop [for (n = 0; n < N; ++n) s += f(n)]. *)
Fixpoint vsum (n : nat) (f : nat -> R) : R :=
  match n with O => 0 | S m => vsum m f + f m end.

(** Sum over a list. *)
Fixpoint lsum {A : Type} (f : A -> R) (l : list A) : R :=
  match l with [] => 0 | a :: l' => f a + lsum f l' end.

(** C++ comparisons on doubles (no NaN in this model). *)
Definition rltb (a b : R) : bool := if Rlt_dec a b then true else false.
Definition rleb (a b : R) : bool := if Rle_dec a b then true else false.
