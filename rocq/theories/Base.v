(** * Shared vocabulary of the model.

    Nothing here models a particular function of the code base; it fixes how C++ data is
    represented.  [std::array<int,3>] and [Kokkos::Array<int,3>] index triples are [idx];
    C++ [int] is unbounded [Z] (DESIGN.md, "Modelling conventions"). *)
From Coq Require Export List ZArith Lia Bool Arith String.
From Coq Require Import ZifyBool ZifyNat.
Export ListNotations.

Set Implicit Arguments.

(** Outcome of a C++ computation: a value, a C++ exception, or undefined behaviour. *)
Inductive outcome (A : Type) : Type :=
| Ok (a : A)
| Throw (what : string)
| UB (why : string).
Arguments Ok {A} a.
Arguments Throw {A} what.
Arguments UB {A} why.

Definition obind {A B : Type} (o : outcome A) (f : A -> outcome B) : outcome B :=
  match o with
  | Ok a => f a
  | Throw w => Throw w
  | UB w => UB w
  end.

(** A triple of C++ ints: cell index, extents, process coordinates ... *)
Record idx : Type := I3 { ii : Z; jj : Z; kk : Z }.

(** [a[d]] for a [std::array<int,3>]; only d = 0,1,2 are ever used. *)
Definition coord (d : nat) (c : idx) : Z :=
  match d with O => ii c | S O => jj c | _ => kk c end.

(** [a[d] = v]. *)
Definition set_coord (d : nat) (v : Z) (c : idx) : idx :=
  match d with
  | O => I3 v (jj c) (kk c)
  | S O => I3 (ii c) v (kk c)
  | _ => I3 (ii c) (jj c) v
  end.

(** Component-wise construction of a triple. *)
Definition mk3 (f : nat -> Z) : idx := I3 (f 0%nat) (f 1%nat) (f 2%nat).

Definition idx_eqb (a b : idx) : bool :=
  (Z.eqb (ii a) (ii b) && Z.eqb (jj a) (jj b) && Z.eqb (kk a) (kk b))%bool.

(** Component-wise addition / subtraction. *)
Definition iadd (a b : idx) : idx := I3 (ii a + ii b) (jj a + jj b) (kk a + kk b).
Definition isub (a b : idx) : idx := I3 (ii a - ii b) (jj a - jj b) (kk a - kk b).

(** The half-open box [b, e) of a Kokkos MDRangePolicy. *)
Definition in_box (b e c : idx) : Prop :=
  (ii b <= ii c < ii e)%Z /\ (jj b <= jj c < jj e)%Z /\ (kk b <= kk c < kk e)%Z.

Definition in_boxb (b e c : idx) : bool :=
  ((ii b <=? ii c) && (ii c <? ii e) && (jj b <=? jj c) && (jj c <? jj e)
   && (kk b <=? kk c) && (kk c <? kk e))%Z%bool.

(** [zrange a b] = [a; a+1; ...; b-1]. *)
Definition zrange (a b : Z) : list Z :=
  map (fun n => (a + Z.of_nat n)%Z) (seq 0 (Z.to_nat (b - a))).

(** Cells visited by a Kokkos MDRangePolicy [b,e), one after the other (one possible order). *)
Definition box_cells (b e : idx) : list idx :=
  flat_map (fun k => flat_map (fun j => map (fun i => I3 i j k) (zrange (ii b) (ii e)))
                              (zrange (jj b) (jj e)))
           (zrange (kk b) (kk e)).

(** Effect of a [parallel_for] over the cells selected by [p] whose body assigns [f c] to cell [c]
    of array [old]; every other cell keeps its content. *)
Definition kwrite {A : Type} (p : idx -> bool) (f old : idx -> A) : idx -> A :=
  fun c => if p c then f c else old c.
