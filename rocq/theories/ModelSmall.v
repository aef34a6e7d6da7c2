(** * Small functions: validity of a thermodynamic state, parameter lines, comparison of array sizes; and the
    block iterator with which tests/partitioner.cpp exercises [Range]. *)
From Coq Require Import Reals Ascii.
From Verif Require Import Base RBase ModelMesh ModelHydro ModelUtil.
Local Open Scope string_scope.

(** C++ [x > r] for a double [x]: false for NaN. *)
Definition xgtb (x : xreal) (r : R) : bool :=
  match x with
  | XR a => if Rlt_dec r a then true else false
  | XInf negative => negb negative
  | XNaN => false
  end.

(** src/thermodynamics/perfect_gas.hpp:85-89, src/thermodynamics/rad_gas.hpp:144-148 [is_valid]: the same body
    in both classes. *)
Definition is_valid (rho P : xreal) : bool :=
  (xfinite rho && xgtb rho 0 && xfinite P && xgtb P 0)%bool.

(** ** src/utils/print_info.hpp *)

(** [n] fill characters. *)
Fixpoint fill (c : ascii) (n : nat) : string :=
  match n with O => EmptyString | S k => String c (fill c k) end.

(** Lines 18-19: [std::left] and [std::right] with [std::setw(w)] and [std::setfill(c)]; a text longer than the
    width is written in full. *)
Definition put_left (c : ascii) (w : nat) (s : string) : string := s ++ fill c (w - String.length s).
Definition put_right (c : ascii) (w : nat) (s : string) : string := fill c (w - String.length s) ++ s.

(** Lines 14-20 [print_info]: what is appended to the stream; [value] is the text of the value. *)
Definition fill_width : nat := 40.
Definition newline : string := String (ascii_of_nat 10) EmptyString.
Definition print_info (name value : string) : string :=
  put_left "." fill_width name ++ put_right "." fill_width value ++ newline.

(** ** src/utils/kokkos_shortcut.hpp: [equal_extents] *)

(** The extents of a view; Kokkos::View::extent(i) is 1 from the rank on. *)
Definition view_extents : Type := list Z.
Definition extent (v : view_extents) (i : nat) : Z := nth i v 1%Z.

(** Lines 67-72: one direction, a first view and others. *)
Definition equal_extent (i : nat) (v0 : view_extents) (vs : list view_extents) : bool :=
  forallb (fun v => (extent v0 i =? extent v i)%Z) vs.
(** Lines 60-65: one direction, an array of views. *)
Definition equal_extent_array (i : nat) (vs : list view_extents) : bool :=
  forallb (fun v => (extent (hd [] vs) i =? extent v i)%Z) vs.
(** Lines 81-86 and 74-79: several directions. *)
Definition equal_extents (idx : list nat) (v0 : view_extents) (vs : list view_extents) : bool :=
  forallb (fun i => equal_extent i v0 vs) idx.
Definition equal_extents_array (idx : list nat) (vs : list view_extents) : bool :=
  forallb (fun i => equal_extent_array i vs) idx.

(** ** tests/partitioner.cpp *)

(** Lines 37-82 [Partitioner::Iterator]: the blocks from [front] on, for at most [fuel] increments; [None] when
    the end has not been reached by then.  Line 53: the block is cut at the start as well. *)
Fixpoint blocks_from (fuel : nat) (front last block : Z) : option (list (Z * Z)) :=
  if (front =? last)%Z then Some []
  else match fuel with
       | O => None
       | S k =>
           let front' := (front + block)%Z in
           let block' := if (last <? front' + block)%Z then (last - front')%Z else block in
           match blocks_from k front' last block' with
           | Some l => Some ((front, (front + block)%Z) :: l)
           | None => None
           end
       end.
(** Lines 89-99 [Partitioner]: the blocks of [0, size). *)
Definition blocks (fuel : nat) (size block : Z) : option (list (Z * Z)) :=
  blocks_from fuel 0 size (Z.min block (size - 0)).

(** src/mesh/range.cpp:83-87: the range of the cells between the bounds of three blocks. *)
Definition make_range_of (nd : nat) (b0 b1 b2 : Z * Z) (ng : Z) : outcome range :=
  make_range nd (I3 (fst b0) (fst b1) (fst b2)) (I3 (snd b0) (snd b1) (snd b2)) ng.

(** src/dual_view/dual_view.hpp:287-293 *)
Definition clear_synchronization_state {V : Type} (d : dual V) : dual V := mkDual (fun _ => 0%Z) (mem d).
