(** * Small utilities: DualView, int_cast, option names, broadcast. *)
From Verif Require Import Base RBase ModelMesh ModelGeom ModelBoundary ModelHydro ModelStep.
Local Open Scope string_scope.
Local Open Scope Z_scope.

(** ** DualView (src/dual_view/dual_view.hpp)

    One array kept twice.  [alias] says that the host mirror is the device view itself, which is what
    Kokkos::create_mirror_view (line 163) returns when the device memory is host accessible.  Contents are
    indexed by the linear index of an element. *)
Inductive side : Type := Dev | Host.
Inductive mode : Type := ReadOnly | ReadWrite | DiscardWrite.
Definition other (s : side) : side := match s with Dev => Host | Host => Dev end.
Definition side_eqb (a b : side) : bool := match a, b with Dev, Dev | Host, Host => true | _, _ => false end.

(** lines 42-62 [has_read_access], [has_write_access] *)
Definition has_read (m : mode) : bool := match m with ReadOnly | ReadWrite => true | DiscardWrite => false end.
Definition has_write (m : mode) : bool := match m with ReadOnly => false | ReadWrite | DiscardWrite => true end.

(** lines 117-123: the two modification flags (unsigned int) and the two views. *)
Record dual (V : Type) : Type := mkDual { flag : side -> Z; mem : side -> Z -> V }.
Arguments mkDual {V} flag mem.
Arguments flag {V} d s.
Arguments mem {V} d s i.

(** [unsigned int] arithmetic is modulo 2^32. *)
Definition uint (x : Z) : Z := x mod 2 ^ 32.

Definition set_side {A : Type} (s : side) (a : A) (f : side -> A) : side -> A := fun t => if side_eqb s t then a else f t.

(** lines 157-166: flags and contents start at zero ([init] stands for the zero-filled arrays). *)
Definition new_dual {V : Type} (init : Z -> V) : dual V := mkDual (fun _ => 0) (fun _ => init).

(** lines 243-253 [need_synchronization], 255-268 [synchronize], 287-293 [clear_synchronization_state] *)
Definition need_synchronization {V : Type} (d : dual V) (s : side) : bool := flag d s <? flag d (other s).
Definition synchronize {V : Type} (d : dual V) (s : side) : dual V :=
  if need_synchronization d s
  then mkDual (fun _ => 0) (set_side s (mem d (other s)) (mem d))
  else d.
(** lines 135-147 [mark_modified] *)
Definition mark_modified {V : Type} (d : dual V) (s : side) : dual V :=
  mkDual (set_side s (uint (Z.max (flag d Host) (flag d Dev) + 1)) (flag d)) (mem d).
(** lines 149-165 [access]; the view handed out is [mem _ s]. *)
Definition access {V : Type} (d : dual V) (s : side) (m : mode) : dual V :=
  let d1 := if has_read m then synchronize d s else d in
  if has_write m then mark_modified d1 s else d1.

(** What a client does: obtain a view, or assign one element through a view it holds. *)
Inductive dual_op (V : Type) : Type :=
| Access (s : side) (m : mode)
| Store (s : side) (i : Z) (v : V).
Arguments Access {V} s m.
Arguments Store {V} s i v.

Definition put {V : Type} (i : Z) (v : V) (f : Z -> V) : Z -> V := fun k => if k =? i then v else f k.
Definition dual_step {V : Type} (alias : bool) (d : dual V) (o : dual_op V) : dual V :=
  match o with
  | Access s m => access d s m
  | Store s i v =>
      mkDual (flag d) (if alias then fun t => put i v (mem d t) else set_side s (put i v (mem d s)) (mem d))
  end.
Definition dual_run {V : Type} (alias : bool) (init : Z -> V) (h : list (dual_op V)) : dual V :=
  fold_left (dual_step alias) h (new_dual init).

(** ** int_cast (src/utils/int_cast.hpp)

    A C++ integer type: signedness and number of bits; two's complement. *)
Record ctype : Type := mkCtype { ct_signed : bool; ct_bits : Z }.
Definition ct_min (t : ctype) : Z := if ct_signed t then - 2 ^ (ct_bits t - 1) else 0.
Definition ct_max (t : ctype) : Z := if ct_signed t then 2 ^ (ct_bits t - 1) - 1 else 2 ^ ct_bits t - 1.
(** static_cast between integer types (C++20): the representable value congruent modulo 2^bits. *)
Definition static_cast (t : ctype) (x : Z) : Z :=
  let m := x mod 2 ^ ct_bits t in
  if (ct_signed t && (2 ^ (ct_bits t - 1) <=? m))%bool then m - 2 ^ ct_bits t else m.
(** std::cmp_less (C++20 [utility.intcmp]): the possible implementation given there, with the conversion of
    the signed operand to its unsigned counterpart. *)
Definition make_unsigned (t : ctype) (x : Z) : Z := static_cast (mkCtype false (ct_bits t)) x.
Definition cmp_less (t u : ctype) (x y : Z) : bool :=
  if Bool.eqb (ct_signed t) (ct_signed u) then x <? y
  else if ct_signed t then (if x <? 0 then true else make_unsigned t x <? y)
  else (if y <? 0 then false else x <? make_unsigned u y).
(** std::in_range: min <= x <= max *)
Definition in_range (r t : ctype) (x : Z) : bool :=
  (negb (cmp_less t r x (ct_min r)) && negb (cmp_less r t (ct_max r) x))%bool.
(** src/utils/int_cast.hpp:12-19 *)
Definition int_cast (r t : ctype) (x : Z) : outcome Z :=
  if in_range r t x then Ok (static_cast r x)
  else Throw "Conversion cannot preserve value representation".

(** ** Option names (src/main.cpp:174-185, 249-253, 268-305, 459 and the factories) *)

(** src/mesh/grid_factory.cpp:19-27 *)
Inductive grid_kind : Type := RegularGrid.
Definition factory_grid_type (name : string) : outcome grid_kind :=
  if String.eqb name "Regular" then Ok RegularGrid
  else Throw "Unknown grid type".

(** An implementation compiled from the setup header, or one of the library's. *)
Inductive choice (A : Type) : Type := FromSetup | Builtin (a : A).
Arguments FromSetup {A}.
Arguments Builtin {A} a.
Definition or_setup {A : Type} (factory : string -> outcome A) (name : string) : outcome (choice A) :=
  if String.eqb name "UserDefined" then Ok FromSetup
  else obind (factory name) (fun a => Ok (Builtin a)).

(** The names found in the input file. *)
Record names : Type := mkNames {
  n_restart : bool;                     (* [Problem] restart *)
  n_grid : string;                      (* [Grid] type *)
  n_bc : nat -> string;                 (* bc_choice_faces, ModelBoundary.bc_choice_face *)
  n_recon : string;                     (* [Hydro] reconstruction *)
  n_riemann : string;                   (* [Hydro] riemann_solver *)
  n_user : string;                      (* [User step] user_step *)
  n_shift : string;                     (* [Grid] shift_grid *)
  n_pf : string }.                      (* [Pressure fix] pressure_fix *)

(** The implementations picked. *)
Record operators : Type := mkOps {
  o_grid : option (choice grid_kind);   (* None: coordinates come from the restart file *)
  o_bc : list (choice bcond);
  o_recon : limiter;
  o_riemann : solver;
  o_user : choice user_kind;
  o_shift : bool;                       (* main.cpp:299-304: UserShiftCriterion / NoShiftGrid *)
  o_pf : bool }.                        (* main.cpp:459 *)

Fixpoint omap {A B : Type} (f : A -> outcome B) (l : list A) : outcome (list B) :=
  match l with
  | [] => Ok []
  | a :: l' => obind (f a) (fun b => obind (omap f l') (fun bs => Ok (b :: bs)))
  end.

(** main.cpp in program order. *)
Definition build_operators (nd : nat) (n : names) : outcome operators :=
  obind (if n_restart n then Ok None
         else obind (or_setup factory_grid_type (n_grid n)) (fun g => Ok (Some g))) (fun g =>
  obind (omap (fun f => or_setup factory_boundary (n_bc n f)) (seq 0 (2 * nd))) (fun bcs =>
  obind (factory_limiter (n_recon n)) (fun lim =>
  obind (factory_solver (n_riemann n)) (fun sol =>
  obind (or_setup factory_user_step (n_user n)) (fun us =>
  Ok (mkOps g bcs lim sol us (String.eqb (n_shift n) "UserDefined") (String.eqb (n_pf n) "On"))))))).

(** ** broadcast (src/broadcast.cpp) *)

(** lines 17-21, 23-28 *)
Definition broadcast_const (nd : nat) (r : range) (x : R) (out : field3) : field3 :=
  kwrite (in_cells nd r) (fun _ => x) out.
(** the loop over extent(3) = [n] *)
Definition broadcast_const4 (nd : nat) (r : range) (x : R) (n : nat) (out : field4) : field4 :=
  fun c v => if Nat.ltb v n then broadcast_const nd r x (fun c => out c v) c else out c v.

(** lines 30-41: [in(i - ghost_x)] outside the profile is undefined behaviour. *)
Definition profile_reads_ok (nd : nat) (r : range) (inp : arr1) : bool :=
  forallb (fun c => let i := ii c - ii (rng_nghost r) in ((0 <=? i) && (i <? a_ext inp))%bool) (cells_of nd r).
Definition broadcast_profile (nd : nat) (r : range) (inp : arr1) (out : field3) : outcome field3 :=
  if profile_reads_ok nd r inp
  then Ok (kwrite (in_cells nd r) (fun c => a_at inp (ii c - ii (rng_nghost r))) out)
  else UB "read outside the profile".
(** lines 43-48 *)
Definition broadcast_profile4 (nd : nat) (r : range) (inp : arr1) (n : nat) (out : field4) : outcome field4 :=
  if ((profile_reads_ok nd r inp) || (Nat.eqb n 0))%bool
  then Ok (fun c v => if Nat.ltb v n then kwrite (in_cells nd r) (fun c => a_at inp (ii c - ii (rng_nghost r))) (fun c => out c v) c
                      else out c v)
  else UB "read outside the profile".

(** lines 32-33: the assertions of a debug build.  Line 33 is written [in.extent_int(0) + (2 * Nghost[0] == out.extent_int(0))]: the
    comparison is inside the parentheses, so its truth value (0 or 1) is added to the extent. *)
Definition broadcast_asserts (r : range) (inp : arr1) (out_ext : Z) : bool :=
  ((rng_ngeff r =? 0)
   && negb (a_ext inp + (if 2 * ii (rng_nghost r) =? out_ext then 1 else 0) =? 0))%bool.

(** src/setups/v1d/setup.hpp:66-128 [InitializationSetup::execute]: every process reads its part of the
    profiles (src/io/config.yaml.cpp:239-259: [nx_local_ng[0]] entries from [start[0]] on) and copies it to
    its owned cells. *)
Definition read_profile (dec : decomp) (file : arr1) : outcome arr1 :=
  subview1 file (coord 0 (corner_min (d_range dec))) (coord 0 (corner_min (d_range dec)) + coord 0 (d_nloc dec)).

Definition check_extent (file : arr1) (n : Z) : outcome unit :=
  if a_ext file =? n then Ok tt else Throw "Extent mismatch".

(** One profile into one rank-3 array. *)
Definition init_profile (nd : nat) (N0 : Z) (dec : decomp) (file : arr1) (out : field3) : outcome field3 :=
  obind (check_extent file N0) (fun _ =>
  obind (read_profile dec file) (fun p =>
  obind (no_ghosts (d_range dec)) (fun r =>
  broadcast_profile nd r p out))).
