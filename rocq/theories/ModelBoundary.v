(** * Ghost exchange and physical boundary conditions. *)
From Coq Require Import Ascii.
From Verif Require Import Base RBase ModelMesh.
Local Open Scope string_scope.
Local Open Scope Z_scope.

(** ** Data of one cell

    The views rho, rhou(.., n), E, fx(.., i) at one cell index; the boundary code always moves
    them together (boundary_distribute.hpp:52-61, boundary.cpp:54-68). *)
Record cell : Type := mkCell { c_rho : R; c_rhou : vec; c_E : R; c_fx : vec }.

(** ** Ghost exchange

    The state of a distributed array: [W r c] is cell [c] (local, ghosted numbering) of the process
    at process-grid coordinates [r].  [A] is what one cell holds. *)
Definition world (A : Type) : Type := idx -> idx -> A.

(** MPI_Cart_shift on a periodic communicator: the neighbour of [r] at distance [s] in direction
    [d] (boundary_distribute.cpp:105, grid.cpp:99-101). *)
Definition neighbour (dims : idx) (d : nat) (s : Z) (r : idx) : idx :=
  set_coord d ((coord d r + s) mod coord d dims) r.

(** src/boundary_distribute.cpp:75-120 [ghost_sync], executed by all processes together.
    [ext r] are the extents of the local arrays of process [r] ([Nx_local_wg]), [ng] is
    [Nghost[bc_idim]].  Face 0 sends layers [ng, 2 ng) to the left neighbour, so a process receives
    from its right neighbour into [ext - ng, ext); face 1 sends [ext - 2 ng, ext - ng) to the right
    and receives into [0, ng).  The buffer is copied with its transverse extents unchanged (partners
    in direction [d] share the same transverse extents).  MPI_Sendrecv_replace is one simultaneous
    exchange. *)
Definition ghost_sync {A : Type} (dims : idx) (ext : idx -> idx) (ng : Z) (d : nat) (face : nat)
  (W : world A) : world A :=
  fun r c =>
    let e := coord d (ext r) in
    match face with
    | O =>
        if in_boxb (set_coord d (e - ng) (I3 0 0 0)) (set_coord d (e - ng + ng) (ext r)) c
        then W (neighbour dims d 1 r) (set_coord d (ng + (coord d c - (e - ng))) c)
        else W r c
    | _ =>
        let src := neighbour dims d (-1) r in
        if in_boxb (set_coord d 0 (I3 0 0 0)) (set_coord d (0 + ng) (ext r)) c
        then W src (set_coord d ((coord d (ext src) - 2 * ng) + (coord d c - 0)) c)
        else W r c
    end.

(** src/boundary_distribute.hpp:63-67: the exchange of every face of every simulated direction. *)
Fixpoint sync_dims {A : Type} (dims : idx) (ext : idx -> idx) (ng : Z) (n : nat) (W : world A)
  : world A :=
  match n with
  | O => W
  | S d => ghost_sync dims ext ng d 1 (ghost_sync dims ext ng d 0 (sync_dims dims ext ng d W))
  end.

(** ** Physical boundary conditions *)

Inductive bcond : Type := NullGradient | Periodic | Reflexive.

(** src/boundary.cpp:47-52, 85-90: the iteration box of a boundary kernel. *)
Definition bc_begin (ext : idx) (ng : Z) (d face : nat) : idx :=
  set_coord d (match face with O => 0 | _ => coord d ext - ng end) (I3 0 0 0).
Definition bc_end (ext : idx) (ng : Z) (d face : nat) : idx :=
  set_coord d (match face with O => 0 | _ => coord d ext - ng end + ng) ext.

(** src/boundary.cpp:33-69 [null_gradient_condition], the body at cell [c]; [a] is the array being
    read and written. *)
Definition null_gradient_body (ext : idx) (ng : Z) (d face : nat) (a : idx -> cell) (c : idx) : cell :=
  let offset := match face with O => coord d (bc_end ext ng d face)
                | _ => coord d (bc_begin ext ng d face) - 1 end in
  a (set_coord d offset c).

(** rhou(.., bc_idim) = -rhou(.., bc_idim), src/boundary.cpp:102 *)
Definition negate_momentum (d : nat) (x : cell) : cell :=
  mkCell (c_rho x) (fun n => if Nat.eqb n d then (- c_rhou x n)%R else c_rhou x n) (c_E x) (c_fx x).

(** src/boundary.cpp:71-108 [reflexive_condition], the body at cell [c]. *)
Definition reflexive_body (ext : idx) (ng : Z) (d face : nat) (a : idx -> cell) (c : idx) : cell :=
  let mirror := match face with O => 2 * ng - 1 | _ => 2 * (coord d ext - ng) - 1 end in
  negate_momentum d (a (set_coord d (mirror - coord d c) c)).

(** Execution of a parallel_for whose body reads the very array it writes, in the order of the list
    of cells (Kokkos does not fix the order). *)
Definition update {A : Type} (a : idx -> A) (c : idx) (v : A) : idx -> A :=
  fun c' => if idx_eqb c c' then v else a c'.
Fixpoint run_inplace {A : Type} (body : (idx -> A) -> idx -> A) (l : list idx) (a : idx -> A)
  : idx -> A :=
  match l with
  | [] => a
  | c :: l' => run_inplace body l' (update a c (body a c))
  end.

(** One boundary condition on one face of one process's array; every cell of the box reads the array
    as it was before the kernel (justified by the order-independence theorem in PropBoundary.v).
    NullGradient / PeriodicCondition / ReflexiveCondition ::execute, src/boundary.hpp:90-165. *)
Definition bc_apply (b : bcond) (ext : idx) (ng : Z) (d face : nat) (a : idx -> cell) : idx -> cell :=
  match b with
  | NullGradient => kwrite (in_boxb (bc_begin ext ng d face) (bc_end ext ng d face))
                      (null_gradient_body ext ng d face a) a
  | Reflexive => kwrite (in_boxb (bc_begin ext ng d face) (bc_end ext ng d face))
                      (reflexive_body ext ng d face a) a
  | Periodic => a
  end.

(** is_border[idim][iface], src/mesh/grid.cpp:125-128 *)
Definition is_border (dims r : idx) (d face : nat) : bool :=
  match face with O => coord d r =? 0 | _ => coord d r =? coord d dims - 1 end.

(** src/boundary_distribute.hpp:69-75: the physical conditions, in the order [order] of face ids
    ([2 * idim + iface]), on the processes that touch the face. *)
Definition bc_step (dims : idx) (ext : idx -> idx) (ng : Z) (bcs : nat -> bcond) (W : world cell)
  (f : nat) : world cell :=
  let d := Nat.div f 2 in
  let face := Nat.modulo f 2 in
  fun r => if is_border dims r d face then bc_apply (bcs f) (ext r) ng d face (W r) else W r.

(** src/boundary_distribute.hpp:42-76 [DistributedBoundaryCondition::operator()] *)
Definition boundary_update (nd : nat) (dims : idx) (ext : idx -> idx) (ng : Z) (bcs : nat -> bcond)
  (order : list nat) (W : world cell) : world cell :=
  fold_left (bc_step dims ext ng bcs) order (sync_dims dims ext ng nd W).

(** ** The order of application *)

Definition is_space (c : ascii) : bool :=
  let n := nat_of_ascii c in ((Nat.leb 9 n && Nat.leb n 13) || Nat.eqb n 32)%bool.

(** Whitespace-separated words, [stringstream >> std::string]. *)
Fixpoint words_aux (s : string) (cur : string) : list string :=
  match s with
  | EmptyString => match cur with EmptyString => [] | _ => [cur] end
  | String c s' =>
      if is_space c
      then match cur with EmptyString => words_aux s' "" | _ => cur :: words_aux s' "" end
      else words_aux s' (cur ++ String c "")
  end.
Definition words (s : string) : list string := words_aux s "".

(** The face named by a token, src/boundary_distribute.cpp:45-64. *)
Definition face_of_token (nd : nat) (w : string) : option nat :=
  if String.eqb w "X_left" then Some 0%nat
  else if String.eqb w "X_right" then Some 1%nat
  else if (String.eqb w "Y_left" && Nat.leb 2 nd)%bool then Some 2%nat
  else if (String.eqb w "Y_right" && Nat.leb 2 nd)%bool then Some 3%nat
  else if (String.eqb w "Z_left" && Nat.eqb nd 3)%bool then Some 4%nat
  else if (String.eqb w "Z_right" && Nat.eqb nd 3)%bool then Some 5%nat
  else None.

(** [bc_order[f] = i] on an array of possibly indeterminate entries. *)
Fixpoint set_nth {A : Type} (f : nat) (v : A) (l : list A) : list A :=
  match f, l with
  | _, [] => []
  | O, _ :: l' => v :: l'
  | S f', x :: l' => x :: set_nth f' v l'
  end.

(** The loop over tokens: (bc_order, counter). *)
Fixpoint order_loop (nd : nat) (toks : list string) (i : nat) (acc : list (option nat) * nat)
  : list (option nat) * nat :=
  match toks with
  | [] => acc
  | w :: toks' =>
      order_loop nd toks' (S i)
        (match face_of_token nd w with
         | Some f => (set_nth f (Some i) (fst acc), S (snd acc))
         | None => acc
         end)
  end.

(** src/boundary_distribute.cpp:33-71 [generate_order].  [m_bc_order] is not initialised by the
    constructor (boundary_distribute.cpp:122-133), so an entry that is never assigned is indeterminate
    ([None]); an over-long list is cut to [nfaces] tokens. *)
Definition generate_order (nd : nat) (prio : string) : outcome (list (option nat)) :=
  let nfaces := (2 * nd)%nat in
  if String.eqb prio "" then Ok (map Some (seq 0 nfaces))
  else
    let '(order, counter) := order_loop nd (firstn nfaces (words prio)) 0 (repeat None nfaces, 0%nat) in
    if Nat.eqb counter nfaces then Ok (rev order)
    else Throw "boundary priority not fully defined !".

(** The faces actually visited by the loop boundary_distribute.hpp:69: reading an indeterminate face id
    is undefined behaviour. *)
Fixpoint applied_order (l : list (option nat)) : outcome (list nat) :=
  match l with
  | [] => Ok []
  | None :: _ => UB "indeterminate face id"
  | Some f :: l' => obind (applied_order l') (fun r => Ok (f :: r))
  end.

(** ** Names *)

(** src/boundary.cpp:21-31 [bc_dir], [bc_face] *)
Definition bc_dir (d : nat) : string := match d with O => "_X0" | S O => "_X1" | _ => "_X2" end.
Definition bc_face (f : nat) : string := match f with O => "_left" | _ => "_right" end.

(** [reader.Get(section, key, default)] for the section "Boundary Condition": the value when the key is
    present, the default otherwise (vendor/inih/src/INIReader.cpp:32-37). *)
Definition get_or (cfg : string -> option string) (key dflt : string) : string :=
  match cfg key with Some v => v | None => dflt end.

(** src/main.cpp:174-185; [param.bc_choice] is the key "BC", default empty (src/utils/param.cpp:63). *)
Definition bc_choice_face (cfg : string -> option string) (d f : nat) : outcome string :=
  let bc_choice := get_or cfg "BC" "" in
  let dir := get_or cfg ("BC" ++ bc_dir d) bc_choice in
  let v := get_or cfg ("BC" ++ bc_dir d ++ bc_face f) dir in
  if String.eqb v "" then Throw "boundary condition not fully defined" else Ok v.

(** src/boundary_factory.hpp:30-46 [factory_boundary_construction] *)
Definition factory_boundary (name : string) : outcome bcond :=
  if String.eqb name "NullGradient" then Ok NullGradient
  else if String.eqb name "Periodic" then Ok Periodic
  else if String.eqb name "Reflexive" then Ok Reflexive
  else Throw "Unknown boundary condition".

(** src/main.cpp:268-278, for configurations without user-defined conditions: the condition built for
    face [2 d + f]. *)
Definition bc_of_config (cfg : string -> option string) (d f : nat) : outcome bcond :=
  obind (bc_choice_face cfg d f) factory_boundary.
