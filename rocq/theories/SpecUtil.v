(** * Vocabulary for the utilities (C47, C51, C52, C56, C69, C70). *)
From Verif Require Import Base RBase ModelMesh ModelGeom ModelBoundary ModelHydro ModelStep ModelUtil.
Local Open Scope string_scope.
Local Open Scope Z_scope.

(** ** One array, two places *)

(** A bystander's record of an access history: which side was written last without the other side having
    read since, and how many write accesses were granted since then. *)
Record log : Type := mkLog { ahead : option side; pending : Z }.
Definition log_read (s : side) (l : log) : log :=
  match ahead l with
  | Some t => if side_eqb t s then l else mkLog None 0
  | None => l
  end.
Definition log_write (s : side) (l : log) : log := mkLog (Some s) (pending l + 1).
Definition log_step {V : Type} (l : log) (o : dual_op V) : log :=
  match o with
  | Access s ReadOnly => log_read s l
  | Access s ReadWrite => log_write s (log_read s l)
  | Access s DiscardWrite => log_write s l
  | Store _ _ _ => l
  end.
Definition log_of {V : Type} (h : list (dual_op V)) : log := fold_left log_step h (mkLog None 0).

(** Stores go through a view that is still the right one to write to: write access on that side was granted
    and the other side has not been read or written since. *)
Definition disciplined {V : Type} (h : list (dual_op V)) : Prop :=
  forall h1 s i v h2, h = (h1 ++ Store s i v :: h2)%list -> ahead (log_of h1) = Some s.

(** Between two transfers, fewer than 2^32 write accesses. *)
Definition bounded {V : Type} (h : list (dual_op V)) : Prop :=
  forall h1 h2, h = (h1 ++ h2)%list -> pending (log_of h1) < 2 ^ 32.

(** The data as a client thinks of it: one array; discarding leaves every element unspecified until it is
    assigned. *)
Definition latest_step {V : Type} (a : Z -> option V) (o : dual_op V) : Z -> option V :=
  match o with
  | Access _ DiscardWrite => fun _ => None
  | Access _ _ => a
  | Store _ i v => fun k => if k =? i then Some v else a k
  end.
Definition latest {V : Type} (init : Z -> V) (h : list (dual_op V)) : Z -> option V :=
  fold_left latest_step h (fun i => Some (init i)).

(** ** Integers *)

(** Any positive width. *)
Definition proper_type (t : ctype) : Prop := 1 <= ct_bits t.
(** [x] is a value of type [t]. *)
Definition value_of (t : ctype) (x : Z) : Prop :=
  if ct_signed t then - 2 ^ (ct_bits t - 1) <= x < 2 ^ (ct_bits t - 1) else 0 <= x < 2 ^ ct_bits t.

(** ** Documented names *)
Definition limiter_names : list (string * limiter) :=
  [("Constant", LConstant); ("VanLeer", LVanLeer); ("Minmod", LMinmod); ("VanAlbada", LVanAlbada)].
Definition solver_names : list (string * solver) := [("HLL", HLL); ("HLLC", HLLC); ("Low Mach", LowMach)].
Definition bc_names : list (string * choice bcond) :=
  [("NullGradient", Builtin NullGradient); ("Periodic", Builtin Periodic); ("Reflexive", Builtin Reflexive); ("UserDefined", FromSetup)].
Definition grid_names : list (string * choice grid_kind) := [("Regular", Builtin RegularGrid); ("UserDefined", FromSetup)].
Definition user_names : list (string * choice user_kind) :=
  [("Off", Builtin UOff); ("Heat_nickel", Builtin UHeatNickel); ("UserDefined", FromSetup)].

(** [f] accepts exactly the names of the table, with the meaning given there, and throws on any other. *)
Definition accepts {A : Type} (f : string -> outcome A) (table : list (string * A)) : Prop :=
  forall s, (forall a, f s = Ok a <-> In (s, a) table) /\ ((exists w, f s = Throw w) <-> ~ In s (map fst table)).

(** Every name that is used is a documented one. *)
Record documented (nd : nat) (n : names) : Prop := {
  doc_grid : n_restart n = false -> In (n_grid n) (map fst grid_names);
  doc_bc : forall f, (f < 2 * nd)%nat -> In (n_bc n f) (map fst bc_names);
  doc_recon : In (n_recon n) (map fst limiter_names);
  doc_riemann : In (n_riemann n) (map fst solver_names);
  doc_user : In (n_user n) (map fst user_names) }.

(** The operators are the ones the names stand for. *)
Record named_by (nd : nat) (n : names) (o : operators) : Prop := {
  nb_grid : if n_restart n then o_grid o = None else exists g, o_grid o = Some g /\ In (n_grid n, g) grid_names;
  nb_bc : List.length (o_bc o) = (2 * nd)%nat /\ forall f b, nth_error (o_bc o) f = Some b -> In (n_bc n f, b) bc_names;
  nb_recon : In (n_recon n, o_recon o) limiter_names;
  nb_riemann : In (n_riemann n, o_riemann o) solver_names;
  nb_user : In (n_user n, o_user o) user_names }.
