(** * Vocabulary for processes that run at their own speed (C84, C85). *)
From Verif Require Import Base RBase ModelMesh ModelGeom ModelBoundary ModelHydro ModelScheme ModelStep ModelMain ModelMove ModelMPI
  SpecBoundary SpecStep.
Set Implicit Arguments.
Local Open Scope string_scope.
Local Open Scope Z_scope.
Local Open Scope list_scope.

(** Not all processes have ended, and none can go on. *)
Definition stuck {A : Type} (dims : idx) (s : idx -> proc A) : Prop := ~ all_ended dims s /\ forall s', ~ step dims s s'.

(** What process [r] holds of the state, of an output and of the whole run of all processes. *)
Definition loc (g : gstate) (r : idx) : lstate := mkLS (v_x g) (v_on g) (fun f => Some (v_bcs g f)) (v_st g r).
Definition floc (r : idx) (f : file gstate) : file lstate :=
  mkFile (fl_oid f) (fl_iid f) (fl_tid f) (fl_iter f) (fl_t f) (loc (fl_data f) r).
Definition mloc (m : mstate gstate) (r : idx) : mstate lstate :=
  mkM (m_oid m) (m_iid m) (m_tid m) (m_iter m) (m_t m) (m_record m) (loc (m_st m) r) (map (floc r) (m_files m)).

(** Number of doubles in one exchange of ghost layers. *)
Definition message_size (K : config) (nfx : Z) (L0 : layout) (d : nat) (r : idx) : Z :=
  let b := set_coord d (k_ng K) (d_nwg (l_dec L0 r)) in ii b * jj b * kk b * (Z.of_nat (k_nd K) + 2 + nfx).

(** The decision to shift taken from the data of all processes. *)
Definition decision (K : config) (sh : shift_kind) : layout -> world cell -> bool :=
  match sh with ShiftOff => fun _ _ => false | ShiftV1d cs vm => v1d_decision K cs vm end.
(** The width given to the criterion of v1d fits into the last process. *)
Definition criterion_ok (sh : shift_kind) (L0 : layout) : Prop :=
  match sh with ShiftOff => True | ShiftV1d cs _ => cs <= ii (d_nloc (l_dec L0 (I3 (ii (l_dims L0) - 1) 0 0))) end.

(** A positive threshold velocity (vmax_shift). *)
Definition threshold_ok (sh : shift_kind) : Prop := match sh with ShiftOff => True | ShiftV1d _ vm => (0 < vm)%R end.

(** The run with all communications replaced by simultaneous updates, and the clock of process 0. *)
Definition the_end (K : config) (cfl : R) (p : params) (sh : shift_kind) (rmax : R) (Nx0 : Z) (L0 : layout)
  (clock : idx -> Z -> bool) (n : nat) (X : nat -> arr1) (St : idx -> pstate) : mstate gstate * verdict :=
  loop (moving K L0 Nx0 (decision K sh) rmax cfl) p (clock (I3 0 0 0)) n (fresh p (move_init K L0 X St)).

(** [r] applies a boundary condition that does not exist. *)
Definition missing (K : config) (L0 : layout) (bcs : nat -> option bcond) (r : idx) : bool :=
  existsb (fun f => is_border (l_dims L0) r (Nat.div f 2) (Nat.modulo f 2) && match bcs f with None => true | Some _ => false end)
    (k_order K).

(** The processes of a run: grid objects as constructed, messages within the range of int. *)
Record launched (K : config) (nfx : Z) (N dims : idx) (X : nat -> arr1) (L0 : layout) : Prop := {
  la_layout : laid_out K N dims X L0;
  la_size : forall d r, (d < k_nd K)%nat -> In r (ranks (l_dims L0)) -> message_size K nfx L0 d r <= int_max }.
