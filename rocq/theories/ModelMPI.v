(** * MPI processes that run at their own speed, and the program each process of HERACLES++ executes.

    ModelBoundary.v, ModelStep.v, ModelMain.v and ModelMove.v describe the communications as simultaneous updates of
    all processes' arrays.  Here every process is a program of its own that sees only its own data and the results of
    its MPI calls, and the processes advance one at a time, in any order. *)
From Coq Require Import Relations.
From Verif Require Import Base RBase ModelMesh ModelGeom ModelBoundary ModelHydro ModelScheme ModelStep ModelMain ModelMove.
Set Implicit Arguments.
Local Open Scope string_scope.
Local Open Scope Z_scope.
Local Open Scope list_scope.

(** ** Calls *)

(** What a call transmits.  [MReal None] is the neutral element of MPI_MAX / MPI_MIN a reduction over no cell leaves;
    [MReals n f] are the [n] doubles [f 0, ...]; [MBuffer e m f] is a buffer of extents [e] with [m] components. *)
Inductive msg : Type :=
| MNone
| MBool (b : bool)
| MReal (x : option R)
| MReals (n : Z) (f : Z -> R)
| MBuffer (e : idx) (m : Z) (f : idx -> cell).

(** Datatype and counts. *)
Inductive shape : Type := SNone | SBool | SReal | SReals (n : Z) | SBuffer (e : idx) (m : Z).
Definition shape_of (m : msg) : shape :=
  match m with
  | MNone => SNone | MBool _ => SBool | MReal _ => SReal | MReals n _ => SReals n | MBuffer e m _ => SBuffer e m
  end.

(** comm_cart and comm_cart_horizontal (grid.cpp:101, 130-131). *)
Inductive comm : Type := World | Horizontal.
(** MPI_Allreduce with MPI_MAX, MPI_MIN, MPI_SUM; MPI_Bcast; MPI_Barrier; a collective access to a file by PDI. *)
Inductive op : Type := OMax | OMin | OSum | OBcast (root : idx) | OBarrier | OFile.
(** A collective call, or MPI_Sendrecv_replace. *)
Inductive call : Type :=
| Collective (c : comm) (o : op) (m : msg)
| Exchange (dst src : idx) (tag : nat) (m : msg).

Definition group (dims : idx) (c : comm) (r : idx) : list idx :=
  match c with World => ranks dims | Horizontal => horizontal_ranks dims r end.

(** Reductions over the processes; MPI fixes no order. *)
Definition opt_max (a b : option R) : option R :=
  match a, b with Some x, Some y => Some (Rmax x y) | Some x, None => Some x | None, _ => b end.
Definition opt_min (a b : option R) : option R :=
  match a, b with Some x, Some y => Some (Rmin x y) | Some x, None => Some x | None, _ => b end.
Definition real_of (m : msg) : option R := match m with MReal x => x | _ => None end.
Definition reals_of (m : msg) (i : Z) : R := match m with MReals _ f => f i | _ => 0%R end.
Definition bool_of (m : msg) : bool := match m with MBool b => b | _ => false end.
Definition count_of (m : msg) : Z := match m with MReals n _ => n | _ => 0 end.

(** Result of a collective call for a process that contributed [mine]; [f q] is the contribution of [q]. *)
Definition combine (o : op) (g : list idx) (f : idx -> msg) (mine : msg) : msg :=
  match o with
  | OMax => MReal (fold_right (fun q acc => opt_max (real_of (f q)) acc) None g)
  | OMin => MReal (fold_right (fun q acc => opt_min (real_of (f q)) acc) None g)
  | OSum => MReals (count_of mine) (fun i => lsum (fun q => reals_of (f q) i) g)
  | OBcast root => f root
  | OBarrier | OFile => MNone
  end.

(** ** Programs and their execution *)
Inductive prog (A : Type) : Type :=
| Ret (a : A)                                (* the end *)
| Fail (what : string)                       (* an exception leaves hclpp::main: no further communication *)
| Call (c : call) (k : msg -> prog A).
Arguments Fail {A} what.

Fixpoint pbind {A B : Type} (p : prog A) (f : A -> prog B) : prog B :=
  match p with
  | Ret a => f a
  | Fail w => Fail w
  | Call c k => Call c (fun m => pbind (k m) f)
  end.

(** A process: what remains to be done, whether it is inside the call it starts with, and the calls it has entered. *)
Record proc (A : Type) : Type := mkProc { pc : prog A; inside : bool; past : list call }.
Definition start {A : Type} (W : idx -> prog A) : idx -> proc A := fun r => mkProc (W r) false [].
Definition ended {A : Type} (p : proc A) : Prop := match pc p with Call _ _ => False | _ => True end.

(** Collective calls on one communicator match in the order of the calls; messages between two processes with the same
    tag are received in the order in which they are sent. *)
Definition on_comm (c : comm) (x : call) : bool :=
  match x, c with Collective World _ _, World | Collective Horizontal _ _, Horizontal => true | _, _ => false end.
Definition sent_to (q : idx) (t : nat) (x : call) : bool :=
  match x with Exchange dst _ tag _ => (idx_eqb dst q && Nat.eqb tag t)%bool | _ => false end.
Definition received_from (q : idx) (t : nat) (x : call) : bool :=
  match x with Exchange _ src tag _ => (idx_eqb src q && Nat.eqb tag t)%bool | _ => false end.

Section Execution.
Context {A : Type} (dims : idx).

(** The call of [q] that matches the collective call [r] is in. *)
Definition matched_coll (s : idx -> proc A) (c : comm) (r q : idx) : option call :=
  nth_error (filter (on_comm c) (past (s q))) (List.length (filter (on_comm c) (past (s r))) - 1).
(** The call of [src] whose message the exchange [r] is in receives. *)
Definition matched_send (s : idx -> proc A) (r src : idx) (t : nat) : option call :=
  nth_error (filter (sent_to r t) (past (s src))) (List.length (filter (received_from src t) (past (s r))) - 1).
(** The call of [dst] that receives the message of the exchange [r] is in. *)
Definition matched_recv (s : idx -> proc A) (r dst : idx) (t : nat) : option call :=
  nth_error (filter (received_from r t) (past (s dst))) (List.length (filter (sent_to dst t) (past (s r))) - 1).

(** The data for the result has arrived: the least an MPI library waits for. *)
Definition available (s : idx -> proc A) (r : idx) (x : call) : Prop :=
  match x with
  | Collective c (OBcast root) _ => matched_coll s c r root <> None
  | Collective c _ _ => forall q, In q (group dims c r) -> matched_coll s c r q <> None
  | Exchange _ src t _ => matched_send s r src t <> None
  end.
(** All partners have entered the call: the most it may wait for. *)
Definition rendezvous (s : idx -> proc A) (r : idx) (x : call) : Prop :=
  match x with
  | Collective c _ _ => forall q, In q (group dims c r) -> matched_coll s c r q <> None
  | Exchange dst src t _ => matched_send s r src t <> None /\ matched_recv s r dst t <> None
  end.

Definition msg_of (x : option call) : msg :=
  match x with Some (Collective _ _ m) | Some (Exchange _ _ _ m) => m | None => MNone end.
Definition result (s : idx -> proc A) (r : idx) (x : call) : msg :=
  match x with
  | Collective c o m => combine o (group dims c r) (fun q => msg_of (matched_coll s c r q)) m
  | Exchange _ src t _ => msg_of (matched_send s r src t)
  end.

(** Matching calls that do not fit together (undefined behaviour of MPI): another operation or root, another datatype
    or count. *)
Definition clash (s : idx -> proc A) (r : idx) (x : call) : Prop :=
  match x with
  | Collective c o m =>
      exists q y, In q (group dims c r) /\ matched_coll s c r q = Some y /\
        match y with Collective _ o' m' => o' <> o \/ shape_of m' <> shape_of m | _ => True end
  | Exchange _ src t m =>
      exists y, matched_send s r src t = Some y /\ shape_of (msg_of (Some y)) <> shape_of m
  end.

(** One process enters a call, or leaves one. [wait] tells when a process may leave. *)
Inductive step_of (wait : (idx -> proc A) -> idx -> call -> Prop) (s : idx -> proc A) : (idx -> proc A) -> Prop :=
| enter r x k h :
    In r (ranks dims) -> s r = mkProc (Call x k) false h ->
    step_of wait s (update s r (mkProc (Call x k) true (h ++ [x])))
| leave r x k h :
    In r (ranks dims) -> s r = mkProc (Call x k) true h -> wait s r x ->
    step_of wait s (update s r (mkProc (k (result s r x)) false h)).
Definition step : (idx -> proc A) -> (idx -> proc A) -> Prop := step_of available.
Definition strict_step : (idx -> proc A) -> (idx -> proc A) -> Prop := step_of rendezvous.

Inductive steps : nat -> (idx -> proc A) -> (idx -> proc A) -> Prop :=
| steps_0 s : steps 0 s s
| steps_S n s s' s'' : steps n s s' -> step s' s'' -> steps (Datatypes.S n) s s''.
Definition reaches (s s' : idx -> proc A) : Prop := exists n, steps n s s'.

Definition has_clash (s : idx -> proc A) : Prop :=
  exists r x k h, In r (ranks dims) /\ s r = mkProc (Call x k) true h /\ clash s r x.
Definition all_ended (s : idx -> proc A) : Prop := forall r, In r (ranks dims) -> ended (s r).
End Execution.

(** ** The program of one process *)

(** Its own data: the copies of the global coordinates, whether the shift criterion is active, the boundary conditions
    ([None]: the user-defined condition of a setup that has none), its arrays. *)
Record lstate : Type := mkLS { ls_x : nat -> arr1; ls_on : bool; ls_bcs : nat -> option bcond; ls_st : pstate }.

(** The criterion chosen by shift_grid: default, or UserDefined in the setup v1d. *)
Inductive shift_kind : Type := ShiftOff | ShiftV1d (cell_shift : Z) (vmax_shift : R).

(** What the program of a process is made of: options, process grid, its coordinates, its part of the decomposition, its
    own clock (has it used up [time_job] when it starts iteration [iter] + 1?). *)
Record task : Type := mkTask {
  j_K : config; j_nfx : Z; j_cfl : R; j_p : params; j_shift : shift_kind; j_rmax : R; j_Nx0 : Z;
  j_dims : idx; j_r : idx; j_dec : decomp; j_mesh : mesh; j_clock : Z -> bool }.

Section Process.
Variable j : task.
Local Notation K := (j_K j).
Local Notation r := (j_r j).
Local Notation dims := (j_dims j).

(** Its Grid object, with the coordinates of [X]. *)
Definition own_layout (X : nat -> arr1) : layout :=
  relaid (mkLayout dims (fun _ => j_dec j) (fun _ => j_mesh j)) X.

(** boundary_distribute.cpp:75-120, 122-130: one exchange.  The size of the buffer is converted to int. *)
Definition pexchange (d face : nat) (a : idx -> cell) : prog (idx -> cell) :=
  let ext := d_nwg (j_dec j) in
  let ng := k_ng K in
  let b := set_coord d ng ext in
  let ncomp := Z.of_nat (k_nd K) + 2 + j_nfx j in
  let e := coord d ext in
  let first := match face with O => ng | _ => e - 2 * ng end in
  let pack := fun c => if in_boxb (I3 0 0 0) b c then a (set_coord d (first + coord d c) c)
                       else mkCell 0 (fun _ => 0%R) 0 (fun _ => 0%R) in
  let dst := neighbour dims d (match face with O => -1 | _ => 1 end) r in
  let src := neighbour dims d (match face with O => 1 | _ => -1 end) r in
  let first' := match face with O => e - ng | _ => 0 end in
  if int_max <? ii b * jj b * kk b * ncomp then Fail "Conversion cannot preserve value representation"
  else
    Call (Exchange dst src d (MBuffer b ncomp pack)) (fun m =>
      match m with
      | MBuffer _ _ f =>
          Ret (kwrite (in_boxb (set_coord d first' (I3 0 0 0)) (set_coord d (first' + ng) ext))
                 (fun c => f (set_coord d (coord d c - first') c)) a)
      | _ => Fail "unreachable"
      end).

(** boundary_distribute.hpp:63-67 *)
Fixpoint psync (n : nat) (a : idx -> cell) : prog (idx -> cell) :=
  match n with
  | O => Ret a
  | S d => pbind (psync d a) (fun a => pbind (pexchange d 0 a) (pexchange d 1))
  end.

(** boundary_distribute.hpp:69-75; default_boundary_setup.hpp:25-34 throws when it is executed. *)
Fixpoint pfaces (bcs : nat -> option bcond) (order : list nat) (a : idx -> cell) : prog (idx -> cell) :=
  match order with
  | [] => Ret a
  | f :: order' =>
      let d := Nat.div f 2 in
      let face := Nat.modulo f 2 in
      if is_border dims r d face then
        match bcs f with
        | Some b => pfaces bcs order' (bc_apply b (d_nwg (j_dec j)) (k_ng K) d face a)
        | None => Fail "Boundary setup not implemented"
        end
      else pfaces bcs order' a
  end.
Definition pboundary (bcs : nat -> option bcond) (a : idx -> cell) : prog (idx -> cell) :=
  pbind (psync (k_nd K) a) (pfaces bcs (k_order K)).

(** gravity.cpp:59-99 (the two reductions), 50-53 and 101-123 *)
Definition pgravity (L : layout) (a : idx -> cell) : prog gravity :=
  let m := l_mesh L r in
  match k_grav K with
  | GUniform g => Ret (fun _ d => g d)
  | GPointMass M => Ret (radial_gravity m (fun _ => M))
  | GInternalMass M =>
      if ii dims =? 1 then
        let gh := nghost_of (k_nd K) (k_ng K) in
        let n := ii (d_nloc (j_dec j)) + ii gh in
        let vol := fun c => dv (k_geom K) (k_nd K) m c in
        let shell := fun (f : idx -> R) i => lsum f (shell_cells (d_nloc (j_dec j)) gh i) in
        Call (Collective Horizontal OSum (MReals n (shell vol))) (fun v =>
        Call (Collective Horizontal OSum (MReals n (shell (fun c => (c_rho (a c) * vol c)%R)))) (fun w =>
          Ret (radial_gravity m (mass_r m M (ii gh) (fun i => (reals_of w i / reals_of v i)%R)))))
      else Fail "The function make_internal_mass_gravity does not handle more than 1 MPI process in the first dimension"
  end.

(** main.cpp:311, 526 and 309, 528 *)
Definition pfinish (L : layout) (a : idx -> cell) (rec : recon) (new : idx -> cell) (st : pstate) : prog pstate :=
  let up := conv_cons_to_prim (sel K L (k_ng K) r) (k_nd K) (k_eos K) (fun c => c_rho (a c))
              (fun c => c_rhou (a c)) (fun c => c_E (a c)) (s_u st) (s_P st) in
  pbind (pgravity L a) (fun g => Ret (mkState a (fst up) (snd up) rec new g)).

(** main.cpp:305-311 *)
Definition pinit (X : nat -> arr1) (bcs : nat -> option bcond) (st : pstate) : prog pstate :=
  let L := own_layout X in
  pbind (pboundary bcs (init_cons K L (fun _ => st) r)) (fun a => pfinish L a (s_rec st) (s_new st) st).

(** setups/v1d/setup.hpp:184-217; shift_criterion_interface.cpp (NoShiftGrid). *)
Definition pcriterion (L : layout) (a : idx -> cell) : prog bool :=
  match j_shift j with
  | ShiftOff => Ret false
  | ShiftV1d cell_shift vmax_shift =>
      Call (Collective World (OBcast (I3 (ii dims - 1) 0 0)) (MBool (ii (d_nloc (j_dec j)) <? cell_shift))) (fun b =>
        if bool_of b then Fail "The shift criterion is greater than the size of the last MPI process"
        else
          Call (Collective World OMax (MReal
            (if ii r =? ii dims - 1
             then max_list (map (fun c => (c_rhou (a c) 0%nat / c_rho (a c))%R) (v1d_window K L cell_shift r))
             else Some 0%R)))
            (fun v => Ret (match real_of v with Some v => rleb vmax_shift v | None => false end)))
  end.

(** main.cpp:427-528 *)
Definition pstep (t dt : R) (g : lstate) : prog lstate :=
  let L := own_layout (ls_x g) in
  let st := ls_st g in
  let rec := step_rec K L dt (fun _ => st) r in
  pbind (pboundary (ls_bcs g) (step_user K L t dt (fun _ => st) r)) (fun a =>
  pbind (if ls_on g then pcriterion L a else Ret false) (fun shift =>
  if shift then
    if rleb (j_rmax j) (a_at (ls_x g 0%nat) (j_Nx0 j + ii (nghost_of (k_nd K) (k_ng K)) + 1)) then
      let b := fun f => if Nat.eqb f 1 then Some NullGradient else ls_bcs g f in
      pbind (pboundary b a) (fun a2 =>
      pbind (pgravity L a2) (fun _ =>
      pbind (pfinish L a2 rec a2 st) (fun st' => Ret (mkLS (ls_x g) false b st'))))
    else
      let X2 := match shift_mesh (ls_x g) with Ok x => x | _ => ls_x g end in
      let L2 := own_layout X2 in
      pbind (pboundary (ls_bcs g) (shift_array (d_nwg (j_dec j)) a a)) (fun a2 =>
      pbind (pgravity L2 a2) (fun _ =>
      pbind (pfinish L2 a2 rec a2 st) (fun st' => Ret (mkLS X2 (ls_on g) (ls_bcs g) st'))))
  else
    pbind (pfinish L a rec a st) (fun st' => Ret (mkLS (ls_x g) (ls_on g) (ls_bcs g) st')))).

(** time_step.hpp:35-82 (main.cpp:356) *)
Definition pdt (g : lstate) : prog R :=
  let L := own_layout (ls_x g) in
  Call (Collective World OMax (MReal (max_list (map (cell_inverse_dt K L (fun _ => ls_st g) r) (sel_cells K L (k_ng K) r)))))
    (fun m => Ret (match real_of m with Some v => (j_cfl j * (1 / v))%R | None => 0%R end)).

(** internal_energy.cpp:20-45 (main.cpp:397-403) *)
Definition pbad (g : lstate) : prog bool :=
  let L := own_layout (ls_x g) in
  Call (Collective World OMin (MReal (min_list (map (cell_internal K (fun _ => ls_st g) r) (sel_cells K L 0 r)))))
    (fun m => Ret (match real_of m with Some e => rltb e 0 | None => false end)).

(** integration.cpp:22-37 of the density (main.cpp:346, 568) *)
Definition pmass (g : lstate) : prog R :=
  let L := own_layout (ls_x g) in
  Call (Collective World OSum (MReals 1 (fun _ =>
    lsum (fun c => (c_rho (s_cell (ls_st g) c) * dv (k_geom K) (k_nd K) (l_mesh L r) c)%R) (sel_cells K L 0 r))))
    (fun m => Ret (reals_of m 0)).

(** write_pdi (io.cpp:185-324): the event write_replicated_data concerns process 0 alone (config.yaml.cpp:53-56); one
    collective access for write_distributed_data, one for each passive scalar. *)
Fixpoint paccess {A : Type} (n : nat) (k : prog A) : prog A :=
  match n with
  | O => k
  | S n' => Call (Collective World OFile MNone) (fun _ => paccess n' k)
  end.
Definition pwrite {A : Type} (k : prog A) : prog A := paccess (S (Z.to_nat (j_nfx j))) k.

(** main.cpp:354-561.  The exceptions of lines 370 and 424 end the program. *)
Definition pbody (m : mstate lstate) : prog (mstate lstate * verdict) :=
  let p := j_p j in
  if negb (int32 (m_iter m + 1)) then Ret (m, Undefined "signed overflow: iter + 1") else
  pbind (pdt (m_st m)) (fun dt0 =>
  match iter_schedule p m with
  | Throw w => Ret (m, Failed w)
  | UB w => Ret (m, Undefined w)
  | Ok (out1, iid) =>
      match time_schedule p m dt0 with
      | Throw w => Ret (m, Failed w)
      | UB w => Ret (m, Undefined w)
      | Ok (out2, tid, dt2) =>
          let (stop1, dt) := clip_to_end p (m_t m) dt2 in
          Call (Collective World (OBcast (I3 0 0 0)) (MBool (j_clock j (m_iter m)))) (fun save_and_exit =>
          let stop := stop1 || (p_max_iter p <=? m_iter m + 1) || bool_of save_and_exit in
          let m1 := mkM (m_oid m) iid tid (m_iter m) (m_t m) (m_record m) (m_st m) (m_files m) in
          pbind (pbad (m_st m)) (fun bad =>
          if bad then
            pwrite (Ret (write (next_id m1), Failed "detected invalid volumic internal energy"))
          else
            pbind (pstep (m_t m) dt (m_st m)) (fun st =>
            let m2 := mkM (m_oid m1) iid tid (m_iter m + 1) (m_t m + dt)%R (m_record m1) st (m_files m1) in
            let v := if stop then Finished else Going in
            if out1 || out2 || stop then pwrite (Ret (output m2, v)) else Ret (m2, v))))
      end
  end).

(** At most [n] iterations of the loop. *)
Fixpoint ploop (n : nat) (m : mstate lstate) : prog (mstate lstate * verdict) :=
  match n with
  | O => Ret (m, Going)
  | S n' => pbind (pbody m) (fun mv => match mv with (m', Going) => ploop n' m' | _ => Ret mv end)
  end.

(** main.cpp:305-350, 354-568 of a fresh run: [X] are the coordinates, [st] the arrays the setup initialised.  A run
    that ends with an exception makes no further communication. *)
Definition prun (n : nat) (X : nat -> arr1) (bcs : nat -> option bcond) (st : pstate) : prog (mstate lstate * verdict) :=
  let p := j_p j in
  pbind (pinit X bcs st) (fun st0 =>
  let g := mkLS X true bcs st0 in
  let begin := fun k : prog (mstate lstate * verdict) =>
    if (0 <? p_iter_freq p) || rltb 0 (p_time_freq p) then pwrite k else k in
  begin (
  pbind (pmass g) (fun _ =>
  Call (Collective World OBarrier MNone) (fun _ =>
  pbind (ploop n (fresh p g)) (fun mv =>
  match mv with
  | (m, Finished) =>
      Call (Collective World OBarrier MNone) (fun _ => pbind (pmass (m_st m)) (fun _ => Ret mv))
  | _ => Ret mv
  end))))).
End Process.

(** ** All processes *)

(** The processes run the same program with the same parameters; each has its own part of the decomposition [L0] and its
    own clock. *)
Definition task_of (K : config) (nfx : Z) (cfl : R) (p : params) (sh : shift_kind) (rmax : R) (Nx0 : Z) (L0 : layout)
  (clock : idx -> Z -> bool) (r : idx) : task :=
  mkTask K nfx cfl p sh rmax Nx0 (l_dims L0) r (l_dec L0 r) (l_mesh L0 r) (clock r).

(** main.cpp:305-568: what each process of one launch executes; [n] bounds the iterations of the main loop. *)
Definition processes (K : config) (nfx : Z) (cfl : R) (p : params) (sh : shift_kind) (rmax : R) (Nx0 : Z) (L0 : layout)
  (clock : idx -> Z -> bool) (n : nat) (X : nat -> arr1) (bcs : nat -> option bcond) (St : idx -> pstate) :
  idx -> prog (mstate lstate * verdict) :=
  fun r => prun (task_of K nfx cfl p sh rmax Nx0 L0 clock r) n X bcs (St r).
