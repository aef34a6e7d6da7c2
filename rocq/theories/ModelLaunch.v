(** * The whole program of one process, from the parameter file on (src/main.cpp:main), in terms of ModelMPI.v: what a process
    reads, decides and draws by itself, and its calls of MPI. *)
From Coq Require Import Ascii Reals.
From Verif Require Import Base RBase ModelMesh ModelGeom ModelBoundary ModelHydro ModelScheme ModelStep ModelUtil ModelIni ModelMain
  ModelMove ModelMPI ModelSetup ModelParam.
Local Open Scope string_scope.
Local Open Scope Z_scope.
Local Open Scope list_scope.

(** An exception leaves hclpp::main; so, for the purpose of this file, does undefined behaviour. *)
Definition own {A B : Type} (x : outcome A) (k : A -> prog B) : prog B :=
  match x with
  | Ok a => k a
  | Throw w => Fail w
  | UB w => Fail ("undefined behaviour: " ++ w)
  end.
Definition sync {A : Type} (k : prog A) : prog A := Call (Collective World OBarrier MNone) (fun _ => k).

(** setups/rayleigh_taylor3d/setup.hpp:71-91: process 0 draws four numbers ([mine] of the others is uninitialised memory) and
    sends them to all. *)
Definition amplitudes {A : Type} (k : setup_kind) (mine : R * R * R * R) (f : R * R * R * R -> prog A) : prog A :=
  match k with
  | KRayleighTaylor3d =>
      let '(a, b, c, d) := mine in
      Call (Collective World (OBcast (I3 0 0 0))
             (MReals 4 (fun i => if i =? 0 then a else if i =? 1 then b else if i =? 2 then c else d)))
        (fun m => f (reals_of m 0, reals_of m 1, reals_of m 2, reals_of m 3))
  | _ => f mine
  end.

(** main.cpp:264 with the gravity object the process has made (cf. [setup_state]). *)
Definition own_setup_state (s : setup) (K : config) (th : thermo) (N : idx) (L : layout) (r : idx) (grav : gravity) : pstate :=
  let e := mkEnv (k_geom K) (k_nd K) th (l_mesh L r) r N grav in
  let old := fun _ : idx => mkI 0 (fun _ => 0%R) 0 (fun _ => 0%R) in
  let f := kwrite (sel K L 0 r) (fun c => setup_cell s e c (old c)) old in
  mkState (fun c => mkCell (i_rho (f c)) (fun _ => 0%R) 0 (i_fx (f c))) (fun c => i_u (f c)) (fun c => i_P (f c))
    zero_rec (fun _ => zero_cell) grav.

(** main.cpp:266-303: what is made after the initialisation. *)
Definition late (b : build) (p : param) (ps : list real_value) (dec : decomp) (g : gas) (names : list string)
  (gt : option (choice grid_kind)) : outcome run :=
  obind (omap (or_setup factory_boundary) names) (fun bcs =>
  obind (generate_order (b_nd b) (pm_priority p)) (fun order =>
  obind (factory_limiter (pm_reconstruction p)) (fun lim =>
  obind (factory_solver (pm_riemann p)) (fun sol =>
  obind (or_setup factory_user_step (pm_user_step p)) (fun us =>
  Ok (mkRun p ps dec g gt bcs order lim sol us (String.eqb (pm_shift_grid p) "UserDefined")
        (String.eqb (pm_pressure_fix p) "On"))))))).
(** Before that; the operators of the loop are not looked at. *)
Definition early (p : param) (ps : list real_value) (dec : decomp) (g : gas) (gt : option (choice grid_kind)) : run :=
  mkRun p ps dec g gt [] [] LConstant HLL (Builtin UOff) false false.

Definition own_mesh (b : build) (x : run) : mesh :=
  match set_grid (r_dec x) (coords_of b (r_param x)) with Ok m => m | _ => fun _ _ => 0%R end.
Definition job (b : build) (dims : idx) (x : run) (clock : Z -> bool) (r : idx) : task :=
  let p := r_param x in
  mkTask (config_of b x) (pm_nfx p) (value_of (pm_cfl p)) (params_of x) ShiftOff 0 (pm_nx0 p) (mpi_dims (b_nd b) dims) r (r_dec x) (own_mesh b x) clock.

(** [dims]: the process grid; [draw]: the numbers process 0 draws; [clock]: whether the process has used up its time; [n]
    bounds the iterations. Restarts (ModelH5.v), other runs that [composed] leaves out, and setups without a model end with
    "not composed here". *)
Definition launch (b : build) (dims : idx) (file : option bytes) (draw : idx -> R * R * R * R) (clock : idx -> Z -> bool) (n : nat)
  (r : idx) : prog (mstate lstate * verdict) :=
  own (reader_of file) (fun m =>
  own (read_param m) (fun p =>
  own (read_setup m (b_setup b)) (fun ps =>
  sync (                                                        (* MPI_Cart_create, grid.cpp:101 *)
  own (make_grid (b_nd b) p dims r) (fun dec =>
  sync (                                                        (* MPI_Cart_sub, grid.cpp:131 *)
  own (make_eos (b_eos b) p) (fun g =>
  own (bc_names (b_nd b) m) (fun names =>
  own (if pm_restart p then Ok None
       else obind (or_setup factory_grid_type (pm_grid_type p)) (fun t => Ok (Some t))) (fun gt =>
  if pm_restart p then Fail "not composed here" else
  let e := early p ps dec g gt in
  let X := coords_of b p in
  let j := job b dims e (clock r) r in
  pbind (pgravity j (own_layout j X) (fun _ => zero_cell)) (fun grav =>
  amplitudes (b_setup b) (draw r) (fun '(ak, bk, ck, dk) =>
  match setup_of b e ak bk ck dk with
  | None => own (late b p ps dec g names gt) (fun _ => Fail "not composed here")
  | Some s =>
      own (setup_check (b_geom b) s) (fun _ =>
      own (late b p ps dec g names gt) (fun x =>
      if negb (composed x) then Fail "not composed here" else
      let j := job b dims x (clock r) r in
      prun j n X (fun f => Some (k_bcs (config_of b x) f))
        (own_setup_state s (config_of b x) (gas_thermo g) (extents p) (own_layout j X) r grav)))
  end))))))))))).
