(** * The moving grid (src/moving_grid, src/main.cpp:485-526) and the shift criterion of the v1d setup. *)
From Verif Require Import Base RBase ModelMesh ModelGeom ModelBoundary ModelHydro ModelScheme ModelStep ModelMain.
Local Open Scope string_scope.
Local Open Scope Z_scope.

(** src/moving_grid/moving_grid.cpp:52-61 [shift_array]: [var_old] and [var_new] have the extents [ext]; the last
    layer of [var_new] is not written. *)
Definition shift_array {A : Type} (ext : idx) (old new : idx -> A) : idx -> A :=
  kwrite (in_boxb (I3 0 0 0) (I3 (ii ext - 1) (jj ext) (kk ext))) (fun c => old (I3 (ii c + 1) (jj c) (kk c))) new.

(** src/moving_grid/moving_grid.cpp:39-41: [x0_h(i) = x0_h(i + 1)] for increasing [i]. *)
Definition copy_next (x : Z -> R) (i : Z) : Z -> R := fun j => if j =? i then x (i + 1) else x j.
Definition shift_left (n : Z) (x : Z -> R) : Z -> R := fold_left copy_next (zrange 0 (n - 1)) x.

(** Lines 36-46: the new global coordinates of the first direction.  With fewer than four interfaces the array is
    read before its beginning. *)
Definition shift_coords (x : arr1) : outcome arr1 :=
  let n := a_ext x in
  if n <? 4 then UB "x0_glob read at a negative index" else
  let y := shift_left n (a_at x) in
  let y2 := y (n - 2) in
  let y3 := y (n - 3) in
  let y4 := y (n - 4) in
  let r := ((y2 - y3) / (y3 - y4))%R in
  Ok (mkArr1 n (fun i => if i =? n - 1 then (y2 + (y2 - y3) * r)%R else y i)).

(** The three global coordinate arrays after [shift_grid]. *)
Definition shift_mesh (X : nat -> arr1) : outcome (nat -> arr1) :=
  obind (shift_coords (X 0%nat)) (fun x => Ok (fun d => match d with O => x | _ => X d end)).

(** [grid.set_grid(...)] (moving_grid.cpp:47) on every process.  (The processes hold equal copies of the global
    coordinates; where [set_grid] would read outside them the old local coordinates are kept: PropMove shows that
    this does not happen.) *)
Definition relaid (L : layout) (X : nat -> arr1) : layout :=
  mkLayout (l_dims L) (l_dec L) (fun r => match set_grid (l_dec L r) X with Ok m => m | _ => l_mesh L r end).

(** The boundary conditions in [bcs_array]. *)
Definition with_bcs (K : config) (b : nat -> bcond) : config :=
  mkConfig (k_geom K) (k_nd K) (k_ng K) (k_eos K) (k_lim K) (k_sol K) (k_pf K) (k_user K) (k_grav K) b (k_order K).
Definition open_right (b : nat -> bcond) : nat -> bcond := fun f => if Nat.eqb f 1 then NullGradient else b f.

(** State of a run with a moving grid: global coordinates, whether [shift_criterion] is still the one chosen at the
    start (and not NoShiftGrid), [bcs_array], arrays. *)
Record gstate : Type := mkGS { v_x : nat -> arr1; v_on : bool; v_bcs : nat -> bcond; v_st : idx -> pstate }.

Section Moving.
(** [crit] is [shift_criterion->execute] (for a call that throws nothing), [rmax] is param.rmax_shift, [Nx0] is
    Nx_glob_ng[0]; [L0] gives the process grid and the decomposition. *)
Variables (K : config) (L0 : layout) (Nx0 : Z) (crit : layout -> world cell -> bool) (rmax : R).

(** src/main.cpp:427-528 *)
Definition move_step (t dt : R) (g : gstate) : gstate :=
  let K1 := with_bcs K (v_bcs g) in
  let L := relaid L0 (v_x g) in
  let st := v_st g in
  let rec := step_rec K1 L dt st in
  let A := bcs_update K1 L (step_user K1 L t dt st) in
  if (v_on g && crit L A)%bool then
    if rleb rmax (a_at (v_x g 0%nat) (Nx0 + ii (nghost_of (k_nd K) (k_ng K)) + 1)) then
      let b := open_right (v_bcs g) in
      let K2 := with_bcs K b in
      let A2 := bcs_update K2 L A in
      mkGS (v_x g) false b (finish K2 L A2 rec A2 st)
    else
      let X2 := match shift_mesh (v_x g) with Ok x => x | _ => v_x g end in
      let L2 := relaid L0 X2 in
      let A2 := bcs_update K1 L2 (fun r => shift_array (d_nwg (l_dec L0 r)) (A r) (A r)) in
      mkGS X2 (v_on g) (v_bcs g) (finish K1 L2 A2 rec A2 st)
  else mkGS (v_x g) (v_on g) (v_bcs g) (finish K1 L A rec A st).

(** Several steps. *)
Definition move_run (ts : list (R * R)) (g : gstate) : gstate :=
  fold_left (fun g tdt => move_step (fst tdt) (snd tdt) g) ts g.

(** The state before the first step, of a fresh run (main.cpp:241-262) and of a restarted one (lines 223-240): [X]
    are the coordinates computed, or read from the file; the criterion and the boundary conditions are those of the
    parameter file (lines 265-303). *)
Definition move_init (X : nat -> arr1) (S : idx -> pstate) : gstate :=
  mkGS X true (k_bcs K) (init_state K (relaid L0 X) S).

(** The time loop's view of it. *)
Definition moving (cfl : R) : dynamics gstate :=
  mkDyn (fun g => y_dt (hydro K (relaid L0 (v_x g)) cfl) (v_st g))
        (fun g => y_bad (hydro K (relaid L0 (v_x g)) cfl) (v_st g))
        move_step.
End Moving.

(** ** src/setups/v1d/setup.hpp:184-217 [UserShiftCriterion::execute] *)

(** lines 206-211: the index box of the reduction, on a process of the last column. *)
Definition v1d_window (K : config) (L : layout) (cell_shift : Z) (r : idx) : list idx :=
  let nloc := d_nloc (l_dec L r) in
  let gh := nghost_of (k_nd K) (k_ng K) in
  box_cells (I3 (ii nloc - cell_shift) (jj gh) (kk gh)) (iadd gh nloc).

(** The values MPI_Allreduce combines: the local maxima of the last column (Kokkos::Max overwrites the initial 0
    of [vmax]), 0 elsewhere. *)
Definition v1d_values (K : config) (L : layout) (cell_shift : Z) (A : world cell) : list R :=
  flat_map (fun r => if ii r =? ii (l_dims L) - 1
                     then map (fun c => (c_rhou (A r c) 0%nat / c_rho (A r c))%R) (v1d_window K L cell_shift r)
                     else [0%R])
           (ranks (l_dims L)).

(** [None]: no value at all, the reduction yields the most negative double. *)
Definition v1d_criterion (K : config) (L : layout) (cell_shift : Z) (vmax_shift : R) (A : world cell) : outcome bool :=
  if ii (d_nloc (l_dec L (I3 (ii (l_dims L) - 1) 0 0))) <? cell_shift
  then Throw "The shift criterion is greater than the size of the last MPI process"
  else Ok (match max_list (v1d_values K L cell_shift A) with Some v => rleb vmax_shift v | None => false end).

(** The decision of a run that the check let pass. *)
Definition v1d_decision (K : config) (cell_shift : Z) (vmax_shift : R) (L : layout) (A : world cell) : bool :=
  match v1d_criterion K L cell_shift vmax_shift A with Ok b => b | _ => false end.
