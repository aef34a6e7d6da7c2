(** * The setup v1d, whose initial conditions are profiles in a file: src/setups/v1d/setup.hpp, src/io/config.yaml.cpp:45-48 and
    239-264, and a run from such a file. *)
From Coq Require Import Ascii Reals.
From Verif Require Import Base RBase ModelMesh ModelGeom ModelBoundary ModelHydro ModelScheme ModelStep ModelUtil ModelIni ModelMain
  ModelIO ModelMove ModelMPI ModelSetup ModelParam ModelH5 ModelLaunch.
Local Open Scope string_scope.
Local Open Scope Z_scope.
Local Open Scope list_scope.

(** ** ParamSetup (lines 44-57); units::velocity is 1. *)
Record v1d_params : Type := mkV1d { vp_file : string; vp_vmax : real_value; vp_cells : Z }.
Definition read_v1d (m : values) : outcome v1d_params :=
  let file := text m "problem" "init_file" "" in
  obind (real m "problem" "vmax_shift" 0) (fun vmax =>
  obind (integer m "problem" "cell_shift" 0) (fun cells =>
  Ok (mkV1d file vmax cells))).

(** ** GridSetup::execute (lines 140-174): x0 from the file, regular coordinates in the other directions. *)
Definition v1d_grid (b : build) (p : param) (h : h5) : outcome (nat -> arr1) :=
  let n := pm_nx0 p + 2 * coord 0 (nghost_of (b_nd b) (pm_ng p)) + 1 in
  obind (check_extent_dset h "x0" n) (fun x =>
  Ok (fun d => match d with O => mkArr1 n (ds_at x) | _ => coords_of b p d end)).

(** ** InitializationSetup::execute (lines 69-128) *)

(** io_hdf5.hpp:52-68 for two extents; the message is the same as for one. *)
Definition check_extent_dset2 (h : h5) (name : string) (n0 n1 : Z) : outcome dataset :=
  obind (need (h_real h name)) (fun d =>
  match ds_dims d with
  | [k0; k1] => if ((k0 =? n0) && (k1 =? n1))%bool then Ok d else Throw "HERACLES++ error: Extents do not match"
  | _ => Throw "HERACLES++ error: Expecting a 1d dataset"
  end).
(** Lines 80-87.  The profiles of the scalars are checked also when there are none. *)
Definition v1d_checks (nfx n0 : Z) (h : h5) : outcome (dataset * dataset * dataset * dataset) :=
  obind (check_extent_dset h "rho_1d" n0) (fun rho =>
  obind (check_extent_dset h "u_1d" n0) (fun u =>
  obind (check_extent_dset h "P_1d" n0) (fun P =>
  obind (check_extent_dset2 h "fx_1d" nfx n0) (fun fx =>
  Ok (rho, u, P, fx))))).
(** config.yaml.cpp:242-259: the process reads the part of its radial cells; row [n] of a dataset of two extents. *)
Definition part_1d (n0 : Z) (dec : decomp) (d : dataset) (n : nat) : outcome arr1 :=
  read_profile dec (mkArr1 n0 (fun i => ds_at d (Z.of_nat n * n0 + i))).
(** Lines 96-127: the arrays are zero before. *)
Definition v1d_read (nd : nat) (nfx n0 : Z) (dec : decomp) (ds : dataset * dataset * dataset * dataset) : outcome (idx -> icell) :=
  let '(rho, u, P, fx) := ds in
  let zero : field3 := fun _ => 0%R in
  obind (part_1d n0 dec rho 0) (fun rho_1d =>
  obind (part_1d n0 dec u 0) (fun u_1d =>
  obind (part_1d n0 dec P 0) (fun P_1d =>
  obind (omap (part_1d n0 dec fx) (seq 0 (Z.to_nat nfx))) (fun fx_1d =>
  obind (no_ghosts (d_range dec)) (fun rg =>
  obind (broadcast_profile nd rg rho_1d zero) (fun rho =>
  obind (broadcast_profile nd rg u_1d zero) (fun u0 =>
  let u_other := broadcast_const nd rg 0 zero in
  obind (broadcast_profile nd rg P_1d zero) (fun P =>
  obind (omap (fun a => broadcast_profile nd rg a zero) fx_1d) (fun fx =>
  Ok (fun c => mkI (rho c) (fun d => match d with O => u0 c | _ => u_other c end) (P c) (fun n => nth n fx zero c))))))))))).

(** ** The run *)

(** Line 242-260 of main.cpp with GridSetup. *)
Definition v1d_coords (b : build) (p : param) (gt : option (choice grid_kind)) (disk : string -> option h5) (v : v1d_params) : outcome (nat -> arr1) :=
  match gt with
  | Some FromSetup => obind (need (disk (vp_file v))) (v1d_grid b p)
  | _ => Ok (coords_of b p)
  end.
Definition v1d_datasets (p : param) (disk : string -> option h5) (v : v1d_params) : outcome (dataset * dataset * dataset * dataset) :=
  obind (need (disk (vp_file v))) (v1d_checks (pm_nfx p) (pm_nx0 p)).
(** main.cpp:299-303 with UserShiftCriterion *)
Definition v1d_shift (r : run) (v : v1d_params) : shift_kind :=
  if r_shift r then ShiftV1d (vp_cells v) (value_of (vp_vmax v)) else ShiftOff.
Definition v1d_state (f : idx -> icell) (grav : gravity) : pstate :=
  mkState (fun c => mkCell (i_rho (f c)) (fun _ => 0%R) 0 (i_fx (f c))) (fun c => i_u (f c)) (fun c => i_P (f c))
    zero_rec (fun _ => zero_cell) grav.

(** The runs composed here: new, without boundary conditions and steps from the setup header (v1d has the default ones, which
    throw), with finite numbers. *)
Definition composed_v1d (r : run) (v : v1d_params) : bool :=
  let p := r_param r in
  match r_grid r with Some _ => true | None => false end && forallb is_builtin (r_bcs r) && is_builtin (r_user r) &&
  forallb finite_number [pm_x0min p; pm_x0max p; pm_x1min p; pm_x1max p; pm_x2min p; pm_x2max p; pm_t_ini p; pm_t_end p; pm_cfl p;
    pm_time_freq p; pm_time_first p; pm_gx0 p; pm_gx1 p; pm_gx2 p; pm_M p; pm_eps_pf p; pm_rmax_shift p; vp_vmax v].
(** Lines 194-202: the width of the window is compared with the last process. *)
Definition window_fits (sh : shift_kind) (L : layout) : bool :=
  match sh with ShiftOff => true | ShiftV1d cells _ => cells <=? ii (d_nloc (l_dec L (I3 (ii (l_dims L) - 1) 0 0))) end.
(** What the criterion answers (the first argument: the grid as it is). *)
Definition v1d_decides (K : ModelStep.config) (sh : shift_kind) : layout -> world cell -> bool :=
  match sh with ShiftOff => fun _ _ => false | ShiftV1d cells vmax => v1d_decision K cells vmax end.

(** From the parameter file and the profiles to the end of the loop, for all processes at once; the numbers of the setup are read
    after start-up here, which changes only the order of errors.  [disk]: the files that can be opened.  None: not composed here. *)
Definition v1d_program (b : build) (dims : idx) (file : option bytes) (disk : string -> option h5) (clock : Z -> bool) (n : nat)
  : outcome (option (mstate gstate * verdict)) :=
  obind (startup b dims (I3 0 0 0) file) (fun r0 =>
  obind (obind (reader_of file) read_v1d) (fun v =>
  if negb (composed_v1d r0 v) then Ok None else
  let p := r_param r0 in
  let runs := program_runs b dims file r0 in
  obind (v1d_coords b p (r_grid r0) disk v) (fun X =>
  obind (v1d_datasets p disk v) (fun ds =>
  let reads r := v1d_read (b_nd b) (pm_nfx p) (pm_nx0 p) (r_dec (runs r)) ds in
  obind (all_ok reads (ranks (mpi_dims (b_nd b) dims))) (fun _ =>
  let K := config_of b r0 in
  let L := layout_with b dims runs X in
  let sh := v1d_shift r0 v in
  if negb (window_fits sh L) then Ok None else
  let St r := v1d_state (match reads r with Ok f => f | _ => fun _ => mkI 0 (fun _ => 0%R) 0 (fun _ => 0%R) end)
                (gravity_values K L (fun _ _ => zero_cell) r) in
  let P := params_of r0 in
  Ok (Some (loop (moving K L (pm_nx0 p) (v1d_decides K sh) (value_of (pm_rmax_shift p)) (value_of (pm_cfl p))) P clock n
    (fresh P (move_init K L X St))))))))).

(** ** One process *)
Definition v1d_job (b : build) (dims : idx) (x : run) (v : v1d_params) (X : nat -> arr1) (clock : Z -> bool) (r : idx) : task :=
  let p := r_param x in
  mkTask (config_of b x) (pm_nfx p) (value_of (pm_cfl p)) (params_of x) (v1d_shift x v) (value_of (pm_rmax_shift p)) (pm_nx0 p)
    (mpi_dims (b_nd b) dims) r (r_dec x)
    (match set_grid (r_dec x) X with Ok m => m | _ => fun _ _ => 0%R end) clock.
(** As [launch]; Decl'HDF5 opens the file of profiles with the communicator of the grid, which is collective. *)
Definition v1d_launch (b : build) (dims : idx) (file : option bytes) (disk : string -> option h5) (clock : idx -> Z -> bool) (n : nat)
  (r : idx) : prog (mstate lstate * verdict) :=
  own (reader_of file) (fun m =>
  own (read_param m) (fun p =>
  own (read_v1d m) (fun v =>
  sync (
  own (make_grid (b_nd b) p dims r) (fun dec =>
  sync (
  own (make_eos (b_eos b) p) (fun g =>
  own (bc_names (b_nd b) m) (fun names =>
  own (if pm_restart p then Ok None
       else obind (or_setup factory_grid_type (pm_grid_type p)) (fun t => Ok (Some t))) (fun gt =>
  if pm_restart p then Fail "not composed here" else
  own (v1d_coords b p gt disk v) (fun X =>
  (match gt with Some FromSetup => sync | _ => fun k => k end) (
  let j := v1d_job b dims (early p [] dec g gt) v X (clock r) r in
  pbind (pgravity j (own_layout j X) (fun _ => zero_cell)) (fun grav =>
  own (v1d_datasets p disk v) (fun ds =>
  sync (
  own (v1d_read (b_nd b) (pm_nfx p) (pm_nx0 p) dec ds) (fun f =>
  own (late b p [] dec g names gt) (fun x =>
  if negb (composed_v1d x v) then Fail "not composed here" else
  prun (v1d_job b dims x v X (clock r) r) n X (fun f => Some (k_bcs (config_of b x) f)) (v1d_state f grav))))))))))))))))).
