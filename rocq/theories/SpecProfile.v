(** * Vocabulary for the runs of v1d (C96). *)
From Coq Require Import Ascii Reals.
From Verif Require Import Base RBase ModelMesh ModelGeom ModelBoundary ModelHydro ModelRad ModelScheme ModelStep ModelUtil ModelIni ModelMain ModelMove ModelMPI ModelSetup
  ModelParam ModelH5 ModelProfile
  SpecMesh SpecBoundary SpecStep SpecMain SpecMPI SpecIni SpecParam.
Local Open Scope string_scope.
Local Open Scope Z_scope.
Local Open Scope list_scope.

(** ** The file of profiles *)

Definition has_dataset (h : h5) (name : string) (dims : list Z) : Prop := exists d, h_real h name = Some d /\ ds_dims d = dims.
(** A row of [n] numbers. *)
Definition row_in (h : h5) (name : string) (n : Z) (F : Z -> R) : Prop :=
  exists d, h_real h name = Some d /\ ds_dims d = [n] /\ forall i, 0 <= i < n -> ds_at d i = F i.
(** [n0] radial cells with [g0] ghosts at each end: the positions [x] of the faces, density, radial velocity, pressure and the
    [nfx] scalars, one row for each. *)
Record profiles (n0 g0 : Z) (nfx : nat) (h : h5) (x rho u P : Z -> R) (fx : nat -> Z -> R) : Prop := {
  pr_x : row_in h "x0" (n0 + 2 * g0 + 1) x;
  pr_rho : row_in h "rho_1d" n0 rho;
  pr_u : row_in h "u_1d" n0 u;
  pr_P : row_in h "P_1d" n0 P;
  pr_fx : exists d, h_real h "fx_1d" = Some d /\ ds_dims d = [Z.of_nat nfx; n0] /\
            forall n i, (n < nfx)%nat -> 0 <= i < n0 -> ds_at d (Z.of_nat n * n0 + i) = fx n i }.
(** The extents only. *)
Definition fitting (n0 g0 nfx : Z) (h : h5) : Prop :=
  has_dataset h "x0" [n0 + 2 * g0 + 1] /\ has_dataset h "rho_1d" [n0] /\ has_dataset h "u_1d" [n0] /\ has_dataset h "P_1d" [n0] /\
  has_dataset h "fx_1d" [nfx; n0].

(** The same profile along every ray; no transverse velocity. *)
Definition along_rays (nfx : nat) (rho u P : Z -> R) (fx : nat -> Z -> R) : gfields :=
  mkG (fun c => rho (ii c)) (fun c d => match d with O => u (ii c) | _ => 0%R end) (fun c => P (ii c))
      (fun c n => if Nat.ltb n nfx then fx n (ii c) else 0%R).

(** ** The run *)

(** The options of v1d. *)
Record described_v1d (T : list entry) (v : v1d_params) : Prop := {
  dv_file : says_text T "Problem" "init_file" "" (vp_file v);
  dv_vmax : says_real T "Problem" "vmax_shift" 0 (vp_vmax v);
  dv_cells : says_int T "Problem" "cell_shift" 0 (vp_cells v) }.

(** As [usable], with radial coordinates from the file; the bounds need not be ordered. *)
Record usable_v1d (b : build) (p : param) (dims : idx) : Prop := {
  uv_setup : b_setup b = KV1d;
  uv_nd : (1 <= b_nd b <= 3)%nat;
  uv_new : pm_restart p = false;
  uv_grid : pm_grid_type p = "UserDefined";
  uv_order : pm_priority p = "";
  uv_ng : 2 <= pm_ng p;
  uv_nfx : 0 <= pm_nfx p;
  uv_cells : forall n, In n [pm_nx0 p; pm_nx1 p; pm_nx2 p] -> 1 <= n /\ n + 2 * pm_ng p + 3 < 2 ^ 31;
  uv_dims : forall d, (d < 3)%nat -> 1 <= coord d dims;
  uv_thick : forall d, (d < b_nd b)%nat -> pm_ng p * coord d dims <= nth d [pm_nx0 p; pm_nx1 p; pm_nx2 p] 0;
  uv_grav : b_grav b = InternalMassGrav -> coord 0 dims = 1 }.

(** The operators [K] of the loop are those the file names (cf. [executes]). *)
Record configured (b : build) (p : param) (bc : nat -> bcond) (g : gas) (lim : limiter) (sol : solver) (user : user_kind)
  (K : ModelStep.config) : Prop := {
  cf_geom : k_geom K = b_geom b;
  cf_nd : k_nd K = b_nd b;
  cf_ng : k_ng K = pm_ng p;
  cf_lim : k_lim K = lim;
  cf_sol : k_sol K = sol;
  cf_user : k_user K = user;
  cf_eos : k_eos K = match g with PGas g => pg_eos g | RGas g => rg_eos g end;
  cf_pf : if String.eqb (pm_pressure_fix p) "On" then exists eps, pm_eps_pf p = Finite eps /\ k_pf K = Some eps else k_pf K = None;
  cf_bcs : forall i, (i < 2 * b_nd b)%nat -> k_bcs K i = bc i;
  cf_order : k_order K = seq 0 (2 * b_nd b);
  cf_grav : match b_grav b with
            | UniformGrav => exists gv, k_grav K = GUniform gv /\ pm_gx0 p = Finite (gv 0%nat) /\ pm_gx1 p = Finite (gv 1%nat) /\
                               forall d, (2 <= d)%nat -> pm_gx2 p = Finite (gv d)
            | PointMassGrav => exists M, pm_M p = Finite M /\ k_grav K = GPointMass M
            | InternalMassGrav => exists M, pm_M p = Finite M /\ k_grav K = GInternalMass M
            end }.

(** When the grid moves: never, or when the gas of the last [cells] cells is faster than [vmax]. *)
Definition moves (p : param) (v : v1d_params) (sh : shift_kind) : Prop :=
  if String.eqb (pm_shift_grid p) "UserDefined" then exists vmax, vp_vmax v = Finite vmax /\ sh = ShiftV1d (vp_cells v) vmax else sh = ShiftOff.

(** Coordinates of a v1d run. *)
Definition v1d_faces (b : build) (p : param) (x : Z -> R) (X : nat -> arr1) : Prop :=
  (forall i, 0 <= i <= pm_nx0 p + 2 * pm_ng p -> a_at (X 0%nat) i = x i) /\
  forall d i, (0 < d < 3)%nat -> exists lo hi, nth d [pm_x0min p; pm_x1min p; pm_x2min p] NotANumber = Finite lo /\
    nth d [pm_x0max p; pm_x1max p; pm_x2max p] NotANumber = Finite hi /\
    a_at (X d) i = (lo + IZR (i - (if Nat.ltb d (b_nd b) then pm_ng p else 0%Z)) * ((hi - lo) / IZR (nth d [pm_nx0 p; pm_nx1 p; pm_nx2 p] 0%Z)))%R.

(** The processes [dims] with layout [L] execute the run of the parameter file and of the profiles. *)
Record v1d_executes (b : build) (f : bytes) (disk : string -> option h5) (p : param) (v : v1d_params) (bc : nat -> bcond) (g : gas) (lim : limiter)
  (sol : solver) (user : user_kind) (cfl rmax : R) (P : params) (sh : shift_kind) (G : gfields)
  (X : nat -> arr1) (K : ModelStep.config) (dims : idx) (L : layout) (St : idx -> pstate) : Prop := {
  ve_start : forall r, process (b_nd b) dims r -> exists x, startup b dims r (Some f) = Ok x /\ r_param x = p /\ r_gas x = g;
  ve_usable : usable_v1d b p dims;
  ve_config : configured b p bc g lim sol user K;
  ve_moves : moves p v sh;
  ve_rmax : pm_rmax_shift p = Finite rmax;
  ve_runs : runs_on K (I3 (pm_nx0 p) (pm_nx1 p) (pm_nx2 p)) dims X L;
  ve_fields : starts_from K dims L G St;
  ve_program : criterion_ok sh L -> forall clock n,
    v1d_program b dims (Some f) disk clock n = Ok (Some (the_end K cfl P sh rmax (pm_nx0 p) L (fun _ => clock) n X St)) }.
