(** * Gravity models, user steps and one full time step on all processes. *)
From Verif Require Import Base RBase ModelMesh ModelGeom ModelBoundary ModelHydro ModelScheme.
Local Open Scope string_scope.
Local Open Scope R_scope.

(** ** User steps (src/user_step/user_step.cpp) *)

(** src/units/units.hpp:27-58 (SI, so every conversion factor is 1). *)
Definition day : R := 24 * 60 * 60.
Definition atomic_mass_unit : R := 166053906660 / 10 ^ 38.
Definition MeV : R := 1602176634 / 10 ^ 28 * 10 ^ 6.

Inductive user_kind : Type := UOff | UHeatNickel.

(** lines 42-59: [epsilon] *)
Definition tau_ni56 : R := 88 / 10 * day.
Definition tau_co56 : R := 1113 / 10 * day.
Definition m_ni56 : R := 559421278 / 10 ^ 7 * atomic_mass_unit.
Definition Q_ni56 : R := 175 / 100 * MeV.
Definition Q_co56 : R := 373 / 100 * MeV.
Definition nickel_rate (t : R) : R :=
  ((Q_ni56 * (tau_co56 / tau_ni56 - 1) - Q_co56) * exp (- t / tau_ni56) + Q_co56 * exp (- t / tau_co56))
  * (1 / (m_ni56 * (tau_co56 - tau_ni56))).

(** lines 32-40 [NoUserStep::execute], lines 61-68 [HeatNickelStep::execute] *)
Definition user_cell (k : user_kind) (t dt : R) (x : cell) : cell :=
  match k with
  | UOff => x
  | UHeatNickel =>
      mkCell (c_rho x) (c_rhou x) (c_E x + c_fx x 0%nat * c_rho x * nickel_rate t * dt) (c_fx x)
  end.
Definition user_step (p : idx -> bool) (k : user_kind) (t dt : R) (a : idx -> cell) : idx -> cell :=
  kwrite p (fun c => user_cell k t dt (a c)) a.

(** src/user_step/user_step_factory.cpp:16-27, for names other than "UserDefined" (main.cpp:292-297). *)
Definition factory_user_step (name : string) : outcome user_kind :=
  if String.eqb name "Off" then Ok UOff
  else if String.eqb name "Heat_nickel" then Ok UHeatNickel
  else Throw "Unknown user step: factory".

(** ** Gravity (src/gravity/gravity.cpp, src/main.cpp:87-96) *)

Inductive grav_kind : Type := GUniform (g : vec) | GPointMass (M : R) | GInternalMass (M : R).

(** gravity.hpp:63-69, 94-100 with gravity.cpp:50-53, 122-125: the radial acceleration of mass [Mr i]. *)
Definition radial_gravity (m : mesh) (Mr : Z -> R) : gravity := fun c d =>
  match d with
  | O => - Ggrav * Mr (ii c) / (mxc m 0 (ii c) * mxc m 0 (ii c))
  | _ => 0
  end.

(** gravity.cpp:77-91: the owned cells [offset_i = i + nghost0] of a shell, of one process. *)
Definition shell_cells (nloc nghost : idx) (i : Z) : list idx :=
  box_cells (I3 (i + ii nghost) (jj nghost) (kk nghost))
            (I3 (i + ii nghost + 1) (jj nghost + jj nloc) (kk nghost + kk nloc)).

(** grid.cpp:130-131: processes of the communicator [comm_cart_horizontal] of process [r]. *)
Definition horizontal_ranks (dims r : idx) : list idx :=
  box_cells (I3 (ii r) 0 0) (I3 (ii r + 1) (jj dims) (kk dims)).

Definition cube (x : R) : R := x * x * x.

(** gravity.cpp:104-120: M_r(nghost0 + n), the inclusive scan. *)
Fixpoint enclosed_mass (m : mesh) (M : R) (ng0 : Z) (rho_mean : Z -> R) (n : nat) : R :=
  let vol_s3 := 4 * PI / 3 in
  let i := (ng0 + Z.of_nat n)%Z in
  let x3 := cube (m 0%nat i) in
  match n with
  | O => M + vol_s3 * (cube (mxc m 0 i) - x3) * rho_mean 0%Z
  | S n' =>
      enclosed_mass m M ng0 rho_mean n'
      + (vol_s3 * (x3 - cube (mxc m 0 (i - 1))) * rho_mean (Z.of_nat n')
         + vol_s3 * (cube (mxc m 0 i) - x3) * rho_mean (Z.of_nat n))
  end.

(** gravity.cpp:102-120 *)
Definition mass_r (m : mesh) (M : R) (ng0 : Z) (rho_mean : Z -> R) (i : Z) : R :=
  if (i <? ng0)%Z then M else enclosed_mass m M ng0 rho_mean (Z.to_nat (i - ng0)).

(** ** Configuration of a run *)
Record config : Type := mkConfig {
  k_geom : geom; k_nd : nat; k_ng : Z; k_eos : eos; k_lim : limiter; k_sol : solver;
  k_pf : option R;            (* eps of the pressure fix, when it is "On" *)
  k_user : user_kind; k_grav : grav_kind;
  k_bcs : nat -> bcond; k_order : list nat }.

(** The grid object of every process: process grid, decomposition, local coordinates. *)
Record layout : Type := mkLayout { l_dims : idx; l_dec : idx -> decomp; l_mesh : idx -> mesh }.

(** gravity.cpp:77-99: shell averages of the density over all horizontal processes. *)
Definition shell_sum (K : config) (L : layout) (f : idx -> idx -> R) (r : idx) (i : Z) : R :=
  lsum (fun r' => lsum (f r') (shell_cells (d_nloc (l_dec L r')) (nghost_of (k_nd K) (k_ng K)) i))
       (horizontal_ranks (l_dims L) r).
Definition shell_mean (K : config) (L : layout) (A : world cell) (r : idx) (i : Z) : R :=
  let vol r' c := dv (k_geom K) (k_nd K) (l_mesh L r') c in
  shell_sum K L (fun r' c => c_rho (A r' c) * vol r' c) r i / shell_sum K L vol r i.

(** make_uniform_gravity, make_point_mass_gravity, make_internal_mass_gravity on process [r]; the last one
    only when its check (gravity.cpp:61-63) passed. *)
Definition gravity_values (K : config) (L : layout) (A : world cell) (r : idx) : gravity :=
  match k_grav K with
  | GUniform g => fun _ d => g d
  | GPointMass M => radial_gravity (l_mesh L r) (fun _ => M)
  | GInternalMass M =>
      radial_gravity (l_mesh L r)
        (mass_r (l_mesh L r) M (ii (nghost_of (k_nd K) (k_ng K))) (shell_mean K L A r))
  end.
Definition make_gravity (K : config) (L : layout) (A : world cell) : outcome (idx -> gravity) :=
  match k_grav K with
  | GInternalMass _ =>
      if (ii (l_dims L) =? 1)%Z then Ok (gravity_values K L A)
      else Throw "The function make_internal_mass_gravity does not handle more than 1 MPI process in the first dimension"
  | _ => Ok (gravity_values K L A)
  end.

(** ** One process's arrays *)
Record pstate : Type := mkState {
  s_cell : idx -> cell;       (* rho, rhou, E, fx *)
  s_u : field4; s_P : field3; (* u, P *)
  s_rec : recon;              (* rho_rec, rhou_rec, E_rec, fx_rec *)
  s_new : idx -> cell;        (* rho_new, rhou_new, E_new, fx_new *)
  s_grav : gravity }.

(** [grid.range.with_ghosts(n)], when it does not throw (range.cpp:99-107). *)
Definition ghosted (r : range) (n : Z) : range :=
  mkRange (corner_min r) (corner_max r) (rng_ng r) n (rng_nghost r).

(** The cells of that range. *)
Definition sel (K : config) (L : layout) (n : Z) (r : idx) : idx -> bool :=
  in_cells (k_nd K) (ghosted (d_range (l_dec L r)) n).

(** src/main.cpp:427-439 *)
Definition step_rec (K : config) (L : layout) (dt : R) (S : idx -> pstate) (r : idx) : recon :=
  let st := S r in
  hydro_reconstruction (sel K L 1 r) (k_geom K) (k_nd K) (k_eos K) (k_lim K) (l_mesh L r) (s_grav st) (dt / 2)
    (fun c => c_rho (s_cell st c)) (s_u st) (s_P st) (fun c => c_fx (s_cell st c)) (s_rec st).

(** src/main.cpp:441-457 *)
Definition step_godunov (K : config) (L : layout) (dt : R) (S : idx -> pstate) (r : idx) : idx -> cell :=
  let st := S r in
  godunov (sel K L 0 r) (k_geom K) (k_nd K) (k_eos K) (k_sol K) (l_mesh L r) (s_grav st) dt (s_cell st)
    (step_rec K L dt S r) (s_new st).

(** src/main.cpp:459-475 *)
Definition step_pf (K : config) (L : layout) (dt : R) (S : idx -> pstate) (r : idx) : idx -> cell :=
  let new := step_godunov K L dt S r in
  match k_pf K with
  | None => new
  | Some eps =>
      pressure_fix (sel K L 0 r) (k_geom K) (k_nd K) (k_eos K) (l_mesh L r) dt eps (s_cell (S r))
        (step_rec K L dt S r) new
  end.

(** src/main.cpp:477 *)
Definition step_user (K : config) (L : layout) (t dt : R) (S : idx -> pstate) (r : idx) : idx -> cell :=
  user_step (sel K L 0 r) (k_user K) t dt (step_pf K L dt S r).

(** [bcs(...)] (src/main.cpp:307, 479) *)
Definition bcs_update (K : config) (L : layout) (A : world cell) : world cell :=
  boundary_update (k_nd K) (l_dims L) (fun r => d_nwg (l_dec L r)) (k_ng K) (k_bcs K) (k_order K) A.

(** The conversion over all cells (src/main.cpp:311, 526) and the gravity object of the new density
    (lines 309, 528), after the boundary update gave [A]. *)
Definition finish (K : config) (L : layout) (A : world cell) (rec : idx -> recon) (new : world cell)
  (S : idx -> pstate) : idx -> pstate :=
  fun r =>
    let a := A r in
    let up := conv_cons_to_prim (sel K L (k_ng K) r) (k_nd K) (k_eos K) (fun c => c_rho (a c))
                (fun c => c_rhou (a c)) (fun c => c_E (a c)) (s_u (S r)) (s_P (S r)) in
    mkState a (fst up) (snd up) (rec r) (new r) (gravity_values K L A r).

(** One iteration of the main loop (src/main.cpp:427-528) without grid shift, on all processes, for a step
    that throws nothing. *)
Definition full_step (K : config) (L : layout) (t dt : R) (S : idx -> pstate) : idx -> pstate :=
  let A := bcs_update K L (step_user K L t dt S) in
  finish K L A (step_rec K L dt S) A S.

(** src/main.cpp:305-311: from the primitive variables set by the initial conditions (or read from a file)
    on the owned cells to the first state.  [S] holds the initial content of all arrays. *)
Definition init_cons (K : config) (L : layout) (S : idx -> pstate) (r : idx) : idx -> cell :=
  let a := s_cell (S r) in
  let qe := conv_prim_to_cons (sel K L 0 r) (k_nd K) (k_eos K) (fun c => c_rho (a c)) (s_u (S r)) (s_P (S r))
              (fun c => c_rhou (a c)) (fun c => c_E (a c)) in
  fun c => mkCell (c_rho (a c)) (fst qe c) (snd qe c) (c_fx (a c)).
Definition init_state (K : config) (L : layout) (S : idx -> pstate) : idx -> pstate :=
  let A := bcs_update K L (init_cons K L S) in
  finish K L A (fun r => s_rec (S r)) (fun r => s_new (S r)) S.

(** Several steps, with given start times and durations. *)
Definition run (K : config) (L : layout) (ts : list (R * R)) (S : idx -> pstate) : idx -> pstate :=
  fold_left (fun S tdt => full_step K L (fst tdt) (snd tdt) S) ts S.

(** ** Reductions over all processes *)

(** All process coordinates. *)
Definition ranks (dims : idx) : list idx := box_cells (I3 0 0 0) dims.

(** Cells of process [r] in [with_ghosts(n)]. *)
Definition sel_cells (K : config) (L : layout) (n : Z) (r : idx) : list idx :=
  cells_of (k_nd K) (ghosted (d_range (l_dec L r)) n).

(** Greatest / least element; the reducers' neutral elements are [None]. *)
Fixpoint max_list (l : list R) : option R :=
  match l with
  | [] => None
  | x :: l' => match max_list l' with None => Some x | Some y => Some (Rmax x y) end
  end.
Fixpoint min_list (l : list R) : option R :=
  match l with
  | [] => None
  | x :: l' => match min_list l' with None => Some x | Some y => Some (Rmin x y) end
  end.

(** The values a global reduction of [f] combines. *)
Definition all_values (K : config) (L : layout) (n : Z) (f : idx -> idx -> R) : list R :=
  flat_map (fun r => map (f r) (sel_cells K L n r)) (ranks (l_dims L)).

(** src/hydro/time_step.hpp:35-82 with all_ghosts (src/main.cpp:356) *)
Definition cell_inverse_dt (K : config) (L : layout) (S : idx -> pstate) (r c : idx) : R :=
  let st := S r in
  inverse_dt (k_geom K) (k_nd K) (k_eos K) (l_mesh L r) (fun c => c_rho (s_cell st c)) (s_u st) (s_P st) c.
Definition time_step (K : config) (L : layout) (S : idx -> pstate) : option R :=
  match max_list (all_values K L (k_ng K) (cell_inverse_dt K L S)) with
  | Some v => Some (1 / v)
  | None => None
  end.

(** src/analysis/internal_energy.cpp:20-45, on no_ghosts (src/main.cpp:397-406) *)
Definition cell_internal (K : config) (S : idx -> pstate) (r c : idx) : R :=
  evol_cons (k_nd K) (cons_of (s_cell (S r) c)).
Definition minimum_internal_energy (K : config) (L : layout) (S : idx -> pstate) : option R :=
  min_list (all_values K L 0 (cell_internal K S)).

(** src/analysis/integration.cpp:22-37 *)
Definition integrate (K : config) (L : layout) (f : idx -> idx -> R) : R :=
  lsum (fun r => lsum (fun c => f r c * dv (k_geom K) (k_nd K) (l_mesh L r) c) (sel_cells K L 0 r)) (ranks (l_dims L)).

(** The run with the time step chosen by the CFL condition (without outputs and end time). *)
Fixpoint run_cfl (K : config) (L : layout) (cfl : R) (n : nat) (t : R) (S : idx -> pstate) : R * (idx -> pstate) :=
  match n with
  | O => (t, S)
  | S n' =>
      match time_step K L S with
      | None => (t, S)
      | Some h => run_cfl K L cfl n' (t + cfl * h) (full_step K L t (cfl * h) S)
      end
  end.
