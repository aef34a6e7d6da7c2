(** * Initial conditions of the setups (src/setups/<name>/setup.hpp) and their user-defined boundary conditions.

    The setup is chosen at compile time (CMakeLists.txt:63-76); the parameters below are the values the class
    [ParamSetup] of the setup read from the section [Initialisation].  The constants units::density, units::pressure,
    units::velocity, units::m and units::Kelvin are 1 (src/units/units.hpp:15-35).  The setup v1d is in ModelUtil.v. *)
From Verif Require Import Base RBase ModelMesh ModelGeom ModelBoundary ModelHydro ModelRad ModelScheme ModelStep.
Local Open Scope string_scope.
Local Open Scope list_scope.
Local Open Scope R_scope.

(** ** What the kernels read and write *)

(** The functions of class EOS that setups call: PerfectGas or RadGas (src/utils/eos.hpp.in). *)
Record thermo : Type := mkTh {
  th_gamma : R; th_mmw : R;                  (* adiabatic_index, mean_molecular_weight *)
  th_pres_T : R -> R -> R;                   (* compute_pres_from_temp *)
  th_evol_T : R -> R -> R;                   (* compute_evol_from_temp *)
  th_temp_e : R -> R -> R;                   (* compute_temp_from_evol *)
  th_pres_e : R -> R -> R }.                 (* compute_pres_from_evol *)
Definition pg_thermo (g : perfect_gas) : thermo :=
  mkTh (pg_gamma g) (pg_mmw g) (pg_pres_from_temp g) (pg_evol_from_temp g) (pg_temp_from_evol g) (pg_pres_from_evol g).
Definition rg_thermo (g : rad_gas) : thermo :=
  mkTh (rg_gamma g) (rg_mmw g) (rg_pres_from_temp g) (rg_evol_from_temp g) (rg_temp_from_evol g) (rg_pres_from_evol g).

(** The views rho, u, P, fx at one cell. *)
Record icell : Type := mkI { i_rho : R; i_u : vec; i_P : R; i_fx : vec }.

(** What a process's kernel sees: build options, the Grid object, the gravity and EOS objects. *)
Record senv : Type := mkEnv {
  e_geom : geom; e_nd : nat; e_th : thermo;
  e_mesh : mesh;                             (* x0, x1, x2; centres by [mxc] *)
  e_rank : idx;                              (* mpi_rank_cart; mpi_rank is 0 at (0, 0, 0) (grid.cpp:101-103) *)
  e_nglob : idx;                             (* Nx_glob_ng *)
  e_grav : gravity }.
Definition e_dv (e : senv) (c : idx) : R := dv (e_geom e) (e_nd e) (e_mesh e) c.

(** for (idim < ndim) u(i, j, k, idim) = u0 *)
Definition all_u (nd : nat) (u0 : R) (old : vec) : vec := fun d => if Nat.ltb d nd then u0 else old d.
(** u(i, j, k, 0) = a; u(i, j, k, 1) = b *)
Definition two_u (a b : R) (old : vec) : vec := fun d => match d with O => a | 1%nat => b | _ => old d end.
(** fx(i, j, k, 0) = a *)
Definition one_fx (a : R) (old : vec) : vec := fun n => match n with O => a | _ => old n end.

(** std::atan2 on finite arguments, without the distinction between +0 and -0. *)
Definition atan2 (y x : R) : R :=
  if rltb 0 x then atan (y / x)
  else if rltb x 0 then (if rleb 0 y then atan (y / x) + PI else atan (y / x) - PI)
  else if rltb 0 y then PI / 2 else if rltb y 0 then - (PI / 2) else 0.

(** ** Setups and their parameters *)
Inductive setup : Type :=
| SAdvectionGap (rho0 rho1 u0 P0 : R)
| SAdvectionSinus (u0 P0 : R)
| SEqHydroSphe (rho0 u0 T0 M : R)
| SGresho (rho0 u0 Ma : R)
| SHeatNickel (rho0 u0 T0 fx0 : R)
| SImplosion (rho0 rho1 u0 P0 P1 : R)
| SKelvinHelmholtz (P0 : R)
| SRayleighTaylor (rho0 rho1 u fx0 fx1 : R)                    (* the parameter A is read but not used *)
| SRayleighTaylor3d (rho0 rho1 u0 ak bk ck dk : R)             (* the parameter P0 is read but not used *)
| SSedov1d (rho0 u0 E0 E1 : R)
| SSedov2d (rho0 u0 E0 E1 : R)                                 (* the parameter P0 is read but not used *)
| SSedov3d (rho0 P0 E1 : R)
| SShockTube (rho0 rho1 u0 u1 P0 P1 inter : R)
| SShockWall (rho0 u0 P0 : R)
| SStratifiedAtm (rho0 u0 T0 : R).

(** ** Kernels: the values written at cell [c], where the views held [o] *)

(** advection_gap/setup.hpp:68-86 *)
Definition k_advection_gap (rho0 rho1 u0 P0 : R) (e : senv) (c : idx) (o : icell) : icell :=
  let x := mxc (e_mesh e) 0 (ii c) in
  mkI (if (rleb x (3 / 10) || rleb (7 / 10) x)%bool then rho0 else rho1) (all_u (e_nd e) u0 (i_u o)) P0 (i_fx o).

(** advection_sinus/setup.hpp:60-74 *)
Definition k_advection_sinus (u0 P0 : R) (e : senv) (c : idx) (o : icell) : icell :=
  let x := mxc (e_mesh e) 0 (ii c) in
  mkI (1 + 1 / 10 * sin (2 * PI * x)) (all_u (e_nd e) u0 (i_u o)) P0 (i_fx o).

(** eq_hydro_sphe/setup.hpp:76-89, 138-142 *)
Definition eq_hydro_rho (th : thermo) (rho0 T0 M x : R) : R :=
  let x0 := kb * T0 / (th_mmw th * mp * Ggrav * M) in
  rho0 * exp (1 / (x * x0)).
Definition k_eq_hydro (rho0 u0 T0 M : R) (e : senv) (c : idx) (o : icell) : icell :=
  let rho := eq_hydro_rho (e_th e) rho0 T0 M (mxc (e_mesh e) 0 (ii c)) in
  mkI rho (all_u (e_nd e) u0 (i_u o)) (th_pres_T (e_th e) rho T0) (i_fx o).

(** gresho_vortex/setup.hpp:70-101 (the outer branch runs over all idim < ndim; u has two components, line 61) *)
Definition k_gresho (rho0 u0 Ma : R) (e : senv) (c : idx) (o : icell) : icell :=
  let x := mxc (e_mesh e) 0 (ii c) in
  let y := mxc (e_mesh e) 1 (jj c) in
  let r := sqrt (x * x + y * y) in
  let theta := atan2 y x in
  let P0 := 1 / (th_gamma (e_th e) * Ma * Ma) in
  if rltb r (2 / 10) then
    let u_theta := 5 * r in
    mkI rho0 (two_u (- u_theta * sin theta) (u_theta * cos theta) (i_u o)) (P0 + 125 / 10 * r * r) (i_fx o)
  else if rltb r (4 / 10) then
    let u_theta := 2 - 5 * r in
    mkI rho0 (two_u (- u_theta * sin theta) (u_theta * cos theta) (i_u o))
      (P0 + 125 / 10 * r * r + 4 - 20 * r + 4 * ln (5 * r)) (i_fx o)
  else mkI rho0 (all_u (e_nd e) u0 (i_u o)) (P0 - 2 + 4 * ln 2) (i_fx o).

(** heat_nickel/setup.hpp:69-82 *)
Definition k_heat_nickel (rho0 u0 T0 fx0 : R) (e : senv) (c : idx) (o : icell) : icell :=
  mkI rho0 (all_u (e_nd e) u0 (i_u o)) (th_pres_T (e_th e) rho0 T0) (one_fx fx0 (i_fx o)).

(** implosion_test/setup.hpp:74-94 *)
Definition k_implosion (rho0 rho1 u0 P0 P1 : R) (e : senv) (c : idx) (o : icell) : icell :=
  let x := mxc (e_mesh e) 0 (ii c) in
  let y := mxc (e_mesh e) 1 (jj c) in
  let high := rltb (15 / 100) (x + y) in
  mkI (if high then rho0 else rho1) (all_u (e_nd e) u0 (i_u o)) (if high then P0 else P1) (i_fx o).

(** kelvin_helmholtz/setup.hpp:62-84 *)
Definition k_kelvin_helmholtz (P0 : R) (e : senv) (c : idx) (o : icell) : icell :=
  let drho_rho := 1 in
  let a := 5 / 100 in let amp := 1 / 100 in let sigma := 2 / 10 in let y1 := 5 / 10 in let y2 := 15 / 10 in
  let x := mxc (e_mesh e) 0 (ii c) in
  let y := mxc (e_mesh e) 1 (jj c) in
  mkI (1 + drho_rho * (tanh ((y - y1) / a) - tanh ((y - y2) / a)))
    (two_u (1 * (tanh ((y - y1) / a) - tanh ((y - y2) / a)))
       (amp * sin (PI * x) * (exp (- (y - y1) * (y - y1) / (sigma * sigma)) + exp (- (y - y2) * (y - y2) / (sigma * sigma))))
       (i_u o))
    P0 (i_fx o).

(** rayleigh_taylor/setup.hpp:69-94 *)
Definition k_rayleigh_taylor (rho0 rho1 u fx0 fx1 : R) (e : senv) (c : idx) (o : icell) : icell :=
  let P0 := 10 / 7 + 1 / 4 in
  let width := 5 / 1000 in
  let x := mxc (e_mesh e) 0 (ii c) in
  let y := mxc (e_mesh e) 1 (jj c) in
  let h := 1 / 100 * cos (4 * PI * x) in
  mkI (rho1 + (rho0 - rho1) / 2 * (1 + tanh ((y - h) / width))) (two_u u u (i_u o))
    (P0 - rho0 * Rabs (e_grav e c 1%nat) * y)
    (one_fx ((fx0 - fx1) / 2 * (1 + tanh ((y - h) / width))) (i_fx o)).

(** rayleigh_taylor3d/setup.hpp:85-138: height of the interface, from four random numbers drawn by process 0 and
    broadcast to all (lines 70-90). *)
Definition modes : list (Z * Z) :=
  flat_map (fun kx => map (fun ky => (kx, ky))
    (filter (fun ky => let K := (kx * kx + ky * ky)%Z in ((8 <=? K)%Z && (K <=? 16)%Z)%bool) (zrange 0 5))) (zrange 0 5).
Definition interface_height (ak bk ck dk x y : R) : R :=
  let L := 10 in
  let X := 2 * PI * x / L in
  let Y := 2 * PI * y / L in
  lsum (fun k => let '(kx, ky) := k in
          ak * cos (IZR kx * X) * cos (IZR ky * Y) + bk * cos (IZR kx * X) * sin (IZR ky * Y)
          + ck * sin (IZR kx * X) * cos (IZR ky * Y) + dk * sin (IZR kx * X) * sin (IZR ky * Y)) modes.
(** lines 117-118 *)
Definition rt3_P0 (rho0 rho1 g : R) : R := 2 * PI * (rho0 + rho1) * Rabs g * 10.
(** lines 140-146, 150-156: the argument of Kokkos::pow and the density of a fluid of base density [r]; pow is NaN for
    a negative argument, the model is meaningful for positive ones. *)
Definition rt3_base (rho0 rho1 r g z : R) : R :=
  let gamma := 5 / 3 in
  1 - (gamma - 1) / gamma * (r * Rabs g * z) / rt3_P0 rho0 rho1 g.
Definition rt3_rho (rho0 rho1 r g z : R) : R := r * Rpower (rt3_base rho0 rho1 r g z) (1 / (5 / 3 - 1)).
Definition rt3_P (rho0 rho1 r g z : R) : R := rt3_P0 rho0 rho1 g * Rpower (rt3_rho rho0 rho1 r g z / r) (5 / 3).
(** lines 112-162; the coordinates are those of the lower faces (lines 104-106). *)
Definition k_rayleigh_taylor3d (rho0 rho1 u0 ak bk ck dk : R) (e : senv) (c : idx) (o : icell) : icell :=
  let g := e_grav e c 2%nat in
  let z := e_mesh e 2%nat (kk c) in
  let h := interface_height ak bk ck dk (e_mesh e 0%nat (ii c)) (e_mesh e 1%nat (jj c)) in
  let upper := rleb h z in
  let r := if upper then rho0 else rho1 in
  mkI (rt3_rho rho0 rho1 r g z) (all_u (e_nd e) u0 (i_u o)) (rt3_P rho0 rho1 r g z)
    (one_fx (if upper then 1 else 0) (i_fx o)).

(** sedov1d/setup.hpp:64-101 *)
Definition k_sedov1d (rho0 u0 E0 E1 : R) (e : senv) (c : idx) (o : icell) : icell :=
  let alpha := match e_geom e with Cartesian => 1 / 2 | Spherical => 1 end in
  let dv_beg := e_dv e (I3 2 0 0) in
  let T := th_temp_e (e_th e) rho0 (E0 / dv_beg) in
  let T_perturb := th_temp_e (e_th e) rho0 (alpha * E1 / dv_beg) in
  let perturbed := (idx_eqb (e_rank e) (I3 0 0 0) && (ii c =? 2)%Z)%bool in
  mkI rho0 (all_u (e_nd e) u0 (i_u o)) (th_pres_T (e_th e) rho0 (if perturbed then T_perturb else T)) (i_fx o).

(** sedov2d/setup.hpp:74-102 (coordinates of the lower corner, lines 74-75) *)
Definition k_sedov2d (rho0 u0 E0 E1 : R) (e : senv) (c : idx) (o : icell) : icell :=
  let x := e_mesh e 0%nat (ii c) in
  let y := e_mesh e 1%nat (jj c) in
  let r := sqrt (x * x + y * y) in
  let evol := (if rltb r (25 / 1000) then E1 else E0) / e_dv e c in
  mkI rho0 (all_u (e_nd e) u0 (i_u o)) (th_pres_e (e_th e) rho0 evol) (i_fx o).

(** sedov3d/setup.hpp:66-92; == on doubles *)
Definition reqb (a b : R) : bool := if Req_EM_T a b then true else false.
Definition k_sedov3d (rho0 P0 E1 : R) (e : senv) (c : idx) (o : icell) : icell :=
  let ny_2 := Z.quot (jj (e_nglob e)) 2 in
  let nz_2 := Z.quot (kk (e_nglob e)) 2 in
  let centre := (reqb (e_mesh e 0%nat (ii c)) 1 && (jj c =? ny_2)%Z && (kk c =? nz_2)%Z)%bool in
  mkI rho0 (all_u (e_nd e) 0 (i_u o))
    (if centre then th_pres_e (e_th e) rho0 (E1 / e_dv e c) else P0) (i_fx o).

(** shock_tube/setup.hpp:74-91 *)
Definition k_shock_tube (rho0 rho1 u0 u1 P0 P1 inter : R) (e : senv) (c : idx) (o : icell) : icell :=
  let left := rleb (mxc (e_mesh e) 0 (ii c)) inter in
  mkI (if left then rho0 else rho1) (all_u (e_nd e) (if left then u0 else u1) (i_u o)) (if left then P0 else P1) (i_fx o).

(** shock_wall/setup.hpp:64-75 *)
Definition k_shock_wall (rho0 u0 P0 : R) (e : senv) (c : idx) (o : icell) : icell :=
  mkI rho0 (all_u (e_nd e) u0 (i_u o)) P0 (i_fx o).

(** stratified_atm/setup.hpp:83-96, 148-152 *)
Definition stratified_rho (th : thermo) (rho0 T0 g x : R) : R :=
  let x0 := kb * T0 / (th_mmw th * mp * Rabs g) in
  rho0 * exp (- x / x0).
Definition k_stratified (rho0 u0 T0 : R) (e : senv) (c : idx) (o : icell) : icell :=
  let rho := stratified_rho (e_th e) rho0 T0 (e_grav e c 0%nat) (mxc (e_mesh e) 0 (ii c)) in
  mkI rho (all_u (e_nd e) u0 (i_u o)) (th_pres_T (e_th e) rho T0) (i_fx o).

Definition setup_cell (s : setup) : senv -> idx -> icell -> icell :=
  match s with
  | SAdvectionGap rho0 rho1 u0 P0 => k_advection_gap rho0 rho1 u0 P0
  | SAdvectionSinus u0 P0 => k_advection_sinus u0 P0
  | SEqHydroSphe rho0 u0 T0 M => k_eq_hydro rho0 u0 T0 M
  | SGresho rho0 u0 Ma => k_gresho rho0 u0 Ma
  | SHeatNickel rho0 u0 T0 fx0 => k_heat_nickel rho0 u0 T0 fx0
  | SImplosion rho0 rho1 u0 P0 P1 => k_implosion rho0 rho1 u0 P0 P1
  | SKelvinHelmholtz P0 => k_kelvin_helmholtz P0
  | SRayleighTaylor rho0 rho1 u fx0 fx1 => k_rayleigh_taylor rho0 rho1 u fx0 fx1
  | SRayleighTaylor3d rho0 rho1 u0 ak bk ck dk => k_rayleigh_taylor3d rho0 rho1 u0 ak bk ck dk
  | SSedov1d rho0 u0 E0 E1 => k_sedov1d rho0 u0 E0 E1
  | SSedov2d rho0 u0 E0 E1 => k_sedov2d rho0 u0 E0 E1
  | SSedov3d rho0 P0 E1 => k_sedov3d rho0 P0 E1
  | SShockTube rho0 rho1 u0 u1 P0 P1 inter => k_shock_tube rho0 rho1 u0 u1 P0 P1 inter
  | SShockWall rho0 u0 P0 => k_shock_wall rho0 u0 P0
  | SStratifiedAtm rho0 u0 T0 => k_stratified rho0 u0 T0
  end.

(** sedov2d/setup.hpp:70-72, sedov3d/setup.hpp:73-75 *)
Definition setup_check (g : geom) (s : setup) : outcome unit :=
  match s, g with
  | SSedov2d _ _ _ _, Spherical => Throw "No Sedov 2D in spherical geometry implemented"
  | SSedov3d _ _ _, Cartesian => Throw "No Sedov 3D in Cartesian implemented"
  | _, _ => Ok tt
  end.

(** ** src/main.cpp:186-264: the arrays before the conversion to conservative variables *)

(** Kokkos views are zero-filled on allocation. *)
Definition zero_cell : cell := mkCell 0 (fun _ => 0) 0 (fun _ => 0).
Definition zero_rec : recon := mkRec (fun _ _ _ => mkCons 0 (fun _ => 0) 0) (fun _ _ _ _ => 0).

(** main.cpp:259: the gravity object used for the initialisation, of a density that is zero everywhere. *)
Definition setup_env (K : config) (th : thermo) (N : idx) (L : layout) (r : idx) : senv :=
  mkEnv (k_geom K) (k_nd K) th (l_mesh L r) r N (gravity_values K L (fun _ _ => zero_cell) r).

(** main.cpp:264 *)
Definition setup_fields (s : setup) (K : config) (th : thermo) (N : idx) (L : layout) (r : idx) : idx -> icell :=
  let old := fun _ : idx => mkI 0 (fun _ => 0) 0 (fun _ => 0) in
  kwrite (sel K L 0 r) (fun c => setup_cell s (setup_env K th N L r) c (old c)) old.
Definition setup_state (s : setup) (K : config) (th : thermo) (N : idx) (L : layout) : idx -> pstate := fun r =>
  let f := setup_fields s K th N L r in
  mkState (fun c => mkCell (i_rho (f c)) (fun _ => 0) 0 (i_fx (f c))) (fun c => i_u (f c)) (fun c => i_P (f c))
    zero_rec (fun _ => zero_cell) (gravity_values K L (fun _ _ => zero_cell) r).
(** The same, after the check for the geometry. *)
Definition initialise (s : setup) (K : config) (th : thermo) (N : idx) (L : layout) : outcome (idx -> pstate) :=
  obind (setup_check (k_geom K) s) (fun _ => Ok (setup_state s K th N L)).

(** ** User-defined boundary conditions *)

(** stratified_atm/setup.hpp:147-159 and eq_hydro_sphe/setup.hpp:140-150, the values written at a cell of the box
    (lines 128-146, 120-139, the same box as in ModelBoundary.v); other setups have none
    (src/default_boundary_setup.hpp:21-29 throws). *)
Definition user_cell_of (s : setup) (e : senv) (c : idx) (o : cell) : outcome cell :=
  let x := mxc (e_mesh e) 0 (ii c) in
  match s with
  | SStratifiedAtm rho0 u0 T0 =>
      let rho := stratified_rho (e_th e) rho0 T0 (e_grav e c 0%nat) x in
      Ok (mkCell rho (all_u (e_nd e) (rho0 * u0) (c_rhou o)) (th_evol_T (e_th e) rho T0) (c_fx o))
  | SEqHydroSphe rho0 u0 T0 M =>
      let rho := eq_hydro_rho (e_th e) rho0 T0 M x in
      Ok (mkCell rho (all_u (e_nd e) (rho0 * u0) (c_rhou o)) (th_evol_T (e_th e) rho T0) (c_fx o))
  | _ => Throw "Boundary setup not implemented"
  end.
Definition user_condition (s : setup) (e : senv) (ext : idx) (ng : Z) (d face : nat) (a : idx -> cell) : idx -> cell :=
  kwrite (in_boxb (bc_begin ext ng d face) (bc_end ext ng d face))
    (fun c => match user_cell_of s e c (a c) with Ok v => v | _ => a c end) a.
