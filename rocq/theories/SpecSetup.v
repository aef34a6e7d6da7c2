(** * Vocabulary for the initial conditions of the setups (C78-C83). *)
From Verif Require Import Base RBase ModelMesh ModelGeom ModelBoundary ModelHydro ModelRad ModelScheme ModelStep ModelSetup
  SpecGeom SpecBoundary SpecHydro SpecScheme SpecStep.
Local Open Scope R_scope.

(** The gases the program accepts. *)
Definition valid_gas (g : perfect_gas) : Prop := 1 < pg_gamma g /\ 0 < pg_mmw g.

(** ** C78 *)

(** The start of a run does not depend on the number and arrangement of the processes. *)
Definition grid_independent (s : setup) (K : config) (th : thermo) (N : idx) (X : nat -> arr1) : Prop :=
  exists G, forall dims L, laid_out K N dims X L -> gravity_ok K dims ->
    starts_from K dims L G (setup_state s K th N L).

(** All setups but two of the blasts. *)
Definition positional (s : setup) : Prop :=
  match s with SSedov1d _ _ _ _ | SSedov3d _ _ _ => False | _ => True end.

(** ** C79 *)

(** The pressure of a gas (and of radiation that only depends on the temperature). *)
Definition gas_law (th : thermo) : Prop :=
  0 < th_mmw th /\ exists q, forall rho T, th_pres_T th rho T = rho * kb * T / (th_mmw th * mp) + q T.

(** The initial condition [f] (as a function of the coordinates of the process and the cell) is, on the cells that
    satisfy [on], a density and a pressure profile of the position [pos], and the pressure force balances the
    acceleration [g]: dP/dx = rho g. *)
Definition hydrostatic (f : mesh -> idx -> icell) (pos : mesh -> idx -> R) (on : mesh -> idx -> Prop) (g : R -> R) : Prop :=
  exists rho P : R -> R, forall m c, on m c ->
    i_rho (f m c) = rho (pos m c) /\ i_P (f m c) = P (pos m c) /\
    derivable_pt_lim P (pos m c) (rho (pos m c) * g (pos m c)).

(** Coordinates of the centre and of the lower face of a cell. *)
Definition centre (d : nat) (m : mesh) (c : idx) : R := (m d (coord d c) + m d (coord d c + 1)%Z) / 2.
Definition lower_face (d : nat) (m : mesh) (c : idx) : R := m d (coord d c).

(** ** C80 *)

(** The two setups with boundary conditions of their own. *)
Definition atmosphere (s : setup) (rho0 u0 T0 : R) : Prop :=
  s = SStratifiedAtm rho0 u0 T0 \/ exists M, s = SEqHydroSphe rho0 u0 T0 M.

(** The state of a cell before the first kernel writes it. *)
Definition old_cell : icell := mkI 0 (fun _ => 0) 0 (fun _ => 0).

(** Internal energy per volume of a conservative state. *)
Definition internal_of (nd : nat) (x : cell) : R := c_E x - vsum nd (fun k => c_rhou x k ^ 2) / (2 * c_rho x).

(** ** C81 *)

(** A rotation around the origin, tangential velocity [v r], in which the pressure force balances the centrifugal
    one: dP/dr = rho v^2 / r. *)
Definition steady_rotation (f : mesh -> idx -> icell) : Prop :=
  exists rho v P : R -> R,
    (forall m c, let x := centre 0 m c in let y := centre 1 m c in let r := sqrt (x ^ 2 + y ^ 2) in
       0 < r ->
       i_rho (f m c) = rho r /\ i_u (f m c) 0%nat = - v r * (y / r) /\ i_u (f m c) 1%nat = v r * (x / r) /\
       i_P (f m c) = P r) /\
    (forall r, 0 < r -> continuity_pt v r /\ derivable_pt_lim P r (rho r * v r ^ 2 / r)).

(** ** C82 *)

(** Internal energy of the whole domain at the start. *)
Definition initial_energy (s : setup) (K : config) (g : perfect_gas) (N : idx) (L : layout) : R :=
  integrate K L (fun r c => let f := setup_fields s K (pg_thermo g) N L r c in pg_evol_from_pres g (i_rho f) (i_P f)).

(** ** C83 *)

(** Temperatures and energies that are positive give positive pressures. *)
Definition sound_thermo (th : thermo) : Prop :=
  (1 < th_gamma th /\ 0 < th_mmw th) /\
  (forall rho T, 0 < rho -> 0 < T -> 0 < th_pres_T th rho T) /\
  (forall rho ev, 0 < rho -> 0 < ev -> 0 < th_temp_e th rho ev) /\
  (forall rho ev, 0 < rho -> 0 < ev -> 0 < th_pres_e th rho ev).

(** The parameters a user would choose: positive densities, pressures, temperatures, energies. *)
Definition positive_parameters (s : setup) : Prop :=
  match s with
  | SAdvectionGap rho0 rho1 _ P0 => 0 < rho0 /\ 0 < rho1 /\ 0 < P0
  | SAdvectionSinus _ P0 | SKelvinHelmholtz P0 => 0 < P0
  | SEqHydroSphe rho0 _ T0 _ | SHeatNickel rho0 _ T0 _ | SStratifiedAtm rho0 _ T0 => 0 < rho0 /\ 0 < T0
  | SGresho rho0 _ Ma => 0 < rho0 /\ 0 < Ma
  | SImplosion rho0 rho1 _ P0 P1 | SShockTube rho0 rho1 _ _ P0 P1 _ => 0 < rho0 /\ 0 < rho1 /\ 0 < P0 /\ 0 < P1
  | SRayleighTaylor rho0 rho1 _ _ _ | SRayleighTaylor3d rho0 rho1 _ _ _ _ _ => 0 < rho0 /\ 0 < rho1
  | SSedov1d rho0 _ E0 E1 | SSedov2d rho0 _ E0 E1 => 0 < rho0 /\ 0 < E0 /\ 0 < E1
  | SSedov3d rho0 P0 E1 => 0 < rho0 /\ 0 < P0 /\ 0 < E1
  | SShockWall rho0 _ P0 => 0 < rho0 /\ 0 < P0
  end.

(** Height limits of the two Rayleigh-Taylor setups: where the linear (2D) or polytropic (3D) pressure is positive. *)
Definition height_ok (s : setup) (g1 g2 : R) (m : mesh) (c : idx) : Prop :=
  match s with
  | SRayleighTaylor rho0 _ _ _ _ => rho0 * Rabs g1 * centre 1 m c < 10 / 7 + 1 / 4
  | SRayleighTaylor3d _ _ _ _ _ _ _ => g2 <> 0 /\ lower_face 2 m c < 50 * PI
  | _ => True
  end.

(** The advection tests: uniform velocity components and pressure, density within bounds. *)
Definition advection (s : setup) (u0 P0 lo hi : R) : Prop :=
  match s with
  | SAdvectionGap rho0 rho1 u P => u = u0 /\ P = P0 /\ lo <= rho0 <= hi /\ lo <= rho1 <= hi
  | SAdvectionSinus u P => u = u0 /\ P = P0 /\ lo <= 9 / 10 /\ 11 / 10 <= hi
  | _ => False
  end.
(** The velocity of the setup: equal components in the directions of the run. *)
Definition diagonal (nd : nat) (u0 : R) : vec := fun d => if Nat.ltb d nd then u0 else 0.
