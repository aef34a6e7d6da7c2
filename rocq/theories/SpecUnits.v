(** * Change of units. *)
From Verif Require Import Base RBase ModelMesh ModelGeom ModelBoundary ModelHydro ModelScheme ModelStep ModelMain SpecStep.
Local Open Scope R_scope.

(** New units: a density of [u_D], a velocity of [u_V] and a length of [u_L] new units make one old unit of
    each.  The coordinates of direction [d] are multiplied by [u_X d]: the length unit where the coordinate is
    a length, 1 where it is an angle, and anything positive in the directions that are not simulated. *)
Record units : Type := mkUnits { u_D : R; u_V : R; u_L : R; u_X : nat -> R }.

Definition unit_system (g : geom) (nd : nat) (U : units) : Prop :=
  0 < u_D U /\ 0 < u_V U /\ 0 < u_L U /\ (forall d, 0 < u_X U d) /\
  match g with
  | Cartesian => forall d, (d < nd)%nat -> u_X U d = u_L U
  | Spherical => u_X U 0%nat = u_L U /\ u_X U 1%nat = 1 /\ u_X U 2%nat = 1
  end.

(** The units of time, momentum density, pressure (or energy density), and acceleration. *)
Definition u_T (U : units) : R := u_L U / u_V U.
Definition u_M (U : units) : R := u_D U * u_V U.
Definition u_E (U : units) : R := u_D U * u_V U * u_V U.
Definition u_A (U : units) : R := u_V U * u_V U / u_L U.

(** Everything a run works on, expressed in the new units. *)
Definition cons_in (U : units) (q : cons) : cons :=
  mkCons (u_D U * q_rho q) (fun d => u_M U * q_m q d) (u_E U * q_E q).
Definition cell_in (U : units) (x : cell) : cell :=
  mkCell (u_D U * c_rho x) (fun d => u_M U * c_rhou x d) (u_E U * c_E x) (c_fx x).
Definition recon_in (U : units) (r : recon) : recon :=
  mkRec (fun c sd d => cons_in U (r_q r c sd d)) (r_fx r).
Definition state_in (U : units) (s : pstate) : pstate :=
  mkState (fun c => cell_in U (s_cell s c)) (fun c d => u_V U * s_u s c d) (fun c => u_E U * s_P s c)
          (recon_in U (s_rec s)) (fun c => cell_in U (s_new s c)) (fun c d => u_A U * s_grav s c d).
Definition states_in (U : units) (S : idx -> pstate) : idx -> pstate := fun r => state_in U (S r).
Definition fields_in (U : units) (G : gfields) : gfields :=
  mkG (fun c => u_D U * g_rho G c) (fun c d => u_V U * g_u G c d) (fun c => u_E U * g_P G c) (g_fx G).

Definition coords_in (U : units) (X : nat -> arr1) : nat -> arr1 :=
  fun d => mkArr1 (a_ext (X d)) (fun i => u_X U (match d with O => 0 | 1 => 1 | _ => 2 end)%nat * a_at (X d) i).
Definition layout_in (U : units) (L : layout) : layout :=
  mkLayout (l_dims L) (l_dec L)
    (fun r d i => u_X U (match d with O => 0 | 1 => 1 | _ => 2 end)%nat * l_mesh L r d i).

(** Two equations of state that give the same pressures, energies and sound speeds. *)
Definition same_gas (U : units) (e e' : eos) : Prop := forall rho x,
  eos_evol e' (u_D U * rho) (u_E U * x) = u_E U * eos_evol e rho x /\
  eos_pres e' (u_D U * rho) (u_E U * x) = u_E U * eos_pres e rho x /\
  eos_sound e' (u_D U * rho) (u_E U * x) = u_V U * eos_sound e rho x.

(** The gravity parameter in the new units; the gravitational constant of the code stays what it is, so masses
    come in units of length times squared velocity, and self-gravity ties the density unit to the others. *)
Definition gravity_in (U : units) (k : grav_kind) : grav_kind :=
  match k with
  | GUniform g => GUniform (fun d => u_A U * g d)
  | GPointMass M => GPointMass (u_L U * u_V U * u_V U * M)
  | GInternalMass M => GInternalMass (u_L U * u_V U * u_V U * M)
  end.
Definition gravity_units (U : units) (k : grav_kind) : Prop :=
  match k with GInternalMass _ => u_D U * u_L U * u_L U = u_V U * u_V U | _ => True end.

(** The decay of nickel has its own energy per mass and its own time scale: only densities may change. *)
Definition user_units (U : units) (k : user_kind) : Prop :=
  match k with UOff => True | UHeatNickel => u_V U = 1 /\ u_L U = 1 end.

(** The configuration in the new units, for a gas [e']. *)
Definition config_in (U : units) (e' : eos) (K : config) : config :=
  mkConfig (k_geom K) (k_nd K) (k_ng K) e' (k_lim K) (k_sol K) (k_pf K) (k_user K) (gravity_in U (k_grav K))
           (k_bcs K) (k_order K).

Definition compatible (U : units) (e' : eos) (K : config) : Prop :=
  (1 <= k_nd K <= 3)%nat /\ unit_system (k_geom K) (k_nd K) U /\ same_gas U (k_eos K) e' /\
  gravity_units U (k_grav K) /\ user_units U (k_user K).

(** Run parameters and the variables of the main program. *)
Definition params_in (U : units) (p : params) : params :=
  mkParams (u_T U * p_t_ini p) (u_T U * p_t_end p) (p_max_iter p) (p_iter_freq p) (u_T U * p_time_freq p)
           (u_T U * p_time_first p).
Definition file_in (U : units) (f : file (idx -> pstate)) : file (idx -> pstate) :=
  mkFile (fl_oid f) (fl_iid f) (fl_tid f) (fl_iter f) (u_T U * fl_t f) (states_in U (fl_data f)).
Definition main_in (U : units) (m : mstate (idx -> pstate)) : mstate (idx -> pstate) :=
  mkM (m_oid m) (m_iid m) (m_tid m) (m_iter m) (u_T U * m_t m) (map (fun p => (fst p, u_T U * snd p)) (m_record m))
      (states_in U (m_st m)) (map (file_in U) (m_files m)).
