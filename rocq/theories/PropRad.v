(** * C55, C73, C74: equation of state of a gas with radiation (src/thermodynamics/rad_gas.hpp), in real arithmetic. *)
From Coq Require Import Reals Lra.
From Coquelicot Require Import Coquelicot.
From Verif Require Import Base RBase ModelHydro ModelRad SpecRad ProofRad.
Local Open Scope R_scope.

(** C55: there is exactly one temperature at which gas and radiation together have the given energy (pressure); the value
    returned is where Newton's method stops when started from the larger of the two single-component temperatures. *)
Theorem C55_unique_root_and_newton_iterates :
  forall g rho y, proper_gas g -> 0 < rho -> 0 < y ->
    ((exists Ts, 0 < Ts /\ total_energy g rho Ts = y /\ forall T, 0 <= T -> total_energy g rho T = y -> T = Ts) /\
     exists T0, first_guess (gas_energy g rho) radiation_energy y T0 /\
       stops_at (newton_step (total_energy g rho) y) T0 (rg_temp_from_evol g rho y)) /\
    ((exists Ts, 0 < Ts /\ total_pressure g rho Ts = y /\ forall T, 0 <= T -> total_pressure g rho T = y -> T = Ts) /\
     exists T0, first_guess (gas_pressure g rho) radiation_pressure y T0 /\
       stops_at (newton_step (total_pressure g rho) y) T0 (rg_temp_from_pres g rho y)).
Proof.
  intros g rho y Hg Hr Hy. split; (split; [now apply energy_root || now apply pressure_root|]).
  - eexists. exact (energy_stops g rho y Hg Hr Hy).
  - eexists. exact (pressure_stops g rho y Hg Hr Hy).
Qed.
Print Assumptions C55_unique_root_and_newton_iterates.

(** C55: from any temperature not below the root, one Newton step stays not below it, removes at least a quarter of the error,
    and is quadratic. *)
Theorem C55_each_step_reduces_the_error :
  forall g rho Ts T, proper_gas g -> 0 < rho -> 0 < Ts -> Ts <= T ->
    (let T' := newton_step (total_energy g rho) (total_energy g rho Ts) T in
     Ts <= T' /\ T' <= T - (T - Ts) / 4 /\ T' - Ts <= 3 / 2 * (T - Ts) ^ 2 / Ts) /\
    (let T' := newton_step (total_pressure g rho) (total_pressure g rho Ts) T in
     Ts <= T' /\ T' <= T - (T - Ts) / 4 /\ T' - Ts <= 3 / 2 * (T - Ts) ^ 2 / Ts).
Proof. intros g rho Ts T Hg Hr Hs HT. split; [now apply energy_step|now apply pressure_step]. Qed.
Print Assumptions C55_each_step_reduces_the_error.

(** C55: the value returned is never below the root, and within a stated bound of it; when the radiation holds at most 10^10 times
    the energy (pressure) of the gas, within 3*10^-6 K or a relative 10^-15, whichever is larger. *)
Theorem C55_result_bounds :
  forall g rho Ts, proper_gas g -> 0 < rho -> 0 < Ts ->
    (let y := total_energy g rho Ts in let T := rg_temp_from_evol g rho y in
     Ts <= T /\
     (forall T0, first_guess (gas_energy g rho) radiation_energy y T0 -> T <= Ts + Rmax (3 / 10 ^ 6) ((3 / 4) ^ 100 * (T0 - Ts))) /\
     (radiation_energy Ts <= 10 ^ 10 * gas_energy g rho Ts -> T <= Ts + Rmax (3 / 10 ^ 6) (Ts / 10 ^ 15))) /\
    (let y := total_pressure g rho Ts in let T := rg_temp_from_pres g rho y in
     Ts <= T /\
     (forall T0, first_guess (gas_pressure g rho) radiation_pressure y T0 -> T <= Ts + Rmax (3 / 10 ^ 6) ((3 / 4) ^ 100 * (T0 - Ts))) /\
     (radiation_pressure Ts <= 10 ^ 10 * gas_pressure g rho Ts -> T <= Ts + Rmax (3 / 10 ^ 6) (Ts / 10 ^ 15))).
Proof.
  intros g rho Ts Hg Hr Hs. split.
  - destruct (energy_bounds g rho Ts Hg Hr Hs) as (H1 & H2 & H3 & _). exact (conj H1 (conj H2 H3)).
  - destruct (pressure_bounds g rho Ts Hg Hr Hs) as (H1 & H2 & H3 & _). exact (conj H1 (conj H2 H3)).
Qed.
Print Assumptions C55_result_bounds.

(** C55: construction accepts exactly the finite gamma > 1, mu > 0 and keeps them. *)
Theorem C55_construction_accepts_exactly :
  forall gamma mmw,
    (forall g m, make_rad_gas gamma mmw = Ok (mkRG g m) <-> gamma = XR g /\ mmw = XR m /\ 1 < g /\ 0 < m) /\
    ((exists w, make_rad_gas gamma mmw = Throw w) <-> ~ (exists g m, gamma = XR g /\ mmw = XR m /\ 1 < g /\ 0 < m)).
Proof. exact make_rad_gas_spec. Qed.
Print Assumptions C55_construction_accepts_exactly.
(** The Sun's centre, roughly: the radiation carries far less than 10^10 times the gas. *)
Example C55_example : let rho := 1.5 * 10 ^ 5 in let T := 1.5 * 10 ^ 7 in
  proper_gas hot_gas /\ 0 < rho /\ 0 < T /\ radiation_energy T <= 10 ^ 10 * gas_energy hot_gas rho T.
Proof.
  cbv zeta. split; [exact hot_proper|]. split; [lra|]. split; [lra|]. pose proof ar_upper as U.
  unfold radiation_energy, gas_energy, gas_pressure, hot_gas, kb, mp. cbn [rg_gamma rg_mmw]. lra.
Qed.

(** C73 (refuted): there is a physically ordinary state -- 10^-13 kg/m^3 at 10^7 K -- whose temperature, recovered from its own
    energy or its own pressure, comes out at least thirty times too hot, whose energy, recovered from its own pressure, comes out
    at least 700000 times too large, and for which no message is printed. *)
Theorem C73_round_trip_refuted :
  exists g rho T, proper_gas g /\ 0 < rho /\ 0 < T /\
    30 * T <= rg_temp_from_evol g rho (rg_evol_from_temp g rho T) /\
    30 * T <= rg_temp_from_pres g rho (rg_pres_from_temp g rho T) /\
    700000 * rg_evol_from_temp g rho T <= rg_evol_from_pres g rho (rg_pres_from_temp g rho T) /\
    says_no_convergence (solve_evol g rho (rg_evol_from_temp g rho T)) = false /\
    says_no_convergence (solve_pres g rho (rg_pres_from_temp g rho T)) = false.
Proof. exact round_trip_witness. Qed.
Print Assumptions C73_round_trip_refuted.

(** C73: not an isolated state: wherever the radiation holds at least 10^14 times the gas; and the message is never printed. *)
Theorem C73_radiation_dominated_refuted :
  forall g rho T, proper_gas g -> 0 < rho -> 0 < T ->
    (10 ^ 14 * gas_energy g rho T <= radiation_energy T -> 30 * T <= rg_temp_from_evol g rho (rg_evol_from_temp g rho T)) /\
    (10 ^ 14 * gas_pressure g rho T <= radiation_pressure T -> 30 * T <= rg_temp_from_pres g rho (rg_pres_from_temp g rho T)) /\
    says_no_convergence (solve_evol g rho (rg_evol_from_temp g rho T)) = false /\
    says_no_convergence (solve_pres g rho (rg_pres_from_temp g rho T)) = false.
Proof. exact radiation_dominated. Qed.
Print Assumptions C73_radiation_dominated_refuted.

(** C73, what does hold: temperature to energy or pressure is the physical sum; every round trip errs upwards only; and with at
    most 10^10 times as much radiation as gas the temperature comes back within the Newton tolerance. *)
Theorem C73_round_trips_err_upwards :
  forall g rho T, proper_gas g -> 0 < rho -> 0 < T ->
    rg_evol_from_temp g rho T = gas_energy g rho T + radiation_energy T /\
    rg_pres_from_temp g rho T = gas_pressure g rho T + radiation_pressure T /\
    T <= rg_temp_from_evol g rho (rg_evol_from_temp g rho T) /\ T <= rg_temp_from_pres g rho (rg_pres_from_temp g rho T) /\
    rg_pres_from_temp g rho T <= rg_pres_from_evol g rho (rg_evol_from_temp g rho T) /\
    rg_evol_from_temp g rho T <= rg_evol_from_pres g rho (rg_pres_from_temp g rho T) /\
    (radiation_energy T <= 10 ^ 10 * gas_energy g rho T ->
       rg_temp_from_evol g rho (rg_evol_from_temp g rho T) <= T + Rmax (3 / 10 ^ 6) (T / 10 ^ 15)) /\
    (radiation_pressure T <= 10 ^ 10 * gas_pressure g rho T ->
       rg_temp_from_pres g rho (rg_pres_from_temp g rho T) <= T + Rmax (3 / 10 ^ 6) (T / 10 ^ 15)).
Proof. exact round_trips_all. Qed.
Print Assumptions C73_round_trips_err_upwards.
Example C73_example : let rho := 1 / 10 ^ 13 in let T := 10 ^ 7 in
  10 ^ 14 * gas_energy hot_gas rho T <= radiation_energy T /\ 10 ^ 14 * gas_pressure hot_gas rho T <= radiation_pressure T.
Proof. exact hot_dilute. Qed.

(** C74: the sound speed is the isentropic one of gas plus radiation at the temperature found: the square is the derivative of the
    pressure along every path without heat exchange; such paths exist; and it lies between 4/3 and gamma times P/rho. *)
Theorem C74_sound_speed_is_isentropic :
  forall g rho P, proper_gas g -> 0 < rho -> 0 < P ->
    let T := rg_temp_from_pres g rho P in
    0 < rg_sound g rho P /\ (exists Tf, Tf rho = T /\ isentropic_at g Tf rho) /\
    (forall Tf, Tf rho = T -> isentropic_at g Tf rho -> Derive (fun r => total_pressure g r (Tf r)) rho = rg_sound g rho P ^ 2) /\
    (4 / 3 <= rg_gamma g -> 4 / 3 * (total_pressure g rho T / rho) <= rg_sound g rho P ^ 2 <= rg_gamma g * (total_pressure g rho T / rho)).
Proof. exact sound_isentropic. Qed.
Print Assumptions C74_sound_speed_is_isentropic.
Example C74_example : exists g, make_rad_gas (XR (5 / 3)) (XR 1) = Ok g /\ proper_gas g /\ 4 / 3 <= rg_gamma g.
Proof.
  exists hot_gas. split; [apply make_rad_gas_spec; repeat split; lra|]. split; [exact hot_proper|]. cbn. lra.
Qed.
