(** * Vocabulary for the radiative gas (C55, C73, C74). *)
From Coq Require Import Reals.
From Coquelicot Require Import Coquelicot.
From Verif Require Import Base RBase ModelHydro ModelRad.
Local Open Scope R_scope.

Definition proper_gas (g : rad_gas) : Prop := 1 < rg_gamma g /\ 0 < rg_mmw g.

(** Energy per unit volume and pressure of the gas alone and of the radiation alone, at temperature [T]. *)
Definition gas_pressure (g : rad_gas) (rho T : R) : R := rho * kb * T / (rg_mmw g * mp).
Definition gas_energy (g : rad_gas) (rho T : R) : R := gas_pressure g rho T / (rg_gamma g - 1).
Definition radiation_energy (T : R) : R := ar * T ^ 4.
Definition radiation_pressure (T : R) : R := radiation_energy T / 3.
Definition total_energy (g : rad_gas) (rho T : R) : R := gas_energy g rho T + radiation_energy T.
Definition total_pressure (g : rad_gas) (rho T : R) : R := gas_pressure g rho T + radiation_pressure T.

(** One step of Newton's method for [h T = y]. *)
Definition newton_step (h : R -> R) (y T : R) : R := T - (h T - y) / Derive h T.
(** The temperature if there were only gas or only radiation, whichever is larger. *)
Definition first_guess (gas : R -> R) (rad : R -> R) (y T0 : R) : Prop :=
  0 < T0 /\ ((gas T0 = y /\ y <= rad T0) \/ (rad T0 = y /\ y <= gas T0)).

(** What Newton's method from [T0] stops at: the first iterate reached by a step of at most 10^-6, or the hundredth. *)
Definition stops_at (step : R -> R) (T0 T : R) : Prop :=
  exists n, (1 <= n <= 100)%nat /\ T = Nat.iter n step T0 /\
    (forall k, (k < n - 1)%nat -> 1 / 10 ^ 6 < Rabs (Nat.iter (S k) step T0 - Nat.iter k step T0)) /\
    (n = 100%nat \/ Rabs (T - Nat.iter (n - 1) step T0) <= 1 / 10 ^ 6).

(** A path of temperatures along which gas and radiation are compressed without heat exchange at density [rho]: the energy per
    unit mass changes by the work of the pressure, d(E/rho) = P/rho^2 d rho. *)
Definition isentropic_at (g : rad_gas) (Tf : R -> R) (rho : R) : Prop :=
  ex_derive Tf rho /\ Derive (fun r => total_energy g r (Tf r) / r) rho = total_pressure g rho (Tf rho) / rho ^ 2.
