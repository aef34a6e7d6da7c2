(** * Equation of state of a gas with radiation: src/thermodynamics/rad_gas.{hpp,cpp}, in real arithmetic. *)
From Coq Require Import Reals.
From Verif Require Import Base RBase ModelHydro.
Local Open Scope string_scope.
Local Open Scope R_scope.

(** src/units/units.hpp:62-80 *)
Definition hplanck : R := 662607015 / 10 ^ 42.
Definition clight : R := 299792458.
Definition ar : R := (8 * PI ^ 5 * kb ^ 4) / (15 * hplanck ^ 3 * clight ^ 3).

(** rad_gas.hpp:20-22; [m_gamma_m1 = gamma - 1]. *)
Record rad_gas : Type := mkRG { rg_gamma : R; rg_mmw : R }.

(** rad_gas.cpp:13-22 *)
Definition make_rad_gas (gamma mmw : xreal) : outcome rad_gas :=
  if (negb (xfinite gamma) || xleb gamma 1)%bool then Throw "Invalid gamma"
  else if (negb (xfinite mmw) || xleb mmw 0)%bool then Throw "Invalid mmw"
  else match gamma, mmw with
       | XR g, XR m => Ok (mkRG g m)
       | _, _ => UB "unreachable"
       end.

(** rad_gas.hpp:52-57 *)
Definition rg_evol_from_temp (g : rad_gas) (rho T : R) : R :=
  let T4 := T * T * T * T in
  rho * kb * T / (rg_mmw g * mp * (rg_gamma g - 1)) + ar * T4.
(** rad_gas.hpp:65-69 *)
Definition rg_pres_from_temp (g : rad_gas) (rho T : R) : R :=
  let T4 := T * T * T * T in
  rho * kb * T / (rg_mmw g * mp) + ar * T4 / 3.

Definition max_itr : nat := 100.
Definition tol_newton : R := 1 / 10 ^ 6.

(** The loops of rad_gas.hpp:83-94 and 113-124, with [left] iterations to go from [i]: final T, itr and delta_T. *)
Fixpoint newton_loop (delta : R -> R) (left i : nat) (T : R) (itr : nat) (delta_T : R) : R * nat * R :=
  match left with
  | O => (T, itr, delta_T)
  | S k =>
      let d := delta T in
      if rleb (Rabs d) tol_newton then (T + d, i, d) else newton_loop delta k (S i) (T + d) i d
  end.
(** rad_gas.hpp:95-97, 125-127: is the message printed?  (No NaN in real arithmetic.) *)
Definition says_no_convergence (r : R * nat * R) : bool :=
  let '(_, itr, d) := r in (Nat.eqb itr max_itr && rltb tol_newton (Rabs d))%bool.

(** rad_gas.hpp:71-99 *)
Definition solve_pres (g : rad_gas) (rho P : R) : R * nat * R :=
  let C1 := rho * kb / (rg_mmw g * mp) in
  let Tg := P / C1 in
  let Tr := Rpower (3 * P / ar) (1 / 4) in
  let T0 := if rltb Tg Tr then Tr else Tg in
  newton_loop (fun T => let T3 := T * T * T in
                        let f := ar * T3 * T / 3 + C1 * T - P in
                        let df := 4 * ar * T3 / 3 + C1 in - f / df) max_itr 0 T0 0 0.
Definition rg_temp_from_pres (g : rad_gas) (rho P : R) : R := fst (fst (solve_pres g rho P)).

(** rad_gas.hpp:101-129 *)
Definition solve_evol (g : rad_gas) (rho evol : R) : R * nat * R :=
  let C1 := rho * kb / (rg_mmw g * mp * (rg_gamma g - 1)) in
  let Tg := evol / C1 in
  let Tr := Rpower (evol / ar) (1 / 4) in
  let T0 := if rltb Tg Tr then Tr else Tg in
  newton_loop (fun T => let T3 := T * T * T in
                        let f := ar * T3 * T + C1 * T - evol in
                        let df := 4 * ar * T3 + C1 in - f / df) max_itr 0 T0 0 0.
Definition rg_temp_from_evol (g : rad_gas) (rho evol : R) : R := fst (fst (solve_evol g rho evol)).

(** rad_gas.hpp:46-50, 59-63 *)
Definition rg_evol_from_pres (g : rad_gas) (rho P : R) : R := rg_evol_from_temp g rho (rg_temp_from_pres g rho P).
Definition rg_pres_from_evol (g : rad_gas) (rho evol : R) : R := rg_pres_from_temp g rho (rg_temp_from_evol g rho evol).

(** rad_gas.hpp:131-142 *)
Definition rg_sound (g : rad_gas) (rho P : R) : R :=
  let T := rg_temp_from_pres g rho P in
  let Pg := rho * kb * T / (rg_mmw g * mp) in
  let T4 := T * T * T * T in
  let Pr := ar * T4 / 3 in
  let alpha := Pr / Pg in
  let num := rg_gamma g / (rg_gamma g - 1) + 20 * alpha + 16 * alpha * alpha in
  let den := 1 / (rg_gamma g - 1) + 12 * alpha in
  let gamma_eff := num / den in
  sqrt (gamma_eff * Pg / rho).

Definition rg_eos (g : rad_gas) : eos := mkEos (rg_evol_from_pres g) (rg_pres_from_evol g) (rg_sound g).
