(** * Cell-local physics: equation of state, Euler equations, slope limiters, Riemann solvers. *)
From Verif Require Import Base RBase ModelMesh ModelGeom.
Local Open Scope string_scope.
Local Open Scope R_scope.

(** ** Units (src/units/units.hpp:60-63; the code units are SI, lines 17-25, so every factor is 1) *)
Definition kb : R := 1380649 / 10 ^ 29.
Definition mp : R := 1672649 / 10 ^ 33.
Definition Ggrav : R := 66743015 / 10 ^ 18.

(** ** States.  Components at or above [ndim] of the vectors are never read by the C++ code. *)

(** src/hydro/euler_equations.hpp:20-39 *)
Record cons : Type := mkCons { q_rho : R; q_m : vec; q_E : R }.
Record flux : Type := mkFlux { f_rho : R; f_m : vec; f_E : R }.
Record prim : Type := mkPrim { p_rho : R; p_u : vec; p_P : R }.

(** ** Equation of state: what the hydro code uses of it (src/hydro/concepts.hpp, EulerEoS). *)
Record eos : Type := mkEos {
  eos_evol : R -> R -> R;      (* compute_evol_from_pres rho P *)
  eos_pres : R -> R -> R;      (* compute_pres_from_evol rho evol *)
  eos_sound : R -> R -> R }.   (* compute_speed_of_sound rho P *)

(** A double that may be infinite or NaN (only where the code tests for it). *)
Inductive xreal : Type := XR (r : R) | XInf (negative : bool) | XNaN.
Definition xfinite (x : xreal) : bool := match x with XR _ => true | _ => false end.
(** [x <= r] on doubles: false on NaN. *)
Definition xleb (x : xreal) (r : R) : bool :=
  match x with XR a => rleb a r | XInf neg => neg | XNaN => false end.

(** src/thermodynamics/perfect_gas.hpp:18-21; [m_gamma_m1 = gamma - 1]. *)
Record perfect_gas : Type := mkPG { pg_gamma : R; pg_mmw : R }.

(** src/thermodynamics/perfect_gas.cpp:13-22 *)
Definition make_perfect_gas (gamma mmw : xreal) : outcome perfect_gas :=
  if (negb (xfinite gamma) || xleb gamma 1)%bool then Throw "Invalid gamma"
  else if (negb (xfinite mmw) || xleb mmw 0)%bool then Throw "Invalid mmw"
  else match gamma, mmw with
       | XR g, XR m => Ok (mkPG g m)
       | _, _ => UB "unreachable"
       end.

(** src/thermodynamics/perfect_gas.hpp:46-83 *)
Definition pg_evol_from_temp (g : perfect_gas) (rho T : R) : R :=
  rho * kb * T / (pg_mmw g * mp * (pg_gamma g - 1)).
Definition pg_pres_from_temp (g : perfect_gas) (rho T : R) : R :=
  rho * kb * T / (pg_mmw g * mp).
Definition pg_temp_from_pres (g : perfect_gas) (rho P : R) : R :=
  P * pg_mmw g * mp / (rho * kb).
Definition pg_temp_from_evol (g : perfect_gas) (rho evol : R) : R :=
  evol * pg_mmw g * mp * (pg_gamma g - 1) / (rho * kb).
Definition pg_evol_from_pres (g : perfect_gas) (rho P : R) : R :=
  pg_evol_from_temp g rho (pg_temp_from_pres g rho P).
Definition pg_pres_from_evol (g : perfect_gas) (rho evol : R) : R :=
  pg_pres_from_temp g rho (pg_temp_from_evol g rho evol).
Definition pg_sound (g : perfect_gas) (rho P : R) : R := sqrt (pg_gamma g * P / rho).

Definition pg_eos (g : perfect_gas) : eos :=
  mkEos (pg_evol_from_pres g) (pg_pres_from_evol g) (pg_sound g).

(** ** Euler equations (src/hydro/euler_equations.hpp) *)
Section Euler.
Variable nd : nat.
Variable e : eos.

(** lines 41-49 *)
Definition ek_cons (q : cons) : R := vsum nd (fun d => q_m q d * q_m q d) / q_rho q / 2.
(** lines 51-59 *)
Definition ek_prim (p : prim) : R := p_rho p * vsum nd (fun d => p_u p d * p_u p d) / 2.
(** lines 61-65 *)
Definition evol_cons (q : cons) : R := q_E q - ek_cons q.

(** lines 67-82 [compute_flux(EulerPrim)] *)
Definition flux_prim (p : prim) (dir : nat) : flux :=
  let E := ek_prim p + eos_evol e (p_rho p) (p_P p) in
  mkFlux (p_rho p * p_u p dir)
         (fun d => p_rho p * p_u p dir * p_u p d + (if Nat.eqb d dir then p_P p else 0))
         (p_u p dir * (E + p_P p)).

(** lines 84-101 [compute_flux(EulerCons)] *)
Definition flux_cons (q : cons) (dir : nat) : flux :=
  let P := eos_pres e (q_rho q) (evol_cons q) in
  let u := q_m q dir / q_rho q in
  mkFlux (u * q_rho q)
         (fun d => u * q_m q d + (if Nat.eqb d dir then P else 0))
         (u * (q_E q + P)).

(** lines 103-114 *)
Definition to_prim (q : cons) : prim :=
  mkPrim (q_rho q) (fun d => q_m q d / q_rho q) (eos_pres e (q_rho q) (evol_cons q)).

(** lines 116-127 *)
Definition to_cons (p : prim) : cons :=
  mkCons (p_rho p) (fun d => p_rho p * p_u p d) (eos_evol e (p_rho p) (p_P p) + ek_prim p).

(** ** Riemann solvers (src/hydro/riemann_solver.hpp) *)

(** lines 60-64 *)
Definition flux_hll (UL UR FL FR wsL wsR : R) : R :=
  ((wsR * FL) - (wsL * FR) + (wsL * wsR * (UR - UL))) / (wsR - wsL).

(** lines 40-44, 78-82: the wave speed estimates *)
Definition wave_L (pL pR : prim) (dir : nat) : R :=
  Rmin (p_u pL dir - eos_sound e (p_rho pL) (p_P pL)) (p_u pR dir - eos_sound e (p_rho pR) (p_P pR)).
Definition wave_R (pL pR : prim) (dir : nat) : R :=
  Rmax (p_u pL dir + eos_sound e (p_rho pL) (p_P pL)) (p_u pR dir + eos_sound e (p_rho pR) (p_P pR)).

(** lines 21-58 [HLL::operator()] *)
Definition hll (qL qR : cons) (dir : nat) : flux :=
  let pL := to_prim qL in
  let pR := to_prim qR in
  let wsL := wave_L pL pR dir in
  let wsR := wave_R pL pR dir in
  let nL := Rmin wsL 0 in
  let nR := Rmax wsR 0 in
  let fL := flux_prim pL dir in
  let fR := flux_prim pR dir in
  mkFlux (flux_hll (q_rho qL) (q_rho qR) (f_rho fL) (f_rho fR) nL nR)
         (fun d => flux_hll (q_m qL d) (q_m qR d) (f_m fL d) (f_m fR d) nL nR)
         (flux_hll (q_E qL) (q_E qR) (f_E fL) (f_E fR) nL nR).

(** lines 136-140 *)
Definition flux_hllc (F U Ustar ws : R) : R := F + ws * (Ustar - U).

(** lines 67-134 [HLLC::operator()] *)
Definition hllc (qL qR : cons) (dir : nat) : flux :=
  let pL := to_prim qL in
  let pR := to_prim qR in
  let wsL := wave_L pL pR dir in
  let wsR := wave_R pL pR dir in
  let fL := flux_prim pL dir in
  let fR := flux_prim pR dir in
  let uL := p_u pL dir in
  let uR := p_u pR dir in
  let rcL := p_rho pL * (wsL - uL) in
  let rcR := p_rho pR * (wsR - uR) in
  let ustar := (p_P pR - p_P pL + (rcL * uL) - (rcR * uR)) / (rcL - rcR) in
  let pstar := 1 / 2 * (p_P pL + p_P pR + (rcL * (ustar - uL)) + (rcR * (ustar - uR))) in
  let left := rltb 0 ustar in
  let S := if left then wsL else wsR in
  let qs := if left then qL else qR in
  let ps := if left then pL else pR in
  let fs := if left then fL else fR in
  let un := p_u ps dir in
  if rltb 0 (wsL * wsR) then fs
  else
    let rho_star := q_rho qs * (S - un) / (S - ustar) in
    let E_star := ((S - un) / (S - ustar) * q_E qs)
                  + ((ustar - un) / (S - ustar) * ((ustar * q_rho qs * (S - un)) + p_P ps)) in
    mkFlux (flux_hllc (f_rho fs) (q_rho qs) rho_star S)
           (fun d => if Nat.eqb d dir then rho_star * ustar * ustar + pstar
                     else rho_star * ustar * p_u ps d)
           (flux_hllc (f_E fs) (q_E qs) E_star S).

(** lines 143-181 [Splitting::operator()], the "Low Mach" solver *)
Definition splitting (qL qR : cons) (dir : nat) : flux :=
  let pL := to_prim qL in
  let pR := to_prim qR in
  let cL := eos_sound e (p_rho pL) (p_P pL) in
  let cR := eos_sound e (p_rho pR) (p_P pR) in
  let uL := p_u pL dir in
  let uR := p_u pR dir in
  let a := 11 / 10 * Rmax (p_rho pL * cL) (p_rho pR * cR) in
  let ustar := ((uL + uR) / 2) - (1 / (2 * a) * (p_P pR - p_P pL)) in
  let Ma := Rabs ustar / Rmin cL cR in
  let theta := Rmin 1 Ma in
  let Pstar := ((p_P pL + p_P pR) / 2) - ((theta * a) / 2 * (uR - uL)) in
  let qs := if rltb 0 ustar then qL else qR in
  mkFlux (ustar * q_rho qs)
         (fun d => ustar * q_m qs d + (if Nat.eqb d dir then Pstar else 0))
         ((ustar * q_E qs) + (Pstar * ustar)).

End Euler.

(** src/hydro/godunov_scheme.hpp:305-321 [factory_godunov_scheme] *)
Inductive solver : Type := HLL | HLLC | LowMach.
Definition factory_solver (name : string) : outcome solver :=
  if String.eqb name "HLL" then Ok HLL
  else if String.eqb name "HLLC" then Ok HLLC
  else if String.eqb name "Low Mach" then Ok LowMach
  else Throw "Invalid riemann solver".
Definition riemann (s : solver) (nd : nat) (e : eos) : cons -> cons -> nat -> flux :=
  match s with HLL => hll nd e | HLLC => hllc nd e | LowMach => splitting nd e end.

(** ** Slope limiters (src/hydro/slope_limiters.hpp:18-86); argument order (diffR, diffL) *)
Inductive limiter : Type := LConstant | LVanLeer | LMinmod | LVanAlbada.

Definition van_leer (dR dL : R) : R :=
  if rltb 0 (dL * dR)
  then let ratio := dR / dL in (1 / 2) * (dR + dL) * (4 * ratio) / ((ratio + 1) * (ratio + 1))
  else 0.
Definition minmod (dR dL : R) : R :=
  if rltb 0 (dL * dR)
  then let ratio := dR / dL in
       let mm := 2 * Rmin 1 ratio / (1 + ratio) in mm * (dL + dR) / 2
  else 0.
Definition van_albada (dR dL : R) : R :=
  if rltb 0 (dL * dR)
  then let ratio := dR / dL in (1 / 2) * (dR + dL) * (2 * ratio) / ((ratio * ratio) + 1)
  else 0.
Definition slope (l : limiter) (dR dL : R) : R :=
  match l with
  | LConstant => 0
  | LVanLeer => van_leer dR dL
  | LMinmod => minmod dR dL
  | LVanAlbada => van_albada dR dL
  end.

(** src/hydro/face_reconstruction.cpp: [factory_face_reconstruction] *)
Definition factory_limiter (name : string) : outcome limiter :=
  if String.eqb name "Constant" then Ok LConstant
  else if String.eqb name "VanLeer" then Ok LVanLeer
  else if String.eqb name "Minmod" then Ok LMinmod
  else if String.eqb name "VanAlbada" then Ok LVanAlbada
  else Throw "Unknown face reconstruction algorithm".

(** ** Face reconstruction (src/hydro/limited_linear_reconstruction.hpp:46-64)

    [kron(idim,0)*dx0(i) + ...] is the size of the cell in direction [idim]. *)
Definition cell_width (m : mesh) (c : idx) (d : nat) : R :=
  IZR (kron d 0) * mdx m 0 (ii c) + IZR (kron d 1) * mdx m 1 (jj c) + IZR (kron d 2) * mdx m 2 (kk c).

Definition face_slope (l : limiter) (m : mesh) (var : field3) (c : idx) (d : nat) : R :=
  let cm := lindex d c in
  let cp := rindex d c in
  let dl := cell_width m c d in
  let dl_m := cell_width m cm d in
  let dl_p := cell_width m cp d in
  slope l ((var cp - var c) / ((dl + dl_p) / 2)) ((var c - var cm) / ((dl_m + dl) / 2)).

(** Value at side [side] (0 = left, 1 = right) of direction [d]. *)
Definition face_value (l : limiter) (m : mesh) (var : field3) (c : idx) (side d : nat) : R :=
  let s := face_slope l m var c d in
  match side with
  | O => var c - (cell_width m c d / 2) * s
  | _ => var c + (cell_width m c d / 2) * s
  end.

(** The kernel: faces of the cells in [p] are written, others keep their content. *)
Definition face_reconstruction (p : idx -> bool) (l : limiter) (m : mesh) (var : field3)
  (old : idx -> nat -> nat -> R) : idx -> nat -> nat -> R :=
  kwrite p (face_value l m var) old.

(** ** Array conversions (src/hydro/array_conversion.hpp:32-63, 107-138); [p] selects the cells of the
    range. *)
Definition conv_prim_to_cons (p : idx -> bool) (nd : nat) (e : eos) (rho : field3) (u : field4) (P : field3)
  (rhou : field4) (E : field3) : field4 * field3 :=
  let q c := to_cons nd e (mkPrim (rho c) (u c) (P c)) in
  (kwrite p (fun c => q_m (q c)) rhou, kwrite p (fun c => q_E (q c)) E).

Definition conv_cons_to_prim (p : idx -> bool) (nd : nat) (e : eos) (rho : field3) (rhou : field4)
  (E : field3) (u : field4) (P : field3) : field4 * field3 :=
  let q c := to_prim nd e (mkCons (rho c) (rhou c) (E c)) in
  (kwrite p (fun c => p_u (q c)) u, kwrite p (fun c => p_P (q c)) P).
