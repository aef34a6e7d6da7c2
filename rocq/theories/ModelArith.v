(** * The numerical code operation by operation, over an arbitrary arithmetic.

    The other models compute in [R], where sums may be rearranged.  Here every kernel is transcribed with the
    operations of the C++ text in their order (C++ evaluation rules: left to right association, products
    before sums; loops accumulate in the order of the loop), and the operations themselves are a parameter.
    Nothing is assumed about them, so what is proved for all arithmetics holds for IEEE binary64 with any
    rounding, with infinities and NaN, and for any mathematical library.  Assumption: the compiler evaluates
    each expression as written, in the same way at every cell (no value-dependent reassociation or
    contraction).

    A number is represented by an element of [R], which serves as the set of codes: in [real_arith] the code
    is the value; in the binary64 instance (ModelArith64.v) the code of a double is an integer computed
    from its bits, chosen so that the code of [-x] is the opposite of the code of [x]. *)
From Verif Require Import Base RBase ModelMesh ModelGeom ModelBoundary ModelHydro ModelScheme ModelStep.
Local Open Scope R_scope.

Record arith : Type := mkArith {
  a_add : R -> R -> R; a_sub : R -> R -> R; a_mul : R -> R -> R; a_div : R -> R -> R;
  a_fmin : R -> R -> R; a_fmax : R -> R -> R;      (* Kokkos::fmin, fmax *)
  a_abs : R -> R; a_sqrt : R -> R; a_sin : R -> R; a_cos : R -> R; a_exp : R -> R;
  a_lt : R -> R -> bool;                           (* a < b, also b > a *)
  a_lit : Z -> nat -> R;                           (* the literal m / 10^k *)
  a_pi : R }.                                      (* Kokkos::numbers::pi *)

(** Exact real arithmetic. *)
Definition real_arith : arith :=
  mkArith Rplus Rminus Rmult Rdiv Rmin Rmax Rabs sqrt sin cos exp rltb (fun m k => IZR m / 10 ^ k) PI.

Section Arith.
Variable A : arith.
Notation "x ⊕ y" := (a_add A x y) (at level 50, left associativity).
Notation "x ⊖ y" := (a_sub A x y) (at level 50, left associativity).
Notation "x ⊗ y" := (a_mul A x y) (at level 40, left associativity).
Notation "x ⊘ y" := (a_div A x y) (at level 40, left associativity).
Notation "'int' z" := (a_lit A z%Z 0%nat) (at level 10, z at level 9).
Notation zero := (a_lit A 0%Z 0%nat).
Notation one := (a_lit A 1%Z 0%nat).
Notation two := (a_lit A 2%Z 0%nat).

(** [for (n = 0; n < N; ++n) x = f(n, x)] *)
Fixpoint loop (n : nat) (f : nat -> R -> R) (x : R) : R :=
  match n with O => x | S k => f k (loop k f x) end.
(** [double s = 0; for (n = 0; n < N; ++n) s += f(n)] *)
Definition asum (n : nat) (f : nat -> R) : R := loop n (fun k s => s ⊕ f k) zero.

(** ** Mesh (src/mesh/grid.cpp:31-44, src/mesh/geometry.cpp:32-126) *)
Definition adx (m : mesh) (d : nat) (i : Z) : R := m d (i + 1)%Z ⊖ m d i.
Definition axc (m : mesh) (d : nat) (i : Z) : R := (m d i ⊕ m d (i + 1)%Z) ⊘ two.

Definition acart_ds (m : mesh) (c : idx) (d : nat) : R :=
  let dx n := if Nat.eqb n d then one else adx m n (coord n c) in
  dx 0%nat ⊗ dx 1%nat ⊗ dx 2%nat.
Definition acart_dv (m : mesh) (c : idx) : R :=
  adx m 0 (ii c) ⊗ adx m 1 (jj c) ⊗ adx m 2 (kk c).
Definition asph_dcos (m : mesh) (c : idx) : R := a_cos A (m 1%nat (jj c)) ⊖ a_cos A (m 1%nat (jj c + 1)%Z).
Definition asph_ds (nd : nat) (m : mesh) (c : idx) (d : nat) : R :=
  let r := m 0%nat (ii c) in
  let rp := m 0%nat (ii c + 1)%Z in
  match nd, d with
  | 1%nat, 0%nat => int 4 ⊗ a_pi A ⊗ r ⊗ r
  | 2%nat, 0%nat => two ⊗ a_pi A ⊗ r ⊗ r ⊗ asph_dcos m c
  | 2%nat, 1%nat => (two ⊗ a_pi A ⊘ two) ⊗ ((rp ⊗ rp) ⊖ (r ⊗ r)) ⊗ a_sin A (m 1%nat (jj c))
  | 3%nat, 0%nat => r ⊗ r ⊗ asph_dcos m c ⊗ adx m 2 (kk c)
  | 3%nat, 1%nat => (one ⊘ two) ⊗ ((rp ⊗ rp) ⊖ (r ⊗ r)) ⊗ a_sin A (m 1%nat (jj c)) ⊗ adx m 2 (kk c)
  | 3%nat, 2%nat => r ⊗ adx m 0 (ii c) ⊗ adx m 1 (jj c)
  | _, _ => zero
  end.
Definition asph_dv (nd : nat) (m : mesh) (c : idx) : R :=
  let r := m 0%nat (ii c) in
  let rp := m 0%nat (ii c + 1)%Z in
  match nd with
  | 1%nat => (int 4 ⊗ a_pi A ⊗ ((rp ⊗ rp ⊗ rp) ⊖ (r ⊗ r ⊗ r))) ⊘ int 3
  | 2%nat => (two ⊗ a_pi A ⊘ int 3) ⊗ ((rp ⊗ rp ⊗ rp) ⊖ (r ⊗ r ⊗ r)) ⊗ asph_dcos m c
  | 3%nat => (one ⊘ int 3) ⊗ ((rp ⊗ rp ⊗ rp) ⊖ (r ⊗ r ⊗ r)) ⊗ asph_dcos m c ⊗ adx m 2 (kk c)
  | _ => zero
  end.
Definition ads (g : geom) (nd : nat) (m : mesh) (c : idx) (d : nat) : R :=
  match g with Cartesian => acart_ds m c d | Spherical => asph_ds nd m c d end.
Definition adv (g : geom) (nd : nat) (m : mesh) (c : idx) : R :=
  match g with Cartesian => acart_dv m c | Spherical => asph_dv nd m c end.

(** ** Perfect gas (src/thermodynamics/perfect_gas.hpp:46-83, src/units/units.hpp:60-61; the unit factors
    are 1.0 and multiplying by them is left out) *)
Definition akb : R := a_lit A 1380649 29.
Definition amp : R := a_lit A 1672649 33.
Definition apg_evol_from_temp (gamma mmw rho T : R) : R := rho ⊗ akb ⊗ T ⊘ (mmw ⊗ amp ⊗ (gamma ⊖ one)).
Definition apg_pres_from_temp (mmw rho T : R) : R := rho ⊗ akb ⊗ T ⊘ (mmw ⊗ amp).
Definition apg_temp_from_pres (mmw rho P : R) : R := P ⊗ mmw ⊗ amp ⊘ (rho ⊗ akb).
Definition apg_temp_from_evol (gamma mmw rho evol : R) : R := evol ⊗ mmw ⊗ amp ⊗ (gamma ⊖ one) ⊘ (rho ⊗ akb).
Definition apg_eos (gamma mmw : R) : eos :=
  mkEos (fun rho P => apg_evol_from_temp gamma mmw rho (apg_temp_from_pres mmw rho P))
        (fun rho evol => apg_pres_from_temp mmw rho (apg_temp_from_evol gamma mmw rho evol))
        (fun rho P => a_sqrt A (gamma ⊗ P ⊘ rho)).

(** ** Euler equations (src/hydro/euler_equations.hpp:41-127) *)
Section AEuler.
Variable nd : nat.
Variable e : eos.

Definition aek_cons (q : cons) : R := asum nd (fun d => q_m q d ⊗ q_m q d) ⊘ q_rho q ⊘ two.
Definition aek_prim (p : prim) : R := p_rho p ⊗ asum nd (fun d => p_u p d ⊗ p_u p d) ⊘ two.
Definition aevol_cons (q : cons) : R := q_E q ⊖ aek_cons q.
Definition aflux_prim (p : prim) (dir : nat) : flux :=
  let E := aek_prim p ⊕ eos_evol e (p_rho p) (p_P p) in
  let f d := p_rho p ⊗ p_u p dir ⊗ p_u p d in
  mkFlux (p_rho p ⊗ p_u p dir)
         (fun d => if Nat.eqb d dir then f d ⊕ p_P p else f d)
         (p_u p dir ⊗ (E ⊕ p_P p)).
Definition ato_prim (q : cons) : prim :=
  mkPrim (q_rho q) (fun d => q_m q d ⊘ q_rho q) (eos_pres e (q_rho q) (aevol_cons q)).
Definition ato_cons (p : prim) : cons :=
  mkCons (p_rho p) (fun d => p_rho p ⊗ p_u p d) (eos_evol e (p_rho p) (p_P p) ⊕ aek_prim p).

(** ** Riemann solvers (src/hydro/riemann_solver.hpp:22-181) *)
Definition aflux_hll (UL UR FL FR wsL wsR : R) : R :=
  ((wsR ⊗ FL) ⊖ (wsL ⊗ FR) ⊕ (wsL ⊗ wsR ⊗ (UR ⊖ UL))) ⊘ (wsR ⊖ wsL).
Definition awave_L (pL pR : prim) (dir : nat) : R :=
  a_fmin A (p_u pL dir ⊖ eos_sound e (p_rho pL) (p_P pL)) (p_u pR dir ⊖ eos_sound e (p_rho pR) (p_P pR)).
Definition awave_R (pL pR : prim) (dir : nat) : R :=
  a_fmax A (p_u pL dir ⊕ eos_sound e (p_rho pL) (p_P pL)) (p_u pR dir ⊕ eos_sound e (p_rho pR) (p_P pR)).
Definition ahll (qL qR : cons) (dir : nat) : flux :=
  let pL := ato_prim qL in
  let pR := ato_prim qR in
  let nL := a_fmin A (awave_L pL pR dir) zero in
  let nR := a_fmax A (awave_R pL pR dir) zero in
  let fL := aflux_prim pL dir in
  let fR := aflux_prim pR dir in
  mkFlux (aflux_hll (q_rho qL) (q_rho qR) (f_rho fL) (f_rho fR) nL nR)
         (fun d => aflux_hll (q_m qL d) (q_m qR d) (f_m fL d) (f_m fR d) nL nR)
         (aflux_hll (q_E qL) (q_E qR) (f_E fL) (f_E fR) nL nR).
Definition aflux_hllc (F U Ustar ws : R) : R := F ⊕ (ws ⊗ (Ustar ⊖ U)).
Definition ahllc (qL qR : cons) (dir : nat) : flux :=
  let pL := ato_prim qL in
  let pR := ato_prim qR in
  let wsL := awave_L pL pR dir in
  let wsR := awave_R pL pR dir in
  let fL := aflux_prim pL dir in
  let fR := aflux_prim pR dir in
  let uL := p_u pL dir in
  let uR := p_u pR dir in
  let rcL := p_rho pL ⊗ (wsL ⊖ uL) in
  let rcR := p_rho pR ⊗ (wsR ⊖ uR) in
  let ustar := (p_P pR ⊖ p_P pL ⊕ (rcL ⊗ uL) ⊖ (rcR ⊗ uR)) ⊘ (rcL ⊖ rcR) in
  let pstar := one ⊘ two ⊗ (p_P pL ⊕ p_P pR ⊕ (rcL ⊗ (ustar ⊖ uL)) ⊕ (rcR ⊗ (ustar ⊖ uR))) in
  let left := a_lt A zero ustar in
  let S := if left then wsL else wsR in
  let qs := if left then qL else qR in
  let ps := if left then pL else pR in
  let fs := if left then fL else fR in
  let un := p_u ps dir in
  if a_lt A zero (wsL ⊗ wsR) then fs
  else
    let rho_star := q_rho qs ⊗ (S ⊖ un) ⊘ (S ⊖ ustar) in
    let E_star := ((S ⊖ un) ⊘ (S ⊖ ustar) ⊗ q_E qs)
                  ⊕ ((ustar ⊖ un) ⊘ (S ⊖ ustar) ⊗ ((ustar ⊗ q_rho qs ⊗ (S ⊖ un)) ⊕ p_P ps)) in
    mkFlux (aflux_hllc (f_rho fs) (q_rho qs) rho_star S)
           (fun d => if Nat.eqb d dir then (rho_star ⊗ ustar ⊗ ustar) ⊕ pstar
                     else rho_star ⊗ ustar ⊗ p_u ps d)
           (aflux_hllc (f_E fs) (q_E qs) E_star S).
Definition asplitting (qL qR : cons) (dir : nat) : flux :=
  let pL := ato_prim qL in
  let pR := ato_prim qR in
  let cL := eos_sound e (p_rho pL) (p_P pL) in
  let cR := eos_sound e (p_rho pR) (p_P pR) in
  let uL := p_u pL dir in
  let uR := p_u pR dir in
  let a := a_lit A 11 1 ⊗ a_fmax A (p_rho pL ⊗ cL) (p_rho pR ⊗ cR) in
  let ustar := ((uL ⊕ uR) ⊘ two) ⊖ (one ⊘ (two ⊗ a) ⊗ (p_P pR ⊖ p_P pL)) in
  let Ma := a_abs A ustar ⊘ a_fmin A cL cR in
  let theta := a_fmin A one Ma in
  let Pstar := ((p_P pL ⊕ p_P pR) ⊘ two) ⊖ ((theta ⊗ a) ⊘ two ⊗ (uR ⊖ uL)) in
  let qs := if a_lt A zero ustar then qL else qR in
  let f d := ustar ⊗ q_m qs d in
  mkFlux (ustar ⊗ q_rho qs)
         (fun d => if Nat.eqb d dir then f d ⊕ Pstar else f d)
         ((ustar ⊗ q_E qs) ⊕ (Pstar ⊗ ustar)).
End AEuler.
Definition ariemann (s : solver) (nd : nat) (e : eos) : cons -> cons -> nat -> flux :=
  match s with HLL => ahll nd e | HLLC => ahllc nd e | LowMach => asplitting nd e end.

(** ** Slope limiters (src/hydro/slope_limiters.hpp:18-86) *)
Definition aslope (l : limiter) (dR dL : R) : R :=
  match l with
  | LConstant => zero
  | LVanLeer =>
      if a_lt A zero (dL ⊗ dR)
      then let ratio := dR ⊘ dL in (one ⊘ two) ⊗ (dR ⊕ dL) ⊗ (int 4 ⊗ ratio) ⊘ ((ratio ⊕ one) ⊗ (ratio ⊕ one))
      else zero
  | LMinmod =>
      if a_lt A zero (dL ⊗ dR)
      then let ratio := dR ⊘ dL in
           let mm := two ⊗ a_fmin A one ratio ⊘ (one ⊕ ratio) in mm ⊗ (dL ⊕ dR) ⊘ two
      else zero
  | LVanAlbada =>
      if a_lt A zero (dL ⊗ dR)
      then let ratio := dR ⊘ dL in (one ⊘ two) ⊗ (dR ⊕ dL) ⊗ (two ⊗ ratio) ⊘ ((ratio ⊗ ratio) ⊕ one)
      else zero
  end.

(** ** Face reconstruction (src/hydro/limited_linear_reconstruction.hpp:46-64) *)
Definition acell_width (m : mesh) (c : idx) (d : nat) : R :=
  (int (kron d 0) ⊗ adx m 0 (ii c)) ⊕ (int (kron d 1) ⊗ adx m 1 (jj c)) ⊕ (int (kron d 2) ⊗ adx m 2 (kk c)).
Definition aface_value (l : limiter) (m : mesh) (var : field3) (c : idx) (side d : nat) : R :=
  let cm := lindex d c in
  let cp := rindex d c in
  let dl := acell_width m c d in
  let dl_m := acell_width m cm d in
  let dl_p := acell_width m cp d in
  let slope := aslope l ((var cp ⊖ var c) ⊘ ((dl ⊕ dl_p) ⊘ two)) ((var c ⊖ var cm) ⊘ ((dl_m ⊕ dl) ⊘ two)) in
  match side with
  | O => var c ⊖ ((dl ⊘ two) ⊗ slope)
  | _ => var c ⊕ ((dl ⊘ two) ⊗ slope)
  end.

(** ** Source terms (src/hydro/source_terms.hpp:18-77) *)
Definition asource_grad_pres (dtodv PL PR dS dS_p : R) : R := dtodv ⊗ (PL ⊕ PR) ⊘ two ⊗ (dS_p ⊖ dS).
Definition asource_grad_u_r (dtodv rhoL rhoR uL uR dS dS_p : R) : R :=
  dtodv ⊗ ((rhoL ⊗ uL ⊗ uL) ⊕ (rhoR ⊗ uR ⊗ uR)) ⊘ two ⊗ (dS_p ⊖ dS) ⊘ two.
Definition asource_grad_u_idir_r (dtodv x0 x0_p rhoL rhoR uL_r uR_r uL_other uR_other dS dS_p : R) : R :=
  dtodv ⊗ (x0_p ⊖ x0) ⊘ (x0_p ⊕ x0) ⊗ ((rhoR ⊗ uR_other ⊗ uR_r ⊗ dS_p) ⊕ (rhoL ⊗ uL_other ⊗ uL_r ⊗ dS)).
Definition asource_grad_u_th (dtodv x1 x1_p rhoL rhoR uL_phi uR_phi dS dS_p : R) : R :=
  dtodv ⊗ ((rhoL ⊗ uL_phi ⊗ uL_phi) ⊕ (rhoR ⊗ uR_phi ⊗ uR_phi)) ⊘ two
  ⊗ (a_cos A ((x1 ⊕ x1_p) ⊘ two) ⊘ a_sin A ((x1 ⊕ x1_p) ⊘ two)) ⊗ (dS_p ⊖ dS) ⊘ two.
Definition asource_grad_u_phi (dtodv x1 x1_p rhoL rhoR uL_th uR_th uL_phi uR_phi dS dS_p : R) : R :=
  let sm := a_sin A x1 in
  let sp := a_sin A x1_p in
  dtodv ⊗ (sp ⊖ sm) ⊘ (sp ⊕ sm) ⊗ ((rhoR ⊗ uR_phi ⊗ uR_th ⊗ dS_p) ⊕ (rhoL ⊗ uL_phi ⊗ uL_th ⊗ dS)).

(** src/hydro/godunov_scheme.hpp:172-260 and src/hydro/extrapolation_reconstruction.hpp:147-289: the
    statements of the spherical block that update momentum component [comp], whose value is [x]. *)
Definition ageo (g : geom) (nd : nat) (m : mesh) (c : idx) (dtodv : R) (pL pR : prim) (idim comp : nat) (x : R) : R :=
  match g with
  | Cartesian => x
  | Spherical =>
      let dS := ads g nd m c idim in
      let dS_p := ads g nd m (rindex idim c) idim in
      let r := m 0%nat (ii c) in
      let rp := m 0%nat (ii c + 1)%Z in
      let th := m 1%nat (jj c) in
      let thp := m 1%nat (jj c + 1)%Z in
      let multi := (Nat.eqb nd 2 || Nat.eqb nd 3)%bool in
      match idim, comp with
      | 0%nat, 0%nat =>
          let x1 := x ⊕ asource_grad_pres dtodv (p_P pL) (p_P pR) dS dS_p in
          let x2 := if multi
                    then x1 ⊕ asource_grad_u_r dtodv (p_rho pL) (p_rho pR) (p_u pL 1%nat) (p_u pR 1%nat) dS dS_p
                    else x1 in
          if Nat.eqb nd 3
          then x2 ⊕ asource_grad_u_r dtodv (p_rho pL) (p_rho pR) (p_u pL 2%nat) (p_u pR 2%nat) dS dS_p
          else x2
      | 0%nat, 1%nat =>
          if multi
          then x ⊖ asource_grad_u_idir_r dtodv r rp (p_rho pL) (p_rho pR) (p_u pL 0%nat) (p_u pR 0%nat)
                     (p_u pL 1%nat) (p_u pR 1%nat) dS dS_p
          else x
      | 0%nat, 2%nat =>
          if Nat.eqb nd 3
          then x ⊖ asource_grad_u_idir_r dtodv r rp (p_rho pL) (p_rho pR) (p_u pL 0%nat) (p_u pR 0%nat)
                     (p_u pL 2%nat) (p_u pR 2%nat) dS dS_p
          else x
      | 1%nat, 1%nat =>
          let x1 := x ⊕ asource_grad_pres dtodv (p_P pL) (p_P pR) dS dS_p in
          if Nat.eqb nd 3
          then x1 ⊕ asource_grad_u_th dtodv th thp (p_rho pL) (p_rho pR) (p_u pL 2%nat) (p_u pR 2%nat) dS dS_p
          else x1
      | 1%nat, 2%nat =>
          if Nat.eqb nd 3
          then x ⊖ asource_grad_u_phi dtodv th thp (p_rho pL) (p_rho pR) (p_u pL 1%nat) (p_u pR 1%nat)
                     (p_u pL 2%nat) (p_u pR 2%nat) dS dS_p
          else x
      | _, _ => x
      end
  end.

(** [dtodv * ((fL * ds(c)) - (fR * ds(c + 1)))] *)
Definition aflux_diff (g : geom) (nd : nat) (m : mesh) (dt : R) (c : idx) (idim : nat) (fL fR : R) : R :=
  dt ⊘ adv g nd m c ⊗ ((fL ⊗ ads g nd m c idim) ⊖ (fR ⊗ ads g nd m (rindex idim c) idim)).

(** ** Reconstruction (src/hydro/hydro_reconstruction.hpp:99-126,
       src/hydro/extrapolation_reconstruction.hpp:91-331), face [side] of direction [ipos] *)
Definition aface_prim (l : limiter) (m : mesh) (rho : field3) (u : field4) (P : field3) (c : idx) (side d : nat) : prim :=
  mkPrim (aface_value l m rho c side d) (fun n => aface_value l m (fun c' => u c' n) c side d)
         (aface_value l m P c side d).
Definition aface_fx (l : limiter) (m : mesh) (fx : field4) (c : idx) (side d : nat) : vec :=
  fun n => aface_value l m (fun c' => fx c' n) c side d.

(** Momentum components at or above [nd] do not exist in the code (the arrays have extent [ndim]) and nothing
    reads them; the model lets gravity act on them once so that they agree with ModelScheme.v. *)
Definition ahancock_cons (g : geom) (nd : nat) (e : eos) (m : mesh) (grav : gravity) (dt : R)
  (fp : nat -> nat -> prim) (c : idx) (side ipos : nat) : cons :=
  let q := ato_cons nd e (fp side ipos) in
  let fL idim := aflux_prim nd e (fp 0%nat idim) idim in
  let fR idim := aflux_prim nd e (fp 1%nat idim) idim in
  let dtodv := dt ⊘ adv g nd m c in
  mkCons
    (loop nd (fun idim x => x ⊕ aflux_diff g nd m dt c idim (f_rho (fL idim)) (f_rho (fR idim))) (q_rho q))
    (fun idr =>
       let pull x := x ⊕ dt ⊗ grav c idr ⊗ q_rho q in
       let x := loop nd (fun idim x =>
                  let x1 := x ⊕ aflux_diff g nd m dt c idim (f_m (fL idim) idr) (f_m (fR idim) idr) in
                  let x2 := ageo g nd m c dtodv (fp 0%nat idim) (fp 1%nat idim) idim idr x1 in
                  if Nat.eqb idr idim then pull x2 else x2) (q_m q idr) in
       if Nat.ltb idr nd then x else pull x)
    (loop nd (fun idim x => x ⊕ aflux_diff g nd m dt c idim (f_E (fL idim)) (f_E (fR idim))
                              ⊕ dt ⊗ grav c idim ⊗ q_m q idim) (q_E q)).

Definition ahancock_fx (g : geom) (nd : nat) (e : eos) (m : mesh) (grav : gravity) (dt : R)
  (fp : nat -> nat -> prim) (ffx : nat -> nat -> vec) (c : idx) (side ipos : nat) : vec :=
  let fL idim := aflux_prim nd e (fp 0%nat idim) idim in
  let fR idim := aflux_prim nd e (fp 1%nat idim) idim in
  fun n =>
    loop nd (fun idim x => x ⊕ aflux_diff g nd m dt c idim (ffx 0%nat idim n ⊗ f_rho (fL idim))
                                                           (ffx 1%nat idim n ⊗ f_rho (fR idim)))
      (ffx side ipos n ⊗ p_rho (fp side ipos))
    ⊘ q_rho (ahancock_cons g nd e m grav dt fp c side ipos).

Definition ahydro_reconstruction (p : idx -> bool) (g : geom) (nd : nat) (e : eos) (l : limiter) (m : mesh)
  (grav : gravity) (dt : R) (rho : field3) (u : field4) (P : field3) (fx : field4) (old : recon) : recon :=
  mkRec (kwrite p (fun c => ahancock_cons g nd e m grav dt (aface_prim l m rho u P c) c) (r_q old))
        (kwrite p (fun c => ahancock_fx g nd e m grav dt (aface_prim l m rho u P c) (aface_fx l m fx c) c) (r_fx old)).

(** ** Godunov update (src/hydro/godunov_scheme.hpp:110-301) *)
Definition aflux_left (s : solver) (nd : nat) (e : eos) (r : recon) (c : idx) (d : nat) : flux :=
  ariemann s nd e (r_q r (lindex d c) 1%nat d) (r_q r c 0%nat d) d.
Definition aflux_right (s : solver) (nd : nat) (e : eos) (r : recon) (c : idx) (d : nat) : flux :=
  ariemann s nd e (r_q r c 1%nat d) (r_q r (rindex d c) 0%nat d) d.
Definition afx_left (s : solver) (nd : nat) (e : eos) (r : recon) (c : idx) (d n : nat) : R :=
  if a_lt A (f_rho (aflux_left s nd e r c d)) zero then r_fx r c 0%nat d n else r_fx r (lindex d c) 1%nat d n.
Definition afx_right (s : solver) (nd : nat) (e : eos) (r : recon) (c : idx) (d n : nat) : R :=
  if a_lt A (f_rho (aflux_right s nd e r c d)) zero then r_fx r (rindex d c) 0%nat d n else r_fx r c 1%nat d n.
(** Kokkos::clamp *)
Definition aclamp (x lo hi : R) : R := if a_lt A x lo then lo else if a_lt A hi x then hi else x.

Section AGodunov.
Variables (g : geom) (nd : nat) (e : eos) (s : solver) (m : mesh) (grav : gravity) (dt : R).
Variable a : idx -> cell.
Variable r : recon.

Definition agod_rho (c : idx) : R :=
  loop nd (fun d x => x ⊕ aflux_diff g nd m dt c d (f_rho (aflux_left s nd e r c d)) (f_rho (aflux_right s nd e r c d)))
    (c_rho (a c)).
Definition agod_rhou (c : idx) : vec := fun idr =>
  let pull x := x ⊕ dt ⊗ grav c idr ⊗ c_rho (a c) in
  let x := loop nd (fun d x =>
             let x1 := x ⊕ aflux_diff g nd m dt c d (f_m (aflux_left s nd e r c d) idr) (f_m (aflux_right s nd e r c d) idr) in
             let x2 := ageo g nd m c (dt ⊘ adv g nd m c) (ato_prim nd e (r_q r c 0%nat d)) (ato_prim nd e (r_q r c 1%nat d))
                         d idr x1 in
             if Nat.eqb idr d then pull x2 else x2) (c_rhou (a c) idr) in
  if Nat.ltb idr nd then x else pull x.
Definition agod_E (c : idx) : R :=
  loop nd (fun d x => x ⊕ aflux_diff g nd m dt c d (f_E (aflux_left s nd e r c d)) (f_E (aflux_right s nd e r c d)) 
                        ⊕ dt ⊗ grav c d ⊗ c_rhou (a c) d) (c_E (a c)).
Definition agod_rhofx (c : idx) : vec := fun n =>
  loop nd (fun d x => x ⊕ aflux_diff g nd m dt c d (afx_left s nd e r c d n ⊗ f_rho (aflux_left s nd e r c d))
                                                   (afx_right s nd e r c d n ⊗ f_rho (aflux_right s nd e r c d)))
    (c_fx (a c) n ⊗ c_rho (a c)).
Definition agod_cell (c : idx) : cell :=
  mkCell (agod_rho c) (agod_rhou c) (agod_E c) (fun n => aclamp (agod_rhofx c n ⊘ agod_rho c) zero one).
End AGodunov.

(** ** Pressure fix (src/hydro/pressure_fix.hpp:39-171) *)
Section APressureFix.
Variables (g : geom) (nd : nat) (e : eos) (m : mesh) (dt eps : R).
Variable a : idx -> cell.
Variable r : recon.
Variable a_new : idx -> cell.

Definition aekin (c : idx) : R := aek_cons nd (cons_of (a c)).
Definition aeint (x : cell) : R := c_E x ⊖ aek_cons nd (cons_of x).
Definition aus_left (c : idx) (idim ipos : nat) : R :=
  (p_u (ato_prim nd e (r_q r (lindex idim c) 1%nat idim)) ipos ⊕ p_u (ato_prim nd e (r_q r c 0%nat idim)) ipos) ⊘ two.
Definition aus_right (c : idx) (idim ipos : nat) : R :=
  (p_u (ato_prim nd e (r_q r c 1%nat idim)) ipos ⊕ p_u (ato_prim nd e (r_q r (rindex idim c) 0%nat idim)) ipos) ⊘ two.
Definition aein_right (c : idx) (idim ipos : nat) : R :=
  if a_lt A zero (aus_right c idim ipos) then aeint (a c) else aeint (a (rindex idim c)).
Definition aein_left (c : idx) (idim ipos : nat) : R :=
  if a_lt A (aus_left c idim ipos) zero then aeint (a c) else aeint (a (lindex idim c)).
(** divU and divUE run on through both loops. *)
Definition adiv_u (c : idx) : R :=
  loop nd (fun idim s => loop nd (fun ipos s =>
    s ⊕ ((aus_right c idim ipos ⊗ ads g nd m (rindex idim c) ipos) ⊖ (aus_left c idim ipos ⊗ ads g nd m c ipos))
        ⊘ adv g nd m c) s) zero.
Definition adiv_ue (c : idx) : R :=
  loop nd (fun idim s => loop nd (fun ipos s =>
    s ⊕ ((aus_right c idim ipos ⊗ aein_right c idim ipos ⊗ ads g nd m (rindex idim c) ipos)
         ⊖ (aus_left c idim ipos ⊗ aein_left c idim ipos ⊗ ads g nd m c ipos)) ⊘ adv g nd m c) s) zero.
Definition ade_pf (c : idx) : R :=
  dt ⊗ (((- p_P (ato_prim nd e (cons_of (a c))))%R ⊗ adiv_u c) ⊖ adiv_ue c).
Definition aalpha (c : idx) : R :=
  if a_lt A (aeint (a c)) (eps ⊘ int 10 ⊗ aekin c) then zero
  else (aeint (a c) ⊗ aeint (a c)) ⊘ (aekin c ⊗ aekin c ⊗ eps ⊗ eps).
(** The value left by the last iteration of the loops. *)
Definition apf_energy (c : idx) : R :=
  let de_god := aeint (a_new c) ⊖ aeint (a c) in
  let sum := asum nd (fun idr => c_rhou (a c) idr ⊗ c_rhou (a c) idr ⊘ c_rho (a c)) in
  aeint (a c) ⊕ ((aalpha c ⊗ de_god) ⊕ ((one ⊖ aalpha c) ⊗ ade_pf c)) ⊕ (one ⊘ two ⊗ sum).
Definition apf_cell (c : idx) : cell :=
  if a_lt A (aeint (a c)) (eps ⊗ aekin c)
  then mkCell (c_rho (a_new c)) (c_rhou (a_new c)) (apf_energy c) (c_fx (a_new c))
  else a_new c.
End APressureFix.

(** ** User step (src/user_step/user_step.cpp:42-68, src/units/units.hpp:65-86) *)
Definition aday : R := int 24 ⊗ (int 60 ⊗ int 60).
Definition atau_ni56 : R := a_lit A 88 1 ⊗ aday.
Definition atau_co56 : R := a_lit A 1113 1 ⊗ aday.
Definition am_ni56 : R := a_lit A 559421278 7 ⊗ a_lit A 166053906660 38.
Definition aMeV : R := a_lit A 1602176634 28 ⊗ int 1000000.
Definition aQ_ni56 : R := a_lit A 175 2 ⊗ aMeV.
Definition aQ_co56 : R := a_lit A 373 2 ⊗ aMeV.
Definition anickel_rate (t : R) : R :=
  (((aQ_ni56 ⊗ ((atau_co56 ⊘ atau_ni56) ⊖ one)) ⊖ aQ_co56) ⊗ a_exp A ((- t)%R ⊘ atau_ni56)
   ⊕ (aQ_co56 ⊗ a_exp A ((- t)%R ⊘ atau_co56)))
  ⊗ (one ⊘ (am_ni56 ⊗ (atau_co56 ⊖ atau_ni56))).
Definition auser_cell (k : user_kind) (t dt : R) (x : cell) : cell :=
  match k with
  | UOff => x
  | UHeatNickel =>
      mkCell (c_rho x) (c_rhou x) (c_E x ⊕ c_fx x 0%nat ⊗ c_rho x ⊗ anickel_rate t ⊗ dt) (c_fx x)
  end.

(** ** Gravity (src/gravity/gravity.cpp:29-54, src/units/units.hpp:63); the internal mass model is
    not transcribed here: [None] *)
Definition agrav_const : R := a_lit A 66743015 18.
Definition agravity_values (K : config) (L : layout) (r : idx) : option gravity :=
  match k_grav K with
  | GUniform g => Some (fun _ d => g d)
  | GPointMass M =>
      Some (fun c d => match d with
                       | O => (- agrav_const)%R ⊗ M ⊘ (axc (l_mesh L r) 0 (ii c) ⊗ axc (l_mesh L r) 0 (ii c))
                       | _ => zero
                       end)
  | GInternalMass _ => None
  end.

(** ** One step (src/main.cpp:427-528), as ModelStep.v *)
Definition astep_rec (K : config) (L : layout) (dt : R) (S : idx -> pstate) (r : idx) : recon :=
  let st := S r in
  ahydro_reconstruction (sel K L 1 r) (k_geom K) (k_nd K) (k_eos K) (k_lim K) (l_mesh L r) (s_grav st) (dt ⊘ two)
    (fun c => c_rho (s_cell st c)) (s_u st) (s_P st) (fun c => c_fx (s_cell st c)) (s_rec st).
Definition astep_godunov (K : config) (L : layout) (dt : R) (S : idx -> pstate) (r : idx) : idx -> cell :=
  let st := S r in
  kwrite (sel K L 0 r) (agod_cell (k_geom K) (k_nd K) (k_eos K) (k_sol K) (l_mesh L r) (s_grav st) dt (s_cell st)
    (astep_rec K L dt S r)) (s_new st).
Definition astep_pf (K : config) (L : layout) (dt : R) (S : idx -> pstate) (r : idx) : idx -> cell :=
  let new := astep_godunov K L dt S r in
  match k_pf K with
  | None => new
  | Some eps =>
      kwrite (sel K L 0 r) (apf_cell (k_geom K) (k_nd K) (k_eos K) (l_mesh L r) dt eps (s_cell (S r))
        (astep_rec K L dt S r) new) new
  end.
Definition astep_user (K : config) (L : layout) (t dt : R) (S : idx -> pstate) (r : idx) : idx -> cell :=
  let a := astep_pf K L dt S r in kwrite (sel K L 0 r) (fun c => auser_cell (k_user K) t dt (a c)) a.

(** main.cpp:526-528 with array_conversion.hpp:107-138; where the gravity model is not transcribed the
    old field stays. *)
Definition afinish (K : config) (L : layout) (W : world cell) (rec : idx -> recon) (new : world cell)
  (S : idx -> pstate) : idx -> pstate :=
  fun r =>
    let a := W r in
    let q c := ato_prim (k_nd K) (k_eos K) (cons_of (a c)) in
    mkState a (kwrite (sel K L (k_ng K) r) (fun c => p_u (q c)) (s_u (S r)))
      (kwrite (sel K L (k_ng K) r) (fun c => p_P (q c)) (s_P (S r))) (rec r) (new r)
      (match agravity_values K L r with Some g => g | None => s_grav (S r) end).
Definition afull_step (K : config) (L : layout) (t dt : R) (S : idx -> pstate) : idx -> pstate :=
  let W := bcs_update K L (astep_user K L t dt S) in
  afinish K L W (astep_rec K L dt S) W S.

(** main.cpp:305-311 *)
Definition ainit_cons (K : config) (L : layout) (S : idx -> pstate) (r : idx) : idx -> cell :=
  let a := s_cell (S r) in
  let q c := ato_cons (k_nd K) (k_eos K) (mkPrim (c_rho (a c)) (s_u (S r) c) (s_P (S r) c)) in
  fun c => mkCell (c_rho (a c)) (kwrite (sel K L 0 r) (fun c => q_m (q c)) (fun c => c_rhou (a c)) c)
             (kwrite (sel K L 0 r) (fun c => q_E (q c)) (fun c => c_E (a c)) c) (c_fx (a c)).
Definition ainit_state (K : config) (L : layout) (S : idx -> pstate) : idx -> pstate :=
  let W := bcs_update K L (ainit_cons K L S) in
  afinish K L W (fun r => s_rec (S r)) (fun r => s_new (S r)) S.

(** ** Time step (src/hydro/time_step.hpp:35-82, src/main.cpp:356-357, 530) *)
Definition adx_geom (g : geom) (nd : nat) (m : mesh) (c : idx) (d : nat) : R :=
  match g with
  | Cartesian => adx m d (coord d c)
  | Spherical =>
      match nd, d with
      | 2%nat, 1%nat => adx m 1 (jj c) ⊗ axc m 0 (ii c)
      | 3%nat, 1%nat => adx m 1 (jj c) ⊗ axc m 0 (ii c)
      | 3%nat, 2%nat => adx m 2 (kk c) ⊗ (axc m 0 (ii c) ⊗ a_sin A (axc m 1 (jj c)))
      | _, _ => adx m d (coord d c)
      end
  end.
Definition acell_inverse_dt (K : config) (L : layout) (S : idx -> pstate) (r c : idx) : R :=
  let st := S r in
  asum (k_nd K) (fun d =>
    (a_abs A (s_u st c d) ⊕ eos_sound (k_eos K) (c_rho (s_cell st c)) (s_P st c))
    ⊘ adx_geom (k_geom K) (k_nd K) (l_mesh L r) c d).
(** Kokkos::max, the join of Kokkos::Max and MPI_MAX: [(a < b) ? b : a]. *)
Definition akmax (a b : R) : R := if a_lt A a b then b else a.
(** A reduction of the values [l], in any order and association. *)
Inductive reduces : list R -> R -> Prop :=
| reduces_one x : reduces [x] x
| reduces_join l1 l2 l a b : (forall x, In x l <-> In x l1 \/ In x l2) -> reduces l1 a -> reduces l2 b ->
    reduces l (akmax a b).

(** [n] iterations of the time loop between outputs: [dt = cfl * time_step], step, [t += dt]; the outcome of
    the global reduction depends on its order. *)
Inductive aruns (K : config) (L : layout) (cfl : R) : nat -> R -> (idx -> pstate) -> R -> (idx -> pstate) -> Prop :=
| aruns_end t S : aruns K L cfl 0 t S t S
| aruns_step n t S v t' S' :
    reduces (all_values K L (k_ng K) (acell_inverse_dt K L S)) v ->
    (let dt := cfl ⊗ (one ⊘ v) in
     aruns K L cfl n (t ⊕ dt) (afull_step K L t dt S) t' S') ->
    aruns K L cfl (Datatypes.S n) t S t' S'.
End Arith.
