(** * MUSCL-Hancock reconstruction, Godunov update, pressure fix, time step. *)
From Verif Require Import Base RBase ModelMesh ModelGeom ModelBoundary ModelHydro.
Local Open Scope R_scope.

(** ** Geometric source terms (src/hydro/source_terms.hpp) *)

(** lines 18-22 *)
Definition source_grad_pres (dtodv PL PR dS dS_p : R) : R :=
  dtodv * (PL + PR) / 2 * (dS_p - dS).
(** lines 26-30 *)
Definition source_grad_u_r (dtodv rhoL rhoR uL uR dS dS_p : R) : R :=
  dtodv * ((rhoL * uL * uL) + (rhoR * uR * uR)) / 2 * (dS_p - dS) / 2.
(** lines 34-49 *)
Definition source_grad_u_idir_r (dtodv x0 x0_p rhoL rhoR uL_r uR_r uL_other uR_other dS dS_p : R) : R :=
  dtodv * (x0_p - x0) / (x0_p + x0) * ((rhoR * uR_other * uR_r * dS_p) + (rhoL * uL_other * uL_r * dS)).
(** lines 52-57 *)
Definition source_grad_u_th (dtodv x1 x1_p rhoL rhoR uL_phi uR_phi dS dS_p : R) : R :=
  dtodv * ((rhoL * uL_phi * uL_phi) + (rhoR * uR_phi * uR_phi)) / 2 * (cos ((x1 + x1_p) / 2) / sin ((x1 + x1_p) / 2))
  * (dS_p - dS) / 2.
(** lines 60-77 *)
Definition source_grad_u_phi (dtodv x1 x1_p rhoL rhoR uL_th uR_th uL_phi uR_phi dS dS_p : R) : R :=
  let sm := sin x1 in
  let sp := sin x1_p in
  dtodv * (sp - sm) / (sp + sm) * ((rhoR * uR_phi * uR_th * dS_p) + (rhoL * uL_phi * uL_th * dS)).

(** src/hydro/godunov_scheme.hpp:172-260 and src/hydro/extrapolation_reconstruction.hpp:147-289: what the
    pass over direction [idim] adds to momentum component [comp] in spherical geometry; the same block in
    both kernels. *)
Definition geo_source (g : geom) (nd : nat) (m : mesh) (c : idx) (dtodv : R) (pL pR : prim) (idim comp : nat) : R :=
  match g with
  | Cartesian => 0
  | Spherical =>
      let dS := ds g nd m c idim in
      let dS_p := ds g nd m (rindex idim c) idim in
      let r := m 0%nat (ii c) in
      let rp := m 0%nat (ii c + 1)%Z in
      let th := m 1%nat (jj c) in
      let thp := m 1%nat (jj c + 1)%Z in
      match idim, comp with
      | 0%nat, 0%nat =>
          source_grad_pres dtodv (p_P pL) (p_P pR) dS dS_p
          + (if Nat.leb 2 nd then source_grad_u_r dtodv (p_rho pL) (p_rho pR) (p_u pL 1%nat) (p_u pR 1%nat) dS dS_p else 0)
          + (if Nat.eqb nd 3 then source_grad_u_r dtodv (p_rho pL) (p_rho pR) (p_u pL 2%nat) (p_u pR 2%nat) dS dS_p else 0)
      | 0%nat, 1%nat =>
          if Nat.leb 2 nd
          then - source_grad_u_idir_r dtodv r rp (p_rho pL) (p_rho pR) (p_u pL 0%nat) (p_u pR 0%nat)
                   (p_u pL 1%nat) (p_u pR 1%nat) dS dS_p
          else 0
      | 0%nat, 2%nat =>
          if Nat.eqb nd 3
          then - source_grad_u_idir_r dtodv r rp (p_rho pL) (p_rho pR) (p_u pL 0%nat) (p_u pR 0%nat)
                   (p_u pL 2%nat) (p_u pR 2%nat) dS dS_p
          else 0
      | 1%nat, 1%nat =>
          source_grad_pres dtodv (p_P pL) (p_P pR) dS dS_p
          + (if Nat.eqb nd 3
             then source_grad_u_th dtodv th thp (p_rho pL) (p_rho pR) (p_u pL 2%nat) (p_u pR 2%nat) dS dS_p
             else 0)
      | 1%nat, 2%nat =>
          if Nat.eqb nd 3
          then - source_grad_u_phi dtodv th thp (p_rho pL) (p_rho pR) (p_u pL 1%nat) (p_u pR 1%nat)
                   (p_u pL 2%nat) (p_u pR 2%nat) dS dS_p
          else 0
      | _, _ => 0
      end
  end.

(** dtodv * (fL * ds(c) - fR * ds(c + 1)): the flux difference of direction [idim]. *)
Definition flux_diff (g : geom) (nd : nat) (m : mesh) (dt : R) (c : idx) (idim : nat) (fL fR : R) : R :=
  dt / dv g nd m c * ((fL * ds g nd m c idim) - (fR * ds g nd m (rindex idim c) idim)).

(** The gravity functor: [gravity(i, j, k, idim)]. *)
Definition gravity := idx -> nat -> R.

(** ** Reconstruction (src/hydro/hydro_reconstruction.hpp:85-129) *)

(** lines 99-112: primitive variables and scalars at side [side] of direction [d] of cell [c]. *)
Definition face_prim (l : limiter) (m : mesh) (rho : field3) (u : field4) (P : field3) (c : idx) (side d : nat) : prim :=
  mkPrim (face_value l m rho c side d) (fun n => face_value l m (fun c' => u c' n) c side d)
         (face_value l m P c side d).
Definition face_fx (l : limiter) (m : mesh) (fx : field4) (c : idx) (side d : nat) : vec :=
  fun n => face_value l m (fun c' => fx c' n) c side d.

(** src/hydro/extrapolation_reconstruction.hpp:90-335 [HancockExtrapolationReconstruction::execute] at cell
    [c].  [fp side d], [ffx side d] are the reconstructed face states of this cell; the conservative
    face states are [to_cons] of them (hydro_reconstruction.hpp:114-126).  The C++ loop accumulates into
    the array over [idim]; here the increments of the directions are summed ([R] addition is associative
    and commutative). *)
Definition hancock_cons (g : geom) (nd : nat) (e : eos) (m : mesh) (grav : gravity) (dt : R)
  (fp : nat -> nat -> prim) (c : idx) (side ipos : nat) : cons :=
  let q := to_cons nd e (fp side ipos) in
  let fL idim := flux_prim nd e (fp 0%nat idim) idim in
  let fR idim := flux_prim nd e (fp 1%nat idim) idim in
  let dtodv := dt / dv g nd m c in
  mkCons
    (q_rho q + vsum nd (fun idim => flux_diff g nd m dt c idim (f_rho (fL idim)) (f_rho (fR idim))))
    (fun idr =>
       q_m q idr
       + vsum nd (fun idim => flux_diff g nd m dt c idim (f_m (fL idim) idr) (f_m (fR idim) idr)
                              + geo_source g nd m c dtodv (fp 0%nat idim) (fp 1%nat idim) idim idr)
       + dt * grav c idr * q_rho q)
    (q_E q
     + vsum nd (fun idim => flux_diff g nd m dt c idim (f_E (fL idim)) (f_E (fR idim))
                            + dt * grav c idim * q_m q idim)).

(** fx_rec: multiplied by the old density (lines 107-110), advanced (lines 305-315), divided by the new
    density (lines 319-331). *)
Definition hancock_fx (g : geom) (nd : nat) (e : eos) (m : mesh) (grav : gravity) (dt : R)
  (fp : nat -> nat -> prim) (ffx : nat -> nat -> vec) (c : idx) (side ipos : nat) : vec :=
  let fL idim := flux_prim nd e (fp 0%nat idim) idim in
  let fR idim := flux_prim nd e (fp 1%nat idim) idim in
  fun n =>
    (ffx side ipos n * p_rho (fp side ipos)
     + vsum nd (fun idim => flux_diff g nd m dt c idim (ffx 0%nat idim n * f_rho (fL idim))
                                                       (ffx 1%nat idim n * f_rho (fR idim))))
    / q_rho (hancock_cons g nd e m grav dt fp c side ipos).

(** The arrays rho_rec, rhou_rec, E_rec and fx_rec. *)
Record recon : Type := mkRec { r_q : idx -> nat -> nat -> cons; r_fx : idx -> nat -> nat -> vec }.

(** [MUSCLHancockHydroReconstruction::execute] over the cells selected by [p]; [dt] is the duration given
    to it (half the time step, src/main.cpp:427). *)
Definition hydro_reconstruction (p : idx -> bool) (g : geom) (nd : nat) (e : eos) (l : limiter) (m : mesh)
  (grav : gravity) (dt : R) (rho : field3) (u : field4) (P : field3) (fx : field4) (old : recon) : recon :=
  mkRec (kwrite p (fun c => hancock_cons g nd e m grav dt (face_prim l m rho u P c) c) (r_q old))
        (kwrite p (fun c => hancock_fx g nd e m grav dt (face_prim l m rho u P c) (face_fx l m fx c) c) (r_fx old)).

(** ** Godunov update (src/hydro/godunov_scheme.hpp:110-302) *)

(** The flux through the lower face of cell [c] in direction [d]: [FluxL] of cell [c] and [FluxR] of the
    cell before it. *)
Definition face_flux (s : solver) (nd : nat) (e : eos) (r : recon) (c : idx) (d : nat) : flux :=
  riemann s nd e (r_q r (lindex d c) 1%nat d) (r_q r c 0%nat d) d.
Definition flux_left := face_flux.
Definition flux_right (s : solver) (nd : nat) (e : eos) (r : recon) (c : idx) (d : nat) : flux :=
  riemann s nd e (r_q r c 1%nat d) (r_q r (rindex d c) 0%nat d) d.

(** lines 262-284: the upwind scalar on the two faces. *)
Definition fx_left (s : solver) (nd : nat) (e : eos) (r : recon) (c : idx) (d n : nat) : R :=
  if rltb (f_rho (flux_left s nd e r c d)) 0 then r_fx r c 0%nat d n else r_fx r (lindex d c) 1%nat d n.
Definition fx_right (s : solver) (nd : nat) (e : eos) (r : recon) (c : idx) (d n : nat) : R :=
  if rltb (f_rho (flux_right s nd e r c d)) 0 then r_fx r (rindex d c) 0%nat d n else r_fx r c 1%nat d n.

(** Kokkos::clamp(x, lo, hi) = (x < lo) ? lo : (hi < x) ? hi : x *)
Definition clamp (x lo hi : R) : R := if rltb x lo then lo else if rltb hi x then hi else x.

Section Godunov.
Variables (g : geom) (nd : nat) (e : eos) (s : solver) (m : mesh) (grav : gravity) (dt : R).
Variable a : idx -> cell.
Variable r : recon.

Definition god_rho (c : idx) : R :=
  c_rho (a c) + vsum nd (fun d => flux_diff g nd m dt c d (f_rho (flux_left s nd e r c d)) (f_rho (flux_right s nd e r c d))).

Definition god_rhou (c : idx) : vec := fun idr =>
  c_rhou (a c) idr
  + vsum nd (fun d => flux_diff g nd m dt c d (f_m (flux_left s nd e r c d) idr) (f_m (flux_right s nd e r c d) idr)
                      + geo_source g nd m c (dt / dv g nd m c) (to_prim nd e (r_q r c 0%nat d)) (to_prim nd e (r_q r c 1%nat d)) d idr)
  + dt * grav c idr * c_rho (a c).

Definition god_E (c : idx) : R :=
  c_E (a c)
  + vsum nd (fun d => flux_diff g nd m dt c d (f_E (flux_left s nd e r c d)) (f_E (flux_right s nd e r c d))
                      + dt * grav c d * c_rhou (a c) d).

(** rho * fx before the division and the clamp *)
Definition god_rhofx (c : idx) : vec := fun n =>
  c_fx (a c) n * c_rho (a c)
  + vsum nd (fun d => flux_diff g nd m dt c d (fx_left s nd e r c d n * f_rho (flux_left s nd e r c d))
                                              (fx_right s nd e r c d n * f_rho (flux_right s nd e r c d))).

Definition god_cell (c : idx) : cell :=
  mkCell (god_rho c) (god_rhou c) (god_E c) (fun n => clamp (god_rhofx c n / god_rho c) 0 1).
End Godunov.

Definition godunov (p : idx -> bool) (g : geom) (nd : nat) (e : eos) (s : solver) (m : mesh) (grav : gravity)
  (dt : R) (a : idx -> cell) (r : recon) (old : idx -> cell) : idx -> cell :=
  kwrite p (god_cell g nd e s m grav dt a r) old.

(** ** Pressure fix (src/hydro/pressure_fix.hpp:19-172) *)

Definition cons_of (x : cell) : cons := mkCons (c_rho x) (c_rhou x) (c_E x).

Section PressureFix.
Variables (g : geom) (nd : nat) (e : eos) (m : mesh) (dt eps : R).
Variable a : idx -> cell.
Variable r : recon.
Variable a_new : idx -> cell.

Definition ekin (c : idx) : R := ek_cons nd (cons_of (a c)).
Definition eint (x : cell) : R := c_E x - ek_cons nd (cons_of x).

(** lines 135-136: interface velocities, component [ipos] at the faces of direction [idim]. *)
Definition us_left (c : idx) (idim ipos : nat) : R :=
  (p_u (to_prim nd e (r_q r (lindex idim c) 1%nat idim)) ipos + p_u (to_prim nd e (r_q r c 0%nat idim)) ipos) / 2.
Definition us_right (c : idx) (idim ipos : nat) : R :=
  (p_u (to_prim nd e (r_q r c 1%nat idim)) ipos + p_u (to_prim nd e (r_q r (rindex idim c) 0%nat idim)) ipos) / 2.

(** lines 138-152 *)
Definition ein_right (c : idx) (idim ipos : nat) : R :=
  if rltb 0 (us_right c idim ipos) then eint (a c) else eint (a (rindex idim c)).
Definition ein_left (c : idx) (idim ipos : nat) : R :=
  if rltb (us_left c idim ipos) 0 then eint (a c) else eint (a (lindex idim c)).

Definition div_u (c : idx) : R :=
  vsum nd (fun idim => vsum nd (fun ipos =>
    ((us_right c idim ipos * ds g nd m (rindex idim c) ipos) - (us_left c idim ipos * ds g nd m c ipos)) / dv g nd m c)).
Definition div_ue (c : idx) : R :=
  vsum nd (fun idim => vsum nd (fun ipos =>
    ((us_right c idim ipos * ein_right c idim ipos * ds g nd m (rindex idim c) ipos)
     - (us_left c idim ipos * ein_left c idim ipos * ds g nd m c ipos)) / dv g nd m c)).

Definition de_pf (c : idx) : R :=
  dt * ((- p_P (to_prim nd e (cons_of (a c))) * div_u c) - div_ue c).

Definition alpha (c : idx) : R :=
  if rltb (eint (a c)) (eps / 10 * ekin c) then 0
  else (eint (a c) * eint (a c)) / (ekin c * ekin c * eps * eps).

(** The value left in E_new by the last iteration of the loops (ndim >= 1). *)
Definition pf_energy (c : idx) : R :=
  let de_god := eint (a_new c) - eint (a c) in
  let sum := vsum nd (fun idr => c_rhou (a c) idr * c_rhou (a c) idr / c_rho (a c)) in
  eint (a c) + ((alpha c * de_god) + ((1 - alpha c) * de_pf c)) + (1 / 2 * sum).

Definition pf_cell (c : idx) : cell :=
  if rltb (eint (a c)) (eps * ekin c)
  then mkCell (c_rho (a_new c)) (c_rhou (a_new c)) (pf_energy c) (c_fx (a_new c))
  else a_new c.
End PressureFix.

Definition pressure_fix (p : idx -> bool) (g : geom) (nd : nat) (e : eos) (m : mesh) (dt eps : R)
  (a : idx -> cell) (r : recon) (a_new : idx -> cell) : idx -> cell :=
  kwrite p (pf_cell g nd e m dt eps a r a_new) a_new.

(** ** Time step (src/hydro/time_step.hpp:35-82) *)

(** lines 49-65 *)
Definition dx_geom (g : geom) (nd : nat) (m : mesh) (c : idx) (d : nat) : R :=
  match g with
  | Cartesian => mdx m d (coord d c)
  | Spherical =>
      match nd, d with
      | 2%nat, 1%nat => mdx m 1 (jj c) * mxc m 0 (ii c)
      | 3%nat, 1%nat => mdx m 1 (jj c) * mxc m 0 (ii c)
      | 3%nat, 2%nat => mdx m 2 (kk c) * (mxc m 0 (ii c) * sin (mxc m 1 (jj c)))
      | _, _ => mdx m d (coord d c)
      end
  end.

(** lines 43-70 *)
Definition inverse_dt (g : geom) (nd : nat) (e : eos) (m : mesh) (rho : field3) (u : field4) (P : field3) (c : idx) : R :=
  vsum nd (fun d => (Rabs (u c d) + eos_sound e (rho c) (P c)) / dx_geom g nd m c d).

(** Kokkos::Max reducer over the cells of the range, in the order of the list. *)
Definition max_over {A : Type} (f : A -> R) (l : list A) (init : R) : R :=
  fold_left (fun acc x => Rmax acc (f x)) l init.
