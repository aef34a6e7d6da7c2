(** * Vocabulary for sources of momentum and energy (C29-C32, C34, C61, C62, C64). *)
From Coquelicot Require Import Coquelicot.
From Verif Require Import Base RBase ModelMesh ModelGeom ModelBoundary ModelHydro ModelScheme ModelStep SpecHydro.
Local Open Scope R_scope.

(** The conserved variables of a cell. *)
Definition conserved_of (x : cell) : cons := mkCons (c_rho x) (c_rhou x) (c_E x).

(** ** Spherical sources *)

(** Averages over the spherical cell [r, rp] x [th, thp] x ..., whose volume element is r^2 sin(th). *)
Definition mean_inv_r (r rp : R) : R := RInt (fun a => / a * (a * a)) r rp / RInt (fun a => a * a) r rp.
Definition mean_cot (th thp : R) : R := RInt (fun b => cos b / sin b * sin b) th thp / RInt sin th thp.

(** Rate of change of momentum [k] due to curvature: the cell average of the source of the continuous Euler
    equations in spherical coordinates, for a uniform state. *)
Definition momentum_source (nd : nat) (e : eos) (m : mesh) (c : idx) (q : cons) (k : nat) : R :=
  let inv := mean_inv_r (m 0%nat (ii c)) (m 0%nat (ii c + 1)%Z) in
  let cot := mean_cot (m 1%nat (jj c)) (m 1%nat (jj c + 1)%Z) in
  let u d := if Nat.ltb d nd then velocity q d else 0 in
  match k with
  | O => inv * (2 * pressure nd e q + q_rho q * (u 1%nat ^ 2 + u 2%nat ^ 2))
  | 1%nat => inv * (cot * (pressure nd e q + q_rho q * u 2%nat ^ 2) - q_rho q * u 0%nat * u 1%nat)
  | _ => - inv * (q_rho q * u 0%nat * u 2%nat + cot * (q_rho q * u 1%nat * u 2%nat))
  end.

(** Rate of change of momentum [k] due to the fluxes through the faces, for a uniform state. *)
Definition face_balance (nd : nat) (e : eos) (m : mesh) (c : idx) (q : cons) (k : nat) : R :=
  vsum nd (fun d => f_m (euler_flux nd e q d) k *
    (ds Spherical nd m c d - ds Spherical nd m (rindex d c) d)) / dv Spherical nd m c.

(** A proper spherical cell, away from the centre and the axis. *)
Definition proper_cell (nd : nat) (m : mesh) (c : idx) : Prop :=
  0 < m 0%nat (ii c) < m 0%nat (ii c + 1)%Z /\
  ((2 <= nd)%nat -> 0 < m 1%nat (jj c) /\ m 1%nat (jj c) < m 1%nat (jj c + 1)%Z /\ m 1%nat (jj c + 1)%Z < PI) /\
  (nd = 3%nat -> m 2%nat (kk c) < m 2%nat (kk c + 1)%Z).

(** Distance to the axis of a cell, and what its faces carry of angular momentum about the axis per unit of
    time, [FL d], [FR d] being the flux densities of azimuthal momentum at the two faces of direction [d]. *)
Definition mean_sin (m : mesh) (c : idx) : R := (sin (m 1%nat (jj c)) + sin (m 1%nat (jj c + 1)%Z)) / 2.
Definition arm (m : mesh) (c : idx) : R := mxc m 0 (ii c) * mean_sin m c.
Definition torque (m : mesh) (c : idx) (FL FR : nat -> R) : R :=
  let A d := ds Spherical 3 m c d in
  let A_p d := ds Spherical 3 m (rindex d c) d in
  mean_sin m c * (m 0%nat (ii c) * FL 0%nat * A 0%nat - m 0%nat (ii c + 1)%Z * FR 0%nat * A_p 0%nat)
  + mxc m 0 (ii c) * (sin (m 1%nat (jj c)) * FL 1%nat * A 1%nat - sin (m 1%nat (jj c + 1)%Z) * FR 1%nat * A_p 1%nat)
  + arm m c * (FL 2%nat * A 2%nat - FR 2%nat * A_p 2%nat).
(** What the momentum update adds on top of that when the flux through a face is not the one of the state
    [pL d], [pR d] the cell has there. *)
Definition spurious_torque (m : mesh) (c : idx) (FL FR : nat -> R) (pL pR : nat -> prim) : R :=
  let own (p : nat -> prim) d := p_rho (p d) * p_u (p d) d * p_u (p d) 2%nat in
  let A d := ds Spherical 3 m c d in
  let A_p d := ds Spherical 3 m (rindex d c) d in
  mean_sin m c * (m 0%nat (ii c + 1)%Z - m 0%nat (ii c)) / 2 *
    ((FL 0%nat - own pL 0%nat) * A 0%nat + (FR 0%nat - own pR 0%nat) * A_p 0%nat)
  + mxc m 0 (ii c) * (sin (m 1%nat (jj c + 1)%Z) - sin (m 1%nat (jj c))) / 2 *
    ((FL 1%nat - own pL 1%nat) * A 1%nat + (FR 1%nat - own pR 1%nat) * A_p 1%nat).

(** ** Pressure fix *)

(** The same run with the pressure fix switched off. *)
Definition without_fix (K : config) : config :=
  mkConfig (k_geom K) (k_nd K) (k_ng K) (k_eos K) (k_lim K) (k_sol K) None (k_user K) (k_grav K) (k_bcs K) (k_order K).

(** The same run without user step. *)
Definition without_user (K : config) : config :=
  mkConfig (k_geom K) (k_nd K) (k_ng K) (k_eos K) (k_lim K) (k_sol K) (k_pf K) UOff (k_grav K) (k_bcs K) (k_order K).

(** ** One step of the numerical scheme on arrays filled from [x], under gravity [gv], all cells updated.
    [u], [P] are the primitive fields of the cells. *)
Definition half_step (nd : nat) (e : eos) (l : limiter) (m : mesh) (grav : gravity) (dt : R)
  (a : idx -> cell) (u : field4) (P : field3) (old : recon) : recon :=
  hydro_reconstruction (fun _ => true) Cartesian nd e l m grav (dt / 2) (fun c => c_rho (a c)) u P (fun c => c_fx (a c)) old.
Definition updated (nd : nat) (e : eos) (l : limiter) (s : solver) (m : mesh) (grav : gravity) (dt : R)
  (a : idx -> cell) (u : field4) (P : field3) (old : recon) : idx -> cell :=
  godunov (fun _ => true) Cartesian nd e s m grav dt a (half_step nd e l m grav dt a u P old) a.
Definition fixed (nd : nat) (e : eos) (l : limiter) (s : solver) (m : mesh) (grav : gravity) (dt eps : R)
  (a : idx -> cell) (u : field4) (P : field3) (old : recon) : idx -> cell :=
  pressure_fix (fun _ => true) Cartesian nd e m dt eps a (half_step nd e l m grav dt a u P old)
    (updated nd e l s m grav dt a u P old).

(** The cell holding density [rho0], velocity [u0], pressure [P0]. *)
Definition gas (nd : nat) (e : eos) (rho0 : R) (u0 : vec) (P0 : R) (fx : vec) : cell :=
  mkCell rho0 (fun d => rho0 * u0 d) (eos_evol e rho0 P0 + rho0 * vsum nd (fun d => u0 d ^ 2) / 2) fx.

(** Cells of constant width in every direction. *)
Definition even_mesh (m : mesh) (h : nat -> R) : Prop := forall d i, (d < 3)%nat -> mdx m d i = h d.

(** ** Gravity *)

(** Sum of [f] over the owned cells of radial index [i], in the (ghosted) numbering of the global arrays. *)
Definition shell (nd : nat) (ng : Z) (N : idx) (f : idx -> R) (i : Z) : R :=
  let ghost d := if Nat.ltb d nd then ng else 0%Z in
  lsum (fun k => lsum (fun j => f (I3 i j k)) (zrange (ghost 1%nat) (ghost 1%nat + jj N)))
       (zrange (ghost 2%nat) (ghost 2%nat + kk N)).

(** Volume-weighted mean density of a shell. *)
Definition mean_density (g : geom) (nd : nat) (ng : Z) (N : idx) (m : mesh) (rho : idx -> R) (i : Z) : R :=
  shell nd ng N (fun c => rho c * dv g nd m c) i / shell nd ng N (dv g nd m) i.

Definition ball (r : R) : R := 4 / 3 * PI * r ^ 3.

(** Mass inside the centre of cell [i]: central mass, full shells below, lower part of shell [i]. *)
Definition mass_inside (m : mesh) (ng : Z) (M : R) (rhobar : Z -> R) (i : Z) : R :=
  M + lsum (fun j => (ball (m 0%nat (j + 1)%Z) - ball (m 0%nat j)) * rhobar j) (zrange ng i)
    + (ball (mxc m 0 i) - ball (m 0%nat i)) * rhobar i.

(** The mesh spans all directions. *)
Definition whole_sphere (nd : nat) (ng : Z) (N : idx) (m : mesh) : Prop :=
  ((2 <= nd)%nat -> m 1%nat ng = 0 /\ m 1%nat (ng + jj N)%Z = PI) /\
  ((3 <= nd)%nat -> m 2%nat (ng + kk N)%Z - m 2%nat ng = 2 * PI).

(** The coordinates of the whole mesh. *)
Definition global_mesh (X : nat -> arr1) : mesh := fun d i => a_at (X d) i.
