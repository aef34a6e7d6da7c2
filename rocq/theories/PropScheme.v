(** * C21, C33, C58, C63: the Godunov update. *)
From Verif Require Import Base RBase ModelMesh ModelGeom ModelBoundary ModelHydro ModelScheme SpecHydro SpecScheme
  ProofR ProofHydro ProofScheme ProofAxes ProofMirror ProofSchemeEx.
Local Open Scope R_scope.

(** C21: whatever the reconstructed states [r], the change of the mass in a box of updated cells is dt
    times what its outer faces let in; the flux density is the Riemann flux of the two states at the face. *)
Theorem C21_mass_balance :
  forall p g nd e s m grav dt a old r b en,
    (nd <= 3)%nat -> box_ok b en -> (forall c, in_box b en c -> p c = true) ->
    (forall c, in_box b en c -> dv g nd m c <> 0) ->
    let new := godunov p g nd e s m grav dt a r old in
    total (dv g nd m) (fun c => c_rho (new c)) b en - total (dv g nd m) (fun c => c_rho (a c)) b en
    = dt * inflow nd (ds g nd m)
        (fun c d => f_rho (riemann s nd e (r_q r (lindex d c) 1%nat d) (r_q r c 0%nat d) d)) b en.
Proof. exact god_mass_balance. Qed.
Print Assumptions C21_mass_balance.

Theorem C21_energy_balance :
  forall p g nd e s m grav dt a old r b en,
    (nd <= 3)%nat -> box_ok b en -> (forall c, in_box b en c -> p c = true) ->
    (forall c, in_box b en c -> dv g nd m c <> 0) -> no_gravity grav ->
    let new := godunov p g nd e s m grav dt a r old in
    total (dv g nd m) (fun c => c_E (new c)) b en - total (dv g nd m) (fun c => c_E (a c)) b en
    = dt * inflow nd (ds g nd m)
        (fun c d => f_E (riemann s nd e (r_q r (lindex d c) 1%nat d) (r_q r c 0%nat d) d)) b en.
Proof. exact god_energy_balance. Qed.
Print Assumptions C21_energy_balance.

Theorem C21_momentum_balance :
  forall p nd e s m grav dt a old r b en k,
    (nd <= 3)%nat -> box_ok b en -> (forall c, in_box b en c -> p c = true) ->
    (forall c, in_box b en c -> dv Cartesian nd m c <> 0) -> no_gravity grav ->
    let new := godunov p Cartesian nd e s m grav dt a r old in
    total (dv Cartesian nd m) (fun c => c_rhou (new c) k) b en
    - total (dv Cartesian nd m) (fun c => c_rhou (a c) k) b en
    = dt * inflow nd (ds Cartesian nd m)
        (fun c d => f_m (riemann s nd e (r_q r (lindex d c) 1%nat d) (r_q r c 0%nat d) d) k) b en.
Proof.
  exact (fun p nd e s m grav dt a old r b en k Hnd Hb Hp Hv Hg =>
    god_momentum_balance p Cartesian nd e s m grav dt a old r b en Hnd Hb Hp Hv k eq_refl Hg).
Qed.
Print Assumptions C21_momentum_balance.

(** C25: scalar mass obeys the same balance with the same mass flux, carrying the upwind scalar, where the
    new scalar was not cut to [0, 1]. *)
Theorem C25_scalar_mass_balance :
  forall p g nd e s m grav dt a old r b en n,
    (nd <= 3)%nat -> box_ok b en -> (forall c, in_box b en c -> p c = true) ->
    (forall c, in_box b en c -> dv g nd m c <> 0) ->
    let new := godunov p g nd e s m grav dt a r old in
    let F c d := riemann s nd e (r_q r (lindex d c) 1%nat d) (r_q r c 0%nat d) d in
    (forall c, in_box b en c -> c_rho (new c) <> 0 /\ 0 < c_fx (new c) n < 1) ->
    total (dv g nd m) (fun c => c_fx (new c) n * c_rho (new c)) b en
    - total (dv g nd m) (fun c => c_fx (a c) n * c_rho (a c)) b en
    = dt * inflow nd (ds g nd m)
        (fun c d => (if rltb (f_rho (F c d)) 0 then r_fx r c 0%nat d n else r_fx r (lindex d c) 1%nat d n)
                    * f_rho (F c d)) b en.
Proof. exact god_scalar_balance_strict. Qed.
Print Assumptions C25_scalar_mass_balance.

Example C21_example :
  let m : mesh := fun d i => IZR i in
  let b := I3 2 2 0 in let en := I3 5 4 1 in
  box_ok b en /\ (forall c, in_box b en c -> dv Cartesian 2 m c <> 0) /\
  box_cells b en <> [] /\ lower_side b en 0 <> upper_side b en 0.
Proof. exact c21_example. Qed.

(** C33: gravity adds dt rho g to the momentum and dt rho u.g to the energy, and nothing else ... *)
Theorem C33_gravity_in_the_update :
  forall p g nd e s m grav dt a r old c, p c = true ->
    let with_g := godunov p g nd e s m grav dt a r old c in
    let without := godunov p g nd e s m (fun _ _ => 0) dt a r old c in
    c_rho with_g = c_rho without /\
    (forall d, c_rhou with_g d = c_rhou without d + dt * (c_rho (a c) * grav c d)) /\
    c_E with_g = c_E without + dt * vsum nd (fun d => c_rhou (a c) d * grav c d) /\
    (forall n, c_fx with_g n = c_fx without n).
Proof. exact godunov_gravity. Qed.
Print Assumptions C33_gravity_in_the_update.

(** ... and likewise in the half step on every face state. *)
Theorem C33_gravity_in_the_half_step :
  forall g nd e m grav dt fp c side ipos,
    let with_g := hancock_cons g nd e m grav dt fp c side ipos in
    let without := hancock_cons g nd e m (fun _ _ => 0) dt fp c side ipos in
    let q := to_cons nd e (fp side ipos) in
    q_rho with_g = q_rho without /\
    (forall d, q_m with_g d = q_m without d + dt * (q_rho q * grav c d)) /\
    q_E with_g = q_E without + dt * vsum nd (fun d => q_m q d * grav c d).
Proof. exact hancock_gravity. Qed.
Print Assumptions C33_gravity_in_the_half_step.

(** C33: the update writes only the cells it was asked to write. *)
Theorem C33_update_writes_only_its_range :
  forall p g nd e s m grav dt a r old c, p c = false -> godunov p g nd e s m grav dt a r old c = old c.
Proof. exact godunov_writes_only. Qed.
Print Assumptions C33_update_writes_only_its_range.

Example C33_example :
  let m : mesh := fun d i => IZR i in
  let q := mkCell 2 (fun _ => 0) 1 (fun _ => 0) in
  let r := mkRec (fun _ _ _ => cons_of q) (fun _ _ _ _ => 0) in
  c_rhou (godunov (fun _ => true) Cartesian 1 (pg_eos (mkPG 2 1)) HLL m (fun _ _ => 3) 1 (fun _ => q) r (fun _ => q) (I3 0 0 0)) 0%nat = 6.
Proof. exact c33_example. Qed.

(** C58: relabelling the axes of a Cartesian problem relabels the result of reconstruction, half step and
    update. *)
Theorem C58_axes_alike :
  forall nd sigma tau, (nd <= 3)%nat -> axis_perm nd sigma tau ->
  forall e l s (m : mesh) dth dt p1 p1' p2 p2' rho rho' u u' P P' fx fx' grav grav' a a' rold rold' old old',
    (forall c, p1' (relabel_idx tau c) = p1 c) -> (forall c, p2' (relabel_idx tau c) = p2 c) ->
    (forall c, rho' (relabel_idx tau c) = rho c) -> (forall c, P' (relabel_idx tau c) = P c) ->
    (forall c d, u' (relabel_idx tau c) d = u c (tau d)) -> (forall c n, fx' (relabel_idx tau c) n = fx c n) ->
    (forall c d, grav' (relabel_idx tau c) d = grav c (tau d)) ->
    (forall c, a' (relabel_idx tau c) = relabel_cell tau (a c)) ->
    (forall c, old' (relabel_idx tau c) = relabel_cell tau (old c)) ->
    (forall c sd d, (d < 3)%nat -> r_q rold' (relabel_idx tau c) sd d = relabel_cons tau (r_q rold c sd (tau d))) ->
    (forall c sd d n, (d < 3)%nat -> r_fx rold' (relabel_idx tau c) sd d n = r_fx rold c sd (tau d) n) ->
    forall c,
      godunov p2' Cartesian nd e s (fun d => m (tau d)) grav' dt a'
        (hydro_reconstruction p1' Cartesian nd e l (fun d => m (tau d)) grav' dth rho' u' P' fx' rold') old'
        (relabel_idx tau c)
      = relabel_cell tau
          (godunov p2 Cartesian nd e s m grav dt a
            (hydro_reconstruction p1 Cartesian nd e l m grav dth rho u P fx rold) old c).
Proof. exact step_relabel. Qed.
Print Assumptions C58_axes_alike.

(** A cyclic permutation of the three axes is one; fields can be relabelled. *)
Example C58_example :
  let tau := fun d => match d with 0 => 1 | 1 => 2 | 2 => 0 | n => n end%nat in
  let sigma := fun d => match d with 0 => 2 | 1 => 0 | 2 => 1 | n => n end%nat in
  axis_perm 3 sigma tau /\ relabel_idx tau (I3 4 5 6) = I3 5 6 4 /\
  (forall f : idx -> R, forall c, (fun c' => f (relabel_idx sigma c')) (relabel_idx tau c) = f c).
Proof. exact c58_example. Qed.

(** C63: reflecting a Cartesian problem about a plane normal to axis [d] (cells [i] and [M - i] exchanged,
    normal momentum reversed) reflects the result. *)
Theorem C63_reflection_symmetric :
  forall nd e, lawful_eos e -> (nd <= 3)%nat ->
  forall d M l s m m' dth dt p1 p1' p2 p2' rho rho' u u' P P' fx fx' grav grav' a a' rold rold' old old',
    (d < nd)%nat ->
    (forall c, mesh_refl d M m m' c) ->
    (forall c, p1 c = true -> p1' (refl d M c) = true) -> (forall c, p2' (refl d M c) = p2 c) ->
    (forall c c', p2 c = true -> in_stencil nd c c' -> p1 c' = true) ->
    (forall c, rho' (refl d M c) = rho c) -> (forall c, P' (refl d M c) = P c) ->
    (forall c k, u' (refl d M c) k = sg d k (u c k)) -> (forall c n, fx' (refl d M c) n = fx c n) ->
    (forall c k, grav' (refl d M c) k = sg d k (grav c k)) ->
    (forall c, a' (refl d M c) = negate_momentum d (a c)) ->
    (forall c, old' (refl d M c) = negate_momentum d (old c)) ->
    let r := hydro_reconstruction p1 Cartesian nd e l m grav dth rho u P fx rold in
    let r' := hydro_reconstruction p1' Cartesian nd e l m' grav' dth rho' u' P' fx' rold' in
    (forall c sd k, p1 c = true -> (sd < 2)%nat -> (k < nd)%nat -> valid_cons nd (r_q r c sd k)) ->
    forall c,
      godunov p2' Cartesian nd e s m' grav' dt a' r' old' (refl d M c)
      = negate_momentum d (godunov p2 Cartesian nd e s m grav dt a r old c).
Proof. exact step_reflected. Qed.
Print Assumptions C63_reflection_symmetric.

Example C63_example :
  let m : mesh := fun d i => IZR i in
  (forall c, mesh_refl 0 5 m m c) /\ refl 0 5 (I3 2 7 0) = I3 3 7 0 /\
  (forall f : idx -> R, forall c, (fun c' => f (refl 0 5 c')) (refl 0 5 c) = f c).
Proof. exact c63_example. Qed.
