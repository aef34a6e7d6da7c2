(** * Physics vocabulary for C12-C20, C26, C36: stated without the model's helper functions. *)
From Verif Require Import Base RBase ModelGeom ModelHydro.
Local Open Scope R_scope.

(** What the hydrodynamics needs of an equation of state. *)
Record lawful_eos (e : eos) : Prop := {
  law_pres_evol : forall rho P, 0 < rho -> 0 < P -> eos_pres e rho (eos_evol e rho P) = P;
  law_evol_pres : forall rho ev, 0 < rho -> 0 < ev -> eos_evol e rho (eos_pres e rho ev) = ev;
  law_evol_pos : forall rho P, 0 < rho -> 0 < P -> 0 < eos_evol e rho P;
  law_pres_pos : forall rho ev, 0 < rho -> 0 < ev -> 0 < eos_pres e rho ev;
  law_sound_pos : forall rho P, 0 < rho -> 0 < P -> 0 < eos_sound e rho P;
  (** sound is faster than the isothermal one: P / rho < c^2 *)
  law_sound_P : forall rho P, 0 < rho -> 0 < P -> P < rho * (eos_sound e rho P * eos_sound e rho P) }.

(** Kinetic and internal energy per unit volume of a conservative state. *)
Definition kinetic (nd : nat) (q : cons) : R := vsum nd (fun d => q_m q d ^ 2) / (2 * q_rho q).
Definition internal (nd : nat) (q : cons) : R := q_E q - kinetic nd q.

(** Physically admissible states. *)
Definition valid_cons (nd : nat) (q : cons) : Prop := 0 < q_rho q /\ 0 < internal nd q.
Definition valid_prim (p : prim) : Prop := 0 < p_rho p /\ 0 < p_P p.

(** Velocity, pressure, sound speed of a conservative state. *)
Definition velocity (q : cons) (d : nat) : R := q_m q d / q_rho q.
Definition pressure (nd : nat) (e : eos) (q : cons) : R := eos_pres e (q_rho q) (internal nd q).
Definition sound (nd : nat) (e : eos) (q : cons) : R := eos_sound e (q_rho q) (pressure nd e q).

(** The Euler flux in direction [dir]. *)
Definition euler_flux (nd : nat) (e : eos) (q : cons) (dir : nat) : flux :=
  let P := pressure nd e q in
  mkFlux (q_m q dir)
         (fun d => q_m q d * q_m q dir / q_rho q + (if Nat.eqb d dir then P else 0))
         ((q_E q + P) * q_m q dir / q_rho q).

(** Reversal of direction [dir]: of a state and of the flux in that direction. *)
Definition mirror (dir : nat) (q : cons) : cons :=
  mkCons (q_rho q) (fun d => if Nat.eqb d dir then - q_m q d else q_m q d) (q_E q).
Definition mirror_flux (dir : nat) (f : flux) : flux :=
  mkFlux (- f_rho f) (fun d => if Nat.eqb d dir then f_m f d else - f_m f d) (- f_E f).

(** A regular mesh around cell [c] in direction [d]. *)
Definition regular_at (m : mesh) (d : nat) (i : Z) (h : R) : Prop :=
  0 < h /\ mdx m d (i - 1) = h /\ mdx m d i = h /\ mdx m d (i + 1) = h.

(** [x] lies in the range spanned by [a], [b], [c]. *)
Definition between3 (a b c x : R) : Prop :=
  Rmin a (Rmin b c) <= x <= Rmax a (Rmax b c).

(** Pointwise arithmetic on states and fluxes (component by component). *)
Definition comp3 (R3 : (cons -> R) -> (flux -> R) -> Prop) : Prop :=
  R3 q_rho f_rho /\ (forall d, R3 (fun q => q_m q d) (fun f => f_m f d)) /\ R3 q_E f_E.

(** [F - G = s (U - V)] in every conserved component: the jump condition across a wave of speed [s]. *)
Definition jump (s : R) (U V : cons) (F G : flux) : Prop :=
  comp3 (fun q f => f F - f G = s * (q U - q V)).

(** The flux of a state that is advected with normal velocity [u] under pressure [P]. *)
Definition advected_flux (U : cons) (u P : R) (dir : nat) : flux :=
  mkFlux (u * q_rho U) (fun d => u * q_m U d + (if Nat.eqb d dir then P else 0)) (u * q_E U + P * u).
