(** * Change of units by powers of two, in an arbitrary arithmetic. *)
From Verif Require Import Base RBase ModelMesh ModelGeom ModelBoundary ModelHydro ModelScheme ModelStep ModelArith SpecStep.
Local Open Scope R_scope.

(** [sc k x] is [x] with the binary exponent raised by [k]: what the operations make of such numbers. *)
Record exponent_shift (A : arith) (sc : Z -> R -> R) : Prop := {
  es_zero : forall x, sc 0%Z x = x;
  es_comp : forall j k x, sc j (sc k x) = sc (j + k)%Z x;
  es_opp : forall k x, (- sc k x)%R = sc k (- x)%R;
  es_add : forall k x y, a_add A (sc k x) (sc k y) = sc k (a_add A x y);
  es_sub : forall k x y, a_sub A (sc k x) (sc k y) = sc k (a_sub A x y);
  es_mul : forall j k x y, a_mul A (sc j x) (sc k y) = sc (j + k)%Z (a_mul A x y);
  es_div : forall j k x y, a_div A (sc j x) (sc k y) = sc (j - k)%Z (a_div A x y);
  es_fmin : forall k x y, a_fmin A (sc k x) (sc k y) = sc k (a_fmin A x y);
  es_fmax : forall k x y, a_fmax A (sc k x) (sc k y) = sc k (a_fmax A x y);
  es_abs : forall k x, a_abs A (sc k x) = sc k (a_abs A x);
  es_sqrt : forall k x, a_sqrt A (sc (2 * k)%Z x) = sc k (a_sqrt A x);
  es_lt : forall k x y, a_lt A (sc k x) (sc k y) = a_lt A x y;
  es_none : forall k, sc k (a_lit A 0 0) = a_lit A 0 0 }.

(** Exponents of the units of density, velocity and length, and of the coordinate of each direction. *)
Record powers : Type := mkPowers { w_D : Z; w_V : Z; w_L : Z; w_X : nat -> Z }.
Definition w_T (w : powers) : Z := (w_L w - w_V w)%Z.
Definition w_M (w : powers) : Z := (w_D w + w_V w)%Z.
Definition w_E (w : powers) : Z := (w_D w + w_V w + w_V w)%Z.
Definition w_A (w : powers) : Z := (w_V w + w_V w - w_L w)%Z.
Definition power_system (g : geom) (nd : nat) (w : powers) : Prop :=
  match g with
  | Cartesian => forall d, (d < nd)%nat -> w_X w d = w_L w
  | Spherical => w_X w 0%nat = w_L w /\ w_X w 1%nat = 0%Z /\ w_X w 2%nat = 0%Z
  end.

Section Shifted.
Variables (sc : Z -> R -> R) (w : powers).
Definition cons_by (q : cons) : cons :=
  mkCons (sc (w_D w) (q_rho q)) (fun d => sc (w_M w) (q_m q d)) (sc (w_E w) (q_E q)).
Definition cell_by (x : cell) : cell :=
  mkCell (sc (w_D w) (c_rho x)) (fun d => sc (w_M w) (c_rhou x d)) (sc (w_E w) (c_E x)) (c_fx x).
Definition recon_by (r : recon) : recon := mkRec (fun c sd d => cons_by (r_q r c sd d)) (r_fx r).
Definition state_by (s : pstate) : pstate :=
  mkState (fun c => cell_by (s_cell s c)) (fun c d => sc (w_V w) (s_u s c d)) (fun c => sc (w_E w) (s_P s c))
          (recon_by (s_rec s)) (fun c => cell_by (s_new s c)) (fun c d => sc (w_A w) (s_grav s c d)).
Definition states_by (S : idx -> pstate) : idx -> pstate := fun r => state_by (S r).
Definition fields_by (G : gfields) : gfields :=
  mkG (fun c => sc (w_D w) (g_rho G c)) (fun c d => sc (w_V w) (g_u G c d)) (fun c => sc (w_E w) (g_P G c)) (g_fx G).
Definition coords_by (X : nat -> arr1) : nat -> arr1 :=
  fun d => mkArr1 (a_ext (X d)) (fun i => sc (w_X w d) (a_at (X d) i)).
Definition layout_by (L : layout) : layout :=
  mkLayout (l_dims L) (l_dec L)
    (fun r d i => sc (w_X w d) (l_mesh L r d i)).
Definition gravity_by (k : grav_kind) : grav_kind :=
  match k with
  | GUniform g => GUniform (fun d => sc (w_A w) (g d))
  | GPointMass M => GPointMass (sc (w_L w + w_V w + w_V w) M)
  | GInternalMass M => GInternalMass M
  end.
Definition config_by (K : config) : config :=
  mkConfig (k_geom K) (k_nd K) (k_ng K) (k_eos K) (k_lim K) (k_sol K) (k_pf K) (k_user K) (gravity_by (k_grav K))
           (k_bcs K) (k_order K).

(** The equation of state computes alike in both units. *)
Definition shifted_gas (e : eos) : Prop := forall rho x,
  eos_evol e (sc (w_D w) rho) (sc (w_E w) x) = sc (w_E w) (eos_evol e rho x) /\
  eos_pres e (sc (w_D w) rho) (sc (w_E w) x) = sc (w_E w) (eos_pres e rho x) /\
  eos_sound e (sc (w_D w) rho) (sc (w_E w) x) = sc (w_V w) (eos_sound e rho x).
End Shifted.

(** What the configuration must be for the change of units: heating refers to a time in days. *)
Definition fits (sc : Z -> R -> R) (w : powers) (K : config) : Prop :=
  power_system (k_geom K) (k_nd K) w /\ (1 <= k_nd K <= 3)%nat /\ shifted_gas sc w (k_eos K) /\
  (forall M, k_grav K <> GInternalMass M) /\ k_user K = UOff.

(** ** Radix 2, any precision and rounding, no bound on the exponents *)
From Flocq Require Import Core.Core.
Section Rounded.
Variables (prec : Z) (rnd : R -> Z).
Definition rounded (x : R) : R := round radix2 (FLX_exp prec) rnd x.
(** Literals are rounded as well; sin, cos and exp are arbitrary. *)
Definition unbounded (fsin fcos fexp : R -> R) : arith :=
  mkArith (fun x y => rounded (x + y)) (fun x y => rounded (x - y)) (fun x y => rounded (x * y)) (fun x y => rounded (x / y))
    Rmin Rmax Rabs (fun x => rounded (sqrt x)) fsin fcos fexp rltb (fun m k => rounded (IZR m / 10 ^ k)) (rounded PI).
End Rounded.
Definition times_power (k : Z) (x : R) : R := bpow radix2 k * x.
