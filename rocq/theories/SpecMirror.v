(** * Mirror symmetry to the last bit (C97). *)
From Flocq Require Import IEEE754.BinarySingleNaN.
From Verif Require Import Base RBase ModelMesh ModelGeom ModelBoundary ModelHydro ModelScheme ModelStep ModelFloat ModelArith ModelArith64.
Local Open Scope R_scope.

(** What binary64 shares with the reals when signs are changed.  [same] relates numbers equal up to the sign of
    zero; a number is not related to anything when it is no number of the arithmetic. *)
Record sign_symmetric (A : arith) (same : R -> R -> Prop) (nonzero finite : R -> Prop) : Prop := {
  ss_sym : forall x y, same x y -> same y x;
  ss_trans : forall x y z, same x y -> same y z -> same x z;
  ss_nonzero : forall x y, same x y -> nonzero x -> x = y;
  ss_opp : forall x y, same x y -> same (- x) (- y);
  ss_add : forall x x' y y', same x x' -> same y y' -> same (a_add A x y) (a_add A x' y');
  ss_add_comm : forall x y, same x x -> same y y -> same (a_add A x y) (a_add A y x);
  ss_add_opp : forall x y, same x x -> same y y -> same (a_add A (- x) (- y)) (- a_add A x y);
  ss_sub : forall x y, same x x -> same y y -> same (a_sub A x y) (a_add A x (- y));
  ss_mul : forall x x' y y', same x x' -> same y y' -> same (a_mul A x y) (a_mul A x' y');
  ss_mul_comm : forall x y, same x x -> same y y -> same (a_mul A x y) (a_mul A y x);
  ss_mul_opp : forall x y, same x x -> same y y -> same (a_mul A (- x) y) (- a_mul A x y);
  ss_div : forall x x' y, same x x' -> same y y -> same (a_div A x y) (a_div A x' y);
  ss_div_opp : forall x y, same x x -> same y y -> same (a_div A (- x) y) (- a_div A x y);
  ss_fmin : forall x x' y y', same x x' -> same y y' -> same (a_fmin A x y) (a_fmin A x' y');
  ss_fmax : forall x x' y y', same x x' -> same y y' -> same (a_fmax A x y) (a_fmax A x' y');
  ss_fmin_comm : forall x y, same x x -> same y y -> same (a_fmin A x y) (a_fmin A y x);
  ss_fmax_comm : forall x y, same x x -> same y y -> same (a_fmax A x y) (a_fmax A y x);
  ss_fmin_opp : forall x y, same x x -> same y y -> same (a_fmin A (- x) (- y)) (- a_fmax A x y);
  ss_abs : forall x x', same x x' -> same (a_abs A x) (a_abs A x');
  ss_abs_opp : forall x, same x x -> same (a_abs A (- x)) (a_abs A x);
  ss_sqrt : forall x x', same x x' -> same (a_sqrt A x) (a_sqrt A x');
  ss_lt : forall x x' y y', same x x' -> same y y' -> a_lt A x y = a_lt A x' y';
  ss_lt_opp : forall x y, same x x -> same y y -> a_lt A (- x) (- y) = a_lt A y x;
  ss_asym : forall x y, same x x -> same y y -> a_lt A x y = true -> a_lt A y x = false;
  ss_lit : forall z k, same (a_lit A z k) (a_lit A z k);
  ss_zero : same (- a_lit A 0 0) (a_lit A 0 0);
  ss_two : nonzero (a_lit A 2 0);
  ss_flat : forall u x y, same u u -> same x x -> same y y -> finite x -> finite y ->
    a_lt A (a_lit A 0 0) u = false -> a_lt A u (a_lit A 0 0) = false -> same (a_mul A u x) (a_mul A u y) }.

Arguments ss_sym {_ _ _ _}.
Arguments ss_trans {_ _ _ _}.
Arguments ss_nonzero {_ _ _ _}.
Arguments ss_opp {_ _ _ _}.
Arguments ss_add {_ _ _ _}.
Arguments ss_add_comm {_ _ _ _}.
Arguments ss_add_opp {_ _ _ _}.
Arguments ss_sub {_ _ _ _}.
Arguments ss_mul {_ _ _ _}.
Arguments ss_mul_comm {_ _ _ _}.
Arguments ss_mul_opp {_ _ _ _}.
Arguments ss_div {_ _ _ _}.
Arguments ss_div_opp {_ _ _ _}.
Arguments ss_fmin {_ _ _ _}.
Arguments ss_fmax {_ _ _ _}.
Arguments ss_fmin_comm {_ _ _ _}.
Arguments ss_fmax_comm {_ _ _ _}.
Arguments ss_fmin_opp {_ _ _ _}.
Arguments ss_abs {_ _ _ _}.
Arguments ss_abs_opp {_ _ _ _}.
Arguments ss_sqrt {_ _ _ _}.
Arguments ss_lt {_ _ _ _}.
Arguments ss_lt_opp {_ _ _ _}.
Arguments ss_asym {_ _ _ _}.
Arguments ss_lit {_ _ _ _}.
Arguments ss_zero {_ _ _ _}.
Arguments ss_two {_ _ _ _}.
Arguments ss_flat {_ _ _ _}.

(** [x'] is [x], with the opposite sign if [b], up to the sign of zero. *)
Definition sgb (b : bool) (x : R) : R := if b then - x else x.
Definition twin (same : R -> R -> Prop) (b : bool) (x x' : R) : Prop := same x' (sgb b x).

(** States and fluxes that are mirror images in direction [d]: the components along [d] change sign; the fluxes in
    direction [k = d] change sign as well. *)
Definition twin_cons (same : R -> R -> Prop) (d : nat) (q q' : cons) : Prop :=
  twin same false (q_rho q) (q_rho q') /\ (forall k, twin same (Nat.eqb k d) (q_m q k) (q_m q' k)) /\
  twin same false (q_E q) (q_E q').
Definition twin_prim (same : R -> R -> Prop) (d : nat) (p p' : prim) : Prop :=
  twin same false (p_rho p) (p_rho p') /\ (forall k, twin same (Nat.eqb k d) (p_u p k) (p_u p' k)) /\
  twin same false (p_P p) (p_P p').
Definition twin_flux (same : R -> R -> Prop) (d k : nat) (f f' : flux) : Prop :=
  twin same (Nat.eqb k d) (f_rho f) (f_rho f') /\
  (forall j, twin same (xorb (Nat.eqb k d) (Nat.eqb j d)) (f_m f j) (f_m f' j)) /\
  twin same (Nat.eqb k d) (f_E f) (f_E f').
Definition twin_cell (same : R -> R -> Prop) (d : nat) (x x' : cell) : Prop :=
  twin_cons same d (cons_of x) (cons_of x').

(** An equation of state that does not distinguish the zeros. *)
Definition plain_eos (same : R -> R -> Prop) (nonzero : R -> Prop) (e : eos) : Prop :=
  forall rho P P', same rho rho -> nonzero rho -> same P P' ->
    same (eos_evol e rho P) (eos_evol e rho P') /\ same (eos_pres e rho P) (eos_pres e rho P') /\
    same (eos_sound e rho P) (eos_sound e rho P').

(** No denominator of the solver vanishes, no number overflows (the latter matters to LowMach only). *)
Definition tame (A : arith) (nonzero finite : R -> Prop) (s : solver) (nd : nat) (e : eos) (qL qR : cons) (dir : nat) : Prop :=
  nonzero (q_rho qL) /\ nonzero (q_rho qR) /\
  let pL := ato_prim A nd e qL in
  let pR := ato_prim A nd e qR in
  let cL := eos_sound e (p_rho pL) (p_P pL) in
  let cR := eos_sound e (p_rho pR) (p_P pR) in
  match s with
  | HLL => nonzero (a_sub A (a_fmax A (awave_R A e pL pR dir) (a_lit A 0 0)) (a_fmin A (awave_L A e pL pR dir) (a_lit A 0 0)))
  | HLLC => False
  | LowMach =>
      nonzero (a_mul A (a_lit A 2 0) (a_mul A (a_lit A 11 1) (a_fmax A (a_mul A (p_rho pL) cL) (a_mul A (p_rho pR) cR)))) /\
      nonzero (a_fmin A cL cR) /\
      finite (q_rho qL) /\ finite (q_rho qR) /\ finite (q_E qL) /\ finite (q_E qR) /\
      forall k, finite (q_m qL k) /\ finite (q_m qR k)
  end.

(** Cell [c] of [m] has the widths of the opposite cell of [m']: positions [i] and [M - i] in direction [d]. *)
Definition mesh_twin (A : arith) (same : R -> R -> Prop) (d : nat) (M : Z) (m m' : mesh) (c : idx) : Prop :=
  forall k, (k < 3)%nat ->
    twin same false (adx A m k (coord k c)) (adx A m' k (if Nat.eqb k d then M - coord k c else coord k c)%Z).

(** Doubles equal up to the sign of zero; doubles that are not zero. *)
Definition zeq (x y : double) : Prop := x = y \/ exists s s', x = B754_zero s /\ y = B754_zero s'.
Definition same64 (x y : R) : Prop := exists a b, x = enc a /\ y = enc b /\ zeq a b.
Definition nonzero64 (x : R) : Prop := forall s, x <> enc (B754_zero s).
