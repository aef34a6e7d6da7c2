(** * IEEE binary64 as an instance of ModelArith's arithmetic (Flocq, round to nearest even).

    C++ [double] on the supported platforms, without contraction into fused operations, without flushing of
    subnormal numbers.  sin, cos and exp are those of the mathematical library and remain parameters.
    NaN payloads are not distinguished. *)
From Coq Require Import ZArith Reals List Bool.
From Flocq Require Import Core.Core IEEE754.BinarySingleNaN.
From Coq Require Import Floats.SpecFloat.
From Verif Require Import ModelFloat ModelArith.
Local Open Scope Z_scope.

Definition dmult : double -> double -> double := Bmult mode_NE.
Definition dsqrt : double -> double := Bsqrt mode_NE.
Definition dopp : double -> double := Bopp.
Definition dabs : double -> double := Babs.
Definition dnan : double := B754_nan.

(** C's fmin and fmax: a NaN is ignored; on a tie (+0, -0) the C standard leaves the choice open, here the
    first argument. *)
Definition dfmin (x y : double) : double :=
  if is_nan x then y else if Bltb y x then y else x.
Definition dfmax (x y : double) : double :=
  if is_nan x then y else if Bltb x y then y else x.

(** The decimal literal m / 10^k, correctly rounded: the quotient at 2^-1076 rounded to odd (so that no tie
    is created), then to nearest even. *)
Definition odd_quotient (a b : Z) : Z :=
  let q := (a / b)%Z in if (a mod b =? 0)%Z then q else if Z.even q then (q + 1)%Z else q.
Definition dlit (m : Z) (k : nat) : double :=
  BinarySingleNaN.binary_normalize 53 1024 prec64 emax64 mode_NE (odd_quotient (m * 2 ^ 1076) (10 ^ Z.of_nat k)) (-1076) false.
(** Kokkos::numbers::pi, 0x1.921fb54442d18p+1 *)
Definition dpi : double := BinarySingleNaN.binary_normalize 53 1024 prec64 emax64 mode_NE 7074237752028440 (-51) false.

(** ** Codes: the integer standing for a double, odd under change of sign *)
Definition signed (s : bool) (z : Z) : Z := if s then (- z)%Z else z.
Definition code (x : double) : Z :=
  match x with
  | B754_nan => 0
  | B754_zero s => signed s 1
  | B754_infinity s => signed s 2
  | B754_finite s m e _ => signed s (3 + (Zpos m * 4096 + (e + 1074)))
  end.
Definition spec_of_code (z : Z) : spec_float :=
  let s := (z <? 0)%Z in
  let a := Z.abs z in
  if a =? 0 then S754_nan
  else if a =? 1 then S754_zero s
  else if a =? 2 then S754_infinity s
  else match (a - 3) / 4096 with
       | Zpos m => S754_finite s m ((a - 3) mod 4096 - 1074)
       | _ => S754_nan
       end.
Definition decode (z : Z) : double :=
  match bool_dec (valid_binary 53 1024 (spec_of_code z)) true with
  | left H => SF2B (spec_of_code z) H
  | right _ => B754_nan
  end.
Definition enc (x : double) : R := IZR (code x).
Definition dec (r : R) : double := decode (Zfloor r).

Section Binary64.
Variables dsin dcos dexp : double -> double.
Definition op1 (f : double -> double) (x : R) : R := enc (f (dec x)).
Definition op2 (f : double -> double -> double) (x y : R) : R := enc (f (dec x) (dec y)).
Definition b64 : arith :=
  mkArith (op2 dplus) (op2 dminus) (op2 dmult) (op2 ddiv) (op2 dfmin) (op2 dfmax)
    (op1 dabs) (op1 dsqrt) (op1 dsin) (op1 dcos) (op1 dexp)
    (fun x y => Bltb (dec x) (dec y)) (fun m k => enc (dlit m k)) (enc dpi).
End Binary64.
