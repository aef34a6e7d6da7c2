(** * Facts about the binary64 instance. *)
From Coq Require Import ZArith Reals List Bool Lia Lra.
From Flocq Require Import Core.Core IEEE754.BinarySingleNaN.
From Flocq Require Import Round_odd.
From Coq Require Import Floats.SpecFloat.
From Verif Require Import ModelFloat ModelArith ModelArith64 SpecArith.

(** ** Codes *)
Lemma signed_abs s z : (0 < z)%Z -> Z.abs (signed s z) = z.
Proof. destruct s; simpl; lia. Qed.
Lemma signed_neg s z : (0 < z)%Z -> (signed s z <? 0)%Z = s.
Proof. destruct s; simpl; intros; [apply Z.ltb_lt|apply Z.ltb_ge]; lia. Qed.

Lemma bounded_range m e : bounded 53 1024 m e = true -> (-1074 <= e <= 971)%Z.
Proof.
  unfold bounded. intros H. apply andb_prop in H. destruct H as [H1 H2]. apply Z.leb_le in H2.
  unfold canonical_mantissa in H1. apply Zeq_bool_eq in H1. unfold fexp, emin in *. lia.
Qed.

Lemma spec_of_code_code x : spec_of_code (code x) = B2SF x.
Proof.
  destruct x as [s|s| |s m e H]; cbn [code B2SF].
  - destruct s; reflexivity.
  - destruct s; reflexivity.
  - reflexivity.
  - pose proof (bounded_range m e H) as Hr.
    set (a := (3 + (Z.pos m * 4096 + (e + 1074)))%Z).
    assert (Ha : (4096 < a)%Z) by (unfold a; lia).
    unfold spec_of_code. rewrite signed_abs, signed_neg by lia.
    assert (E1 : ((a - 3) / 4096 = Z.pos m)%Z).
    { symmetry. apply (Z.div_unique_pos _ _ _ (e + 1074)); unfold a; lia. }
    assert (E2 : ((a - 3) mod 4096 = e + 1074)%Z).
    { symmetry. apply (Z.mod_unique_pos _ _ (Z.pos m)); unfold a; lia. }
    cbv zeta. rewrite E1, E2. replace (e + 1074 - 1074)%Z with e by lia.
    do 3 (match goal with |- context [(?x =? ?y)%Z] => destruct (Z.eqb_spec x y); [lia|] end). reflexivity.
Qed.
Lemma decode_code x : decode (code x) = x.
Proof.
  unfold decode. destruct (bool_dec _ true) as [H|H].
  - apply B2SF_inj. rewrite B2SF_SF2B. apply spec_of_code_code.
  - exfalso. apply H. rewrite spec_of_code_code. apply valid_binary_B2SF.
Qed.
Lemma dec_enc x : dec (enc x) = x.
Proof. unfold dec, enc. rewrite Zfloor_IZR. apply decode_code. Qed.
Lemma enc_inj x y : enc x = enc y -> x = y.
Proof. intros H. rewrite <- (dec_enc x), <- (dec_enc y). now rewrite H. Qed.
Lemma signed_negb s z : signed (negb s) z = (- signed s z)%Z.
Proof. destruct s; simpl; lia. Qed.
Lemma enc_opp x : enc (dopp x) = (- enc x)%R.
Proof.
  unfold enc. rewrite <- opp_IZR. f_equal. destruct x as [s|s| |s m e H]; cbn [dopp Bopp code];
  rewrite ?signed_negb; reflexivity.
Qed.

(** ** Literals are correctly rounded *)
Lemma odd_quotient_spec a b : (0 < b)%Z -> odd_quotient a b = Zrnd_odd (IZR a / IZR b).
Proof.
  intros Hb. unfold odd_quotient, Zrnd_odd. rewrite (Zfloor_div a b) by lia.
  assert (Hb' : (0 < IZR b)%R) by now apply IZR_lt.
  destruct (Z.eqb_spec (a mod b) 0) as [E|E].
  - destruct Req_EM_T as [_|N]; [reflexivity|]. exfalso. apply N.
    rewrite (Z_div_exact_full_2 a b) at 1 by lia. rewrite mult_IZR. field. lra.
  - destruct Req_EM_T as [F|_].
    + exfalso. apply E. apply Zmod_divides; [lia|]. exists (a / b)%Z. apply eq_IZR. rewrite mult_IZR, <- F. field. lra.
    + destruct Z.even; [|reflexivity]. rewrite Zceil_floor_neq; rewrite ?(Zfloor_div a b) by lia; [reflexivity|].
      intros F. apply E. apply Zmod_divides; [lia|]. exists (a / b)%Z. apply eq_IZR. rewrite mult_IZR, F. field. lra.
Qed.

Definition rnd64 (x : R) : R := round radix2 (fexp 53 1024) (round_mode mode_NE) x.

Lemma fix_fexp e : (FIX_exp (-1076) e <= fexp 53 1024 e - 2)%Z.
Proof. unfold FIX_exp, fexp, emin. lia. Qed.
Lemma ne64 : Exists_NE radix2 (fexp 53 1024).
Proof. apply (exists_NE_FLT radix2 (emin 53 1024) 53). right. lia. Qed.
Lemma dlit_round m k : (Rabs (rnd64 (IZR m / 10 ^ k)) < bpow radix2 1024)%R ->
  B2R (dlit m k) = rnd64 (IZR m / 10 ^ k) /\ is_finite (dlit m k) = true.
Proof.
  intros Hb.
  assert (Hp : (0 < 10 ^ Z.of_nat k)%Z) by (apply Z.pow_pos_nonneg; lia).
  assert (Hx : round radix2 (fexp 53 1024) (round_mode mode_NE)
                 (F2R (Float radix2 (odd_quotient (m * 2 ^ 1076) (10 ^ Z.of_nat k)) (-1076))) = rnd64 (IZR m / 10 ^ k)).
  { rewrite (odd_quotient_spec (m * 2 ^ 1076) (10 ^ Z.of_nat k) Hp).
    unfold rnd64. cbn [round_mode].
    etransitivity; [|apply (@round_N_odd radix2 eq_refl (fexp 53 1024) (FIX_exp (-1076)) (fun x => negb (Z.even x))
                  (fexp_correct 53 1024 prec64) ne64 _ _ fix_fexp)].
    f_equal. unfold round at 1. f_equal. f_equal. f_equal. unfold scaled_mantissa, cexp, FIX_exp.
    rewrite mult_IZR. rewrite (IZR_Zpower radix2) by lia. rewrite <- pow_IZR. cbn [Z.opp]. unfold Rdiv. ring. }
  pose proof (binary_normalize_correct 53 1024 prec64 emax64 mode_NE (odd_quotient (m * 2 ^ 1076) (10 ^ Z.of_nat k)) (-1076) false) as H.
  cbv zeta in H. rewrite Hx in H. rewrite Rlt_bool_true in H by exact Hb. unfold dlit. now destruct H as (H1 & H2 & _).
Qed.

(** ** Order *)
(** The numbers that are neither NaN nor -0. *)
Definition good64 (r : R) : Prop := exists x, r = enc x /\ is_nan x = false /\ x <> B754_zero true.

Lemma lt_irrefl (x : double) : Bltb x x = false.
Proof.
  unfold Bltb, SFltb. destruct x as [s|s| |s m e H]; [reflexivity|now destruct s|reflexivity|].
  cbn [B2SF SFcompare]. destruct s; rewrite Z.compare_refl, Pcompare_refl; reflexivity.
Qed.
Lemma lt_some (x y : double) : Bltb x y = true <-> Bcompare x y = Some Lt.
Proof. unfold Bltb, Bcompare, SFltb. destruct SFcompare as [[]|]; split; congruence. Qed.
Lemma lt_trans64 (x y z : double) : Bltb x y = true -> Bltb y z = true -> Bltb x z = true.
Proof.
  intros H1 H2.
  assert (F : forall a b : double, is_finite a = true -> is_finite b = true -> Bltb a b = true -> (B2R a < B2R b)%R).
  { intros a b Ha Hb H. rewrite Bltb_correct in H by assumption. destruct (Rlt_bool_spec (B2R a) (B2R b)); [assumption|discriminate]. }
  destruct (is_finite x) eqn:Fx, (is_finite y) eqn:Fy, (is_finite z) eqn:Fz.
  1: { rewrite Bltb_correct by assumption. apply Rlt_bool_true. apply Rlt_trans with (B2R y); now apply F. }
  all: clear F; unfold Bltb in *;
    destruct x as [sx|sx| |sx mx ex Hx]; try discriminate;
    destruct y as [sy|sy| |sy my ey Hy]; try discriminate;
    destruct z as [sz|sz| |sz mz ez Hz]; try discriminate;
    repeat match goal with s : bool |- _ => destruct s end; try discriminate; try reflexivity.
Qed.
Lemma lt_total64 (x y : double) : is_nan x = false -> is_nan y = false -> x <> B754_zero true -> y <> B754_zero true ->
  Bltb x y = false -> Bltb y x = false -> x = y.
Proof.
  intros Nx Ny Zx Zy H1 H2.
  destruct (is_finite x) eqn:Fx, (is_finite y) eqn:Fy.
  - rewrite Bltb_correct in H1, H2 by assumption.
    assert (E : B2R x = B2R y).
    { destruct (Rlt_bool_spec (B2R x) (B2R y)); [discriminate|]. destruct (Rlt_bool_spec (B2R y) (B2R x)); [discriminate|].
      now apply Rle_antisym. }
    assert (E0 : forall a b : double, is_finite a = true -> is_finite b = true -> b <> B754_zero true ->
       a = B754_zero false -> B2R a = B2R b -> a = b).
    { intros a b Ha Hb Zb -> Eab. destruct b as [s|s| |s m e H]; try discriminate.
      - destruct s; [now destruct Zb|reflexivity].
      - exfalso. cbn [B2R] in Eab. symmetry in Eab. apply eq_0_F2R in Eab. destruct s; discriminate. }
    destruct x as [sx|sx| |sx mx ex Hx]; try discriminate.
    + destruct sx; [now destruct Zx|]. now apply E0.
    + destruct y as [sy|sy| |sy my ey Hy]; try discriminate.
      * destruct sy; [now destruct Zy|]. symmetry. now apply E0.
      * now apply B2R_inj.
  - destruct y as [sy|sy| |sy my ey Hy]; try discriminate. destruct sy, x as [[]|[]| |[] ? ? ?]; discriminate.
  - destruct x as [sx|sx| |sx mx ex Hx]; try discriminate. destruct sx, y as [[]|[]| |[] ? ? ?]; discriminate.
  - destruct x as [sx|sx| |sx mx ex Hx]; try discriminate. destruct y as [sy|sy| |sy my ey Hy]; try discriminate.
    destruct sx, sy; try reflexivity; discriminate.
Qed.
Lemma b64_ordered dsin dcos dexp : ordered (b64 dsin dcos dexp) good64.
Proof.
  split; cbn [a_lt b64].
  - intros r (x & -> & _). rewrite dec_enc. apply lt_irrefl.
  - intros r1 r2 r3 (x & -> & _) (y & -> & _) (z & -> & _). rewrite !dec_enc. apply lt_trans64.
  - intros r1 r2 (x & -> & Nx & Zx) (y & -> & Ny & Zy). rewrite !dec_enc. intros H1 H2. f_equal. now apply lt_total64.
Qed.
