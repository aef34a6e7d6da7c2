(** * Zeros of binary64, and evaluation of closed expressions on codes. *)
From Coq Require Import ZArith Reals List Bool Lia Lra.
From Flocq Require Import Core.Core IEEE754.BinarySingleNaN.
From Coq Require Import Floats.SpecFloat.
From Verif Require Import ModelFloat ModelArith ModelArith64 SpecArith ProofArith64.

Definition finite64 (r : R) : Prop := exists x, r = enc x /\ is_finite x = true.
Definition plain64 (r : R) : Prop := exists x, r = enc x /\ x <> B754_zero true.

Lemma dlit_zero : dlit 0 0 = B754_zero false.
Proof. vm_compute. reflexivity. Qed.

Lemma dminus_self x : is_finite x = true -> dminus x x = B754_zero false.
Proof.
  intros Hx. unfold dminus. pose proof (Bminus_correct 53 1024 prec64 emax64 mode_NE x x Hx Hx) as H.
  rewrite Rminus_eq_0, round_0, Rabs_R0 in H by apply valid_rnd_N. rewrite Rlt_bool_true in H by apply bpow_gt_0.
  destruct H as (H1 & H2 & H3). rewrite Rcompare_Eq in H3 by reflexivity. rewrite andb_negb_r in H3.
  destruct (Bminus mode_NE x x) as [s|s| |s m e Hb]; try discriminate.
  - cbn [Bsign] in H3. now subst s.
  - exfalso. cbn [B2R] in H1. apply eq_0_F2R in H1. destruct s; discriminate.
Qed.
Lemma dmult_zero x s : is_finite x = true -> exists s', dmult x (B754_zero s) = B754_zero s'.
Proof. intros H. destruct x; try discriminate; eexists; reflexivity. Qed.
Lemma zero_dmult x s : is_finite x = true -> exists s', dmult (B754_zero s) x = B754_zero s'.
Proof. intros H. destruct x; try discriminate; eexists; reflexivity. Qed.
Lemma dplus_zero x s : x <> B754_zero true -> dplus x (B754_zero s) = x.
Proof. intros H. destruct x as [[]|[]| |]; try reflexivity; [now destruct H|]. destruct s; reflexivity. Qed.
Lemma dminus_zero x s : x <> B754_zero true -> dminus x (B754_zero s) = x.
Proof. intros H. destruct x as [[]|[]| |]; try reflexivity; [now destruct H|]. destruct s; reflexivity. Qed.
Lemma zero_slopes a b : Bltb (B754_zero false) (dmult (ddiv (B754_zero false) a) (ddiv (B754_zero false) b)) = false.
Proof. destruct a, b; reflexivity. Qed.

Section B64.
Variables dsin dcos dexp : double -> double.
Notation A := (b64 dsin dcos dexp).

Lemma zero_negligible s : negligible A plain64 (enc (B754_zero s)).
Proof.
  intros r (x & -> & Hx). cbn [a_add a_sub b64]. unfold op2. rewrite !dec_enc. split; f_equal.
  - now apply dplus_zero.
  - now apply dminus_zero.
Qed.
Lemma b64_cancelling : cancelling A finite64 plain64.
Proof.
  split.
  - intros r (x & -> & Hx). cbn [a_sub a_lit b64]. unfold op2. rewrite dec_enc, dlit_zero, dminus_self by assumption. reflexivity.
  - intros r (x & -> & Hx). cbn [a_mul a_lit b64]. unfold op2. rewrite !dec_enc, dlit_zero.
    destruct (dmult_zero x false Hx) as (s & ->). apply zero_negligible.
  - intros r1 r2 (x & -> & Hx) (y & -> & Hy). cbn [a_mul a_lit b64]. unfold op2. rewrite !dec_enc, dlit_zero.
    destruct (dmult_zero x false Hx) as (s & ->). destruct (zero_dmult y s Hy) as (s' & ->). apply zero_negligible.
  - intros a b. cbn [a_lt a_mul a_div a_lit b64]. unfold op2. rewrite !dec_enc, dlit_zero. apply zero_slopes.
Qed.

(** *** Evaluation *)
Definition z1 (f : double -> double) (a : Z) : Z := code (f (decode a)).
Definition z2 (f : double -> double -> double) (a b : Z) : Z := code (f (decode a) (decode b)).
Lemma dec_IZR z : dec (IZR z) = decode z.
Proof. unfold dec. now rewrite Zfloor_IZR. Qed.
Lemma e_add a b : a_add A (IZR a) (IZR b) = IZR (z2 dplus a b).
Proof. cbn [a_add b64]. unfold op2, enc, z2. now rewrite !dec_IZR. Qed.
Lemma e_sub a b : a_sub A (IZR a) (IZR b) = IZR (z2 dminus a b).
Proof. cbn [a_sub b64]. unfold op2, enc, z2. now rewrite !dec_IZR. Qed.
Lemma e_mul a b : a_mul A (IZR a) (IZR b) = IZR (z2 dmult a b).
Proof. cbn [a_mul b64]. unfold op2, enc, z2. now rewrite !dec_IZR. Qed.
Lemma e_div a b : a_div A (IZR a) (IZR b) = IZR (z2 ddiv a b).
Proof. cbn [a_div b64]. unfold op2, enc, z2. now rewrite !dec_IZR. Qed.
Lemma e_fmin a b : a_fmin A (IZR a) (IZR b) = IZR (z2 dfmin a b).
Proof. cbn [a_fmin b64]. unfold op2, enc, z2. now rewrite !dec_IZR. Qed.
Lemma e_fmax a b : a_fmax A (IZR a) (IZR b) = IZR (z2 dfmax a b).
Proof. cbn [a_fmax b64]. unfold op2, enc, z2. now rewrite !dec_IZR. Qed.
Lemma e_abs a : a_abs A (IZR a) = IZR (z1 dabs a).
Proof. cbn [a_abs b64]. unfold op1, enc, z1. now rewrite !dec_IZR. Qed.
Lemma e_sqrt a : a_sqrt A (IZR a) = IZR (z1 dsqrt a).
Proof. cbn [a_sqrt b64]. unfold op1, enc, z1. now rewrite !dec_IZR. Qed.
Lemma e_lit m k : a_lit A m k = IZR (code (dlit m k)).
Proof. reflexivity. Qed.
Lemma e_lt a b : a_lt A (IZR a) (IZR b) = Bltb (decode a) (decode b).
Proof. cbn [a_lt b64]. now rewrite !dec_IZR. Qed.
Lemma finite_code z : is_finite (decode z) = true -> code (decode z) = z -> finite64 (IZR z).
Proof. intros H E. exists (decode z). unfold enc. now rewrite E. Qed.
Lemma plain_code z : code (decode z) = z -> z <> (-1)%Z -> plain64 (IZR z).
Proof.
  intros E H. exists (decode z). unfold enc. rewrite E. split; [reflexivity|]. intros F. apply H. now rewrite <- E, F.
Qed.
Lemma good_code z : is_nan (decode z) = false -> code (decode z) = z -> z <> (-1)%Z -> good64 (IZR z).
Proof.
  intros Hn E H. exists (decode z). unfold enc. rewrite E. split; [reflexivity|]. split; [exact Hn|].
  intros F. apply H. now rewrite <- E, F.
Qed.
End B64.

(** Replace every closed application of an operation by its value. *)
Ltac norm_z t := let v := eval vm_compute in t in change t with v.
Ltac num_step :=
  match goal with
  | |- context [a_lit (b64 ?s ?c ?e) ?m ?k] => is_ground m; is_ground k; rewrite (e_lit s c e m k); norm_z (code (dlit m k))
  | |- context [a_add (b64 ?s ?c ?e) (IZR ?a) (IZR ?b)] => rewrite (e_add s c e a b); norm_z (z2 dplus a b)
  | |- context [a_sub (b64 ?s ?c ?e) (IZR ?a) (IZR ?b)] => rewrite (e_sub s c e a b); norm_z (z2 dminus a b)
  | |- context [a_mul (b64 ?s ?c ?e) (IZR ?a) (IZR ?b)] => rewrite (e_mul s c e a b); norm_z (z2 dmult a b)
  | |- context [a_div (b64 ?s ?c ?e) (IZR ?a) (IZR ?b)] => rewrite (e_div s c e a b); norm_z (z2 ddiv a b)
  | |- context [a_fmin (b64 ?s ?c ?e) (IZR ?a) (IZR ?b)] => rewrite (e_fmin s c e a b); norm_z (z2 dfmin a b)
  | |- context [a_fmax (b64 ?s ?c ?e) (IZR ?a) (IZR ?b)] => rewrite (e_fmax s c e a b); norm_z (z2 dfmax a b)
  | |- context [a_abs (b64 ?s ?c ?e) (IZR ?a)] => rewrite (e_abs s c e a); norm_z (z1 dabs a)
  | |- context [a_sqrt (b64 ?s ?c ?e) (IZR ?a)] => rewrite (e_sqrt s c e a); norm_z (z1 dsqrt a)
  | |- context [a_lt (b64 ?s ?c ?e) (IZR ?a) (IZR ?b)] => rewrite (e_lt s c e a b); norm_z (Bltb (decode a) (decode b))
  end.
Ltac num := repeat (num_step; cbv beta iota).
