(** * Change of units by powers of two: instances. *)
From Coq Require Import FunctionalExtensionality Lia Lra.
From Flocq Require Import Core.Core.
From Verif Require Import Base RBase ModelMesh ModelGeom ModelBoundary ModelHydro ModelScheme ModelStep ModelArith SpecBoundary SpecStep SpecBits ProofBits.
Local Open Scope R_scope.

Section Flx.
Variables (prec : Z) (rnd : R -> Z).
Notation rd := (rounded prec rnd).
Context {valid : Valid_rnd rnd}.
Lemma rd_0 : rd 0 = 0. Proof. unfold rounded. apply round_0. exact valid. Qed.
Lemma rd_scale k x : rd (times_power k x) = times_power k (rd x).
Proof.
  destruct (Req_dec x 0) as [->|Hx].
  - unfold times_power. rewrite Rmult_0_r, rd_0. ring.
  - unfold rounded, times_power, round, scaled_mantissa, cexp, FLX_exp. rewrite (Rmult_comm (bpow radix2 k) x), mag_mult_bpow by exact Hx.
    set (m := mag radix2 x : Z). replace (m + k - prec)%Z with ((m - prec) + k)%Z by lia.
    replace (x * bpow radix2 k * bpow radix2 (- (m - prec + k))) with (x * bpow radix2 (- (m - prec))).
    + unfold F2R; cbn [Fnum Fexp]. rewrite bpow_plus. ring.
    + replace (- (m - prec))%Z with (k + (- (m - prec + k)))%Z by lia. rewrite bpow_plus. ring.
Qed.
Notation tp := times_power.
Lemma tp_pos k : 0 < bpow radix2 k. Proof. apply bpow_gt_0. Qed.
Lemma tp_mul j k x y : tp j x * tp k y = tp (j + k) (x * y). Proof. unfold times_power. rewrite bpow_plus. ring. Qed.
Lemma tp_div j k x y : tp j x / tp k y = tp (j - k) (x / y).
Proof.
  unfold times_power, Rdiv. rewrite Rinv_mult. unfold Z.sub. rewrite bpow_plus, bpow_opp. ring.
Qed.
Lemma tp_lt k x y : rltb (tp k x) (tp k y) = rltb x y.
Proof.
  unfold times_power, rltb. pose proof (tp_pos k). destruct (Rlt_dec _ _), (Rlt_dec _ _); try reflexivity.
  - apply Rmult_lt_reg_l in r; [contradiction|assumption].
  - exfalso. apply n. now apply Rmult_lt_compat_l.
Qed.
Lemma tp_min k x y : Rmin (tp k x) (tp k y) = tp k (Rmin x y).
Proof. unfold times_power. pose proof (tp_pos k). apply eq_sym. apply Rmult_min_distr_l. lra. Qed.
Lemma tp_max k x y : Rmax (tp k x) (tp k y) = tp k (Rmax x y).
Proof. unfold times_power. pose proof (tp_pos k). apply RmaxRmult. lra. Qed.
Lemma tp_abs k x : Rabs (tp k x) = tp k (Rabs x).
Proof. unfold times_power. rewrite Rabs_mult, (Rabs_pos_eq (bpow radix2 k)); [reflexivity|]. apply bpow_ge_0. Qed.
Lemma tp_sqrt k x : sqrt (tp (2 * k) x) = tp k (sqrt x).
Proof.
  unfold times_power. replace (2 * k)%Z with (k + k)%Z by lia. rewrite bpow_plus, sqrt_mult_alt by (apply Rmult_le_pos; apply bpow_ge_0).
  rewrite sqrt_square by apply bpow_ge_0. reflexivity.
Qed.
Lemma unbounded_shift fsin fcos fexp : exponent_shift (unbounded prec rnd fsin fcos fexp) times_power.
Proof.
  split; unfold unbounded; cbn [a_add a_sub a_mul a_div a_fmin a_fmax a_abs a_sqrt a_lt a_lit]; intros.
  - unfold times_power. rewrite bpow_0 || cbn. ring.
  - unfold times_power. rewrite bpow_plus. ring.
  - unfold times_power. ring.
  - rewrite <- rd_scale. f_equal. unfold times_power. ring.
  - rewrite <- rd_scale. f_equal. unfold times_power. ring.
  - rewrite <- rd_scale. f_equal. apply tp_mul.
  - rewrite <- rd_scale. f_equal. apply tp_div.
  - apply tp_min.
  - apply tp_max.
  - apply tp_abs.
  - rewrite <- rd_scale. f_equal. apply tp_sqrt.
  - apply tp_lt.
  - replace (0 / 10 ^ 0) with 0 by (cbn; field). rewrite rd_0. unfold times_power. ring.
Qed.
End Flx.

Lemma perfect_gas_shifted A sc (HA : exponent_shift A sc) w gamma mmw : shifted_gas sc w (apg_eos A gamma mmw).
Proof.
  intros rho x. unfold apg_eos; cbn [eos_evol eos_pres eos_sound].
  unfold apg_evol_from_temp, apg_pres_from_temp, apg_temp_from_pres, apg_temp_from_evol.
  repeat split; repeat (first [rewrite (s_comp A sc HA)|rewrite (s_mull A sc HA)|rewrite (s_mulr A sc HA)|rewrite (s_divl A sc HA)|rewrite (s_divr A sc HA)]).
  - f_equal. unfold w_E. lia.
  - f_equal. unfold w_E. lia.
  - apply (s_sqrt A sc HA). unfold w_E. lia.
Qed.
