(** * binary64 is sign-symmetric (C97). *)
From Coq Require Import ZArith Reals List Bool Lia Lra.
From Flocq Require Import Core.Core IEEE754.BinarySingleNaN.
From Coq Require Import Floats.SpecFloat.
From Verif Require Import ModelHydro ModelFloat ModelArith ModelArith64 SpecArith SpecMirror ProofArith64 ProofArithNum.

Lemma zeq_refl x : zeq x x.
Proof. now left. Qed.
Lemma zeq_sym x y : zeq x y -> zeq y x.
Proof. intros [->|(s & s' & -> & ->)]; [now left|right; eauto]. Qed.
Lemma zeq_trans x y z : zeq x y -> zeq y z -> zeq x z.
Proof.
  intros [->|(s & s' & -> & ->)] H; [exact H|]. destruct H as [<-|(t & t' & E & ->)]; right; eauto.
Qed.
Lemma zeq_finite x y : is_finite x = true -> is_finite y = true -> B2R x = B2R y -> zeq x y.
Proof.
  intros Fx Fy E. destruct x as [sx|sx| |sx mx ex Hx], y as [sy|sy| |sy my ey Hy]; try discriminate; [right; eauto| | |].
  - exfalso. cbn [B2R] in E. symmetry in E. apply eq_0_F2R in E. destruct sy; discriminate.
  - exfalso. cbn [B2R] in E. apply eq_0_F2R in E. destruct sx; discriminate.
  - left. now apply B2R_inj.
Qed.

Lemma rnd_opp x : rnd64 (- x) = (- rnd64 x)%R.
Proof. unfold rnd64. apply round_NE_opp. Qed.
Lemma overflow_NE s : binary_overflow 53 1024 mode_NE s = S754_infinity s.
Proof. reflexivity. Qed.

(** Addition *)
Lemma plus_cases x y : is_finite x = true -> is_finite y = true ->
  (is_finite (dplus x y) = true /\ B2R (dplus x y) = rnd64 (B2R x + B2R y) /\ (Rabs (rnd64 (B2R x + B2R y)) < bpow radix2 1024)%R) \/
  (dplus x y = B754_infinity (Bsign x) /\ Bsign x = Bsign y /\ ~ (Rabs (rnd64 (B2R x + B2R y)) < bpow radix2 1024)%R).
Proof.
  intros Fx Fy. pose proof (Bplus_correct 53 1024 prec64 emax64 mode_NE x y Fx Fy) as H.
  destruct (Rlt_bool_spec (Rabs (round radix2 (SpecFloat.fexp 53 1024) (round_mode mode_NE) (B2R x + B2R y))) (bpow radix2 1024)) as [L|L].
  - left. destruct H as (H1 & H2 & _). split; [exact H2|]. split; [exact H1|exact L].
  - right. destruct H as (H1 & H2). split; [|split; [exact H2|apply Rle_not_lt; exact L]]. apply B2SF_inj. exact H1.
Qed.
Lemma dplus_comm x y : zeq (dplus x y) (dplus y x).
Proof.
  destruct (is_finite x) eqn:Fx; [destruct (is_finite y) eqn:Fy|].
  - destruct (plus_cases x y Fx Fy) as [(F1 & B1 & L1)|(E1 & S1 & L1)], (plus_cases y x Fy Fx) as [(F2 & B2 & L2)|(E2 & S2 & L2)];
      rewrite (Rplus_comm (B2R y)) in *; try contradiction.
    + apply zeq_finite; congruence.
    + left. congruence.
  - destruct x as [[]|[]| |[] ? ? ?], y as [[]|[]| |[] ? ? ?]; try discriminate; left; reflexivity.
  - destruct x as [[]|[]| |[] ? ? ?], y as [[]|[]| |[] ? ? ?]; try discriminate; left; reflexivity.
Qed.
Lemma dplus_opp x y : zeq (dplus (dopp x) (dopp y)) (dopp (dplus x y)).
Proof.
  destruct (is_finite x) eqn:Fx; [destruct (is_finite y) eqn:Fy|].
  - assert (Fx' : is_finite (dopp x) = true) by (unfold dopp; now rewrite is_finite_Bopp).
    assert (Fy' : is_finite (dopp y) = true) by (unfold dopp; now rewrite is_finite_Bopp).
    assert (E : (B2R (dopp x) + B2R (dopp y) = - (B2R x + B2R y))%R) by (unfold dopp; rewrite !B2R_Bopp; ring).
    destruct (plus_cases x y Fx Fy) as [(F1 & B1 & L1)|(E1 & S1 & L1)],
      (plus_cases (dopp x) (dopp y) Fx' Fy') as [(F2 & B2 & L2)|(E2 & S2 & L2)];
      rewrite E, rnd_opp, ?Rabs_Ropp in *; try contradiction.
    + apply zeq_finite; [assumption|unfold dopp; now rewrite is_finite_Bopp|]. unfold dopp at 3. now rewrite B2R_Bopp, B1.
    + left. rewrite E1, E2. unfold dopp. rewrite Bsign_Bopp by now destruct x. reflexivity.
  - destruct x as [[]|[]| |[] ? ? ?], y as [[]|[]| |[] ? ? ?]; try discriminate; left; reflexivity.
  - destruct x as [[]|[]| |[] ? ? ?], y as [[]|[]| |[] ? ? ?]; try discriminate; left; reflexivity.
Qed.
Lemma dminus_plus x y : dminus x y = dplus x (dopp y).
Proof. destruct x as [[]|[]| |[] ? ? ?], y as [[]|[]| |[] ? ? ?]; reflexivity. Qed.
Lemma dplus_zeros s s' y : zeq (dplus (B754_zero s) y) (dplus (B754_zero s') y).
Proof. destruct y as [t|t| |t m e H]; try (left; reflexivity). destruct s, s', t; cbn; right; eauto. Qed.
Lemma dplus_zeq x x' y y' : zeq x x' -> zeq y y' -> zeq (dplus x y) (dplus x' y').
Proof.
  intros Hx Hy. apply zeq_trans with (dplus x' y).
  - destruct Hx as [->|(s & s' & -> & ->)]; [apply zeq_refl|apply dplus_zeros].
  - eapply zeq_trans; [apply dplus_comm|]. eapply zeq_trans; [|apply dplus_comm].
    destruct Hy as [->|(s & s' & -> & ->)]; [apply zeq_refl|apply dplus_zeros].
Qed.

(** Multiplication and division *)
Lemma dmult_comm x y : zeq (dmult x y) (dmult y x).
Proof.
  pose proof (Bmult_correct 53 1024 prec64 emax64 mode_NE x y) as H1. pose proof (Bmult_correct 53 1024 prec64 emax64 mode_NE y x) as H2.
  destruct (is_finite x && is_finite y) eqn:F.
  - rewrite (Rmult_comm (B2R y)) in H2. rewrite (andb_comm (is_finite y)), ?F in H2. rewrite ?F in H1.
    destruct (Rlt_bool _ _).
    + apply zeq_finite; [apply H1|apply H2|]. unfold dmult. now rewrite (proj1 H1), (proj1 H2).
    + left. apply B2SF_inj. unfold dmult. rewrite H1, H2. now rewrite xorb_comm.
  - destruct x as [[]|[]| |[] ? ? ?], y as [[]|[]| |[] ? ? ?]; try discriminate; left; reflexivity.
Qed.
Lemma dmult_opp x y : zeq (dmult (dopp x) y) (dopp (dmult x y)).
Proof.
  pose proof (Bmult_correct 53 1024 prec64 emax64 mode_NE x y) as H1. pose proof (Bmult_correct 53 1024 prec64 emax64 mode_NE (dopp x) y) as H2.
  destruct (is_finite x && is_finite y) eqn:F.
  - unfold dopp in H2. rewrite B2R_Bopp, <- Ropp_mult_distr_l, is_finite_Bopp, ?F in H2. rewrite ?F in H1.
    change (round radix2 (SpecFloat.fexp 53 1024) (round_mode mode_NE)) with rnd64 in *. rewrite rnd_opp, Rabs_Ropp in H2.
    destruct (Rlt_bool _ _).
    + apply zeq_finite; [apply H2|unfold dopp; rewrite is_finite_Bopp; apply H1|]. unfold dmult, dopp.
      now rewrite B2R_Bopp, (proj1 H1), (proj1 H2).
    + left. unfold dmult, dopp. apply B2SF_inj. rewrite H2. replace (Bmult mode_NE x y) with (@B754_infinity 53 1024 (xorb (Bsign x) (Bsign y))) by (apply B2SF_inj; symmetry; exact H1).
      rewrite Bsign_Bopp by now destruct x. now destruct (Bsign x), (Bsign y).
  - destruct x as [[]|[]| |[] ? ? ?], y as [[]|[]| |[] ? ? ?]; try discriminate; left; reflexivity.
Qed.
Lemma dmult_zeq x x' y y' : zeq x x' -> zeq y y' -> zeq (dmult x y) (dmult x' y').
Proof.
  assert (Z : forall s s' y, zeq (dmult (B754_zero s) y) (dmult (B754_zero s') y)).
  { intros s s' z. destruct z as [t|t| |t m e H]; try (left; reflexivity); right; eexists _, _; split; reflexivity. }
  intros Hx Hy. apply zeq_trans with (dmult x' y).
  - destruct Hx as [->|(s & s' & -> & ->)]; [apply zeq_refl|apply Z].
  - eapply zeq_trans; [apply dmult_comm|]. eapply zeq_trans; [|apply dmult_comm].
    destruct Hy as [->|(s & s' & -> & ->)]; [apply zeq_refl|apply Z].
Qed.
Lemma ddiv_zeq x x' y : zeq x x' -> zeq (ddiv x y) (ddiv x' y).
Proof.
  intros [->|(s & s' & -> & ->)]; [apply zeq_refl|].
  destruct y as [t|t| |t m e H]; try (left; reflexivity); right; eexists _, _; split; reflexivity.
Qed.
Lemma ddiv_opp x y : zeq (ddiv (dopp x) y) (dopp (ddiv x y)).
Proof.
  destruct (is_finite_strict x && is_finite_strict y) eqn:F.
  - apply andb_prop in F. destruct F as [Fx Fy].
    assert (Ny : B2R y <> 0%R) by (destruct y as [| | |s m e Hb]; try discriminate; intros E; cbn [B2R] in E; apply eq_0_F2R in E; destruct s; discriminate).
    pose proof (Bdiv_correct 53 1024 prec64 emax64 mode_NE x y Ny) as H1. pose proof (Bdiv_correct 53 1024 prec64 emax64 mode_NE (dopp x) y Ny) as H2.
    assert (F : is_finite x = true) by now destruct x.
    unfold dopp in H2. rewrite B2R_Bopp, Ropp_div, is_finite_Bopp, ?F in H2. rewrite ?F in H1.
    change (round radix2 (SpecFloat.fexp 53 1024) (round_mode mode_NE)) with rnd64 in *. rewrite rnd_opp, Rabs_Ropp in H2.
    destruct (Rlt_bool _ _).
    + apply zeq_finite; [apply H2|unfold dopp; rewrite is_finite_Bopp; apply H1|]. unfold ddiv, dopp.
      now rewrite B2R_Bopp, (proj1 H1), (proj1 H2).
    + left. unfold ddiv, dopp. apply B2SF_inj. rewrite H2. replace (Bdiv mode_NE x y) with (@B754_infinity 53 1024 (xorb (Bsign x) (Bsign y))) by (apply B2SF_inj; symmetry; exact H1).
      rewrite Bsign_Bopp by now destruct x. now destruct (Bsign x), (Bsign y).
  - destruct x as [[]|[]| |[] ? ? ?], y as [[]|[]| |[] ? ? ?]; try discriminate; left; reflexivity.
Qed.

(** Comparison *)
Lemma lt_zeq x x' y y' : zeq x x' -> zeq y y' -> Bltb x y = Bltb x' y'.
Proof.
  intros [->|(s & s' & -> & ->)] [->|(t & t' & -> & ->)]; reflexivity.
Qed.
Lemma lt_opp x y : Bltb (dopp x) (dopp y) = Bltb y x.
Proof.
  destruct x as [sx|[]| |[] mx ex Hx], y as [sy|[]| |[] my ey Hy]; try reflexivity; unfold Bltb, SFltb; cbn [B2SF dopp Bopp negb SFcompare].
  all: rewrite (Z.compare_antisym ey ex); destruct (ey ?= ex)%Z; cbn [CompOpp]; try reflexivity.
  all: pose proof (Pos.compare_cont_antisym my mx Eq) as E; cbn [CompOpp] in E; rewrite <- E; destruct (Pos.compare_cont Eq my mx); reflexivity.
Qed.

Lemma nan_lt (x y : double) : is_nan x = true -> Bltb x y = false /\ Bltb y x = false.
Proof. destruct x; try discriminate. intros _. split; [|destruct y as [|[]| |[]]]; reflexivity. Qed.
Lemma lt_asym (x y : double) : Bltb x y = true -> Bltb y x = false.
Proof.
  intros H. destruct (Bltb y x) eqn:E; [|reflexivity]. pose proof (lt_trans64 _ _ _ H E) as T. now rewrite lt_irrefl in T.
Qed.
(** Two numbers neither of which is smaller differ by the sign of zero, unless one is NaN. *)
Lemma lt_tie (x y : double) : is_nan x = false -> is_nan y = false -> Bltb x y = false -> Bltb y x = false -> zeq x y.
Proof.
  intros Nx Ny H1 H2.
  set (cx := match x with B754_zero _ => B754_zero false | z => z end). set (cy := match y with B754_zero _ => B754_zero false | z => z end).
  assert (Zx : zeq x cx) by (destruct x; first [left; reflexivity|right; eexists _, _; split; reflexivity]).
  assert (Zy : zeq y cy) by (destruct y; first [left; reflexivity|right; eexists _, _; split; reflexivity]).
  assert (E : cx = cy).
  { apply lt_total64.
    - now destruct x.
    - now destruct y.
    - destruct x; discriminate.
    - destruct y; discriminate.
    - now rewrite (lt_zeq _ _ _ _ Zx Zy) in H1.
    - now rewrite (lt_zeq _ _ _ _ Zy Zx) in H2. }
  apply (zeq_trans _ _ _ Zx). rewrite E. now apply zeq_sym.
Qed.

(** Extrema *)
Lemma zeq_nan (x y : double) : zeq x y -> is_nan x = is_nan y.
Proof. intros [->|(s & s' & -> & ->)]; reflexivity. Qed.
Lemma dfmin_zeq x x' y y' : zeq x x' -> zeq y y' -> zeq (dfmin x y) (dfmin x' y').
Proof.
  intros Hx Hy. unfold dfmin. rewrite (zeq_nan _ _ Hx), (lt_zeq _ _ _ _ Hy Hx). destruct (is_nan x'); [assumption|]. now destruct (Bltb y' x').
Qed.
Lemma dfmax_zeq x x' y y' : zeq x x' -> zeq y y' -> zeq (dfmax x y) (dfmax x' y').
Proof.
  intros Hx Hy. unfold dfmax. rewrite (zeq_nan _ _ Hx), (lt_zeq _ _ _ _ Hx Hy). destruct (is_nan x'); [assumption|]. now destruct (Bltb x' y').
Qed.
Lemma dfmin_comm x y : zeq (dfmin x y) (dfmin y x).
Proof.
  unfold dfmin. destruct (is_nan x) eqn:Nx.
  - destruct (is_nan y) eqn:Ny; [destruct x, y; try discriminate; apply zeq_refl|]. rewrite (proj1 (nan_lt x y Nx)). apply zeq_refl.
  - destruct (is_nan y) eqn:Ny; [rewrite (proj1 (nan_lt y x Ny)); apply zeq_refl|].
    destruct (Bltb y x) eqn:E1; [rewrite (lt_asym _ _ E1); apply zeq_refl|].
    destruct (Bltb x y) eqn:E2; [apply zeq_refl|]. now apply lt_tie.
Qed.
Lemma dfmax_comm x y : zeq (dfmax x y) (dfmax y x).
Proof.
  unfold dfmax. destruct (is_nan x) eqn:Nx.
  - destruct (is_nan y) eqn:Ny; [destruct x, y; try discriminate; apply zeq_refl|]. rewrite (proj2 (nan_lt x y Nx)). apply zeq_refl.
  - destruct (is_nan y) eqn:Ny; [rewrite (proj2 (nan_lt y x Ny)); apply zeq_refl|].
    destruct (Bltb x y) eqn:E1; [rewrite (lt_asym _ _ E1); apply zeq_refl|].
    destruct (Bltb y x) eqn:E2; [apply zeq_refl|]. now apply lt_tie.
Qed.
Lemma dfmin_opp x y : dfmin (dopp x) (dopp y) = dopp (dfmax x y).
Proof.
  unfold dfmin, dfmax. rewrite lt_opp. replace (is_nan (dopp x)) with (is_nan x) by now destruct x.
  destruct (is_nan x); [reflexivity|]. now destruct (Bltb x y).
Qed.
Lemma flat_mult (u x y : double) : is_finite x = true -> is_finite y = true -> Bltb (B754_zero false) u = false -> Bltb u (B754_zero false) = false ->
  zeq (dmult u x) (dmult u y).
Proof.
  intros Fx Fy H1 H2. destruct (is_nan u) eqn:N; [destruct u; try discriminate; now left|].
  assert (Z : zeq u (B754_zero false)) by now apply lt_tie.
  eapply zeq_trans; [apply dmult_zeq; [exact Z|apply zeq_refl]|]. eapply zeq_trans; [|apply zeq_sym, dmult_zeq; [exact Z|apply zeq_refl]].
  destruct (zero_dmult x false Fx) as [s ->]. destruct (zero_dmult y false Fy) as [s' ->]. right; eauto.
Qed.

Section B64.
Variables dsin dcos dexp : double -> double.
Notation A := (b64 dsin dcos dexp).

Lemma same_enc a b : zeq a b -> same64 (enc a) (enc b).
Proof. intros H. now exists a, b. Qed.
Lemma b64_sign_symmetric : sign_symmetric A same64 nonzero64 finite64.
Proof.
  constructor.
  - intros x y (a & b & -> & -> & H). apply same_enc. now apply zeq_sym.
  - intros x y z (a & b & -> & -> & H) (b' & c & E & -> & H'). apply enc_inj in E. subst b'. apply same_enc. now apply zeq_trans with b.
  - intros x y (a & b & -> & -> & [->|(s & s' & -> & ->)]) N; [reflexivity|]. now elim (N s).
  - intros x y (a & b & -> & -> & H). rewrite <- !enc_opp. apply same_enc.
    destruct H as [->|(s & s' & -> & ->)]; [apply zeq_refl|right; eexists _, _; split; reflexivity].
  - intros x x' y y' (a & b & -> & -> & H) (c & d & -> & -> & H'). cbn [a_add b64]. unfold op2. rewrite !dec_enc. apply same_enc. now apply dplus_zeq.
  - intros x y (a & _ & -> & _ & _) (b & _ & -> & _ & _). cbn [a_add b64]. unfold op2. rewrite !dec_enc. apply same_enc, dplus_comm.
  - intros x y (a & _ & -> & _ & _) (b & _ & -> & _ & _). cbn [a_add b64]. unfold op2. rewrite <- !enc_opp, !dec_enc. apply same_enc, dplus_opp.
  - intros x y (a & _ & -> & _ & _) (b & _ & -> & _ & _). cbn [a_add a_sub b64]. unfold op2. rewrite <- !enc_opp, !dec_enc, dminus_plus. apply same_enc, zeq_refl.
  - intros x x' y y' (a & b & -> & -> & H) (c & d & -> & -> & H'). cbn [a_mul b64]. unfold op2. rewrite !dec_enc. apply same_enc. now apply dmult_zeq.
  - intros x y (a & _ & -> & _ & _) (b & _ & -> & _ & _). cbn [a_mul b64]. unfold op2. rewrite !dec_enc. apply same_enc, dmult_comm.
  - intros x y (a & _ & -> & _ & _) (b & _ & -> & _ & _). cbn [a_mul b64]. unfold op2. rewrite <- !enc_opp, !dec_enc. apply same_enc, dmult_opp.
  - intros x x' y (a & b & -> & -> & H) (c & _ & -> & _ & _). cbn [a_div b64]. unfold op2. rewrite !dec_enc. apply same_enc. now apply ddiv_zeq.
  - intros x y (a & _ & -> & _ & _) (b & _ & -> & _ & _). cbn [a_div b64]. unfold op2. rewrite <- !enc_opp, !dec_enc. apply same_enc, ddiv_opp.
  - intros x x' y y' (a & b & -> & -> & H) (c & d & -> & -> & H'). cbn [a_fmin b64]. unfold op2. rewrite !dec_enc. apply same_enc. now apply dfmin_zeq.
  - intros x x' y y' (a & b & -> & -> & H) (c & d & -> & -> & H'). cbn [a_fmax b64]. unfold op2. rewrite !dec_enc. apply same_enc. now apply dfmax_zeq.
  - intros x y (a & _ & -> & _ & _) (b & _ & -> & _ & _). cbn [a_fmin b64]. unfold op2. rewrite !dec_enc. apply same_enc, dfmin_comm.
  - intros x y (a & _ & -> & _ & _) (b & _ & -> & _ & _). cbn [a_fmax b64]. unfold op2. rewrite !dec_enc. apply same_enc, dfmax_comm.
  - intros x y (a & _ & -> & _ & _) (b & _ & -> & _ & _). cbn [a_fmin a_fmax b64]. unfold op2. rewrite <- !enc_opp, !dec_enc, dfmin_opp, enc_opp.
    rewrite <- enc_opp. apply same_enc, zeq_refl.
  - intros x x' (a & b & -> & -> & H). cbn [a_abs b64]. unfold op1. rewrite !dec_enc. apply same_enc.
    destruct H as [->|(s & s' & -> & ->)]; [apply zeq_refl|now left].
  - intros x (a & _ & -> & _ & _). cbn [a_abs b64]. unfold op1. rewrite <- !enc_opp, !dec_enc. apply same_enc. left. now destruct a.
  - intros x x' (a & b & -> & -> & H). cbn [a_sqrt b64]. unfold op1. rewrite !dec_enc. apply same_enc.
    destruct H as [->|(s & s' & -> & ->)]; [apply zeq_refl|right; eexists _, _; split; reflexivity].
  - intros x x' y y' (a & b & -> & -> & H) (c & d & -> & -> & H'). cbn [a_lt b64]. rewrite !dec_enc. now apply lt_zeq.
  - intros x y (a & _ & -> & _ & _) (b & _ & -> & _ & _). cbn [a_lt b64]. rewrite <- !enc_opp, !dec_enc. apply lt_opp.
  - intros x y (a & _ & -> & _ & _) (b & _ & -> & _ & _). cbn [a_lt b64]. rewrite !dec_enc. apply lt_asym.
  - intros z k. apply same_enc, zeq_refl.
  - cbn [a_lit b64]. rewrite dlit_zero, <- enc_opp. apply same_enc. right. eexists _, _. split; reflexivity.
  - intros s E. apply enc_inj in E. assert (F : is_finite_strict (dlit 2 0) = true) by (vm_compute; reflexivity). rewrite E in F. discriminate.
  - intros u x y (a & _ & -> & _ & _) _ _ (b & -> & Fx) (c & -> & Fy). cbn [a_lit a_lt a_mul b64]. unfold op2. rewrite !dec_enc, dlit_zero.
    intros H1 H2. apply same_enc. now apply flat_mult.
Qed.

End B64.
