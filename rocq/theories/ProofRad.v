(** * Proofs about the radiative gas. *)
From Coq Require Import Reals Lra Lia.
From Coquelicot Require Import Coquelicot.
From Verif Require Import Base RBase ModelHydro ModelRad SpecRad.
Local Open Scope R_scope.

Lemma rleb_true a b : rleb a b = true <-> a <= b.
Proof. unfold rleb. destruct (Rle_dec a b); split; congruence || tauto. Qed.
Lemma rleb_false a b : rleb a b = false <-> b < a.
Proof. unfold rleb. destruct (Rle_dec a b); split; try congruence; lra. Qed.

(** Powers of 3/4. *)
Lemma pow34 n : (3 / 4) ^ n = IZR (3 ^ Z.of_nat n) * / IZR (4 ^ Z.of_nat n).
Proof. unfold Rdiv. now rewrite Rpow_mult_distr, pow_inv, !pow_IZR. Qed.
Lemma pow34_le n k : (3 ^ Z.of_nat n * k * 2 <= 4 ^ Z.of_nat n)%Z -> (3 / 4) ^ n * IZR k <= 1 / 2.
Proof.
  intros H. rewrite pow34. assert (Q : (0 < 4 ^ Z.of_nat n)%Z) by (apply Z.pow_pos_nonneg; lia).
  revert H Q. generalize (3 ^ Z.of_nat n)%Z (4 ^ Z.of_nat n)%Z. intros p q H Q. apply IZR_le in H. apply IZR_lt in Q. rewrite !mult_IZR in H.
  apply Rmult_le_reg_r with (IZR q); [exact Q|]. replace (IZR p * / IZR q * IZR k * IZR q) with (IZR p * IZR k) by (field; lra). lra.
Qed.
Lemma pow34_ge n k m : (m * 4 ^ Z.of_nat n <= 3 ^ Z.of_nat n * k)%Z -> IZR m <= (3 / 4) ^ n * IZR k.
Proof.
  intros H. rewrite pow34. assert (Q : (0 < 4 ^ Z.of_nat n)%Z) by (apply Z.pow_pos_nonneg; lia).
  revert H Q. generalize (3 ^ Z.of_nat n)%Z (4 ^ Z.of_nat n)%Z. intros p q H Q. apply IZR_le in H. apply IZR_lt in Q. rewrite !mult_IZR in H.
  apply Rmult_le_reg_r with (IZR q); [exact Q|]. replace (IZR p * / IZR q * IZR k * IZR q) with (IZR p * IZR k) by (field; lra). lra.
Qed.

(** ** The quartic [A T^4 + C T = E] *)
Section Quartic.
  Variables A C E : R.
  Hypothesis HA : 0 < A.
  Hypothesis HC : 0 < C.
  Hypothesis HE : 0 < E.

  Definition val (T : R) : R := A * T ^ 4 + C * T.
  Definition slope (T : R) : R := 4 * A * T ^ 3 + C.
  Definition nstep (T : R) : R := T - (val T - E) / slope T.

  Lemma slope_pos T : 0 <= T -> 0 < slope T.
  Proof. intros H. unfold slope. pose proof (pow_le T 3 H). nra. Qed.
  Lemma val_mono a b : 0 <= a -> a < b -> val a < val b.
  Proof.
    intros Ha Hab. unfold val. assert (a ^ 4 <= b ^ 4) by (apply pow_incr; lra). nra.
  Qed.
  Lemma root_exists : exists Ts, 0 < Ts /\ val Ts = E.
  Proof.
    assert (Hc : continuity (fun T => val T - E)) by (unfold val; reg).
    assert (HT : 0 < E / C) by (apply Rdiv_lt_0_compat; assumption).
    destruct (IVT_cor (fun T => val T - E) 0 (E / C) Hc) as (z & Hz & Hv); [lra| |].
    - replace (val 0 - E) with (- E) by (unfold val; ring).
      assert (0 <= val (E / C) - E); [|nra]. unfold val. replace (C * (E / C)) with E by (field; lra).
      pose proof (pow_lt (E / C) 4 HT). nra.
    - exists z. split; [|lra]. destruct Hz as [Hz _]. destruct (Req_dec z 0) as [->|]; [|lra]. exfalso. unfold val in Hv. nra.
  Qed.

  Variable Ts : R.
  Hypothesis Hs : 0 < Ts.
  Hypothesis Hroot : val Ts = E.

  Lemma root_unique T : 0 <= T -> val T = E -> T = Ts.
  Proof.
    intros HT H. destruct (Rtotal_order T Ts) as [L|[L|L]]; [|exact L|].
    - pose proof (val_mono T Ts HT L). lra.
    - pose proof (val_mono Ts T ltac:(lra) L). lra.
  Qed.
  Lemma root_above T : 0 <= T -> E <= val T -> Ts <= T.
  Proof. intros HT H. destruct (Rle_lt_dec Ts T) as [L|L]; [exact L|]. pose proof (val_mono T Ts HT L). lra. Qed.

  (** One step from above. *)
  Lemma chord T : val T - E = (T - Ts) * (A * (T ^ 3 + T ^ 2 * Ts + T * Ts ^ 2 + Ts ^ 3) + C).
  Proof. rewrite <- Hroot. unfold val. ring. Qed.
  Lemma step_error T : 0 <= T -> nstep T - Ts = A * (T - Ts) ^ 2 * (3 * T ^ 2 + 2 * T * Ts + Ts ^ 2) / slope T.
  Proof.
    intros HT. pose proof (slope_pos T HT) as P. unfold nstep. rewrite chord. unfold slope in *. field. lra.
  Qed.
  Lemma step_above T : 0 <= T -> Ts <= nstep T.
  Proof.
    intros HT. pose proof (slope_pos T HT) as P. assert (0 <= nstep T - Ts); [|lra]. rewrite step_error by exact HT.
    apply Rmult_le_pos; [|left; now apply Rinv_0_lt_compat]. pose proof (pow2_ge_0 (T - Ts)). pose proof (pow2_ge_0 T). pose proof (pow2_ge_0 Ts).
    apply Rmult_le_pos; [nra|]. nra.
  Qed.
  Lemma step_quarter T : Ts <= T -> (T - Ts) / 4 <= T - nstep T.
  Proof.
    intros HT. pose proof (slope_pos T ltac:(lra)) as P.
    replace (T - nstep T) with ((val T - E) / slope T) by (unfold nstep; ring).
    apply Rmult_le_reg_r with (slope T); [exact P|]. replace ((val T - E) / slope T * slope T) with (val T - E) by (field; lra).
    rewrite chord. unfold slope. pose proof (pow_lt Ts 3 Hs). pose proof (pow_le T 3 ltac:(lra)).
    assert (0 <= T ^ 2 * Ts) by (apply Rmult_le_pos; [apply pow2_ge_0|lra]).
    assert (0 <= T * Ts ^ 2) by (apply Rmult_le_pos; [lra|apply pow2_ge_0]).
    set (S1 := T ^ 2 * Ts) in *. set (S2 := T * Ts ^ 2) in *. set (S3 := Ts ^ 3) in *. set (S0 := T ^ 3) in *.
    replace ((T - Ts) / 4 * (4 * A * S0 + C)) with ((T - Ts) * (A * S0 + C / 4)) by field.
    apply Rmult_le_compat_l; [lra|]. nra.
  Qed.
  Lemma step_down T : Ts <= T -> nstep T <= T.
  Proof. intros H. pose proof (step_quarter T H). lra. Qed.
  Lemma step_linear T : Ts <= T -> nstep T - Ts <= 3 / 4 * (T - Ts).
  Proof. intros H. pose proof (step_quarter T H). lra. Qed.
  Lemma step_quadratic T : Ts <= T -> nstep T - Ts <= 3 / 2 * (T - Ts) ^ 2 / Ts.
  Proof.
    intros H. pose proof (slope_pos T ltac:(lra)) as P. rewrite step_error by lra.
    apply Rmult_le_reg_r with (slope T); [exact P|].
    replace (A * (T - Ts) ^ 2 * (3 * T ^ 2 + 2 * T * Ts + Ts ^ 2) / slope T * slope T)
      with ((T - Ts) ^ 2 * (A * (3 * T ^ 2 + 2 * T * Ts + Ts ^ 2))) by (field; lra).
    replace (3 / 2 * (T - Ts) ^ 2 / Ts * slope T) with ((T - Ts) ^ 2 * (3 / 2 * slope T / Ts)) by (field; lra).
    apply Rmult_le_compat_l; [apply pow2_ge_0|].
    apply Rmult_le_reg_r with Ts; [exact Hs|]. replace (3 / 2 * slope T / Ts * Ts) with (3 / 2 * slope T) by (field; lra).
    unfold slope.
    assert (B1 : Ts * T ^ 2 <= T ^ 3) by (replace (T ^ 3) with (T * T ^ 2) by ring; apply Rmult_le_compat_r; [apply pow2_ge_0|lra]).
    assert (B2 : Ts ^ 2 * T <= T ^ 3).
    { replace (T ^ 3) with (T ^ 2 * T) by ring. apply Rmult_le_compat_r; [lra|]. apply pow_incr. lra. }
    assert (B3 : Ts ^ 3 <= T ^ 3) by (apply pow_incr; lra).
    replace (A * (3 * T ^ 2 + 2 * T * Ts + Ts ^ 2) * Ts) with (A * (3 * (Ts * T ^ 2) + 2 * (Ts ^ 2 * T) + Ts ^ 3)) by ring.
    nra.
  Qed.
  (** After a step from the temperature of the radiation alone. *)
  Lemma step_from_radiation T : Ts <= T -> A * T ^ 4 <= E -> nstep T - Ts <= 6 * (E / C).
  Proof.
    intros H HT. pose proof (slope_pos T ltac:(lra)) as P. rewrite step_error by lra.
    apply Rmult_le_reg_r with (slope T); [exact P|].
    replace (A * (T - Ts) ^ 2 * (3 * T ^ 2 + 2 * T * Ts + Ts ^ 2) / slope T * slope T)
      with (A * ((T - Ts) ^ 2 * (3 * T ^ 2 + 2 * T * Ts + Ts ^ 2))) by (field; lra).
    assert (B : (T - Ts) ^ 2 * (3 * T ^ 2 + 2 * T * Ts + Ts ^ 2) <= 6 * T ^ 4).
    { replace (6 * T ^ 4) with (T ^ 2 * (6 * T ^ 2)) by ring. apply Rmult_le_compat; [apply pow2_ge_0|nra|apply pow_incr; lra|nra]. }
    apply Rle_trans with (6 * E); [nra|]. replace (6 * (E / C) * slope T) with (6 * E * (slope T / C)) by (field; lra).
    assert (1 <= slope T / C).
    { apply Rmult_le_reg_r with C; [exact HC|]. replace (slope T / C * C) with (slope T) by (field; lra). unfold slope.
      pose proof (pow_le T 3 ltac:(lra)). nra. }
    nra.
  Qed.

  (** Iterates. *)
  Definition it (n : nat) (T0 : R) : R := Nat.iter n nstep T0.
  Lemma it_S n T0 : it (S n) T0 = nstep (it n T0). Proof. reflexivity. Qed.
  Lemma it_add n k T0 : it (n + k) T0 = it n (it k T0).
  Proof. induction n as [|n IH]; [reflexivity|]. cbn [Nat.add]. now rewrite !it_S, IH. Qed.
  Lemma it_above n T0 : Ts <= T0 -> Ts <= it n T0.
  Proof. intros H. induction n as [|n IH]; [exact H|]. rewrite it_S. apply step_above. lra. Qed.
  Lemma it_linear n T0 : Ts <= T0 -> it n T0 - Ts <= (3 / 4) ^ n * (T0 - Ts).
  Proof.
    intros H. induction n as [|n IH]; [cbn; lra|]. rewrite it_S. pose proof (step_linear _ (it_above n T0 H)).
    change ((3 / 4) ^ S n) with (3 / 4 * (3 / 4) ^ n). lra.
  Qed.
  Lemma it_down n T0 : Ts <= T0 -> it n T0 <= T0.
  Proof. intros H. induction n as [|n IH]; [cbn; lra|]. rewrite it_S. pose proof (step_down _ (it_above n T0 H)). lra. Qed.
  (** Quadratic phase: eight steps from half the root. *)
  Lemma it_quadratic T0 : Ts <= T0 -> T0 - Ts <= Ts / 2 -> it 8 T0 - Ts <= Ts / 10 ^ 15.
  Proof.
    intros H H0.
    assert (Q : forall k a b, 0 <= a -> it k T0 - Ts <= a * Ts -> 3 / 2 * a ^ 2 <= b -> it (S k) T0 - Ts <= b * Ts).
    { intros k a b Ha Hk Hb. rewrite it_S. pose proof (it_above k T0 H) as Ab. pose proof (step_quadratic _ Ab) as SQ.
      apply Rle_trans with (1 := SQ). apply Rmult_le_reg_r with Ts; [exact Hs|].
      replace (3 / 2 * (it k T0 - Ts) ^ 2 / Ts * Ts) with (3 / 2 * (it k T0 - Ts) ^ 2) by (field; lra).
      assert ((it k T0 - Ts) ^ 2 <= (a * Ts) ^ 2) by (apply pow_incr; lra).
      replace (b * Ts * Ts) with (b * Ts ^ 2) by ring. replace ((a * Ts) ^ 2) with (a ^ 2 * Ts ^ 2) in * by ring.
      pose proof (pow_lt Ts 2 Hs). nra. }
    assert (S0 : it 0 T0 - Ts <= 0.5 * Ts) by (cbn; lra).
    assert (S1 := Q 0%nat 0.5 0.375 ltac:(lra) S0 ltac:(lra)).
    assert (S2 := Q 1%nat 0.375 0.211 ltac:(lra) S1 ltac:(lra)).
    assert (S3 := Q 2%nat 0.211 0.067 ltac:(lra) S2 ltac:(lra)).
    assert (S4 := Q 3%nat 0.067 0.007 ltac:(lra) S3 ltac:(lra)).
    assert (S5 := Q 4%nat 0.007 0.0001 ltac:(lra) S4 ltac:(lra)).
    assert (S6 := Q 5%nat 0.0001 0.00000002 ltac:(lra) S5 ltac:(lra)).
    assert (S7 := Q 6%nat 0.00000002 (1 / 10 ^ 15) ltac:(lra) S6 ltac:(lra)).
    assert (S8 := Q 7%nat (1 / 10 ^ 15) (1 / 10 ^ 15) ltac:(lra) S7 ltac:(lra)). lra.
  Qed.

  (** The starting point. *)
  Lemma guess_above T0 : 0 < T0 -> C * T0 = E \/ A * T0 ^ 4 = E -> Ts <= T0.
  Proof.
    intros H [G|G]; apply root_above; try lra; unfold val.
    - pose proof (pow_lt T0 4 H). nra.
    - nra.
  Qed.

  (** Convergence of the full hundred steps when the radiation energy is at most 10^10 times the gas energy. *)
  Lemma it_converges T0 : 0 < T0 -> (C * T0 = E \/ A * T0 ^ 4 = E) -> A * Ts ^ 4 <= 10 ^ 10 * (C * Ts) -> it 100 T0 - Ts <= Ts / 10 ^ 15.
  Proof.
    intros H0 HG HX. pose proof (guess_above T0 H0 HG) as Ab.
    assert (HEC : E / C <= (10 ^ 10 + 1) * Ts).
    { apply Rmult_le_reg_r with C; [exact HC|]. replace (E / C * C) with E by (field; lra). rewrite <- Hroot. unfold val. nra. }
    assert (H1 : it 1 T0 - Ts <= 6 * ((10 ^ 10 + 1) * Ts)).
    { destruct HG as [HG|HG].
      - pose proof (it_down 1 T0 Ab). assert (T0 = E / C) by (rewrite <- HG; field; lra). nra.
      - pose proof (step_from_radiation T0 Ab ltac:(lra)). change (it 1 T0) with (nstep T0). lra. }
    assert (Ab1 := it_above 1 T0 Ab).
    change 100%nat with (8 + (91 + 1))%nat. rewrite (it_add 8 (91 + 1)), (it_add 91 1).
    set (T1 := it 1 T0) in *. apply it_quadratic; [now apply it_above|].
    apply Rle_trans with (1 := it_linear 91 T1 Ab1).
    assert (P : (3 / 4) ^ 91 * (6 * (10 ^ 10 + 1)) <= 1 / 2).
    { replace (6 * (10 ^ 10 + 1)) with (IZR 60000000006) by lra. apply pow34_le. vm_compute. discriminate. }
    apply Rle_trans with ((3 / 4) ^ 91 * (6 * ((10 ^ 10 + 1) * Ts))).
    - apply Rmult_le_compat_l; [apply pow_le; lra|exact H1].
    - replace ((3 / 4) ^ 91 * (6 * ((10 ^ 10 + 1) * Ts))) with ((3 / 4) ^ 91 * (6 * (10 ^ 10 + 1)) * Ts) by ring. nra.
  Qed.

  (** Radiation-dominated: a step reduces the temperature by hardly more than a quarter. *)
  Lemma step_slow T : Ts <= T -> 10 ^ 14 * (C * Ts) <= A * Ts ^ 4 -> 3 / 4 * (1 - 1 / 10 ^ 14) * T <= nstep T.
  Proof.
    intros HT HX. pose proof (slope_pos T ltac:(lra)) as P. unfold nstep.
    assert (HCs : 10 ^ 14 * C <= A * T ^ 3).
    { assert (10 ^ 14 * C <= A * Ts ^ 3) by (apply Rmult_le_reg_r with Ts; [exact Hs|]; nra).
      assert (Ts ^ 3 <= T ^ 3) by (apply pow_incr; lra). nra. }
    assert (Q : (val T - E) / slope T <= T * (1 / 4 + 3 / 4 * / 10 ^ 14)).
    { apply Rmult_le_reg_r with (slope T); [exact P|]. replace ((val T - E) / slope T * slope T) with (val T - E) by (field; lra).
      unfold val, slope. replace (T * (1 / 4 + 3 / 4 * / 10 ^ 14) * (4 * A * T ^ 3 + C)) with
        (T * (A * T ^ 3 + C / 4 + 3 / 4 * / 10 ^ 14 * (4 * (A * T ^ 3) + C))) by field.
      replace (A * T ^ 4) with (T * (A * T ^ 3)) by ring. set (Y := A * T ^ 3) in *. assert (0 < T) by lra.
      apply Rle_trans with (T * (Y + C)); [lra|]. apply Rmult_le_compat_l; [lra|]. lra. }
    lra.
  Qed.
  Lemma it_slow n T0 : Ts <= T0 -> 10 ^ 14 * (C * Ts) <= A * Ts ^ 4 -> (3 / 4) ^ n * (1 - INR n / 10 ^ 14) * T0 <= it n T0.
  Proof.
    intros H HX. induction n as [|n IH]; [cbn; lra|]. rewrite it_S. pose proof (it_above n T0 H) as Ab.
    apply Rle_trans with (2 := step_slow _ Ab HX). apply Rle_trans with (3 / 4 * (1 - 1 / 10 ^ 14) * ((3 / 4) ^ n * (1 - INR n / 10 ^ 14) * T0)).
    - rewrite S_INR. change ((3 / 4) ^ S n) with (3 / 4 * (3 / 4) ^ n).
      assert (0 <= (3 / 4) ^ n * T0) by (apply Rmult_le_pos; [apply pow_le; lra|lra]). pose proof (pos_INR n).
      replace (3 / 4 * (1 - 1 / 10 ^ 14) * ((3 / 4) ^ n * (1 - INR n / 10 ^ 14) * T0))
        with (3 / 4 * ((3 / 4) ^ n * T0) * ((1 - 1 / 10 ^ 14) * (1 - INR n / 10 ^ 14))) by ring.
      replace (3 / 4 * (3 / 4) ^ n * (1 - (INR n + 1) / 10 ^ 14) * T0) with (3 / 4 * ((3 / 4) ^ n * T0) * (1 - (INR n + 1) / 10 ^ 14)) by ring.
      apply Rmult_le_compat_l; [lra|]. lra.
    - apply Rmult_le_compat_l; lra.
  Qed.
  Lemma it_overshoot n T0 : (n <= 100)%nat -> C * T0 = E -> 0 < T0 -> 10 ^ 14 * (C * Ts) <= A * Ts ^ 4 -> 30 * Ts <= it n T0.
  Proof.
    intros Hn HG H0 HX. pose proof (guess_above T0 H0 (or_introl HG)) as Ab.
    apply Rle_trans with (2 := it_slow n T0 Ab HX).
    assert (HT0 : 10 ^ 14 * Ts <= T0).
    { apply Rmult_le_reg_l with C; [exact HC|]. rewrite HG, <- Hroot. unfold val. nra. }
    assert (Pn : (3 / 4) ^ 100 <= (3 / 4) ^ n).
    { replace 100%nat with ((100 - n) + n)%nat by lia. rewrite pow_add. rewrite <- (Rmult_1_l ((3 / 4) ^ n)) at 2.
      apply Rmult_le_compat_r; [apply pow_le; lra|]. rewrite <- (pow1 (100 - n)). apply pow_incr. lra. }
    assert (P100 : 31 <= (3 / 4) ^ 100 * 10 ^ 14).
    { replace (10 ^ 14) with (IZR 100000000000000) by lra. apply pow34_ge. vm_compute. discriminate. }
    assert (HI : INR n <= 100) by (replace 100 with (INR 100) by (rewrite INR_IZR_INZ; reflexivity); now apply le_INR).
    assert (D : 0.99 <= 1 - INR n / 10 ^ 14) by lra.
    set (a := (3 / 4) ^ 100) in *. set (b := (3 / 4) ^ n) in *. set (d := 1 - INR n / 10 ^ 14) in *.
    apply Rle_trans with (a * 0.99 * (10 ^ 14 * Ts)); [nra|].
    assert (0 < a) by (unfold a; apply pow_lt; lra).
    apply Rmult_le_compat; [nra|nra| |exact HT0]. apply Rmult_le_compat; lra.
  Qed.
End Quartic.

(** ** The loop *)
Lemma newton_loop_ext d d' left : (forall T, d T = d' T) -> forall i T itr x, newton_loop d left i T itr x = newton_loop d' left i T itr x.
Proof.
  intros H. induction left as [|k IH]; intros i T itr x; [reflexivity|]. cbn [newton_loop]. rewrite <- !H, IH. reflexivity.
Qed.
Section Loop.
  Variable step : R -> R.
  Let delta (T : R) : R := step T - T.
  Lemma loop_stops left : forall i T itr x, (1 <= left)%nat ->
    exists n, (1 <= n <= left)%nat /\ fst (fst (newton_loop delta left i T itr x)) = Nat.iter n step T /\
      snd (fst (newton_loop delta left i T itr x)) = (i + n - 1)%nat /\
      (forall k, (k < n - 1)%nat -> tol_newton < Rabs (Nat.iter (S k) step T - Nat.iter k step T)) /\
      (n = left \/ Rabs (Nat.iter n step T - Nat.iter (n - 1) step T) <= tol_newton).
  Proof.
    induction left as [|k IH]; intros i T itr x Hl; [lia|]. cbn [newton_loop].
    destruct (rleb (Rabs (delta T)) tol_newton) eqn:E.
    - exists 1%nat. cbn. split; [lia|]. split; [unfold delta; ring|]. split; [lia|]. split; [intros; lia|]. right. now apply rleb_true.
    - replace (T + delta T) with (step T) by (unfold delta; ring). destruct k as [|k].
      + exists 1%nat. cbn. split; [lia|]. split; [reflexivity|]. split; [lia|]. split; [intros; lia|now left].
      + destruct (IH (S i) (step T) i (delta T) ltac:(lia)) as (n & Hn & H1 & H2 & H3 & H4). exists (S n).
        assert (Sw : forall j, Nat.iter j step (step T) = Nat.iter (S j) step T).
        { intros j. induction j as [|j IHj]; [reflexivity|]. change (step (Nat.iter j step (step T)) = step (Nat.iter (S j) step T)). now rewrite IHj. }
        split; [lia|]. split; [rewrite H1; apply Sw|]. split; [rewrite H2; lia|]. split.
        * intros j Hj. destruct j as [|j]; [cbn; apply rleb_false; exact E|]. rewrite <- !Sw. apply H3. lia.
        * destruct H4 as [-> | H4]; [now left|right]. replace (S n - 1)%nat with (S (n - 1)) by lia. rewrite <- !Sw. exact H4.
  Qed.
End Loop.

(** ** Both solvers *)
Lemma iter_ext (f h : R -> R) n x : (forall y, f y = h y) -> Nat.iter n f x = Nat.iter n h x.
Proof. intros H. induction n as [|n IH]; [reflexivity|]. change (f (Nat.iter n f x) = h (Nat.iter n h x)). now rewrite IH, H. Qed.
Lemma root4 x : 0 < x -> (Rpower x (1 / 4)) ^ 4 = x.
Proof.
  intros H. rewrite <- Rpower_pow by apply exp_pos. rewrite Rpower_mult. replace (1 / 4 * INR 4) with 1 by (cbn; field). now apply Rpower_1.
Qed.
Lemma pow4_lt a b : 0 <= a -> a < b -> a ^ 4 < b ^ 4.
Proof. intros Ha Hb. assert (a ^ 2 < b ^ 2) by nra. replace (a ^ 4) with (a ^ 2 * a ^ 2) by ring. replace (b ^ 4) with (b ^ 2 * b ^ 2) by ring. pose proof (pow2_ge_0 a). nra. Qed.

Section Solver.
  Variables A C E : R.
  Hypothesis HA : 0 < A.
  Hypothesis HC : 0 < C.
  Hypothesis HE : 0 < E.
  Let Tg := E / C.
  Let Tr := Rpower (E / A) (1 / 4).
  Definition start : R := if rltb Tg Tr then Tr else Tg.

  Lemma Tg_gas : C * Tg = E. Proof. unfold Tg. field. lra. Qed.
  Lemma Tr_rad : A * Tr ^ 4 = E.
  Proof. unfold Tr. rewrite root4 by (apply Rdiv_lt_0_compat; assumption). field. lra. Qed.
  Lemma start_guess : first_guess (fun T => C * T) (fun T => A * T ^ 4) E start.
  Proof.
    assert (Pg : 0 < Tg) by (apply Rdiv_lt_0_compat; assumption). assert (Pr : 0 < Tr) by apply exp_pos.
    unfold start, rltb. destruct (Rlt_dec Tg Tr) as [L|L]; (split; [assumption|]).
    - right. split; [exact Tr_rad|]. rewrite <- Tg_gas. apply Rmult_le_compat_l; lra.
    - left. split; [exact Tg_gas|]. rewrite <- Tr_rad. apply Rmult_le_compat_l; [lra|]. apply pow_incr. lra.
  Qed.
  Lemma start_either : 0 < start /\ (C * start = E \/ A * start ^ 4 = E).
  Proof. destruct start_guess as [P [[H _]|[H _]]]; split; [exact P|now left|exact P|now right]. Qed.

  Variable delta : R -> R.
  Hypothesis Hdelta : forall T, delta T = nstep A C E T - T.
  Definition result : R * nat * R := newton_loop delta max_itr 0 start 0 0.
  Lemma result_iterate : exists n, (1 <= n <= 100)%nat /\ fst (fst result) = it A C E n start /\
    snd (fst result) = (n - 1)%nat /\
    (forall k, (k < n - 1)%nat -> 1 / 10 ^ 6 < Rabs (it A C E (S k) start - it A C E k start)) /\
    (n = 100%nat \/ Rabs (it A C E n start - it A C E (n - 1) start) <= 1 / 10 ^ 6).
  Proof.
    unfold result. rewrite (newton_loop_ext _ _ _ Hdelta).
    destruct (loop_stops (nstep A C E) 100 0 start 0 0 ltac:(lia)) as (n & H1 & H2 & H3 & H4 & H5).
    exists n. split; [exact H1|]. split; [exact H2|]. split; [refine (eq_trans H3 _); lia|]. split; [exact H4|exact H5].
  Qed.
  Lemma never_says : says_no_convergence result = false.
  Proof.
    destruct result_iterate as (n & Hn & _ & Hi & _). unfold says_no_convergence. destruct result as [[T i] d]. cbn [fst snd] in Hi. subst i.
    replace (Nat.eqb (n - 1) max_itr) with false; [reflexivity|]. symmetry. apply Nat.eqb_neq. unfold max_itr. lia.
  Qed.

  Variable Ts : R.
  Hypothesis Hs : 0 < Ts.
  Hypothesis Hroot : val A C Ts = E.
  Lemma result_bound : Ts <= fst (fst result) <= Ts + Rmax (3 / 10 ^ 6) ((3 / 4) ^ 100 * (start - Ts)).
  Proof.
    destruct start_either as [P HG]. pose proof (guess_above A C E HA HC Ts Hroot start P HG) as Ab.
    destruct result_iterate as (n & Hn & -> & _ & _ & Hend). split; [now apply (it_above A C E HA HC Ts Hs Hroot)|].
    destruct Hend as [-> | Hend].
    - pose proof (it_linear A C E HA HC Ts Hs Hroot 100 start Ab). pose proof (Rmax_r (3 / 10 ^ 6) ((3 / 4) ^ 100 * (start - Ts))). lra.
    - pose proof (Rmax_l (3 / 10 ^ 6) ((3 / 4) ^ 100 * (start - Ts))) as M. destruct n as [|n]; [lia|]. replace (S n - 1)%nat with n in Hend by lia.
      pose proof (it_above A C E HA HC Ts Hs Hroot n start Ab) as Abn. rewrite it_S in *.
      pose proof (step_quarter A C E HA HC Ts Hs Hroot _ Abn). pose proof (step_linear A C E HA HC Ts Hs Hroot _ Abn).
      rewrite Rabs_minus_sym in Hend. rewrite Rabs_pos_eq in Hend by lra. lra.
  Qed.
  Lemma result_converged : A * Ts ^ 4 <= 10 ^ 10 * (C * Ts) -> fst (fst result) <= Ts + Rmax (3 / 10 ^ 6) (Ts / 10 ^ 15).
  Proof.
    intros HX. destruct start_either as [P HG]. pose proof (guess_above A C E HA HC Ts Hroot start P HG) as Ab.
    destruct result_iterate as (n & Hn & -> & _ & _ & Hend). destruct Hend as [-> | Hend].
    - pose proof (it_converges A C E HA HC HE Ts Hs Hroot start P HG HX). pose proof (Rmax_r (3 / 10 ^ 6) (Ts / 10 ^ 15)). lra.
    - pose proof (Rmax_l (3 / 10 ^ 6) (Ts / 10 ^ 15)) as M. destruct n as [|n]; [lia|]. replace (S n - 1)%nat with n in Hend by lia.
      pose proof (it_above A C E HA HC Ts Hs Hroot n start Ab) as Abn. rewrite it_S in *.
      pose proof (step_quarter A C E HA HC Ts Hs Hroot _ Abn). pose proof (step_linear A C E HA HC Ts Hs Hroot _ Abn).
      rewrite Rabs_minus_sym in Hend. rewrite Rabs_pos_eq in Hend by lra. lra.
  Qed.
  Lemma result_overshoots : 10 ^ 14 * (C * Ts) <= A * Ts ^ 4 -> 30 * Ts <= fst (fst result).
  Proof.
    intros HX. destruct start_either as [P HG].
    assert (HG' : C * start = E).
    { destruct start_guess as [_ [[H _]|[H1 H2]]]; [exact H|]. exfalso. cbv beta in H1, H2.
      assert (B1 : A * start ^ 4 <= A * (2 * Ts) ^ 4).
      { rewrite H1, <- Hroot. unfold val. replace (A * (2 * Ts) ^ 4) with (16 * (A * Ts ^ 4)) by ring.
        assert (0 < C * Ts) by nra. lra. }
      assert (B2 : start <= 2 * Ts).
      { destruct (Rle_lt_dec start (2 * Ts)) as [L|L]; [exact L|]. pose proof (pow4_lt (2 * Ts) start ltac:(lra) L) as Q.
        pose proof (Rmult_lt_compat_l A _ _ HA Q). lra. }
      assert (C * start <= 2 * (C * Ts)) by nra.
      assert (0 < C * Ts) by nra. assert (V : A * Ts ^ 4 + C * Ts = E) by exact Hroot. lra. }
    destruct result_iterate as (n & Hn & -> & _). apply (it_overshoot A C E HA HC HE Ts Hs Hroot); [lia|exact HG'|exact P|exact HX].
  Qed.
End Solver.

(** ** Instances *)
Lemma ar_pos : 0 < ar.
Proof.
  unfold ar. pose proof PI_RGT_0. assert (0 < kb) by (unfold kb; lra). assert (0 < hplanck) by (unfold hplanck; lra).
  assert (0 < clight) by (unfold clight; lra).
  pose proof (pow_lt PI 5 H). pose proof (pow_lt kb 4 H0). pose proof (pow_lt hplanck 3 H1). pose proof (pow_lt clight 3 H2).
  apply Rdiv_lt_0_compat; (apply Rmult_lt_0_compat; [apply Rmult_lt_0_compat|]); try assumption; lra.
Qed.
Lemma kb_pos : 0 < kb. Proof. unfold kb. lra. Qed.
Lemma mp_pos : 0 < mp. Proof. unfold mp. lra. Qed.

Section Gas.
  Variable g : rad_gas.
  Hypothesis Hg : proper_gas g.
  Variable rho : R.
  Hypothesis Hrho : 0 < rho.
  Definition Ce : R := rho * kb / (rg_mmw g * mp * (rg_gamma g - 1)).
  Definition Cp : R := rho * kb / (rg_mmw g * mp).
  Lemma Ce_pos : 0 < Ce.
  Proof.
    destruct Hg. pose proof kb_pos. pose proof mp_pos. unfold Ce. apply Rdiv_lt_0_compat; repeat apply Rmult_lt_0_compat; lra.
  Qed.
  Lemma Cp_pos : 0 < Cp.
  Proof. destruct Hg. pose proof kb_pos. pose proof mp_pos. unfold Cp. apply Rdiv_lt_0_compat; repeat apply Rmult_lt_0_compat; lra. Qed.
  Lemma gas_energy_C T : gas_energy g rho T = Ce * T.
  Proof. destruct Hg. pose proof mp_pos. unfold gas_energy, gas_pressure, Ce. field. repeat split; lra. Qed.
  Lemma gas_pressure_C T : gas_pressure g rho T = Cp * T.
  Proof. destruct Hg. pose proof mp_pos. unfold gas_pressure, Cp. field. repeat split; lra. Qed.
  Lemma radiation_energy_A T : radiation_energy T = ar * T ^ 4. Proof. reflexivity. Qed.
  Lemma radiation_pressure_A T : radiation_pressure T = ar / 3 * T ^ 4. Proof. unfold radiation_pressure, radiation_energy. field. Qed.
  Lemma total_energy_val T : total_energy g rho T = val ar Ce T.
  Proof. unfold total_energy, val. rewrite gas_energy_C. unfold radiation_energy. ring. Qed.
  Lemma total_pressure_val T : total_pressure g rho T = val (ar / 3) Cp T.
  Proof. unfold total_pressure, val. rewrite gas_pressure_C, radiation_pressure_A. ring. Qed.
  Lemma evol_from_temp_total T : rg_evol_from_temp g rho T = total_energy g rho T.
  Proof.
    destruct Hg. pose proof mp_pos. unfold rg_evol_from_temp, total_energy, gas_energy, gas_pressure, radiation_energy. field. repeat split; lra.
  Qed.
  Lemma pres_from_temp_total T : rg_pres_from_temp g rho T = total_pressure g rho T.
  Proof. unfold rg_pres_from_temp, total_pressure, gas_pressure, radiation_pressure, radiation_energy. field. destruct Hg. pose proof mp_pos. repeat split; lra. Qed.
  Lemma val_derive A C T : is_derive (val A C) T (slope A C T).
  Proof. unfold val, slope. auto_derive; [exact I|]. ring. Qed.
  Lemma newton_energy ev T : newton_step (total_energy g rho) ev T = nstep ar Ce ev T.
  Proof.
    unfold newton_step, nstep. rewrite total_energy_val. f_equal. f_equal.
    rewrite (Derive_ext _ _ T total_energy_val). apply is_derive_unique, val_derive.
  Qed.
  Lemma newton_pressure P T : newton_step (total_pressure g rho) P T = nstep (ar / 3) Cp P T.
  Proof.
    unfold newton_step, nstep. rewrite total_pressure_val. f_equal. f_equal.
    rewrite (Derive_ext _ _ T total_pressure_val). apply is_derive_unique, val_derive.
  Qed.
  Definition evol_delta (ev T : R) : R := let T3 := T * T * T in let f := ar * T3 * T + Ce * T - ev in let df := 4 * ar * T3 + Ce in - f / df.
  Definition pres_delta (P T : R) : R := let T3 := T * T * T in let f := ar * T3 * T / 3 + Cp * T - P in let df := 4 * ar * T3 / 3 + Cp in - f / df.
  Lemma evol_delta_ok ev T : evol_delta ev T = nstep ar Ce ev T - T.
  Proof.
    unfold evol_delta, nstep, val, slope. cbn zeta. replace (4 * ar * (T * T * T) + Ce) with (4 * ar * T ^ 3 + Ce) by ring.
    replace (ar * (T * T * T) * T + Ce * T - ev) with (ar * T ^ 4 + Ce * T - ev) by ring. unfold Rdiv. ring.
  Qed.
  Lemma pres_delta_ok P T : pres_delta P T = nstep (ar / 3) Cp P T - T.
  Proof.
    unfold pres_delta, nstep, val, slope. cbn zeta. replace (4 * ar * (T * T * T) / 3 + Cp) with (4 * (ar / 3) * T ^ 3 + Cp) by field.
    replace (ar * (T * T * T) * T / 3 + Cp * T - P) with (ar / 3 * T ^ 4 + Cp * T - P) by field. unfold Rdiv. ring.
  Qed.
  Lemma solve_evol_result ev : solve_evol g rho ev = result ar Ce ev (evol_delta ev).
  Proof. unfold solve_evol, result, start, evol_delta, Ce. cbv zeta. reflexivity. Qed.
  Lemma solve_pres_result P : solve_pres g rho P = result (ar / 3) Cp P (pres_delta P).
  Proof.
    unfold solve_pres, result, start, pres_delta, Cp. cbv zeta.
    replace (3 * P / ar) with (P / (ar / 3)) by (field; pose proof ar_pos; lra). reflexivity.
  Qed.
End Gas.

(** ** The statements *)
Lemma ar3_pos : 0 < ar / 3. Proof. pose proof ar_pos. lra. Qed.


Lemma guess_unique A C y T T' : 0 < A -> 0 < C -> first_guess (fun T => C * T) (fun T => A * T ^ 4) y T ->
  first_guess (fun T => C * T) (fun T => A * T ^ 4) y T' -> T = T'.
Proof.
  intros HA HC [P H] [P' H'].
  assert (LL : forall a b, 0 < a -> 0 < b -> A * a ^ 4 <= A * b ^ 4 -> a <= b).
  { intros a b Ha Hb L. destruct (Rle_lt_dec a b) as [X|X]; [exact X|]. pose proof (pow4_lt b a ltac:(lra) X) as Q.
    pose proof (Rmult_lt_compat_l A _ _ HA Q). lra. }
  assert (L1 : forall a b, C * a <= C * b -> a <= b) by (intros a b L; now apply Rmult_le_reg_l with C).
  destruct H as [[H1 H2]|[H1 H2]], H' as [[H3 H4]|[H3 H4]]; apply Rle_antisym;
    first [apply L1; lra|apply LL; lra].
Qed.

Lemma energy_stops g rho ev : proper_gas g -> 0 < rho -> 0 < ev ->
  first_guess (gas_energy g rho) radiation_energy ev (start (ar) (Ce g rho) ev) /\
  stops_at (newton_step (total_energy g rho) ev) (start (ar) (Ce g rho) ev) (rg_temp_from_evol g rho ev).
Proof.
  intros Hg Hr He. split.
  - destruct (start_guess (ar) (Ce g rho) ev ar_pos (Ce_pos g Hg rho Hr) He) as [Q H]. split; [exact Q|].
    rewrite gas_energy_C by assumption. rewrite radiation_energy_A. exact H.
  - unfold rg_temp_from_evol. rewrite solve_evol_result.
    destruct (result_iterate (ar) (Ce g rho) ev _ (evol_delta_ok g rho ev)) as (n & H1 & H2 & _ & H3 & H4).
    exists n. assert (X : forall k, Nat.iter k (newton_step (total_energy g rho) ev) (start (ar) (Ce g rho) ev) = it (ar) (Ce g rho) ev k (start (ar) (Ce g rho) ev)).
    { intros k. apply iter_ext. intros y. now apply newton_energy. }
    rewrite H2. split; [exact H1|]. split; [now rewrite X|]. split; [intros k Hk; rewrite !X; now apply H3|]. rewrite X. exact H4.
Qed.
Lemma energy_root g rho ev : proper_gas g -> 0 < rho -> 0 < ev ->
  exists Ts, 0 < Ts /\ total_energy g rho Ts = ev /\ forall T, 0 <= T -> total_energy g rho T = ev -> T = Ts.
Proof.
  intros Hg Hr He. destruct (root_exists (ar) (Ce g rho) ev ar_pos (Ce_pos g Hg rho Hr) He) as (Ts & Hs & Hroot).
  exists Ts. split; [exact Hs|]. split; [now rewrite total_energy_val|]. intros T HT H. rewrite total_energy_val in H by assumption.
  now apply (root_unique (ar) (Ce g rho) ev ar_pos (Ce_pos g Hg rho Hr) Ts Hs Hroot).
Qed.
Lemma energy_step g rho Ts T : proper_gas g -> 0 < rho -> 0 < Ts -> Ts <= T ->
  let T' := newton_step (total_energy g rho) (total_energy g rho Ts) T in Ts <= T' /\ T' <= T - (T - Ts) / 4 /\ T' - Ts <= 3 / 2 * (T - Ts) ^ 2 / Ts.
Proof.
  intros Hg Hr Hs HT. cbv zeta. rewrite newton_energy by assumption. set (y := total_energy g rho Ts).
  assert (Hroot : val (ar) (Ce g rho) Ts = y) by (unfold y; now rewrite total_energy_val).
  split; [apply (step_above (ar) (Ce g rho) y ar_pos (Ce_pos g Hg rho Hr) Ts Hs Hroot); lra|]. split.
  - pose proof (step_quarter (ar) (Ce g rho) y ar_pos (Ce_pos g Hg rho Hr) Ts Hs Hroot T HT). lra.
  - now apply (step_quadratic (ar) (Ce g rho) y ar_pos (Ce_pos g Hg rho Hr) Ts Hs Hroot).
Qed.
Lemma energy_bounds g rho Ts : proper_gas g -> 0 < rho -> 0 < Ts ->
  let y := total_energy g rho Ts in
  Ts <= rg_temp_from_evol g rho y /\
  (forall T0, first_guess (gas_energy g rho) radiation_energy y T0 -> rg_temp_from_evol g rho y <= Ts + Rmax (3 / 10 ^ 6) ((3 / 4) ^ 100 * (T0 - Ts))) /\
  (radiation_energy Ts <= 10 ^ 10 * gas_energy g rho Ts -> rg_temp_from_evol g rho y <= Ts + Rmax (3 / 10 ^ 6) (Ts / 10 ^ 15)) /\
  (10 ^ 14 * gas_energy g rho Ts <= radiation_energy Ts -> 30 * Ts <= rg_temp_from_evol g rho y) /\
  says_no_convergence (solve_evol g rho y) = false.
Proof.
  intros Hg Hr Hs. cbv zeta. set (y := total_energy g rho Ts).
  pose proof ar_pos as PA. pose proof (Ce_pos g Hg rho Hr) as PC. unfold rg_temp_from_evol. rewrite solve_evol_result.
  assert (Hroot : val (ar) (Ce g rho) Ts = y) by (unfold y; now rewrite total_energy_val).
  assert (Hy : 0 < y). { rewrite <- Hroot. unfold val. pose proof (pow_lt Ts 4 Hs). nra. }
  rewrite gas_energy_C by assumption. rewrite radiation_energy_A.
  destruct (result_bound (ar) (Ce g rho) y PA PC Hy _ (evol_delta_ok g rho y) Ts Hs Hroot) as [B1 B2].
  split; [exact B1|]. split.
  { intros T0 HT0. replace T0 with (start (ar) (Ce g rho) y); [exact B2|].
    apply (guess_unique (ar) (Ce g rho) y _ _ PA PC).
    - now apply start_guess.
    - destruct HT0 as [P0 H0]. split; [exact P0|]. now rewrite <- radiation_energy_A, <- (gas_energy_C g Hg rho T0). }
  split; [exact (result_converged (ar) (Ce g rho) y PA PC Hy _ (evol_delta_ok g rho y) Ts Hs Hroot)|]. split; [exact (result_overshoots (ar) (Ce g rho) y PA PC Hy _ (evol_delta_ok g rho y) Ts Hs Hroot)|]. exact (never_says (ar) (Ce g rho) y _ (evol_delta_ok g rho y)).
Qed.

Lemma pressure_stops g rho P : proper_gas g -> 0 < rho -> 0 < P ->
  first_guess (gas_pressure g rho) radiation_pressure P (start (ar / 3) (Cp g rho) P) /\
  stops_at (newton_step (total_pressure g rho) P) (start (ar / 3) (Cp g rho) P) (rg_temp_from_pres g rho P).
Proof.
  intros Hg Hr He. split.
  - destruct (start_guess (ar / 3) (Cp g rho) P ar3_pos (Cp_pos g Hg rho Hr) He) as [Q H]. split; [exact Q|].
    rewrite gas_pressure_C by assumption. rewrite radiation_pressure_A. exact H.
  - unfold rg_temp_from_pres. rewrite solve_pres_result.
    destruct (result_iterate (ar / 3) (Cp g rho) P _ (pres_delta_ok g rho P)) as (n & H1 & H2 & _ & H3 & H4).
    exists n. assert (X : forall k, Nat.iter k (newton_step (total_pressure g rho) P) (start (ar / 3) (Cp g rho) P) = it (ar / 3) (Cp g rho) P k (start (ar / 3) (Cp g rho) P)).
    { intros k. apply iter_ext. intros y. now apply newton_pressure. }
    rewrite H2. split; [exact H1|]. split; [now rewrite X|]. split; [intros k Hk; rewrite !X; now apply H3|]. rewrite X. exact H4.
Qed.
Lemma pressure_root g rho P : proper_gas g -> 0 < rho -> 0 < P ->
  exists Ts, 0 < Ts /\ total_pressure g rho Ts = P /\ forall T, 0 <= T -> total_pressure g rho T = P -> T = Ts.
Proof.
  intros Hg Hr He. destruct (root_exists (ar / 3) (Cp g rho) P ar3_pos (Cp_pos g Hg rho Hr) He) as (Ts & Hs & Hroot).
  exists Ts. split; [exact Hs|]. split; [now rewrite total_pressure_val|]. intros T HT H. rewrite total_pressure_val in H by assumption.
  now apply (root_unique (ar / 3) (Cp g rho) P ar3_pos (Cp_pos g Hg rho Hr) Ts Hs Hroot).
Qed.
Lemma pressure_step g rho Ts T : proper_gas g -> 0 < rho -> 0 < Ts -> Ts <= T ->
  let T' := newton_step (total_pressure g rho) (total_pressure g rho Ts) T in Ts <= T' /\ T' <= T - (T - Ts) / 4 /\ T' - Ts <= 3 / 2 * (T - Ts) ^ 2 / Ts.
Proof.
  intros Hg Hr Hs HT. cbv zeta. rewrite newton_pressure by assumption. set (y := total_pressure g rho Ts).
  assert (Hroot : val (ar / 3) (Cp g rho) Ts = y) by (unfold y; now rewrite total_pressure_val).
  split; [apply (step_above (ar / 3) (Cp g rho) y ar3_pos (Cp_pos g Hg rho Hr) Ts Hs Hroot); lra|]. split.
  - pose proof (step_quarter (ar / 3) (Cp g rho) y ar3_pos (Cp_pos g Hg rho Hr) Ts Hs Hroot T HT). lra.
  - now apply (step_quadratic (ar / 3) (Cp g rho) y ar3_pos (Cp_pos g Hg rho Hr) Ts Hs Hroot).
Qed.
Lemma pressure_bounds g rho Ts : proper_gas g -> 0 < rho -> 0 < Ts ->
  let y := total_pressure g rho Ts in
  Ts <= rg_temp_from_pres g rho y /\
  (forall T0, first_guess (gas_pressure g rho) radiation_pressure y T0 -> rg_temp_from_pres g rho y <= Ts + Rmax (3 / 10 ^ 6) ((3 / 4) ^ 100 * (T0 - Ts))) /\
  (radiation_pressure Ts <= 10 ^ 10 * gas_pressure g rho Ts -> rg_temp_from_pres g rho y <= Ts + Rmax (3 / 10 ^ 6) (Ts / 10 ^ 15)) /\
  (10 ^ 14 * gas_pressure g rho Ts <= radiation_pressure Ts -> 30 * Ts <= rg_temp_from_pres g rho y) /\
  says_no_convergence (solve_pres g rho y) = false.
Proof.
  intros Hg Hr Hs. cbv zeta. set (y := total_pressure g rho Ts).
  pose proof ar3_pos as PA. pose proof (Cp_pos g Hg rho Hr) as PC. unfold rg_temp_from_pres. rewrite solve_pres_result.
  assert (Hroot : val (ar / 3) (Cp g rho) Ts = y) by (unfold y; now rewrite total_pressure_val).
  assert (Hy : 0 < y). { rewrite <- Hroot. unfold val. pose proof (pow_lt Ts 4 Hs). nra. }
  rewrite gas_pressure_C by assumption. rewrite radiation_pressure_A.
  destruct (result_bound (ar / 3) (Cp g rho) y PA PC Hy _ (pres_delta_ok g rho y) Ts Hs Hroot) as [B1 B2].
  split; [exact B1|]. split.
  { intros T0 HT0. replace T0 with (start (ar / 3) (Cp g rho) y); [exact B2|].
    apply (guess_unique (ar / 3) (Cp g rho) y _ _ PA PC).
    - now apply start_guess.
    - destruct HT0 as [P0 H0]. split; [exact P0|]. now rewrite <- radiation_pressure_A, <- (gas_pressure_C g Hg rho T0). }
  split; [exact (result_converged (ar / 3) (Cp g rho) y PA PC Hy _ (pres_delta_ok g rho y) Ts Hs Hroot)|]. split; [exact (result_overshoots (ar / 3) (Cp g rho) y PA PC Hy _ (pres_delta_ok g rho y) Ts Hs Hroot)|]. exact (never_says (ar / 3) (Cp g rho) y _ (pres_delta_ok g rho y)).
Qed.

(** ** Monotonicity *)
Lemma total_energy_mono g rho a b : proper_gas g -> 0 < rho -> 0 <= a -> a <= b -> total_energy g rho a <= total_energy g rho b.
Proof.
  intros Hg Hr Ha Hb. rewrite !total_energy_val by assumption. pose proof ar_pos. pose proof (Ce_pos g Hg rho Hr). unfold val.
  assert (a ^ 4 <= b ^ 4) by (apply pow_incr; lra). nra.
Qed.
Lemma total_pressure_mono g rho a b : proper_gas g -> 0 < rho -> 0 <= a -> a <= b -> total_pressure g rho a <= total_pressure g rho b.
Proof.
  intros Hg Hr Ha Hb. rewrite !total_pressure_val by assumption. pose proof ar3_pos. pose proof (Cp_pos g Hg rho Hr). unfold val.
  assert (a ^ 4 <= b ^ 4) by (apply pow_incr; lra). nra.
Qed.
Lemma total_pressure_pos g rho T : proper_gas g -> 0 < rho -> 0 < T -> 0 < total_pressure g rho T.
Proof.
  intros Hg Hr HT. rewrite total_pressure_val by assumption. pose proof ar3_pos. pose proof (Cp_pos g Hg rho Hr). unfold val. pose proof (pow_lt T 4 HT). nra.
Qed.
Lemma temp_from_pres_pos g rho P : proper_gas g -> 0 < rho -> 0 < P -> 0 < rg_temp_from_pres g rho P.
Proof.
  intros Hg Hr HP. destruct (pressure_root g rho P Hg Hr HP) as (Ts & Hs & <- & _).
  destruct (pressure_bounds g rho Ts Hg Hr Hs) as [H _]. lra.
Qed.

(** ** Round trips *)
Lemma round_trips g rho T : proper_gas g -> 0 < rho -> 0 < T ->
  T <= rg_temp_from_evol g rho (rg_evol_from_temp g rho T) /\ T <= rg_temp_from_pres g rho (rg_pres_from_temp g rho T) /\
  rg_pres_from_temp g rho T <= rg_pres_from_evol g rho (rg_evol_from_temp g rho T) /\
  rg_evol_from_temp g rho T <= rg_evol_from_pres g rho (rg_pres_from_temp g rho T).
Proof.
  intros Hg Hr HT. unfold rg_pres_from_evol, rg_evol_from_pres. rewrite !evol_from_temp_total, !pres_from_temp_total by assumption.
  destruct (energy_bounds g rho T Hg Hr HT) as [H1 _]. destruct (pressure_bounds g rho T Hg Hr HT) as [H2 _].
  split; [exact H1|]. split; [exact H2|]. split; [apply total_pressure_mono; auto; lra|apply total_energy_mono; auto; lra].
Qed.
Lemma evol_from_pres_explodes g rho T : proper_gas g -> 0 < rho -> 0 < T -> 10 ^ 14 * gas_pressure g rho T <= radiation_pressure T ->
  10 * gas_energy g rho T <= radiation_energy T ->
  700000 * rg_evol_from_temp g rho T <= rg_evol_from_pres g rho (rg_pres_from_temp g rho T).
Proof.
  intros Hg Hr HT HX HY. unfold rg_evol_from_pres. rewrite !evol_from_temp_total, !pres_from_temp_total by assumption.
  destruct (pressure_bounds g rho T Hg Hr HT) as (_ & _ & _ & H & _). specialize (H HX).
  apply Rle_trans with (total_energy g rho (30 * T)); [|apply total_energy_mono; auto; lra].
  unfold total_energy. rewrite !gas_energy_C in * by assumption. unfold radiation_energy in *. replace ((30 * T) ^ 4) with (810000 * T ^ 4) by ring.
  pose proof (Ce_pos g Hg rho Hr). assert (0 < Ce g rho * T) by nra. lra.
Qed.

(** ** Sound speed *)
Section Sound.
  Variable g : rad_gas.
  Hypothesis Hg : proper_gas g.
  Variables rho T : R.
  Hypothesis Hr : 0 < rho.
  Hypothesis HT : 0 < T.
  Let K := kb / (rg_mmw g * mp).
  Let h := / (rg_gamma g - 1).
  Lemma K_pos : 0 < K.
  Proof. destruct Hg. unfold K. pose proof kb_pos. pose proof mp_pos. apply Rdiv_lt_0_compat; [lra|]. now apply Rmult_lt_0_compat. Qed.
  Lemma h_pos : 0 < h. Proof. destruct Hg. unfold h. apply Rinv_0_lt_compat. lra. Qed.
  Lemma te_K r t : total_energy g r t = K * h * r * t + ar * t ^ 4.
  Proof. unfold total_energy, gas_energy, gas_pressure, radiation_energy, K, h. unfold Rdiv. ring. Qed.
  Lemma tp_K r t : total_pressure g r t = K * r * t + ar * t ^ 4 / 3.
  Proof. unfold total_pressure, gas_pressure, radiation_pressure, radiation_energy, K. unfold Rdiv. ring. Qed.
  Let al := ar * T ^ 4 / 3 / (K * rho * T).
  Definition c2 : R := K * T * (1 + h + 20 * al + 16 * al * al) / (h + 12 * al).
  Lemma al_pos : 0 < al.
  Proof.
    unfold al. pose proof K_pos. pose proof ar_pos. pose proof (pow_lt T 4 HT).
    apply Rdiv_lt_0_compat; [nra|]. apply Rmult_lt_0_compat; [nra|exact HT].
  Qed.
  Lemma c2_pos : 0 < c2.
  Proof. pose proof K_pos. pose proof h_pos. pose proof al_pos. unfold c2. apply Rdiv_lt_0_compat; [|lra]. apply Rmult_lt_0_compat; nra. Qed.
  Definition dT : R := T / rho * (1 + 4 * al) / (h + 12 * al).
  Lemma energy_slope Tf : ex_derive Tf rho -> Tf rho = T ->
    Derive (fun r => total_energy g r (Tf r) / r) rho = (K * h + 4 * ar * T ^ 3 / rho) * Derive Tf rho - ar * T ^ 4 / rho ^ 2.
  Proof.
    intros Hd HTf. rewrite (Derive_ext _ (fun r => (K * h * r * Tf r + ar * Tf r ^ 4) / r)) by (intros; now rewrite te_K).
    apply is_derive_unique. auto_derive; [repeat split; first [exact Hd|apply Rgt_not_eq; exact Hr]|]. rewrite HTf. change (Derive (fun x => Tf x) rho) with (Derive Tf rho). field. lra.
  Qed.
  Lemma pressure_slope Tf : ex_derive Tf rho -> Tf rho = T ->
    Derive (fun r => total_pressure g r (Tf r)) rho = K * T + (K * rho + 4 * ar * T ^ 3 / 3) * Derive Tf rho.
  Proof.
    intros Hd HTf. rewrite (Derive_ext _ (fun r => K * r * Tf r + ar * Tf r ^ 4 / 3)) by (intros; now rewrite tp_K).
    apply is_derive_unique. auto_derive; [repeat split; exact Hd|]. rewrite HTf. change (Derive (fun x => Tf x) rho) with (Derive Tf rho). field.
  Qed.
  Lemma ar_al : ar = 3 * K * rho * al / T ^ 3.
  Proof. unfold al. pose proof K_pos. field. repeat split; lra. Qed.
  Lemma isentropic_slope Tf : Tf rho = T -> isentropic_at g Tf rho -> Derive Tf rho = dT.
  Proof.
    intros HTf [Hd H]. rewrite energy_slope in H by assumption. rewrite HTf, tp_K in H.
    pose proof K_pos. pose proof h_pos. pose proof al_pos. assert (Q : 0 < h + 12 * al) by lra. rewrite ar_al in H.
    assert (E : K * (h + 12 * al) * Derive Tf rho = K * T / rho * (1 + 4 * al)).
    { apply Rplus_eq_reg_r with (- (3 * K * rho * al / T ^ 3 * T ^ 4 / rho ^ 2)).
      transitivity ((K * h + 4 * (3 * K * rho * al / T ^ 3) * T ^ 3 / rho) * Derive Tf rho - 3 * K * rho * al / T ^ 3 * T ^ 4 / rho ^ 2); [field; lra|].
      rewrite H. field. lra. }
    unfold dT. apply Rmult_eq_reg_l with (K * (h + 12 * al)); [|apply Rgt_not_eq; nra]. rewrite E. field. lra.
  Qed.
  Lemma isentropic_pressure Tf : Tf rho = T -> isentropic_at g Tf rho -> Derive (fun r => total_pressure g r (Tf r)) rho = c2.
  Proof.
    intros HTf HI. rewrite pressure_slope by (try assumption; apply HI). rewrite (isentropic_slope Tf HTf HI).
    pose proof K_pos. pose proof h_pos. pose proof al_pos. rewrite ar_al. unfold dT, c2. field. repeat split; lra.
  Qed.
  Lemma isentropic_exists : exists Tf, Tf rho = T /\ isentropic_at g Tf rho.
  Proof.
    exists (fun r => T + dT * (r - rho)). assert (E : T + dT * (rho - rho) = T) by ring. split; [exact E|].
    assert (Hd : ex_derive (fun r => T + dT * (r - rho)) rho) by (auto_derive; exact I). split; [exact Hd|].
    rewrite energy_slope by (try assumption; exact E). replace (Derive (fun r => T + dT * (r - rho)) rho) with dT.
    - rewrite E, tp_K. pose proof K_pos. pose proof h_pos. pose proof al_pos. rewrite ar_al. unfold dT. field. repeat split; lra.
    - symmetry. apply is_derive_unique. auto_derive; [exact I|ring].
  Qed.
  (** Between 4/3 and gamma times pressure over density. *)
  Lemma c2_gamma : 4 / 3 <= rg_gamma g -> 4 / 3 * (total_pressure g rho T / rho) <= c2 <= rg_gamma g * (total_pressure g rho T / rho).
  Proof.
    intros HG. pose proof K_pos as PK. pose proof h_pos as Ph. pose proof al_pos as Pa.
    assert (EP : total_pressure g rho T / rho = K * T * (1 + al)).
    { rewrite tp_K. rewrite ar_al. field. lra. }
    rewrite EP. assert (Q : 0 < h + 12 * al) by lra. assert (PT : 0 < K * T) by nra.
    assert (Hh : h * (rg_gamma g - 1) = 1) by (unfold h; field; lra).
    assert (Hh3 : h <= 3) by nra.
    split.
    - apply Rmult_le_reg_r with (h + 12 * al); [exact Q|]. unfold c2.
      replace (K * T * (1 + h + 20 * al + 16 * al * al) / (h + 12 * al) * (h + 12 * al)) with (K * T * (1 + h + 20 * al + 16 * al * al)) by (field; lra).
      replace (4 / 3 * (K * T * (1 + al)) * (h + 12 * al)) with (K * T * (4 / 3 * (1 + al) * (h + 12 * al))) by ring.
      apply Rmult_le_compat_l; [lra|]. nra.
    - apply Rmult_le_reg_r with (h + 12 * al); [exact Q|]. unfold c2.
      replace (K * T * (1 + h + 20 * al + 16 * al * al) / (h + 12 * al) * (h + 12 * al)) with (K * T * (1 + h + 20 * al + 16 * al * al)) by (field; lra).
      replace (rg_gamma g * (K * T * (1 + al)) * (h + 12 * al)) with (K * T * (rg_gamma g * (1 + al) * (h + 12 * al))) by ring.
      apply Rmult_le_compat_l; [lra|]. set (ga := rg_gamma g) in *.
      replace (ga * (1 + al) * (h + 12 * al)) with (ga * h + (ga * h + 12 * ga) * al + 12 * ga * (al * al)) by ring.
      replace (ga * h) with (1 + h) by lra. assert (20 <= 1 + h + 12 * ga).
      { assert (0 <= (ga - 4 / 3)) by lra. assert (1 / 3 <= h \/ h < 1 / 3) by lra. nra. }
      nra.
  Qed.
End Sound.
Lemma sound_algebra h al K T rho : 0 < rho -> 0 < h + 12 * al ->
  (1 + h + 20 * al + 16 * al * al) / (h + 12 * al) * (K * rho * T) / rho = K * T * (1 + h + 20 * al + 16 * al * al) / (h + 12 * al).
Proof. intros H1 H2. field. lra. Qed.
Lemma sound_expr g rho T : proper_gas g -> 0 < rho -> 0 < T ->
  (rg_gamma g / (rg_gamma g - 1) + 20 * (ar * (T * T * T * T) / 3 / (rho * kb * T / (rg_mmw g * mp))) +
     16 * (ar * (T * T * T * T) / 3 / (rho * kb * T / (rg_mmw g * mp))) * (ar * (T * T * T * T) / 3 / (rho * kb * T / (rg_mmw g * mp)))) /
  (1 / (rg_gamma g - 1) + 12 * (ar * (T * T * T * T) / 3 / (rho * kb * T / (rg_mmw g * mp)))) * (rho * kb * T / (rg_mmw g * mp)) / rho = c2 g rho T.
Proof.
  intros Hg Hr HT. pose proof (al_pos g Hg rho T Hr HT) as Ha. pose proof (h_pos g Hg) as Hh. unfold c2.
  replace (rho * kb * T / (rg_mmw g * mp)) with (kb / (rg_mmw g * mp) * rho * T) by (unfold Rdiv; ring).
  replace (T * T * T * T) with (T ^ 4) by ring.
  replace (1 / (rg_gamma g - 1)) with (/ (rg_gamma g - 1)) by (unfold Rdiv; ring).
  replace (rg_gamma g / (rg_gamma g - 1)) with (1 + / (rg_gamma g - 1)) by (destruct Hg; field; lra).
  revert Ha Hh. generalize (ar * T ^ 4 / 3 / (kb / (rg_mmw g * mp) * rho * T)). generalize (/ (rg_gamma g - 1)). generalize (kb / (rg_mmw g * mp)).
  intros K h al Ha Hh. apply sound_algebra; lra.
Qed.
Lemma sound_c2 g rho P : proper_gas g -> 0 < rho -> 0 < P ->
  rg_sound g rho P = sqrt (c2 g rho (rg_temp_from_pres g rho P)).
Proof.
  intros Hg Hr HP. rewrite <- sound_expr by (try assumption; now apply temp_from_pres_pos). unfold rg_sound. cbv zeta. reflexivity.
Qed.
Theorem sound_isentropic g rho P : proper_gas g -> 0 < rho -> 0 < P ->
  let T := rg_temp_from_pres g rho P in
  0 < rg_sound g rho P /\ (exists Tf, Tf rho = T /\ isentropic_at g Tf rho) /\
  (forall Tf, Tf rho = T -> isentropic_at g Tf rho -> Derive (fun r => total_pressure g r (Tf r)) rho = rg_sound g rho P ^ 2) /\
  (4 / 3 <= rg_gamma g -> 4 / 3 * (total_pressure g rho T / rho) <= rg_sound g rho P ^ 2 <= rg_gamma g * (total_pressure g rho T / rho)).
Proof.
  intros Hg Hr HP. cbv zeta. rewrite sound_c2 by assumption. pose proof (temp_from_pres_pos g rho P Hg Hr HP) as HT.
  revert HT. generalize (rg_temp_from_pres g rho P). intros T HT. pose proof (c2_pos g Hg rho T Hr HT) as Pc.
  rewrite pow2_sqrt by lra. split; [now apply sqrt_lt_R0|]. split; [now apply isentropic_exists|].
  split; [intros Tf; now apply isentropic_pressure|]. now apply c2_gamma.
Qed.

(** ** A dilute hot medium *)
Definition hot_gas : rad_gas := mkRG (5 / 3) 1.
Lemma hot_proper : proper_gas hot_gas. Proof. unfold proper_gas, hot_gas. cbn. lra. Qed.
Lemma ar_lower : 6 / 10 ^ 16 <= ar.
Proof.
  unfold ar. pose proof PI_RGT_0. assert (3 <= PI) by (pose proof PI2_3_2; lra). assert (243 <= PI ^ 5).
  { replace 243 with (3 ^ 5) by ring. apply pow_incr. lra. }
  assert (Q : 0 < 15 * hplanck ^ 3 * clight ^ 3) by (unfold hplanck, clight; lra).
  apply Rmult_le_reg_r with (15 * hplanck ^ 3 * clight ^ 3); [exact Q|].
  replace (8 * PI ^ 5 * kb ^ 4 / (15 * hplanck ^ 3 * clight ^ 3) * (15 * hplanck ^ 3 * clight ^ 3)) with (8 * PI ^ 5 * kb ^ 4) by (field; unfold hplanck, clight; split; lra).
  apply Rle_trans with (8 * 243 * kb ^ 4).
  - unfold hplanck, clight, kb. lra.
  - apply Rmult_le_compat_r; [apply pow_le; unfold kb; lra|lra].
Qed.
Lemma hot_dilute : let rho := 1 / 10 ^ 13 in let T := 10 ^ 7 in
  10 ^ 14 * gas_energy hot_gas rho T <= radiation_energy T /\ 10 ^ 14 * gas_pressure hot_gas rho T <= radiation_pressure T.
Proof.
  cbv zeta. pose proof ar_lower as L. unfold gas_energy, radiation_pressure, radiation_energy, gas_pressure, hot_gas. cbn [rg_gamma rg_mmw].
  unfold kb, mp. split; lra.
Qed.

Lemma make_rad_gas_spec gamma mmw :
  (forall g m, make_rad_gas gamma mmw = Ok (mkRG g m) <->
     gamma = XR g /\ mmw = XR m /\ 1 < g /\ 0 < m) /\
  ((exists w, make_rad_gas gamma mmw = Throw w) <->
     ~ (exists g m, gamma = XR g /\ mmw = XR m /\ 1 < g /\ 0 < m)).
Proof.
  unfold make_rad_gas.
  destruct gamma as [g0|b|]; cbn [xfinite xleb negb orb].
  2,3: split; [intros g m; split; [discriminate|intros (H & _); discriminate]|];
       split; [intros _ (g & m & H & _); discriminate|eauto].
  destruct (rleb g0 1) eqn:E1.
  { apply rleb_true in E1. split.
    - intros g m. split; [discriminate|]. intros (H & _ & ? & _). injection H as ->. lra.
    - split; [|eauto]. intros _ (g & m & H & _ & ? & _). injection H as ->. lra. }
  apply rleb_false in E1.
  destruct mmw as [m0|b|]; cbn [xfinite xleb negb orb].
  2,3: split; [intros g m; split; [discriminate|intros (_ & H & _); discriminate]|];
       split; [intros _ (g & m & _ & H & _); discriminate|eauto].
  destruct (rleb m0 0) eqn:E2.
  { apply rleb_true in E2. split.
    - intros g m. split; [discriminate|]. intros (_ & H & _ & ?). injection H as ->. lra.
    - split; [|eauto]. intros _ (g & m & _ & H & _ & ?). injection H as ->. lra. }
  apply rleb_false in E2. split.
  - intros g m. split.
    + intros H. injection H as -> ->. auto.
    + intros (H & H' & _). injection H as ->. injection H' as ->. reflexivity.
  - split; [intros [w H]; discriminate|]. intros H. exfalso. apply H. exists g0, m0. auto.
Qed.

Lemma ar_upper : ar <= 1 / 10 ^ 14.
Proof.
  unfold ar. pose proof PI_RGT_0. assert (PI <= 4) by (pose proof PI_4; lra). assert (PI ^ 5 <= 4 ^ 5) by (apply pow_incr; lra).
  assert (Q : 0 < 15 * hplanck ^ 3 * clight ^ 3) by (unfold hplanck, clight; lra).
  apply Rmult_le_reg_r with (15 * hplanck ^ 3 * clight ^ 3); [exact Q|].
  replace (8 * PI ^ 5 * kb ^ 4 / (15 * hplanck ^ 3 * clight ^ 3) * (15 * hplanck ^ 3 * clight ^ 3)) with (8 * PI ^ 5 * kb ^ 4) by (field; unfold hplanck, clight; split; lra).
  apply Rle_trans with (8 * 4 ^ 5 * kb ^ 4).
  - apply Rmult_le_compat_r; [apply pow_le; unfold kb; lra|lra].
  - unfold hplanck, clight, kb. lra.
Qed.
Lemma radiation_dominated g rho T : proper_gas g -> 0 < rho -> 0 < T ->
  (10 ^ 14 * gas_energy g rho T <= radiation_energy T -> 30 * T <= rg_temp_from_evol g rho (rg_evol_from_temp g rho T)) /\
  (10 ^ 14 * gas_pressure g rho T <= radiation_pressure T -> 30 * T <= rg_temp_from_pres g rho (rg_pres_from_temp g rho T)) /\
  says_no_convergence (solve_evol g rho (rg_evol_from_temp g rho T)) = false /\
  says_no_convergence (solve_pres g rho (rg_pres_from_temp g rho T)) = false.
Proof.
  intros Hg Hr HT. rewrite evol_from_temp_total, pres_from_temp_total by assumption.
  destruct (energy_bounds g rho T Hg Hr HT) as (_ & _ & _ & H1 & H2). destruct (pressure_bounds g rho T Hg Hr HT) as (_ & _ & _ & H3 & H4).
  exact (conj H1 (conj H3 (conj H2 H4))).
Qed.
Lemma round_trip_witness : exists g rho T, proper_gas g /\ 0 < rho /\ 0 < T /\
    30 * T <= rg_temp_from_evol g rho (rg_evol_from_temp g rho T) /\
    30 * T <= rg_temp_from_pres g rho (rg_pres_from_temp g rho T) /\
    700000 * rg_evol_from_temp g rho T <= rg_evol_from_pres g rho (rg_pres_from_temp g rho T) /\
    says_no_convergence (solve_evol g rho (rg_evol_from_temp g rho T)) = false /\
    says_no_convergence (solve_pres g rho (rg_pres_from_temp g rho T)) = false.
Proof.
  exists hot_gas, (1 / 10 ^ 13), (10 ^ 7). pose proof hot_proper as Hg. assert (Hr : 0 < 1 / 10 ^ 13) by lra. assert (HT : 0 < 10 ^ 7) by lra.
  destruct hot_dilute as [D1 D2]. destruct (radiation_dominated hot_gas _ _ Hg Hr HT) as (H1 & H2 & H3 & H4).
  split; [exact Hg|]. split; [exact Hr|]. split; [exact HT|]. split; [exact (H1 D1)|]. split; [exact (H2 D2)|].
  split; [|exact (conj H3 H4)]. apply evol_from_pres_explodes; try assumption.
  assert (0 <= gas_energy hot_gas (1 / 10 ^ 13) (10 ^ 7)); [|lra]. rewrite gas_energy_C by assumption. pose proof (Ce_pos hot_gas Hg _ Hr). nra.
Qed.
Lemma round_trips_all g rho T : proper_gas g -> 0 < rho -> 0 < T ->
    rg_evol_from_temp g rho T = gas_energy g rho T + radiation_energy T /\
    rg_pres_from_temp g rho T = gas_pressure g rho T + radiation_pressure T /\
    T <= rg_temp_from_evol g rho (rg_evol_from_temp g rho T) /\ T <= rg_temp_from_pres g rho (rg_pres_from_temp g rho T) /\
    rg_pres_from_temp g rho T <= rg_pres_from_evol g rho (rg_evol_from_temp g rho T) /\
    rg_evol_from_temp g rho T <= rg_evol_from_pres g rho (rg_pres_from_temp g rho T) /\
    (radiation_energy T <= 10 ^ 10 * gas_energy g rho T ->
       rg_temp_from_evol g rho (rg_evol_from_temp g rho T) <= T + Rmax (3 / 10 ^ 6) (T / 10 ^ 15)) /\
    (radiation_pressure T <= 10 ^ 10 * gas_pressure g rho T ->
       rg_temp_from_pres g rho (rg_pres_from_temp g rho T) <= T + Rmax (3 / 10 ^ 6) (T / 10 ^ 15)).
Proof.
  intros Hg Hr HT. split; [now apply evol_from_temp_total|]. split; [now apply pres_from_temp_total|].
  destruct (round_trips g rho T Hg Hr HT) as (R1 & R2 & R3 & R4). split; [exact R1|]. split; [exact R2|]. split; [exact R3|]. split; [exact R4|].
  rewrite evol_from_temp_total, pres_from_temp_total by assumption.
  destruct (energy_bounds g rho T Hg Hr HT) as (_ & _ & H1 & _). destruct (pressure_bounds g rho T Hg Hr HT) as (_ & _ & H2 & _).
  exact (conj H1 H2).
Qed.
