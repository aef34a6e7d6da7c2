(** * How far one step drives the atmosphere from rest (C102). *)
From Coq Require Import Reals Lra.
From Coquelicot Require Import Coquelicot.
From Verif Require Import SpecBalance.
Local Open Scope R_scope.

Lemma from_derivative (f f' : R -> R) : (forall x, 0 <= x -> is_derive f x (f' x)) -> 0 <= f 0 -> (forall x, 0 <= x -> 0 <= f' x) ->
  forall x, 0 <= x -> 0 <= f x.
Proof.
  intros Hd H0 Hp x Hx. destruct (MVT_gen f 0 x f') as (z & Hz & E).
  - intros y Hy. apply Hd. rewrite Rmin_left in Hy by lra. lra.
  - intros y Hy. rewrite Rmin_left in Hy by lra. apply continuity_pt_filterlim, (ex_derive_continuous f y). exists (f' y). apply Hd. lra.
  - rewrite Rmin_left in Hz by lra. pose proof (Hp z ltac:(lra)). pose proof (Rmult_le_pos (f' z) (x - 0) H ltac:(lra)). lra.
Qed.
Lemma d_sinh x : is_derive sinh x (cosh x).
Proof. unfold sinh, cosh. auto_derive; [trivial|]. field. Qed.
Lemma d_cosh x : is_derive cosh x (sinh x).
Proof. unfold sinh, cosh. auto_derive; [trivial|]. field. Qed.
Lemma cosh_1 x : 1 <= cosh x.
Proof.
  unfold cosh. pose proof (exp_pos x). pose proof (exp_pos (- x)). assert (E : exp x * exp (- x) = 1) by (rewrite <- exp_plus, Rplus_opp_r; apply exp_0).
  assert (0 <= (exp x - 1) * (exp x - 1) * exp (- x)) by (apply Rmult_le_pos; [apply Rle_0_sqr|lra]).
  replace ((exp x - 1) * (exp x - 1) * exp (- x)) with (exp x * (exp x * exp (- x)) - 2 * (exp x * exp (- x)) + exp (- x)) in * by ring. rewrite E in *. lra.
Qed.
Lemma cosh_gt x : 0 < x -> 1 < cosh x.
Proof.
  intros Hx. unfold cosh. pose proof (exp_pos x). pose proof (exp_pos (- x)). assert (E : exp x * exp (- x) = 1) by (rewrite <- exp_plus, Rplus_opp_r; apply exp_0).
  assert (1 < exp x) by (rewrite <- exp_0; now apply exp_increasing).
  assert (0 < (exp x - 1) * (exp x - 1) * exp (- x)) by (apply Rmult_lt_0_compat; [apply Rmult_lt_0_compat; lra|lra]).
  replace ((exp x - 1) * (exp x - 1) * exp (- x)) with (exp x * (exp x * exp (- x)) - 2 * (exp x * exp (- x)) + exp (- x)) in * by ring. rewrite E in *. lra.
Qed.
Lemma sinh_0' : sinh 0 = 0.
Proof. unfold sinh. rewrite Ropp_0. lra. Qed.
Lemma cosh_0' : cosh 0 = 1.
Proof. unfold cosh. rewrite Ropp_0, exp_0. lra. Qed.
Lemma sinh_nonneg x : 0 <= x -> 0 <= sinh x.
Proof. apply (from_derivative sinh cosh); [intros; apply d_sinh|rewrite sinh_0'; lra|intros y _; pose proof (cosh_1 y); lra]. Qed.
Lemma sinh_le_xcosh x : 0 <= x -> 0 <= x * cosh x - sinh x.
Proof.
  apply (from_derivative (fun x => x * cosh x - sinh x) (fun x => x * sinh x)).
  - intros y _. unfold cosh, sinh. auto_derive; [trivial|]. field.
  - rewrite sinh_0'. lra.
  - intros y Hy. apply Rmult_le_pos; [exact Hy|now apply sinh_nonneg].
Qed.
Lemma cosh_le x : 0 <= x -> 0 <= x * x / 2 * cosh x - (cosh x - 1).
Proof.
  apply (from_derivative (fun x => x * x / 2 * cosh x - (cosh x - 1)) (fun x => x * cosh x + x * x / 2 * sinh x - sinh x)).
  - intros y _. unfold cosh, sinh. auto_derive; [trivial|]. field.
  - rewrite cosh_0'. lra.
  - intros y Hy. pose proof (sinh_le_xcosh y Hy). pose proof (sinh_nonneg y Hy). nra.
Qed.
Lemma sinh_le x : 0 <= x -> 0 <= x * x * x / 6 * cosh x - (sinh x - x).
Proof.
  apply (from_derivative (fun x => x * x * x / 6 * cosh x - (sinh x - x)) (fun x => x * x / 2 * cosh x + x * x * x / 6 * sinh x - (cosh x - 1))).
  - intros y _. unfold cosh, sinh. auto_derive; [trivial|]. field.
  - rewrite sinh_0'. lra.
  - intros y Hy. pose proof (cosh_le y Hy). pose proof (sinh_nonneg y Hy). assert (0 <= y * y * y / 6 * sinh y); [|lra].
    apply Rmult_le_pos; [|assumption]. assert (0 <= y * y) by nra. nra.
Qed.
Lemma sinh_ge x : 0 <= x -> 0 <= sinh x - x - x * x * x / 6.
Proof.
  intros Hx. revert x Hx. apply (from_derivative (fun x => sinh x - x - x * x * x / 6) (fun x => cosh x - 1 - x * x / 2)).
  - intros y _. unfold cosh, sinh. auto_derive; [trivial|]. field.
  - rewrite sinh_0'. lra.
  - apply (from_derivative (fun x => cosh x - 1 - x * x / 2) (fun x => sinh x - x)).
    + intros y _. unfold cosh, sinh. auto_derive; [trivial|]. field.
    + rewrite cosh_0'. lra.
    + apply (from_derivative (fun x => sinh x - x) (fun x => cosh x - 1)).
      * intros y _. unfold cosh, sinh. auto_derive; [trivial|]. field.
      * rewrite sinh_0'. lra.
      * intros y _. pose proof (cosh_1 y). lra.
Qed.

Section Rates.
Variables (gam a g h : R).
Hypothesis Hgam : 1 < gam.
Hypothesis Ha : 0 < a.
Hypothesis Hg : 0 < g.
Hypothesis Hh : 0 < h.
Notation k := (thickness a g h).

Lemma k_pos : 0 < k.
Proof. unfold thickness. apply Rdiv_lt_0_compat; [now apply Rmult_lt_0_compat|exact Ha]. Qed.

Definition rate_mass (dt : R) : R := (half_u g dt * sinh k + half_c gam a g dt * (cosh k - 1)) / h.
Definition rate_push (dt : R) : R :=
  ((half_u g dt * half_u g dt + half_a gam a g dt) * sinh k + half_u g dt * (half_a gam a g dt + half_c gam a g dt * half_c gam a g dt) / half_c gam a g dt * (cosh k - 1)) / h - g.

Lemma half_0 : half_u g 0 = 0 /\ half_a gam a g 0 = a /\ half_c gam a g 0 = sqrt (gam * a).
Proof.
  assert (E : half_u g 0 = 0) by (unfold half_u; lra). assert (E2 : half_a gam a g 0 = a) by (unfold half_a; rewrite E; lra).
  split; [exact E|]. split; [exact E2|]. unfold half_c. now rewrite E2.
Qed.
Lemma sound_pos : 0 < sqrt (gam * a).
Proof. apply sqrt_lt_R0. nra. Qed.

Lemma near (f : R -> R) : ex_derive f 0 -> forall eps, 0 < eps -> exists d, 0 < d /\ forall x, 0 < x < d -> Rabs (f x - f 0) < eps.
Proof.
  intros H eps He. pose proof (ex_derive_continuous f 0 H) as C.
  destruct (proj1 (filterlim_locally f (f 0)) C (mkposreal eps He)) as [d Hd]. exists d. split; [apply cond_pos|].
  intros x Hx. specialize (Hd x). unfold ball in Hd. cbn in Hd. unfold AbsRing_ball, abs, minus, plus, opp in Hd. cbn in Hd.
  replace (f x - f 0) with (f x + - f 0) by ring. apply Hd. replace (x + - 0) with x by ring. rewrite Rabs_pos_eq; lra.
Qed.

Lemma small_steps eps : 0 < eps -> exists dt0, 0 < dt0 /\ forall dt, 0 < dt < dt0 ->
  subsonic gam a g dt /\
  Rabs ((new_mass gam a g h dt - 1) / dt - sqrt (gam * a) * (cosh k - 1) / h) < eps /\
  Rabs (new_momentum gam a g h dt / dt - g * (sinh k / k - 1)) < eps.
Proof.
  intros He. destruct half_0 as (Z1 & Z2 & Z3). pose proof sound_pos as Hs. pose proof k_pos as Hk. assert (Hga : 0 < gam * a) by nra.
  assert (D1 : ex_derive (fun dt => gam * half_a gam a g dt - half_u g dt * half_u g dt) 0) by (unfold half_a, half_u; auto_derive; trivial).
  assert (P : 0 < gam * (a - (gam - 1) * (- g * 0 / 2 * (- g * 0 / 2)) / 2)).
  { replace (a - (gam - 1) * (- g * 0 / 2 * (- g * 0 / 2)) / 2) with a by field. exact Hga. }
  assert (D2 : ex_derive rate_mass 0).
  { unfold rate_mass, half_c, half_a, half_u. auto_derive. replace (- g * 0 * / 2) with 0 by ring. 
    replace (a + - ((gam - 1) * (0 * 0) * / 2)) with a by ring. exact Hga. }
  assert (D3 : ex_derive rate_push 0).
  { unfold rate_push, half_c, half_a, half_u. auto_derive. replace (- g * 0 * / 2) with 0 by ring.
    replace (a + - ((gam - 1) * (0 * 0) * / 2)) with a by ring. repeat split; try exact Hga; try lra; trivial. }
  destruct (near _ D1 (gam * a) Hga) as (d1 & P1 & Q1). destruct (near _ D2 eps He) as (d2 & P2 & Q2). destruct (near _ D3 eps He) as (d3 & P3 & Q3).
  exists (Rmin d1 (Rmin d2 d3)). split; [repeat apply Rmin_pos; assumption|]. intros dt [T1 T2].
  pose proof (Rmin_l d1 (Rmin d2 d3)). pose proof (Rmin_r d1 (Rmin d2 d3)). pose proof (Rmin_l d2 d3). pose proof (Rmin_r d2 d3).
  specialize (Q1 dt ltac:(lra)). specialize (Q2 dt ltac:(lra)). specialize (Q3 dt ltac:(lra)). cbn beta in Q1. rewrite Z1, Z2 in Q1.
  split; [unfold subsonic; apply Rabs_def2 in Q1; lra|]. split.
  - replace (sqrt (gam * a) * (cosh k - 1) / h) with (rate_mass 0) by (unfold rate_mass; rewrite Z1, Z3; field; lra).
    replace ((new_mass gam a g h dt - 1) / dt) with (rate_mass dt) by (unfold rate_mass, new_mass; field; lra). exact Q2.
  - replace (g * (sinh k / k - 1)) with (rate_push 0)
      by (unfold rate_push; rewrite Z1, Z2, Z3; unfold thickness; field; repeat split; lra).
    replace (new_momentum gam a g h dt / dt) with (rate_push dt); [exact Q3|]. unfold rate_push, new_momentum. set (W := _ / h - g). field. lra.
Qed.

Lemma rates_bounds : 0 < cosh k - 1 <= k * k / 2 * cosh k /\ k * k / 6 <= sinh k / k - 1 <= k * k / 6 * cosh k.
Proof.
  pose proof k_pos as Hk. pose proof (cosh_gt k Hk). pose proof (cosh_le k ltac:(lra)). pose proof (sinh_le k ltac:(lra)) as S1. pose proof (sinh_ge k ltac:(lra)) as S2.
  split; [lra|]. assert (Hi : 0 < / k) by now apply Rinv_0_lt_compat. split.
  - apply (Rmult_le_reg_r k); [exact Hk|]. replace ((sinh k / k - 1) * k) with (sinh k - k) by (field; lra). lra.
  - apply (Rmult_le_reg_r k); [exact Hk|]. replace ((sinh k / k - 1) * k) with (sinh k - k) by (field; lra). lra.
Qed.

Lemma disturbed : exists dt0, 0 < dt0 /\ forall dt, 0 < dt < dt0 -> subsonic gam a g dt /\ 1 < new_mass gam a g h dt /\ 0 < new_momentum gam a g h dt.
Proof.
  destruct rates_bounds as ([B1 _] & [B2 _]). pose proof k_pos as Hk. pose proof sound_pos as Hs.
  assert (E1 : 0 < sqrt (gam * a) * (cosh k - 1) / h) by (apply Rdiv_lt_0_compat; [now apply Rmult_lt_0_compat|exact Hh]).
  assert (E2 : 0 < g * (sinh k / k - 1)) by (apply Rmult_lt_0_compat; nra).
  destruct (small_steps (Rmin (sqrt (gam * a) * (cosh k - 1) / h) (g * (sinh k / k - 1)))) as (d & Pd & Q); [now apply Rmin_pos|].
  exists d. split; [exact Pd|]. intros dt Hdt. destruct (Q dt Hdt) as (Q1 & Q2 & Q3).
  pose proof (Rmin_l (sqrt (gam * a) * (cosh k - 1) / h) (g * (sinh k / k - 1))). pose proof (Rmin_r (sqrt (gam * a) * (cosh k - 1) / h) (g * (sinh k / k - 1))).
  apply Rabs_def2 in Q2. apply Rabs_def2 in Q3. split; [exact Q1|]. split.
  - assert (0 < (new_mass gam a g h dt - 1) / dt) by lra. assert (new_mass gam a g h dt - 1 = (new_mass gam a g h dt - 1) / dt * dt) by (field; lra). nra.
  - assert (0 < new_momentum gam a g h dt / dt) by lra. assert (new_momentum gam a g h dt = new_momentum gam a g h dt / dt * dt) by (field; lra). nra.
Qed.
End Rates.
