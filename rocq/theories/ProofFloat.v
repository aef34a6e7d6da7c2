(** * Rounding and NaN: C45, C46, C68. *)
From Coq Require Import ZArith List Bool Reals Lra Lia.
From Coq Require SpecFloat.
From Flocq Require Import Core.Core IEEE754.BinarySingleNaN.
Require Import Flocq.Prop.Sterbenz.
From Verif Require Import ModelFloat.
Import ListNotations.
Local Open Scope R_scope.

(** ** Reductions *)
Lemma kmin_nan a b : is_nan a = false -> is_nan (kmin a b) = false.
Proof.
  intros H. unfold kmin. destruct (Bltb b a) eqn:E; [|exact H]. destruct b; try reflexivity. destruct a; discriminate.
Qed.
Lemma kmin_neg a b : is_nan a = false -> Bltb (kmin a b) dzero = Bltb a dzero || Bltb b dzero.
Proof.
  intros H. unfold kmin. destruct (Bltb b a) eqn:E.
  - destruct a as [sa|sa| |sa ma ea Ha], b as [sb|sb| |sb mb eb Hb]; try discriminate; try destruct sa; try destruct sb; try discriminate; reflexivity.
  - destruct a as [sa|sa| |sa ma ea Ha], b as [sb|sb| |sb mb eb Hb]; try discriminate; try destruct sa; try destruct sb; try discriminate; reflexivity.
Qed.
Lemma reduce_min_spec s : is_nan (reduce_min s) = false /\
  Bltb (reduce_min s) dzero = existsb (fun x => Bltb x dzero) (cells_of_schedule s).
Proof.
  induction s as [cells|a [A1 A2] b [B1 B2]]; cbn [reduce_min cells_of_schedule].
  - assert (G : forall l a, is_nan a = false -> is_nan (fold_left kmin l a) = false /\
      Bltb (fold_left kmin l a) dzero = Bltb a dzero || existsb (fun x => Bltb x dzero) l).
    { induction l as [|x l IH]; intros a Ha; cbn [fold_left existsb]; [split; [exact Ha|now rewrite orb_false_r]|].
      destruct (IH (kmin a x) (kmin_nan a x Ha)) as [H1 H2]. split; [exact H1|]. rewrite H2, (kmin_neg a x Ha), orb_assoc. reflexivity. }
    destruct (G cells dmax eq_refl) as [H1 H2]. split; [exact H1|]. rewrite H2. reflexivity.
  - split; [now apply kmin_nan|]. rewrite (kmin_neg _ _ A1), A2, B2, existsb_app. reflexivity.
Qed.

Lemma alarm_spec s : energy_alarm s = existsb (fun x => Bltb x dzero) (cells_of_schedule s).
Proof. unfold energy_alarm. destruct (reduce_min_spec s) as [-> ->]. reflexivity. Qed.

Lemma kmax_nan_r a b : is_nan b = true -> kmax a b = a.
Proof. destruct b; try discriminate. intros _. unfold kmax. destruct a as [[]|[]| |[]]; reflexivity. Qed.
Lemma kmax_lowest : kmax dlowest dlowest = dlowest.
Proof. unfold kmax. replace (Bltb dlowest dlowest) with false by (vm_compute; reflexivity). reflexivity. Qed.
Lemma reduce_max_nan s : forallb is_nan (cells_of_schedule s) = true -> reduce_max s = dlowest.
Proof.
  induction s as [cells|a IHa b IHb]; cbn [reduce_max cells_of_schedule].
  - induction cells as [|x l IH]; cbn; [reflexivity|]. intros H. apply andb_prop in H. destruct H as [H1 H2].
    rewrite (kmax_nan_r _ _ H1). now apply IH.
  - rewrite forallb_app. intros H. apply andb_prop in H. destruct H as [H1 H2]. rewrite (IHa H1), (IHb H2). exact kmax_lowest.
Qed.

Lemma all_nan_goes_on s : forallb is_nan (cells_of_schedule s) = true ->
  energy_alarm s = false /\ Bltb (time_step_of s) dzero = true.
Proof.
  intros H. split.
  - rewrite alarm_spec. induction (cells_of_schedule s) as [|x l IH]; [reflexivity|]. cbn in *. apply andb_prop in H. destruct H as [H1 H2].
    rewrite (IH H2), orb_false_r. destruct x; try discriminate. reflexivity.
  - unfold time_step_of. rewrite (reduce_max_nan s H). vm_compute. reflexivity.
Qed.

(** ** The clock *)
Notation fexp := (SpecFloat.fexp 53 1024).
Notation rnd := (round radix2 fexp ZnearestE).
Notation fmt := (generic_format radix2 fexp).
#[local] Instance vexp : Valid_exp fexp := fexp_correct 53 1024 prec64.

Lemma fmt_B2R (x : double) : fmt (B2R x).
Proof. apply generic_format_B2R. Qed.
Lemma rnd_fmt x : fmt x -> rnd x = x.
Proof. intros H. apply round_generic; [apply valid_rnd_N|exact H]. Qed.
Lemma rnd_le x y : x <= y -> rnd x <= rnd y.
Proof. apply round_le; [exact vexp|apply valid_rnd_N]. Qed.
Lemma small (x : double) : is_finite x = true -> Rabs (B2R x) < bpow radix2 1024.
Proof. intros _. apply abs_B2R_lt_emax. Qed.

Lemma minus_ok (a b : double) : is_finite a = true -> is_finite b = true -> 0 <= B2R b <= B2R a ->
  B2R (dminus a b) = rnd (B2R a - B2R b) /\ is_finite (dminus a b) = true /\ 0 <= B2R (dminus a b) <= B2R a.
Proof.
  intros Ha Hb Hab. pose proof (Bminus_correct 53 1024 prec64 emax64 mode_NE a b Ha Hb) as H. cbn [round_mode] in H.
  assert (R1 : 0 <= rnd (B2R a - B2R b)).
  { rewrite <- (rnd_fmt 0) by apply generic_format_0. apply rnd_le. lra. }
  assert (R2 : rnd (B2R a - B2R b) <= B2R a).
  { rewrite <- (rnd_fmt (B2R a)) at 2 by apply fmt_B2R. apply rnd_le. lra. }
  rewrite Rlt_bool_true in H.
  - destruct H as (H1 & H2 & _). unfold dminus. rewrite H1. auto.
  - rewrite Rabs_pos_eq by exact R1. pose proof (small a Ha). rewrite Rabs_pos_eq in H0 by lra. lra.
Qed.

Lemma plus_ok (a b te : double) : is_finite a = true -> is_finite b = true -> is_finite te = true ->
  Rabs (rnd (B2R a + B2R b)) < bpow radix2 1024 ->
  B2R (dplus a b) = rnd (B2R a + B2R b) /\ is_finite (dplus a b) = true.
Proof.
  intros Ha Hb _ Hlt. pose proof (Bplus_correct 53 1024 prec64 emax64 mode_NE a b Ha Hb) as H. cbn [round_mode] in H.
  rewrite Rlt_bool_true in H by exact Hlt. destruct H as (H1 & H2 & _). unfold dplus. auto.
Qed.

(** Adding the rounded difference: at most one unit in the last place away, and exact near the target or from 0. *)
Section Target.
Variables (t te : double).
Hypothesis Ht : is_finite t = true.
Hypothesis He : is_finite te = true.
Hypothesis H0 : 0 <= B2R t <= B2R te.
Notation d := (dminus te t).
Notation x := (B2R t + B2R d).

Lemma gap : Rabs (x - B2R te) <= / 2 * ulp radix2 fexp (B2R te).
Proof.
  destruct (minus_ok te t He Ht H0) as (E & _ & _). rewrite E.
  replace (B2R t + rnd (B2R te - B2R t) - B2R te) with (rnd (B2R te - B2R t) - (B2R te - B2R t)) by ring.
  eapply Rle_trans; [apply error_le_half_ulp; exact vexp|]. apply Rmult_le_compat_l; [lra|].
  apply ulp_le_pos; [exact vexp|apply fexp_monotone|lra|lra].
Qed.

Lemma near : Rabs (rnd x - B2R te) <= ulp radix2 fexp (B2R te).
Proof.
  destruct (round_N_pt radix2 fexp (fun z => negb (Z.even z)) x) as [_ N].
  specialize (N (B2R te) (fmt_B2R te)). pose proof gap as G.
  replace (rnd x - B2R te) with ((rnd x - x) + (x - B2R te)) by ring.
  eapply Rle_trans; [apply Rabs_triang|]. rewrite (Rabs_minus_sym (B2R te) x) in N. lra.
Qed.

Lemma exact_near : (B2R t = 0 \/ B2R te / 2 <= B2R t) -> rnd x = B2R te /\ B2R d = B2R te - B2R t.
Proof.
  intros H. destruct (minus_ok te t He Ht H0) as (E & _ & _).
  assert (F : fmt (B2R te - B2R t)).
  { destruct H as [->|H]; [rewrite Rminus_0_r; apply fmt_B2R|].
    apply sterbenz; [exact vexp|apply fexp_monotone|apply fmt_B2R|apply fmt_B2R|lra]. }
  rewrite E, (rnd_fmt _ F). split; [|reflexivity]. replace (B2R t + (B2R te - B2R t)) with (B2R te) by ring. apply rnd_fmt, fmt_B2R.
Qed.

Lemma ulp_small : 0 < B2R te -> ulp radix2 fexp (B2R te) <= B2R te.
Proof.
  intros H. rewrite <- (Rabs_pos_eq (B2R te)) at 2 by lra. apply ulp_le_abs; [lra|apply fmt_B2R].
Qed.

Lemma target_finite : 0 < B2R te < bpow radix2 1023 ->
  B2R (time_of_output te t) = rnd x /\ is_finite (time_of_output te t) = true.
Proof.
  intros [Hp Hb]. destruct (minus_ok te t He Ht H0) as (E & F & G). apply (plus_ok t d te Ht F He).
  pose proof near as N. assert (R1 : 0 <= rnd x) by (rewrite <- (rnd_fmt 0) by apply generic_format_0; apply rnd_le; lra).
  rewrite Rabs_pos_eq by exact R1. apply Rabs_le_inv in N. pose proof (ulp_small Hp).
  replace (bpow radix2 1024) with (2 * bpow radix2 1023); [lra|].
  change 1024%Z with (1 + 1023)%Z. rewrite bpow_plus. reflexivity.
Qed.
End Target.

Lemma same_double (a b : double) : is_finite a = true -> is_finite b = true -> B2R a = B2R b -> 0 < B2R b -> a = b.
Proof.
  intros Ha Hb E Hp. apply B2R_Bsign_inj; [exact Ha|exact Hb|exact E|].
  assert (P : forall y : double, is_finite y = true -> 0 < B2R y -> Bsign y = false).
  { intros y Hy Hpos. destruct y as [s|s| |s m e He]; try discriminate; cbn in *; [lra|]. destruct s; [|reflexivity]. exfalso.
    unfold F2R in Hpos. cbn in Hpos. pose proof (bpow_gt_0 radix2 e). assert (IZR (Z.neg m) < 0) by (apply IZR_lt; lia). nra. }
  rewrite (P a Ha) by lra. rewrite (P b Hb Hp). reflexivity.
Qed.

Lemma exact_time (t te : double) : is_finite t = true -> is_finite te = true -> 0 <= B2R t <= B2R te -> 0 < B2R te ->
  (B2R t = 0 \/ B2R te / 2 <= B2R t) -> time_of_output te t = te.
Proof.
  intros Ht He H0 Hp H. destruct (exact_near t te Ht He H0 H) as [E _].
  destruct (minus_ok te t He Ht H0) as (_ & F & _).
  destruct (plus_ok t (dminus te t) te Ht F He) as [P1 P2].
  { rewrite E. apply (small te He). }
  apply same_double; [exact P2|exact He| |exact Hp]. unfold time_of_output. rewrite P1. exact E.
Qed.

Lemma close_time (t te : double) : is_finite t = true -> is_finite te = true -> 0 <= B2R t <= B2R te -> 0 < B2R te < bpow radix2 1023 ->
  is_finite (time_of_output te t) = true /\ Rabs (B2R (time_of_output te t) - B2R te) <= ulp radix2 fexp (B2R te).
Proof.
  intros Ht He H0 Hp. destruct (target_finite t te Ht He H0 Hp) as [E F]. split; [exact F|]. rewrite E. now apply near.
Qed.

(** The sum of two non-negative doubles: rounded, or +infinity. *)
Lemma plus_pos (a b : double) : is_finite a = true -> is_finite b = true -> 0 <= B2R a -> 0 <= B2R b ->
  (B2R (dplus a b) = rnd (B2R a + B2R b) /\ is_finite (dplus a b) = true) \/ dplus a b = B754_infinity false.
Proof.
  intros Ha Hb Pa Pb. pose proof (Bplus_correct 53 1024 prec64 emax64 mode_NE a b Ha Hb) as H. cbn [round_mode] in H.
  destruct (Rlt_bool_spec (Rabs (rnd (B2R a + B2R b))) (bpow radix2 1024)) as [Hs|Hs].
  - left. destruct H as (H1 & H2 & _). unfold dplus. auto.
  - right. destruct H as [H1 H2]. assert (Hsg : Bsign a = false).
    { destruct a as [sa|sa| |sa ma ea Hma]; try discriminate.
      - destruct sa; [exfalso|reflexivity].
        assert (Rabs (rnd (B2R (B754_zero true : double) + B2R b)) = B2R b).
        { cbn [B2R]. rewrite Rplus_0_l, rnd_fmt by apply fmt_B2R. now apply Rabs_pos_eq. }
        pose proof (small b Hb). rewrite Rabs_pos_eq in H0 by exact Pb. rewrite H in Hs. lra.
      - cbn in Pa |- *. destruct sa; [exfalso|reflexivity]. unfold F2R in Pa. cbn in Pa. pose proof (bpow_gt_0 radix2 ea).
        assert (IZR (Z.neg ma) < 0) by (apply IZR_lt; lia). nra. }
    rewrite Hsg in H1. cbn in H1. unfold dplus. destruct (Bplus mode_NE a b) as [s|s| |s m e He]; try discriminate. inversion H1. reflexivity.
Qed.

Lemma clock_step (t te dt : double) : is_finite t = true -> is_finite te = true -> is_finite dt = true ->
  0 <= B2R t < B2R te -> B2R te < bpow radix2 1023 -> 0 <= B2R dt ->
  let t' := next_time te t dt in
  is_finite t' = true /\ B2R t <= B2R t' <= B2R te + ulp radix2 fexp (B2R te) /\
  (fst (end_of_run te t dt) = false -> B2R t' < B2R te /\ B2R t' = rnd (B2R t + B2R dt)) /\
  (fst (end_of_run te t dt) = true -> t' = time_of_output te t).
Proof.
  intros Ht He Hd H0 Hb Pd. cbv zeta. unfold next_time, end_of_run.
  pose proof (ulp_ge_0 radix2 fexp (B2R te)) as U.
  destruct (plus_pos t dt Ht Hd ltac:(lra) Pd) as [[E F]|E].
  - rewrite (Bleb_correct 53 1024 te (dplus t dt) He F). destruct (Rle_bool_spec (B2R te) (B2R (dplus t dt))) as [Hle|Hlt]; cbn [fst snd].
    + destruct (close_time t te Ht He ltac:(lra) ltac:(lra)) as [C1 C2]. fold (time_of_output te t). split; [exact C1|].
      split; [|split; [discriminate|reflexivity]]. apply Rabs_le_inv in C2. split; [|lra].
      destruct (target_finite t te Ht He ltac:(lra) ltac:(lra)) as [-> _]. destruct (minus_ok te t He Ht ltac:(lra)) as (_ & _ & G).
      rewrite <- (rnd_fmt (B2R t)) at 1 by apply fmt_B2R. apply rnd_le. lra.
    + split; [exact F|]. split; [|split; [intros _; split; [exact Hlt|exact E]|discriminate]]. split; [|lra].
      rewrite E. rewrite <- (rnd_fmt (B2R t)) at 1 by apply fmt_B2R. apply rnd_le. lra.
  - rewrite E. assert (L : Bleb te (B754_infinity false) = true) by (destruct te as [[]|[]| |[]]; try discriminate; reflexivity).
    rewrite L. cbn [fst snd]. destruct (close_time t te Ht He ltac:(lra) ltac:(lra)) as [C1 C2]. fold (time_of_output te t). split; [exact C1|].
    split; [|split; [discriminate|reflexivity]]. apply Rabs_le_inv in C2. split; [|lra].
    destruct (target_finite t te Ht He ltac:(lra) ltac:(lra)) as [-> _]. destruct (minus_ok te t He Ht ltac:(lra)) as (_ & _ & G).
    rewrite <- (rnd_fmt (B2R t)) at 1 by apply fmt_B2R. apply rnd_le. lra.
Qed.

(** ** Witnesses *)
(** 2^k, 1 + 2^-52 *)
Definition pow2 (k : Z) : double := Bldexp mode_NE Bone k.
Definition succ_one : double := dplus done (pow2 (-52)).

Lemma missed_end : exists t te dt : double,
  is_finite t = true /\ is_finite te = true /\ is_finite dt = true /\ Bltb dzero t = true /\ Bltb t te = true /\ Bltb dzero dt = true /\
  fst (end_of_run te t dt) = true /\ Bltb (next_time te t dt) te = true.
Proof. exists (pow2 (-53)), succ_one, (pow2 1). vm_compute. repeat split; reflexivity. Qed.

Lemma stalled : exists t te dt : double,
  is_finite t = true /\ is_finite te = true /\ is_finite dt = true /\ Bltb dzero t = true /\ Bltb t te = true /\ Bltb dzero dt = true /\
  fst (end_of_run te t dt) = false /\ next_time te t dt = t.
Proof.
  exists done, (pow2 1), (pow2 (-54)). repeat (split; [vm_compute; reflexivity|]). unfold next_time.
  replace (end_of_run (pow2 1) done (pow2 (-54))) with (false, pow2 (-54)) by (unfold end_of_run; replace (Bleb (pow2 1) (dplus done (pow2 (-54)))) with false by (vm_compute; reflexivity); reflexivity).
  cbn [snd]. apply B2SF_inj. vm_compute. reflexivity.
Qed.

Lemma alarm_iff s : energy_alarm s = true <-> exists x, In x (cells_of_schedule s) /\ Bltb x dzero = true.
Proof. rewrite alarm_spec. apply existsb_exists. Qed.

Lemma ends_exactly (t te : double) : is_finite t = true -> is_finite te = true -> 0 <= B2R t <= B2R te -> 0 < B2R te ->
  (B2R t = 0 \/ B2R te / 2 <= B2R t) ->
  forall dt, fst (end_of_run te t dt) = true -> next_time te t dt = te.
Proof.
  intros Ht He H0 Hp H dt Hd. unfold next_time, end_of_run in *. destruct (Bleb te (dplus t dt)); [|discriminate]. now apply exact_time.
Qed.
Lemma ends_close (t te : double) : is_finite t = true -> is_finite te = true -> 0 <= B2R t <= B2R te -> 0 < B2R te < bpow radix2 1023 ->
  forall dt, fst (end_of_run te t dt) = true ->
  is_finite (next_time te t dt) = true /\ Rabs (B2R (next_time te t dt) - B2R te) <= ulp radix2 fexp (B2R te).
Proof.
  intros Ht He H0 Hp dt Hd. unfold next_time, end_of_run in *. destruct (Bleb te (dplus t dt)); [|discriminate]. now apply close_time.
Qed.
Lemma clock_bounds (t te dt : double) : is_finite t = true -> is_finite te = true -> is_finite dt = true ->
  0 <= B2R t < B2R te -> B2R te < bpow radix2 1023 -> 0 <= B2R dt ->
  let t' := next_time te t dt in
  is_finite t' = true /\ B2R t <= B2R t' <= B2R te + ulp radix2 fexp (B2R te) /\
  (fst (end_of_run te t dt) = false -> B2R t' < B2R te).
Proof.
  intros H1 H2 H3 H4 H5 H6. destruct (clock_step t te dt H1 H2 H3 H4 H5 H6) as (A & B & C & _).
  split; [exact A|]. split; [exact B|]. intros H. now apply C.
Qed.

Lemma end_example : let t := dplus done (pow2 (-1)) in let te := pow2 1 in
  is_finite t = true /\ is_finite te = true /\ 0 <= B2R t <= B2R te /\ 0 < B2R te < bpow radix2 1023 /\ B2R te / 2 <= B2R t /\
  fst (end_of_run te t done) = true.
Proof.
  cbv zeta.
  assert (E1 : B2R (dplus done (pow2 (-1))) = 3 / 2).
  { replace (B2R (dplus done (pow2 (-1)))) with (SF2R radix2 (B2SF (dplus done (pow2 (-1))))) by apply SF2R_B2SF.
    replace (B2SF (dplus done (pow2 (-1)))) with (SpecFloat.S754_finite false 6755399441055744 (-52)) by (vm_compute; reflexivity).
    cbn. unfold F2R. cbn. lra. }
  assert (E2 : B2R (pow2 1) = 2).
  { replace (B2R (pow2 1)) with (SF2R radix2 (B2SF (pow2 1))) by apply SF2R_B2SF.
    replace (B2SF (pow2 1)) with (SpecFloat.S754_finite false 4503599627370496 (-51)) by (vm_compute; reflexivity).
    cbn. unfold F2R. cbn. lra. }
  rewrite E1, E2. split; [vm_compute; reflexivity|]. split; [vm_compute; reflexivity|]. split; [lra|]. split; [|split; [lra|vm_compute; reflexivity]].
  split; [lra|]. change 2 with (bpow radix2 1). apply bpow_lt. lia.
Qed.
