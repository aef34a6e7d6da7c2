(** * Proofs about the conversions of values. *)
From Coq Require Import Ascii Reals Lra Lia ZifyBool.
From Coq Require String.
From Flocq Require Import Core.
From Verif Require Import Base ModelIni SpecIni ProofIni.
Local Open Scope Z_scope.
Local Open Scope list_scope.

(** ** Booleans *)
Lemma stob_true v : stob v = Ok true <-> spelled yes_spellings v.
Proof.
  unfold stob, spelled, alike, yes_spellings. cbn zeta.
  destruct (beqb (map to_lower v) (lit "true") || beqb (map to_lower v) (lit "yes") || beqb (map to_lower v) (lit "on") ||
    beqb (map to_lower v) (lit "1")) eqn:E.
  - split; [intros _|reflexivity]. rewrite !Bool.orb_true_iff in E. destruct E as [[[E|E]|E]|E].
    + exists (lit "true"). split; [cbn; tauto|exact E].
    + exists (lit "yes"). split; [cbn; tauto|exact E].
    + exists (lit "on"). split; [cbn; tauto|exact E].
    + exists (lit "1"). split; [cbn; tauto|exact E].
  - split; [match goal with |- context [if ?b then _ else _] => destruct b end; discriminate|]. intros (s & Hs & A). exfalso.
    rewrite !Bool.orb_false_iff in E. destruct E as [[[E1 E2] E3] E4].
    destruct Hs as [<-|[<-|[<-|[<-|[]]]]].
    + change (map to_lower (lit "true")) with (lit "true") in A. congruence.
    + change (map to_lower (lit "yes")) with (lit "yes") in A. congruence.
    + change (map to_lower (lit "on")) with (lit "on") in A. congruence.
    + change (map to_lower (lit "1")) with (lit "1") in A. congruence.
Qed.
Lemma stob_false v : stob v = Ok false <-> spelled no_spellings v.
Proof.
  unfold stob, spelled, alike, no_spellings. cbn zeta.
  destruct (beqb (map to_lower v) (lit "true") || beqb (map to_lower v) (lit "yes") || beqb (map to_lower v) (lit "on") ||
    beqb (map to_lower v) (lit "1")) eqn:F.
  - split; [discriminate|]. intros (s & Hs & A). exfalso. apply beqb_eq in A.
    destruct Hs as [<-|[<-|[<-|[<-|[]]]]]; rewrite A in F; discriminate F.
  - clear F.
    destruct (beqb (map to_lower v) (lit "false") || beqb (map to_lower v) (lit "no") || beqb (map to_lower v) (lit "off") ||
      beqb (map to_lower v) (lit "0")) eqn:E.
    + split; [intros _|reflexivity]. rewrite !Bool.orb_true_iff in E. destruct E as [[[E|E]|E]|E].
      * exists (lit "false"). split; [cbn; tauto|exact E].
      * exists (lit "no"). split; [cbn; tauto|exact E].
      * exists (lit "off"). split; [cbn; tauto|exact E].
      * exists (lit "0"). split; [cbn; tauto|exact E].
    + split; [discriminate|]. intros (s & Hs & A). exfalso.
      rewrite !Bool.orb_false_iff in E. destruct E as [[[E1 E2] E3] E4].
      destruct Hs as [<-|[<-|[<-|[<-|[]]]]].
      * change (map to_lower (lit "false")) with (lit "false") in A. congruence.
      * change (map to_lower (lit "no")) with (lit "no") in A. congruence.
      * change (map to_lower (lit "off")) with (lit "off") in A. congruence.
      * change (map to_lower (lit "0")) with (lit "0") in A. congruence.
Qed.
Lemma stob_total v : (exists b, stob v = Ok b) \/ exists msg, stob v = Throw msg.
Proof. unfold stob. cbn zeta. repeat match goal with |- context [if ?b then _ else _] => destruct b end; eauto. Qed.

(** ** Integers *)
Lemma digit_of_10 c d : digit_of 10 c = Some d <-> decimal_digit c /\ d = digit_value c.
Proof.
  unfold digit_of, decimal_digit, digit_value, to_lower. pose proof (code_range c) as R.
  destruct ((65 <=? code c) && (code c <=? 90)) eqn:U.
  - rewrite code_of by lia. rewrite Z2N.id by lia.
    replace ((48 <=? code c + 32) && (code c + 32 <=? 57)) with false by lia.
    replace ((97 <=? code c + 32) && (code c + 32 <=? 122)) with true by lia.
    replace (code c + 32 - 87 <? 10) with false by lia. split; [discriminate|lia].
  - destruct ((48 <=? code c) && (code c <=? 57)) eqn:D.
    + replace (code c - 48 <? 10) with true by lia. split; [intros [= <-]; lia|intros [_ ->]; reflexivity].
    + destruct ((97 <=? code c) && (code c <=? 122)) eqn:L.
      * replace (code c - 87 <? 10) with false by lia. split; [discriminate|lia].
      * cbn. split; [discriminate|lia].
Qed.
Lemma digit_of_none c : ~ decimal_digit c -> digit_of 10 c = None.
Proof. intros H. destruct (digit_of 10 c) as [d|] eqn:E; [|reflexivity]. apply digit_of_10 in E. tauto. Qed.
Definition no_digit (r : bytes) : Prop := forall c q, r = c :: q -> ~ decimal_digit c.
Definition accum (ds : bytes) (a : Z) : Z := fold_left (fun a c => 10 * a + digit_value c) ds a.
Lemma digits_app ds : forall a n r, (forall c, In c ds -> decimal_digit c) -> no_digit r ->
  digits 10 a n (ds ++ r) = (accum ds a, (List.length ds + n)%nat, r).
Proof.
  induction ds as [|c ds IH]; intros a n r Hd Hr; cbn [app].
  - destruct r as [|c r]; [reflexivity|]. cbn [digits]. now rewrite digit_of_none by exact (Hr c r eq_refl).
  - cbn [digits]. rewrite (proj2 (digit_of_10 c (digit_value c))) by (split; [apply Hd; now left|reflexivity]).
    rewrite IH by (exact Hr || (intros x Hx; apply Hd; now right)).
    cbn [accum fold_left List.length]. unfold accum. replace (a * 10 + digit_value c) with (10 * a + digit_value c) by lia.
    replace (List.length ds + Datatypes.S n)%nat with (Datatypes.S (List.length ds) + n)%nat by lia. reflexivity.
Qed.
Lemma decimal_dec c : {decimal_digit c} + {~ decimal_digit c}.
Proof. unfold decimal_digit. destruct (Z_le_dec 48 (code c)); [|right; lia]. destruct (Z_le_dec (code c) 57); [left|right]; lia. Qed.
Lemma digits_split s : exists ds r, s = ds ++ r /\ (forall c, In c ds -> decimal_digit c) /\ no_digit r.
Proof.
  induction s as [|c s (ds & r & -> & Hd & Hr)].
  - exists [], []. split; [reflexivity|split; [intros c []|intros c q; discriminate]].
  - destruct (decimal_dec c) as [D|D].
    + exists (c :: ds), r. split; [reflexivity|split; [|exact Hr]]. intros x [<-|Hx]; auto.
    + exists [], (c :: ds ++ r). split; [reflexivity|split; [intros x []|]]. now intros x q [= <- _].
Qed.
Lemma lskip_split s : exists w, s = w ++ lskip s /\ blank w /\ (forall c r, lskip s = c :: r -> is_space c = false).
Proof.
  induction s as [|c s (w & E & Hw & Hs)]; [exists []; split; [reflexivity|split; [exact blank_nil|discriminate]]|]. cbn [lskip].
  destruct (is_space c) eqn:Hc.
  - exists (c :: w). split; [cbn [app]; now f_equal|split; [|exact Hs]]. intros x [<-|Hx]; auto.
  - exists []. split; [reflexivity|split; [exact blank_nil|]]. now intros d r [= <- _].
Qed.
Lemma digit_facts c : decimal_digit c -> is_space c = false /\ c <> "-"%char /\ c <> "+"%char /\ c <> "."%char.
Proof.
  intros H. unfold decimal_digit in H. split; [unfold is_space; lia|]. split; [|split]; intros ->;
  [change (code "-"%char) with 45 in H|change (code "+"%char) with 43 in H|change (code "."%char) with 46 in H]; lia.
Qed.
Definition sg_of (sg : bytes) (z : Z) : Prop := ((sg = [] \/ sg = lit "+") /\ z = 1) \/ (sg = lit "-" /\ z = -1).
Lemma sign_app sg z t : sg_of sg z -> (forall c r, t = c :: r -> c <> "-"%char /\ c <> "+"%char) -> sign (sg ++ t) = (z, t).
Proof.
  intros [[[-> | ->] ->]|[-> ->]] Ht; [|reflexivity|reflexivity]. cbn [app]. destruct t as [|c t]; [reflexivity|].
  destruct (Ht c t eq_refl) as [A B]. cbn [sign].
  destruct (Ascii.eqb_spec c "-"%char); [congruence|]. destruct (Ascii.eqb_spec c "+"%char); [congruence|]. reflexivity.
Qed.
Lemma sg_head sg z t : sg_of sg z -> (forall c r, t = c :: r -> is_space c = false) -> forall c r, sg ++ t = c :: r -> is_space c = false.
Proof. intros [[[-> | ->] _]|[-> _]] Ht c r E; cbn in E; [now apply (Ht c r)|injection E as <- _; reflexivity|injection E as <- _; reflexivity]. Qed.
Lemma sign_split s : exists sg z, s = sg ++ snd (sign s) /\ sg_of sg z /\ fst (sign s) = z.
Proof.
  destruct s as [|c s]; [exists [], 1; split; [reflexivity|split; [left; tauto|reflexivity]]|]. cbn [sign].
  destruct (Ascii.eqb_spec c "-"%char) as [->|_]; [exists (lit "-"), (-1); split; [reflexivity|split; [now right|reflexivity]]|].
  destruct (Ascii.eqb_spec c "+"%char) as [->|_]; [exists (lit "+"), 1; split; [reflexivity|split; [left; tauto|reflexivity]]|].
  exists [], 1. split; [reflexivity|split; [left; tauto|reflexivity]].
Qed.

Lemma stoi_app w sg z ds r : blank w -> sg_of sg z -> ds <> [] -> (forall c, In c ds -> decimal_digit c) -> no_digit r ->
  stoi (w ++ sg ++ ds ++ r) =
  if (-2 ^ 31 <=? z * number ds) && (z * number ds <? 2 ^ 31) then Ok (z * number ds) else Throw "out_of_range: stoi".
Proof.
  intros Hw Hs Hd Hds Hr. unfold stoi. destruct ds as [|c ds]; [congruence|].
  assert (Hc : decimal_digit c) by (apply Hds; now left). destruct (digit_facts c Hc) as (F1 & F2 & F3 & _).
  rewrite lskip_blank by exact Hw. rewrite lskip_id by (apply (sg_head sg z); [exact Hs|now intros x q [= <- _]]).
  rewrite (sign_app sg z) by (exact Hs || (intros x q [= <- _]; now split)).
  rewrite (digits_app (c :: ds)) by assumption. cbn [List.length Nat.add]. change (accum (c :: ds) 0) with (number (c :: ds)). reflexivity.
Qed.
Definition leads_int (v : bytes) (z : Z) : Prop :=
  exists w t r, v = w ++ t ++ r /\ blank w /\ signed_number t z /\ no_digit r.
Lemma stoi_spec v z : stoi v = Ok z <-> leads_int v z /\ in_int z.
Proof.
  split.
  - intros H. destruct (lskip_split v) as (w & Ew & Hw & Hs). destruct (sign_split (lskip v)) as (sg & s1 & Es & Hsg & Ez).
    destruct (digits_split (snd (sign (lskip v)))) as (ds & r & Ed & Hd & Hr).
    assert (Ev : v = w ++ sg ++ ds ++ r) by (rewrite Ew at 1; f_equal; rewrite Es at 1; f_equal; exact Ed).
    destruct ds as [|c ds].
    + exfalso. unfold stoi in H. destruct (sign (lskip v)) as [a t]. cbn [snd app] in Ed. subst t.
      rewrite <- (app_nil_l r) in H. rewrite (digits_app [] 0 0 r) in H by (exact Hr || intros c []). discriminate.
    + rewrite Ev, stoi_app with (z := s1) in H by (assumption || discriminate). set (ds' := c :: ds) in *.
      destruct ((-2 ^ 31 <=? s1 * number ds') && (s1 * number ds' <? 2 ^ 31)) eqn:Q; [|discriminate]. injection H as <-.
      split; [|unfold in_int; lia]. exists w, (sg ++ ds'), r. rewrite <- app_assoc.
      split; [exact Ev|split; [exact Hw|split; [|exact Hr]]]. exists sg, ds'. split; [reflexivity|split; [discriminate|split; [exact Hd|]]].
      destruct Hsg as [[Hsg ->]|[Hsg ->]]; [left|right]; (split; [exact Hsg|lia]).
  - intros ((w & t & r & -> & Hw & (sg & ds & -> & Hds & Hd & Hz) & Hr) & Hi). rewrite <- app_assoc.
    assert (exists s1, sg_of sg s1 /\ z = s1 * number ds) as (s1 & Hs & ->).
    { destruct Hz as [[Hz ->]|[Hz ->]]; [exists 1|exists (-1)]; (split; [unfold sg_of; tauto|lia]). }
    rewrite (stoi_app w sg s1) by assumption. unfold in_int in Hi.
    replace ((-2 ^ 31 <=? s1 * number ds) && (s1 * number ds <? 2 ^ 31)) with true by lia. reflexivity.
Qed.
Lemma stoi_total v : (exists z, stoi v = Ok z) \/ exists msg, stoi v = Throw msg.
Proof.
  unfold stoi. destruct (sign (lskip v)) as [sg t]. destruct (digits 10 0 0 t) as [[a n] r]. destruct n; [eauto|]. destruct (_ && _); eauto.
Qed.
Theorem get_integer_spec m s n d z : get_integer m s n d = Ok z <->
  (get m s n [] = [] /\ z = d) \/ (leads_int (get m s n []) z /\ in_int z).
Proof.
  unfold get_integer. destruct (get m s n []) as [|c v] eqn:E.
  - split; [intros [= <-]; left; now split|]. intros [[_ ->]|[(w & t & r & H & _ & (sg & ds & -> & Hds & _) & _) _]]; [reflexivity|].
    exfalso. symmetry in H. apply app_eq_nil in H. destruct H as [_ H]. apply app_eq_nil in H. destruct H as [H _].
    apply app_eq_nil in H. now destruct H as [_ H].
  - rewrite stoi_spec. split; [intros H; now right|]. intros [[H _]|H]; [discriminate|exact H].
Qed.
Theorem get_boolean_spec m s n d b : get_boolean m s n d = Ok b <->
  (get m s n [] = [] /\ b = d) \/ spelled (if b then yes_spellings else no_spellings) (get m s n []).
Proof.
  unfold get_boolean. destruct (get m s n []) as [|c v] eqn:E.
  - split; [intros [= <-]; left; now split|]. intros [[_ ->]|(x & Hx & A)]; [reflexivity|]. exfalso.
    unfold alike in A. apply beqb_eq in A. destruct b; cbn in Hx; destruct Hx as [<-|[<-|[<-|[<-|[]]]]]; discriminate A.
  - split.
    + intros H. right. destruct b; [now apply stob_true|now apply stob_false].
    + intros [[H _]|H]; [discriminate|]. destruct b; [now apply stob_true|now apply stob_false].
Qed.

(** ** Reals *)
Definition ends_number (r : bytes) : Prop :=
  forall c q, r = c :: q -> ~ decimal_digit c /\ c <> "."%char /\ to_lower c <> "e"%char /\ to_lower c <> "x"%char.
Lemma to_double_normal x : let y := round radix2 dbl_exp ZnearestE x in
  (x = 0%R \/ (bpow radix2 (-1022) <= Rabs y < bpow radix2 1024)%R) -> to_double x = Ok (Finite y).
Proof.
  intros y [->|[A B]]; unfold to_double; fold y; cbn zeta.
  - unfold y. rewrite round_0 by apply valid_rnd_N. rewrite Rabs_R0.
    destruct (Rle_dec (bpow radix2 1024) 0) as [Q|Q]; [pose proof (bpow_gt_0 radix2 1024); lra|].
    destruct (Rlt_dec 0 (bpow radix2 (-1022))) as [Q2|Q2]; [|reflexivity]. destruct (Req_EM_T 0 0); [reflexivity|congruence].
  - destruct (Rle_dec (bpow radix2 1024) (Rabs y)) as [Q|Q]; [lra|]. destruct (Rlt_dec (Rabs y) (bpow radix2 (-1022))); [lra|reflexivity].
Qed.
Lemma to_double_big x : (bpow radix2 1024 <= Rabs (round radix2 dbl_exp ZnearestE x))%R -> to_double x = Throw "out_of_range: stod".
Proof. intros H. unfold to_double. cbn zeta. destruct (Rle_dec _ _); [reflexivity|contradiction]. Qed.

Lemma exp_none r : ends_number r -> exponent "e"%char r = 0.
Proof.
  intros H. destruct r as [|c r]; [reflexivity|]. cbn [exponent]. destruct (H c r eq_refl) as (_ & _ & E & _).
  destruct (Ascii.eqb_spec (to_lower c) "e"%char); [congruence|reflexivity].
Qed.
Lemma exp_some c es e0 r : c = "e"%char \/ c = "E"%char -> signed_number es e0 -> ends_number r -> exponent "e"%char (c :: es ++ r) = e0.
Proof.
  intros Hc (sg & ds & -> & Hds & Hd & Hz) Hr. cbn [exponent].
  replace (Ascii.eqb (to_lower c) "e"%char) with true by (destruct Hc as [-> | ->]; reflexivity).
  assert (exists s1, sg_of sg s1 /\ e0 = s1 * number ds) as (s1 & Hs & ->).
  { destruct Hz as [[Hz ->]|[Hz ->]]; [exists 1|exists (-1)]; (split; [unfold sg_of; tauto|lia]). }
  rewrite <- app_assoc. destruct ds as [|d ds]; [congruence|].
  assert (Hd0 : decimal_digit d) by (apply Hd; now left). destruct (digit_facts d Hd0) as (F1 & F2 & F3 & _).
  rewrite (sign_app sg s1) by (exact Hs || (intros x q [= <- _]; now split)).
  rewrite (digits_app (d :: ds)) by (exact Hd || (intros x q Q; now destruct (Hr x q Q))). cbn [List.length Nat.add]. reflexivity.
Qed.
Lemma accum_app a b z : accum (a ++ b) z = accum b (accum a z).
Proof. unfold accum. apply fold_left_app. Qed.
Lemma starts_not p (c : ascii) t x : p = x :: tl p -> to_lower c <> x -> starts_with p (c :: t) = false.
Proof.
  intros -> H. unfold starts_with. cbn [List.length firstn map beqb tl].
  destruct (Ascii.eqb_spec (to_lower c) x); [congruence|reflexivity].
Qed.
Lemma lower_digit c : decimal_digit c -> to_lower c = c.
Proof. intros H. unfold decimal_digit in H. unfold to_lower. replace ((65 <=? code c) && (code c <=? 90)) with false by lia. reflexivity. Qed.

Theorem stod_literal w s m e r : blank w -> decimal_literal s m e -> ends_number r ->
  stod (w ++ s ++ r) = to_double (IZR m * powerRZ 10 e)%R.
Proof.
  intros Hw (sg & ip & pt & fp & ex & e0 & -> & Hip & Hfp & Hne & Hpt & Hex & Hm & ->) Hr.
  assert (exists s1, sg_of sg s1 /\ m = s1 * number (ip ++ fp)) as (s1 & Hs & ->).
  { destruct Hm as [[Hm ->]|[Hm ->]]; [exists 1|exists (-1)]; (split; [unfold sg_of; tauto|lia]). }
  set (t := (ip ++ pt ++ fp ++ ex) ++ r).
  assert (Et : w ++ (sg ++ ip ++ pt ++ fp ++ ex) ++ r = w ++ sg ++ t) by (unfold t; rewrite <- !app_assoc; reflexivity).
  rewrite Et.
  (* first character *)
  assert (Hhead : exists c q, t = c :: q /\ (decimal_digit c \/ c = "."%char)).
  { unfold t. destruct ip as [|c ip]; [|exists c; eexists; split; [reflexivity|left; apply Hip; now left]].
    destruct Hpt as [-> | [-> ->]]; [|now elim Hne]. exists "."%char. eexists. split; [reflexivity|now right]. }
  destruct Hhead as (c & q & Eh & Hc).
  assert (Hc' : is_space c = false /\ c <> "-"%char /\ c <> "+"%char /\ to_lower c <> "i"%char /\ to_lower c <> "n"%char).
  { destruct Hc as [D | ->]; [|repeat split; discriminate]. rewrite (lower_digit c D). destruct (digit_facts c D) as (A1 & A2 & A3 & _).
    unfold decimal_digit in D. split; [exact A1|split; [exact A2|split; [exact A3|split; intros ->; vm_compute in D; lia || (destruct D; congruence)]]]. }
  destruct Hc' as (C1 & C2 & C3 & C4 & C5).
  unfold stod. rewrite lskip_blank by exact Hw.
  rewrite lskip_id by (apply (sg_head sg s1); [exact Hs|rewrite Eh; now intros x y [= <- _]]).
  rewrite (sign_app sg s1) by (exact Hs || (rewrite Eh; intros x y [= <- _]; now split)).
  replace (starts_with (lit "inf") t) with false by (rewrite Eh; symmetry; now apply (starts_not _ _ _ "i"%char)).
  replace (starts_with (lit "nan") t) with false by (rewrite Eh; symmetry; now apply (starts_not _ _ _ "n"%char)).
  destruct (mantissa 16 (skipn 2 t)) as [[[h hn] hk] hr].
  (* what follows the digits *)
  assert (Hfol : forall a b, (forall x, In x a -> decimal_digit x) -> t = a ++ b -> True) by trivial. clear Hfol.
  assert (Hx : starts_with (lit "0x") t = false).
  { assert (K : forall c0 c1 q0, t = c0 :: c1 :: q0 -> to_lower c1 <> "x"%char).
    { intros c0 c1 q0 E1 E2.
      assert (Hin : In c1 (ip ++ pt ++ fp ++ ex) \/ exists q1, r = c1 :: q1).
      { unfold t in E1. destruct (ip ++ pt ++ fp ++ ex) as [|y0 [|y1 ys]] eqn:EY.
        - exfalso. apply app_eq_nil in EY. destruct EY as [-> EY]. apply app_eq_nil in EY. destruct EY as [-> EY].
          apply app_eq_nil in EY. destruct EY as [-> _]. now elim Hne.
        - right. cbn [app] in E1. injection E1 as _ ->. now exists q0.
        - left. cbn [app] in E1. injection E1 as _ -> _. right. now left. }
      assert (Kd : forall x, decimal_digit x -> to_lower x <> "x"%char).
      { intros x D Q. rewrite (lower_digit x D) in Q. subst x. vm_compute in D. destruct D; congruence. }
      destruct Hin as [Hin|(q1 & E3)].
      - rewrite !in_app_iff in Hin. destruct Hin as [Hin|[Hin|[Hin|Hin]]].
        + exact (Kd c1 (Hip _ Hin) E2).
        + destruct Hpt as [-> | [-> _]]; [|destruct Hin]. destruct Hin as [<-|[]]. discriminate E2.
        + exact (Kd c1 (Hfp _ Hin) E2).
        + destruct Hex as [[-> _]|(ce & es & -> & Hce & (sg' & ds & -> & _ & Hds & Hz))]; [destruct Hin|].
          destruct Hin as [<-|Hin]; [destruct Hce as [-> | ->]; discriminate E2|].
          apply in_app_iff in Hin. destruct Hin as [Hin|Hin]; [|exact (Kd c1 (Hds _ Hin) E2)].
          destruct Hz as [[[-> | ->] _]|[-> _]]; [destruct Hin|destruct Hin as [<-|[]]; discriminate E2|destruct Hin as [<-|[]]; discriminate E2].
      - now destruct (Hr c1 q1 E3) as (_ & _ & _ & X). }
    rewrite Eh. destruct q as [|c1 q]; [unfold starts_with; cbn; now rewrite Bool.andb_false_r|].
    specialize (K c c1 q Eh). unfold starts_with. cbn [lit List.length firstn map beqb String.list_ascii_of_string].
    destruct (Ascii.eqb_spec (to_lower c1) "x"%char); [congruence|]. cbn [andb]. apply Bool.andb_false_r. }
  rewrite Hx. cbn [andb].
  (* mantissa *)
  assert (Hex0 : no_digit (ex ++ r) /\ exponent "e"%char (ex ++ r) = e0).
  { destruct Hex as [[-> ->]|(ce & es & -> & Hce & Hes)].
    - cbn [app]. split; [intros x y E; now destruct (Hr x y E)|now apply exp_none].
    - cbn [app]. split; [|now apply exp_some]. intros x y [= <- _] D. vm_compute in D. destruct Hce as [-> | ->]; destruct D as [D1 D2]; vm_compute in D1, D2; congruence. }
  destruct Hex0 as [Hnd Hexp].
  assert (Hnp : forall x y, ex ++ r = x :: y -> x <> "."%char).
  { destruct Hex as [[-> _]|(ce & es & -> & Hce & _)]; cbn [app].
    - intros x y E. now destruct (Hr x y E) as (_ & P & _).
    - intros x y [= <- _]. destruct Hce as [-> | ->]; discriminate. }
  assert (Hman : exists n, mantissa 10 t = (number (ip ++ fp), Datatypes.S n, List.length fp, ex ++ r)).
  { unfold mantissa, t. destruct Hpt as [-> | [-> ->]].
    - replace ((ip ++ lit "." ++ fp ++ ex) ++ r) with (ip ++ "."%char :: fp ++ ex ++ r) by (rewrite <- !app_assoc; reflexivity).
      rewrite (digits_app ip); [|exact Hip|intros x y [= <- _] D; vm_compute in D; destruct D; congruence].
      rewrite Ascii.eqb_refl. rewrite (digits_app fp) by assumption.
      rewrite <- (accum_app ip fp 0). change (accum (ip ++ fp) 0) with (number (ip ++ fp)).
      destruct (List.length ip + 0 + (List.length fp + 0))%nat as [|k] eqn:L.
      + exfalso. apply Hne. destruct ip; [|cbn in L; lia]. destruct fp; [reflexivity|cbn in L; lia].
      + exists k. now rewrite Nat.add_0_r.
    - cbn [app]. rewrite <- app_assoc. rewrite (digits_app ip) by assumption. rewrite app_nil_r in *.
      change (accum ip 0) with (number ip). destruct ip as [|d ip]; [now elim Hne|]. exists (List.length ip + 0)%nat.
      destruct (ex ++ r) as [|x y] eqn:E; [reflexivity|]. destruct (Ascii.eqb_spec x "."%char) as [Q|_]; [now elim (Hnp x y eq_refl)|reflexivity]. }
  destruct Hman as (k & ->). rewrite Hexp. unfold pow10. rewrite mult_IZR. reflexivity.
Qed.
Theorem get_real_literal m s n d w t k e r : get m s n [] = w ++ t ++ r -> blank w -> decimal_literal t k e -> ends_number r ->
  let x := (IZR k * powerRZ 10 e)%R in let y := round radix2 (FLT_exp (-1074) 53) ZnearestE x in
  ((x = 0%R \/ (bpow radix2 (-1022) <= Rabs y < bpow radix2 1024)%R) -> get_real m s n d = Ok (Finite y)) /\
  ((bpow radix2 1024 <= Rabs y)%R -> exists msg, get_real m s n d = Throw msg).
Proof.
  intros E Hw Ht Hr x y. assert (Q : get_real m s n d = to_double x).
  { unfold get_real. rewrite E. pose proof (stod_literal w t k e r Hw Ht Hr) as P.
    destruct (w ++ t ++ r) as [|c v] eqn:Ev; [|exact P]. exfalso. apply app_eq_nil in Ev. destruct Ev as [_ Ev].
    apply app_eq_nil in Ev. destruct Ev as [-> _]. destruct Ht as (sg & ip & pt & fp & ex & e0 & H & _ & _ & Hne & _).
    symmetry in H. apply app_eq_nil in H. destruct H as [_ H]. apply app_eq_nil in H. destruct H as [-> H].
    apply app_eq_nil in H. destruct H as [_ H]. apply app_eq_nil in H. destruct H as [-> _]. now elim Hne. }
  rewrite Q. split; [apply to_double_normal|]. intros H. exists "out_of_range: stod"%string. now apply to_double_big.
Qed.
