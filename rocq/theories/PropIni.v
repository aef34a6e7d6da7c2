(** * Parameter files: C48, C49, C50. *)
From Coq Require Import Ascii Reals Lra Lia ZifyBool.
From Coq Require String.
From Flocq Require Import Core.
From Verif Require Import Base ModelIni SpecIni ProofIni ProofIniNum.
Local Open Scope Z_scope.
Local Open Scope list_scope.

(** ** C48 *)

(** However the lines are laid out: the values found are the ones written. *)
Theorem C48_values_as_written : forall ls f T,
  text_of ls f -> (forall l, In l ls -> fits l) -> bom (hd [] ls) = false -> means [] [] 0 ls T [] ->
  exists m, ini_reader (Some f) = Reader m /\
    forall s n d, ~ In "="%char n -> get m s n d = match written s n T with [] => d | vs => join vs end.
Proof. exact reads_back. Qed.
Print Assumptions C48_values_as_written.

(** Any configuration that can be written is read back. *)
Theorem C48_rendered : forall c, good_config c ->
  exists m, ini_reader (Some (unlines (rendered c))) = Reader m /\
    forall s n d, ~ In "="%char n -> get m s n d = match written s n (entries c) with [] => d | vs => join vs end.
Proof. exact rendered_reads_back. Qed.
Print Assumptions C48_rendered.

Definition tab : ascii := ascii_of_N 9.
Definition demo : list bytes :=
  [lit "; heading"; lit "[Grid]  # extent"; lit "Nx0_glob=20"; []; lit "Bc :  Periodic ; both"; lit "  second"; lit "NX0_GLOB = 30"].
Ltac bytes_tac :=
  match goal with
  | |- blank _ => let c := fresh in let H := fresh in intros c H; cbn in H; decompose [or] H; subst; try reflexivity; contradiction
  | |- avoids _ _ => let c := fresh in let H := fresh in let K := fresh in intros c H K; cbn in H, K; decompose [or] H; subst; decompose [or] K; try discriminate; contradiction
  | |- not_first _ _ => let c := fresh in let r := fresh in let K := fresh in intros c r [= <- _] K; cbn in K; decompose [or] K; try discriminate; contradiction
  end.
Lemma check_uncommented s : clear [] false s = true -> uncommented s. Proof. apply clear_uncommented. Qed.
Lemma check_trimmed s : rstrip s = s -> lskip s = s -> trimmed s.
Proof.
  intros R L. split.
  - intros c r ->. cbn [lskip] in L. destruct (is_space c) eqn:E; [|reflexivity]. exfalso.
    destruct (lskip_split r) as (w & Er & _ & _). assert (Q : List.length (lskip r) = List.length (c :: r)) by now rewrite L.
    apply (f_equal (@List.length ascii)) in Er. rewrite app_length in Er. cbn [List.length] in Q. lia.
  - intros r c ->. destruct (is_space c) eqn:E; [|reflexivity]. exfalso. rewrite rstrip_app_blank in R by (intros x [<-|[]]; exact E).
    destruct (rstrip_prefix r) as (w & Er & _). assert (Q : List.length (rstrip r) = List.length (r ++ [c])) by now rewrite R.
    apply (f_equal (@List.length ascii)) in Er. rewrite app_length in Er, Q. cbn [List.length] in Q. lia.
Qed.
Example C48_demo : means [] [] 0 demo
    [(lit "Grid", lit "Nx0_glob", lit "20"); (lit "Grid", lit "Bc", lit "Periodic"); (lit "Grid", lit "Bc", lit "second");
     (lit "Grid", lit "NX0_GLOB", lit "30")] [] /\ (forall l, In l demo -> fits l) /\ bom (hd [] demo) = false /\
  exists m, ini_reader (Some (unlines demo)) = Reader m /\
    get m (lit "GRID") (lit "nx0_glob") [] = lit "20" ++ LF :: lit "30" /\ get m (lit "grid") (lit "Ny") (lit "7") = lit "7".
Proof.
  assert (M : means [] [] 0 demo [(lit "Grid", lit "Nx0_glob", lit "20"); (lit "Grid", lit "Bc", lit "Periodic");
    (lit "Grid", lit "Bc", lit "second"); (lit "Grid", lit "NX0_GLOB", lit "30")] []).
  { unfold demo. apply means_inert.
    { right. exists [], ";"%char, (lit " heading"). split; [reflexivity|split; [exact blank_nil|now left]]. }
    apply (means_header _ _ _ (lit "Grid") []); [|cbn; lia|exact blank_nil|now right|].
    { exists (lit "  # extent"). split; [reflexivity|split; [bytes_tac|now apply check_uncommented]]. }
    apply (means_setting _ _ _ (lit "Nx0_glob") (lit "20") []); [|exact blank_nil|now right|].
    { exists [], "="%char, [], [], []. split; [reflexivity|].
      repeat (split; [first [exact blank_nil|now left|discriminate|now apply check_trimmed|now apply check_uncommented|bytes_tac]|]). now left. }
    apply means_inert; [left; exact blank_nil|].
    apply (means_setting _ _ _ (lit "Bc") (lit "Periodic") []); [|exact blank_nil|now right|].
    { exists (lit " "), ":"%char, (lit "  "), (lit " "), (lit "; both"). split; [reflexivity|].
      repeat (split; [first [now right|discriminate|now apply check_trimmed|now apply check_uncommented|bytes_tac]|]).
      right. exists (lit " both"). split; [reflexivity|left; discriminate]. }
    apply (means_more _ _ _ (lit "second")); [discriminate|cbn; lia| |].
    { exists (lit "  "), []. split; [reflexivity|]. repeat (split; [first [exact blank_nil|discriminate|now apply check_trimmed|bytes_tac]|]). bytes_tac. }
    apply (means_setting _ _ _ (lit "NX0_GLOB") (lit "30") []); [|exact blank_nil|now right|apply means_nil].
    exists (lit " "), "="%char, (lit " "), [], []. split; [reflexivity|].
    repeat (split; [first [exact blank_nil|now left|discriminate|now apply check_trimmed|now apply check_uncommented|bytes_tac]|]). now left. }
  assert (F : forall l, In l demo -> fits l).
  { intros l Hl. cbn in Hl. decompose [or] Hl; try contradiction; subst l; (split; [cbn; lia|split; intros H; cbn in H; decompose [or] H; discriminate || contradiction]). }
  split; [exact M|split; [exact F|split; [reflexivity|]]].
  destruct (C48_values_as_written demo (unlines demo) _ (or_introl eq_refl) F eq_refl M) as (m & Hm & Hv).
  exists m. split; [exact Hm|split].
  - rewrite Hv; [reflexivity|]. intros H. cbn in H. decompose [or] H; discriminate || contradiction.
  - rewrite Hv; [reflexivity|]. intros H. cbn in H. decompose [or] H; discriminate || contradiction.
Qed.

(** ** C49 *)

(** Exactly the documented spellings, without regard to case; the default when there is no value; otherwise an exception. *)
Theorem C49_booleans : forall m s n d,
  (forall b, get_boolean m s n d = Ok b <->
     (get m s n [] = [] /\ b = d) \/ spelled (if b then yes_spellings else no_spellings) (get m s n [])) /\
  ((exists b, get_boolean m s n d = Ok b) \/ exists msg, get_boolean m s n d = Throw msg).
Proof.
  intros m s n d. split; [exact (get_boolean_spec m s n d)|]. unfold get_boolean.
  destruct (get m s n []); [left; now exists d|apply stob_total].
Qed.
Print Assumptions C49_booleans.

(** What exactly [int] parameters accept: blanks, a decimal number that fits, and then anything but a digit. *)
Theorem C49_integers_partial : forall m s n d,
  (forall z, get_integer m s n d = Ok z <->
     (get m s n [] = [] /\ z = d) \/
     (exists w t r, get m s n [] = w ++ t ++ r /\ blank w /\ signed_number t z /\ (forall c q, r = c :: q -> ~ decimal_digit c)) /\ in_int z) /\
  ((exists z, get_integer m s n d = Ok z) \/ exists msg, get_integer m s n d = Throw msg).
Proof.
  intros m s n d. split; [exact (get_integer_spec m s n d)|]. unfold get_integer.
  destruct (get m s n []); [left; now exists d|apply stoi_total].
Qed.
Print Assumptions C49_integers_partial.

(** Decimal literals give the nearest double; overflow throws. *)
Theorem C49_reals_partial : forall m s n d w t k e r,
  get m s n [] = w ++ t ++ r -> blank w -> decimal_literal t k e ->
  (forall c q, r = c :: q -> ~ decimal_digit c /\ c <> "."%char /\ to_lower c <> "e"%char /\ to_lower c <> "x"%char) ->
  let x := (IZR k * powerRZ 10 e)%R in let y := round radix2 (FLT_exp (-1074) 53) ZnearestE x in
  ((x = 0%R \/ (bpow radix2 (-1022) <= Rabs y < bpow radix2 1024)%R) -> get_real m s n d = Ok (Finite y)) /\
  ((bpow radix2 1024 <= Rabs y)%R -> exists msg, get_real m s n d = Throw msg).
Proof. exact get_real_literal. Qed.
Print Assumptions C49_reals_partial.

Definition only (v : bytes) : values := fun _ => Some v.
(** Text after a number is ignored without any report: "1e3" is 1, "0x10" is 0, "2.5" is 2, and "1,5" is 1 as a real number. *)
Theorem C49_trailing_text_refuted :
  get_integer (only (lit "1e3")) (lit "Grid") (lit "Nx0_glob") 7 = Ok 1 /\
  get_integer (only (lit "0x10")) (lit "Grid") (lit "Nx0_glob") 7 = Ok 0 /\
  get_integer (only (lit "2.5")) (lit "Grid") (lit "Nx0_glob") 7 = Ok 2 /\
  get_real (only (lit "1,5")) (lit "hydro") (lit "gamma") 7%R = Ok (Finite 1%R).
Proof.
  split; [vm_compute; reflexivity|split; [vm_compute; reflexivity|split; [vm_compute; reflexivity|]]].
  assert (R1 : round radix2 (FLT_exp (-1074) 53) ZnearestE 1 = 1%R).
  { apply round_generic; [apply valid_rnd_N|]. change 1%R with (bpow radix2 0). apply generic_format_bpow. vm_compute. discriminate. }
  destruct (C49_reals_partial (only (lit "1,5")) (lit "hydro") (lit "gamma") 7%R [] (lit "1") 1 0 (lit ",5")) as [A _].
  - reflexivity.
  - exact blank_nil.
  - exists [], (lit "1"), [], [], [], 0. split; [reflexivity|]. split; [intros c [<-|[]]; vm_compute; split; discriminate|].
    split; [intros c []|]. split; [discriminate|]. split; [right; now split|]. split; [left; now split|]. split; [left; split; [now left|reflexivity]|reflexivity].
  - intros c q [= <- _]. split; [intros D; vm_compute in D; destruct D as [D _]; now apply D|]. repeat split; discriminate.
  - cbn [powerRZ] in A. rewrite Rmult_1_r in A. change (IZR 1) with 1%R in A. rewrite R1 in A. apply A. right.
    rewrite Rabs_R1. change 1%R with (bpow radix2 0). split; [apply bpow_le; lia|apply bpow_lt; lia].
Qed.
Print Assumptions C49_trailing_text_refuted.
Example C49_values : get_boolean (only (lit "YES")) [] [] false = Ok true /\ get_boolean (only (lit "oui")) [] [] false = Throw "out_of_range: stob" /\
  get_integer (only (lit " -12")) [] [] 7 = Ok (-12) /\ get_integer (only (lit "twelve")) [] [] 7 = Throw "invalid_argument: stoi" /\
  get_integer (only (lit "3000000000")) [] [] 7 = Throw "out_of_range: stoi".
Proof. vm_compute. repeat split; reflexivity. Qed.

(** ** C50 *)

(** An empty line or a comment line can be inserted between any two lines of any file, before the first, or after the last. *)
Theorem C50_inert_lines_partial : forall a l b,
  a = [] \/ (exists a', a = a' ++ [LF]) -> inert l -> (List.length l <= 198)%nat -> ~ In LF l -> a <> [] \/ bom b = false ->
  match ini_reader (Some (a ++ b)), ini_reader (Some (a ++ l ++ LF :: b)) with
  | Reader m, Reader m' => m = m'
  | BadLine _, BadLine _ => True
  | _, _ => False
  end.
Proof. exact insert_reader. Qed.
Print Assumptions C50_inert_lines_partial.

(** Blanks at the end of any line. *)
Theorem C50_trailing_blanks_partial : forall a l w b,
  a = [] \/ (exists a', a = a' ++ [LF]) -> blank w -> (List.length (l ++ w) <= 198)%nat -> ~ In LF (l ++ w) ->
  ini_reader (Some (a ++ (l ++ w) ++ LF :: b)) = ini_reader (Some (a ++ l ++ LF :: b)).
Proof. intros a l w b Ha Hw Hl Hn. unfold ini_reader. now rewrite insert_trailing. Qed.
Print Assumptions C50_trailing_blanks_partial.

(** Blanks around names and values, and inline comments: two files whose lines mean the same give the same values. *)
Theorem C50_layout_partial : forall ls ls' f f' T,
  text_of ls f -> text_of ls' f' -> (forall l, In l ls -> fits l) -> (forall l, In l ls' -> fits l) ->
  bom (hd [] ls) = false -> bom (hd [] ls') = false -> means [] [] 0 ls T [] -> means [] [] 0 ls' T [] ->
  exists m m', ini_reader (Some f) = Reader m /\ ini_reader (Some f') = Reader m' /\
    forall s n d, ~ In "="%char n -> get m s n d = get m' s n d.
Proof.
  intros ls ls' f f' T Ht Ht' Hf Hf' Hb Hb' M M'.
  destruct (reads_back ls f T Ht Hf Hb M) as (m & E & H). destruct (reads_back ls' f' T Ht' Hf' Hb' M') as (m' & E' & H').
  exists m, m'. split; [exact E|split; [exact E'|]]. intros s n d Hn. now rewrite H, H'.
Qed.
Print Assumptions C50_layout_partial.

(** The first malformed line is reported with its number. *)
Theorem C50_first_bad_line_partial : forall ls f T e E,
  text_of ls f -> (forall l, In l ls -> fits l) -> bom (hd [] ls) = false -> means [] [] 0 ls T (e :: E) ->
  ini_reader (Some f) = BadLine e.
Proof. exact reports_first. Qed.
Print Assumptions C50_first_bad_line_partial.

Definition value_in (f : bytes) (s n : bytes) : option bytes :=
  match ini_reader (Some f) with Reader m => m (make_key s n) | _ => None end.
(** Blanks before a setting are not inert: the line becomes part of the previous value and the setting is lost, without any report. *)
Theorem C50_indentation_refuted :
  let plain := unlines [lit "[run]"; lit "t_end = 1"; lit "cfl = 2"] in
  let indented := unlines [lit "[run]"; lit "t_end = 1"; lit "  cfl = 2"] in
  value_in plain (lit "run") (lit "t_end") = Some (lit "1") /\ value_in plain (lit "run") (lit "cfl") = Some (lit "2") /\
  value_in indented (lit "run") (lit "t_end") = Some (lit "1" ++ LF :: lit "cfl = 2") /\ value_in indented (lit "run") (lit "cfl") = None.
Proof. vm_compute. split; [reflexivity|split; [reflexivity|split; reflexivity]]. Qed.
Print Assumptions C50_indentation_refuted.

(** Lines that are too long are not reported: the rest is read as another line, here the end of a comment as a setting. *)
Definition long_comment : bytes := lit ";" ++ repeat "x"%char 198 ++ lit "cfl = 2".
Theorem C50_long_lines_refuted :
  let file := unlines [lit "[run]"; lit "cfl = 1"] in
  inert long_comment /\ ~ In LF long_comment /\
  value_in file (lit "run") (lit "cfl") = Some (lit "1") /\
  value_in (file ++ long_comment ++ [LF]) (lit "run") (lit "cfl") = Some (lit "1" ++ LF :: lit "2").
Proof.
  split; [right; exists [], ";"%char, (repeat "x"%char 198 ++ lit "cfl = 2"); split; [reflexivity|split; [exact blank_nil|now left]]|].
  split; [intros H; apply has_in in H; vm_compute in H; discriminate|]. split; vm_compute; reflexivity.
Qed.
Print Assumptions C50_long_lines_refuted.

(** "#" begins a comment at the beginning of a line only. *)
Theorem C50_hash_refuted :
  value_in (unlines [lit "[hydro]"; lit "riemann_solver = HLL # robust"]) (lit "hydro") (lit "riemann_solver") = Some (lit "HLL # robust") /\
  value_in (unlines [lit "[hydro]"; lit "riemann_solver = HLL ; robust"]) (lit "hydro") (lit "riemann_solver") = Some (lit "HLL").
Proof. vm_compute. split; reflexivity. Qed.
Print Assumptions C50_hash_refuted.

Example C50_bad_demo : means [] [] 0 [lit "; first"; lit "[run"; lit "cfl 2"] [] [2; 3] /\
  ini_reader (Some (unlines [lit "; first"; lit "[run"; lit "cfl 2"])) = BadLine 2.
Proof.
  assert (M : means [] [] 0 [lit "; first"; lit "[run"; lit "cfl 2"] [] [2; 3]).
  { apply means_inert; [right; exists [], ";"%char, (lit " first"); split; [reflexivity|split; [exact blank_nil|now left]]|].
    assert (None' : forall chars s, forallb (fun c => negb (has c chars)) s = true -> only_in_comment chars s).
    { intros chars s H a c b -> Hi. rewrite forallb_app in H. cbn in H. apply has_in in Hi. rewrite Hi in H. cbn in H. rewrite Bool.andb_false_r in H. discriminate. }
    apply (means_bad _ _ 1); [|now left|]. { exists [], (lit "[run"). split; [reflexivity|split; [exact blank_nil|]]. left. exists (lit "run"). split; [reflexivity|]. now apply None'. }
    apply (means_bad _ _ 2); [|now left|apply means_nil]. exists [], (lit "cfl 2"). split; [reflexivity|split; [exact blank_nil|right]].
    split; [discriminate|split; [intros c r [= <- _]; reflexivity|split; [bytes_tac|]]]. now apply None'. }
  split; [exact M|]. apply (C50_first_bad_line_partial [lit "; first"; lit "[run"; lit "cfl 2"] _ [] 2 [3]); [now left| |reflexivity|exact M].
  intros l Hl. cbn in Hl. decompose [or] Hl; try contradiction; subst l; (split; [cbn; lia|split; intros H; cbn in H; decompose [or] H; discriminate || contradiction]).
Qed.
