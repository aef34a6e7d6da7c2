(** * Vocabulary for parameter files (C48-C50): a grammar of lines and of what they mean. *)
From Coq Require Import Ascii Reals.
From Coq Require String.
From Verif Require Import Base ModelIni.
Local Open Scope Z_scope.
Local Open Scope list_scope.

(** The text of a file with the given lines, each ended by a newline. *)
Definition unlines (ls : list bytes) : bytes := flat_map (fun l => l ++ [LF]) ls.

(** The texts of these lines: the last newline may be missing. *)
Definition text_of (ls : list bytes) (f : bytes) : Prop :=
  f = unlines ls \/ exists ls0 l, ls = ls0 ++ [l] /\ l <> [] /\ f = unlines ls0 ++ l.

(** A line that fits into the line buffer with its newline, and that a C string can hold. *)
Definition fits (l : bytes) : Prop := (List.length l <= 198)%nat /\ ~ In LF l /\ ~ In NUL l.

Definition blank (w : bytes) : Prop := forall c, In c w -> is_space c = true.
(** No blank at either end. *)
Definition trimmed (s : bytes) : Prop :=
  (forall c r, s = c :: r -> is_space c = false) /\ (forall r c, s = r ++ [c] -> is_space c = false).
(** No semicolon directly after a blank. *)
Definition uncommented (s : bytes) : Prop := forall a c b, s = a ++ c :: ";"%char :: b -> is_space c = false.
Definition avoids (chars s : bytes) : Prop := forall c, In c s -> ~ In c chars.
Definition not_first (chars s : bytes) : Prop := forall c r, s = c :: r -> ~ In c chars.

(** ** Lines *)

(** Empty lines and comment lines. *)
Definition inert (l : bytes) : Prop :=
  blank l \/ exists w c x, l = w ++ c :: x /\ blank w /\ (c = ";"%char \/ c = "#"%char).

(** "[section]", with anything after the bracket. *)
Definition header_line (s l : bytes) : Prop :=
  exists x, l = "["%char :: s ++ "]"%char :: x /\ avoids (lit "]") s /\ uncommented s.

(** "name = value" or "name : value", with blanks around all three, and possibly an inline comment. *)
Definition setting_line (k v l : bytes) : Prop :=
  exists w1 sep w2 w3 cm, l = k ++ w1 ++ sep :: w2 ++ v ++ w3 ++ cm /\
    blank w1 /\ blank w2 /\ blank w3 /\ (sep = "="%char \/ sep = ":"%char) /\
    k <> [] /\ trimmed k /\ uncommented k /\ avoids (lit "=:") k /\ not_first (lit ";#[") k /\
    trimmed v /\ uncommented v /\ not_first (lit ";") v /\
    (cm = [] \/ exists x, cm = ";"%char :: x /\ (w3 <> [] \/ v = [] /\ w2 <> [])).

(** Indented text. *)
Definition indented_line (t l : bytes) : Prop :=
  exists w w', l = w ++ t ++ w' /\ w <> [] /\ blank w /\ blank w' /\ t <> [] /\ trimmed t /\ not_first (lit ";#") t.

(** All occurrences of [chars] in [s] come after the beginning of an inline comment. *)
Definition only_in_comment (chars s : bytes) : Prop :=
  forall a c b, s = a ++ c :: b -> In c chars -> ~ uncommented a.

(** A section without closing bracket or a setting without separator, possibly indented. *)
Definition malformed_line (l : bytes) : Prop :=
  exists w t, l = w ++ t /\ blank w /\
    ((exists r, t = "["%char :: r /\ only_in_comment (lit "]") r) \/
     (t <> [] /\ (forall c r, t = c :: r -> is_space c = false) /\ not_first (lit ";#[") t /\ only_in_comment (lit "=:") t)).
Definition unindented (l : bytes) : Prop := forall c r, l = c :: r -> is_space c = false.

(** ** Files *)

(** (section, name, value) *)
Definition entry : Type := bytes * bytes * bytes.

(** [means s p n ls T E]: in section [s], after a setting of the name [p] (empty: none yet) and [n] lines, the lines [ls] write
    the entries [T], and those with numbers [E] are malformed. *)
Inductive means : bytes -> bytes -> Z -> list bytes -> list entry -> list Z -> Prop :=
| means_nil s p n : means s p n [] [] []
| means_inert s p n l ls T E : inert l -> means s p (n + 1) ls T E -> means s p n (l :: ls) T E
| means_header s p n s' w l ls T E : header_line s' l -> (List.length s' <= 49)%nat -> blank w -> p = [] \/ w = [] ->
    means s' [] (n + 1) ls T E -> means s p n ((w ++ l) :: ls) T E
| means_setting s p n k v w l ls T E : setting_line k v l -> blank w -> p = [] \/ w = [] -> means s k (n + 1) ls T E ->
    means s p n ((w ++ l) :: ls) ((s, k, v) :: T) E
| means_more s p n t l ls T E : p <> [] -> (List.length p <= 49)%nat -> indented_line t l ->
    means s p (n + 1) ls T E -> means s p n (l :: ls) ((s, p, t) :: T) E
| means_bad s p n l ls T E : malformed_line l -> p = [] \/ unindented l -> means s p (n + 1) ls T E ->
    means s p n (l :: ls) T (n + 1 :: E).

(** Names are compared without regard to case. *)
Definition alike (a b : bytes) : bool := beqb (map to_lower a) (map to_lower b).

(** The values written for a name, in order; several are joined by newlines. *)
Definition written (s n : bytes) (T : list entry) : list bytes :=
  map (fun t => snd t) (filter (fun t => alike (fst (fst t)) s && alike (snd (fst t)) n) T).
Definition join (vs : list bytes) : bytes :=
  fold_left (fun old v => match old with [] => v | _ => old ++ LF :: v end) vs [].

(** ** Numbers *)

Definition decimal_digit (c : ascii) : Prop := 48 <= code c <= 57.
Definition digit_value (c : ascii) : Z := code c - 48.
(** Value of a string of decimal digits. *)
Definition number (ds : bytes) : Z := fold_left (fun a c => 10 * a + digit_value c) ds 0.
(** [s] is an optionally signed string of decimal digits of value [z]. *)
Definition signed_number (s : bytes) (z : Z) : Prop :=
  exists sg ds, s = sg ++ ds /\ ds <> [] /\ (forall c, In c ds -> decimal_digit c) /\
    (((sg = [] \/ sg = lit "+") /\ z = number ds) \/ (sg = lit "-" /\ z = - number ds)).
Definition in_int (z : Z) : Prop := - 2 ^ 31 <= z < 2 ^ 31.

(** [s] is a decimal number, with an optional sign, point and exponent, of value [m] * 10^[e]. *)
Definition decimal_literal (s : bytes) (m e : Z) : Prop :=
  exists sg ip pt fp ex e0, s = sg ++ ip ++ pt ++ fp ++ ex /\
    (forall c, In c ip -> decimal_digit c) /\ (forall c, In c fp -> decimal_digit c) /\ ip ++ fp <> [] /\
    (pt = lit "." \/ pt = [] /\ fp = []) /\
    (ex = [] /\ e0 = 0 \/ exists c es, ex = c :: es /\ (c = "e"%char \/ c = "E"%char) /\ signed_number es e0) /\
    (((sg = [] \/ sg = lit "+") /\ m = number (ip ++ fp)) \/ (sg = lit "-" /\ m = - number (ip ++ fp))) /\
    e = e0 - Z.of_nat (List.length fp).

(** The documented spellings of booleans. *)
Definition yes_spellings : list bytes := [lit "true"; lit "yes"; lit "on"; lit "1"].
Definition no_spellings : list bytes := [lit "false"; lit "no"; lit "off"; lit "0"].
Definition spelled (l : list bytes) (v : bytes) : Prop := exists s, In s l /\ alike v s = true.

(** ** A canonical way of writing a configuration *)
Definition config : Type := list (bytes * list (bytes * bytes)).
Definition good_name (k : bytes) : Prop :=
  k <> [] /\ trimmed k /\ uncommented k /\ avoids (lit "=:") k /\ not_first (lit ";#[") k.
Definition good_value (v : bytes) : Prop := trimmed v /\ uncommented v /\ not_first (lit ";") v.
Definition good_section (s : bytes) : Prop := avoids (lit "]") s /\ uncommented s /\ (List.length s <= 49)%nat.
Definition header_of (s : bytes) : bytes := "["%char :: s ++ lit "]".
Definition setting_of (kv : bytes * bytes) : bytes := fst kv ++ lit " = " ++ snd kv.
Definition rendered (c : config) : list bytes := flat_map (fun sk => header_of (fst sk) :: map setting_of (snd sk)) c.
Definition good_config (c : config) : Prop :=
  forall sk, In sk c -> good_section (fst sk) /\ fits (header_of (fst sk)) /\
    forall kv, In kv (snd sk) -> good_name (fst kv) /\ good_value (snd kv) /\ fits (setting_of kv).
Definition entries (c : config) : list entry := flat_map (fun sk => map (fun kv => (fst sk, fst kv, snd kv)) (snd sk)) c.
