(** * The parameter file: vendor/inih/src/ini.c, vendor/inih/src/INIReader.cpp.

    Text is a list of bytes.  Character classes are those of the "C" locale (the program never calls setlocale).
    Configuration macros have the defaults of vendor/inih/include/inih/ini.h: multi-line values, byte order mark and
    inline comments allowed, inline comment prefixes ";", no stop on the first error, INI_MAX_LINE 200. *)
From Coq Require Import Ascii Reals.
From Coq Require String.
From Flocq Require Import Core.
From Verif Require Import Base.
Local Open Scope Z_scope.
Local Open Scope list_scope.

Definition bytes : Type := list ascii.
(** String literals. *)
Definition lit (s : String.string) : bytes := String.list_ascii_of_string s.
Definition code (c : ascii) : Z := Z.of_N (N_of_ascii c).
Definition NUL : ascii := ascii_of_N 0.
Definition LF : ascii := ascii_of_N 10.
Definition is_space (c : ascii) : bool := ((9 <=? code c) && (code c <=? 13)) || (code c =? 32).
Definition to_lower (c : ascii) : ascii :=
  if (65 <=? code c) && (code c <=? 90) then ascii_of_N (Z.to_N (code c + 32)) else c.
Definition has (c : ascii) (l : bytes) : bool := existsb (Ascii.eqb c) l.

(** What the C functions see of a buffer: the bytes before the terminating zero. *)
Fixpoint c_str (l : bytes) : bytes :=
  match l with [] => [] | c :: l' => if Ascii.eqb c NUL then [] else c :: c_str l' end.

(** ini.c:34-40 *)
Fixpoint rstrip (s : bytes) : bytes :=
  match s with
  | [] => []
  | c :: s' => match rstrip s' with [] => if is_space c then [] else [c] | t => c :: t end
  end.
(** ini.c:43-48 *)
Fixpoint lskip (s : bytes) : bytes :=
  match s with [] => [] | c :: s' => if is_space c then lskip s' else s end.

(** ini.c:53-68: the text before the returned pointer and the text at it. *)
Fixpoint find_from (chars : bytes) (was_space : bool) (s : bytes) : bytes * bytes :=
  match s with
  | [] => ([], [])
  | c :: s' =>
      if has c chars || (was_space && has c (lit ";")) then ([], s)
      else let '(a, b) := find_from chars (is_space c) s' in (c :: a, b)
  end.
Definition find_chars_or_comment (s chars : bytes) : bytes * bytes := find_from chars false s.

(** fgets(line, 200, file): at most 199 bytes, up to and including the first newline. *)
Fixpoint fgets (n : nat) (s : bytes) : bytes * bytes :=
  match n, s with
  | O, _ => ([], s)
  | _, [] => ([], [])
  | S n', c :: s' => if Ascii.eqb c LF then ([c], s') else let '(a, b) := fgets n' s' in (c :: a, b)
  end.
Definition max_line : nat := 199.
Fixpoint read_lines (fuel : nat) (s : bytes) : list bytes :=
  match fuel, s with
  | O, _ => []
  | _, [] => []
  | S f, _ => let '(l, r) := fgets max_line s in l :: read_lines f r
  end.

(** ** INIReader::MakeKey, ValueHandler (INIReader.cpp:120-137) *)

Definition values : Type := bytes -> option bytes.
Fixpoint beqb (a b : bytes) : bool :=
  match a, b with
  | [], [] => true
  | x :: a', y :: b' => Ascii.eqb x y && beqb a' b'
  | _, _ => false
  end.
Definition make_key (section name : bytes) : bytes := map to_lower (section ++ lit "=" ++ name).
Definition value_handler (m : values) (section name value : bytes) : values :=
  let key := make_key section name in
  let old := match m key with Some v => v | None => [] end in
  let new := match old with [] => value | _ => old ++ [LF] ++ value end in
  fun k => if beqb k key then Some new else m k.

(** ** ini_parse_stream (ini.c:79-187) *)

Record ini : Type := mkIni { n_section : bytes; n_prev : bytes; n_lineno : Z; n_error : Z; n_values : values }.

Definition bom (s : bytes) : bool :=
  match s with a :: b :: c :: _ => (code a =? 239) && (code b =? 187) && (code c =? 191) | _ => false end.

(** Sets [error = lineno] unless it is already set (lines 145-148, 170-173). *)
Definition ini_error (st : ini) (lineno : Z) : ini :=
  mkIni (n_section st) (n_prev st) lineno (if n_error st =? 0 then lineno else n_error st) (n_values st).

(** One iteration of the loop.  (The line counter is unbounded: files have fewer than 2^31 lines.) *)
Definition ini_line (st : ini) (line : bytes) : ini :=
  let lineno := n_lineno st + 1 in
  let buf := c_str line in
  let skip := (lineno =? 1) && bom buf in
  let s := rstrip (if skip then skipn 3 buf else buf) in
  let start := lskip s in
  let moved := skip || (Nat.ltb (List.length start) (List.length s)) in      (* start > line *)
  let keep := mkIni (n_section st) (n_prev st) lineno (n_error st) (n_values st) in
  match start with
  | [] => keep
  | c :: rest =>
      if has c (lit ";#") then keep
      else if negb (beqb (n_prev st) []) && moved then
        mkIni (n_section st) (n_prev st) lineno (n_error st) (value_handler (n_values st) (n_section st) (n_prev st) start)
      else if Ascii.eqb c "["%char then
        let '(sec, at_end) := find_chars_or_comment rest (lit "]") in
        match at_end with
        | e :: _ => if Ascii.eqb e "]"%char then mkIni (firstn 49 sec) [] lineno (n_error st) (n_values st)
                    else ini_error st lineno
        | [] => ini_error st lineno
        end
      else
        let '(before, at_end) := find_chars_or_comment start (lit "=:") in
        match at_end with
        | e :: after =>
            if has e (lit "=:") then
              let name := rstrip before in
              let value := rstrip (lskip (fst (find_chars_or_comment after []))) in
              mkIni (n_section st) (firstn 49 name) lineno (n_error st) (value_handler (n_values st) (n_section st) name value)
            else ini_error st lineno
        | [] => ini_error st lineno
        end
  end.

Definition ini_start : ini := mkIni [] [] 0 0 (fun _ => None).
Definition ini_parse (file : bytes) : ini := fold_left ini_line (read_lines (List.length file) file) ini_start.

(** INIReader.cpp:19-30; [None]: fopen fails.  The number in the message is the second component. *)
Inductive reader_result : Type := Reader (m : values) | NoFile | BadLine (lineno : Z).
Definition ini_reader (file : option bytes) : reader_result :=
  match file with
  | None => NoFile
  | Some f => let st := ini_parse f in if n_error st =? 0 then Reader (n_values st) else BadLine (n_error st)
  end.

(** ** Getters (INIReader.cpp:32-118) *)

Definition get (m : values) (section name default : bytes) : bytes :=
  match m (make_key section name) with Some v => v | None => default end.

Definition stob (s : bytes) : outcome bool :=
  let l := map to_lower s in
  if beqb l (lit "true") || beqb l (lit "yes") || beqb l (lit "on") || beqb l (lit "1") then Ok true
  else if beqb l (lit "false") || beqb l (lit "no") || beqb l (lit "off") || beqb l (lit "0") then Ok false
  else Throw "out_of_range: stob".
Definition get_boolean (m : values) (section name : bytes) (default : bool) : outcome bool :=
  match get m section name [] with [] => Ok default | v => stob v end.

(** Digits in a base: value, number of digits, rest. *)
Definition digit_of (base : Z) (c : ascii) : option Z :=
  let n := code (to_lower c) in
  let d := if (48 <=? n) && (n <=? 57) then n - 48 else if (97 <=? n) && (n <=? 122) then n - 87 else base in
  if d <? base then Some d else None.
Fixpoint digits (base acc : Z) (n : nat) (s : bytes) : Z * nat * bytes :=
  match s with
  | c :: s' => match digit_of base c with Some d => digits base (acc * base + d) (S n) s' | None => (acc, n, s) end
  | [] => (acc, n, [])
  end.
Definition sign (s : bytes) : Z * bytes :=
  match s with
  | c :: s' => if Ascii.eqb c "-"%char then (-1, s') else if Ascii.eqb c "+"%char then (1, s') else (1, s)
  | [] => (1, [])
  end.

(** std::stoi(s), base 10 (strtol of the C library, 64-bit long; libstdc++ reports values outside int). *)
Definition stoi (s : bytes) : outcome Z :=
  let '(sg, t) := sign (lskip s) in
  let '(v, n, _) := digits 10 0 0 t in
  match n with
  | O => Throw "invalid_argument: stoi"
  | _ => if (-2 ^ 31 <=? sg * v) && (sg * v <? 2 ^ 31) then Ok (sg * v) else Throw "out_of_range: stoi"
  end.
(** lines 64-69, the overload param.cpp uses *)
Definition get_integer (m : values) (section name : bytes) (default : Z) : outcome Z :=
  match get m section name [] with [] => Ok default | v => stoi v end.

(** std::stod(s) with strtod of glibc in the "C" locale. *)
Inductive real_value : Type := Finite (x : R) | Infinite (neg : bool) | NotANumber.

Definition starts_with (p s : bytes) : bool := beqb (map to_lower (firstn (List.length p) s)) p.

(** Mantissa digits with an optional point: integer value of all digits, number of digits, number of them after the
    point, rest. *)
Definition mantissa (base : Z) (s : bytes) : Z * nat * nat * bytes :=
  let '(a, n, r) := digits base 0 0 s in
  match r with
  | c :: r' => if Ascii.eqb c "."%char then
                 let '(b, k, r2) := digits base a 0 r' in
                 match (n + k)%nat with O => (0, O, O, s) | t => (b, t, k, r2) end
               else (a, n, O, r)
  | [] => (a, n, O, [])
  end.
(** The exponent part: 0 if it is not there (then the letter is not part of the number). *)
Definition exponent (letter : ascii) (s : bytes) : Z :=
  match s with
  | c :: s' => if Ascii.eqb (to_lower c) letter then
                 let '(sg, t) := sign s' in let '(v, n, _) := digits 10 0 0 t in match n with O => 0 | _ => sg * v end
               else 0
  | [] => 0
  end.

Definition dbl_exp : Z -> Z := FLT_exp (-1074) 53.
(** Rounding to nearest even; range errors (libstdc++ throws when strtod sets ERANGE: overflow, and results below the
    smallest normal number that are not exact). *)
Definition to_double (x : R) : outcome real_value :=
  let y := round radix2 dbl_exp ZnearestE x in
  if Rle_dec (bpow radix2 1024) (Rabs y) then Throw "out_of_range: stod"
  else if Rlt_dec (Rabs y) (bpow radix2 (-1022)) then
    if Req_EM_T y x then Ok (Finite y) else Throw "out_of_range: stod"
  else Ok (Finite y).

Definition pow10 (e : Z) : R := powerRZ 10 e.
Definition stod (s : bytes) : outcome real_value :=
  let '(sg, t) := sign (lskip s) in
  if starts_with (lit "inf") t then Ok (Infinite (sg <? 0))
  else if starts_with (lit "nan") t then Ok NotANumber
  else
    let '(h, hn, hk, hr) := mantissa 16 (skipn 2 t) in
    if starts_with (lit "0x") t && Nat.ltb 0 hn then
      to_double (IZR sg * IZR h * powerRZ 2 (exponent "p"%char hr - 4 * Z.of_nat hk))%R
    else
      let '(v, n, k, r) := mantissa 10 t in
      match n with
      | O => Throw "invalid_argument: stod"
      | _ => to_double (IZR sg * IZR v * pow10 (exponent "e"%char r - Z.of_nat k))%R
      end.
(** lines 91-95 *)
Definition get_real (m : values) (section name : bytes) (default : R) : outcome real_value :=
  match get m section name [] with [] => Ok (Finite default) | v => stod v end.
