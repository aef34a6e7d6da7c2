(** * Concrete parameter files for C89 and C90. *)
From Coq Require Import List Ascii Reals Lra Lia ZifyBool.
From Coq Require String.
From Flocq Require Import Core.
From Verif Require Import Base RBase ModelMesh ModelGeom ModelBoundary ModelHydro ModelRad ModelStep ModelUtil ModelIni ModelMain ModelSetup ModelParam SpecMesh SpecIni SpecParam ProofBase ProofR ProofMesh ProofIni ProofIniNum ProofParam ProofParam2.
Local Open Scope string_scope.
Local Open Scope Z_scope.
Local Open Scope list_scope.

(** ** Files given line by line *)
Inductive tagged : Type := TInert (l : string) | THeader (s : string) | TSetting (k v : string).
Definition line_of (t : tagged) : bytes :=
  match t with
  | TInert l => lit l
  | THeader s => header_of (lit s)
  | TSetting k v => setting_of (lit k, lit v)
  end.
Fixpoint entries_of (s : bytes) (ts : list tagged) : list entry :=
  match ts with
  | [] => []
  | TInert _ :: ts => entries_of s ts
  | THeader s' :: ts => entries_of (lit s') ts
  | TSetting k v :: ts => (s, lit k, lit v) :: entries_of s ts
  end.

Definition trimmedb (s : bytes) : bool := beqb (rstrip s) s && beqb (lskip s) s.
Definition uncommentedb (s : bytes) : bool := clear [] false s.
Definition avoidsb (chars s : bytes) : bool := forallb (fun c => negb (has c chars)) s.
Definition not_firstb (chars s : bytes) : bool := match s with [] => true | c :: _ => negb (has c chars) end.
Definition fitsb (l : bytes) : bool := Nat.leb (List.length l) 198 && negb (has LF l) && negb (has NUL l).
Definition inertb (l : bytes) : bool := match l with [] => true | c :: _ => has c (lit ";#") end.
Definition goodb (t : tagged) : bool :=
  fitsb (line_of t) &&
  match t with
  | TInert l => inertb (lit l)
  | THeader s => avoidsb (lit "]") (lit s) && uncommentedb (lit s) && Nat.leb (List.length (lit s)) 49
  | TSetting k v =>
      negb (beqb (lit k) []) && trimmedb (lit k) && uncommentedb (lit k) && avoidsb (lit "=:") (lit k) && not_firstb (lit ";#[") (lit k) &&
      trimmedb (lit v) && uncommentedb (lit v) && not_firstb (lit ";") (lit v)
  end.

Lemma trimmedb_ok s : trimmedb s = true -> trimmed s.
Proof.
  unfold trimmedb. rewrite Bool.andb_true_iff, !beqb_eq. intros [R L]. split.
  - intros c r ->. cbn [lskip] in L. destruct (is_space c) eqn:E; [|reflexivity]. exfalso.
    destruct (lskip_split r) as (w & Er & _ & _). assert (Q : List.length (lskip r) = List.length (c :: r)) by now rewrite L.
    apply (f_equal (@List.length ascii)) in Er. rewrite app_length in Er. cbn [List.length] in Q. lia.
  - intros r c ->. destruct (is_space c) eqn:E; [|reflexivity]. exfalso. rewrite rstrip_app_blank in R by (intros x [<-|[]]; exact E).
    destruct (rstrip_prefix r) as (w & Er & _). assert (Q : List.length (rstrip r) = List.length (r ++ [c])) by now rewrite R.
    apply (f_equal (@List.length ascii)) in Er. rewrite app_length in Er, Q. cbn [List.length] in Q. lia.
Qed.
Lemma uncommentedb_ok s : uncommentedb s = true -> uncommented s. Proof. apply clear_uncommented. Qed.
Lemma avoidsb_ok chars s : avoidsb chars s = true -> avoids chars s.
Proof.
  unfold avoidsb. rewrite forallb_forall. intros H c Hc. specialize (H c Hc). apply Bool.negb_true_iff in H. now apply has_not in H.
Qed.
Lemma not_firstb_ok chars s : not_firstb chars s = true -> not_first chars s.
Proof. intros H c r ->. cbn in H. apply Bool.negb_true_iff in H. now apply has_not in H. Qed.
Lemma fitsb_ok l : fitsb l = true -> fits l.
Proof.
  unfold fitsb. rewrite !Bool.andb_true_iff, !Bool.negb_true_iff, !has_not. intros [[A B] C]. split; [now apply Nat.leb_le|now split].
Qed.
Lemma inertb_ok l : inertb l = true -> inert l.
Proof.
  destruct l as [|c l]; intros H; [left; exact blank_nil|]. right. exists [], c, l. split; [reflexivity|split; [exact blank_nil|]].
  apply has_in in H. cbn in H. intuition congruence.
Qed.

Theorem tagged_file ts : forallb goodb ts = true -> bom (hd [] (map line_of ts)) = false ->
  file_with (entries_of [] ts) (unlines (map line_of ts)).
Proof.
  intros H Hb. exists (map line_of ts). split; [now left|]. split.
  { intros l Hl. apply in_map_iff in Hl. destruct Hl as (t & <- & Ht). rewrite forallb_forall in H. specialize (H t Ht).
    unfold goodb in H. apply andb_prop in H. now apply fitsb_ok. }
  split; [exact Hb|]. clear Hb.
  assert (G : forall s p n, means s p n (map line_of ts) (entries_of s ts) []); [|apply G].
  induction ts as [|t ts IH]; intros s p n; [constructor|].
  cbn [forallb] in H. apply andb_prop in H. destruct H as [Ht H]. specialize (IH H). unfold goodb in Ht. apply andb_prop in Ht. destruct Ht as [_ Ht].
  destruct t as [l|s'|k v]; cbn [map line_of entries_of].
  - apply means_inert; [now apply inertb_ok|apply IH].
  - rewrite !Bool.andb_true_iff in Ht. destruct Ht as [[A B] C]. apply (means_header s p n (lit s') []); [|now apply Nat.leb_le|exact blank_nil|now right|apply IH].
    exists []. split; [reflexivity|split; [now apply avoidsb_ok|now apply uncommentedb_ok]].
  - rewrite !Bool.andb_true_iff in Ht. destruct Ht as [[[[[[[A B] C] D] E] F] G] I].
    apply (means_setting s p n (lit k) (lit v) []); [|exact blank_nil|now right|apply IH].
    apply (setting_of_line (lit k, lit v)); cbn [fst snd].
    + split; [|split; [now apply trimmedb_ok|split; [now apply uncommentedb_ok|split; [now apply avoidsb_ok|now apply not_firstb_ok]]]].
      intros Q. rewrite Q in A. discriminate.
    + split; [now apply trimmedb_ok|split; [now apply uncommentedb_ok|now apply not_firstb_ok]].
Qed.

(** ** Literals *)
Definition digitb (c : ascii) : bool := (48 <=? code c) && (code c <=? 57).
Lemma digits_ok ds : forallb digitb ds = true -> forall c, In c ds -> decimal_digit c.
Proof. intros H c Hc. rewrite forallb_forall in H. specialize (H c Hc). unfold digitb in H. unfold decimal_digit. lia. Qed.
Lemma int_literal s : forallb digitb s = true -> s <> [] -> signed_number s (number s).
Proof. intros H N. exists [], s. split; [reflexivity|split; [exact N|split; [now apply digits_ok|left; split; [now left|reflexivity]]]]. Qed.
Lemma neg_literal s : forallb digitb s = true -> s <> [] -> signed_number ("-"%char :: s) (- number s).
Proof. intros H N. exists (lit "-"), s. split; [reflexivity|split; [exact N|split; [now apply digits_ok|right; split; reflexivity]]]. Qed.
Lemma real_literal sg ip fp : sg = "" \/ sg = "-" -> forallb digitb ip = true -> forallb digitb fp = true -> ip ++ fp <> [] ->
  decimal_literal (lit sg ++ ip ++ lit "." ++ fp) (if String.eqb sg "" then number (ip ++ fp) else - number (ip ++ fp)) (- Z.of_nat (List.length fp)).
Proof.
  intros S I F N. exists (lit sg), ip, (lit "."), fp, [], 0. split; [now rewrite app_nil_r|]. split; [now apply digits_ok|].
  split; [now apply digits_ok|]. split; [exact N|]. split; [now left|]. split; [left; now split|].
  split; [|reflexivity]. destruct S as [-> | ->]; [left; split; [now left|reflexivity]|right; split; reflexivity].
Qed.
Lemma whole_literal sg ip : sg = "" \/ sg = "-" -> forallb digitb ip = true -> ip <> [] ->
  decimal_literal (lit sg ++ ip) (if String.eqb sg "" then number ip else - number ip) 0.
Proof.
  intros S I N. exists (lit sg), ip, [], [], [], 0. split; [now rewrite !app_nil_r|]. split; [now apply digits_ok|].
  split; [intros c []|]. split; [now rewrite app_nil_r|]. split; [right; now split|]. split; [left; now split|].
  split; [|reflexivity]. rewrite app_nil_r. destruct S as [-> | ->]; [left; split; [now left|reflexivity]|right; split; reflexivity].
Qed.

(** ** Sizes *)
Lemma double_abs x : Rabs (double_of x) = double_of (Rabs x).
Proof. unfold double_of. symmetry. apply round_NE_abs. now apply FLT_exp_valid. Qed.
Lemma double_le x y : (x <= y)%R -> (double_of x <= double_of y)%R.
Proof. apply round_le; [now apply FLT_exp_valid|apply valid_rnd_N]. Qed.
Lemma double_bpow e : -1074 <= e -> double_of (bpow radix2 e) = bpow radix2 e.
Proof. intros H. apply round_generic; [apply valid_rnd_N|]. apply generic_format_bpow. unfold FLT_exp. lia. Qed.
Lemma double_0 : double_of 0 = 0%R. Proof. apply round_0. apply valid_rnd_N. Qed.
Lemma double_upper x e : -1074 <= e -> (Rabs x <= bpow radix2 e)%R -> (Rabs (double_of x) <= bpow radix2 e)%R.
Proof. intros He H. rewrite double_abs, <- (double_bpow e He). now apply double_le. Qed.
Lemma double_lower x e : -1074 <= e -> (bpow radix2 e <= Rabs x)%R -> (bpow radix2 e <= Rabs (double_of x))%R.
Proof. intros He H. rewrite double_abs, <- (double_bpow e He) at 1. now apply double_le. Qed.
Lemma ordinary_mid x : (/ 1024 <= Rabs x <= 1048576)%R -> ordinary x.
Proof.
  intros [A B]. right. split.
  - apply Rle_trans with (bpow radix2 (-10)); [apply bpow_le; lia|]. apply double_lower; [lia|]. exact A.
  - apply Rle_lt_trans with (bpow radix2 20); [|apply bpow_lt; lia]. apply double_upper; [lia|]. exact B.
Qed.
Lemma double_F m e : Z.abs m < 2 ^ 53 -> -1074 <= e -> double_of (F2R (Float radix2 m e)) = F2R (Float radix2 m e).
Proof.
  intros Hm He. apply round_generic; [apply valid_rnd_N|]. apply generic_format_FLT. exists (Float radix2 m e); [reflexivity|exact Hm|exact He].
Qed.

(** ** inputs/shock_tube1d_sph.ini, as shipped *)
Definition shipped_with (w : string) : list tagged :=
  [TInert "; SPDX-FileCopyrightText: 2025 The HERACLES++ development team, see COPYRIGHT.md file"; TInert ";";
   TInert "; SPDX-License-Identifier: MIT"; TInert "";
   THeader "Grid"; TSetting "Nx0_glob" "100"; TSetting "Nx1_glob" "1"; TSetting "Nx2_glob" "1"; TInert "";
   TInert "; r"; TSetting "x0min" "1"; TSetting "x0max" "2"; TInert "";
   THeader "Perfect Gas"; TSetting "gamma" "1.4"; TInert "";
   THeader "Passive Scalar"; TSetting "nfx" "1"; TInert "";
   THeader "Run"; TSetting "timeout" w; TSetting "cfl" "0.4"; TInert "";
   THeader "Output"; TSetting "max_iter" "1000"; TSetting "time_frequency" "0.1"; TSetting "prefix" "shock_tube"; TInert "";
   THeader "Hydro"; TSetting "reconstruction" "Minmod"; TSetting "riemann_solver" "HLLC"; TInert "";
   THeader "Boundary Condition"; TSetting "BC_X0" "NullGradient"; TInert "";
   THeader "Initialisation"; TSetting "rho0" "1"; TSetting "rho1" "0.125"; TSetting "u0" "0"; TSetting "u1" "0";
   TSetting "P0" "1"; TSetting "P1" "0.1"; TSetting "inter" "1.5"].
Definition shipped : list tagged := shipped_with "0.2".
Definition shipped_T : list entry := entries_of [] shipped.
Definition shipped_f : bytes := unlines (map line_of shipped).

(** A number as it is written: mantissa and decimal exponent. *)
Definition dbl (k e : Z) : real_value := Finite (double_of (IZR k * powerRZ 10 e)).
Definition def (x : R) : real_value := Finite (double_of x).
Definition shipped_p : param :=
  let zero := def 0 in let one := def 1 in
  mkParam "ShockTube" false "None" (def (10 ^ 20)) 100 1 1 "Regular" 2 (dbl 1 0) (dbl 2 0) zero one zero one "Off" false 0 0 0
    zero (def (1 / 5)) (dbl 4 (-1)) 1000 0 (dbl 1 (-1)) (Finite (double_of (double_of 0 + double_of (IZR 1 * powerRZ 10 (-1)))))
    "." "shock_tube" 20 "Minmod" "HLLC" zero zero zero one (dbl 14 (-1)) one "" "" 1 "Off" "Off" (def (1 / 1000000)).
Definition shipped_ps : list real_value := [dbl 1 0; dbl 125 (-3); dbl 0 0; dbl 0 0; dbl 1 0; dbl 1 (-1); dbl 15 (-1)].

Lemma pow10_0 : powerRZ 10 0 = 1%R. Proof. reflexivity. Qed.
Lemma pow10_m1 : powerRZ 10 (-1) = (/ 10)%R. Proof. change (/ (10 * 1) = / 10)%R. f_equal. lra. Qed.
Lemma pow10_m3 : powerRZ 10 (-3) = (/ 1000)%R. Proof. change (/ (10 * (10 * (10 * 1))) = / 1000)%R. f_equal. lra. Qed.
Ltac ordinary_tac :=
  rewrite ?pow10_0, ?pow10_m1, ?pow10_m3;
  first [ left; lra | apply ordinary_mid; unfold Rabs; destruct (Rcase_abs _); lra ].
Ltac lit_tac :=
  first
  [ match goal with |- signed_number ?s ?z => let t := eval vm_compute in s in change (signed_number t z) end;
    match goal with |- signed_number ("-"%char :: ?s) _ => apply (neg_literal s); [reflexivity|discriminate] | |- signed_number ?s _ => apply (int_literal s); [reflexivity|discriminate] end ].
Ltac dot_tac sg ip fp :=
  apply (real_literal sg (lit ip) (lit fp)); [first [now left|now right]|reflexivity|reflexivity|discriminate].
Ltac who_tac sg ip :=
  apply (whole_literal sg (lit ip)); [first [now left|now right]|reflexivity|discriminate].
Ltac real_tac k e tac := right; exists k, e; split; [tac|split; [ordinary_tac|reflexivity]].
Ltac default_tac := left; split; [vm_compute; reflexivity|reflexivity].
Ltac word_tac := right; split; [vm_compute; discriminate|vm_compute; reflexivity].
Ltac int_tac := right; split; [lit_tac|vm_compute; split; congruence].

Lemma shipped_described : described shipped_T shipped_p.
Proof.
  constructor; unfold shipped_p; cbv zeta; cbn [pm_problem pm_restart pm_restart_file pm_rmax_shift pm_nx0 pm_nx1 pm_nx2 pm_grid_type pm_ng pm_x0min pm_x0max
    pm_x1min pm_x1max pm_x2min pm_x2max pm_shift_grid pm_device_aware pm_dims0 pm_dims1 pm_dims2 pm_t_ini pm_t_end pm_cfl pm_max_iter pm_iter_freq
    pm_time_freq pm_time_first pm_directory pm_prefix pm_time_job pm_reconstruction pm_riemann pm_gx0 pm_gx1 pm_gx2 pm_M pm_gamma pm_mu pm_bc pm_priority
    pm_nfx pm_user_step pm_pressure_fix pm_eps_pf]; unfold def, dbl.
  all: try solve [default_tac].
  all: try solve [word_tac].
  all: try solve [int_tac].
  - real_tac 1 0 ltac:(who_tac "" "1").
  - real_tac 2 0 ltac:(who_tac "" "2").
  - real_tac 4 (-1) ltac:(dot_tac "" "0" "4").
  - real_tac 1 (-1) ltac:(dot_tac "" "0" "1").
  - eexists. split; [|left; split; [vm_compute; reflexivity|reflexivity]].
    exists (double_of 0), (double_of (IZR 1 * powerRZ 10 (-1))). split; [reflexivity|split; [reflexivity|split; [|reflexivity]]].
    rewrite double_0, Rplus_0_l. apply Rle_lt_trans with (bpow radix2 0); [|apply bpow_lt; lia]. apply double_upper; [lia|].
    apply double_upper; [lia|]. rewrite pow10_m1. change (bpow radix2 0) with 1%R. rewrite Rabs_pos_eq; lra.
  - real_tac 14 (-1) ltac:(dot_tac "" "1" "4").
Qed.
Lemma shipped_setup : described_setup shipped_T KShockTube shipped_ps.
Proof.
  exists shipped_ps, []. split; [now rewrite app_nil_r|]. split; [|constructor]. unfold setup_options, shipped_ps, dbl. cbv zeta. cbn [map fst snd].
  constructor; [real_tac 1 0 ltac:(who_tac "" "1")|]. constructor; [real_tac 125 (-3) ltac:(dot_tac "" "0" "125")|].
  constructor; [real_tac 0 0 ltac:(who_tac "" "0")|]. constructor; [real_tac 0 0 ltac:(who_tac "" "0")|].
  constructor; [real_tac 1 0 ltac:(who_tac "" "1")|]. constructor; [real_tac 1 (-1) ltac:(dot_tac "" "0" "1")|].
  constructor; [real_tac 15 (-1) ltac:(dot_tac "" "1" "5")|]. constructor.
Qed.
Lemma shipped_file : file_with shipped_T shipped_f.
Proof. apply tagged_file; vm_compute; reflexivity. Qed.
Definition sph1d : build := mkBuild 1 Spherical PerfectGasEos UniformGrav KShockTube.
Lemma dbl_14 : (1 < double_of (IZR 14 * powerRZ 10 (-1)))%R.
Proof.
  rewrite pow10_m1. apply Rlt_le_trans with (F2R (Float radix2 5 (-2))); [unfold F2R; cbn; lra|].
  rewrite <- (double_F 5 (-2)) by lia. apply double_le. unfold F2R. cbn. lra.
Qed.
Lemma double_1 : double_of 1 = 1%R.
Proof. apply (double_bpow 0). lia. Qed.
Lemma one_of_one nd : process_of nd (I3 1 1 1) (I3 0 0 0).
Proof. intros [|[|[|d]]] Hd; try lia; cbn [coord ii jj kk]; destruct (Nat.ltb _ nd); lia. Qed.

Lemma shipped_conditions : let p := shipped_p in exists ga mu g bcs ws gt order,
  extents_ok 1 p /\ process_of 1 (I3 1 1 1) (I3 0 0 0) /\
  pm_gamma p = Finite ga /\ pm_mu p = Finite mu /\ (1 < ga)%R /\ (0 < mu)%R /\ gas_is PerfectGasEos ga mu g /\
  Forall2 (fun e w => lit w = face_value shipped_T e) (firstn (2 * 1) face_names) ws /\ Forall2 (named bc_table) ws bcs /\
  (if pm_restart p then gt = None else exists c, gt = Some c /\ named grid_table (pm_grid_type p) c) /\
  generate_order 1 (pm_priority p) = Ok order /\
  named limiter_table (pm_reconstruction p) LMinmod /\ named solver_table (pm_riemann p) HLLC /\
  named user_table (pm_user_step p) (Builtin UOff).
Proof.
  intros p. exists (double_of (IZR 14 * powerRZ 10 (-1))), (double_of 1), (PGas (mkPG (double_of (IZR 14 * powerRZ 10 (-1))) (double_of 1))),
    [Builtin NullGradient; Builtin NullGradient], ["NullGradient"; "NullGradient"], (Some (Builtin RegularGrid)),
    (match generate_order 1 "" with Ok o => o | _ => [] end).
  split. { subst p. unfold extents_ok, shipped_p. cbv zeta. cbn [pm_nx0 pm_nx1 pm_nx2 pm_ng]. split; [lia|split; [lia|]].
    intros n [<-|[<-|[<-|[]]]]; lia. }
  split; [apply one_of_one|]. split; [reflexivity|]. split; [reflexivity|]. split; [exact dbl_14|].
  split; [rewrite double_1; lra|]. split; [reflexivity|].
  split. { constructor; [vm_compute; reflexivity|]. constructor; [vm_compute; reflexivity|constructor]. }
  split. { constructor; [cbn; tauto|]. constructor; [cbn; tauto|constructor]. }
  split. { exists (Builtin RegularGrid). split; [reflexivity|now left]. }
  split; [subst p; unfold shipped_p; cbv zeta; cbn [pm_priority]; vm_compute; reflexivity|].
  subst p. unfold shipped_p. cbv zeta. cbn [pm_reconstruction pm_riemann pm_user_step named limiter_table solver_table user_table In]. unfold named. cbn [In limiter_table solver_table user_table]. tauto.
Qed.
Lemma shipped_run : exists r, startup sph1d (I3 1 1 1) (I3 0 0 0) (Some shipped_f) = Ok r /\ r_param r = shipped_p /\ r_setup r = shipped_ps.
Proof.
  destruct shipped_conditions as (ga & mu & g & bcs & ws & gt & order & A1 & A2 & A3 & A4 & A5 & A6 & A7 & A8 & A9 & A10 & A11 & A12 & A13 & A14).
  destruct (the_run_described sph1d shipped_T shipped_f (I3 1 1 1) (I3 0 0 0) shipped_p shipped_ps ga mu g bcs ws gt order LMinmod HLLC (Builtin UOff))
    as (dec & _ & E); [cbn; lia|exact shipped_file|exact shipped_described|exact shipped_setup|exact A1|exact A2|discriminate|assumption..|].
  eexists. split; [exact E|split; reflexivity].
Qed.

(** Whatever is written for the option that does not exist: the run ends at 0.2. *)
Lemma timeout_ignored w : goodb (TSetting "timeout" w) = true ->
  exists r, startup sph1d (I3 1 1 1) (I3 0 0 0) (Some (unlines (map line_of (shipped_with w)))) = Ok r /\
    pm_t_end (r_param r) = Finite (double_of (1 / 5)).
Proof.
  intros Hw. destruct shipped_run as (r & E & P & _). exists r. split; [|now rewrite P].
  rewrite <- E. apply (other_options_ignored sph1d (entries_of [] (shipped_with w)) shipped_T).
  - cbn. lia.
  - apply tagged_file; [|reflexivity]. unfold shipped_with. cbn [forallb]. rewrite Hw. vm_compute. reflexivity.
  - exact shipped_file.
  - intros s n H. unfold known_options, sph1d, setup_options in H. cbv zeta in H. cbn [app map b_setup fst snd] in H.
    repeat (destruct H as [H|H]; [injection H as <- <-; vm_compute; reflexivity|]). contradiction.
Qed.

(** ** A file that asks for nonsense *)
Definition nonsense : list tagged :=
  [THeader "Grid"; TSetting "Nghost" "0"; TSetting "x0max" "-1";
   THeader "Run"; TSetting "cfl" "-1"; TSetting "t_end" "-1";
   THeader "Output"; TSetting "max_iter" "-7"; TSetting "iter_frequency" "-3";
   THeader "Boundary Condition"; TSetting "BC" "Periodic"].
Definition nonsense_T : list entry := entries_of [] nonsense.
Definition nonsense_p : param :=
  let zero := def 0 in let one := def 1 in
  mkParam "ShockTube" false "None" (def (10 ^ 20)) 0 0 0 "Regular" 0 zero (dbl (-1) 0) zero one zero one "Off" false 0 0 0
    zero (dbl (-1) 0) (dbl (-1) 0) (-7) (-3) zero (Finite (double_of (double_of 0 + double_of 0)))
    "." "result" 20 "VanLeer" "HLL" zero zero zero one (def (5 / 3)) one "Periodic" "" 0 "Off" "Off" (def (1 / 1000000)).
Definition cart1d : build := mkBuild 1 Cartesian PerfectGasEos UniformGrav KShockTube.
Lemma nonsense_described : described nonsense_T nonsense_p.
Proof.
  constructor; unfold nonsense_p; cbv zeta; cbn [pm_problem pm_restart pm_restart_file pm_rmax_shift pm_nx0 pm_nx1 pm_nx2 pm_grid_type pm_ng pm_x0min pm_x0max
    pm_x1min pm_x1max pm_x2min pm_x2max pm_shift_grid pm_device_aware pm_dims0 pm_dims1 pm_dims2 pm_t_ini pm_t_end pm_cfl pm_max_iter pm_iter_freq
    pm_time_freq pm_time_first pm_directory pm_prefix pm_time_job pm_reconstruction pm_riemann pm_gx0 pm_gx1 pm_gx2 pm_M pm_gamma pm_mu pm_bc pm_priority
    pm_nfx pm_user_step pm_pressure_fix pm_eps_pf]; unfold def, dbl.
  all: try solve [default_tac].
  all: try solve [word_tac].
  all: try solve [int_tac].
  - real_tac (-1) 0 ltac:(who_tac "-" "1").
  - real_tac (-1) 0 ltac:(who_tac "-" "1").
  - real_tac (-1) 0 ltac:(who_tac "-" "1").
  - eexists. split; [|left; split; [vm_compute; reflexivity|reflexivity]].
    exists (double_of 0), (double_of 0). split; [reflexivity|split; [reflexivity|split; [|reflexivity]]].
    rewrite double_0, Rplus_0_l, double_0, Rabs_R0. apply bpow_gt_0.
Qed.
Lemma dbl_53 : (1 < double_of (5 / 3))%R.
Proof.
  apply Rlt_le_trans with (F2R (Float radix2 3 (-1))); [unfold F2R; cbn; lra|].
  rewrite <- (double_F 3 (-1)) by lia. apply double_le. unfold F2R. cbn. lra.
Qed.
Lemma double_m1 : double_of (IZR (-1) * powerRZ 10 0) = (-1)%R.
Proof.
  rewrite pow10_0, Rmult_1_r. replace (IZR (-1)) with (F2R (Float radix2 (-1) 0)) by (unfold F2R; cbn; lra). apply double_F; lia.
Qed.
Lemma nonsense_accepted : exists r, startup cart1d (I3 1 1 1) (I3 0 0 0) (Some (unlines (map line_of nonsense))) = Ok r /\
  let p := r_param r in
  pm_nx0 p = 0 /\ pm_ng p = 0 /\ pm_x0min p = Finite 0 /\ pm_x0max p = Finite (-1) /\ pm_t_ini p = Finite 0 /\ pm_t_end p = Finite (-1) /\
  pm_cfl p = Finite (-1) /\ pm_max_iter p = -7.
Proof.
  destruct (the_run_described cart1d nonsense_T (unlines (map line_of nonsense)) (I3 1 1 1) (I3 0 0 0) nonsense_p
     [def 1; def 1; def 1; def 1; def 1; def 1; def 1] (double_of (5 / 3)) (double_of 1) (PGas (mkPG (double_of (5 / 3)) (double_of 1)))
     [Builtin Periodic; Builtin Periodic] ["Periodic"; "Periodic"] (Some (Builtin RegularGrid))
     (match generate_order 1 "" with Ok o => o | _ => [] end) LVanLeer HLL (Builtin UOff)) as (dec & _ & E).
  - cbn. lia.
  - apply tagged_file; vm_compute; reflexivity.
  - exact nonsense_described.
  - eexists _, []. split; [rewrite app_nil_r; reflexivity|]. split; [|constructor]. unfold cart1d, b_setup, setup_options, def. cbv zeta. cbn [map fst snd].
    repeat (constructor; [default_tac|]). constructor.
  - unfold extents_ok, nonsense_p. cbv zeta. cbn [pm_nx0 pm_nx1 pm_nx2 pm_ng]. split; [lia|split; [lia|]]. intros n [<-|[<-|[<-|[]]]]; lia.
  - apply one_of_one.
  - discriminate.
  - reflexivity.
  - reflexivity.
  - exact dbl_53.
  - rewrite double_1. lra.
  - reflexivity.
  - constructor; [vm_compute; reflexivity|]. constructor; [vm_compute; reflexivity|constructor].
  - constructor; [cbn; tauto|]. constructor; [cbn; tauto|constructor].
  - exists (Builtin RegularGrid). split; [reflexivity|now left].
  - unfold nonsense_p. cbv zeta. cbn [pm_priority cart1d b_nd]. vm_compute. reflexivity.
  - unfold nonsense_p, named. cbv zeta. cbn [pm_reconstruction limiter_table In]. tauto.
  - unfold nonsense_p, named. cbv zeta. cbn [pm_riemann solver_table In]. tauto.
  - unfold nonsense_p, named. cbv zeta. cbn [pm_user_step user_table In]. tauto.
  - eexists. split; [exact E|]. cbv zeta. cbn [r_param]. unfold nonsense_p, def, dbl.
    cbn [pm_nx0 pm_ng pm_x0min pm_x0max pm_t_ini pm_t_end pm_cfl pm_max_iter]. rewrite double_0, double_m1. repeat split; reflexivity.
Qed.

(** ** A mesh that the index arithmetic cannot handle *)
Definition huge : list tagged := [THeader "Grid"; TSetting "Nx0_glob" "2147483647"; TSetting "Nx1_glob" "1"; TSetting "Nx2_glob" "1";
  THeader "Boundary Condition"; TSetting "BC" "Periodic"].
Definition huge_T : list entry := entries_of [] huge.
Definition huge_p : param :=
  let zero := def 0 in let one := def 1 in
  mkParam "ShockTube" false "None" (def (10 ^ 20)) 2147483647 1 1 "Regular" 2 zero one zero one zero one "Off" false 0 0 0
    zero (def (1 / 5)) (def (2 / 5)) 10000 0 zero (Finite (double_of (double_of 0 + double_of 0)))
    "." "result" 20 "VanLeer" "HLL" zero zero zero one (def (5 / 3)) one "Periodic" "" 0 "Off" "Off" (def (1 / 1000000)).
Lemma huge_described : described huge_T huge_p.
Proof.
  constructor; unfold huge_p; cbv zeta; cbn [pm_problem pm_restart pm_restart_file pm_rmax_shift pm_nx0 pm_nx1 pm_nx2 pm_grid_type pm_ng pm_x0min pm_x0max
    pm_x1min pm_x1max pm_x2min pm_x2max pm_shift_grid pm_device_aware pm_dims0 pm_dims1 pm_dims2 pm_t_ini pm_t_end pm_cfl pm_max_iter pm_iter_freq
    pm_time_freq pm_time_first pm_directory pm_prefix pm_time_job pm_reconstruction pm_riemann pm_gx0 pm_gx1 pm_gx2 pm_M pm_gamma pm_mu pm_bc pm_priority
    pm_nfx pm_user_step pm_pressure_fix pm_eps_pf]; unfold def, dbl.
  all: try solve [default_tac].
  all: try solve [word_tac].
  all: try solve [int_tac].
  eexists. split; [|left; split; [vm_compute; reflexivity|reflexivity]].
  exists (double_of 0), (double_of 0). split; [reflexivity|split; [reflexivity|split; [|reflexivity]]].
  rewrite double_0, Rplus_0_l, double_0, Rabs_R0. apply bpow_gt_0.
Qed.
Lemma huge_overflow : startup cart1d (I3 1 1 1) (I3 0 0 0) (Some (unlines (map line_of huge))) = UB "signed overflow".
Proof.
  apply (overflow cart1d huge_T _ _ _ huge_p [def 1; def 1; def 1; def 1; def 1; def 1; def 1]).
  - cbn. lia.
  - apply tagged_file; vm_compute; reflexivity.
  - exact huge_described.
  - eexists _, []. split; [rewrite app_nil_r; reflexivity|]. split; [|constructor]. unfold cart1d, b_setup, setup_options, def. cbv zeta. cbn [map fst snd].
    repeat (constructor; [default_tac|]). constructor.
  - apply one_of_one.
  - unfold huge_p. cbv zeta. cbn [pm_ng]. lia.
  - unfold huge_p. cbv zeta. cbn [pm_nx0]. lia.
  - unfold huge_p. cbv zeta. cbn [pm_nx1]. lia.
  - unfold huge_p. cbv zeta. cbn [pm_nx2]. lia.
  - unfold huge_p. cbv zeta. cbn [pm_nx0 pm_ng]. lia.
Qed.
Lemma unknown_option :
  In (lit "Run", lit "timeout", lit "0.2") shipped_T /\ file_with shipped_T shipped_f /\
  (forall s n, In (s, n) (known_options sph1d) -> alike (lit "Run") (lit s) && alike (lit "timeout") (lit n) = false) /\
  forall w, goodb (TSetting "timeout" w) = true ->
    exists r, startup sph1d (I3 1 1 1) (I3 0 0 0) (Some (unlines (map line_of (shipped_with w)))) = Ok r /\
      pm_t_end (r_param r) = Finite (double_of (1 / 5)).
Proof.
  split; [unfold shipped_T; cbn [entries_of shipped shipped_with]; cbn [In]; tauto|]. split; [exact shipped_file|]. split; [|exact timeout_ignored].
  intros s n H. unfold known_options, sph1d, setup_options in H. cbv zeta in H. cbn [app map b_setup fst snd] in H.
  repeat (destruct H as [H|H]; [injection H as <- <-; vm_compute; reflexivity|]). contradiction.
Qed.
