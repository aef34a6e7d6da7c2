(** * Proofs for C89 and C90. *)
From Coq Require Import Ascii Reals Lra Lia ZifyBool.
From Coq Require String.
From Flocq Require Import Core.
From Verif Require Import Base RBase ModelMesh ModelGeom ModelBoundary ModelHydro ModelRad ModelStep ModelUtil ModelIni ModelMain ModelSetup ModelParam SpecMesh SpecIni SpecParam ProofBase ProofR ProofMesh ProofIni ProofIniNum.
Local Open Scope string_scope.
Local Open Scope Z_scope.
Local Open Scope list_scope.

(** ** What the getters return *)

(** [m] holds the entries [T]. *)
Definition holds (T : list entry) (m : values) : Prop :=
  forall s n d, ~ In "="%char n -> get m s n d = match written s n T with [] => d | vs => join vs end.

Lemma file_reader T f : file_with T f -> exists m, reader_of (Some f) = Ok m /\ holds T m.
Proof.
  intros (ls & A & B & C & D). destruct (reads_back ls f T A B C D) as (m & E & H). exists m. split; [|exact H].
  unfold reader_of. now rewrite E.
Qed.

Definition plain (n : string) : Prop := ~ In "="%char (lit n).
Definition plainb (n : string) : bool := negb (has "="%char (lit n)).
Lemma plain_of n : plainb n = true -> plain n.
Proof.
  unfold plainb, plain, has. intros H K. apply Bool.negb_true_iff in H.
  assert (Q : existsb (Ascii.eqb "="%char) (lit n) = true) by (apply existsb_exists; exists "="%char; split; [exact K|apply Ascii.eqb_refl]).
  congruence.
Qed.
Ltac plain_tac := apply plain_of; reflexivity.

Lemma get_empty T m s n : holds T m -> plain n -> get m (lit s) (lit n) [] = value_given T s n.
Proof. intros H P. rewrite H by exact P. unfold value_given, given. now destruct (written _ _ _). Qed.

Lemma text_says T m s n d w : holds T m -> plain n -> says_text T s n d w -> text m s n d = w.
Proof.
  intros H P S. unfold text. rewrite H by exact P. fold (given T s n). destruct S as [[G ->]|[G E]].
  - rewrite G. unfold lit. apply String.string_of_list_ascii_of_string.
  - unfold value_given in E. destruct (given T s n) as [|v l] eqn:Q; [now elim G|]. rewrite <- E. apply String.string_of_list_ascii_of_string.
Qed.
Lemma flag_says T m s n d b : holds T m -> plain n -> says_bool T s n d b -> flag_of m s n d = Ok b.
Proof. intros H P S. unfold flag_of. apply get_boolean_spec. rewrite (get_empty T) by assumption. exact S. Qed.
Lemma integer_says T m s n d z : holds T m -> plain n -> says_int T s n d z -> integer m s n d = Ok z.
Proof.
  intros H P S. unfold integer. apply get_integer_spec. rewrite (get_empty T) by assumption. destruct S as [S|[S I]]; [now left|right].
  split; [|exact I]. exists [], (value_given T s n), []. rewrite app_nil_r. split; [reflexivity|]. split; [intros c []|]. split; [exact S|].
  intros c q E. discriminate.
Qed.
Lemma literal_not_empty t k e : decimal_literal t k e -> t <> [].
Proof.
  intros (sg & ip & pt & fp & ex & e0 & E & _ & _ & N & _) ->. symmetry in E. apply app_eq_nil in E. destruct E as [_ E].
  apply app_eq_nil in E. destruct E as [-> E]. apply app_eq_nil in E. destruct E as [_ E]. apply app_eq_nil in E. destruct E as [-> _]. now elim N.
Qed.
Lemma real_or_says T m s n d x : holds T m -> plain n -> says_real_or T s n d x -> real_or m s n d = Ok x.
Proof.
  intros H P S. unfold real_or. rewrite (get_empty T) by assumption. destruct S as [[-> ->]|(k & e & L & O & ->)]; [reflexivity|].
  pose proof (literal_not_empty _ _ _ L) as N. destruct (value_given T s n) as [|c v] eqn:E; [now elim N|]. clear N.
  pose proof (stod_literal [] (c :: v) k e [] ltac:(intros q []) L ltac:(intros q r Q; discriminate)) as Q.
  cbn [app] in Q. rewrite app_nil_r in Q. rewrite Q. apply to_double_normal. exact O.
Qed.
Lemma real_says T m s n d x : holds T m -> plain n -> says_real T s n d x -> real m s n d = Ok x.
Proof. exact (real_or_says T m s n (Finite (double_of d)) x). Qed.

Lemma sum_plus a b c : sum_of a b c -> plus a b = c.
Proof.
  intros (x & y & -> & -> & H & ->). cbn [plus]. unfold rounded, nearest. fold (double_of (x + y)).
  change (round radix2 dbl_exp ZnearestE (x + y)) with (double_of (x + y)).
  destruct (Rle_dec _ _) as [Q|_]; [lra|reflexivity].
Qed.

(** ** Param *)
Lemma param_says T m p : holds T m -> described T p -> read_param m = Ok p.
Proof.
  intros H D. unfold read_param.
  destruct D as [D1 D2 D3 D4 D5 D6 D7 D8 D9 D10 D11 D12 D13 D14 D15 D16 D17 D18 D19 D20 D21 D22 D23 D24 D25 D26 D27 D28 D29 D30
                 D31 D32 D33 D34 D35 D36 D37 D38 D39 D40 D41 D42 D43 D44].
  destruct D27 as (d & S & D27).
  replace (2 / 10)%R with (1 / 5)%R by lra. replace (4 / 10)%R with (2 / 5)%R by lra. replace (1 / 10 ^ 6)%R with (1 / 1000000)%R by lra.
  repeat match goal with
  | S : sum_of ?a ?b ?d |- context [plus ?a ?b] => rewrite (sum_plus a b d S)
  | D : says_int T ?s ?n ?d ?z |- context [integer m ?s ?n ?d] => rewrite (integer_says T m s n d z H ltac:(plain_tac) D); cbn [obind]
  | D : says_real T ?s ?n ?d ?z |- context [real m ?s ?n ?d] => rewrite (real_says T m s n d z H ltac:(plain_tac) D); cbn [obind]
  | D : says_real_or T ?s ?n ?d ?z |- context [real_or m ?s ?n ?d] => rewrite (real_or_says T m s n d z H ltac:(plain_tac) D); cbn [obind]
  | D : says_bool T ?s ?n ?d ?z |- context [flag_of m ?s ?n ?d] => rewrite (flag_says T m s n d z H ltac:(plain_tac) D); cbn [obind]
  | D : says_text T ?s ?n ?d ?z |- context [text m ?s ?n ?d] => rewrite (text_says T m s n d z H ltac:(plain_tac) D)
  end. now destruct p.
Qed.

Definition plain_table (l : list (string * string * R)) : bool := forallb (fun e => plainb (snd (fst e))) l.
Lemma reals_says T m l : holds T m -> plain_table l = true -> forall ps,
  Forall2 (fun e x => let '(s, n, d) := e in says_real T s n d x) l ps ->
  omap (fun e => let '(s, n, d) := e in real m s n d) l = Ok ps.
Proof.
  intros H. induction l as [|[[s n] d] l IH]; intros P ps F; inversion F as [|e x l' ps' A B]; subst; [reflexivity|].
  cbn [plain_table forallb fst snd] in P. apply andb_prop in P. destruct P as [P1 P2].
  cbn [omap]. rewrite (real_says T m s n d x H (plain_of n P1) A). cbn [obind]. rewrite (IH P2 ps' B). reflexivity.
Qed.
Lemma setup_table_options k : setup_table k =
  map (fun e => ("Initialisation", fst e, snd e)) (fst (setup_options k)) ++ map (fun e => ("Gravity", fst e, snd e)) (snd (setup_options k)).
Proof. destruct k; reflexivity. Qed.
Lemma forall2_section T c l : forall ps, Forall2 (fun e x => says_real T c (fst e) (snd e) x) l ps ->
  Forall2 (fun e x => let '(s, n, d) := e in says_real T s n d x) (map (fun e : string * R => (c, fst e, snd e)) l) ps.
Proof. induction l as [|[n d] l IH]; intros ps F; inversion F; subst; cbn [map]; constructor; auto. Qed.
Lemma setup_says T m k ps : holds T m -> described_setup T k ps -> read_setup m k = Ok ps.
Proof.
  intros H (ps1 & ps2 & -> & D1 & D2). unfold read_setup. apply (reals_says T); [exact H|now destruct k|].
  rewrite setup_table_options. apply Forall2_app; now apply forall2_section.
Qed.

(** ** Grid *)
Lemma int32_of z : - 2 ^ 31 <= z < 2 ^ 31 -> int32 z = true.
Proof. intros H. unfold int32, int_max. change (2 ^ 31) with 2147483648 in H. lia. Qed.

Lemma process_valid nd dims rank : process_of nd dims rank -> valid_rank (mpi_dims nd dims) rank.
Proof.
  intros H d Hd. destruct (H d Hd) as [A B]. unfold mpi_dims. rewrite coord_mk3 by exact Hd. destruct (Nat.ltb d nd); lia.
Qed.

Lemma grid_says nd p dims rank : (1 <= nd <= 3)%nat -> extents_ok nd p -> process_of nd dims rank ->
  exists dec, make_grid nd p dims rank = Ok dec /\
    mpi_decomposition nd (I3 (pm_nx0 p) (pm_nx1 p) (pm_nx2 p)) dims (pm_ng p) rank = Ok dec.
Proof.
  intros Hnd (G & G2 & X) Pr. set (N := I3 (pm_nx0 p) (pm_nx1 p) (pm_nx2 p)).
  assert (HN : forall d, (d < 3)%nat -> 0 <= coord d N /\ coord d N + 2 * pm_ng p + 3 < 2 ^ 31).
  { intros d Hd. destruct d as [|[|[|d]]]; [| | |lia]; unfold N; cbn [coord ii jj kk]; apply X; cbn; auto. }
  pose proof (process_valid nd dims rank Pr) as V.
  pose proof (mpi_decomposition_ok nd N dims (pm_ng p) rank ltac:(intros d Hd; apply (HN d Hd)) V) as E.
  eexists. split; [|exact E]. unfold make_grid. fold N. rewrite E. cbn [obind].
  match goal with |- context [forallb int32 ?l] => assert (Q : forallb int32 l = true) end; [|now rewrite Q].
  apply forallb_forall. intros z Hz. apply in_flat_map in Hz. destruct Hz as (d & Hd & Hz).
  assert (Hd3 : (d < 3)%nat) by (cbn in Hd; lia). clear Hd. destruct (HN d Hd3) as [N0 N1]. destruct (V d Hd3) as [V1 V2].
  cbn [decomp_of d_nloc d_range corner_min] in Hz.
  unfold grid_ints in Hz. cbv zeta in Hz.
  set (g := coord d (nghost_of nd (pm_ng p))) in *. 
  match type of Hz with context [coord d ?c + coord d ?k] => set (c1 := coord d c) in *; set (n1 := coord d k) in * end.
  assert (Hg : 0 <= g <= pm_ng p).
  { unfold g, nghost_of. rewrite coord_mk3 by exact Hd3. destruct (Nat.ltb d nd); lia. }
  assert (Hc : 0 <= c1 /\ 0 <= n1 /\ c1 + n1 <= coord d N).
  { unfold c1, n1. cbn [decomp_of d_nloc d_range corner_min]. unfold decomp_of. cbn [d_nloc d_range corner_min].
    rewrite !coord_mk3 by exact Hd3.
    split; [|split].
    all: pose proof (decomp_eq (coord d N) (coord d (mpi_dims nd dims)) N0 ltac:(lia)) as (Q1 & Q2 & Q3).
    all: try rewrite (cmin_eq (coord d N) (coord d (mpi_dims nd dims)) N0 ltac:(lia) (coord d rank)).
    all: try rewrite (nloc_eq (coord d N) (coord d (mpi_dims nd dims)) N0 ltac:(lia) (coord d rank)).
    all: set (q := _ / _) in *; set (mm := _ mod _) in *.
    - nia.
    - destruct (_ <? _); lia.
    - destruct (Z.ltb_spec (coord d rank) mm); nia. }
  apply int32_of. change (2 ^ 31) with 2147483648 in *.
  repeat (rewrite in_app_iff in Hz). cbn [In] in Hz.
  destruct Hz as [Hz|[Hz|Hz]].
  - destruct Hz as [<-|[<-|[<-|[<-|[]]]]]; lia.
  - destruct (Nat.ltb d nd); [|destruct Hz]. cbn [In] in Hz. destruct Hz as [<-|[<-|[<-|[<-|[<-|[<-|[<-|[]]]]]]]]; lia.
  - destruct Hz as [<-|[<-|[]]]; lia.
Qed.

(** ** EOS *)
Lemma eos_says k p ga mu : pm_gamma p = Finite ga -> pm_mu p = Finite mu -> (1 < ga)%R -> (0 < mu)%R ->
  forall g, gas_is k ga mu g -> make_eos k p = Ok g.
Proof.
  intros Eg Em Hg Hm g G. unfold make_eos, make_perfect_gas, make_rad_gas. rewrite Eg, Em. cbn [xreal_of xfinite xleb negb orb].
  rewrite (proj2 (rleb_false ga 1) Hg), (proj2 (rleb_false mu 0) Hm). destruct k; cbn [obind]; cbn in G; now rewrite G.
Qed.

(** ** Boundary conditions *)
Lemma lit_of_string v w : lit w = v -> String.string_of_list_ascii v = w.
Proof. intros <-. apply String.string_of_list_ascii_of_string. Qed.
Lemma bc_entry T m n : holds T m -> plain n ->
  bc_entries m n = match given T "Boundary Condition" n with [] => None | l => Some (String.string_of_list_ascii (join l)) end.
Proof.
  intros H P. unfold bc_entries. pose proof (H (lit "Boundary Condition") (lit n) [] P) as A.
  pose proof (H (lit "Boundary Condition") (lit n) (lit "x") P) as B. unfold get in A, B. fold (given T "Boundary Condition" n) in A, B.
  destruct (m (make_key (lit "Boundary Condition") (lit n))) as [v|]; destruct (given T "Boundary Condition" n) as [|a l].
  - exfalso. rewrite A in B. discriminate.
  - now rewrite A.
  - reflexivity.
  - exfalso. rewrite <- A in B. discriminate.
Qed.
Lemma bc_face_says T m d f e w : holds T m ->
  e = ("BC" ++ bc_dir d, "BC" ++ bc_dir d ++ bc_face f)%string -> plain (fst e) -> plain (snd e) -> lit w = face_value T e -> w <> "" ->
  bc_choice_face (bc_entries m) d f = Ok w.
Proof.
  intros H E P1 P2 F N. unfold bc_choice_face, get_or. rewrite E in P1, P2. cbn [fst snd] in P1, P2.
  rewrite (bc_entry T m ("BC" ++ bc_dir d ++ bc_face f) H P2), (bc_entry T m ("BC" ++ bc_dir d) H P1),
    (bc_entry T m "BC" H ltac:(plain_tac)).
  assert (Q : (match given T "Boundary Condition" ("BC" ++ bc_dir d ++ bc_face f) with
      [] => match given T "Boundary Condition" ("BC" ++ bc_dir d) with
            [] => match given T "Boundary Condition" "BC" with [] => "" | l => String.string_of_list_ascii (join l) end
            | l => String.string_of_list_ascii (join l) end
      | l => String.string_of_list_ascii (join l) end) = w).
  { rewrite E in F. unfold face_value in F. cbn [fst snd] in F.
    destruct (given T "Boundary Condition" ("BC" ++ bc_dir d ++ bc_face f)); [|now apply lit_of_string].
    destruct (given T "Boundary Condition" ("BC" ++ bc_dir d)); [|now apply lit_of_string].
    destruct (given T "Boundary Condition" "BC"); [|now apply lit_of_string]. cbn in F. symmetry. destruct w; [reflexivity|discriminate]. }
  match goal with |- (if String.eqb ?v "" then _ else _) = _ => assert (V : v = w) end.
  { rewrite <- Q. destruct (given T "Boundary Condition" ("BC" ++ bc_dir d ++ bc_face f)); [|reflexivity].
    destruct (given T "Boundary Condition" ("BC" ++ bc_dir d)); [|reflexivity]. now destruct (given T "Boundary Condition" "BC"). }
  rewrite V. destruct (String.eqb_spec w ""); [contradiction|reflexivity].
Qed.
Lemma omap_names {A : Type} (g : nat -> outcome A) l : forall ws, Forall2 (fun i w => g i = Ok w) l ws -> omap g l = Ok ws.
Proof.
  induction l as [|i l IH]; intros ws F; inversion F as [|? w ? ws' A1 B1]; subst; [reflexivity|]. cbn [omap].
  rewrite A1. cbn [obind]. rewrite (IH ws' B1). reflexivity.
Qed.
Lemma bc_names_says T m nd ws : (1 <= nd <= 3)%nat -> holds T m ->
  Forall2 (fun e w => lit w = face_value T e /\ w <> "") (firstn (2 * nd) face_names) ws -> bc_names nd m = Ok ws.
Proof.
  intros Hnd H F. unfold bc_names. apply omap_names.
  assert (G : forall i e w, nth_error face_names i = Some e -> lit w = face_value T e /\ w <> "" ->
     bc_choice_face (bc_entries m) (Nat.div2 i) (Nat.modulo i 2) = Ok w).
  { intros i e w E [E1 E2]. apply (bc_face_says T m _ _ e); try assumption.
    - do 6 (destruct i as [|i]; [injection E as <-; reflexivity|]). destruct i; discriminate.
    - do 6 (destruct i as [|i]; [injection E as <-; plain_tac|]). destruct i; discriminate.
    - do 6 (destruct i as [|i]; [injection E as <-; plain_tac|]). destruct i; discriminate. }
  destruct nd as [|[|[|[|nd]]]]; try lia; cbn [Nat.mul Nat.add firstn face_names seq] in F |- *;
  repeat match goal with
  | F : Forall2 _ (_ :: _) _ |- _ => let w := fresh "w" in let A := fresh "A" in let B := fresh "B" in
      inversion F as [|? w ? ? A B]; subst; clear F
  | F : Forall2 _ [] _ |- _ => inversion F; subst; clear F
  end;
  repeat (apply Forall2_cons; [eapply G; [reflexivity|assumption]|]); apply Forall2_nil.
Qed.

(** ** Names *)
Lemma bc_named w c : named bc_table w c -> or_setup factory_boundary w = Ok c.
Proof. unfold named, bc_table. cbn. intros [H|[H|[H|[H|[]]]]]; injection H as <- <-; reflexivity. Qed.
Lemma bcs_named ws cs : Forall2 (named bc_table) ws cs -> omap (or_setup factory_boundary) ws = Ok cs.
Proof.
  intros F. induction F as [|w c ws cs A B IH]; [reflexivity|]. cbn [omap]. rewrite (bc_named w c A). cbn [obind]. rewrite IH. reflexivity.
Qed.
Lemma grid_named w c : named grid_table w c -> or_setup factory_grid_type w = Ok c.
Proof. unfold named, grid_table. cbn. intros [H|[H|[]]]; injection H as <- <-; reflexivity. Qed.
Lemma user_named w c : named user_table w c -> or_setup factory_user_step w = Ok c.
Proof. unfold named, user_table. cbn. intros [H|[H|[H|[]]]]; injection H as <- <-; reflexivity. Qed.
Lemma limiter_named w c : named limiter_table w c -> factory_limiter w = Ok c.
Proof. unfold named, limiter_table. cbn. intros [H|[H|[H|[H|[]]]]]; injection H as <- <-; reflexivity. Qed.
Lemma solver_named w c : named solver_table w c -> factory_solver w = Ok c.
Proof. unfold named, solver_table. cbn. intros [H|[H|[H|[]]]]; injection H as <- <-; reflexivity. Qed.
Lemma bc_names_nonempty T es ws cs : Forall2 (fun e w => lit w = face_value T e) es ws -> Forall2 (named bc_table) ws cs ->
  Forall2 (fun e w => lit w = face_value T e /\ w <> "") es ws.
Proof.
  intros F. revert cs. induction F as [|e w es ws A B IH]; intros cs G; [constructor|]. inversion G as [|? c ? cs' C D]; subst.
  constructor; [|exact (IH cs' D)]. split; [exact A|]. unfold named, bc_table in C. cbn in C.
  destruct C as [H|[H|[H|[H|[]]]]]; injection H as <- _; discriminate.
Qed.

(** ** main *)
Theorem the_run_described : forall b T f dims rank p ps ga mu g bcs ws gt order lim sol us,
  (1 <= b_nd b <= 3)%nat -> file_with T f ->
  described T p -> described_setup T (b_setup b) ps ->
  extents_ok (b_nd b) p -> process_of (b_nd b) dims rank ->
  (b_grav b = InternalMassGrav -> coord 0 dims = 1) ->
  pm_gamma p = Finite ga -> pm_mu p = Finite mu -> (1 < ga)%R -> (0 < mu)%R -> gas_is (b_eos b) ga mu g ->
  Forall2 (fun e w => lit w = face_value T e) (firstn (2 * b_nd b) face_names) ws -> Forall2 (named bc_table) ws bcs ->
  (if pm_restart p then gt = None else exists c, gt = Some c /\ named grid_table (pm_grid_type p) c) ->
  generate_order (b_nd b) (pm_priority p) = Ok order ->
  named limiter_table (pm_reconstruction p) lim -> named solver_table (pm_riemann p) sol -> named user_table (pm_user_step p) us ->
  exists dec, mpi_decomposition (b_nd b) (I3 (pm_nx0 p) (pm_nx1 p) (pm_nx2 p)) dims (pm_ng p) rank = Ok dec /\
    startup b dims rank (Some f) =
    Ok (mkRun p ps dec g gt bcs order lim sol us (String.eqb (pm_shift_grid p) "UserDefined") (String.eqb (pm_pressure_fix p) "On")).
Proof.
  intros b T f dims rank p ps ga mu g bcs ws gt order lim sol us Hnd Hf Hp Hs Hx Hr Hi Eg Em Lg Lm Hgas Hb Hbc Hgt Ho Hl Hso Hu.
  destruct (file_reader T f Hf) as (m & Rm & Hm). destruct (grid_says (b_nd b) p dims rank Hnd Hx Hr) as (dec & Ed & Dd).
  exists dec. split; [exact Dd|]. unfold startup. rewrite Rm. cbn [obind]. unfold startup_from.
  rewrite (param_says T m p Hm Hp). cbn [obind].
  rewrite (setup_says T m (b_setup b) ps Hm Hs). cbn [obind].
  rewrite Ed. cbn [obind].
  rewrite (eos_says (b_eos b) p ga mu Eg Em Lg Lm g Hgas). cbn [obind].
  rewrite (bc_names_says T m (b_nd b) ws Hnd Hm (bc_names_nonempty T _ ws bcs Hb Hbc)). cbn [obind].
  assert (G : (if pm_restart p then Ok None else obind (or_setup factory_grid_type (pm_grid_type p)) (fun t => Ok (Some t))) = Ok gt).
  { destruct (pm_restart p); [now rewrite Hgt|]. destruct Hgt as (c & -> & Hc). rewrite (grid_named _ c Hc). reflexivity. }
  rewrite G. cbn [obind].
  assert (I : match b_grav b with
         | InternalMassGrav => if coord 0 (mpi_dims (b_nd b) dims) =? 1 then Ok tt
                               else Throw "The function make_internal_mass_gravity does not handle more than 1 MPI process in the first dimension"
         | _ => Ok tt end = Ok tt).
  { destruct (b_grav b); [reflexivity|reflexivity|]. unfold mpi_dims. rewrite coord_mk3 by lia.
    destruct (Nat.ltb_spec 0 (b_nd b)); [|lia]. rewrite (Hi eq_refl). reflexivity. }
  rewrite I. cbn [obind]. rewrite (bcs_named ws bcs Hbc). cbn [obind]. rewrite Ho. cbn [obind].
  rewrite (limiter_named _ lim Hl). cbn [obind]. rewrite (solver_named _ sol Hso). cbn [obind]. rewrite (user_named _ us Hu). reflexivity.
Qed.

(** ** Options that are not looked up *)
Definition agree (m1 m2 : values) (e : string * string) : Prop :=
  forall d, get m1 (lit (fst e)) (lit (snd e)) d = get m2 (lit (fst e)) (lit (snd e)) d.
Section Agree.
Variables m1 m2 : values.
Variable b : build.
Hypothesis A : forall e, In e (known_options b) -> agree m1 m2 e.

Lemma agree_text s n d : In (s, n) (known_options b) -> text m1 s n d = text m2 s n d.
Proof. intros H. unfold text. pose proof (A (s, n) H (lit d)) as Q. cbn [fst snd] in Q. now rewrite Q. Qed.
Lemma agree_flag s n d : In (s, n) (known_options b) -> flag_of m1 s n d = flag_of m2 s n d.
Proof. intros H. unfold flag_of, get_boolean. pose proof (A (s, n) H []) as Q. cbn [fst snd] in Q. now rewrite Q. Qed.
Lemma agree_integer s n d : In (s, n) (known_options b) -> integer m1 s n d = integer m2 s n d.
Proof. intros H. unfold integer, get_integer. pose proof (A (s, n) H []) as Q. cbn [fst snd] in Q. now rewrite Q. Qed.
Lemma agree_real_or s n d : In (s, n) (known_options b) -> real_or m1 s n d = real_or m2 s n d.
Proof. intros H. unfold real_or. pose proof (A (s, n) H []) as Q. cbn [fst snd] in Q. now rewrite Q. Qed.
Lemma agree_real s n d : In (s, n) (known_options b) -> real m1 s n d = real m2 s n d.
Proof. apply agree_real_or. Qed.

Lemma known_in s n : existsb (fun e => (String.eqb (fst e) s && String.eqb (snd e) n)%bool) (firstn 53 (known_options b)) = true ->
  In (s, n) (known_options b).
Proof.
  intros H. apply existsb_exists in H. destruct H as ([s' n'] & I & E). apply andb_prop in E. destruct E as [E1 E2]. cbn [fst snd] in E1, E2.
  apply String.eqb_eq in E1, E2. subst. rewrite <- (firstn_skipn 53 (known_options b)). apply in_or_app. now left.
Qed.
Ltac known := apply known_in; vm_compute; reflexivity.
Lemma obind_ext {X Y : Type} (o : outcome X) (f g : X -> outcome Y) : (forall x, f x = g x) -> obind o f = obind o g.
Proof. intros H. destruct o; cbn; auto. Qed.
Lemma agree_param : read_param m1 = read_param m2.
Proof.
  unfold read_param.
  repeat match goal with
  | |- context [text m1 ?s ?n ?d] => rewrite (agree_text s n d) by known
  | |- context [flag_of m1 ?s ?n ?d] => rewrite (agree_flag s n d) by known
  | |- context [integer m1 ?s ?n ?d] => rewrite (agree_integer s n d) by known
  | |- context [real m1 ?s ?n ?d] => rewrite (agree_real s n d) by known
  end.
  do 100 first [progress cbv zeta | apply obind_ext; intro | rewrite agree_real_or by known; reflexivity | reflexivity].
Qed.
Lemma agree_setup : read_setup m1 (b_setup b) = read_setup m2 (b_setup b).
Proof.
  unfold read_setup.
  assert (S : forall l, incl l (setup_table (b_setup b)) ->
    omap (fun e => let '(s, n, d) := e in real m1 s n d) l = omap (fun e => let '(s, n, d) := e in real m2 s n d) l).
  { induction l as [|[[s n] d] l IH]; intros I; [reflexivity|]. cbn [omap].
    rewrite (agree_real s n d). 2: { unfold known_options. rewrite !in_app_iff. right. right. pose proof (I (s, n, d) (or_introl eq_refl)) as Q. rewrite setup_table_options in Q.
      rewrite in_app_iff, !in_map_iff in Q. destruct Q as [(e & Q & Ie)|(e & Q & Ie)]; injection Q as <- <- <-; [left|right; left]; apply in_map_iff; now exists e. }
    rewrite IH by (intros x Hx; apply I; now right). reflexivity. }
  apply S. intros x H; exact H.
Qed.
Lemma agree_bc n : In ("Boundary Condition", n) (known_options b) -> bc_entries m1 n = bc_entries m2 n.
Proof.
  intros H. unfold bc_entries. pose proof (A ("Boundary Condition", n) H) as Q. unfold agree, get in Q. cbn [fst snd] in Q.
  destruct (m1 _) as [v|]; destruct (m2 _) as [w|].
  - now rewrite (Q []).
  - pose proof (Q []) as Q1. pose proof (Q (lit "x")) as Q2. rewrite Q1 in Q2. discriminate.
  - pose proof (Q []) as Q1. pose proof (Q (lit "x")) as Q2. rewrite <- Q1 in Q2. discriminate.
  - reflexivity.
Qed.
Lemma agree_names nd : (nd <= 3)%nat -> bc_names nd m1 = bc_names nd m2.
Proof.
  intros Hnd. unfold bc_names.
  assert (S : forall l, (forall i, In i l -> (i < 6)%nat) ->
    omap (fun i => bc_choice_face (bc_entries m1) (Nat.div2 i) (Nat.modulo i 2)) l =
    omap (fun i => bc_choice_face (bc_entries m2) (Nat.div2 i) (Nat.modulo i 2)) l).
  { induction l as [|i l IH]; intros I; [reflexivity|]. cbn [omap].
    assert (E : bc_choice_face (bc_entries m1) (Nat.div2 i) (Nat.modulo i 2) = bc_choice_face (bc_entries m2) (Nat.div2 i) (Nat.modulo i 2)).
    { pose proof (I i (or_introl eq_refl)) as Hi. unfold bc_choice_face, get_or. rewrite (agree_bc "BC") by known.
      do 6 (destruct i as [|i]; [cbn [Nat.div2 Nat.modulo Nat.divmod fst snd Nat.sub bc_dir bc_face String.append];
        rewrite !agree_bc by known; reflexivity|]). lia. }
    rewrite E, IH by (intros j Hj; apply I; now right). reflexivity. }
  apply S. intros i Hi. apply in_seq in Hi. lia.
Qed.
Theorem agree_startup dims rank : (b_nd b <= 3)%nat -> startup_from b dims rank m1 = startup_from b dims rank m2.
Proof. intros H. unfold startup_from. now rewrite agree_param, agree_setup, (agree_names _ H). Qed.
End Agree.

Lemma known_plain b e : In e (known_options b) -> plain (snd e).
Proof.
  intros H. assert (Q : forallb (fun e => plainb (snd e)) (known_options b) = true) by (unfold known_options; now destruct (b_setup b)).
  apply plain_of. exact (proj1 (forallb_forall _ _) Q e H).
Qed.
Theorem other_options_ignored : forall b T1 T2 f1 f2 dims rank, (b_nd b <= 3)%nat -> file_with T1 f1 -> file_with T2 f2 ->
  (forall s n, In (s, n) (known_options b) -> given T1 s n = given T2 s n) ->
  startup b dims rank (Some f1) = startup b dims rank (Some f2).
Proof.
  intros b T1 T2 f1 f2 dims rank Hnd F1 F2 E. destruct (file_reader T1 f1 F1) as (m1 & R1 & H1). destruct (file_reader T2 f2 F2) as (m2 & R2 & H2).
  unfold startup. rewrite R1, R2. cbn [obind]. apply agree_startup; [|exact Hnd]. intros [s n] He d. cbn [fst snd].
  rewrite H1, H2 by exact (known_plain b (s, n) He). pose proof (E s n He) as Q. unfold given in Q. now rewrite Q.
Qed.
