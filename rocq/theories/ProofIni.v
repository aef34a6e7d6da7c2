(** * Proofs about parameter files. *)
From Coq Require Import Ascii Reals Lia ZifyBool.
From Coq Require String.
From Verif Require Import Base ModelIni SpecIni.
Local Open Scope Z_scope.
Local Open Scope list_scope.

(** ** Bytes *)
Lemma code_range c : 0 <= code c < 256.
Proof. unfold code. pose proof (N_ascii_bounded c). lia. Qed.
Lemma code_inj a b : code a = code b -> a = b.
Proof. unfold code. intros H. rewrite <- (ascii_N_embedding a), <- (ascii_N_embedding b). f_equal. lia. Qed.
Lemma code_of n : (n < 256)%N -> code (ascii_of_N n) = Z.of_N n.
Proof. intros H. unfold code. now rewrite N_ascii_embedding. Qed.
Lemma beqb_eq a : forall b, beqb a b = true <-> a = b.
Proof.
  induction a as [|x a IH]; intros [|y b]; cbn; split; try congruence; intros H.
  - apply andb_prop in H. destruct H as [H1 H2]. apply Ascii.eqb_eq in H1. apply IH in H2. congruence.
  - injection H as -> ->. rewrite Ascii.eqb_refl. now apply IH.
Qed.
Lemma beqb_refl a : beqb a a = true. Proof. now apply beqb_eq. Qed.
Lemma has_in c l : has c l = true <-> In c l.
Proof.
  unfold has. rewrite existsb_exists. split.
  - intros (x & Hx & E). apply Ascii.eqb_eq in E. now subst.
  - intros H. exists c. split; [exact H|apply Ascii.eqb_refl].
Qed.
Lemma has_not c l : has c l = false <-> ~ In c l.
Proof. rewrite <- has_in. destruct (has c l); split; congruence. Qed.

Lemma semi_not_space : is_space ";"%char = false. Proof. reflexivity. Qed.
Lemma in_lit1 c x : In c (lit (String.String x String.EmptyString)) <-> c = x.
Proof. cbn. split; [intros [H|[]]; now symmetry|left; now symmetry]. Qed.

(** ** Lines of a file *)
Lemma fgets_line n : forall l r, (List.length l < n)%nat -> ~ In LF l -> fgets n (l ++ LF :: r) = (l ++ [LF], r).
Proof.
  induction n as [|n IH]; intros l r Hl Hn; [lia|]. destruct l as [|c l]; cbn [app fgets].
  - now rewrite Ascii.eqb_refl.
  - destruct (Ascii.eqb_spec c LF) as [->|E]; [exfalso; apply Hn; now left|].
    cbn [List.length] in Hl. rewrite IH; [reflexivity|lia|intros H; apply Hn; now right].
Qed.
Lemma fgets_shorter n s l r : fgets n s = (l, r) -> n <> O -> s <> [] -> (List.length r < List.length s)%nat.
Proof.
  revert s l r. induction n as [|n IH]; intros s l r H Hn Hs; [congruence|]. destruct s as [|c s]; [congruence|].
  cbn [fgets] in H. destruct (Ascii.eqb c LF).
  - injection H as _ <-. cbn. lia.
  - destruct (fgets n s) as [a b] eqn:E. injection H as _ <-. cbn [List.length].
    destruct n; [injection E as _ <-; lia|]. destruct s as [|c' s]; [injection E as _ <-; cbn; lia|].
    specialize (IH _ _ _ E ltac:(discriminate) ltac:(discriminate)). lia.
Qed.
Lemma read_lines_fuel f : forall f' s, (List.length s <= f)%nat -> (List.length s <= f')%nat -> read_lines f s = read_lines f' s.
Proof.
  induction f as [|f IH]; intros f' s H H'.
  - destruct s; [|cbn in H; lia]. destruct f'; reflexivity.
  - destruct s as [|c s]; [destruct f'; reflexivity|]. destruct f' as [|f']; [cbn in H'; lia|].
    cbn [read_lines]. destruct (fgets max_line (c :: s)) as [l r] eqn:E.
    assert (Hr : (List.length r < List.length (c :: s))%nat) by (apply (fgets_shorter _ _ _ _ E); discriminate).
    f_equal. apply IH; cbn [List.length] in *; lia.
Qed.
Definition all_lines (s : bytes) : list bytes := read_lines (List.length s) s.
Lemma all_lines_cons l r : (List.length l <= 198)%nat -> ~ In LF l -> all_lines (l ++ LF :: r) = (l ++ [LF]) :: all_lines r.
Proof.
  intros Hl Hn. unfold all_lines. rewrite app_length. cbn [List.length].
  replace (List.length l + Datatypes.S (List.length r))%nat with (Datatypes.S (List.length l + List.length r)) by lia.
  destruct (l ++ LF :: r) as [|c s] eqn:E; [destruct l; discriminate|]. cbn [read_lines]. rewrite <- E.
  rewrite fgets_line by (unfold max_line; lia || exact Hn). f_equal. apply read_lines_fuel; lia.
Qed.
Lemma all_lines_unlines ls r : (forall l, In l ls -> (List.length l <= 198)%nat /\ ~ In LF l) ->
  all_lines (unlines ls ++ r) = map (fun l => l ++ [LF]) ls ++ all_lines r.
Proof.
  induction ls as [|l ls IH]; intros H; [reflexivity|]. cbn [unlines flat_map map app]. rewrite <- !app_assoc. cbn [app].
  rewrite all_lines_cons by (apply H; now left). fold (unlines ls). rewrite IH by (intros; apply H; now right). reflexivity.
Qed.
Lemma all_lines_last l : l <> [] -> (List.length l <= 198)%nat -> ~ In LF l -> all_lines l = [l].
Proof.
  intros Hl H Hn. unfold all_lines. destruct l as [|c l]; [congruence|]. cbn [List.length read_lines].
  assert (G : forall n s, (List.length s < n)%nat -> ~ In LF s -> fgets n s = (s, [])).
  { clear. induction n as [|n IH]; intros s Hs Hn; [lia|]. destruct s as [|c s]; [reflexivity|]. cbn [fgets].
    destruct (Ascii.eqb_spec c LF) as [->|E]; [exfalso; apply Hn; now left|]. cbn [List.length] in Hs.
    rewrite IH; [reflexivity|lia|intros Q; apply Hn; now right]. }
  rewrite G by (unfold max_line; cbn [List.length] in *; lia || exact Hn). now destruct (List.length l).
Qed.

(** ** Stripping *)
Lemma rstrip_blank w : blank w -> rstrip w = [].
Proof.
  induction w as [|c w IH]; intros H; [reflexivity|]. cbn [rstrip]. rewrite IH by (intros x Hx; apply H; now right).
  rewrite (H c) by now left. reflexivity.
Qed.
Lemma rstrip_app_blank a w : blank w -> rstrip (a ++ w) = rstrip a.
Proof.
  intros Hw. induction a as [|c a IH]; [now apply rstrip_blank|]. cbn [app rstrip]. now rewrite IH.
Qed.
Lemma rstrip_mid a c z : is_space c = false -> rstrip (a ++ c :: z) = a ++ c :: rstrip z.
Proof.
  intros Hc. induction a as [|d a IH]; cbn [app rstrip].
  - destruct (rstrip z); [now rewrite Hc|reflexivity].
  - rewrite IH. destruct a; reflexivity.
Qed.
Lemma last_split (s : bytes) : s <> [] -> exists r c, s = r ++ [c].
Proof. intros H. exists (removelast s), (last s NUL). now apply app_removelast_last. Qed.
Lemma rstrip_trimmed a s : s <> [] -> trimmed s -> rstrip (a ++ s) = a ++ s.
Proof.
  intros H [_ Hs]. destruct (last_split s H) as (r & c & ->). rewrite app_assoc. rewrite rstrip_mid by (now apply (Hs r)). reflexivity.
Qed.
Lemma rstrip_trimmed0 s : trimmed s -> rstrip s = s.
Proof. intros H. destruct s as [|c s]; [reflexivity|]. apply (rstrip_trimmed [] (c :: s)); [discriminate|exact H]. Qed.
Lemma lskip_blank w s : blank w -> lskip (w ++ s) = lskip s.
Proof.
  intros Hw. induction w as [|c w IH]; [reflexivity|]. cbn [app lskip]. rewrite (Hw c) by now left. apply IH. intros x Hx. apply Hw. now right.
Qed.
Lemma lskip_id s : (forall c r, s = c :: r -> is_space c = false) -> lskip s = s.
Proof. destruct s as [|c s]; [reflexivity|]. intros H. cbn [lskip]. now rewrite (H c s eq_refl). Qed.
Lemma blank_nil : blank []. Proof. intros c []. Qed.
Lemma blank_app a b : blank a -> blank b -> blank (a ++ b).
Proof. intros H H' c Hc. apply in_app_iff in Hc. destruct Hc; auto. Qed.

(** ** Searching *)
Fixpoint clear (chars : bytes) (ws : bool) (s : bytes) : bool :=
  match s with
  | [] => true
  | c :: s' => negb (has c chars || (ws && has c (lit ";"))) && clear chars (is_space c) s'
  end.
Fixpoint last_ws (ws : bool) (s : bytes) : bool := match s with [] => ws | c :: s' => last_ws (is_space c) s' end.
Lemma find_app chars a : forall ws b, clear chars ws a = true ->
  find_from chars ws (a ++ b) = let '(x, y) := find_from chars (last_ws ws a) b in (a ++ x, y).
Proof.
  induction a as [|c a IH]; intros ws b H; cbn [app find_from last_ws].
  - now destruct (find_from chars ws b).
  - cbn [clear] in H. apply andb_prop in H. destruct H as [H1 H2]. apply Bool.negb_true_iff in H1. rewrite H1.
    rewrite (IH _ _ H2). now destruct (find_from chars (last_ws (is_space c) a) b).
Qed.
Lemma find_all chars ws a : clear chars ws a = true -> find_from chars ws a = (a, []).
Proof. intros H. rewrite <- (app_nil_r a) at 1. rewrite find_app by exact H. cbn. now rewrite app_nil_r. Qed.
Lemma uncommented_tail c s : uncommented (c :: s) -> uncommented s.
Proof. intros H a d b ->. exact (H (c :: a) d b eq_refl). Qed.
Lemma clear_of chars s : forall ws, avoids chars s -> uncommented s -> (ws = true -> not_first (lit ";") s) -> clear chars ws s = true.
Proof.
  induction s as [|c s IH]; intros ws Ha Hu Hw; [reflexivity|]. cbn [clear]. apply andb_true_intro. split.
  - apply Bool.negb_true_iff. rewrite (proj2 (has_not c chars)) by (apply Ha; now left). cbn [orb].
    destruct ws; [|reflexivity]. cbn [andb]. apply has_not. exact (Hw eq_refl c s eq_refl).
  - apply IH; [intros x Hx; apply Ha; now right|exact (uncommented_tail _ _ Hu)|].
    intros Hc d r -> Hd. rewrite in_lit1 in Hd. subst d. rewrite (Hu [] c r eq_refl) in Hc. discriminate.
Qed.
Lemma last_ws_app ws a b : last_ws ws (a ++ b) = last_ws (last_ws ws a) b.
Proof. revert ws. induction a as [|c a IH]; intros ws; [reflexivity|]. cbn [app last_ws]. apply IH. Qed.
Lemma last_ws_blank ws w : blank w -> w <> [] -> last_ws ws w = true.
Proof.
  intros H Hw. destruct (last_split w Hw) as (r & c & ->). rewrite last_ws_app. cbn [last_ws]. apply H. apply in_app_iff. right. now left.
Qed.
Lemma clear_app chars ws a b : clear chars ws (a ++ b) = clear chars ws a && clear chars (last_ws ws a) b.
Proof. revert ws. induction a as [|c a IH]; intros ws; [reflexivity|]. cbn [app clear last_ws]. rewrite IH. now rewrite andb_assoc. Qed.
Lemma space_code c : is_space c = true -> 9 <= code c <= 13 \/ code c = 32.
Proof. unfold is_space. lia. Qed.
Lemma blank_avoids w chars : (forall c, In c chars -> is_space c = false) -> blank w -> avoids chars w.
Proof. intros H Hw c Hc Hi. specialize (H c Hi). specialize (Hw c Hc). congruence. Qed.
Lemma clear_blank chars ws w : (forall c, In c chars -> is_space c = false) -> blank w -> clear chars ws w = true.
Proof.
  intros Hc Hw. apply clear_of; [now apply blank_avoids| |].
  - intros a c b ->. exfalso. assert (is_space ";"%char = true); [|discriminate]. apply Hw. apply in_app_iff. right. right. now left.
  - intros _ c r -> Hin. rewrite in_lit1 in Hin. subst c. assert (is_space ";"%char = true); [|discriminate]. apply Hw. now left.
Qed.

(** What the search stops at. *)
Lemma find_spec chars s : forall ws a b, find_from chars ws s = (a, b) ->
  s = a ++ b /\ clear chars ws a = true /\ (forall e r, b = e :: r -> In e chars \/ e = ";"%char).
Proof.
  induction s as [|c s IH]; intros ws a b H; cbn [find_from] in H.
  - injection H as <- <-. split; [reflexivity|split; [reflexivity|discriminate]].
  - destruct (has c chars || (ws && has c (lit ";"))) eqn:E.
    + injection H as <- <-. split; [reflexivity|split; [reflexivity|]]. intros e r [= <- <-].
      apply Bool.orb_prop in E. destruct E as [E|E]; [left; now apply has_in|right].
      apply andb_prop in E. destruct E as [_ E]. now rewrite has_in, in_lit1 in E.
    + destruct (find_from chars (is_space c) s) as [a' b'] eqn:F. injection H as <- <-.
      destruct (IH _ _ _ F) as (-> & Hc & He). split; [reflexivity|split; [|exact He]]. cbn [clear]. now rewrite E, Hc.
Qed.
Lemma clear_uncommented chars a : forall ws, clear chars ws a = true -> uncommented a.
Proof.
  induction a as [|d a IH]; intros ws H x c b E; [destruct x; discriminate|].
  cbn [clear] in H. apply andb_prop in H. destruct H as [_ H]. destruct x as [|d' x]; cbn [app] in E.
  - injection E as -> ->. cbn [clear] in H. apply andb_prop in H. destruct H as [H _].
    destruct (is_space c); [|reflexivity]. rewrite (proj2 (has_in _ _) (proj2 (in_lit1 ";"%char ";"%char) eq_refl)) in H.
    cbn [andb] in H. rewrite Bool.orb_true_r in H. discriminate.
  - injection E as -> ->. exact (IH _ H x c b eq_refl).
Qed.
Lemma rstrip_prefix s : exists w, s = rstrip s ++ w /\ blank w.
Proof.
  induction s as [|c s (w & E & Hw)]; [exists []; split; [reflexivity|exact blank_nil]|]. cbn [rstrip].
  destruct (rstrip s) as [|d t] eqn:R.
  - destruct (is_space c) eqn:Hc.
    + exists (c :: s). split; [reflexivity|]. cbn [app] in E. subst s. intros x [<-|Hx]; auto.
    + exists s. split; [reflexivity|]. cbn [app] in E. now subst s.
  - exists w. split; [|exact Hw]. cbn [app]. f_equal. exact E.
Qed.
Lemma find_in_comment chars s a e r : only_in_comment chars s -> find_from chars false (rstrip s) = (a, e :: r) -> ~ In e chars.
Proof.
  intros H F. destruct (find_spec _ _ _ _ _ F) as (E & Hc & _). destruct (rstrip_prefix s) as (w & Es & _).
  intros He. rewrite E, <- app_assoc in Es. exact (H a e (r ++ w) Es He (clear_uncommented _ _ _ Hc)).
Qed.

(** ** One line *)
Definition body (st : ini) (s : bytes) (skip : bool) : ini :=
  let lineno := n_lineno st + 1 in
  let start := lskip s in
  let moved := skip || (Nat.ltb (List.length start) (List.length s)) in
  let keep := mkIni (n_section st) (n_prev st) lineno (n_error st) (n_values st) in
  match start with
  | [] => keep
  | c :: rest =>
      if has c (lit ";#") then keep
      else if negb (beqb (n_prev st) []) && moved then
        mkIni (n_section st) (n_prev st) lineno (n_error st) (value_handler (n_values st) (n_section st) (n_prev st) start)
      else if Ascii.eqb c "["%char then
        let '(sec, at_end) := find_chars_or_comment rest (lit "]") in
        match at_end with
        | e :: _ => if Ascii.eqb e "]"%char then mkIni (firstn 49 sec) [] lineno (n_error st) (n_values st)
                    else ini_error st lineno
        | [] => ini_error st lineno
        end
      else
        let '(before, at_end) := find_chars_or_comment start (lit "=:") in
        match at_end with
        | e :: after =>
            if has e (lit "=:") then
              let name := rstrip before in
              let value := rstrip (lskip (fst (find_chars_or_comment after []))) in
              mkIni (n_section st) (firstn 49 name) lineno (n_error st) (value_handler (n_values st) (n_section st) name value)
            else ini_error st lineno
        | [] => ini_error st lineno
        end
  end.
Lemma ini_line_body st l : ini_line st l =
  body st (rstrip (if (n_lineno st + 1 =? 1) && bom (c_str l) then skipn 3 (c_str l) else c_str l)) ((n_lineno st + 1 =? 1) && bom (c_str l)).
Proof. reflexivity. Qed.
Lemma c_str_id l : ~ In NUL l -> c_str l = l.
Proof.
  induction l as [|c l IH]; intros H; [reflexivity|]. cbn [c_str]. destruct (Ascii.eqb_spec c NUL) as [->|E]; [exfalso; apply H; now left|].
  rewrite IH; [reflexivity|intros Q; apply H; now right].
Qed.
Lemma c_str_app l r : c_str (l ++ r) = if has NUL l then c_str l else l ++ c_str r.
Proof.
  induction l as [|c l IH]; [reflexivity|]. cbn [app c_str]. unfold has in *. cbn [existsb]. rewrite (Ascii.eqb_sym NUL c).
  destruct (Ascii.eqb c NUL); [reflexivity|]. cbn [orb]. rewrite IH. now destruct (existsb (Ascii.eqb NUL) l).
Qed.
Lemma blank_no_nul w : blank w -> has NUL w = false.
Proof. intros H. apply has_not. intros Hi. specialize (H _ Hi). discriminate. Qed.
Lemma c_str_blank w : blank w -> c_str w = w.
Proof. intros H. apply c_str_id. apply has_not. now apply blank_no_nul. Qed.
Lemma space_lf : blank [LF]. Proof. intros c [<-|[]]. reflexivity. Qed.

Definition bom3 (l : bytes) : bool := bom (firstn 3 l).
Lemma bom_app a w : blank w -> bom (a ++ w) = bom a.
Proof.
  intros Hw. assert (N : forall c r, w = c :: r -> code c < 187).
  { intros c r ->. specialize (Hw c (or_introl eq_refl)). apply space_code in Hw. lia. }
  assert (N2 : forall c d r, w = c :: d :: r -> code d < 187).
  { intros c d r ->. specialize (Hw d (or_intror (or_introl eq_refl))). apply space_code in Hw. lia. }
  destruct a as [|x [|y [|z a]]]; cbn [app]; try reflexivity.
  - destruct w as [|c [|d [|e w]]]; try reflexivity. cbn. specialize (N c _ eq_refl). lia.
  - destruct w as [|c [|d w]]; try reflexivity. cbn. specialize (N c _ eq_refl). lia.
  - destruct w as [|c w]; try reflexivity. cbn. specialize (N c _ eq_refl). lia.
Qed.
(** Blanks at the end of a line do not matter, the newline among them. *)
Lemma ini_line_blank st l w : blank w -> ini_line st (l ++ w) = ini_line st l.
Proof.
  intros Hw. rewrite !ini_line_body, c_str_app. destruct (has NUL l) eqn:E; [reflexivity|].
  rewrite (c_str_blank w Hw). rewrite (c_str_id l) by now apply has_not. rewrite bom_app by exact Hw.
  destruct ((n_lineno st + 1 =? 1) && bom l) eqn:B.
  - f_equal. apply andb_prop in B. destruct B as [_ B]. destruct l as [|x [|y [|z l]]]; try discriminate B. cbn [app skipn]. now apply rstrip_app_blank.
  - f_equal. now apply rstrip_app_blank.
Qed.
Lemma ini_line_plain st l : ~ In NUL l -> (n_lineno st + 1 =? 1) && bom l = false -> ini_line st l = body st (rstrip l) false.
Proof. intros H B. rewrite ini_line_body, c_str_id by exact H. now rewrite B. Qed.

Definition step_keep (st : ini) : ini := mkIni (n_section st) (n_prev st) (n_lineno st + 1) (n_error st) (n_values st).

Lemma ltb_app {A} (w t : list A) : Nat.ltb (List.length t) (List.length (w ++ t)) = match w with [] => false | _ => true end.
Proof. rewrite app_length. destruct w; cbn [List.length]; lia. Qed.
Lemma body_start st w t : blank w -> (forall c r, t = c :: r -> is_space c = false) ->
  body st (w ++ t) false =
  match t with
  | [] => step_keep st
  | c :: rest =>
      if has c (lit ";#") then step_keep st
      else if negb (beqb (n_prev st) []) && match w with [] => false | _ => true end then
        mkIni (n_section st) (n_prev st) (n_lineno st + 1) (n_error st) (value_handler (n_values st) (n_section st) (n_prev st) t)
      else if Ascii.eqb c "["%char then
        let '(sec, at_end) := find_chars_or_comment rest (lit "]") in
        match at_end with
        | e :: _ => if Ascii.eqb e "]"%char then mkIni (firstn 49 sec) [] (n_lineno st + 1) (n_error st) (n_values st)
                    else ini_error st (n_lineno st + 1)
        | [] => ini_error st (n_lineno st + 1)
        end
      else
        let '(before, at_end) := find_chars_or_comment t (lit "=:") in
        match at_end with
        | e :: after =>
            if has e (lit "=:") then
              let name := rstrip before in
              let value := rstrip (lskip (fst (find_chars_or_comment after []))) in
              mkIni (n_section st) (firstn 49 name) (n_lineno st + 1) (n_error st) (value_handler (n_values st) (n_section st) name value)
            else ini_error st (n_lineno st + 1)
        | [] => ini_error st (n_lineno st + 1)
        end
  end.
Proof.
  intros Hw Ht. unfold body. rewrite (lskip_blank w t Hw), (lskip_id t Ht), ltb_app. reflexivity.
Qed.

Lemma inert_first l : inert l -> forall c r, l = c :: r -> is_space c = true \/ c = ";"%char \/ c = "#"%char.
Proof.
  intros [H|(w & c & x & -> & Hw & Hc)] d r E.
  - left. apply H. rewrite E. now left.
  - destruct w as [|e w]; cbn [app] in E; injection E as -> _; [now right|left; apply Hw; now left].
Qed.
Lemma first_no_bom l : (forall c r, l = c :: r -> code c < 239) -> bom l = false.
Proof. intros H. destruct l as [|a [|b [|c l]]]; try reflexivity. cbn. specialize (H a _ eq_refl). lia. Qed.
Lemma c_str_first l c r : c_str l = c :: r -> exists r', l = c :: r'.
Proof. destruct l as [|d l]; [discriminate|]. cbn [c_str]. destruct (Ascii.eqb d NUL); [discriminate|]. intros [= -> _]. now exists l. Qed.
Lemma line_inert st l : inert l -> ini_line st l = step_keep st.
Proof.
  intros H. rewrite ini_line_body.
  rewrite (first_no_bom (c_str l)).
  2: { intros c r E. destruct (c_str_first _ _ _ E) as (r' & E'). destruct (inert_first l H c r' E') as [Q|[-> | ->]];
       [apply space_code in Q; lia|reflexivity|reflexivity]. }
  rewrite Bool.andb_false_r. destruct H as [H|(w & c & x & -> & Hw & Hc)].
  - rewrite c_str_blank by exact H. rewrite rstrip_blank by exact H. reflexivity.
  - assert (Sc : is_space c = false) by (destruct Hc as [-> | ->]; reflexivity).
    assert (Q : c_str (w ++ c :: x) = w ++ c :: c_str x).
    { rewrite c_str_app, blank_no_nul by exact Hw. f_equal. cbn [c_str].
      destruct (Ascii.eqb_spec c NUL) as [->|_]; [destruct Hc; discriminate|reflexivity]. }
    rewrite Q, rstrip_mid by exact Sc. rewrite body_start; [|exact Hw|now intros d r [= <- _]].
    replace (has c (lit ";#")) with true; [reflexivity|]. destruct Hc as [-> | ->]; reflexivity.
Qed.

Lemma prev_side (p w : bytes) (q : bytes) : q = firstn 49 p -> p = [] \/ w = [] -> negb (beqb q []) && match w with [] => false | _ => true end = false.
Proof. intros -> [-> | ->]; [reflexivity|]. now rewrite Bool.andb_false_r. Qed.

Section Line.
  Variables (st : ini) (p : bytes).
  Hypothesis Hp : n_prev st = firstn 49 p.

  Lemma line_header s' w l : header_line s' l -> (List.length s' <= 49)%nat -> blank w -> p = [] \/ w = [] ->
    body st (rstrip (w ++ l)) false = mkIni s' [] (n_lineno st + 1) (n_error st) (n_values st).
  Proof.
    intros (x & -> & Ha & Hu) Hl Hw Hpw.
    replace (w ++ "["%char :: s' ++ "]"%char :: x) with ((w ++ "["%char :: s') ++ "]"%char :: x) by (rewrite <- app_assoc; reflexivity).
    rewrite rstrip_mid by reflexivity. rewrite <- app_assoc. cbn [app].
    rewrite body_start; [|exact Hw|now intros d r [= <- _]]. cbn [has existsb lit].
    rewrite (prev_side p w _ Hp Hpw). change (has "["%char (lit ";#")) with false. cbn iota.
    rewrite Ascii.eqb_refl. unfold find_chars_or_comment. rewrite find_app by (apply clear_of; [exact Ha|exact Hu|discriminate]).
    cbn [find_from]. change (has "]"%char (lit "]")) with true. cbn [orb]. rewrite app_nil_r, Ascii.eqb_refl.
    now rewrite firstn_all2 by lia.
  Qed.

  Lemma value_text w2 v w3 cm : blank w2 -> blank w3 -> trimmed v -> uncommented v -> not_first (lit ";") v ->
    (cm = [] \/ exists x, cm = ";"%char :: x /\ (w3 <> [] \/ v = [] /\ w2 <> [])) ->
    rstrip (lskip (fst (find_chars_or_comment (rstrip (w2 ++ v ++ w3 ++ cm)) []))) = v.
  Proof.
    intros H2 H3 Hv Hu Hn Hc. unfold find_chars_or_comment.
    assert (Hclear : clear [] false (w2 ++ v) = true).
    { rewrite clear_app, (clear_blank [] false w2) by (exact H2 || intros c []). cbn [andb].
      apply clear_of; [intros c _ []|exact Hu|intros _; exact Hn]. }
    assert (Hend : rstrip (lskip (w2 ++ v ++ w3)) = v).
    { rewrite lskip_blank by exact H2. destruct v as [|c v].
      - cbn [app]. rewrite <- (app_nil_r w3), lskip_blank by exact H3. reflexivity.
      - rewrite lskip_id by (intros d r [= <- _]; now apply (proj1 Hv c v)).
        rewrite rstrip_app_blank by exact H3. now apply rstrip_trimmed0. }
    destruct Hc as [-> | (x & -> & Hx)].
    - rewrite app_nil_r. destruct v as [|c v].
      + cbn [app]. rewrite (rstrip_blank (w2 ++ w3)) by now apply blank_app. reflexivity.
      + rewrite app_assoc, rstrip_app_blank by exact H3. rewrite rstrip_trimmed by (discriminate || exact Hv).
        rewrite find_all by exact Hclear. cbn [fst]. rewrite lskip_blank by exact H2.
        rewrite lskip_id by (intros d r [= <- _]; now apply (proj1 Hv c v)). now apply rstrip_trimmed0.
    - replace (w2 ++ v ++ w3 ++ ";"%char :: x) with ((w2 ++ v ++ w3) ++ ";"%char :: x) by (rewrite <- !app_assoc; reflexivity).
      rewrite rstrip_mid by reflexivity.
      rewrite find_app.
      2: { rewrite app_assoc, clear_app, Hclear. cbn [andb]. apply clear_blank; [intros c []|exact H3]. }
      assert (L : last_ws false (w2 ++ v ++ w3) = true).
      { rewrite app_assoc, last_ws_app. destruct Hx as [Hx|[-> Hx]].
        - now apply last_ws_blank.
        - rewrite app_nil_r. destruct w3 as [|c w3]; [cbn [last_ws]; now apply last_ws_blank|]. apply last_ws_blank; [exact H3|discriminate]. }
      rewrite L. cbn [find_from]. change (has ";"%char []) with false. change (has ";"%char (lit ";")) with true. cbn [andb orb fst].
      rewrite app_nil_r. exact Hend.
  Qed.

  Lemma line_setting k v w l : setting_line k v l -> blank w -> p = [] \/ w = [] ->
    body st (rstrip (w ++ l)) false =
    mkIni (n_section st) (firstn 49 k) (n_lineno st + 1) (n_error st) (value_handler (n_values st) (n_section st) k v).
  Proof.
    intros (w1 & sep & w2 & w3 & cm & -> & H1 & H2 & H3 & Hs & Hk & Tk & Uk & Ak & Nk & Tv & Uv & Nv & Hc) Hw Hpw.
    assert (Ss : is_space sep = false) by (destruct Hs as [-> | ->]; reflexivity).
    replace (w ++ k ++ w1 ++ sep :: w2 ++ v ++ w3 ++ cm) with ((w ++ k ++ w1) ++ sep :: w2 ++ v ++ w3 ++ cm)
      by (rewrite <- !app_assoc; reflexivity).
    rewrite rstrip_mid by exact Ss. rewrite <- !app_assoc. destruct k as [|c k]; [congruence|].
    rewrite body_start; [|exact Hw|intros d r [= <- _]; now apply (proj1 Tk c k)]. cbn [app].
    assert (Nc : ~ In c (lit ";#[")) by exact (Nk c k eq_refl).
    rewrite (proj2 (has_not c (lit ";#"))) by (intros Q; apply Nc; cbn in Q |- *; tauto).
    rewrite (prev_side p w _ Hp Hpw).
    destruct (Ascii.eqb_spec c "["%char) as [->|_]; [exfalso; apply Nc; cbn; tauto|].
    unfold find_chars_or_comment at 1.
    replace (c :: k ++ w1 ++ sep :: rstrip (w2 ++ v ++ w3 ++ cm)) with (((c :: k) ++ w1) ++ sep :: rstrip (w2 ++ v ++ w3 ++ cm))
      by (rewrite <- app_assoc; reflexivity).
    rewrite find_app.
    2: { rewrite clear_app. apply andb_true_intro. split; [apply clear_of; [exact Ak|exact Uk|discriminate]|].
         apply clear_blank; [|exact H1]. cbn. intros x [<-|[<-|[]]]; reflexivity. }
    assert (Es : has sep (lit "=:") = true) by (destruct Hs as [-> | ->]; reflexivity).
    cbn [find_from]. rewrite Es. cbn [orb]. rewrite Es, app_nil_r.
    rewrite rstrip_app_blank by exact H1. rewrite (rstrip_trimmed0 _ Tk). rewrite value_text by assumption. reflexivity.
  Qed.

  Lemma line_more t l : p <> [] -> (List.length p <= 49)%nat -> indented_line t l ->
    body st (rstrip l) false =
    mkIni (n_section st) (n_prev st) (n_lineno st + 1) (n_error st) (value_handler (n_values st) (n_section st) p t).
  Proof.
    intros Hp0 Hp1 (w & w' & -> & Hw & Bw & Bw' & Ht & Tt & Nt).
    rewrite app_assoc, rstrip_app_blank by exact Bw'. rewrite rstrip_trimmed by assumption.
    rewrite body_start; [|exact Bw|exact (proj1 Tt)]. destruct t as [|c t]; [congruence|].
    rewrite (proj2 (has_not c (lit ";#"))) by exact (Nt c t eq_refl).
    rewrite Hp, firstn_all2 by lia. destruct p as [|a p']; [congruence|]. destruct w; [congruence|]. reflexivity.
  Qed.

  Lemma line_bad l : malformed_line l -> p = [] \/ unindented l -> body st (rstrip l) false = ini_error st (n_lineno st + 1).
  Proof.
    intros (w & t & -> & Hw & Ht) Hpw.
    assert (Hpw' : p = [] \/ w = []).
    { destruct Hpw as [H|H]; [now left|right]. destruct w as [|c w]; [reflexivity|]. exfalso.
      specialize (Hw c (or_introl eq_refl)). rewrite (H c (w ++ t) eq_refl) in Hw. discriminate. }
    destruct Ht as [(r & -> & Hr)|(Ht & Ut & Nt & Hr)].
    - rewrite rstrip_mid by reflexivity. rewrite body_start; [|exact Hw|now intros d q [= <- _]].
      change (has "["%char (lit ";#")) with false. rewrite (prev_side p w _ Hp Hpw'), Ascii.eqb_refl.
      destruct (find_chars_or_comment (rstrip r) (lit "]")) as [a [|e b]] eqn:F; [reflexivity|].
      destruct (Ascii.eqb_spec e "]"%char) as [->|_]; [|reflexivity]. exfalso.
      apply (find_in_comment _ _ _ _ _ Hr F). now left.
    - destruct t as [|c t]; [congruence|]. assert (Sc : is_space c = false) by exact (Ut c t eq_refl).
      rewrite rstrip_mid by exact Sc. rewrite body_start; [|exact Hw|now intros d q [= <- _]].
      assert (Nc : ~ In c (lit ";#[")) by exact (Nt c t eq_refl).
      rewrite (proj2 (has_not c (lit ";#"))) by (intros Q; apply Nc; cbn in Q |- *; tauto).
      rewrite (prev_side p w _ Hp Hpw').
      destruct (Ascii.eqb_spec c "["%char) as [->|_]; [exfalso; apply Nc; cbn; tauto|].
      destruct (find_chars_or_comment (c :: rstrip t) (lit "=:")) as [a [|e b]] eqn:F; [reflexivity|].
      rewrite (proj2 (has_not e (lit "=:"))); [reflexivity|].
      change (c :: rstrip t) with ([] ++ c :: rstrip t) in F. rewrite <- (rstrip_mid [] c t Sc) in F. exact (find_in_comment _ _ _ _ _ Hr F).
  Qed.
End Line.

(** ** Files *)
Definition store (m : values) (t : entry) : values := value_handler m (fst (fst t)) (snd (fst t)) (snd t).
Lemma means_lines s p n ls T E : means s p n ls T E -> forall st, n_section st = s -> n_prev st = firstn 49 p -> n_lineno st = n ->
  0 <= n -> (forall l, In l ls -> ~ In NUL l) -> (n = 0 -> bom (hd [] ls) = false) ->
  let st' := fold_left ini_line ls st in
  n_error st' = (if n_error st =? 0 then hd 0 E else n_error st) /\ n_values st' = fold_left store T (n_values st).
Proof.
  intros M. induction M; intros st Hs Hp Hn Hn0 Hnul Hbom.
  1: { cbn. split; [|reflexivity]. destruct (Z.eqb_spec (n_error st) 0); congruence. }
  all: assert (Hnul' : forall l0, In l0 ls -> ~ In NUL l0) by (intros l0 Hl0; apply Hnul; now right).
  all: assert (Hbom' : n + 1 = 0 -> bom (hd [] ls) = false) by lia.
  all: cbn [fold_left].
  1: { rewrite (line_inert st l H). apply (IHM (step_keep st)); cbn [step_keep n_section n_prev n_lineno]; try assumption; lia. }
  all: rewrite ini_line_plain; [|apply Hnul; now left|rewrite Hn; destruct (Z.eqb_spec (n + 1) 1); [cbn [andb]; apply Hbom; lia|reflexivity]].
  - rewrite (line_header st p Hp s' w l) by assumption. apply (IHM (mkIni s' [] (n_lineno st + 1) (n_error st) (n_values st))); cbn [n_section n_prev n_lineno]; try assumption; try reflexivity; lia.
  - rewrite (line_setting st p Hp k v w l) by assumption. rewrite Hs.
    apply (IHM (mkIni s (firstn 49 k) (n_lineno st + 1) (n_error st) (value_handler (n_values st) s k v)));
      cbn [n_section n_prev n_lineno]; try assumption; try reflexivity; lia.
  - rewrite (line_more st p Hp t l) by assumption. rewrite Hs.
    apply (IHM (mkIni s (n_prev st) (n_lineno st + 1) (n_error st) (value_handler (n_values st) s p t)));
      cbn [n_section n_prev n_lineno]; try assumption; try reflexivity; lia.
  - rewrite (line_bad st p Hp l) by assumption.
    destruct (IHM (ini_error st (n_lineno st + 1))) as [I1 I2]; cbn [ini_error n_section n_prev n_lineno]; try assumption; try lia.
    split; [|exact I2]. rewrite I1. cbn [ini_error n_error hd]. rewrite Hn. destruct (Z.eqb_spec (n_error st) 0) as [E0|E0].
    + destruct (Z.eqb_spec (n + 1) 0); [lia|reflexivity].
    + destruct (Z.eqb_spec (n_error st) 0); [congruence|reflexivity].
Qed.

Lemma fold_lf ls : forall st, fold_left ini_line (map (fun l => l ++ [LF]) ls) st = fold_left ini_line ls st.
Proof. induction ls as [|l ls IH]; intros st; [reflexivity|]. cbn [map fold_left]. rewrite (ini_line_blank st l [LF] space_lf). apply IH. Qed.
Lemma parse_text ls f : text_of ls f -> (forall l, In l ls -> fits l) -> ini_parse f = fold_left ini_line ls ini_start.
Proof.
  intros H Hf. unfold ini_parse. fold (all_lines f).
  assert (Hf' : forall l, In l ls -> (List.length l <= 198)%nat /\ ~ In LF l) by (intros l Hl; destruct (Hf l Hl) as (A & B & _); now split).
  destruct H as [-> | (ls0 & l & -> & Hl & ->)].
  - rewrite <- (app_nil_r (unlines ls)), all_lines_unlines by exact Hf'. cbn. rewrite app_nil_r. apply fold_lf.
  - rewrite all_lines_unlines by (intros; apply Hf'; apply in_app_iff; now left).
    destruct (Hf' l ltac:(apply in_app_iff; right; now left)) as [A B]. rewrite all_lines_last by assumption.
    rewrite !fold_left_app, fold_lf. reflexivity.
Qed.
Lemma parse_means ls f T E : text_of ls f -> (forall l, In l ls -> fits l) -> bom (hd [] ls) = false -> means [] [] 0 ls T E ->
  n_error (ini_parse f) = hd 0 E /\ n_values (ini_parse f) = fold_left store T (fun _ => None).
Proof.
  intros Ht Hf Hb M. rewrite (parse_text ls f Ht Hf).
  destruct (means_lines _ _ _ _ _ _ M ini_start eq_refl eq_refl eq_refl) as [A B]; [lia|intros l Hl; now destruct (Hf l Hl) as (_ & _ & ?)|now intros _|].
  split; [exact A|exact B].
Qed.

(** Keys. *)
Lemma to_lower_eq c : to_lower c = "="%char <-> c = "="%char.
Proof.
  unfold to_lower. destruct ((65 <=? code c) && (code c <=? 90)) eqn:E; [|reflexivity]. split; intros H.
  - exfalso. assert (Q : code (ascii_of_N (Z.to_N (code c + 32))) = code "="%char) by now rewrite H.
    rewrite code_of in Q by lia. change (code "="%char) with 61 in Q. lia.
  - subst c. discriminate E.
Qed.
Lemma lower_no_eq n : ~ In "="%char n -> ~ In "="%char (map to_lower n).
Proof. intros H Hi. apply in_map_iff in Hi. destruct Hi as (c & Hc & Hi). apply (proj1 (to_lower_eq c)) in Hc. now subst c. Qed.
Lemma split_at_last (a b x y : bytes) (e : ascii) : ~ In e b -> ~ In e y -> a ++ e :: b = x ++ e :: y -> a = x /\ b = y.
Proof.
  revert x. induction a as [|c a IH]; intros x Hb Hy H; destruct x as [|d x]; cbn [app] in H.
  - injection H as ->. now split.
  - exfalso. injection H as -> ->. apply Hb. apply in_app_iff. right. now left.
  - exfalso. injection H as -> <-. apply Hy. apply in_app_iff. right. now left.
  - injection H as -> H. destruct (IH x Hb Hy H) as [-> ->]. now split.
Qed.
Lemma key_alike s n s' n' : ~ In "="%char n -> ~ In "="%char n' -> beqb (make_key s n) (make_key s' n') = alike s s' && alike n n'.
Proof.
  intros Hn Hn'. unfold make_key. rewrite !map_app. change (map to_lower (lit "=")) with ["="%char]. cbn [app].
  apply Bool.eq_iff_eq_true. rewrite andb_true_iff. unfold alike. rewrite !beqb_eq. split.
  - intros H. apply split_at_last in H; [exact H|now apply lower_no_eq|now apply lower_no_eq].
  - intros [-> ->]. reflexivity.
Qed.
Lemma beqb_sym a b : beqb a b = beqb b a.
Proof. apply Bool.eq_iff_eq_true. rewrite !beqb_eq. split; congruence. Qed.

Definition keyed (T : list entry) : Prop := forall t, In t T -> ~ In "="%char (snd (fst t)).
Lemma means_keyed s p n ls T E : means s p n ls T E -> ~ In "="%char p -> keyed T.
Proof.
  intros M. induction M; intros Hp tt Ht.
  - destruct Ht.
  - now apply (IHM Hp).
  - now apply (IHM (fun H => H)).
  - assert (Hk : ~ In "="%char k).
    { destruct H as (w1 & sep & w2 & w3 & cm & _ & _ & _ & _ & _ & _ & _ & _ & Ak & _). intros Hi. apply (Ak _ Hi). now left. }
    destruct Ht as [<-|Ht]; [exact Hk|now apply (IHM Hk)].
  - destruct Ht as [<-|Ht]; [exact Hp|now apply (IHM Hp)].
  - now apply (IHM Hp).
Qed.

Lemma written_app s n T T' : written s n (T ++ T') = written s n T ++ written s n T'.
Proof. unfold written. now rewrite filter_app, map_app. Qed.
Lemma stored T : keyed T -> forall s n, ~ In "="%char n ->
  fold_left store T (fun _ => None) (make_key s n) = match written s n T with [] => None | vs => Some (join vs) end.
Proof.
  induction T as [|t T IH] using rev_ind; intros HT s n Hn; [reflexivity|].
  rewrite fold_left_app. cbn [fold_left]. unfold store at 1, value_handler.
  assert (HT' : keyed T) by (intros x Hx; apply HT; apply in_app_iff; now left).
  assert (Ht : ~ In "="%char (snd (fst t))) by (apply HT; apply in_app_iff; right; now left).
  rewrite key_alike by assumption. rewrite written_app. unfold written at 2. cbn [filter].
  unfold alike at 1 2. rewrite (beqb_sym (map to_lower s)), (beqb_sym (map to_lower n)). fold (alike (fst (fst t)) s) (alike (snd (fst t)) n).
  destruct (alike (fst (fst t)) s && alike (snd (fst t)) n) eqn:A.
  - cbn [map]. rewrite IH by assumption.
    assert (Ek : written (fst (fst t)) (snd (fst t)) T = written s n T).
    { apply andb_prop in A. destruct A as [A1 A2]. unfold alike in A1, A2. apply beqb_eq in A1, A2.
      unfold written. f_equal. apply filter_ext. intros x. unfold alike. now rewrite A1, A2. }
    rewrite Ek. destruct (written s n T) as [|v vs] eqn:W; [reflexivity|].
    assert (J : join ((v :: vs) ++ [snd t]) = match join (v :: vs) with [] => snd t | o => o ++ LF :: snd t end)
      by (unfold join; rewrite (fold_left_app _ (v :: vs) [snd t]); cbn [fold_left]; now destruct (fold_left _ vs _)).
    cbn [app] in J |- *. rewrite J. destruct (join (v :: vs)); reflexivity.
  - cbn [map]. rewrite app_nil_r. now apply IH.
Qed.

Theorem reads_back ls f T : text_of ls f -> (forall l, In l ls -> fits l) -> bom (hd [] ls) = false -> means [] [] 0 ls T [] ->
  exists m, ini_reader (Some f) = Reader m /\
    forall s n d, ~ In "="%char n -> get m s n d = match written s n T with [] => d | vs => join vs end.
Proof.
  intros Ht Hf Hb M. destruct (parse_means ls f T [] Ht Hf Hb M) as [A B]. exists (n_values (ini_parse f)). split.
  - unfold ini_reader. rewrite A. reflexivity.
  - intros s n d Hn. unfold get. rewrite B, stored by (exact Hn || exact (means_keyed _ _ _ _ _ _ M (fun H => H))).
    now destruct (written s n T).
Qed.
Lemma means_numbers s p n ls T E : means s p n ls T E -> forall e, In e E -> n < e.
Proof.
  intros M. induction M; intros e He.
  1: destruct He.
  5: destruct He as [<-|He]; [lia|].
  all: specialize (IHM e He); lia.
Qed.
Theorem reports_first ls f T e E : text_of ls f -> (forall l, In l ls -> fits l) -> bom (hd [] ls) = false -> means [] [] 0 ls T (e :: E) ->
  ini_reader (Some f) = BadLine e.
Proof.
  intros Ht Hf Hb M. destruct (parse_means ls f T _ Ht Hf Hb M) as [A B]. unfold ini_reader. rewrite A. cbn [hd].
  pose proof (means_numbers _ _ _ _ _ _ M e (or_introl eq_refl)). destruct (Z.eqb_spec e 0); [lia|reflexivity].
Qed.

(** ** Insertions *)
Lemma fgets_app n : forall a b l r, fgets n (a ++ [LF]) = (l, r) -> n <> O -> fgets n (a ++ LF :: b) = (l, r ++ b).
Proof.
  induction n as [|n IH]; intros a b l r H Hn; [congruence|]. destruct a as [|c a]; cbn [app fgets] in *.
  - rewrite Ascii.eqb_refl in *. injection H as <- <-. reflexivity.
  - destruct (Ascii.eqb c LF).
    + injection H as <- <-. now rewrite <- app_assoc.
    + destruct (fgets n (a ++ [LF])) as [x y] eqn:E. injection H as <- <-. destruct n as [|n].
      * cbn in E |- *. injection E as <- <-. f_equal. rewrite <- app_assoc. reflexivity.
      * rewrite (IH _ b _ _ E) by discriminate. reflexivity.
Qed.
Lemma fgets_rest n : forall a l r, fgets n (a ++ [LF]) = (l, r) -> r = [] \/ exists a', r = a' ++ [LF] /\ (List.length a' + Nat.min n (List.length l) <= List.length a)%nat.
Proof.
  induction n as [|n IH]; intros a l r H; cbn [fgets] in H; [injection H as <- <-; right; exists a; cbn; split; [reflexivity|lia]|].
  destruct a as [|c a]; cbn [app] in H.
  - rewrite Ascii.eqb_refl in H. injection H as _ <-. now left.
  - destruct (Ascii.eqb c LF).
    + injection H as <- <-. right. exists a. split; [reflexivity|]. cbn. lia.
    + destruct (fgets n (a ++ [LF])) as [x y] eqn:E. injection H as <- <-. destruct (IH _ _ _ E) as [->|(a' & -> & Hl)]; [now left|].
      right. exists a'. split; [reflexivity|]. cbn [List.length]. lia.
Qed.
Lemma fgets_nonempty n s l r : fgets (Datatypes.S n) s = (l, r) -> s <> [] -> (1 <= List.length l)%nat.
Proof.
  intros H Hs. destruct s as [|c s]; [congruence|]. cbn [fgets] in H. destruct (Ascii.eqb c LF).
  - injection H as <- _. cbn. lia.
  - destruct (fgets n s). injection H as <- _. cbn. lia.
Qed.
Lemma all_lines_step s : s <> [] -> all_lines s = let '(l, r) := fgets max_line s in l :: all_lines r.
Proof.
  intros Hs. unfold all_lines at 1. destruct s as [|c s]; [congruence|]. cbn [List.length read_lines].
  destruct (fgets max_line (c :: s)) as [l r] eqn:E. f_equal. unfold all_lines. apply read_lines_fuel; [|lia].
  pose proof (fgets_shorter _ _ _ _ E ltac:(discriminate) ltac:(discriminate)) as Q. cbn [List.length] in Q. lia.
Qed.
Lemma app_lf_not_nil (a : bytes) b : a ++ LF :: b <> []. Proof. now destruct a. Qed.
Lemma all_lines_cut a b : all_lines (a ++ LF :: b) = all_lines (a ++ [LF]) ++ all_lines b.
Proof.
  remember (List.length a) as n eqn:Hn. revert a Hn. induction n as [n IH] using (well_founded_induction lt_wf). intros a ->.
  rewrite (all_lines_step (a ++ LF :: b)) by apply app_lf_not_nil. rewrite (all_lines_step (a ++ [LF])) by apply app_lf_not_nil.
  destruct (fgets max_line (a ++ [LF])) as [l r] eqn:E. rewrite (fgets_app _ _ b _ _ E) by discriminate. cbn [app]. f_equal.
  destruct (fgets_rest _ _ _ _ E) as [->|(a' & -> & Hl)]; [reflexivity|].
  rewrite <- app_assoc. cbn [app]. apply (IH (List.length a')); [|reflexivity].
  pose proof (fgets_nonempty _ _ _ _ E (app_lf_not_nil a [])). unfold max_line in Hl. lia.
Qed.
(** The beginning of a file up to some line boundary. *)
Lemma boundary_cut a b : a = [] \/ (exists a', a = a' ++ [LF]) -> all_lines (a ++ b) = all_lines a ++ all_lines b.
Proof. intros [-> | (a' & ->)]; [reflexivity|]. rewrite <- app_assoc. cbn [app]. apply all_lines_cut. Qed.

Definition same_ini (st st' : ini) : Prop :=
  n_section st = n_section st' /\ n_prev st = n_prev st' /\ n_values st = n_values st' /\
  (n_error st = 0 <-> n_error st' = 0) /\ 1 <= n_lineno st /\ 1 <= n_lineno st'.
Lemma body_same st st' s k : same_ini st st' -> same_ini (body st s k) (body st' s k).
Proof.
  intros (A & B & C & D & E & F). unfold body. rewrite <- A, <- B, <- C.
  assert (G : forall x y z, same_ini (mkIni x y (n_lineno st + 1) (n_error st) z) (mkIni x y (n_lineno st' + 1) (n_error st') z)).
  { intros x y z. unfold same_ini. cbn. split; [reflexivity|split; [reflexivity|split; [reflexivity|split; [exact D|lia]]]]. }
  assert (Er : same_ini (ini_error st (n_lineno st + 1)) (ini_error st' (n_lineno st' + 1))).
  { unfold same_ini, ini_error. cbn. split; [exact A|split; [exact B|split; [exact C|split; [|lia]]]].
    destruct (Z.eqb_spec (n_error st) 0), (Z.eqb_spec (n_error st') 0); tauto || lia. }
  destruct (lskip s) as [|c rest]; [apply G|]. destruct (has c (lit ";#")); [apply G|].
  destruct (negb _ && _); [apply G|]. destruct (Ascii.eqb c "["%char).
  - destruct (find_chars_or_comment rest (lit "]")) as [sec [|e q]]; [exact Er|]. destruct (Ascii.eqb e "]"%char); [apply G|exact Er].
  - destruct (find_chars_or_comment (c :: rest) (lit "=:")) as [bf [|e q]]; [exact Er|]. destruct (has e (lit "=:")); [apply G|exact Er].
Qed.
Lemma line_same st st' l : same_ini st st' -> same_ini (ini_line st l) (ini_line st' l).
Proof.
  intros H. rewrite !ini_line_body. destruct H as (A & B & C & D & E & F).
  assert (Q : (n_lineno st + 1 =? 1) = false) by lia. assert (Q' : (n_lineno st' + 1 =? 1) = false) by lia. rewrite Q, Q'.
  cbn [andb]. apply body_same. unfold same_ini. tauto.
Qed.
Lemma lines_same ls : forall st st', same_ini st st' -> same_ini (fold_left ini_line ls st) (fold_left ini_line ls st').
Proof. induction ls as [|l ls IH]; intros st st' H; [exact H|]. cbn [fold_left]. apply IH. now apply line_same. Qed.
Lemma lineno_line st l : n_lineno (ini_line st l) = n_lineno st + 1.
Proof.
  rewrite ini_line_body. unfold body. destruct (lskip _) as [|c rest]; [reflexivity|]. destruct (has c (lit ";#")); [reflexivity|].
  destruct (negb _ && _); [reflexivity|]. destruct (Ascii.eqb c "["%char).
  - destruct (find_chars_or_comment rest (lit "]")) as [sec [|e q]]; [reflexivity|]. now destruct (Ascii.eqb e "]"%char).
  - destruct (find_chars_or_comment (c :: rest) (lit "=:")) as [bf [|e q]]; [reflexivity|]. now destruct (has e (lit "=:")).
Qed.
Lemma lineno_lines ls : forall st, n_lineno (fold_left ini_line ls st) = n_lineno st + Z.of_nat (List.length ls).
Proof. induction ls as [|l ls IH]; intros st; cbn [fold_left List.length]; [lia|]. rewrite IH, lineno_line. lia. Qed.
Lemma all_lines_nonempty s : s <> [] -> all_lines s <> [].
Proof. intros H. rewrite all_lines_step by exact H. destruct (fgets max_line s). discriminate. Qed.

(** First line after the inserted one, when that is the first line of the file. *)
Lemma fgets_bom n s l r : fgets n s = (l, r) -> bom l = true -> bom s = true.
Proof.
  assert (P : forall n s l r, fgets n s = (l, r) -> exists q, s = l ++ q).
  { clear. induction n as [|n IH]; intros s l r H; cbn [fgets] in H; [injection H as <- <-; now exists s|].
    destruct s as [|c s]; [injection H as <- <-; now exists []|]. destruct (Ascii.eqb c LF); [injection H as <- <-; now exists s|].
    destruct (fgets n s) as [x y] eqn:E. injection H as <- <-. destruct (IH _ _ _ E) as (q & ->). now exists q. }
  intros H Hb. destruct (P _ _ _ _ H) as (q & ->). destruct l as [|a [|b [|c l]]]; try discriminate Hb. exact Hb.
Qed.
Lemma bom_c_str l : bom (c_str l) = true -> bom l = true.
Proof.
  destruct l as [|a l]; [discriminate|]. cbn [c_str]. destruct (Ascii.eqb a NUL); [discriminate|].
  destruct l as [|b l]; [discriminate|]. cbn [c_str]. destruct (Ascii.eqb b NUL); [discriminate|].
  destruct l as [|c l]; [discriminate|]. cbn [c_str]. destruct (Ascii.eqb c NUL); [discriminate|]. now intros H.
Qed.
Lemma start_same ls : bom (hd [] ls) = false -> same_ini (fold_left ini_line ls (step_keep ini_start)) (fold_left ini_line ls ini_start) \/ ls = [].
Proof.
  destruct ls as [|l ls]; intros H; [now right|left]. cbn [fold_left hd] in *. apply lines_same.
  rewrite !ini_line_body. cbn [step_keep n_lineno ini_start]. cbn [Z.add Z.eqb Pos.add Pos.eqb andb].
  assert (Q : bom (c_str l) = false) by (destruct (bom (c_str l)) eqn:B; [apply bom_c_str in B; congruence|reflexivity]). rewrite Q.
  set (s := rstrip (c_str l)).
  unfold body. cbn [step_keep n_section n_prev n_error n_values n_lineno ini_start].
  assert (G : forall x y z, same_ini (mkIni x y (0 + 1 + 1) 0 z) (mkIni x y (0 + 1) 0 z)) by (intros; unfold same_ini; cbn; intuition lia).
  assert (Er : same_ini (ini_error (step_keep ini_start) (0 + 1 + 1)) (ini_error ini_start (0 + 1))) by (unfold same_ini; cbn; intuition lia).
  destruct (lskip s) as [|c rest]; [apply G|]. destruct (has c (lit ";#")); [apply G|].
  destruct (negb _ && _); [apply G|]. destruct (Ascii.eqb c "["%char).
  - destruct (find_chars_or_comment rest (lit "]")) as [sec [|e q]]; [exact Er|]. destruct (Ascii.eqb e "]"%char); [apply G|exact Er].
  - destruct (find_chars_or_comment (c :: rest) (lit "=:")) as [bf [|e q]]; [exact Er|]. destruct (has e (lit "=:")); [apply G|exact Er].
Qed.

Theorem insert_inert a l b : a = [] \/ (exists a', a = a' ++ [LF]) -> inert l -> (List.length l <= 198)%nat -> ~ In LF l ->
  a <> [] \/ bom b = false ->
  n_values (ini_parse (a ++ l ++ LF :: b)) = n_values (ini_parse (a ++ b)) /\
  (n_error (ini_parse (a ++ l ++ LF :: b)) = 0 <-> n_error (ini_parse (a ++ b)) = 0).
Proof.
  intros Ha Hi Hl Hn Hb. unfold ini_parse. fold (all_lines (a ++ l ++ LF :: b)) (all_lines (a ++ b)).
  rewrite (boundary_cut a (l ++ LF :: b) Ha), (boundary_cut a b Ha), all_lines_cons by assumption.
  rewrite !fold_left_app. cbn [fold_left]. rewrite (ini_line_blank _ l [LF] space_lf), line_inert by exact Hi.
  set (st := fold_left ini_line (all_lines a) ini_start).
  assert (Q : same_ini (fold_left ini_line (all_lines b) (step_keep st)) (fold_left ini_line (all_lines b) st) \/ (all_lines b = [])).
  { destruct a as [|c a].
    - unfold st. cbn [all_lines read_lines List.length fold_left]. apply start_same. destruct Hb as [Hb|Hb]; [congruence|].
      destruct b as [|c b]; [reflexivity|]. rewrite all_lines_step by discriminate.
      destruct (fgets max_line (c :: b)) as [x y] eqn:F. cbn [hd]. destruct (bom x) eqn:B; [|reflexivity].
      rewrite (fgets_bom _ _ _ _ F B) in Hb. discriminate.
    - left. apply lines_same. assert (1 <= n_lineno st).
      { unfold st. rewrite lineno_lines. cbn [n_lineno ini_start].
        destruct (all_lines (c :: a)) eqn:E; [now apply all_lines_nonempty in E|]. cbn [List.length]. lia. }
      unfold same_ini. cbn [step_keep n_section n_prev n_values n_error n_lineno]. repeat (split; [tauto || reflexivity|]). lia. }
  destruct Q as [(_ & _ & Q & E & _)|Q]; [split; assumption|]. rewrite Q. cbn [fold_left]. split; [reflexivity|reflexivity].
Qed.

Theorem insert_trailing a l w b : a = [] \/ (exists a', a = a' ++ [LF]) -> blank w -> (List.length (l ++ w) <= 198)%nat -> ~ In LF (l ++ w) ->
  ini_parse (a ++ (l ++ w) ++ LF :: b) = ini_parse (a ++ l ++ LF :: b).
Proof.
  intros Ha Hw Hl Hn. unfold ini_parse. fold (all_lines (a ++ (l ++ w) ++ LF :: b)) (all_lines (a ++ l ++ LF :: b)).
  rewrite !(boundary_cut a _ Ha). rewrite (all_lines_cons (l ++ w)) by assumption.
  rewrite (all_lines_cons l); [|rewrite app_length in Hl; lia|intros H; apply Hn; apply in_app_iff; now left].
  rewrite !fold_left_app. cbn [fold_left]. rewrite !(ini_line_blank _ _ [LF] space_lf), (ini_line_blank _ l w Hw). reflexivity.
Qed.

(** ** Rendering *)
Lemma blank_sp : blank (lit " "). Proof. intros c [<-|[]]. reflexivity. Qed.
Lemma setting_of_line kv : good_name (fst kv) -> good_value (snd kv) -> setting_line (fst kv) (snd kv) (setting_of kv).
Proof.
  intros (A & B & C & D & E) (F & G & H). exists (lit " "), "="%char, (lit " "), [], []. split.
  - unfold setting_of. cbn [lit String.list_ascii_of_string app]. now rewrite app_nil_r.
  - repeat (split; [first [exact blank_sp | exact blank_nil | assumption | now left]|]). now left.
Qed.
Lemma rendered_settings s kvs ls T : (forall kv, In kv kvs -> good_name (fst kv) /\ good_value (snd kv)) ->
  forall p n, (forall p' n', means s p' n' ls T []) -> means s p n (map setting_of kvs ++ ls) (map (fun kv => (s, fst kv, snd kv)) kvs ++ T) [].
Proof.
  induction kvs as [|kv kvs IH]; intros H p n M; cbn [map app]; [apply M|].
  apply (means_setting s p n (fst kv) (snd kv) [] (setting_of kv)).
  - apply setting_of_line; apply H; now left.
  - exact blank_nil.
  - now right.
  - apply IH; [intros x Hx; apply H; now right|exact M].
Qed.
Lemma rendered_means c : good_config c -> forall s p n, means s p n (rendered c) (entries c) [].
Proof.
  induction c as [|sk c IH]; intros H s p n; [apply means_nil|]. cbn [rendered entries flat_map app].
  destruct (H sk (or_introl eq_refl)) as ((A & B & C) & _ & D).
  apply (means_header s p n (fst sk) [] (header_of (fst sk))).
  - exists []. split; [reflexivity|now split].
  - exact C.
  - exact blank_nil.
  - now right.
  - apply rendered_settings; [intros kv Hk; destruct (D kv Hk) as (X & Y & _); now split|].
    intros p' n'. apply IH. intros x Hx. apply H. now right.
Qed.
Theorem rendered_reads_back c : good_config c ->
  exists m, ini_reader (Some (unlines (rendered c))) = Reader m /\
    forall s n d, ~ In "="%char n -> get m s n d = match written s n (entries c) with [] => d | vs => join vs end.
Proof.
  intros H. apply (reads_back (rendered c)).
  - now left.
  - intros l Hl. apply in_flat_map in Hl. destruct Hl as (sk & Hs & Hl). destruct (H sk Hs) as (_ & F & D).
    destruct Hl as [<-|Hl]; [exact F|]. apply in_map_iff in Hl. destruct Hl as (kv & <- & Hk). now destruct (D kv Hk) as (_ & _ & ?).
  - destruct c as [|sk c]; [reflexivity|]. cbn [rendered flat_map hd app header_of]. apply first_no_bom. now intros x q [= <- _].
  - apply rendered_means. exact H.
Qed.
Theorem insert_reader a l b : a = [] \/ (exists a', a = a' ++ [LF]) -> inert l -> (List.length l <= 198)%nat -> ~ In LF l ->
  a <> [] \/ bom b = false ->
  match ini_reader (Some (a ++ b)), ini_reader (Some (a ++ l ++ LF :: b)) with
  | Reader m, Reader m' => m = m'
  | BadLine _, BadLine _ => True
  | _, _ => False
  end.
Proof.
  intros Ha Hi Hl Hn Hb. destruct (insert_inert a l b Ha Hi Hl Hn Hb) as [V E]. unfold ini_reader.
  destruct (Z.eqb_spec (n_error (ini_parse (a ++ b))) 0) as [E1|E1], (Z.eqb_spec (n_error (ini_parse (a ++ l ++ LF :: b))) 0) as [E2|E2];
    try tauto. now symmetry.
Qed.
