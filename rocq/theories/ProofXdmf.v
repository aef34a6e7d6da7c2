(** * Proofs: the XDMF index is well-formed and lists the outputs (C53, C71, C72). *)
From Coq Require Import Ascii Decimal DecimalString.
From Verif Require Import Base RBase ModelMesh ModelGeom ModelBoundary ModelMain ModelIO SpecBoundary SpecMain SpecIO ProofBase ProofMain ProofMain2.
Local Open Scope string_scope.
Local Open Scope Z_scope.
Local Open Scope list_scope.

(** ** Strings *)
Lemma app_assoc_s a b c : ((a ++ b) ++ c)%string = (a ++ b ++ c)%string.
Proof. induction a as [|x a IH]; cbn; congruence. Qed.
Lemma app_nil_s a : (a ++ "")%string = a.
Proof. induction a as [|x a IH]; cbn; congruence. Qed.
Lemma all_chars_app P a b : all_chars P (a ++ b) = (all_chars P a && all_chars P b)%bool.
Proof. induction a as [|x a IH]; cbn; [reflexivity|]. rewrite IH. now destruct (P x). Qed.
Lemma all_chars_impl (P Q : ascii -> bool) s : (forall c, P c = true -> Q c = true) -> all_chars P s = true -> all_chars Q s = true.
Proof.
  intros H. induction s as [|c s IH]; cbn; [reflexivity|]. rewrite !Bool.andb_true_iff. intros [A B]. split; auto.
Qed.
Lemma references_free s : all_chars (fun c => negb (Ascii.eqb c "&")) s = true -> references s = true.
Proof.
  induction s as [|c s IH]; cbn; [reflexivity|]. rewrite !Bool.andb_true_iff. intros [A B]. split; [|auto]. destruct (Ascii.eqb c "&"); [discriminate|reflexivity].
Qed.
Lemma references_app a b : references a = true -> references b = true -> references (a ++ b) = true.
Proof.
  intros A B. induction a as [|c a IH]; cbn in *; [exact B|]. apply Bool.andb_true_iff in A as [A1 A2]. rewrite (IH A2), Bool.andb_true_r.
  destruct (Ascii.eqb c "&"); [|reflexivity]. destruct a; [discriminate|exact A1].
Qed.
Lemma last_char_app P a b : b <> "" -> last_char P (a ++ b) = last_char P b.
Proof.
  intros Hb. induction a as [|c a IH]; [reflexivity|]. cbn. destruct (a ++ b)%string eqn:E; [|exact IH].
  destruct a; cbn in E; [congruence|discriminate].
Qed.
Lemma blanks_app a b : blanks a = true -> blanks b = true -> blanks (a ++ b) = true.
Proof. intros A B. unfold blanks in *. now rewrite all_chars_app, A, B. Qed.
Lemma blanks_spaces n : blanks (spaces n) = true.
Proof. induction n; [reflexivity|exact IHn]. Qed.

Definition clean (c : ascii) : bool := (letter c || digit c || Ascii.eqb c "_" || Ascii.eqb c "." || Ascii.eqb c ":" || Ascii.eqb c "/" || Ascii.eqb c " ")%bool.
Lemma uint_digits u : all_chars digit (NilEmpty.string_of_uint u) = true.
Proof. induction u; cbn [NilEmpty.string_of_uint all_chars]; [reflexivity|..]; rewrite IHu; reflexivity. Qed.
Lemma decimal_digits n : all_chars digit (decimal n) = true.
Proof. apply uint_digits. Qed.
Lemma zeros_digits k s : all_chars digit s = true -> all_chars digit (zeros k s) = true.
Proof. intros H. induction k; [exact H|exact IHk]. Qed.

Ltac chars := let c := fresh "c" in intros c; destruct c as [b0 b1 b2 b3 b4 b5 b6 b7]; destruct b0, b1, b2, b3, b4, b5, b6, b7; vm_compute; congruence.
Lemma digit_value c : digit c = true -> negb (Ascii.eqb c "<" || Ascii.eqb c """") = true. Proof. revert c. chars. Qed.
Lemma digit_amp c : digit c = true -> negb (Ascii.eqb c "&") = true. Proof. revert c. chars. Qed.
Lemma digit_markup c : digit c = true -> not_markup c = true. Proof. revert c. chars. Qed.
Lemma name_amp c : name_char c = true -> negb (Ascii.eqb c "&") = true. Proof. revert c. chars. Qed.
Lemma name_start_amp c : name_start c = true -> negb (Ascii.eqb c "&") = true. Proof. revert c. chars. Qed.
Lemma name_value c : name_char c = true -> negb (Ascii.eqb c "<" || Ascii.eqb c """") = true. Proof. revert c. chars. Qed.
Lemma name_markup c : name_char c = true -> not_markup c = true. Proof. revert c. chars. Qed.
Lemma name_blank c : name_char c = true -> negb (blank c) = true. Proof. revert c. chars. Qed.
Lemma blank_amp c : blank c = true -> negb (Ascii.eqb c "&") = true. Proof. revert c. chars. Qed.
Lemma digit_name c : digit c = true -> name_char c = true. Proof. revert c. chars. Qed.
Lemma start_name c : name_start c = true -> name_char c = true. Proof. revert c. chars. Qed.
Lemma plain_markup c : negb (Ascii.eqb c "<" || Ascii.eqb c ">" || Ascii.eqb c "&") = true -> not_markup c = true. Proof. revert c. chars. Qed.
Lemma plain_amp c : negb (Ascii.eqb c "<" || Ascii.eqb c ">" || Ascii.eqb c "&") = true -> negb (Ascii.eqb c "&") = true. Proof. revert c. chars. Qed.
Lemma pvalue_value c : negb (Ascii.eqb c "<" || Ascii.eqb c "&" || Ascii.eqb c """") = true -> negb (Ascii.eqb c "<" || Ascii.eqb c """") = true. Proof. revert c. chars. Qed.
Lemma pvalue_amp c : negb (Ascii.eqb c "<" || Ascii.eqb c "&" || Ascii.eqb c """") = true -> negb (Ascii.eqb c "&") = true. Proof. revert c. chars. Qed.

Definition name_chars (s : string) : Prop := all_chars name_char s = true.
Lemma xml_name_chars s : xml_name s = true -> name_chars s.
Proof.
  unfold name_chars. destruct s as [|c s]; cbn; [discriminate|]. rewrite !Bool.andb_true_iff. intros [A B]. split; [now apply start_name|exact B].
Qed.
Lemma name_chars_app a b : name_chars a -> name_chars b -> name_chars (a ++ b).
Proof. unfold name_chars. intros A B. now rewrite all_chars_app, A, B. Qed.
Lemma name_references s : name_chars s -> references s = true.
Proof. intros H. apply references_free. exact (all_chars_impl _ _ s name_amp H). Qed.
Lemma value_of_names s : name_chars s -> value s = true.
Proof. intros H. unfold value. rewrite (name_references s H), (all_chars_impl _ _ s name_value H). reflexivity. Qed.
Lemma value_app a b : value a = true -> value b = true -> value (a ++ b) = true.
Proof.
  unfold value. rewrite !Bool.andb_true_iff. intros [A1 A2] [B1 B2]. split; [now rewrite all_chars_app, A1, B1|now apply references_app].
Qed.
Lemma value_decimal n : value (decimal n) = true.
Proof. apply value_of_names. exact (all_chars_impl _ _ _ digit_name (decimal_digits n)). Qed.
Lemma value_spaced l : value (spaced l) = true.
Proof.
  induction l as [|a l IH]; [reflexivity|]. destruct l as [|b l]; [apply value_decimal|].
  change (spaced (a :: b :: l)) with (decimal a ++ " " ++ spaced (b :: l))%string.
  apply value_app; [apply value_decimal|]. apply value_app; [reflexivity|exact IH].
Qed.
Lemma value_plain s : plain_value s -> value s = true.
Proof.
  intros H. unfold value. rewrite (references_free s (all_chars_impl _ _ s pvalue_amp H)), (all_chars_impl _ _ s pvalue_value H). reflexivity.
Qed.

(** ** Rendering *)
Scheme renders_ind2 := Minimality for renders Sort Prop with renders_list_ind2 := Minimality for renders_list Sort Prop.
Combined Scheme renders_mut from renders_ind2, renders_list_ind2.

Lemma renders_app xs ys s t : renders_list xs s -> renders_list ys t -> renders_list (xs ++ ys) (s ++ t).
Proof.
  induction 1 as [s H|x xs b s u H Hx Hl IH]; intros Ht; cbn [app].
  - destruct Ht as [t H'|y ys b t u H' Hy Hl]; [constructor; now apply blanks_app|].
    rewrite <- app_assoc_s. constructor; [now apply blanks_app|assumption|assumption].
  - rewrite !app_assoc_s. constructor; auto.
Qed.
Lemma renders_one x s b e : blanks b = true -> blanks e = true -> renders x s -> renders_list [x] (b ++ s ++ e).
Proof. intros. constructor; [assumption..|]. now constructor. Qed.

(** A program that prints, from level [l] and back at level [l], something that represents [xs]. *)
Definition emits (p : list xcmd) (l : nat) (xs : list xml) : Prop := exists s, xrun p l = Ok (s, l) /\ renders_list xs s.

Lemma xrun_app p q : forall l s l', xrun p l = Ok (s, l') -> xrun (p ++ q) l = obind (xrun q l') (fun r => Ok ((s ++ fst r)%string, snd r)).
Proof.
  induction p as [|c p IH]; intros l s l' E.
  - injection E as <- <-. cbn. now destruct (xrun q l) as [[]| |].
  - destruct c; cbn [xrun app] in *.
    + destruct (push l); try discriminate. cbn in *. now apply IH.
    + destruct (pop l); try discriminate. cbn in *. now apply IH.
    + destruct (xrun p l) as [[s1 l1]| |] eqn:Ep; try discriminate. cbn in E. injection E as <- <-. rewrite (IH l s1 l1 Ep).
      destruct (xrun q l1) as [[s2 l2]| |]; cbn; [|reflexivity..]. now rewrite !app_assoc_s.
Qed.

Lemma emits_app p q l xs ys : emits p l xs -> emits q l ys -> emits (p ++ q) l (xs ++ ys).
Proof.
  intros (s & E & R) (t & F & R'). exists (s ++ t)%string. split; [|now apply renders_app]. rewrite (xrun_app p q l s l E), F. reflexivity.
Qed.
Lemma emits_nil l : emits [] l [].
Proof. exists "". split; [reflexivity|]. now constructor. Qed.
Lemma emits_flat {A B : Type} (f : A -> list xcmd) (g : A -> xml) l (xs : list A) : (forall x, In x xs -> emits (f x) l [g x]) -> emits (flat_map f xs) l (map g xs).
Proof.
  induction xs as [|x xs IH]; intros H; [apply emits_nil|]. cbn [flat_map map]. change (g x :: map g xs) with ([g x] ++ map g xs).
  apply emits_app; [apply H; now left|]. apply IH. intros y Hy. apply H. now right.
Qed.
Lemma emits_indented p l xs : (l < max_level)%nat -> emits p (Datatypes.S l) xs -> emits (Push :: p ++ [Pop]) l xs.
Proof.
  intros Hl (s & E & R). exists s. split; [|exact R]. cbn [xrun]. unfold push. replace (Nat.eqb l max_level) with false by (symmetry; apply Nat.eqb_neq; lia).
  cbn [obind]. rewrite (xrun_app p [Pop] _ s _ E). cbn. now rewrite app_nil_s.
Qed.
Lemma xrun_line s l : xrun [Line s] l = Ok ((spaces (indent_width * l) ++ s ++ newline)%string, l).
Proof. cbn [xrun obind fst snd]. now rewrite app_nil_s. Qed.
Lemma emits_line s l x : renders x s -> emits [Line s] l [x].
Proof. intros R. eexists. split; [apply xrun_line|]. apply renders_one; [apply blanks_spaces|reflexivity|exact R]. Qed.
Lemma emits_element n a p l ch : xml_name n = true -> good_attributes a -> emits p l ch ->
  emits (Line ("<" ++ n ++ attributes a ++ ">")%string :: p ++ [Line ("</" ++ n ++ ">")%string]) l [Elem n a ch].
Proof.
  intros Hn Ha (s & E & R). set (sp := spaces (indent_width * l)).
  exists (sp ++ ("<" ++ n ++ attributes a ++ ">" ++ (newline ++ s ++ sp) ++ "</" ++ n ++ ">") ++ newline)%string. split.
  - pose proof (xrun_app p [Line ("</" ++ n ++ ">")%string] l s l E) as X. rewrite xrun_line in X. cbn [obind fst snd] in X.
    change (xrun (Line ("<" ++ n ++ attributes a ++ ">")%string :: p ++ [Line ("</" ++ n ++ ">")%string]) l)
      with (obind (xrun (p ++ [Line ("</" ++ n ++ ">")%string]) l)
              (fun r => Ok ((spaces (indent_width * l) ++ ("<" ++ n ++ attributes a ++ ">") ++ newline ++ fst r)%string, snd r))).
    rewrite X. cbn [obind fst snd]. unfold sp. now rewrite !app_assoc_s.
  - apply renders_one; [apply blanks_spaces|reflexivity|]. constructor; [assumption..|].
    change ch with ([] ++ ch). apply renders_app; [now constructor|]. rewrite <- (app_nil_r ch). apply renders_app; [exact R|]. constructor. apply blanks_spaces.
Qed.

Ltac good := split; [repeat constructor; cbn; intuition discriminate|repeat constructor; cbn [fst snd]; try reflexivity].

Section Index.
  Context (N : idx) (vars : list string).

  Lemma emits_item file name dims l : (l < max_level)%nat -> text (file ++ ":/" ++ name)%string = true ->
    emits ([Line ("<DataItem" ++ attr "NumberType" "Float" ++ attr "Precision" "8" ++ attr "Dimensions" (spaced dims) ++ attr "Format" "HDF" ++ ">")%string;
            Push; Line (file ++ ":/" ++ name)%string; Pop; Line "</DataItem>"]) l [data_item file name dims].
  Proof.
    intros Hl Ht. pose proof (emits_element "DataItem" [("NumberType", "Float"); ("Precision", "8"); ("Dimensions", spaced dims); ("Format", "HDF")]
      [Push; Line (file ++ ":/" ++ name)%string; Pop] l [Text (file ++ ":/" ++ name)%string]) as X.
    cbn [attributes app] in X. unfold attr, quote. repeat rewrite app_assoc_s in X. repeat rewrite app_assoc_s. cbn [append] in *. apply X.
    - reflexivity.
    - good. apply value_spaced.
    - apply (emits_indented [Line (file ++ String ":" (String "/" name))%string]); [exact Hl|]. apply emits_line. now constructor.
  Qed.

  Lemma emits_axis file d l : (d < 3)%nat -> (Datatypes.S l < max_level)%nat -> text (file ++ ":/" ++ axis_name d ++ "_ng")%string = true ->
    emits (axis_cmds N file d) l [data_item file (axis_name d ++ "_ng")%string [coord d N + 1]].
  Proof.
    intros Hd Hl Ht. pose proof (emits_indented _ l _ ltac:(lia) (emits_item file _ [coord d N + 1] (Datatypes.S l) Hl Ht)) as X.
    unfold axis_cmds. destruct d as [|[|[|d]]]; [exact X|exact X|exact X|lia].
  Qed.

  Lemma emits_var file v l : name_chars v -> (Datatypes.S l < max_level)%nat -> text (file ++ ":/" ++ v)%string = true ->
    emits (var_cmds N file v) l [Elem "Attribute" [("Center", "Cell"); ("Name", v); ("AttributeType", "Scalar")] [data_item file v [coord 2 N; coord 1 N; coord 0 N]]].
  Proof.
    intros Hv Hl Ht.
    pose proof (emits_indented _ l _ ltac:(lia) (emits_item file v [coord 2 N; coord 1 N; coord 0 N] (Datatypes.S l) Hl Ht)) as X.
    pose proof (emits_element "Attribute" [("Center", "Cell"); ("Name", v); ("AttributeType", "Scalar")] _ l _ eq_refl
      ltac:(good; now apply value_of_names) X) as Y.
    cbn [attributes app] in Y. unfold var_cmds, three. unfold attr, quote in *. cbn [spaced] in Y.
    repeat rewrite app_assoc_s in Y. repeat rewrite app_assoc_s. cbn [append] in *. exact Y.
  Qed.

  Lemma renders_empty n a s : xml_name n = true -> good_attributes a -> s = ("<" ++ n ++ attributes a ++ "/>")%string -> renders (Elem n a []) s.
  Proof. intros Hn Ha ->. now constructor. Qed.

  Lemma emits_grid time file : plain_value time -> (forall v, In v vars -> name_chars v) ->
    (forall v, name_chars v -> v <> "" -> text (file ++ ":/" ++ v)%string = true) -> (forall v, In v vars -> v <> "") ->
    emits (grid_cmds N vars time file) 2 [grid_tree N vars time file].
  Proof.
    intros Ht Hv Hf Hne.
    assert (A : emits (flat_map (axis_cmds N file) [0%nat; 1%nat; 2%nat]) 4 [data_item file "x0_ng" [coord 0 N + 1]; data_item file "x1_ng" [coord 1 N + 1]; data_item file "x2_ng" [coord 2 N + 1]]).
    { cbn [flat_map]. change [data_item file "x0_ng" [coord 0 N + 1]; data_item file "x1_ng" [coord 1 N + 1]; data_item file "x2_ng" [coord 2 N + 1]]
        with ([data_item file (axis_name 0 ++ "_ng") [coord 0 N + 1]] ++ [data_item file (axis_name 1 ++ "_ng") [coord 1 N + 1]] ++ [data_item file (axis_name 2 ++ "_ng") [coord 2 N + 1]] ++ []).
      assert (L : (5 < max_level)%nat) by (unfold max_level; lia).
      repeat apply emits_app; try apply emits_nil; apply emits_axis; try lia; try exact L; apply Hf; try reflexivity; discriminate. }
    apply (emits_element "Geometry" [("GeometryType", "VXVYVZ")] _ 4 _ eq_refl ltac:(good)) in A.
    assert (B : emits (flat_map (var_cmds N file) vars) 4
       (map (fun v => Elem "Attribute" [("Center", "Cell"); ("Name", v); ("AttributeType", "Scalar")] [data_item file v [coord 2 N; coord 1 N; coord 0 N]]) vars)).
    { apply (@emits_flat string xml). intros v Iv. apply emits_var; [now apply Hv|unfold max_level; lia|]. apply Hf; [now apply Hv|now apply Hne]. }
    assert (T : emits [Line ("<Time" ++ attr "Value" time ++ "/>")%string] 4 [Elem "Time" [("Value", time)] []]).
    { apply emits_line. apply renders_empty; [reflexivity|good; now apply value_plain|]. cbn [attributes]. unfold attr, quote. repeat rewrite app_assoc_s. cbn [append]. reflexivity. }
    assert (U : emits [Line ("<Topology" ++ attr "TopologyType" "3DRectMesh" ++ attr "Dimensions" (three (fun d => coord d N + 1)) ++ "/>")%string] 4
                 [Elem "Topology" [("TopologyType", "3DRectMesh"); ("Dimensions", spaced [coord 2 N + 1; coord 1 N + 1; coord 0 N + 1])] []]).
    { apply emits_line. apply renders_empty; [reflexivity|good; apply value_spaced|]. cbn [attributes spaced]. unfold attr, quote, three. repeat rewrite app_assoc_s. cbn [append]. repeat rewrite app_assoc_s. reflexivity. }
    pose proof (emits_app _ _ _ _ _ T (emits_app _ _ _ _ _ U (emits_app _ _ _ _ _ A B))) as X.
    apply (emits_indented _ 3) in X; [|unfold max_level; lia].
    apply (emits_element "Grid" [("Name", "output"); ("GridType", "Uniform")] _ 3 _ eq_refl ltac:(good)) in X.
    apply (emits_indented _ 2) in X; [|unfold max_level; lia].
    unfold grid_cmds, grid_tree. cbn [attributes] in X. unfold attr, quote in *. repeat rewrite app_assoc_s in X. repeat rewrite app_assoc_s.
    cbn [append app] in *. rewrite <- !app_assoc in X. cbn [append app] in *. exact X.
  Qed.
End Index.

Lemma filename_text prefix n v : plain prefix -> name_chars v -> v <> "" -> text (get_output_filename prefix n ++ ":/" ++ v)%string = true.
Proof.
  intros [P1 P2] Hv Hne. unfold get_output_filename. set (z := zeros _ _).
  assert (Z : all_chars digit z = true) by (apply zeros_digits, decimal_digits).
  unfold text. rewrite !Bool.andb_true_iff. split; [split; [split|]|].
  - rewrite !all_chars_app, (all_chars_impl _ _ _ plain_markup P1), (all_chars_impl _ _ _ digit_markup Z), (all_chars_impl _ _ _ name_markup Hv). reflexivity.
  - apply references_free. rewrite !all_chars_app, (all_chars_impl _ _ _ plain_amp P1), (all_chars_impl _ _ _ digit_amp Z), (all_chars_impl _ _ _ name_amp Hv). reflexivity.
  - destruct P2 as [->|P2]; [reflexivity|]. destruct prefix; [discriminate|exact P2].
  - rewrite last_char_app by discriminate. rewrite last_char_app by exact Hne. clear -Hv Hne. unfold name_chars in Hv.
    induction v as [|c v IH]; [congruence|]. cbn in Hv. apply Bool.andb_true_iff in Hv as [A B]. destruct v; [exact (name_blank c A)|]. apply IH; [exact B|discriminate].
Qed.

Lemma var_names_good nd nfx v : In v (var_names nd nfx) -> name_chars v /\ v <> "".
Proof.
  unfold var_names. rewrite !in_app_iff, in_map_iff. intros [H|[(k & <- & _)|H]].
  - cbn in H. intuition (subst; (reflexivity || discriminate)).
  - split; [|discriminate]. apply name_chars_app; [reflexivity|]. exact (all_chars_impl _ _ _ digit_name (decimal_digits k)).
  - assert (I : In v ["ux0"; "ux1"; "ux2"]).
    { rewrite <- (firstn_skipn nd ["ux0"; "ux1"; "ux2"]). apply in_or_app. now left. }
    cbn in I. intuition (subst; (reflexivity || discriminate)).
Qed.

Definition outputs_of {T : Type} (show : T -> string) prefix (oid : Z) (record : list (Z * T)) : list (string * string) :=
  map (fun ir => (show (snd (snd ir)), get_output_filename prefix (oid + 1 - Z.of_nat (List.length record) + Z.of_nat (fst ir))))
    (combine (seq 0 (List.length record)) record).

Lemma index_document {T : Type} (show : T -> string) N prefix nd nfx oid (record : list (Z * T)) : plain prefix ->
  (forall r, In r record -> plain_value (show (snd r))) ->
  exists s, xdmf show N prefix (var_names nd nfx) oid record = Ok s /\
    xml_document (index_tree N (var_names nd nfx) (outputs_of show prefix oid record)) s.
Proof.
  intros Hp Hs. set (vars := var_names nd nfx).
  assert (G : emits (flat_map (fun ir => grid_cmds N vars (show (snd (snd ir))) (get_output_filename prefix (oid + 1 - Z.of_nat (List.length record) + Z.of_nat (fst ir))))
       (combine (seq 0 (List.length record)) record)) 2 (map (fun o => grid_tree N vars (fst o) (snd o)) (outputs_of show prefix oid record))).
  { unfold outputs_of. rewrite map_map. apply (@emits_flat (nat * (Z * T)) xml). intros [i r] I. cbn [fst snd].
    apply emits_grid.
    - apply Hs. exact (in_combine_r _ _ _ _ I).
    - intros v Iv. exact (proj1 (var_names_good nd nfx v Iv)).
    - intros v Hv Hne. now apply filename_text.
    - intros v Iv. exact (proj2 (var_names_good nd nfx v Iv)). }
  apply (emits_element "Grid" [("Name", "TimeSeries"); ("GridType", "Collection"); ("CollectionType", "Temporal")] _ 2 _ eq_refl ltac:(good)) in G.
  apply (emits_indented _ 1) in G; [|unfold max_level; lia].
  apply (emits_element "Domain" [] _ 1 _ eq_refl ltac:(good)) in G.
  apply (emits_indented _ 0) in G; [|unfold max_level; lia].
  apply (emits_element "Xdmf" [("Version", "2.0")] _ 0 _ eq_refl ltac:(good)) in G.
  destruct G as (body & E & R). eexists. split.
  - unfold xdmf, xdmf_cmds.
    match goal with |- obind (xrun ?p 0) _ = _ => match type of E with xrun ?q 0 = _ => 
      replace (xrun p 0) with (xrun ([Line ("<?xml version=" ++ quote ++ "1.0" ++ quote ++ "?>")%string;
         Line ("<!DOCTYPE Xdmf SYSTEM " ++ quote ++ "Xdmf.dtd" ++ quote ++ " []>")%string] ++ q) 0) end end.
    + rewrite (xrun_app [Line _; Line _] _ 0 _ 0 eq_refl). rewrite E. cbn [obind fst snd]. reflexivity.
    + f_equal. cbn [attributes append app]. unfold attr, quote. cbn [append]. rewrite <- !app_assoc. reflexivity.
  - exists "Xdmf", [("Version", "2.0")]. eexists. exists body. split; [reflexivity|]. split; [exact R|]. reflexivity.
Qed.

(** ** The references of the index *)
Lemma items_item file name dims : items (data_item file name dims) = [(spaced dims, (file ++ ":/" ++ name)%string)].
Proof. reflexivity. Qed.
Lemma items_grid N vars time file : items (grid_tree N vars time file) =
  map (fun nd => (spaced (snd nd), (file ++ ":/" ++ fst nd)%string))
    ([("x0_ng", [coord 0 N + 1]); ("x1_ng", [coord 1 N + 1]); ("x2_ng", [coord 2 N + 1])] ++ map (fun v => (v, [coord 2 N; coord 1 N; coord 0 N])) vars).
Proof.
  unfold grid_tree. cbn [items]. change (("Grid" =? "DataItem")%string) with false. cbn [app]. cbn [flat_map map].
  change (items (Elem "Time" [("Value", time)] [])) with (@nil (string * string)).
  change (items (Elem "Topology" _ [])) with (@nil (string * string)). cbn [app].
  change (items (Elem "Geometry" [("GeometryType", "VXVYVZ")] ?l)) with (flat_map items l).
  cbn [flat_map]. rewrite !items_item. cbn [app fst snd]. do 3 f_equal. rewrite map_map. cbn [fst snd].
  induction vars as [|v vars IH]; [reflexivity|]. cbn [map flat_map]. rewrite IH. reflexivity.
Qed.
Lemma items_elem n a ch : (n =? "DataItem")%string = false -> items (Elem n a ch) = flat_map items ch.
Proof. intros H. cbn [items]. rewrite H. reflexivity. Qed.
Lemma items_index N vars outs : items (index_tree N vars outs) = flat_map (fun o => items (grid_tree N vars (fst o) (snd o))) outs.
Proof.
  unfold index_tree. do 3 (rewrite items_elem by reflexivity; try (cbn [flat_map]; rewrite app_nil_r)).
  induction outs as [|o outs IH]; [reflexivity|]. cbn [map flat_map]. now rewrite IH.
Qed.

Lemma var_in_file nd ng nfx N v : (1 <= nd)%nat -> nfx <= 10 -> In v (var_names nd nfx) -> In (v, [coord 2 N; coord 1 N; coord 0 N]) (file_datasets nd ng nfx N).
Proof.
  intros H1 H H'. unfold file_datasets. rewrite !in_app_iff. right. right. apply in_map_iff. exists v. split; [reflexivity|].
  unfold var_names in H'. rewrite !in_app_iff, in_map_iff in H'. rewrite !in_app_iff. destruct H' as [A|[A|A]].
  - left. cbn in *. tauto.
  - right. right. right. apply in_map_iff. destruct A as (k & E & I). exists k. split; [exact E|]. rewrite in_zrange in *. lia.
  - destruct nd as [|[|[|nd]]]; [lia|..]; cbn in A |- *; [tauto|tauto|]. destruct nd; cbn in A; tauto.
Qed.

Lemma index_references nd ng nfx N outs d r : (1 <= nd)%nat -> nfx <= 10 -> In (d, r) (items (index_tree N (var_names nd nfx) outs)) ->
  exists o name dims, In o outs /\ In (name, dims) (file_datasets nd ng nfx N) /\ r = (snd o ++ ":/" ++ name)%string /\ d = spaced dims.
Proof.
  intros H1 H Hi. rewrite items_index in Hi. apply in_flat_map in Hi as (o & Io & Hi). rewrite items_grid in Hi.
  apply in_map_iff in Hi as ((name & dims) & E & I). injection E as <- <-. exists o, name, dims. repeat split; [exact Io|].
  apply in_app_iff in I as [I|I].
  - unfold file_datasets. rewrite !in_app_iff. right. left. cbn in I |- *. tauto.
  - apply in_map_iff in I as (v & E & Iv). injection E as <- <-. now apply var_in_file.
Qed.

(** ** Runs *)
Section Runs.
  Context {S : Type}.
  Definition key (f : file S) : Z * R := (fl_iter f, fl_t f).
  Definition entry (show : R -> string) prefix (f : file S) : string * string := (show (fl_t f), get_output_filename prefix (fl_oid f)).

  Lemma loop_record (D : dynamics S) p clock n : forall m0 m v, loop D p clock n m0 = (m, v) -> completed v ->
    exists l, m_files m = m_files m0 ++ l /\ m_record m = m_record m0 ++ map key l /\ m_oid m = m_oid m0 + Z.of_nat (List.length l) /\
      map (@fl_oid S) l = zrange (m_oid m0 + 1) (m_oid m + 1).
  Proof.
    intros m0 m v H Hv. destruct (loop_ids D p clock n m0 m v H) as (l & A & B & C).
    enough (exists l, m_files m = m_files m0 ++ l /\ m_record m = m_record m0 ++ map key l) as (l' & A' & E).
    { rewrite A in A'. apply app_inv_head in A'. subst l'. eauto. }
    clear l A B C. revert m0 m v H Hv. induction n as [|n IH]; intros m0 m v H Hv.
    - injection H as <- <-. exists []. cbn. now rewrite !app_nil_r.
    - cbn [loop] in H. destruct (body D p clock m0) as [m1 v1] eqn:Eb.
      assert (Cv : completed v1) by (destruct v1; [now left|injection H as _ <-; exact Hv..]).
      destruct (body_inv D p clock m0 m1 v1 Eb Cv) as (o1 & iid & o2 & tid & dt2 & s1 & dt & _ & _ & _ & _ & _ & E1 & _).
      assert (X : exists l, m_files m1 = m_files m0 ++ l /\ m_record m1 = m_record m0 ++ map key l).
      { rewrite E1. unfold step_of. destruct (o1 || o2 || _)%bool; cbn; [eexists [_]; split; reflexivity|exists []; now rewrite !app_nil_r]. }
      destruct X as (l1 & X1 & X2).
      assert (Y : exists l, m_files m = m_files m1 ++ l /\ m_record m = m_record m1 ++ map key l).
      { destruct v1; [exact (IH _ _ _ H Hv)|injection H as <- <-; exists []; now rewrite !app_nil_r..]. }
      destruct Y as (l2 & Y1 & Y2). exists (l1 ++ l2). rewrite Y1, Y2, X1, X2, map_app, <- !app_assoc. auto.
  Qed.

  Lemma outputs_files show prefix oid a (l : list (file S)) : map (@fl_oid S) l = zrange a (oid + 1) -> oid + 1 = a + Z.of_nat (List.length l) ->
    outputs_of show prefix oid (map key l) = map (entry show prefix) l.
  Proof.
    intros H E. unfold outputs_of. rewrite map_length. replace (oid + 1 - Z.of_nat (List.length l)) with a by lia.
    unfold zrange in H. replace (Z.to_nat (oid + 1 - a)) with (List.length l) in H by lia. clear E. revert H. generalize 0%nat.
    induction l as [|f l IH]; intros i H; [reflexivity|]. cbn [List.length seq map combine] in *. injection H as H1 H2. cbn [fst snd]. f_equal.
    - unfold entry, key. cbn [snd]. now rewrite H1.
    - now apply IH.
  Qed.

  Lemma fresh_index (D : dynamics S) p clock s n m v show N prefix nd nfx : loop D p clock n (fresh p s) = (m, v) -> completed v ->
    plain prefix -> (forall f, In f (m_files m) -> plain_value (show (fl_t f))) ->
    exists x, xdmf show N prefix (var_names nd nfx) (m_oid m) (m_record m) = Ok x /\
      xml_document (index_tree N (var_names nd nfx) (map (entry show prefix) (m_files m))) x.
  Proof.
    intros H Hv Hp Hs. destruct (loop_record D p clock n _ _ _ H Hv) as (l & A & B & _). destruct (numbered D p clock s n m v H) as [C E].
    assert (F : m_record (fresh p s) = map key (m_files (fresh p s))) by (unfold fresh; now destruct (_ || _)%bool).
    assert (G : m_record m = map key (m_files m)) by (rewrite B, A, F, map_app; reflexivity).
    assert (O : outputs_of show prefix (m_oid m) (m_record m) = map (entry show prefix) (m_files m)).
    { rewrite G. apply (outputs_files show prefix (m_oid m) 0); [|lia]. rewrite C. f_equal. lia. }
    rewrite <- O. apply index_document; [exact Hp|]. intros r Ir. rewrite G in Ir. apply in_map_iff in Ir as (f & <- & If). now apply Hs.
  Qed.

  Lemma restart_index (D : dynamics S) p clock f s n m v show N prefix nd nfx : loop D p clock n (restarted f s) = (m, v) -> completed v ->
    plain prefix -> (forall f, In f (m_files m) -> plain_value (show (fl_t f))) ->
    exists x, xdmf show N prefix (var_names nd nfx) (m_oid m) (m_record m) = Ok x /\
      xml_document (index_tree N (var_names nd nfx) (map (entry show prefix) (m_files m))) x.
  Proof.
    intros H Hv Hp Hs. destruct (loop_record D p clock n _ _ _ H Hv) as (l & A & B & C & E). cbn in A, B, C, E. subst l.
    assert (O : outputs_of show prefix (m_oid m) (m_record m) = map (entry show prefix) (m_files m)).
    { rewrite B. apply (outputs_files show prefix (m_oid m) (fl_oid f + 1)); [exact E|lia]. }
    rewrite <- O. apply index_document; [exact Hp|]. intros r Ir. rewrite B in Ir. apply in_map_iff in Ir as (g & <- & If). now apply Hs.
  Qed.
End Runs.

(** ** File names inside references *)
Lemma digits_then_dot a : forall b x y, all_chars digit a = true -> all_chars digit b = true ->
  (a ++ String "." x)%string = (b ++ String "." y)%string -> a = b.
Proof.
  induction a as [|c a IH]; intros [|d b] x y Ha Hb E; cbn in *; [reflexivity|..].
  - injection E as <- _. discriminate.
  - injection E as -> _. discriminate.
  - injection E as <- E. apply Bool.andb_true_iff in Ha as [_ Ha], Hb as [_ Hb]. f_equal. exact (IH b x y Ha Hb E).
Qed.
Lemma reference_id prefix a b n n' : 0 <= a -> 0 <= b ->
  (get_output_filename prefix a ++ ":/" ++ n)%string = (get_output_filename prefix b ++ ":/" ++ n')%string -> a = b.
Proof.
  intros Ha Hb E. unfold get_output_filename in E. repeat rewrite app_assoc_s in E. apply append_inj_l in E. cbn [append] in E. injection E as E.
  apply digits_then_dot in E; [|apply zeros_digits, decimal_digits..]. now apply padded_inj in E.
Qed.

Lemma restart_drops {S : Type} (D D' : dynamics S) p p' clock clock' s s' n j m m' v v' f show N prefix nd nfx g d r name :
  loop D p clock n (fresh p s) = (m, v) -> last_file m f -> loop D' p' clock' j (restarted f s') = (m', v') ->
  (1 <= nd)%nat -> nfx <= 10 -> In g (m_files m) -> In (d, r) (items (index_tree N (var_names nd nfx) (map (entry show prefix) (m_files m')))) ->
  r <> (get_output_filename prefix (fl_oid g) ++ ":/" ++ name)%string.
Proof.
  intros H Hf H' Hn Hx Ig Ir ->. destruct (index_references nd 2 nfx N _ _ _ Hn Hx Ir) as (o & name' & dims & Io & _ & E & _).
  apply in_map_iff in Io as (h & <- & Ih). unfold entry in E. cbn [snd] in E.
  destruct (ids_after_restart D D' p p' clock clock' s s' n j m m' v v' f prefix H Hf H') as [A B].
  set (ids := map (@fl_oid S) (m_files m) ++ map (@fl_oid S) (m_files m')) in *.
  assert (I1 : In (fl_oid g) ids) by (apply in_or_app; left; now apply in_map).
  assert (I2 : In (fl_oid h) ids) by (apply in_or_app; right; now apply in_map).
  assert (Ng : 0 <= fl_oid g) by (rewrite A in I1; apply in_zrange in I1; lia).
  assert (Nh : 0 <= fl_oid h) by (rewrite A in I2; apply in_zrange in I2; lia).
  apply reference_id in E; [|assumption..].
  assert (ND : NoDup ids) by (rewrite A; apply NoDup_zrange).
  unfold ids in ND. clear -ND E Ig Ih. apply (in_map (@fl_oid S)) in Ig, Ih. rewrite E in Ig. revert Ig Ih ND. generalize (fl_oid h). 
  generalize (map (@fl_oid S) (m_files m)) as xs, (map (@fl_oid S) (m_files m')) as ys. induction xs as [|x xs IH]; intros ys z A B ND; [exact A|].
  cbn in ND. apply NoDup_cons_iff in ND as [N1 N2]. destruct A as [->|A]; [apply N1, in_or_app; now right|exact (IH ys z A B N2)].
Qed.

(** ** Ampersands (C72) *)
Lemma references_attributes a : Forall (fun a => xml_name (fst a) = true /\ value (snd a) = true) a -> references (attributes a) = true.
Proof.
  induction 1 as [|[n v] l [A B] _ IH]; [reflexivity|]. cbn [fst snd attributes] in *.
  apply (references_app " "); [reflexivity|]. apply references_app; [now apply name_references, xml_name_chars|].
  apply (references_app "="); [reflexivity|]. apply (references_app (String """" "")); [reflexivity|].
  apply references_app; [unfold value in B; now apply Bool.andb_true_iff in B|]. now apply (references_app (String """" "")).
Qed.
Lemma references_rendered : (forall x s, renders x s -> references s = true) /\ (forall l s, renders_list l s -> references s = true).
Proof.
  apply renders_mut.
  - intros s H. unfold text in H. rewrite !Bool.andb_true_iff in H. tauto.
  - intros n a Hn [_ Ha]. apply (references_app "<"); [reflexivity|]. apply references_app; [now apply name_references, xml_name_chars|].
    apply references_app; [now apply references_attributes|reflexivity].
  - intros n a ch s Hn [_ Ha] _ IH. apply (references_app "<"); [reflexivity|]. apply references_app; [now apply name_references, xml_name_chars|].
    apply references_app; [now apply references_attributes|]. apply (references_app ">"); [reflexivity|]. apply references_app; [exact IH|].
    apply (references_app "</"); [reflexivity|]. apply references_app; [now apply name_references, xml_name_chars|reflexivity].
  - intros s H. apply references_free. exact (all_chars_impl _ _ s blank_amp H).
  - intros x xs b s t Hb _ IHx _ IHl. apply references_app; [apply references_free; exact (all_chars_impl _ _ b blank_amp Hb)|].
    now apply references_app.
Qed.
Lemma references_document t s : xml_document t s -> references s = true.
Proof.
  intros (root & a & ch & body & -> & R & ->). inversion R as [|? ? b s t Hb Hx Hl]; subst.
  assert (Hn : xml_name root = true) by (inversion Hx; assumption).
  assert (Rn : references root = true) by (now apply name_references, xml_name_chars).
  pose proof (proj2 references_rendered _ _ R) as Rb.
  repeat (first [exact Rb | exact Rn | reflexivity | apply references_app]).
Qed.
Lemma references_split a b : references (a ++ b) = true -> references b = true.
Proof. induction a as [|c a IH]; [auto|]. cbn. rewrite Bool.andb_true_iff. intros [_ H]. auto. Qed.

Lemma outputs_of_fields {T : Type} (show : T -> string) prefix oid (record : list (Z * T)) :
  map fst (outputs_of show prefix oid record) = map (fun r => show (snd r)) record /\
  map snd (outputs_of show prefix oid record) = map (get_output_filename prefix) (zrange (oid + 1 - Z.of_nat (List.length record)) (oid + 1)).
Proof.
  unfold outputs_of. rewrite !map_map. cbn [fst snd]. unfold zrange. rewrite map_map.
  replace (Z.to_nat (oid + 1 - (oid + 1 - Z.of_nat (List.length record)))) with (List.length record) by lia.
  generalize (oid + 1 - Z.of_nat (List.length record)) as a. intros a. generalize 0%nat as i.
  induction record as [|r record IH]; intros i; [split; reflexivity|]. cbn [List.length seq combine map fst snd]. destruct (IH (Datatypes.S i)) as [A B]. split; f_equal; assumption.
Qed.

Lemma ampersand_example : exists prefix record s,
  xdmf (fun _ : R => "0") (I3 4 1 1) prefix (var_names 1 0) 0 record = Ok s /\ forall t, ~ xml_document t s.
Proof.
  exists "run&1", [(0, 0%R)]. eexists. split; [vm_compute; reflexivity|]. intros t H. apply references_document in H. vm_compute in H. discriminate.
Qed.
