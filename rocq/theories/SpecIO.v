(** * Vocabulary for output files (C53, C59, C71, C72). *)
From Coq Require Import Ascii.
From Verif Require Import Base RBase ModelMesh ModelGeom ModelBoundary ModelMain ModelIO SpecBoundary.
Local Open Scope string_scope.
Local Open Scope Z_scope.
Local Open Scope list_scope.

(** ** XML

    A tree of elements and texts, and the strings that represent it (the part of XML without comments,
    processing instructions and CDATA sections; references like &amp; are allowed in
    texts and attribute values). *)
Inductive xml : Type :=
| Elem (name : string) (attrs : list (string * string)) (children : list xml)
| Text (s : string).

Fixpoint all_chars (P : ascii -> bool) (s : string) : bool :=
  match s with EmptyString => true | String c s' => (P c && all_chars P s')%bool end.
Definition between (a b c : ascii) : bool := ((nat_of_ascii a <=? nat_of_ascii c) && (nat_of_ascii c <=? nat_of_ascii b))%nat.
Definition letter (c : ascii) : bool := (between "a" "z" c || between "A" "Z" c)%bool.
Definition digit (c : ascii) : bool := between "0" "9" c.
Definition blank (c : ascii) : bool := (Ascii.eqb c " " || Ascii.eqb c "009" || Ascii.eqb c "010" || Ascii.eqb c "013")%bool.
Definition name_start (c : ascii) : bool := (letter c || Ascii.eqb c "_" || Ascii.eqb c ":" || (128 <=? nat_of_ascii c)%nat)%bool.
Definition name_char (c : ascii) : bool := (name_start c || digit c || Ascii.eqb c "-" || Ascii.eqb c ".")%bool.
Definition xml_name (s : string) : bool := match s with EmptyString => false | String c s' => (name_start c && all_chars name_char s')%bool end.
(** Every ampersand starts a reference (at least, is followed by what may start one). *)
Fixpoint references (s : string) : bool :=
  match s with
  | EmptyString => true
  | String c s' =>
      ((if Ascii.eqb c "&" then match s' with EmptyString => false | String d _ => (name_start d || Ascii.eqb d "#")%bool end else true)
       && references s')%bool
  end.
Definition not_markup (c : ascii) : bool := negb (Ascii.eqb c "<" || Ascii.eqb c ">").
Definition first_char (P : ascii -> bool) (s : string) : bool := match s with EmptyString => false | String c _ => P c end.
Fixpoint last_char (P : ascii -> bool) (s : string) : bool :=
  match s with EmptyString => false | String c EmptyString => P c | String _ s' => last_char P s' end.
(** A text: not empty, no blanks around it. *)
Definition text (s : string) : bool :=
  (all_chars not_markup s && references s && first_char (fun c => negb (blank c)) s && last_char (fun c => negb (blank c)) s)%bool.
Definition value (s : string) : bool := (all_chars (fun c => negb (Ascii.eqb c "<" || Ascii.eqb c """")) s && references s)%bool.
Definition blanks (s : string) : bool := all_chars blank s.

Fixpoint attributes (l : list (string * string)) : string :=
  match l with [] => "" | (n, v) :: l' => (" " ++ n ++ "=" ++ String """" "" ++ v ++ String """" "" ++ attributes l')%string end.
Definition good_attributes (l : list (string * string)) : Prop :=
  NoDup (map fst l) /\ Forall (fun a => xml_name (fst a) = true /\ value (snd a) = true) l.

Inductive renders : xml -> string -> Prop :=
| r_text s : text s = true -> renders (Text s) s
| r_empty n a : xml_name n = true -> good_attributes a -> renders (Elem n a []) ("<" ++ n ++ attributes a ++ "/>")%string
| r_elem n a ch s : xml_name n = true -> good_attributes a -> renders_list ch s ->
    renders (Elem n a ch) ("<" ++ n ++ attributes a ++ ">" ++ s ++ "</" ++ n ++ ">")%string
with renders_list : list xml -> string -> Prop :=
| r_nil s : blanks s = true -> renders_list [] s
| r_cons x xs b s t : blanks b = true -> renders x s -> renders_list xs t -> renders_list (x :: xs) (b ++ s ++ t)%string.

(** A document: XML declaration, document type of the root's name, root. *)
Definition xml_document (t : xml) (s : string) : Prop :=
  exists root at_ ch body, t = Elem root at_ ch /\ renders_list [t] body /\
    s = ("<?xml version=" ++ quote ++ "1.0" ++ quote ++ "?>" ++ newline
         ++ "<!DOCTYPE " ++ root ++ " SYSTEM " ++ quote ++ root ++ ".dtd" ++ quote ++ " []>" ++ newline ++ body)%string.

(** ** The index of a run *)
Fixpoint spaced (l : list Z) : string :=
  match l with [] => "" | [n] => decimal n | n :: l' => (decimal n ++ " " ++ spaced l')%string end.
Definition data_item (file name : string) (dims : list Z) : xml :=
  Elem "DataItem" [("NumberType", "Float"); ("Precision", "8"); ("Dimensions", spaced dims); ("Format", "HDF")]
       [Text (file ++ ":/" ++ name)%string].
Definition grid_tree (N : idx) (vars : list string) (time file : string) : xml :=
  Elem "Grid" [("Name", "output"); ("GridType", "Uniform")]
    ([Elem "Time" [("Value", time)] [];
      Elem "Topology" [("TopologyType", "3DRectMesh"); ("Dimensions", spaced [coord 2 N + 1; coord 1 N + 1; coord 0 N + 1])] [];
      Elem "Geometry" [("GeometryType", "VXVYVZ")]
        [data_item file "x0_ng" [coord 0 N + 1]; data_item file "x1_ng" [coord 1 N + 1]; data_item file "x2_ng" [coord 2 N + 1]]]
     ++ map (fun v => Elem "Attribute" [("Center", "Cell"); ("Name", v); ("AttributeType", "Scalar")]
                           [data_item file v [coord 2 N; coord 1 N; coord 0 N]]) vars).
(** [outputs]: printed time and file name of each output, in order. *)
Definition index_tree (N : idx) (vars : list string) (outputs : list (string * string)) : xml :=
  Elem "Xdmf" [("Version", "2.0")]
    [Elem "Domain" []
       [Elem "Grid" [("Name", "TimeSeries"); ("GridType", "Collection"); ("CollectionType", "Temporal")]
          (map (fun o => grid_tree N vars (fst o) (snd o)) outputs)]].

(** The (dimensions, reference) pairs of the data items of a tree. *)
Fixpoint items (t : xml) : list (string * string) :=
  match t with
  | Text _ => []
  | Elem n a ch =>
      (if (n =? "DataItem")%string
       then match ch with
            | [Text r] => match find (fun x => (fst x =? "Dimensions")%string) a with Some (_, d) => [(d, r)] | None => [] end
            | _ => []
            end
       else [])
      ++ flat_map items ch
  end.

(** Output prefixes that need no escaping. *)
Definition plain (s : string) : Prop :=
  all_chars (fun c => negb (Ascii.eqb c "<" || Ascii.eqb c ">" || Ascii.eqb c "&")) s = true /\
  (s = "" \/ first_char (fun c => negb (blank c)) s = true).
(** Printed numbers. *)
Definition plain_value (s : string) : Prop :=
  all_chars (fun c => negb (Ascii.eqb c "<" || Ascii.eqb c "&" || Ascii.eqb c """")) s = true.
