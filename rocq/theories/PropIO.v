(** * C53, C59, C71, C72: output files and the XDMF index. *)
From Coq Require Import Permutation Lra.
From Verif Require Import Base RBase ModelMesh ModelGeom ModelBoundary ModelStep ModelMain ModelIO SpecMesh SpecBoundary SpecStep SpecMain SpecIO
  ProofBoundary2 ProofIO ProofXdmf ProofXdmfEx.
Local Open Scope string_scope.
Local Open Scope Z_scope.
Local Open Scope list_scope.

(** ** C59: files hold the global field. *)

(** Each process of a process grid, in any order, writes its part of a field; the dataset then holds the
    global field.  [data r] is the linear memory of the array of process [r], ghost cells included. *)
Theorem C59_written_field (V : Type) (nd : nat) (N dims : idx) (ng : Z) (dec : idx -> decomp) (ranks : list idx) (G : idx -> V)
  (data : idx -> Z -> V) (dataset : Z -> V) :
  decomposed nd N dims ng dec -> NoDup ranks -> (forall r, In r ranks <-> process nd dims r) ->
  holds_owned nd dims ng dec G (fun r c => data r (at3 (d_nwg (dec r)) c)) ->
  exists dataset', write_all N (fun r => mem3 nd ng (dec r)) dec ranks data dataset = Ok dataset' /\
    forall g, global_cell N g -> dataset' (at_file N g) = G g.
Proof. exact (fun D => write_field nd N dims ng dec D ranks G data dataset). Qed.
Print Assumptions C59_written_field.

(** Component [v] of a vector field with [n] components. *)
Theorem C59_written_component (V : Type) (nd : nat) (N dims : idx) (ng : Z) (dec : idx -> decomp) (ranks : list idx) (n v : Z) (G : idx -> V)
  (data : idx -> Z -> V) (dataset : Z -> V) :
  decomposed nd N dims ng dec -> 0 <= v < n -> NoDup ranks -> (forall r, In r ranks <-> process nd dims r) ->
  holds_owned nd dims ng dec G (fun r c => data r (at4 (d_nwg (dec r)) c n v)) ->
  exists dataset', write_all N (fun r => mem4 nd ng (dec r) n v) dec ranks data dataset = Ok dataset' /\
    forall g, global_cell N g -> dataset' (at_file N g) = G g.
Proof. exact (fun D => write_component nd N dims ng dec D ranks n v G data dataset). Qed.
Print Assumptions C59_written_component.

(** The regions of the processes are disjoint and cover the dataset. *)
Theorem C59_written_once (nd : nat) (N dims : idx) (ng : Z) (dec : idx -> decomp) (ranks : list idx) :
  decomposed nd N dims ng dec -> NoDup ranks -> (forall r, In r ranks <-> process nd dims r) ->
  Permutation (flat_map (fun r => positions (dset N (dec r))) ranks) (zrange 0 (kk N * jj N * ii N)).
Proof. exact (fun D => written_once nd N dims ng dec D ranks). Qed.
Print Assumptions C59_written_once.

(** A process of any process grid reads its part; nothing else of its array changes. *)
Theorem C59_read_field (V : Type) (nd : nat) (N dims : idx) (ng : Z) (dec : idx -> decomp) (G : idx -> V) (dataset : Z -> V) (r : idx) (old : Z -> V) :
  decomposed nd N dims ng dec -> (forall g, global_cell N g -> dataset (at_file N g) = G g) -> process nd dims r ->
  exists m, read_one N (mem3 nd ng (dec r)) (dec r) dataset old = Ok m /\
    (forall c, owned nd ng (d_nloc (dec r)) c -> m (at3 (d_nwg (dec r)) c) = G (global_index nd ng (corner_min (d_range (dec r))) c)) /\
    (forall c, in_array (d_nwg (dec r)) c -> ~ owned nd ng (d_nloc (dec r)) c -> m (at3 (d_nwg (dec r)) c) = old (at3 (d_nwg (dec r)) c)).
Proof. exact (fun D => read_field nd N dims ng dec D G dataset r old). Qed.
Print Assumptions C59_read_field.

Theorem C59_read_component (V : Type) (nd : nat) (N dims : idx) (ng : Z) (dec : idx -> decomp) (n v : Z) (G : idx -> V) (dataset : Z -> V) (r : idx)
  (old : Z -> V) :
  decomposed nd N dims ng dec -> 0 <= v < n -> (forall g, global_cell N g -> dataset (at_file N g) = G g) -> process nd dims r ->
  exists m, read_one N (mem4 nd ng (dec r) n v) (dec r) dataset old = Ok m /\
    (forall c, owned nd ng (d_nloc (dec r)) c -> m (at4 (d_nwg (dec r)) c n v) = G (global_index nd ng (corner_min (d_range (dec r))) c)) /\
    (forall c w, in_array (d_nwg (dec r)) c -> 0 <= w < n -> w <> v \/ ~ owned nd ng (d_nloc (dec r)) c ->
       m (at4 (d_nwg (dec r)) c n w) = old (at4 (d_nwg (dec r)) c n w)).
Proof. exact (fun D => read_component nd N dims ng dec D n v G dataset r old). Qed.
Print Assumptions C59_read_component.

(** Written on one process grid, read on another. *)
Theorem C59_other_process_grid (V : Type) (nd : nat) (N dims dims' : idx) (ng ng' : Z) (dec dec' : idx -> decomp) (ranks : list idx) (G : idx -> V)
  (data : idx -> Z -> V) (dataset : Z -> V) (old : idx -> Z -> V) :
  decomposed nd N dims ng dec -> decomposed nd N dims' ng' dec' -> NoDup ranks -> (forall r, In r ranks <-> process nd dims r) ->
  holds_owned nd dims ng dec G (fun r c => data r (at3 (d_nwg (dec r)) c)) ->
  exists dataset' new, write_all N (fun r => mem3 nd ng (dec r)) dec ranks data dataset = Ok dataset' /\
    (forall r, process nd dims' r -> read_one N (mem3 nd ng' (dec' r)) (dec' r) dataset' (old r) = Ok (new r)) /\
    holds_owned nd dims' ng' dec' G (fun r c => new r (at3 (d_nwg (dec' r)) c)).
Proof.
  intros D D' ND Hr H. destruct (C59_written_field V nd N dims ng dec ranks G data dataset D ND Hr H) as (ds & E & A).
  exists ds, (fun r => match read_one N (mem3 nd ng' (dec' r)) (dec' r) ds (old r) with Ok m => m | _ => old r end).
  split; [exact E|]. split.
  - intros r Pr. destruct (C59_read_field V nd N dims' ng' dec' G ds r (old r) D' A Pr) as (m & Em & _). now rewrite Em.
  - intros r Pr c Hc. destruct (C59_read_field V nd N dims' ng' dec' G ds r (old r) D' A Pr) as (m & Em & B & _). rewrite Em. exact (B c Hc).
Qed.
Print Assumptions C59_other_process_grid.

Example C59_example : exists dec, decomposed 2 (I3 7 5 1) (I3 3 2 1) 2 dec /\
  at_file (I3 7 5 1) (I3 3 2 0) = 17 /\ at3 (I3 6 7 1) (I3 3 2 0) = 15.
Proof. destruct decomposed_example as (dec & D & _). exists dec. split; [exact D|]. split; reflexivity. Qed.

(** ** C53: the XDMF index. *)

(** Any record, variables of the code: the indentation stays within its bounds and the file is a well-formed
    document with one grid per record.  [show] prints a double. *)
Theorem C53_well_formed (T : Type) (show : T -> string) (N : idx) (prefix : string) (nd : nat) (nfx oid : Z) (record : list (Z * T)) :
  plain prefix -> (forall r, In r record -> plain_value (show (snd r))) ->
  exists s outputs, xdmf show N prefix (var_names nd nfx) oid record = Ok s /\
    xml_document (index_tree N (var_names nd nfx) outputs) s /\
    map fst outputs = map (fun r => show (snd r)) record /\
    map snd outputs = map (get_output_filename prefix) (zrange (oid + 1 - Z.of_nat (List.length record)) (oid + 1)).
Proof.
  intros Hp Hs. destruct (index_document show N prefix nd nfx oid record Hp Hs) as (s & E & X). exists s, (outputs_of show prefix oid record).
  split; [exact E|]. split; [exact X|]. exact (outputs_of_fields show prefix oid record).
Qed.
Print Assumptions C53_well_formed.

(** In a run, the index lists exactly the files written so far, in order, with their times. *)
Theorem C53_lists_every_output (S : Type) (D : dynamics S) p clock s n m v (show : R -> string) (N : idx) (prefix : string) (nd : nat) (nfx : Z) :
  loop D p clock n (fresh p s) = (m, v) -> completed v -> plain prefix -> (forall f, In f (m_files m) -> plain_value (show (fl_t f))) ->
  exists x, xdmf show N prefix (var_names nd nfx) (m_oid m) (m_record m) = Ok x /\
    xml_document (index_tree N (var_names nd nfx) (map (fun f => (show (fl_t f), get_output_filename prefix (fl_oid f))) (m_files m))) x.
Proof. exact (fresh_index D p clock s n m v show N prefix nd nfx). Qed.
Print Assumptions C53_lists_every_output.

(** Every reference names a dataset of the output file and gives its extents (up to ten passive scalars). *)
Theorem C53_references_exist (nd : nat) (ng nfx : Z) (N : idx) (outputs : list (string * string)) (dims reference : string) :
  (1 <= nd)%nat -> nfx <= 10 -> In (dims, reference) (items (index_tree N (var_names nd nfx) outputs)) ->
  exists o name extents, In o outputs /\ In (name, extents) (file_datasets nd ng nfx N) /\
    reference = (snd o ++ ":/" ++ name)%string /\ dims = spaced extents.
Proof. exact (index_references nd ng nfx N outputs dims reference). Qed.
Print Assumptions C53_references_exist.

Example C53_example : plain "shock_tube" /\ plain_value "1.5e-05" /\
  items (index_tree (I3 4 1 1) (var_names 1 1) [("0", "a_00000000.h5")]) =
    [("5", "a_00000000.h5:/x0_ng"); ("2", "a_00000000.h5:/x1_ng"); ("2", "a_00000000.h5:/x2_ng"); ("1 1 4", "a_00000000.h5:/rho"); ("1 1 4", "a_00000000.h5:/P");
     ("1 1 4", "a_00000000.h5:/E"); ("1 1 4", "a_00000000.h5:/T"); ("1 1 4", "a_00000000.h5:/fx0"); ("1 1 4", "a_00000000.h5:/ux0")].
Proof. repeat split. right. reflexivity. Qed.

(** ** C71: after a restart the index still lists the earlier outputs.  It does not: it is replaced by one
    that lists the outputs since the restart. *)
Theorem C71_outputs_since_the_restart_partial (S : Type) (D : dynamics S) p clock f s n m v (show : R -> string) (N : idx) (prefix : string) (nd : nat) (nfx : Z) :
  loop D p clock n (restarted f s) = (m, v) -> completed v -> plain prefix -> (forall f, In f (m_files m) -> plain_value (show (fl_t f))) ->
  exists x, xdmf show N prefix (var_names nd nfx) (m_oid m) (m_record m) = Ok x /\
    xml_document (index_tree N (var_names nd nfx) (map (fun f => (show (fl_t f), get_output_filename prefix (fl_oid f))) (m_files m))) x.
Proof. exact (restart_index D p clock f s n m v show N prefix nd nfx). Qed.
Print Assumptions C71_outputs_since_the_restart_partial.

Theorem C71_earlier_outputs_dropped_refuted : exists (D : dynamics nat) p p' clock n m v f s' m' v' x t,
  loop D p clock n (fresh p 0%nat) = (m, v) /\ last_file m f /\ loop D p' clock 1 (restarted f s') = (m', v') /\
  xdmf (fun _ => "0") (I3 4 1 1) "run" (var_names 1 0) (m_oid m') (m_record m') = Ok x /\ xml_document t x /\ m_files m' <> [] /\
  forall g d r name, In g (m_files m) -> In (d, r) (items t) -> r <> (get_output_filename "run" (fl_oid g) ++ ":/" ++ name)%string.
Proof. exact restart_drops_example. Qed.
Print Assumptions C71_earlier_outputs_dropped_refuted.

(** ** C72: the index is well-formed for every output prefix.  It is for prefixes without markup characters
    (C53); nothing is escaped. *)
Theorem C72_markup_in_prefix_refuted : exists prefix record s,
  xdmf (fun _ : R => "0") (I3 4 1 1) prefix (var_names 1 0) 0 record = Ok s /\ forall t, ~ xml_document t s.
Proof. exact ampersand_example. Qed.
Print Assumptions C72_markup_in_prefix_refuted.

Theorem C72_plain_prefixes_partial (T : Type) (show : T -> string) (N : idx) (prefix : string) (nd : nat) (nfx oid : Z) (record : list (Z * T)) :
  plain prefix -> (forall r, In r record -> plain_value (show (snd r))) ->
  exists s t, xdmf show N prefix (var_names nd nfx) oid record = Ok s /\ xml_document t s.
Proof.
  intros Hp Hs. destruct (index_document show N prefix nd nfx oid record Hp Hs) as (s & E & X). eauto.
Qed.
Print Assumptions C72_plain_prefixes_partial.
