(** * Output files: distributed datasets (src/io/io.cpp, src/io/config.yaml.cpp) and the XDMF index. *)
From Coq Require Import Ascii.
From Verif Require Import Base RBase ModelMesh ModelGeom ModelMain.
Local Open Scope string_scope.
Local Open Scope Z_scope.
Local Open Scope list_scope.

(** ** Hyperslabs

    Arrays are linear memory.  PDI and HDF5 number the elements of an array of extents [dims] in row-major
    order (last index fastest). *)
Fixpoint row_major (dims : list Z) (idxs : list Z) (acc : Z) : Z :=
  match dims, idxs with
  | n :: dims', i :: idxs' => row_major dims' idxs' (acc * n + i)
  | _, _ => acc
  end.
(** Kokkos::LayoutLeft (src/utils/kokkos_shortcut.hpp:29-58): first index fastest. *)
Fixpoint layout_left (exts : list Z) (idxs : list Z) : Z :=
  match exts, idxs with
  | n :: exts', i :: idxs' => i + n * layout_left exts' idxs'
  | _, _ => 0
  end.

(** The elements of a selection, in the order in which HDF5 visits them. *)
Fixpoint selection (start size : list Z) : list (list Z) :=
  match start, size with
  | s :: start', n :: size' => flat_map (fun i => map (fun l => (s + i) :: l) (selection start' size')) (zrange 0 n)
  | _, _ => [[]]
  end.
Fixpoint fits (dims start size : list Z) : bool :=
  match dims, start, size with
  | [], [], [] => true
  | n :: dims', s :: start', k :: size' => ((0 <=? s) && (0 <=? k) && (s + k <=? n) && fits dims' start' size')%bool
  | _, _, _ => false
  end.

Record slab : Type := mkSlab { sl_dims : list Z; sl_start : list Z; sl_size : list Z }.
Definition positions (s : slab) : list Z := map (fun l => row_major (sl_dims s) l 0) (selection (sl_start s) (sl_size s)).

(** H5Dwrite / H5Dread between the selections [from] and [to]: the k-th selected element of one goes to the
    k-th of the other; selections of different sizes or outside the extents are errors. *)
Definition transfer {V : Type} (from to : slab) (src dst : Z -> V) : outcome (Z -> V) :=
  if (negb (fits (sl_dims from) (sl_start from) (sl_size from)) || negb (fits (sl_dims to) (sl_start to) (sl_size to))
      || negb (Nat.eqb (List.length (positions from)) (List.length (positions to))))%bool
  then Throw "HDF5 error: selections"
  else Ok (fold_left (fun a pq => fun k => if k =? snd pq then src (fst pq) else a k)
                     (combine (positions from) (positions to)) dst).

(** config.yaml.cpp:36-48 (data), 84-90 (datasets), 92-142 (write) and 176-221 (read): the selections, with
    [nx_local_ng], [nx_local_wg], [n_ghost], [start] exposed by write_pdi_init (io.cpp:141-183). *)
Definition mem3 (nd : nat) (ng : Z) (dec : decomp) : slab :=
  mkSlab [kk (d_nwg dec); jj (d_nwg dec); ii (d_nwg dec)]
         [kk (nghost_of nd ng); jj (nghost_of nd ng); ii (nghost_of nd ng)]
         [kk (d_nloc dec); jj (d_nloc dec); ii (d_nloc dec)].
(** component [v] of an array with [n] components *)
Definition mem4 (nd : nat) (ng : Z) (dec : decomp) (n v : Z) : slab :=
  mkSlab [n; kk (d_nwg dec); jj (d_nwg dec); ii (d_nwg dec)]
         [v; kk (nghost_of nd ng); jj (nghost_of nd ng); ii (nghost_of nd ng)]
         [1; kk (d_nloc dec); jj (d_nloc dec); ii (d_nloc dec)].
Definition dset (nglob : idx) (dec : decomp) : slab :=
  mkSlab [kk nglob; jj nglob; ii nglob]
         [kk (corner_min (d_range dec)); jj (corner_min (d_range dec)); ii (corner_min (d_range dec))]
         [kk (d_nloc dec); jj (d_nloc dec); ii (d_nloc dec)].

(** The collective write of one dataset by the processes [ranks] (in some order), and the read by one
    process. *)
Fixpoint write_all {V : Type} (nglob : idx) (memory : idx -> slab) (dec : idx -> decomp) (ranks : list idx)
  (data : idx -> Z -> V) (dataset : Z -> V) : outcome (Z -> V) :=
  match ranks with
  | [] => Ok dataset
  | r :: ranks' =>
      obind (transfer (memory r) (dset nglob (dec r)) (data r) dataset) (write_all nglob memory dec ranks' data)
  end.
Definition read_one {V : Type} (nglob : idx) (memory : slab) (dec : decomp) (dataset old : Z -> V) : outcome (Z -> V) :=
  transfer (dset nglob dec) memory dataset old.

(** Element (i,j,k) of a rank-3 view and (i,j,k,v) of a rank-4 view in linear memory. *)
Definition at3 (ext c : idx) : Z := layout_left [ii ext; jj ext; kk ext] [ii c; jj c; kk c].
Definition at4 (ext c : idx) (n v : Z) : Z := layout_left [ii ext; jj ext; kk ext; n] [ii c; jj c; kk c; v].
(** Element (g2,g1,g0) of a dataset. *)
Definition at_file (nglob g : idx) : Z := row_major [kk nglob; jj nglob; ii nglob] [kk g; jj g; ii g] 0.

(** The datasets of an output file with their extents: config.yaml.cpp:60-80 (replicated, written by rank 0),
    84-145 (distributed; [ux1], [ux2] only for ndim > 1, > 2), 146-170 (passive scalars; only fx0 ... fx9 are
    declared). *)
Definition axis_name (d : nat) : string := match d with O => "x0" | Datatypes.S O => "x1" | _ => "x2" end.
Definition file_datasets (nd : nat) (ng nfx : Z) (nglob : idx) : list (string * list Z) :=
  map (fun n => (n, [])) ["output_id"; "iter_output_id"; "time_output_id"; "iter"; "current_time"; "gamma"]
  ++ flat_map (fun d => [(axis_name d, [coord d nglob + 2 * coord d (nghost_of nd ng) + 1]);
                         ((axis_name d ++ "_ng")%string, [coord d nglob + 1])]) [0%nat; 1%nat; 2%nat]
  ++ map (fun n => (n, [kk nglob; jj nglob; ii nglob]))
       (["rho"; "P"; "E"; "T"; "ux0"] ++ (if Nat.ltb 1 nd then ["ux1"] else []) ++ (if Nat.ltb 2 nd then ["ux2"] else [])
        ++ map (fun k => ("fx" ++ decimal k)%string) (zrange 0 (Z.min nfx 10))).

(** ** The XDMF index (io.cpp:433-566) *)

(** io.cpp:76-122 [IndentFn] with its default arguments. *)
Definition max_level : nat := 10.
Definition indent_width : nat := 2.
Fixpoint spaces (n : nat) : string := match n with O => "" | Datatypes.S n' => String " " (spaces n') end.
Definition push (l : nat) : outcome nat := if Nat.eqb l max_level then Throw "Level out of bound" else Ok (Datatypes.S l).
Definition pop (l : nat) : outcome nat := match l with O => Throw "Level out of bound" | Datatypes.S l' => Ok l' end.

(** The statements of the writer: change the indentation, or print the indentation and a line. *)
Inductive xcmd : Type := Push | Pop | Line (s : string).
Definition newline : string := String "010" "".
Fixpoint xrun (p : list xcmd) (l : nat) : outcome (string * nat) :=
  match p with
  | [] => Ok ("", l)
  | Push :: p' => obind (push l) (fun l' => xrun p' l')
  | Pop :: p' => obind (pop l) (fun l' => xrun p' l')
  | Line s :: p' =>
      obind (xrun p' l) (fun r => Ok ((spaces (indent_width * l) ++ s ++ newline ++ fst r)%string, snd r))
  end.

Definition quote : string := String """" "".
Definition attr (name value : string) : string := (" " ++ name ++ "=" ++ quote ++ value ++ quote)%string.

(** io.cpp:433-446: the variables listed *)
Definition var_names (nd : nat) (nfx : Z) : list string :=
  ["rho"; "P"; "E"; "T"] ++ map (fun k => ("fx" ++ decimal k)%string) (zrange 0 nfx) ++ firstn nd ["ux0"; "ux1"; "ux2"].

(** lines 514-528, direction [d] *)
Definition axis_cmds (nglob : idx) (fname : string) (d : nat) : list xcmd :=
  [Push;
   Line ("<DataItem" ++ attr "NumberType" "Float" ++ attr "Precision" "8"
         ++ attr "Dimensions" (decimal (coord d nglob + 1)) ++ attr "Format" "HDF" ++ ">")%string;
   Push;
   Line (fname ++ ":/" ++ match d with O => "x0_ng" | Datatypes.S O => "x1_ng" | _ => "x2_ng" end)%string;
   Pop; Line "</DataItem>"; Pop].
Definition three (f : nat -> Z) : string := (decimal (f 2%nat) ++ " " ++ decimal (f 1%nat) ++ " " ++ decimal (f 0%nat))%string.
(** lines 532-557 *)
Definition var_cmds (nglob : idx) (fname var : string) : list xcmd :=
  [Line ("<Attribute" ++ attr "Center" "Cell" ++ attr "Name" var ++ attr "AttributeType" "Scalar" ++ ">")%string;
   Push;
   Line ("<DataItem" ++ attr "NumberType" "Float" ++ attr "Precision" "8"
         ++ attr "Dimensions" (three (fun d => coord d nglob)) ++ attr "Format" "HDF" ++ ">")%string;
   Push; Line (fname ++ ":/" ++ var)%string; Pop; Line "</DataItem>"; Pop; Line "</Attribute>"].
(** lines 479-562: one recorded output; [time] is the printed time, [fname] the file *)
Definition grid_cmds (nglob : idx) (vars : list string) (time fname : string) : list xcmd :=
  [Push; Line ("<Grid" ++ attr "Name" "output" ++ attr "GridType" "Uniform" ++ ">")%string;
   Push; Line ("<Time" ++ attr "Value" time ++ "/>")%string;
   Line ("<Topology" ++ attr "TopologyType" "3DRectMesh" ++ attr "Dimensions" (three (fun d => coord d nglob + 1)) ++ "/>")%string;
   Line ("<Geometry" ++ attr "GeometryType" "VXVYVZ" ++ ">")%string]
  ++ flat_map (axis_cmds nglob fname) [0%nat; 1%nat; 2%nat]
  ++ [Line "</Geometry>"] ++ flat_map (var_cmds nglob fname) vars ++ [Pop; Line "</Grid>"; Pop].

(** lines 448-566.  [show] is operator<< for double; [record] is outputs_record, [output_id] the last number.
    The extents of x0_glob ... are nx_glob + 2 Nghost + 1 (main.cpp:217-219), so the printed ones are
    nx_glob + 1. *)
Definition xdmf_cmds {T : Type} (show : T -> string) (nglob : idx) (prefix : string) (vars : list string) (output_id : Z)
  (record : list (Z * T)) : list xcmd :=
  let first := output_id + 1 - Z.of_nat (List.length record) in
  [Line ("<?xml version=" ++ quote ++ "1.0" ++ quote ++ "?>")%string;
   Line ("<!DOCTYPE Xdmf SYSTEM " ++ quote ++ "Xdmf.dtd" ++ quote ++ " []>")%string;
   Line ("<Xdmf" ++ attr "Version" "2.0" ++ ">")%string;
   Push; Line "<Domain>"; Push;
   Line ("<Grid" ++ attr "Name" "TimeSeries" ++ attr "GridType" "Collection" ++ attr "CollectionType" "Temporal" ++ ">")%string]
  ++ flat_map (fun ir => grid_cmds nglob vars (show (snd (snd ir))) (get_output_filename prefix (first + Z.of_nat (fst ir))))
       (combine (seq 0 (List.length record)) record)
  ++ [Line "</Grid>"; Pop; Line "</Domain>"; Pop; Line "</Xdmf>"].

Definition xdmf {T : Type} (show : T -> string) (nglob : idx) (prefix : string) (vars : list string) (output_id : Z)
  (record : list (Z * T)) : outcome string :=
  obind (xrun (xdmf_cmds show nglob prefix vars output_id record) 0) (fun r => Ok (fst r)).
