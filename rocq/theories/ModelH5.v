(** * Output and restart files: src/io/io.cpp:185-431, src/io/config.yaml.cpp:36-237, src/io/io_hdf5.hpp, and a run that
    starts from such a file (src/main.cpp:222-239). *)
From Coq Require Import Ascii Reals.
From Verif Require Import Base RBase ModelMesh ModelGeom ModelBoundary ModelHydro ModelScheme ModelStep ModelUtil ModelIni ModelMain
  ModelIO ModelSetup ModelParam.
Local Open Scope string_scope.
Local Open Scope Z_scope.
Local Open Scope list_scope.

(** ** Files *)

(** A dataset of doubles: its extents and its elements in row-major order.  A file: its integers and its datasets, by name
    (the attributes about the build, io.cpp:316-322, are left out). *)
Record dataset : Type := mkDataset { ds_dims : list Z; ds_at : Z -> R }.
Record h5 : Type := mkH5 { h_int : string -> option Z; h_real : string -> option dataset }.
Definition find {A : Type} (l : list (string * A)) (n : string) : option A :=
  match List.find (fun e => String.eqb (fst e) n) l with Some e => Some (snd e) | None => None end.

(** A Kokkos view of rank 3 or 4 with LayoutLeft, seen as memory. *)
Definition memory3 (ext : idx) (a : idx -> R) : Z -> R := fun k =>
  a (I3 (k mod ii ext) (k / ii ext mod jj ext) (k / ii ext / jj ext mod kk ext)).
Definition memory4 (ext : idx) (a : idx -> nat -> R) : Z -> R := fun k =>
  a (I3 (k mod ii ext) (k / ii ext mod jj ext) (k / ii ext / jj ext mod kk ext)) (Z.to_nat (k / ii ext / jj ext / kk ext)).

(** ** write_pdi (io.cpp:185-324) *)

(** config.yaml.cpp:53-80: the integers and the datasets of process 0, which replaces an older file of that name. *)
Definition replicated (nd : nat) (ng : Z) (N : idx) (X : nat -> arr1) (t gamma : R) : list (string * dataset) :=
  [("current_time", mkDataset [] (fun _ => t)); ("gamma", mkDataset [] (fun _ => gamma))] ++
  flat_map (fun d =>
    [(axis_name d, mkDataset [a_ext (X d)] (a_at (X d)));
     ((axis_name d ++ "_ng")%string, mkDataset [coord d N + 1] (fun i => a_at (X d) (i + coord d (nghost_of nd ng))))]) [0%nat; 1%nat; 2%nat].
(** Lines 81-142: one dataset, written by all processes; it is created with the extents of the mesh, filled with zeros. *)
Definition distributed (nd : nat) (N : idx) (L : layout) (memory : idx -> slab) (data : idx -> Z -> R) : outcome dataset :=
  obind (write_all N memory (l_dec L) (ranks (l_dims L)) data (fun _ => 0%R)) (fun a => Ok (mkDataset [kk N; jj N; ii N] a)).
Definition velocity_name (d : nat) : string := match d with O => "ux0" | Datatypes.S O => "ux1" | _ => "ux2" end.
Definition scalar_name (n : nat) : string := ("fx" ++ decimal (Z.of_nat n))%string.
(** Lines 143-170: only fx0 ... fx9 are declared; a selection of an undeclared dataset is an error of PDI (Decl'HDF5). *)
Definition declared_scalars : nat := 10.

Definition write_pdi (nd : nat) (ng nfx : Z) (N : idx) (L : layout) (X : nat -> arr1) (gamma : R) (T : idx -> field3)
  (f : file (idx -> pstate)) : outcome h5 :=
  let S := fl_data f in
  let ext r := d_nwg (l_dec L r) in
  let field3 name (a : idx -> idx -> R) :=
    obind (distributed nd N L (fun r => mem3 nd ng (l_dec L r)) (fun r => memory3 (ext r) (a r))) (fun x => Ok (name, x)) in
  let field4 name n (v : nat) (a : idx -> idx -> nat -> R) :=
    obind (distributed nd N L (fun r => mem4 nd ng (l_dec L r) n (Z.of_nat v)) (fun r => memory4 (ext r) (a r))) (fun x => Ok (name, x)) in
  obind (omap (fun d => field4 (velocity_name d) (Z.of_nat nd) d (fun r => s_u (S r))) (seq 0 nd)) (fun us =>
  obind (field3 "rho" (fun r c => c_rho (s_cell (S r) c))) (fun rho =>
  obind (field3 "P" (fun r => s_P (S r))) (fun P =>
  obind (field3 "E" (fun r c => c_E (s_cell (S r) c))) (fun E =>
  obind (field3 "T" T) (fun T' =>
  obind (omap (fun n => if (n <? declared_scalars)%nat
                        then field4 (scalar_name n) nfx n (fun r c => c_fx (s_cell (S r) c))
                        else Throw "PDI: dataset selection of an undeclared dataset") (seq 0 (Z.to_nat nfx))) (fun fxs =>
  Ok (mkH5 (find [("output_id", fl_oid f); ("iter_output_id", fl_iid f); ("time_output_id", fl_tid f); ("iter", fl_iter f)])
           (find (replicated nd ng N X (fl_t f) gamma ++ us ++ [rho; P; E; T'] ++ fxs))))))))).

(** ** read_pdi (io.cpp:326-431) *)

(** What the program has of a restart: the counters, the time, the coordinates, and the arrays of one process. *)
Record restart_data : Type := mkRestart {
  rs_oid : Z; rs_iid : Z; rs_tid : Z; rs_iter : Z; rs_t : R; rs_x : nat -> arr1;
  rs_rho : field3; rs_u : field4; rs_P : field3; rs_fx : field4 }.

(** H5Dopen, H5Dread of something that is not there; a dataset of another rank. *)
Definition need {A : Type} (x : option A) : outcome A :=
  match x with Some a => Ok a | None => Throw "HERACLES++ error: creating h5 id failed" end.
Definition scalar (x : option dataset) : outcome R :=
  obind (need x) (fun d => match ds_dims d with [] => Ok (ds_at d 0) | _ => Throw "HDF5 error: selections" end).
(** io_hdf5.hpp:52-68 *)
Definition check_extent_dset (h : h5) (name : string) (n : Z) : outcome dataset :=
  obind (need (h_real h name)) (fun d =>
  match ds_dims d with
  | [k] => if k =? n then Ok d else Throw "HERACLES++ error: Extents do not match"
  | _ => Throw "HERACLES++ error: Expecting a 1d dataset"
  end).
(** config.yaml.cpp:172-237: process [r] reads the part of the dataset it would have written into the interior of its array; the
    extents of the dataset are those in the file. *)
Definition part (dec : decomp) (d : dataset) : slab :=
  mkSlab (ds_dims d) [kk (corner_min (d_range dec)); jj (corner_min (d_range dec)); ii (corner_min (d_range dec))]
         [kk (d_nloc dec); jj (d_nloc dec); ii (d_nloc dec)].
Definition fetch (h : h5) (dec : decomp) (name : string) (memory : slab) (old : Z -> R) : outcome (Z -> R) :=
  obind (need (h_real h name)) (fun d => transfer (part dec d) memory (ds_at d) old).
Definition fetch_all (h : h5) (nd : nat) (ng : Z) (dec : decomp) (name : nat -> string) (n : nat) : outcome (Z -> R) :=
  fold_left (fun m v => obind m (fetch h dec (name v) (mem4 nd ng dec (Z.of_nat n) (Z.of_nat v)))) (seq 0 n) (Ok (fun _ => 0%R)).
Definition read_pdi (nd : nat) (ng nfx : Z) (N : idx) (dec : decomp) (h : h5) : outcome restart_data :=
  let ext := d_nwg dec in
  let size d := coord d N + 2 * coord d (nghost_of nd ng) + 1 in
  obind (check_extent_dset h "x0" (size 0%nat)) (fun x0 =>
  obind (check_extent_dset h "x1" (size 1%nat)) (fun x1 =>
  obind (check_extent_dset h "x2" (size 2%nat)) (fun x2 =>
  obind (need (h_int h "output_id")) (fun oid =>
  obind (need (h_int h "iter_output_id")) (fun iid =>
  obind (need (h_int h "time_output_id")) (fun tid =>
  obind (need (h_int h "iter")) (fun iter =>
  obind (scalar (h_real h "current_time")) (fun t =>
  obind (fetch h dec "rho" (mem3 nd ng dec) (fun _ => 0%R)) (fun rho =>
  obind (fetch_all h nd ng dec velocity_name nd) (fun u =>
  obind (fetch h dec "P" (mem3 nd ng dec) (fun _ => 0%R)) (fun P =>
  obind (fetch_all h nd ng dec scalar_name (Z.to_nat nfx)) (fun fx =>
  let x d := match d with O => x0 | 1%nat => x1 | _ => x2 end in
  Ok (mkRestart oid iid tid iter t (fun d => mkArr1 (size d) (ds_at (x d)))
        (fun c => rho (ModelIO.at3 ext c)) (fun c d => u (ModelIO.at4 ext c (Z.of_nat nd) (Z.of_nat d)))
        (fun c => P (ModelIO.at3 ext c)) (fun c n => fx (ModelIO.at4 ext c nfx (Z.of_nat n)))))))))))))))).

(** ** A restarted run *)

(** The arrays after read_pdi (all others are zero) and the gravity object of line 241. *)
Definition read_state (K : ModelStep.config) (L : layout) (D : idx -> restart_data) : idx -> pstate := fun r =>
  let a := fun r' c => mkCell (rs_rho (D r') c) (fun _ => 0%R) 0%R (rs_fx (D r') c) in
  mkState (a r) (rs_u (D r)) (rs_P (D r)) zero_rec (fun _ => zero_cell) (gravity_values K L a r).
(** Every process of [l] succeeds, or the first error. *)
Definition all_ok {A : Type} (f : idx -> outcome A) (l : list idx) : outcome unit := obind (omap f l) (fun _ => Ok tt).

(** Coordinates of a restarted run. *)
Definition layout_with (b : build) (dims : idx) (runs : idx -> run) (X : nat -> arr1) : layout :=
  mkLayout (mpi_dims (b_nd b) dims) (fun r => r_dec (runs r))
    (fun r => match set_grid (r_dec (runs r)) X with Ok m => m | _ => fun _ _ => 0%R end).
(** The restarts composed here, as [composed]. *)
Definition composed_restart (r : run) : bool :=
  let p := r_param r in
  match r_grid r with None => true | Some _ => false end && forallb is_builtin (r_bcs r) && is_builtin (r_user r) &&
  negb (r_shift r) &&
  forallb finite_number [pm_t_end p; pm_cfl p; pm_time_freq p; pm_time_first p; pm_gx0 p; pm_gx1 p; pm_gx2 p; pm_M p; pm_eps_pf p].

(** [disk]: the files that can be opened.  None: not composed here. *)
Definition restart_program (b : build) (dims : idx) (file : option bytes) (disk : string -> option h5) (clock : Z -> bool) (n : nat)
  : outcome (option (mstate (idx -> pstate) * verdict)) :=
  obind (startup b dims (I3 0 0 0) file) (fun r0 =>
  if negb (composed_restart r0) then Ok None else
  let p := r_param r0 in
  let runs := program_runs b dims file r0 in
  let nd := b_nd b in
  obind (need (disk (pm_restart_file p))) (fun h =>
  let reads r := read_pdi nd (pm_ng p) (pm_nfx p) (extents p) (r_dec (runs r)) h in
  obind (all_ok reads (ranks (mpi_dims nd dims))) (fun _ =>
  obind (reads (I3 0 0 0)) (fun d0 =>
  let D r := match reads r with Ok d => d | _ => d0 end in
  let K := config_of b r0 in
  let L := layout_with b dims runs (rs_x d0) in
  let st := init_state K L (read_state K L D) in
  let f := mkFile (rs_oid d0) (rs_iid d0) (rs_tid d0) (rs_iter d0) (rs_t d0) st in
  Ok (Some (loop (hydro K L (value_of (pm_cfl p))) (params_of r0) clock n (restarted f st))))))).

(** The files a run leaves: io.cpp:207, 317 (name), one per call of write_pdi; a later file replaces an earlier one of that
    name.  [T]: the temperatures, which a restart does not read. *)
Definition path_of (p : param) (oid : Z) : string := (pm_directory p ++ "/" ++ get_output_filename (pm_prefix p) oid)%string.
Definition disk_after (b : build) (p : param) (L : layout) (X : nat -> arr1) (gamma : R) (T : file (idx -> pstate) -> idx -> field3)
  (files : list (file (idx -> pstate))) : string -> option h5 :=
  fold_left (fun d f => fun name =>
    if String.eqb (path_of p (fl_oid f)) name
    then match write_pdi (b_nd b) (pm_ng p) (pm_nfx p) (extents p) L X gamma (T f) f with Ok h => Some h | _ => None end
    else d name) files (fun _ => None).
