(** * Mesh: ranges, domain decomposition, kronecker helpers.  (Indices only; coordinates are in
    ModelGeom.v.) *)
From Verif Require Import Base.
Local Open Scope string_scope.
Local Open Scope Z_scope.

(** src/utils/kronecker.hpp:16-23 [kron] *)
Definition kron (a b : nat) : Z := if Nat.eqb a b then 1 else 0.

(** src/utils/kronecker.hpp:26-29 [lindex] *)
Definition lindex (a : nat) (c : idx) : idx :=
  I3 (ii c - kron a 0) (jj c - kron a 1) (kk c - kron a 2).

(** src/utils/kronecker.hpp:32-35 [rindex] *)
Definition rindex (a : nat) (c : idx) : idx :=
  I3 (ii c + kron a 0) (jj c + kron a 1) (kk c + kron a 2).

(** src/mesh/range.hpp [Range]: only the data members read by the rest of the code
    (Corner_min, Corner_max, Ng, NgEff, Nghost).  The Nc_*/Nf_* arrays filled in
    range.cpp:50-80 are read only by tests/range.cpp; see [range_nc] below. *)
Record range : Type := mkRange {
  corner_min : idx;
  corner_max : idx;
  rng_ng : Z;
  rng_ngeff : Z;
  rng_nghost : idx }.

(** range.cpp:28-32 and grid.cpp:50-58: [Nghost[d]] is [Ng] for simulated dimensions, 0 otherwise. *)
Definition nghost_of (nd : nat) (ng : Z) : idx :=
  mk3 (fun d => if Nat.ltb d nd then ng else 0).

(** src/mesh/range.cpp:23-82 [Range::Range].  The [Nghost < 2] check (lines 45-48) is commented
    out in the source, hence absent here. *)
Definition range_check (cmin cmax : idx) (d : nat) : outcome unit :=
  if ((coord d cmin <? 0) || (coord d cmax <? 0))%bool then Throw "Cmin < 0 || Cmax < 0"
  else if coord d cmax <? coord d cmin then Throw "Cmin > Cmax"
  else Ok tt.

Definition make_range (nd : nat) (cmin cmax : idx) (ng : Z) : outcome range :=
  obind (range_check cmin cmax 0) (fun _ =>
  obind (range_check cmin cmax 1) (fun _ =>
  obind (range_check cmin cmax 2) (fun _ =>
  Ok (mkRange cmin cmax ng 0 (nghost_of nd ng))))).

(** src/mesh/range.cpp:99-107 [Range::with_ghosts] *)
Definition with_ghosts (r : range) (ngeff : Z) : outcome range :=
  if rng_ng r <? ngeff then Throw "NgEff > Ng"
  else Ok (mkRange (corner_min r) (corner_max r) (rng_ng r) ngeff (rng_nghost r)).

(** src/mesh/range.cpp:89-92 [Range::no_ghosts] *)
Definition no_ghosts (r : range) : outcome range := with_ghosts r 0.

(** src/mesh/range.cpp:94-97 [Range::all_ghosts] *)
Definition all_ghosts (r : range) : outcome range := with_ghosts r (rng_ng r).

(** src/mesh/range.cpp:120-135 [cell_range]: begin and end of the iteration box. *)
Definition cell_begin (nd : nat) (r : range) : idx :=
  mk3 (fun d => if Nat.ltb d nd then coord d (rng_nghost r) - rng_ngeff r
                else coord d (rng_nghost r)).
Definition cell_end (nd : nat) (r : range) : idx :=
  mk3 (fun d => if Nat.ltb d nd
                then coord d (rng_nghost r) + coord d (corner_max r) - coord d (corner_min r)
                     + rng_ngeff r
                else coord d (rng_nghost r) + coord d (corner_max r) - coord d (corner_min r)).

(** src/mesh/range.cpp:137-141 [cell_mdrange]: the cells visited by a kernel over [r]. *)
Definition in_cells (nd : nat) (r : range) (c : idx) : bool :=
  in_boxb (cell_begin nd r) (cell_end nd r) c.

Definition cells_of (nd : nat) (r : range) : list idx :=
  box_cells (cell_begin nd r) (cell_end nd r).

(** src/mesh/range.cpp:44-81: the per-dimension cell bounds Nc_min_Xg / Nc_max_Xg (g = 0, 1, 2) and
    face bounds Nf_min_Xg / Nf_max_Xg. *)
Definition nc_min (nd : nat) (r : range) (g : Z) (d : nat) : Z :=
  if Nat.ltb d nd then coord d (rng_nghost r) - g else coord d (rng_nghost r).
Definition nc_max (nd : nat) (r : range) (g : Z) (d : nat) : Z :=
  let base := coord d (rng_nghost r) + coord d (corner_max r) - coord d (corner_min r) in
  if Nat.ltb d nd then base + g else base.
Definition nf_min (nd : nat) (r : range) (g : Z) (d : nat) : Z := nc_min nd r g d.
Definition nf_max (nd : nat) (r : range) (g : Z) (d : nat) : Z := nc_max nd r g d + 1.

(** src/mesh/grid.cpp:109-117, one dimension: cells per process and first owned cell, for process
    coordinate [r] among [p].  C++ [/] and [%] truncate: [Z.quot], [Z.rem]. *)
Definition decomp_nloc (N p r : Z) : Z :=
  let n0 := Z.quot N p in
  if r <? Z.rem N p then n0 + 1 else n0.
Definition decomp_cmin (N p r : Z) : Z :=
  let n0 := Z.quot N p in
  let cmin := n0 * r in
  if r <? Z.rem N p then cmin + r else cmin + Z.rem N p.

(** What [Grid::mpi_decomposition] leaves in the Grid object of the process at [rank]. *)
Record decomp : Type := mkDecomp {
  d_nloc : idx;                         (* Nx_local_ng *)
  d_nwg : idx;                          (* Nx_local_wg *)
  d_range : range;                      (* range *)
  d_border : nat -> bool * bool }.      (* is_border[d][0/1] *)

(** src/mesh/grid.cpp:90-132 [Grid::mpi_decomposition].  [dims] is the process grid after
    MPI_Dims_create, [rank] the Cartesian coordinates of this process; both are arbitrary inputs of
    the model.  Lines 96-98 force one process in the dimensions that are not simulated; a process
    count of zero would make lines 109 and 112 divide by zero (undefined behaviour). *)
Definition mpi_dims (nd : nat) (dims : idx) : idx :=
  mk3 (fun d => if Nat.ltb d nd then coord d dims else 1).

Definition mpi_decomposition (nd : nat) (nglob dims0 : idx) (ng : Z) (rank : idx)
  : outcome decomp :=
  let dims := mpi_dims nd dims0 in
  if ((coord 0 dims =? 0) || (coord 1 dims =? 0) || (coord 2 dims =? 0))%bool
  then UB "division by zero"
  else
  let nloc := mk3 (fun d => decomp_nloc (coord d nglob) (coord d dims) (coord d rank)) in
  let cmin := mk3 (fun d => decomp_cmin (coord d nglob) (coord d dims) (coord d rank)) in
  let nwg := mk3 (fun d => coord d nloc + 2 * coord d (nghost_of nd ng)) in
  let cmax := mk3 (fun d => coord d cmin + coord d nloc) in
  obind (make_range nd cmin cmax ng) (fun rg =>
  Ok (mkDecomp nloc nwg rg
        (fun d => (coord d rank =? 0, coord d rank =? coord d dims - 1)))).
