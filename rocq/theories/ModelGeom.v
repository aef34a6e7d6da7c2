(** * Mesh coordinates, cell sizes, face areas, cell volumes. *)
From Verif Require Import Base RBase ModelMesh.
Local Open Scope R_scope.

(** A one-dimensional Kokkos view: extent and content. *)
Record arr1 : Type := mkArr1 { a_ext : Z; a_at : Z -> R }.

(** src/mesh/grid_type.cpp:23-30 [compute_regular_mesh_1d] *)
Definition compute_regular_mesh_1d (ext ng : Z) (xmin dx : R) : arr1 :=
  mkArr1 ext (fun i => xmin + IZR (i - ng) * dx).

(** src/mesh/grid_type.cpp:48-58 [Regular::execute], direction [d]: the global coordinates have
    N + 2 ng + 1 entries (src/main.cpp:217-219). *)
Definition regular_mesh (nglob ng : Z) (xmin xmax : R) : arr1 :=
  compute_regular_mesh_1d (nglob + 2 * ng + 1) ng xmin ((xmax - xmin) / IZR nglob).

(** Kokkos::subview(x, pair(b, e)) followed by a deep_copy into a view of extent [e - b]: out-of-range
    bounds are undefined behaviour. *)
Definition subview1 (x : arr1) (b e : Z) : outcome arr1 :=
  if ((0 <=? b) && (b <=? e) && (e <=? a_ext x))%Z%bool
  then Ok (mkArr1 (e - b) (fun i => a_at x (b + i)%Z))
  else UB "subview out of range".

(** src/mesh/grid.cpp:31-35 [compute_cell_size] *)
Definition cell_size (x : arr1) : arr1 :=
  mkArr1 (a_ext x - 1) (fun i => a_at x (i + 1)%Z - a_at x i).

(** src/mesh/grid.cpp:37-44 [compute_cell_center] *)
Definition cell_center (x : arr1) : arr1 :=
  mkArr1 (a_ext x - 1) (fun i => (a_at x i + a_at x (i + 1)%Z) / 2).

(** The coordinates a process works with: [m d i] is interface [i] of direction [d], in the local
    (ghosted) numbering.  The arrays x0, x1, x2 of src/mesh/grid.hpp. *)
Definition mesh := nat -> Z -> R.

(** dx0, dx1, dx2 and x0_center, x1_center, x2_center. *)
Definition mdx (m : mesh) (d : nat) (i : Z) : R := m d (i + 1)%Z - m d i.
Definition mxc (m : mesh) (d : nat) (i : Z) : R := (m d i + m d (i + 1)%Z) / 2.

(** Compile-time geometry (CMake option Heracles++_GEOM). *)
Inductive geom : Type := Cartesian | Spherical.

(** src/mesh/geometry.cpp:32-58 [Cartesian::execute], face area of the lower face in direction [d]. *)
Definition cart_ds (m : mesh) (c : idx) (d : nat) : R :=
  let dx n := if Nat.eqb n d then 1 else mdx m n (coord n c) in
  dx 0%nat * dx 1%nat * dx 2%nat.

Definition cart_dv (m : mesh) (c : idx) : R :=
  mdx m 0 (ii c) * mdx m 1 (jj c) * mdx m 2 (kk c).

(** src/mesh/geometry.cpp:60-126 [Spherical::execute].  Faces that the kernel does not write keep the
    view's initial value 0. *)
Definition sph_dcos (m : mesh) (c : idx) : R := cos (m 1%nat (jj c)) - cos (m 1%nat (jj c + 1)%Z).

Definition sph_ds (nd : nat) (m : mesh) (c : idx) (d : nat) : R :=
  let r := m 0%nat (ii c) in
  let rp := m 0%nat (ii c + 1)%Z in
  match nd, d with
  | 1%nat, 0%nat => 4 * PI * r * r
  | 2%nat, 0%nat => 2 * PI * r * r * sph_dcos m c
  | 2%nat, 1%nat => (2 * PI / 2) * ((rp * rp) - (r * r)) * sin (m 1%nat (jj c))
  | 3%nat, 0%nat => r * r * sph_dcos m c * mdx m 2 (kk c)
  | 3%nat, 1%nat => (1 / 2) * ((rp * rp) - (r * r)) * sin (m 1%nat (jj c)) * mdx m 2 (kk c)
  | 3%nat, 2%nat => r * mdx m 0 (ii c) * mdx m 1 (jj c)
  | _, _ => 0
  end.

Definition sph_dv (nd : nat) (m : mesh) (c : idx) : R :=
  let r := m 0%nat (ii c) in
  let rp := m 0%nat (ii c + 1)%Z in
  match nd with
  | 1%nat => (4 * PI * ((rp * rp * rp) - (r * r * r))) / 3
  | 2%nat => (2 * PI / 3) * ((rp * rp * rp) - (r * r * r)) * sph_dcos m c
  | 3%nat => (1 / 3) * ((rp * rp * rp) - (r * r * r)) * sph_dcos m c * mdx m 2 (kk c)
  | _ => 0
  end.

(** src/mesh/geometry_factory.cpp: the geometry kernel of the build. *)
Definition ds (g : geom) (nd : nat) (m : mesh) (c : idx) (d : nat) : R :=
  match g with Cartesian => cart_ds m c d | Spherical => sph_ds nd m c d end.
Definition dv (g : geom) (nd : nat) (m : mesh) (c : idx) : R :=
  match g with Cartesian => cart_dv m c | Spherical => sph_dv nd m c end.

(** src/mesh/grid.cpp:134-155 [Grid::set_grid], direction [d]: the local coordinates are the slice of
    the global array starting at Corner_min. *)
Definition set_grid_1d (dec : decomp) (d : nat) (xglob : arr1) : outcome arr1 :=
  let b := coord d (corner_min (d_range dec)) in
  subview1 xglob b (b + coord d (d_nwg dec) + 1).

(** The local mesh of a process, once [set_grid_1d] succeeded in each direction. *)
Definition set_grid (dec : decomp) (xglob : nat -> arr1) : outcome mesh :=
  obind (set_grid_1d dec 0 (xglob 0%nat)) (fun x0 =>
  obind (set_grid_1d dec 1 (xglob 1%nat)) (fun x1 =>
  obind (set_grid_1d dec 2 (xglob 2%nat)) (fun x2 =>
  Ok (fun d => a_at (match d with O => x0 | S O => x1 | _ => x2 end))))).
