(** * C03, C04, C05: coordinates and cell geometry. *)
From Coquelicot Require Import Coquelicot.
From Verif Require Import Base RBase ModelMesh ModelGeom SpecMesh SpecGeom ProofGeom.
Local Open Scope R_scope.

(** C03: a process's coordinates are the slice of the global array starting at its first cell, for
    every index of its (ghosted) array; the slice never leaves the global array (the outcome is [Ok],
    not [UB]). *)
Theorem C03_local_coordinates_are_a_slice :
  forall (nd : nat) (nglob dims0 : idx) (ng : Z) (rank : idx) (dec : decomp) (xglob : nat -> arr1),
    (forall e, (e < 3)%nat -> (0 <= coord e nglob)%Z) -> (0 <= ng)%Z ->
    valid_rank (mpi_dims nd dims0) rank ->
    mpi_decomposition nd nglob dims0 ng rank = Ok dec ->
    global_coords nd nglob ng xglob ->
    exists m, set_grid dec xglob = Ok m /\
      forall d i, (d < 3)%nat ->
        m d i = a_at (xglob d) (coord d (corner_min (d_range dec)) + i)%Z.
Proof. exact set_grid_ok. Qed.
Print Assumptions C03_local_coordinates_are_a_slice.

(** C03: processes that hold the same global cell (local index plus offset) agree on its interfaces,
    size, centre, face areas and volume. *)
Theorem C03_processes_agree_on_shared_cells :
  forall nd nglob dims0 ng xglob rank rank' dec dec' m m' c c',
    (forall e, (e < 3)%nat -> (0 <= coord e nglob)%Z) -> (0 <= ng)%Z ->
    global_coords nd nglob ng xglob ->
    valid_rank (mpi_dims nd dims0) rank -> valid_rank (mpi_dims nd dims0) rank' ->
    mpi_decomposition nd nglob dims0 ng rank = Ok dec ->
    mpi_decomposition nd nglob dims0 ng rank' = Ok dec' ->
    set_grid dec xglob = Ok m -> set_grid dec' xglob = Ok m' ->
    iadd (corner_min (d_range dec)) c = iadd (corner_min (d_range dec')) c' ->
    (forall d, (d < 3)%nat ->
       m d (coord d c) = m' d (coord d c') /\
       m d (coord d c + 1)%Z = m' d (coord d c' + 1)%Z /\
       mdx m d (coord d c) = mdx m' d (coord d c') /\
       mxc m d (coord d c) = mxc m' d (coord d c')) /\
    (forall g d, ds g nd m c d = ds g nd m' c' d) /\
    (forall g, dv g nd m c = dv g nd m' c').
Proof. exact same_mesh. Qed.
Print Assumptions C03_processes_agree_on_shared_cells.

(** Not vacuous: 5 cells on 2 processes in 1D with 2 ghosts; the last owned cell of process 0 (local
    index 4) is a ghost of process 1 (local index 1). *)
Example C03_example :
  exists dec dec' m m',
    mpi_decomposition 1 (I3 5 1 1) (I3 2 1 1) 2 (I3 0 0 0) = Ok dec /\
    mpi_decomposition 1 (I3 5 1 1) (I3 2 1 1) 2 (I3 1 0 0) = Ok dec' /\
    let xg d := regular_mesh (coord d (I3 5 1 1)) (if Nat.ltb d 1 then 2 else 0) 0 1 in
    global_coords 1 (I3 5 1 1) 2 xg /\
    set_grid dec xg = Ok m /\ set_grid dec' xg = Ok m' /\
    iadd (corner_min (d_range dec)) (I3 4 0 0) = iadd (corner_min (d_range dec')) (I3 1 0 0).
Proof.
  do 4 eexists. split; [reflexivity|]. split; [reflexivity|]. cbn zeta.
  split; [intros d Hd; destruct d as [|[|[|d]]]; try reflexivity; lia|].
  split; [reflexivity|]. split; reflexivity.
Qed.

(** C04: the regular mesh covers [xmin, xmax] exactly with equal cells (ghosts included); interfaces
    increase strictly. *)
Theorem C04_regular_mesh :
  forall (n ng : Z) (xmin xmax : R), (0 < n)%Z ->
    let x := a_at (regular_mesh n ng xmin xmax) in
    x ng = xmin /\ x (ng + n)%Z = xmax /\
    (forall i, a_at (cell_size (regular_mesh n ng xmin xmax)) i = (xmax - xmin) / IZR n) /\
    (xmin < xmax -> forall i j, (i < j)%Z -> x i < x j).
Proof.
  exact (fun n ng xmin xmax Hn =>
    conj (regular_first n ng xmin xmax) (conj (regular_last n ng xmin xmax Hn)
    (conj (regular_size n ng xmin xmax)
          (fun Hx i j => regular_increasing n ng xmin xmax i j Hn Hx)))).
Qed.
Print Assumptions C04_regular_mesh.

(** C04: on any mesh, sizes are differences of interfaces and centres are equidistant from them. *)
Theorem C04_sizes_and_centres :
  forall (x : arr1) (i : Z),
    a_at (cell_size x) i = a_at x (i + 1)%Z - a_at x i /\
    a_at (cell_center x) i - a_at x i = a_at x (i + 1)%Z - a_at (cell_center x) i /\
    a_ext (cell_size x) = (a_ext x - 1)%Z /\ a_ext (cell_center x) = (a_ext x - 1)%Z /\
    forall (m : mesh) (d : nat), (forall j, m d j = a_at x j) ->
      mdx m d i = a_at (cell_size x) i /\ mxc m d i = a_at (cell_center x) i.
Proof. exact sizes_and_centres. Qed.
Print Assumptions C04_sizes_and_centres.

Example C04_example : a_at (regular_mesh 4 2 1 3) 3 = 3 / 2.
Proof. cbn. lra. Qed.

(** C05: spherical volumes and radial/polar face areas are the exact integrals.  In 1D the angular
    domain is the whole sphere, in 2D the whole turn. *)
Theorem C05_spherical_exact_integrals :
  forall (nd : nat) (m : mesh) (c : idx), (1 <= nd <= 3)%nat ->
    let r := m 0%nat (ii c) in
    let rp := m 0%nat (ii c + 1)%Z in
    let '((th, thp), (ph, php)) := sph_bounds nd m c in
    dv Spherical nd m c = sph_volume r rp th thp ph php
    /\ ds Spherical nd m c 0 = sph_area_r r th thp ph php
    /\ ((2 <= nd)%nat -> ds Spherical nd m c 1 = sph_area_th th r rp ph php).
Proof. exact spherical_exact. Qed.
Print Assumptions C05_spherical_exact_integrals.

Theorem C05_cartesian_products :
  forall (nd : nat) (m : mesh) (c : idx) (d : nat), (d < 3)%nat ->
    dv Cartesian nd m c = mdx m 0 (ii c) * mdx m 1 (jj c) * mdx m 2 (kk c) /\
    dv Cartesian nd m c = mdx m d (coord d c) * ds Cartesian nd m c d.
Proof. exact (fun nd m c d Hd => conj eq_refl (cartesian_volume_area nd m c d Hd)). Qed.
Print Assumptions C05_cartesian_products.

Theorem C05_positive :
  forall (nd : nat) (m : mesh) (c : idx), (1 <= nd <= 3)%nat ->
    (forall d, (d < 3)%nat -> m d (coord d c) < m d (coord d c + 1)%Z) ->
    (0 < dv Cartesian nd m c /\ forall d, (d < 3)%nat -> 0 < ds Cartesian nd m c d) /\
    (0 < m 0%nat (ii c) -> 0 <= m 1%nat (jj c) -> m 1%nat (jj c + 1)%Z <= PI ->
       0 < dv Spherical nd m c /\ 0 < ds Spherical nd m c 0 /\
       (0 < m 1%nat (jj c) -> (2 <= nd)%nat -> 0 < ds Spherical nd m c 1) /\
       (nd = 3%nat -> 0 < ds Spherical nd m c 2)).
Proof.
  exact (fun nd m c Hnd H => conj (cartesian_positive nd m c H)
    (fun Hr Ht Hp => spherical_positive nd m c Hnd Hr (H 0%nat ltac:(lia)) Ht
                       (H 1%nat ltac:(lia)) Hp (H 2%nat ltac:(lia)))).
Qed.
Print Assumptions C05_positive.

(** C05: the volumes of a stack of cells [a, b) along any simulated direction add up to the volume of
    the merged cell. *)
Theorem C05_volumes_add_up :
  forall g nd m d a b c, (1 <= nd <= 3)%nat -> (d < nd)%nat -> (a <= b)%Z ->
    lsum (fun i => dv g nd m (set_coord d i c)) (zrange a b)
    = dv g nd (merged m d a b) (set_coord d a c).
Proof. exact merged_volume. Qed.
Print Assumptions C05_volumes_add_up.

(** C05, the exception: the area used for the azimuthal faces of 3D spherical cells is too small by
    dr^2 dtheta / 2; it is never the exact area of a non-degenerate cell. *)
Theorem C05_azimuthal_area_is_approximate :
  (forall (m : mesh) (c : idx),
    sph_area_ph (m 0%nat (ii c)) (m 0%nat (ii c + 1)%Z) (m 1%nat (jj c)) (m 1%nat (jj c + 1)%Z)
    - ds Spherical 3 m c 2 = mdx m 0 (ii c) * mdx m 0 (ii c) * mdx m 1 (jj c) / 2) /\
  exists (m : mesh) (c : idx),
    ds Spherical 3 m c 2 <>
    sph_area_ph (m 0%nat (ii c)) (m 0%nat (ii c + 1)%Z) (m 1%nat (jj c)) (m 1%nat (jj c + 1)%Z).
Proof. exact (conj azimuthal_area_error azimuthal_area_wrong). Qed.
Print Assumptions C05_azimuthal_area_is_approximate.

Example C05_example :
  let m : mesh := fun d i => match d with 0%nat => 1 + IZR i | _ => (1 + IZR i) / 8 end in
  (forall d, (d < 3)%nat -> m d (coord d (I3 0 0 0)) < m d (coord d (I3 0 0 0) + 1)%Z) /\
  0 < m 0%nat 0%Z /\ 0 <= m 1%nat 0%Z /\ m 1%nat (0 + 1)%Z <= PI.
Proof.
  cbn zeta. pose proof PI_RGT_0. pose proof PI2_1.
  split; [|split; [lra|split; [lra|]]].
  - intros d Hd. destruct d as [|[|[|d]]]; cbn; try lra; lia.
  - replace (0 + 1)%Z with 1%Z by reflexivity. lra.
Qed.
