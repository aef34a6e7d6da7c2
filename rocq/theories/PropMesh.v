(** * C01, C02: domain decomposition and cell ranges. *)
From Verif Require Import Base ModelMesh SpecMesh ProofMesh.
Local Open Scope Z_scope.

(** C01, first half: every cell of the global mesh is owned by exactly one process, and processes
    own nothing else.  [dims0] is the requested process grid; in a dimension that is not simulated
    there is one process. *)
Theorem C01_every_cell_has_one_owner :
  forall (nd : nat) (nglob dims0 : idx) (ng : Z),
    (forall d, (d < 3)%nat -> 0 <= coord d nglob) ->
    (forall d, (d < 3)%nat -> 1 <= coord d (mpi_dims nd dims0)) ->
    (forall g, global_cell nglob g ->
      exists rank, valid_rank (mpi_dims nd dims0) rank
        /\ (exists dec, mpi_decomposition nd nglob dims0 ng rank = Ok dec
                        /\ in_block (corner_min (d_range dec)) (d_nloc dec) g)
        /\ forall rank' dec', valid_rank (mpi_dims nd dims0) rank' ->
             mpi_decomposition nd nglob dims0 ng rank' = Ok dec' ->
             in_block (corner_min (d_range dec')) (d_nloc dec') g -> rank' = rank) /\
    (forall rank dec g, valid_rank (mpi_dims nd dims0) rank ->
       mpi_decomposition nd nglob dims0 ng rank = Ok dec ->
       in_block (corner_min (d_range dec)) (d_nloc dec) g -> global_cell nglob g).
Proof.
  exact (fun nd nglob dims0 ng Hn Hp =>
    conj (fun g => owner_unique_3d nd nglob dims0 ng g Hn Hp)
         (fun rank dec g Hr Hd => owned_cells_are_global nd nglob dims0 ng rank dec g Hn Hr Hd)).
Qed.
Print Assumptions C01_every_cell_has_one_owner.

(** C01, second half: along each dimension the blocks are consecutive intervals in rank order,
    starting at 0 and ending at N, of sizes differing by at most one, and the border flags identify
    exactly the first and the last process. *)
Theorem C01_blocks_consecutive_balanced_and_flagged :
  forall (nd : nat) (nglob dims0 : idx) (ng : Z),
    (forall d, (d < 3)%nat -> 0 <= coord d nglob) ->
    (forall d, (d < 3)%nat -> 1 <= coord d (mpi_dims nd dims0)) ->
    exists dec : idx -> decomp,
      (forall rank, valid_rank (mpi_dims nd dims0) rank ->
         mpi_decomposition nd nglob dims0 ng rank = Ok (dec rank)) /\
      (forall rank d, valid_rank (mpi_dims nd dims0) rank -> (d < 3)%nat ->
         let b := coord d (corner_min (d_range (dec rank))) in
         let n := coord d (d_nloc (dec rank)) in
         0 <= n
         /\ coord d (corner_max (d_range (dec rank))) = b + n
         /\ (coord d rank = 0 -> b = 0)
         /\ (coord d rank = coord d (mpi_dims nd dims0) - 1 -> b + n = coord d nglob)
         /\ (forall rank', valid_rank (mpi_dims nd dims0) rank' ->
               coord d rank' = coord d rank + 1 ->
               coord d (corner_min (d_range (dec rank'))) = b + n)
         /\ (forall rank', valid_rank (mpi_dims nd dims0) rank' ->
               Z.abs (coord d (d_nloc (dec rank')) - n) <= 1)
         /\ (fst (d_border (dec rank) d) = true <-> coord d rank = 0)
         /\ (snd (d_border (dec rank) d) = true <->
               coord d rank = coord d (mpi_dims nd dims0) - 1)
         /\ coord d (d_nwg (dec rank))
            = n + 2 * (if Nat.ltb d nd then ng else 0)).
Proof. exact decomposition_blocks. Qed.
Print Assumptions C01_blocks_consecutive_balanced_and_flagged.

(** Not vacuous: 10 x 7 cells on a 3 x 2 process grid in 2D. *)
Example C01_example :
  let dims := I3 3 2 5 in
  mpi_dims 2 dims = I3 3 2 1 /\ valid_rank (mpi_dims 2 dims) (I3 2 1 0)
  /\ (match mpi_decomposition 2 (I3 10 7 1) dims 2 (I3 2 1 0) with
      | Ok dec => (d_nloc dec, corner_min (d_range dec), d_nwg dec,
                   d_border dec 0, d_border dec 1)
      | _ => (I3 0 0 0, I3 0 0 0, I3 0 0 0, (true, true), (true, true))
      end) = (I3 3 3 1, I3 7 4 0, I3 7 7 1, (false, true), (false, true)).
Proof.
  cbn zeta. repeat split; try (vm_compute; reflexivity);
  destruct d as [|[|[|d]]]; cbn in *; try lia.
Qed.

(** C02: constructing a range throws exactly on a negative or reversed corner (and has no other
    failure). *)
Theorem C02_range_construction :
  forall (nd : nat) (cmin cmax : idx) (ng : Z),
    ((exists r, make_range nd cmin cmax ng = Ok r) \/
     (exists w, make_range nd cmin cmax ng = Throw w)) /\
    ((exists w, make_range nd cmin cmax ng = Throw w) <->
     exists d, (d < 3)%nat /\
       (coord d cmin < 0 \/ coord d cmax < 0 \/ coord d cmax < coord d cmin)).
Proof.
  exact (fun nd cmin cmax ng =>
    conj (make_range_not_ub nd cmin cmax ng) (make_range_throw_iff nd cmin cmax ng)).
Qed.
Print Assumptions C02_range_construction.

(** C02: [with_ghosts g] throws exactly when [g] exceeds the allocated layers. *)
Theorem C02_with_ghosts_throws_iff :
  forall nd cmin cmax ng r g, make_range nd cmin cmax ng = Ok r ->
    ((exists w, with_ghosts r g = Throw w) <-> ng < g) /\
    (g <= ng -> exists rg, with_ghosts r g = Ok rg).
Proof. exact with_ghosts_outcomes. Qed.
Print Assumptions C02_with_ghosts_throws_iff.

(** C02: the cells a kernel visits.  Local array index [ng] is the first owned cell in a simulated
    dimension, [0] in the others.  [g = 0] is [no_ghosts], [g = ng] is [all_ghosts]. *)
Theorem C02_range_enumerates_exactly :
  forall nd cmin cmax ng r g rg,
    make_range nd cmin cmax ng = Ok r -> with_ghosts r g = Ok rg ->
    NoDup (cells_of nd rg) /\
    forall c, In c (cells_of nd rg) <->
      forall d, (d < 3)%nat ->
        if Nat.ltb d nd
        then ng - g <= coord d c < ng + (coord d cmax - coord d cmin) + g
        else 0 <= coord d c < coord d cmax - coord d cmin.
Proof.
  exact (fun nd cmin cmax ng r g rg Hr Hg =>
    conj (cells_of_NoDup nd rg) (fun c => cells_with_ghosts nd cmin cmax ng r g rg c Hr Hg)).
Qed.
Print Assumptions C02_range_enumerates_exactly.

(** C02: [no_ghosts] visits the owned cells; [all_ghosts] visits every cell of the allocated
    array, whose extent is (cells + 2 ng) in simulated dimensions and (cells) in the others. *)
Theorem C02_no_ghosts_and_all_ghosts :
  forall nd cmin cmax ng r, make_range nd cmin cmax ng = Ok r -> 0 <= ng ->
    (exists r0, no_ghosts r = Ok r0 /\ forall c, In c (cells_of nd r0) <->
       forall d, (d < 3)%nat ->
         if Nat.ltb d nd then ng <= coord d c < ng + (coord d cmax - coord d cmin)
         else 0 <= coord d c < coord d cmax - coord d cmin) /\
    (exists ra, all_ghosts r = Ok ra /\ forall c, In c (cells_of nd ra) <->
       forall d, (d < 3)%nat ->
         0 <= coord d c < coord d cmax - coord d cmin + (if Nat.ltb d nd then 2 * ng else 0)).
Proof. exact no_all_ghosts_cells. Qed.
Print Assumptions C02_no_ghosts_and_all_ghosts.

Example C02_example :
  exists r r1, make_range 2 (I3 3 0 0) (I3 5 2 1) 2 = Ok r /\ with_ghosts r 1 = Ok r1 /\
    List.length (cells_of 2 r1) = 16%nat /\ In (I3 1 4 0) (cells_of 2 r1) /\
    ~ In (I3 0 2 0) (cells_of 2 r1) /\ with_ghosts r 3 = Throw "NgEff > Ng".
Proof.
  eexists; eexists. split; [vm_compute; reflexivity|]. split; [vm_compute; reflexivity|].
  split; [vm_compute; reflexivity|]. split; [vm_compute; tauto|]. split.
  - vm_compute. intuition discriminate.
  - reflexivity.
Qed.
