(** * C06-C11: ghost exchange and boundary conditions. *)
From Coq Require Import Permutation.
From Verif Require Import Base RBase ModelMesh ModelBoundary SpecBoundary ProofBoundary ProofBcOrder ProofBoundary2.
Local Open Scope string_scope.
Local Open Scope Z_scope.

(** C06: after the exchange every cell of every process's array (corners included) holds the owned value
    of the periodically wrapped global cell. *)
Theorem C06_ghost_exchange_is_periodic_extension :
  forall (A : Type) nd nglob dims ng dec (G : idx -> A) (W : world A),
    decomposed nd nglob dims ng dec -> thick nd dims ng dec ->
    holds_owned nd dims ng dec G W ->
    forall rank, (forall d, (d < 3)%nat -> 0 <= coord d rank < coord d (mpi_dims nd dims)) ->
    forall c, in_array (d_nwg (dec rank)) c ->
      sync_dims (mpi_dims nd dims) (fun r => d_nwg (dec r)) ng nd W rank c
      = G (wrap nglob (global_index nd ng (corner_min (d_range (dec rank))) c)).
Proof.
  exact (fun A nd nglob dims ng dec G W HD Ht HW => sync_periodic nd nglob dims ng dec HD G Ht W HW).
Qed.
Print Assumptions C06_ghost_exchange_is_periodic_extension.

(** C06: owned cells keep their value (whatever the widths). *)
Theorem C06_ghost_exchange_keeps_owned_cells :
  forall (A : Type) nd nglob dims ng dec (W : world A),
    decomposed nd nglob dims ng dec ->
    forall rank, (forall d, (d < 3)%nat -> 0 <= coord d rank < coord d (mpi_dims nd dims)) ->
    forall c, owned nd ng (d_nloc (dec rank)) c ->
      sync_dims (mpi_dims nd dims) (fun r => d_nwg (dec r)) ng nd W rank c = W rank c.
Proof. exact sync_keeps_owned. Qed.
Print Assumptions C06_ghost_exchange_keeps_owned_cells.

(** Not vacuous: 2D, 7 x 5 cells on 3 x 2 processes, 2 ghost layers. *)
Example C06_example : exists dec, decomposed 2 (I3 7 5 1) (I3 3 2 1) 2 dec /\ thick 2 (I3 3 2 1) 2 dec.
Proof. exact decomposed_example. Qed.

(** C07: nothing rejects subdomains thinner than the ghost layer, and their ghosts are wrong: 3 cells on
    3 processes with 2 ghost layers, field [0; 1; 2]. *)
Theorem C07_thin_subdomains_refuted :
  exists nd nglob dims ng dec (G : idx -> Z) (W : world Z) rank c,
    decomposed nd nglob dims ng dec /\ holds_owned nd dims ng dec G W /\
    (forall d, (d < 3)%nat -> 0 <= coord d rank < coord d (mpi_dims nd dims)) /\
    in_array (d_nwg (dec rank)) c /\
    sync_dims (mpi_dims nd dims) (fun r => d_nwg (dec r)) ng nd W rank c
    <> G (wrap nglob (global_index nd ng (corner_min (d_range (dec rank))) c)).
Proof. exact thin_subdomain_counterexample. Qed.
Print Assumptions C07_thin_subdomains_refuted.

(** C08: the ghost layers written by each condition, for a face of an array of extents [ext] with [ng]
    ghost layers. *)
Theorem C08_null_gradient_copies_nearest_layer :
  forall ext ng d face a c, (d < 3)%nat -> 0 <= ng <= coord d ext -> in_face ext ng d face c ->
    bc_apply NullGradient ext ng d face a c
    = a (set_coord d (match face with O => ng | _ => coord d ext - ng - 1 end) c).
Proof. exact null_gradient_value. Qed.
Print Assumptions C08_null_gradient_copies_nearest_layer.

Theorem C08_reflexive_mirrors :
  forall ext ng d face a c, (d < 3)%nat -> 0 <= ng <= coord d ext -> in_face ext ng d face c ->
    let src := a (set_coord d (match face with O => 2 * ng - 1 - coord d c
                               | _ => 2 * (coord d ext - ng) - 1 - coord d c end) c) in
    let res := bc_apply Reflexive ext ng d face a c in
    c_rho res = c_rho src /\ c_E res = c_E src /\ c_fx res = c_fx src /\
    c_rhou res d = (- c_rhou src d)%R /\ forall n, n <> d -> c_rhou res n = c_rhou src n.
Proof. exact reflexive_components. Qed.
Print Assumptions C08_reflexive_mirrors.

(** C08: nothing else is written; Periodic writes nothing at all. *)
Theorem C08_only_its_ghost_layers :
  forall b ext ng d face a c, (d < 3)%nat -> 0 <= ng <= coord d ext ->
    (~ in_face ext ng d face c -> bc_apply b ext ng d face a c = a c) /\
    bc_apply Periodic ext ng d face a c = a c.
Proof. exact (fun b ext ng d face a c Hd Hng =>
  conj (bc_apply_outside b ext ng d face a c Hd Hng) eq_refl). Qed.
Print Assumptions C08_only_its_ghost_layers.

Theorem C08_idempotent :
  forall b ext ng d face a c, (d < 3)%nat -> 0 <= ng <= coord d ext ->
    bc_apply b ext ng d face (bc_apply b ext ng d face a) c = bc_apply b ext ng d face a c.
Proof. exact bc_idempotent. Qed.
Print Assumptions C08_idempotent.

(** C08: the kernels update the array in place; whatever order the cells are visited in, the result is
    the same (no cell that is read is also written). *)
Theorem C08_no_race :
  forall b ext ng d face l a, b <> Periodic -> (d < 3)%nat ->
    Permutation l (box_cells (bc_begin ext ng d face) (bc_end ext ng d face)) ->
    forall c, run_inplace (bc_body b ext ng d face) l a c = bc_apply b ext ng d face a c.
Proof. exact bc_order_independent. Qed.
Print Assumptions C08_no_race.

Example C08_example : in_face (I3 8 5 1) 2 0 1 (I3 6 4 0) /\ 0 <= 2 <= coord 0 (I3 8 5 1)
  /\ ~ in_face (I3 8 5 1) 2 0 1 (I3 5 4 0).
Proof.
  unfold in_face, in_array. split; [split|split].
  - intros d Hd. destruct d as [|[|[|d]]]; cbn; lia.
  - cbn; lia.
  - cbn; lia.
  - intros [_ H]. cbn in H. lia.
Qed.

(** C09.  [listed nd prio l]: the words of the priority string are the faces [l] (0 = X_left, 1 = X_right,
    2 = Y_left ...).  The intended order of application is [rev l] (first listed = applied last).  It is
    obtained exactly for self-inverse listings. *)
Theorem C09_order_iff_self_inverse_partial :
  forall nd prio l, listed nd prio l -> NoDup l -> (forall f, (f < 2 * nd)%nat <-> In f l) ->
    (obind (generate_order nd prio) applied_order = Ok (rev l) <->
     forall k, (k < 2 * nd)%nat -> nth (nth k l 0%nat) l 0%nat = k).
Proof. exact applied_iff_involutive. Qed.
Print Assumptions C09_order_iff_self_inverse_partial.

(** C09: the face names; those of missing dimensions are unknown. *)
Theorem C09_face_names :
  forall nd w f, face_of_token nd w = Some f <->
    In (w, f) (firstn (match nd with 0 | 1 => 2 | 2 => 4 | 3 => 6 | _ => 4 end)
      [("X_left", 0); ("X_right", 1); ("Y_left", 2); ("Y_right", 3); ("Z_left", 4); ("Z_right", 5)])%nat.
Proof. exact face_names. Qed.
Print Assumptions C09_face_names.

(** C09 fails: a complete 2D listing applied in another order. *)
Theorem C09_priority_order_refuted :
  exists prio l, listed 2 prio l /\ NoDup l /\ (forall f, (f < 2 * 2)%nat <-> In f l) /\
    obind (generate_order 2 prio) applied_order = Ok [3; 1; 0; 2]%nat /\
    rev l = [3; 0; 2; 1]%nat.
Proof. exact priority_counterexample. Qed.
Print Assumptions C09_priority_order_refuted.

(** C09: the documented default (X before Y before Z, first = highest priority = applied last) is not what
    an empty priority gives: faces are applied in the order X_left ... Z_right, so the last one wins. *)
Theorem C09_default_order_refuted :
  forall nd, (1 <= nd)%nat ->
    obind (generate_order nd "") applied_order = Ok (seq 0 (2 * nd)) /\
    obind (generate_order nd "") applied_order <> Ok (rev (seq 0 (2 * nd))).
Proof. exact default_order_wrong. Qed.
Print Assumptions C09_default_order_refuted.

(** C09: unknown tokens and short lists are rejected ... *)
Theorem C09_unknown_or_missing_tokens_rejected :
  forall nd prio, prio <> "" ->
    (exists w, In w (firstn (2 * nd) (words prio)) /\ face_of_token nd w = None)
    \/ (List.length (words prio) < 2 * nd)%nat ->
    generate_order nd prio = Throw "boundary priority not fully defined !".
Proof. exact generate_order_rejects. Qed.
Print Assumptions C09_unknown_or_missing_tokens_rejected.

(** ... but a duplicated face is not: the order then contains an indeterminate entry. *)
Theorem C09_duplicates_rejected_refuted :
  exists prio o, generate_order 1 prio = Ok o /\ words prio = ["X_left"; "X_left"] /\
    applied_order o = UB "indeterminate face id".
Proof. exact duplicate_counterexample. Qed.
Print Assumptions C09_duplicates_rejected_refuted.

(** C09: two shipped input files use names the parser does not know; such a run is rejected. *)
Theorem C09_shipped_priority_strings_throw :
  generate_order 2 "X0_right X0_left X1_left X1_right"
  = Throw "boundary priority not fully defined !".
Proof. exact eq_refl. Qed.
Print Assumptions C09_shipped_priority_strings_throw.

(** C10: most specific key first. *)
Theorem C10_most_specific_name_wins :
  forall (cfg : string -> option string) d f,
    let face_key := "BC" ++ bc_dir d ++ bc_face f in
    let dir_key := "BC" ++ bc_dir d in
    (forall v, cfg face_key = Some v -> v <> "" -> bc_choice_face cfg d f = Ok v) /\
    (forall v, cfg face_key = None -> cfg dir_key = Some v -> v <> "" -> bc_choice_face cfg d f = Ok v) /\
    (forall v, cfg face_key = None -> cfg dir_key = None -> cfg "BC" = Some v -> v <> "" ->
       bc_choice_face cfg d f = Ok v).
Proof. exact bc_name_resolution. Qed.
Print Assumptions C10_most_specific_name_wins.

(** C10: a face is rejected exactly when the most specific key present is empty, or none is present. *)
Theorem C10_rejected_iff_not_given :
  forall (cfg : string -> option string) d f,
    (exists w, bc_choice_face cfg d f = Throw w) <->
    match cfg ("BC" ++ bc_dir d ++ bc_face f), cfg ("BC" ++ bc_dir d), cfg "BC" with
    | Some v, _, _ => v = ""
    | None, Some v, _ => v = ""
    | None, None, Some v => v = ""
    | None, None, None => True
    end.
Proof. exact bc_name_rejected. Qed.
Print Assumptions C10_rejected_iff_not_given.

Theorem C10_unknown_condition_rejected :
  forall cfg d f v, bc_choice_face cfg d f = Ok v ->
    (v = "NullGradient" /\ bc_of_config cfg d f = Ok NullGradient) \/
    (v = "Periodic" /\ bc_of_config cfg d f = Ok Periodic) \/
    (v = "Reflexive" /\ bc_of_config cfg d f = Ok Reflexive) \/
    (v <> "NullGradient" /\ v <> "Periodic" /\ v <> "Reflexive" /\
     exists w, bc_of_config cfg d f = Throw w).
Proof. exact bc_of_config_cases. Qed.
Print Assumptions C10_unknown_condition_rejected.

Example C10_example :
  let cfg k := if String.eqb k "BC" then Some "Periodic"
               else if String.eqb k "BC_X0_left" then Some "Reflexive" else None in
  bc_of_config cfg 0 0 = Ok Reflexive /\ bc_of_config cfg 0 1 = Ok Periodic.
Proof. split; reflexivity. Qed.

(** C11: exchange plus physical conditions, in any order of faces and any mix of conditions, gives every
    process the slice of the single-process result. *)
Theorem C11_boundary_update_independent_of_process_grid :
  forall nd nglob dims ng dec dec1 (G : idx -> cell) bcs order (W W1 : world cell),
    decomposed nd nglob dims ng dec -> decomposed nd nglob one_process ng dec1 ->
    thick nd dims ng dec -> faces_ok nd order ->
    holds_owned nd dims ng dec G W -> holds_owned nd one_process ng dec1 G W1 ->
    slice_of nd dims dec
      (boundary_update nd (mpi_dims nd dims) (fun r => d_nwg (dec r)) ng bcs order W)
      (boundary_update nd (mpi_dims nd one_process) (fun r => d_nwg (dec1 r)) ng bcs order W1 rank0).
Proof.
  exact (fun nd nglob dims ng dec dec1 G bcs order W W1 HD HD1 Ht =>
    boundary_slice nd nglob dims ng dec dec1 HD HD1 Ht G bcs order W W1).
Qed.
Print Assumptions C11_boundary_update_independent_of_process_grid.

Example C11_example : exists dec dec1,
  decomposed 2 (I3 7 5 1) (I3 3 2 1) 2 dec /\ thick 2 (I3 3 2 1) 2 dec /\
  decomposed 2 (I3 7 5 1) one_process 2 dec1 /\ faces_ok 2 [0; 1; 2; 3]%nat.
Proof. exact decomposed_example2. Qed.
