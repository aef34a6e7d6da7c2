(** * Witnesses and corollaries for PropBoundary.v. *)
From Verif Require Import Base RBase ModelMesh ModelBoundary SpecMesh SpecBoundary ProofBase ProofMesh ProofBoundary ProofBcOrder.
From Coq Require Import ZifyBool ZifyNat.
Local Open Scope string_scope.
Local Open Scope Z_scope.

Lemma sync_keeps_owned (A : Type) nd nglob dims ng dec (W : world A) :
  decomposed nd nglob dims ng dec ->
  forall rank, (forall d, (d < 3)%nat -> 0 <= coord d rank < coord d (mpi_dims nd dims)) ->
  forall c, owned nd ng (d_nloc (dec rank)) c ->
    sync_dims (mpi_dims nd dims) (fun r => d_nwg (dec r)) ng nd W rank c = W rank c.
Proof.
  intros HD rank Hr c Hc. pose proof (dcp_nd HD).
  apply (sync_dims_owned_k nd nglob dims ng dec HD (W rank) nd W rank c (le_n _) Hr).
  intros d Hd. specialize (Hc d ltac:(lia)).
  rewrite (dec_nwg _ _ _ _ _ HD), <- (dec_nloc _ _ _ _ _ HD) by (assumption || lia).
  rewrite (ghosts_lt nd ng) in * by assumption. lia.
Qed.

(** The decomposition function of a valid process grid. *)
Definition decs nd nglob dims ng : idx -> decomp := decomp_of nd nglob (mpi_dims nd dims) ng.

Lemma decs_decomposed nd nglob dims ng : (1 <= nd <= 3)%nat -> 0 <= ng ->
  (forall d, (d < 3)%nat -> 1 <= coord d nglob) ->
  (forall d, (d < 3)%nat -> 1 <= coord d (mpi_dims nd dims)) ->
  decomposed nd nglob dims ng (decs nd nglob dims ng).
Proof.
  intros H1 H2 H3 H4. split; auto. intros rank Hr. apply mpi_decomposition_ok; auto.
  intros d Hd. specialize (H3 d Hd). lia.
Qed.

(** The subdomains are thick enough iff N / p >= ng in each simulated direction. *)
Lemma decs_thick nd nglob dims ng : (1 <= nd <= 3)%nat -> 0 <= ng ->
  (forall d, (d < 3)%nat -> 1 <= coord d nglob) ->
  (forall d, (d < 3)%nat -> 1 <= coord d (mpi_dims nd dims)) ->
  (forall d, (d < nd)%nat -> ng <= coord d nglob / coord d (mpi_dims nd dims)) ->
  thick nd dims ng (decs nd nglob dims ng).
Proof.
  intros H1 H2 H3 H4 H5 rank Hr d Hd. unfold decs, decomp_of. cbn [d_nloc].
  rewrite coord_mk3 by lia. rewrite (nloc_eq (coord d nglob) (coord d (mpi_dims nd dims)) ltac:(specialize (H3 d ltac:(lia)); lia) ltac:(apply H4; lia)).
  specialize (H5 d Hd).
  destruct (coord d rank <? coord d nglob mod coord d (mpi_dims nd dims)); lia.
Qed.

Ltac dims3 := let d := fresh "d" in let H := fresh in
  intros d H; destruct d as [|[|[|d]]]; [| | |lia].

Lemma decomposed_example :
  exists dec, decomposed 2 (I3 7 5 1) (I3 3 2 1) 2 dec /\ thick 2 (I3 3 2 1) 2 dec.
Proof.
  exists (decs 2 (I3 7 5 1) (I3 3 2 1) 2). split.
  - apply decs_decomposed; try lia; dims3; vm_compute; congruence.
  - apply decs_thick; try lia; try (dims3; vm_compute; congruence).
    intros d Hd; destruct d as [|[|d]]; [| |lia]; vm_compute; congruence.
Qed.

Lemma decomposed_example2 : exists dec dec1,
  decomposed 2 (I3 7 5 1) (I3 3 2 1) 2 dec /\ thick 2 (I3 3 2 1) 2 dec /\
  decomposed 2 (I3 7 5 1) one_process 2 dec1 /\ faces_ok 2 [0; 1; 2; 3]%nat.
Proof.
  destruct decomposed_example as (dec & H1 & H2).
  exists dec, (decs 2 (I3 7 5 1) one_process 2). split; [assumption|split; [assumption|split]].
  - apply decs_decomposed; try lia; dims3; vm_compute; congruence.
  - intros f Hf. cbn in Hf. lia.
Qed.

Lemma thin_subdomain_counterexample :
  exists nd nglob dims ng dec (G : idx -> Z) (W : world Z) rank c,
    decomposed nd nglob dims ng dec /\ holds_owned nd dims ng dec G W /\
    (forall d, (d < 3)%nat -> 0 <= coord d rank < coord d (mpi_dims nd dims)) /\
    in_array (d_nwg (dec rank)) c /\
    sync_dims (mpi_dims nd dims) (fun r => d_nwg (dec r)) ng nd W rank c
    <> G (wrap nglob (global_index nd ng (corner_min (d_range (dec rank))) c)).
Proof.
  set (dec := decs 1 (I3 3 1 1) (I3 3 1 1) 2).
  set (G := fun c : idx => ii c).
  (* ghosts start at 0, as freshly allocated views *)
  set (W := (fun r c => if ii c =? 2 then ii r else 0) : world Z).
  exists 1%nat, (I3 3 1 1), (I3 3 1 1), 2, dec, G, W, (I3 0 0 0), (I3 4 0 0).
  split; [|split; [|split; [|split]]].
  - apply decs_decomposed; try lia; dims3; vm_compute; congruence.
  - intros rank Hr c Hc.
    pose proof (Hr 0%nat ltac:(lia)) as H0. pose proof (Hc 0%nat ltac:(lia)) as H1.
    destruct rank as [r0 r1 r2], c as [c0 c1 c2].
    change (0 <= r0 < 3) in H0.
    assert (E : r0 = 0 \/ r0 = 1 \/ r0 = 2) by lia.
    change (2 <= c0 < 2 + decomp_nloc 3 3 r0) in H1.
    change ((if c0 =? 2 then r0 else 0) = decomp_cmin 3 3 r0 + c0 - 2).
    assert (E1 : decomp_nloc 3 3 r0 = 1) by (destruct E as [->|[->| ->]]; reflexivity).
    assert (E2 : decomp_cmin 3 3 r0 = r0) by (destruct E as [->|[->| ->]]; reflexivity).
    rewrite E2. rewrite E1 in H1. destruct (Z.eqb_spec c0 2); lia.
  - dims3; vm_compute; split; congruence.
  - dims3; vm_compute; split; congruence.
  - vm_compute. congruence.
Qed.

Lemma reflexive_components ext ng d face a c : (d < 3)%nat -> 0 <= ng <= coord d ext ->
  in_face ext ng d face c ->
    let src := a (set_coord d (match face with O => 2 * ng - 1 - coord d c
                               | _ => 2 * (coord d ext - ng) - 1 - coord d c end) c) in
    let res := bc_apply Reflexive ext ng d face a c in
    c_rho res = c_rho src /\ c_E res = c_E src /\ c_fx res = c_fx src /\
    c_rhou res d = (- c_rhou src d)%R /\ forall n, n <> d -> c_rhou res n = c_rhou src n.
Proof.
  intros Hd Hng Hf. cbv zeta. rewrite reflexive_value by assumption.
  cbn [negate_momentum c_rho c_E c_fx c_rhou]. repeat split.
  - now rewrite Nat.eqb_refl.
  - intros n Hn. apply Nat.eqb_neq in Hn. now rewrite Hn.
Qed.

Lemma priority_counterexample :
  exists prio l, listed 2 prio l /\ NoDup l /\ (forall f, (f < 2 * 2)%nat <-> In f l) /\
    obind (generate_order 2 prio) applied_order = Ok [3; 1; 0; 2]%nat /\
    rev l = [3; 0; 2; 1]%nat.
Proof.
  exists "X_right Y_left X_left Y_right", [1; 2; 0; 3]%nat. split; [|split; [|split; [|split]]].
  - split; [discriminate|reflexivity].
  - repeat constructor; cbn; lia.
  - intros f. cbn. lia.
  - reflexivity.
  - reflexivity.
Qed.

Lemma default_order_wrong nd : (1 <= nd)%nat ->
    obind (generate_order nd "") applied_order = Ok (seq 0 (2 * nd)) /\
    obind (generate_order nd "") applied_order <> Ok (rev (seq 0 (2 * nd))).
Proof.
  intros Hnd. rewrite default_order. split; [reflexivity|]. intros H.
  injection H as H. apply (f_equal (fun l => nth 0 l 0%nat)) in H.
  rewrite seq_nth in H by lia. rewrite rev_nth in H by (rewrite seq_length; lia).
  rewrite seq_length, seq_nth in H by lia. lia.
Qed.

Lemma duplicate_counterexample :
  exists prio o, generate_order 1 prio = Ok o /\ words prio = ["X_left"; "X_left"] /\
    applied_order o = UB "indeterminate face id".
Proof. exists "X_left X_left". eexists. split; [reflexivity|]. split; reflexivity. Qed.

Lemma str_ne v : v <> "" -> String.eqb v "" = false.
Proof. intros H. now apply String.eqb_neq. Qed.

Lemma bc_name_resolution (cfg : string -> option string) d f :
    let face_key := "BC" ++ bc_dir d ++ bc_face f in
    let dir_key := "BC" ++ bc_dir d in
    (forall v, cfg face_key = Some v -> v <> "" -> bc_choice_face cfg d f = Ok v) /\
    (forall v, cfg face_key = None -> cfg dir_key = Some v -> v <> "" -> bc_choice_face cfg d f = Ok v) /\
    (forall v, cfg face_key = None -> cfg dir_key = None -> cfg "BC" = Some v -> v <> "" ->
       bc_choice_face cfg d f = Ok v).
Proof.
  cbv zeta. unfold bc_choice_face, get_or. split; [|split].
  - intros v -> Hv. now rewrite str_ne.
  - intros v -> -> Hv. now rewrite str_ne.
  - intros v -> -> -> Hv. now rewrite str_ne.
Qed.

Lemma bc_name_rejected (cfg : string -> option string) d f :
    (exists w, bc_choice_face cfg d f = Throw w) <->
    match cfg ("BC" ++ bc_dir d ++ bc_face f), cfg ("BC" ++ bc_dir d), cfg "BC" with
    | Some v, _, _ => v = ""
    | None, Some v, _ => v = ""
    | None, None, Some v => v = ""
    | None, None, None => True
    end.
Proof.
  unfold bc_choice_face, get_or.
  assert (H : forall v, (exists w, (if String.eqb v "" then Throw "boundary condition not fully defined"
                                    else Ok v) = Throw w) <-> v = "").
  { intros v. destruct (String.eqb v "") eqn:E.
    - apply String.eqb_eq in E. split; eauto.
    - apply String.eqb_neq in E. split; [intros [w Hw]; discriminate|congruence]. }
  cbv zeta.
  destruct (cfg ("BC" ++ bc_dir d ++ bc_face f)); [apply H|].
  destruct (cfg ("BC" ++ bc_dir d)); [apply H|].
  destruct (cfg "BC"); [apply H|]. rewrite H. tauto.
Qed.

Lemma bc_of_config_cases cfg d f v : bc_choice_face cfg d f = Ok v ->
    (v = "NullGradient" /\ bc_of_config cfg d f = Ok NullGradient) \/
    (v = "Periodic" /\ bc_of_config cfg d f = Ok Periodic) \/
    (v = "Reflexive" /\ bc_of_config cfg d f = Ok Reflexive) \/
    (v <> "NullGradient" /\ v <> "Periodic" /\ v <> "Reflexive" /\
     exists w, bc_of_config cfg d f = Throw w).
Proof.
  intros H. unfold bc_of_config. rewrite H. cbn [obind]. unfold factory_boundary.
  destruct (String.eqb_spec v "NullGradient"); [auto|].
  destruct (String.eqb_spec v "Periodic"); [auto|].
  destruct (String.eqb_spec v "Reflexive"); [auto|]. right; right; right. eauto.
Qed.
