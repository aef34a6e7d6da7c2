(** * Mirrored runs on process grids (C99). *)
From Coq Require Import FunctionalExtensionality ZifyBool ZifyNat.
From Verif Require Import Base RBase ModelMesh ModelGeom ModelBoundary ModelHydro ModelScheme ModelStep
  SpecMesh SpecGeom SpecBoundary SpecHydro SpecScheme SpecStep SpecFill SpecSym
  ProofBase ProofMesh ProofR ProofBoundary ProofBoundary2 ProofHydro ProofScheme ProofMirror ProofShift ProofReduce ProofStep ProofStepEx ProofLayout ProofMPIGrid
  ProofFill ProofSym ProofSym2 ProofSymMirror.
Local Open Scope R_scope.

Lemma sane_serial K N dims X L L1 cfl n : runs_on K N dims X L -> laid_out K N one_process X L1 ->
  forall t S S1, in_step K dims L S S1 -> sane_run K dims L cfl n t S -> good_steps K L1 (good K L1) cfl n t S1.
Proof.
  intros HR HL1. pose proof (ro_layout HR) as HL. pose proof (ro_thick HR) as Ht. pose proof (ro_ng HR) as Hng.
  pose proof (ro_faces HR) as Hf. pose proof (ro_grav HR) as Hg.
  assert (Hnd : (k_nd K <= 3)%nat) by (pose proof (dcp_nd (lo_dec HL)); lia).
  induction n as [|n IH]; intros t S S1 H Hs; cbn [sane_run good_steps] in *; [exact I|].
  rewrite <- (time_step_slice K N dims X L L1 HL HL1 Hng S S1 H). destruct (time_step K L S) as [h|]; [|exact I].
  destruct Hs as [Hs1 Hs2]. split.
  - intros c sd k Hc Hsd Hk.
    destruct (covered K N dims X L L1 HL HL1 1 c ltac:(lia) Hc) as (r & c' & Hr & Hc' & <-).
    destruct H as [(HC & HU & HP) HG].
    destruct (step_rec_shift K L L1 r rank0 (corner_min (d_range (l_dec L r))) S S1 (cfl * h) Hnd c' sd k Hk) as [-> _].
    + now apply (geo_slice K N dims X L L1 HL HL1).
    + intros j. apply HG; [exact Hr|]. apply (array_stencil2 K N dims X L HL Hng); [exact Hr|]. apply (sel_mono _ _ _ _ _ 1 _ _ _ HL Hr); [lia|exact Hc'].
    + intros y Hy. pose proof (sel_stencil _ _ _ _ _ _ _ _ _ HL Hr Hc' Hy) as Hy2. cbn [Z.add Pos.add] in Hy2.
      pose proof (array_stencil2 K N dims X L HL Hng r y Hr Hy2) as Hya.
      split; [symmetry; now apply HC|]. split; [symmetry; now apply HU|symmetry; now apply HP].
    + exact Hc'.
    + exact Hc.
    + now apply Hs1.
  - eapply IH; [|exact Hs2]. now apply (full_step_slice K N dims X L L1 HL HL1 Ht Hng Hf Hg).
Qed.

Lemma mirrored_runs K K' d N dims dims' X X' L L' G G' S S' cfl n t : lawful_eos (k_eos K) ->
  mirrored_run d K K' -> mirrored_mesh (k_nd K) (k_ng K) d N X X' -> mirrored_fields d N G G' ->
  runs_on K N dims X L -> runs_on K' N dims' X' L' ->
  starts_from K dims L G S -> starts_from K' dims' L' G' S' ->
  sane_run K dims L cfl n t (init_state K L S) ->
  let e := run_cfl K L cfl n t (init_state K L S) in let e' := run_cfl K' L' cfl n t (init_state K' L' S') in
  fst e' = fst e /\ corresponding (mirror_idx d N) (negate_momentum d) (mirror_vec d) K K' dims dims' L L' (snd e) (snd e').
Proof.
  intros He HK HX HG HR HR' Hs Hs' Hsane. cbv zeta.
  destruct (single_process _ _ _ _ _ HR) as [L1 R1]. destruct (single_process _ _ _ _ _ HR') as [L1' R1'].
  pose proof (ro_layout R1) as HL1. pose proof (ro_layout R1') as HL1'.
  set (S1 := the_state K L1 G). set (S1' := the_state K' L1' G').
  destruct (same_results_cfl K N dims X L HR L1 G S S1 cfl n t HL1 Hs (the_state_ok _ _ _ _)) as [F1 Q1].
  destruct (same_results_cfl K' N dims' X' L' HR' L1' G' S' S1' cfl n t HL1' Hs' (the_state_ok _ _ _ _)) as [F1' Q1'].
  set (phi := refl d (coord d N + 2 * ghosts (k_nd K) (k_ng K) d - 1)%Z).
  assert (Hloc : forall g, local K' (mirror_idx d N g) = phi (local K g)) by (intros g; exact (local_mirror K K' d N X L1 HK HL1 g)).
  assert (Hsel : forall n c, sel K' L1' n rank0 (phi c) = sel K L1 n rank0 c) by (intros; exact (rc_sel K K' d N X X' L1 L1' HK HL1 HL1' _ _)).
  assert (HI : related K L1 phi (negate_momentum d) (mirror_vec d) (init_state K L1 S1) (init_state K' L1' S1')).
  { apply (init_sym K K' L1 L1' phi (negate_momentum d) (mirror_vec d) (mr_ng _ _ _ HK) Hsel).
    - exact (bcs_mirror K K' d N X X' L1 L1' HK HL1 HL1' (ro_thick R1)).
    - exact (prim_mirror K K' d HK).
    - exact (cons_mirror K K' d HK).
    - exact (grav_mirror K K' d N L1 L1' HK).
    - apply (starts_sym K K' N N X X' L1 L1' phi (mirror_idx d N) (mirror_vec d) HL1 HL1' Hloc G G').
      + intros c. destruct (HG c) as (E1 & E2 & E3 & E4). split; [exact E1|]. split; [apply functional_extensionality; exact E2|]. split; [exact E3|apply functional_extensionality; exact E4].
      + exact (Hsel 0%Z).
      + apply the_state_ok.
      + apply the_state_ok. }
  assert (Hgood : good_steps K L1 (good K L1) cfl n t (init_state K L1 S1)).
  { apply (sane_serial K N dims X L L1 cfl n HR HL1 t (init_state K L S)); [|exact Hsane].
    exact (init_slice K N dims X L L1 (ro_layout HR) HL1 (ro_thick HR) (ro_faces HR) (ro_grav HR) G S S1 Hs (the_state_ok _ _ _ _)). }
  assert (phi_phi : forall c, phi (phi c) = c).
  { intros c. unfold phi. apply refl_refl. pose proof (mr_d _ _ _ HK). pose proof (dcp_nd (lo_dec HL1)). lia. }
  destruct (run_cfl_sym K K' N N X X' L1 L1' phi phi (negate_momentum d) (mirror_vec d) (good K L1) HL1 HL1' (mr_ng _ _ _ HK)
    phi_phi Hsel (step_user_mirror K K' d N X X' L1 L1' HK HX HL1 HL1' (ro_ng R1) He) (bcs_mirror K K' d N X X' L1 L1' HK HL1 HL1' (ro_thick R1))
    (prim_mirror K K' d HK) (grav_mirror K K' d N L1 L1' HK) (dt_mirror K K' d N X X' L1 L1' HK HX HL1 HL1') cfl n t _ _ HI Hgood) as [F2 Q2].
  split; [rewrite F1, F1'; exact F2|].
  exact (spread K K' N dims dims' X L L' L1 phi (mirror_idx d N) (negate_momentum d) (mirror_vec d) (ro_layout HR) HL1 Hloc _ _ _ _ Q2 Q1 Q1').
Qed.
