(** * Runs with more dimensions than the flow: steps and runs of one process (C107). *)
From Coq Require Import FunctionalExtensionality ZifyBool ZifyNat.
From Verif Require Import Base RBase ModelMesh ModelGeom ModelBoundary ModelHydro ModelScheme ModelStep
  SpecMesh SpecGeom SpecBoundary SpecHydro SpecScheme SpecStep SpecFill SpecSym SpecPlane
  ProofBase ProofMesh ProofR ProofBoundary ProofBoundary2 ProofHydro ProofScheme ProofShift ProofReduce ProofStep ProofFill ProofSym ProofPlane ProofPlane2.
Local Open Scope R_scope.

Lemma dv_mesh g nd m m2 c : (forall d i, (d < 3)%nat -> m d i = m2 d i) -> dv g nd m c = dv g nd m2 c.
Proof.
  intros H. destruct g; cbn [dv]; unfold cart_dv, sph_dv, sph_dcos, mdx; [|destruct nd as [|[|[|[|n]]]]]; rewrite ?(H 0%nat), ?(H 1%nat), ?(H 2%nat) by lia; reflexivity.
Qed.

Lemma hancock_same g nd e m grav dt fp fp2 c sd ip : (forall t d, (d < nd)%nat -> fp t d = fp2 t d) -> (ip < nd)%nat ->
  hancock_cons g nd e m grav dt fp c sd ip = hancock_cons g nd e m grav dt fp2 c sd ip.
Proof.
  intros H Hi. unfold hancock_cons. cbv zeta. rewrite (H sd ip Hi). f_equal.
  - f_equal. apply vsum_ext. intros d Hd. now rewrite !H.
  - apply functional_extensionality. intros k. do 2 f_equal. apply vsum_ext. intros d Hd. now rewrite !H.
  - f_equal. apply vsum_ext. intros d Hd. now rewrite !H.
Qed.
Lemma hancock_fx_same g nd e m grav dt fp fp2 ffx ffx2 c sd ip : (forall t d, (d < nd)%nat -> fp t d = fp2 t d) -> (forall t d, (d < nd)%nat -> ffx t d = ffx2 t d) -> (ip < nd)%nat ->
  hancock_fx g nd e m grav dt fp ffx c sd ip = hancock_fx g nd e m grav dt fp2 ffx2 c sd ip.
Proof.
  intros H H2 Hi. unfold hancock_fx. cbv zeta. rewrite (hancock_same g nd e m grav dt fp fp2) by assumption. rewrite (H sd ip Hi), (H2 sd ip Hi).
  apply functional_extensionality. intros k. do 2 f_equal. apply vsum_ext. intros d Hd. now rewrite !H, !H2.
Qed.

Section One.
Variables (K K' : config) (N N' : idx) (X X' : nat -> arr1) (L L' : layout).
Hypothesis HK : extruded_run K K'.
Hypothesis HX : extruded_mesh (k_nd K) N N' X X'.
Hypothesis NV : no_flat_cells K N X.
Hypothesis NV' : no_flat_cells K' N' X'.
Hypothesis HE : k_pf K = None \/ even_along (k_nd K) (k_nd K') X'.
Hypothesis HL : laid_out K N one_process X L.
Hypothesis HL' : laid_out K' N' one_process X' L'.
Hypothesis Hng : (2 <= k_ng K)%Z.
Hypothesis Hth : thick (k_nd K) one_process (k_ng K) (l_dec L).
Hypothesis Hth' : thick (k_nd K') one_process (k_ng K') (l_dec L').

Let nd := k_nd K.
Let nd' := k_nd K'.
Let g := k_geom K.
Let m := l_mesh L rank0.
Let m' := l_mesh L' rank0.

Lemma nds : (1 <= nd)%nat /\ (nd <= nd')%nat /\ (nd' <= 3)%nat.
Proof. pose proof (dcp_nd (lo_dec HL)). pose proof (dcp_nd (lo_dec HL')). pose proof (xr_nd _ _ HK). unfold nd, nd'. lia. Qed.

Definition rel (n : Z) (c c' : idx) : Prop := sel K L n rank0 c = true /\ sel K' L' n rank0 c' = true /\ above nd c c'.

Lemma rel_mono n n2 c c' : (n <= n2)%Z -> rel n c c' -> rel n2 c c'.
Proof.
  intros H (A & B & C). split; [apply (sel_mono _ _ _ _ _ n _ _ _ HL (rank0_ok _)); assumption|].
  split; [apply (sel_mono _ _ _ _ _ n _ _ _ HL' (rank0_ok _)); assumption|exact C].
Qed.
Lemma rel_l n c c' d : (0 <= n)%Z -> (d < nd)%nat -> rel n c c' -> rel (n + 1) (lindex d c) (lindex d c').
Proof.
  pose proof nds. intros Hn Hd (A & B & C). split; [apply (sel_stencil _ _ _ _ _ _ _ c _ HL (rank0_ok _) A); right; exists d; auto|].
  split; [apply (sel_stencil _ _ _ _ _ _ _ c' _ HL' (rank0_ok _) B); right; exists d; split; [unfold nd' in *; lia|auto]|now apply above_l].
Qed.
Lemma rel_r n c c' d : (0 <= n)%Z -> (d < nd)%nat -> rel n c c' -> rel (n + 1) (rindex d c) (rindex d c').
Proof.
  pose proof nds. intros Hn Hd (A & B & C). split; [apply (sel_stencil _ _ _ _ _ _ _ c _ HL (rank0_ok _) A); right; exists d; auto|].
  split; [apply (sel_stencil _ _ _ _ _ _ _ c' _ HL' (rank0_ok _) B); right; exists d; split; [unfold nd' in *; lia|auto]|now apply above_r].
Qed.
Lemma rel_l' n c c' d : (0 <= n)%Z -> (nd <= d < nd')%nat -> rel n c c' -> rel (n + 1) c (lindex d c').
Proof.
  pose proof nds. intros Hn Hd (A & B & C). split; [apply (sel_mono _ _ _ _ _ n _ _ _ HL (rank0_ok _)); [lia|exact A]|].
  split; [apply (sel_stencil _ _ _ _ _ _ _ c' _ HL' (rank0_ok _) B); right; exists d; split; [unfold nd' in *; lia|auto]|apply above_l'; [exact C|lia]].
Qed.
Lemma rel_r' n c c' d : (0 <= n)%Z -> (nd <= d < nd')%nat -> rel n c c' -> rel (n + 1) c (rindex d c').
Proof.
  pose proof nds. intros Hn Hd (A & B & C). split; [apply (sel_mono _ _ _ _ _ n _ _ _ HL (rank0_ok _)); [lia|exact A]|].
  split; [apply (sel_stencil _ _ _ _ _ _ _ c' _ HL' (rank0_ok _) B); right; exists d; split; [unfold nd' in *; lia|auto]|apply above_r'; [exact C|lia]].
Qed.

Lemma mesh_at d i : (d < 3)%nat -> m d i = a_at (X d) i.
Proof. intros Hd. unfold m. rewrite (set_grid_at _ _ _ (lo_mesh HL (rank0_ok _))) by assumption. rewrite (s_cmin _ _ _ _ HL) by assumption. now rewrite Z.add_0_l. Qed.
Lemma mesh_at' d i : (d < 3)%nat -> m' d i = a_at (X' d) i.
Proof. intros Hd. unfold m'. rewrite (set_grid_at _ _ _ (lo_mesh HL' (rank0_ok _))) by assumption. rewrite (s_cmin _ _ _ _ HL') by assumption. now rewrite Z.add_0_l. Qed.
Lemma meshes d i : (d < nd)%nat -> m' d i = m d i.
Proof. pose proof nds. intros Hd. rewrite mesh_at, mesh_at' by lia. apply HX. exact Hd. Qed.
Lemma vol c c' : rel (k_ng K) c c' -> dv g nd m c <> 0 /\ dv g nd' m' c' <> 0.
Proof.
  intros (A & B & _). split.
  - rewrite (dv_mesh _ _ _ (fun d => a_at (X d))) by (intros; now apply mesh_at). apply NV. intros d Hd.
    apply (sel_array _ _ _ _ _ _ _ HL (rank0_ok _)) in A. specialize (A d Hd). rewrite (s_ext _ _ _ _ HL) in A by assumption. exact A.
  - rewrite (dv_mesh _ _ _ (fun d => a_at (X' d))) by (intros; now apply mesh_at'). unfold g. rewrite <- (xr_geom _ _ HK). apply NV'. intros d Hd.
    rewrite <- (xr_ng _ _ HK) in B.
    apply (sel_array _ _ _ _ _ _ _ HL' (rank0_ok _)) in B. specialize (B d Hd). rewrite (s_ext _ _ _ _ HL') in B by assumption. exact B.
Qed.

Definition pl (S S' : idx -> pstate) : Prop := forall c c', rel (k_ng K) c c' ->
  lc nd nd' (s_cell (S rank0) c) (s_cell (S' rank0) c') /\ padded nd nd' (s_u (S rank0) c) (s_u (S' rank0) c') /\
  s_P (S' rank0) c' = s_P (S rank0) c /\ padded nd nd' (s_grav (S rank0) c) (s_grav (S' rank0) c').

(** ** Reconstruction *)
Section AStep.
Variables (S S' : idx -> pstate) (t dt : R).
Hypothesis HS : pl S S'.
Let st := S rank0.
Let st' := S' rank0.
Let rho := fun c => c_rho (s_cell st c).
Let fx := fun c => c_fx (s_cell st c).

Definition fp1 (c : idx) (sd d : nat) : prim :=
  if Nat.ltb d nd then face_prim (k_lim K) m rho (s_u st) (s_P st) c sd d else mkPrim (rho c) (s_u st c) (s_P st c).
Definition ffx1 (c : idx) (sd d : nat) : vec := if Nat.ltb d nd then face_fx (k_lim K) m fx c sd d else fx c.
Definition QQ (c : idx) (sd d : nat) : cons := hancock_cons g nd (k_eos K) m (s_grav st) (dt / 2) (fp1 c) c sd d.
Definition FF (c : idx) (sd d : nat) : vec := hancock_fx g nd (k_eos K) m (s_grav st) (dt / 2) (fp1 c) (ffx1 c) c sd d.

Lemma QQ_side c sd d : (nd <= d)%nat -> QQ c sd d = QQ c 0%nat d /\ FF c sd d = FF c 0%nat d.
Proof.
  intros Hd. assert (E : fp1 c sd d = fp1 c 0%nat d) by (unfold fp1; destruct (Nat.ltb_spec d nd); [lia|reflexivity]).
  assert (E2 : ffx1 c sd d = ffx1 c 0%nat d) by (unfold ffx1; destruct (Nat.ltb_spec d nd); [lia|reflexivity]).
  assert (A : QQ c sd d = QQ c 0%nat d) by (unfold QQ, hancock_cons; now rewrite E).
  split; [exact A|]. unfold FF, hancock_fx. cbv zeta. unfold QQ in A. now rewrite A, E, E2.
Qed.

Lemma rec_own c sd d : sel K L 1 rank0 c = true -> (d < nd)%nat ->
  r_q (step_rec K L dt S rank0) c sd d = QQ c sd d /\ r_fx (step_rec K L dt S rank0) c sd d = FF c sd d.
Proof.
  intros Hc Hd. unfold step_rec, hydro_reconstruction. cbn [r_q r_fx]. unfold kwrite. rewrite Hc. split.
  - apply hancock_same; [|exact Hd]. intros k j Hj. unfold fp1. destruct (Nat.ltb_spec j nd); [reflexivity|lia].
  - apply hancock_fx_same; [| |exact Hd]; intros k j Hj; [unfold fp1|unfold ffx1]; destruct (Nat.ltb_spec j nd); (reflexivity || lia).
Qed.

Lemma faces c c' sd d : rel 1 c c' -> (d < nd')%nat ->
  lp nd nd' (fp1 c sd d) (face_prim (k_lim K) m' (fun c => c_rho (s_cell st' c)) (s_u st') (s_P st') c' sd d) /\
  forall n, face_fx (k_lim K) m' (fun c => c_fx (s_cell st' c)) c' sd d n = ffx1 c sd d n.
Proof.
  intros Hr Hd. pose proof nds as (H1 & H2 & H3). destruct (HS c c') as (C1 & C2 & C3 & _); [now apply (rel_mono 1); [lia|]|].
  destruct C1 as (C1 & _ & _ & C4). destruct C2 as [C5 C6].
  unfold fp1, ffx1. destruct (Nat.ltb_spec d nd) as [B|B].
  - destruct (HS (lindex d c) (lindex d c')) as (L1 & L2 & L3 & _); [apply (rel_mono (1 + 1)); [lia|]; apply rel_l; [lia|exact B|exact Hr]|].
    destruct (HS (rindex d c) (rindex d c')) as (R1 & R2 & R3 & _); [apply (rel_mono (1 + 1)); [lia|]; apply rel_r; [lia|exact B|exact Hr]|].
    destruct L1 as (L1 & _ & _ & L4), L2 as [L5 L6], R1 as (R1 & _ & _ & R4), R2 as [R5 R6].
    destruct Hr as (_ & _ & Hab).
    assert (FV : forall var var', var' c' = var c -> var' (rindex d c') = var (rindex d c) -> var' (lindex d c') = var (lindex d c) ->
      face_value (k_lim K) m' var' c' sd d = face_value (k_lim K) m var c sd d).
    { intros var var'. apply (face_more nd); [exact B|lia|exact meshes|exact Hab]. }
    split; [split; [|split; [split|]]|].
    + cbn [face_prim p_rho]. now apply FV.
    + intros k Hk. cbn [face_prim p_u]. apply FV; auto.
    + intros k Hk. cbn [face_prim p_u]. apply face_const; auto.
    + cbn [face_prim p_P]. now apply FV.
    + intros n. unfold face_fx. apply FV; [apply C4|apply R4|apply L4].
  - destruct (HS c (lindex d c')) as (L1 & L2 & L3 & _); [apply (rel_mono (1 + 1)); [lia|]; apply rel_l'; [lia|lia|exact Hr]|].
    destruct (HS c (rindex d c')) as (R1 & R2 & R3 & _); [apply (rel_mono (1 + 1)); [lia|]; apply rel_r'; [lia|lia|exact Hr]|].
    destruct L1 as (L1 & _ & _ & L4), L2 as [L5 L6], R1 as (R1 & _ & _ & R4), R2 as [R5 R6].
    split; [split; [|split; [split|]]|].
    + cbn [face_prim p_rho]. now apply face_const.
    + intros k Hk. cbn [face_prim p_u]. apply face_const; auto.
    + intros k Hk. cbn [face_prim p_u]. apply face_const; auto.
    + cbn [face_prim p_P]. now apply face_const.
    + intros n. unfold face_fx. apply face_const; [apply C4|apply R4|apply L4].
Qed.

Lemma rec_more c c' sd d : rel 1 c c' -> (d < nd')%nat ->
  lq nd nd' (QQ c sd d) (r_q (step_rec K' L' dt S' rank0) c' sd d) /\
  forall n, r_fx (step_rec K' L' dt S' rank0) c' sd d n = FF c sd d n.
Proof.
  intros Hr Hd. pose proof nds as (H1 & H2 & H3). pose proof Hr as (_ & Hs & Hab).
  assert (Hr2 : rel (k_ng K) c c') by (apply (rel_mono 1); [lia|exact Hr]).
  destruct (vol c c' Hr2) as [V V']. destruct (HS c c' Hr2) as (_ & _ & _ & HG).
  unfold step_rec, hydro_reconstruction. cbn [r_q r_fx]. unfold kwrite. rewrite Hs.
  rewrite (xr_geom _ _ HK), (xr_eos _ _ HK), (xr_lim _ _ HK). fold st' g nd' m'.
  assert (A : forall sd d, (d < nd')%nat -> lp nd nd' (fp1 c sd d) (face_prim (k_lim K) m' (fun c => c_rho (s_cell st' c)) (s_u st') (s_P st') c' sd d))
    by (intros; now apply faces).
  assert (B : forall d, (nd <= d)%nat -> fp1 c 0%nat d = fp1 c 1%nat d) by (intros j Hj; unfold fp1; destruct (Nat.ltb_spec j nd); [lia|reflexivity]).
  split.
  - unfold QQ. apply (hancock_more g nd nd' (k_eos K) m m' c c' (dt / 2) (s_grav st) (s_grav st') H1 H2 H3 meshes Hab V V' HG _ _ A B sd d Hd).
  - intros n. unfold FF.
    apply (hancock_fx_more g nd nd' (k_eos K) m m' c c' (dt / 2) (s_grav st) (s_grav st') H1 H2 H3 meshes Hab V V' HG _ _ _ _ A B); [|exact Hd].
    intros sd0 d0 n0 H0. now apply faces.
Qed.

(** ** The update *)
Lemma user_more c c' : rel 0 c c' -> lc nd nd' (step_user K L t dt S rank0 c) (step_user K' L' t dt S' rank0 c').
Proof.
  intros Hr. pose proof nds as (H1 & H2 & H3). pose proof Hr as (Hs & Hs' & Hab).
  assert (Hr2 : rel (k_ng K) c c') by (apply (rel_mono 0); [lia|exact Hr]).
  destruct (vol c c' Hr2) as [V V']. destruct (HS c c' Hr2) as (HC & _ & _ & HG).
  assert (Sph : g = Spherical -> k_sol K <> HLL) by (intros E; exact (proj2 (xr_sph _ _ HK E))).
  assert (N1 : rel 1 c c') by (apply (rel_mono 0); [lia|exact Hr]).
  assert (NL : forall d, (d < nd)%nat -> rel 1 (lindex d c) (lindex d c')) by (intros d Hd; apply (rel_l 0); [lia|exact Hd|exact Hr]).
  assert (NR : forall d, (d < nd)%nat -> rel 1 (rindex d c) (rindex d c')) by (intros d Hd; apply (rel_r 0); [lia|exact Hd|exact Hr]).
  assert (NL' : forall d, (nd <= d < nd')%nat -> rel 1 c (lindex d c')) by (intros d Hd; apply (rel_l' 0); [lia|exact Hd|exact Hr]).
  assert (NR' : forall d, (nd <= d < nd')%nat -> rel 1 c (rindex d c')) by (intros d Hd; apply (rel_r' 0); [lia|exact Hd|exact Hr]).
  set (r := step_rec K L dt S rank0). set (r' := step_rec K' L' dt S' rank0).
  assert (Er : forall d, (d < nd)%nat -> forall x sd, (x = c \/ x = lindex d c \/ x = rindex d c) -> r_q r x sd d = QQ x sd d /\ r_fx r x sd d = FF x sd d).
  { intros d Hd x sd Hx. apply rec_own; [|exact Hd]. destruct Hx as [->|[->| ->]]; [apply N1|apply (NL d Hd)|apply (NR d Hd)]. }
  assert (Q0 : forall d, (d < nd)%nat -> forall sd, lq nd nd' (QQ c sd d) (r_q r' c' sd d) /\ lq nd nd' (QQ (lindex d c) sd d) (r_q r' (lindex d c') sd d)
    /\ lq nd nd' (QQ (rindex d c) sd d) (r_q r' (rindex d c') sd d)).
  { intros d Hd sd. split; [apply rec_more; [exact N1|lia]|]. split; apply rec_more; auto; lia. }
  assert (Q1 : forall d, (nd <= d < nd')%nat -> forall sd, lq nd nd' (QQ c 0%nat d) (r_q r' c' sd d) /\ lq nd nd' (QQ c 0%nat d) (r_q r' (lindex d c') sd d)
    /\ lq nd nd' (QQ c 0%nat d) (r_q r' (rindex d c') sd d)).
  { intros d Hd sd. destruct (QQ_side c sd d ltac:(lia)) as [<- _]. split; [apply rec_more; [exact N1|lia]|]. split; apply rec_more; auto; lia. }
  assert (X0 : forall d, (d < nd)%nat -> forall sd n, r_fx r' c' sd d n = FF c sd d n /\ r_fx r' (lindex d c') sd d n = FF (lindex d c) sd d n
    /\ r_fx r' (rindex d c') sd d n = FF (rindex d c) sd d n).
  { intros d Hd sd n. split; [apply rec_more; [exact N1|lia]|]. split; apply rec_more; auto; lia. }
  assert (X1 : forall d, (nd <= d < nd')%nat -> forall sd n, r_fx r' c' sd d n = FF c 0%nat d n /\ r_fx r' (lindex d c') sd d n = FF c 0%nat d n
    /\ r_fx r' (rindex d c') sd d n = FF c 0%nat d n).
  { intros d Hd sd n. destruct (QQ_side c sd d ltac:(lia)) as [_ <-]. split; [apply rec_more; [exact N1|lia]|]. split; apply rec_more; auto; lia. }
  pose proof (god_more g nd nd' (k_eos K) (k_sol K) m m' c c' dt (s_grav st) (s_grav st') H1 H2 H3 meshes Hab V V' HG
    (s_cell st) (s_cell st') r r' QQ FF Sph HC Er Q0 Q1 X0 X1) as GM.
  assert (G1 : step_godunov K L dt S rank0 c = god_cell g nd (k_eos K) (k_sol K) m (s_grav st) dt (s_cell st) r c).
  { unfold step_godunov, godunov, kwrite. now rewrite Hs. }
  assert (G2 : step_godunov K' L' dt S' rank0 c' = god_cell g nd' (k_eos K) (k_sol K) m' (s_grav st') dt (s_cell st') r' c').
  { unfold step_godunov, godunov, kwrite. rewrite Hs'. now rewrite (xr_geom _ _ HK), (xr_eos _ _ HK), (xr_sol _ _ HK). }
  rewrite <- G1, <- G2 in GM.
  assert (PM : lc nd nd' (step_pf K L dt S rank0 c) (step_pf K' L' dt S' rank0 c')).
  { unfold step_pf. rewrite (xr_pf _ _ HK). destruct (k_pf K) as [eps|] eqn:Ep; [|exact GM].
    assert (Eg : g = Cartesian).
    { assert (Q : g = Cartesian \/ g = Spherical) by (destruct g; auto). destruct Q as [Q|Q]; [exact Q|]. destruct (xr_sph _ _ HK Q) as [Z _]. congruence. }
    destruct HE as [HE0|HE0]; [congruence|].
    unfold pressure_fix, kwrite. rewrite Hs, Hs'. rewrite (xr_geom _ _ HK), (xr_eos _ _ HK).
    apply (fix_more g nd nd' (k_eos K) (k_sol K) m m' c c' dt H1 H2 H3 meshes Hab V V' (s_cell st) (s_cell st') r r' QQ FF Sph HC Er Q0 Q1); auto.
    - intros d i Hd. unfold mdx. rewrite !mesh_at' by lia. destruct (HE0 d Hd) as [h Hh]. now rewrite !Hh.
    - intros d Hd. split; apply HS; apply (rel_mono 1); auto; lia.
    - intros d Hd. split; apply HS; apply (rel_mono 1); auto; lia. }
  unfold step_user, user_step, kwrite. rewrite Hs, Hs', (xr_user _ _ HK). destruct (k_user K); cbn [user_cell]; [exact PM|].
  destruct PM as (P1 & P2 & P3 & P4). unfold lc. cbn [c_rho c_rhou c_E c_fx]. rewrite P1, P3, P4. auto.
Qed.
End AStep.

(** ** Ghost cells *)
Lemma bcs_more (W W' : world cell) : (forall c c', rel 0 c c' -> lc nd nd' (W rank0 c) (W' rank0 c')) ->
  forall c c', rel (k_ng K) c c' -> lc nd nd' (bcs_update K L W rank0 c) (bcs_update K' L' W' rank0 c').
Proof.
  intros H c c' (Hs & Hs' & Hab). pose proof nds as (H1 & H2 & H3).
  rewrite (bcs_filled K N X L HL Hth (xr_order _ _ HK) W c Hs).
  assert (Hs2 : sel K' L' (k_ng K') rank0 c' = true) by (rewrite (xr_ng _ _ HK); exact Hs').
  rewrite (bcs_filled K' N' X' L' HL' Hth' (xr_order' _ _ HK) W' c' Hs2).
  unfold continuation. cbv zeta. fold nd nd'.
  match goal with |- lc _ _ (mkCell (c_rho (W rank0 (local K ?a))) _ _ _) (mkCell (c_rho (W' rank0 (local K' ?b))) _ _ _) => set (x := a); set (x' := b) end.
  apply (sel_array _ _ _ _ _ _ c HL (rank0_ok _)) in Hs.
  apply (sel_array _ _ _ _ _ _ c' HL' (rank0_ok _)) in Hs2.
  assert (GH : forall d, (d < nd)%nat -> ghosts nd (k_ng K) d = k_ng K) by (intros d Hd; unfold ghosts; destruct (Nat.ltb_spec d nd); [reflexivity|lia]).
  assert (GH' : forall d, (d < nd')%nat -> ghosts nd' (k_ng K') d = k_ng K) by (intros d Hd; unfold ghosts; rewrite (xr_ng _ _ HK); destruct (Nat.ltb_spec d nd'); [reflexivity|lia]).
  assert (TH : forall d, (d < nd)%nat -> (k_ng K <= coord d N)%Z).
  { intros d Hd. pose proof (Hth rank0 (rank0_ok _) d Hd) as Q. rewrite (serial_nloc _ _ N _ (l_dec L) _ (lo_dec HL)) in Q by lia. exact Q. }
  assert (TH' : forall d, (d < nd')%nat -> (k_ng K <= coord d N')%Z).
  { intros d Hd. pose proof (Hth' rank0 (rank0_ok _) d Hd) as Q. rewrite (serial_nloc _ _ N' _ (l_dec L') _ (lo_dec HL')) in Q by lia. rewrite <- (xr_ng _ _ HK). exact Q. }
  assert (RX : rel 0 (local K x) (local K' x')).
  { split; [|split].
    - apply (sel_spec _ _ _ _ _ _ _ _ HL (rank0_ok _)). intros d Hd. unfold local. rewrite coord_mk3 by assumption. fold nd.
      rewrite (serial_nloc _ _ N _ (l_dec L) _ (lo_dec HL)) by assumption. unfold x. rewrite coord_mk3 by assumption. rewrite ?coord_mk3 by assumption.
      specialize (Hs d Hd). rewrite (s_ext _ _ _ _ HL) in Hs by assumption. fold nd in Hs. destruct (Nat.ltb_spec d nd) as [B|B].
      + rewrite (GH d B) in *. pose proof (TH d B). pose proof (continue_range (k_bcs K (2 * d)) (k_bcs K (2 * d + 1)) (coord d N) (coord d c - k_ng K) ltac:(lia) ltac:(lia)). lia.
      + assert (ghosts nd (k_ng K) d = 0%Z) as E by (unfold ghosts; destruct (Nat.ltb_spec d nd); [lia|reflexivity]). rewrite E in *. lia.
    - apply (sel_spec _ _ _ _ _ _ _ _ HL' (rank0_ok _)). intros d Hd. unfold local. rewrite coord_mk3 by assumption. fold nd'.
      rewrite (serial_nloc _ _ N' _ (l_dec L') _ (lo_dec HL')) by assumption. unfold x'. rewrite coord_mk3 by assumption. rewrite ?coord_mk3 by assumption.
      specialize (Hs2 d Hd). rewrite (s_ext _ _ _ _ HL') in Hs2 by assumption. fold nd' in Hs2. destruct (Nat.ltb_spec d nd') as [B|B].
      + rewrite (GH' d B) in *. pose proof (TH' d B). pose proof (continue_range (k_bcs K' (2 * d)) (k_bcs K' (2 * d + 1)) (coord d N') (coord d c' - k_ng K) ltac:(lia) ltac:(lia)). lia.
      + assert (ghosts nd' (k_ng K') d = 0%Z) as E by (unfold ghosts; destruct (Nat.ltb_spec d nd'); [lia|reflexivity]). rewrite E in *. lia.
    - intros d Hd. unfold local. rewrite !coord_mk3 by lia. fold nd nd'. unfold x, x'. rewrite !coord_mk3 by lia. rewrite ?coord_mk3 by lia.
      destruct (Nat.ltb_spec d nd); [|lia]. destruct (Nat.ltb_spec d nd'); [|lia]. rewrite (GH d Hd), (GH' d) by lia.
      rewrite (Hab d Hd). destruct (HX d Hd) as [-> _]. rewrite !(xr_bcs _ _ HK) by (unfold nd in *; lia). reflexivity. }
  destruct (H _ _ RX) as (E1 & (E2 & E2') & E3 & E4). unfold lc, padded. cbn [c_rho c_rhou c_E c_fx].
  split; [exact E1|]. split; [|split; [exact E3|exact E4]]. split.
  - intros k Hk. rewrite !coord_mk3 by lia. destruct (Nat.ltb_spec k nd); [|lia]. destruct (Nat.ltb_spec k nd'); [|lia]. cbn [andb].
    rewrite (GH k Hk), (GH' k), (Hab k Hk), E2 by lia. destruct (HX k Hk) as [-> _]. rewrite !(xr_bcs _ _ HK) by (unfold nd in *; lia). reflexivity.
  - intros k Hk. rewrite (E2' k Hk). destruct (_ && _)%bool; ring.
Qed.

Lemma grav_more A A' c c' : above nd c c' -> padded nd nd' (gravity_values K L A rank0 c) (gravity_values K' L' A' rank0 c').
Proof.
  intros Hab. pose proof nds as (H1 & H2 & H3). unfold gravity_values. destruct (xr_grav _ _ HK) as [(g1 & g2 & -> & -> & Hg)|(M & -> & ->)]; [exact Hg|].
  split; intros d Hd.
  - destruct d as [|d]; [|reflexivity]. cbn [radial_gravity]. unfold mxc. fold m m'. pose proof (Hab 0%nat ltac:(lia)) as E. cbn [coord] in E. rewrite E, !meshes by lia. reflexivity.
  - destruct d as [|d]; [lia|reflexivity].
Qed.

Lemma finish_more W W' rec rec' new new' S S' : (forall c c', rel (k_ng K) c c' -> lc nd nd' (W rank0 c) (W' rank0 c')) ->
  pl (finish K L W rec new S) (finish K' L' W' rec' new' S').
Proof.
  intros H c c' Hr. pose proof nds as (H1 & H2 & H3). pose proof (H c c' Hr) as HC. pose proof Hr as (Hs & Hs' & Hab).
  cbn [finish s_cell s_u s_P s_grav conv_cons_to_prim fst snd]. unfold kwrite. rewrite Hs. rewrite (xr_ng _ _ HK), Hs', (xr_eos _ _ HK).
  split; [exact HC|]. destruct HC as (E1 & E2 & E3 & _).
  destruct (to_prim_more nd nd' H2 (k_eos K) (mkCons (c_rho (W rank0 c)) (c_rhou (W rank0 c)) (c_E (W rank0 c))) (mkCons (c_rho (W' rank0 c')) (c_rhou (W' rank0 c')) (c_E (W' rank0 c')))) as (_ & U & P).
  { split; [exact E1|]. split; [exact E2|exact E3]. }
  split; [exact U|]. split; [exact P|]. now apply grav_more.
Qed.

Lemma full_more t dt S S' : pl S S' -> pl (full_step K L t dt S) (full_step K' L' t dt S').
Proof. intros H. unfold full_step. apply finish_more. apply bcs_more. intros c c' Hr. now apply user_more. Qed.

Lemma run_more ts : forall S S', pl S S' -> pl (run K L ts S) (run K' L' ts S').
Proof.
  unfold run. induction ts as [|[t dt] ts IH]; intros S S' H; cbn [fold_left fst snd]; [exact H|]. apply IH. now apply full_more.
Qed.

Lemma init_more S S' :
  (forall c c', rel 0 c c' -> c_rho (s_cell (S' rank0) c') = c_rho (s_cell (S rank0) c) /\ padded nd nd' (s_u (S rank0) c) (s_u (S' rank0) c') /\
     s_P (S' rank0) c' = s_P (S rank0) c /\ forall n, c_fx (s_cell (S' rank0) c') n = c_fx (s_cell (S rank0) c) n) ->
  pl (init_state K L S) (init_state K' L' S').
Proof.
  intros H. pose proof nds as (H1 & H2 & H3). unfold init_state. apply finish_more. apply bcs_more. intros c c' Hr. pose proof Hr as (Hs & Hs' & Hab).
  destruct (H c c' Hr) as (E1 & E2 & E3 & E4). unfold init_cons. cbn [conv_prim_to_cons fst snd]. unfold kwrite. rewrite Hs, Hs', (xr_eos _ _ HK).
  destruct (to_cons_more nd nd' H2 (k_eos K) (mkPrim (c_rho (s_cell (S rank0) c)) (s_u (S rank0) c) (s_P (S rank0) c))
    (mkPrim (c_rho (s_cell (S' rank0) c')) (s_u (S' rank0) c') (s_P (S' rank0) c'))) as (_ & U & P).
  { split; [exact E1|]. split; [exact E2|exact E3]. }
  split; [exact E1|]. split; [exact U|]. split; [exact P|exact E4].
Qed.
End One.
