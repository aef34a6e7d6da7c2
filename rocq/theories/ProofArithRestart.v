(** * Restart in every arithmetic (C87). *)
From Coq Require Import FunctionalExtensionality ZifyBool ZifyNat.
From Verif Require Import Base RBase ModelMesh ModelGeom ModelBoundary ModelHydro ModelScheme ModelStep ModelArith
  SpecMesh SpecBoundary SpecHydro SpecScheme SpecStep SpecArith
  ProofBase ProofMesh ProofR ProofBoundary ProofBoundary2 ProofHydro ProofScheme ProofMirror ProofShift ProofReduce ProofStep
  ProofSteady ProofArithReal ProofArith.
Local Open Scope R_scope.

Section Settled.
Variables (A : arith) (K : config) (L : layout).

(** Left by the end of an iteration or by the initialisation. *)
Definition settled (S : idx -> pstate) : Prop :=
  exists W rec new S0, S = afinish A K L (bcs_update K L W) rec new S0.
Lemma settled_init S : settled (ainit_state A K L S).
Proof. unfold ainit_state. eexists _, _, _, _. reflexivity. Qed.
Lemma settled_step t dt S : settled (afull_step A K L t dt S).
Proof. unfold afull_step. eexists _, _, _, _. reflexivity. Qed.
Lemma settled_runs cfl n : forall t S t' S', settled S -> aruns A K L cfl n t S t' S' -> settled S'.
Proof.
  induction n as [|n IH]; intros t S t' S' HS H; inversion H as [|? ? ? v ? ? Hv Hr]; subst; [exact HS|].
  eapply IH; [apply settled_step|exact Hr].
Qed.
End Settled.

Section Restart.
Variable A : arith.
Variables (K : config) (N dims dims2 : idx) (X : nat -> arr1) (L L2 L1 : layout).
Hypothesis HR : runs_on K N dims X L.
Hypothesis HR2 : runs_on K N dims2 X L2.
Hypothesis HL1 : laid_out K N one_process X L1.
Hypothesis Hgrav : local_gravity K.
Let HL := ro_layout HR.
Let HL2 := ro_layout HR2.
Notation nd := (k_nd K).
Notation ng := (k_ng K).

Lemma gindex_slice (D : idx) (M : layout) r c :
  global_index nd ng (corner_min (d_range (l_dec L1 rank0))) (iadd (corner_min (d_range (l_dec M r))) c)
  = global_index nd ng (corner_min (d_range (l_dec M r))) c.
Proof.
  apply idx_ext. intros d Hd. unfold global_index. rewrite !coord_mk3, (s_cmin _ _ _ _ HL1), coord_iadd by assumption. lia.
Qed.

Lemma restart_slice S' S1' G' S2 :
  in_step K dims L S' S1' -> settled A K L1 S1' ->
  (forall r c, process nd dims r -> owned nd ng (d_nloc (l_dec L r)) c ->
     ato_cons A nd (k_eos K) (ato_prim A nd (k_eos K) (cons_of (s_cell (S' r) c))) = cons_of (s_cell (S' r) c)) ->
  starts_from K dims L G' S' -> starts_from K dims2 L2 G' S2 ->
  in_step K dims2 L2 (ainit_state A K L2 S2) S1'.
Proof.
  intros [(HC & HU & HP) _] (W & rec & new & S0 & ES1) Hrt HG HG2.
  unfold ainit_state. rewrite ES1. apply (afinish_slice A K N dims2 X L2 L1 HL2 HL1 Hgrav).
  apply (bcs_slice K N dims2 X L2 L1 HL2 HL1 (ro_thick HR2) (ro_faces HR2)).
  intros r2 c2 Hr2 Hc2.
  pose proof (owned_slice K N dims2 X L2 L1 HL2 HL1 r2 c2 Hr2 Hc2) as Hc1.
  set (c1 := iadd (corner_min (d_range (l_dec L2 r2))) c2) in *.
  pose proof (proj2 (sel_owned _ _ _ _ _ _ _ HL1 (rank0_ok nd)) Hc1) as Hs1.
  assert (Hn : (0 <= 0 <= ng)%Z) by (pose proof (ro_ng HR); lia).
  destruct (covered K N dims X L L1 HL HL1 0 c1 Hn Hs1) as (r & c & Hr & Hs & Ec).
  pose proof (proj1 (sel_owned _ _ _ _ _ _ _ HL Hr) Hs) as Hc.
  assert (Hin : in_array (d_nwg (l_dec L r)) c).
  { apply (sel_array _ _ _ _ _ _ _ HL Hr). apply (sel_mono _ _ _ _ _ 0 _ _ _ HL Hr); [lia|exact Hs]. }
  assert (Hin1 : sel K L1 ng rank0 c1 = true).
  { apply (sel_mono _ _ _ _ _ 0 _ _ _ HL1 (rank0_ok nd)); [lia|exact Hs1]. }
  (* the saved values at this cell *)
  assert (Eg : global_index nd ng (corner_min (d_range (l_dec L r))) c = global_index nd ng (corner_min (d_range (l_dec L2 r2))) c2).
  { rewrite <- (gindex_slice dims L r c), <- (gindex_slice dims2 L2 r2 c2). fold c1. now rewrite Ec. }
  pose proof (HC r Hr c Hin) as E1. pose proof (HU r Hr c Hin) as E2. pose proof (HP r Hr c Hin) as E3.
  rewrite Ec, ES1 in E1, E2, E3. cbn [afinish s_cell s_u s_P] in E1, E2, E3. unfold kwrite in E2, E3. rewrite Hin1 in E2, E3.
  rewrite (bcs_owned K N one_process X L1 HL1 W rank0 c1 (ro_faces HR) (rank0_ok nd) Hc1) in E1, E2, E3.
  set (x := W rank0 c1) in *.
  pose proof (sf_rho HG r Hr c Hc) as A1. pose proof (sf_rho HG2 r2 Hr2 c2 Hc2) as B1.
  pose proof (sf_fx HG r Hr c Hc) as A2. pose proof (sf_fx HG2 r2 Hr2 c2 Hc2) as B2.
  pose proof (sf_u HG r Hr c Hc) as A3. pose proof (sf_u HG2 r2 Hr2 c2 Hc2) as B3.
  pose proof (sf_P HG r Hr c Hc) as A4. pose proof (sf_P HG2 r2 Hr2 c2 Hc2) as B4.
  cbn beta in *. rewrite Eg in A1, A2, A3, A4. rewrite <- A1 in B1. rewrite <- A2 in B2. rewrite <- A3 in B3. rewrite <- A4 in B4.
  rewrite E1 in B1, B2. rewrite E2 in B3. rewrite E3 in B4.
  pose proof (Hrt r c Hr Hc) as Hx. rewrite E1 in Hx.
  unfold ainit_cons, kwrite. rewrite (proj2 (sel_owned _ _ _ _ _ _ _ HL2 Hr2) Hc2), B1, B2, B3, B4.
  change (mkPrim (c_rho x) (p_u (ato_prim A nd (k_eos K) (cons_of x))) (p_P (ato_prim A nd (k_eos K) (cons_of x))))
    with (ato_prim A nd (k_eos K) (cons_of x)).
  rewrite Hx. cbn [cons_of q_m q_E]. now destruct x.
Qed.
End Restart.

Lemma restart_runs A good K N dims dims2 X L L2 L1 : ordered A good ->
  runs_on K N dims X L -> runs_on K N dims2 X L2 -> laid_out K N one_process X L1 -> local_gravity K ->
  forall G S S1 cfl n n2 t0 t1 S1' t1' S1'' t' S' G' S2 t'' S'',
  starts_from K dims L G S -> starts_from K one_process L1 G S1 ->
  good_run A good K L1 cfl n t0 (ainit_state A K L1 S1) -> good_run A good K L1 cfl n2 t1 S1' ->
  aruns A K L1 cfl n t0 (ainit_state A K L1 S1) t1 S1' -> aruns A K L1 cfl n2 t1 S1' t1' S1'' ->
  aruns A K L cfl n t0 (ainit_state A K L S) t' S' ->
  (forall r c, process (k_nd K) dims r -> owned (k_nd K) (k_ng K) (d_nloc (l_dec L r)) c ->
     ato_cons A (k_nd K) (k_eos K) (ato_prim A (k_nd K) (k_eos K) (cons_of (s_cell (S' r) c))) = cons_of (s_cell (S' r) c)) ->
  starts_from K dims L G' S' -> starts_from K dims2 L2 G' S2 ->
  aruns A K L2 cfl n2 t' (ainit_state A K L2 S2) t'' S'' ->
  t'' = t1' /\ same_results K dims2 L2 S'' S1''.
Proof.
  intros Ho HR HR2 HL1 Hgr G S S1 cfl n n2 t0 t1 S1' t1' S1'' t' S' G' S2 t'' S'' HS HS1 Hg1 Hg2 R1 R2 R3 Hrt HG' HS2 R4.
  pose proof (ro_layout HR) as HL. pose proof (ro_layout HR2) as HL2.
  destruct (aruns_slice A good Ho K N dims X L L1 HL HL1 (ro_thick HR) (ro_ng HR) (ro_faces HR) Hgr cfl n t0 _ _ _ _ _ _
    (ainit_slice A K N dims X L L1 HL HL1 (ro_thick HR) (ro_faces HR) Hgr G S S1 HS HS1) Hg1 R3 R1) as [-> Hin].
  pose proof (restart_slice A K N dims dims2 X L L2 L1 HR HR2 HL1 Hgr S' S1' G' S2 Hin
    (settled_runs A K L1 cfl n _ _ _ _ (settled_init A K L1 S1) R1) Hrt HG' HS2) as Hin2.
  destruct (aruns_slice A good Ho K N dims2 X L2 L1 HL2 HL1 (ro_thick HR2) (ro_ng HR2) (ro_faces HR2) Hgr cfl n2 t1 _ _ _ _ _ _
    Hin2 Hg2 R4 R2) as [-> [Hf _]].
  now split.
Qed.

Lemma bitwise_grid A good K N dims X L L1 : ordered A good -> runs_on K N dims X L -> laid_out K N one_process X L1 -> local_gravity K ->
  forall G S S1 cfl n t t' S' t1' S1', starts_from K dims L G S -> starts_from K one_process L1 G S1 ->
  good_run A good K L1 cfl n t (ainit_state A K L1 S1) ->
  aruns A K L cfl n t (ainit_state A K L S) t' S' -> aruns A K L1 cfl n t (ainit_state A K L1 S1) t1' S1' ->
  t' = t1' /\ same_results K dims L S' S1'.
Proof.
  intros Ho HR HL1 Hgr G S S1 cfl n t t' S' t1' S1' HS HS1 Hg R1 R2. pose proof (ro_layout HR) as HL.
  destruct (aruns_slice A good Ho K N dims X L L1 HL HL1 (ro_thick HR) (ro_ng HR) (ro_faces HR) Hgr cfl n t _ _ _ _ _ _
    (ainit_slice A K N dims X L L1 HL HL1 (ro_thick HR) (ro_faces HR) Hgr G S S1 HS HS1) Hg R1 R2) as [-> [Hf _]].
  now split.
Qed.
