(** * From one process to process grids (C99). *)
From Coq Require Import FunctionalExtensionality ZifyBool ZifyNat.
From Verif Require Import Base RBase ModelMesh ModelGeom ModelBoundary ModelHydro ModelScheme ModelStep
  SpecMesh SpecGeom SpecBoundary SpecHydro SpecScheme SpecStep SpecFill SpecSym
  ProofBase ProofMesh ProofR ProofBoundary ProofBoundary2 ProofHydro ProofScheme ProofAxes ProofShift ProofReduce ProofStep ProofStepEx ProofLayout ProofMPIGrid ProofFill ProofSym ProofSymAxes.
Local Open Scope R_scope.

Lemma local_number K N X L1 g : laid_out K N one_process X L1 -> cell_number K L1 rank0 (local K g) = g.
Proof.
  intros H. unfold cell_number, local, global_index. apply idx_ext3. intros d Hd. rewrite !coord_mk3 by assumption.
  rewrite (s_cmin _ _ _ _ H) by assumption. lia.
Qed.
Lemma number_local K L r c : local K (cell_number K L r c) = iadd (corner_min (d_range (l_dec L r))) c.
Proof.
  unfold cell_number, local, global_index, iadd. apply idx_ext3. intros d Hd. rewrite !coord_mk3 by assumption.
  destruct d as [|[|[|d]]]; cbn [coord ii jj kk]; lia.
Qed.

Section Spread.
Variables (K K' : config) (N N' dims dims' : idx) (X X' : nat -> arr1) (L L' L1 L1' : layout).
Variables (phi phig : idx -> idx) (T : cell -> cell) (V : vec -> vec).
Hypothesis HL : laid_out K N dims X L.
Hypothesis HL' : laid_out K' N' dims' X' L'.
Hypothesis HL1 : laid_out K N one_process X L1.
Hypothesis HL1' : laid_out K' N' one_process X' L1'.
Hypothesis Hloc : forall g, local K' (phig g) = phi (local K g).

Lemma spread S S' S1 S1' : related K L1 phi T V S1 S1' ->
  same_results K dims L S S1 -> same_results K' dims' L' S' S1' -> corresponding phig T V K K' dims dims' L L' S S'.
Proof.
  intros HR (A1 & A2 & A3) (B1 & B2 & B3) r c r' c' Hr Hc Hr' Hc' E.
  rewrite (A1 r Hr c Hc), (A2 r Hr c Hc), (A3 r Hr c Hc), (B1 r' Hr' c' Hc'), (B2 r' Hr' c' Hc'), (B3 r' Hr' c' Hc').
  rewrite <- !(number_local K L r c), <- !(number_local K' L' r' c'), E, Hloc.
  assert (Hs : sel K L1 (k_ng K) rank0 (local K (cell_number K L r c)) = true).
  { rewrite number_local. apply (sel_slice K N dims X L L1 HL HL1); [exact Hr|]. now apply (sel_array _ _ _ _ _ _ _ HL Hr). }
  destruct (HR _ Hs) as (E1 & E2 & E3 & _). split; [exact E1|]. split; [exact E2|exact E3].
Qed.

Lemma starts_sym G G' S1 S1' :
  (forall c, g_rho G' (phig c) = g_rho G c /\ g_u G' (phig c) = V (g_u G c) /\ g_P G' (phig c) = g_P G c /\ g_fx G' (phig c) = g_fx G c) ->
  (forall c, sel K' L1' 0 rank0 (phi c) = sel K L1 0 rank0 c) ->
  starts_from K one_process L1 G S1 -> starts_from K' one_process L1' G' S1' ->
  forall c, sel K L1 0 rank0 c = true -> c_rho (s_cell (S1' rank0) (phi c)) = c_rho (s_cell (S1 rank0) c) /\
     s_u (S1' rank0) (phi c) = V (s_u (S1 rank0) c) /\ s_P (S1' rank0) (phi c) = s_P (S1 rank0) c /\
     c_fx (s_cell (S1' rank0) (phi c)) = c_fx (s_cell (S1 rank0) c).
Proof.
  intros HG Hsel H H' c Hc. pose proof (Hsel c) as Hc'. rewrite Hc in Hc'.
  assert (O : forall Kx Nx Xx Lx x, laid_out Kx Nx one_process Xx Lx -> sel Kx Lx 0 rank0 x = true -> owned (k_nd Kx) (k_ng Kx) (d_nloc (l_dec Lx rank0)) x).
  { intros Kx Nx Xx Lx x Hx Hy. pose proof (proj1 (sel_spec _ _ _ _ _ _ _ _ Hx (rank0_ok _)) Hy) as Q. intros d Hd. specialize (Q d Hd).
    destruct (Nat.ltb d (k_nd Kx)); lia. }
  pose proof (O _ _ _ _ _ HL1 Hc) as Ho. pose proof (O _ _ _ _ _ HL1' Hc') as Ho'.
  assert (E : cell_number K' L1' rank0 (phi c) = phig (cell_number K L1 rank0 c)).
  { rewrite <- (local_number _ _ _ _ (phig (cell_number K L1 rank0 c)) HL1'), Hloc. do 2 f_equal. rewrite number_local.
    apply idx_ext3. intros d Hd. unfold iadd. pose proof (s_cmin _ _ _ _ HL1 d Hd) as Q. destruct d as [|[|[|d]]]; cbn [coord ii jj kk] in *; lia. }
  pose proof (HG (cell_number K L1 rank0 c)) as (G1 & G2 & G3 & G4). rewrite <- E in G1, G2, G3, G4.
  pose proof (sf_rho H rank0 (rank0_ok _) c Ho) as A1. pose proof (sf_rho H' rank0 (rank0_ok _) (phi c) Ho') as B1.
  pose proof (sf_u H rank0 (rank0_ok _) c Ho) as A2. pose proof (sf_u H' rank0 (rank0_ok _) (phi c) Ho') as B2.
  pose proof (sf_P H rank0 (rank0_ok _) c Ho) as A3. pose proof (sf_P H' rank0 (rank0_ok _) (phi c) Ho') as B3.
  pose proof (sf_fx H rank0 (rank0_ok _) c Ho) as A4. pose proof (sf_fx H' rank0 (rank0_ok _) (phi c) Ho') as B4.
  cbv beta in *. fold (cell_number K L1 rank0 c) in *. fold (cell_number K' L1' rank0 (phi c)) in *.
  rewrite A1, A2, A3, A4, B1, B2, B3, B4. repeat split; assumption.
Qed.
End Spread.

Lemma relabelled_runs K K' sigma tau N N' dims dims' X X' L L' G G' S S' cfl n t :
  axis_perm (k_nd K) sigma tau -> relabelled_run tau K K' -> relabelled_mesh tau N N' X X' -> relabelled_fields tau G G' ->
  runs_on K N dims X L -> runs_on K' N' dims' X' L' ->
  starts_from K dims L G S -> starts_from K' dims' L' G' S' ->
  let e := run_cfl K L cfl n t (init_state K L S) in let e' := run_cfl K' L' cfl n t (init_state K' L' S') in
  fst e' = fst e /\ corresponding (relabel_idx tau) (relabel_cell tau) (relabel_vec tau) K K' dims dims' L L' (snd e) (snd e').
Proof.
  intros HA HK HX HG HR HR' Hs Hs'. cbv zeta.
  destruct (single_process _ _ _ _ _ HR) as [L1 R1]. destruct (single_process _ _ _ _ _ HR') as [L1' R1'].
  pose proof (ro_layout R1) as HL1. pose proof (ro_layout R1') as HL1'.
  set (S1 := the_state K L1 G). set (S1' := the_state K' L1' G').
  destruct (same_results_cfl K N dims X L HR L1 G S S1 cfl n t HL1 Hs (the_state_ok _ _ _ _)) as [F1 Q1].
  destruct (same_results_cfl K' N' dims' X' L' HR' L1' G' S' S1' cfl n t HL1' Hs' (the_state_ok _ _ _ _)) as [F1' Q1'].
  assert (Hloc : forall g, local K' (relabel_idx tau g) = relabel_idx tau (local K g)).
  { intros g. unfold local. rewrite (rl_nd _ _ _ HK), (rl_ng _ _ _ HK). apply idx_ext3. intros d Hd. pose proof (proj2 (ax_3 _ _ _ HA d) Hd) as Ht.
    unfold relabel_idx. rewrite !coord_mk3 by assumption. now rewrite (ghosts_tau _ _ _ _ d HA). }
  assert (Hsel := px_sel K K' sigma tau N N' X X' L1 L1' HA HK HX HL1 HL1').
  assert (HI : related K L1 (relabel_idx tau) (relabel_cell tau) (relabel_vec tau) (init_state K L1 S1) (init_state K' L1' S1')).
  { apply (init_sym K K' L1 L1' (relabel_idx tau) (relabel_cell tau) (relabel_vec tau) (rl_ng _ _ _ HK) Hsel).
    - exact (bcs_tau K K' sigma tau N N' X X' L1 L1' HA HK HX HL1 HL1' (ro_thick R1)).
    - exact (prim_tau K K' sigma tau N X L1 HA HK HL1).
    - exact (cons_tau K K' sigma tau N X L1 HA HK HL1).
    - exact (grav_tau K K' tau L1 L1' HK).
    - apply (starts_sym K K' N N' X X' L1 L1' (relabel_idx tau) (relabel_idx tau) (relabel_vec tau) HL1 HL1' Hloc G G').
      + intros c. destruct (HG c) as (E1 & E2 & E3 & E4). split; [exact E1|]. split; [apply functional_extensionality; exact E2|]. split; [exact E3|apply functional_extensionality; exact E4].
      + exact (Hsel 0%Z).
      + apply the_state_ok.
      + apply the_state_ok. }
  destruct (relabelled_cfl K K' sigma tau N N' X X' L1 L1' HA HK HX HL1 HL1' (ro_thick R1) (ro_ng R1) cfl n t S1 S1' HI) as [F2 Q2].
  split; [rewrite F1, F1'; exact F2|].
  exact (spread K K' N dims dims' X L L' L1 (relabel_idx tau) (relabel_idx tau) (relabel_cell tau) (relabel_vec tau) (ro_layout HR) HL1 Hloc _ _ _ _ Q2 Q1 Q1').
Qed.

Lemma symmetric_runs K sigma tau N dims X L G S cfl n t :
  axis_perm (k_nd K) sigma tau -> relabelled_run tau K K -> relabelled_mesh tau N N X X -> relabelled_fields tau G G ->
  runs_on K N dims X L -> starts_from K dims L G S ->
  let e := snd (run_cfl K L cfl n t (init_state K L S)) in
  forall r c r' c', process (k_nd K) dims r -> in_array (d_nwg (l_dec L r)) c ->
    process (k_nd K) dims r' -> in_array (d_nwg (l_dec L r')) c' -> cell_number K L r' c' = relabel_idx tau (cell_number K L r c) ->
    c_rho (s_cell (e r') c') = c_rho (s_cell (e r) c) /\ (forall d, c_rhou (s_cell (e r') c') d = c_rhou (s_cell (e r) c) (tau d)) /\
    c_E (s_cell (e r') c') = c_E (s_cell (e r) c) /\ s_P (e r') c' = s_P (e r) c.
Proof.
  intros HA HK HX HG HR HS. cbv zeta. intros r c r' c' Hr Hc Hr' Hc' E.
  destruct (relabelled_runs K K sigma tau N N dims dims X X L L G G S S cfl n t HA HK HX HG HR HR HS HS) as [_ Q].
  destruct (Q r c r' c' Hr Hc Hr' Hc' E) as (E1 & _ & E3). rewrite E1, E3. repeat split.
Qed.
