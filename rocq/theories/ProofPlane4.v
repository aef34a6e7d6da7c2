(** * Runs with more dimensions than the flow: process grids, time steps, the pressure fix (C107). *)
From Coq Require Import FunctionalExtensionality ZifyBool ZifyNat.
From Verif Require Import Base RBase ModelMesh ModelGeom ModelBoundary ModelHydro ModelScheme ModelStep
  SpecMesh SpecGeom SpecBoundary SpecHydro SpecScheme SpecStep SpecFill SpecSym SpecPlane
  ProofBase ProofMesh ProofR ProofBoundary ProofBoundary2 ProofHydro ProofScheme ProofShift ProofReduce ProofStep ProofStepEx ProofLayout ProofMPIGrid ProofSteady ProofCfl
  ProofFill ProofSym ProofSymAxes ProofSym2 ProofPlane ProofPlane2 ProofPlane3.
Local Open Scope R_scope.

Lemma extruded_runs K K' N N' dims dims' X X' L L' G G' S S' ts :
  extruded_run K K' -> extruded_mesh (k_nd K) N N' X X' -> no_flat_cells K N X -> no_flat_cells K' N' X' ->
  (k_pf K = None \/ even_along (k_nd K) (k_nd K') X') -> extruded_fields (k_nd K) (k_nd K') N N' G G' ->
  runs_on K N dims X L -> runs_on K' N' dims' X' L' -> starts_from K dims L G S -> starts_from K' dims' L' G' S' ->
  extruded_results K K' dims dims' L L' (run K L ts (init_state K L S)) (run K' L' ts (init_state K' L' S')).
Proof.
  intros HK HX NV NV' HE HG HR HR' Hs Hs'.
  destruct (single_process _ _ _ _ _ HR) as [L1 R1]. destruct (single_process _ _ _ _ _ HR') as [L1' R1'].
  pose proof (ro_layout R1) as HL1. pose proof (ro_layout R1') as HL1'.
  set (S1 := the_state K L1 G). set (S1' := the_state K' L1' G').
  destruct (same_results_run K N dims X L HR L1 G S S1 ts HL1 Hs (the_state_ok _ _ _ _)) as (A1 & A2 & A3).
  destruct (same_results_run K' N' dims' X' L' HR' L1' G' S' S1' ts HL1' Hs' (the_state_ok _ _ _ _)) as (B1 & B2 & B3).
  assert (HI : pl K K' L1 L1' (init_state K L1 S1) (init_state K' L1' S1')).
  { apply (init_more K K' N N' X X' L1 L1' HK HX HL1 HL1' (ro_ng R1) (ro_thick R1) (ro_thick R1')). intros c c' (H1 & H2 & H3).
    assert (O : forall Kx Nx Xx Lx x, laid_out Kx Nx one_process Xx Lx -> sel Kx Lx 0 rank0 x = true ->
      in_array Nx (cell_number Kx Lx rank0 x) /\ forall d, (d < 3)%nat -> coord d (cell_number Kx Lx rank0 x) = (coord d x - ghosts (k_nd Kx) (k_ng Kx) d)%Z).
    { intros Kx Nx Xx Lx x Hx Hy.
      assert (E : forall d, (d < 3)%nat -> coord d (cell_number Kx Lx rank0 x) = (coord d x - ghosts (k_nd Kx) (k_ng Kx) d)%Z).
      { intros d Hd. unfold cell_number, global_index. rewrite coord_mk3 by assumption. rewrite (s_cmin _ _ _ _ Hx) by assumption. lia. }
      split; [|exact E]. intros d Hd. rewrite (E d Hd). pose proof (proj1 (sel_spec _ _ _ _ _ _ _ _ Hx (rank0_ok _)) Hy d Hd) as Q.
      rewrite (serial_nloc _ _ Nx _ (l_dec Lx) _ (lo_dec Hx)) in Q by assumption. destruct (Nat.ltb d (k_nd Kx)); lia. }
    destruct (O _ _ _ _ _ HL1 H1) as [O1 O2]. destruct (O _ _ _ _ _ HL1' H2) as [O3 O4].
    destruct (HG _ _ O1 O3) as (E1 & E2 & E3 & E4).
    { intros d Hd. pose proof (dcp_nd (lo_dec HL1)). pose proof (xr_nd _ _ HK). pose proof (dcp_nd (lo_dec HL1')).
      rewrite O2, O4, (H3 d Hd) by lia. unfold ghosts. rewrite (xr_ng _ _ HK).
      destruct (Nat.ltb_spec d (k_nd K)); [|lia]. destruct (Nat.ltb_spec d (k_nd K')); [reflexivity|lia]. }
    unfold S1, S1', the_state. cbn [s_cell s_u s_P c_rho c_fx]. fold (cell_number K L1 rank0 c) (cell_number K' L1' rank0 c').
    split; [exact E1|]. split; [exact E2|]. split; [exact E3|exact E4]. }
  pose proof (run_more K K' N N' X X' L1 L1' HK HX NV NV' HE HL1 HL1' (ro_ng R1) (ro_thick R1) (ro_thick R1') ts _ _ HI) as HP.
  intros r c r' c' Hr Hc Hr' Hc' E. cbv zeta.
  rewrite (A1 r Hr c Hc), (A2 r Hr c Hc), (A3 r Hr c Hc), (B1 r' Hr' c' Hc'), (B2 r' Hr' c' Hc'), (B3 r' Hr' c' Hc').
  rewrite <- !(number_local K L r c), <- !(number_local K' L' r' c').
  destruct (HP (local K (cell_number K L r c)) (local K' (cell_number K' L' r' c'))) as ((P1 & P2 & P3 & P4) & P5 & P6 & _).
  - split; [|split].
    + rewrite number_local. apply (sel_slice K N dims X L L1 (ro_layout HR) HL1); [exact Hr|]. now apply (sel_array _ _ _ _ _ _ _ (ro_layout HR) Hr).
    + rewrite number_local, <- (xr_ng _ _ HK). apply (sel_slice K' N' dims' X' L' L1' (ro_layout HR') HL1'); [exact Hr'|]. now apply (sel_array _ _ _ _ _ _ _ (ro_layout HR') Hr').
    + intros d Hd. pose proof (dcp_nd (lo_dec HL1)). pose proof (xr_nd _ _ HK). unfold local. rewrite !coord_mk3 by lia. rewrite (E d Hd).
      unfold ghosts. rewrite (xr_ng _ _ HK). destruct (Nat.ltb_spec d (k_nd K)); [|lia]. destruct (Nat.ltb_spec d (k_nd K')); [reflexivity|lia].
  - repeat split; try assumption; (apply P2 || apply P5).
Qed.

(** ** Time steps *)
Lemma vsum_longer n n' f f' : (n < n')%nat -> (forall d, (d < n)%nat -> f' d = f d) -> (forall d, (n <= d < n')%nat -> 0 < f' d) -> vsum n f < vsum n' f'.
Proof.
  intros Hn H1 H2. assert (A : vsum n f' = vsum n f) by (apply vsum_ext; exact H1).
  assert (B : forall k, (n + S k <= n')%nat -> vsum n f < vsum (n + S k) f').
  { induction k as [|k IH]; intros Hk.
    - rewrite Nat.add_1_r. cbn [vsum]. rewrite A. pose proof (H2 n ltac:(lia)). lra.
    - rewrite Nat.add_succ_r. cbn [vsum]. pose proof (IH ltac:(lia)). pose proof (H2 (n + S k)%nat ltac:(lia)). lra. }
  replace n' with (n + S (n' - n - 1))%nat by lia. apply B. lia.
Qed.

Lemma shorter_steps K K' N N' X X' L L' S S' : lawful_eos (k_eos K) ->
  extruded_run K K' -> extruded_mesh (k_nd K) N N' X X' -> (k_nd K < k_nd K')%nat ->
  runs_on K N one_process X L -> runs_on K' N' one_process X' L' -> extruded_results K K' one_process one_process L L' S S' ->
  (forall c, in_array (d_nwg (l_dec L rank0)) c -> 0 < c_rho (s_cell (S rank0) c) /\ 0 < s_P (S rank0) c /\
     forall d, (d < k_nd K)%nat -> 0 < width (k_geom K) (l_mesh L rank0) c d) ->
  (forall c, in_array (d_nwg (l_dec L' rank0)) c -> 0 < c_rho (s_cell (S' rank0) c) /\ 0 < s_P (S' rank0) c /\
     forall d, (d < k_nd K')%nat -> 0 < width (k_geom K') (l_mesh L' rank0) c d) ->
  exists h h', time_step K L S = Some h /\ time_step K' L' S' = Some h' /\ 0 < h' < h.
Proof.
  intros He HK HX Hlt HR HR' HE HP HP'. pose proof (ro_layout HR) as HL. pose proof (ro_layout HR') as HL'.
  pose proof (dcp_nd (lo_dec HL)) as D1. pose proof (dcp_nd (lo_dec HL')) as D2.
  assert (R0 : forall nd r, process nd one_process r -> r = rank0).
  { intros nd r Hr. apply idx_ext. intros d Hd. specialize (Hr d Hd). rewrite mpi_dims_one, coord_one in Hr. rewrite coord_rank0. lia. }
  destruct (time_step_defined K N one_process X L HL S) as (h & Eh). destruct (time_step_defined K' N' one_process X' L' HL' S') as (h' & Eh').
  exists h, h'. split; [exact Eh|]. split; [exact Eh'|].
  destruct (cfl_bound K N one_process X L HL S h He) as (Ph & _ & (r & c & Hr & Hc & Q)); [|exact Eh|].
  { intros r c Hr Hc. pose proof (R0 _ _ Hr); subst r. apply HP. exact (owned_in_array K N one_process X L HL rank0 c Hr Hc). }
  assert (He' : lawful_eos (k_eos K')) by (rewrite (xr_eos _ _ HK); exact He).
  destruct (cfl_bound K' N' one_process X' L' HL' S' h' He') as (Ph' & Q' & _); [|exact Eh'|].
  { intros r' c' Hr' Hc'. pose proof (R0 _ _ Hr'); subst r'. apply HP'. exact (owned_in_array K' N' one_process X' L' HL' rank0 c' Hr' Hc'). }
  pose proof (R0 _ _ Hr); subst r.
  set (c' := mk3 (fun d => if Nat.ltb d (k_nd K) then coord d c else 0%Z)).
  assert (Hc' : in_array (d_nwg (l_dec L' rank0)) c').
  { intros d Hd. unfold c'. rewrite coord_mk3 by assumption. rewrite (s_ext _ _ _ _ HL') by assumption. specialize (Hc d Hd). rewrite (s_ext _ _ _ _ HL) in Hc by assumption.
    pose proof (dcp_n (lo_dec HL') Hd). pose proof (ro_ng HR). unfold ghosts in *. rewrite (xr_ng _ _ HK). destruct (Nat.ltb_spec d (k_nd K)) as [B|B].
    - destruct (HX d B) as [-> _]. destruct (Nat.ltb_spec d (k_nd K')); lia.
    - destruct (Nat.ltb d (k_nd K')); lia. }
  assert (Hab : forall d, (d < k_nd K)%nat -> coord d c' = coord d c).
  { intros d Hd. unfold c'. rewrite coord_mk3 by lia. destruct (Nat.ltb_spec d (k_nd K)); [reflexivity|lia]. }
  destruct (HE rank0 c rank0 c' (rank0_ok _) Hc (rank0_ok _) Hc') as (E1 & _ & _ & _ & (E5 & _) & E6).
  { intros d Hd. unfold cell_number, global_index. rewrite !coord_mk3 by lia. rewrite (s_cmin _ _ _ _ HL), (s_cmin _ _ _ _ HL') by lia. rewrite (Hab d Hd).
    unfold ghosts. rewrite (xr_ng _ _ HK). destruct (Nat.ltb_spec d (k_nd K)); [|lia]. destruct (Nat.ltb_spec d (k_nd K')); [reflexivity|lia]. }
  assert (M : forall d i, (d < k_nd K)%nat -> l_mesh L' rank0 d i = l_mesh L rank0 d i).
  { intros d i Hd. rewrite (set_grid_at _ _ _ (lo_mesh HL' (rank0_ok _))), (set_grid_at _ _ _ (lo_mesh HL (rank0_ok _))) by lia.
    rewrite (s_cmin _ _ _ _ HL), (s_cmin _ _ _ _ HL') by lia. apply HX. exact Hd. }
  assert (Lt : crossing_rate K L S rank0 c < crossing_rate K' L' S' rank0 c').
  { unfold crossing_rate. rewrite E1, E6, (xr_eos _ _ HK), (xr_geom _ _ HK). apply vsum_longer; [exact Hlt| |]; intros d Hd.
    - rewrite E5 by assumption. f_equal. unfold width. pose proof (Hab 0%nat ltac:(lia)) as C0. rewrite C0, !(M 0%nat) by lia.
      destruct (k_geom K); [now rewrite (Hab d Hd), !(M d)|].
      destruct d as [|[|[|d]]]; [now rewrite ?C0, ?(M 0%nat) by lia| | |lia].
      + now rewrite (Hab 1%nat Hd), !(M 1%nat).
      + now rewrite (Hab 1%nat ltac:(lia)), (Hab 2%nat Hd), !(M 1%nat), !(M 2%nat) by lia.
    - destruct (HP c Hc) as (P1 & P2 & _). destruct (HP' c' Hc') as (_ & _ & W). rewrite (xr_geom _ _ HK) in W. pose proof (W d ltac:(lia)) as W0.
      pose proof (law_sound_pos _ He _ _ P1 P2). pose proof (Rabs_pos (s_u (S' rank0) c' d)). apply Rdiv_lt_0_compat; lra. }
  specialize (Q' rank0 c' (rank0_ok _) Hc'). split; [exact Ph'|].
  destruct (Rlt_or_le h' h) as [|B]; [assumption|]. exfalso. set (v := crossing_rate K L S rank0 c) in *. set (v' := crossing_rate K' L' S' rank0 c') in *.
  assert (0 < v). { destruct (Rlt_or_le 0 v); [assumption|nra]. }
  assert (h * v < h * v') by (apply Rmult_lt_compat_l; assumption). assert (h * v' <= h' * v') by (apply Rmult_le_compat_r; lra). lra.
Qed.
