(** * C104: the statements and an example. *)
From Coq Require Import Lra.
From Verif Require Import Base RBase ModelMesh ModelGeom ModelBoundary ModelHydro ModelScheme ModelStep ModelMain
  SpecMesh SpecGeom SpecBoundary SpecHydro SpecScheme SpecStep SpecSetup SpecSource SpecMain SpecPos SpecNeg
  ProofBase ProofHydro ProofLayout ProofMain ProofPos ProofPos2 ProofPosEx ProofNeg ProofNeg2 ProofNeg3.
Local Open Scope R_scope.

Lemma tri_cells s : three_cells s (tri_K s) tri_N one_process tri_X (tri_L s).
Proof.
  split; try reflexivity.
  - exact (tri_runs s).
  - exists tri_gas. split; [reflexivity|]. cbn. lra.
  - intros i. cbn [tri_X a_at]. rewrite plus_IZR. lra.
Qed.
Lemma tri_fields p0 p1 p2 : valid_prim p0 -> valid_prim p1 -> valid_prim p2 -> forall c, 0 < g_rho (tri_G p0 p1 p2) c /\ 0 < g_P (tri_G p0 p1 p2) c.
Proof. intros H0 H1 H2 c. exact (tri_valid p0 p1 p2 H0 H1 H2 (ii c)). Qed.
Lemma tri_positive s cfl G : (s = HLL /\ 0 < cfl <= 1) \/ (s = HLLC /\ 0 < cfl <= 1 / 2) -> (forall c, 0 < g_rho G c /\ 0 < g_P G c) ->
  forall p clock n m v, p_t_ini p < p_t_end p ->
  loop (hydro (tri_K s) (tri_L s) cfl) p clock n (fresh p (init_state (tri_K s) (tri_L s) (the_state (tri_K s) (tri_L s) G))) = (m, v) ->
  physical (tri_K s) one_process (tri_L s) (m_st m) /\ v <> Failed "detected invalid volumic internal energy".
Proof.
  intros Hs HG p clock n m v Ht E. destruct (tri_eos s) as [He Hr].
  destruct (positive_loop (tri_K s) tri_N one_process tri_X (tri_L s) 1 cfl (tri_runs s) He Hr (tri_first s) tri_increasing tri_graded) with (G := G) (S := the_state (tri_K s) (tri_L s) G) (p := p) (clock := clock) (n := n) (m := m) (v := v)
    as (A & _ & C); try assumption; [|apply the_state_ok|auto].
  destruct Hs as [[-> H]|[-> H]]; (split; [lra|]; split; [lra|]; cbn; lra).
Qed.

Definition fails_in_second (s : solver) (cfl : R) : Prop :=
  forall p clock, p_time_freq p <= 0 -> (p_iter_freq p <= 0)%Z -> (2 <= p_max_iter p)%Z -> (forall i, clock i = false) ->
  p_t_ini p + cfl < p_t_end p ->
  exists K N dims X L G S m, three_cells s K N dims X L /\ starts_from K dims L G S /\ (forall c, 0 < g_rho G c /\ 0 < g_P G c) /\
  loop (hydro K L cfl) p clock 2 (fresh p (init_state K L S)) = (m, Failed "detected invalid volumic internal energy") /\ m_iter m = 1%Z /\
  (exists r c, process 1 dims r /\ owned 1 (k_ng K) (d_nloc (l_dec L r)) c /\
     0 < c_rho (s_cell (m_st m r) c) /\ internal 1 (conserved_of (s_cell (m_st m r) c)) < 0) /\
  (forall n m v, loop (hydro (with_solver HLL K) L (Rmin cfl 1)) p clock n (fresh p (init_state (with_solver HLL K) L S)) = (m, v) ->
     physical (with_solver HLL K) dims L (m_st m) /\ v <> Failed "detected invalid volumic internal energy").

Lemma fails_from s cfl p0 p1 p2 : 0 < cfl -> valid_prim p0 -> valid_prim p1 -> valid_prim p2 ->
  (forall p clock, p_time_freq p <= 0 -> (p_iter_freq p <= 0)%Z -> (2 <= p_max_iter p)%Z -> (forall i, clock i = false) -> p_t_ini p + cfl < p_t_end p ->
   let K := tri_K s in let L := tri_L s in let G := tri_G p0 p1 p2 in
   exists m, loop (hydro K L cfl) p clock 2 (fresh p (init_state K L (the_state K L G))) = (m, Failed "detected invalid volumic internal energy") /\
   m_iter m = 1%Z /\ 0 < q_rho (cons_of (s_cell (m_st m pid0) mid)) /\ internal 1 (cons_of (s_cell (m_st m pid0) mid)) < 0) ->
  fails_in_second s cfl.
Proof.
  intros Hc V0 V1 V2 H p clock H1 H2 H3 H4 H5. destruct (H p clock H1 H2 H3 H4 H5) as (m & E & Ei & Hr & Hi).
  exists (tri_K s), tri_N, one_process, tri_X, (tri_L s), (tri_G p0 p1 p2), (the_state (tri_K s) (tri_L s) (tri_G p0 p1 p2)), m.
  split; [apply tri_cells|]. split; [apply the_state_ok|]. split; [now apply tri_fields|]. split; [exact E|]. split; [exact Ei|]. split.
  - exists pid0, mid. split; [exact pid0_ok|]. split; [exact (proj1 (tri_three s p0 p1 p2))|]. split; [exact Hr|exact Hi].
  - intros n m' v E'. apply (tri_positive HLL (Rmin cfl 1) (tri_G p0 p1 p2)) with (p := p) (clock := clock) (n := n).
    + left. split; [reflexivity|]. split; [apply Rmin_glb_lt; lra|apply Rmin_r].
    + now apply tri_fields.
    + lra.
    + exact E'.
Qed.
Lemma hllc_refuted cfl : 3 / 4 <= cfl <= 1 -> fails_in_second HLLC cfl.
Proof.
  intros H. destruct hc_valid as (V0 & V1 & V2). apply (fails_from HLLC cfl hc_L hc_M hc_R); try assumption; [lra|].
  intros p clock H1 H2 H3 H4 H5. now apply hllc_fails.
Qed.
Lemma lowmach_refuted cfl : 0 < cfl -> fails_in_second LowMach cfl.
Proof.
  intros H. assert (Hd : 0 < lm_d cfl <= 1 / 2) by (unfold lm_d; split; [apply Rmin_glb_lt; lra|apply Rmin_l]).
  destruct (lm_valid _ Hd) as [V0 V2]. apply (fails_from LowMach cfl (lm_cold (lm_d cfl)) (lm_cold (lm_d cfl)) (lm_hot (lm_d cfl))); try assumption.
  intros p clock H1 H2 H3 H4 H5. now apply lowmach_fails.
Qed.

Lemma neg_example : let K := tri_K LowMach in let L := tri_L LowMach in let G := tri_G (lm_cold (1 / 40)) (lm_cold (1 / 40)) (lm_hot (1 / 40)) in
  runs_on K tri_N one_process tri_X L /\ lawful_eos (k_eos K) /\ robust_eos (k_eos K) /\ pressure_below_sound (k_eos K) /\ first_order K /\
  increasing 1 tri_N 2 tri_X /\ graded 1 tri_N 2 tri_X 1 /\ 2 * INR 1 * 1 * (1 / 2) <= 1 /\
  starts_from K one_process L G (the_state K L G) /\ physical K one_process L (init_state K L (the_state K L G)) /\
  exists c c', g_u G c 0%nat <> g_u G c' 0%nat /\ g_P G c <> g_P G c'.
Proof.
  intros K L G. destruct (tri_eos LowMach) as [He Hr]. assert (Hd : 0 < 1 / 40 <= 1 / 2) by lra. destruct (lm_valid _ Hd) as [V0 V2].
  split; [exact (tri_runs LowMach)|]. split; [exact He|]. split; [exact Hr|]. split; [apply perfect_gas_below; cbn; lra|].
  split; [exact (tri_first LowMach)|]. split; [exact tri_increasing|]. split; [exact tri_graded|]. split; [cbn; lra|].
  split; [apply the_state_ok|]. split.
  - apply (sound_physical K one_process L He). now apply tri_sound.
  - exists (I3 1 0 0), (I3 2 0 0). unfold G. cbn. split; lra.
Qed.
