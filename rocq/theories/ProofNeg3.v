(** * "Low Mach" keeps densities positive (C104). *)
From Coq Require Import FunctionalExtensionality ZifyBool ZifyNat Lra Psatz.
From Verif Require Import Base RBase ModelMesh ModelGeom ModelBoundary ModelHydro ModelScheme ModelStep ModelMain
  SpecMesh SpecGeom SpecBoundary SpecHydro SpecScheme SpecStep SpecSetup SpecMain SpecPos SpecNeg
  ProofBase ProofMesh ProofR ProofBoundary ProofBoundary2 ProofHydro ProofHydro2 ProofScheme ProofMirror ProofShift ProofReduce ProofStep ProofSteady ProofCfl ProofLayout ProofMain ProofMain2 ProofMainEx ProofJump ProofPos ProofPos2.
Local Open Scope R_scope.

(** ** One face *)
Section Face.
Variables (nd : nat) (e : eos).
Hypothesis He : lawful_eos e.
Hypothesis Hrob : robust_eos e.
Hypothesis Hps : pressure_below_sound e.

Lemma sixth_bound PL PR rc1 rc2 cL cR a : 0 < PL -> 0 < PR -> 0 < cL -> 0 < cR -> 0 < rc1 -> 0 < rc2 ->
  PL <= rc1 * cL -> PR <= rc2 * cR -> rc1 <= a -> rc2 <= a ->
  Rabs (1 / (2 * (11 / 10 * a)) * (PR - PL)) <= Rmax cL cR / 2.
Proof.
  intros HL HR Hc1 Hc2 H1 H2 B1 B2 A1 A2. assert (Ha : 0 < a) by lra.
  set (k := 1 / (2 * (11 / 10 * a))). assert (Hk : 0 < k) by (unfold k; apply Rdiv_lt_0_compat; lra).
  assert (Hka : k * a <= 1 / 2). { unfold k. replace (1 / (2 * (11 / 10 * a)) * a) with (5 / 11) by (field; lra). lra. }
  pose proof (Rmax_l cL cR) as M1. pose proof (Rmax_r cL cR) as M2. set (M := Rmax cL cR) in *.
  assert (k * PL <= M / 2). { apply Rle_trans with (k * (a * M)); [apply Rmult_le_compat_l; [lra|nra]|nra]. }
  assert (k * PR <= M / 2). { apply Rle_trans with (k * (a * M)); [apply Rmult_le_compat_l; [lra|nra]|nra]. }
  assert (0 < k * PL) by nra. assert (0 < k * PR) by nra.
  apply Rabs_le. rewrite Rmult_minus_distr_l. lra.
Qed.

Lemma splitting_density qL qR dir T : valid_cons nd qL -> valid_cons nd qR -> speed nd e qL dir <= T -> speed nd e qR dir <= T ->
  let f := f_rho (splitting nd e qL qR dir) in - (T * q_rho qR) < f < T * q_rho qL.
Proof.
  intros VL VR BL BR. unfold splitting. cbv zeta. cbn [f_rho]. rewrite !(pressure_to_prim nd e) by assumption.
  cbn [to_prim p_rho p_u]. fold (velocity qL dir) (velocity qR dir). 
  destruct (state_facts nd e He Hrob _ VL) as (PL & CL & _). destruct (state_facts nd e He Hrob _ VR) as (PR & CR & _).
  pose proof (Hps _ _ (proj1 VL) PL) as SL. pose proof (Hps _ _ (proj1 VR) PR) as SR. unfold speed in BL, BR. unfold sound in *.
  set (cL := eos_sound e (q_rho qL) _) in *. set (cR := eos_sound e (q_rho qR) _) in *.
  change (q_m qL dir / q_rho qL) with (velocity qL dir). change (q_m qR dir / q_rho qR) with (velocity qR dir).
  destruct VL as [RL _]. destruct VR as [RR _].
  set (a := Rmax (q_rho qL * cL) (q_rho qR * cR)).
  assert (B : Rabs (1 / (2 * (11 / 10 * a)) * (pressure nd e qR - pressure nd e qL)) <= Rmax cL cR / 2).
  { apply (sixth_bound _ _ (q_rho qL * cL) (q_rho qR * cR)); try assumption; try nra; [apply Rmax_l|apply Rmax_r]. }
  set (z := 1 / _ * _) in *. set (us := _ - z).
  assert (HU : Rabs us < T).
  { assert (Hz : Rabs us <= (Rabs (velocity qL dir) + Rabs (velocity qR dir)) / 2 + Rabs z).
    { unfold us. unfold Rminus. eapply Rle_trans; [apply Rabs_triang|]. rewrite Rabs_Ropp. apply Rplus_le_compat_r.
      unfold Rdiv. rewrite Rabs_mult, (Rabs_right (/ 2)) by lra. apply Rmult_le_compat_r; [lra|apply Rabs_triang]. }
    unfold Rmax in B. destruct (Rle_dec cL cR); lra. }
  apply Rabs_def2 in HU. destruct HU as [U1 U2].
  destruct (rltb 0 us) eqn:E; [apply rltb_true in E|apply rltb_false in E]; split; nra.
Qed.
End Face.

(** ** Whole steps *)
Section Run.
Context (K : config) (N dims : idx) (X : nat -> arr1) (L : layout) (q cfl : R).
Hypothesis HR : runs_on K N dims X L.
Hypothesis He : lawful_eos (k_eos K).
Hypothesis Hrob : robust_eos (k_eos K).
Hypothesis Hps : pressure_below_sound (k_eos K).
Hypothesis HF : first_order K.
Hypothesis Hincr : increasing (k_nd K) N (k_ng K) X.
Hypothesis Hgrad : graded (k_nd K) N (k_ng K) X q.
Hypothesis Hsol : k_sol K = LowMach.
Hypothesis Hq : 1 <= q.
Hypothesis Hcfl : 0 < cfl.
Hypothesis Hcfl2 : 2 * INR (k_nd K) * q * cfl <= 1.
Notation nd := (k_nd K).
Notation ng := (k_ng K).
Notation vr := (process nd dims).
Notation own r := (owned nd ng (d_nloc (l_dec L r))).
Notation arr r := (in_array (d_nwg (l_dec L r))).
Let HL := ro_layout HR.
Let HD := lo_dec HL.
Let Hnd : (1 <= nd <= 3)%nat := dcp_nd HD.

Lemma lm_owned S t dt r c : sound_state K dims L S -> 0 < dt ->
  (forall r c, vr r -> arr r c -> dt * crossing_rate K L S r c <= cfl) ->
  vr r -> own r c -> 0 < c_rho (step_user K L t dt S r c).
Proof.
  intros HS Hdt Hrate Hr Hc.
  pose proof (proj2 (sel_owned _ _ _ _ _ _ _ HL Hr) Hc) as Hs.
  unfold step_user, user_step. rewrite kwrite_in by assumption. rewrite (fo_user HF). cbn [user_cell].
  unfold step_pf. rewrite (fo_pf HF). unfold step_godunov, godunov. rewrite kwrite_in by assumption. rewrite (fo_geom HF).
  pose proof (owned_in_array K N dims X L HL r c Hr Hc) as Ha. destruct (HS r c Hr Ha) as (V0 & _ & _ & Hg).
  assert (Hst : forall x, in_stencil nd c x -> arr r x /\ sel K L 1 r x = true).
  { intros x Hx. pose proof (owned_sel1 K N dims X L HL r c x Hr Hc Hx) as H. split; [|exact H].
    exact (sel1_array K N dims X L HL (ro_ng HR) r x Hr H). }
  pose proof (width_pos K N dims X L HR Hincr) as WP.
  assert (Hpw : forall d, (d < 3)%nat -> 0 < mdx (l_mesh L r) d (coord d c)) by (intros d Hd; now apply WP).
  change (0 < q_rho (cons_of (god_cell Cartesian nd (k_eos K) (k_sol K) (l_mesh L r) (s_grav (S r)) dt (s_cell (S r)) (step_rec K L dt S r) c))).
  apply (update_pos nd (l_mesh L r) dt c ltac:(lia) Hpw (k_eos K) (k_sol K) (s_grav (S r)) (s_cell (S r)) (step_rec K L dt S r) Hg _ _
    (2 * q * cfl) (fun d => 2 * (q * cfl * mdx (l_mesh L r) d (coord d c) / dt)) (F_rho nd) ltac:(lia) Hdt); [apply V0|lra| |].
  - intros d Hd. pose proof (Hpw d ltac:(lia)). field. lra.
  - intros d Hd. unfold flux_left, flux_right, face_flux.
    destruct (Hst _ (or_introl eq_refl)) as [_ Sc]. destruct (Hst _ (st_l K c d Hd)) as [Al Sl]. destruct (Hst _ (st_r K c d Hd)) as [Ar Sr].
    rewrite !(sound_rec K N dims X L HR He HF) by (assumption || lia).
    assert (B : forall x, arr r x -> mdx (l_mesh L r) d (coord d x) <= q * mdx (l_mesh L r) d (coord d c) ->
      speed nd (k_eos K) (cons_of (s_cell (S r) x)) d <= q * cfl * mdx (l_mesh L r) d (coord d c) / dt).
    { intros x Ax Wx. pose proof (cell_speed K N dims X L HR He Hrob HF Hincr S r x d HS Hr Ax Hd) as H1. pose proof (Hrate r x Hr Ax) as H2.
      pose proof (WP r x d Hr Ax ltac:(lia)) as W. set (w := mdx (l_mesh L r) d (coord d x)) in *. set (sp := speed _ _ _ d) in *.
      assert (H3 : dt * (sp / w) <= cfl) by (eapply Rle_trans; [|exact H2]; apply Rmult_le_compat_l; lra).
      apply (Rmult_le_reg_r dt); [exact Hdt|]. unfold Rdiv at 1. rewrite Rmult_assoc, Rinv_l, Rmult_1_r by lra.
      replace (sp * dt) with (dt * (sp / w) * w) by (field; lra).
      apply Rle_trans with (cfl * w); [apply Rmult_le_compat_r; lra|]. rewrite (Rmult_comm q cfl), Rmult_assoc. apply Rmult_le_compat_l; lra. }
    pose proof (Hpw d ltac:(lia)) as W0.
    assert (B0 := B c Ha ltac:(nra)).
    assert (Bl := B _ Al (width_ratio K N dims X L q HR Hgrad r c _ d Hr Ha Al Hd (or_intror (coord_lindex_same d c ltac:(lia))))).
    assert (Br := B _ Ar (width_ratio K N dims X L q HR Hgrad r c _ d Hr Ha Ar Hd (or_introl (coord_rindex_same d c ltac:(lia))))).
    rewrite Hsol. cbn [riemann]. set (T := q * cfl * _ / dt) in *.
    destruct (splitting_density nd (k_eos K) He Hrob Hps _ _ d T (proj1 (HS r _ Hr Al)) V0 Bl B0) as [F1 _].
    destruct (splitting_density nd (k_eos K) He Hrob Hps _ _ d T V0 (proj1 (HS r _ Hr Ar)) B0 Br) as [_ F2]. lra.
Qed.

Lemma lm_step S t dt : sound_state K dims L S -> 0 < dt ->
  (forall r c, vr r -> arr r c -> dt * crossing_rate K L S r c <= cfl) ->
  forall r c, vr r -> arr r c -> 0 < c_rho (s_cell (full_step K L t dt S r) c).
Proof.
  intros HS Hdt Hrate r c Hr Hc. unfold full_step. cbn [finish s_cell].
  apply (bcs_all K N dims X L HL (fun x => 0 < c_rho x)); [exact (ro_thick HR)|exact (ro_faces HR)| | |exact Hr|exact Hc].
  - intros f x _ _ H. exact H.
  - intros r' c' Hr' Hc'. now apply lm_owned.
Qed.

(** *** The loop: velocities, pressures and gravity are always those of the conserved variables. *)
Definition kept (S : idx -> pstate) : Prop :=
  forall r c, vr r -> arr r c ->
    (forall k, s_u (S r) c k = velocity (cons_of (s_cell (S r) c)) k) /\
    s_P (S r) c = p_P (to_prim nd (k_eos K) (cons_of (s_cell (S r) c))) /\ (forall j, s_grav (S r) c j = 0).
Lemma kept_finish A rec new S : kept (finish K L A rec new S).
Proof.
  intros r c Hr Hc. pose proof (proj2 (sel_array _ _ _ _ _ _ _ HL Hr) Hc) as Hs.
  cbn [finish s_cell s_u s_P s_grav conv_cons_to_prim fst snd]. unfold kwrite. rewrite Hs.
  change (mkCons (c_rho (A r c)) (c_rhou (A r c)) (c_E (A r c))) with (cons_of (A r c)).
  split; [reflexivity|]. split; [reflexivity|].
  intros j. destruct (fo_grav HF) as (g & Eg & Hg). unfold gravity_values. rewrite Eg. apply Hg.
Qed.
Lemma kept_sound S : kept S -> physical K dims L S -> sound_state K dims L S.
Proof.
  intros HK HP r c Hr Hc. destruct (HK r c Hr Hc) as (K1 & K2 & K3). destruct (HP r c Hr Hc) as [P1 _].
  split; [exact P1|]. split; [exact K1|]. split; [|exact K3]. rewrite K2. now apply pressure_to_prim.
Qed.

Lemma lm_density G S p clock n m m' v : starts_from K dims L G S -> p_t_ini p < p_t_end p ->
  loop (hydro K L cfl) p clock n (fresh p (init_state K L S)) = (m, Going) -> physical K dims L (m_st m) ->
  loop (hydro K L cfl) p clock (Datatypes.S n) (fresh p (init_state K L S)) = (m', v) -> completed v ->
  forall r c, vr r -> arr r c -> 0 < c_rho (s_cell (m_st m' r) c).
Proof.
  intros _ Ht E HP E' Hv. rewrite (loop_snoc _ _ _ _ _ _ E) in E'.
  assert (HI : kept (m_st m) /\ m_t m < p_t_end p).
  { refine (loop_going _ _ _ _ _ _ E (fun _ m => kept (m_st m) /\ m_t m < p_t_end p) _ _).
    - unfold fresh. destruct (_ || _)%bool; cbn [m_st m_t output write next_id]; (split; [apply kept_finish|exact Ht]).
    - intros k m1 m2 _ _ Hb. destruct (body_inv _ _ _ _ _ _ Hb (or_introl eq_refl)) as (o1 & iid & o2 & tid & dt2 & s1 & dt & _ & _ & _ & E3 & _ & Em & Ev).
      set (stop := (s1 || _ || _)%bool) in Em.
      destruct (step_of_fields (hydro K L cfl) m1 o1 iid o2 tid stop dt) as (_ & _ & _ & E4 & Es & _). rewrite <- Em in Es, E4. rewrite Es, E4.
      split; [apply kept_finish|]. destruct (clip_inv _ _ _ _ _ E3) as [(_ & -> & _)|(Q & _ & ->)]; [cbn in Ev; discriminate|exact Q]. }
  destruct HI as [HK HT]. pose proof (kept_sound _ HK HP) as HS.
  destruct (time_step_defined K N dims X L HL (m_st m)) as (h & Eh).
  destruct (cfl_bound K N dims X L HL (m_st m) h He) as (H0 & Hrr & _); [|exact Eh|].
  { intros r c Hr Hc. pose proof (owned_in_array K N dims X L HL r c Hr Hc) as Ha. destruct (HP r c Hr Ha) as [[W1 _] W2].
    split; [exact W1|]. split; [exact W2|]. intros d Hd. rewrite (fo_geom HF), (width_mdx K N dims X L HR) by lia. apply (width_pos K N dims X L HR Hincr); (assumption || lia). }
  destruct (body_inv _ _ _ _ _ _ E' Hv) as (o1 & iid & o2 & tid & dt2 & s1 & dt & _ & _ & E2 & E3 & _ & Em & _).
  cbv zeta in Em. set (stop := (s1 || _ || _)%bool) in Em.
  destruct (step_of_fields (hydro K L cfl) m o1 iid o2 tid stop dt) as (_ & _ & _ & _ & Es & _). rewrite <- Em in Es. rewrite Es. cbn [hydro y_step].
  cbn [hydro y_dt] in E2. rewrite Eh in E2.
  assert (D : 0 < dt <= cfl * h).
  { assert (0 < cfl * h) by nra. destruct (time_schedule_inv _ _ _ _ _ _ E2) as [(_ & _ & _ & Q)|(F & [(Q1 & Q2 & _ & _ & Q)|(_ & _ & _ & Q)])];
      destruct (clip_inv _ _ _ _ _ E3) as [(P1 & _ & P)|(_ & _ & P)]; subst dt dt2; lra. }
  apply lm_step; [exact HS|lra|]. intros r c Hr Hc. specialize (Hrr r c Hr Hc).
  set (x := crossing_rate K L (m_st m) r c) in *. destruct (Rle_lt_dec 0 x) as [Q|Q]; [|nra].
  apply Rle_trans with (cfl * h * x); [apply Rmult_le_compat_r; lra|nra].
Qed.
End Run.

Lemma perfect_gas_below g : 1 < pg_gamma g -> 0 < pg_mmw g -> pressure_below_sound (pg_eos g).
Proof.
  intros Hg Hm rho P Hr HP. cbn [pg_eos eos_sound]. destruct (pg_sound_sq g (conj Hg Hm) rho P Hr HP) as [E _].
  replace (pg_sound g rho P ^ 2) with (pg_sound g rho P * pg_sound g rho P) by ring. rewrite E.
  replace (rho * (pg_gamma g * P / rho)) with (pg_gamma g * P) by (field; lra). nra.
Qed.
