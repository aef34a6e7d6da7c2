(** * Mirror symmetry of the kernels in any sign-symmetric arithmetic (C97). *)
From Verif Require Import Base RBase ModelMesh ModelGeom ModelBoundary ModelHydro ModelScheme ModelStep ModelArith SpecMirror
  ProofBase ProofR.
Local Open Scope R_scope.

Section Bits.
Variables (A : arith) (same : R -> R -> Prop) (nonzero finite : R -> Prop).
Hypothesis HA : sign_symmetric A same nonzero finite.
Notation "x ⊕ y" := (a_add A x y) (at level 50, left associativity).
Notation "x ⊖ y" := (a_sub A x y) (at level 50, left associativity).
Notation "x ⊗ y" := (a_mul A x y) (at level 40, left associativity).
Notation "x ⊘ y" := (a_div A x y) (at level 40, left associativity).
Notation zero := (a_lit A 0%Z 0%nat).
Notation two := (a_lit A 2%Z 0%nat).
Notation tw := (twin same).

Lemma same_l x y : same x y -> same x x.
Proof. intros H. exact (ss_trans HA _ _ _ H (ss_sym HA _ _ H)). Qed.
Lemma same_r x y : same x y -> same y y.
Proof. intros H. exact (ss_trans HA _ _ _ (ss_sym HA _ _ H) H). Qed.
Lemma sgb_same b x y : same x y -> same (sgb b x) (sgb b y).
Proof. destruct b; cbn [sgb]; [apply (ss_opp HA)|auto]. Qed.
Lemma sgb_sgb b x : sgb b (sgb b x) = x.
Proof. destruct b; cbn [sgb]; ring. Qed.
Lemma sgb_xorb b c x : sgb (xorb b c) x = sgb b (sgb c x).
Proof. destruct b, c; cbn [sgb xorb]; ring. Qed.
Lemma sgb_negb b x : sgb (negb b) x = - sgb b x.
Proof. destruct b; cbn [sgb negb]; ring. Qed.
Lemma twin_l b x x' : tw b x x' -> same x x.
Proof. intros H. apply same_r in H. apply (sgb_same b) in H. now rewrite sgb_sgb in H. Qed.
Lemma twin_r b x x' : tw b x x' -> same x' x'.
Proof. apply same_l. Qed.
Lemma twin_sym b x x' : tw b x x' -> tw b x' x.
Proof. intros H. unfold twin in *. apply (ss_sym HA), (sgb_same b) in H. now rewrite sgb_sgb in H. Qed.
Lemma twin_refl x : same x x -> tw false x x.
Proof. intros H. exact H. Qed.
Lemma twin_lit z k : tw false (a_lit A z k) (a_lit A z k).
Proof. apply twin_refl, (ss_lit HA). Qed.
Lemma twin_zero b : tw b zero zero.
Proof. destruct b; [exact (ss_sym HA _ _ (ss_zero HA))|apply twin_lit]. Qed.
Lemma twin_neg b x x' : tw b x x' -> tw (negb b) (- x) x'.
Proof. unfold twin. rewrite sgb_negb. destruct b; cbn [sgb]; now rewrite ?Ropp_involutive. Qed.
Lemma twin_nonzero x x' : tw false x x' -> nonzero x -> x' = x.
Proof. intros H N. symmetry. exact (ss_nonzero HA _ _ (ss_sym HA _ _ H) N). Qed.

Lemma add_sgb b x y : same x x -> same y y -> same (sgb b x ⊕ sgb b y) (sgb b (x ⊕ y)).
Proof. intros Hx Hy. destruct b; cbn [sgb]; [now apply (ss_add_opp HA)|now apply (ss_add HA)]. Qed.
Lemma twin_add b x x' y y' : tw b x x' -> tw b y y' -> tw b (x ⊕ y) (x' ⊕ y').
Proof.
  intros Hx Hy. unfold twin. eapply (ss_trans HA); [apply (ss_add HA); [exact Hx|exact Hy]|].
  apply add_sgb; eapply twin_l; eauto.
Qed.
Lemma twin_add_swap b x x' y y' : tw b x y' -> tw b y x' -> tw b (x ⊕ y) (x' ⊕ y').
Proof.
  intros Hx Hy. unfold twin. eapply (ss_trans HA); [apply (ss_add_comm HA); eapply twin_r; eauto|].
  exact (twin_add b x y' y x' Hx Hy).
Qed.
Lemma sub_congr x x' y y' : same x x' -> same y y' -> same (x ⊖ y) (x' ⊖ y').
Proof.
  intros Hx Hy. eapply (ss_trans HA); [apply (ss_sub HA); eapply same_l; eauto|].
  eapply (ss_trans HA); [apply (ss_add HA); [exact Hx|apply (ss_opp HA); exact Hy]|].
  apply (ss_sym HA), (ss_sub HA); eapply same_r; eauto.
Qed.
Lemma twin_opp b y y' : tw b y y' -> tw b (- y) (- y').
Proof. intros H. unfold twin in *. apply (ss_opp HA) in H. destruct b; exact H. Qed.
Lemma twin_trans_r b x y z : tw b x y -> same y z -> tw b x z.
Proof. intros H H'. exact (ss_trans HA _ _ _ (ss_sym HA _ _ H') H). Qed.
Lemma twin_trans_l b x y z : same x y -> tw b y z -> tw b x z.
Proof. intros H H'. apply twin_sym. eapply twin_trans_r; [apply twin_sym; exact H'|apply (ss_sym HA); exact H]. Qed.
Lemma twin_sub b x x' y y' : tw b x x' -> tw b y y' -> tw b (x ⊖ y) (x' ⊖ y').
Proof.
  intros Hx Hy. eapply twin_trans_l; [apply (ss_sub HA); eapply twin_l; eauto|].
  eapply twin_trans_r; [|apply (ss_sym HA), (ss_sub HA); eapply twin_r; eauto].
  apply twin_add; [assumption|now apply twin_opp].
Qed.
(** Exchanging the operands of a difference changes its sign. *)
Lemma sub_swap x y : same x x -> same y y -> same (x ⊖ y) (- (y ⊖ x)).
Proof.
  intros Hx Hy. eapply (ss_trans HA); [now apply (ss_sub HA)|].
  eapply (ss_trans HA); [apply (ss_add_comm HA); [assumption|now apply (ss_opp HA)]|].
  eapply (ss_trans HA); [|apply (ss_opp HA), (ss_sym HA); now apply (ss_sub HA)].
  eapply (ss_trans HA); [|apply (ss_add_opp HA); [assumption|now apply (ss_opp HA)]].
  apply (ss_add HA); [now apply (ss_opp HA)|]. now rewrite Ropp_involutive.
Qed.
Lemma twin_sub_swap b x x' y y' : tw b x y' -> tw b y x' -> tw (negb b) (x ⊖ y) (x' ⊖ y').
Proof.
  intros Hx Hy. pose proof (twin_sub b y x' x y' Hy Hx) as H. apply twin_neg in H.
  eapply twin_trans_l; [|exact H]. apply sub_swap; eapply twin_l; eauto.
Qed.
Lemma mul_sgb b c x y : same x x -> same y y -> same (sgb b x ⊗ sgb c y) (sgb (xorb b c) (x ⊗ y)).
Proof.
  intros Hx Hy.
  assert (E : forall b x y, same x x -> same y y -> same (sgb b x ⊗ y) (sgb b (x ⊗ y))).
  { intros b0 x0 y0 H H0. destruct b0; cbn [sgb]; [now apply (ss_mul_opp HA)|now apply (ss_mul HA)]. }
  rewrite sgb_xorb. eapply (ss_trans HA); [apply E; [assumption|now apply sgb_same]|]. apply sgb_same.
  eapply (ss_trans HA); [apply (ss_mul_comm HA); [assumption|now apply sgb_same]|].
  eapply (ss_trans HA); [now apply E|]. apply sgb_same. now apply (ss_mul_comm HA).
Qed.
Lemma twin_mul b c x x' y y' : tw b x x' -> tw c y y' -> tw (xorb b c) (x ⊗ y) (x' ⊗ y').
Proof.
  intros Hx Hy. unfold twin. eapply (ss_trans HA); [apply (ss_mul HA); [exact Hx|exact Hy]|].
  apply mul_sgb; eapply twin_l; eauto.
Qed.
Lemma twin_mulE b x x' y y' : tw false x x' -> tw b y y' -> tw b (x ⊗ y) (x' ⊗ y').
Proof. intros Hx Hy. pose proof (twin_mul _ _ _ _ _ _ Hx Hy) as T. now rewrite xorb_false_l in T. Qed.
Lemma twin_mul_swap b c x x' y y' : tw b x y' -> tw c y x' -> tw (xorb b c) (x ⊗ y) (x' ⊗ y').
Proof.
  intros Hx Hy. eapply twin_trans_r; [exact (twin_mul b c x y' y x' Hx Hy)|].
  apply (ss_mul_comm HA); eapply twin_r; eauto.
Qed.
Lemma twin_div' b x x' y : tw b x x' -> same y y -> tw b (x ⊘ y) (x' ⊘ y).
Proof.
  intros Hx Hy. unfold twin. eapply (ss_trans HA); [apply (ss_div HA); [exact Hx|exact Hy]|].
  pose proof (twin_l _ _ _ Hx). destruct b; cbn [sgb]; [now apply (ss_div_opp HA)|now apply (ss_div HA)].
Qed.
Lemma twin_div b x x' y y' : tw b x x' -> tw false y y' -> nonzero y -> tw b (x ⊘ y) (x' ⊘ y').
Proof. intros Hx Hy N. rewrite (twin_nonzero _ _ Hy N). apply twin_div'; [assumption|eapply twin_l; eauto]. Qed.
Lemma twin_half b x x' : tw b x x' -> tw b (x ⊘ two) (x' ⊘ two).
Proof. intros H. apply twin_div'; [assumption|apply (ss_lit HA)]. Qed.
Lemma twin_min x x' y y' : tw false x x' -> tw false y y' -> tw false (a_fmin A x y) (a_fmin A x' y').
Proof. intros Hx Hy. exact (ss_fmin HA _ _ _ _ Hx Hy). Qed.
Lemma twin_max x x' y y' : tw false x x' -> tw false y y' -> tw false (a_fmax A x y) (a_fmax A x' y').
Proof. intros Hx Hy. exact (ss_fmax HA _ _ _ _ Hx Hy). Qed.
Lemma twin_min_swap x x' y y' : tw false x y' -> tw false y x' -> tw false (a_fmin A x y) (a_fmin A x' y').
Proof.
  intros Hx Hy. eapply twin_trans_r; [exact (twin_min _ _ _ _ Hx Hy)|]. apply (ss_fmin_comm HA); eapply twin_r; eauto.
Qed.
Lemma twin_max_swap x x' y y' : tw false x y' -> tw false y x' -> tw false (a_fmax A x y) (a_fmax A x' y').
Proof.
  intros Hx Hy. eapply twin_trans_r; [exact (twin_max _ _ _ _ Hx Hy)|]. apply (ss_fmax_comm HA); eapply twin_r; eauto.
Qed.
Lemma twin_max_min x x' y y' : tw true x x' -> tw true y y' -> tw true (a_fmax A x y) (a_fmin A x' y').
Proof.
  intros Hx Hy. unfold twin. eapply (ss_trans HA); [apply (ss_fmin HA); [exact Hx|exact Hy]|].
  cbn [sgb]. apply (ss_fmin_opp HA); eapply twin_l; eauto.
Qed.
Lemma twin_min_max x x' y y' : tw true x x' -> tw true y y' -> tw true (a_fmin A x y) (a_fmax A x' y').
Proof. intros Hx Hy. apply twin_sym, twin_max_min; now apply twin_sym. Qed.
Lemma twin_max_min_swap x x' y y' : tw true x y' -> tw true y x' -> tw true (a_fmax A x y) (a_fmin A x' y').
Proof.
  intros Hx Hy. eapply twin_trans_r; [exact (twin_max_min _ _ _ _ Hx Hy)|]. apply (ss_fmin_comm HA); eapply twin_r; eauto.
Qed.
Lemma twin_min_max_swap x x' y y' : tw true x y' -> tw true y x' -> tw true (a_fmin A x y) (a_fmax A x' y').
Proof. intros Hx Hy. apply twin_sym, twin_max_min_swap; now apply twin_sym. Qed.
Lemma twin_abs b x x' : tw b x x' -> tw false (a_abs A x) (a_abs A x').
Proof.
  intros H. unfold twin. eapply (ss_trans HA); [apply (ss_abs HA); exact H|]. pose proof (twin_l _ _ _ H).
  destruct b; cbn [sgb]; [now apply (ss_abs_opp HA)|now apply (ss_abs HA)].
Qed.
Lemma twin_loop b n f f' x x' : (forall k y y', (k < n)%nat -> tw b y y' -> tw b (f k y) (f' k y')) -> tw b x x' ->
  tw b (loop n f x) (loop n f' x').
Proof.
  intros H Hx. induction n as [|n IH]; cbn [loop]; [assumption|]. apply H; [lia|]. apply IH. intros; apply H; [lia|assumption].
Qed.
Lemma twin_asum b n f f' : (forall k, (k < n)%nat -> tw b (f k) (f' k)) -> tw b (asum A n f) (asum A n f').
Proof. intros H. unfold asum. apply twin_loop; [|apply twin_zero]. intros k y y' Hk Hy. apply twin_add; auto. Qed.

(** ** Equation of state *)
Lemma pg_plain_eos gamma mmw : same gamma gamma -> same mmw mmw -> plain_eos same nonzero (apg_eos A gamma mmw).
Proof.
  intros Hg Hw rho P P' Hr N HP.
  assert (Kb : same (akb A) (akb A)) by apply (ss_lit HA). assert (Mp : same (amp A) (amp A)) by apply (ss_lit HA).
  assert (G1 : same (gamma ⊖ a_lit A 1 0) (gamma ⊖ a_lit A 1 0)) by (apply sub_congr; [assumption|apply (ss_lit HA)]).
  cbn [apg_eos eos_evol eos_pres eos_sound]. unfold apg_evol_from_temp, apg_temp_from_pres, apg_pres_from_temp, apg_temp_from_evol.
  split; [|split].
  - apply (ss_div HA); [|repeat apply (ss_mul HA); assumption]. apply (ss_mul HA); [apply (ss_mul HA); assumption|].
    apply (ss_div HA); [|apply (ss_mul HA); assumption]. repeat apply (ss_mul HA); assumption.
  - apply (ss_div HA); [|repeat apply (ss_mul HA); assumption]. apply (ss_mul HA); [apply (ss_mul HA); assumption|].
    apply (ss_div HA); [|apply (ss_mul HA); assumption]. repeat apply (ss_mul HA); assumption.
  - apply (ss_sqrt HA). apply (ss_div HA); [|assumption]. apply (ss_mul HA); assumption.
Qed.

(** ** Euler equations *)
Variables (nd : nat) (e : eos) (d : nat).
Hypothesis He : plain_eos same nonzero e.

Lemma twin_evol rho rho' P P' : tw false rho rho' -> nonzero rho -> tw false P P' -> tw false (eos_evol e rho P) (eos_evol e rho' P').
Proof. intros Hr N HP. rewrite (twin_nonzero _ _ Hr N). exact (proj1 (He rho P' P (twin_l _ _ _ Hr) N HP)). Qed.
Lemma twin_pres rho rho' P P' : tw false rho rho' -> nonzero rho -> tw false P P' -> tw false (eos_pres e rho P) (eos_pres e rho' P').
Proof. intros Hr N HP. rewrite (twin_nonzero _ _ Hr N). exact (proj1 (proj2 (He rho P' P (twin_l _ _ _ Hr) N HP))). Qed.
Lemma twin_sound rho rho' P P' : tw false rho rho' -> nonzero rho -> tw false P P' -> tw false (eos_sound e rho P) (eos_sound e rho' P').
Proof. intros Hr N HP. rewrite (twin_nonzero _ _ Hr N). exact (proj2 (proj2 (He rho P' P (twin_l _ _ _ Hr) N HP))). Qed.

Lemma twin_sq b x x' : tw b x x' -> tw false (x ⊗ x) (x' ⊗ x').
Proof. intros H. pose proof (twin_mul _ _ _ _ _ _ H H) as T. now rewrite xorb_nilpotent in T. Qed.
Lemma twin_ek_prim p p' : twin_prim same d p p' -> tw false (aek_prim A nd p) (aek_prim A nd p').
Proof.
  intros (Hr & Hu & HP). unfold aek_prim. apply twin_half. apply twin_mulE; [assumption|].
  apply twin_asum. intros k _. exact (twin_sq _ _ _ (Hu k)).
Qed.
Lemma twin_ato_prim q q' : twin_cons same d q q' -> nonzero (q_rho q) -> twin_prim same d (ato_prim A nd e q) (ato_prim A nd e q').
Proof.
  intros (Hr & Hm & HE) N. unfold ato_prim, twin_prim. cbn [p_rho p_u p_P]. split; [assumption|]. split.
  - intros k. now apply twin_div.
  - apply twin_pres; [assumption..|]. unfold aevol_cons, aek_cons. apply twin_sub; [assumption|]. apply twin_half.
    apply twin_div; [|assumption..]. apply twin_asum. intros k _. exact (twin_sq _ _ _ (Hm k)).
Qed.
Lemma twin_ato_cons p p' : twin_prim same d p p' -> nonzero (p_rho p) -> twin_cons same d (ato_cons A nd e p) (ato_cons A nd e p').
Proof.
  intros H N. pose proof (twin_ek_prim p p' H) as K. destruct H as (Hr & Hu & HP).
  unfold ato_cons, twin_cons. cbn [q_rho q_m q_E]. split; [assumption|]. split.
  - intros k. exact (twin_mulE _ _ _ _ _ Hr (Hu k)).
  - apply twin_add; [now apply twin_evol|assumption].
Qed.
Lemma twin_aflux_prim p p' k : twin_prim same d p p' -> nonzero (p_rho p) ->
  twin_flux same d k (aflux_prim A nd e p k) (aflux_prim A nd e p' k).
Proof.
  intros H N. pose proof (twin_ek_prim p p' H) as K. destruct H as (Hr & Hu & HP).
  assert (F : forall j, tw (xorb (Nat.eqb k d) (Nat.eqb j d)) (p_rho p ⊗ p_u p k ⊗ p_u p j) (p_rho p' ⊗ p_u p' k ⊗ p_u p' j)).
  { intros j. apply twin_mul; [|apply Hu]. exact (twin_mulE _ _ _ _ _ Hr (Hu k)). }
  unfold aflux_prim, twin_flux. cbn [f_rho f_m f_E]. split; [|split].
  - exact (twin_mulE _ _ _ _ _ Hr (Hu k)).
  - intros j. destruct (Nat.eqb_spec j k) as [->|Hn]; [|apply F]. pose proof (F k) as Fk.
    rewrite xorb_nilpotent in *. now apply twin_add.
  - pose proof (twin_mul _ false _ _ _ _ (Hu k) (twin_add _ _ _ _ _ (twin_add _ _ _ _ _ K (twin_evol _ _ _ _ Hr N HP)) HP)) as T.
    now rewrite xorb_false_r in T.
Qed.

(** ** The HLL solver *)
Lemma twin_hll_along b UL UL' UR UR' FL FL' FR FR' wL wL' wR wR' :
  tw b UL UL' -> tw b UR UR' -> tw b FL FL' -> tw b FR FR' -> tw false wL wL' -> tw false wR wR' -> nonzero (wR ⊖ wL) ->
  tw b (aflux_hll A UL UR FL FR wL wR) (aflux_hll A UL' UR' FL' FR' wL' wR').
Proof.
  intros. unfold aflux_hll. apply twin_div; [|now apply twin_sub|assumption]. apply twin_add.
  - apply twin_sub; now apply twin_mulE.
  - apply twin_mulE; [now apply twin_mulE|now apply twin_sub].
Qed.
Lemma twin_hll_across b UL UL' UR UR' FL FL' FR FR' wL wL' wR wR' :
  tw b UL UR' -> tw b UR UL' -> tw (negb b) FL FR' -> tw (negb b) FR FL' -> tw true wL wR' -> tw true wR wL' -> nonzero (wR ⊖ wL) ->
  tw (negb b) (aflux_hll A UL UR FL FR wL wR) (aflux_hll A UL' UR' FL' FR' wL' wR').
Proof.
  intros HL HR FLL FRR HwL HwR N. unfold aflux_hll. apply twin_div; [| |assumption].
  - apply twin_add.
    + apply twin_sub_swap.
      * pose proof (twin_mul _ _ _ _ _ _ HwR FLL) as T. now destruct b.
      * pose proof (twin_mul _ _ _ _ _ _ HwL FRR) as T. now destruct b.
    + apply twin_mulE; [exact (twin_mul_swap _ _ _ _ _ _ HwL HwR)|now apply twin_sub_swap].
  - exact (twin_sub_swap true wR wR' wL wL' HwR HwL).
Qed.

Lemma hll_along qL qL' qR qR' k : k <> d -> twin_cons same d qL qL' -> twin_cons same d qR qR' ->
  tame A nonzero finite HLL nd e qL qR k -> twin_flux same d k (ahll A nd e qL qR k) (ahll A nd e qL' qR' k).
Proof.
  intros Hk HL HR (NL & NR & NS). cbn zeta in NS.
  pose proof (twin_ato_prim _ _ HL NL) as PL. pose proof (twin_ato_prim _ _ HR NR) as PR.
  pose proof (twin_aflux_prim _ _ k PL NL) as GL. pose proof (twin_aflux_prim _ _ k PR NR) as GR.
  apply Nat.eqb_neq in Hk. unfold twin_flux in *. rewrite Hk in *.
  destruct PL as (LL & LU & LP), PR as (RR & RU & RP). pose proof (LU k) as LUk. pose proof (RU k) as RUk. rewrite Hk in LUk, RUk.
  assert (SL := twin_sound _ _ _ _ LL NL LP). assert (SR := twin_sound _ _ _ _ RR NR RP).
  assert (WL : tw false (a_fmin A (awave_L A e (ato_prim A nd e qL) (ato_prim A nd e qR) k) zero)
                        (a_fmin A (awave_L A e (ato_prim A nd e qL') (ato_prim A nd e qR') k) zero)).
  { apply twin_min; [|apply twin_zero]. unfold awave_L. apply twin_min; now apply twin_sub. }
  assert (WR : tw false (a_fmax A (awave_R A e (ato_prim A nd e qL) (ato_prim A nd e qR) k) zero)
                        (a_fmax A (awave_R A e (ato_prim A nd e qL') (ato_prim A nd e qR') k) zero)).
  { apply twin_max; [|apply twin_zero]. unfold awave_R. apply twin_max; now apply twin_add. }
  destruct GL as (GL1 & GL2 & GL3), GR as (GR1 & GR2 & GR3), HL as (HL1 & HL2 & HL3), HR as (HR1 & HR2 & HR3).
  unfold ahll. cbn zeta. cbn [f_rho f_m f_E]. split; [|split].
  - now apply twin_hll_along.
  - intros j. specialize (GL2 j). specialize (GR2 j). rewrite xorb_false_l in *. now apply twin_hll_along.
  - now apply twin_hll_along.
Qed.
Lemma hll_across qL qL' qR qR' : twin_cons same d qL qR' -> twin_cons same d qR qL' ->
  tame A nonzero finite HLL nd e qL qR d -> twin_flux same d d (ahll A nd e qL qR d) (ahll A nd e qL' qR' d).
Proof.
  intros HL HR (NL & NR & NS). cbn zeta in NS.
  pose proof (twin_ato_prim _ _ HL NL) as PL. pose proof (twin_ato_prim _ _ HR NR) as PR.
  pose proof (twin_aflux_prim _ _ d PL NL) as GL. pose proof (twin_aflux_prim _ _ d PR NR) as GR.
  unfold twin_flux in *. rewrite Nat.eqb_refl in *.
  destruct PL as (LL & LU & LP), PR as (RR & RU & RP). pose proof (LU d) as LUk. pose proof (RU d) as RUk. rewrite Nat.eqb_refl in LUk, RUk.
  assert (SL := twin_sound _ _ _ _ LL NL LP). assert (SR := twin_sound _ _ _ _ RR NR RP).
  assert (Hsub : forall x x' c c', tw true x x' -> tw false c c' -> tw true (x ⊖ c) (x' ⊕ c')).
  { intros x x' c c' Hx Hc. apply (twin_neg false), (ss_opp HA) in Hc. 
    eapply twin_trans_l; [apply (ss_sub HA); [eapply twin_l; eauto|]|].
    - apply (ss_opp HA) in Hc. apply same_r in Hc. cbn [sgb negb] in Hc. now rewrite !Ropp_involutive in Hc || rewrite Ropp_involutive in Hc.
    - apply twin_add; [assumption|]. unfold twin. cbn [sgb negb] in *. apply (ss_opp HA) in Hc. now rewrite !Ropp_involutive in *. }
  assert (Hadd : forall x x' c c', tw true x x' -> tw false c c' -> tw true (x ⊕ c) (x' ⊖ c')).
  { intros x x' c c' Hx Hc. apply twin_sym, Hsub; now apply twin_sym. }
  assert (WL : tw true (a_fmin A (awave_L A e (ato_prim A nd e qL) (ato_prim A nd e qR) d) zero)
                       (a_fmax A (awave_R A e (ato_prim A nd e qL') (ato_prim A nd e qR') d) zero)).
  { apply twin_min_max; [|apply twin_zero]. unfold awave_L, awave_R. apply twin_min_max_swap; now apply Hsub. }
  assert (WR : tw true (a_fmax A (awave_R A e (ato_prim A nd e qL) (ato_prim A nd e qR) d) zero)
                       (a_fmin A (awave_L A e (ato_prim A nd e qL') (ato_prim A nd e qR') d) zero)).
  { apply twin_max_min; [|apply twin_zero]. unfold awave_L, awave_R. apply twin_max_min_swap; now apply Hadd. }
  destruct GL as (GL1 & GL2 & GL3), GR as (GR1 & GR2 & GR3), HL as (HL1 & HL2 & HL3), HR as (HR1 & HR2 & HR3).
  unfold ahll. cbn zeta. cbn [f_rho f_m f_E]. split; [|split].
  - now apply (twin_hll_across false).
  - intros j. specialize (GL2 j). specialize (GR2 j). rewrite xorb_true_l in *. now apply twin_hll_across.
  - now apply (twin_hll_across false).
Qed.

(** ** The LowMach solver *)
Definition snd_of (p : prim) : R := eos_sound e (p_rho p) (p_P p).
Definition lm_a (pL pR : prim) : R := a_lit A 11 1 ⊗ a_fmax A (p_rho pL ⊗ snd_of pL) (p_rho pR ⊗ snd_of pR).
Definition lm_u (pL pR : prim) (k : nat) : R :=
  ((p_u pL k ⊕ p_u pR k) ⊘ two) ⊖ (a_lit A 1 0 ⊘ (two ⊗ lm_a pL pR) ⊗ (p_P pR ⊖ p_P pL)).
Definition lm_P (pL pR : prim) (k : nat) : R :=
  ((p_P pL ⊕ p_P pR) ⊘ two)
  ⊖ ((a_fmin A (a_lit A 1 0) (a_abs A (lm_u pL pR k) ⊘ a_fmin A (snd_of pL) (snd_of pR)) ⊗ lm_a pL pR) ⊘ two
     ⊗ (p_u pR k ⊖ p_u pL k)).
Definition up (u x y : R) : R := if a_lt A zero u then x else y.
Lemma asplitting_eq qL qR k : asplitting A nd e qL qR k =
  let pL := ato_prim A nd e qL in let pR := ato_prim A nd e qR in let u := lm_u pL pR k in
  mkFlux (u ⊗ up u (q_rho qL) (q_rho qR))
         (fun j => if Nat.eqb j k then (u ⊗ up u (q_m qL j) (q_m qR j)) ⊕ lm_P pL pR k else u ⊗ up u (q_m qL j) (q_m qR j))
         ((u ⊗ up u (q_E qL) (q_E qR)) ⊕ (lm_P pL pR k ⊗ u)).
Proof.
  unfold asplitting, lm_P, lm_u, lm_a, snd_of, up. cbn zeta.
  match goal with |- context [a_lt A zero ?u] => destruct (a_lt A zero u) end; reflexivity.
Qed.
Lemma up_along b c u u' x x' y y' : tw false u u' -> tw b x x' -> tw c y y' -> b = c -> tw b (u ⊗ up u x y) (u' ⊗ up u' x' y').
Proof.
  intros Hu Hx Hy <-. unfold up. rewrite (ss_lt HA _ _ _ _ (ss_lit HA 0 0) Hu). cbn [sgb].
  destruct (a_lt A zero u); now apply twin_mulE.
Qed.
Lemma up_across b u u' x x' y y' : tw true u u' -> tw b x y' -> tw b y x' -> finite x -> finite y ->
  tw (negb b) (u ⊗ up u x y) (u' ⊗ up u' x' y').
Proof.
  intros Hu Hx Hy Fx Fy. unfold up. pose proof (twin_l _ _ _ Hu) as Uu.
  assert (E : a_lt A zero u' = a_lt A u zero).
  { rewrite (ss_lt HA _ _ _ _ (twin_zero true) Hu). cbn [sgb]. apply (ss_lt_opp HA); [apply (ss_lit HA)|assumption]. }
  rewrite E. clear E.
  assert (M : forall z z', tw b z z' -> tw (negb b) (u ⊗ z) (u' ⊗ z')).
  { intros z z' Hz. pose proof (twin_mul _ _ _ _ _ _ Hu Hz) as T. now rewrite xorb_true_l in T. }
  destruct (a_lt A zero u) eqn:E1.
  - rewrite (ss_asym HA _ _ (ss_lit HA 0 0) Uu E1). now apply M.
  - destruct (a_lt A u zero) eqn:E2; [now apply M|].
    eapply twin_trans_l; [apply (ss_flat HA u y x); try assumption; eapply twin_l; eauto|]. now apply M.
Qed.
Lemma lm_a_along pL pL' pR pR' : twin_prim same d pL pL' -> twin_prim same d pR pR' -> nonzero (p_rho pL) -> nonzero (p_rho pR) ->
  tw false (lm_a pL pR) (lm_a pL' pR').
Proof.
  intros (LL & LU & LP) (RR & RU & RP) NL NR. unfold lm_a. apply twin_mulE; [apply twin_lit|]. apply twin_max; apply twin_mulE; try assumption; now apply twin_sound.
Qed.
Lemma lm_along qL qL' qR qR' k : k <> d -> twin_cons same d qL qL' -> twin_cons same d qR qR' ->
  tame A nonzero finite LowMach nd e qL qR k -> twin_flux same d k (asplitting A nd e qL qR k) (asplitting A nd e qL' qR' k).
Proof.
  intros Hk HL HR (NL & NR & NS). cbn zeta in NS. destruct NS as (Na & Nc & _).
  pose proof (twin_ato_prim _ _ HL NL) as PL. pose proof (twin_ato_prim _ _ HR NR) as PR.
  rewrite !asplitting_eq. cbn zeta. revert Na Nc PL PR.
  generalize (ato_prim A nd e qL') as pL', (ato_prim A nd e qR') as pR'.
  change (q_rho qL) with (p_rho (ato_prim A nd e qL)) in NL. change (q_rho qR) with (p_rho (ato_prim A nd e qR)) in NR. revert NL NR.
  generalize (ato_prim A nd e qL) as pL, (ato_prim A nd e qR) as pR. intros pL pR NL NR pL' pR' Na Nc PL PR.
  pose proof (lm_a_along _ _ _ _ PL PR NL NR) as Ha.
  apply Nat.eqb_neq in Hk. unfold twin_flux. rewrite Hk in *.
  destruct PL as (LL & LU & LP), PR as (RR & RU & RP). pose proof (LU k) as LUk. pose proof (RU k) as RUk. rewrite Hk in LUk, RUk.
  assert (SL := twin_sound _ _ _ _ LL NL LP). assert (SR := twin_sound _ _ _ _ RR NR RP).
  assert (Hu : tw false (lm_u pL pR k) (lm_u pL' pR' k)).
  { unfold lm_u. apply twin_sub; [apply twin_half; now apply twin_add|]. apply twin_mulE; [|now apply twin_sub].
    apply twin_div; [apply twin_lit| |exact Na]. apply twin_mulE; [apply twin_lit|assumption]. }
  assert (HP : tw false (lm_P pL pR k) (lm_P pL' pR' k)).
  { unfold lm_P. apply twin_sub; [apply twin_half; now apply twin_add|]. apply twin_mulE; [|now apply twin_sub].
    apply twin_half. apply twin_mulE; [|assumption]. apply twin_min; [apply twin_lit|].
    apply twin_div; [exact (twin_abs _ _ _ Hu)|now apply twin_min|exact Nc]. }
  destruct HL as (HL1 & HL2 & HL3), HR as (HR1 & HR2 & HR3). cbn [f_rho f_m f_E]. split; [|split].
  - now apply (up_along false false).
  - intros j. rewrite xorb_false_l. pose proof (up_along _ _ _ _ _ _ _ _ Hu (HL2 j) (HR2 j) eq_refl) as T.
    destruct (Nat.eqb_spec j k) as [->|Hn]; [|exact T]. rewrite Hk in *. now apply twin_add.
  - apply twin_add; [now apply (up_along false false)|now apply twin_mulE].
Qed.
Lemma lm_across qL qL' qR qR' : twin_cons same d qL qR' -> twin_cons same d qR qL' ->
  tame A nonzero finite LowMach nd e qL qR d -> twin_flux same d d (asplitting A nd e qL qR d) (asplitting A nd e qL' qR' d).
Proof.
  intros HL HR (NL & NR & NS). cbn zeta in NS. destruct NS as (Na & Nc & F1 & F2 & F3 & F4 & F5).
  pose proof (twin_ato_prim _ _ HL NL) as PL. pose proof (twin_ato_prim _ _ HR NR) as PR.
  rewrite !asplitting_eq. cbn zeta. revert Na Nc PL PR.
  generalize (ato_prim A nd e qL') as pL', (ato_prim A nd e qR') as pR'.
  change (q_rho qL) with (p_rho (ato_prim A nd e qL)) in NL. change (q_rho qR) with (p_rho (ato_prim A nd e qR)) in NR. revert NL NR.
  generalize (ato_prim A nd e qL) as pL, (ato_prim A nd e qR) as pR. intros pL pR NL NR pL' pR' Na Nc PL PR.
  unfold twin_flux. rewrite Nat.eqb_refl.
  destruct PL as (LL & LU & LP), PR as (RR & RU & RP). pose proof (LU d) as LUk. pose proof (RU d) as RUk. rewrite Nat.eqb_refl in LUk, RUk.
  assert (SL := twin_sound _ _ _ _ LL NL LP). assert (SR := twin_sound _ _ _ _ RR NR RP).
  assert (Ha : tw false (lm_a pL pR) (lm_a pL' pR')).
  { unfold lm_a. apply twin_mulE; [apply twin_lit|]. apply twin_max_swap; now apply twin_mulE. }
  assert (Hu : tw true (lm_u pL pR d) (lm_u pL' pR' d)).
  { unfold lm_u. apply twin_sub; [apply twin_half; now apply twin_add_swap|].
    apply twin_mulE; [|apply (twin_sub_swap false); assumption].
    apply twin_div; [apply twin_lit| |exact Na]. apply twin_mulE; [apply twin_lit|assumption]. }
  assert (HP : tw false (lm_P pL pR d) (lm_P pL' pR' d)).
  { unfold lm_P. apply twin_sub; [apply twin_half; now apply twin_add_swap|].
    apply twin_mulE; [|apply (twin_sub_swap true); assumption].
    apply twin_half. apply twin_mulE; [|assumption]. apply twin_min; [apply twin_lit|].
    apply twin_div; [exact (twin_abs _ _ _ Hu)|now apply twin_min_swap|exact Nc]. }
  destruct HL as (HL1 & HL2 & HL3), HR as (HR1 & HR2 & HR3). cbn [f_rho f_m f_E]. split; [|split].
  - now apply (up_across false).
  - intros j. rewrite xorb_true_l. destruct (F5 j) as [G1 G2].
    pose proof (up_across _ _ _ _ _ _ _ Hu (HL2 j) (HR2 j) G1 G2) as T.
    destruct (Nat.eqb_spec j d) as [->|Hn]; [|exact T]. now apply twin_add.
  - apply twin_add; [now apply (up_across false)|]. pose proof (twin_mul _ _ _ _ _ _ HP Hu) as T. exact T.
Qed.

(** Both solvers at once. *)
Lemma riemann_along s qL qL' qR qR' k : k <> d -> twin_cons same d qL qL' -> twin_cons same d qR qR' ->
  tame A nonzero finite s nd e qL qR k -> twin_flux same d k (ariemann A s nd e qL qR k) (ariemann A s nd e qL' qR' k).
Proof. destruct s; cbn [ariemann]; [apply hll_along|intros _ _ _ (_ & _ & []) |apply lm_along]. Qed.
Lemma riemann_across s qL qL' qR qR' : twin_cons same d qL qR' -> twin_cons same d qR qL' ->
  tame A nonzero finite s nd e qL qR d -> twin_flux same d d (ariemann A s nd e qL qR d) (ariemann A s nd e qL' qR' d).
Proof. destruct s; cbn [ariemann]; [apply hll_across|intros _ _ (_ & _ & []) |apply lm_across]. Qed.
End Bits.
