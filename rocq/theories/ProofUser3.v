(** * What the boundary conditions of the setup leave in the ghost cells (C100). *)
From Coq Require Import FunctionalExtensionality ZifyBool ZifyNat.
From Verif Require Import Base RBase ModelMesh ModelGeom ModelBoundary ModelHydro ModelScheme ModelStep ModelSetup ModelMain ModelUser
  SpecMesh SpecBoundary SpecHydro SpecScheme SpecStep SpecSetup SpecMain SpecUser
  ProofBase ProofMesh ProofR ProofBoundary ProofBoundary2 ProofHydro ProofScheme ProofShift ProofReduce ProofStep ProofLayout ProofSetup
  ProofSetupEnergy ProofSteady ProofMain ProofRestart ProofUser ProofUser2.
Local Open Scope R_scope.

Section Last.
Variables (K : config) (N dims : idx) (X : nat -> arr1) (L : layout) (U : own_bounds).
Hypothesis HR : runs_on K N dims X L.
Notation nd := (k_nd K).
Notation ng := (k_ng K).
Let HD := lo_dec (ro_layout HR).

Lemma face_room r f : process nd dims r -> (f < 2 * nd)%nat ->
  (Nat.div f 2 < 3)%nat /\ (0 <= ng <= coord (Nat.div f 2) (d_nwg (l_dec L r)))%Z.
Proof.
  intros Hr Hf. assert (Hd : (f / 2 < nd)%nat) by (apply Nat.div_lt_upper_bound; lia).
  pose proof (dcp_nd HD) as Hnd. pose proof (dcp_ng HD) as Hng0.
  pose proof (dec_nwg _ _ _ _ _ HD r (f / 2) Hr ltac:(lia)) as Ee. rewrite (ghosts_lt nd ng) in Ee by assumption.
  pose proof (nl_nonneg _ _ _ _ _ HD (f / 2) (coord (f / 2) r) ltac:(lia)). split; lia.
Qed.

Lemma own_step_elsewhere g W f r c : process nd dims r -> (f < 2 * nd)%nat -> ~ beyond K L f r c -> own_step K N L U g W f r c = W r c.
Proof.
  intros Hr Hf Hb. destruct (face_room r f Hr Hf) as [Hd Hn]. unfold own_step, beyond in *. destruct (ob_face U f).
  - destruct (is_border _ _ _ _); [|reflexivity]. unfold user_condition, kwrite.
    replace (in_boxb _ _ c) with false; [reflexivity|]. symmetry. apply Bool.not_true_iff_false. intros E. apply Hb. split; [reflexivity|].
    apply in_boxb_spec, bc_box_iff in E; assumption.
  - unfold bc_step. destruct (is_border _ _ _ _); [|reflexivity]. apply bc_apply_outside; [assumption|assumption|]. tauto.
Qed.

Lemma own_fold_elsewhere g r c l : process nd dims r -> faces_ok nd l -> (forall f, In f l -> ~ beyond K L f r c) ->
  forall W, fold_left (own_step K N L U g) l W r c = W r c.
Proof.
  intros Hr. induction l as [|f l IH]; intros Hf Hb W; cbn [fold_left]; [reflexivity|].
  rewrite IH; [|intros x Hx; apply Hf; now right|intros x Hx; apply Hb; now right].
  apply own_step_elsewhere; [exact Hr|apply Hf; now left|apply Hb; now left].
Qed.

(** The last of the faces beyond which the cell lies decides. *)
Lemma own_last g A r c l1 f l2 : k_order K = l1 ++ f :: l2 -> process nd dims r -> beyond K L f r c -> ob_face U f = true ->
  (forall h, In h l2 -> ~ beyond K L h r c) ->
  exists W, own_update K N L U g A r c
    = user_condition (ob_setup U) (bound_env K N L U (g r) r) (d_nwg (l_dec L r)) ng (Nat.div f 2) (Nat.modulo f 2) W c.
Proof.
  intros Eo Hr [Hb Hc] Hu Hl. pose proof (ro_faces HR) as Hf. unfold own_update. rewrite Eo in *. rewrite fold_left_app. cbn [fold_left].
  rewrite own_fold_elsewhere; [|exact Hr|intros x Hx; apply Hf, in_app_iff; right; now right|exact Hl].
  unfold own_step at 1. rewrite Hu, Hb. eexists. reflexivity.
Qed.

Variables (gas : perfect_gas) (rho0 T0 : R).
Hypothesis Hth : ob_th U = pg_thermo gas.
Hypothesis Hat : atmosphere (ob_setup U) rho0 0 T0.
Hypothesis Hgas : valid_gas gas.
Hypothesis Hrho : 0 < rho0.

Lemma own_last_rest g A r c l1 f l2 : k_order K = l1 ++ f :: l2 -> process nd dims r -> beyond K L f r c -> ob_face U f = true ->
  (forall h, In h l2 -> ~ beyond K L h r c) ->
  at_rest_with nd gas (setup_cell (ob_setup U) (mkEnv (k_geom K) nd (pg_thermo gas) (l_mesh L r) r N (g r)) c old_cell)
    (own_update K N L U g A r c).
Proof.
  intros Eo Hr Hc Hu Hl. destruct (own_last g A r c l1 f l2 Eo Hr Hc Hu Hl) as (W & ->). unfold bound_env. rewrite Hth.
  assert (Hf : (f < 2 * nd)%nat) by (apply (ro_faces HR); rewrite Eo; apply in_app_iff; right; now left).
  destruct (face_room r f Hr Hf) as [Hd Hn]. destruct Hc as [_ Hc].
  destruct (ghost_rest (k_geom K) nd gas (l_mesh L r) r N (g r) (ob_setup U) rho0 0 T0 (d_nwg (l_dec L r)) ng (f / 2) (f mod 2) W c Hat Hgas Hrho Hd Hn Hc eq_refl)
    as (E1 & E2 & E3 & _).
  split; [exact E1|]. split; [|exact E3]. intros k Hk. rewrite (E2 k Hk).
  match goal with |- _ * ?x = 0 => assert (Ez : x = 0) end; [|rewrite Ez; ring].
  destruct Hat as [E|[M E]]; rewrite E; cbn [setup_cell]; unfold k_stratified, k_eq_hydro; cbv zeta; cbn [i_u]; unfold all_u; cbn [e_nd];
    destruct (Nat.ltb_spec k nd); solve [reflexivity|lia].
Qed.

Lemma own_init_rest S r c l1 f l2 : k_order K = l1 ++ f :: l2 -> process nd dims r -> beyond K L f r c -> ob_face U f = true ->
  (forall h, In h l2 -> ~ beyond K L h r c) ->
  at_rest_with nd gas (setup_cell (ob_setup U) (mkEnv (k_geom K) nd (pg_thermo gas) (l_mesh L r) r N (s_grav (S r))) c old_cell)
    (s_cell (own_init K N L U S r) c).
Proof. intros. unfold own_init. cbn [finish s_cell]. eapply own_last_rest; eassumption. Qed.
Lemma own_step_rest t dt S r c l1 f l2 : k_order K = l1 ++ f :: l2 -> process nd dims r -> beyond K L f r c -> ob_face U f = true ->
  (forall h, In h l2 -> ~ beyond K L h r c) ->
  at_rest_with nd gas (setup_cell (ob_setup U) (mkEnv (k_geom K) nd (pg_thermo gas) (l_mesh L r) r N (s_grav (S r))) c old_cell)
    (s_cell (own_full_step K N L U t dt S r) c).
Proof. intros. unfold own_full_step. cbn [finish s_cell]. eapply own_last_rest; eassumption. Qed.
End Last.

(** ** Everything at rest at the start *)
Section Serial.
Variables (K : config) (N : idx) (X : nat -> arr1) (L1 : layout) (U : own_bounds).
Hypothesis HR : runs_on K N one_process X L1.
Notation nd := (k_nd K).
Notation ng := (k_ng K).
Notation ext := (d_nwg (l_dec L1 rank0)).
Let HL1 := ro_layout HR.
Let HD1 := lo_dec HL1.
Variable Q : Z -> cell -> Prop.
Variable g : idx -> gravity.
Hypothesis Hneg : forall d i x, (d < nd)%nat -> Q i x -> Q i (negate_momentum d x).
Hypothesis Huser : forall f W c, (f < 2 * nd)%nat -> in_face ext ng (Nat.div f 2) (Nat.modulo f 2) c ->
  Q (ii c) (user_condition (ob_setup U) (bound_env K N L1 U (g rank0) rank0) ext ng (Nat.div f 2) (Nat.modulo f 2) W c).
Hypothesis H0 : ob_face U 0 = true.
Hypothesis H1 : ob_face U 1 = true.

Lemma ii_set d o c : (1 <= d)%nat -> ii (set_coord d o c) = ii c.
Proof. destruct d as [|[|d]]; [lia|reflexivity|reflexivity]. Qed.

Lemma rest_fold : forall l W (B0 B1 : Prop), faces_ok nd l ->
  (forall c, in_array ext c -> ((ii c < ng)%Z -> B0) -> ((ii ext - ng <= ii c)%Z -> B1) -> Q (ii c) (W rank0 c)) ->
  forall c, in_array ext c -> ((ii c < ng)%Z -> B0 \/ In 0%nat l) -> ((ii ext - ng <= ii c)%Z -> B1 \/ In 1%nat l) ->
  Q (ii c) (fold_left (own_step K N L1 U g) l W rank0 c).
Proof.
  induction l as [|f l IH]; intros W B0 B1 Hf HW c Hc C0 C1; cbn [fold_left].
  { apply HW; [exact Hc|intros H; destruct (C0 H) as [|[]]; assumption|intros H; destruct (C1 H) as [|[]]; assumption]. }
  apply (IH _ (B0 \/ f = 0%nat) (B1 \/ f = 1%nat)); [intros x Hx; apply Hf; now right| |exact Hc| |].
  2:{ intros H. destruct (C0 H) as [|[|]]; tauto. }
  2:{ intros H. destruct (C1 H) as [|[|]]; tauto. }
  clear c Hc C0 C1. intros c Hc C0 C1.
  assert (Hf2 : (f < 2 * nd)%nat) by (apply Hf; now left).
  destruct (face_room K N one_process X L1 HR rank0 f (rank0_ok nd) Hf2) as [Hd Hn].
  assert (Eb : is_border (l_dims L1) rank0 (f / 2) (f mod 2) = true).
  { unfold is_border. rewrite (lo_dims HL1), mpi_dims_one, coord_one, coord_rank0. destruct (f mod 2)%nat; reflexivity. }
  destruct (in_boxb (bc_begin ext ng (f / 2) (f mod 2)) (bc_end ext ng (f / 2) (f mod 2)) c) eqn:E.
  - pose proof E as E'. apply in_boxb_spec, bc_box_iff in E'; [|assumption|assumption].
    destruct (ob_face U f) eqn:Eu.
    { unfold own_step. rewrite Eu, Eb. now apply Huser. }
    assert (f <> 0%nat /\ f <> 1%nat) as [N0 N1] by (split; congruence).
    assert (Hd1 : (1 <= f / 2)%nat) by (apply Nat.div_le_lower_bound; lia).
    assert (Hdn : (f / 2 < nd)%nat) by (apply Nat.div_lt_upper_bound; lia).
    pose proof (dec_nwg _ _ _ _ _ HD1 rank0 (f / 2) (rank0_ok nd) ltac:(lia)) as Ee. rewrite (ghosts_lt nd ng) in Ee by assumption.
    pose proof (thick_nl _ _ _ _ _ HD1 rank0 (f / 2) (ro_thick HR) (rank0_ok nd) Hdn) as Hthk.
    pose proof (Hc (f / 2)%nat ltac:(lia)) as Hcd.
    assert (HS : forall o, (0 <= o < coord (f / 2) ext)%Z -> Q (ii c) (W rank0 (set_coord (f / 2) o c))).
    { intros o Ho. rewrite <- (ii_set (f / 2) o c Hd1). apply HW.
      - apply (set_coord_in_array (l_dec L1) (l_dec L1) _ _ _ _ Hc). exact Ho.
      - rewrite ii_set by exact Hd1. intros H. destruct (C0 H); [assumption|congruence].
      - rewrite ii_set by exact Hd1. intros H. destruct (C1 H); [assumption|congruence]. }
    unfold own_step. rewrite Eu. unfold bc_step. rewrite Eb. destruct (k_bcs K f).
    + rewrite null_gradient_value by (assumption || lia). apply HS. destruct (f mod 2)%nat; lia.
    + cbn [bc_apply]. apply HW; [exact Hc|intros H; destruct (C0 H); [assumption|congruence]|intros H; destruct (C1 H); [assumption|congruence]].
    + rewrite reflexive_value by (assumption || lia). apply Hneg; [exact Hdn|]. apply HS. destruct E' as [_ E']. destruct (f mod 2)%nat; lia.
  - assert (Hnb : ~ beyond K L1 f rank0 c).
    { intros [_ H]. apply bc_box_iff in H; [|assumption|assumption]. apply in_boxb_spec in H. congruence. }
    rewrite (own_step_elsewhere K N one_process X L1 U HR g W f rank0 c (rank0_ok nd) Hf2 Hnb).
    apply HW; [exact Hc| |].
    + intros H. destruct (C0 H) as [|Ef]; [assumption|]. exfalso. subst f. apply Hnb. split; [exact Eb|]. split; [exact Hc|exact H].
    + intros H. destruct (C1 H) as [|Ef]; [assumption|]. exfalso. subst f. apply Hnb. split; [exact Eb|]. split; [exact Hc|exact H].
Qed.

Lemma rest_all A : In 0%nat (k_order K) -> In 1%nat (k_order K) ->
  (forall c, owned nd ng (d_nloc (l_dec L1 rank0)) c -> Q (ii c) (A rank0 c)) ->
  forall c, in_array ext c -> Q (ii c) (own_update K N L1 U g A rank0 c).
Proof.
  intros I0 I1 HA c Hc. unfold own_update. apply (rest_fold (k_order K) _ False False (ro_faces HR)); [|exact Hc|now right|now right].
  clear c Hc. intros c Hc C0 C1. rewrite (lo_dims HL1).
  set (G := fun y => A rank0 (mk3 (fun d => (coord d y + ghosts nd ng d)%Z))).
  assert (HG : holds_owned nd one_process ng (l_dec L1) G A).
  { intros r Hr x Hx. assert (Er : r = rank0).
    { apply idx_ext. intros d Hd. specialize (Hr d Hd). rewrite mpi_dims_one, coord_one in Hr. rewrite coord_rank0. lia. }
    subst r. unfold G. f_equal. apply idx_ext. intros d Hd. rewrite coord_mk3 by assumption.
    unfold global_index. rewrite coord_mk3, (s_cmin _ _ _ _ HL1) by assumption. lia. }
  rewrite (sync_periodic nd N one_process ng (l_dec L1) HD1 G (ro_thick HR) A HG rank0 (rank0_ok nd) c Hc). unfold G.
  pose proof (dcp_nd HD1) as Hnd.
  pose proof (s_ext _ _ _ _ HL1 0 ltac:(lia)) as Ee. cbn [coord] in Ee. rewrite (ghosts_lt nd ng) in Ee by lia.
  set (y := mk3 _).
  assert (Ey : ii y = ii c).
  { change (coord 0 y = ii c). unfold y. rewrite coord_mk3 by lia. unfold wrap. rewrite coord_mk3 by lia. unfold global_index. rewrite coord_mk3 by lia.
    rewrite (s_cmin _ _ _ _ HL1) by lia. rewrite (ghosts_lt nd ng) by lia. cbn [coord]. rewrite Z.mod_small by lia. lia. }
  rewrite <- Ey. apply HA. intros d Hd. unfold y. rewrite coord_mk3 by assumption. unfold wrap. rewrite coord_mk3 by assumption.
  rewrite (dec_nloc _ _ _ _ _ HD1 rank0 d (rank0_ok nd) Hd).
  pose proof (dcp_n HD1 Hd) as HN. 
  assert (En : nl nd N one_process d (coord d rank0) = coord d N).
  { pose proof (dec_nwg _ _ _ _ _ HD1 rank0 d (rank0_ok nd) Hd). pose proof (s_ext _ _ _ _ HL1 d Hd). lia. }
  rewrite En. pose proof (Z.mod_pos_bound (coord d (global_index nd ng (corner_min (d_range (l_dec L1 rank0))) c)) (coord d N) ltac:(lia)). lia.
Qed.
End Serial.
