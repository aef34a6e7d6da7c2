(** * Examples and counterexamples of PropMove.v. *)
From Coq Require Import Lra ZifyBool FunctionalExtensionality.
From Verif Require Import Base RBase ModelMesh ModelGeom ModelBoundary ModelHydro ModelScheme ModelStep ModelMain ModelMove
  SpecMesh SpecGeom SpecBoundary SpecHydro SpecScheme SpecStep SpecMain SpecMove
  ProofBase ProofR ProofMesh ProofGeom ProofBoundary ProofBoundary2 ProofHydro ProofHydro2 ProofScheme ProofMirror ProofStep ProofLayout ProofSteady ProofStepEx ProofMainEx
  ProofReduce ProofMain ProofRestart ProofMove ProofV1d ProofMoveRun.
Local Open Scope R_scope.

(** A gas at rest between two walls, under gravity, 4 cells. *)
Definition fall_K (g : R) : config :=
  mkConfig Cartesian 1 2 (pg_eos (mkPG (5 / 3) 1)) LVanLeer HLLC None UOff (GUniform (fun d => match d with O => g | _ => 0 end))
    (fun _ => Reflexive) [0; 1]%nat.
Definition fall_N : idx := I3 4 1 1.
Definition fall_X : nat -> arr1 := fun d => mkArr1 (match d with O => 9 | _ => 2 end)%Z (fun i => IZR i).
Definition fall_L g := the_layout (fall_K g) fall_N one_process fall_X.
Definition fall_G : gfields := mkG (fun _ => 1) (fun _ _ => 0) (fun _ => 2) (fun _ _ => 0).

Lemma fall_runs g : runs_on (fall_K g) fall_N one_process fall_X (fall_L g).
Proof.
  assert (H3 : forall d, (d < 3)%nat -> (1 <= coord d fall_N)%Z) by (dims3; vm_compute; congruence).
  assert (H4 : forall d, (d < 3)%nat -> (1 <= coord d (mpi_dims 1 one_process))%Z) by (dims3; vm_compute; congruence).
  split; cbn [fall_K k_nd k_ng k_order].
  - apply the_layout_ok; cbn [fall_K k_nd k_ng]; try lia; [exact H3|exact H4|]. intros d Hd. destruct d as [|[|[|d]]]; [reflexivity..|lia].
  - unfold fall_L, the_layout. cbn [l_dec fall_K k_nd k_ng]. apply decs_thick; try lia; [exact H3|exact H4|].
    intros d Hd; destruct d as [|d]; [|lia]; vm_compute; congruence.
  - lia.
  - intros f Hf. cbn in Hf. cbn. lia.
  - exact I.
Qed.

Section Fall.
Variables (t dt : R).
Let K := fall_K 1.
Let L := fall_L 1.
Let S := init_state K L (the_state K L fall_G).
Let HR := fall_runs 1.
Let HL := ro_layout HR.

Lemma fall_uni : uni_state (fall_K 0) one_process L 1 (fun _ => 0) 2 (fun _ => 0) (init_state (fall_K 0) L (the_state K L fall_G)).
Proof.
  pose proof (fall_runs 0) as HR0.
  apply (uni_init (fall_K 0) fall_N one_process fall_X (fall_L 0) (ro_layout HR0) 1 (fun _ => 0) 2 (fun _ => 0) ex_eos ltac:(lra) (ro_thick HR0) (ro_faces HR0)) with (G := fall_G);
    try reflexivity; auto.
  - exists (fun d => match d with O => 0 | _ => 0 end). split; [reflexivity|]. intros [|d]; reflexivity.
  - exact (the_state_ok (fall_K 0) one_process (fall_L 0) fall_G).
Qed.
Lemma fall_cell r c : process 1 one_process r -> in_array (d_nwg (l_dec L r)) c ->
  c_rho (s_cell (S r) c) = 1 /\ (forall k, c_rhou (s_cell (S r) c) k = 0) /\ (forall k, s_u (S r) c k = 0) /\ s_P (S r) c = 2.
Proof.
  intros Hr Hc. destruct (fall_uni r c Hr Hc) as ((A1 & A2 & _) & A3 & A4 & _).
  split; [exact A1|]. split; [|split; [exact A3|exact A4]]. intros k. rewrite (A2 k : c_rhou (s_cell (S r) c) k = _). ring.
Qed.

Definition fall_q : cons := mkCons 1 (fun k => dt / 2 * match k with O => 1 | _ => 0 end * 1) (q_E (to_cons 1 (k_eos K) (mkPrim 1 (fun _ => 0) 2))).

Lemma fall_rec r c sd k : process 1 one_process r -> sel K L 1 r c = true -> (sd < 2)%nat -> (k < 1)%nat ->
  r_q (step_rec K L dt S r) c sd k = fall_q.
Proof.
  intros Hr Hs Hsd Hk. unfold step_rec. cbn [hydro_reconstruction r_q]. unfold kwrite. rewrite Hs.
  assert (Hf : forall sd d, (sd < 2)%nat -> (d < 1)%nat ->
    face_prim (k_lim K) (l_mesh L r) (fun c => c_rho (s_cell (S r) c)) (s_u (S r)) (s_P (S r)) c sd d = mkPrim 1 (fun _ => 0) 2).
  { intros sd' d Hsd' Hd.
    exact (proj1 (uni_face (fall_K 0) fall_N one_process fall_X (fall_L 0) (ro_layout (fall_runs 0)) (ro_ng (fall_runs 0)) 1 (fun _ => 0) 2 (fun _ => 0) (fun _ _ _ => eq_refl) _ r c sd' d fall_uni Hr Hs Hd)). }
  unfold hancock_cons. rewrite (Hf sd k Hsd Hk). unfold fall_q. apply cons_ext; cbn [q_rho q_m q_E].
  - rewrite vsum_0; [cbn; ring|]. intros d Hd. change (d < 1)%nat in Hd. rewrite !Hf by (lia || assumption).
    apply flux_diff_same, cart_ds_rindex'. lia.
  - intros j. rewrite vsum_0; [cbn; ring|]. intros d Hd. change (d < 1)%nat in Hd. rewrite !Hf by (lia || assumption).
    rewrite flux_diff_same by (apply cart_ds_rindex'; lia). cbn. ring.
  - rewrite vsum_0; [cbn; ring|]. intros d Hd. change (d < 1)%nat in Hd. rewrite !Hf by (lia || assumption).
    rewrite flux_diff_same by (apply cart_ds_rindex'; lia). cbn. ring.
Qed.

Lemma fall_step r c : process 1 one_process r -> owned 1 2 (d_nloc (l_dec L r)) c ->
  c_rho (step_user K L t dt S r c) = 1 /\ (forall k, c_rhou (step_user K L t dt S r c) k = match k with O => dt | _ => 0 end) /\
  c_E (step_user K L t dt S r c) = q_E (to_cons 1 (k_eos K) (mkPrim 1 (fun _ => 0) 2)).
Proof.
  intros Hr Hc. pose proof (proj2 (sel_owned _ _ _ _ _ _ _ HL Hr) Hc) as Hs.
  assert (E : step_user K L t dt S r c = god_cell (k_geom K) 1 (k_eos K) HLLC (l_mesh L r) (s_grav (S r)) dt (s_cell (S r)) (step_rec K L dt S r) c).
  { unfold step_user, user_step. rewrite kwrite_in by exact Hs. exact (kwrite_in _ _ _ _ Hs). }
  rewrite E.
  destruct (fall_cell r c Hr (owned_in_array K fall_N one_process fall_X L HL r c Hr Hc)) as (A1 & A2 & _ & _).
  assert (AE : c_E (s_cell (S r) c) = q_E (to_cons 1 (k_eos K) (mkPrim 1 (fun _ => 0) 2))).
  { destruct (fall_uni r c Hr (owned_in_array K fall_N one_process fall_X L HL r c Hr Hc)) as ((_ & _ & A & _) & _). exact A. }
  assert (Hrec : forall x sd k, in_stencil 1 c x -> (sd < 2)%nat -> (k < 1)%nat -> r_q (step_rec K L dt S r) x sd k = fall_q).
  { intros x sd k Hx Hsd Hk. apply fall_rec; auto. exact (owned_sel1 K fall_N one_process fall_X L HL r c x Hr Hc Hx). }
  assert (Hfl : forall d, (d < 1)%nat -> flux_left HLLC 1 (k_eos K) (step_rec K L dt S r) c d = flux_right HLLC 1 (k_eos K) (step_rec K L dt S r) c d).
  { intros d Hd. unfold flux_left, face_flux, flux_right. rewrite !Hrec; try lia; try (now left); [reflexivity|now apply (st_r (fall_K 1))|now apply (st_l (fall_K 1))]. }
  cbn [god_cell c_rho c_rhou c_E fall_K k_geom k_nd k_eos k_sol].
  change (step_rec (fall_K 1) L dt S r) with (step_rec K L dt S r). change (pg_eos (mkPG (5 / 3) 1)) with (k_eos K). split; [|split].
  - unfold god_rho. rewrite vsum_0; [lra|]. intros d Hd. rewrite Hfl by assumption. apply flux_diff_same, cart_ds_rindex'. lia.
  - intros k. unfold god_rhou. rewrite vsum_0.
    + rewrite A1, A2. change (s_grav (S r) c k) with (match k with O => 1 | _ => 0 end). destruct k; ring.
    + intros d Hd. rewrite Hfl by assumption. rewrite flux_diff_same by (apply cart_ds_rindex'; lia). cbn. ring.
  - unfold god_E. rewrite vsum_0; [rewrite AE; ring|]. intros d Hd. rewrite Hfl by assumption.
    rewrite flux_diff_same by (apply cart_ds_rindex'; lia). rewrite A2. ring.
Qed.
End Fall.

(** The ghost cell next to the right wall, before and after the wall is removed. *)
Lemma fall_ghost A : bcs_update (fall_K 1) (fall_L 1) A rank0 (I3 6 0 0) = negate_momentum 0 (A rank0 (I3 5 0 0)) /\
  bcs_update (with_bcs (fall_K 1) (open_right (fun _ => Reflexive))) (relaid (fall_L 1) fall_X) A rank0 (I3 6 0 0) = A rank0 (I3 5 0 0).
Proof. split; reflexivity. Qed.

Lemma relaid_same K N dims X : relaid (the_layout K N dims X) X = the_layout K N dims X.
Proof.
  unfold relaid, the_layout. cbn [l_dims l_dec l_mesh]. f_equal. apply functional_extensionality. intros r. now destruct (set_grid _ X).
Qed.

Lemma rank0_process : process 1 one_process rank0.
Proof. intros d Hd. destruct d as [|[|[|d]]]; [vm_compute; split; congruence..|lia]. Qed.
Lemma fall_own5 : owned 1 2 (d_nloc (l_dec (fall_L 1) rank0)) (I3 5 0 0).
Proof. intros d Hd. destruct d as [|[|[|d]]]; [vm_compute; split; congruence..|lia]. Qed.

Lemma fall_restart (t dt : R) G Rst : let K := fall_K 1 in let L := fall_L 1 in
  let g1 := move_step K L 4 (fun _ _ => true) 0 t dt (move_init K L fall_X (the_state K L fall_G)) in
  let g' := move_init K L (v_x g1) Rst in
  starts_from K one_process L G (v_st g1) -> starts_from K one_process L G Rst ->
  v_on g1 = false /\ v_on g' = true /\ v_bcs g1 1%nat = NullGradient /\ v_bcs g' 1%nat = Reflexive /\
  c_rhou (s_cell (v_st g1 rank0) (I3 6 0 0)) 0%nat = dt /\ c_rhou (s_cell (v_st g' rank0) (I3 6 0 0)) 0%nat = - dt.
Proof.
  intros K L g1 g' HG HRst.
  assert (Eg : g1 = let S := init_state K L (the_state K L fall_G) in let K2 := with_bcs K (open_right (k_bcs K)) in
    let A2 := bcs_update K2 L (bcs_update K L (step_user K L t dt S)) in
    mkGS fall_X false (open_right (k_bcs K)) (finish K2 L A2 (step_rec K L dt S) A2 S)).
  { unfold g1, move_step, move_init. cbn [v_x v_on v_bcs v_st andb]. rewrite (relaid_same K fall_N one_process fall_X : relaid L fall_X = L).
    replace (rleb 0 _) with true; [reflexivity|]. symmetry. apply rleb_true. cbn. lra. }
  cbv zeta in Eg. unfold g'. clearbody g1. clear g'. subst g1. cbn [v_x v_on v_bcs v_st move_init].
  rewrite (relaid_same K fall_N one_process fall_X : relaid L fall_X = L).
  split; [reflexivity|]. split; [reflexivity|]. split; [reflexivity|]. split; [reflexivity|].
  pose proof (fall_step t dt rank0 (I3 5 0 0) rank0_process fall_own5) as (F1 & F2 & _).
  fold K L in F1, F2. set (S := init_state K L (the_state K L fall_G)) in *. set (A := bcs_update K L (step_user K L t dt S)) in *.
  set (A2 := bcs_update (with_bcs K (open_right (k_bcs K))) L A) in *.
  assert (EA : A rank0 (I3 5 0 0) = step_user K L t dt S rank0 (I3 5 0 0)).
  { exact (bcs_owned K fall_N one_process fall_X L (ro_layout (fall_runs 1)) _ _ _ (ro_faces (fall_runs 1)) rank0_process fall_own5). }
  assert (EA2 : A2 rank0 (I3 5 0 0) = A rank0 (I3 5 0 0)).
  { pose proof (with_bcs_runs K (open_right (k_bcs K)) _ _ _ _ (fall_runs 1)) as HR2.
    exact (bcs_owned _ fall_N one_process fall_X L (ro_layout HR2) _ _ _ (ro_faces HR2) rank0_process fall_own5). }
  split.
  - cbn [finish s_cell]. replace (A2 rank0 (I3 6 0 0)) with (A rank0 (I3 5 0 0)) by reflexivity. rewrite EA. exact (F2 0%nat).
  - cbn [init_state finish s_cell]. replace (bcs_update K L (init_cons K L Rst) rank0 (I3 6 0 0)) with (negate_momentum 0 (init_cons K L Rst rank0 (I3 5 0 0))) by reflexivity.
    cbn [negate_momentum c_rhou Nat.eqb].
    pose proof (proj2 (sel_owned _ _ _ _ _ _ _ (ro_layout (fall_runs 1)) rank0_process) fall_own5) as Hs.
    assert (ER : c_rhou (init_cons K L Rst rank0 (I3 5 0 0)) = q_m (to_cons 1 (k_eos K) (mkPrim (c_rho (s_cell (Rst rank0) (I3 5 0 0))) (s_u (Rst rank0) (I3 5 0 0)) (s_P (Rst rank0) (I3 5 0 0))))).
    { unfold init_cons. cbn [c_rhou conv_prim_to_cons fst]. exact (kwrite_in _ _ _ _ Hs). }
    rewrite ER. cbn [to_cons q_m p_rho p_u].
    rewrite (sf_rho HRst rank0 rank0_process _ fall_own5), <- (sf_rho HG rank0 rank0_process _ fall_own5).
    rewrite (sf_u HRst rank0 rank0_process _ fall_own5), <- (sf_u HG rank0 rank0_process _ fall_own5).
    assert (EU : s_u (finish (with_bcs K (open_right (k_bcs K))) L A2 (step_rec K L dt S) A2 S rank0) (I3 5 0 0) =
      p_u (to_prim 1 (k_eos K) (cons_of (A2 rank0 (I3 5 0 0))))) by reflexivity.
    cbn [v_st]. rewrite EU. cbn [finish s_cell to_prim p_u cons_of q_m q_rho].
    rewrite EA2, EA, F1, F2. lra.
Qed.

(** ** The gas of ProofMainEx.v, in uniform motion on 3 x 2 processes, with a grid that shifts at every step *)
Section Shifting.
Let K := ex_K ex_bcs Cartesian.
Let L := ex_L ex_bcs Cartesian.
Let L1 := ex_L1 ex_bcs Cartesian.
Let G := ex_G ex_u.
Let S0 := init_state K L (the_state K L G).
Let crit : layout -> world cell -> bool := fun _ _ => true.
Let g0 := move_init K L ex_X (the_state K L G).
Let g1 := move_step K L 7 crit 1000 0 gas_dt g0.
Let HR := ex_runs ex_bcs Cartesian.

Lemma ex_relaid : relaid L ex_X = L. Proof. exact (relaid_same K ex_N ex_dims ex_X). Qed.

Lemma sg_state : exists X2 L2 rec A new, laid_out K ex_N ex_dims X2 L2 /\ l_dec L2 = l_dec L /\ shift_mesh ex_X = Ok X2 /\
  (forall r c, process 2 ex_dims r -> owned 2 2 (d_nloc (l_dec L r)) c ->
     A r c = s_cell (full_step K L 0 gas_dt S0 r) (east c) /\ in_array (d_nwg (l_dec L r)) (east c)) /\
  g1 = mkGS X2 true (k_bcs K) (finish K L2 (bcs_update K L2 A) rec new S0).
Proof.
  destruct (shift_mesh_ok ex_X ltac:(cbn; lia)) as (X2 & E2 & _).
  pose proof (shift_mesh_coords _ _ _ _ _ E2 ex_coords) as HX2.
  exists X2, (relaid L X2), (step_rec K L gas_dt S0),
    (fun r => shift_array (d_nwg (l_dec L r)) (s_cell (full_step K L 0 gas_dt S0 r)) (s_cell (full_step K L 0 gas_dt S0 r))).
  eexists. split; [exact (relaid_ok K ex_N ex_dims ex_X L X2 (ro_layout HR) HX2)|]. split; [reflexivity|]. split; [exact E2|]. split.
  - intros r c Hr Hc. exact (shift_owned_at K ex_N ex_dims ex_X L r c _ (ro_layout HR) ltac:(cbn; lia) Hr Hc).
  - unfold g1, g0, move_step, move_init. cbn [v_x v_on v_bcs v_st andb crit]. rewrite ex_relaid, E2.
    replace (rleb 1000 _) with false; [reflexivity|]. symmetry. apply rleb_false. cbn. lra.
Qed.

Lemma sg_uniform r c : process 2 ex_dims r -> owned 2 2 (d_nloc (l_dec L r)) c ->
  valid_cons 2 (cons_of (s_cell (v_st g1 r) c)) /\
  c_rho (s_cell (v_st g1 r) c) = 1 /\ c_fx (s_cell (v_st g1 r) c) = g_fx G rank0 /\ s_u (v_st g1 r) c = ex_u /\ s_P (v_st g1 r) c = 2.
Proof.
  destruct sg_state as (X2 & L2 & rec & A & new & HL2 & ED & _ & HA & ->). cbn [v_st]. intros Hr Hc.
  assert (EC : bcs_update K L2 A r c = s_cell (full_step K L 0 gas_dt S0 r) (east c)).
  { rewrite (bcs_owned K ex_N ex_dims X2 L2 HL2 A r c (ro_faces HR) Hr); [now apply HA|now rewrite ED]. }
  destruct (gas_uniform [(0, gas_dt)] r (east c) Hr (proj2 (HA r c Hr Hc))) as (U1 & U2 & U3 & U4 & U5 & U6).
  cbn [run fold_left fst snd] in U1, U2, U3, U4, U5, U6. fold K L G S0 in U1, U2, U3, U4, U5, U6.
  set (x := s_cell (full_step K L 0 gas_dt S0 r) (east c)) in *.
  cbn [finish s_cell s_u s_P]. rewrite EC.
  assert (Hv : valid_cons 2 (cons_of x)).
  { unfold valid_cons, internal, kinetic. cbn [cons_of q_rho q_E q_m]. rewrite U1, U3. split; [lra|].
    rewrite (vsum_ext 2 (fun k => c_rhou x k ^ 2) (fun k => ex_u k ^ 2)) by (intros; rewrite U2; ring). 
    pose proof (law_evol_pos _ ex_eos 1 2 ltac:(lra) ltac:(lra)) as He. change (k_eos K) with (pg_eos (mkPG (5 / 3) 1)). change (k_nd K) with 2%nat. lra. }
  split; [exact Hv|]. split; [exact U1|]. split; [extensionality n; apply U4|].
  assert (Ha : in_array (d_nwg (l_dec L2 r)) c).
  { apply (owned_in_array K ex_N ex_dims X2 L2 HL2 r c Hr). now rewrite ED. }
  pose proof (proj2 (sel_array _ _ _ _ _ _ _ HL2 Hr) Ha) as Hs.
  assert (EQ : cons_of x = to_cons 2 (k_eos K) (mkPrim 1 ex_u 2)).
  { apply cons_ext; cbn [cons_of q_rho q_m q_E]; [exact U1|intros k; rewrite U2; cbn; ring|rewrite U3; cbn [to_cons q_E p_rho p_P]; unfold ek_prim; cbn [p_rho p_u]; rewrite (vsum_ext 2 (fun d => ex_u d * ex_u d) (fun d => ex_u d ^ 2)) by (intros; ring); reflexivity]. }
  unfold conv_cons_to_prim. cbn [fst snd]. rewrite !kwrite_in by exact Hs. rewrite EC.
  change (mkCons (c_rho x) (c_rhou x) (c_E x)) with (cons_of x). change (k_nd K) with 2%nat. rewrite EQ, to_prim_to_cons by (exact ex_eos || (split; cbn; lra)).
  split; reflexivity.
Qed.

Lemma sg_loop : exists m1 f, loop (moving K L 7 crit 1000 (1 / 2)) gas_p never 1 (fresh gas_p g0) = (m1, Going) /\
  last_file m1 f /\ fl_iter f = m_iter m1 /\ m_iter m1 = 1%Z /\ fl_data f = g1.
Proof.
  destruct (gas_good []) as (_ & _ & B & D). cbn [run fold_left] in B, D. 
  assert (E : y_dt (moving K L 7 crit 1000 (1 / 2)) g0 = gas_dt) by (unfold g0, move_init; cbn [moving y_dt v_x v_st]; rewrite ex_relaid; reflexivity).
  assert (EB : y_bad (moving K L 7 crit 1000 (1 / 2)) g0 = false) by (unfold g0, move_init; cbn [moving y_bad v_x v_st]; rewrite ex_relaid; exact B).
  assert (D' : 0 < gas_dt) by exact D. clear B D.
  cbn [loop]. unfold fresh. cbn [gas_p p_iter_freq p_time_freq p_t_ini]. change ((0 <? 1)%Z || rltb 0 0)%bool with true. cbv iota.
  unfold body. cbn [output write next_id m_iter m_iid m_tid m_t m_st m_oid m_record m_files Z.add].
  change (int32 1) with true. cbn [negb]. unfold iter_schedule, time_schedule. cbn [gas_p p_iter_freq p_time_freq p_t_ini m_iter m_iid m_tid m_t m_st m_oid].
  rewrite (proj2 (rltb_false 0 0)) by lra. unfold clip_to_end. cbn [gas_p p_t_end].
  change (int32 ((0 + 1) * 1)) with true. change (0 <? 1)%Z with true. cbn [negb]. change ((0 + 1) * 1 <=? 0 + 1)%Z with true. cbv iota zeta.
  rewrite E. rewrite (proj2 (rleb_false _ _)) by lra. rewrite EB. cbv iota. cbn [gas_p p_max_iter never orb].
  change (100 <=? 1)%Z with false. cbn [orb].
  eexists _, _. split; [reflexivity|]. split; [eexists [_]; reflexivity|]. repeat split; reflexivity.
Qed.

Lemma sg_example : exists m1 f Rst,
  runs_on K ex_N ex_dims ex_X L /\ runs_on K ex_N one_process ex_X L1 /\ lawful_eos (k_eos K) /\
  decides_alike K ex_N ex_dims L L1 crit /\ decides_alike K ex_N one_process L1 L1 crit /\
  starts_from K ex_dims L G (the_state K L G) /\
  loop (moving K L 7 crit 1000 (1 / 2)) gas_p never 1 (fresh gas_p g0) = (m1, Going) /\
  last_file m1 f /\ fl_iter f = m_iter m1 /\ v_on (fl_data f) = true /\ a_at (v_x (fl_data f) 0%nat) 2 = 3 /\
  (forall r c, process 2 ex_dims r -> owned 2 2 (d_nloc (l_dec L r)) c -> valid_cons 2 (cons_of (s_cell (v_st (fl_data f) r) c))) /\
  starts_from K ex_dims L G (v_st (fl_data f)) /\ starts_from K one_process L1 G Rst.
Proof.
  destruct sg_loop as (m1 & f & A & B & C & D & E). exists m1, f, (the_state K L1 G). rewrite E.
  split; [apply ex_runs|]. split; [apply ex_runs1|]. split; [exact ex_eos|].
  split; [intros X W W1 _ _; reflexivity|]. split; [intros X W W1 _ _; reflexivity|]. split; [apply the_state_ok|].
  split; [exact A|]. split; [exact B|]. split; [exact C|].
  split; [|split; [|split; [|split]]].
  - destruct sg_state as (X2 & L2 & rec & A' & new & _ & _ & _ & _ & ->). reflexivity.
  - destruct sg_state as (X2 & L2 & rec & A' & new & _ & _ & E2 & _ & ->). cbn [v_x].
    unfold shift_mesh in E2. destruct (shift_coords (ex_X 0%nat)) as [y|w|w] eqn:Ey; [|discriminate..]. cbn [obind] in E2. injection E2 as <-.
    destruct (shift_coords_at _ _ Ey) as (_ & _ & H & _). rewrite H by (cbn; lia). reflexivity.
  - intros r c Hr Hc. now apply sg_uniform.
  - split; intros r Hr c Hc; destruct (sg_uniform r c Hr Hc) as (_ & P & Q & U & V); [rewrite P|rewrite Q|rewrite U|rewrite V]; reflexivity.
  - apply the_state_ok.
Qed.
End Shifting.

(** ** The criterion of v1d *)
Definition two : idx := I3 2 1 1.
Lemma fall_runs2 g : runs_on (fall_K g) fall_N two fall_X (the_layout (fall_K g) fall_N two fall_X).
Proof.
  assert (H3 : forall d, (d < 3)%nat -> (1 <= coord d fall_N)%Z) by (dims3; vm_compute; congruence).
  assert (H4 : forall d, (d < 3)%nat -> (1 <= coord d (mpi_dims 1 two))%Z) by (dims3; vm_compute; congruence).
  split; cbn [fall_K k_nd k_ng k_order].
  - apply the_layout_ok; cbn [fall_K k_nd k_ng]; try lia; [exact H3|exact H4|]. intros d Hd. destruct d as [|[|[|d]]]; [reflexivity..|lia].
  - unfold the_layout. cbn [l_dec fall_K k_nd k_ng]. apply decs_thick; try lia; [exact H3|exact H4|].
    intros d Hd; destruct d as [|d]; [|lia]; vm_compute; congruence.
  - lia.
  - intros f Hf. cbn in Hf. cbn. lia.
  - exact I.
Qed.

(** A window of one cell; gas moves in the third last cell only. *)
Definition puff : idx -> cell := fun c => mkCell 1 (fun _ => if (ii c =? 3)%Z then 2 else 0) 1 (fun _ => 0).
Lemma window_example : exists W, slice_of 1 one_process (l_dec (fall_L 0)) W puff /\
  v1d_criterion (fall_K 0) (fall_L 0) 1 1 W = Ok true /\
  forall c, last_cells (fall_K 0) fall_N 1 c -> radial_velocity (puff c) = 0.
Proof.
  set (W := (fun r c => puff (iadd (corner_min (d_range (l_dec (fall_L 0) r))) c)) : world cell).
  exists W. split; [intros r _ c _; reflexivity|]. split.
  - destruct (proj2 (proj2 (v1d_passes (fall_K 0) fall_N one_process fall_X (fall_L 0) 1 1 W (fall_runs 0) rank0 rank0_process eq_refl))
      ltac:(vm_compute; congruence)) as (b & E). rewrite E. f_equal.
    apply (v1d_fires (fall_K 0) fall_N one_process fall_X (fall_L 0) (fall_runs 0) 1 W puff ltac:(intros r _ c _; reflexivity) (v1d_ok_pass _ _ _ _ _ _ E) 1 b E).
    left. exists (I3 3 0 0). split; [|unfold radial_velocity; cbn; lra].
    split; [cbn; lia|]. intros d Hd. destruct d as [|[|[|d]]]; cbn; lia.
  - intros c [Hc _]. cbn in Hc. unfold radial_velocity. cbn. replace (ii c =? 3)%Z with false by lia. lra.
Qed.

(** Gas that moves inwards everywhere; threshold 0. *)
Definition inward : idx -> cell := fun c => mkCell 1 (fun _ => - 1) 1 (fun _ => 0).
Lemma floor_example : let L2 := the_layout (fall_K 0) fall_N two fall_X in
  v1d_criterion (fall_K 0) (fall_L 0) 1 0 (fun _ => inward) = Ok false /\
  v1d_criterion (fall_K 0) L2 1 0 (fun _ => inward) = Ok true.
Proof.
  intros L2. split.
  - destruct (proj2 (proj2 (v1d_passes (fall_K 0) fall_N one_process fall_X (fall_L 0) 1 0 (fun _ => inward) (fall_runs 0) rank0 rank0_process eq_refl))
      ltac:(vm_compute; congruence)) as ([|] & E); [|exact E].
    destruct (proj1 (v1d_fires (fall_K 0) fall_N one_process fall_X (fall_L 0) (fall_runs 0) 1 (fun _ => inward) inward ltac:(intros r _ c _; reflexivity) (v1d_ok_pass _ _ _ _ _ _ E) 0 true E) eq_refl)
      as [(c & _ & H)|[H _]]; [unfold radial_velocity in H; cbn in H; lra|vm_compute in H; discriminate].
  - assert (H2 : process 1 two (I3 1 0 0)) by (intros d Hd; destruct d as [|[|[|d]]]; [vm_compute; split; congruence..|lia]).
    destruct (proj2 (proj2 (v1d_passes (fall_K 0) fall_N two fall_X L2 1 0 (fun _ => inward) (fall_runs2 0) (I3 1 0 0) H2 eq_refl))
      ltac:(vm_compute; congruence)) as (b & E). rewrite E. f_equal.
    apply (v1d_fires (fall_K 0) fall_N two fall_X L2 (fall_runs2 0) 1 (fun _ => inward) inward ltac:(intros r _ c _; reflexivity) (v1d_ok_pass _ _ _ _ _ _ E) 0 b E).
    right. split; [vm_compute; reflexivity|lra].
Qed.
