(** * Runs with relabelled axes (C99). *)
From Coq Require Import FunctionalExtensionality ZifyBool ZifyNat.
From Verif Require Import Base RBase ModelMesh ModelGeom ModelBoundary ModelHydro ModelScheme ModelStep
  SpecMesh SpecGeom SpecBoundary SpecHydro SpecScheme SpecStep SpecFill SpecSym
  ProofBase ProofMesh ProofR ProofBoundary ProofBoundary2 ProofHydro ProofScheme ProofAxes ProofShift ProofReduce ProofStep ProofStepEx ProofLayout ProofFill ProofSym.
Local Open Scope R_scope.

(** ** The pressure fix *)
Section Pf.
Variables (nd : nat) (sigma tau : nat -> nat).
Hypothesis Hnd : (nd <= 3)%nat.
Hypothesis HA : axis_perm nd sigma tau.
Variables (m : mesh) (e : eos) (dt eps : R) (a a' new new' : idx -> cell) (r r' : recon).
Notation m' := (fun d => m (tau d)).
Notation px := (relabel_idx tau).
Hypothesis Ha : forall c, a' (px c) = relabel_cell tau (a c).
Hypothesis Hn : forall c, new' (px c) = relabel_cell tau (new c).
Hypothesis Hr : forall c sd d, (d < 3)%nat -> r_q r' (px c) sd d = relabel_cons tau (r_q r c sd (tau d)).

Lemma eint_tau x : eint nd (relabel_cell tau x) = eint nd x.
Proof. unfold eint. change (cons_of (relabel_cell tau x)) with (relabel_cons tau (cons_of x)). rewrite (ek_cons_tau nd sigma tau Hnd HA). reflexivity. Qed.
Lemma us_left_tau c d p : (d < 3)%nat -> us_left nd e r' (px c) d p = us_left nd e r c (tau d) (tau p).
Proof. intros Hd. unfold us_left. rewrite (lindex_pidx nd sigma tau HA), !Hr, !(to_prim_tau nd sigma tau Hnd HA) by assumption. reflexivity. Qed.
Lemma us_right_tau c d p : (d < 3)%nat -> us_right nd e r' (px c) d p = us_right nd e r c (tau d) (tau p).
Proof. intros Hd. unfold us_right. rewrite (rindex_pidx nd sigma tau HA), !Hr, !(to_prim_tau nd sigma tau Hnd HA) by assumption. reflexivity. Qed.
Lemma ein_left_tau c d p : (d < 3)%nat -> ein_left nd e a' r' (px c) d p = ein_left nd e a r c (tau d) (tau p).
Proof. intros Hd. unfold ein_left. rewrite us_left_tau, (lindex_pidx nd sigma tau HA), !Ha, !eint_tau by assumption. reflexivity. Qed.
Lemma ein_right_tau c d p : (d < 3)%nat -> ein_right nd e a' r' (px c) d p = ein_right nd e a r c (tau d) (tau p).
Proof. intros Hd. unfold ein_right. rewrite us_right_tau, (rindex_pidx nd sigma tau HA), !Ha, !eint_tau by assumption. reflexivity. Qed.

Lemma pf_cell_tau c : pf_cell Cartesian nd e m' dt eps a' r' new' (px c) = relabel_cell tau (pf_cell Cartesian nd e m dt eps a r new c).
Proof.
  assert (Eu : div_u Cartesian nd e m' r' (px c) = div_u Cartesian nd e m r c).
  { unfold div_u. apply (vsum_tau2 nd sigma tau Hnd HA _ (fun i => vsum nd (fun p => _))). intros d Hd.
    apply (vsum_tau2 nd sigma tau Hnd HA _ (fun p => ((us_right nd e r c (tau d) p * ds Cartesian nd m (rindex (tau d) c) p) - (us_left nd e r c (tau d) p * ds Cartesian nd m c p)) / dv Cartesian nd m c)).
    intros p Hp. rewrite us_right_tau, us_left_tau by lia. cbn [ds dv].
    rewrite (rindex_pidx nd sigma tau HA), !(cart_ds_tau nd sigma tau Hnd HA m), (cart_dv_tau nd sigma tau Hnd HA m). reflexivity. }
  assert (Eue : div_ue Cartesian nd e m' a' r' (px c) = div_ue Cartesian nd e m a r c).
  { unfold div_ue. apply (vsum_tau2 nd sigma tau Hnd HA _ (fun i => vsum nd (fun p => _))). intros d Hd.
    apply (vsum_tau2 nd sigma tau Hnd HA _ (fun p => ((us_right nd e r c (tau d) p * ein_right nd e a r c (tau d) p * ds Cartesian nd m (rindex (tau d) c) p)
       - (us_left nd e r c (tau d) p * ein_left nd e a r c (tau d) p * ds Cartesian nd m c p)) / dv Cartesian nd m c)).
    intros p Hp. rewrite us_right_tau, us_left_tau, ein_left_tau, ein_right_tau by lia. cbn [ds dv].
    rewrite (rindex_pidx nd sigma tau HA), !(cart_ds_tau nd sigma tau Hnd HA m), (cart_dv_tau nd sigma tau Hnd HA m). reflexivity. }
  unfold pf_cell, pf_energy, alpha, de_pf, ekin. rewrite Eu, Eue, Ha, Hn.
  change (cons_of (relabel_cell tau (a c))) with (relabel_cons tau (cons_of (a c))).
  rewrite !(ek_cons_tau nd sigma tau Hnd HA), !eint_tau, (to_prim_tau nd sigma tau Hnd HA).
  rewrite (vsum_tau2 nd sigma tau Hnd HA (fun idr => c_rhou (relabel_cell tau (a c)) idr * c_rhou (relabel_cell tau (a c)) idr / c_rho (relabel_cell tau (a c)))
             (fun idr => c_rhou (a c) idr * c_rhou (a c) idr / c_rho (a c))) by reflexivity.
  cbn [pprim p_P]. destruct (rltb (eint nd (a c)) (eps * ek_cons nd (cons_of (a c)))); reflexivity.
Qed.
End Pf.

(** ** Ghost cells *)
Lemma continuation_tau nd sigma tau N N' (b b' : nat -> bcond) (G G' : idx -> cell) g : (nd <= 3)%nat -> axis_perm nd sigma tau ->
  (forall d, (d < 3)%nat -> (1 <= coord d N)%Z) -> (forall d, (d < 3)%nat -> coord d N' = coord (tau d) N) ->
  (forall d s, (d < nd)%nat -> (s < 2)%nat -> b' (2 * d + s)%nat = b (2 * tau d + s)%nat) ->
  (forall d, (d < nd)%nat -> (- coord d N <= coord d g < 2 * coord d N)%Z) ->
  (forall d, (nd <= d < 3)%nat -> (0 <= coord d g < coord d N)%Z) ->
  (forall x, (forall d, (d < 3)%nat -> (0 <= coord d x < coord d N)%Z) -> G' (relabel_idx tau x) = relabel_cell tau (G x)) ->
  continuation nd N' b' G' (relabel_idx tau g) = relabel_cell tau (continuation nd N b G g).
Proof.
  intros Hnd HA HN EN Hb Hg Hg' HG. unfold continuation.
  assert (Lt : forall d, Nat.ltb (tau d) nd = Nat.ltb d nd).
  { intros d. pose proof (ax_nd _ _ _ HA d). destruct (Nat.ltb_spec (tau d) nd), (Nat.ltb_spec d nd); auto; lia. }
  assert (B : forall d, (d < nd)%nat -> b' (2 * d)%nat = b (2 * tau d)%nat /\ b' (2 * d + 1)%nat = b (2 * tau d + 1)%nat).
  { intros d Hd. split; [|apply Hb; lia]. pose proof (Hb d 0%nat Hd ltac:(lia)) as H. now rewrite !Nat.add_0_r in H. }
  set (x := mk3 (fun d => if Nat.ltb d nd then continue (b (2 * d)%nat) (b (2 * d + 1)%nat) (coord d N) (coord d g) else coord d g)).
  assert (E : mk3 (fun d => if Nat.ltb d nd then continue (b' (2 * d)%nat) (b' (2 * d + 1)%nat) (coord d N') (coord d (relabel_idx tau g)) else coord d (relabel_idx tau g))
              = relabel_idx tau x).
  { apply idx_ext3. intros d Hd. pose proof (proj2 (ax_3 _ _ _ HA d) Hd) as Ht. unfold relabel_idx. rewrite !coord_mk3 by assumption. unfold x.
    rewrite coord_mk3 by assumption. rewrite Lt, EN by assumption. destruct (Nat.ltb_spec d nd) as [H|H]; [|reflexivity].
    destruct (B d H) as [-> ->]. reflexivity. }
  rewrite E, HG.
  - apply cell_ext; try reflexivity. intros k. unfold relabel_cell, relabel_vec. cbn [c_rhou]. rewrite Lt. destruct (Nat.ltb_spec k nd) as [H|H]; [|reflexivity].
    destruct (B k H) as [-> ->]. rewrite EN by lia. unfold relabel_idx. rewrite coord_mk3 by lia. reflexivity.
  - intros d Hd. unfold x. rewrite coord_mk3 by assumption. destruct (Nat.ltb_spec d nd); [apply continue_range; auto|apply Hg'; lia].
Qed.

Lemma ghosts_tau nd sg ta ng d : axis_perm nd sg ta -> ghosts nd ng (ta d) = ghosts nd ng d.
Proof.
  intros H. unfold ghosts. pose proof (ax_nd _ _ _ H d). destruct (Nat.ltb_spec (ta d) nd), (Nat.ltb_spec d nd); auto; lia.
Qed.

(** ** The run *)
Section Run.
Variables (K K' : config) (sigma tau : nat -> nat) (N N' : idx) (X X' : nat -> arr1) (L L' : layout).
Hypothesis HA : axis_perm (k_nd K) sigma tau.
Hypothesis HK : relabelled_run tau K K'.
Hypothesis HX : relabelled_mesh tau N N' X X'.
Hypothesis HL : laid_out K N one_process X L.
Hypothesis HL' : laid_out K' N' one_process X' L'.
Hypothesis Hth : thick (k_nd K) one_process (k_ng K) (l_dec L).
Hypothesis Hng : (2 <= k_ng K)%Z.
Notation px := (relabel_idx tau).

Let Hnd : (k_nd K <= 3)%nat.
Proof. pose proof (dcp_nd (lo_dec HL)). lia. Qed.
Lemma px_psi c : px (relabel_idx sigma c) = c.
Proof.
  apply idx_ext3. intros d Hd. pose proof (proj2 (ax_3 _ _ _ HA d) Hd). unfold relabel_idx. rewrite !coord_mk3 by assumption. now rewrite (ax_st _ _ _ HA).
Qed.
Lemma psi_px c : relabel_idx sigma (px c) = c.
Proof.
  apply idx_ext3. intros d Hd. assert (H : (sigma d < 3)%nat) by (apply (ax_3 _ _ _ HA); now rewrite (ax_ts _ _ _ HA)).
  unfold relabel_idx. rewrite !coord_mk3 by assumption. now rewrite (ax_ts _ _ _ HA).
Qed.
Lemma px_sel n c : sel K' L' n rank0 (px c) = sel K L n rank0 c.
Proof.
  apply eq_true_iff_eq. rewrite (sel_spec _ _ _ _ _ _ _ _ HL' (rank0_ok _)), (sel_spec _ _ _ _ _ _ _ _ HL (rank0_ok _)).
  rewrite (rl_nd _ _ _ HK), (rl_ng _ _ _ HK).
  assert (Lt : forall d, Nat.ltb (tau d) (k_nd K) = Nat.ltb d (k_nd K)).
  { intros d. pose proof (ax_nd _ _ _ HA d). destruct (Nat.ltb_spec (tau d) (k_nd K)), (Nat.ltb_spec d (k_nd K)); auto; lia. }
  split; intros H d Hd.
  - assert (Hs : (sigma d < 3)%nat) by (apply (ax_3 _ _ _ HA); now rewrite (ax_ts _ _ _ HA)).
    specialize (H (sigma d) Hs). rewrite (s_nloc _ _ _ _ HL') in H by assumption. rewrite (s_nloc _ _ _ _ HL) by assumption.
    destruct HX as [EN _]. rewrite EN in H by assumption. unfold relabel_idx in H. rewrite coord_mk3 in H by assumption.
    rewrite <- (ghosts_tau _ _ _ _ (sigma d) HA), <- Lt in H. rewrite (ax_ts _ _ _ HA) in H. exact H.
  - pose proof (proj2 (ax_3 _ _ _ HA d) Hd) as Ht. specialize (H (tau d) Ht). rewrite (s_nloc _ _ _ _ HL) in H by assumption.
    rewrite (s_nloc _ _ _ _ HL') by assumption. destruct HX as [EN _]. rewrite EN by assumption. unfold relabel_idx. rewrite coord_mk3 by assumption.
    rewrite (ghosts_tau _ _ _ _ d HA), Lt in H. exact H.
Qed.

Notation rel := (related K L px (relabel_cell tau) (relabel_vec tau)).

Lemma zero_tau : relabel_cell tau zero_cell = zero_cell.
Proof. reflexivity. Qed.

Lemma step_user_tau t dt S S' : rel S S' -> True -> forall c, sel K L 0 rank0 c = true ->
  step_user K' L' t dt S' rank0 (px c) = relabel_cell tau (step_user K L t dt S rank0 c).
Proof.
  intros H _ c Hc. pose proof (px_sel 0 c) as Hc'. rewrite Hc in Hc'.
  assert (Hng' : (2 <= k_ng K')%Z) by (rewrite (rl_ng _ _ _ HK); exact Hng).
  rewrite (step_user_clean K N X L t dt S c HL Hng Hc), (step_user_clean K' N' X' L' t dt S' (px c) HL' Hng' Hc').
  set (C := clean K L S). set (C' := clean K' L' S').
  assert (R : forall x, s_cell (C' rank0) (px x) = relabel_cell tau (s_cell (C rank0) x) /\ s_u (C' rank0) (px x) = relabel_vec tau (s_u (C rank0) x) /\
    s_P (C' rank0) (px x) = s_P (C rank0) x /\ s_grav (C' rank0) (px x) = relabel_vec tau (s_grav (C rank0) x)).
  { intros x. unfold C, C'. cbn [clean s_cell s_u s_P s_grav]. rewrite (rl_ng _ _ _ HK), px_sel.
    destruct (sel K L (k_ng K) rank0 x) eqn:E; [apply (H x E)|repeat split]. }
  assert (EM : l_mesh (clean_layout X' L') rank0 = fun d => l_mesh (clean_layout X L) rank0 (tau d)).
  { apply functional_extensionality. intros d. apply functional_extensionality. intros i. cbn [clean_layout l_mesh].
    pose proof (ax_3 _ _ _ HA d) as H3. destruct HX as [_ EX].
    destruct (Nat.ltb_spec d 3), (Nat.ltb_spec (tau d) 3); try lia; [now apply EX|reflexivity]. }
  assert (F1 : forall x, c_rho (s_cell (C' rank0) (px x)) = c_rho (s_cell (C rank0) x)) by (intros x; destruct (R x) as (-> & _); reflexivity).
  assert (F2 : forall x d, s_u (C' rank0) (px x) d = s_u (C rank0) x (tau d)) by (intros x d; destruct (R x) as (_ & -> & _); reflexivity).
  assert (F3 : forall x, s_P (C' rank0) (px x) = s_P (C rank0) x) by (intros x; destruct (R x) as (_ & _ & -> & _); reflexivity).
  assert (F4 : forall x d, s_grav (C' rank0) (px x) d = s_grav (C rank0) x (tau d)) by (intros x d; destruct (R x) as (_ & _ & _ & ->); reflexivity).
  assert (F5 : forall x n, c_fx (s_cell (C' rank0) (px x)) n = c_fx (s_cell (C rank0) x) n) by (intros x n; destruct (R x) as (-> & _); reflexivity).
  assert (F6 : forall x, s_cell (C' rank0) (px x) = relabel_cell tau (s_cell (C rank0) x)) by (intros x; apply R).
  assert (Rec : (forall x sd d, (d < 3)%nat -> r_q (step_rec K' (clean_layout X' L') dt C' rank0) (px x) sd d = relabel_cons tau (r_q (step_rec K (clean_layout X L) dt C rank0) x sd (tau d))) /\
    (forall x sd d n, (d < 3)%nat -> r_fx (step_rec K' (clean_layout X' L') dt C' rank0) (px x) sd d n = r_fx (step_rec K (clean_layout X L) dt C rank0) x sd (tau d) n)).
  { unfold step_rec. rewrite (rl_geom _ _ _ HK), (rl_geom' _ _ _ HK), (rl_nd _ _ _ HK), (rl_eos _ _ _ HK), (rl_lim _ _ _ HK), EM.
    cbn [hydro_reconstruction r_q r_fx]. unfold kwrite.
    assert (P1 : forall x, sel K' (clean_layout X' L') 1 rank0 (px x) = sel K (clean_layout X L) 1 rank0 x) by (intros x; exact (px_sel 1 x)).
    split.
    - intros x sd d Hd. rewrite P1. destruct (sel K (clean_layout X L) 1 rank0 x); [|reflexivity].
      apply (hancock_cons_tau (k_nd K) sigma tau Hnd HA (l_mesh (clean_layout X L) rank0) (k_eos K)
        (fun x => c_rho (s_cell (C rank0) x)) (fun x => c_rho (s_cell (C' rank0) x)) (s_P (C rank0)) (s_P (C' rank0))
        (s_u (C rank0)) (s_u (C' rank0)) (fun x => c_fx (s_cell (C rank0) x)) (fun x => c_fx (s_cell (C' rank0) x)) (s_grav (C rank0)) (s_grav (C' rank0))
        (s_cell (C rank0)) (s_cell (C' rank0)) F1 F3 F2 F5 F4 F6); [exact Hd|].
      intros sd' d' Hd'. apply (face_prim_tau (k_nd K) sigma tau HA); auto.
    - intros x sd d n Hd. rewrite P1. destruct (sel K (clean_layout X L) 1 rank0 x); [|reflexivity].
      apply (hancock_fx_tau (k_nd K) sigma tau Hnd HA (l_mesh (clean_layout X L) rank0) (k_eos K)
        (fun x => c_rho (s_cell (C rank0) x)) (fun x => c_rho (s_cell (C' rank0) x)) (s_P (C rank0)) (s_P (C' rank0))
        (s_u (C rank0)) (s_u (C' rank0)) (fun x => c_fx (s_cell (C rank0) x)) (fun x => c_fx (s_cell (C' rank0) x)) (s_grav (C rank0)) (s_grav (C' rank0))
        (s_cell (C rank0)) (s_cell (C' rank0)) F1 F3 F2 F5 F4 F6); [exact Hd| |].
      + intros sd' d' Hd'. apply (face_prim_tau (k_nd K) sigma tau HA); auto.
      + intros sd' d' n' Hd'. apply (face_fx_tau (k_nd K) sigma tau HA); auto. }
  destruct Rec as [R1 R2].
  assert (God : forall x, step_godunov K' (clean_layout X' L') dt C' rank0 (px x) = relabel_cell tau (step_godunov K (clean_layout X L) dt C rank0 x)).
  { intros x. unfold step_godunov, godunov, kwrite.
    change (sel K' (clean_layout X' L') 0 rank0 (px x)) with (sel K' L' 0 rank0 (px x)). rewrite px_sel.
    change (sel K (clean_layout X L) 0 rank0 x) with (sel K L 0 rank0 x).
    destruct (sel K L 0 rank0 x); [|reflexivity].
    rewrite (rl_geom _ _ _ HK), (rl_geom' _ _ _ HK), (rl_nd _ _ _ HK), (rl_eos _ _ _ HK), (rl_sol _ _ _ HK), EM.
    apply (god_cell_tau (k_nd K) sigma tau Hnd HA (l_mesh (clean_layout X L) rank0) (k_eos K)
        (fun x => c_rho (s_cell (C rank0) x)) (fun x => c_rho (s_cell (C' rank0) x)) (s_P (C rank0)) (s_P (C' rank0))
        (s_u (C rank0)) (s_u (C' rank0)) (fun x => c_fx (s_cell (C rank0) x)) (fun x => c_fx (s_cell (C' rank0) x)) (s_grav (C rank0)) (s_grav (C' rank0))
        (s_cell (C rank0)) (s_cell (C' rank0)) F1 F3 F2 F5 F4 F6); assumption. }
  unfold step_user, user_step. rewrite !kwrite_in by assumption. rewrite (rl_user _ _ _ HK).
  assert (Pf : step_pf K' (clean_layout X' L') dt C' rank0 (px c) = relabel_cell tau (step_pf K (clean_layout X L) dt C rank0 c)).
  { unfold step_pf. rewrite (rl_pf _ _ _ HK). destruct (k_pf K) as [eps|]; [|apply God].
    unfold pressure_fix. rewrite !kwrite_in by assumption.
    rewrite (rl_geom _ _ _ HK), (rl_geom' _ _ _ HK), (rl_nd _ _ _ HK), (rl_eos _ _ _ HK), EM.
    apply (pf_cell_tau (k_nd K) sigma tau Hnd HA); auto. }
  rewrite Pf. unfold user_cell. destruct (k_user K); reflexivity.
Qed.

Lemma bcs_tau (W W' : world cell) : (forall c, sel K L 0 rank0 c = true -> W' rank0 (px c) = relabel_cell tau (W rank0 c)) ->
  forall c, sel K L (k_ng K) rank0 c = true -> bcs_update K' L' W' rank0 (px c) = relabel_cell tau (bcs_update K L W rank0 c).
Proof.
  intros H c Hc. pose proof (px_sel (k_ng K) c) as Hc'. rewrite Hc in Hc'. destruct HX as [EN _].
  assert (Hth' : thick (k_nd K') one_process (k_ng K') (l_dec L')).
  { intros r Hr d Hd. rewrite (rl_nd _ _ _ HK) in Hd. assert (Er : r = rank0).
    { apply idx_ext. intros k Hk. specialize (Hr k Hk). rewrite mpi_dims_one, coord_one in Hr. rewrite coord_rank0. lia. }
    subst r. rewrite (s_nloc _ _ _ _ HL') by lia. rewrite EN, (rl_ng _ _ _ HK) by lia.
    pose proof (proj2 (ax_nd _ _ _ HA d) Hd) as Ht. pose proof (Hth rank0 (rank0_ok _) (tau d) Ht) as Q. rewrite (s_nloc _ _ _ _ HL) in Q by lia. exact Q. }
  assert (Ho' : complete_order (k_nd K') (k_bcs K') (k_order K')) by (rewrite (rl_nd _ _ _ HK); exact (rl_order' _ _ _ HK)).
  rewrite (bcs_filled K N X L HL Hth (rl_order _ _ _ HK) W c Hc).
  rewrite (bcs_filled K' N' X' L' HL' Hth' Ho' W' (px c)) by (rewrite (rl_ng _ _ _ HK); exact Hc').
  rewrite (rl_nd _ _ _ HK), (rl_ng _ _ _ HK).
  assert (Eg : mk3 (fun d => (coord d (px c) - ghosts (k_nd K) (k_ng K) d)%Z) = px (mk3 (fun d => (coord d c - ghosts (k_nd K) (k_ng K) d)%Z))).
  { apply idx_ext3. intros d Hd. pose proof (proj2 (ax_3 _ _ _ HA d) Hd) as Ht. unfold relabel_idx. rewrite !coord_mk3 by assumption.
    now rewrite (ghosts_tau _ _ _ _ d HA). }
  rewrite Eg. pose proof (proj1 (sel_spec _ _ _ _ _ _ _ _ HL (rank0_ok _)) Hc) as Hb.
  apply (continuation_tau (k_nd K) sigma tau N N' (k_bcs K) (k_bcs K')); auto.
  - intros d Hd. exact (dcp_n (lo_dec HL) Hd).
  - exact (rl_bcs _ _ _ HK).
  - intros d Hd. rewrite coord_mk3 by lia. specialize (Hb d ltac:(lia)). rewrite (s_nloc _ _ _ _ HL) in Hb by lia.
    pose proof (Hth rank0 (rank0_ok _) d Hd) as Q. rewrite (s_nloc _ _ _ _ HL) in Q by lia. unfold ghosts in *. destruct (Nat.ltb_spec d (k_nd K)); lia.
  - intros d Hd. rewrite coord_mk3 by lia. specialize (Hb d ltac:(lia)). rewrite (s_nloc _ _ _ _ HL) in Hb by lia.
    unfold ghosts in *. destruct (Nat.ltb_spec d (k_nd K)); lia.
  - intros x Hx. assert (Ex : local K' (px x) = px (local K x)).
    { unfold local. rewrite (rl_nd _ _ _ HK), (rl_ng _ _ _ HK). apply idx_ext3. intros d Hd. pose proof (proj2 (ax_3 _ _ _ HA d) Hd) as Ht.
      unfold relabel_idx. rewrite !coord_mk3 by assumption. now rewrite (ghosts_tau _ _ _ _ d HA). }
    rewrite Ex. apply H. apply (sel_spec _ _ _ _ _ _ _ _ HL (rank0_ok _)). intros d Hd. unfold local. rewrite coord_mk3 by assumption.
    rewrite (s_nloc _ _ _ _ HL) by assumption. specialize (Hx d Hd). destruct (Nat.ltb d (k_nd K)); lia.
Qed.

Lemma prim_tau x : p_u (to_prim (k_nd K') (k_eos K') (cons_of (relabel_cell tau x))) = relabel_vec tau (p_u (to_prim (k_nd K) (k_eos K) (cons_of x))) /\
  p_P (to_prim (k_nd K') (k_eos K') (cons_of (relabel_cell tau x))) = p_P (to_prim (k_nd K) (k_eos K) (cons_of x)).
Proof.
  rewrite (rl_nd _ _ _ HK), (rl_eos _ _ _ HK). change (cons_of (relabel_cell tau x)) with (relabel_cons tau (cons_of x)).
  rewrite (to_prim_tau (k_nd K) sigma tau Hnd HA). split; reflexivity.
Qed.
Lemma cons_tau rho u P fx :
  let q := to_cons (k_nd K) (k_eos K) (mkPrim rho u P) in let q' := to_cons (k_nd K') (k_eos K') (mkPrim rho (relabel_vec tau u) P) in
  mkCell rho (q_m q') (q_E q') fx = relabel_cell tau (mkCell rho (q_m q) (q_E q) fx).
Proof.
  cbv zeta. rewrite (rl_nd _ _ _ HK), (rl_eos _ _ _ HK).
  change (mkPrim rho (relabel_vec tau u) P) with (pprim tau (mkPrim rho u P)). rewrite (to_cons_tau (k_nd K) sigma tau Hnd HA). reflexivity.
Qed.
Lemma grav_tau A A' c : gravity_values K' L' A' rank0 (px c) = relabel_vec tau (gravity_values K L A rank0 c).
Proof.
  destruct (rl_grav _ _ _ HK) as (g & g' & E & E' & H). unfold gravity_values. rewrite E, E'. apply functional_extensionality. intros d. apply H.
Qed.
Lemma dt_tau S S' : rel S S' -> forall c, sel K L (k_ng K) rank0 c = true ->
  cell_inverse_dt K' L' S' rank0 (px c) = cell_inverse_dt K L S rank0 c.
Proof.
  intros H c Hc. destruct (H c Hc) as (E1 & E2 & E3 & _). unfold cell_inverse_dt, inverse_dt. rewrite E1, E2, E3.
  rewrite (rl_geom _ _ _ HK), (rl_geom' _ _ _ HK), (rl_nd _ _ _ HK), (rl_eos _ _ _ HK).
  apply (vsum_tau2 (k_nd K) sigma tau Hnd HA). intros d Hd. unfold relabel_vec at 1. cbn [relabel_cell c_rho]. f_equal.
  pose proof (proj2 (ax_3 _ _ _ HA d) ltac:(lia)) as Ht. cbn [dx_geom]. unfold mdx.
  rewrite !(set_grid_at _ _ _ (lo_mesh HL (rank0_ok _))) by assumption.
  rewrite !(set_grid_at _ _ _ (lo_mesh HL' (rank0_ok _))) by lia.
  rewrite (s_cmin _ _ _ _ HL), (s_cmin _ _ _ _ HL') by lia. destruct HX as [_ EX]. rewrite !EX by lia.
  unfold relabel_idx. rewrite coord_mk3 by lia. reflexivity.
Qed.

Lemma relabelled_cfl cfl n t S S' : rel (init_state K L S) (init_state K' L' S') ->
  fst (run_cfl K' L' cfl n t (init_state K' L' S')) = fst (run_cfl K L cfl n t (init_state K L S)) /\
  rel (snd (run_cfl K L cfl n t (init_state K L S))) (snd (run_cfl K' L' cfl n t (init_state K' L' S'))).
Proof.
  intros H. apply (run_cfl_sym K K' N N' X X' L L' px (relabel_idx sigma) (relabel_cell tau) (relabel_vec tau) (fun _ _ => True) HL HL' (rl_ng _ _ _ HK)
    px_psi px_sel step_user_tau bcs_tau prim_tau grav_tau dt_tau); [exact H|].
  clear H. generalize (init_state K L S). revert t. induction n as [|n IH]; intros t St; cbn [good_steps]; [exact I|].
  destruct (time_step K L St); [|exact I]. split; [exact I|apply IH].
Qed.
End Run.
