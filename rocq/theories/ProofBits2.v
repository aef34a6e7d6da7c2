(** * Change of units by powers of two: whole steps and runs. *)
From Coq Require Import FunctionalExtensionality Lia.
From Verif Require Import Base RBase ModelMesh ModelGeom ModelBoundary ModelHydro ModelScheme ModelStep ModelArith SpecBoundary SpecStep SpecBits ProofBits.
Local Open Scope R_scope.

Section Run.
Variables (A : arith) (sc : Z -> R -> R).
Hypothesis HA : exponent_shift A sc.
Variables (w : powers) (K : config) (L : layout).
Hypothesis HK : fits sc w K.
Notation K' := (config_by sc w K).
Notation L' := (layout_by sc w L).
Notation g := (k_geom K). Notation nd := (k_nd K).
Notation cb := (cell_by sc w).
Notation sb := (states_by sc w).
Notation wb W := (fun (r c : idx) => cb (W r c)).
Lemma Hg : power_system g nd w. Proof. apply HK. Qed.
Lemma Hnd : (nd <= 3)%nat. Proof. apply HK. Qed.
Lemma He : shifted_gas sc w (k_eos K). Proof. apply HK. Qed.

Lemma ghost_sync_by dims ext ng d f W : ghost_sync dims ext ng d f (wb W) = wb (ghost_sync dims ext ng d f W).
Proof. fext r. fext c. unfold ghost_sync. destruct f; destruct (in_boxb _ _ _); reflexivity. Qed.
Lemma sync_by dims ext ng n W : sync_dims dims ext ng n (wb W) = wb (sync_dims dims ext ng n W).
Proof. induction n; [reflexivity|]. cbn [sync_dims]. now rewrite IHn, !ghost_sync_by. Qed.
Lemma negate_by d x : negate_momentum d (cb x) = cb (negate_momentum d x).
Proof. unfold negate_momentum, cell_by; cbn [c_rho c_rhou c_E c_fx]. f_equal. fext n. destruct (Nat.eqb n d); [apply (s_opp A sc HA)|reflexivity]. Qed.
Lemma bc_step_by dims ext ng bcs W f : bc_step dims ext ng bcs (wb W) f = wb (bc_step dims ext ng bcs W f).
Proof.
  fext r. fext c. unfold bc_step. destruct (is_border _ _ _ _); [|reflexivity].
  destruct (bcs f); cbn [bc_apply]; [|reflexivity|]; unfold kwrite; destruct (in_boxb _ _ _); try reflexivity.
  unfold reflexive_body. apply negate_by.
Qed.
Lemma update_by d dims ext ng bcs order W : boundary_update d dims ext ng bcs order (wb W) = wb (boundary_update d dims ext ng bcs order W).
Proof.
  unfold boundary_update. rewrite sync_by. generalize (sync_dims dims ext ng d W).
  induction order as [|f o IH]; intros B; [reflexivity|]. cbn [fold_left]. rewrite bc_step_by. apply IH.
Qed.
Lemma bcs_by W : bcs_update K' L' (wb W) = wb (bcs_update K L W).
Proof. unfold bcs_update. apply update_by. Qed.

Lemma sel_by n r : sel K' L' n r = sel K L n r. Proof. reflexivity. Qed.
Lemma step_rec_by dt S r : astep_rec A K' L' (sc (w_T w) dt) (sb S) r = recon_by sc w (astep_rec A K L dt S r).
Proof.
  unfold astep_rec. cbv zeta. rewrite (s_divl A sc HA).
  exact (reconstruction_by A sc HA w g nd Hg Hnd (k_eos K) He (sel K L 1 r) (k_lim K) (l_mesh L r) (s_grav (S r)) _
    (fun c => c_rho (s_cell (S r) c)) (s_u (S r)) (s_P (S r)) (fun c => c_fx (s_cell (S r) c)) (s_rec (S r))).
Qed.
Lemma step_godunov_by dt S r c : astep_godunov A K' L' (sc (w_T w) dt) (sb S) r c = cb (astep_godunov A K L dt S r c).
Proof.
  unfold astep_godunov. cbv zeta. rewrite step_rec_by. unfold kwrite. rewrite sel_by. destruct (sel K L 0 r c); [|reflexivity].
  exact (god_cell_by A sc HA w g nd Hg Hnd (k_eos K) He (k_sol K) (l_mesh L r) (s_grav (S r)) dt (s_cell (S r)) (astep_rec A K L dt S r) c).
Qed.
Lemma step_pf_by dt S r c : astep_pf A K' L' (sc (w_T w) dt) (sb S) r c = cb (astep_pf A K L dt S r c).
Proof.
  unfold astep_pf. cbv zeta. change (k_pf K') with (k_pf K). destruct (k_pf K) as [eps|]; [|apply step_godunov_by].
  replace (astep_godunov A K' L' (sc (w_T w) dt) (sb S) r) with (fun c => cb (astep_godunov A K L dt S r c)) by (symmetry; fext x; apply step_godunov_by).
  rewrite step_rec_by. unfold kwrite. rewrite sel_by. destruct (sel K L 0 r c); [|reflexivity].
  exact (pf_cell_by A sc HA w g nd Hg Hnd (k_eos K) He (l_mesh L r) dt eps (s_cell (S r)) (astep_godunov A K L dt S r) (astep_rec A K L dt S r) c).
Qed.
Lemma step_user_by t t' dt S : astep_user A K' L' t' (sc (w_T w) dt) (sb S) = wb (astep_user A K L t dt S).
Proof.
  fext r. fext c. unfold astep_user, kwrite. rewrite sel_by, step_pf_by. destruct (sel K L 0 r c); [|reflexivity].
  pose proof HK as H1. destruct H1 as (_ & _ & _ & _ & H). change (k_user K') with (k_user K). now rewrite H.
Qed.

Lemma gravity_by_values r : exists G, agravity_values A K L r = Some G /\ agravity_values A K' L' r = Some (fun c d => sc (w_A w) (G c d)).
Proof.
  pose proof HK as H1. destruct H1 as (H2 & H3 & _ & HG & _). unfold agravity_values. change (k_grav K') with (gravity_by sc w (k_grav K)).
  destruct (k_grav K) as [gv|M|M]; cbn [gravity_by].
  - eexists. split; reflexivity.
  - eexists. split; [reflexivity|]. f_equal. fext c. fext d. destruct d; [|symmetry; apply (s_none A sc HA)].
    change (l_mesh L' r) with (mesh_by sc w (l_mesh L r)). rewrite !(xc_by A sc HA).
    rewrite (s_mulr A sc HA), (s_mull A sc HA), (s_mulr A sc HA), (s_divl A sc HA), !(s_divr A sc HA), !(s_comp A sc HA). f_equal.
    assert (w_X w 0 = w_L w) by (unfold power_system in H2; destruct (k_geom K); [apply H2; lia|apply H2]). unfold w_A. 
    rewrite !(s_comp A sc HA) || idtac. lia.
  - now destruct (HG M).
Qed.

Lemma finish_by W rec new S :
  afinish A K' L' (wb W) (fun r => recon_by sc w (rec r)) (wb new) (sb S) = sb (afinish A K L W rec new S).
Proof.
  fext r. unfold afinish, states_by, state_by. cbv zeta. cbn [s_cell s_u s_P s_rec s_new s_grav]. rewrite sel_by.
  assert (P : forall c, ato_prim A (k_nd K') (k_eos K') (cons_of (cb (W r c))) = prim_by sc w (ato_prim A nd (k_eos K) (cons_of (W r c)))).
  { intros. exact (to_prim_by A sc HA w nd Hnd (k_eos K) He (cons_of (W r c))). }
  destruct (gravity_by_values r) as (G & E1 & E2). rewrite E1, E2. unfold kwrite. f_equal.
  - fext c. fext d. rewrite P. change (k_ng K') with (k_ng K). destruct (sel K L (k_ng K) r c); reflexivity.
  - fext c. rewrite P. change (k_ng K') with (k_ng K). destruct (sel K L (k_ng K) r c); reflexivity.
Qed.
Lemma full_step_by t t' dt S : afull_step A K' L' t' (sc (w_T w) dt) (sb S) = sb (afull_step A K L t dt S).
Proof.
  unfold afull_step. cbv zeta. rewrite (step_user_by t), bcs_by. rewrite <- finish_by. f_equal. fext r. apply step_rec_by.
Qed.
Lemma init_state_by S : ainit_state A K' L' (sb S) = sb (ainit_state A K L S).
Proof.
  unfold ainit_state. cbv zeta.
  assert (E : ainit_cons A K' L' (sb S) = wb (ainit_cons A K L S)).
  { fext r. fext c. unfold ainit_cons. cbv zeta. unfold kwrite. rewrite sel_by.
    pose proof (to_cons_by A sc HA w nd Hnd (k_eos K) He (mkPrim (c_rho (s_cell (S r) c)) (s_u (S r) c) (s_P (S r) c))) as Q.
    destruct (sel K L 0 r c); [|reflexivity].
    unfold cell_by; cbn [c_rho c_rhou c_E c_fx]. f_equal; [exact (f_equal q_m Q)|exact (f_equal q_E Q)]. }
  rewrite E, bcs_by. exact (finish_by _ (fun r => s_rec (S r)) (fun r => s_new (S r)) S).
Qed.

(** ** Time step *)
Lemma dx_geom_by m c d : (d < nd)%nat -> adx_geom A g nd (mesh_by sc w m) c d = sc (w_L w) (adx_geom A g nd m c d).
Proof.
  intros Hd. pose proof Hg as H. pose proof Hnd as H3. unfold adx_geom. unfold power_system in H. destruct (k_geom K).
  - now rewrite (dx_by A sc HA), (H d Hd).
  - destruct H as (H0 & H1 & H2). rewrite !(dx_by A sc HA), !(xc_by A sc HA), H0, H1, H2.
    rewrite !(s_id A sc HA 0) by reflexivity. rewrite !(s_mull A sc HA), !(s_mulr A sc HA).
    destruct nd as [|[|[|[|n]]]]; destruct d as [|[|[|d]]]; try lia; now rewrite ?H0, ?H1.
Qed.
Lemma inverse_dt_by S r c : acell_inverse_dt A K' L' (sb S) r c = sc (- w_T w) (acell_inverse_dt A K L S r c).
Proof.
  unfold acell_inverse_dt. cbv zeta. apply (s_sum A sc HA). intros d Hd.
  unfold states_by, state_by. cbn [s_u s_cell s_P c_rho cell_by]. 
  change (k_eos K') with (k_eos K). rewrite (sound_by sc w _ He), (s_abs A sc HA), (s_add A sc HA) by reflexivity.
  change (l_mesh L' r) with (mesh_by sc w (l_mesh L r)). change (k_geom K') with g. change (k_nd K') with nd.
  rewrite dx_geom_by by exact Hd. rewrite (s_divl A sc HA), (s_divr A sc HA), (s_comp A sc HA). f_equal. unfold w_T. lia.
Qed.
Lemma kmax_by k a b : akmax A (sc k a) (sc k b) = sc k (akmax A a b).
Proof. unfold akmax. rewrite (s_lt A sc HA) by reflexivity. now destruct (a_lt A a b). Qed.
Lemma reduces_by k l v : reduces A l v -> reduces A (map (sc k) l) (sc k v).
Proof.
  induction 1 as [x|l1 l2 l a b H1 H2 IH2 H3 IH3]; [constructor|].
  rewrite <- kmax_by. apply (reduces_join A _ _ _ _ _) with (2 := IH2) (3 := IH3).
  intros x. rewrite !in_map_iff. split.
  - intros (y & E & Hy). apply H1 in Hy. destruct Hy; [left|right]; now exists y.
  - intros [(y & E & Hy)|(y & E & Hy)]; exists y; (split; [exact E|]); apply H1; auto.
Qed.
Lemma values_by S : all_values K' L' (k_ng K') (acell_inverse_dt A K' L' (sb S)) = map (sc (- w_T w)) (all_values K L (k_ng K) (acell_inverse_dt A K L S)).
Proof.
  unfold all_values. change (ranks (l_dims L')) with (ranks (l_dims L)). induction (ranks (l_dims L)) as [|r l IH]; [reflexivity|].
  cbn [flat_map]. rewrite map_app, IH, map_map. f_equal. apply map_ext. intros c. apply inverse_dt_by.
Qed.
Lemma runs_by cfl n t S t' S' : aruns A K L cfl n t S t' S' -> aruns A K' L' cfl n (sc (w_T w) t) (sb S) (sc (w_T w) t') (sb S').
Proof.
  induction 1 as [t S|n t S v t' S' H1 H2 IH]; [constructor|].
  apply aruns_step with (v := sc (- w_T w) v).
  - rewrite values_by. now apply reduces_by.
  - cbv zeta in *. rewrite (s_divr A sc HA), (s_mulr A sc HA), Z.opp_involutive, (full_step_by t), (s_add A sc HA) by reflexivity. exact IH.
Qed.
End Run.

(** ** Back to the old units *)
Definition back (w : powers) : powers := mkPowers (- w_D w)%Z (- w_V w)%Z (- w_L w)%Z (fun d => - w_X w d)%Z.
Section Back.
Variables (A : arith) (sc : Z -> R -> R).
Hypothesis HA : exponent_shift A sc.
Variables (w : powers) (K : config).
Hypothesis HK : fits sc w K.
Lemma s_back j k x : (j + k = 0)%Z -> sc j (sc k x) = x.
Proof. intros H. rewrite (s_comp A sc HA). now apply (s_id A sc HA). Qed.
Lemma w_back : (w_T (back w) = - w_T w /\ w_M (back w) = - w_M w /\ w_E (back w) = - w_E w /\ w_A (back w) = - w_A w)%Z.
Proof. unfold w_T, w_M, w_E, w_A, back; cbn [w_D w_V w_L]. lia. Qed.
Lemma cell_back_by x : cell_by sc (back w) (cell_by sc w x) = x.
Proof.
  destruct w_back as (E1 & E2 & E3 & E4). destruct x as [xa xb xc xd]. unfold cell_by; cbn [c_rho c_rhou c_E c_fx]. rewrite E2, E3. f_equal.
  - apply s_back. cbn. lia.
  - fext d. apply s_back. lia.
  - apply s_back. lia.
Qed.
Lemma states_back S : states_by sc (back w) (states_by sc w S) = S.
Proof.
  destruct w_back as (E1 & E2 & E3 & E4). fext r. unfold states_by. destruct (S r) as [a u P rc nw gr]. unfold state_by. cbn [s_cell s_u s_P s_rec s_new s_grav].
  rewrite E3, E4. f_equal.
  - fext c. apply cell_back_by.
  - fext c. fext d. apply s_back. cbn. lia.
  - fext c. apply s_back. lia.
  - destruct rc as [q fx]. unfold recon_by. cbn [r_q r_fx]. f_equal. fext c. fext sd. fext d. destruct (q c sd d) as [qa qb qc]. unfold cons_by. cbn [q_rho q_m q_E].
    rewrite E2, E3. f_equal; [apply s_back; cbn; lia|fext n; apply s_back; lia|apply s_back; lia].
  - fext c. apply cell_back_by.
  - fext c. fext d. apply s_back. lia.
Qed.
Lemma layout_back L : layout_by sc (back w) (layout_by sc w L) = L.
Proof. destruct L as [La Lb Lc]. unfold layout_by. cbn [l_dims l_dec l_mesh]. f_equal. fext r. fext d. fext i. apply s_back. cbn. lia. Qed.
Lemma config_back : config_by sc (back w) (config_by sc w K) = K.
Proof.
  pose proof w_back as (E1 & E2 & E3 & E4). destruct K as [ka kb kc kd ke kf kg kh ki kj kl]. unfold config_by. cbn. f_equal. destruct ki; cbn [gravity_by]; [f_equal| |reflexivity].
  - fext d. apply s_back. lia.
  - f_equal. apply s_back. cbn. lia.
Qed.
Lemma fits_back : fits sc (back w) (config_by sc w K).
Proof.
  destruct HK as (H1 & H2 & H3 & H4 & H5). pose proof w_back as (E1 & E2 & E3 & E4). unfold fits. cbn [config_by k_geom k_nd k_eos k_grav k_user].
  split; [|split; [exact H2|split; [|split; [|exact H5]]]].
  - unfold power_system in *. destruct (k_geom K); cbn; [intros d Hd; now rewrite H1|destruct H1 as (-> & -> & ->); auto].
  - intros rho x. destruct (H3 (sc (w_D (back w)) rho) (sc (w_E (back w)) x)) as (F1 & F2 & F3).
    rewrite (s_back (w_D w) (w_D (back w))), (s_back (w_E w) (w_E (back w))) in F1, F2, F3 by (try rewrite E3; cbn; lia).
    rewrite F1, F2, F3. repeat split; symmetry; apply s_back; try rewrite E3; cbn; lia.
  - intros M. specialize (H4 M). destruct (k_grav K); cbn; congruence.
Qed.
Lemma runs_iff L cfl n t S t' S' :
  aruns A (config_by sc w K) (layout_by sc w L) cfl n (sc (w_T w) t) (states_by sc w S) (sc (w_T w) t') (states_by sc w S') <->
  aruns A K L cfl n t S t' S'.
Proof.
  split; [|apply runs_by; assumption]. intros H. apply (runs_by A sc HA (back w) _ _ fits_back) in H.
  rewrite config_back, layout_back, !states_back in H. destruct w_back as (E1 & _). rewrite E1 in H.
  rewrite !(s_back (- w_T w) (w_T w)) in H by lia. exact H.
Qed.
End Back.
Lemma back_back w : back (back w) = w.
Proof. destruct w as [wa wb wc wd]. unfold back; cbn. f_equal; try lia. fext d. lia. Qed.
Lemma runs_all A sc (HA : exponent_shift A sc) w K (HK : fits sc w K) L cfl n t S t1 S1 :
  aruns A (config_by sc w K) (layout_by sc w L) cfl n (sc (w_T w) t) (states_by sc w S) t1 S1 ->
  exists t' S', t1 = sc (w_T w) t' /\ S1 = states_by sc w S' /\ aruns A K L cfl n t S t' S'.
Proof.
  intros H. exists (sc (- w_T w)%Z t1), (states_by sc (back w) S1).
  assert (E1 : t1 = sc (w_T w) (sc (- w_T w)%Z t1)) by (symmetry; apply (s_back A sc HA); lia).
  assert (E2 : S1 = states_by sc w (states_by sc (back w) S1)).
  { rewrite <- (back_back w) at 1. symmetry. now apply (states_back A sc HA). }
  split; [exact E1|split; [exact E2|]]. rewrite E1, E2 in H. now apply (runs_iff A sc HA w K HK) in H.
Qed.
