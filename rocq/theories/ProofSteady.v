(** * Values carried through a time step on any process grid: steady states and scalars (C23, C24, C25). *)
From Coq Require Import FunctionalExtensionality ZifyBool ZifyNat.
From Verif Require Import Base RBase ModelMesh ModelGeom ModelBoundary ModelHydro ModelScheme ModelStep
  SpecMesh SpecBoundary SpecHydro SpecScheme SpecStep
  ProofBase ProofMesh ProofR ProofBoundary ProofBoundary2 ProofHydro ProofHydro2 ProofScheme ProofMirror ProofShift ProofReduce ProofStep.
Local Open Scope R_scope.

Lemma cell_ext x y : c_rho x = c_rho y -> (forall k, c_rhou x k = c_rhou y k) -> c_E x = c_E y -> (forall n, c_fx x n = c_fx y n) -> x = y.
Proof.
  destruct x, y. cbn. intros -> H -> H'. f_equal; now apply functional_extensionality.
Qed.

Section Grid.
Variables (K : config) (N dims : idx) (X : nat -> arr1) (L : layout).
Hypothesis HL : laid_out K N dims X L.
Notation nd := (k_nd K).
Notation ng := (k_ng K).
Notation cmn r := (corner_min (d_range (l_dec L r))).
Notation vr := (process nd dims).
Notation own r := (owned nd ng (d_nloc (l_dec L r))).
Notation arr r := (in_array (d_nwg (l_dec L r))).
Let HD := lo_dec HL.

Lemma owner_unique_cm d x y i j : (d < 3)%nat -> (0 <= i < nl nd N dims d x)%Z -> (0 <= j < nl nd N dims d y)%Z ->
  (cm nd N dims d x + i = cm nd N dims d y + j)%Z -> x = y.
Proof.
  intros Hd Hi Hj E. pose proof (cm_succ _ _ _ _ _ HD d x Hd). pose proof (cm_succ _ _ _ _ _ HD d y Hd).
  destruct (Z.lt_total x y) as [H1|[H1|H1]]; [|exact H1|].
  - pose proof (cm_mono _ _ _ _ _ HD d (x + 1) y Hd ltac:(lia)). lia.
  - pose proof (cm_mono _ _ _ _ _ HD d (y + 1) x Hd ltac:(lia)). lia.
Qed.

Lemma in_ranks' r : In r (ranks (l_dims L)) <-> vr r.
Proof. exact (in_ranks K N dims X L HL r). Qed.

(** The owned cells of all processes make up one global array. *)
Lemma gather {A : Type} (W : world A) : exists G, holds_owned nd dims ng (l_dec L) G W.
Proof.
  set (loc := fun g r => mk3 (fun d => (coord d g + ghosts nd ng d - coord d (cmn r))%Z)).
  exists (fun g => match find (fun r => sel K L 0 r (loc g r)) (ranks (l_dims L)) with
                   | Some r => W r (loc g r) | None => W rank0 rank0 end).
  intros r Hr c Hc. set (g := global_index nd ng (cmn r) c).
  assert (El : loc g r = c).
  { apply idx_ext. intros d Hd. unfold loc, g, global_index. rewrite !coord_mk3 by assumption. lia. }
  destruct (find _ _) as [r'|] eqn:E.
  - apply find_some in E. destruct E as [Hin Hsel]. apply in_ranks' in Hin.
    apply (sel_owned _ _ _ _ _ _ _ HL Hin) in Hsel.
    assert (Er : r' = r).
    { apply idx_ext. intros d Hd. specialize (Hsel d Hd). specialize (Hc d Hd).
      rewrite (dec_nloc _ _ _ _ _ HD) in Hsel by assumption. rewrite (dec_nloc _ _ _ _ _ HD) in Hc by assumption.
      unfold loc, g, global_index in Hsel. rewrite !coord_mk3, !(dec_cmin _ _ _ _ _ HD) in Hsel by assumption.
      apply (owner_unique_cm d _ _ (coord d c + cm nd N dims d (coord d r) - ghosts nd ng d - cm nd N dims d (coord d r'))%Z (coord d c - ghosts nd ng d)%Z Hd); lia. }
    subst r'. now rewrite El.
  - exfalso. pose proof (find_none _ _ E r (proj2 (in_ranks' r) Hr)) as F. cbn beta in F. rewrite El in F.
    apply (sel_owned _ _ _ _ _ _ _ HL Hr) in Hc. congruence.
Qed.

Lemma owned_in_array r c : vr r -> own r c -> arr r c.
Proof.
  intros Hr Hc d Hd. specialize (Hc d Hd). rewrite (dec_nwg _ _ _ _ _ HD), <- (dec_nloc _ _ _ _ _ HD) by assumption.
  pose proof (ghosts_nonneg _ _ _ _ _ HD d). lia.
Qed.

(** The boundary update leaves owned cells alone. *)
Lemma bcs_owned (A : world cell) r c : faces_ok nd (k_order K) -> vr r -> own r c -> bcs_update K L A r c = A r c.
Proof.
  intros Hf Hr Hc. unfold bcs_update, boundary_update. rewrite (lo_dims HL).
  rewrite <- (sync_keeps_owned cell nd N dims ng (l_dec L) A HD r Hr c Hc).
  generalize (sync_dims (mpi_dims nd dims) (fun r => d_nwg (l_dec L r)) ng nd A). revert Hf.
  induction (k_order K) as [|f l IH]; intros Hf W; cbn [fold_left]; [reflexivity|].
  rewrite IH by (intros x Hx; apply Hf; now right).
  unfold bc_step. destruct (is_border _ _ _ _); [|reflexivity].
  assert (Hd : (f / 2 < nd)%nat) by (apply Nat.div_lt_upper_bound; [lia|]; specialize (Hf f (or_introl eq_refl)); lia).
  pose proof (dcp_nd HD) as Hnd. pose proof (dcp_ng HD) as Hng0.
  pose proof (Hc _ (Nat.lt_le_trans _ _ _ Hd (proj2 Hnd))) as Hcd.
  rewrite (ghosts_lt nd ng) in Hcd by assumption.
  pose proof (dec_nwg _ _ _ _ _ HD r (f / 2) Hr ltac:(lia)) as Ee. rewrite (ghosts_lt nd ng) in Ee by assumption.
  pose proof (dec_nloc _ _ _ _ _ HD r (f / 2) Hr ltac:(lia)) as En.
  pose proof (nl_nonneg _ _ _ _ _ HD (f / 2) (coord (f / 2) r) ltac:(lia)).
  apply bc_apply_outside; [lia|lia|]. intros [_ Hx]. destruct (Nat.modulo f 2); lia.
Qed.

(** What holds of all owned cells holds of all cells after a boundary update, if the reflecting
    conditions in use preserve it. *)
Lemma bcs_all (Q : cell -> Prop) (A : world cell) :
  thick nd dims ng (l_dec L) -> faces_ok nd (k_order K) ->
  (forall f x, (f < 2 * nd)%nat -> k_bcs K f = Reflexive -> Q x -> Q (negate_momentum (f / 2) x)) ->
  (forall r c, vr r -> own r c -> Q (A r c)) ->
  forall r c, vr r -> arr r c -> Q (bcs_update K L A r c).
Proof.
  intros Ht Hf Hneg HA. unfold bcs_update, boundary_update. rewrite (lo_dims HL).
  pose proof (dcp_nd HD) as Hnd. pose proof (dcp_ng HD) as Hng0.
  assert (H0 : forall r c, vr r -> arr r c ->
    Q (sync_dims (mpi_dims nd dims) (fun r => d_nwg (l_dec L r)) ng nd A r c)).
  { destruct (gather A) as (G & HG). intros r c Hr Hc.
    rewrite (sync_periodic nd N dims ng (l_dec L) HD G Ht A HG r Hr c Hc).
    (* the global cell is owned by somebody *)
    set (g := wrap N (global_index nd ng (cmn r) c)).
    assert (Hg : forall d, (d < 3)%nat -> (0 <= coord d g < coord d N)%Z).
    { intros d Hd. unfold g, wrap. rewrite coord_mk3 by assumption. apply Z.mod_pos_bound. pose proof (dcp_n HD Hd). lia. }
    assert (Ho : exists r' c', vr r' /\ own r' c' /\ global_index nd ng (cmn r') c' = g).
    { destruct (owner_unique_3d nd N dims ng g) as (r' & Hr' & (dec & Hdec & Hin) & _).
      { intros d Hd. pose proof (dcp_n HD Hd). lia. } { intros d Hd. apply (dcp_dims HD Hd). } { exact Hg. }
      rewrite (dcp_ok HD Hr') in Hdec. injection Hdec as <-.
      exists r', (mk3 (fun d => (coord d g - coord d (cmn r') + ghosts nd ng d)%Z)). split; [exact Hr'|]. split.
      - intros d Hd. specialize (Hin d Hd). rewrite coord_mk3 by assumption. lia.
      - apply idx_ext. intros d Hd. unfold global_index. rewrite !coord_mk3 by assumption. lia. }
    destruct Ho as (r' & c' & Hr' & Hc' & <-). rewrite <- (HG r' Hr' c' Hc'). now apply HA. }
  revert H0. generalize (sync_dims (mpi_dims nd dims) (fun r => d_nwg (l_dec L r)) ng nd A). revert Hf.
  induction (k_order K) as [|f l IH]; intros Hf W H0; cbn [fold_left]; [exact H0|].
  apply IH; [intros x Hx; apply Hf; now right|].
  intros r c Hr Hc. unfold bc_step. destruct (is_border _ _ _ _) eqn:Eb; [|now apply H0].
  assert (Hf2 : (f < 2 * nd)%nat) by (apply Hf; now left).
  assert (Hd : (f / 2 < nd)%nat) by (apply Nat.div_lt_upper_bound; lia).
  pose proof (dec_nwg _ _ _ _ _ HD r (f / 2) Hr ltac:(lia)) as Ee. rewrite (ghosts_lt nd ng) in Ee by assumption.
  pose proof (thick_nl _ _ _ _ _ HD r (f / 2) Ht Hr Hd) as Hthk.
  pose proof (Hc (f / 2)%nat ltac:(lia)) as Hcd.
  destruct (k_bcs K f) eqn:Ebc.
  - destruct (in_boxb (bc_begin (d_nwg (l_dec L r)) ng (f / 2) (f mod 2)) (bc_end (d_nwg (l_dec L r)) ng (f / 2) (f mod 2)) c) eqn:E.
    + apply in_boxb_spec, bc_box_iff in E; [|lia|lia]. rewrite null_gradient_value by (assumption || lia).
      apply H0; [exact Hr|]. apply (set_coord_in_array (l_dec L) (l_dec L) _ _ _ _ Hc). destruct (f mod 2)%nat; lia.
    + cbn [bc_apply]. unfold kwrite. rewrite E. now apply H0.
  - now apply H0.
  - destruct (in_boxb (bc_begin (d_nwg (l_dec L r)) ng (f / 2) (f mod 2)) (bc_end (d_nwg (l_dec L r)) ng (f / 2) (f mod 2)) c) eqn:E.
    + apply in_boxb_spec, bc_box_iff in E; [|lia|lia]. rewrite reflexive_value by (assumption || lia).
      apply Hneg; [assumption|assumption|].
      apply H0; [exact Hr|]. apply (set_coord_in_array (l_dec L) (l_dec L) _ _ _ _ Hc). destruct E as [_ E]. destruct (f mod 2)%nat; lia.
    + cbn [bc_apply]. unfold kwrite. rewrite E. now apply H0.
Qed.

(** ** One step on a state whose cells all satisfy a local law *)
Hypothesis Hng : (2 <= ng)%Z.

Lemma array2 r c : vr r -> sel K L 2 r c = true -> arr r c.
Proof.
  intros Hr H. apply (sel_array _ _ _ _ _ _ _ HL Hr). apply (sel_mono _ _ _ _ _ 2 _ _ _ HL Hr); [lia|exact H].
Qed.
Lemma stencil_array r c c' : vr r -> sel K L 1 r c = true -> in_stencil nd c c' -> arr r c'.
Proof. intros Hr H Hs. apply array2; [exact Hr|]. exact (sel_stencil _ _ _ _ _ _ _ _ _ HL Hr H Hs). Qed.
Lemma sel1_array r c : vr r -> sel K L 1 r c = true -> arr r c.
Proof. intros Hr H. apply (stencil_array r c c Hr H). now left. Qed.
Lemma owned_sel1 r c c' : vr r -> own r c -> in_stencil nd c c' -> sel K L 1 r c' = true.
Proof. intros Hr H Hs. apply (sel_owned _ _ _ _ _ _ _ HL Hr) in H. exact (sel_stencil _ _ _ _ _ _ _ _ _ HL Hr H Hs). Qed.

Lemma st_l c k : (k < nd)%nat -> in_stencil nd c (lindex k c).
Proof. intros H. right. exists k. auto. Qed.
Lemma st_r c k : (k < nd)%nat -> in_stencil nd c (rindex k c).
Proof. intros H. right. exists k. auto. Qed.

(** *** Uniform states *)
Section Uniform.
Variables (rho0 : R) (u0 : vec) (P0 : R) (fx0 : vec).
Let p0 := mkPrim rho0 u0 P0.
Let q0 := to_cons nd (k_eos K) p0.

Definition uni (x : cell) : Prop :=
  c_rho x = rho0 /\ (forall k, c_rhou x k = rho0 * u0 k) /\ c_E x = q_E q0 /\
  (forall n, 0 <= fx0 n <= 1 -> c_fx x n = fx0 n).

Definition uni_state (S : idx -> pstate) : Prop :=
  forall r c, vr r -> arr r c ->
    uni (s_cell (S r) c) /\ (forall k, s_u (S r) c k = u0 k) /\ s_P (S r) c = P0 /\ (forall j, s_grav (S r) c j = 0).

Hypothesis He : lawful_eos (k_eos K).
Hypothesis Hp0 : 0 < rho0 /\ 0 < P0.
Hypothesis Hthick : thick nd dims ng (l_dec L).
Hypothesis Hfaces : faces_ok nd (k_order K).
Hypothesis Hrefl : forall f, (f < 2 * nd)%nat -> k_bcs K f = Reflexive -> u0 (f / 2)%nat = 0.
Hypothesis Hpf : match k_pf K with None => True | Some eps => eps * ek_prim nd p0 <= eos_evol (k_eos K) rho0 P0 end.
Hypothesis Huser : k_user K = UOff.
Hypothesis Hgrav : exists g, k_grav K = GUniform g /\ forall d, g d = 0.
Hypothesis Hgeo : k_geom K = Cartesian \/ forall k, u0 k = 0.

Let Hnd3 : (nd <= 3)%nat.
Proof. pose proof (dcp_nd HD). lia. Qed.
Let Hv0 : valid_prim p0 := Hp0.

Lemma uni_cons x : uni x -> cons_of x = q0.
Proof. intros (H1 & H2 & H3 & _). apply cons_ext; cbn; [exact H1|exact H2|exact H3]. Qed.

Lemma uni_negate f x : (f < 2 * nd)%nat -> k_bcs K f = Reflexive -> uni x -> uni (negate_momentum (f / 2) x).
Proof.
  intros Hf Hb (H1 & H2 & H3 & H4). split; [exact H1|]. split; [|split; [exact H3|exact H4]].
  intros k. cbn [negate_momentum c_rhou]. destruct (Nat.eqb_spec k (f / 2)) as [->|_]; [|apply H2].
  rewrite H2, (Hrefl f Hf Hb). ring.
Qed.

Lemma uni_finish A rec new S : (forall r c, vr r -> arr r c -> uni (A r c)) -> uni_state (finish K L A rec new S).
Proof.
  intros HA r c Hr Hc. specialize (HA r c Hr Hc).
  pose proof (proj2 (sel_array _ _ _ _ _ _ _ HL Hr) Hc) as Hs.
  cbn [finish s_cell s_u s_P s_grav conv_cons_to_prim fst snd]. unfold kwrite. rewrite Hs.
  change (mkCons (c_rho (A r c)) (c_rhou (A r c)) (c_E (A r c))) with (cons_of (A r c)).
  rewrite (uni_cons _ HA). unfold q0. rewrite to_prim_to_cons by assumption.
  split; [exact HA|]. split; [reflexivity|]. split; [reflexivity|].
  intros j. destruct Hgrav as (g & Eg & Hg). unfold gravity_values. rewrite Eg. apply Hg.
Qed.

Lemma uni_face S r c sd k : uni_state S -> vr r -> sel K L 1 r c = true -> (k < nd)%nat ->
  face_prim (k_lim K) (l_mesh L r) (fun c => c_rho (s_cell (S r) c)) (s_u (S r)) (s_P (S r)) c sd k = p0 /\
  (forall n, 0 <= fx0 n <= 1 -> face_fx (k_lim K) (l_mesh L r) (fun c => c_fx (s_cell (S r) c)) c sd k n = fx0 n).
Proof.
  intros HS Hr Hs Hk.
  assert (H0 : forall x, in_stencil nd c x -> uni (s_cell (S r) x) /\ (forall j, s_u (S r) x j = u0 j) /\ s_P (S r) x = P0).
  { intros x Hx. destruct (HS r x Hr (stencil_array r c x Hr Hs Hx)) as (A1 & A2 & A3 & _). auto. }
  destruct (H0 c (or_introl eq_refl)) as ((A1 & _ & _ & A4) & A2 & A3).
  destruct (H0 _ (st_l c k Hk)) as ((B1 & _ & _ & B4) & B2 & B3).
  destruct (H0 _ (st_r c k Hk)) as ((C1 & _ & _ & C4) & C2 & C3).
  split.
  - unfold face_prim. apply prim_ext; cbn [p_rho p_u p_P p0]; intros; rewrite faces_constant; try lia; congruence.
  - intros n Hn. unfold face_fx. rewrite faces_constant; try lia; [now apply A4|rewrite A4, B4; auto|rewrite A4, C4; auto].
Qed.

Lemma uni_rec S r c sd k dt : uni_state S -> vr r -> sel K L 1 r c = true -> (sd < 2)%nat -> (k < nd)%nat ->
  r_q (step_rec K L dt S r) c sd k = q0 /\
  (forall n, 0 <= fx0 n <= 1 -> r_fx (step_rec K L dt S r) c sd k n = fx0 n).
Proof.
  intros HS Hr Hs Hsd Hk. unfold step_rec. cbn [hydro_reconstruction r_q r_fx]. unfold kwrite. rewrite Hs.
  destruct (HS r c Hr (sel1_array r c Hr Hs)) as (_ & _ & _ & Hg0).
  assert (E : hancock_cons (k_geom K) nd (k_eos K) (l_mesh L r) (s_grav (S r)) (dt / 2)
    (face_prim (k_lim K) (l_mesh L r) (fun c => c_rho (s_cell (S r) c)) (s_u (S r)) (s_P (S r)) c) c sd k = q0).
  { destruct Hgeo as [E|E].
    - rewrite E. apply hancock_uniform; auto. intros. now apply uni_face.
    - apply hancock_rest; auto. intros. now apply uni_face. }
  split; [exact E|].
  intros n Hn. apply uniform_scalar_hancock; auto.
  - intros sd' d Hsd' Hd. apply (uni_face S r c sd' d HS Hr Hs Hd). exact Hn.
  - rewrite E. cbn. lra.
Qed.

Lemma uni_owned S t dt r c : uni_state S -> vr r -> own r c -> uni (step_user K L t dt S r c).
Proof.
  intros HS Hr Hc. pose proof (proj2 (sel_owned _ _ _ _ _ _ _ HL Hr) Hc) as Hs.
  unfold step_user, user_step. rewrite kwrite_in by assumption. rewrite Huser. cbn [user_cell].
  destruct (HS r c Hr (owned_in_array r c Hr Hc)) as (Hu & _ & _ & Hg0).
  pose proof (uni_cons _ Hu) as Ec.
  assert (Hrec : forall x sd k, in_stencil nd c x -> (sd < 2)%nat -> (k < nd)%nat ->
    r_q (step_rec K L dt S r) x sd k = q0 /\ (forall n, 0 <= fx0 n <= 1 -> r_fx (step_rec K L dt S r) x sd k n = fx0 n)).
  { intros x sd k Hx Hsd Hk. apply uni_rec; auto. now apply (owned_sel1 r c x). }
  assert (Hg : uni (step_godunov K L dt S r c)).
  { unfold step_godunov, godunov. rewrite kwrite_in by assumption.
    assert (Hv : valid_cons nd (cons_of (s_cell (S r) c))) by (rewrite Ec; now apply valid_to_cons).
    assert (Hr4 : forall d, (d < nd)%nat -> let r_ := step_rec K L dt S r in
      r_q r_ c 0%nat d = cons_of (s_cell (S r) c) /\ r_q r_ c 1%nat d = cons_of (s_cell (S r) c) /\
      r_q r_ (lindex d c) 1%nat d = cons_of (s_cell (S r) c) /\ r_q r_ (rindex d c) 0%nat d = cons_of (s_cell (S r) c)).
    { intros d Hd. cbv zeta. rewrite Ec. split; [|split; [|split]]; apply Hrec; auto; try lia;
        [now left|now left|now apply st_l|now apply st_r]. }
    assert (Hres : c_rho (god_cell (k_geom K) nd (k_eos K) (k_sol K) (l_mesh L r) (s_grav (S r)) dt (s_cell (S r)) (step_rec K L dt S r) c) = rho0 /\
      (forall k, c_rhou (god_cell (k_geom K) nd (k_eos K) (k_sol K) (l_mesh L r) (s_grav (S r)) dt (s_cell (S r)) (step_rec K L dt S r) c) k = rho0 * u0 k) /\
      c_E (god_cell (k_geom K) nd (k_eos K) (k_sol K) (l_mesh L r) (s_grav (S r)) dt (s_cell (S r)) (step_rec K L dt S r) c) = q_E q0).
    { destruct Hu as (U1 & U2 & U3 & U4). destruct Hgeo as [E|E].
      - rewrite E. destruct (godunov_uniform nd (k_eos K) (k_sol K) (l_mesh L r) (s_grav (S r)) dt (s_cell (S r)) (step_rec K L dt S r) c He Hnd3 Hg0 Hv Hr4) as (G1 & G2 & G3).
        rewrite G1, G3. split; [exact U1|]. split; [|exact U3]. intros k. rewrite G2. apply U2.
      - assert (Hm0 : forall k, c_rhou (s_cell (S r) c) k = 0) by (intros k; rewrite U2, E; ring).
        destruct (godunov_rest (k_geom K) nd (k_eos K) (k_sol K) (l_mesh L r) (s_grav (S r)) dt (s_cell (S r)) (step_rec K L dt S r) c He Hnd3 Hg0 Hv Hm0 Hr4) as (G1 & G2 & G3).
        rewrite G1, G3. split; [exact U1|]. split; [|exact U3]. intros k. rewrite G2, E. ring. }
    destruct Hres as (G1 & G2 & G3). split; [exact G1|]. split; [exact G2|]. split; [exact G3|].
    intros n Hn. apply uniform_scalar_godunov; auto.
    - now apply Hu.
    - change (c_rho (god_cell (k_geom K) nd (k_eos K) (k_sol K) (l_mesh L r) (s_grav (S r)) dt (s_cell (S r)) (step_rec K L dt S r) c) <> 0).
      rewrite G1. lra.
    - intros d Hd. split; [|split; [|split]]; apply Hrec; auto; try lia; [now left|now left|now apply st_l|now apply st_r]. }
  unfold step_pf. pose proof Hpf as Hpf0. destruct (k_pf K) as [eps|]; [|exact Hg].
  unfold pressure_fix. rewrite kwrite_in by assumption. unfold pf_cell.
  rewrite (proj2 (rltb_false _ _)); [exact Hg|]. unfold ekin, eint.
  rewrite Ec. destruct Hu as (_ & _ & -> & _). cbn [q_E q0 to_cons].
  change (q_E q0) with (eos_evol (k_eos K) rho0 P0 + ek_prim nd p0).
  unfold q0. rewrite ek_cons_to_cons by (cbn; lra). cbn [p0 p_rho p_P]. lra.
Qed.

Lemma uni_step S t dt : uni_state S -> uni_state (full_step K L t dt S).
Proof.
  intros HS. unfold full_step. apply uni_finish. apply bcs_all; auto.
  - intros f x. apply uni_negate.
  - intros r c Hr Hc. now apply uni_owned.
Qed.

Lemma uni_init G S : starts_from K dims L G S -> (forall c, g_rho G c = rho0) -> (forall c k, g_u G c k = u0 k) ->
  (forall c, g_P G c = P0) -> (forall c n, g_fx G c n = fx0 n) -> uni_state (init_state K L S).
Proof.
  intros H G1 G2 G3 G4. unfold init_state. apply uni_finish. apply bcs_all; auto.
  - intros f x. apply uni_negate.
  - intros r c Hr Hc. pose proof (proj2 (sel_owned _ _ _ _ _ _ _ HL Hr) Hc) as Hs.
    unfold init_cons. cbn [conv_prim_to_cons fst snd]. unfold kwrite. rewrite Hs.
    pose proof (sf_rho H r Hr c Hc) as A1. pose proof (sf_fx H r Hr c Hc) as A2.
    pose proof (sf_u H r Hr c Hc) as A3. pose proof (sf_P H r Hr c Hc) as A4. cbn beta in *.
    assert (Ep : mkPrim (c_rho (s_cell (S r) c)) (s_u (S r) c) (s_P (S r) c) = p0).
    { apply prim_ext; cbn; [now rewrite A1, G1|intros k; now rewrite A3, G2|now rewrite A4, G3]. }
    rewrite Ep. split; [cbn; now rewrite A1, G1|]. split; [reflexivity|]. split; [reflexivity|].
    intros n _. cbn. now rewrite A2, G4.
Qed.

Lemma uni_run ts : forall S, uni_state S -> uni_state (run K L ts S).
Proof.
  induction ts as [|[t dt] ts IH]; intros S H; [exact H|]. cbn [run fold_left fst snd]. apply IH. now apply uni_step.
Qed.
End Uniform.

(** *** Scalars *)
Section Scalars.
Hypothesis Hfaces : faces_ok nd (k_order K).

Lemma pf_user_fx t dt S r c n : c_fx (step_user K L t dt S r c) n = c_fx (step_godunov K L dt S r c) n.
Proof.
  unfold step_user, user_step, kwrite. destruct (sel K L 0 r c) eqn:E.
  - assert (Ep : c_fx (step_pf K L dt S r c) = c_fx (step_godunov K L dt S r c)).
    { unfold step_pf. destruct (k_pf K) as [eps|]; [|reflexivity]. unfold pressure_fix, kwrite. rewrite E.
      unfold pf_cell. destruct (rltb _ _); reflexivity. }
    unfold user_cell. destruct (k_user K); cbn; now rewrite Ep.
  - unfold step_pf. destruct (k_pf K) as [eps|]; [|reflexivity]. unfold pressure_fix, kwrite. now rewrite E.
Qed.

Lemma scalar_bounds_step t dt S r c n : vr r -> own r c -> 0 <= c_fx (s_cell (full_step K L t dt S r) c) n <= 1.
Proof.
  intros Hr Hc. unfold full_step. cbn [finish s_cell]. rewrite bcs_owned by assumption. rewrite pf_user_fx.
  unfold step_godunov, godunov. rewrite kwrite_in by (now apply (sel_owned _ _ _ _ _ _ _ HL Hr)).
  cbn [god_cell c_fx]. apply clamp_bounds. lra.
Qed.
Lemma scalar_bounds_run ts S r c n : ts <> [] -> vr r -> own r c -> 0 <= c_fx (s_cell (run K L ts S r) c) n <= 1.
Proof.
  intros Hne. destruct (exists_last Hne) as (ts' & [t dt] & ->). intros Hr Hc.
  unfold run. rewrite fold_left_app. cbn [fold_left fst snd]. now apply scalar_bounds_step.
Qed.

(** All cells, ghosts included, when the subdomains are thick. *)
Lemma scalar_bounds_all t dt S r c n : thick nd dims ng (l_dec L) -> vr r -> arr r c ->
  0 <= c_fx (s_cell (full_step K L t dt S r) c) n <= 1.
Proof.
  intros Ht Hr Hc. unfold full_step. cbn [finish s_cell].
  apply (bcs_all (fun x => 0 <= c_fx x n <= 1)); auto.
  intros r' c' Hr' Hc'. rewrite pf_user_fx. unfold step_godunov, godunov.
  rewrite kwrite_in by (now apply (sel_owned _ _ _ _ _ _ _ HL Hr')). cbn [god_cell c_fx]. apply clamp_bounds. lra.
Qed.

(** A uniform scalar. *)
Definition scalar_is (n : nat) (phi : R) (S : idx -> pstate) : Prop :=
  forall r c, vr r -> arr r c -> c_fx (s_cell (S r) c) n = phi.

(** No density met during the step vanishes. *)
Notation dense := (no_vacuum K dims L).

Lemma scalar_uniform_step n phi t dt S : thick nd dims ng (l_dec L) -> 0 <= phi <= 1 ->
  dense dt S -> scalar_is n phi S -> scalar_is n phi (full_step K L t dt S).
Proof.
  intros Ht Hphi Hden HS r c Hr Hc. unfold full_step. cbn [finish s_cell].
  apply (bcs_all (fun x => c_fx x n = phi)); auto.
  clear r c Hr Hc. intros r c Hr Hc. rewrite pf_user_fx. pose proof (proj2 (sel_owned _ _ _ _ _ _ _ HL Hr) Hc) as Hs.
  destruct (Hden r Hr) as [D1 D2]. specialize (D2 c Hc). unfold step_godunov, godunov in D2 |- *.
  rewrite kwrite_in in D2 |- * by assumption.
  assert (Hrec : forall x sd k, in_stencil nd c x -> (sd < 2)%nat -> (k < nd)%nat -> r_fx (step_rec K L dt S r) x sd k n = phi).
  { intros x sd k Hx Hsd Hk. pose proof (owned_sel1 r c x Hr Hc Hx) as Hx1.
    specialize (D1 x sd k Hx1 Hsd Hk). unfold step_rec in D1 |- *. cbn [hydro_reconstruction r_q r_fx] in D1 |- *.
    unfold kwrite in D1 |- *. rewrite Hx1 in D1 |- *. apply uniform_scalar_hancock; auto.
    intros sd' d Hsd' Hd. unfold face_fx.
    rewrite faces_constant; [now apply HS; [|apply sel1_array]|pose proof (dcp_nd HD); lia| |].
    - rewrite !HS; auto; [now apply sel1_array|apply (stencil_array r x); auto; now apply st_l].
    - rewrite !HS; auto; [now apply sel1_array|apply (stencil_array r x); auto; now apply st_r]. }
  apply uniform_scalar_godunov; auto.
  - apply HS; [exact Hr|now apply owned_in_array].
  - intros d Hd. split; [|split; [|split]]; apply Hrec; auto; [now left|now left|now apply st_l|now apply st_r].
Qed.

Lemma scalar_uniform_init n phi G S : thick nd dims ng (l_dec L) ->
  starts_from K dims L G S -> (forall c, g_fx G c n = phi) -> scalar_is n phi (init_state K L S).
Proof.
  intros Ht H HG r c Hr Hc. unfold init_state. cbn [finish s_cell].
  apply (bcs_all (fun x => c_fx x n = phi)); auto.
  intros r' c' Hr' Hc'. unfold init_cons. cbn [c_fx]. pose proof (sf_fx H r' Hr' c' Hc') as A. cbn beta in A. now rewrite A, HG.
Qed.

Lemma scalar_uniform_run n phi ts : thick nd dims ng (l_dec L) -> 0 <= phi <= 1 -> forall S,
  (forall pre t dt post, ts = pre ++ (t, dt) :: post -> dense dt (run K L pre S)) ->
  scalar_is n phi S -> scalar_is n phi (run K L ts S).
Proof.
  intros Ht Hphi. induction ts as [|[t dt] ts IH]; intros S Hd HS; [exact HS|].
  cbn [run fold_left fst snd]. apply IH.
  - intros pre t' dt' post E. apply (Hd ((t, dt) :: pre) t' dt' post). now rewrite E.
  - apply scalar_uniform_step; auto. exact (Hd [] t dt ts eq_refl).
Qed.
End Scalars.
End Grid.
