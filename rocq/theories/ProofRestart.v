(** * Restarting: two runs in lockstep, and the state rebuilt from an output file. *)
From Coq Require Import Sorted Lra ZifyBool.
From Verif Require Import Base RBase ModelMesh ModelGeom ModelBoundary ModelHydro ModelScheme ModelStep ModelMain
  SpecGeom SpecBoundary SpecHydro SpecScheme SpecStep SpecMain
  ProofBase ProofR ProofBoundary ProofBoundary2 ProofHydro ProofStep ProofLayout ProofSteady ProofMain.
Local Open Scope R_scope.

(** ** Lockstep *)
Section Lockstep.
Context {S S' : Type} (D : dynamics S) (D' : dynamics S') (p : params) (clock clock' : Z -> bool) (rel : S -> S' -> Prop).
Hypothesis Hcong : forall s s', rel s s' ->
  y_dt D s = y_dt D' s' /\ y_bad D s = y_bad D' s' /\ forall t dt, rel (y_step D t dt s) (y_step D' t dt s').
Variable i0 : Z.
Hypothesis Hclock : forall i, (i0 <= i)%Z -> clock i = clock' i.
Context (d : Z) (b : list (file S)) (b' : list (file S')).

Definition like (m : mstate S) (m' : mstate S') : Prop :=
  m_oid m' = (m_oid m + d)%Z /\ m_iid m' = m_iid m /\ m_tid m' = m_tid m /\ m_iter m' = m_iter m /\ m_t m' = m_t m /\
  rel (m_st m) (m_st m') /\ (i0 <= m_iter m)%Z /\
  exists F F', m_files m = b ++ F /\ m_files m' = b' ++ F' /\ Forall2 (same_file rel d) F F'.

Lemma like_write m m' : like m m' -> like (write m) (write m').
Proof.
  intros (A & B & C & E & T & R & I & F & F' & HF & HF' & H2). repeat split; auto.
  exists (F ++ [file_of m]), (F' ++ [file_of m']). cbn. rewrite HF, HF', !app_assoc. repeat split; auto.
  apply Forall2_app; [assumption|]. constructor; [|constructor]. repeat split; cbn; auto.
Qed.
Lemma like_next m m' : like m m' -> like (next_id m) (next_id m').
Proof. intros (A & B & C & E & T & R & I & H). repeat split; auto. cbn. lia. Qed.
Lemma like_output m m' : like m m' -> like (output m) (output m').
Proof.
  intros H. apply like_next in H. unfold output. apply like_write. destruct H as (A & B & C & E & T & R & I & H). repeat split; auto.
Qed.

Lemma body_like m m' n v n' v' : like m m' -> body D p clock m = (n, v) -> body D' p clock' m' = (n', v') -> v' = v /\ like n n'.
Proof.
  intros H. pose proof H as (A & B & C & E & T & R & I & HF). destruct (Hcong _ _ R) as (R1 & R2 & R3).
  unfold body. rewrite E. destruct (int32 (m_iter m + 1)); cbn [negb].
  2:{ intros X Y; inversion X; inversion Y; subst; auto. }
  replace (iter_schedule p m') with (iter_schedule p m) by (unfold iter_schedule; now rewrite B, E).
  destruct (iter_schedule p m) as [[o1 iid]|w|w]; [|intros X Y; inversion X; inversion Y; subst; auto..].
  replace (time_schedule p m' (y_dt D' (m_st m'))) with (time_schedule p m (y_dt D (m_st m)))
    by (unfold time_schedule; now rewrite C, T, R1).
  destruct (time_schedule p m (y_dt D (m_st m))) as [[[o2 tid] dt2]|w|w]; [|intros X Y; inversion X; inversion Y; subst; auto..].
  rewrite T. destruct (clip_to_end p (m_t m) dt2) as [s1 dt]. rewrite <- R2, <- (Hclock _ I).
  destruct (y_bad D (m_st m)).
  - intros X Y; inversion X; inversion Y; subst. split; [reflexivity|]. apply like_write, like_next. repeat split; auto.
  - cbv zeta. cbn [m_oid m_record m_files]. intros X Y.
    set (m2 := mkM _ _ _ (m_iter m + 1)%Z _ _ (y_step D (m_t m) dt (m_st m)) _) in X.
    set (m2' := mkM _ _ _ _ _ _ _ _) in Y.
    assert (H2 : like m2 m2') by (unfold m2, m2'; repeat split; cbn; auto; lia).
    clearbody m2 m2'. set (stop := s1 || _ || _) in X, Y.
    destruct (o1 || o2 || stop); inversion X; inversion Y; subst; (split; [reflexivity|]); [now apply like_output|assumption].
Qed.

Lemma loop_like j : forall m m' n v n' v', like m m' -> loop D p clock j m = (n, v) -> loop D' p clock' j m' = (n', v') -> v' = v /\ like n n'.
Proof.
  induction j as [|j IH]; intros m m' n v n' v' H X Y; cbn in X, Y.
  - inversion X; inversion Y; subst; auto.
  - destruct (body D p clock m) as [m1 v1] eqn:Eb. destruct (body D' p clock' m') as [m1' v1'] eqn:Eb'.
    destruct (body_like _ _ _ _ _ _ H Eb Eb') as [-> H1].
    destruct v1; [now apply (IH _ _ _ _ _ _ H1 X Y)|inversion X; inversion Y; subst; auto..].
Qed.
End Lockstep.

(** ** Two limits on the same run *)
Section Interrupted.
Context {S : Type} (D : dynamics S) (p : params) (nmax : Z) (clock clock1 : Z -> bool).

Lemma same_body m m1 m2 v2 : body D p clock m = (m1, Going) -> body D (with_max_iter p nmax) clock1 m = (m2, v2) ->
  completed v2 ->
  exists o1 iid o2 tid dt,
    m1 = step_of D m o1 iid o2 tid false dt /\
    m2 = step_of D m o1 iid o2 tid (match v2 with Finished => true | _ => false end) dt.
Proof.
  intros H1 H2 Hv. destruct (body_inv _ _ _ _ _ _ H1 ltac:(left; reflexivity)) as (o1 & iid & o2 & tid & dt2 & s1 & dt & _ & A & B & C & _ & E & F).
  destruct (body_inv _ _ _ _ _ _ H2 Hv) as (o1' & iid' & o2' & tid' & dt2' & s1' & dt' & _ & A' & B' & C' & _ & E' & F').
  change (iter_schedule (with_max_iter p nmax) m) with (iter_schedule p m) in A'. rewrite A in A'. inversion A'; subst o1' iid'.
  change (time_schedule (with_max_iter p nmax) m (y_dt D (m_st m))) with (time_schedule p m (y_dt D (m_st m))) in B'.
  rewrite B in B'. inversion B'; subst o2' tid' dt2'.
  change (clip_to_end (with_max_iter p nmax)) with (clip_to_end p) in C'. rewrite C in C'. inversion C'; subst s1' dt'.
  exists o1, iid, o2, tid, dt. split.
  - rewrite E. destruct (s1 || _ || _); [discriminate|reflexivity].
  - rewrite E', F'. clear. destruct (s1 || _ || _); reflexivity.
Qed.

Lemma same_prefix k : forall m0 m1 m2, loop D p clock k m0 = (m1, Going) -> loop D (with_max_iter p nmax) clock1 k m0 = (m2, Going) -> m1 = m2.
Proof.
  induction k as [|k IH]; intros m0 m1 m2 H1 H2; cbn in H1, H2; [congruence|].
  destruct (body D p clock m0) as [n1 v1] eqn:E1. destruct v1; [|inversion H1..].
  destruct (body D (with_max_iter p nmax) clock1 m0) as [n2 v2] eqn:E2. destruct v2; [|inversion H2..].
  destruct (same_body _ _ _ _ E1 E2) as (o1 & iid & o2 & tid & dt & -> & ->); [left; reflexivity|].
  now apply (IH _ _ _ H1 H2).
Qed.

(** Stopped after [k] iterations by the clock or by another limit, where the other run goes on. *)
Lemma stopped k m0 m1 m2 : loop D p clock k m0 = (m1, Going) -> loop D (with_max_iter p nmax) clock1 k m0 = (m2, Finished) ->
  (1 <= k)%nat -> (exists x, loop D (with_max_iter p nmax) clock1 (k - 1) m0 = (x, Going)) ->
  m_iid m2 = m_iid m1 /\ m_tid m2 = m_tid m1 /\ m_iter m2 = m_iter m1 /\ m_t m2 = m_t m1 /\ m_st m2 = m_st m1 /\
  ((m2 = m1 /\ last_file m1 (file_of m1)) \/ (m_oid m2 = (m_oid m1 + 1)%Z /\ m_files m2 = m_files m1 ++ [file_of m2] /\
    exists y, loop D p clock (k - 1) m0 = (y, Going) /\ m_files m1 = m_files y /\ m_iter m1 = (m_iter y + 1)%Z)).
Proof.
  intros H1 H2 Hk (x & Hx). destruct k as [|k]; [lia|]. replace (Datatypes.S k - 1)%nat with k in Hx by lia.
  destruct (loop D p clock k m0) as [y v] eqn:Ey.
  assert (v = Going).
  { destruct v; [reflexivity|..]; rewrite (loop_more _ _ _ k (Datatypes.S k) _ _ _ Ey) in H1; try discriminate; lia. }
  subst v. pose proof (same_prefix _ _ _ _ Ey Hx) as ->.
  rewrite (loop_snoc _ _ _ _ _ _ Ey) in H1. rewrite (loop_snoc _ _ _ _ _ _ Hx) in H2.
  destruct (same_body _ _ _ _ H1 H2) as (o1 & iid & o2 & tid & dt & -> & ->); [right; reflexivity|].
  unfold step_of. rewrite orb_true_r, orb_false_r. destruct (o1 || o2); cbn; repeat split; auto.
  - left. split; [reflexivity|]. eexists. reflexivity.
  - right. repeat split; auto. exists x. replace (k - 0)%nat with k by lia. auto.
Qed.
End Interrupted.

(** ** The state rebuilt from a file *)
Section Rebuilt.
Variables (K : config) (N dims dims' : idx) (X : nat -> arr1) (L L' L1 : layout).
Hypothesis HR : runs_on K N dims X L.
Hypothesis HR' : runs_on K N dims' X L'.
Hypothesis HL1 : laid_out K N one_process X L1.
Hypothesis He : lawful_eos (k_eos K).
Notation nd := (k_nd K).
Notation ng := (k_ng K).
Let HL := ro_layout HR.
Let HL' := ro_layout HR'.

Definition settled (S1 : idx -> pstate) : Prop :=
  exists W rec new S0, S1 = finish K L1 (bcs_update K L1 W) rec new S0.

Definition owned_valid (d : idx) (l : layout) (S : idx -> pstate) : Prop :=
  forall r c, process nd d r -> owned nd ng (d_nloc (l_dec l r)) c -> valid_cons nd (cons_of (s_cell (S r) c)).

(** The file of the distributed run is the file of the serial one. *)
Lemma file_serial G S S1 : starts_from K dims L G S -> in_step K dims L S S1 -> starts_from K one_process L1 G S1.
Proof.
  intros H [(HC & HU & HP) _].
  assert (Go : forall c, owned nd ng (d_nloc (l_dec L1 rank0)) c -> exists r c', process nd dims r /\
     owned nd ng (d_nloc (l_dec L r)) c' /\ in_array (d_nwg (l_dec L r)) c' /\ iadd (corner_min (d_range (l_dec L r))) c' = c /\
     global_index nd ng (corner_min (d_range (l_dec L r))) c' = global_index nd ng (corner_min (d_range (l_dec L1 rank0))) c).
  { intros c Hc. pose proof (ro_ng HR). apply (sel_owned _ _ _ _ _ _ _ HL1 (rank0_ok nd)) in Hc.
    destruct (covered K N dims X L L1 HL HL1 0 c ltac:(lia) Hc) as (r & c' & Hr & Hs & <-).
    apply (sel_owned _ _ _ _ _ _ _ HL Hr) in Hs. exists r, c'. split; [exact Hr|]. split; [exact Hs|].
    split; [exact (owned_in_array K N dims X L HL r c' Hr Hs)|]. split; [reflexivity|].
    apply idx_ext. intros d Hd. unfold global_index. rewrite !coord_mk3, (s_cmin _ _ _ _ HL1), coord_iadd by assumption. lia. }
  assert (Er : forall r, process nd one_process r -> r = rank0).
  { intros r Hr. apply idx_ext. intros d Hd. specialize (Hr d Hd). rewrite mpi_dims_one, coord_one in Hr. rewrite coord_rank0. lia. }
  split; intros r0 Hr0 c Hc; pose proof (Er r0 Hr0) as ->; destruct (Go c Hc) as (r & c' & Hr & Ho & Ha & <- & <-); cbn beta.
  - rewrite <- (HC r Hr c' Ha). exact (sf_rho H r Hr c' Ho).
  - rewrite <- (HC r Hr c' Ha). exact (sf_fx H r Hr c' Ho).
  - rewrite <- (HU r Hr c' Ha). exact (sf_u H r Hr c' Ho).
  - rewrite <- (HP r Hr c' Ha). exact (sf_P H r Hr c' Ho).
Qed.

Lemma valid_serial S S1 : owned_valid dims L S -> in_step K dims L S S1 -> owned_valid one_process L1 S1.
Proof.
  intros H [(HC & _) _] r0 c Hr0 Hc.
  assert (r0 = rank0) as ->.
  { apply idx_ext. intros d Hd. specialize (Hr0 d Hd). rewrite mpi_dims_one, coord_one in Hr0. rewrite coord_rank0. lia. }
  pose proof (ro_ng HR). apply (sel_owned _ _ _ _ _ _ _ HL1 (rank0_ok nd)) in Hc.
  destruct (covered K N dims X L L1 HL HL1 0 c ltac:(lia) Hc) as (r & c' & Hr & Hs & <-).
  apply (sel_owned _ _ _ _ _ _ _ HL Hr) in Hs.
  rewrite <- (HC r Hr c' (owned_in_array K N dims X L HL r c' Hr Hs)). now apply H.
Qed.

(** Reading the file back on any process grid and preparing the run gives the same arrays. *)
Lemma rebuilt G S1 R : settled S1 -> owned_valid one_process L1 S1 -> starts_from K one_process L1 G S1 ->
  starts_from K dims' L' G R -> in_step K dims' L' (init_state K L' R) S1.
Proof.
  intros (W & rec & new & S0 & ES) HV HG HRG. subst S1. unfold init_state.
  apply (finish_slice K N dims' X L' L1 HL' HL1 (ro_grav HR')).
  apply (bcs_slice K N dims' X L' L1 HL' HL1 (ro_thick HR') (ro_faces HR')).
  intros r c Hr Hc. pose proof (owned_slice K N dims' X L' L1 HL' HL1 r c Hr Hc) as Hc1.
  set (x := iadd (corner_min (d_range (l_dec L' r))) c) in *.
  pose proof (proj2 (sel_owned _ _ _ _ _ _ _ HL' Hr) Hc) as Hs.
  pose proof (proj2 (sel_owned _ _ _ _ _ _ _ HL1 (rank0_ok nd)) Hc1) as Hs1.
  assert (Ea : sel K L1 ng rank0 x = true).
  { apply (sel_mono _ _ _ _ _ 0 _ _ _ HL1 (rank0_ok nd)); [|exact Hs1]. pose proof (ro_ng HR'). lia. }
  assert (Eg : global_index nd ng (corner_min (d_range (l_dec L1 rank0))) x = global_index nd ng (corner_min (d_range (l_dec L' r))) c).
  { apply idx_ext. intros d Hd. unfold global_index, x. rewrite !coord_mk3, (s_cmin _ _ _ _ HL1), coord_iadd by assumption. lia. }
  pose proof (bcs_owned K N one_process X L1 HL1 W rank0 x (ro_faces HR') (rank0_ok nd) Hc1) as EW.
  pose proof (HV rank0 x (rank0_ok nd) Hc1) as V.
  pose proof (sf_rho HRG r Hr c Hc) as A1. pose proof (sf_rho HG rank0 (rank0_ok nd) _ Hc1) as B1.
  pose proof (sf_fx HRG r Hr c Hc) as A2. pose proof (sf_fx HG rank0 (rank0_ok nd) _ Hc1) as B2.
  pose proof (sf_u HRG r Hr c Hc) as A3. pose proof (sf_u HG rank0 (rank0_ok nd) _ Hc1) as B3.
  pose proof (sf_P HRG r Hr c Hc) as A4. pose proof (sf_P HG rank0 (rank0_ok nd) _ Hc1) as B4.
  cbn beta in *. rewrite Eg in B1, B2, B3, B4. rewrite <- A1 in B1. rewrite <- A2 in B2. rewrite <- A3 in B3. rewrite <- A4 in B4.
  cbn [finish s_cell s_u s_P conv_cons_to_prim fst snd] in V, B1, B2, B3, B4. unfold kwrite in B3, B4. rewrite Ea in B3, B4.
  rewrite EW in *. unfold init_cons. cbn [conv_prim_to_cons fst snd]. unfold kwrite. rewrite Hs.
  pose proof (to_cons_to_prim nd (k_eos K) He (cons_of (W rank0 x)) V) as T.
  assert (Ep : mkPrim (c_rho (s_cell (R r) c)) (s_u (R r) c) (s_P (R r) c) = to_prim nd (k_eos K) (cons_of (W rank0 x))).
  { rewrite <- B1, <- B3, <- B4. unfold cons_of, to_prim. reflexivity. }
  rewrite Ep, T, <- B1, <- B2. destruct (W rank0 x). reflexivity.
Qed.

Lemma settled_init S : settled (init_state K L1 S).
Proof. unfold settled, init_state. eexists _, _, _, _. reflexivity. Qed.
Lemma settled_step t dt S : settled (full_step K L1 t dt S).
Proof. unfold settled, full_step. eexists _, _, _, _. reflexivity. Qed.
End Rebuilt.

(** Outputs are written at the end of the iteration they belong to. *)
Lemma file_is_current {S : Type} (D : dynamics S) p clock s k m : loop D p clock k (fresh p s) = (m, Going) ->
  forall g, In g (m_files m) -> (fl_iter g <= m_iter m)%Z /\ (fl_iter g = m_iter m -> g = file_of m).
Proof.
  intros H. refine (loop_going _ _ _ _ _ _ H (fun _ m => forall g, In g (m_files m) -> (fl_iter g <= m_iter m)%Z /\ (fl_iter g = m_iter m -> g = file_of m)) _ _).
  - unfold fresh. destruct (_ || _); cbn; [|tauto]. intros g [<-|[]]. cbn. split; [lia|reflexivity].
  - intros i m1 m2 IH _ Hb g Hg. destruct (body_inv _ _ _ _ _ _ Hb ltac:(left; reflexivity)) as (o1 & iid & o2 & tid & dt2 & s1 & dt & _ & _ & _ & _ & _ & E & _).
    cbv zeta in E. set (stop := s1 || _ || _) in E.
    destruct (step_of_fields D m1 o1 iid o2 tid stop dt) as (_ & _ & Ei & _ & _ & Ef & _). rewrite <- E in Ei, Ef. rewrite Ef in Hg.
    assert (A : In g (m_files m1) -> (fl_iter g <= m_iter m2)%Z /\ (fl_iter g = m_iter m2 -> g = file_of m2)).
    { intros H1. destruct (IH g H1). split; [lia|]. intros; lia. }
    destruct (o1 || o2 || stop); [|auto]. apply in_app_iff in Hg. destruct Hg as [Hg|[<-|[]]]; [auto|]. cbn. split; [lia|reflexivity].
Qed.

Section Restart.
Variables (K : config) (N dims dims' : idx) (X : nat -> arr1) (L L' : layout) (cfl : R) (p : params) (clock clock' : Z -> bool).
Hypothesis HR : runs_on K N dims X L.
Hypothesis HR' : runs_on K N dims' X L'.
Hypothesis He : lawful_eos (k_eos K).
Notation nd := (k_nd K).
Notation ng := (k_ng K).
Let HL := ro_layout HR.
Let HL' := ro_layout HR'.
Notation D := (hydro K L cfl).
Notation D' := (hydro K L' cfl).

Definition rel1 (L1 : layout) (s s' : idx -> pstate) : Prop := exists s1, in_step K dims L s s1 /\ in_step K dims' L' s' s1.

Lemma rel_same L1 s s' : laid_out K N one_process X L1 -> rel1 L1 s s' -> same_arrays K N X dims L dims' L' s s'.
Proof. intros H (s1 & [A _] & [B _]). exists L1, s1. auto. Qed.

Lemma rel_cong L1 : laid_out K N one_process X L1 -> forall s s', rel1 L1 s s' ->
  y_dt D s = y_dt D' s' /\ y_bad D s = y_bad D' s' /\ forall t dt, rel1 L1 (y_step D t dt s) (y_step D' t dt s').
Proof.
  intros HL1 s s' (s1 & A & B). cbn [hydro y_dt y_bad y_step].
  rewrite (time_step_slice K N dims X L L1 HL HL1 (ro_ng HR) s s1 A), (time_step_slice K N dims' X L' L1 HL' HL1 (ro_ng HR') s' s1 B).
  rewrite (min_energy_slice K N dims X L L1 HL HL1 (ro_ng HR) s s1 A), (min_energy_slice K N dims' X L' L1 HL' HL1 (ro_ng HR') s' s1 B).
  split; [reflexivity|]. split; [reflexivity|]. intros t dt. exists (full_step K L1 t dt s1).
  split; [apply (full_step_slice K N dims X L L1 HL HL1 (ro_thick HR) (ro_ng HR) (ro_faces HR) (ro_grav HR)); exact A|].
  apply (full_step_slice K N dims' X L' L1 HL' HL1 (ro_thick HR') (ro_ng HR') (ro_faces HR') (ro_grav HR')); exact B.
Qed.

Lemma reached_settled L1 G0 S0 k m : laid_out K N one_process X L1 -> starts_from K dims L G0 S0 ->
  loop D p clock k (fresh p (init_state K L S0)) = (m, Going) ->
  exists s1, settled K L1 s1 /\ in_step K dims L (m_st m) s1.
Proof.
  intros HL1 H0 H. refine (loop_going _ _ _ _ _ _ H (fun _ m => exists s1, settled K L1 s1 /\ in_step K dims L (m_st m) s1) _ _).
  - destruct (fresh_fields p (init_state K L S0)) as (_ & _ & _ & ->).
    exists (init_state K L1 (the_state K L1 G0)). split; [apply settled_init|].
    exact (init_slice K N dims X L L1 HL HL1 (ro_thick HR) (ro_faces HR) (ro_grav HR) G0 _ _ H0 (the_state_ok K one_process L1 G0)).
  - intros i m1 m2 (s1 & _ & Hs) _ Hb.
    destruct (body_inv _ _ _ _ _ _ Hb ltac:(left; reflexivity)) as (o1 & iid & o2 & tid & dt2 & st1 & dt & _ & _ & _ & _ & _ & E & _).
    cbv zeta in E. destruct (step_of_fields D m1 o1 iid o2 tid (st1 || (p_max_iter p <=? m_iter m1 + 1)%Z || clock (m_iter m1)) dt) as (_ & _ & _ & _ & Es & _).
    rewrite <- E in Es. rewrite Es. exists (full_step K L1 (m_t m1) dt s1). split; [apply settled_step|].
    apply (full_step_slice K N dims X L L1 HL HL1 (ro_thick HR) (ro_ng HR) (ro_faces HR) (ro_grav HR)); exact Hs.
Qed.

(** The state after [k] iterations, saved and restored. *)
Lemma restored L1 G0 S0 k m G Rst : laid_out K N one_process X L1 -> starts_from K dims L G0 S0 ->
  loop D p clock k (fresh p (init_state K L S0)) = (m, Going) ->
  owned_valid K dims L (m_st m) -> starts_from K dims L G (m_st m) -> starts_from K dims' L' G Rst ->
  rel1 L1 (m_st m) (init_state K L' Rst).
Proof.
  intros HL1 H0 H HV HG HRst. destruct (reached_settled L1 G0 S0 k m HL1 H0 H) as (s1 & Hs & Hi). exists s1. split; [exact Hi|].
  apply (rebuilt K N dims' X L' L1 HR' HL1 He G s1 Rst Hs).
  - exact (valid_serial K N dims X L L1 HR HL1 _ _ HV Hi).
  - exact (file_serial K N dims X L L1 HR HL1 G _ _ HG Hi).
  - exact HRst.
Qed.

Lemma same_file_weaken L1 d F F' : laid_out K N one_process X L1 ->
  Forall2 (same_file (rel1 L1) d) F F' -> Forall2 (same_file (same_arrays K N X dims L dims' L') d) F F'.
Proof.
  intros HL1 H. induction H as [|f f' F F' (A & B & C & E & T & R) _ IH]; constructor; auto.
  repeat split; auto. now apply (rel_same L1).
Qed.

(** From the state [m1] of the uninterrupted run and a file [f] with the same counters, except for the id. *)
Lemma continued G0 S0 k m1 f d G Rst : starts_from K dims L G0 S0 ->
  loop D p clock k (fresh p (init_state K L S0)) = (m1, Going) ->
  fl_oid f = (m_oid m1 + d)%Z -> fl_iid f = m_iid m1 -> fl_tid f = m_tid m1 -> fl_iter f = m_iter m1 -> fl_t f = m_t m1 -> fl_data f = m_st m1 ->
  owned_valid K dims L (fl_data f) -> starts_from K dims L G (fl_data f) -> starts_from K dims' L' G Rst ->
  (forall i, (m_iter m1 <= i)%Z -> clock i = clock' i) ->
  forall j m v m' v',
    loop D p clock (k + j) (fresh p (init_state K L S0)) = (m, v) ->
    loop D' p clock' j (restarted f (init_state K L' Rst)) = (m', v') ->
    v' = v /\ m_oid m' = (m_oid m + d)%Z /\ m_iter m' = m_iter m /\ m_t m' = m_t m /\
    same_arrays K N X dims L dims' L' (m_st m) (m_st m') /\
    exists F, m_files m = m_files m1 ++ F /\ Forall2 (same_file (same_arrays K N X dims L dims' L') d) F (m_files m').
Proof.
  intros H0 H E1 E2 E3 E4 E5 E6 HV HG HRst Hc j m v m' v' Hm Hm'.
  destruct (serial_layout K N dims X L HL) as (L1 & HL1). rewrite E6 in *.
  pose proof (restored L1 G0 S0 k m1 G Rst HL1 H0 H HV HG HRst) as Hrel.
  rewrite (loop_app _ _ _ _ _ _ _ H) in Hm.
  destruct (loop_like D D' p clock clock' (rel1 L1) (rel_cong L1 HL1) (m_iter m1) Hc d (m_files m1) [] j m1
    (restarted f (init_state K L' Rst)) m v m' v') as [Ev (A & _ & _ & B & C & R & _ & F & F' & HF & HF' & H2)]; [|exact Hm|exact Hm'|].
  - unfold like. cbn [restarted m_oid m_iid m_tid m_iter m_t m_st m_files]. repeat split; auto; [lia|].
    exists [], []. rewrite app_nil_r. repeat split; constructor.
  - split; [exact Ev|]. split; [exact A|]. split; [exact B|]. split; [exact C|]. split; [now apply (rel_same L1)|].
    exists F. split; [exact HF|]. cbn in HF'. rewrite HF'. now apply (same_file_weaken L1).
Qed.

Lemma restart_same G0 S0 k m1 f G Rst : starts_from K dims L G0 S0 ->
  loop D p clock k (fresh p (init_state K L S0)) = (m1, Going) ->
  last_file m1 f -> fl_iter f = m_iter m1 ->
  (forall r c, process nd dims r -> owned nd ng (d_nloc (l_dec L r)) c -> valid_cons nd (cons_of (s_cell (fl_data f r) c))) ->
  starts_from K dims L G (fl_data f) -> starts_from K dims' L' G Rst ->
  (forall i, (m_iter m1 <= i)%Z -> clock i = clock' i) ->
  forall j m v m' v',
    loop D p clock (k + j) (fresh p (init_state K L S0)) = (m, v) ->
    loop D' p clock' j (restarted f (init_state K L' Rst)) = (m', v') ->
    v' = v /\ m_oid m' = m_oid m /\ m_iter m' = m_iter m /\ m_t m' = m_t m /\
    same_arrays K N X dims L dims' L' (m_st m) (m_st m') /\
    exists F, m_files m = m_files m1 ++ F /\ Forall2 (same_file (same_arrays K N X dims L dims' L') 0) F (m_files m').
Proof.
  intros H0 H (l & Hl) Hi HV HG HRst Hc j m v m' v' Hm Hm'.
  destruct (file_is_current D p clock _ k m1 H f) as [_ Ef]; [rewrite Hl; apply in_app_iff; right; left; reflexivity|].
  rewrite (Ef Hi) in *. clear Ef.
  destruct (continued G0 S0 k m1 (file_of m1) 0 G Rst) with (j := j) (m := m) (v := v) (m' := m') (v' := v') as (A & B & C); auto; [cbn; lia|].
  split; [exact A|]. split; [lia|exact C].
Qed.

(** A run cut short by the wall clock or a lower iteration limit, then restarted. *)
Lemma restart_interrupted nmax clock1 G0 S0 k m1 m2 x f G Rst : starts_from K dims L G0 S0 ->
  (1 <= k)%nat ->
  loop D p clock k (fresh p (init_state K L S0)) = (m1, Going) ->
  loop D (with_max_iter p nmax) clock1 (k - 1) (fresh (with_max_iter p nmax) (init_state K L S0)) = (x, Going) ->
  loop D (with_max_iter p nmax) clock1 k (fresh (with_max_iter p nmax) (init_state K L S0)) = (m2, Finished) ->
  last_file m2 f ->
  (forall r c, process nd dims r -> owned nd ng (d_nloc (l_dec L r)) c -> valid_cons nd (cons_of (s_cell (fl_data f r) c))) ->
  starts_from K dims L G (fl_data f) -> starts_from K dims' L' G Rst ->
  (forall i, (m_iter m1 <= i)%Z -> clock i = clock' i) ->
  exists d, (d = 0 \/ d = 1)%Z /\
    (d = 0%Z <-> exists g, last_file m1 g /\ fl_iter g = m_iter m1) /\
    m_files m2 = m_files m1 ++ (if (d =? 0)%Z then [] else [f]) /\
    forall j m v m' v',
      loop D p clock (k + j) (fresh p (init_state K L S0)) = (m, v) ->
      loop D' p clock' j (restarted f (init_state K L' Rst)) = (m', v') ->
      v' = v /\ m_oid m' = (m_oid m + d)%Z /\ m_iter m' = m_iter m /\ m_t m' = m_t m /\
      same_arrays K N X dims L dims' L' (m_st m) (m_st m') /\
      exists F, m_files m = m_files m1 ++ F /\ Forall2 (same_file (same_arrays K N X dims L dims' L') d) F (m_files m').
Proof.
  intros H0 Hk H1 Hx H2 (l & Hl) HV HG HRst Hc.
  destruct (stopped D p nmax clock clock1 k (fresh p (init_state K L S0)) m1 m2 H1 H2 Hk ltac:(exists x; exact Hx))
    as (A1 & A2 & A3 & A4 & A5 & [(-> & l' & Hl')|(A6 & A7 & y & Hy & Ey & Eiy)]).
  - exists 0%Z. split; [auto|]. rewrite Hl' in Hl. apply app_inj_tail in Hl. destruct Hl as [_ <-].
    split; [split; [intros _; exists (file_of m1); split; [exists l'; exact Hl'|reflexivity]|auto]|].
    split; [cbn; now rewrite app_nil_r|].
    apply (continued G0 S0 k m1 (file_of m1) 0 G Rst); auto. cbn. lia.
  - exists 1%Z. split; [auto|]. pose proof A7 as A7'. rewrite A7 in Hl. apply app_inj_tail in Hl. destruct Hl as [<- <-].
    split; [|split; [exact A7|]].
    + split; [lia|]. intros (g & (l1 & Hg) & Hi).
      destruct (file_is_current D p clock _ (k - 1) y Hy g) as [Eg _]; [rewrite <- Ey, Hg; apply in_app_iff; right; left; reflexivity|]. lia.
    + apply (continued G0 S0 k m1 (file_of m2) 1 G Rst); auto.
Qed.
End Restart.
