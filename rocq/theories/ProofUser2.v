(** * The main loop with the boundary conditions of the setup: process grids and restarts (C100). *)
From Coq Require Import FunctionalExtensionality ZifyBool ZifyNat.
From Verif Require Import Base RBase ModelMesh ModelGeom ModelBoundary ModelHydro ModelScheme ModelStep ModelSetup ModelMain ModelUser
  SpecMesh SpecBoundary SpecHydro SpecScheme SpecStep SpecSetup SpecMain SpecUser
  ProofBase ProofMesh ProofR ProofBoundary ProofBoundary2 ProofHydro ProofScheme ProofShift ProofReduce ProofStep ProofLayout ProofSetup
  ProofSteady ProofMain ProofRestart ProofUser.
Local Open Scope R_scope.

Lemma own_owned K N dims X L U g (A : world cell) r c : laid_out K N dims X L -> faces_ok (k_nd K) (k_order K) ->
  process (k_nd K) dims r -> owned (k_nd K) (k_ng K) (d_nloc (l_dec L r)) c -> own_update K N L U g A r c = A r c.
Proof.
  intros HL Hf Hr Hc. pose proof (lo_dec HL) as HD. unfold own_update. rewrite (lo_dims HL).
  rewrite <- (sync_keeps_owned cell (k_nd K) N dims (k_ng K) (l_dec L) A HD r Hr c Hc).
  generalize (sync_dims (mpi_dims (k_nd K) dims) (fun r => d_nwg (l_dec L r)) (k_ng K) (k_nd K) A). revert Hf.
  induction (k_order K) as [|f l IH]; intros Hf W; cbn [fold_left]; [reflexivity|].
  rewrite IH by (intros x Hx; apply Hf; now right).
  assert (Hd : (f / 2 < k_nd K)%nat) by (apply Nat.div_lt_upper_bound; [lia|]; specialize (Hf f (or_introl eq_refl)); lia).
  pose proof (dcp_nd HD) as Hnd. pose proof (dcp_ng HD) as Hng0.
  pose proof (Hc _ (Nat.lt_le_trans _ _ _ Hd (proj2 Hnd))) as Hcd.
  rewrite (ghosts_lt (k_nd K) (k_ng K)) in Hcd by assumption.
  pose proof (dec_nwg _ _ _ _ _ HD r (f / 2) Hr ltac:(lia)) as Ee. rewrite (ghosts_lt (k_nd K) (k_ng K)) in Ee by assumption.
  pose proof (dec_nloc _ _ _ _ _ HD r (f / 2) Hr ltac:(lia)) as En.
  pose proof (nl_nonneg _ _ _ _ _ HD (f / 2) (coord (f / 2) r) ltac:(lia)).
  unfold own_step. destruct (ob_face U f).
  - destruct (is_border _ _ _ _); [|reflexivity]. unfold user_condition, kwrite.
    replace (in_boxb _ _ c) with false; [reflexivity|]. symmetry. apply Bool.not_true_iff_false. intros E.
    apply in_boxb_spec, bc_box_iff in E; [|lia|lia]. destruct E as [_ Hx]. destruct (Nat.modulo f 2); lia.
  - unfold bc_step. destruct (is_border _ _ _ _); [|reflexivity].
    apply bc_apply_outside; [lia|lia|]. intros [_ Hx]. destruct (Nat.modulo f 2); lia.
Qed.

Lemma made_mesh K L L' r A B : mesh_gravity K -> l_mesh L r = l_mesh L' r -> gravity_values K L A r = gravity_values K L' B r.
Proof. unfold mesh_gravity, gravity_values. intros H E. destruct (k_grav K); [reflexivity| |destruct H]. now rewrite E. Qed.

Section Runs.
Variables (K : config) (N dims dims' : idx) (X : nat -> arr1) (L L' : layout) (U : own_bounds) (cfl : R) (p : params) (clock clock' : Z -> bool).
Hypothesis HR : runs_on K N dims X L.
Hypothesis HR' : runs_on K N dims' X L'.
Notation nd := (k_nd K).
Notation ng := (k_ng K).
Let HL := ro_layout HR.
Let HL' := ro_layout HR'.
Notation D := (own_hydro K N L U cfl).
Notation D' := (own_hydro K N L' U cfl).
Notation rel := (rel1 K dims dims' L L').

Lemma own_cong L1 : laid_out K N one_process X L1 -> forall s s', rel L1 s s' ->
  y_dt D s = y_dt D' s' /\ y_bad D s = y_bad D' s' /\ forall t dt, rel L1 (y_step D t dt s) (y_step D' t dt s').
Proof.
  intros HL1 s s' H. destruct (rel_cong K N dims dims' X L L' cfl HR HR' L1 HL1 s s' H) as (A1 & A2 & _).
  destruct H as (s1 & A & B). cbn [own_hydro y_dt y_bad y_step] in *. split; [exact A1|]. split; [exact A2|].
  intros t dt. exists (own_full_step K N L1 U t dt s1). split.
  - exact (own_full_step_slice K N dims X L L1 U HL HL1 (ro_thick HR) (ro_ng HR) (ro_faces HR) (ro_grav HR) t dt _ _ A).
  - exact (own_full_step_slice K N dims' X L' L1 U HL' HL1 (ro_thick HR') (ro_ng HR') (ro_faces HR') (ro_grav HR') t dt _ _ B).
Qed.

Lemma own_start s th L1 : positional s -> laid_out K N one_process X L1 ->
  in_step K dims L (own_init K N L U (setup_state s K th N L)) (own_init K N L1 U (setup_state s K th N L1)).
Proof.
  intros Hs HL1. apply (own_init_slice K N dims X L L1 U HL HL1 (ro_thick HR) (ro_ng HR) (ro_faces HR) (ro_grav HR) (global_fields s K th N X)).
  - exact (setup_starts K N dims X L th HL s Hs).
  - exact (setup_starts K N one_process X L1 th HL1 s Hs).
  - exact (first_gravity_slice K N dims X L L1 HL HL1 (ro_grav HR)).
Qed.
End Runs.

Section Grids.
Variables (K : config) (N dims dims' : idx) (X : nat -> arr1) (L L' : layout) (U : own_bounds) (cfl : R) (p : params) (clock : Z -> bool).
Hypothesis HR : runs_on K N dims X L.
Hypothesis HR' : runs_on K N dims' X L'.
Lemma own_alike s th n : positional s ->
  let e := loop (own_hydro K N L U cfl) p clock n (fresh p (own_init K N L U (setup_state s K th N L))) in
  let e' := loop (own_hydro K N L' U cfl) p clock n (fresh p (own_init K N L' U (setup_state s K th N L'))) in
  snd e' = snd e /\ m_oid (fst e') = m_oid (fst e) /\ m_iter (fst e') = m_iter (fst e) /\ m_t (fst e') = m_t (fst e) /\
  same_arrays K N X dims L dims' L' (m_st (fst e)) (m_st (fst e')) /\
  Forall2 (same_file (same_arrays K N X dims L dims' L') 0) (m_files (fst e)) (m_files (fst e')).
Proof.
  intros Hs e e'. destruct (serial_layout K N dims X L (ro_layout HR)) as (L1 & HL1).
  set (R1 := rel1 K dims dims' L L' L1).
  assert (I : R1 (own_init K N L U (setup_state s K th N L)) (own_init K N L' U (setup_state s K th N L'))).
  { exists (own_init K N L1 U (setup_state s K th N L1)). split; eapply own_start; eassumption. }
  assert (HLk : like R1 0 0 [] [] (fresh p (own_init K N L U (setup_state s K th N L))) (fresh p (own_init K N L' U (setup_state s K th N L')))).
  { set (a := own_init K N L U _) in *. set (b := own_init K N L' U _) in *. clearbody a b.
    assert (Y0 : forall i, like R1 0 0 [] [] (mkM (-1) i (-1) 0 (p_t_ini p) [] a []) (mkM (-1) i (-1) 0 (p_t_ini p) [] b [])).
    { intro i. unfold like. cbn [m_oid m_iid m_tid m_iter m_t m_st m_files]. repeat split; auto; try lia. exists [], []. repeat split; constructor. }
    unfold fresh. cbv zeta. destruct ((0 <? p_iter_freq p)%Z || rltb 0 (p_time_freq p))%bool; [|apply Y0].
    apply (like_output clock clock R1 0 (fun i _ => eq_refl)), Y0. }
  subst e e'. destruct (loop (own_hydro K N L U cfl) p clock n _) as [m v] eqn:E. destruct (loop (own_hydro K N L' U cfl) p clock n _) as [m' v'] eqn:E'. cbn [fst snd].
  destruct (loop_like (own_hydro K N L U cfl) (own_hydro K N L' U cfl) p clock clock R1 (own_cong K N dims dims' X L L' U cfl HR HR' L1 HL1) 0 (fun i _ => eq_refl) 0 [] [] n _ _ _ _ _ _ HLk E E')
    as [-> (A & _ & _ & B & C & Rl & _ & F & F' & EF & EF' & FF)].
  cbn [app] in EF, EF'. subst F F'.
  split; [reflexivity|]. split; [lia|]. split; [exact B|]. split; [exact C|]. split.
  - exact (rel_same K N dims dims' X L L' L1 _ _ HL1 Rl).
  - exact (same_file_weaken K N dims dims' X L L' L1 _ _ _ HL1 FF).
Qed.
End Grids.

(** ** Restarts *)
Section Rebuilt.
Variables (K : config) (N dims' : idx) (X : nat -> arr1) (L' L1 : layout) (U : own_bounds).
Hypothesis HR' : runs_on K N dims' X L'.
Hypothesis HL1 : laid_out K N one_process X L1.
Hypothesis He : lawful_eos (k_eos K).
Hypothesis Hm : mesh_gravity K.
Notation nd := (k_nd K).
Notation ng := (k_ng K).
Let HL' := ro_layout HR'.

Definition own_settled (S1 : idx -> pstate) : Prop :=
  exists W B rec new S0, S1 = finish K L1 (own_update K N L1 U (gravity_values K L1 B) W) rec new S0.

Lemma own_rebuilt G S1 R : own_settled S1 -> owned_valid K one_process L1 S1 -> starts_from K one_process L1 G S1 ->
  starts_from K dims' L' G R -> (forall r, process nd dims' r -> made_on K L' r (s_grav (R r))) ->
  in_step K dims' L' (own_init K N L' U R) S1.
Proof.
  intros (W & B & rec & new & S0 & ES) HV HG HRG HRg. subst S1. unfold own_init.
  apply (finish_slice K N dims' X L' L1 HL' HL1 (ro_grav HR')).
  apply (own_update_slice K N dims' X L' L1 U HL' HL1 (ro_thick HR') (ro_ng HR') (ro_faces HR')).
  { intros r c j Hr Hc. destruct (HRg r Hr) as (A & EA). rewrite EA, (made_mesh K L' L' r A (fun _ _ => zero_cell) Hm eq_refl),
      (made_mesh K L1 L1 rank0 B (fun _ _ => zero_cell) Hm eq_refl).
    apply (first_gravity_slice K N dims' X L' L1 HL' HL1 (ro_grav HR')); assumption. }
  intros r c Hr Hc. pose proof (owned_slice K N dims' X L' L1 HL' HL1 r c Hr Hc) as Hc1.
  set (x := iadd (corner_min (d_range (l_dec L' r))) c) in *.
  pose proof (proj2 (sel_owned _ _ _ _ _ _ _ HL' Hr) Hc) as Hs.
  pose proof (proj2 (sel_owned _ _ _ _ _ _ _ HL1 (rank0_ok nd)) Hc1) as Hs1.
  assert (Ea : sel K L1 ng rank0 x = true).
  { apply (sel_mono _ _ _ _ _ 0 _ _ _ HL1 (rank0_ok nd)); [|exact Hs1]. pose proof (ro_ng HR'). lia. }
  assert (Eg : global_index nd ng (corner_min (d_range (l_dec L1 rank0))) x = global_index nd ng (corner_min (d_range (l_dec L' r))) c).
  { apply idx_ext. intros d Hd. unfold global_index, x. rewrite !coord_mk3, (s_cmin _ _ _ _ HL1), coord_iadd by assumption. lia. }
  pose proof (own_owned K N one_process X L1 U (gravity_values K L1 B) W rank0 x HL1 (ro_faces HR') (rank0_ok nd) Hc1) as EW.
  pose proof (HV rank0 x (rank0_ok nd) Hc1) as V.
  pose proof (sf_rho HRG r Hr c Hc) as A1. pose proof (sf_rho HG rank0 (rank0_ok nd) _ Hc1) as B1.
  pose proof (sf_fx HRG r Hr c Hc) as A2. pose proof (sf_fx HG rank0 (rank0_ok nd) _ Hc1) as B2.
  pose proof (sf_u HRG r Hr c Hc) as A3. pose proof (sf_u HG rank0 (rank0_ok nd) _ Hc1) as B3.
  pose proof (sf_P HRG r Hr c Hc) as A4. pose proof (sf_P HG rank0 (rank0_ok nd) _ Hc1) as B4.
  cbn beta in *. rewrite Eg in B1, B2, B3, B4. rewrite <- A1 in B1. rewrite <- A2 in B2. rewrite <- A3 in B3. rewrite <- A4 in B4.
  cbn [finish s_cell s_u s_P conv_cons_to_prim fst snd] in V, B1, B2, B3, B4. unfold kwrite in B3, B4. rewrite Ea in B3, B4.
  rewrite EW in *. unfold init_cons. cbn [conv_prim_to_cons fst snd]. unfold kwrite. rewrite Hs.
  pose proof (to_cons_to_prim nd (k_eos K) He (cons_of (W rank0 x)) V) as T.
  assert (Ep : mkPrim (c_rho (s_cell (R r) c)) (s_u (R r) c) (s_P (R r) c) = to_prim nd (k_eos K) (cons_of (W rank0 x))).
  { rewrite <- B1, <- B3, <- B4. unfold cons_of, to_prim. reflexivity. }
  rewrite Ep, T, <- B1, <- B2. destruct (W rank0 x). reflexivity.
Qed.

Lemma own_settled_init s th : own_settled (own_init K N L1 U (setup_state s K th N L1)).
Proof. unfold own_settled, own_init. eexists _, (fun _ _ => zero_cell), _, _, _. reflexivity. Qed.
Lemma own_settled_step t dt S : own_settled S -> own_settled (own_full_step K N L1 U t dt S).
Proof. intros (W & B & rec & new & S0 & ->). unfold own_settled, own_full_step. eexists _, _, _, _, _. reflexivity. Qed.
End Rebuilt.

Section Restart.
Variables (K : config) (N dims dims' : idx) (X : nat -> arr1) (L L' : layout) (U : own_bounds) (cfl : R) (p : params) (clock clock' : Z -> bool)
  (s : setup) (th : thermo).
Hypothesis HR : runs_on K N dims X L.
Hypothesis HR' : runs_on K N dims' X L'.
Hypothesis He : lawful_eos (k_eos K).
Hypothesis Hm : mesh_gravity K.
Hypothesis Hpos : positional s.
Notation nd := (k_nd K).
Notation ng := (k_ng K).
Let HL := ro_layout HR.
Let HL' := ro_layout HR'.
Notation D := (own_hydro K N L U cfl).
Notation D' := (own_hydro K N L' U cfl).
Notation S0 := (setup_state s K th N L).

Lemma own_reached L1 k m : laid_out K N one_process X L1 ->
  loop D p clock k (fresh p (own_init K N L U S0)) = (m, Going) ->
  exists s1, own_settled K N L1 U s1 /\ in_step K dims L (m_st m) s1.
Proof.
  intros HL1 H. refine (loop_going _ _ _ _ _ _ H (fun _ m => exists s1, own_settled K N L1 U s1 /\ in_step K dims L (m_st m) s1) _ _).
  - destruct (fresh_fields p (own_init K N L U S0)) as (_ & _ & _ & ->).
    exists (own_init K N L1 U (setup_state s K th N L1)). split; [apply own_settled_init|].
    eapply own_start; eassumption.
  - intros i m1 m2 (s1 & Hs1 & Hs) _ Hb.
    destruct (body_inv _ _ _ _ _ _ Hb ltac:(left; reflexivity)) as (o1 & iid & o2 & tid & dt2 & st1 & dt & _ & _ & _ & _ & _ & E & _).
    cbv zeta in E. destruct (step_of_fields D m1 o1 iid o2 tid (st1 || (p_max_iter p <=? m_iter m1 + 1)%Z || clock (m_iter m1)) dt) as (_ & _ & _ & _ & Es & _).
    rewrite <- E in Es. rewrite Es. exists (own_full_step K N L1 U (m_t m1) dt s1). split; [now apply own_settled_step|].
    exact (own_full_step_slice K N dims X L L1 U HL HL1 (ro_thick HR) (ro_ng HR) (ro_faces HR) (ro_grav HR) _ _ _ _ Hs).
Qed.

Lemma own_restored L1 k m G Rst : laid_out K N one_process X L1 ->
  loop D p clock k (fresh p (own_init K N L U S0)) = (m, Going) ->
  owned_valid K dims L (m_st m) -> starts_from K dims L G (m_st m) -> starts_from K dims' L' G Rst ->
  (forall r, process nd dims' r -> made_on K L' r (s_grav (Rst r))) ->
  rel1 K dims dims' L L' L1 (m_st m) (own_init K N L' U Rst).
Proof.
  intros HL1 H HV HG HRst Hg. destruct (own_reached L1 k m HL1 H) as (s1 & Hs & Hi). exists s1. split; [exact Hi|].
  apply (own_rebuilt K N dims' X L' L1 U HR' HL1 He Hm G s1 Rst Hs).
  - exact (valid_serial K N dims X L L1 HR HL1 _ _ HV Hi).
  - exact (file_serial K N dims X L L1 HR HL1 G _ _ HG Hi).
  - exact HRst.
  - exact Hg.
Qed.

Lemma own_restart k m1 f G Rst :
  loop D p clock k (fresh p (own_init K N L U S0)) = (m1, Going) ->
  last_file m1 f -> fl_iter f = m_iter m1 ->
  (forall r c, process nd dims r -> owned nd ng (d_nloc (l_dec L r)) c -> valid_cons nd (cons_of (s_cell (fl_data f r) c))) ->
  starts_from K dims L G (fl_data f) -> starts_from K dims' L' G Rst ->
  (forall r, process nd dims' r -> made_on K L' r (s_grav (Rst r))) ->
  (forall i, (m_iter m1 <= i)%Z -> clock i = clock' i) ->
  forall j m v m' v',
    loop D p clock (k + j) (fresh p (own_init K N L U S0)) = (m, v) ->
    loop D' p clock' j (restarted f (own_init K N L' U Rst)) = (m', v') ->
    v' = v /\ m_oid m' = m_oid m /\ m_iter m' = m_iter m /\ m_t m' = m_t m /\
    same_arrays K N X dims L dims' L' (m_st m) (m_st m') /\
    exists F, m_files m = m_files m1 ++ F /\ Forall2 (same_file (same_arrays K N X dims L dims' L') 0) F (m_files m').
Proof.
  intros H (l & Hl) Hi HV HG HRst Hg Hc j m v m' v' Hm1 Hm'.
  destruct (file_is_current D p clock _ k m1 H f) as [_ Ef]; [rewrite Hl; apply in_app_iff; right; left; reflexivity|].
  rewrite (Ef Hi) in *. clear Ef. cbn [file_of fl_data] in HV, HG.
  destruct (serial_layout K N dims X L HL) as (L1 & HL1).
  pose proof (own_restored L1 k m1 G Rst HL1 H HV HG HRst Hg) as Hrel.
  rewrite (loop_app _ _ _ _ _ _ _ H) in Hm1.
  destruct (loop_like D D' p clock clock' (rel1 K dims dims' L L' L1) (own_cong K N dims dims' X L L' U cfl HR HR' L1 HL1) (m_iter m1) Hc 0 (m_files m1) [] j m1
    (restarted (file_of m1) (own_init K N L' U Rst)) m v m' v') as [Ev (A & _ & _ & B & C & R & _ & F & F' & HF & HF' & H2)]; [|exact Hm1|exact Hm'|].
  - unfold like. cbn [restarted file_of fl_oid fl_iid fl_tid fl_iter fl_t m_oid m_iid m_tid m_iter m_t m_st m_files]. repeat split; auto; [lia|lia|].
    exists [], []. rewrite app_nil_r. repeat split; constructor.
  - split; [exact Ev|]. split; [lia|]. split; [exact B|]. split; [exact C|]. split; [now apply (rel_same K N dims dims' X L L' L1)|].
    exists F. split; [exact HF|]. cbn in HF'. rewrite HF'. now apply (same_file_weaken K N dims dims' X L L' L1).
Qed.
End Restart.
