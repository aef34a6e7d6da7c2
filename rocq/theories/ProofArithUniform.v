(** * Uniform flow is kept exactly in every arithmetic where x - x = 0 (C88). *)
From Coq Require Import FunctionalExtensionality.
From Verif Require Import Base RBase ModelMesh ModelGeom ModelBoundary ModelHydro ModelScheme ModelStep ModelArith
  SpecMesh SpecBoundary SpecHydro SpecScheme SpecStep SpecArith
  ProofBase ProofMesh ProofR ProofBoundary ProofBoundary2 ProofHydro ProofScheme ProofMirror ProofShift ProofReduce ProofStep
  ProofSteady ProofArithReal ProofArith.
Local Open Scope R_scope.

Lemma loop_fix n f x : (forall k, (k < n)%nat -> f k x = x) -> loop n f x = x.
Proof. induction n as [|n IH]; intros H; cbn [loop]; [reflexivity|]. rewrite IH by (intros; apply H; lia). apply H. lia. Qed.

Section Uniform.
Variables (A : arith) (finite plain : R -> Prop).
Hypothesis HC : cancelling A finite plain.
Variables (K : config) (N dims : idx) (X : nat -> arr1) (L : layout).
Hypothesis HL : laid_out K N dims X L.
Hypothesis Hthick : thick (k_nd K) dims (k_ng K) (l_dec L).
Hypothesis Hng : (2 <= k_ng K)%Z.
Hypothesis Hfaces : faces_ok (k_nd K) (k_order K).
Variable x : cell.
Hypothesis HF : free_flow A K x.
Notation nd := (k_nd K).
Notation p0 := (cell_prim A K x).
Notation q1 := (cell_back A K x).
Notation vr := (process nd dims).
Notation zero := (a_lit A 0%Z 0%nat).

Definition level (S : idx -> pstate) : Prop :=
  filled_with A K dims L x S /\ forall r c j, vr r -> in_array (d_nwg (l_dec L r)) c -> s_grav (S r) c j = zero.

Lemma ads_equal m c d : ads A (k_geom K) nd m (rindex d c) d = ads A (k_geom K) nd m c d.
Proof.
  rewrite (ff_geom _ _ _ HF). cbn [ads]. unfold acart_ds.
  destruct d as [|[|[|d]]]; unfold rindex, kron; cbn [Nat.eqb coord ii jj kk]; rewrite ?Z.add_0_r; reflexivity.
Qed.
Lemma aflux_none m dt c d f z : finite (a_div A dt (adv A (k_geom K) nd m c)) -> finite (a_mul A f (ads A (k_geom K) nd m c d)) ->
  plain z -> a_add A z (aflux_diff A (k_geom K) nd m dt c d f f) = z.
Proof.
  intros H1 H2 Hz. unfold aflux_diff. rewrite ads_equal, (can_sub _ _ _ HC) by assumption.
  now apply (can_mul _ _ _ HC).
Qed.

Lemma flat_face l m (f : field3) c side d v : f c = v -> f (lindex d c) = v -> f (rindex d c) = v -> finite v -> plain v ->
  finite (a_div A (acell_width A m c d) (a_lit A 2 0)) -> aface_value A l m f c side d = v.
Proof.
  intros E0 E1 E2 Hf Hp Hw. unfold aface_value. rewrite E0, E1, E2, (can_sub _ _ _ HC) by assumption.
  assert (Hs : forall a b, aslope A l (a_div A zero a) (a_div A zero b) = zero).
  { intros a b. unfold aslope. destruct l; [reflexivity|..]; rewrite (can_slopes _ _ _ HC); reflexivity. }
  rewrite Hs. destruct (can_mul _ _ _ HC _ Hw v Hp) as [Ha Hb]. destruct side; assumption.
Qed.

Section Step.
Variables (S : idx -> pstate) (t dt : R).
Hypothesis HS : level S.
Hypothesis HQ : calm A finite plain K dims L x dt.

Lemma at_cell r c : vr r -> sel K L 2 r c = true ->
  s_cell (S r) c = x /\ s_u (S r) c = p_u p0 /\ s_P (S r) c = p_P p0.
Proof. intros Hr Hs. apply (proj1 HS); [exact Hr|]. now apply (array_stencil2 K N dims X L HL Hng). Qed.

Lemma rec_flat r c : vr r -> sel K L 1 r c = true -> forall sd k, (k < nd)%nat ->
  r_q (astep_rec A K L dt S r) c sd k = q1 /\ forall n, r_fx (astep_rec A K L dt S r) c sd k n = carried A x n.
Proof.
  intros Hr Hs sd k Hk.
  destruct HQ as [(P1 & P2 & P3) (P4 & P5) (P6 & P7) (F1 & F2 & F3 & F4 & F5 & F6 & F7 & F8) Hfx Hmesh].
  assert (Hin : in_array (d_nwg (l_dec L r)) c).
  { apply (array_stencil2 K N dims X L HL Hng); [exact Hr|]. now apply (sel_mono _ _ _ _ _ 1 _ _ _ HL Hr); [lia|]. }
  assert (Hst : forall y, in_stencil nd c y -> s_cell (S r) y = x /\ s_u (S r) y = p_u p0 /\ s_P (S r) y = p_P p0).
  { intros y Hy. apply at_cell; [exact Hr|]. exact (sel_stencil _ _ _ _ _ _ _ _ _ HL Hr Hs Hy). }
  assert (st0 : in_stencil nd c c) by now left.
  assert (stL : forall j, (j < nd)%nat -> in_stencil nd c (lindex j c)) by (intros j Hj; right; exists j; auto).
  assert (stR : forall j, (j < nd)%nat -> in_stencil nd c (rindex j c)) by (intros j Hj; right; exists j; auto).
  assert (Hg : forall j, s_grav (S r) c j = zero) by (intros j; now apply (proj2 HS)).
  set (fp := aface_prim A (k_lim K) (l_mesh L r) (fun c => c_rho (s_cell (S r) c)) (s_u (S r)) (s_P (S r)) c).
  set (ff := aface_fx A (k_lim K) (l_mesh L r) (fun c => c_fx (s_cell (S r) c)) c).
  assert (Ep : forall sd j, (j < nd)%nat -> fp sd j = p0).
  { intros sd' j Hj. destruct (Hmesh r c j Hr Hin Hj) as (M1 & M2 & M3 & _).
    destruct (Hst c st0) as (C1 & C2 & C3), (Hst _ (stL j Hj)) as (L1 & L2 & L3), (Hst _ (stR j Hj)) as (R1 & R2 & R3).
    unfold fp, aface_prim. apply prim_ext; cbn [p_rho p_u p_P].
    - apply flat_face; auto; [now rewrite C1|now rewrite L1|now rewrite R1].
    - intros n. apply flat_face; auto; [now rewrite C2|now rewrite L2|now rewrite R2].
    - apply flat_face; auto. }
  assert (Ef : forall sd j n, (j < nd)%nat -> ff sd j n = c_fx x n).
  { intros sd' j n Hj. destruct (Hmesh r c j Hr Hin Hj) as (M1 & M2 & M3 & _).
    destruct (Hst c st0) as (C1 & C2 & C3), (Hst _ (stL j Hj)) as (L1 & L2 & L3), (Hst _ (stR j Hj)) as (R1 & R2 & R3).
    unfold ff, aface_fx. apply flat_face; auto; [now rewrite C1|now rewrite L1|now rewrite R1|apply Hfx]. }
  assert (Eq : ahancock_cons A (k_geom K) nd (k_eos K) (l_mesh L r) (s_grav (S r)) (a_div A dt (a_lit A 2 0)) fp c sd k = q1).
  { unfold ahancock_cons. rewrite Ep by assumption. change (ato_cons A nd (k_eos K) p0) with q1.
    apply cons_ext; cbn [q_rho q_m q_E].
    - apply loop_fix. intros d Hd. rewrite !Ep by assumption. destruct (Hmesh r c d Hr Hin Hd) as (M1 & M2 & _ & (B1 & _) & _).
      now apply aflux_none.
    - intros j. cbv zeta. rewrite Hg.
      assert (Hpull : a_add A (q_m q1 j) (a_mul A (a_mul A (a_div A dt (a_lit A 2 0)) zero) (q_rho q1)) = q_m q1 j).
      { now apply (can_pull _ _ _ HC). }
      assert (El : forall d, (d < nd)%nat ->
        a_add A (q_m q1 j) (aflux_diff A (k_geom K) nd (l_mesh L r) (a_div A dt (a_lit A 2 0)) c d
           (f_m (aflux_prim A nd (k_eos K) p0 d) j) (f_m (aflux_prim A nd (k_eos K) p0 d) j)) = q_m q1 j).
      { intros d Hd. destruct (Hmesh r c d Hr Hin Hd) as (M1 & M2 & _ & (_ & B1 & _) & _). now apply aflux_none. }
      assert (E : forall f, (forall d, (d < nd)%nat -> f d (q_m q1 j) = q_m q1 j) -> loop nd f (q_m q1 j) = q_m q1 j).
      { intros f Hf. now apply loop_fix. }
      rewrite E; [destruct (Nat.ltb j nd); [reflexivity|exact Hpull]|].
      intros d Hd. rewrite !Ep, El by assumption. rewrite (ff_geom _ _ _ HF). cbn [ageo].
      destruct (Nat.eqb j d); [exact Hpull|reflexivity].
    - apply loop_fix. intros d Hd. rewrite !Ep by assumption. rewrite Hg.
      destruct (Hmesh r c d Hr Hin Hd) as (M1 & M2 & _ & (_ & _ & B1 & _) & _). rewrite aflux_none by assumption.
      now apply (can_pull _ _ _ HC). }
  unfold astep_rec. cbn [ahydro_reconstruction r_q r_fx]. unfold kwrite. rewrite Hs. fold fp ff. split; [exact Eq|].
  intros n. unfold ahancock_fx. rewrite Eq, Ep, Ef by assumption. destruct (Hfx n) as (G1 & G2).
  rewrite loop_fix; [reflexivity|]. intros d Hd. rewrite !Ep, !Ef by assumption.
  destruct (Hmesh r c d Hr Hin Hd) as (M1 & M2 & _ & (_ & _ & _ & B1) & _). now apply aflux_none.
Qed.

Lemma owned_flat r c : vr r -> owned nd (k_ng K) (d_nloc (l_dec L r)) c -> astep_user A K L t dt S r c = next_cell A x.
Proof.
  intros Hr Hc. pose proof (proj2 (sel_owned _ _ _ _ _ _ _ HL Hr) Hc) as Hs.
  pose proof HQ as [(P1 & P2 & P3) (P4 & P5) (P6 & P7) (F1 & F2 & F3 & F4 & F5 & F6 & F7 & F8) Hfx Hmesh].
  assert (Hs2 : sel K L 2 r c = true) by (apply (sel_mono _ _ _ _ _ 0 _ _ _ HL Hr); [lia|exact Hs]).
  assert (Hin : in_array (d_nwg (l_dec L r)) c) by now apply (array_stencil2 K N dims X L HL Hng).
  destruct (at_cell r c Hr Hs2) as (C1 & _).
  assert (Hg : forall j, s_grav (S r) c j = zero) by (intros j; now apply (proj2 HS)).
  assert (Hrec : forall y, in_stencil nd c y -> forall sd k, (k < nd)%nat ->
    r_q (astep_rec A K L dt S r) y sd k = q1 /\ forall n, r_fx (astep_rec A K L dt S r) y sd k n = carried A x n).
  { intros y Hy. apply rec_flat; [exact Hr|]. exact (sel_stencil _ _ _ _ _ _ _ _ _ HL Hr Hs Hy). }
  assert (st0 : in_stencil nd c c) by now left.
  assert (stL : forall j, (j < nd)%nat -> in_stencil nd c (lindex j c)) by (intros j Hj; right; exists j; auto).
  assert (stR : forall j, (j < nd)%nat -> in_stencil nd c (rindex j c)) by (intros j Hj; right; exists j; auto).
  set (rc := astep_rec A K L dt S r) in *. set (fr := fun d => ariemann A (k_sol K) nd (k_eos K) q1 q1 d).
  assert (EL : forall d, (d < nd)%nat -> aflux_left A (k_sol K) nd (k_eos K) rc c d = fr d).
  { intros d Hd. unfold aflux_left, fr. now rewrite (proj1 (Hrec _ (stL d Hd) _ _ Hd)), (proj1 (Hrec _ st0 _ _ Hd)). }
  assert (ER : forall d, (d < nd)%nat -> aflux_right A (k_sol K) nd (k_eos K) rc c d = fr d).
  { intros d Hd. unfold aflux_right, fr. now rewrite (proj1 (Hrec _ (stR d Hd) _ _ Hd)), (proj1 (Hrec _ st0 _ _ Hd)). }
  assert (EfL : forall d n, (d < nd)%nat -> afx_left A (k_sol K) nd (k_eos K) rc c d n = carried A x n).
  { intros d n Hd. unfold afx_left. rewrite (proj2 (Hrec _ (stL d Hd) _ _ Hd)), (proj2 (Hrec _ st0 _ _ Hd)). now destruct (a_lt A _ _). }
  assert (EfR : forall d n, (d < nd)%nat -> afx_right A (k_sol K) nd (k_eos K) rc c d n = carried A x n).
  { intros d n Hd. unfold afx_right. rewrite (proj2 (Hrec _ (stR d Hd) _ _ Hd)), (proj2 (Hrec _ st0 _ _ Hd)). now destruct (a_lt A _ _). }
  assert (Eg : astep_godunov A K L dt S r c = next_cell A x).
  { unfold astep_godunov. rewrite kwrite_in by exact Hs. fold rc.
    assert (Erho : agod_rho A (k_geom K) nd (k_eos K) (k_sol K) (l_mesh L r) dt (s_cell (S r)) rc c = c_rho x).
    { unfold agod_rho. rewrite C1. apply loop_fix. intros d Hd. rewrite EL, ER by assumption.
      destruct (Hmesh r c d Hr Hin Hd) as (M1 & _ & _ & _ & (B1 & _)). now apply aflux_none. }
    unfold agod_cell, next_cell. f_equal.
    - exact Erho.
    - apply functional_extensionality. intros j. unfold agod_rhou. rewrite C1, Hg. cbv zeta.
      assert (Hpull : a_add A (c_rhou x j) (a_mul A (a_mul A dt zero) (c_rho x)) = c_rhou x j) by now apply (can_pull _ _ _ HC).
      assert (E : forall f, (forall d, (d < nd)%nat -> f d (c_rhou x j) = c_rhou x j) -> loop nd f (c_rhou x j) = c_rhou x j).
      { intros f Hf. now apply loop_fix. }
      rewrite E; [destruct (Nat.ltb j nd); [reflexivity|exact Hpull]|].
      intros d Hd. rewrite EL, ER by assumption.
      destruct (Hmesh r c d Hr Hin Hd) as (M1 & _ & _ & _ & (_ & B1 & _)). rewrite aflux_none by auto.
      rewrite (ff_geom _ _ _ HF). cbn [ageo]. destruct (Nat.eqb j d); [exact Hpull|reflexivity].
    - unfold agod_E. rewrite C1. apply loop_fix. intros d Hd. rewrite EL, ER by assumption. rewrite Hg.
      destruct (Hmesh r c d Hr Hin Hd) as (M1 & _ & _ & _ & (_ & _ & B1 & _)). rewrite aflux_none by assumption.
      now apply (can_pull _ _ _ HC).
    - apply functional_extensionality. intros n. rewrite Erho. destruct (Hfx n) as (G1 & G2).
      assert (Ex : agod_rhofx A (k_geom K) nd (k_eos K) (k_sol K) (l_mesh L r) dt (s_cell (S r)) rc c n = a_mul A (c_fx x n) (c_rho x)).
      { unfold agod_rhofx. rewrite C1. apply loop_fix. intros d Hd. rewrite EL, ER, EfL, EfR by assumption.
        destruct (Hmesh r c d Hr Hin Hd) as (M1 & _ & _ & _ & (_ & _ & _ & B1)). now apply aflux_none. }
      rewrite Ex. reflexivity. }
  unfold astep_user. rewrite kwrite_in by exact Hs. rewrite (ff_user _ _ _ HF). cbn [auser_cell].
  unfold astep_pf. destruct (k_pf K) as [eps|] eqn:Epf; [|exact Eg].
  rewrite kwrite_in by exact Hs. unfold apf_cell, aekin. rewrite C1, (ff_pf _ _ _ HF eps Epf). exact Eg.
Qed.

Lemma level_step : filled_with A K dims L (next_cell A x) (afull_step A K L t dt S) /\
  forall r c j, vr r -> in_array (d_nwg (l_dec L r)) c -> s_grav (afull_step A K L t dt S r) c j = zero.
Proof.
  unfold afull_step.
  assert (HW : forall r c, vr r -> in_array (d_nwg (l_dec L r)) c -> bcs_update K L (astep_user A K L t dt S) r c = next_cell A x).
  { apply (bcs_all K N dims X L HL (fun y => y = next_cell A x)); auto.
    - intros f y Hf Hb. now destruct (ff_walls _ _ _ HF f Hf).
    - exact owned_flat. }
  split.
  - intros r c Hr Hc. pose proof (proj2 (sel_array _ _ _ _ _ _ _ HL Hr) Hc) as Hs.
    cbn [afinish s_cell s_u s_P]. unfold kwrite. rewrite Hs, HW by assumption. repeat split.
  - intros r c j Hr Hc. cbn [afinish s_grav]. unfold agravity_values. destruct (ff_grav _ _ _ HF) as (g & -> & Hg). apply Hg.
Qed.
End Step.
End Uniform.

Lemma iter_inside {T} (f : T -> T) k (x : T) : Nat.iter (S k) f x = Nat.iter k f (f x).
Proof. induction k as [|k IH]; [reflexivity|]. change (f (Nat.iter (S k) f x) = f (Nat.iter k f (f x))). now rewrite IH. Qed.
Lemma next_free A K x : free_flow A K x -> free_flow A K (next_cell A x).
Proof. intros [H1 H2 H3 H4 H5]. now split. Qed.

Section Runs.
Variables (A : arith) (finite plain : R -> Prop).
Hypothesis HC : cancelling A finite plain.
Variables (K : config) (N dims : idx) (X : nat -> arr1) (L : layout).
Hypothesis HR : runs_on K N dims X L.
Let HL := ro_layout HR.

Lemma flat_runs cfl n : forall x t S t' S', free_flow A K x -> level A K dims L x S ->
  (forall k S v, filled_with A K dims L (Nat.iter k (next_cell A) x) S ->
     reduces A (all_values K L (k_ng K) (acell_inverse_dt A K L S)) v ->
     calm A finite plain K dims L (Nat.iter k (next_cell A) x) (a_mul A cfl (a_div A (a_lit A 1 0) v))) ->
  aruns A K L cfl n t S t' S' -> level A K dims L (Nat.iter n (next_cell A) x) S'.
Proof.
  induction n as [|n IH]; intros x t S t' S' HF HS Hq H; inversion H as [|? ? ? v ? ? Hv Hr]; subst; [exact HS|].
  rewrite iter_inside.
  refine (IH _ _ _ _ _ (next_free A K x HF) _ _ Hr).
  - exact (level_step A finite plain HC K N dims X L HL (ro_thick HR) (ro_ng HR) (ro_faces HR) x HF S t _ HS (Hq 0%nat S v (proj1 HS) Hv)).
  - intros k S0 v0. rewrite <- iter_inside. apply Hq.
Qed.

Lemma flat_init x G S : free_flow A K x -> starts_from K dims L G S ->
  (forall c, g_rho G c = c_rho x /\ g_fx G c = c_fx x /\
     mkCons (c_rho x) (c_rhou x) (c_E x) = ato_cons A (k_nd K) (k_eos K) (mkPrim (g_rho G c) (g_u G c) (g_P G c))) ->
  level A K dims L x (ainit_state A K L S).
Proof.
  intros HF HS HG.
  assert (HW : forall r c, process (k_nd K) dims r -> in_array (d_nwg (l_dec L r)) c -> bcs_update K L (ainit_cons A K L S) r c = x).
  { apply (bcs_all K N dims X L HL (fun y => y = x) _ (ro_thick HR) (ro_faces HR)).
    - intros f y Hf Hb. now destruct (ff_walls _ _ _ HF f Hf).
    - intros r c Hr Hc. pose proof (proj2 (sel_owned _ _ _ _ _ _ _ HL Hr) Hc) as Hs.
      pose proof (sf_rho HS r Hr c Hc) as A1. pose proof (sf_fx HS r Hr c Hc) as A2.
      pose proof (sf_u HS r Hr c Hc) as A3. pose proof (sf_P HS r Hr c Hc) as A4. cbn beta in *.
      destruct (HG (global_index (k_nd K) (k_ng K) (corner_min (d_range (l_dec L r))) c)) as (G1 & G2 & G3).
      unfold ainit_cons, kwrite. rewrite Hs, A1, A2, A3, A4, <- G3. cbn [q_m q_E]. rewrite G1, G2. now destruct x. }
  split.
  - intros r c Hr Hc. pose proof (proj2 (sel_array _ _ _ _ _ _ _ HL Hr) Hc) as Hs.
    unfold ainit_state. cbn [afinish s_cell s_u s_P]. unfold kwrite. rewrite Hs, HW by assumption. repeat split.
  - intros r c j Hr Hc. unfold ainit_state. cbn [afinish s_grav]. unfold agravity_values.
    destruct (ff_grav _ _ _ HF) as (g & -> & Hg). apply Hg.
Qed.

(** When the scalars survive the product and the quotient, the whole cell is kept. *)
Lemma next_same x : (forall n, carried A x n = c_fx x n /\ a_lt A (c_fx x n) (a_lit A 0 0) = false /\ a_lt A (a_lit A 1 0) (c_fx x n) = false) ->
  next_cell A x = x.
Proof.
  intros H. unfold next_cell. destruct x as [a b c d]. f_equal. apply functional_extensionality. intros n.
  destruct (H n) as (E & E1 & E2). rewrite E. now rewrite E1, E2.
Qed.
Lemma iter_same x k : next_cell A x = x -> Nat.iter k (next_cell A) x = x.
Proof. intros E. induction k as [|k IH]; [reflexivity|]. cbn [Nat.iter]. change (next_cell A (Nat.iter k (next_cell A) x) = x). now rewrite IH. Qed.
End Runs.
