(** * A uniform gas in free fall: one step on any process grid (C103). *)
From Coq Require Import FunctionalExtensionality ZifyBool ZifyNat Lra.
From Verif Require Import Base RBase ModelMesh ModelGeom ModelBoundary ModelHydro ModelScheme ModelStep
  SpecMesh SpecBoundary SpecHydro SpecScheme SpecStep SpecSetup
  ProofBase ProofMesh ProofR ProofBoundary ProofBoundary2 ProofHydro ProofHydro2 ProofScheme ProofMirror ProofShift ProofReduce ProofStep ProofSteady.
Local Open Scope R_scope.

Section Fall.
Variables (K : config) (N dims : idx) (X : nat -> arr1) (L : layout) (gas : perfect_gas) (gv : nat -> R) (rho : R).
Hypothesis HR : runs_on K N dims X L.
Hypothesis Hgas : valid_gas gas.
Hypothesis Heos : k_eos K = pg_eos gas.
Hypothesis Hgeom : k_geom K = Cartesian.
Hypothesis Hpf : k_pf K = None.
Hypothesis Huser : k_user K = UOff.
Hypothesis Hgrav : k_grav K = GUniform gv.
Hypothesis Hrho : 0 < rho.
Notation nd := (k_nd K).
Notation ng := (k_ng K).
Notation vr := (process nd dims).
Notation own r c := (owned nd ng (d_nloc (l_dec L r)) c).
Notation arr r c := (in_array (d_nwg (l_dec L r)) c).
Let HL := ro_layout HR.
Let HD := lo_dec HL.
Let gam := pg_gamma gas.
Definition walls (u : vec) : Prop := forall f, (f < 2 * nd)%nat -> k_bcs K f = Reflexive -> u (f / 2)%nat = 0.
Hypothesis Hwg : walls gv.

(** Every cell of every array holds the gas of velocity [u] and internal energy [e]. *)
Definition uniform_cell (u : vec) (e : R) (x : cell) : Prop :=
  c_rho x = rho /\ (forall k, c_rhou x k = rho * u k) /\ c_E x = e + rho * vsum nd (fun d => u d * u d) / 2.
Definition uniform_gas (u : vec) (e : R) (S : idx -> pstate) : Prop :=
  forall r c, vr r -> arr r c ->
    uniform_cell u e (s_cell (S r) c) /\ (forall k, s_u (S r) c k = u k) /\ s_P (S r) c = (gam - 1) * e /\ (forall j, s_grav (S r) c j = gv j).

Lemma nd3 : (1 <= nd <= 3)%nat.
Proof. exact (dcp_nd HD). Qed.

Lemma uniform_finish u e A rec new S : (forall r c, vr r -> arr r c -> uniform_cell u e (A r c)) -> uniform_gas u e (finish K L A rec new S).
Proof.
  intros HA r c Hr Hc. destruct (HA r c Hr Hc) as (A1 & A2 & A3).
  pose proof (proj2 (sel_array _ _ _ _ _ _ _ HL Hr) Hc) as Hs.
  cbn [finish s_cell s_u s_P s_grav conv_cons_to_prim fst snd]. unfold kwrite. rewrite Hs, Heos. cbn [to_prim p_u p_P q_m q_rho].
  split; [exact (HA r c Hr Hc)|]. split; [intros k; rewrite A1, A2; field; lra|]. split.
  - cbn [pg_eos eos_pres]. rewrite pg_pres by (assumption || lra). fold gam. f_equal. unfold evol_cons, ek_cons. cbn [q_E q_m q_rho]. rewrite A1, A3.
    replace (vsum nd (fun d => c_rhou (A r c) d * c_rhou (A r c) d)) with (rho * rho * vsum nd (fun d => u d * u d)) by (rewrite <- vsum_scal; apply vsum_ext; intros d Hd; rewrite A2; ring). field. lra.
  - intros j. unfold gravity_values. now rewrite Hgrav.
Qed.

Lemma uniform_negate u e f x : walls u -> (f < 2 * nd)%nat -> k_bcs K f = Reflexive -> uniform_cell u e x -> uniform_cell u e (negate_momentum (f / 2) x).
Proof.
  intros Hw Hf Hb (H1 & H2 & H3). split; [exact H1|]. split; [|exact H3].
  intros k. cbn [negate_momentum c_rhou]. destruct (Nat.eqb_spec k (f / 2)) as [->|_]; [|apply H2]. rewrite H2, (Hw f Hf Hb). ring.
Qed.

Section OneStep.
Variables (S : idx -> pstate) (u : vec) (e : R) (t dt : R).
Hypothesis HS : uniform_gas u e S.
Let p0 := mkPrim rho u ((gam - 1) * e).
Lemma uniform_face r c sd k : vr r -> sel K L 1 r c = true -> (k < nd)%nat ->
  face_prim (k_lim K) (l_mesh L r) (fun c => c_rho (s_cell (S r) c)) (s_u (S r)) (s_P (S r)) c sd k = p0.
Proof.
  intros Hr Hs Hk. pose proof nd3.
  assert (H0 : forall x, in_stencil nd c x -> c_rho (s_cell (S r) x) = rho /\ (forall j, s_u (S r) x j = u j) /\ s_P (S r) x = (gam - 1) * e).
  { intros x Hx. destruct (HS r x Hr (stencil_array K N dims X L HL (ro_ng HR) r c x Hr Hs Hx)) as ((A1 & _) & A2 & A3 & _). auto. }
  destruct (H0 c (or_introl eq_refl)) as (A1 & A2 & A3).
  destruct (H0 _ (st_l K c k Hk)) as (B1 & B2 & B3).
  destruct (H0 _ (st_r K c k Hk)) as (C1 & C2 & C3).
  unfold face_prim. apply prim_ext; cbn [p_rho p_u p_P p0]; intros; rewrite faces_constant; try lia; congruence.
Qed.

Definition half_q : cons := hancock_cons Cartesian nd (k_eos K) (fun _ i => IZR i) (fun _ => gv) (dt / 2) (fun _ _ => p0) (I3 0 0 0) 0 0.
Lemma uniform_rec r c sd k : vr r -> sel K L 1 r c = true -> (sd < 2)%nat -> (k < nd)%nat -> r_q (step_rec K L dt S r) c sd k = half_q.
Proof.
  intros Hr Hs Hsd Hk. pose proof nd3. unfold step_rec. cbn [hydro_reconstruction r_q]. unfold kwrite. rewrite Hs, Hgeom.
  destruct (HS r c Hr (sel1_array K N dims X L HL (ro_ng HR) r c Hr Hs)) as (_ & _ & _ & Hg0).
  assert (Ed : forall m c d f, (d < nd)%nat -> flux_diff Cartesian nd m (dt / 2) c d f f = 0) by (intros; apply flux_diff_same, cart_ds_rindex'; lia).
  unfold half_q, hancock_cons. cbv zeta. rewrite (uniform_face r c sd k Hr Hs Hk). apply cons_ext; cbn [q_rho q_m q_E].
  - f_equal. apply vsum_ext. intros d Hd. rewrite !(uniform_face r c _ d Hr Hs Hd). now rewrite !Ed by exact Hd.
  - intros j. rewrite Hg0. f_equal. f_equal. apply vsum_ext. intros d Hd. rewrite !(uniform_face r c _ d Hr Hs Hd). now rewrite !Ed by exact Hd.
  - f_equal. apply vsum_ext. intros d Hd. rewrite !(uniform_face r c _ d Hr Hs Hd). now rewrite !Ed, Hg0 by exact Hd.
Qed.

Lemma uniform_owned r c : vr r -> own r c ->
  uniform_cell (fun k => u k + dt * gv k) (e - rho * vsum nd (fun d => gv d * gv d) / 2 * (dt * dt)) (step_user K L t dt S r c).
Proof.
  intros Hr Hc. pose proof nd3. pose proof (proj2 (sel_owned _ _ _ _ _ _ _ HL Hr) Hc) as Hs.
  unfold step_user, user_step. rewrite kwrite_in by assumption. rewrite Huser. cbn [user_cell]. unfold step_pf. rewrite Hpf.
  unfold step_godunov, godunov. rewrite kwrite_in by assumption. rewrite Hgeom.
  destruct (HS r c Hr (owned_in_array K N dims X L HL r c Hr Hc)) as ((A1 & A2 & A3) & _ & _ & Hg0).
  assert (Hrec : forall x sd k, in_stencil nd c x -> (sd < 2)%nat -> (k < nd)%nat -> r_q (step_rec K L dt S r) x sd k = half_q).
  { intros x sd k Hx Hsd Hk. apply uniform_rec; auto. now apply (owned_sel1 K N dims X L HL r c x). }
  assert (Ef : forall d, (d < nd)%nat -> flux_left (k_sol K) nd (k_eos K) (step_rec K L dt S r) c d = flux_right (k_sol K) nd (k_eos K) (step_rec K L dt S r) c d).
  { intros d Hd. unfold flux_left, face_flux, flux_right. rewrite !Hrec; auto; try lia; solve [now left|now apply st_r|now apply st_l]. }
  assert (Ed : forall d f, (d < nd)%nat -> flux_diff Cartesian nd (l_mesh L r) dt c d f f = 0) by (intros; apply flux_diff_same, cart_ds_rindex'; lia).
  split; [|split]; cbn [god_cell c_rho c_rhou c_E].
  - unfold god_rho. rewrite A1, vsum_0; [ring|]. intros d Hd. rewrite Ef by exact Hd. now apply Ed.
  - intros k. unfold god_rhou. rewrite A1, A2, Hg0, vsum_0; [ring|]. intros d Hd. rewrite Ef, Ed by exact Hd. cbn [geo_source]. ring.
  - unfold god_E.
    rewrite (vsum_ext nd _ (fun d => dt * rho * (u d * gv d))) by (intros d Hd; rewrite Ef, Ed, Hg0, A2 by exact Hd; ring). rewrite A3.
    rewrite (vsum_ext nd (fun d => (u d + dt * gv d) * (u d + dt * gv d)) (fun d => u d * u d + (2 * dt * (u d * gv d) + dt * dt * (gv d * gv d)))) by (intros; ring).
    rewrite !vsum_plus, !vsum_scal. field.
Qed.

Lemma uniform_step : walls u -> uniform_gas (fun k => u k + dt * gv k) (e - rho * vsum nd (fun d => gv d * gv d) / 2 * (dt * dt)) (full_step K L t dt S).
Proof.
  intros Hw. unfold full_step. apply uniform_finish. apply (bcs_all K N dims X L HL); [exact (ro_thick HR)|exact (ro_faces HR)| |].
  - intros f x Hf Hb. apply uniform_negate; [|exact Hf|exact Hb]. intros f' Hf' Hb'. rewrite (Hw f' Hf' Hb'), (Hwg f' Hf' Hb'). ring.
  - intros r c Hr Hc. now apply uniform_owned.
Qed.
End OneStep.

Lemma uniform_init G S u P : starts_from K dims L G S -> (forall c, g_rho G c = rho) -> (forall c k, g_u G c k = u k) -> (forall c, g_P G c = P) ->
  walls u -> uniform_gas u (P / (gam - 1)) (init_state K L S).
Proof.
  intros H G1 G2 G3 Hw. unfold init_state. apply uniform_finish. apply (bcs_all K N dims X L HL); [exact (ro_thick HR)|exact (ro_faces HR)| |].
  - intros f x. now apply uniform_negate.
  - intros r c Hr Hc. pose proof (proj2 (sel_owned _ _ _ _ _ _ _ HL Hr) Hc) as Hs.
    unfold init_cons. cbn [conv_prim_to_cons fst snd]. unfold kwrite. rewrite Hs.
    pose proof (sf_rho H r Hr c Hc) as A1. pose proof (sf_u H r Hr c Hc) as A3. pose proof (sf_P H r Hr c Hc) as A4. cbn beta in *.
    split; [cbn; now rewrite A1, G1|]. split; [intros k; cbn; now rewrite A1, G1, A3, G2|].
    cbn [c_E to_cons q_E p_rho p_P]. rewrite Heos. cbn [pg_eos eos_evol]. rewrite A1, G1, A4, G3, pg_evol by (assumption || lra). fold gam.
    unfold ek_prim. cbn [p_rho p_u]. f_equal. f_equal. f_equal. apply vsum_ext. intros d Hd. now rewrite A3, G2.
Qed.
End Fall.
