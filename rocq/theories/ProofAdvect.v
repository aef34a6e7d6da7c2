(** * Uniform velocity and pressure under any density (C76). *)
From Coq Require Import FunctionalExtensionality ZifyBool ZifyNat.
From Verif Require Import Base RBase ModelMesh ModelGeom ModelBoundary ModelHydro ModelScheme ModelStep
  SpecMesh SpecBoundary SpecHydro SpecScheme SpecStep SpecAdvect
  ProofBase ProofMesh ProofR ProofBoundary ProofBoundary2 ProofHydro ProofHydro2 ProofScheme ProofMirror ProofShift ProofReduce ProofStep ProofSteady.
Local Open Scope R_scope.

(** ** Cell-local physics *)
Section Local.
Variables (nd : nat) (e : eos) (u0 : vec) (P0 : R).
Hypothesis He : lawful_eos e.
Hypothesis Hev : energy_of_pressure e.
Hypothesis HP0 : 0 < P0.

Definition e0 : R := eos_evol e 1 P0.
Definition kap : R := vsum nd (fun d => u0 d * u0 d) / 2.

Definition mv (q : cons) : Prop := 0 < q_rho q /\ (forall k, q_m q k = q_rho q * u0 k) /\ q_E q = e0 + q_rho q * kap.

(** The flux of such a state, and of any combination of them. *)
Definition cf (d : nat) (F : flux) : Prop :=
  (forall k, f_m F k = f_rho F * u0 k + (if Nat.eqb k d then P0 else 0)) /\ f_E F = f_rho F * kap + u0 d * (e0 + P0).

Lemma mv_cons r : 0 < r -> to_cons nd e (mkPrim r u0 P0) = mkCons r (fun k => r * u0 k) (e0 + r * kap).
Proof.
  intros H. unfold to_cons, ek_prim, e0, kap. cbn [p_rho p_u p_P]. f_equal.
  rewrite (Hev r 1) by lra. unfold Rdiv. ring.
Qed.

Lemma mv_to_cons q : mv q <-> 0 < q_rho q /\ q = to_cons nd e (mkPrim (q_rho q) u0 P0).
Proof.
  split.
  - intros (H & H1 & H2). split; [exact H|]. rewrite mv_cons by assumption. apply cons_ext; cbn; auto.
  - intros [H E]. rewrite mv_cons in E by assumption. split; [exact H|]. split.
    + intros k. exact (f_equal (fun q => q_m q k) E).
    + exact (f_equal q_E E).
Qed.

Lemma mv_prim q : mv q -> to_prim nd e q = mkPrim (q_rho q) u0 P0.
Proof.
  intros Hq. destruct (proj1 (mv_to_cons q) Hq) as [H E].
  transitivity (to_prim nd e (to_cons nd e (mkPrim (q_rho q) u0 P0))); [now rewrite <- E|].
  apply to_prim_to_cons; auto. now split.
Qed.

Lemma mv_valid q : mv q -> valid_cons nd q.
Proof.
  intros Hq. destruct (proj1 (mv_to_cons q) Hq) as [H E]. rewrite E. apply valid_to_cons; auto. now split.
Qed.

Lemma cf_prim r d : 0 < r -> cf d (flux_prim nd e (mkPrim r u0 P0) d).
Proof.
  intros H. split; cbn [flux_prim f_rho f_m f_E p_rho p_u p_P].
  - intros k. ring.
  - unfold ek_prim, kap, e0. cbn [p_rho p_u]. rewrite (Hev r 1) by lra. unfold Rdiv. ring.
Qed.

(** Left and right waves of two such states. *)
Let cs r := eos_sound e r P0.
Lemma cs_pos r : 0 < r -> 0 < cs r.
Proof. intros H. now apply (law_sound_pos e He). Qed.

Lemma waves_mv rL rR d : 0 < rL -> 0 < rR ->
  wave_L e (mkPrim rL u0 P0) (mkPrim rR u0 P0) d < u0 d < wave_R e (mkPrim rL u0 P0) (mkPrim rR u0 P0) d.
Proof.
  intros HL HR. unfold wave_L, wave_R. cbn [p_u p_rho p_P]. pose proof (cs_pos _ HL) as A. pose proof (cs_pos _ HR) as B.
  unfold cs in *. split.
  - apply Rle_lt_trans with (u0 d - eos_sound e rL P0); [apply Rmin_l|lra].
  - apply Rlt_le_trans with (u0 d + eos_sound e rL P0); [lra|apply Rmax_l].
Qed.

Lemma cf_hll qL qR d : mv qL -> mv qR -> cf d (hll nd e qL qR d).
Proof.
  intros HL HR. unfold hll. rewrite (mv_prim _ HL), (mv_prim _ HR). cbv zeta.
  destruct HL as (L1 & L2 & L3). destruct HR as (R1 & R2 & R3).
  pose proof (waves_mv _ _ d L1 R1) as [W1 W2].
  destruct (cf_prim (q_rho qL) d L1) as [A1 A2]. destruct (cf_prim (q_rho qR) d R1) as [B1 B2].
  set (fL := flux_prim nd e (mkPrim (q_rho qL) u0 P0) d) in *. set (fR := flux_prim nd e (mkPrim (q_rho qR) u0 P0) d) in *.
  set (wl := wave_L _ _ _ _) in *. set (wr := wave_R _ _ _ _) in *.
  assert (HW : Rmax wr 0 - Rmin wl 0 > 0).
  { unfold Rmax, Rmin. destruct (Rle_dec wr 0), (Rle_dec wl 0); lra. }
  split; cbn [f_rho f_m f_E]; [intros k|]; unfold flux_hll.
  - rewrite A1, B1, L2, R2. field. lra.
  - rewrite A2, B2, L3, R3. field. lra.
Qed.

(** The contact solver keeps the side the flow comes from. *)
Lemma hllc_mv qL qR d : mv qL -> mv qR -> hllc nd e qL qR d = flux_prim nd e (mkPrim (if rltb 0 (u0 d) then q_rho qL else q_rho qR) u0 P0) d.
Proof.
  intros HL HR. unfold hllc. rewrite (mv_prim _ HL), (mv_prim _ HR). cbv zeta. cbn [p_rho p_u p_P].
  destruct HL as (L1 & L2 & L3). destruct HR as (R1 & R2 & R3).
  pose proof (waves_mv _ _ d L1 R1) as [W1 W2].
  set (wl := wave_L _ _ _ _) in *. set (wr := wave_R _ _ _ _) in *.
  assert (N1 : q_rho qL * (wl - u0 d) < 0) by nra. assert (N2 : 0 < q_rho qR * (wr - u0 d)) by nra.
  assert (Eu : (P0 - P0 + q_rho qL * (wl - u0 d) * u0 d - q_rho qR * (wr - u0 d) * u0 d) / (q_rho qL * (wl - u0 d) - q_rho qR * (wr - u0 d)) = u0 d).
  { field. lra. }
  rewrite !Eu.
  replace (1 / 2 * (P0 + P0 + q_rho qL * (wl - u0 d) * (u0 d - u0 d) + q_rho qR * (wr - u0 d) * (u0 d - u0 d))) with P0 by field.
  assert (Side : forall (S : R) (qs : cons), 0 < q_rho qs -> S - u0 d <> 0 -> q_E qs = e0 + q_rho qs * kap ->
    mkFlux (flux_hllc (f_rho (flux_prim nd e (mkPrim (q_rho qs) u0 P0) d)) (q_rho qs) (q_rho qs * (S - u0 d) / (S - u0 d)) S)
      (fun d0 => if Nat.eqb d0 d then q_rho qs * (S - u0 d) / (S - u0 d) * u0 d * u0 d + P0
                 else q_rho qs * (S - u0 d) / (S - u0 d) * u0 d * u0 d0)
      (flux_hllc (f_E (flux_prim nd e (mkPrim (q_rho qs) u0 P0) d)) (q_E qs)
         ((S - u0 d) / (S - u0 d) * q_E qs + (u0 d - u0 d) / (S - u0 d) * (u0 d * q_rho qs * (S - u0 d) + P0)) S)
    = flux_prim nd e (mkPrim (q_rho qs) u0 P0) d).
  { intros S qs Hq HS HE. unfold flux_prim, flux_hllc. cbv zeta. cbn [f_rho f_E p_rho p_u p_P]. f_equal.
    - field. exact HS.
    - apply functional_extensionality. intros k. destruct (Nat.eqb_spec k d) as [->|_]; field; exact HS.
    - set (X := u0 d * (ek_prim nd _ + _ + P0)). clearbody X. field. exact HS. }
  destruct (rltb 0 (wl * wr)); destruct (rltb 0 (u0 d)); try reflexivity; cbn [p_u p_P p_rho].
  - apply Side; auto; lra.
  - apply Side; auto; lra.
Qed.

Lemma lowmach_mv qL qR d : mv qL -> mv qR -> splitting nd e qL qR d = flux_prim nd e (mkPrim (if rltb 0 (u0 d) then q_rho qL else q_rho qR) u0 P0) d.
Proof.
  intros HL HR. unfold splitting. rewrite (mv_prim _ HL), (mv_prim _ HR). cbv zeta. cbn [p_rho p_u p_P].
  destruct HL as (L1 & L2 & L3). destruct HR as (R1 & R2 & R3).
  rewrite !(Rminus_diag_eq P0 P0), !Rmult_0_r, !Rminus_0_r by reflexivity.
  replace ((u0 d + u0 d) / 2) with (u0 d) by field.
  rewrite !(Rminus_diag_eq (u0 d) (u0 d)), !Rmult_0_r, !Rminus_0_r by reflexivity.
  replace ((P0 + P0) / 2) with P0 by field.
  assert (Side : forall (qs : cons), mv qs -> mkFlux (u0 d * q_rho qs) (fun k => u0 d * q_m qs k + (if Nat.eqb k d then P0 else 0)) (u0 d * q_E qs + P0 * u0 d)
    = flux_prim nd e (mkPrim (q_rho qs) u0 P0) d).
  { intros qs (Q1 & Q2 & Q3). unfold flux_prim, ek_prim. cbn [p_rho p_u p_P]. f_equal; [ring| |].
    - apply functional_extensionality. intros k. rewrite Q2. ring.
    - rewrite Q3, (Hev (q_rho qs) 1) by lra. unfold e0, kap. unfold Rdiv. ring. }
  destruct (rltb 0 (u0 d)); apply Side; repeat split; auto.
Qed.

Lemma cf_riemann s qL qR d : mv qL -> mv qR -> cf d (riemann s nd e qL qR d).
Proof.
  intros HL HR. destruct s; cbn [riemann].
  - now apply cf_hll.
  - rewrite hllc_mv by assumption. apply cf_prim. destruct (rltb 0 (u0 d)); [apply HL|apply HR].
  - rewrite lowmach_mv by assumption. apply cf_prim. destruct (rltb 0 (u0 d)); [apply HL|apply HR].
Qed.

(** Differences of such fluxes through equal faces. *)
Lemma cf_diff m dt c d FL FR : (d < 3)%nat -> cf d FL -> cf d FR ->
  (forall k, flux_diff Cartesian nd m dt c d (f_m FL k) (f_m FR k) = u0 k * flux_diff Cartesian nd m dt c d (f_rho FL) (f_rho FR)) /\
  flux_diff Cartesian nd m dt c d (f_E FL) (f_E FR) = kap * flux_diff Cartesian nd m dt c d (f_rho FL) (f_rho FR).
Proof.
  intros Hd [A1 A2] [B1 B2]. unfold flux_diff.
  assert (E : ds Cartesian nd m (rindex d c) d = ds Cartesian nd m c d) by (apply cart_ds_rindex'; lia).
  rewrite E. split.
  - intros k. rewrite A1, B1. ring.
  - rewrite A2, B2. ring.
Qed.

Hypothesis Hnd3 : (nd <= 3)%nat.

Lemma mv_hancock m grav dt fp c side ipos : (forall d, grav c d = 0) -> (side < 2)%nat -> (ipos < nd)%nat ->
  (forall sd d, (sd < 2)%nat -> (d < nd)%nat -> exists r, 0 < r /\ fp sd d = mkPrim r u0 P0) ->
  0 < q_rho (hancock_cons Cartesian nd e m grav dt fp c side ipos) ->
  mv (hancock_cons Cartesian nd e m grav dt fp c side ipos).
Proof.
  intros Hg Hs Hi Hf Hpos. split; [exact Hpos|].
  destruct (Hf side ipos Hs Hi) as (r & Hr & Ef).
  assert (D : forall d, (d < nd)%nat ->
    (forall k, flux_diff Cartesian nd m dt c d (f_m (flux_prim nd e (fp 0%nat d) d) k) (f_m (flux_prim nd e (fp 1%nat d) d) k)
               = u0 k * flux_diff Cartesian nd m dt c d (f_rho (flux_prim nd e (fp 0%nat d) d)) (f_rho (flux_prim nd e (fp 1%nat d) d))) /\
    flux_diff Cartesian nd m dt c d (f_E (flux_prim nd e (fp 0%nat d) d)) (f_E (flux_prim nd e (fp 1%nat d) d))
               = kap * flux_diff Cartesian nd m dt c d (f_rho (flux_prim nd e (fp 0%nat d) d)) (f_rho (flux_prim nd e (fp 1%nat d) d))).
  { intros d Hd. destruct (Hf 0%nat d ltac:(lia) Hd) as (ra & Ha & Ea). destruct (Hf 1%nat d ltac:(lia) Hd) as (rb & Hb & Eb).
    rewrite Ea, Eb. apply cf_diff; [lia|now apply cf_prim|now apply cf_prim]. }
  set (Sr := vsum nd (fun d => flux_diff Cartesian nd m dt c d (f_rho (flux_prim nd e (fp 0%nat d) d)) (f_rho (flux_prim nd e (fp 1%nat d) d)))).
  assert (Er : q_rho (hancock_cons Cartesian nd e m grav dt fp c side ipos) = r + Sr).
  { unfold hancock_cons. cbn [q_rho]. now rewrite Ef. }
  rewrite Er. unfold hancock_cons. cbn [q_m q_E]. rewrite Ef, mv_cons by assumption. cbn [q_rho q_m q_E].
  split.
  - intros k. rewrite Hg.
    rewrite (vsum_ext nd _ (fun d => u0 k * flux_diff Cartesian nd m dt c d (f_rho (flux_prim nd e (fp 0%nat d) d)) (f_rho (flux_prim nd e (fp 1%nat d) d)))).
    2:{ intros d Hd. rewrite (proj1 (D d Hd)). unfold geo_source. ring. }
    rewrite vsum_scal. fold Sr. ring.
  - rewrite (vsum_ext nd _ (fun d => kap * flux_diff Cartesian nd m dt c d (f_rho (flux_prim nd e (fp 0%nat d) d)) (f_rho (flux_prim nd e (fp 1%nat d) d)))).
    2:{ intros d Hd. rewrite (proj2 (D d Hd)), Hg. ring. }
    rewrite vsum_scal. fold Sr. ring.
Qed.

Lemma mv_godunov s m grav dt a r c : (forall d, grav c d = 0) -> mv (cons_of (a c)) ->
  (forall d, (d < nd)%nat -> mv (r_q r c 0%nat d) /\ mv (r_q r c 1%nat d) /\
     mv (r_q r (lindex d c) 1%nat d) /\ mv (r_q r (rindex d c) 0%nat d)) ->
  0 < god_rho Cartesian nd e s m dt a r c ->
  mv (cons_of (god_cell Cartesian nd e s m grav dt a r c)).
Proof.
  intros Hg (H1 & H2 & H3) Hr Hpos. cbn [cons_of q_rho q_m q_E] in *.
  split; [exact Hpos|]. cbn [cons_of god_cell c_rho c_rhou c_E q_rho q_m q_E].
  assert (D : forall d, (d < nd)%nat ->
    (forall k, flux_diff Cartesian nd m dt c d (f_m (flux_left s nd e r c d) k) (f_m (flux_right s nd e r c d) k)
               = u0 k * flux_diff Cartesian nd m dt c d (f_rho (flux_left s nd e r c d)) (f_rho (flux_right s nd e r c d))) /\
    flux_diff Cartesian nd m dt c d (f_E (flux_left s nd e r c d)) (f_E (flux_right s nd e r c d))
               = kap * flux_diff Cartesian nd m dt c d (f_rho (flux_left s nd e r c d)) (f_rho (flux_right s nd e r c d))).
  { intros d Hd. destruct (Hr d Hd) as (A1 & A2 & A3 & A4). apply cf_diff; [lia|now apply cf_riemann|now apply cf_riemann]. }
  unfold god_rho, god_rhou, god_E.
  set (Sr := vsum nd (fun d => flux_diff Cartesian nd m dt c d (f_rho (flux_left s nd e r c d)) (f_rho (flux_right s nd e r c d)))).
  split.
  - intros k. rewrite Hg.
    rewrite (vsum_ext nd _ (fun d => u0 k * flux_diff Cartesian nd m dt c d (f_rho (flux_left s nd e r c d)) (f_rho (flux_right s nd e r c d)))).
    2:{ intros d Hd. rewrite (proj1 (D d Hd)). unfold geo_source. ring. }
    rewrite vsum_scal. fold Sr. rewrite H2. ring.
  - rewrite (vsum_ext nd _ (fun d => kap * flux_diff Cartesian nd m dt c d (f_rho (flux_left s nd e r c d)) (f_rho (flux_right s nd e r c d)))).
    2:{ intros d Hd. rewrite (proj2 (D d Hd)), Hg. ring. }
    rewrite vsum_scal. fold Sr. rewrite H3. ring.
Qed.
End Local.

(** ** Whole runs *)
Section Run.
Context (K : config) (N dims : idx) (X : nat -> arr1) (L : layout) (u0 : vec) (P0 : R).
Hypothesis HR : runs_on K N dims X L.
Hypothesis He : lawful_eos (k_eos K).
Hypothesis Hev : energy_of_pressure (k_eos K).
Hypothesis HP0 : 0 < P0.
Hypothesis Hgeo : k_geom K = Cartesian.
Hypothesis Hpf : k_pf K = None.
Hypothesis Huser : k_user K = UOff.
Hypothesis Hgrav : weightless K.
Hypothesis Hrefl : forall f, (f < 2 * k_nd K)%nat -> k_bcs K f = Reflexive -> u0 (f / 2)%nat = 0.
Notation nd := (k_nd K).
Notation ng := (k_ng K).
Notation vr := (process nd dims).
Notation own r := (owned nd ng (d_nloc (l_dec L r))).
Notation arr r := (in_array (d_nwg (l_dec L r))).
Notation mvc x := (mv nd (k_eos K) u0 P0 (cons_of x)).
Let HL := ro_layout HR.
Let HD := lo_dec HL.
Let Hnd : (1 <= nd <= 3)%nat := dcp_nd HD.

(** The invariant, with a property [B] of the densities. *)
Section Inv.
Variable B : R -> Prop.

Definition adv_state (S : idx -> pstate) : Prop :=
  forall r c, vr r -> arr r c -> mvc (s_cell (S r) c) /\ B (c_rho (s_cell (S r) c)) /\
    (forall k, s_u (S r) c k = u0 k) /\ s_P (S r) c = P0 /\ (forall j, s_grav (S r) c j = 0).

Lemma adv_negate f x : (f < 2 * nd)%nat -> k_bcs K f = Reflexive -> mvc x /\ B (c_rho x) ->
  mvc (negate_momentum (f / 2) x) /\ B (c_rho (negate_momentum (f / 2) x)).
Proof.
  intros Hf Hb [(H1 & H2 & H3) H4]. split; [|exact H4]. split; [exact H1|]. split; [|exact H3].
  cbn [cons_of q_m q_rho] in *. intros k. cbn [negate_momentum c_rhou c_rho]. destruct (Nat.eqb_spec k (f / 2)) as [->|_]; [|apply H2].
  rewrite H2, (Hrefl f Hf Hb). ring.
Qed.

Lemma adv_finish A rec new S : (forall r c, vr r -> arr r c -> mvc (A r c) /\ B (c_rho (A r c))) -> adv_state (finish K L A rec new S).
Proof.
  intros HA r c Hr Hc. destruct (HA r c Hr Hc) as [H1 H2].
  pose proof (proj2 (sel_array _ _ _ _ _ _ _ HL Hr) Hc) as Hs.
  cbn [finish s_cell s_u s_P s_grav conv_cons_to_prim fst snd]. unfold kwrite. rewrite Hs.
  change (mkCons (c_rho (A r c)) (c_rhou (A r c)) (c_E (A r c))) with (cons_of (A r c)).
  rewrite (mv_prim nd (k_eos K) u0 P0 He Hev HP0 _ H1).
  split; [exact H1|]. split; [exact H2|]. split; [reflexivity|]. split; [reflexivity|].
  intros j. destruct Hgrav as (g & Eg & Hg). unfold gravity_values. rewrite Eg. apply Hg.
Qed.

Lemma adv_face S r c sd k : adv_state S -> vr r -> sel K L 1 r c = true -> (k < nd)%nat ->
  face_prim (k_lim K) (l_mesh L r) (fun c => c_rho (s_cell (S r) c)) (s_u (S r)) (s_P (S r)) c sd k
  = mkPrim (face_value (k_lim K) (l_mesh L r) (fun c => c_rho (s_cell (S r) c)) c sd k) u0 P0.
Proof.
  intros HS Hr Hs Hk.
  assert (H0 : forall x, in_stencil nd c x -> (forall j, s_u (S r) x j = u0 j) /\ s_P (S r) x = P0).
  { intros x Hx. destruct (HS r x Hr (stencil_array K N dims X L HL (ro_ng HR) r c x Hr Hs Hx)) as (_ & _ & A2 & A3 & _). auto. }
  destruct (H0 c (or_introl eq_refl)) as (A2 & A3).
  destruct (H0 _ (st_l K c k Hk)) as (B2 & B3).
  destruct (H0 _ (st_r K c k Hk)) as (C2 & C3).
  unfold face_prim. apply prim_ext; cbn [p_rho p_u p_P]; intros; try reflexivity; rewrite faces_constant; try lia; congruence.
Qed.

Definition pos_faces (dt : R) (S : idx -> pstate) (r : idx) : Prop :=
  forall c sd k, sel K L 1 r c = true -> (sd < 2)%nat -> (k < nd)%nat ->
    0 < face_value (k_lim K) (l_mesh L r) (fun c => c_rho (s_cell (S r) c)) c sd k /\
    0 < q_rho (r_q (step_rec K L dt S r) c sd k).

Lemma adv_rec S r c sd k dt : adv_state S -> pos_faces dt S r ->
  vr r -> sel K L 1 r c = true -> (sd < 2)%nat -> (k < nd)%nat ->
  mv nd (k_eos K) u0 P0 (r_q (step_rec K L dt S r) c sd k).
Proof.
  intros HS Hp Hr Hs Hsd Hk.
  pose proof (proj2 (Hp c sd k Hs Hsd Hk)) as H0. revert H0.
  unfold step_rec. cbn [hydro_reconstruction r_q]. unfold kwrite. rewrite Hs, Hgeo. intros H0.
  destruct (HS r c Hr (sel1_array K N dims X L HL (ro_ng HR) r c Hr Hs)) as (_ & _ & _ & _ & Hg0).
  apply (mv_hancock nd (k_eos K) u0 P0 Hev HP0); auto; [lia|].
  intros sd' d Hsd' Hd. exists (face_value (k_lim K) (l_mesh L r) (fun c => c_rho (s_cell (S r) c)) c sd' d).
  split; [exact (proj1 (Hp c sd' d Hs Hsd' Hd))|]. now apply adv_face.
Qed.

Lemma adv_owned S t dt r c : adv_state S -> positive_densities K dims L dt S -> vr r -> own r c ->
  mvc (step_user K L t dt S r c) /\ c_rho (step_user K L t dt S r c) = c_rho (step_godunov K L dt S r c).
Proof.
  intros HS Hpos Hr Hc. pose proof (proj2 (sel_owned _ _ _ _ _ _ _ HL Hr) Hc) as Hs.
  destruct (Hpos r Hr) as [_ Hp]. specialize (Hp c Hc). revert Hp.
  unfold step_user, user_step. rewrite kwrite_in by assumption. rewrite Huser. cbn [user_cell].
  unfold step_pf. rewrite Hpf. intros Hp. split; [|reflexivity]. revert Hp.
  unfold step_godunov, godunov. rewrite kwrite_in by assumption. rewrite Hgeo. intros Hp.
  destruct (HS r c Hr (owned_in_array K N dims X L HL r c Hr Hc)) as (Hu & _ & _ & _ & Hg0).
  apply (mv_godunov nd (k_eos K) u0 P0 He Hev HP0); auto; [lia|].
  intros d Hd. split; [|split; [|split]]; apply adv_rec; auto; try lia; try exact (proj1 (Hpos r Hr));
    apply (owned_sel1 K N dims X L HL r c _ Hr Hc); [now left|now left|now apply st_l|now apply st_r].
Qed.

Lemma adv_step S t dt : adv_state S -> positive_densities K dims L dt S ->
  (forall r c, vr r -> own r c -> B (c_rho (step_godunov K L dt S r c))) -> adv_state (full_step K L t dt S).
Proof.
  intros HS Hpos HB. unfold full_step. apply adv_finish.
  apply (bcs_all K N dims X L HL (fun x => mvc x /\ B (c_rho x))); [exact (ro_thick HR)|exact (ro_faces HR)| |].
  - intros f x. apply adv_negate.
  - intros r c Hr Hc. destruct (adv_owned S t dt r c HS Hpos Hr Hc) as [A1 A2]. split; [exact A1|]. rewrite A2. now apply HB.
Qed.

Lemma adv_init G S : starts_from K dims L G S -> carried_fields u0 P0 G -> (forall c, B (g_rho G c)) -> adv_state (init_state K L S).
Proof.
  intros H HG HB. unfold init_state. apply adv_finish.
  apply (bcs_all K N dims X L HL (fun x => mvc x /\ B (c_rho x))); [exact (ro_thick HR)|exact (ro_faces HR)| |].
  - intros f x. apply adv_negate.
  - intros r c Hr Hc. pose proof (proj2 (sel_owned _ _ _ _ _ _ _ HL Hr) Hc) as Hs.
    unfold init_cons. cbn [conv_prim_to_cons fst snd]. unfold kwrite. rewrite Hs.
    pose proof (sf_rho H r Hr c Hc) as A1. pose proof (sf_u H r Hr c Hc) as A3. pose proof (sf_P H r Hr c Hc) as A4. cbn beta in *.
    match goal with |- context [g_rho G ?x] => set (x_ := x) in * | _ => idtac end.
    assert (Ep : mkPrim (c_rho (s_cell (S r) c)) (s_u (S r) c) (s_P (S r) c) = mkPrim (c_rho (s_cell (S r) c)) u0 P0).
    { apply prim_ext; cbn; [reflexivity|intros k; rewrite A3; apply HG|rewrite A4; apply HG]. }
    rewrite Ep. cbn [c_rho].
    assert (Hp : 0 < c_rho (s_cell (S r) c)) by (rewrite A1; apply HG).
    split; [|rewrite A1; apply HB].
    apply (mv_to_cons nd (k_eos K) u0 P0 Hev HP0). split; [exact Hp|]. cbn [cons_of q_rho c_rho]. reflexivity.
Qed.

Lemma adv_carried S : adv_state S -> carried K dims L u0 P0 S.
Proof.
  intros H r c Hr Hc. destruct (H r c Hr Hc) as ((A1 & A2 & A3) & _ & A4 & A5 & _). cbn [cons_of q_rho q_m q_E] in *. cbv zeta.
  split; [exact A1|]. split; [exact A2|]. split; [|split; [exact A4|exact A5]].
  rewrite A3. unfold e0, kap. rewrite (Hev 1 (c_rho (s_cell (S r) c))) by lra.
  rewrite (vsum_ext nd (fun d => u0 d ^ 2) (fun d => u0 d * u0 d)) by (intros; ring). unfold Rdiv. ring.
Qed.
End Inv.

Lemma carried_run ts : forall S, adv_state (fun _ => True) S -> positive_run K dims L ts S ->
  adv_state (fun _ => True) (run K L ts S).
Proof.
  induction ts as [|[t dt] ts IH]; intros S HS HP; [exact HS|]. destruct HP as [H1 H2]. cbn [run fold_left fst snd].
  apply IH; [|exact H2]. now apply adv_step.
Qed.

Lemma carried_from G S ts : starts_from K dims L G S -> carried_fields u0 P0 G ->
  positive_run K dims L ts (init_state K L S) -> carried K dims L u0 P0 (run K L ts (init_state K L S)).
Proof.
  intros HS HG HP. apply (adv_carried (fun _ => True)), carried_run; [|exact HP]. now apply (adv_init (fun _ => True) G).
Qed.
End Run.
