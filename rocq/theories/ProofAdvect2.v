(** * Density bounds in a uniform flow (C77). *)
From Coq Require Import FunctionalExtensionality ZifyBool ZifyNat Lra Psatz.
From Verif Require Import Base RBase ModelMesh ModelGeom ModelBoundary ModelHydro ModelScheme ModelStep
  SpecMesh SpecBoundary SpecHydro SpecScheme SpecStep SpecAdvect
  ProofBase ProofMesh ProofR ProofBoundary ProofBoundary2 ProofHydro ProofHydro2 ProofScheme ProofMirror ProofShift ProofReduce ProofStep ProofSteady
  ProofCfl ProofPos2 ProofAdvect.
Local Open Scope R_scope.

(** ** Real lemmas *)
Lemma abs_cases x b k : 0 <= k -> Rabs x <= k * Rabs b -> 0 <= x * b -> (0 <= b -> 0 <= x <= k * b) /\ (b <= 0 -> k * b <= x <= 0).
Proof.
  intros Hk. unfold Rabs. destruct (Rcase_abs x), (Rcase_abs b); intros H1 H2; split; intros; split; nra.
Qed.

Lemma slope_right l a b : (0 <= b -> 0 <= slope l a b <= 2 * b) /\ (b <= 0 -> 2 * b <= slope l a b <= 0).
Proof.
  destruct (slope_abs l a b) as (H1 & _ & _ & H4). apply abs_cases; [lra| |exact H4].
  eapply Rle_trans; [exact H1|]. apply Rmult_le_compat_l; [lra|apply Rmin_r].
Qed.
Lemma slope_left l a b : (0 <= a -> 0 <= slope l a b <= 2 * a) /\ (a <= 0 -> 2 * a <= slope l a b <= 0).
Proof. rewrite slope_sym. apply slope_right. Qed.

(** The update of a limited profile stays between the cell and its upwind neighbour. *)
Lemma harten nu D s s' : 0 <= nu <= 1 ->
  (0 <= D -> 0 <= s <= 2 * D) -> (D <= 0 -> 2 * D <= s <= 0) ->
  (0 <= D -> 0 <= s' <= 2 * D) -> (D <= 0 -> 2 * D <= s' <= 0) ->
  exists k, 0 <= k <= 1 /\ nu * (D + (1 - nu) / 2 * (s - s')) = k * D.
Proof.
  intros Hn S1 S2 T1 T2.
  destruct (Req_dec D 0) as [-> |HD].
  - exists 0. split; [lra|]. destruct (S1 ltac:(lra)), (T1 ltac:(lra)). replace s with 0 by lra. replace s' with 0 by lra. ring.
  - exists (nu * (1 + (1 - nu) / 2 * (s / D - s' / D))). split; [|field; exact HD].
    assert (A : 0 <= s / D <= 2 /\ 0 <= s' / D <= 2).
    { destruct (Rlt_dec 0 D) as [Hp|Hp].
      - destruct (S1 ltac:(lra)), (T1 ltac:(lra)).
        assert (B : forall x, 0 <= x -> x <= 2 * D -> 0 <= x / D <= 2).
        { intros x X1 X2. split; [apply Rmult_le_pos; [lra|left; now apply Rinv_0_lt_compat]|].
          apply (Rmult_le_reg_r D); [exact Hp|]. unfold Rdiv. rewrite Rmult_assoc, Rinv_l by lra. lra. }
        split; apply B; lra.
      - assert (Hm : 0 < - D) by lra. destruct (S2 ltac:(lra)), (T2 ltac:(lra)).
        assert (B : forall x, x <= 0 -> 2 * D <= x -> 0 <= x / D <= 2).
        { intros x X1 X2. replace (x / D) with ((- x) / (- D)) by (field; lra).
          split; [apply Rmult_le_pos; [lra|left; now apply Rinv_0_lt_compat]|].
          apply (Rmult_le_reg_r (- D)); [exact Hm|]. unfold Rdiv. rewrite Rmult_assoc, Rinv_l by lra. lra. }
        split; apply B; lra. }
    set (x := s / D) in *. set (y := s' / D) in *. clearbody x y. clear - Hn A.
    assert (E : - (1 - nu) <= (1 - nu) / 2 * (x - y) <= 1 - nu) by nra. nra.
Qed.

(** Half-step face values. *)
Lemma slope_average l a b : Rabs (slope l a b) <= (Rabs a + Rabs b) / 2.
Proof.
  assert (P : forall a b, 0 < a -> 0 < b -> 0 <= slope l a b <= (a + b) / 2).
  { intros x y Hx Hy. destruct (slope_bounds l x y Hx Hy) as ((H1 & _) & _ & _). split; [exact H1|].
    destruct l; cbn [slope].
    - lra.
    - rewrite van_leer_form by nra. apply (Rmult_le_reg_r (x + y)); [lra|]. unfold Rdiv at 1. rewrite Rmult_assoc, Rinv_l by lra.
      pose proof (Rle_0_sqr (x - y)). unfold Rsqr in *. nra.
    - rewrite minmod_form by assumption. unfold Rmin. destruct (Rle_dec x y); lra.
    - rewrite van_albada_form by nra. apply (Rmult_le_reg_r (x * x + y * y)); [nra|]. unfold Rdiv at 1. rewrite Rmult_assoc, Rinv_l by nra.
      pose proof (Rle_0_sqr (x - y)). unfold Rsqr in *. nra. }
  destruct (Rlt_dec 0 (a * b)) as [H|H].
  2:{ rewrite slope_opposite by lra. rewrite Rabs_R0. pose proof (Rabs_pos a). pose proof (Rabs_pos b). lra. }
  destruct (Rlt_dec 0 a) as [Ha|Ha].
  - assert (Hb : 0 < b) by nra. pose proof (P a b Ha Hb). rewrite !Rabs_pos_eq by lra. lra.
  - destruct (same_sign_neg a b H Ha) as [Ha' Hb]. pose proof (P (- a) (- b) Ha' Hb) as Q. rewrite slope_odd in Q.
    rewrite !Rabs_left1 by lra. lra.
Qed.

Lemma van_albada_bound a b : Rabs (slope LVanAlbada a b) <= 5 / 4 * Rmin (Rabs a) (Rabs b).
Proof.
  assert (P : forall a b, 0 < a -> 0 < b -> 0 <= slope LVanAlbada a b <= 5 / 4 * b).
  { intros x y Hx Hy. destruct (slope_bounds LVanAlbada x y Hx Hy) as ((H1 & _) & _ & _). split; [exact H1|].
    cbn [slope]. rewrite van_albada_form by nra.
    apply (Rmult_le_reg_r (x * x + y * y)); [nra|]. unfold Rdiv at 1. rewrite Rmult_assoc, Rinv_l by nra.
    assert (Q : x * (x + y) <= 5 / 4 * (x * x + y * y)) by (pose proof (Rle_0_sqr (x - 2 * y)); unfold Rsqr in *; nra).
    apply (Rmult_le_compat_l y) in Q; [|lra]. nra. }
  destruct (Rlt_dec 0 (a * b)) as [H|H].
  2:{ rewrite slope_opposite by lra. rewrite Rabs_R0. apply Rmult_le_pos; [lra|]. apply Rmin_case; apply Rabs_pos. }
  destruct (Rlt_dec 0 a) as [Ha|Ha].
  - assert (Hb : 0 < b) by nra. pose proof (P a b Ha Hb). pose proof (P b a Hb Ha) as Q. rewrite slope_sym in Q.
    rewrite !Rabs_pos_eq by lra. apply Rmin_case; lra.
  - destruct (same_sign_neg a b H Ha) as [Ha' Hb].
    pose proof (P (- a) (- b) Ha' Hb) as Q. pose proof (P (- b) (- a) Hb Ha') as Q'. rewrite slope_sym in Q'. rewrite slope_odd in Q, Q'.
    rewrite !Rabs_left1 by lra. apply Rmin_case; lra.
Qed.

Lemma half_step_positive l nu lo hi v vm vp s : 0 < lo -> safe_limiter l nu lo hi -> nu <= 1 ->
  lo <= v <= hi -> lo <= vm <= hi -> lo <= vp <= hi -> Rabs s <= (1 + nu) / 2 ->
  0 < v + s * slope l (vp - v) (v - vm).
Proof.
  intros Hlo Hsafe Hnu V Vm Vp Hs.
  set (sg := slope l (vp - v) (v - vm)).
  assert (G : hi < 3 * lo -> 0 < v + s * sg).
  { intros Hh.
    assert (A : Rabs sg <= (hi - lo) / 2).
    { destruct (Rlt_dec 0 ((vp - v) * (v - vm))) as [H|H].
      - eapply Rle_trans; [apply slope_average|]. unfold Rabs. destruct (Rcase_abs (vp - v)), (Rcase_abs (v - vm)); nra.
      - unfold sg. rewrite slope_opposite by lra. rewrite Rabs_R0. lra. }
    assert (C : Rabs (s * sg) <= (hi - lo) / 2).
    { rewrite Rabs_mult. pose proof (Rabs_pos s). pose proof (Rabs_pos sg). nra. }
    pose proof (Rle_abs (- (s * sg))) as Q. rewrite Rabs_Ropp in Q. lra. }
  assert (F : forall b, 0 <= b -> (1 + nu) / 2 * b <= 1 -> Rabs sg <= b * Rmin (Rabs (vp - v)) (Rabs (v - vm)) -> 0 < v + s * sg).
  { intros b Hb Hb1 Hsg.
    destruct (slope_right l (vp - v) (v - vm)) as [R1 R2]. destruct (slope_left l (vp - v) (v - vm)) as [L1 L2]. fold sg in R1, R2, L1, L2.
    assert (A : Rabs (s * sg) <= Rmin (Rabs (vp - v)) (Rabs (v - vm))).
    { rewrite Rabs_mult. pose proof (Rabs_pos s). pose proof (Rabs_pos sg).
      assert (0 <= Rmin (Rabs (vp - v)) (Rabs (v - vm))) by (apply Rmin_case; apply Rabs_pos).
      apply Rle_trans with ((1 + nu) / 2 * (b * Rmin (Rabs (vp - v)) (Rabs (v - vm)))); [apply Rmult_le_compat; assumption|].
      rewrite <- Rmult_assoc. nra. }
    pose proof (Rle_abs (- (s * sg))) as Q. rewrite Rabs_Ropp in Q.
    destruct (Rlt_dec 0 ((vp - v) * (v - vm))) as [H|H].
    - destruct (Rlt_dec 0 (v - vm)) as [P|P].
      + pose proof (Rmin_r (Rabs (vp - v)) (Rabs (v - vm))). rewrite (Rabs_pos_eq (v - vm)) in * by lra. lra.
      + assert (vp - v < 0) by nra. pose proof (Rmin_l (Rabs (vp - v)) (Rabs (v - vm))). rewrite (Rabs_left (vp - v)) in * by lra. lra.
    - assert (E : sg = 0) by (unfold sg; apply slope_opposite; lra). rewrite E. lra. }
  destruct l; cbn [safe_limiter] in Hsafe.
  - unfold sg. cbn [slope]. lra.
  - now apply G.
  - apply (F 1); [lra|lra|]. rewrite Rmult_1_l. destruct (slope_abs LMinmod (vp - v) (v - vm)) as (_ & H & _). now apply H.
  - destruct Hsafe as [Hc|Hh]; [|now apply G]. apply (F (5 / 4)); [lra|lra|]. apply van_albada_bound.
Qed.

(** Weighted means. *)
Lemma mean_bounds n (w x : nat -> R) v lo hi : (forall d, (d < n)%nat -> 0 <= w d) -> (forall d, (d < n)%nat -> lo <= x d <= hi) ->
  lo <= v <= hi -> vsum n w <= 1 -> lo <= v + vsum n (fun d => w d * (x d - v)) <= hi.
Proof.
  intros Hw Hx Hv Hs. pose proof (vsum_nonneg n w Hw) as H0.
  assert (A : vsum n (fun d => w d * (x d - v)) <= vsum n (fun d => (hi - v) * w d)).
  { apply vsum_le. intros d Hd. specialize (Hw d Hd). specialize (Hx d Hd). nra. }
  assert (B : vsum n (fun d => (lo - v) * w d) <= vsum n (fun d => w d * (x d - v))).
  { apply vsum_le. intros d Hd. specialize (Hw d Hd). specialize (Hx d Hd). nra. }
  rewrite (vsum_scal n (hi - v) w) in A. rewrite (vsum_scal n (lo - v) w) in B. nra.
Qed.

(** The mass flux of the contact solvers. *)
Lemma upwind_mass s nd e u0 P0 qL qR d : lawful_eos e -> energy_of_pressure e -> 0 < P0 -> contact_solver s ->
  mv nd e u0 P0 qL -> mv nd e u0 P0 qR ->
  f_rho (riemann s nd e qL qR d) = u0 d * (if rltb 0 (u0 d) then q_rho qL else q_rho qR).
Proof.
  intros He Hev HP [-> | ->] HL HR; cbn [riemann]; [rewrite (hllc_mv nd e u0 P0)|rewrite (lowmach_mv nd e u0 P0)]; auto; cbn [flux_prim f_rho p_rho p_u]; ring.
Qed.

Section Run.
Context (K : config) (N dims : idx) (X : nat -> arr1) (L : layout) (u0 : vec) (P0 lo hi nu : R).
Hypothesis HR : runs_on K N dims X L.
Hypothesis He : lawful_eos (k_eos K).
Hypothesis Hev : energy_of_pressure (k_eos K).
Hypothesis HP0 : 0 < P0.
Hypothesis HW : plain_flow K u0.
Hypothesis Hincr : increasing (k_nd K) N (k_ng K) X.
Hypothesis Hsol : contact_solver (k_sol K).
Hypothesis Hlo : 0 < lo.
Hypothesis Hnu : nu <= 1.
Notation nd := (k_nd K).
Notation ng := (k_ng K).
Notation vr := (process nd dims).
Notation own r := (owned nd ng (d_nloc (l_dec L r))).
Notation arr r := (in_array (d_nwg (l_dec L r))).
Notation adv := (adv_state K dims L u0 P0 (fun x => lo <= x <= hi)).
Let HL := ro_layout HR.
Let HD := lo_dec HL.
Let Hnd : (1 <= nd <= 3)%nat := dcp_nd HD.

Definition gentle (dt : R) : Prop := 0 <= dt /\
  forall r c, vr r -> arr r c -> dt * vsum nd (fun d => Rabs (u0 d) / width (k_geom K) (l_mesh L r) c d) <= nu.

Notation rr S dt r c sd d := (q_rho (r_q (step_rec K L dt S r) c sd d)).

Lemma mdx_pos r c d : vr r -> arr r c -> (d < 3)%nat -> 0 < mdx (l_mesh L r) d (coord d c).
Proof. exact (width_pos K N dims X L HR Hincr r c d). Qed.

Lemma rate_terms r c dt : gentle dt -> vr r -> arr r c ->
  (forall d, (d < nd)%nat -> 0 <= dt * Rabs (u0 d) / mdx (l_mesh L r) d (coord d c)) /\
  vsum nd (fun d => dt * Rabs (u0 d) / mdx (l_mesh L r) d (coord d c)) <= nu.
Proof.
  intros [H0 H1] Hr Hc. split.
  - intros d Hd. pose proof (mdx_pos r c d Hr Hc ltac:(lia)). pose proof (Rabs_pos (u0 d)).
    apply Rmult_le_pos; [nra|left; now apply Rinv_0_lt_compat].
  - specialize (H1 r c Hr Hc). rewrite (pw_geom HW) in H1.
    rewrite (vsum_ext nd _ (fun d => dt * (Rabs (u0 d) / width Cartesian (l_mesh L r) c d))), vsum_scal; [exact H1|].
    intros d Hd. rewrite (width_mdx K N dims X L HR r c d) by lia. unfold Rdiv. ring.
Qed.

(** The new density, when the reconstructed states carry the flow. *)
Lemma god_rho_upwind S dt r c : adv S -> pos_faces K L dt S r -> vr r -> own r c ->
  c_rho (step_godunov K L dt S r c)
  = c_rho (s_cell (S r) c) + vsum nd (fun d => dt * Rabs (u0 d) / mdx (l_mesh L r) d (coord d c)
      * (if rltb 0 (u0 d) then rr S dt r (lindex d c) 1%nat d - rr S dt r c 1%nat d
         else rr S dt r (rindex d c) 0%nat d - rr S dt r c 0%nat d)).
Proof.
  intros HS Hpos Hr Hc. pose proof (proj2 (sel_owned _ _ _ _ _ _ _ HL Hr) Hc) as Hs.
  unfold step_godunov, godunov. rewrite kwrite_in by assumption. rewrite (pw_geom HW). cbn [god_cell c_rho]. unfold god_rho. f_equal.
  pose proof (owned_in_array K N dims X L HL r c Hr Hc) as Ha.
  apply vsum_ext. intros d Hd. rewrite (cart_rate nd (l_mesh L r) dt c ltac:(lia) ltac:(intros; now apply mdx_pos)) by lia.
  assert (Hrec : forall x sd, in_stencil nd c x -> (sd < 2)%nat -> mv nd (k_eos K) u0 P0 (r_q (step_rec K L dt S r) x sd d)).
  { intros x sd Hx Hsd. apply (adv_rec K N dims X L u0 P0 HR Hev HP0 (pw_geom HW) (pw_wall HW) (fun x => lo <= x <= hi)); auto.
    apply (owned_sel1 K N dims X L HL r c _ Hr Hc Hx). }
  unfold flux_left, flux_right, face_flux.
  rewrite !(upwind_mass _ _ _ u0 P0 _ _ _ He Hev HP0 Hsol) by
    (apply Hrec; try lia; first [now left|now apply st_l|now apply st_r]).
  pose proof (mdx_pos r c d Hr Ha ltac:(lia)) as W.
  destruct (rltb 0 (u0 d)) eqn:E.
  - apply rltb_true in E. rewrite (Rabs_pos_eq (u0 d)) by lra. field. lra.
  - apply rltb_false in E. rewrite (Rabs_left1 (u0 d)) by lra. field. lra.
Qed.

(** *** First order *)
Section First.
Hypothesis Hlim : k_lim K = LConstant.

Lemma first_rec S dt r c sd d : adv S -> vr r -> sel K L 1 r c = true -> (sd < 2)%nat -> (d < nd)%nat ->
  face_value (k_lim K) (l_mesh L r) (fun c => c_rho (s_cell (S r) c)) c sd d = c_rho (s_cell (S r) c) /\
  rr S dt r c sd d = c_rho (s_cell (S r) c).
Proof.
  intros HS Hr Hs Hsd Hd. rewrite Hlim, face_value_constant. split; [reflexivity|].
  unfold step_rec. cbn [hydro_reconstruction r_q]. unfold kwrite. rewrite Hs, (pw_geom HW).
  destruct (HS r c Hr (sel1_array K N dims X L HL (ro_ng HR) r c Hr Hs)) as (_ & _ & _ & _ & Hg0).
  rewrite (hancock_uniform nd (k_eos K) (l_mesh L r) (s_grav (S r)) (dt / 2) _ c sd d (mkPrim (c_rho (s_cell (S r) c)) u0 P0)); auto; [lia|].
  intros sd' d' Hsd' Hd'.
  rewrite (adv_face K N dims X L u0 P0 HR (pw_wall HW) (fun x => lo <= x <= hi)) by assumption.
  rewrite Hlim, face_value_constant. reflexivity.
Qed.

Lemma first_step S dt : adv S -> gentle dt -> positive_densities K dims L dt S /\
  (forall r c, vr r -> own r c -> lo <= c_rho (step_godunov K L dt S r c) <= hi).
Proof.
  intros HS Hdt.
  assert (Hb : (forall r c sd k, vr r -> sel K L 1 r c = true -> (sd < 2)%nat -> (k < nd)%nat ->
       0 < face_value (k_lim K) (l_mesh L r) (fun c => c_rho (s_cell (S r) c)) c sd k /\
       0 < q_rho (r_q (step_rec K L dt S r) c sd k))).
  { intros r c sd k Hr Hs Hsd Hk. destruct (first_rec S dt r c sd k HS Hr Hs Hsd Hk) as [-> ->].
    destruct (HS r c Hr (sel1_array K N dims X L HL (ro_ng HR) r c Hr Hs)) as (_ & H & _). lra. }
  assert (Hmain : forall r c, vr r -> own r c ->
    lo <= c_rho (s_cell (S r) c) + vsum nd (fun d => dt * Rabs (u0 d) / mdx (l_mesh L r) d (coord d c)
      * (if rltb 0 (u0 d) then rr S dt r (lindex d c) 1%nat d - rr S dt r c 1%nat d
         else rr S dt r (rindex d c) 0%nat d - rr S dt r c 0%nat d)) <= hi).
  { intros r c Hr Hc. pose proof (owned_in_array K N dims X L HL r c Hr Hc) as Ha.
    assert (Hst : forall x, in_stencil nd c x -> sel K L 1 r x = true) by (intros x Hx; apply (owned_sel1 K N dims X L HL r c _ Hr Hc Hx)).
    assert (Hin : forall x, in_stencil nd c x -> lo <= c_rho (s_cell (S r) x) <= hi).
    { intros x Hx. destruct (HS r x Hr (sel1_array K N dims X L HL (ro_ng HR) r x Hr (Hst x Hx))) as (_ & H & _). exact H. }
    rewrite (vsum_ext nd _ (fun d => dt * Rabs (u0 d) / mdx (l_mesh L r) d (coord d c)
      * ((if rltb 0 (u0 d) then c_rho (s_cell (S r) (lindex d c)) else c_rho (s_cell (S r) (rindex d c))) - c_rho (s_cell (S r) c)))).
    - destruct (rate_terms r c dt Hdt Hr Ha) as [T1 T2]. apply mean_bounds; auto.
      + intros d Hd. destruct (rltb 0 (u0 d)); apply Hin; [now apply st_l|now apply st_r].
      + apply Hin. now left.
      + lra.
    - intros d Hd. f_equal.
      assert (E : forall x sd, in_stencil nd c x -> (sd < 2)%nat -> rr S dt r x sd d = c_rho (s_cell (S r) x)).
      { intros x sd Hx Hsd. apply (first_rec S dt r x sd d HS Hr (Hst x Hx) Hsd Hd). }
      destruct (rltb 0 (u0 d)); rewrite !E; try lia; try reflexivity; first [now left|now apply st_l|now apply st_r]. }
  assert (Hgod : forall r c, vr r -> own r c -> lo <= c_rho (step_godunov K L dt S r c) <= hi).
  { intros r c Hr Hc. rewrite god_rho_upwind; [now apply Hmain|assumption| |assumption|assumption].
    intros c' sd k. now apply Hb. }
  split; [|exact Hgod]. intros r Hr. split; [intros; now apply Hb|].
  intros c Hc. specialize (Hgod r c Hr Hc). lra.
Qed.
End First.

(** *** Limited slopes, one dimension, regular mesh *)
Section Limited.
Variable h : R.
Hypothesis Hone : nd = 1%nat.
Hypothesis Hreg : regular_axis N ng X h.
Hypothesis Hsafe : safe_limiter (k_lim K) nu lo hi.

Lemma reg_mdx r c : vr r -> arr r c -> mdx (l_mesh L r) 0 (coord 0 c) = h.
Proof.
  intros Hr Hc. rewrite (local_width K N dims X L HR r _ 0%nat Hr) by lia.
  destruct (global_range K N dims X L HR r c 0%nat Hr Hc ltac:(lia)) as [G _]. rewrite (ghosts_lt nd ng 0) in G by lia.
  now apply (proj2 Hreg).
Qed.

Definition dlt (S : idx -> pstate) (r c : idx) : R := slope (k_lim K) (c_rho (s_cell (S r) (rindex 0 c)) - c_rho (s_cell (S r) c))
                                            (c_rho (s_cell (S r) c) - c_rho (s_cell (S r) (lindex 0 c))).

Lemma reg_face S r c sd : vr r -> sel K L 1 r c = true ->
  face_value (k_lim K) (l_mesh L r) (fun c => c_rho (s_cell (S r) c)) c sd 0
  = c_rho (s_cell (S r) c) + (match sd with O => - 1 | _ => 1 end) / 2 * dlt S r c.
Proof.
  intros Hr Hs. pose proof (proj1 Hreg) as Hh.
  assert (A : forall x, in_stencil nd c x -> mdx (l_mesh L r) 0 (coord 0 x) = h).
  { intros x Hx. apply reg_mdx; [exact Hr|]. exact (stencil_array K N dims X L HL (ro_ng HR) r c x Hr Hs Hx). }
  pose proof (A c (or_introl eq_refl)) as A0. pose proof (A _ (st_l K c 0 ltac:(lia))) as A1. pose proof (A _ (st_r K c 0 ltac:(lia))) as A2.
  rewrite coord_lindex_same in A1 by lia. rewrite coord_rindex_same in A2 by lia.
  rewrite face_value_eq by lia. rewrite A0, A1, A2.
  replace ((h + h) / 2) with h by field. unfold Rdiv. rewrite !(Rmult_comm _ (/ h)), slope_homog. fold (dlt S r c). field. lra.
Qed.

Lemma reg_rec S dt r c sd : adv S -> vr r -> sel K L 1 r c = true -> (sd < 2)%nat ->
  rr S dt r c sd 0%nat = c_rho (s_cell (S r) c) + ((match sd with O => - 1 | _ => 1 end) - u0 0%nat * dt / h) / 2 * dlt S r c.
Proof.
  intros HS Hr Hs Hsd. pose proof (sel1_array K N dims X L HL (ro_ng HR) r c Hr Hs) as Ha. pose proof (proj1 Hreg) as Hh.
  unfold step_rec. cbn [hydro_reconstruction r_q]. unfold kwrite. rewrite Hs, (pw_geom HW). unfold hancock_cons. cbn [q_rho].
  rewrite !(adv_face K N dims X L u0 P0 HR (pw_wall HW) (fun x => lo <= x <= hi)) by (assumption || lia).
  rewrite (vsum_ext nd _ (fun _ => u0 0%nat * (dt / 2 / h) * - dlt S r c)).
  - rewrite Hone. cbn [vsum to_cons q_rho p_rho]. rewrite reg_face by assumption. field. lra.
  - intros d Hd. assert (d = 0)%nat by lia. subst d.
    rewrite (cart_rate nd (l_mesh L r) (dt / 2) c ltac:(lia) ltac:(intros; now apply mdx_pos)) by lia.
    rewrite !(adv_face K N dims X L u0 P0 HR (pw_wall HW) (fun x => lo <= x <= hi)) by (assumption || lia).
    cbn [flux_prim f_rho p_rho p_u]. rewrite !reg_face, reg_mdx by assumption. field. lra.
Qed.

Lemma limited_step S dt : adv S -> gentle dt -> positive_densities K dims L dt S /\
  (forall r c, vr r -> own r c -> lo <= c_rho (step_godunov K L dt S r c) <= hi).
Proof.
  intros HS Hdt. pose proof (proj1 Hreg) as Hh.
  assert (Hnu_ : forall r c, vr r -> arr r c -> 0 <= dt * Rabs (u0 0%nat) / h <= nu).
  { intros r c Hr Hc. destruct (rate_terms r c dt Hdt Hr Hc) as [T1 T2]. specialize (T1 0%nat ltac:(lia)). revert T1 T2.
    rewrite Hone. cbn [vsum]. rewrite reg_mdx by assumption. lra. }
  assert (Hin : forall r c, vr r -> arr r c -> lo <= c_rho (s_cell (S r) c) <= hi).
  { intros r c Hr Hc. destruct (HS r c Hr Hc) as (_ & H & _). exact H. }
  assert (Hb : (forall r c sd k, vr r -> sel K L 1 r c = true -> (sd < 2)%nat -> (k < nd)%nat ->
       0 < face_value (k_lim K) (l_mesh L r) (fun c => c_rho (s_cell (S r) c)) c sd k /\
       0 < q_rho (r_q (step_rec K L dt S r) c sd k))).
  { intros r c sd k Hr Hs Hsd Hk. assert (k = 0)%nat by lia. subst k. rewrite reg_face, reg_rec by assumption.
    pose proof (fun x (Hx : in_stencil nd c x) => Hin r x Hr (stencil_array K N dims X L HL (ro_ng HR) r c x Hr Hs Hx)) as Hi.
    destruct (Hnu_ r c Hr (sel1_array K N dims X L HL (ro_ng HR) r c Hr Hs)) as [Hn0 Hn1].
    assert (Hu : Rabs (u0 0%nat * dt / h) <= nu).
    { unfold Rdiv. rewrite !Rabs_mult, (Rabs_pos_eq dt), (Rabs_pos_eq (/ h)) by (try apply Hdt; left; now apply Rinv_0_lt_compat).
      unfold Rdiv in Hn1. lra. }
    set (v := u0 0%nat * dt / h) in *. clearbody v.
    assert (Hv : - nu <= v <= nu) by (revert Hu; unfold Rabs; destruct (Rcase_abs v); lra).
    unfold dlt. split; apply (half_step_positive (k_lim K) nu lo hi); auto;
      try (apply Hi; [now left|..]); try (apply Hi; first [now left|apply st_l; lia|apply st_r; lia]);
      apply Rabs_le; destruct sd as [|[|sd]]; try lia; lra. }
  assert (Hgod : forall r c, vr r -> own r c -> lo <= c_rho (step_godunov K L dt S r c) <= hi).
  { intros r c Hr Hc. pose proof (owned_in_array K N dims X L HL r c Hr Hc) as Ha.
    assert (Hst : forall x, in_stencil nd c x -> sel K L 1 r x = true) by (intros x Hx; apply (owned_sel1 K N dims X L HL r c _ Hr Hc Hx)).
    rewrite god_rho_upwind by (assumption || (intros c' sd k; now apply Hb)).
    rewrite Hone. cbn [vsum]. rewrite reg_mdx by assumption.
    pose proof (Hst c (or_introl eq_refl)) as S0. pose proof (Hst _ (st_l K c 0 ltac:(lia))) as Sl. pose proof (Hst _ (st_r K c 0 ltac:(lia))) as Sr.
    pose proof (sel1_array K N dims X L HL (ro_ng HR) r _ Hr Sl) as Al. pose proof (sel1_array K N dims X L HL (ro_ng HR) r _ Hr Sr) as Ar.
    rewrite !reg_rec by (assumption || lia). pose proof (Hnu_ r c Hr Ha) as Hn.
    pose proof (Hin r c Hr Ha) as I0. pose proof (Hin r _ Hr Al) as Il. pose proof (Hin r _ Hr Ar) as Ir.
    destruct (rltb 0 (u0 0%nat)) eqn:E.
    - apply rltb_true in E. rewrite (Rabs_pos_eq (u0 0%nat)) in * by lra.
      set (w := dt * u0 0%nat / h) in *. replace (u0 0%nat * dt / h) with w by (unfold w; field; lra).
      destruct (harten w (c_rho (s_cell (S r) c) - c_rho (s_cell (S r) (lindex 0 c))) (dlt S r c) (dlt S r (lindex 0 c)) ltac:(lra)) as (k & Hk & Ek);
        try (unfold dlt; apply slope_right).
      + unfold dlt. rewrite (rindex_lindex 0 c). apply slope_left.
      + unfold dlt. rewrite (rindex_lindex 0 c). apply slope_left.
      + match goal with |- _ <= ?t <= _ => replace t with (c_rho (s_cell (S r) c) - k * (c_rho (s_cell (S r) c) - c_rho (s_cell (S r) (lindex 0 c)))) end; [nra|].
        rewrite <- Ek. field.
    - apply rltb_false in E. rewrite (Rabs_left1 (u0 0%nat)) in * by lra.
      set (w := dt * - u0 0%nat / h) in *. replace (u0 0%nat * dt / h) with (- w) by (unfold w; field; lra).
      destruct (harten w (c_rho (s_cell (S r) (rindex 0 c)) - c_rho (s_cell (S r) c)) (dlt S r c) (dlt S r (rindex 0 c)) ltac:(lra)) as (k & Hk & Ek);
        try (unfold dlt; apply slope_left).
      + unfold dlt. rewrite (lindex_rindex 0 c). apply slope_right.
      + unfold dlt. rewrite (lindex_rindex 0 c). apply slope_right.
      + match goal with |- _ <= ?t <= _ => replace t with (c_rho (s_cell (S r) c) + k * (c_rho (s_cell (S r) (rindex 0 c)) - c_rho (s_cell (S r) c))) end; [nra|].
        rewrite <- Ek. field. }
  split; [|exact Hgod]. intros r Hr. split; [intros; now apply Hb|].
  intros c Hc. specialize (Hgod r c Hr Hc). lra.
Qed.
End Limited.

(** *** Runs *)
Section Steps.
Hypothesis Hstep : forall S dt, adv S -> gentle dt -> positive_densities K dims L dt S /\
  (forall r c, vr r -> own r c -> lo <= c_rho (step_godunov K L dt S r c) <= hi).

Lemma bounded_step S t dt : adv S -> gentle dt -> adv (full_step K L t dt S).
Proof.
  intros HS Hdt. destruct (Hstep S dt HS Hdt) as [A1 A2].
  apply (adv_step K N dims X L u0 P0 HR He Hev HP0 (pw_geom HW) (pw_pf HW) (pw_user HW) (pw_grav HW) (pw_wall HW)); assumption.
Qed.

Lemma bounded_run ts : forall S, adv S -> courant_steps K dims L u0 nu ts -> adv (run K L ts S).
Proof.
  induction ts as [|[t dt] ts IH]; intros S HS Hts; [exact HS|]. cbn [run fold_left fst snd].
  apply IH; [|intros t' dt' H; apply (Hts t' dt'); now right]. apply bounded_step; [exact HS|]. apply (Hts t dt). now left.
Qed.

Lemma bounded_positive ts : forall S, adv S -> courant_steps K dims L u0 nu ts -> positive_run K dims L ts S.
Proof.
  induction ts as [|[t dt] ts IH]; intros S HS Hts; [exact I|]. cbn [positive_run].
  assert (Hg : gentle dt) by (apply (Hts t dt); now left). split; [now apply Hstep|].
  apply IH; [now apply bounded_step|intros t' dt' H; apply (Hts t' dt'); now right].
Qed.

Lemma bounded_result S : adv S -> carried K dims L u0 P0 S /\ density_within K dims L lo hi S.
Proof.
  intros H. split.
  - now apply (adv_carried K dims L u0 P0 Hev HP0 (fun x => lo <= x <= hi)).
  - intros r c Hr Hc. now destruct (H r c Hr Hc) as (_ & H1 & _).
Qed.

Lemma bounded_from G S ts : starts_from K dims L G S -> carried_fields u0 P0 G -> (forall c, lo <= g_rho G c <= hi) ->
  courant_steps K dims L u0 nu ts ->
  carried K dims L u0 P0 (run K L ts (init_state K L S)) /\ density_within K dims L lo hi (run K L ts (init_state K L S)).
Proof.
  intros H1 H2 H3 H4. apply bounded_result, bounded_run; [|exact H4].
  apply (adv_init K N dims X L u0 P0 HR He Hev HP0 (pw_grav HW) (pw_wall HW) (fun x => lo <= x <= hi) G); assumption.
Qed.

(** Steps as long as the CFL condition allows. *)
Lemma gentle_cfl S : 0 < nu -> adv S -> exists k, time_step K L S = Some k /\ gentle (nu * k).
Proof.
  intros H0 HS. destruct (time_step_defined K N dims X L HL S) as (k & E). exists k. split; [exact E|].
  assert (W : forall r c, vr r -> arr r c -> forall d, (d < nd)%nat -> 0 < width (k_geom K) (l_mesh L r) c d).
  { intros r c Hr Hc d Hd. rewrite (pw_geom HW), (width_mdx K N dims X L HR) by lia. apply mdx_pos; (assumption || lia). }
  destruct (cfl_bound K N dims X L HL S k He) as (K0 & K1 & _); [|exact E|].
  - intros r c Hr Hc. pose proof (owned_in_array K N dims X L HL r c Hr Hc) as Ha. destruct (HS r c Hr Ha) as (_ & H & _ & HP & _).
    split; [lra|]. split; [lra|]. now apply W.
  - split; [nra|]. intros r c Hr Hc. specialize (K1 r c Hr Hc). destruct (HS r c Hr Hc) as (_ & H & Hu & HP & _).
    assert (C : vsum nd (fun d => Rabs (u0 d) / width (k_geom K) (l_mesh L r) c d) <= crossing_rate K L S r c).
    { unfold crossing_rate. apply vsum_le. intros d Hd. rewrite Hu, HP.
      pose proof (law_sound_pos _ He (c_rho (s_cell (S r) c)) P0 ltac:(lra) HP0). pose proof (W r c Hr Hc d Hd) as Wd.
      apply Rmult_le_compat_r; [left; now apply Rinv_0_lt_compat|lra]. }
    apply Rle_trans with (nu * (k * crossing_rate K L S r c)); [|nra]. rewrite Rmult_assoc. apply Rmult_le_compat_l; [lra|]. apply Rmult_le_compat_l; lra.
Qed.

Lemma bounded_cfl n : 0 < nu -> forall t S, adv S -> adv (snd (run_cfl K L nu n t S)).
Proof.
  intros H0. induction n as [|n IH]; intros t S HS; [exact HS|]. cbn [run_cfl].
  destruct (gentle_cfl S H0 HS) as (k & E & Hk). rewrite E. apply IH. now apply bounded_step.
Qed.

Lemma bounded_from_cfl G S n t : 0 < nu -> starts_from K dims L G S -> carried_fields u0 P0 G -> (forall c, lo <= g_rho G c <= hi) ->
  let S' := snd (run_cfl K L nu n t (init_state K L S)) in
  carried K dims L u0 P0 S' /\ density_within K dims L lo hi S'.
Proof.
  intros H0 H1 H2 H3. apply bounded_result, bounded_cfl; [exact H0|].
  apply (adv_init K N dims X L u0 P0 HR He Hev HP0 (pw_grav HW) (pw_wall HW) (fun x => lo <= x <= hi) G); assumption.
Qed.
End Steps.
End Run.
