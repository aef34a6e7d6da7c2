(** * Mirror symmetry of the solvers, HLL at contacts, limiters, face reconstruction, array conversions. *)
From Coq Require Import FunctionalExtensionality.
From Verif Require Import Base RBase ModelMesh ModelGeom ModelHydro SpecHydro ProofBase ProofR ProofHydro.
Local Open Scope R_scope.

(** ** C18 *)
Definition mirror_prim (dir : nat) (p : prim) : prim :=
  mkPrim (p_rho p) (fun d => if Nat.eqb d dir then - p_u p d else p_u p d) (p_P p).

Lemma mirror_sq dir (v : vec) d :
  (if Nat.eqb d dir then - v d else v d) * (if Nat.eqb d dir then - v d else v d) = v d * v d.
Proof. destruct (Nat.eqb d dir); ring. Qed.

Lemma ek_cons_mirror nd dir q : ek_cons nd (mirror dir q) = ek_cons nd q.
Proof.
  unfold ek_cons, mirror. cbn [q_m q_rho].
  now rewrite (vsum_ext nd _ (fun d => q_m q d * q_m q d) (fun d _ => mirror_sq dir (q_m q) d)).
Qed.
Lemma ek_prim_mirror nd dir p : ek_prim nd (mirror_prim dir p) = ek_prim nd p.
Proof.
  unfold ek_prim, mirror_prim. cbn [p_u p_rho].
  now rewrite (vsum_ext nd _ (fun d => p_u p d * p_u p d) (fun d _ => mirror_sq dir (p_u p) d)).
Qed.
Lemma evol_cons_mirror nd dir q : evol_cons nd (mirror dir q) = evol_cons nd q.
Proof. unfold evol_cons. now rewrite ek_cons_mirror. Qed.
Lemma to_prim_mirror nd e dir q : to_prim nd e (mirror dir q) = mirror_prim dir (to_prim nd e q).
Proof.
  unfold to_prim. rewrite evol_cons_mirror. apply prim_ext; cbn; try reflexivity.
  intros d. destruct (Nat.eqb d dir); [unfold Rdiv; ring|reflexivity].
Qed.
Lemma flux_prim_mirror nd e dir p : flux_prim nd e (mirror_prim dir p) dir = mirror_flux dir (flux_prim nd e p dir).
Proof.
  unfold flux_prim. rewrite ek_prim_mirror. apply flux_ext; cbn; rewrite ?Nat.eqb_refl; try ring.
  intros d. destruct (Nat.eqb d dir); ring.
Qed.
Lemma valid_mirror nd dir q : valid_cons nd q -> valid_cons nd (mirror dir q).
Proof.
  intros [H1 H2]. split; [assumption|].
  rewrite <- evol_cons_internal in * by assumption. now rewrite evol_cons_mirror.
Qed.
Lemma mirror_mirror dir q : mirror dir (mirror dir q) = q.
Proof. apply cons_ext; cbn; try reflexivity. intros d. destruct (Nat.eqb d dir); ring. Qed.

Lemma wave_L_mirror e dir pL pR :
  wave_L e (mirror_prim dir pR) (mirror_prim dir pL) dir = - wave_R e pL pR dir.
Proof.
  unfold wave_L, wave_R. cbn. rewrite Nat.eqb_refl, Ropp_Rmax, Rmin_comm. f_equal; ring.
Qed.
Lemma wave_R_mirror e dir pL pR :
  wave_R e (mirror_prim dir pR) (mirror_prim dir pL) dir = - wave_L e pL pR dir.
Proof.
  unfold wave_L, wave_R. cbn. rewrite Nat.eqb_refl, Ropp_Rmin, Rmax_comm. f_equal; ring.
Qed.

Lemma flux_hll_neg UL UR FL FR a b : b - a <> 0 ->
  flux_hll UR UL (- FR) (- FL) (- b) (- a) = - flux_hll UL UR FL FR a b.
Proof. intros. unfold flux_hll. field. lra. Qed.
Lemma flux_hll_same UL UR FL FR a b : b - a <> 0 ->
  flux_hll (- UR) (- UL) FR FL (- b) (- a) = flux_hll UL UR FL FR a b.
Proof. intros. unfold flux_hll. field. lra. Qed.

Section Solvers.
Variable nd : nat.
Variable e : eos.
Hypothesis He : lawful_eos e.

Lemma hll_mirror qL qR dir : valid_cons nd qL -> valid_cons nd qR ->
  hll nd e (mirror dir qR) (mirror dir qL) dir = mirror_flux dir (hll nd e qL qR dir).
Proof.
  intros HL HR. destruct (sound_facts nd e He qL HL) as (_ & _ & L3 & _).
  pose proof (hll_den e (to_prim nd e qL) (to_prim nd e qR) dir L3) as Hd.
  unfold hll. rewrite !to_prim_mirror, !flux_prim_mirror, wave_L_mirror, wave_R_mirror. cbv zeta.
  replace (Rmax (- wave_L e (to_prim nd e qL) (to_prim nd e qR) dir) 0)
    with (- Rmin (wave_L e (to_prim nd e qL) (to_prim nd e qR) dir) 0)
    by (rewrite Ropp_Rmin, Ropp_0; reflexivity).
  replace (Rmin (- wave_R e (to_prim nd e qL) (to_prim nd e qR) dir) 0)
    with (- Rmax (wave_R e (to_prim nd e qL) (to_prim nd e qR) dir) 0)
    by (rewrite Ropp_Rmax, Ropp_0; reflexivity).
  set (a := Rmin _ 0) in *. set (b := Rmax _ 0) in *. clearbody a b.
  apply flux_ext; cbn [f_rho f_m f_E mirror_flux mirror q_rho q_m q_E].
  - apply flux_hll_neg. lra.
  - intros d. destruct (Nat.eqb d dir); [apply flux_hll_same|apply flux_hll_neg]; lra.
  - apply flux_hll_neg. lra.
Qed.

Lemma splitting_mirror qL qR dir : valid_cons nd qL -> valid_cons nd qR ->
  splitting nd e (mirror dir qR) (mirror dir qL) dir = mirror_flux dir (splitting nd e qL qR dir).
Proof.
  intros HL HR. destruct (sound_facts nd e He qL HL) as (L1 & _ & L3 & _).
  unfold splitting. rewrite !to_prim_mirror. cbv zeta. cbn [mirror_prim p_rho p_u p_P].
  rewrite Nat.eqb_refl.
  set (pL := to_prim nd e qL) in *. set (pR := to_prim nd e qR) in *.
  set (cL := eos_sound e (p_rho pL) (p_P pL)) in *. set (cR := eos_sound e (p_rho pR) (p_P pR)) in *.
  rewrite (Rmax_comm (p_rho pR * cR)), (Rmin_comm cR).
  assert (Ha : 0 < 11 / 10 * Rmax (p_rho pL * cL) (p_rho pR * cR)).
  { pose proof (Rmax_l (p_rho pL * cL) (p_rho pR * cR)). nra. }
  set (a := 11 / 10 * _) in *. clearbody a.
  set (us := (p_u pL dir + p_u pR dir) / 2 - 1 / (2 * a) * (p_P pR - p_P pL)).
  replace ((- p_u pR dir + - p_u pL dir) / 2 - 1 / (2 * a) * (p_P pL - p_P pR)) with (- us)
    by (unfold us; field; lra).
  rewrite Rabs_Ropp. clearbody us.
  set (th := Rmin 1 _). clearbody th.
  replace ((p_P pR + p_P pL) / 2 - th * a / 2 * (- p_u pL dir - - p_u pR dir))
    with ((p_P pL + p_P pR) / 2 - th * a / 2 * (p_u pR dir - p_u pL dir)) by field.
  set (ps := (p_P pL + p_P pR) / 2 - _). clearbody ps.
  destruct (Rtotal_order us 0) as [Hs|[-> |Hs]].
  - rewrite (proj2 (rltb_true 0 (- us))) by lra. rewrite (proj2 (rltb_false 0 us)) by lra.
    apply flux_ext; cbn; intros; try ring. destruct (Nat.eqb d dir); ring.
  - rewrite Ropp_0. apply flux_ext; cbn; intros; try ring. destruct (Nat.eqb d dir); ring.
  - rewrite (proj2 (rltb_false 0 (- us))) by lra. rewrite (proj2 (rltb_true 0 us)) by lra.
    apply flux_ext; cbn; intros; try ring. destruct (Nat.eqb d dir); ring.
Qed.

Lemma hllc_ustar_mirror qL qR dir : valid_cons nd qL -> valid_cons nd qR ->
  hllc_ustar nd e (mirror dir qR) (mirror dir qL) dir = - hllc_ustar nd e qL qR dir.
Proof.
  intros HL HR. destruct (hllc_signs nd e He qL qR dir HL HR) as (S1 & S2 & _).
  cbv zeta in S1, S2. unfold hllc_ustar. rewrite !to_prim_mirror, wave_L_mirror, wave_R_mirror.
  cbv zeta. cbn [mirror_prim p_rho p_u p_P]. rewrite Nat.eqb_refl.
  set (wL := wave_L e _ _ dir) in *. set (wR := wave_R e _ _ dir) in *. clearbody wL wR. field.
  lra.
Qed.

Lemma hllc_mirror qL qR dir : valid_cons nd qL -> valid_cons nd qR ->
  hllc nd e (mirror dir qR) (mirror dir qL) dir = mirror_flux dir (hllc nd e qL qR dir).
Proof.
  intros HL HR. destruct (hllc_signs nd e He qL qR dir HL HR) as (S1 & S2 & (S3 & S4) & S5 & S6).
  unfold hllc. cbv zeta.
  fold (hllc_ustar nd e (mirror dir qR) (mirror dir qL) dir). fold (hllc_ustar nd e qL qR dir).
  rewrite hllc_ustar_mirror by assumption.
  rewrite !to_prim_mirror, !flux_prim_mirror, wave_L_mirror, wave_R_mirror.
  set (us := hllc_ustar nd e qL qR dir) in *. clearbody us. cbv zeta in S1, S2.
  set (pL := to_prim nd e qL) in *. set (pR := to_prim nd e qR) in *.
  set (wL := wave_L e pL pR dir) in *. set (wR := wave_R e pL pR dir) in *.
  replace (- wR * - wL) with (wL * wR) by ring.
  cbn [mirror_prim p_rho p_u p_P]. rewrite Nat.eqb_refl.
  destruct (Rtotal_order us 0) as [Hs|[Hs|Hs]].
  - rewrite (proj2 (rltb_true 0 (- us))) by lra. rewrite (proj2 (rltb_false 0 us)) by lra.
    cbn [mirror_prim p_rho p_u p_P]. rewrite ?Nat.eqb_refl.
    destruct (rltb 0 (wL * wR)); [reflexivity|]. clearbody wL wR.
    apply flux_ext; unfold flux_hllc; cbn [f_rho f_m f_E mirror_flux mirror q_rho q_m q_E].
    + field. lra.
    + intros d. destruct (Nat.eqb d dir) eqn:Ed; cbn [p_u mirror_prim]; rewrite ?Ed; field; lra.
    + field. lra.
  - subst us. rewrite Ropp_0. rewrite (proj2 (rltb_false 0 0)) by lra.
    cbn [mirror_prim p_rho p_u p_P]. rewrite ?Nat.eqb_refl.
    destruct (rltb 0 (wL * wR)) eqn:Ew.
    { apply rltb_true in Ew. exfalso. destruct (Rtotal_order wL 0) as [Hw|[Hw|Hw]].
      - assert (wR < 0) by nra. apply S6 in H. lra.
      - rewrite Hw in Ew. lra.
      - apply S5 in Hw. lra. }
    apply flux_ext; unfold flux_hllc; cbn [f_rho f_m f_E mirror_flux mirror q_rho q_m q_E].
    + unfold flux_prim. cbn [f_rho].
      change (p_rho pL) with (q_rho qL). change (p_rho pR) with (q_rho qR). clearbody wL wR. field. lra.
    + intros d. destruct (Nat.eqb d dir) eqn:Ed; cbn [p_u mirror_prim]; rewrite ?Ed.
      * clearbody wL wR. field. lra.
      * clearbody wL wR. field. lra.
    + unfold flux_prim. cbn [f_E].
      assert (EL : ek_prim nd pL + eos_evol e (p_rho pL) (p_P pL) = q_E qL).
      { pose proof (f_equal q_E (to_cons_to_prim nd e He qL HL)) as H. rewrite <- H. apply Rplus_comm. }
      assert (ER : ek_prim nd pR + eos_evol e (p_rho pR) (p_P pR) = q_E qR).
      { pose proof (f_equal q_E (to_cons_to_prim nd e He qR HR)) as H. rewrite <- H. apply Rplus_comm. }
      rewrite EL, ER. clearbody wL wR. field. lra.
  - rewrite (proj2 (rltb_false 0 (- us))) by lra. rewrite (proj2 (rltb_true 0 us)) by lra.
    cbn [mirror_prim p_rho p_u p_P]. rewrite ?Nat.eqb_refl.
    destruct (rltb 0 (wL * wR)); [reflexivity|]. clearbody wL wR.
    apply flux_ext; unfold flux_hllc; cbn [f_rho f_m f_E mirror_flux mirror q_rho q_m q_E].
    + field. lra.
    + intros d. destruct (Nat.eqb d dir) eqn:Ed; cbn [p_u mirror_prim]; rewrite ?Ed; field; lra.
    + field. lra.
Qed.

Lemma riemann_mirror s qL qR dir : valid_cons nd qL -> valid_cons nd qR ->
  riemann s nd e (mirror dir qR) (mirror dir qL) dir = mirror_flux dir (riemann s nd e qL qR dir).
Proof. destruct s; [apply hll_mirror|apply hllc_mirror|apply splitting_mirror]. Qed.

Lemma riemann_consistent s q dir : valid_cons nd q -> riemann s nd e q q dir = euler_flux nd e q dir.
Proof.
  destruct s; [apply hll_consistent|apply hllc_consistent|apply splitting_consistent]; assumption.
Qed.

(** A state facing its own mirror image: no mass and no energy cross (the core of C20). *)
Lemma riemann_wall s q dir : valid_cons nd q ->
  f_rho (riemann s nd e (mirror dir q) q dir) = 0 /\ f_E (riemann s nd e (mirror dir q) q dir) = 0 /\
  f_rho (riemann s nd e q (mirror dir q) dir) = 0 /\ f_E (riemann s nd e q (mirror dir q) dir) = 0 /\
  forall d, d <> dir -> f_m (riemann s nd e (mirror dir q) q dir) d = 0
                     /\ f_m (riemann s nd e q (mirror dir q) dir) d = 0.
Proof.
  intros Hq.
  pose proof (riemann_mirror s (mirror dir q) q dir (valid_mirror nd dir q Hq) Hq) as H1.
  pose proof (riemann_mirror s q (mirror dir q) dir Hq (valid_mirror nd dir q Hq)) as H2.
  rewrite !mirror_mirror in H1. rewrite mirror_mirror in H2.
  split; [apply (f_equal f_rho) in H1; cbn in H1; lra|].
  split; [apply (f_equal f_E) in H1; cbn in H1; lra|].
  split; [apply (f_equal f_rho) in H2; cbn in H2; lra|].
  split; [apply (f_equal f_E) in H2; cbn in H2; lra|].
  intros d Hd. apply Nat.eqb_neq in Hd.
  split.
  - apply (f_equal (fun f => f_m f d)) in H1. cbn in H1. rewrite Hd in H1. lra.
  - apply (f_equal (fun f => f_m f d)) in H2. cbn in H2. rewrite Hd in H2. lra.
Qed.

(** HLL lets mass through a contact at rest as soon as the densities differ. *)
Lemma hll_diffuses_contacts qL qR dir : valid_cons nd qL -> valid_cons nd qR ->
  velocity qL dir = 0 -> velocity qR dir = 0 -> q_rho qL <> q_rho qR ->
  f_rho (hll nd e qL qR dir) <> 0.
Proof.
  intros HL HR H1 H2 Hne.
  destruct (sound_facts nd e He qL HL) as (L1 & _ & L3 & _).
  destruct (wave_bounds e (to_prim nd e qL) (to_prim nd e qR) dir) as (W1 & _ & W3 & _).
  assert (E1 : p_u (to_prim nd e qL) dir = 0) by exact H1.
  assert (E2 : p_u (to_prim nd e qR) dir = 0) by exact H2.
  unfold hll. cbn [f_rho flux_prim]. rewrite E1, E2 in *.
  rewrite Rmin_left, Rmax_left by lra.
  set (wL := wave_L e _ _ dir) in *. set (wR := wave_R e _ _ dir) in *.
  unfold flux_hll. intros H.
  assert (wL * wR * (q_rho qR - q_rho qL) = 0).
  { apply (f_equal (fun x => x * (wR - wL))) in H. unfold Rdiv in H.
    rewrite Rmult_assoc, Rinv_l in H by lra. lra. }
  apply Rmult_integral in H0. destruct H0 as [H0|H0]; [|lra].
  apply Rmult_integral in H0. lra.
Qed.
End Solvers.

(** ** C14: limiters *)
Lemma van_leer_form a b : 0 < b * a -> van_leer a b = 2 * a * b / (a + b).
Proof.
  intros H. unfold van_leer. rewrite (proj2 (rltb_true 0 (b * a)) H).
  assert (a <> 0) by nra. assert (b <> 0) by nra.
  assert (a + b <> 0) by nra. field. auto.
Qed.
Lemma minmod_form a b : 0 < a -> 0 < b -> minmod a b = Rmin a b.
Proof.
  intros Ha Hb. unfold minmod. rewrite (proj2 (rltb_true 0 (b * a))) by nra.
  destruct (Rle_dec a b) as [H|H].
  - rewrite (Rmin_left a b H). rewrite Rmin_right.
    + field. lra.
    + apply Rmult_le_reg_r with b; [assumption|]. unfold Rdiv. rewrite Rmult_assoc, Rinv_l by lra. lra.
  - rewrite (Rmin_right a b) by lra. rewrite Rmin_left.
    + field. lra.
    + apply Rmult_le_reg_r with b; [assumption|]. unfold Rdiv. rewrite Rmult_assoc, Rinv_l by lra. lra.
Qed.
Lemma van_albada_form a b : 0 < b * a -> van_albada a b = a * b * (a + b) / (a * a + b * b).
Proof.
  intros H. unfold van_albada. rewrite (proj2 (rltb_true 0 (b * a)) H).
  assert (a <> 0) by nra. assert (b <> 0) by nra.
  assert (a * a + b * b <> 0) by nra. field. auto.
Qed.

Lemma slope_opposite l a b : a * b <= 0 -> slope l a b = 0.
Proof.
  intros H. rewrite Rmult_comm in H. destruct l; cbn; try reflexivity;
    unfold van_leer, minmod, van_albada; now rewrite (proj2 (rltb_false 0 (b * a)) H).
Qed.

Lemma slope_odd l a b : slope l (- a) (- b) = - slope l a b.
Proof.
  destruct (Rlt_dec 0 (a * b)) as [H|H].
  2:{ rewrite !slope_opposite by nra. ring. }
  assert (a <> 0) by nra. assert (b <> 0) by nra.
  assert (E : - a / - b = a / b) by (field; assumption).
  assert (E' : - b * - a = b * a) by ring.
  destruct l; cbn; [ring| | |]; unfold van_leer, minmod, van_albada; rewrite E, E';
    rewrite (proj2 (rltb_true 0 (b * a))) by lra; cbv zeta; unfold Rdiv; ring.
Qed.

Lemma same_sign_neg a b : 0 < a * b -> ~ 0 < a -> 0 < - a /\ 0 < - b.
Proof.
  intros H Ha. assert (a < 0).
  { destruct (Req_dec a 0) as [-> |]; [rewrite Rmult_0_l in H|]; lra. }
  split; [lra|]. nra.
Qed.
Lemma same_sign_pos a b : 0 < a * b -> 0 < a -> 0 < b.
Proof. intros. nra. Qed.

Lemma slope_pos_sym l a b : 0 < a -> 0 < b -> slope l a b = slope l b a.
Proof.
  intros Ha Hb. destruct l; cbn; [reflexivity| | |].
  - rewrite !van_leer_form by nra. field. lra.
  - rewrite !minmod_form by assumption. apply Rmin_comm.
  - rewrite !van_albada_form by nra. field. nra.
Qed.
Lemma slope_sym l a b : slope l a b = slope l b a.
Proof.
  destruct (Rlt_dec 0 (a * b)) as [H|H].
  2:{ rewrite !slope_opposite by nra. ring. }
  destruct (Rlt_dec 0 a) as [Ha|Ha].
  - apply slope_pos_sym; [assumption|]. now apply (same_sign_pos a).
  - destruct (same_sign_neg a b H Ha). rewrite <- (Ropp_involutive (slope l a b)), <- slope_odd.
    rewrite slope_pos_sym by assumption. rewrite slope_odd. ring.
Qed.

Lemma slope_pos_homog l k a b : 0 < k -> 0 < a -> 0 < b -> slope l (k * a) (k * b) = k * slope l a b.
Proof.
  intros Hk Ha Hb. assert (0 < k * a) by nra. assert (0 < k * b) by nra.
  destruct l; cbn; [ring| | |].
  - assert (0 < k * a * (k * b)) by nra.
    rewrite !van_leer_form by nra. field. repeat split; lra.
  - rewrite !minmod_form by assumption. destruct (Rle_dec a b).
    + rewrite !Rmin_left by nra. reflexivity.
    + rewrite !Rmin_right by nra. reflexivity.
  - assert (0 < k * a * (k * b)) by (now apply Rmult_lt_0_compat).
    rewrite !van_albada_form by nra. field. repeat split; nra.
Qed.
Lemma slope_homog l k a b : slope l (k * a) (k * b) = k * slope l a b.
Proof.
  destruct (Rlt_dec 0 (a * b)) as [H|H].
  2:{ rewrite (slope_opposite l a b) by nra. rewrite slope_opposite; [ring|].
      replace (k * a * (k * b)) with (k * k * (a * b)) by ring. pose proof (Rle_0_sqr k). unfold Rsqr in *. nra. }
  assert (P : forall k, 0 < k -> slope l (k * a) (k * b) = k * slope l a b).
  { intros k0 Hk. destruct (Rlt_dec 0 a) as [Ha|Ha].
    - apply slope_pos_homog; try assumption. now apply (same_sign_pos a).
    - destruct (same_sign_neg a b H Ha) as [Na Nb].
      assert (H0 : slope l (k0 * - a) (k0 * - b) = k0 * slope l (- a) (- b)) by (now apply slope_pos_homog).
      rewrite slope_odd in H0.
      replace (k0 * - a) with (- (k0 * a)) in H0 by ring. replace (k0 * - b) with (- (k0 * b)) in H0 by ring.
      rewrite slope_odd in H0. lra. }
  destruct (Rtotal_order k 0) as [Hk|[-> |Hk]].
  - specialize (P (- k) ltac:(lra)). replace (- k * a) with (- (k * a)) in P by ring.
    replace (- k * b) with (- (k * b)) in P by ring. rewrite slope_odd in P. lra.
  - rewrite !Rmult_0_l. apply slope_opposite. lra.
  - now apply P.
Qed.

Lemma div_le_intro x y z : 0 < y -> x <= z * y -> x / y <= z.
Proof.
  intros Hy H. apply Rmult_le_reg_r with y; [assumption|]. unfold Rdiv.
  rewrite Rmult_assoc, Rinv_l by lra. lra.
Qed.
Lemma div_nonneg x y : 0 < y -> 0 <= x -> 0 <= x / y.
Proof. intros. apply Rmult_le_pos; [assumption|]. left. now apply Rinv_0_lt_compat. Qed.

Lemma slope_bounds l a b : 0 < a -> 0 < b ->
  0 <= slope l a b <= 2 * Rmin a b /\ (l = LMinmod -> slope l a b = Rmin a b) /\
  (l <> LConstant -> 0 < slope l a b).
Proof.
  intros Ha Hb.
  assert (G : forall a b, 0 < a -> 0 < b -> a <= b ->
     0 <= slope l a b <= 2 * a /\ (l <> LConstant -> 0 < slope l a b)).
  { clear. intros a b Ha Hb Hab. destruct l; cbn.
    - split; [lra|congruence].
    - rewrite van_leer_form by nra.
      assert (0 < 2 * a * b / (a + b)) by (apply Rdiv_lt_0_compat; nra).
      split; [split; [lra|]|auto]. apply div_le_intro; nra.
    - rewrite minmod_form, Rmin_left by assumption. split; [lra|auto].
    - rewrite van_albada_form by nra.
      assert (0 < a * b * (a + b) / (a * a + b * b)).
      { apply Rdiv_lt_0_compat; [|nra]. apply Rmult_lt_0_compat; nra. }
      split; [split; [lra|]|auto]. apply div_le_intro; [nra|].
      replace (a * b * (a + b)) with (a * (b * (a + b))) by ring.
      replace (2 * a * (a * a + b * b)) with (a * (2 * (a * a + b * b))) by ring.
      apply Rmult_le_compat_l; [lra|]. nra. }
  assert (M : l = LMinmod -> slope l a b = Rmin a b) by (intros ->; now apply minmod_form).
  destruct (Rle_dec a b) as [H|H].
  - rewrite Rmin_left in * by assumption. destruct (G a b Ha Hb H). auto.
  - rewrite Rmin_right in * by lra. rewrite slope_sym in *. destruct (G b a Hb Ha ltac:(lra)). auto.
Qed.

Lemma slope_equal l a : l <> LConstant -> slope l a a = a.
Proof.
  intros Hl. destruct (Req_dec a 0) as [-> |Ha].
  - apply slope_opposite. lra.
  - destruct l; cbn; [congruence| | |].
    + rewrite van_leer_form by nra. field. lra.
    + destruct (Rlt_dec 0 a).
      * rewrite minmod_form by assumption. apply Rmin_left. lra.
      * change (slope LMinmod a a = a). rewrite <- (Ropp_involutive (slope LMinmod a a)), <- slope_odd.
        change (- minmod (- a) (- a) = a). rewrite minmod_form, Rmin_left by lra. ring.
    + rewrite van_albada_form by nra. field. nra.
Qed.

(** For all signs: the slope is bounded by twice the smaller magnitude (Minmod: by the smaller one). *)
Lemma slope_abs l a b :
  Rabs (slope l a b) <= 2 * Rmin (Rabs a) (Rabs b) /\
  (l = LMinmod -> Rabs (slope l a b) <= Rmin (Rabs a) (Rabs b)) /\
  0 <= slope l a b * a /\ 0 <= slope l a b * b.
Proof.
  assert (Hm : 0 <= Rmin (Rabs a) (Rabs b)) by (apply Rmin_case; apply Rabs_pos).
  destruct (Rlt_dec 0 (a * b)) as [H|H].
  2:{ rewrite slope_opposite by nra. rewrite Rabs_R0. repeat split; intros; lra. }
  assert (P : forall a b, 0 < a -> 0 < b ->
    Rabs (slope l a b) <= 2 * Rmin (Rabs a) (Rabs b) /\
    (l = LMinmod -> Rabs (slope l a b) <= Rmin (Rabs a) (Rabs b)) /\ 0 <= slope l a b).
  { clear. intros a b Ha Hb. destruct (slope_bounds l a b Ha Hb) as ((H1 & H2) & H3 & _).
    rewrite !(Rabs_pos_eq (slope l a b)), (Rabs_pos_eq a), (Rabs_pos_eq b) by lra.
    split; [assumption|]. split; [|assumption]. intros ->. rewrite H3; [lra|reflexivity]. }
  destruct (Rlt_dec 0 a) as [Ha|Ha].
  - destruct (P a b Ha (same_sign_pos a b H Ha)) as (H1 & H2 & H3). repeat split; try assumption; nra.
  - destruct (same_sign_neg a b H Ha) as [Ha' Hb'].
    destruct (P (- a) (- b) Ha' Hb') as (H1 & H2 & H3).
    rewrite slope_odd, !Rabs_Ropp in *. repeat split; try assumption; nra.
Qed.

(** ** C15: face reconstruction *)
Lemma cell_width_mdx m c d : (d < 3)%nat -> cell_width m c d = mdx m d (coord d c).
Proof.
  intros H. unfold cell_width, kron. destruct d as [|[|[|d]]]; cbn; try lia; ring.
Qed.
Lemma coord_lindex_same d c : (d < 3)%nat -> coord d (lindex d c) = (coord d c - 1)%Z.
Proof. intros H. destruct d as [|[|[|d]]]; cbn; try lia; unfold kron; cbn; lia. Qed.
Lemma coord_rindex_same d c : (d < 3)%nat -> coord d (rindex d c) = (coord d c + 1)%Z.
Proof. intros H. destruct d as [|[|[|d]]]; cbn; try lia; unfold kron; cbn; lia. Qed.

Section Faces.
Variable l : limiter.
Variable m : mesh.
Variable var : field3.
Variable c : idx.
Variable d : nat.
Hypothesis Hd : (d < 3)%nat.

Lemma faces_average : (face_value l m var c 0 d + face_value l m var c 1 d) / 2 = var c.
Proof. unfold face_value. field. Qed.

Let h := mdx m d (coord d c).
Let hm := mdx m d (coord d c - 1).
Let hp := mdx m d (coord d c + 1).
Let vm := var (lindex d c).
Let vp := var (rindex d c).

Lemma face_slope_eq : face_slope l m var c d
  = slope l ((vp - var c) / ((h + hp) / 2)) ((var c - vm) / ((hm + h) / 2)).
Proof.
  unfold face_slope. rewrite !cell_width_mdx by assumption.
  now rewrite coord_lindex_same, coord_rindex_same by assumption.
Qed.
Lemma face_value_eq side : face_value l m var c side d
  = var c + (match side with O => - 1 | _ => 1 end) * (h / 2)
            * slope l ((vp - var c) / ((h + hp) / 2)) ((var c - vm) / ((hm + h) / 2)).
Proof.
  unfold face_value. rewrite face_slope_eq, cell_width_mdx by assumption. fold h.
  destruct side; ring.
Qed.

Lemma faces_constant side : vm = var c -> vp = var c -> face_value l m var c side d = var c.
Proof.
  intros H1 H2. rewrite face_value_eq, H1, H2. rewrite slope_opposite; [ring|].
  unfold Rdiv. rewrite !Rminus_diag_eq by reflexivity. lra.
Qed.

Lemma faces_linear a b : l <> LConstant ->
  0 < h -> 0 < hm -> 0 < hp ->
  var c = a + b * mxc m d (coord d c) ->
  vm = a + b * mxc m d (coord d c - 1) ->
  vp = a + b * mxc m d (coord d c + 1) ->
  face_value l m var c 0 d = a + b * m d (coord d c) /\
  face_value l m var c 1 d = a + b * m d (coord d c + 1)%Z.
Proof.
  intros Hl H0 Hm Hp E Em Ep. rewrite !face_value_eq, E, Em, Ep.
  unfold h, hm, hp, mxc, mdx in *.
  replace (coord d c - 1 + 1)%Z with (coord d c) in * by lia.
  set (x := m d (coord d c)) in *. set (x1 := m d (coord d c + 1)%Z) in *.
  set (x2 := m d (coord d c + 1 + 1)%Z) in *. set (x0 := m d (coord d c - 1)%Z) in *.
  replace ((a + b * ((x1 + x2) / 2) - (a + b * ((x + x1) / 2))) / ((x1 - x + (x2 - x1)) / 2)) with b
    by (field; lra).
  replace ((a + b * ((x + x1) / 2) - (a + b * ((x0 + x) / 2))) / ((x - x0 + (x1 - x)) / 2)) with b
    by (field; lra).
  rewrite slope_equal by assumption. split; field.
Qed.

(** The face value stays between the cell and the neighbour on that side. *)
Lemma step_between v w s k : 0 < k -> 0 <= s * (w - v) -> Rabs (k * s) <= Rabs (w - v) ->
  Rmin v w <= v + k * s <= Rmax v w.
Proof.
  intros Hk Hs Hb. destruct (Rle_dec v w) as [H|H].
  - rewrite Rmin_left, Rmax_right by assumption.
    rewrite (Rabs_pos_eq (w - v)) in Hb by lra.
    destruct (Req_dec v w) as [E|E].
    + assert (Rabs (k * s) = 0) by (pose proof (Rabs_pos (k * s)); lra).
      assert (k * s = 0) by (destruct (Req_dec (k * s) 0); [assumption|]; exfalso; now apply (Rabs_no_R0 (k * s))).
      lra.
    + assert (0 <= s) by nra. assert (0 <= k * s) by nra. rewrite Rabs_pos_eq in Hb by assumption. lra.
  - rewrite Rmin_right, Rmax_left by lra.
    rewrite (Rabs_left (w - v)) in Hb by lra.
    assert (s <= 0) by nra. assert (k * s <= 0) by nra. rewrite Rabs_left1 in Hb by assumption. lra.
Qed.

Lemma faces_between K :
  0 < h -> 0 < hm -> 0 < hp -> 0 <= K ->
  (forall a b, Rabs (slope l a b) <= K * Rmin (Rabs a) (Rabs b)) ->
  K * h <= h + hp -> K * h <= hm + h ->
  (Rmin (var c) vm <= face_value l m var c 0 d <= Rmax (var c) vm) /\
  (Rmin (var c) vp <= face_value l m var c 1 d <= Rmax (var c) vp).
Proof.
  intros H0 Hm Hp HK Hb Kp Km. rewrite !face_value_eq.
  set (a := (vp - var c) / ((h + hp) / 2)). set (b := (var c - vm) / ((hm + h) / 2)).
  destruct (slope_abs l a b) as (_ & _ & Sa & Sb). specialize (Hb a b).
  set (s := slope l a b) in *. clearbody s.
  assert (Ea : vp - var c = a * ((h + hp) / 2)) by (unfold a; field; lra).
  assert (Eb : var c - vm = b * ((hm + h) / 2)) by (unfold b; field; lra).
  clearbody a b.
  pose proof (Rmin_l (Rabs a) (Rabs b)). pose proof (Rmin_r (Rabs a) (Rabs b)).
  pose proof (Rabs_pos a). pose proof (Rabs_pos b).
  split.
  - replace (var c + -1 * (h / 2) * s) with (var c + (h / 2) * (- s)) by ring.
    apply step_between; [lra| |].
    + replace (vm - var c) with (- (b * ((hm + h) / 2))) by lra.
      replace (- s * - (b * ((hm + h) / 2))) with ((s * b) * ((hm + h) / 2)) by ring. apply Rmult_le_pos; lra.
    + replace (vm - var c) with (- (b * ((hm + h) / 2))) by lra.
      rewrite !Rabs_Ropp, !Rabs_mult, !Rabs_Ropp, (Rabs_pos_eq (h / 2)), (Rabs_pos_eq ((hm + h) / 2)) by lra.
      apply Rle_trans with (h / 2 * (K * Rabs b)).
      * apply Rmult_le_compat_l; [lra|]. eapply Rle_trans; [eassumption|]. apply Rmult_le_compat_l; assumption.
      * replace (h / 2 * (K * Rabs b)) with (Rabs b * ((K * h) / 2)) by field. apply Rmult_le_compat_l; lra.
  - replace (var c + 1 * (h / 2) * s) with (var c + (h / 2) * s) by ring.
    apply step_between; [lra| |].
    + rewrite Ea. replace (s * (a * ((h + hp) / 2))) with ((s * a) * ((h + hp) / 2)) by ring.
      apply Rmult_le_pos; lra.
    + rewrite Ea. rewrite !Rabs_mult, (Rabs_pos_eq (h / 2)), (Rabs_pos_eq ((h + hp) / 2)) by lra.
      apply Rle_trans with (h / 2 * (K * Rabs a)).
      * apply Rmult_le_compat_l; [lra|]. eapply Rle_trans; [eassumption|]. apply Rmult_le_compat_l; assumption.
      * replace (h / 2 * (K * Rabs a)) with (Rabs a * ((K * h) / 2)) by field. apply Rmult_le_compat_l; lra.
Qed.

Lemma faces_between_regular : 0 < h -> hm = h -> hp = h ->
  (Rmin (var c) vm <= face_value l m var c 0 d <= Rmax (var c) vm) /\
  (Rmin (var c) vp <= face_value l m var c 1 d <= Rmax (var c) vp).
Proof.
  intros H0 Hm Hp. apply (faces_between 2); try lra. intros a b. apply slope_abs.
Qed.
Lemma faces_between_minmod : l = LMinmod -> 0 < h -> 0 < hm -> 0 < hp ->
  (Rmin (var c) vm <= face_value l m var c 0 d <= Rmax (var c) vm) /\
  (Rmin (var c) vp <= face_value l m var c 1 d <= Rmax (var c) vp).
Proof.
  intros Hl H0 Hm Hp. apply (faces_between 1); try lra.
  intros a b. rewrite Rmult_1_l. now apply slope_abs.
Qed.
End Faces.

(** On stretched meshes VanLeer can leave the range of the data: widths 1, 9, 1, data 0, 5, 6. *)
Lemma van_leer_stretched_overshoot :
  exists (m : mesh) (var : field3) (c : idx),
    0 < mdx m 0 (ii c - 1) /\ 0 < mdx m 0 (ii c) /\ 0 < mdx m 0 (ii c + 1) /\
    var (lindex 0 c) < var c < var (rindex 0 c) /\
    var (rindex 0 c) < face_value LVanLeer m var c 1 0.
Proof.
  exists (fun _ i => match i with (-1)%Z => -1 | 0%Z => 0 | 1%Z => 9 | _ => 10 end).
  exists (fun c => match ii c with (-1)%Z => 0 | 0%Z => 5 | _ => 6 end).
  exists (I3 0 0 0). rewrite face_value_eq by lia. unfold mdx. cbn.
  rewrite van_leer_form by lra. lra.
Qed.

(** The kernel writes exactly the cells of its range. *)
Lemma face_kernel p l m var old c :
  (p c = true -> face_reconstruction p l m var old c = face_value l m var c) /\
  (p c = false -> face_reconstruction p l m var old c = old c).
Proof. unfold face_reconstruction, kwrite. split; intros ->; reflexivity. Qed.

(** ** C13: array conversions *)
Lemma conv_round_trip nd e p rho u P rhou E :
  lawful_eos e ->
  (forall c, p c = true -> 0 < rho c /\ 0 < P c) ->
  let '(rhou', E') := conv_prim_to_cons p nd e rho u P rhou E in
  (forall c, p c = false -> rhou' c = rhou c /\ E' c = E c) /\
  (forall u0 P0, let '(u', P') := conv_cons_to_prim p nd e rho rhou' E' u0 P0 in
    (forall c, p c = true -> u' c = u c /\ P' c = P c) /\
    (forall c, p c = false -> u' c = u0 c /\ P' c = P0 c)).
Proof.
  intros He H. cbn. split.
  - intros c Hc. unfold kwrite. now rewrite Hc.
  - intros u0 P0. split; intros c Hc; unfold kwrite; rewrite Hc; [|auto].
    destruct (H c Hc) as [H1 H2].
    pose proof (to_prim_to_cons nd e He (mkPrim (rho c) (u c) (P c)) (conj H1 H2)) as T.
    split; [exact (f_equal p_u T)|exact (f_equal p_P T)].
Qed.

Lemma conv_round_trip_cons nd e p rho rhou E u P :
  lawful_eos e ->
  (forall c, p c = true -> 0 < rho c /\ 0 < internal nd (mkCons (rho c) (rhou c) (E c))) ->
  let '(u', P') := conv_cons_to_prim p nd e rho rhou E u P in
  (forall c, p c = false -> u' c = u c /\ P' c = P c) /\
  (forall m0 E0, let '(rhou', E') := conv_prim_to_cons p nd e rho u' P' m0 E0 in
    (forall c, p c = true -> rhou' c = rhou c /\ E' c = E c) /\
    (forall c, p c = false -> rhou' c = m0 c /\ E' c = E0 c)).
Proof.
  intros He H. cbn. split.
  - intros c Hc. unfold kwrite. now rewrite Hc.
  - intros u0 P0. split; intros c Hc; unfold kwrite; rewrite Hc; [|auto].
    destruct (H c Hc) as [H1 H2].
    pose proof (to_cons_to_prim nd e He (mkCons (rho c) (rhou c) (E c)) (conj H1 H2)) as T.
    split; [exact (f_equal q_m T)|exact (f_equal q_E T)].
Qed.
