(** * The three cells under "HLLC" and "Low Mach": the second iteration fails (C104). *)
From Coq Require Import ZifyBool ZifyNat Lra Psatz.
From Verif Require Import Base RBase ModelMesh ModelGeom ModelBoundary ModelHydro ModelScheme ModelStep ModelMain
  SpecMesh SpecGeom SpecBoundary SpecHydro SpecScheme SpecStep SpecSetup SpecMain SpecPos
  ProofBase ProofMesh ProofR ProofBoundary ProofBoundary2 ProofHydro ProofHydro2 ProofScheme ProofMirror ProofShift ProofReduce ProofStep ProofSteady ProofCfl ProofLayout ProofMain ProofMainEx ProofJump ProofPos ProofPos2 ProofNeg.
Local Open Scope R_scope.
Notation e := (pg_eos tri_gas).

Section Fail.
Variables (s : solver) (p0 p1 p2 : prim) (smax cfl : R) (p : params) (clock : Z -> bool).
Notation K := (tri_K s).
Notation L := (tri_L s).
Notation S0 := (init_state K L (the_state K L (tri_G p0 p1 p2))).
Notation HY := (hydro K L cfl).
Hypothesis V0 : valid_prim p0.
Hypothesis V1 : valid_prim p1.
Hypothesis V2 : valid_prim p2.
Hypothesis B0 : pspeed p0 <= smax.
Hypothesis B1 : pspeed p1 <= smax.
Hypothesis B2 : pspeed p2 <= smax.
Hypothesis BM : pspeed p1 = smax \/ pspeed p2 = smax.
Hypothesis Hcfl : 0 < cfl.
Hypothesis Hfreq : p_time_freq p <= 0.
Hypothesis Hifreq : (p_iter_freq p <= 0)%Z.
Hypothesis Hmax : (2 <= p_max_iter p)%Z.
Hypothesis Hclock : forall i, clock i = false.
Hypothesis Hend : p_t_ini p + cfl / smax < p_t_end p.
Notation FL a b := (riemann s 1 e (to_cons 1 e a) (to_cons 1 e b) 0).
Hypothesis Hrho : 0 < q_rho (to_cons 1 e p1) + cfl / smax * (f_rho (FL p0 p1) - f_rho (FL p1 p2)).
Variable v : vec.
Hypothesis Hell : ell 1 v (to_cons 1 e p1) + cfl / smax * (ellf 1 v (FL p0 p1) - ellf 1 v (FL p1 p2)) < 0.

Lemma tri_fails : exists m, loop HY p clock 2 (fresh p S0) = (m, Failed "detected invalid volumic internal energy") /\
  m_iter m = 1%Z /\ 0 < q_rho (cons_of (s_cell (m_st m pid0) mid)) /\ internal 1 (cons_of (s_cell (m_st m pid0) mid)) < 0.
Proof.
  pose proof (ro_layout (tri_runs s)) as HL.
  destruct (tri_dt s p0 p1 p2 smax V0 V1 V2 B0 B1 B2 BM) as [Hdt Hs].
  assert (Hy : y_dt HY S0 = cfl / smax) by (cbn [hydro y_dt]; rewrite Hdt; unfold Rdiv; ring).
  assert (Hb0 : y_bad HY S0 = false) by (apply (sound_not_bad K tri_N one_process tri_X L (tri_runs s)); now apply tri_sound).
  assert (Efresh : fresh p S0 = mkM (-1) (-1) (-1) 0 (p_t_ini p) [] S0 []).
  { unfold fresh. destruct (Z.ltb_spec 0 (p_iter_freq p)); [lia|]. now rewrite (proj2 (rltb_false 0 (p_time_freq p)) Hfreq). }
  set (S1 := full_step K L (p_t_ini p) (cfl / smax) S0).
  assert (Hb : body HY p clock (fresh p S0) = (mkM (-1) (-1) (-1) 1 (p_t_ini p + cfl / smax) [] S1 [], Going)).
  { rewrite Efresh. unfold body. cbn [m_iter]. change (negb (int32 (0 + 1))) with false. cbv iota.
    unfold iter_schedule. destruct (Z.ltb_spec 0 (p_iter_freq p)); [lia|].
    unfold time_schedule. rewrite (proj2 (rltb_false 0 (p_time_freq p)) Hfreq). cbn [m_st m_t]. rewrite Hy.
    unfold clip_to_end. rewrite (proj2 (rleb_false (p_t_end p) (p_t_ini p + cfl / smax))) by lra.
    rewrite Hb0, Hclock. cbn [m_iter]. destruct (Z.leb_spec (p_max_iter p) (0 + 1)); [lia|]. reflexivity. }
  pose proof (tri_step s p0 p1 p2 V0 V1 V2 (p_t_ini p) (cfl / smax) _ _ (F_rho 1)) as ER. fold S1 in ER.
  pose proof (tri_step s p0 p1 p2 V0 V1 V2 (p_t_ini p) (cfl / smax) _ _ (F_ell 1 v)) as EE. fold S1 in EE.
  rewrite <- ER in Hrho. rewrite <- EE in Hell. rewrite ell_internal in Hell by lra.
  assert (Hint : internal 1 (cons_of (s_cell (S1 pid0) mid)) < 0).
  { pose proof (vsum_nonneg 1 (fun d => (velocity (cons_of (s_cell (S1 pid0) mid)) d - v d) ^ 2) ltac:(intros; apply pow2_ge_0)). nra. }
  assert (Hb1 : y_bad HY S1 = true).
  { apply (bad_iff K tri_N one_process tri_X L HL). exists pid0, mid. split; [exact pid0_ok|]. split; [apply (tri_three s p0 p1 p2)|].
    cbn [tri_K k_nd]. rewrite evol_cons_internal by exact Hrho. exact Hint. }
  cbn [loop]. rewrite Hb.
  set (m1 := mkM _ _ _ _ _ _ _ _).
  assert (Hb2 : exists m, body HY p clock m1 = (m, Failed "detected invalid volumic internal energy") /\ m_iter m = 1%Z /\ m_st m = S1).
  { unfold body, m1. cbn [m_iter]. change (negb (int32 (1 + 1))) with false. cbv iota.
    unfold iter_schedule. destruct (Z.ltb_spec 0 (p_iter_freq p)); [lia|].
    unfold time_schedule. rewrite (proj2 (rltb_false 0 (p_time_freq p)) Hfreq). cbn [m_st m_t].
    destruct (clip_to_end p _ _) as [s1 d1]. rewrite Hb1. eexists. split; [reflexivity|]. split; reflexivity. }
  destruct Hb2 as (m & -> & Ei & Es). exists m. rewrite Es. auto.
Qed.
End Fail.

(** ** Low Mach *)
Definition lm_d (cfl : R) : R := Rmin (1 / 2) (cfl / 20).
Definition lm_cold (d : R) : prim := mkPrim 1 (fun _ => 0) (3 / 5 * (d * d)).
Definition lm_hot (d : R) : prim := mkPrim 1 (fun _ => 6 / 11 * (1 - d * d)) (3 / 5).

Lemma tri_sound_sq rho c : 0 < rho -> 0 <= c -> pg_sound tri_gas rho (3 / 5 * (rho * (c * c))) = c.
Proof.
  intros Hr Hc. unfold pg_sound, tri_gas. cbn [pg_gamma]. replace (5 / 3 * (3 / 5 * (rho * (c * c))) / rho) with (c * c) by (field; lra). now apply sqrt_square.
Qed.
Lemma lm_cold_sound d : 0 <= d -> pg_sound tri_gas 1 (3 / 5 * (d * d)) = d.
Proof. intros H. rewrite <- (tri_sound_sq 1 d) at 3 by lra. f_equal. ring. Qed.
Lemma lm_hot_sound : pg_sound tri_gas 1 (3 / 5) = 1.
Proof. rewrite <- (tri_sound_sq 1 1) at 2 by lra. f_equal. lra. Qed.

Section LM.
Variable d : R.
Hypothesis Hd : 0 < d <= 1 / 2.
Lemma lm_valid : valid_prim (lm_cold d) /\ valid_prim (lm_hot d).
Proof. unfold valid_prim. cbn. repeat split; nra. Qed.
Lemma lm_speeds : pspeed (lm_cold d) = d /\ pspeed (lm_hot d) = 6 / 11 * (1 - d * d) + 1.
Proof.
  unfold pspeed. cbn [lm_cold lm_hot p_u p_rho p_P]. rewrite lm_cold_sound, lm_hot_sound by lra. rewrite Rabs_R0, Rabs_right by nra. split; lra.
Qed.
Lemma splitting_rest pL pR : valid_prim pL -> valid_prim pR ->
  (p_u pL 0%nat + p_u pR 0%nat) / 2 - 1 / (2 * (11 / 10 * Rmax (p_rho pL * pg_sound tri_gas (p_rho pL) (p_P pL)) (p_rho pR * pg_sound tri_gas (p_rho pR) (p_P pR)))) * (p_P pR - p_P pL) = 0 ->
  let f := splitting 1 e (to_cons 1 e pL) (to_cons 1 e pR) 0 in
  f_rho f = 0 /\ f_m f 0%nat = (p_P pL + p_P pR) / 2 /\ f_E f = 0.
Proof.
  intros HL HR H. destruct (tri_eos HLL) as [He _]. cbn [tri_K k_eos] in He. unfold splitting.
  rewrite !(to_prim_to_cons 1 e He) by assumption. cbn [eos_sound pg_eos]. change (eos_sound e) with (pg_sound tri_gas). cbv zeta. rewrite H. 
  cbn [f_rho f_m f_E Nat.eqb]. rewrite Rabs_R0.
  match goal with |- context [Rmin 1 (0 / ?x)] => replace (Rmin 1 (0 / x)) with 0 by (unfold Rdiv; rewrite Rmult_0_l, Rmin_right; lra) end.
  repeat split; try ring; unfold Rdiv; ring.
Qed.
Lemma lm_left : let f := splitting 1 e (to_cons 1 e (lm_cold d)) (to_cons 1 e (lm_cold d)) 0 in
  f_rho f = 0 /\ f_m f 0%nat = 3 / 5 * (d * d) /\ f_E f = 0.
Proof.
  destruct lm_valid as [Vc _]. destruct (splitting_rest _ _ Vc Vc) as (A & B & C).
  - cbn [lm_cold p_u p_P]. unfold Rminus. rewrite Rplus_opp_r. lra.
  - cbv zeta. rewrite A, B, C. cbn [lm_cold p_P]. repeat split. lra.
Qed.
Lemma lm_right : let f := splitting 1 e (to_cons 1 e (lm_cold d)) (to_cons 1 e (lm_hot d)) 0 in
  f_rho f = 0 /\ f_m f 0%nat = (3 / 5 * (d * d) + 3 / 5) / 2 /\ f_E f = 0.
Proof.
  destruct lm_valid as [Vc Vh]. destruct (splitting_rest _ _ Vc Vh) as (A & B & C).
  - cbn [lm_cold lm_hot p_u p_P p_rho]. rewrite lm_cold_sound, lm_hot_sound by lra. rewrite Rmax_right by lra. field.
  - cbv zeta. rewrite A, B, C. cbn [lm_cold lm_hot p_P]. repeat split.
Qed.
End LM.

Lemma lowmach_fails cfl p clock : 0 < cfl -> p_time_freq p <= 0 -> (p_iter_freq p <= 0)%Z -> (2 <= p_max_iter p)%Z -> (forall i, clock i = false) ->
  p_t_ini p + cfl < p_t_end p ->
  let K := tri_K LowMach in let L := tri_L LowMach in let G := tri_G (lm_cold (lm_d cfl)) (lm_cold (lm_d cfl)) (lm_hot (lm_d cfl)) in
  exists m, loop (hydro K L cfl) p clock 2 (fresh p (init_state K L (the_state K L G))) = (m, Failed "detected invalid volumic internal energy") /\
  m_iter m = 1%Z /\ 0 < q_rho (cons_of (s_cell (m_st m pid0) mid)) /\ internal 1 (cons_of (s_cell (m_st m pid0) mid)) < 0.
Proof.
  intros Hc H1 H2 H3 H4 H5 K L G. set (d := lm_d cfl) in *.
  assert (Hd : 0 < d <= 1 / 2 /\ d <= cfl / 20).
  { unfold d, lm_d. split; [split|]; [apply Rmin_glb_lt; lra|apply Rmin_l|apply Rmin_r]. }
  destruct Hd as [Hd Hd2]. destruct (lm_valid d Hd) as [Vc Vh]. destruct (lm_speeds d Hd) as [Sc Sh].
  set (smax := 6 / 11 * (1 - d * d) + 1) in *.
  assert (Hs : 1 < smax <= 17 / 11) by (unfold smax; nra).
  set (dt := cfl / smax).
  assert (Hdt : 11 / 17 * cfl <= dt < cfl).
  { unfold dt. split.
    - apply Rmult_le_reg_r with smax; [lra|]. unfold Rdiv. rewrite !Rmult_assoc, Rinv_l by lra. nra.
    - apply Rmult_lt_reg_r with smax; [lra|]. unfold Rdiv. rewrite Rmult_assoc, Rinv_l by lra. nra. }
  set (w := - (dt * (3 / 10) * (1 - d * d))).
  destruct (lm_left d Hd) as (A1 & A2 & A3). destruct (lm_right d Hd) as (C1 & C2 & C3).
  apply (tri_fails LowMach _ _ _ smax cfl p clock Vc Vc Vh) with (v := fun _ => w); try assumption; try lra; fold dt.
  - lra.
  - cbn [riemann]. rewrite A1, C1. cbn. lra.
  - cbn [riemann]. unfold ell, ellf. cbn [vsum]. rewrite A1, A2, A3, C1, C2, C3. 
    assert (W : dt * (3 / 10) * (1 - d * d) = - w) by (unfold w; ring).
    assert (W2 : 9 / 10 * (d * d) - w * w / 2 < 0).
    { assert (Hk : 3 / 4 <= 1 - d * d) by nra. assert (H0 : 11 / 17 * cfl * (3 / 4) <= dt * (1 - d * d)) by (apply Rmult_le_compat; lra).
      assert (H6 : 33 / 227 * cfl <= - w) by (rewrite <- W; nra).
      assert (H7 : (33 / 227 * cfl) * (33 / 227 * cfl) <= (- w) * (- w)) by (apply Rmult_le_compat; lra).
      assert (H8 : d * d <= cfl / 20 * (cfl / 20)) by (apply Rmult_le_compat; lra). nra. }
    cbn [to_cons lm_cold q_E q_m q_rho p_rho p_u p_P pg_eos eos_evol]. rewrite (pg_evol tri_gas tri_gas_ok) by lra.
    unfold ek_prim, tri_gas. cbn [vsum p_rho p_u pg_gamma].
    match goal with |- ?x < 0 => replace x with (9 / 10 * (d * d) - w * w / 2); [exact W2|] end.
    transitivity (9 / 10 * (d * d) + w * w / 2 + w * (dt * (3 / 10) * (1 - d * d))); [rewrite W; field|cbn [lm_cold p_rho p_u]; field].
Qed.

(** ** HLLC *)
Definition hc_L : prim := mkPrim (1 / 1000) (fun _ => 0) (3 / 5000).
Definition hc_M : prim := mkPrim 1 (fun _ => 1) (3 / 50000).
Definition hc_R : prim := mkPrim (1 / 2) (fun _ => 0) (3 / 10).
Lemma hc_valid : valid_prim hc_L /\ valid_prim hc_M /\ valid_prim hc_R.
Proof. unfold valid_prim. cbn. repeat split; lra. Qed.
Lemma hc_sound : pg_sound tri_gas (1 / 1000) (3 / 5000) = 1 /\ pg_sound tri_gas 1 (3 / 50000) = 1 / 100 /\ pg_sound tri_gas (1 / 2) (3 / 10) = 1.
Proof.
  split; [|split].
  - replace (3 / 5000) with (3 / 5 * (1 / 1000 * (1 * 1))) by lra. apply tri_sound_sq; lra.
  - replace (3 / 50000) with (3 / 5 * (1 * (1 / 100 * (1 / 100)))) by lra. apply tri_sound_sq; lra.
  - replace (3 / 10) with (3 / 5 * (1 / 2 * (1 * 1))) by lra. apply tri_sound_sq; lra.
Qed.
Lemma hc_speeds : pspeed hc_L = 1 /\ pspeed hc_M = 101 / 100 /\ pspeed hc_R = 1.
Proof.
  destruct hc_sound as (S1 & S2 & S3). unfold pspeed. cbn [hc_L hc_M hc_R p_u p_rho p_P]. rewrite S1, S2, S3, Rabs_R0, Rabs_R1. repeat split; lra.
Qed.
Lemma hc_cons : to_cons 1 e hc_L = mkCons (1 / 1000) (fun _ => 1 / 1000 * 0) (3 / 5000 / (5 / 3 - 1) + 1 / 1000 * (0 + 0 * 0) / 2) /\ 
  to_cons 1 e hc_M = mkCons 1 (fun _ => 1 * 1) (3 / 50000 / (5 / 3 - 1) + 1 * (0 + 1 * 1) / 2).
Proof.
  unfold to_cons, hc_L, hc_M. cbn [p_rho p_u p_P pg_eos eos_evol]. rewrite !(pg_evol tri_gas tri_gas_ok) by lra. split; reflexivity.
Qed.

Lemma hllc_left_star pL pR wL wR us : valid_prim pL -> valid_prim pR -> wave_L e pL pR 0 = wL -> wave_R e pL pR 0 = wR -> wL * wR <= 0 ->
  let rl := p_rho pL * (wL - p_u pL 0%nat) in let rr := p_rho pR * (wR - p_u pR 0%nat) in
  (p_P pR - p_P pL + rl * p_u pL 0%nat - rr * p_u pR 0%nat) / (rl - rr) = us -> 0 < us ->
  let f := hllc 1 e (to_cons 1 e pL) (to_cons 1 e pR) 0 in let q := to_cons 1 e pL in let u := p_u pL 0%nat in
  let rs := p_rho pL * (wL - u) / (wL - us) in
  let ps := 1 / 2 * (p_P pL + p_P pR + rl * (us - u) + rr * (us - p_u pR 0%nat)) in
  f_rho f = p_rho pL * u + wL * (rs - p_rho pL) /\ f_m f 0%nat = rs * us * us + ps /\
  f_E f = f_E (flux_prim 1 e pL 0) + wL * ((wL - u) / (wL - us) * q_E q + (us - u) / (wL - us) * (us * p_rho pL * (wL - u) + p_P pL) - q_E q).
Proof.
  intros HL HR EL ER HW rl rr EU HU. destruct (tri_eos HLL) as [He _]. cbn [tri_K k_eos] in He. unfold hllc.
  rewrite !(to_prim_to_cons 1 e He) by assumption. rewrite EL, ER. cbv zeta. fold rl rr. rewrite EU.
  rewrite (proj2 (rltb_true 0 us) HU). rewrite (proj2 (rltb_false 0 (wL * wR)) HW). cbn [f_rho f_m f_E Nat.eqb]. unfold flux_hllc.
  repeat split; try (cbn; ring).
Qed.

Lemma hc_left : let f := hllc 1 e (to_cons 1 e hc_L) (to_cons 1 e hc_M) 0 in
  f_rho f = 527 / 1077000 /\ f_m f 0%nat = 149 / 1346250 /\ f_E f = 78523 / 296175000.
Proof.
  destruct hc_valid as (VL & VM & VR). destruct hc_sound as (S1 & S2 & S3). destruct hc_cons as [CL CM].
  destruct (hllc_left_star hc_L hc_M (-1) (101 / 100) (527 / 550) VL VM) as (A & B & C).
  - unfold wave_L. cbn [hc_L hc_M p_u p_rho p_P pg_eos eos_sound]. rewrite S1, S2, Rmin_left; lra.
  - unfold wave_R. cbn [hc_L hc_M p_u p_rho p_P pg_eos eos_sound]. rewrite S1, S2, Rmax_right; lra.
  - lra.
  - cbn [hc_L hc_M p_u p_rho p_P]. lra.
  - lra.
  - cbv zeta. rewrite A, B, C, CL. unfold flux_prim. cbn [f_E q_E hc_L hc_M p_u p_rho p_P]. repeat split; lra.
Qed.
Lemma hc_right : let f := hllc 1 e (to_cons 1 e hc_M) (to_cons 1 e hc_R) 0 in
  f_rho f = 1018 / 1259 /\ f_m f 0%nat = 75003777 / 62950000 /\ f_E f = 25088101 / 37770000.
Proof.
  destruct hc_valid as (VL & VM & VR). destruct hc_sound as (S1 & S2 & S3). destruct hc_cons as [CL CM].
  destruct (hllc_left_star hc_M hc_R (-1) (101 / 100) (509 / 750) VM VR) as (A & B & C).
  - unfold wave_L. cbn [hc_R hc_M p_u p_rho p_P pg_eos eos_sound]. rewrite S2, S3, Rmin_right; lra.
  - unfold wave_R. cbn [hc_R hc_M p_u p_rho p_P pg_eos eos_sound]. rewrite S2, S3, Rmax_left; lra.
  - lra.
  - cbn [hc_R hc_M p_u p_rho p_P]. lra.
  - lra.
  - cbv zeta. rewrite A, B, C, CM. unfold flux_prim, ek_prim. cbn [f_E q_E hc_M hc_R p_u p_rho p_P vsum pg_eos eos_evol].
    rewrite (pg_evol tri_gas tri_gas_ok) by lra. unfold tri_gas. cbn [pg_gamma]. repeat split; lra.
Qed.

Lemma hllc_fails cfl p clock : 3 / 4 <= cfl <= 1 -> p_time_freq p <= 0 -> (p_iter_freq p <= 0)%Z -> (2 <= p_max_iter p)%Z -> (forall i, clock i = false) ->
  p_t_ini p + cfl < p_t_end p ->
  let K := tri_K HLLC in let L := tri_L HLLC in let G := tri_G hc_L hc_M hc_R in
  exists m, loop (hydro K L cfl) p clock 2 (fresh p (init_state K L (the_state K L G))) = (m, Failed "detected invalid volumic internal energy") /\
  m_iter m = 1%Z /\ 0 < q_rho (cons_of (s_cell (m_st m pid0) mid)) /\ internal 1 (cons_of (s_cell (m_st m pid0) mid)) < 0.
Proof.
  intros Hc H1 H2 H3 H4 H5 K L G. destruct hc_valid as (VL & VM & VR). destruct hc_speeds as (S1 & S2 & S3).
  destruct hc_left as (A1 & A2 & A3). destruct hc_right as (C1 & C2 & C3). destruct hc_cons as [_ CM].
  apply (tri_fails HLLC _ _ _ (101 / 100) cfl p clock VL VM VR) with (v := fun _ => 2 / 7); try assumption; try lra.
  - cbn [riemann]. rewrite A1, C1, CM. cbn [q_rho]. lra.
  - cbn [riemann]. unfold ell, ellf. cbn [vsum]. rewrite A1, A2, A3, C1, C2, C3, CM. cbn [q_rho q_m q_E]. lra.
Qed.
