(** * Proofs about the cell-local physics (C12-C19). *)
From Coq Require Import FunctionalExtensionality.
From Verif Require Import Base RBase ModelMesh ModelGeom ModelHydro SpecHydro ProofR.
Local Open Scope R_scope.

(** ** Perfect gas *)

Lemma kb_pos : 0 < kb.
Proof. unfold kb. apply Rdiv_lt_0_compat; [lra|apply pow_lt; lra]. Qed.
Lemma mp_pos : 0 < mp.
Proof. unfold mp. apply Rdiv_lt_0_compat; [lra|apply pow_lt; lra]. Qed.
Lemma Ggrav_pos : 0 < Ggrav.
Proof. unfold Ggrav. apply Rdiv_lt_0_compat; [lra|apply pow_lt; lra]. Qed.

Definition pg_ok (g : perfect_gas) : Prop := 1 < pg_gamma g /\ 0 < pg_mmw g.

Section PG.
Variable g : perfect_gas.
Hypothesis Hg : pg_ok g.
Let G1 : pg_gamma g - 1 <> 0. Proof. destruct Hg. lra. Qed.
Let Gm : pg_mmw g <> 0. Proof. destruct Hg. lra. Qed.
Let Kb : kb <> 0. Proof. pose proof kb_pos. lra. Qed.
Let Mp : mp <> 0. Proof. pose proof mp_pos. lra. Qed.

Lemma pg_evol rho P : rho <> 0 -> pg_evol_from_pres g rho P = P / (pg_gamma g - 1).
Proof. intros. unfold pg_evol_from_pres, pg_evol_from_temp, pg_temp_from_pres. field. auto. Qed.
Lemma pg_pres rho ev : rho <> 0 -> pg_pres_from_evol g rho ev = (pg_gamma g - 1) * ev.
Proof. intros. unfold pg_pres_from_evol, pg_pres_from_temp, pg_temp_from_evol. field. auto. Qed.

Lemma pg_temp_pres rho P : rho <> 0 -> pg_pres_from_temp g rho (pg_temp_from_pres g rho P) = P.
Proof. intros. unfold pg_pres_from_temp, pg_temp_from_pres. field. auto. Qed.
Lemma pg_pres_temp rho T : rho <> 0 -> pg_temp_from_pres g rho (pg_pres_from_temp g rho T) = T.
Proof. intros. unfold pg_pres_from_temp, pg_temp_from_pres. field. auto. Qed.
Lemma pg_temp_evol rho ev : rho <> 0 -> pg_evol_from_temp g rho (pg_temp_from_evol g rho ev) = ev.
Proof. intros. unfold pg_evol_from_temp, pg_temp_from_evol. field. auto. Qed.
Lemma pg_evol_temp rho T : rho <> 0 -> pg_temp_from_evol g rho (pg_evol_from_temp g rho T) = T.
Proof. intros. unfold pg_evol_from_temp, pg_temp_from_evol. field. auto. Qed.

Lemma pg_temp_from_pres_mono rho P P' : 0 < rho -> P < P' -> pg_temp_from_pres g rho P < pg_temp_from_pres g rho P'.
Proof.
  intros Hr H. unfold pg_temp_from_pres, Rdiv. destruct Hg. pose proof kb_pos. pose proof mp_pos.
  apply Rmult_lt_compat_r; [apply Rinv_0_lt_compat; nra|]. repeat apply Rmult_lt_compat_r; assumption.
Qed.
Lemma pg_pres_from_temp_mono rho P P' : 0 < rho -> P < P' -> pg_pres_from_temp g rho P < pg_pres_from_temp g rho P'.
Proof.
  intros Hr H. unfold pg_pres_from_temp, Rdiv. destruct Hg. pose proof kb_pos. pose proof mp_pos.
  apply Rmult_lt_compat_r; [apply Rinv_0_lt_compat; nra|]. apply Rmult_lt_compat_l; [nra|assumption].
Qed.
Lemma pg_evol_from_temp_mono rho P P' : 0 < rho -> P < P' -> pg_evol_from_temp g rho P < pg_evol_from_temp g rho P'.
Proof.
  intros Hr H. unfold pg_evol_from_temp, Rdiv. destruct Hg. pose proof kb_pos. pose proof mp_pos.
  apply Rmult_lt_compat_r; [apply Rinv_0_lt_compat|].
  - repeat apply Rmult_lt_0_compat; lra.
  - apply Rmult_lt_compat_l; [nra|assumption].
Qed.
Lemma pg_temp_from_evol_mono rho P P' : 0 < rho -> P < P' -> pg_temp_from_evol g rho P < pg_temp_from_evol g rho P'.
Proof.
  intros Hr H. unfold pg_temp_from_evol, Rdiv. destruct Hg. pose proof kb_pos. pose proof mp_pos.
  apply Rmult_lt_compat_r; [apply Rinv_0_lt_compat; nra|].
  repeat apply Rmult_lt_compat_r; lra.
Qed.
Lemma pg_zero rho : pg_temp_from_pres g rho 0 = 0 /\ pg_pres_from_temp g rho 0 = 0 /\
  pg_evol_from_temp g rho 0 = 0 /\ pg_temp_from_evol g rho 0 = 0.
Proof. unfold pg_temp_from_pres, pg_pres_from_temp, pg_evol_from_temp, pg_temp_from_evol, Rdiv. repeat split; ring. Qed.

Lemma pg_sound_sq rho P : 0 < rho -> 0 < P ->
  pg_sound g rho P * pg_sound g rho P = pg_gamma g * P / rho /\ 0 < pg_sound g rho P.
Proof.
  intros Hr HP. destruct Hg. unfold pg_sound.
  assert (0 < pg_gamma g * P / rho) by (apply Rdiv_lt_0_compat; nra).
  split; [apply sqrt_sqrt; lra|now apply sqrt_lt_R0].
Qed.

Lemma pg_lawful : lawful_eos (pg_eos g).
Proof.
  destruct Hg as [Hgam Hmmw].
  split; cbn [eos_pres eos_evol eos_sound pg_eos]; intros rho x Hr Hx.
  - rewrite pg_evol, pg_pres by lra. field. lra.
  - rewrite pg_evol, pg_pres by lra. field. lra.
  - rewrite pg_evol by lra. apply Rdiv_lt_0_compat; lra.
  - rewrite pg_pres by lra. nra.
  - now apply pg_sound_sq.
  - destruct (pg_sound_sq rho x Hr Hx) as [-> _]. unfold Rdiv.
    replace (rho * (pg_gamma g * x * / rho)) with (pg_gamma g * x) by (field; lra). nra.
Qed.
End PG.

Lemma make_perfect_gas_spec gamma mmw :
  (forall g m, make_perfect_gas gamma mmw = Ok (mkPG g m) <->
     gamma = XR g /\ mmw = XR m /\ 1 < g /\ 0 < m) /\
  ((exists w, make_perfect_gas gamma mmw = Throw w) <->
     ~ (exists g m, gamma = XR g /\ mmw = XR m /\ 1 < g /\ 0 < m)).
Proof.
  unfold make_perfect_gas.
  destruct gamma as [g0|b|]; cbn [xfinite xleb negb orb].
  2,3: split; [intros g m; split; [discriminate|intros (H & _); discriminate]|];
       split; [intros _ (g & m & H & _); discriminate|eauto].
  destruct (rleb g0 1) eqn:E1.
  { apply rleb_true in E1. split.
    - intros g m. split; [discriminate|]. intros (H & _ & ? & _). injection H as ->. lra.
    - split; [|eauto]. intros _ (g & m & H & _ & ? & _). injection H as ->. lra. }
  apply rleb_false in E1.
  destruct mmw as [m0|b|]; cbn [xfinite xleb negb orb].
  2,3: split; [intros g m; split; [discriminate|intros (_ & H & _); discriminate]|];
       split; [intros _ (g & m & _ & H & _); discriminate|eauto].
  destruct (rleb m0 0) eqn:E2.
  { apply rleb_true in E2. split.
    - intros g m. split; [discriminate|]. intros (_ & H & _ & ?). injection H as ->. lra.
    - split; [|eauto]. intros _ (g & m & _ & H & _ & ?). injection H as ->. lra. }
  apply rleb_false in E2. split.
  - intros g m. split.
    + intros H. injection H as -> ->. auto.
    + intros (H & H' & _). injection H as ->. injection H' as ->. reflexivity.
  - split; [intros [w H]; discriminate|]. intros H. exfalso. apply H. exists g0, m0. auto.
Qed.

(** ** Euler equations *)

Lemma flux_ext f g : f_rho f = f_rho g -> (forall d, f_m f d = f_m g d) -> f_E f = f_E g -> f = g.
Proof.
  destruct f, g. cbn. intros -> H ->. f_equal. now apply functional_extensionality.
Qed.
Lemma cons_ext f g : q_rho f = q_rho g -> (forall d, q_m f d = q_m g d) -> q_E f = q_E g -> f = g.
Proof.
  destruct f, g. cbn. intros -> H ->. f_equal. now apply functional_extensionality.
Qed.
Lemma prim_ext f g : p_rho f = p_rho g -> (forall d, p_u f d = p_u g d) -> p_P f = p_P g -> f = g.
Proof.
  destruct f, g. cbn. intros -> H ->. f_equal. now apply functional_extensionality.
Qed.

Section Euler.
Variable nd : nat.
Variable e : eos.
Hypothesis He : lawful_eos e.

Lemma ek_cons_kinetic q : 0 < q_rho q -> ek_cons nd q = kinetic nd q.
Proof.
  intros H. unfold ek_cons, kinetic.
  rewrite (vsum_ext nd _ (fun d => q_m q d ^ 2)) by (intros; ring). field. lra.
Qed.
Lemma evol_cons_internal q : 0 < q_rho q -> evol_cons nd q = internal nd q.
Proof. intros. unfold evol_cons, internal. now rewrite ek_cons_kinetic. Qed.

Lemma ek_prim_to_prim q : 0 < q_rho q -> ek_prim nd (to_prim nd e q) = ek_cons nd q.
Proof.
  intros H. unfold ek_prim, ek_cons, to_prim. cbn [p_rho p_u].
  rewrite (vsum_ext nd (fun d => q_m q d / q_rho q * (q_m q d / q_rho q))
             (fun d => / (q_rho q * q_rho q) * (q_m q d * q_m q d))) by (intros; field; lra).
  rewrite vsum_scal. field. lra.
Qed.

Lemma ek_cons_to_cons p : 0 < p_rho p -> ek_cons nd (to_cons nd e p) = ek_prim nd p.
Proof.
  intros H. unfold ek_prim, ek_cons, to_cons. cbn [q_rho q_m].
  rewrite (vsum_ext nd (fun d => p_rho p * p_u p d * (p_rho p * p_u p d))
             (fun d => (p_rho p * p_rho p) * (p_u p d * p_u p d))) by (intros; ring).
  rewrite vsum_scal. field. lra.
Qed.

Lemma valid_to_prim q : valid_cons nd q -> valid_prim (to_prim nd e q).
Proof.
  intros [H1 H2]. split; cbn; [assumption|].
  apply (law_pres_pos _ He); [assumption|]. rewrite evol_cons_internal; assumption.
Qed.

Lemma valid_to_cons p : valid_prim p -> valid_cons nd (to_cons nd e p).
Proof.
  intros [H1 H2]. split; cbn; [assumption|].
  rewrite <- evol_cons_internal by (cbn; assumption). unfold evol_cons.
  rewrite ek_cons_to_cons by assumption. cbn.
  pose proof (law_evol_pos _ He _ _ H1 H2). lra.
Qed.

Lemma to_prim_to_cons p : valid_prim p -> to_prim nd e (to_cons nd e p) = p.
Proof.
  intros [H1 H2]. apply prim_ext; cbn.
  - reflexivity.
  - intros d. field. lra.
  - unfold evol_cons. rewrite ek_cons_to_cons by assumption. cbn.
    replace (eos_evol e (p_rho p) (p_P p) + ek_prim nd p - ek_prim nd p) with (eos_evol e (p_rho p) (p_P p)) by ring.
    now apply (law_pres_evol _ He).
Qed.

Lemma to_cons_to_prim q : valid_cons nd q -> to_cons nd e (to_prim nd e q) = q.
Proof.
  intros [H1 H2]. apply cons_ext.
  - reflexivity.
  - intros d. cbn. field. lra.
  - unfold to_cons. cbn [q_E]. rewrite ek_prim_to_prim by assumption. cbn [p_rho p_P to_prim].
    rewrite (law_evol_pres _ He) by (rewrite ?evol_cons_internal; assumption).
    unfold evol_cons. ring.
Qed.

(** Both flux routines compute the Euler flux. *)
Lemma flux_cons_euler q dir : 0 < q_rho q -> flux_cons nd e q dir = euler_flux nd e q dir.
Proof.
  intros H. unfold flux_cons, euler_flux, pressure. rewrite evol_cons_internal by assumption.
  apply flux_ext; cbn; intros; field; lra.
Qed.
Lemma flux_prim_euler q dir : valid_cons nd q ->
  flux_prim nd e (to_prim nd e q) dir = euler_flux nd e q dir.
Proof.
  intros Hq. pose proof Hq as [H1 H2]. unfold flux_prim. rewrite ek_prim_to_prim by assumption.
  unfold euler_flux, pressure. cbn [p_rho p_u p_P to_prim].
  rewrite (law_evol_pres _ He) by (rewrite ?evol_cons_internal; assumption).
  rewrite evol_cons_internal by assumption.
  apply flux_ext; cbn [f_rho f_m f_E].
  - field. lra.
  - intros d. field. lra.
  - rewrite ek_cons_kinetic by assumption. unfold internal. field. lra.
Qed.

(** ** Wave speeds *)
Lemma wave_bounds pL pR dir :
  let cL := eos_sound e (p_rho pL) (p_P pL) in
  let cR := eos_sound e (p_rho pR) (p_P pR) in
  let wL := wave_L e pL pR dir in
  let wR := wave_R e pL pR dir in
  wL <= p_u pL dir - cL /\ wL <= p_u pR dir - cR /\
  p_u pL dir + cL <= wR /\ p_u pR dir + cR <= wR /\
  (wL = p_u pL dir - cL \/ wL = p_u pR dir - cR) /\
  (wR = p_u pL dir + cL \/ wR = p_u pR dir + cR).
Proof.
  cbv zeta. unfold wave_L, wave_R. repeat split.
  - apply Rmin_l.
  - apply Rmin_r.
  - apply Rmax_l.
  - apply Rmax_r.
  - apply Rmin_case; auto.
  - apply Rmax_case; auto.
Qed.

(** The states entering a solver, in primitive form, with their sound speeds. *)
Lemma sound_facts q : valid_cons nd q ->
  let p := to_prim nd e q in
  let c := eos_sound e (p_rho p) (p_P p) in
  0 < p_rho p /\ 0 < p_P p /\ 0 < c /\ p_P p < p_rho p * (c * c).
Proof.
  intros Hq. destruct (valid_to_prim _ Hq) as [H1 H2]. cbv zeta.
  split; [assumption|]. split; [assumption|]. split; [now apply (law_sound_pos _ He)|].
  now apply (law_sound_P _ He).
Qed.

Lemma hll_den pL pR dir : 0 < eos_sound e (p_rho pL) (p_P pL) ->
  Rmin (wave_L e pL pR dir) 0 < Rmax (wave_R e pL pR dir) 0.
Proof.
  intros Hc. destruct (wave_bounds pL pR dir) as (H1 & H2 & H3 & H4 & _).
  destruct (Rlt_le_dec (wave_L e pL pR dir) 0) as [H|H].
  - apply Rlt_le_trans with 0; [|apply Rmax_r]. eapply Rle_lt_trans; [apply Rmin_l|assumption].
  - apply Rle_lt_trans with 0; [apply Rmin_r|]. eapply Rlt_le_trans; [|apply Rmax_l]. lra.
Qed.

(** C16 *)
Lemma hll_consistent q dir : valid_cons nd q -> hll nd e q q dir = euler_flux nd e q dir.
Proof.
  intros Hq. destruct (sound_facts q Hq) as (H1 & H2 & H3 & _).
  pose proof (hll_den (to_prim nd e q) (to_prim nd e q) dir H3) as Hd.
  unfold hll. rewrite flux_prim_euler by assumption.
  set (nL := Rmin _ 0) in *. set (nR := Rmax _ 0) in *. clearbody nL nR.
  unfold flux_hll. apply flux_ext; cbn [f_rho f_m f_E]; intros; field; lra.
Qed.

(** HLLC intermediate quantities *)
Definition hllc_ustar (qL qR : cons) (dir : nat) : R :=
  let pL := to_prim nd e qL in
  let pR := to_prim nd e qR in
  let rcL := p_rho pL * (wave_L e pL pR dir - p_u pL dir) in
  let rcR := p_rho pR * (wave_R e pL pR dir - p_u pR dir) in
  (p_P pR - p_P pL + rcL * p_u pL dir - rcR * p_u pR dir) / (rcL - rcR).

Lemma hllc_signs qL qR dir : valid_cons nd qL -> valid_cons nd qR ->
  let pL := to_prim nd e qL in
  let pR := to_prim nd e qR in
  let wL := wave_L e pL pR dir in
  let wR := wave_R e pL pR dir in
  let rcL := p_rho pL * (wL - p_u pL dir) in
  let rcR := p_rho pR * (wR - p_u pR dir) in
  rcL < 0 /\ 0 < rcR /\ wL < hllc_ustar qL qR dir < wR /\
  (0 < wL -> 0 < hllc_ustar qL qR dir) /\ (wR < 0 -> hllc_ustar qL qR dir < 0).
Proof.
  intros HL HR. destruct (sound_facts qL HL) as (L1 & L2 & L3 & L4).
  destruct (sound_facts qR HR) as (R1 & R2 & R3 & R4). cbv zeta.
  unfold hllc_ustar.
  destruct (wave_bounds (to_prim nd e qL) (to_prim nd e qR) dir) as (W1 & W2 & W3 & W4 & _).
  set (pL := to_prim nd e qL) in *. set (pR := to_prim nd e qR) in *.
  set (wL := wave_L e pL pR dir) in *. set (wR := wave_R e pL pR dir) in *.
  set (cL := eos_sound e (p_rho pL) (p_P pL)) in *. set (cR := eos_sound e (p_rho pR) (p_P pR)) in *.
  set (uL := p_u pL dir) in *. set (uR := p_u pR dir) in *.
  set (rL := p_rho pL) in *. set (rR := p_rho pR) in *.
  set (PL := p_P pL) in *. set (PR := p_P pR) in *.
  clearbody wL wR cL cR uL uR rL rR PL PR. clear pL pR.
  set (rcL := rL * (wL - uL)). set (rcR := rR * (wR - uR)).
  assert (HrcL : rcL <= - (rL * cL)) by (unfold rcL; nra).
  assert (HrcR : rR * cR <= rcR) by (unfold rcR; nra).
  assert (HrL : 0 < rL * cL) by nra. assert (HrR : 0 < rR * cR) by nra.
  assert (Hden : rcL - rcR < 0) by lra.
  assert (key : forall x, (x < (PR - PL + rcL * uL - rcR * uR) / (rcL - rcR) <->
                           PR - PL + rcL * uL - rcR * uR < x * (rcL - rcR))).
  { intros x. split; intros H.
    - apply (Rmult_lt_gt_compat_neg_l _ _ _ Hden) in H.
      replace ((rcL - rcR) * ((PR - PL + rcL * uL - rcR * uR) / (rcL - rcR)))
        with (PR - PL + rcL * uL - rcR * uR) in H by (field; lra). lra.
    - apply Rnot_le_lt. intros Hle.
      apply (Rmult_le_ge_compat_neg_l (rcL - rcR)) in Hle; [|lra].
      replace ((rcL - rcR) * ((PR - PL + rcL * uL - rcR * uR) / (rcL - rcR)))
        with (PR - PL + rcL * uL - rcR * uR) in Hle by (field; lra). lra. }
  assert (key2 : forall x, ((PR - PL + rcL * uL - rcR * uR) / (rcL - rcR) < x <->
                           x * (rcL - rcR) < PR - PL + rcL * uL - rcR * uR)).
  { intros x. split; intros H.
    - apply (Rmult_lt_gt_compat_neg_l _ _ _ Hden) in H.
      replace ((rcL - rcR) * ((PR - PL + rcL * uL - rcR * uR) / (rcL - rcR)))
        with (PR - PL + rcL * uL - rcR * uR) in H by (field; lra). lra.
    - apply Rnot_le_lt. intros Hle.
      apply (Rmult_le_ge_compat_neg_l (rcL - rcR)) in Hle; [|lra].
      replace ((rcL - rcR) * ((PR - PL + rcL * uL - rcR * uR) / (rcL - rcR)))
        with (PR - PL + rcL * uL - rcR * uR) in Hle by (field; lra). lra. }
  (* products *)
  assert (A1 : rL * (cL * cL) <= rcL * (wL - uL)).
  { unfold rcL. replace (rL * (wL - uL) * (wL - uL)) with (rL * ((uL - wL) * (uL - wL))) by ring.
    apply Rmult_le_compat_l; [lra|]. apply Rmult_le_compat; lra. }
  assert (A2 : rR * (cR * cR) <= rcR * (wR - uR)).
  { unfold rcR. replace (rR * (wR - uR) * (wR - uR)) with (rR * ((wR - uR) * (wR - uR))) by ring.
    apply Rmult_le_compat_l; [lra|]. apply Rmult_le_compat; lra. }
  assert (A3 : rL * (cL * cL) <= rcL * (uL - wR)).
  { apply Rle_trans with ((rL * cL) * (wR - uL)).
    - rewrite <- Rmult_assoc. apply Rmult_le_compat_l; lra.
    - replace (rcL * (uL - wR)) with ((- rcL) * (wR - uL)) by ring. apply Rmult_le_compat_r; lra. }
  assert (A4 : rR * (cR * cR) <= rcR * (uR - wL)).
  { apply Rle_trans with ((rR * cR) * (uR - wL)).
    - rewrite <- Rmult_assoc. apply Rmult_le_compat_l; lra.
    - apply Rmult_le_compat_r; lra. }
  split; [lra|]. split; [lra|]. split; [split|split].
  - apply key. nra.
  - apply key2. nra.
  - intros Hw. apply key.
    assert (B1 : rcL * uL < 0) by nra.
    assert (B2 : rR * (cR * cR) <= rcR * uR).
    { apply Rle_trans with ((rR * cR) * uR).
      - rewrite <- Rmult_assoc. apply Rmult_le_compat_l; lra.
      - apply Rmult_le_compat_r; lra. }
    lra.
  - intros Hw. apply key2.
    assert (B1 : 0 < - (rcR * uR)) by nra.
    assert (B2 : rL * (cL * cL) <= rcL * uL).
    { apply Rle_trans with ((rL * cL) * (- uL)).
      - rewrite <- Rmult_assoc. apply Rmult_le_compat_l; lra.
      - replace (rcL * uL) with ((- rcL) * (- uL)) by ring. apply Rmult_le_compat_r; lra. }
    lra.
Qed.

Lemma wave_same p dir : 
  wave_L e p p dir = p_u p dir - eos_sound e (p_rho p) (p_P p) /\
  wave_R e p p dir = p_u p dir + eos_sound e (p_rho p) (p_P p).
Proof.
  destruct (wave_bounds p p dir) as (_ & _ & _ & _ & [-> | ->] & [-> | ->]); auto.
Qed.

(** Equal normal velocity and pressure: HLLC returns the upwind Euler flux. *)
Lemma hllc_contact qL qR dir : valid_cons nd qL -> valid_cons nd qR ->
  velocity qL dir = velocity qR dir -> pressure nd e qL = pressure nd e qR ->
  hllc nd e qL qR dir = (if rltb 0 (velocity qL dir) then euler_flux nd e qL dir else euler_flux nd e qR dir).
Proof.
  intros HL HR Hu HP.
  destruct (hllc_signs qL qR dir HL HR) as (S1 & S2 & (S3 & S4) & S5 & S6).
  pose proof HL as [HL1 HL2]. pose proof HR as [HR1 HR2].
  assert (Eu : hllc_ustar qL qR dir = velocity qL dir).
  { unfold hllc_ustar. cbv zeta in S1, S2. cbv zeta.
    assert (E1 : p_u (to_prim nd e qR) dir = p_u (to_prim nd e qL) dir) by (symmetry; exact Hu).
    assert (E2 : p_P (to_prim nd e qR) = p_P (to_prim nd e qL)).
    { cbn. rewrite !evol_cons_internal by assumption. symmetry. exact HP. }
    rewrite E1 in S2 |- *. rewrite E2. change (velocity qL dir) with (p_u (to_prim nd e qL) dir).
    field. lra. }
  unfold hllc. cbv zeta. rewrite !flux_prim_euler by assumption.
  fold (hllc_ustar qL qR dir). rewrite Eu in *.
  cbv zeta in S1, S2.
  assert (EuL : p_u (to_prim nd e qL) dir = velocity qL dir) by reflexivity.
  assert (EuR : p_u (to_prim nd e qR) dir = velocity qL dir) by (rewrite Hu; reflexivity).
  assert (EPL : p_P (to_prim nd e qL) = pressure nd e qL)
    by (unfold pressure; cbn; now rewrite evol_cons_internal).
  assert (EPR : p_P (to_prim nd e qR) = pressure nd e qL)
    by (rewrite HP; unfold pressure; cbn; now rewrite evol_cons_internal).
  set (wL := wave_L e _ _ dir) in *. set (wR := wave_R e _ _ dir) in *. clearbody wL wR.
  set (u := velocity qL dir) in *.
  destruct (rltb 0 (wL * wR)) eqn:Ew.
  { destruct (rltb 0 u); reflexivity. }
  destruct (rltb 0 u) eqn:Es.
  - rewrite EuL, EuR, EPL, EPR.
    assert (Hm : forall d, q_m qL d = q_rho qL * velocity qL d) by (intros; unfold velocity; field; lra).
    apply flux_ext; unfold flux_hllc, euler_flux; cbn [f_rho f_m f_E].
    + field. lra.
    + intros d. rewrite (Hm d), (Hm dir). fold u. destruct (Nat.eqb_spec d dir) as [->|Hne].
      * fold u. field. lra.
      * cbn [p_u to_prim]. rewrite (Hm d). field. lra.
    + field. lra.
  - rewrite EuL, EuR, EPL, EPR. rewrite HP.
    assert (Hm : forall d, q_m qR d = q_rho qR * velocity qR d) by (intros; unfold velocity; field; lra).
    apply flux_ext; unfold flux_hllc, euler_flux; cbn [f_rho f_m f_E].
    + field. lra.
    + intros d. rewrite (Hm d), (Hm dir), <- Hu. fold u. destruct (Nat.eqb_spec d dir) as [->|Hne].
      * rewrite <- Hu. fold u. field. lra.
      * cbn [p_u to_prim]. rewrite (Hm d). field. lra.
    + field. lra.
Qed.

Lemma hllc_consistent q dir : valid_cons nd q -> hllc nd e q q dir = euler_flux nd e q dir.
Proof. intros Hq. rewrite hllc_contact by auto. now destruct (rltb 0 _). Qed.

Lemma splitting_consistent q dir : valid_cons nd q -> splitting nd e q q dir = euler_flux nd e q dir.
Proof.
  intros Hq. destruct (sound_facts q Hq) as (H1 & H2 & H3 & _). pose proof Hq as [Hq1 Hq2].
  unfold splitting. cbv zeta.
  set (p := to_prim nd e q) in *. set (c := eos_sound e (p_rho p) (p_P p)) in *.
  assert (Ha : 0 < 11 / 10 * Rmax (p_rho p * c) (p_rho p * c)) by (rewrite Rmax_left by lra; nra).
  set (a := 11 / 10 * _) in *. clearbody a.
  assert (Eu : (p_u p dir + p_u p dir) / 2 - 1 / (2 * a) * (p_P p - p_P p) = velocity q dir).
  { unfold velocity. change (p_u p dir) with (q_m q dir / q_rho q). field. lra. }
  rewrite Eu. set (th := Rmin 1 _). clearbody th.
  assert (EP : (p_P p + p_P p) / 2 - th * a / 2 * (p_u p dir - p_u p dir) = pressure nd e q).
  { replace (pressure nd e q) with (p_P p); [field|].
    unfold pressure, p. cbn. now rewrite evol_cons_internal. }
  rewrite EP. replace (if rltb 0 (velocity q dir) then q else q) with q by (destruct (rltb 0 _); reflexivity).
  unfold euler_flux, velocity. apply flux_ext; cbn; intros; field; lra.
Qed.

(** C17 *)
Lemma hll_supersonic_right qL qR dir : valid_cons nd qL -> valid_cons nd qR ->
  sound nd e qL <= velocity qL dir -> sound nd e qR <= velocity qR dir ->
  hll nd e qL qR dir = euler_flux nd e qL dir.
Proof.
  intros HL HR H1 H2. destruct (sound_facts qL HL) as (_ & _ & L3 & _).
  pose proof (hll_den (to_prim nd e qL) (to_prim nd e qR) dir L3) as Hd.
  destruct (wave_bounds (to_prim nd e qL) (to_prim nd e qR) dir) as (_ & _ & _ & _ & HwL & _).
  pose proof HL as [HL1 _]. pose proof HR as [HR1 _].
  unfold sound, pressure, velocity in H1, H2. rewrite <- !evol_cons_internal in H1, H2 by assumption.
  unfold hll. rewrite !flux_prim_euler by assumption. cbv zeta.
  assert (E0 : Rmin (wave_L e (to_prim nd e qL) (to_prim nd e qR) dir) 0 = 0).
  { apply Rmin_right. cbn [p_u p_rho p_P to_prim] in HwL. destruct HwL as [-> | ->]; lra. }
  rewrite E0 in *. set (w := Rmax _ 0) in *. clearbody w. unfold flux_hll.
  apply flux_ext; cbn [f_rho f_m f_E]; intros; field; lra.
Qed.
Lemma hll_supersonic_left qL qR dir : valid_cons nd qL -> valid_cons nd qR ->
  velocity qL dir <= - sound nd e qL -> velocity qR dir <= - sound nd e qR ->
  hll nd e qL qR dir = euler_flux nd e qR dir.
Proof.
  intros HL HR H1 H2. destruct (sound_facts qL HL) as (_ & _ & L3 & _).
  pose proof (hll_den (to_prim nd e qL) (to_prim nd e qR) dir L3) as Hd.
  destruct (wave_bounds (to_prim nd e qL) (to_prim nd e qR) dir) as (_ & _ & _ & _ & _ & HwR).
  pose proof HL as [HL1 _]. pose proof HR as [HR1 _].
  unfold sound, pressure, velocity in H1, H2. rewrite <- !evol_cons_internal in H1, H2 by assumption.
  unfold hll. rewrite !flux_prim_euler by assumption. cbv zeta.
  assert (E0 : Rmax (wave_R e (to_prim nd e qL) (to_prim nd e qR) dir) 0 = 0).
  { apply Rmax_right. cbn [p_u p_rho p_P to_prim] in HwR. destruct HwR as [-> | ->]; lra. }
  rewrite E0 in *. set (w := Rmin _ 0) in *. clearbody w. unfold flux_hll.
  apply flux_ext; cbn [f_rho f_m f_E]; intros; field; lra.
Qed.

Lemma hllc_supersonic_right qL qR dir : valid_cons nd qL -> valid_cons nd qR ->
  sound nd e qL < velocity qL dir -> sound nd e qR < velocity qR dir ->
  hllc nd e qL qR dir = euler_flux nd e qL dir.
Proof.
  intros HL HR H1 H2. destruct (hllc_signs qL qR dir HL HR) as (_ & _ & _ & S5 & _).
  destruct (sound_facts qL HL) as (_ & _ & L3 & _).
  destruct (wave_bounds (to_prim nd e qL) (to_prim nd e qR) dir) as (_ & _ & W3 & _ & HwL & _).
  pose proof HL as [HL1 _]. pose proof HR as [HR1 _].
  unfold sound, pressure, velocity in H1, H2. rewrite <- !evol_cons_internal in H1, H2 by assumption.
  assert (Hw : 0 < wave_L e (to_prim nd e qL) (to_prim nd e qR) dir).
  { cbn [p_u p_rho p_P to_prim] in HwL. destruct HwL as [-> | ->]; lra. }
  cbn [p_u p_rho p_P to_prim] in W3, L3.
  specialize (S5 Hw). unfold hllc. cbv zeta. fold (hllc_ustar qL qR dir).
  rewrite !flux_prim_euler by assumption.
  rewrite (proj2 (rltb_true 0 (hllc_ustar qL qR dir)) S5).
  assert (Hww : 0 < wave_L e (to_prim nd e qL) (to_prim nd e qR) dir * wave_R e (to_prim nd e qL) (to_prim nd e qR) dir).
  { apply Rmult_lt_0_compat; [assumption|]. lra. }
  now rewrite (proj2 (rltb_true 0 _) Hww).
Qed.
Lemma hllc_supersonic_left qL qR dir : valid_cons nd qL -> valid_cons nd qR ->
  velocity qL dir < - sound nd e qL -> velocity qR dir < - sound nd e qR ->
  hllc nd e qL qR dir = euler_flux nd e qR dir.
Proof.
  intros HL HR H1 H2. destruct (hllc_signs qL qR dir HL HR) as (_ & _ & _ & _ & S6).
  destruct (sound_facts qL HL) as (_ & _ & L3 & _).
  destruct (wave_bounds (to_prim nd e qL) (to_prim nd e qR) dir) as (W1 & _ & _ & _ & _ & HwR).
  pose proof HL as [HL1 _]. pose proof HR as [HR1 _].
  unfold sound, pressure, velocity in H1, H2. rewrite <- !evol_cons_internal in H1, H2 by assumption.
  assert (Hw : wave_R e (to_prim nd e qL) (to_prim nd e qR) dir < 0).
  { cbn [p_u p_rho p_P to_prim] in HwR. destruct HwR as [-> | ->]; lra. }
  cbn [p_u p_rho p_P to_prim] in W1, L3.
  specialize (S6 Hw). unfold hllc. cbv zeta. fold (hllc_ustar qL qR dir).
  rewrite !flux_prim_euler by assumption.
  rewrite (proj2 (rltb_false 0 (hllc_ustar qL qR dir))) by lra.
  assert (Hww : 0 < wave_L e (to_prim nd e qL) (to_prim nd e qR) dir * wave_R e (to_prim nd e qL) (to_prim nd e qR) dir).
  { rewrite <- (Rmult_opp_opp (wave_L e _ _ dir)). apply Rmult_lt_0_compat; lra. }
  now rewrite (proj2 (rltb_true 0 _) Hww).
Qed.

End Euler.
