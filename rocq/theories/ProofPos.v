(** * Positivity: linear functionals, the fluxes, pairs of faces (C36). *)
From Verif Require Import Base RBase ModelMesh ModelGeom ModelHydro SpecHydro SpecPos ProofBase ProofR ProofHydro ProofHydro2 ProofJump.
Local Open Scope R_scope.

(** ** Admissible states as an intersection of half-spaces *)
Section Lin.
Variable nd : nat.

Definition ell (v : vec) (q : cons) : R :=
  q_E q - vsum nd (fun d => v d * q_m q d) + q_rho q * vsum nd (fun d => v d ^ 2) / 2.
Definition ellf (v : vec) (f : flux) : R :=
  f_E f - vsum nd (fun d => v d * f_m f d) + f_rho f * vsum nd (fun d => v d ^ 2) / 2.

Lemma ell_internal v q : q_rho q <> 0 ->
  ell v q = internal nd q + q_rho q / 2 * vsum nd (fun d => (velocity q d - v d) ^ 2).
Proof.
  intros H. unfold ell, internal, kinetic.
  rewrite (vsum_ext nd (fun d => (velocity q d - v d) ^ 2)
    (fun d => / (q_rho q ^ 2) * q_m q d ^ 2 - 2 / q_rho q * (v d * q_m q d) + v d ^ 2))
    by (intros d _; unfold velocity; field; exact H).
  rewrite vsum_plus, vsum_minus, !vsum_scal. field. exact H.
Qed.
Lemma ell_own q : q_rho q <> 0 -> ell (velocity q) q = internal nd q.
Proof.
  intros H. rewrite ell_internal by exact H. rewrite (vsum_0 nd (fun d => (velocity q d - velocity q d) ^ 2)); [ring|]. intros; ring.
Qed.

Lemma valid_ell q v : valid_cons nd q -> 0 < ell v q.
Proof.
  intros [H1 H2]. rewrite ell_internal by lra.
  assert (0 <= vsum nd (fun d => (velocity q d - v d) ^ 2)) by (apply vsum_nonneg; intros; apply pow2_ge_0). nra.
Qed.
Lemma ell_valid q : 0 < q_rho q -> (forall v, 0 < ell v q) -> valid_cons nd q.
Proof. intros H1 H2. split; [exact H1|]. rewrite <- ell_own by lra. apply H2. Qed.

(** The functionals in question, on states and on fluxes. *)
Inductive functional : (cons -> R) -> (flux -> R) -> Prop :=
| F_rho : functional q_rho f_rho
| F_ell v : functional (ell v) (ellf v).

Lemma functional_pos F G q : functional F G -> valid_cons nd q -> 0 < F q.
Proof. intros [|v] H; [apply H|now apply valid_ell]. Qed.
Lemma functional_valid q : (forall F G, functional F G -> 0 < F q) -> valid_cons nd q.
Proof. intros H. apply ell_valid; [exact (H _ _ F_rho)|]. intros v. exact (H _ _ (F_ell v)). Qed.

(** What holds componentwise of a linear combination holds of the functionals. *)
Lemma functional_jump F G s U V f g : functional F G -> jump s U V f g -> G f - G g = s * (F U - F V).
Proof.
  intros [|v] (H1 & H2 & H3); [exact H1|]. unfold ellf, ell. 
  assert (E : vsum nd (fun d => v d * f_m f d) - vsum nd (fun d => v d * f_m g d)
              = s * (vsum nd (fun d => v d * q_m U d) - vsum nd (fun d => v d * q_m V d))).
  { rewrite <- !vsum_minus, <- vsum_scal. apply vsum_ext. intros d _. specialize (H2 d). cbn beta in H2.
    replace (v d * f_m f d - v d * f_m g d) with (v d * (f_m f d - f_m g d)) by ring. rewrite H2. ring. }
  replace (f_E f) with (f_E g + s * (q_E U - q_E V)) by lra. replace (f_rho f) with (f_rho g + s * (q_rho U - q_rho V)) by lra.
  replace (vsum nd (fun d => v d * f_m f d)) with (vsum nd (fun d => v d * f_m g d)
              + s * (vsum nd (fun d => v d * q_m U d) - vsum nd (fun d => v d * q_m V d))) by lra. field.
Qed.

Lemma functional_hll F G qL qR fL fR a b : functional F G -> b - a <> 0 ->
  G (mkFlux (flux_hll (q_rho qL) (q_rho qR) (f_rho fL) (f_rho fR) a b)
            (fun d => flux_hll (q_m qL d) (q_m qR d) (f_m fL d) (f_m fR d) a b)
            (flux_hll (q_E qL) (q_E qR) (f_E fL) (f_E fR) a b))
  = flux_hll (F qL) (F qR) (G fL) (G fR) a b.
Proof.
  intros [|v] H; [reflexivity|]. unfold ellf, ell. cbn [f_E f_m f_rho].
  rewrite (vsum_ext nd (fun d => v d * flux_hll (q_m qL d) (q_m qR d) (f_m fL d) (f_m fR d) a b)
    (fun d => b / (b - a) * (v d * f_m fL d) - a / (b - a) * (v d * f_m fR d)
              + (a * b / (b - a) * (v d * q_m qR d) - a * b / (b - a) * (v d * q_m qL d))))
    by (intros d _; unfold flux_hll; field; exact H).
  rewrite vsum_plus, !vsum_minus, !vsum_scal. unfold flux_hll. field. exact H.
Qed.

(** The flux of a state advected with velocity [u] under pressure [P]. *)
Lemma ell_advected v U u P dir : (dir < nd)%nat -> ellf v (advected_flux U u P dir) = u * ell v U + P * (u - v dir).
Proof.
  intros Hd. unfold ellf, ell. cbn [advected_flux f_E f_m f_rho].
  rewrite (vsum_ext nd (fun d => v d * (u * q_m U d + (if Nat.eqb d dir then P else 0)))
    (fun d => u * (v d * q_m U d) + (if Nat.eqb d dir then v d * P else 0)))
    by (intros d _; destruct (Nat.eqb d dir); ring).
  rewrite vsum_plus, vsum_scal.
  rewrite (vsum_single nd (fun d => if Nat.eqb d dir then v d * P else 0) dir Hd).
  - rewrite Nat.eqb_refl. field.
  - intros i _ Hi. apply Nat.eqb_neq in Hi. now rewrite Hi.
Qed.

(** ** The Euler flux *)
Variable e : eos.
Hypothesis He : lawful_eos e.
Hypothesis Hrob : robust_eos e.

Lemma euler_advected q dir : 0 < q_rho q -> euler_flux nd e q dir = advected_flux q (velocity q dir) (pressure nd e q) dir.
Proof. intros H. unfold euler_flux, advected_flux, velocity. apply flux_ext; cbn; intros; field; lra. Qed.

Lemma quadratic_pos a rho eps P y : 0 < rho -> 0 < eps -> 0 < a -> P ^ 2 < 2 * rho * a ^ 2 * eps ->
  0 < a * (eps + rho / 2 * y ^ 2) + P * y.
Proof.
  intros H1 H2 H3 H4.
  assert (0 <= (a * rho * y + P) ^ 2) by apply pow2_ge_0.
  assert (E : a * (eps + rho / 2 * y ^ 2) + P * y = ((a * rho * y + P) ^ 2 + (2 * rho * a ^ 2 * eps - P ^ 2)) / (2 * a * rho)) by (field; lra).
  rewrite E. apply Rdiv_lt_0_compat; [lra|nra].
Qed.

Lemma ell_dir v q dir : (dir < nd)%nat -> valid_cons nd q ->
  exists z, 0 <= z /\ ell v q = (internal nd q + q_rho q / 2 * (velocity q dir - v dir) ^ 2) + z.
Proof.
  intros Hd [H1 H2]. rewrite ell_internal by lra.
  pose proof (vsum_pos_term nd (fun d => (velocity q d - v d) ^ 2) dir (fun i _ => pow2_ge_0 _) Hd) as Hs. cbn beta in Hs.
  exists (q_rho q / 2 * (vsum nd (fun d => (velocity q d - v d) ^ 2) - (velocity q dir - v dir) ^ 2)). split; [nra|ring].
Qed.

Lemma state_facts q : valid_cons nd q -> 0 < pressure nd e q /\ 0 < sound nd e q /\
  pressure nd e q ^ 2 < 2 * q_rho q * sound nd e q ^ 2 * internal nd q.
Proof.
  intros [H1 H2]. pose proof (law_pres_pos _ He _ _ H1 H2) as HP. split; [exact HP|].
  split; [exact (law_sound_pos _ He _ _ H1 HP)|]. pose proof (Hrob _ _ H1 HP) as H. rewrite (law_evol_pres _ He _ _ H1 H2) in H. exact H.
Qed.

(** A state minus (plus) its flux is admissible once the speed exceeds the characteristic ones. *)
Lemma flux_minus F G q dir s : functional F G -> (dir < nd)%nat -> valid_cons nd q -> velocity q dir + sound nd e q <= s ->
  0 < s * F q - G (euler_flux nd e q dir).
Proof.
  intros HF Hd Hq Hs. pose proof Hq as [H1 H2]. destruct (state_facts q Hq) as (HP & Hc & HR).
  destruct HF as [|v].
  - cbn. replace (q_m q dir) with (velocity q dir * q_rho q) by (unfold velocity; field; lra). nra.
  - rewrite euler_advected, ell_advected by assumption. destruct (ell_dir v q dir Hd Hq) as (z & Hz & E).
    set (a := s - velocity q dir). assert (Ha : sound nd e q <= a) by (unfold a; lra).
    pose proof (quadratic_pos a (q_rho q) (internal nd q) (pressure nd e q) (v dir - velocity q dir) H1 H2 ltac:(lra)) as Hq'.
    assert (HR' : pressure nd e q ^ 2 < 2 * q_rho q * a ^ 2 * internal nd q).
    { eapply Rlt_le_trans; [exact HR|]. apply Rmult_le_compat_r; [lra|]. apply Rmult_le_compat_l; [lra|]. nra. }
    specialize (Hq' HR'). rewrite E.
    replace (s * (internal nd q + q_rho q / 2 * (velocity q dir - v dir) ^ 2 + z) -
      (velocity q dir * (internal nd q + q_rho q / 2 * (velocity q dir - v dir) ^ 2 + z) + pressure nd e q * (velocity q dir - v dir)))
      with (a * (internal nd q + q_rho q / 2 * (v dir - velocity q dir) ^ 2) + pressure nd e q * (v dir - velocity q dir) + a * z)
      by (unfold a; ring).
    assert (0 <= a * z) by (apply Rmult_le_pos; lra). lra.
Qed.
Lemma flux_plus F G q dir s : functional F G -> (dir < nd)%nat -> valid_cons nd q -> - s <= velocity q dir - sound nd e q ->
  0 < s * F q + G (euler_flux nd e q dir).
Proof.
  intros HF Hd Hq Hs. pose proof Hq as [H1 H2]. destruct (state_facts q Hq) as (HP & Hc & HR).
  destruct HF as [|v].
  - cbn. replace (q_m q dir) with (velocity q dir * q_rho q) by (unfold velocity; field; lra). nra.
  - rewrite euler_advected, ell_advected by assumption. destruct (ell_dir v q dir Hd Hq) as (z & Hz & E).
    set (a := s + velocity q dir). assert (Ha : sound nd e q <= a) by (unfold a; lra).
    pose proof (quadratic_pos a (q_rho q) (internal nd q) (pressure nd e q) (velocity q dir - v dir) H1 H2 ltac:(lra)) as Hq'.
    assert (HR' : pressure nd e q ^ 2 < 2 * q_rho q * a ^ 2 * internal nd q).
    { eapply Rlt_le_trans; [exact HR|]. apply Rmult_le_compat_r; [lra|]. apply Rmult_le_compat_l; [lra|]. nra. }
    specialize (Hq' HR'). rewrite E.
    replace (s * (internal nd q + q_rho q / 2 * (velocity q dir - v dir) ^ 2 + z) +
      (velocity q dir * (internal nd q + q_rho q / 2 * (velocity q dir - v dir) ^ 2 + z) + pressure nd e q * (velocity q dir - v dir)))
      with (a * (internal nd q + q_rho q / 2 * (velocity q dir - v dir) ^ 2) + pressure nd e q * (velocity q dir - v dir) + a * z)
      by (unfold a; ring).
    assert (0 <= a * z) by (apply Rmult_le_pos; lra). lra.
Qed.

(** ** HLL: both faces of a cell *)
Definition speed (q : cons) (dir : nat) : R := Rabs (velocity q dir) + sound nd e q.

(** [a], [b] are the clipped speeds of the right face, [a'], [b'] those of the left one. *)
Lemma hll_pair_real s a b a' b' x y xr yr xl yl : 0 < s -> 0 < x -> 0 < s * x - y -> 0 < s * x + y ->
  0 <= a <= s -> 0 <= b <= s -> 0 <= a' <= s -> 0 <= b' <= s -> 0 < a + b -> 0 < a' + b' ->
  0 < a * xr - yr -> 0 < b' * xl + yl ->
  0 < s * x + flux_hll xl x yl y (- b') a' - flux_hll x xr y yr (- b) a.
Proof.
  intros Hs Hx H1 H2 Ha Hb Ha' Hb' Hab Hab' Hr Hl.
  set (A := a / (a + b)). set (B := b' / (a' + b')).
  assert (EA : 1 - A = b / (a + b)) by (unfold A; field; lra). assert (EB : 1 - B = a' / (a' + b')) by (unfold B; field; lra).
  assert (HA : 0 <= A) by (unfold A; apply Rmult_le_pos; [lra|left; apply Rinv_0_lt_compat; lra]).
  assert (HB : 0 <= B) by (unfold B; apply Rmult_le_pos; [lra|left; apply Rinv_0_lt_compat; lra]).
  assert (HA1 : 0 <= 1 - A) by (rewrite EA; apply Rmult_le_pos; [lra|left; apply Rinv_0_lt_compat; lra]).
  assert (HB1 : 0 <= 1 - B) by (rewrite EB; apply Rmult_le_pos; [lra|left; apply Rinv_0_lt_compat; lra]).
  assert (E1 : s * x + flux_hll xl x yl y (- b') a' - flux_hll x xr y yr (- b) a
    = (s - a * (1 - A) - a' * B) * x + (B - A) * y + (1 - A) * (a * xr - yr) + (1 - B) * (b' * xl + yl))
    by (unfold A, B, flux_hll; field; lra).
  assert (E2 : a * (1 - A) = b * A) by (rewrite EA; unfold A; field; lra).
  assert (E3 : a' * B = b' * (1 - B)) by (rewrite EB; unfold B; field; lra).
  assert (T1 : 0 <= (1 - A) * (a * xr - yr)) by nra. assert (T2 : 0 <= (1 - B) * (b' * xl + yl)) by nra.
  rewrite E1. destruct (Rle_lt_dec B A) as [HAB|HAB].
  - replace ((s - a * (1 - A) - a' * B) * x + (B - A) * y)
      with ((A - B) * (s * x - y) + ((1 - A) * (s - a) + B * (s - a')) * x) by ring.
    assert (0 <= (A - B) * (s * x - y)) by nra.
    assert (K1 : 0 <= (1 - A) * (s - a)) by nra. assert (K2 : 0 <= B * (s - a')) by nra.
    destruct (Rlt_le_dec 0 (1 - A)) as [Z|Z]; [assert (0 < (1 - A) * (a * xr - yr)) by nra; nra|].
    destruct (Rlt_le_dec 0 (1 - B)) as [Z'|Z']; [assert (0 < (1 - B) * (b' * xl + yl)) by nra; nra|].
    assert (a' = 0). { assert (H0 : a' / (a' + b') = 0) by lra. apply (Rmult_eq_compat_r (a' + b')) in H0. field_simplify in H0; lra. }
    assert (0 < B * (s - a')) by nra. nra.
  - replace ((s - a * (1 - A) - a' * B) * x + (B - A) * y)
      with ((B - A) * (s * x + y) + (A * (s - b) + (1 - B) * (s - b')) * x) by (rewrite E2, E3; ring).
    assert (0 < (B - A) * (s * x + y)) by nra.
    assert (K1 : 0 <= A * (s - b)) by nra. assert (K2 : 0 <= (1 - B) * (s - b')) by nra. nra.
Qed.

Lemma speed_pos q dir : valid_cons nd q -> 0 < speed q dir.
Proof. intros Hq. destruct (state_facts q Hq) as (_ & Hc & _). unfold speed. pose proof (Rabs_pos (velocity q dir)). lra. Qed.
Lemma speed_bounds q dir s : valid_cons nd q -> speed q dir <= s ->
  velocity q dir + sound nd e q <= s /\ - s <= velocity q dir - sound nd e q.
Proof. intros Hq. unfold speed. intros H. pose proof (Rle_abs (velocity q dir)). pose proof (Rle_abs (- velocity q dir)) as H'. rewrite Rabs_Ropp in H'. lra. Qed.

(** The clipped wave speeds of a face. *)
Lemma hll_speeds qL qR dir s : valid_cons nd qL -> valid_cons nd qR -> speed qL dir <= s -> speed qR dir <= s ->
  exists a b, 0 <= a <= s /\ 0 <= b <= s /\ 0 < a + b /\
    velocity qL dir + sound nd e qL <= a /\ velocity qR dir + sound nd e qR <= a /\
    - b <= velocity qL dir - sound nd e qL /\ - b <= velocity qR dir - sound nd e qR /\
    forall F G, functional F G -> G (hll nd e qL qR dir)
      = flux_hll (F qL) (F qR) (G (euler_flux nd e qL dir)) (G (euler_flux nd e qR dir)) (- b) a.
Proof.
  intros HL HR SL SR. destruct (speed_bounds qL dir s HL SL) as [L1 L2]. destruct (speed_bounds qR dir s HR SR) as [R1 R2].
  destruct (state_facts qL HL) as (_ & cL & _). destruct (state_facts qR HR) as (_ & cR & _).
  pose proof (speed_pos qL dir HL) as Hs0.
  destruct (wave_bounds e (to_prim nd e qL) (to_prim nd e qR) dir) as (W1 & W2 & W3 & W4 & W5 & W6).
  pose proof (sound_to_prim nd e qL HL) as QL. pose proof (sound_to_prim nd e qR HR) as QR.
  change (p_u (to_prim nd e qL) dir) with (velocity qL dir) in *. change (p_u (to_prim nd e qR) dir) with (velocity qR dir) in *.
  set (wL := wave_L e (to_prim nd e qL) (to_prim nd e qR) dir) in *. set (wR := wave_R e (to_prim nd e qL) (to_prim nd e qR) dir) in *.
  exists (Rmax wR 0), (- Rmin wL 0).
  assert (M1 : wR <= Rmax wR 0 /\ 0 <= Rmax wR 0 /\ (Rmax wR 0 = wR \/ Rmax wR 0 = 0)).
  { split; [apply Rmax_l|]. split; [apply Rmax_r|]. unfold Rmax. destruct (Rle_dec wR 0); auto. }
  assert (M2 : Rmin wL 0 <= wL /\ Rmin wL 0 <= 0 /\ (Rmin wL 0 = wL \/ Rmin wL 0 = 0)).
  { split; [apply Rmin_l|]. split; [apply Rmin_r|]. unfold Rmin. destruct (Rle_dec wL 0); auto. }
  destruct M1 as (M1 & M1' & M1''). destruct M2 as (M2 & M2' & M2'').
  split; [split; [lra|destruct M1'' as [M|M], W6 as [W|W]; lra]|].
  split; [split; [lra|destruct M2'' as [M|M], W5 as [W|W]; lra]|].
  split; [lra|]. split; [lra|]. split; [lra|]. split; [lra|]. split; [lra|].
  intros F G HF. unfold hll. cbv zeta. rewrite !flux_prim_euler by assumption. fold wL wR. rewrite Ropp_involutive.
  rewrite (functional_hll F G) by (assumption || lra). reflexivity.
Qed.

Lemma hll_pair q ql qr dir s : (dir < nd)%nat -> valid_cons nd q -> valid_cons nd ql -> valid_cons nd qr ->
  speed q dir <= s -> speed ql dir <= s -> speed qr dir <= s ->
  forall F G, functional F G -> 0 < s * F q + G (hll nd e ql q dir) - G (hll nd e q qr dir).
Proof.
  intros Hd Hq Hl Hr S0 Sl Sr F G HF.
  destruct (hll_speeds q qr dir s Hq Hr S0 Sr) as (a & b & A1 & A2 & A3 & A4 & A5 & A6 & A7 & A8).
  destruct (hll_speeds ql q dir s Hl Hq Sl S0) as (a' & b' & B1 & B2 & B3 & B4 & B5 & B6 & B7 & B8).
  rewrite (A8 F G HF), (B8 F G HF). destruct (speed_bounds q dir s Hq S0) as [Q1 Q2].
  apply hll_pair_real; try assumption.
  - pose proof (speed_pos q dir Hq). lra.
  - now apply (functional_pos F G).
  - now apply flux_minus.
  - now apply flux_plus.
  - now apply flux_minus.
  - now apply flux_plus.
Qed.

(** ** HLLC: each face *)
Lemma star_valid U u P dir q f s : (dir < nd)%nat -> 0 < q_rho U -> velocity U dir = u ->
  jump s U q (advected_flux U u P dir) f ->
  (s < u /\ (forall F G, functional F G -> 0 < (- s) * F q + G f)) \/ (u < s /\ (forall F G, functional F G -> 0 < s * F q - G f)) ->
  valid_cons nd U.
Proof.
  intros Hd Hr Hu HJ H. split; [exact Hr|]. rewrite <- ell_own by lra.
  pose proof (functional_jump _ _ _ _ _ _ _ (F_ell (velocity U)) HJ) as E. rewrite ell_advected in E by assumption. rewrite Hu in E.
  destruct H as [[H1 H2]|[H1 H2]]; specialize (H2 _ _ (F_ell (velocity U))); nra.
Qed.

(** The flux differs from that of the left (right) state as if by mixing with an admissible state. *)
Lemma hllc_faces qL qR dir s : (dir < nd)%nat -> valid_cons nd qL -> valid_cons nd qR -> speed qL dir <= s -> speed qR dir <= s ->
  forall F G, functional F G ->
    0 < s * F qL + G (euler_flux nd e qL dir) - G (hllc nd e qL qR dir) /\
    0 < s * F qR - G (euler_flux nd e qR dir) + G (hllc nd e qL qR dir).
Proof.
  intros Hd HL HR SL SR F G HF.
  destruct (speed_bounds qL dir s HL SL) as [L1 L2]. destruct (speed_bounds qR dir s HR SR) as [R1 R2].
  destruct (state_facts qL HL) as (_ & cL & _). destruct (state_facts qR HR) as (_ & cR & _).
  pose proof (speed_pos qL dir HL) as Hs0. assert (Hs : 0 < s) by lra.
  pose proof (functional_pos F G qL HF HL) as PL. pose proof (functional_pos F G qR HF HR) as PR.
  destruct (hllc_wave_model nd e He qL qR dir HL HR) as (sL & us & sR & P & UL & UR & E1 & E2 & [O1 O2] & R1' & R2' & V1 & V2 & _ & J1 & J2 & EF & I1 & I2).
  assert (B1 : sL <= velocity qL dir - sound nd e qL) by (rewrite E1; apply Rmin_l).
  assert (B2 : velocity qR dir + sound nd e qR <= sR) by (rewrite E2; apply Rmax_r).
  assert (B1' : sL <= velocity qR dir - sound nd e qR) by (rewrite E1; apply Rmin_r).
  assert (B2' : velocity qL dir + sound nd e qL <= sR) by (rewrite E2; apply Rmax_l).
  assert (BL : - s <= sL) by (rewrite E1; apply Rmin_glb; assumption).
  assert (BR : sR <= s) by (rewrite E2; apply Rmax_lub; assumption).
  assert (VL : valid_cons nd UL).
  { apply (star_valid UL us P dir qL _ sL Hd R1' V1 J1). left. split; [exact O1|]. intros F' G' HF'. apply flux_plus; [assumption..|lra]. }
  assert (VR : valid_cons nd UR).
  { apply (star_valid UR us P dir qR _ sR Hd R2' V2 J2). right. split; [exact O2|]. intros F' G' HF'. now apply flux_minus. }
  pose proof (functional_pos F G UL HF VL) as XL. pose proof (functional_pos F G UR HF VR) as XR.
  pose proof (functional_jump _ _ _ _ _ _ _ HF J1) as K1. pose proof (functional_jump _ _ _ _ _ _ _ HF J2) as K2.
  (* the contact *)
  assert (K3 : G (advected_flux UR us P dir) - G (advected_flux UL us P dir) = us * (F UR - F UL)).
  { destruct HF as [|v]; [cbn; ring|rewrite !ell_advected by assumption; ring]. }
  pose proof (flux_plus F G qL dir s HF Hd HL L2) as ZL. pose proof (flux_minus F G qR dir s HF Hd HR R1) as ZR.
  assert (ZR' : 0 < sR * F qR - G (euler_flux nd e qR dir)) by now apply flux_minus.
  assert (ZL' : 0 < - sL * F qL + G (euler_flux nd e qL dir)) by (apply flux_plus; [assumption..|lra]).
  rewrite EF. destruct (rltb 0 (sL * sR)) eqn:Ew.
  - apply rltb_true in Ew. assert (Hc : 0 < sL \/ sR < 0) by (destruct (Rlt_le_dec 0 sL); [left; assumption|right; nra]).
    destruct Hc as [Hc|Hc].
    + rewrite (proj2 (rltb_true 0 us) (I1 Hc)). split; [nra|nra].
    + rewrite (proj2 (rltb_false 0 us)) by (specialize (I2 Hc); lra). split; nra.
  - apply rltb_false in Ew. assert (sL <= 0 <= sR) by (split; nra).
    assert (N1 : 0 <= (s + sL) * F qL) by (apply Rmult_le_pos; lra). assert (N2 : 0 <= (s - sR) * F qR) by (apply Rmult_le_pos; lra).
    assert (N3 : 0 < (us - sL) * F UL) by (apply Rmult_lt_0_compat; lra). assert (N4 : 0 < (sR - us) * F UR) by (apply Rmult_lt_0_compat; lra).
    assert (N5 : 0 < s * F qL) by nra. assert (N6 : 0 < s * F qR) by nra.
    destruct (rltb 0 us) eqn:Eu; [apply rltb_true in Eu|apply rltb_false in Eu]; split.
    + assert (E : s * F qL + G (euler_flux nd e qL dir) - G (advected_flux UL us P dir) = (s + sL) * F qL + (- sL) * F UL) by lra.
      rewrite E. destruct (Req_dec sL 0) as [Z|Z]; [rewrite Z in *; lra|]. assert (0 < (- sL) * F UL) by (apply Rmult_lt_0_compat; lra). lra.
    + assert (0 < us * F UL) by (apply Rmult_lt_0_compat; lra). lra.
    + assert (0 <= (- us) * F UR) by (apply Rmult_le_pos; lra). lra.
    + assert (E : s * F qR - G (euler_flux nd e qR dir) + G (advected_flux UR us P dir) = (s - sR) * F qR + sR * F UR) by lra.
      rewrite E. destruct (Req_dec sR 0) as [Z|Z]; [rewrite Z in *; lra|]. assert (0 < sR * F UR) by (apply Rmult_lt_0_compat; lra). lra.
Qed.

Lemma hllc_pair q ql qr dir s : (dir < nd)%nat -> valid_cons nd q -> valid_cons nd ql -> valid_cons nd qr ->
  speed q dir <= s -> speed ql dir <= s -> speed qr dir <= s ->
  forall F G, functional F G -> 0 < 2 * s * F q + G (hllc nd e ql q dir) - G (hllc nd e q qr dir).
Proof.
  intros Hd Hq Hl Hr S0 Sl Sr F G HF.
  destruct (hllc_faces q qr dir s Hd Hq Hr S0 Sr F G HF) as [H1 _].
  destruct (hllc_faces ql q dir s Hd Hl Hq Sl S0 F G HF) as [_ H2]. lra.
Qed.
End Lin.

Lemma perfect_gas_robust g : 1 < pg_gamma g -> 0 < pg_mmw g -> robust_eos (pg_eos g).
Proof.
  intros Hg Hm rho P Hr HP. cbn [pg_eos eos_sound eos_evol]. rewrite (pg_evol g (conj Hg Hm)) by lra.
  destruct (pg_sound_sq g (conj Hg Hm) rho P Hr HP) as [E _]. replace (pg_sound g rho P ^ 2) with (pg_gamma g * P / rho) by lra.
  replace (2 * rho * (pg_gamma g * P / rho) * (P / (pg_gamma g - 1))) with (2 * pg_gamma g / (pg_gamma g - 1) * P ^ 2) by (field; lra).
  assert (1 < 2 * pg_gamma g / (pg_gamma g - 1)).
  { apply (Rmult_lt_reg_r (pg_gamma g - 1)); [lra|]. unfold Rdiv. rewrite Rmult_assoc, Rinv_l by lra. lra. }
  assert (0 < P ^ 2) by (apply pow_lt; exact HP). nra.
Qed.
