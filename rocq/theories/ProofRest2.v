(** * Layered gases at rest: HLL, and van Leer slopes where cells get narrower (C109). *)
From Coq Require Import FunctionalExtensionality ZifyBool ZifyNat Lra Psatz.
From Verif Require Import Base RBase ModelMesh ModelGeom ModelBoundary ModelHydro ModelScheme ModelStep
  SpecMesh SpecBoundary SpecHydro SpecScheme SpecStep SpecAdvect SpecRest
  ProofBase ProofMesh ProofR ProofBoundary ProofBoundary2 ProofHydro ProofHydro2 ProofScheme ProofMirror ProofShift ProofReduce ProofStep ProofSteady
  ProofCfl ProofPos2 ProofAdvect ProofAdvect2 ProofRest.
Local Open Scope R_scope.

Lemma mv_eq nd e u0 P0 q q' : mv nd e u0 P0 q -> mv nd e u0 P0 q' -> q_rho q = q_rho q' -> q = q'.
Proof.
  intros (_ & A & B) (_ & A' & B') E. apply cons_ext; [exact E|intros k; now rewrite A, A', E|now rewrite B, B', E].
Qed.

Section Hll.
Context (K : config) (N dims : idx) (X : nat -> arr1) (L : layout) (P0 : R).
Hypothesis HR : runs_on K N dims X L.
Hypothesis He : lawful_eos (k_eos K).
Hypothesis Hev : energy_of_pressure (k_eos K).
Hypothesis HP0 : 0 < P0.
Hypothesis HW : plain_flow K no_velocity.
Hypothesis Hincr : increasing (k_nd K) N (k_ng K) X.
Hypothesis Hlim : k_lim K = LConstant.
Hypothesis Hsol : k_sol K = HLL.
Hypothesis Hone : k_nd K = 1%nat.
Notation nd := (k_nd K).
Notation ng := (k_ng K).
Notation vr := (process nd dims).
Notation own r := (owned nd ng (d_nloc (l_dec L r))).
Notation u0 := no_velocity.
Notation adv := (adv_state K dims L u0 P0 (fun _ => True)).
Let HL := ro_layout HR.

Lemma bf : bounded_faces (k_lim K) nd N ng X.
Proof. rewrite Hlim. exact I. Qed.

Lemma hll_moves S t dt r c : adv S -> vr r -> own r c -> dt <> 0 ->
  c_rho (s_cell (S r) (lindex 0 c)) = c_rho (s_cell (S r) c) -> c_rho (s_cell (S r) (rindex 0 c)) <> c_rho (s_cell (S r) c) ->
  c_rho (s_cell (full_step K L t dt S r) c) <> c_rho (s_cell (S r) c).
Proof.
  intros HS Hr Hc Hdt E1 E2.
  pose proof (proj2 (sel_owned _ _ _ _ _ _ _ HL Hr) Hc) as Hs.
  pose proof (owned_in_array K N dims X L HL r c Hr Hc) as Ha.
  assert (Hd : (0 < nd)%nat) by lia.
  assert (Hst : forall x, in_stencil nd c x -> sel K L 1 r x = true) by (intros x Hx; apply (owned_sel1 K N dims X L HL r c _ Hr Hc Hx)).
  assert (Hrec : forall x sd, in_stencil nd c x -> (sd < 2)%nat -> mv nd (k_eos K) u0 P0 (r_q (step_rec K L dt S r) x sd 0%nat)).
  { intros x sd Hx Hsd. apply (rest_mv K N dims X L P0 HR Hev HP0 Hincr bf); auto. }
  assert (Hrho : forall x sd, in_stencil nd c x -> (sd < 2)%nat -> q_rho (r_q (step_rec K L dt S r) x sd 0%nat) = c_rho (s_cell (S r) x)).
  { intros x sd Hx Hsd. rewrite (rest_rec K N dims X L P0 HR) by (auto). now rewrite Hlim, face_value_constant. }
  pose proof (or_introl eq_refl : in_stencil nd c c) as S0. pose proof (st_l K c 0 Hd) as Sl. pose proof (st_r K c 0 Hd) as Sr.
  unfold full_step. cbn [finish s_cell]. rewrite (bcs_owned K N dims X L HL) by (auto; exact (ro_faces HR)).
  assert (Eu : c_rho (step_user K L t dt S r c) = c_rho (step_godunov K L dt S r c)).
  { unfold step_user, user_step. rewrite kwrite_in by assumption. rewrite (pw_user HW). cbn [user_cell].
    unfold step_pf. rewrite (pw_pf HW). reflexivity. }
  rewrite Eu. unfold step_godunov, godunov. rewrite kwrite_in by assumption. cbn [god_cell c_rho]. unfold god_rho.
  rewrite (pw_geom HW), Hone. cbn [vsum]. rewrite <- Hone at 1.
  assert (Wp : forall d, (d < 3)%nat -> 0 < mdx (l_mesh L r) d (coord d c)) by (intros d Hd3; now apply (wpos K N dims X L HR Hincr)).
  rewrite (cart_rate nd (l_mesh L r) dt c ltac:(lia) Wp) by lia.
  unfold flux_left, flux_right, face_flux. rewrite Hsol. cbn [riemann].
  assert (Z0 : f_rho (hll 1 (k_eos K) (r_q (step_rec K L dt S r) (lindex 0 c) 1%nat 0%nat) (r_q (step_rec K L dt S r) c 0%nat 0%nat) 0) = 0).
  { rewrite (mv_eq nd (k_eos K) u0 P0 (r_q (step_rec K L dt S r) (lindex 0 c) 1%nat 0%nat) (r_q (step_rec K L dt S r) c 0%nat 0%nat)); auto.
    - change (hll 1) with (riemann HLL 1). rewrite <- Hone. rewrite (riemann_consistent nd (k_eos K) He HLL); [|exact (mv_valid nd (k_eos K) u0 P0 He Hev HP0 _ (Hrec c 0%nat S0 ltac:(lia)))].
      destruct (Hrec c 0%nat S0 ltac:(lia)) as (_ & A & _). unfold euler_flux. cbn [f_rho]. unfold velocity. rewrite A. unfold no_velocity, Rdiv. ring.
    - rewrite !Hrho by (auto; lia). exact E1. }
  assert (Z1 : forall n, n = nd -> f_rho (hll n (k_eos K) (r_q (step_rec K L dt S r) c 1%nat 0%nat) (r_q (step_rec K L dt S r) (rindex 0 c) 0%nat 0%nat) 0) <> 0).
  { intros n ->. pose proof (Hrec c 1%nat S0 ltac:(lia)) as M1. pose proof (Hrec _ 0%nat Sr ltac:(lia)) as M2.
    apply (hll_diffuses_contacts nd (k_eos K) He).
    - exact (mv_valid nd (k_eos K) u0 P0 He Hev HP0 _ M1).
    - exact (mv_valid nd (k_eos K) u0 P0 He Hev HP0 _ M2).
    - destruct M1 as (_ & A & _). unfold velocity. rewrite A. unfold no_velocity, Rdiv. ring.
    - destruct M2 as (_ & A & _). unfold velocity. rewrite A. unfold no_velocity, Rdiv. ring.
    - rewrite !Hrho by (auto; lia). congruence. }
  specialize (Z1 1%nat (eq_sym Hone)).
  rewrite Z0. set (F := f_rho (hll 1 _ (r_q _ c 1%nat 0%nat) _ 0)) in *.
  pose proof (Wp 0%nat ltac:(lia)) as W0. intros E.
  assert (Q : dt / mdx (l_mesh L r) 0 (coord 0 c) * F = 0) by lra.
  apply Rmult_integral in Q. destruct Q as [Q|Q]; [|contradiction].
  apply Rmult_integral in Q. destruct Q as [Q|Q]; [contradiction|]. apply (Rinv_neq_0_compat (mdx (l_mesh L r) 0 (coord 0 c))); [lra|exact Q].
Qed.

Lemma hll_smears G S t dt r c : starts_from K dims L G S -> layers_at_rest P0 G -> vr r ->
  own r c -> own r (lindex 0 c) -> own r (rindex 0 c) -> dt <> 0 ->
  let at_ x := g_rho G (global_index nd ng (corner_min (d_range (l_dec L r))) x) in
  at_ (lindex 0 c) = at_ c -> at_ (rindex 0 c) <> at_ c ->
  c_rho (s_cell (full_step K L t dt (init_state K L S) r) c) <> at_ c.
Proof.
  intros H HG Hr Hc Hl Hrr Hdt at_ E1 E2.
  assert (I0 : forall x, own r x -> c_rho (s_cell (init_state K L S r) x) = at_ x).
  { intros x Hx. unfold init_state. cbn [finish s_cell]. rewrite (bcs_owned K N dims X L HL) by (auto; exact (ro_faces HR)).
    cbn [init_cons c_rho]. exact (sf_rho H r Hr x Hx). }
  rewrite <- (I0 c Hc). apply hll_moves; auto.
  - apply (adv_init K N dims X L u0 P0 HR He Hev HP0 (pw_grav HW) (pw_wall HW) (fun _ => True) G); auto.
  - rewrite !I0 by assumption. exact E1.
  - rewrite !I0 by assumption. exact E2.
Qed.
End Hll.

(** ** Van Leer slopes towards a narrower cell *)
Lemma narrow_face m c d : (d < 3)%nat ->
  0 < mdx m d (coord d c - 1) -> 0 < mdx m d (coord d c) -> 0 < mdx m d (coord d c + 1) -> mdx m d (coord d c + 1) < mdx m d (coord d c) ->
  exists rho : field3, (forall x, 0 < rho x) /\ face_value LVanLeer m rho c 1 d < 0.
Proof.
  intros Hd Hm H0 Hp Hlt.
  set (hm := mdx m d (coord d c - 1)) in *. set (h := mdx m d (coord d c)) in *. set (hp := mdx m d (coord d c + 1)) in *.
  set (w := (h + hp) / 2). set (wm := (hm + h) / 2). assert (W : 0 < w < h) by (unfold w; lra). assert (Wm : 0 < wm) by (unfold wm; lra).
  set (q := h / w). assert (Q : 1 < q).
  { unfold q. apply (Rmult_lt_reg_r w); [lra|]. unfold Rdiv. rewrite Rmult_assoc, Rinv_l by lra. lra. }
  set (eps := (q - 1) / (4 * q)). set (be := 8 / (3 * (q - 1))).
  assert (E0 : 0 < eps < 1 / 4).
  { unfold eps. split; [apply Rdiv_lt_0_compat; lra|]. apply (Rmult_lt_reg_r (4 * q)); [lra|]. unfold Rdiv at 1. rewrite Rmult_assoc, Rinv_l by lra. lra. }
  assert (B0 : 0 < be) by (unfold be; apply Rdiv_lt_0_compat; lra).
  set (vm := 1 + be * (1 - eps) / w * wm).
  assert (Vm : 0 < vm).
  { unfold vm. assert (0 < be * (1 - eps) / w * wm); [|lra]. apply Rmult_lt_0_compat; [|lra]. apply Rdiv_lt_0_compat; [apply Rmult_lt_0_compat; lra|lra]. }
  exists (fun x => if (coord d x =? coord d c + 1)%Z then eps else if (coord d x =? coord d c - 1)%Z then vm else 1).
  split; [intros x; destruct (Z.eqb _ _); [lra|]; destruct (Z.eqb _ _); lra|].
  rewrite face_value_eq by lia. rewrite coord_rindex_same, coord_lindex_same by lia.
  rewrite Z.eqb_refl. replace (coord d c =? coord d c + 1)%Z with false by (symmetry; apply Z.eqb_neq; lia).
  replace (coord d c =? coord d c - 1)%Z with false by (symmetry; apply Z.eqb_neq; lia).
  replace (coord d c - 1 =? coord d c + 1)%Z with false by (symmetry; apply Z.eqb_neq; lia). rewrite Z.eqb_refl.
  fold h hm hp. fold w wm. cbn [slope].
  set (a := (eps - 1) / w). replace ((1 - vm) / wm) with (be * a) by (unfold vm, a; field; lra).
  assert (An : a < 0).
  { unfold a, Rdiv. assert (0 < / w) by (apply Rinv_0_lt_compat; lra). nra. }
  assert (F : van_leer a (be * a) = 2 * a * be / (1 + be)).
  { assert (P : 0 < a * a) by nra. rewrite van_leer_form by (rewrite Rmult_assoc; now apply Rmult_lt_0_compat).
    assert (D : a * (1 + be) < 0) by nra. field. split; lra. }
  rewrite F.
  assert (Ha : h * a = - q * (1 - eps)) by (unfold a, q; field; lra).
  replace (1 + 1 * (h / 2) * (2 * a * be / (1 + be))) with (1 + h * a * (be / (1 + be))) by (field; lra).
  rewrite Ha.
  assert (Hq : q * (1 - eps) = (3 * q + 1) / 4) by (unfold eps; field; lra).
  replace (- q * (1 - eps)) with (- ((3 * q + 1) / 4)) by lra.
  assert (Hb : be / (1 + be) = 8 / (3 * q + 5)) by (unfold be; field; lra).
  rewrite Hb. apply (Rmult_lt_reg_r (3 * q + 5)); [lra|]. replace ((1 + - ((3 * q + 1) / 4) * (8 / (3 * q + 5))) * (3 * q + 5)) with (3 * q + 5 - 2 * (3 * q + 1)) by (field; lra).
  lra.
Qed.
