(** * Sources of momentum and energy. *)
From Coquelicot Require Import Coquelicot.
From Coq Require Import FunctionalExtensionality ZifyBool ZifyNat.
From Verif Require Import Base RBase ModelMesh ModelGeom ModelBoundary ModelHydro ModelScheme ModelStep
  SpecMesh SpecGeom SpecBoundary SpecHydro SpecScheme SpecStep SpecSource
  ProofBase ProofR ProofGeom ProofBoundary ProofHydro ProofHydro2 ProofScheme ProofStep.
Local Open Scope R_scope.

(** ** C62: averages *)
Lemma mean_inv_r_val r rp : 0 < r -> r < rp ->
  mean_inv_r r rp = 3 / 2 * (rp * rp - r * r) / (rp * rp * rp - r * r * r).
Proof.
  intros H H'. unfold mean_inv_r.
  rewrite (RInt_ext (fun a => / a * (a * a)) (fun a => 1 * a)).
  2:{ intros x. rewrite Rmin_left, Rmax_right by lra. intros Hx. change (/ x * (x * x) = 1 * x). field. lra. }
  rewrite (is_RInt_unique _ _ _ _ (is_RInt_poly1 r rp 1)).
  rewrite (RInt_ext (fun a => a * a) (fun a => 1 * (a * a))) by (intros x _; change (x * x = 1 * (x * x)); ring).
  rewrite (is_RInt_unique _ _ _ _ (is_RInt_poly2 r rp 1)).
  assert (0 < rp * rp * rp - r * r * r).
  { replace (rp * rp * rp - r * r * r) with ((rp - r) * (rp * rp + rp * r + r * r)) by ring.
    apply Rmult_lt_0_compat; [lra|]. assert (0 < rp * rp) by (apply Rmult_lt_0_compat; lra). nra. }
  field. lra.
Qed.
Lemma is_RInt_cos a b : is_RInt cos a b (sin b - sin a).
Proof.
  apply (is_RInt_derive (V := R_CompleteNormedModule) sin cos); intros x _.
  - auto_derive; [exact I|ring].
  - apply continuity_pt_filterlim, continuity_cos.
Qed.
Lemma mean_cot_val th thp : 0 < th -> th < thp -> thp < PI ->
  mean_cot th thp = (sin thp - sin th) / (cos th - cos thp).
Proof.
  intros H H' H''. unfold mean_cot.
  rewrite (RInt_ext (fun b => cos b / sin b * sin b) cos).
  2:{ intros x. rewrite Rmin_left, Rmax_right by lra. intros Hx. change (cos x / sin x * sin x = cos x). field.
      assert (0 < sin x) by (apply sin_gt_0; lra). lra. }
  rewrite (is_RInt_unique _ _ _ _ (is_RInt_cos th thp)).
  rewrite (RInt_ext sin (fun b => 1 * sin b)) by (intros x _; change (sin x = 1 * sin x); ring).
  rewrite (is_RInt_unique _ _ _ _ (is_RInt_sin th thp 1)). f_equal. ring.
Qed.

(** Sizes of a spherical cell in terms of its bounds. *)
Lemma sph_cell nd m c : (1 <= nd <= 3)%nat -> 0 < m 0%nat (ii c) -> m 0%nat (ii c) < m 0%nat (ii c + 1)%Z ->
  ((2 <= nd)%nat -> 0 < m 1%nat (jj c) /\ m 1%nat (jj c) < m 1%nat (jj c + 1)%Z /\ m 1%nat (jj c + 1)%Z < PI) ->
  (nd = 3%nat -> m 2%nat (kk c) < m 2%nat (kk c + 1)%Z) ->
  exists w, 0 < w /\
    dv Spherical nd m c = w * ((m 0%nat (ii c + 1)%Z) ^ 3 - (m 0%nat (ii c)) ^ 3) / 3 /\
    ds Spherical nd m c 0 = w * (m 0%nat (ii c)) ^ 2 /\
    ds Spherical nd m (rindex 0 c) 0 = w * (m 0%nat (ii c + 1)%Z) ^ 2 /\
    ((2 <= nd)%nat -> exists v, v <> 0 /\ w = v * (cos (m 1%nat (jj c)) - cos (m 1%nat (jj c + 1)%Z)) /\
       ds Spherical nd m c 1 = v / 2 * ((m 0%nat (ii c + 1)%Z) ^ 2 - (m 0%nat (ii c)) ^ 2) * sin (m 1%nat (jj c)) /\
       ds Spherical nd m (rindex 1 c) 1 = v / 2 * ((m 0%nat (ii c + 1)%Z) ^ 2 - (m 0%nat (ii c)) ^ 2) * sin (m 1%nat (jj c + 1)%Z)).
Proof.
  intros Hnd Hr Hrp Hth Hph. pose proof PI_RGT_0 as Hpi.
  assert (Hc : (2 <= nd)%nat -> 0 < cos (m 1%nat (jj c)) - cos (m 1%nat (jj c + 1)%Z)).
  { intros H. destruct (Hth H) as (A & B & C). pose proof (cos_decr_strict _ _ (Rlt_le _ _ A) B (Rlt_le _ _ C)). lra. }
  destruct c as [i j k]. cbn [ii jj kk] in *.
  destruct nd as [|[|[|[|nd]]]]; try lia.
  - exists (4 * PI). split; [lra|]. cbn. unfold rindex, kron. cbn.
    split; [field|]. split; [ring|]. split; [ring|]. intros; lia.
  - specialize (Hc ltac:(lia)). exists (2 * PI * (cos (m 1%nat j) - cos (m 1%nat (j + 1)%Z))).
    cbn. unfold rindex, kron, sph_ds, sph_dv, sph_dcos. cbn. rewrite ?Z.add_0_r.
    split; [apply Rmult_lt_0_compat; lra|]. split; [field|]. split; [ring|]. split; [ring|].
    intros _. exists (2 * PI). split; [lra|]. split; [reflexivity|]. split; field.
  - specialize (Hc ltac:(lia)). specialize (Hph eq_refl).
    exists (mdx m 2 k * (cos (m 1%nat j) - cos (m 1%nat (j + 1)%Z))).
    assert (Hk : 0 < mdx m 2 k) by (unfold mdx; lra).
    cbn. unfold rindex, kron, sph_ds, sph_dv, sph_dcos. cbn. rewrite ?Z.add_0_r.
    split; [apply Rmult_lt_0_compat; lra|]. split; [field|]. split; [ring|]. split; [ring|].
    intros _. exists (mdx m 2 k). split; [lra|]. split; [reflexivity|]. split; field.
Qed.

Section Sph.
Variables (nd : nat) (m : mesh) (c : idx).
Notation r := (m 0%nat (ii c)).
Notation rp := (m 0%nat (ii c + 1)%Z).
Notation th := (m 1%nat (jj c)).
Notation thp := (m 1%nat (jj c + 1)%Z).
Hypothesis Hnd : (1 <= nd <= 3)%nat.
Hypothesis Hr : 0 < r < rp.
Hypothesis Hth : (2 <= nd)%nat -> 0 < th /\ th < thp /\ thp < PI.
Hypothesis Hph : nd = 3%nat -> m 2%nat (kk c) < m 2%nat (kk c + 1)%Z.
Variables (dt : R) (p : prim).

Let Hcube : 0 < rp ^ 3 - r ^ 3.
Proof. replace (rp ^ 3 - r ^ 3) with ((rp - r) * (rp ^ 2 + rp * r + r ^ 2)) by ring.
  apply Rmult_lt_0_compat; [lra|]. assert (0 < rp * r) by (apply Rmult_lt_0_compat; lra). nra.
Qed.

Lemma radial_source :
  geo_source Spherical nd m c (dt / dv Spherical nd m c) p p 0 0
  = dt * mean_inv_r r rp * (2 * p_P p + p_rho p * ((if Nat.leb 2 nd then p_u p 1%nat ^ 2 else 0) + (if Nat.leb 3 nd then p_u p 2%nat ^ 2 else 0))).
Proof.
  destruct (sph_cell nd m c Hnd (proj1 Hr) (proj2 Hr) Hth Hph) as (w & Hw & E1 & E2 & E3 & _).
  unfold geo_source. rewrite E1, E2, E3, mean_inv_r_val by lra.
  replace (Nat.eqb nd 3) with (Nat.leb 3 nd) by (destruct nd as [|[|[|[|?]]]]; reflexivity || lia).
  unfold source_grad_pres, source_grad_u_r.
  destruct (Nat.leb 2 nd), (Nat.leb 3 nd); field; split; lra.
Qed.

Lemma transport_source k : (1 <= k)%nat -> (k < nd)%nat ->
  geo_source Spherical nd m c (dt / dv Spherical nd m c) p p 0 k
  = - dt * mean_inv_r r rp * (p_rho p * p_u p 0%nat * p_u p k) * (1 + ((rp - r) / (rp + r)) ^ 2).
Proof.
  intros Hk1 Hk.
  destruct (sph_cell nd m c Hnd (proj1 Hr) (proj2 Hr) Hth Hph) as (w & Hw & E1 & E2 & E3 & _).
  unfold geo_source. rewrite E1, E2, E3, mean_inv_r_val by lra. unfold source_grad_u_idir_r.
  destruct k as [|[|[|k]]]; try lia.
  - replace (Nat.leb 2 nd) with true by (symmetry; apply Nat.leb_le; lia). field. repeat split; lra.
  - replace (Nat.eqb nd 3) with true by (symmetry; apply Nat.eqb_eq; lia). field. repeat split; lra.
Qed.

Lemma polar_source : (2 <= nd)%nat ->
  geo_source Spherical nd m c (dt / dv Spherical nd m c) p p 1 1
  = dt * mean_inv_r r rp * mean_cot th thp *
    (p_P p + (if Nat.leb 3 nd then p_rho p * p_u p 2%nat ^ 2 * (cos (mxc m 1 (jj c)) / sin (mxc m 1 (jj c)) / 2) else 0)).
Proof.
  intros H2. destruct (Hth H2) as (T1 & T2 & T3).
  assert (Hc : 0 < cos th - cos thp) by (pose proof (cos_decr_strict _ _ (Rlt_le _ _ T1) T2 (Rlt_le _ _ T3)); lra).
  assert (Hs : sin (mxc m 1 (jj c)) <> 0).
  { assert (0 < sin (mxc m 1 (jj c))); [|lra]. apply sin_gt_0; unfold mxc; lra. }
  destruct (sph_cell nd m c Hnd (proj1 Hr) (proj2 Hr) Hth Hph) as (w & Hw & E1 & _ & _ & E).
  destruct (E H2) as (v & Hv & Ew & E4 & E5).
  unfold geo_source. rewrite E1, E4, E5, mean_inv_r_val, mean_cot_val by lra.
  replace (Nat.eqb nd 3) with (Nat.leb 3 nd) by (destruct nd as [|[|[|[|?]]]]; reflexivity || lia).
  unfold source_grad_pres, source_grad_u_th, mxc in *. rewrite Ew.
  set (D := cos th - cos thp) in *. clearbody D.
  set (s1 := sin th). set (s2 := sin thp). set (CC := cos ((th + thp) / 2)). set (SS := sin ((th + thp) / 2)) in *.
  clearbody s1 s2 CC SS.
  destruct (Nat.leb 3 nd); field; repeat split; try lra; nra.
Qed.

Lemma azimuthal_source : nd = 3%nat ->
  geo_source Spherical nd m c (dt / dv Spherical nd m c) p p 1 2
  = - dt * mean_inv_r r rp * mean_cot th thp * (p_rho p * p_u p 1%nat * p_u p 2%nat).
Proof.
  intros H3. destruct (Hth ltac:(lia)) as (T1 & T2 & T3).
  assert (Hc : 0 < cos th - cos thp) by (pose proof (cos_decr_strict _ _ (Rlt_le _ _ T1) T2 (Rlt_le _ _ T3)); lra).
  assert (Hs1 : 0 < sin th) by (apply sin_gt_0; lra). assert (Hs2 : 0 < sin thp) by (apply sin_gt_0; lra).
  destruct (sph_cell nd m c Hnd (proj1 Hr) (proj2 Hr) Hth Hph) as (w & Hw & E1 & _ & _ & E).
  destruct (E ltac:(lia)) as (v & Hv & Ew & E4 & E5).
  unfold geo_source. rewrite E1, E4, E5, mean_inv_r_val, mean_cot_val by lra.
  replace (Nat.eqb nd 3) with true by (symmetry; now apply Nat.eqb_eq).
  unfold source_grad_u_phi. rewrite Ew. cbv zeta.
  set (D := cos th - cos thp) in *. clearbody D.
  set (s1 := sin th) in *. set (s2 := sin thp) in *. clearbody s1 s2.
  field. repeat split; try lra; nra.
Qed.
End Sph.

(** ** C61: angular momentum *)

(** What one sweep adds to momentum [k], for fluxes [FL], [FR] of that momentum at the two faces. *)
Lemma lever_radial nd m c dt FL FR pL pR k : (1 <= k)%nat -> (k < nd)%nat -> (nd <= 3)%nat ->
  0 < m 0%nat (ii c) < m 0%nat (ii c + 1)%Z ->
  let r := m 0%nat (ii c) in let rp := m 0%nat (ii c + 1)%Z in
  let dS := ds Spherical nd m c 0 in let dS_p := ds Spherical nd m (rindex 0 c) 0 in
  mxc m 0 (ii c) * (flux_diff Spherical nd m dt c 0 FL FR + geo_source Spherical nd m c (dt / dv Spherical nd m c) pL pR 0 k)
  = dt / dv Spherical nd m c * ((r * FL) * dS - (rp * FR) * dS_p)
    + dt / dv Spherical nd m c * (rp - r) / 2 *
      ((FL - p_rho pL * p_u pL 0%nat * p_u pL k) * dS + (FR - p_rho pR * p_u pR 0%nat * p_u pR k) * dS_p).
Proof.
  intros Hk1 Hk Hnd Hr r rp dS dS_p. fold r rp in Hr. unfold flux_diff, geo_source, mxc. fold r rp dS dS_p.
  set (q := dt / dv Spherical nd m c). clearbody q.
  clearbody dS dS_p r rp.
  destruct k as [|[|[|k]]]; try lia; unfold source_grad_u_idir_r.
  - replace (Nat.leb 2 nd) with true by (symmetry; apply Nat.leb_le; lia). field. lra.
  - replace (Nat.eqb nd 3) with true by (symmetry; apply Nat.eqb_eq; lia). field. lra.
Qed.
Lemma lever_polar m c dt FL FR pL pR :
  0 < sin (m 1%nat (jj c)) + sin (m 1%nat (jj c + 1)%Z) ->
  let s := sin (m 1%nat (jj c)) in let sp := sin (m 1%nat (jj c + 1)%Z) in
  let dS := ds Spherical 3 m c 1 in let dS_p := ds Spherical 3 m (rindex 1 c) 1 in
  (s + sp) / 2 * (flux_diff Spherical 3 m dt c 1 FL FR + geo_source Spherical 3 m c (dt / dv Spherical 3 m c) pL pR 1 2)
  = dt / dv Spherical 3 m c * ((s * FL) * dS - (sp * FR) * dS_p)
    + dt / dv Spherical 3 m c * (sp - s) / 2 *
      ((FL - p_rho pL * p_u pL 1%nat * p_u pL 2%nat) * dS + (FR - p_rho pR * p_u pR 1%nat * p_u pR 2%nat) * dS_p).
Proof.
  intros Hs s sp dS dS_p. fold s sp in Hs. unfold flux_diff, geo_source. fold dS dS_p.
  set (q := dt / dv Spherical 3 m c). clearbody q. cbn [Nat.eqb]. unfold source_grad_u_phi. fold s sp. cbv zeta.
  clearbody dS dS_p s sp. field. lra.
Qed.

(** Whole kernels. *)
Lemma proper_sin m c : proper_cell 3 m c -> 0 < sin (m 1%nat (jj c)) + sin (m 1%nat (jj c + 1)%Z).
Proof.
  intros (_ & H & _). destruct (H ltac:(lia)) as (T1 & T2 & T3).
  assert (0 < sin (m 1%nat (jj c))) by (apply sin_gt_0; lra).
  assert (0 < sin (m 1%nat (jj c + 1)%Z)) by (apply sin_gt_0; lra). lra.
Qed.
Lemma arm_balance m c dt (FL FR : nat -> R) pL pR : proper_cell 3 m c ->
  arm m c * vsum 3 (fun d => flux_diff Spherical 3 m dt c d (FL d) (FR d)
                             + geo_source Spherical 3 m c (dt / dv Spherical 3 m c) (pL d) (pR d) d 2)
  = dt / dv Spherical 3 m c * (torque m c FL FR + spurious_torque m c FL FR pL pR).
Proof.
  intros Hp. pose proof (proper_sin _ _ Hp) as Hs. pose proof (proj1 Hp) as Hr.
  pose proof (lever_radial 3 m c dt (FL 0%nat) (FR 0%nat) (pL 0%nat) (pR 0%nat) 2 ltac:(lia) ltac:(lia) ltac:(lia) Hr) as A.
  pose proof (lever_polar m c dt (FL 1%nat) (FR 1%nat) (pL 1%nat) (pR 1%nat) Hs) as B. cbv zeta in A, B.
  cbn [vsum]. unfold torque, spurious_torque, arm in *. fold (mean_sin m c) in B.
  set (s0 := geo_source Spherical 3 m c _ (pL 0%nat) _ 0 2) in *.
  set (s1 := geo_source Spherical 3 m c _ (pL 1%nat) _ 1 2) in *.
  replace (geo_source Spherical 3 m c (dt / dv Spherical 3 m c) (pL 2%nat) (pR 2%nat) 2 2) with 0 by reflexivity.
  set (F2 := flux_diff Spherical 3 m dt c 2 _ _). unfold flux_diff in F2.
  match goal with |- ?M * ?S * _ = _ =>
    transitivity (S * (M * (flux_diff Spherical 3 m dt c 0 (FL 0%nat) (FR 0%nat) + s0))
                  + M * (S * (flux_diff Spherical 3 m dt c 1 (FL 1%nat) (FR 1%nat) + s1)) + M * S * F2) end.
  - ring.
  - rewrite A, B. unfold F2, Rdiv. ring.
Qed.

Lemma half_balance e m grav dt fp c side ipos : proper_cell 3 m c ->
  let q := to_cons 3 e (fp side ipos) in
  let F p d := p_rho p * p_u p d * p_u p 2%nat + (if Nat.eqb 2 d then p_P p else 0) in
  arm m c * (q_m (hancock_cons Spherical 3 e m grav dt fp c side ipos) 2%nat - q_m q 2%nat - dt * grav c 2%nat * q_rho q)
  = dt / dv Spherical 3 m c * torque m c (fun d => F (fp 0%nat d) d) (fun d => F (fp 1%nat d) d).
Proof.
  intros Hp q F. unfold hancock_cons. cbn [q_m]. fold q.
  match goal with |- _ * (?a + ?b + ?c - ?a - ?c) = _ => replace (a + b + c - a - c) with b by ring end.
  etransitivity; [exact (arm_balance m c dt (fun d => F (fp 0%nat d) d) (fun d => F (fp 1%nat d) d) (fp 0%nat) (fp 1%nat) Hp)|].
  f_equal. unfold spurious_torque, F. cbn [Nat.eqb]. ring.
Qed.

Lemma step_balance e s m grav dt a r c : proper_cell 3 m c ->
  let FL d := f_m (flux_left s 3 e r c d) 2%nat in
  let FR d := f_m (flux_right s 3 e r c d) 2%nat in
  arm m c * (c_rhou (god_cell Spherical 3 e s m grav dt a r c) 2%nat - c_rhou (a c) 2%nat - dt * grav c 2%nat * c_rho (a c))
  = dt / dv Spherical 3 m c *
    (torque m c FL FR
     + spurious_torque m c FL FR (fun d => to_prim 3 e (r_q r c 0%nat d)) (fun d => to_prim 3 e (r_q r c 1%nat d))).
Proof.
  intros Hp FL FR. unfold god_cell. cbn [c_rhou]. unfold god_rhou.
  match goal with |- _ * (?a + ?b + ?c - ?a - ?c) = _ => replace (a + b + c - a - c) with b by ring end.
  apply (arm_balance m c dt FL FR (fun d => to_prim 3 e (r_q r c 0%nat d)) (fun d => to_prim 3 e (r_q r c 1%nat d)) Hp).
Qed.

(** ** C62: the update of a uniform state *)
Lemma uniform_update nd e s m grav dt a r c q k : (1 <= nd <= 3)%nat -> proper_cell nd m c -> lawful_eos e -> valid_cons nd q ->
  (forall c' sd d, r_q r c' sd d = q) -> (k < nd)%nat ->
  let rr := m 0%nat (ii c) in let rp := m 0%nat (ii c + 1)%Z in
  let th := m 1%nat (jj c) in let thp := m 1%nat (jj c + 1)%Z in
  c_rhou (god_cell Spherical nd e s m grav dt a r c) k
  = c_rhou (a c) k + dt * face_balance nd e m c q k + dt * momentum_source nd e m c q k + dt * grav c k * c_rho (a c)
    + match k with
      | O => 0
      | _ => - dt * mean_inv_r rr rp * (q_rho q * velocity q 0 * velocity q k) * ((rp - rr) / (rp + rr)) ^ 2
      end
    + (if (Nat.eqb k 1 && Nat.eqb nd 3)%bool
       then dt * mean_inv_r rr rp * mean_cot th thp * (q_rho q * velocity q 2 ^ 2)
            * (cos (mxc m 1 (jj c)) / sin (mxc m 1 (jj c)) / 2 - 1)
       else 0).
Proof.
  intros Hnd Hp He Hq Hr Hk rr rp th thp. destruct Hp as (P1 & P2 & P3).
  set (p := to_prim nd e q).
  assert (Ep : p_rho p = q_rho q /\ (forall d, p_u p d = velocity q d) /\ p_P p = pressure nd e q).
  { split; [reflexivity|]. split; [reflexivity|]. unfold p, to_prim, pressure. cbn [p_P]. f_equal.
    unfold evol_cons, internal, ek_cons, kinetic. f_equal.
    rewrite (vsum_ext nd (fun d => q_m q d * q_m q d) (fun d => q_m q d ^ 2)) by (intros; ring).
    destruct Hq as [Hq _]. field. lra. }
  destruct Ep as (Ep1 & Ep2 & Ep3).
  assert (Ev : dv Spherical nd m c <> 0).
  { destruct (sph_cell nd m c Hnd (proj1 P1) (proj2 P1) P2 P3) as (w & Hw & -> & _).
    assert (0 < m 0%nat (ii c + 1)%Z ^ 3 - m 0%nat (ii c) ^ 3).
    { replace (m 0%nat (ii c + 1)%Z ^ 3 - m 0%nat (ii c) ^ 3)
        with ((m 0%nat (ii c + 1)%Z - m 0%nat (ii c)) * (m 0%nat (ii c + 1)%Z ^ 2 + m 0%nat (ii c + 1)%Z * m 0%nat (ii c) + m 0%nat (ii c) ^ 2)) by ring.
      apply Rmult_lt_0_compat; [lra|].
      assert (0 < m 0%nat (ii c + 1)%Z * m 0%nat (ii c)) by (apply Rmult_lt_0_compat; lra). nra. }
    apply Rgt_not_eq. apply Rlt_gt. apply Rdiv_lt_0_compat; [|lra]. now apply Rmult_lt_0_compat. }
  unfold god_cell. cbn [c_rhou]. unfold god_rhou.
  rewrite vsum_plus.
  assert (EF : vsum nd (fun d => flux_diff Spherical nd m dt c d (f_m (flux_left s nd e r c d) k) (f_m (flux_right s nd e r c d) k))
               = dt * face_balance nd e m c q k).
  { unfold face_balance, Rdiv. rewrite <- Rmult_assoc. rewrite (Rmult_comm (dt * _)). rewrite <- Rmult_assoc. rewrite <- vsum_scal.
    apply vsum_ext. intros d Hd. unfold flux_diff, flux_left, face_flux, flux_right. rewrite !Hr.
    rewrite riemann_consistent by assumption. unfold Rdiv. ring. }
  rewrite EF.
  rewrite (vsum_ext nd (fun d => geo_source _ _ _ _ _ _ _ d k) (fun d => geo_source Spherical nd m c (dt / dv Spherical nd m c) p p d k)).
  2:{ intros d Hd. now rewrite !Hr. }
  assert (ES : vsum nd (fun d => geo_source Spherical nd m c (dt / dv Spherical nd m c) p p d k)
    = dt * momentum_source nd e m c q k
    + match k with
      | O => 0
      | _ => - dt * mean_inv_r rr rp * (q_rho q * velocity q 0 * velocity q k) * ((rp - rr) / (rp + rr)) ^ 2
      end
    + (if (Nat.eqb k 1 && Nat.eqb nd 3)%bool
       then dt * mean_inv_r rr rp * mean_cot th thp * (q_rho q * velocity q 2 ^ 2)
            * (cos (mxc m 1 (jj c)) / sin (mxc m 1 (jj c)) / 2 - 1)
       else 0)); [|rewrite ES; ring].
  pose proof (radial_source nd m c Hnd P1 P2 P3 dt p) as A.
  pose proof (fun k => transport_source nd m c Hnd P1 P2 P3 dt p k) as B.
  pose proof (polar_source nd m c Hnd P1 P2 P3 dt p) as C.
  pose proof (azimuthal_source nd m c Hnd P1 P2 P3 dt p) as D.
  fold rr rp th thp in A, B, C, D. rewrite ?Ep1, ?Ep3 in *.
  unfold momentum_source. fold rr rp th thp.
  set (inv := mean_inv_r rr rp) in *. set (cot := mean_cot th thp) in *.
  set (dl := (rp - rr) / (rp + rr)) in *.
  set (cc := cos (mxc m 1 (jj c)) / sin (mxc m 1 (jj c))) in *.
  set (G := geo_source Spherical nd m c (dt / dv Spherical nd m c) p p) in *.
  assert (Z : forall d k, (d = 0 /\ k >= 3 \/ d = 1 /\ k = 0 \/ d = 2)%nat -> G d k = 0).
  { intros d' k' [[-> H]|[[-> ->]| ->]]; unfold G, geo_source; try reflexivity. destruct k' as [|[|[|k']]]; try lia; reflexivity. }
  assert (nd = 1 \/ nd = 2 \/ nd = 3)%nat as [E|[E|E]] by lia; subst nd; cbn [vsum Nat.ltb Nat.leb Nat.eqb andb] in *.
  - assert (k = 0%nat) by lia. subst k. cbn [Nat.eqb andb]. rewrite A. ring.
  - assert (k = 0 \/ k = 1)%nat as [Ek|Ek] by lia; subst k; cbn [Nat.eqb andb].
    + rewrite A, (Z 1%nat 0%nat) by lia. rewrite !Ep2. ring.
    + rewrite (B 1%nat), C by lia. rewrite !Ep2. ring.
  - assert (k = 0 \/ k = 1 \/ k = 2)%nat as [Ek|[Ek|Ek]] by lia; subst k; cbn [Nat.eqb andb].
    + rewrite A, (Z 1%nat 0%nat), (Z 2%nat 0%nat) by lia. rewrite !Ep2. ring.
    + rewrite (B 1%nat), C, (Z 2%nat 1%nat) by lia. rewrite !Ep2. unfold Rdiv. ring.
    + rewrite (B 2%nat), D, (Z 2%nat 2%nat) by lia. rewrite !Ep2. ring.
Qed.
