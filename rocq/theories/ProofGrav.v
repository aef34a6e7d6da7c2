(** * Gravity models and user steps (C32, C34). *)
From Coquelicot Require Import Coquelicot.
From Coq Require Import FunctionalExtensionality ZifyBool ZifyNat.
From Verif Require Import Base RBase ModelMesh ModelGeom ModelBoundary ModelHydro ModelScheme ModelStep
  SpecMesh SpecGeom SpecBoundary SpecHydro SpecScheme SpecStep SpecSource
  ProofBase ProofR ProofGeom ProofBoundary ProofHydro ProofHydro2 ProofScheme ProofReduce ProofStep ProofLayout.
Local Open Scope R_scope.

(** ** The scan *)
Lemma enclosed_closed m M ng0 rm n :
  enclosed_mass m M ng0 rm n = mass_inside m ng0 M (fun i => rm (i - ng0)%Z) (ng0 + Z.of_nat n).
Proof.
  unfold mass_inside, ball. induction n as [|n IH].
  - cbn [enclosed_mass]. rewrite Z.add_0_r, zrange_empty by lia. cbn [lsum]. rewrite Z.sub_diag. unfold cube. field.
  - cbn [enclosed_mass]. rewrite IH.
    replace (ng0 + Z.of_nat (S n))%Z with (ng0 + Z.of_nat n + 1)%Z by lia.
    rewrite (zrange_split ng0 (ng0 + Z.of_nat n) (ng0 + Z.of_nat n + 1)) by lia.
    rewrite lsum_app, lsum_one.
    replace (ng0 + Z.of_nat n - ng0)%Z with (Z.of_nat n) by lia.
    replace (ng0 + Z.of_nat n + 1 - ng0)%Z with (Z.of_nat (S n)) by lia.
    replace (ng0 + Z.of_nat n + 1 - 1)%Z with (ng0 + Z.of_nat n)%Z by lia. unfold cube. field.
Qed.

Lemma mass_inside_ext m m' ng M rm rm' i : (forall j, m 0%nat j = m' 0%nat j) ->
  (forall j, (ng <= j <= i)%Z -> rm j = rm' j) -> (ng <= i)%Z -> mass_inside m ng M rm i = mass_inside m' ng M rm' i.
Proof.
  intros Hm Hr Hi. unfold mass_inside, mxc. rewrite (Hr i) by lia. rewrite !Hm. f_equal. f_equal.
  apply lsum_ext. intros j Hj. apply in_zrange in Hj. rewrite !Hm, Hr by lia. reflexivity.
Qed.

Section Internal.
Variables (K : config) (N dims : idx) (X : nat -> arr1) (L : layout).
Hypothesis HL : laid_out K N dims X L.
Hypothesis Hg : gravity_ok K dims.
Notation nd := (k_nd K).
Notation ng := (k_ng K).

Lemma internal_mass M (A : world cell) (D : idx -> cell) r c d : k_grav K = GInternalMass M ->
  process nd dims r -> slice_of nd dims (l_dec L) A D -> in_array (d_nwg (l_dec L r)) c ->
  gravity_values K L A r c d =
  match d with
  | O => let x := mxc (global_mesh X) 0 (ii c) in
         - Ggrav * (if (ii c <? ng)%Z then M
                    else mass_inside (global_mesh X) ng M
                           (mean_density (k_geom K) nd ng N (global_mesh X) (fun c => c_rho (D c))) (ii c)) / (x * x)
  | _ => 0
  end.
Proof.
  intros Hk Hr HA Hc.
  destruct (serial_layout _ _ _ _ _ HL) as (L1 & HL1).
  rewrite <- (gravity_slice K N dims X L L1 HL HL1 Hg A (fun _ => D) r c d Hr HA Hc).
  assert (Hm : forall d i, (d < 3)%nat -> l_mesh L1 rank0 d i = global_mesh X d i).
  { intros d' i Hd'. rewrite (set_grid_at _ _ _ (lo_mesh HL1 (rank0_ok nd))) by assumption.
    now rewrite (s_cmin _ _ _ _ HL1) by assumption. }
  assert (E0 : ii (iadd (corner_min (d_range (l_dec L r))) c) = ii c).
  { unfold gravity_ok in Hg. rewrite Hk in Hg.
    pose proof (dec_cmin _ _ _ _ _ (lo_dec HL) r 0 Hr ltac:(lia)) as C0.
    pose proof (Hr 0%nat ltac:(lia)) as R0. rewrite Hg in R0. replace (coord 0 r) with 0%Z in C0 by lia.
    rewrite (cm_0 _ _ _ _ _ (lo_dec HL)) in C0 by lia. cbn [coord] in C0. cbn [ii iadd]. lia. }
  unfold gravity_values. rewrite Hk. unfold radial_gravity. destruct d as [|d]; [|reflexivity].
  rewrite E0. cbv zeta.
  assert (Hnd : (1 <= nd)%nat) by (pose proof (dcp_nd (lo_dec HL)); lia).
  assert (Eg : ii (nghost_of nd ng) = ng).
  { unfold nghost_of, mk3. cbn [ii]. replace (0 <? nd)%nat with true by lia. reflexivity. }
  assert (Ex : mxc (l_mesh L1 rank0) 0 (ii c) = mxc (global_mesh X) 0 (ii c)) by (unfold mxc; now rewrite !Hm by lia).
  rewrite Ex, Eg. f_equal. f_equal. unfold mass_r.
  destruct (Z.ltb_spec (ii c) ng) as [Hlt|Hge]; [reflexivity|].
  rewrite enclosed_closed. rewrite Z2Nat.id by lia. replace (ng + (ii c - ng))%Z with (ii c) by lia.
  apply mass_inside_ext; [intros; apply Hm; lia| |assumption].
  intros i Hi.
  (* one shell *)
  assert (Es : forall f f1, (forall x, f rank0 x = f1 x) -> shell_sum K L1 f rank0 (i - ng) = shell nd ng N f1 i).
  { intros f f1 Hf. unfold shell_sum, horizontal_ranks, shell_cells.
    rewrite (lo_dims HL1), mpi_dims_one. cbn [ii jj kk one_process rank0].
    change (box_cells (I3 0 0 0) (I3 (0 + 1) 1 1)) with [rank0]. cbn [lsum]. rewrite Rplus_0_r. rewrite Eg.
    rewrite lsum_box. cbn [ii jj kk]. unfold shell.
    pose proof (s_nloc _ _ _ _ HL1 1 ltac:(lia)) as N1. pose proof (s_nloc _ _ _ _ HL1 2 ltac:(lia)) as N2. cbn [coord] in N1, N2.
    rewrite N1, N2. unfold nghost_of, mk3. cbn [jj kk].
    apply lsum_ext. intros k _. apply lsum_ext. intros j _.
    replace (i - ng + ng)%Z with i by lia. rewrite lsum_one. apply Hf. }
  assert (Ed : forall x, dv (k_geom K) nd (l_mesh L1 rank0) x = dv (k_geom K) nd (global_mesh X) x).
  { intros x. apply dv_agree. intros e He. split; now apply Hm. }
  unfold shell_mean, mean_density. f_equal; apply Es; intros x; now rewrite Ed.
Qed.
End Internal.

(** The gas really is there: on a mesh covering the whole sphere the shells have the volume of the shells. *)
Lemma shell_volume nd ng N m i : (1 <= nd <= 3)%nat -> (forall d, (d < 3)%nat -> (1 <= coord d N)%Z) ->
  (forall d, (nd <= d)%nat -> (d < 3)%nat -> coord d N = 1%Z) -> whole_sphere nd ng N m ->
  shell nd ng N (dv Spherical nd m) i = ball (m 0%nat (i + 1)%Z) - ball (m 0%nat i).
Proof.
  intros Hnd HN HN1 [Ht Hp]. unfold shell.
  pose proof (HN 1%nat ltac:(lia)) as P1. pose proof (HN 2%nat ltac:(lia)) as P2. cbn [coord] in P1, P2.
  assert (Hc : forall a b, (a <= b)%Z -> forall A, lsum (fun j => A * (cos (m 1%nat j) - cos (m 1%nat (j + 1)%Z))) (zrange a b)
               = A * (cos (m 1%nat a) - cos (m 1%nat b))).
  { intros a b Hab A. rewrite lsum_scal. f_equal.
    rewrite (lsum_ext _ (fun j => (- cos (m 1%nat (j + 1)%Z)) - (- cos (m 1%nat j)))) by (intros; ring).
    rewrite (lsum_zrange_telescope (fun j => - cos (m 1%nat j))) by assumption. ring. }
  destruct nd as [|[|[|[|nd]]]]; try lia; cbn [Nat.ltb Nat.leb].
  - pose proof (HN1 1%nat ltac:(lia) ltac:(lia)) as E1. pose proof (HN1 2%nat ltac:(lia) ltac:(lia)) as E2. cbn [coord] in E1, E2.
    rewrite E1, E2, !lsum_one. cbn. unfold ball. field.
  - pose proof (HN1 2%nat ltac:(lia) ltac:(lia)) as E2. cbn [coord] in E2. rewrite E2, lsum_one.
    destruct (Ht ltac:(lia)) as [T1 T2].
    rewrite (lsum_ext _ (fun j => 2 * PI / 3 * (m 0%nat (i + 1)%Z ^ 3 - m 0%nat i ^ 3) * (cos (m 1%nat j) - cos (m 1%nat (j + 1)%Z)))).
    2:{ intros j _. cbn. unfold sph_dcos. cbn. ring. }
    rewrite Hc by lia. rewrite T1, T2, cos_0, cos_PI. unfold ball. field.
  - destruct (Ht ltac:(lia)) as [T1 T2]. specialize (Hp ltac:(lia)).
    rewrite (lsum_ext _ (fun k => 2 / 3 * (m 0%nat (i + 1)%Z ^ 3 - m 0%nat i ^ 3) * (m 2%nat (k + 1)%Z - m 2%nat k))).
    2:{ intros k _.
        rewrite (lsum_ext _ (fun j => 1 / 3 * (m 0%nat (i + 1)%Z ^ 3 - m 0%nat i ^ 3) * (m 2%nat (k + 1)%Z - m 2%nat k) * (cos (m 1%nat j) - cos (m 1%nat (j + 1)%Z)))).
        2:{ intros j _. cbn. unfold sph_dcos, mdx. cbn. ring. }
        rewrite Hc by lia. rewrite T1, T2, cos_0, cos_PI. field. }
    rewrite lsum_scal. rewrite (lsum_zrange_telescope (fun k => m 2%nat k)) by lia. rewrite Hp. unfold ball. field.
Qed.

Lemma mass_inside_gas nd ng N m M rho i : (1 <= nd <= 3)%nat -> (forall d, (d < 3)%nat -> (1 <= coord d N)%Z) ->
  (forall d, (nd <= d)%nat -> (d < 3)%nat -> coord d N = 1%Z) -> whole_sphere nd ng N m ->
  0 <= m 0%nat ng -> (forall j, (ng <= j <= i)%Z -> m 0%nat j < m 0%nat (j + 1)%Z) -> (ng <= i)%Z ->
  let mass j := shell nd ng N (fun c => rho c * dv Spherical nd m c) j in
  mass_inside m ng M (mean_density Spherical nd ng N m rho) i
  = M + lsum mass (zrange ng i)
      + mass i * ((ball (mxc m 0 i) - ball (m 0%nat i)) / (ball (m 0%nat (i + 1)%Z) - ball (m 0%nat i))).
Proof.
  intros Hnd HN HN1 Hw H0 Hinc Hi mass. unfold mass_inside, mean_density.
  assert (Hpos : forall j, (ng <= j <= i)%Z -> 0 <= m 0%nat j).
  { intros j Hj. replace j with (ng + Z.of_nat (Z.to_nat (j - ng)))%Z by lia.
    assert (Hb : (Z.of_nat (Z.to_nat (j - ng)) <= i - ng)%Z) by lia. revert Hb.
    generalize (Z.to_nat (j - ng)). intros n. induction n as [|n IH]; intros Hb; [now rewrite Z.add_0_r|].
    specialize (IH ltac:(lia)). specialize (Hinc (ng + Z.of_nat n)%Z ltac:(lia)).
    replace (ng + Z.of_nat (S n))%Z with (ng + Z.of_nat n + 1)%Z by lia. lra. }
  assert (Hne : forall j, (ng <= j <= i)%Z -> ball (m 0%nat (j + 1)%Z) - ball (m 0%nat j) <> 0).
  { intros j Hj. specialize (Hpos j Hj). specialize (Hinc j Hj). pose proof PI_RGT_0.
    assert (m 0%nat j ^ 3 < m 0%nat (j + 1)%Z ^ 3); [|unfold ball; nra].
    assert (0 < m 0%nat (j + 1)%Z ^ 3 - m 0%nat j ^ 3); [|lra].
    replace (m 0%nat (j + 1)%Z ^ 3 - m 0%nat j ^ 3) with
      ((m 0%nat (j + 1)%Z - m 0%nat j) * (m 0%nat (j + 1)%Z ^ 2 + m 0%nat (j + 1)%Z * m 0%nat j + m 0%nat j ^ 2)) by ring.
    apply Rmult_lt_0_compat; [lra|]. nra. }
  f_equal; [f_equal|].
  - apply lsum_ext. intros j Hj. apply in_zrange in Hj. rewrite shell_volume by assumption. unfold mass. field. apply Hne. lia.
  - rewrite shell_volume by assumption. unfold mass. field. apply Hne. lia.
Qed.

(** Never decreasing outwards. *)
Lemma ball_le a b : 0 <= a -> a <= b -> ball a <= ball b.
Proof.
  intros Ha Hab. unfold ball. pose proof PI_RGT_0. apply Rmult_le_compat_l; [lra|].
  apply pow_incr. lra.
Qed.
Lemma mass_inside_step m ng M rm i : 0 <= m 0%nat i -> m 0%nat i <= m 0%nat (i + 1)%Z -> m 0%nat (i + 1)%Z <= m 0%nat (i + 1 + 1)%Z ->
  0 <= rm i -> 0 <= rm (i + 1)%Z -> (ng <= i)%Z -> mass_inside m ng M rm i <= mass_inside m ng M rm (i + 1).
Proof.
  intros H0 H1 H2 R0 R1 Hi. unfold mass_inside. rewrite (zrange_split ng i (i + 1)), lsum_app, lsum_one by lia.
  assert (A : ball (mxc m 0 i) <= ball (m 0%nat (i + 1)%Z)) by (apply ball_le; unfold mxc; lra).
  assert (B : ball (m 0%nat (i + 1)%Z) <= ball (mxc m 0 (i + 1))) by (apply ball_le; unfold mxc; lra).
  assert (0 <= (ball (m 0%nat (i + 1)%Z) - ball (mxc m 0 i)) * rm i) by (apply Rmult_le_pos; lra).
  assert (0 <= (ball (mxc m 0 (i + 1)) - ball (m 0%nat (i + 1)%Z)) * rm (i + 1)%Z) by (apply Rmult_le_pos; lra).
  lra.
Qed.
Lemma mass_inside_mono m ng M rm i i' : 0 <= m 0%nat ng -> (forall j, (ng <= j <= i')%Z -> m 0%nat j <= m 0%nat (j + 1)%Z) ->
  (forall j, (ng <= j <= i')%Z -> 0 <= rm j) -> (ng <= i <= i')%Z ->
  M <= mass_inside m ng M rm i <= mass_inside m ng M rm i'.
Proof.
  intros H0 Hinc Hr Hi.
  assert (Hpos : forall n, (ng + Z.of_nat n <= i' + 1)%Z -> 0 <= m 0%nat (ng + Z.of_nat n)%Z).
  { induction n as [|n IH]; intros Hb; [now rewrite Z.add_0_r|]. specialize (IH ltac:(lia)).
    specialize (Hinc (ng + Z.of_nat n)%Z ltac:(lia)). replace (ng + Z.of_nat (S n))%Z with (ng + Z.of_nat n + 1)%Z by lia. lra. }
  assert (Hpos' : forall j, (ng <= j <= i' + 1)%Z -> 0 <= m 0%nat j).
  { intros j Hj. replace j with (ng + Z.of_nat (Z.to_nat (j - ng)))%Z by lia. apply Hpos. lia. }
  assert (Hs : forall n j, (ng <= j)%Z -> (j + Z.of_nat n <= i')%Z -> mass_inside m ng M rm j <= mass_inside m ng M rm (j + Z.of_nat n)).
  { induction n as [|n IH]; intros j Hj Hb; [rewrite Z.add_0_r; lra|].
    apply Rle_trans with (mass_inside m ng M rm (j + Z.of_nat n)); [apply IH; lia|].
    replace (j + Z.of_nat (S n))%Z with (j + Z.of_nat n + 1)%Z by lia.
    apply mass_inside_step; [apply Hpos'; lia|apply Hinc; lia|apply Hinc; lia|apply Hr; lia|apply Hr; lia|lia]. }
  split.
  - apply Rle_trans with (mass_inside m ng M rm ng).
    + unfold mass_inside. rewrite zrange_empty by lia. cbn [lsum].
      assert (ball (m 0%nat ng) <= ball (mxc m 0 ng)).
      { apply ball_le; [assumption|]. unfold mxc. specialize (Hinc ng ltac:(lia)). lra. }
      assert (0 <= (ball (mxc m 0 ng) - ball (m 0%nat ng)) * rm ng) by (apply Rmult_le_pos; [lra|apply Hr; lia]). lra.
    + replace i with (ng + Z.of_nat (Z.to_nat (i - ng)))%Z by lia. apply Hs; lia.
  - replace i' with (i + Z.of_nat (Z.to_nat (i' - i)))%Z by lia. apply Hs; lia.
Qed.

(** ** Point mass *)
Lemma point_mass K L A M r c (d : nat) : k_grav K = GPointMass M ->
  let x := mxc (l_mesh L r) 0 (ii c) in
  x <> 0 ->
  gravity_values K L A r c 0%nat * x ^ 2 = - Ggrav * M /\
  (0 < M -> gravity_values K L A r c 0%nat < 0) /\ ((1 <= d)%nat -> gravity_values K L A r c d = 0).
Proof.
  intros Hk x Hx. unfold gravity_values. rewrite Hk. unfold radial_gravity. fold x. split; [field; assumption|]. split.
  - intros HM. assert (HG : 0 < Ggrav) by (unfold Ggrav; apply Rdiv_lt_0_compat; [lra|apply pow_lt; lra]).
    assert (0 < x * x) by (apply Rsqr_pos_lt in Hx; exact Hx).
    replace (- Ggrav * M / (x * x)) with (- (Ggrav * M / (x * x))) by (unfold Rdiv; ring).
    assert (0 < Ggrav * M / (x * x)) by (apply Rdiv_lt_0_compat; [apply Rmult_lt_0_compat; assumption|assumption]). lra.
  - intros Hd. destruct d; [lia|reflexivity].
Qed.

(** ** Refusal *)
Lemma gravity_refusal K L A :
  (make_gravity K L A = Ok (gravity_values K L A) <->
     (forall M, k_grav K = GInternalMass M -> ii (l_dims L) = 1%Z)) /\
  ((exists M, k_grav K = GInternalMass M) -> ii (l_dims L) <> 1%Z -> exists msg, make_gravity K L A = Throw msg).
Proof.
  unfold make_gravity. split.
  - destruct (k_grav K) as [g|M|M]; [split; [discriminate|reflexivity]..|].
    destruct (Z.eqb_spec (ii (l_dims L)) 1) as [E|E]; split; try discriminate; auto.
    intros H. exfalso. apply E. exact (H M eq_refl).
  - intros [M ->] E. destruct (Z.eqb_spec (ii (l_dims L)) 1) as [E'|_]; [contradiction|]. eexists. reflexivity.
Qed.

(** ** User steps *)
Lemma nickel_consts : 0 < tau_ni56 /\ tau_ni56 < tau_co56 /\ 0 < m_ni56 /\ 0 < Q_ni56 /\ 0 < Q_co56 /\
  0 < Q_ni56 * (tau_co56 / tau_ni56 - 1) - Q_co56.
Proof.
  assert (HM : 0 < MeV) by (unfold MeV; lra).
  assert (HA : 0 < atomic_mass_unit) by (unfold atomic_mass_unit; lra).
  unfold tau_ni56, tau_co56, m_ni56, Q_ni56, Q_co56, day. repeat split; nra.
Qed.
Lemma nickel_rate_pos t : 0 < nickel_rate t.
Proof.
  destruct nickel_consts as (A & B & C & D & E & F). unfold nickel_rate.
  apply Rmult_lt_0_compat.
  - apply Rplus_lt_0_compat; apply Rmult_lt_0_compat; try assumption; apply exp_pos.
  - apply Rdiv_lt_0_compat; [lra|]. apply Rmult_lt_0_compat; lra.
Qed.
Lemma exp_decay tau t t' : 0 < tau -> t < t' -> exp (- t' / tau) < exp (- t / tau).
Proof.
  intros Ht H. apply exp_increasing. unfold Rdiv. apply Rmult_lt_compat_r; [now apply Rinv_0_lt_compat|lra].
Qed.
Lemma nickel_rate_decays t t' : t < t' -> nickel_rate t' < nickel_rate t.
Proof.
  intros H. destruct nickel_consts as (A & B & C & D & E & F). unfold nickel_rate.
  apply Rmult_lt_compat_r; [apply Rdiv_lt_0_compat; [lra|]; apply Rmult_lt_0_compat; lra|].
  pose proof (exp_decay tau_ni56 t t' A H). pose proof (exp_decay tau_co56 t t' ltac:(lra) H).
  apply Rplus_lt_compat; apply Rmult_lt_compat_l; assumption.
Qed.

(** Released between 0 and T. *)
Definition nickel_released (T : R) : R :=
  ((Q_ni56 * (tau_co56 / tau_ni56 - 1) - Q_co56) * tau_ni56 * (1 - exp (- T / tau_ni56))
   + Q_co56 * tau_co56 * (1 - exp (- T / tau_co56))) * (1 / (m_ni56 * (tau_co56 - tau_ni56))).
Lemma nickel_integral T : is_RInt nickel_rate 0 T (nickel_released T).
Proof.
  destruct nickel_consts as (A & B & C & D & E & F).
  replace (nickel_released T) with (minus (nickel_released T) (nickel_released 0)).
  2:{ unfold minus, plus, opp. cbn. unfold nickel_released. rewrite Ropp_0. unfold Rdiv. rewrite !Rmult_0_l, exp_0. ring. }
  apply (is_RInt_derive (V := R_CompleteNormedModule) nickel_released nickel_rate).
  - intros x _. unfold nickel_released, nickel_rate. auto_derive; [exact I|].
    unfold Rdiv. set (e1 := exp (- x * / tau_ni56)). set (e2 := exp (- x * / tau_co56)). clearbody e1 e2.
    field. repeat split; lra.
  - intros x _. apply continuity_pt_filterlim. unfold nickel_rate. reg.
Qed.
Lemma nickel_limit : is_lim nickel_released p_infty ((Q_ni56 + Q_co56) / m_ni56).
Proof.
  destruct nickel_consts as (A & B & C & D & E & F).
  assert (He : forall tau, 0 < tau -> is_lim (fun T => exp (- T / tau)) p_infty 0).
  { intros tau Ht. apply (is_lim_comp exp (fun T => - T / tau) p_infty 0 m_infty).
    - exact is_lim_exp_m.
    - apply (is_lim_ext (fun T => (- / tau) * T)); [intros y; field; lra|].
      replace m_infty with (Rbar_mult (Finite (- / tau)) p_infty).
      + apply is_lim_scal_l. apply is_lim_id.
      + apply is_Rbar_mult_unique. assert (0 < / tau) by now apply Rinv_0_lt_compat.
        apply is_Rbar_mult_sym. apply is_Rbar_mult_p_infty_neg. cbn. lra.
    - exists 0. intros y _. discriminate. }
  set (a := (Q_ni56 * (tau_co56 / tau_ni56 - 1) - Q_co56) * tau_ni56). set (b := Q_co56 * tau_co56).
  set (k := 1 / (m_ni56 * (tau_co56 - tau_ni56))).
  replace (Finite ((Q_ni56 + Q_co56) / m_ni56)) with (Finite ((a * (1 - 0) + b * (1 - 0)) * k)).
  2:{ f_equal. unfold a, b, k. field. repeat split; lra. }
  apply (is_lim_ext (fun T => (a * (1 - exp (- T / tau_ni56)) + b * (1 - exp (- T / tau_co56))) * k)); [reflexivity|].
  apply (is_lim_scal_r _ k p_infty (Finite (a * (1 - 0) + b * (1 - 0)))).
  apply (is_lim_plus' (fun T => a * (1 - exp (- T / tau_ni56))) (fun T => b * (1 - exp (- T / tau_co56))) p_infty (a * (1 - 0)) (b * (1 - 0))).
  - apply (is_lim_scal_l (fun T => 1 - exp (- T / tau_ni56)) a p_infty (Finite (1 - 0))).
    apply is_lim_minus'; [apply is_lim_const|now apply He].
  - apply (is_lim_scal_l (fun T => 1 - exp (- T / tau_co56)) b p_infty (Finite (1 - 0))).
    apply is_lim_minus'; [apply is_lim_const|apply He; lra].
Qed.

(** The effect of the user step within a whole time step. *)
Lemma user_effect K N dims X L t dt S r c : laid_out K N dims X L -> process (k_nd K) dims r ->
  let on := step_user K L t dt S r c in
  let off := step_user (without_user K) L t dt S r c in
  c_rho on = c_rho off /\ c_rhou on = c_rhou off /\ c_fx on = c_fx off /\
  (k_user K = UOff -> on = off) /\
  (k_user K = UHeatNickel -> owned (k_nd K) (k_ng K) (d_nloc (l_dec L r)) c ->
     c_E on = c_E off + c_fx off 0%nat * c_rho off * nickel_rate t * dt) /\
  (~ owned (k_nd K) (k_ng K) (d_nloc (l_dec L r)) c -> on = off).
Proof.
  intros HL Hr on off.
  set (A := step_pf K L dt S r c).
  assert (Eoff : off = A).
  { unfold off, A, step_user, user_step, kwrite. cbn [without_user k_user user_cell].
    destruct (sel (without_user K) L 0 r c); reflexivity. }
  rewrite Eoff. unfold on, step_user, user_step, kwrite. fold A.
  pose proof (sel_owned _ _ _ _ _ r c HL Hr) as Ho.
  destruct (sel K L 0 r c).
  - destruct (k_user K); cbn [user_cell c_rho c_rhou c_fx c_E].
    + repeat (split; [reflexivity|]). split; [discriminate|reflexivity].
    + repeat (split; [reflexivity|]). split; [discriminate|]. split; [reflexivity|].
      intros H. exfalso. apply H. now apply Ho.
  - repeat (split; [reflexivity|]). split; [|reflexivity]. intros _ H. apply Ho in H. discriminate.
Qed.
