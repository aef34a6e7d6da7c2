(** * A uniform gas in free fall: whole runs of the main loop (C103). *)
From Coq Require Import FunctionalExtensionality ZifyBool ZifyNat Lra Psatz.
From Verif Require Import Base RBase ModelMesh ModelGeom ModelBoundary ModelHydro ModelScheme ModelStep ModelMain
  SpecMesh SpecBoundary SpecHydro SpecScheme SpecStep SpecSetup SpecSource SpecFall
  ProofBase ProofMesh ProofR ProofBoundary ProofBoundary2 ProofHydro ProofHydro2 ProofScheme ProofMirror ProofShift ProofReduce ProofStep ProofSteady ProofCfl ProofMain ProofMainEx ProofFall.
Local Open Scope R_scope.

Lemma crossings_le nd w s s' : (forall d, (d < nd)%nat -> 0 < w d /\ s d <= s' d) -> crossings nd w s <= crossings nd w s'.
Proof.
  intros H. apply vsum_le. intros d Hd. destruct (H d Hd). apply Rmult_le_compat_r; [|assumption]. left. now apply Rinv_0_lt_compat.
Qed.
Lemma crossings_plus nd w s s' : crossings nd w (fun d => s d + s' d) = crossings nd w s + crossings nd w s'.
Proof. unfold crossings. rewrite <- vsum_plus. apply vsum_ext. intros d Hd. unfold Rdiv. ring. Qed.
Lemma crossings_scal nd w a s : crossings nd w (fun d => a * s d) = a * crossings nd w s.
Proof. unfold crossings. rewrite <- vsum_scal. apply vsum_ext. intros d Hd. unfold Rdiv. ring. Qed.
Lemma crossings_pos nd w s k : (forall d, (d < nd)%nat -> 0 < w d /\ 0 <= s d) -> (k < nd)%nat -> 0 < s k -> 0 < crossings nd w s.
Proof.
  intros H Hk Hs. apply Rlt_le_trans with (s k / w k); [apply Rdiv_lt_0_compat; [assumption|apply H, Hk]|].
  apply (vsum_pos_term nd (fun d => s d / w d) k); [|exact Hk]. intros d Hd. destruct (H d Hd) as [H1 H2].
  apply Rmult_le_pos; [exact H2|]. left. now apply Rinv_0_lt_compat.
Qed.
Lemma crossings_width nd w w' s : (forall d, (d < nd)%nat -> 0 < w d <= w' d /\ 0 <= s d) -> crossings nd w' s <= crossings nd w s.
Proof.
  intros H. apply vsum_le. intros d Hd. destruct (H d Hd) as [[H1 H2] H3]. apply Rmult_le_compat_l; [exact H3|]. now apply Rinv_le_contravar.
Qed.
Lemma ln_below x : 0 < x -> ln x <= x - 1.
Proof.
  intros H. pose proof (exp_ineq1_le (ln x)) as E. rewrite exp_ln in E by exact H. lra.
Qed.

Section Fall.
Variables (K : config) (N dims : idx) (X : nat -> arr1) (L : layout) (gas : perfect_gas) (gv u : vec) (rho P : R).
Hypothesis HF : falling_run K N dims X L gas gv u.
Hypothesis Hrho : 0 < rho.
Notation nd := (k_nd K).
Notation ng := (k_ng K).
Notation vr := (process nd dims).
Notation own r c := (owned nd ng (d_nloc (l_dec L r)) c).
Notation arr r c := (in_array (d_nwg (l_dec L r)) c).
Let HR := fr_runs _ _ _ _ _ _ _ _ HF.
Let HL := ro_layout HR.
Let HD := lo_dec HL.
Let gam := pg_gamma gas.
Let drop := rho * norm2 nd gv / 2.
Let at_time (tau : R) : vec := fun k => u k + tau * gv k.
Let gasof := uniform_gas K dims L gas gv rho.

Lemma walls_gv : walls K gv.
Proof. intros f Hf Hb. now apply (fr_walls _ _ _ _ _ _ _ _ HF f Hf Hb). Qed.
Lemma walls_u tau : walls K (at_time tau).
Proof. intros f Hf Hb. destruct (fr_walls _ _ _ _ _ _ _ _ HF f Hf Hb) as [E1 E2]. unfold at_time. rewrite E1, E2. ring. Qed.

Lemma fall_step tau e t dt S : gasof (at_time tau) e S -> gasof (at_time (tau + dt)) (e - drop * (dt * dt)) (full_step K L t dt S).
Proof.
  intros H. destruct HF as [F1 F2 F3 F4 F5 F6 F7 F8].
  pose proof (uniform_step K N dims X L gas gv rho F1 F2 F3 F4 F5 F6 F7 Hrho walls_gv S (at_time tau) e t dt H (walls_u tau)) as E.
  replace (at_time (tau + dt)) with (fun k => at_time tau k + dt * gv k) by (extensionality k; unfold at_time; ring). exact E.
Qed.
Lemma fall_init G S : starts_from K dims L G S -> same_everywhere G rho u P -> gasof (at_time 0) (P / (gam - 1)) (init_state K L S).
Proof.
  intros H HG. destruct HF as [F1 F2 F3 F4 F5 F6 F7 F8].
  replace (at_time 0) with u by (extensionality k; unfold at_time; ring).
  apply (uniform_init K N dims X L gas gv rho F1 F2 F3 F7 Hrho G S u P); auto; intros; try apply HG.
  intros f Hf Hb. now apply F8.
Qed.
Lemma fall_run ts : forall tau e S, gasof (at_time tau) e S -> gasof (at_time (tau + elapsed ts)) (e - drop * squares ts) (run K L ts S).
Proof.
  induction ts as [|[t dt] ts IH]; intros tau e S H.
  - cbn [elapsed squares fold_right run fold_left]. now rewrite Rplus_0_r, Rmult_0_r, Rminus_0_r.
  - change (run K L ((t, dt) :: ts) S) with (run K L ts (full_step K L t dt S)).
    change (elapsed ((t, dt) :: ts)) with (dt + elapsed ts). change (squares ((t, dt) :: ts)) with (dt * dt + squares ts).
    rewrite <- Rplus_assoc. replace (e - drop * (dt * dt + squares ts)) with (e - drop * (dt * dt) - drop * squares ts) by ring.
    apply IH, fall_step, H.
Qed.

Lemma uniform_internal v e x : uniform_cell K rho v e x -> internal nd (conserved_of x) = e.
Proof.
  intros (A1 & A2 & A3). unfold internal, kinetic, conserved_of. cbn [q_rho q_m q_E]. rewrite A1, A3.
  replace (vsum nd (fun d => c_rhou x d ^ 2)) with (rho * rho * vsum nd (fun d => v d * v d)) by (rewrite <- vsum_scal; apply vsum_ext; intros d Hd; rewrite A2; ring).
  field. lra.
Qed.

Lemma fall_state G S : starts_from K dims L G S -> same_everywhere G rho u P ->
  forall ts r c, vr r -> arr r c -> let x := s_cell (run K L ts (init_state K L S) r) c in
  c_rho x = rho /\ (forall k, c_rhou x k = rho * (u k + elapsed ts * gv k)) /\
  internal nd (conserved_of x) = P / (gam - 1) - rho * norm2 nd gv / 2 * squares ts.
Proof.
  intros H HG ts r c Hr Hc. cbv zeta. pose proof (fall_run ts 0 _ _ (fall_init G S H HG)) as E. rewrite Rplus_0_l in E.
  destruct (E r c Hr Hc) as (A & _). pose proof (uniform_internal _ _ _ A) as Ei. destruct A as (A1 & A2 & _). auto.
Qed.

Section Cooling.
Variables (w W : nat -> R) (cfl : R).
Hypothesis Hw : widths_within nd N ng X w W.
Hypothesis HP : 0 < P.
Hypothesis Hcfl : 0 < cfl.
Hypothesis Hug : forall d, (d < nd)%nat -> 0 <= u d * gv d.
Hypothesis Hg : exists d, (d < nd)%nat /\ gv d <> 0.
Let e0 := P / (gam - 1).
Let c0 := sqrt (gam * P / rho).
Let A := start_rate nd gas w rho u P.
Let B := fall_rate nd w gv.
Let A' := start_rate nd gas W rho u P.
Let B' := fall_rate nd W gv.
Let kap := cooling nd w rho gv cfl.

Lemma gam1 : 0 < gam - 1.
Proof. destruct (fr_gas _ _ _ _ _ _ _ _ HF) as [H _]. unfold gam. lra. Qed.
Lemma e0_pos : 0 < e0.
Proof. apply Rdiv_lt_0_compat; [exact HP|exact gam1]. Qed.
Lemma c0_pos : 0 < c0.
Proof. apply sqrt_lt_R0. pose proof gam1. apply Rdiv_lt_0_compat; [|exact Hrho]. apply Rmult_lt_0_compat; lra. Qed.
Lemma nd_range : (1 <= nd <= 3)%nat.
Proof. exact (dcp_nd HD). Qed.
Lemma mesh_width r c d : vr r -> arr r c -> (d < nd)%nat -> w d <= width Cartesian (l_mesh L r) c d <= W d.
Proof.
  intros Hr Hc Hd. pose proof nd_range. assert (Hd3 : (d < 3)%nat) by lia.
  assert (E : width Cartesian (l_mesh L r) c d = l_mesh L r d (coord d c + 1)%Z - l_mesh L r d (coord d c)).
  { unfold width. destruct d as [|[|[|d]]]; reflexivity. }
  rewrite E, !(set_grid_at _ _ _ (lo_mesh HL Hr)) by exact Hd3. rewrite Z.add_assoc.
  apply (proj2 (Hw d Hd)). pose proof (Hc d Hd3) as C. pose proof (Hr d Hd3) as R.
  rewrite (dec_cmin _ _ _ _ _ HD r d Hr Hd3) in *. rewrite (dec_nwg _ _ _ _ _ HD r d Hr Hd3) in C.
  pose proof (cm_nonneg _ _ _ _ _ HD d (coord d r) Hd3 ltac:(lia)). pose proof (cm_max _ _ _ _ _ HD d (coord d r) Hd3 ltac:(lia)).
  pose proof (ghosts_nonneg _ _ _ _ _ HD d). lia.
Qed.

Lemma W_ge d : (d < nd)%nat -> 0 < w d <= W d.
Proof.
  intros Hd. destruct (Hw d Hd) as [H1 H2]. split; [exact H1|]. specialize (H2 0%Z).
  pose proof (dcp_n HD (d := d) ltac:(pose proof nd_range; lia)). pose proof (ghosts_nonneg _ _ _ _ _ HD d). lapply H2; [lra|lia].
Qed.
Lemma B_pos : 0 < B /\ 0 < B'.
Proof.
  destruct Hg as (k & Hk & Hgk). pose proof (Rabs_pos_lt _ Hgk).
  split; apply (crossings_pos _ _ _ k); auto; intros d Hd; pose proof (W_ge d Hd); (split; [lra|apply Rabs_pos]).
Qed.
Lemma A_pos : 0 < A /\ 0 < A'.
Proof.
  pose proof c0_pos. pose proof nd_range.
  assert (H1 : forall d, 0 < Rabs (u d) + sqrt (pg_gamma gas * P / rho)) by (intros d; pose proof (Rabs_pos (u d)); fold gam c0; lra).
  split; apply (crossings_pos _ _ _ 0%nat); try lia; try apply H1; intros d Hd; pose proof (W_ge d Hd); (split; [lra|left; apply H1]).
Qed.
Lemma drop_pos : 0 < drop.
Proof.
  unfold drop. destruct Hg as (k & Hk & Hgk). assert (0 < norm2 nd gv); [|nra].
  apply Rlt_le_trans with (gv k * gv k); [nra|]. apply (vsum_pos_term nd (fun d => gv d * gv d) k); [|exact Hk]. intros d Hd. apply Rle_0_sqr.
Qed.
Lemma kap_B : kap * B = drop * cfl.
Proof. unfold kap, cooling. fold B drop. pose proof B_pos. field. lra. Qed.
Lemma kap_pos : 0 < kap.
Proof. pose proof kap_B. pose proof B_pos. pose proof drop_pos. assert (0 < drop * cfl) by now apply Rmult_lt_0_compat. nra. Qed.

(** The speeds at time [tau]. *)
Lemma speed_at tau d : 0 <= tau -> (d < nd)%nat -> Rabs (at_time tau d) = Rabs (u d) + tau * Rabs (gv d).
Proof.
  intros Ht Hd. specialize (Hug d Hd). unfold at_time. unfold Rabs.
  destruct (Rcase_abs (u d + tau * gv d)), (Rcase_abs (u d)), (Rcase_abs (gv d)); try nra.
Qed.

(** The rate the time step is computed from. *)
Lemma rate_between tau e S r c : gasof (at_time tau) e S -> 0 <= tau -> 0 <= e <= e0 -> vr r -> arr r c ->
  crossings nd W (fun d => Rabs (u d) + sqrt (gam * ((gam - 1) * e) / rho)) + B' * tau <= crossing_rate K L S r c <= A + B * tau.
Proof.
  intros HS Ht He Hr Hc. destruct (HS r c Hr Hc) as ((C1 & _) & C2 & C3 & _). fold gam in C3.
  set (c1 := sqrt (gam * ((gam - 1) * e) / rho)).
  assert (Hc1 : 0 <= c1 <= c0).
  { split; [apply sqrt_pos|]. apply sqrt_le_1_alt. apply Rmult_le_compat_r; [left; now apply Rinv_0_lt_compat|].
    pose proof gam1. apply Rmult_le_compat_l; [lra|]. destruct He as [_ He]. unfold e0 in He.
    apply Rmult_le_compat_l with (r := gam - 1) in He; [|lra]. replace ((gam - 1) * (P / (gam - 1))) with P in He by (field; lra). exact He. }
  assert (E : crossing_rate K L S r c = vsum nd (fun d => (Rabs (u d) + c1 + tau * Rabs (gv d)) / width Cartesian (l_mesh L r) c d)).
  { unfold crossing_rate. apply vsum_ext. intros d Hd. rewrite C1, C2, C3, (fr_geom _ _ _ _ _ _ _ _ HF), (fr_eos _ _ _ _ _ _ _ _ HF).
    cbn [pg_eos eos_sound]. unfold pg_sound. fold gam. fold c1. rewrite speed_at by assumption. f_equal. ring. }
  rewrite E. change (vsum nd (fun d => (Rabs (u d) + c1 + tau * Rabs (gv d)) / width Cartesian (l_mesh L r) c d))
    with (crossings nd (width Cartesian (l_mesh L r) c) (fun d => Rabs (u d) + c1 + tau * Rabs (gv d))).
  assert (Hs : forall d, 0 <= Rabs (u d) + c1 + tau * Rabs (gv d)).
  { intros d. pose proof (Rabs_pos (u d)). pose proof (Rabs_pos (gv d)). nra. }
  split.
  - unfold B', fall_rate. rewrite (Rmult_comm _ tau), <- crossings_scal, <- crossings_plus. apply crossings_width. intros d Hd.
    pose proof (mesh_width r c d Hr Hc Hd). destruct (Hw d Hd). split; [lra|apply Hs].
  - eapply Rle_trans; [apply (crossings_width nd w)|].
    + intros d Hd. pose proof (mesh_width r c d Hr Hc Hd). destruct (Hw d Hd). split; [lra|apply Hs].
    + unfold A, B, start_rate, fall_rate. rewrite (Rmult_comm _ tau), <- crossings_scal, <- crossings_plus. apply crossings_le.
      intros d Hd. destruct (Hw d Hd). split; [assumption|]. fold gam c0. lra.
Qed.

Lemma step_between tau e S : gasof (at_time tau) e S -> 0 <= tau -> 0 <= e <= e0 -> (tau = 0 -> e = e0) ->
  cfl / (A + B * tau) <= y_dt (hydro K L cfl) S /\ y_dt (hydro K L cfl) S * (B' * tau) <= cfl /\ (tau = 0 -> y_dt (hydro K L cfl) S <= cfl / A').
Proof.
  intros HS Ht He H0. cbn [hydro y_dt]. unfold time_step.
  destruct (max_list _) as [v|] eqn:E.
  2:{ exfalso. destruct (time_step_defined K N dims X L HL S) as (x & Hx). unfold time_step in Hx. rewrite E in Hx. discriminate. }
  apply max_list_some in E. destruct E as [E1 _]. apply (rate_values K N dims X L HL) in E1. destruct E1 as (r & c & Hr & Hc & ->).
  destruct (rate_between tau e S r c HS Ht He Hr Hc) as [R1 R2].
  set (v := crossing_rate K L S r c) in *. pose proof B_pos as [B1 B2]. pose proof A_pos as [A1 A2].
  assert (Hlow : 0 <= crossings nd W (fun d => Rabs (u d) + sqrt (gam * ((gam - 1) * e) / rho))).
  { apply vsum_nonneg. intros d Hd. pose proof (W_ge d Hd). apply Rmult_le_pos; [|left; apply Rinv_0_lt_compat; lra].
    pose proof (Rabs_pos (u d)). pose proof (sqrt_pos (gam * ((gam - 1) * e) / rho)). lra. }
  assert (H0' : tau = 0 -> A' <= v).
  { intros Z. rewrite (H0 Z), Z, Rmult_0_r, Rplus_0_r in R1. replace ((gam - 1) * e0) with P in R1 by (unfold e0; field; pose proof gam1; lra). exact R1. }
  assert (Hv : 0 < v).
  { destruct (Rle_lt_or_eq_dec _ _ Ht) as [Z|Z]; [nra|]. specialize (H0' (eq_sym Z)). lra. }
  assert (Hq : cfl * (1 / v) = cfl / v) by (field; lra). rewrite Hq. split; [|split].
  - apply Rmult_le_compat_l; [lra|]. apply Rinv_le_contravar; [exact Hv|exact R2].
  - apply Rmult_le_reg_l with v; [exact Hv|]. replace (v * (cfl / v * (B' * tau))) with (cfl * (B' * tau)) by (field; lra).
    rewrite (Rmult_comm v). apply Rmult_le_compat_l; lra.
  - intros Z. specialize (H0' Z). apply Rmult_le_compat_l; [lra|]. apply Rinv_le_contravar; lra.
Qed.

(** The loss of one step. *)
Lemma cooling_step tau dt : 0 <= tau -> cfl / (A + B * tau) <= dt ->
  kap * ln (1 + B * (tau + dt) / A) <= kap * ln (1 + B * tau / A) + drop * (dt * dt).
Proof.
  intros Ht Hdt. pose proof B_pos as [HB _]. pose proof A_pos as [HA _]. pose proof kap_pos. pose proof kap_B.
  assert (Hd : 0 < A + B * tau) by nra. assert (Hdp : 0 < dt) by (apply Rlt_le_trans with (2 := Hdt); now apply Rdiv_lt_0_compat).
  assert (E : ln (1 + B * (tau + dt) / A) = ln (1 + B * tau / A) + ln (1 + B * dt / (A + B * tau))).
  { rewrite <- ln_mult.
    - f_equal. field. split; lra.
    - apply Rplus_lt_le_0_compat; [lra|]. apply Rmult_le_pos; [nra|left; now apply Rinv_0_lt_compat].
    - apply Rplus_lt_le_0_compat; [lra|]. apply Rmult_le_pos; [nra|left; now apply Rinv_0_lt_compat]. }
  rewrite E, Rmult_plus_distr_l. apply Rplus_le_compat_l.
  assert (H1 : ln (1 + B * dt / (A + B * tau)) <= B * dt / (A + B * tau)).
  { eapply Rle_trans; [apply ln_below|lra]. apply Rplus_lt_le_0_compat; [lra|]. apply Rmult_le_pos; [nra|left; now apply Rinv_0_lt_compat]. }
  apply Rle_trans with (kap * (B * dt / (A + B * tau))); [apply Rmult_le_compat_l; lra|].
  replace (kap * (B * dt / (A + B * tau))) with (kap * B * dt / (A + B * tau)) by (unfold Rdiv; ring). rewrite kap_B.
  replace (drop * cfl * dt / (A + B * tau)) with (drop * dt * (cfl / (A + B * tau))) by (unfold Rdiv; ring).
  rewrite <- Rmult_assoc. apply Rmult_le_compat_l; [|exact Hdt]. pose proof drop_pos. nra.
Qed.

Lemma ln_nonneg tau : 0 <= tau -> 0 <= ln (1 + B * tau / A).
Proof.
  intros Ht. pose proof B_pos as [HB _]. pose proof A_pos as [HA _].
  assert (Hx : 0 <= B * tau / A) by (apply Rmult_le_pos; [nra|left; now apply Rinv_0_lt_compat]).
  destruct Hx as [Hx|Hx]; [left; rewrite <- ln_1; apply ln_increasing; lra|rewrite <- Hx, Rplus_0_r, ln_1; lra].
Qed.
Let T := lifetime nd gas w rho u P gv cfl.
Lemma T_eq : T = A / B * (exp (e0 / kap) - 1).
Proof. reflexivity. Qed.
Lemma lasts tau : 0 <= tau -> 0 <= e0 - kap * ln (1 + B * tau / A) -> tau <= T.
Proof.
  intros Ht H. pose proof B_pos as [HB _]. pose proof A_pos as [HA _]. pose proof kap_pos as Hk.
  assert (H1 : ln (1 + B * tau / A) <= e0 / kap).
  { apply Rmult_le_reg_l with kap; [exact Hk|]. replace (kap * (e0 / kap)) with e0 by (field; lra). lra. }
  assert (Hp : 0 <= B * tau / A) by (apply Rmult_le_pos; [nra|left; now apply Rinv_0_lt_compat]).
  assert (H2 : 1 + B * tau / A <= exp (e0 / kap)).
  { rewrite <- (exp_ln (1 + B * tau / A)) by lra. destruct H1 as [H1| ->]; [left; now apply exp_increasing|right; reflexivity]. }
  rewrite T_eq. apply Rmult_le_reg_l with (B / A); [now apply Rdiv_lt_0_compat|].
  replace (B / A * tau) with (B * tau / A) by (unfold Rdiv; ring).
  replace (B / A * (A / B * (exp (e0 / kap) - 1))) with (exp (e0 / kap) - 1) by (field; split; lra). lra.
Qed.
Lemma T_pos : 0 < T.
Proof.
  pose proof B_pos as [HB _]. pose proof A_pos as [HA _]. rewrite T_eq. apply Rmult_lt_0_compat; [now apply Rdiv_lt_0_compat|].
  pose proof (exp_ineq1 (e0 / kap)). assert (0 < e0 / kap) by (apply Rdiv_lt_0_compat; [exact e0_pos|exact kap_pos]). lra.
Qed.

Lemma bad_uniform v e S : gasof v e S -> (y_bad (hydro K L cfl) S = true <-> e < 0).
Proof.
  intros HS. rewrite (bad_iff K N dims X L HL cfl S).
  assert (E : forall r c, vr r -> own r c -> evol_cons nd (cons_of (s_cell (S r) c)) = e).
  { intros r c Hr Hc. destruct (HS r c Hr (owned_in_array K N dims X L HL r c Hr Hc)) as (C & _). rewrite <- (uniform_internal _ _ _ C).
    unfold evol_cons, ek_cons, internal, kinetic, conserved_of, cons_of. cbn [q_rho q_m q_E]. destruct C as (C1 & _). rewrite C1.
    f_equal. rewrite (vsum_ext nd _ (fun d => c_rhou (s_cell (S r) c) d ^ 2)) by (intros; ring). field. lra. }
  split.
  - intros (r & c & Hr & Hc & H). now rewrite (E r c Hr Hc) in H.
  - intros H. destruct (some_owned K N dims X L HL) as (r & c & Hr & Hc). exists r, c. split; [exact Hr|]. split; [exact Hc|]. now rewrite E.
Qed.

Section Loop.
Variables (p : params) (clock : Z -> bool).
Hypothesis Hfreq : p_time_freq p <= 0.
Notation HY := (hydro K L cfl).
Definition holds_at (tau : R) (S : idx -> pstate) : Prop :=
  exists e, gasof (at_time tau) e S /\ e <= e0 - kap * ln (1 + B * tau / A) /\ (tau = 0 /\ e = e0 \/ cfl / A <= tau).
Lemma holds_step tau t S : holds_at tau S -> y_bad HY S = false ->
  0 <= tau <= T /\ holds_at (tau + y_dt HY S) (full_step K L t (y_dt HY S) S) /\
  cfl / (A + B * tau) <= y_dt HY S <= longest_step nd gas w W rho u P gv cfl.
Proof.
  intros (e & HS & He & Hf) Hb. pose proof A_pos as [HA HA']. pose proof B_pos as [HB HB'].
  assert (Hca : 0 < cfl / A) by now apply Rdiv_lt_0_compat.
  assert (Ht : 0 <= tau) by lra.
  assert (He1 : 0 <= e). { destruct (Rlt_dec e 0) as [H|H]; [|lra]. apply (bad_uniform _ _ _ HS) in H. congruence. }
  pose proof (ln_nonneg tau Ht) as Hln. pose proof kap_pos as Hk.
  assert (He2 : e <= e0) by nra.
  destruct (step_between tau e S HS Ht (conj He1 He2) ltac:(lra)) as (D1 & D2 & D3).
  set (dt := y_dt HY S) in *.
  assert (Hdt : 0 < dt) by (apply Rlt_le_trans with (2 := D1); apply Rdiv_lt_0_compat; [exact Hcfl|nra]).
  split; [split; [exact Ht|apply lasts; lra]|]. split; [|split; [exact D1|]].
  - exists (e - drop * (dt * dt)). split; [now apply fall_step|]. pose proof (cooling_step tau dt Ht D1). split; [lra|].
    right. destruct Hf as [[-> _]|Hf]; [|lra]. rewrite Rmult_0_r, Rplus_0_r in D1. lra.
  - unfold longest_step. fold A A' B'. assert (0 < cfl / A') by now apply Rdiv_lt_0_compat. assert (0 < A / B') by now apply Rdiv_lt_0_compat.
    destruct Hf as [[Z _]|Hf]; [specialize (D3 Z); lra|]. assert (dt <= A / B'); [|lra].
    apply Rmult_le_reg_r with (B' * (cfl / A)); [apply Rmult_lt_0_compat; assumption|].
    replace (A / B' * (B' * (cfl / A))) with cfl by (field; split; lra). eapply Rle_trans; [|exact D2].
    apply Rmult_le_compat_l; [lra|]. apply Rmult_le_compat_l; lra.
Qed.

Lemma body_going m m' : body HY p clock m = (m', Going) ->
  y_bad HY (m_st m) = false /\ m_t m' = m_t m + y_dt HY (m_st m) /\ m_st m' = full_step K L (m_t m) (y_dt HY (m_st m)) (m_st m).
Proof.
  unfold body. destruct (int32 (m_iter m + 1)); [|discriminate]. cbn [negb].
  destruct (iter_schedule p m) as [[o i]| |]; [|discriminate..].
  unfold time_schedule. rewrite (proj2 (rltb_false 0 (p_time_freq p)) Hfreq).
  unfold clip_to_end. destruct (rleb (p_t_end p) (m_t m + y_dt HY (m_st m))); cbn [orb].
  - destruct (y_bad HY (m_st m)); discriminate.
  - destruct (y_bad HY (m_st m)); [discriminate|]. intros E. injection E as E1 E2.
    destruct ((p_max_iter p <=? m_iter m + 1)%Z || clock (m_iter m))%bool; [discriminate|]. subst m'. destruct (o || false || false)%bool; auto.
Qed.
Lemma loop_going n : forall m m', holds_at (m_t m - p_t_ini p) (m_st m) -> loop HY p clock n m = (m', Going) -> holds_at (m_t m' - p_t_ini p) (m_st m').
Proof.
  induction n as [|n IH]; intros m m' H; cbn [loop]; [intros E; injection E as <-; exact H|].
  destruct (body HY p clock m) as [m1 v] eqn:E. destruct v; try discriminate. intros E2. apply (IH m1); [|exact E2].
  destruct (body_going _ _ E) as (E3 & E4 & E5). rewrite E4, E5.
  replace (m_t m + y_dt HY (m_st m) - p_t_ini p) with (m_t m - p_t_ini p + y_dt HY (m_st m)) by ring. now apply holds_step.
Qed.
Lemma fresh_same (S : idx -> pstate) : m_t (fresh p S) = p_t_ini p /\ m_st (fresh p S) = S /\ m_iter (fresh p S) = 0%Z.
Proof. unfold fresh. destruct ((0 <? p_iter_freq p)%Z || rltb 0 (p_time_freq p))%bool; auto. Qed.
Variables (G : gfields) (S0 : idx -> pstate).
Hypothesis HG : starts_from K dims L G S0.
Hypothesis HU : same_everywhere G rho u P.
Notation start := (fresh p (init_state K L S0)).
Lemma start_holds : holds_at (m_t start - p_t_ini p) (m_st start).
Proof.
  destruct (fresh_same (init_state K L S0)) as (E1 & E2 & _). rewrite E1, E2. replace (p_t_ini p - p_t_ini p) with 0 by ring.
  exists e0. split; [exact (fall_init G S0 HG HU)|]. split; [|now left]. rewrite Rmult_0_r. unfold Rdiv. rewrite Rmult_0_l, Rplus_0_r, ln_1. lra.
Qed.

Lemma fall_cools n m : loop HY p clock n start = (m, Going) ->
  let tau := m_t m - p_t_ini p in 0 <= tau /\
  forall r c, vr r -> arr r c -> let x := s_cell (m_st m r) c in
  c_rho x = rho /\ (forall k, c_rhou x k = rho * (u k + tau * gv k)) /\
  internal nd (conserved_of x) <= P / (gam - 1) - kap * ln (1 + B * tau / A).
Proof.
  intros H. cbv zeta. destruct (loop_going _ _ _ start_holds H) as (e & HS & He & Hf).
  pose proof A_pos as [HA _]. assert (0 < cfl / A) by now apply Rdiv_lt_0_compat.
  split; [lra|]. intros r c Hr Hc. destruct (HS r c Hr Hc) as (C & _). pose proof (uniform_internal _ _ _ C) as Ei.
  destruct C as (C1 & C2 & _). rewrite Ei. auto.
Qed.
Lemma fall_ends n m m' v : loop HY p clock n start = (m, Going) -> body HY p clock m = (m', v) -> v = Going \/ v = Finished -> m_t m - p_t_ini p <= T.
Proof.
  intros H E Hv. destruct (y_bad HY (m_st m)) eqn:Hb.
  - exfalso. unfold body in E. rewrite Hb in E. destruct (int32 (m_iter m + 1)); cbn [negb] in E; [|injection E as _ <-; now destruct Hv].
    destruct (iter_schedule p m) as [[o i]|w1|w1]; [|injection E as _ <-; now destruct Hv..].
    destruct (time_schedule p m (y_dt HY (m_st m))) as [[[o2 i2] d2]|w1|w1]; [|injection E as _ <-; now destruct Hv..].
    destruct (clip_to_end p (m_t m) d2). injection E as _ <-. now destruct Hv.
  - exact (proj2 (proj1 (holds_step _ 0 _ (loop_going _ _ _ start_holds H) Hb))).
Qed.

(** The end. *)
Let D := longest_step nd gas w W rho u P gv cfl.
Let M := steps_bound nd gas w rho u P gv cfl.
Let del := cfl / (A + B * T).
Hypothesis Hifreq : (p_iter_freq p <= 0)%Z.
Hypothesis Hclock : forall i, clock i = false.
Hypothesis Hend : p_t_ini p + T + D < p_t_end p.
Hypothesis Hmax : M + 2 < IZR (p_max_iter p).
Hypothesis Hint : (p_max_iter p <= int_max)%Z.

Lemma del_pos : 0 < del.
Proof. apply Rdiv_lt_0_compat; [exact Hcfl|]. pose proof A_pos. pose proof B_pos. pose proof T_pos. nra. Qed.
Lemma M_eq : M * del = T.
Proof. unfold M, steps_bound, del. fold T A B. pose proof A_pos. pose proof B_pos. pose proof T_pos. field. split; nra. Qed.
Definition crash : string := "detected invalid volumic internal energy".

Lemma fall_alternative n :
  (exists k m, loop HY p clock k start = (m, Failed crash) /\ m_t m - p_t_ini p <= T + D /\ IZR (m_iter m) <= M + 1 /\
     forall r c, vr r -> arr r c -> internal nd (conserved_of (s_cell (m_st m r) c)) < 0) \/
  (exists m, loop HY p clock n start = (m, Going) /\ m_iter m = Z.of_nat n /\ (INR n - 1) * del <= T /\ INR n * del <= m_t m - p_t_ini p <= T + D).
Proof.
  pose proof del_pos as Hdel. pose proof T_pos as HT. pose proof A_pos as [HA HA']. pose proof B_pos as [HB HB'].
  assert (HD0 : 0 < D). { unfold D, longest_step. fold A A' B'. apply Rplus_lt_0_compat; now apply Rdiv_lt_0_compat. }
  induction n as [|n [IH|(m & E & Ei & Hn & Ht)]]; [right|now left|].
  - exists start. destruct (fresh_same (init_state K L S0)) as (E1 & _ & E3). rewrite E1, E3. cbn [loop INR]. split; [reflexivity|]. split; [reflexivity|]. split; lra.
  - pose proof (loop_going _ _ _ start_holds E) as Hh.
    assert (Hit : IZR (m_iter m) <= M + 1).
    { rewrite Ei, <- INR_IZR_INZ. pose proof M_eq. apply Rmult_le_reg_r with del; [exact Hdel|]. lra. }
    assert (Hit2 : (m_iter m + 1 < p_max_iter p)%Z) by (apply lt_IZR; rewrite plus_IZR; lra).
    assert (Hi32 : int32 (m_iter m + 1) = true) by (unfold int32, int_max in *; rewrite Ei in *; lia).
    destruct (y_bad HY (m_st m)) eqn:Hb; [left|right].
    + exists (Datatypes.S n). rewrite (loop_snoc _ _ _ _ _ _ E). unfold body. rewrite Hi32. cbn [negb].
      unfold iter_schedule. destruct (Z.ltb_spec 0 (p_iter_freq p)); [lia|].
      unfold time_schedule. rewrite (proj2 (rltb_false 0 (p_time_freq p)) Hfreq).
      destruct (clip_to_end p (m_t m) (y_dt HY (m_st m))) as [s1 d1]. rewrite Hb. eexists. split; [reflexivity|].
      cbn [write next_id m_t m_iter m_st]. split; [apply Ht|]. split; [exact Hit|].
      destruct Hh as (e & HS & _). apply (bad_uniform _ _ _ HS) in Hb. intros r c Hr Hc. destruct (HS r c Hr Hc) as (C & _).
      now rewrite (uniform_internal _ _ _ C).
    + destruct (holds_step _ (m_t m) _ Hh Hb) as (Ht1 & _ & D1 & D2). fold D in D2.
      assert (Hb1 : body HY p clock m =
        (mkM (m_oid m) (m_iid m) (m_tid m) (m_iter m + 1) (m_t m + y_dt HY (m_st m)) (m_record m) (full_step K L (m_t m) (y_dt HY (m_st m)) (m_st m)) (m_files m), Going)).
      { unfold body. rewrite Hi32. cbn [negb]. unfold iter_schedule. destruct (Z.ltb_spec 0 (p_iter_freq p)); [lia|].
        unfold time_schedule. rewrite (proj2 (rltb_false 0 (p_time_freq p)) Hfreq).
        unfold clip_to_end. rewrite (proj2 (rleb_false (p_t_end p) (m_t m + y_dt HY (m_st m)))) by lra.
        rewrite Hb, Hclock. destruct (Z.leb_spec (p_max_iter p) (m_iter m + 1)); [lia|]. reflexivity. }
      rewrite (loop_snoc _ _ _ _ _ _ E), Hb1. eexists. split; [reflexivity|]. cbn [m_iter m_t]. split; [lia|].
      rewrite S_INR. assert (del <= y_dt HY (m_st m)).
      { eapply Rle_trans; [|exact D1]. apply Rmult_le_compat_l; [lra|]. apply Rinv_le_contravar; [nra|]. nra. }
      split; [|split]; lra.
Qed.
Lemma fall_fails : exists k m, loop HY p clock k start = (m, Failed crash) /\ m_t m - p_t_ini p <= T + D /\ IZR (m_iter m) <= M + 1 /\
  forall r c, vr r -> arr r c -> internal nd (conserved_of (s_cell (m_st m r) c)) < 0.
Proof.
  pose proof del_pos as Hdel.
  destruct (archimed ((T + del) / del)) as [Hn _]. set (z := up ((T + del) / del)) in *.
  assert (Hz : T + del < IZR z * del).
  { apply Rmult_lt_reg_r with (/ del); [now apply Rinv_0_lt_compat|]. rewrite Rmult_assoc, Rinv_r, Rmult_1_r by lra. exact Hn. }
  destruct (fall_alternative (Z.to_nat z)) as [H|(m & _ & _ & Hm & _)]; [exact H|]. exfalso.
  rewrite INR_IZR_INZ, Z2Nat.id in Hm; [lra|]. apply le_IZR. pose proof T_pos. nra.
Qed.
End Loop.
End Cooling.
End Fall.
