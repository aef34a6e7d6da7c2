(** * Layered gases at rest (C109). *)
From Coq Require Import FunctionalExtensionality ZifyBool ZifyNat Lra Psatz.
From Verif Require Import Base RBase ModelMesh ModelGeom ModelBoundary ModelHydro ModelScheme ModelStep
  SpecMesh SpecBoundary SpecHydro SpecScheme SpecStep SpecAdvect SpecRest
  ProofBase ProofMesh ProofR ProofBoundary ProofBoundary2 ProofHydro ProofHydro2 ProofScheme ProofMirror ProofShift ProofReduce ProofStep ProofSteady
  ProofCfl ProofPos2 ProofAdvect ProofAdvect2.
Local Open Scope R_scope.

Lemma half_face k h hp D s : 0 < h -> 0 < hp -> 0 <= k -> k * h <= h + hp ->
  Rabs s <= k * Rabs (D / ((h + hp) / 2)) -> 0 <= s * (D / ((h + hp) / 2)) ->
  (0 <= D -> 0 <= h / 2 * s <= D) /\ (D <= 0 -> D <= h / 2 * s <= 0).
Proof.
  intros Hh Hp Hk Hkh H1 H2. set (w := (h + hp) / 2) in *. assert (W : 0 < w) by (unfold w; lra).
  set (a := D / w) in *. assert (E : D = a * w) by (unfold a; field; lra).
  assert (Kw : k * (h / 2) <= w) by (unfold w; lra).
  destruct (abs_cases s a k Hk H1 H2) as [A B]. split; intros HD.
  - assert (0 <= a) by (unfold a; apply Rmult_le_pos; [exact HD|left; now apply Rinv_0_lt_compat]).
    specialize (A H). rewrite E. split; [apply Rmult_le_pos; lra|].
    apply Rle_trans with (h / 2 * (k * a)); [apply Rmult_le_compat_l; lra|].
    replace (h / 2 * (k * a)) with (a * (k * (h / 2))) by ring. apply Rmult_le_compat_l; lra.
  - assert (a <= 0).
    { unfold a, Rdiv. assert (0 < / w) by (now apply Rinv_0_lt_compat). nra. }
    specialize (B H). rewrite E. split.
    + apply Rle_trans with (h / 2 * (k * a)).
      * replace (h / 2 * (k * a)) with (a * (k * (h / 2))) by ring. nra.
      * apply Rmult_le_compat_l; lra.
    + nra.
Qed.

Lemma between_pos v v' x : 0 < v -> 0 < v' -> (0 <= v' - v -> 0 <= x <= v' - v) /\ (v' - v <= 0 -> v' - v <= x <= 0) -> 0 < v + x.
Proof. intros H1 H2 [A B]. destruct (Rle_dec 0 (v' - v)); [specialize (A r)|specialize (B ltac:(lra))]; lra. Qed.

(** ** One cell, either geometry *)
Section Cell.
Context (g : geom) (nd : nat) (e : eos) (P0 : R).
Hypothesis He : lawful_eos e.
Hypothesis Hev : energy_of_pressure e.
Hypothesis HP0 : 0 < P0.
Hypothesis Hnd3 : (nd <= 3)%nat.
Notation u0 := no_velocity.

Lemma kap_rest : kap nd u0 = 0.
Proof. unfold kap. rewrite vsum_0 by (intros; unfold no_velocity; ring). field. Qed.

Lemma layers_hancock m grav dt fp (f : nat -> nat -> R) c sd ip : (forall d, grav c d = 0) -> (sd < 2)%nat -> (ip < nd)%nat ->
  (forall sd d, (sd < 2)%nat -> (d < nd)%nat -> fp sd d = mkPrim (f sd d) u0 P0) ->
  hancock_cons g nd e m grav dt fp c sd ip = to_cons nd e (mkPrim (f sd ip) u0 P0).
Proof.
  intros Hg Hs Hi Hf. unfold hancock_cons. rewrite (Hf sd ip Hs Hi). apply cons_ext; cbn [q_rho q_m q_E].
  - rewrite vsum_0; [ring|]. intros d Hd. rewrite !Hf by (lia || assumption). cbn [flux_prim f_rho p_rho p_u]. unfold flux_diff, no_velocity. ring.
  - intros k. rewrite Hg. rewrite vsum_0; [ring|]. intros d Hd. rewrite !Hf by (lia || assumption).
    rewrite <- (rest_balance g nd m dt c d k (mkPrim (f 0%nat d) u0 P0) (mkPrim (f 1%nat d) u0 P0) Hd Hnd3 eq_refl (fun _ => eq_refl) (fun _ => eq_refl)).
    f_equal. cbn [flux_prim f_m p_rho p_u p_P]. unfold no_velocity. f_equal; ring.
  - rewrite vsum_0; [ring|]. intros d Hd. rewrite !Hf by (lia || assumption). rewrite Hg. cbn [flux_prim f_E p_u]. unfold flux_diff, no_velocity. ring.
Qed.

Lemma layers_godunov s m grav dt a r c : (forall d, grav c d = 0) -> mv nd e u0 P0 (cons_of (a c)) ->
  (forall d, (d < nd)%nat -> mv nd e u0 P0 (r_q r c 0%nat d) /\ mv nd e u0 P0 (r_q r c 1%nat d) /\
     mv nd e u0 P0 (r_q r (lindex d c) 1%nat d) /\ mv nd e u0 P0 (r_q r (rindex d c) 0%nat d)) ->
  god_rho g nd e s m dt a r c = c_rho (a c) -> mv nd e u0 P0 (cons_of (god_cell g nd e s m grav dt a r c)).
Proof.
  intros Hg (A1 & A2 & A3) Hr E. cbn [cons_of q_rho q_m q_E] in A1, A2, A3. unfold mv. cbn [cons_of god_cell c_rho c_rhou c_E q_rho q_m q_E].
  rewrite E. split; [exact A1|].
  assert (FL : forall d, (d < nd)%nat -> cf nd e u0 P0 d (flux_left s nd e r c d) /\ cf nd e u0 P0 d (flux_right s nd e r c d)).
  { intros d Hd. destruct (Hr d Hd) as (R1 & R2 & R3 & R4). unfold flux_left, flux_right, face_flux. split; apply cf_riemann; auto. }
  split.
  - intros k. unfold god_rhou. rewrite Hg, A2. rewrite vsum_0; [ring|]. intros d Hd.
    destruct (FL d Hd) as ((L1 & _) & (R1 & _)). rewrite L1, R1. destruct (Hr d Hd) as (M1 & M2 & _).
    rewrite (mv_prim nd e u0 P0 He Hev HP0 _ M1), (mv_prim nd e u0 P0 He Hev HP0 _ M2).
    refine (eq_trans _ (rest_balance g nd m dt c d k (mkPrim (q_rho (r_q r c 0%nat d)) u0 P0) (mkPrim (q_rho (r_q r c 1%nat d)) u0 P0) Hd Hnd3 eq_refl (fun _ => eq_refl) (fun _ => eq_refl))).
    f_equal. cbn [p_P]. unfold no_velocity. now rewrite !Rmult_0_r, !Rplus_0_l.
  - unfold god_E. rewrite A3. rewrite vsum_0; [ring|]. intros d Hd. destruct (FL d Hd) as ((_ & L1) & (_ & R1)). rewrite L1, R1, Hg, kap_rest.
    unfold flux_diff, no_velocity. ring.
Qed.
End Cell.

Section Run.
Context (K : config) (N dims : idx) (X : nat -> arr1) (L : layout) (P0 : R).
Hypothesis HR : runs_on K N dims X L.
Hypothesis He : lawful_eos (k_eos K).
Hypothesis Hev : energy_of_pressure (k_eos K).
Hypothesis HP0 : 0 < P0.
Hypothesis Huser : k_user K = UOff.
Hypothesis Hgrav : weightless K.
Hypothesis Hincr : increasing (k_nd K) N (k_ng K) X.
Hypothesis Hlim : bounded_faces (k_lim K) (k_nd K) N (k_ng K) X.
Notation nd := (k_nd K).
Notation ng := (k_ng K).
Notation vr := (process nd dims).
Notation own r := (owned nd ng (d_nloc (l_dec L r))).
Notation arr r := (in_array (d_nwg (l_dec L r))).
Notation u0 := no_velocity.
Notation adv := (adv_state K dims L u0 P0 (fun _ => True)).
Let HL := ro_layout HR.
Let HD := lo_dec HL.
Let Hnd : (1 <= nd <= 3)%nat := dcp_nd HD.
Let Hwall : forall f, (f < 2 * nd)%nat -> k_bcs K f = Reflexive -> u0 (f / 2)%nat = 0 := fun _ _ _ => eq_refl.
Notation rr S dt r c sd d := (q_rho (r_q (step_rec K L dt S r) c sd d)).

Lemma wpos r c d : vr r -> arr r c -> (d < 3)%nat -> 0 < mdx (l_mesh L r) d (coord d c).
Proof. exact (width_pos K N dims X L HR Hincr r c d). Qed.

Lemma even_width r c c' d : even_axes nd N ng X -> vr r -> arr r c -> arr r c' -> (d < nd)%nat ->
  mdx (l_mesh L r) d (coord d c) = mdx (l_mesh L r) d (coord d c').
Proof.
  intros He' Hr Hc Hc' Hd. destruct (He' d Hd) as (h & Hh).
  assert (W : forall x, arr r x -> mdx (l_mesh L r) d (coord d x) = h).
  { intros x Hx. rewrite (local_width K N dims X L HR r _ d Hr) by lia.
    destruct (global_range K N dims X L HR r x d Hr Hx ltac:(lia)) as [G _]. rewrite (ghosts_lt nd ng d) in G by lia. now apply Hh. }
  now rewrite !W.
Qed.

Lemma face_pos S r c sd d : adv S -> vr r -> sel K L 1 r c = true -> (d < nd)%nat ->
  0 < face_value (k_lim K) (l_mesh L r) (fun c => c_rho (s_cell (S r) c)) c sd d.
Proof.
  intros HS Hr Hs Hd.
  assert (Ar : forall x, in_stencil nd c x -> arr r x) by (intros x Hx; exact (stencil_array K N dims X L HL (ro_ng HR) r c x Hr Hs Hx)).
  pose proof (Ar c (or_introl eq_refl)) as A0. pose proof (Ar _ (st_l K c d Hd)) as A1. pose proof (Ar _ (st_r K c d Hd)) as A2.
  assert (V : forall x, arr r x -> 0 < c_rho (s_cell (S r) x)).
  { intros x Hx. destruct (HS r x Hr Hx) as ((H & _) & _). exact H. }
  pose proof (wpos r c d Hr A0 ltac:(lia)) as W0. pose proof (wpos r _ d Hr A1 ltac:(lia)) as W1. pose proof (wpos r _ d Hr A2 ltac:(lia)) as W2.
  assert (EV : even_axes nd N ng X -> mdx (l_mesh L r) d (coord d (rindex d c)) = mdx (l_mesh L r) d (coord d c) /\
                                       mdx (l_mesh L r) d (coord d (lindex d c)) = mdx (l_mesh L r) d (coord d c)).
  { intros E. split; apply even_width; auto. }
  rewrite coord_lindex_same in W1, EV by lia. rewrite coord_rindex_same in W2, EV by lia.
  rewrite face_value_eq by lia.
  set (h := mdx (l_mesh L r) d (coord d c)) in *. set (hm := mdx (l_mesh L r) d (coord d c - 1)) in *.
  set (hp := mdx (l_mesh L r) d (coord d c + 1)) in *. cbn beta.
  set (v := c_rho (s_cell (S r) c)). set (vp := c_rho (s_cell (S r) (rindex d c))). set (vm := c_rho (s_cell (S r) (lindex d c))).
  pose proof (V c A0) as V0. pose proof (V _ A1) as V1. pose proof (V _ A2) as V2. fold v in V0. fold vm in V1. fold vp in V2.
  set (a := (vp - v) / ((h + hp) / 2)). set (b := (v - vm) / ((hm + h) / 2)). set (s := slope (k_lim K) a b).
  destruct (slope_abs (k_lim K) a b) as (S1 & S2 & S3 & S4). fold s in S1, S2, S3, S4.
  pose proof (Rmin_l (Rabs a) (Rabs b)) as M1. pose proof (Rmin_r (Rabs a) (Rabs b)) as M2.
  assert (Kk : exists k, 0 <= k /\ k * h <= h + hp /\ k * h <= h + hm /\ Rabs s <= k * Rabs a /\ Rabs s <= k * Rabs b).
  { destruct (k_lim K) eqn:El; cbn [bounded_faces] in Hlim.
    - exists 0. unfold s. cbn [slope]. rewrite Rabs_R0. repeat split; lra.
    - exists 2. destruct (EV Hlim) as [E1 E2]. repeat split; lra.
    - exists 1. specialize (S2 eq_refl). repeat split; lra.
    - exists 2. destruct (EV Hlim) as [E1 E2]. repeat split; lra. }
  destruct Kk as (k & K0 & K1 & K2 & K3 & K4).
  destruct sd as [|sd].
  - replace (v + -1 * (h / 2) * s) with (v + - (h / 2 * s)) by ring. apply (between_pos v vm); [exact V0|exact V1|].
    assert (Q : (0 <= v - vm -> 0 <= h / 2 * s <= v - vm) /\ (v - vm <= 0 -> v - vm <= h / 2 * s <= 0)).
    { apply (half_face k h hm); auto; replace ((h + hm) / 2) with ((hm + h) / 2) by (f_equal; ring); assumption. }
    destruct Q as [Q1 Q2]. split; intros D; [specialize (Q2 ltac:(lra))|specialize (Q1 ltac:(lra))]; lra.
  - replace (v + 1 * (h / 2) * s) with (v + h / 2 * s) by ring. apply (between_pos v vp); [exact V0|exact V2|].
    apply (half_face k h hp); auto.
Qed.

Lemma rest_rec S dt r c sd d : adv S -> vr r -> sel K L 1 r c = true -> (sd < 2)%nat -> (d < nd)%nat ->
  rr S dt r c sd d = face_value (k_lim K) (l_mesh L r) (fun c => c_rho (s_cell (S r) c)) c sd d.
Proof.
  intros HS Hr Hs Hsd Hd.
  unfold step_rec. cbn [hydro_reconstruction r_q]. unfold kwrite. rewrite Hs. unfold hancock_cons. cbn [q_rho].
  rewrite (adv_face K N dims X L u0 P0 HR Hwall (fun _ => True)) by assumption. cbn [to_cons q_rho p_rho].
  rewrite (vsum_ext nd _ (fun _ => 0)).
  - rewrite vsum_0 by reflexivity. ring.
  - intros k Hk. rewrite !(adv_face K N dims X L u0 P0 HR Hwall (fun _ => True)) by assumption.
    cbn [flux_prim f_rho p_rho p_u]. unfold flux_diff, no_velocity. ring.
Qed.

Lemma rest_faces S dt r : adv S -> vr r -> pos_faces K L dt S r.
Proof.
  intros HS Hr c sd k Hs Hsd Hk. rewrite rest_rec by assumption. split; now apply face_pos.
Qed.

Lemma rest_mv S dt r c sd d : adv S -> vr r -> sel K L 1 r c = true -> (sd < 2)%nat -> (d < nd)%nat ->
  mv nd (k_eos K) u0 P0 (r_q (step_rec K L dt S r) c sd d).
Proof.
  intros HS Hr Hs Hsd Hd. unfold step_rec. cbn [hydro_reconstruction r_q]. unfold kwrite. rewrite Hs.
  destruct (HS r c Hr (sel1_array K N dims X L HL (ro_ng HR) r c Hr Hs)) as (_ & _ & _ & _ & Hg0).
  rewrite (layers_hancock (k_geom K) nd (k_eos K) P0 ltac:(lia) (l_mesh L r) (s_grav (S r)) (dt / 2) _
    (fun sd d => face_value (k_lim K) (l_mesh L r) (fun c => c_rho (s_cell (S r) c)) c sd d)); auto.
  - apply (mv_to_cons nd (k_eos K) u0 P0 Hev HP0). split; [now apply face_pos|reflexivity].
  - intros sd' d' _ Hd'. now apply (adv_face K N dims X L u0 P0 HR Hwall (fun _ => True)).
Qed.

Section Contact.
Hypothesis Hsol : contact_solver (k_sol K).

Lemma no_mass_flux S dt r c d : adv S -> vr r -> own r c -> (d < nd)%nat ->
  f_rho (flux_left (k_sol K) nd (k_eos K) (step_rec K L dt S r) c d) = 0 /\
  f_rho (flux_right (k_sol K) nd (k_eos K) (step_rec K L dt S r) c d) = 0.
Proof.
  intros HS Hr Hc Hd.
  assert (Hrec : forall x sd, in_stencil nd c x -> (sd < 2)%nat -> mv nd (k_eos K) u0 P0 (r_q (step_rec K L dt S r) x sd d)).
  { intros x sd Hx Hsd. apply rest_mv; auto. apply (owned_sel1 K N dims X L HL r c _ Hr Hc Hx). }
  unfold flux_left, flux_right, face_flux.
  rewrite !(upwind_mass _ _ _ u0 P0 _ _ _ He Hev HP0 Hsol) by
    (apply Hrec; try lia; first [now left|now apply st_l|now apply st_r]).
  unfold no_velocity. split; ring.
Qed.

Lemma rest_godunov S dt r c : adv S -> vr r -> own r c ->
  c_rho (step_godunov K L dt S r c) = c_rho (s_cell (S r) c) /\
  forall n, c_fx (step_godunov K L dt S r c) n = clamp (c_fx (s_cell (S r) c) n) 0 1.
Proof.
  intros HS Hr Hc. pose proof (proj2 (sel_owned _ _ _ _ _ _ _ HL Hr) Hc) as Hs.
  pose proof (owned_in_array K N dims X L HL r c Hr Hc) as Ha.
  destruct (HS r c Hr Ha) as ((Hp & _) & _). cbn [cons_of q_rho] in Hp.
  unfold step_godunov, godunov. rewrite kwrite_in by assumption. cbn [god_cell c_rho c_fx].
  assert (E : god_rho (k_geom K) nd (k_eos K) (k_sol K) (l_mesh L r) dt (s_cell (S r)) (step_rec K L dt S r) c = c_rho (s_cell (S r) c)).
  { unfold god_rho. rewrite (vsum_ext nd _ (fun _ => 0)); [rewrite vsum_0 by reflexivity; ring|].
    intros d Hd. destruct (no_mass_flux S dt r c d HS Hr Hc Hd) as [-> ->]. unfold flux_diff. ring. }
  split; [exact E|]. intros n. rewrite E. f_equal. unfold god_rhofx. rewrite (vsum_ext nd _ (fun _ => 0)).
  - rewrite vsum_0 by reflexivity. field. lra.
  - intros d Hd. destruct (no_mass_flux S dt r c d HS Hr Hc Hd) as [-> ->]. unfold flux_diff. ring.
Qed.

Lemma rest_owned S t dt r c : adv S -> vr r -> own r c ->
  mv nd (k_eos K) u0 P0 (cons_of (step_user K L t dt S r c)) /\ c_rho (step_user K L t dt S r c) = c_rho (s_cell (S r) c).
Proof.
  intros HS Hr Hc. pose proof (proj2 (sel_owned _ _ _ _ _ _ _ HL Hr) Hc) as Hs.
  destruct (HS r c Hr (owned_in_array K N dims X L HL r c Hr Hc)) as (Hu & _ & _ & _ & Hg0).
  pose proof (proj1 (rest_godunov S dt r c HS Hr Hc)) as Eg.
  assert (Mg : mv nd (k_eos K) u0 P0 (cons_of (step_godunov K L dt S r c))).
  { revert Eg. unfold step_godunov, godunov. rewrite !kwrite_in by assumption. intros Eg.
    apply layers_godunov; auto; [lia|].
    intros d Hd. split; [|split; [|split]]; apply rest_mv; auto; try lia;
      apply (owned_sel1 K N dims X L HL r c _ Hr Hc); [now left|now left|now apply st_l|now apply st_r]. }
  assert (Ep : step_pf K L dt S r c = step_godunov K L dt S r c).
  { unfold step_pf. destruct (k_pf K) as [eps|]; [|reflexivity]. unfold pressure_fix. rewrite kwrite_in by assumption. unfold pf_cell.
    rewrite (proj2 (rltb_false _ _)); [reflexivity|]. unfold ekin, eint.
    destruct Hu as (U1 & U2 & U3). cbn [cons_of q_rho q_m q_E] in U1, U2, U3.
    assert (Z : ek_cons nd (cons_of (s_cell (S r) c)) = 0).
    { unfold ek_cons. rewrite vsum_0; [unfold Rdiv; ring|]. intros d _. cbn [cons_of q_m]. rewrite U2. unfold no_velocity. ring. }
    rewrite Z, U3, (kap_rest nd). unfold e0. pose proof (law_evol_pos _ He 1 P0 ltac:(lra) HP0). lra. }
  unfold step_user, user_step. rewrite kwrite_in by assumption. rewrite Huser. cbn [user_cell]. rewrite Ep. split; [exact Mg|exact Eg].
Qed.

Lemma rest_step S t dt : adv S -> adv (full_step K L t dt S) /\
  forall r c, vr r -> own r c -> c_rho (s_cell (full_step K L t dt S r) c) = c_rho (s_cell (S r) c) /\
    forall n, c_fx (s_cell (full_step K L t dt S r) c) n = clamp (c_fx (s_cell (S r) c) n) 0 1.
Proof.
  intros HS. split.
  - unfold full_step. apply (adv_finish K N dims X L u0 P0 HR He Hev HP0 Hgrav (fun _ => True)).
    apply (bcs_all K N dims X L HL (fun x => mv nd (k_eos K) u0 P0 (cons_of x) /\ True)); [exact (ro_thick HR)|exact (ro_faces HR)| |].
    + intros f x. apply (adv_negate K u0 P0 Hwall (fun _ => True)).
    + intros r c Hr Hc. split; [|exact I]. now apply rest_owned.
  - intros r c Hr Hc. unfold full_step. cbn [finish s_cell]. rewrite !(bcs_owned K N dims X L HL) by (auto; exact (ro_faces HR)).
    split; [now apply rest_owned|]. intros n. rewrite (pf_user_fx K L). now apply rest_godunov.
Qed.

Lemma clamp_id x : 0 <= x <= 1 -> clamp x 0 1 = x.
Proof. intros H. unfold clamp. destruct (rltb x 0) eqn:A; [apply rltb_true in A; lra|]. destruct (rltb 1 x) eqn:B; [apply rltb_true in B; lra|reflexivity]. Qed.

(** The invariant. *)
Definition still (G : gfields) (S : idx -> pstate) : Prop := adv S /\
  holds_owned nd dims ng (l_dec L) (g_rho G) (fun r c => c_rho (s_cell (S r) c)) /\
  forall n, (forall c, 0 <= g_fx G c n <= 1) ->
     holds_owned nd dims ng (l_dec L) (fun c => g_fx G c n) (fun r c => c_fx (s_cell (S r) c) n).

Lemma still_step G S t dt : still G S -> still G (full_step K L t dt S).
Proof.
  intros (H1 & H2 & H3). destruct (rest_step S t dt H1) as [A B]. split; [exact A|]. split.
  - intros r Hr c Hc. rewrite (proj1 (B r c Hr Hc)). exact (H2 r Hr c Hc).
  - intros n Hn r Hr c Hc. rewrite (proj2 (B r c Hr Hc) n), (H3 n Hn r Hr c Hc). apply clamp_id, Hn.
Qed.
Lemma still_run G ts : forall S, still G S -> still G (run K L ts S).
Proof. induction ts as [|[t dt] ts IH]; intros S H; [exact H|]. cbn [run fold_left fst snd]. apply IH. now apply still_step. Qed.
Lemma still_cfl G cfl n : forall t S, still G S -> still G (snd (run_cfl K L cfl n t S)).
Proof.
  induction n as [|n IH]; intros t S H; [exact H|]. cbn [run_cfl].
  destruct (time_step_defined K N dims X L HL S) as (k & E). rewrite E. apply IH. now apply still_step.
Qed.
Lemma still_init G S : starts_from K dims L G S -> layers_at_rest P0 G -> still G (init_state K L S).
Proof.
  intros H HG. split; [|split].
  - apply (adv_init K N dims X L u0 P0 HR He Hev HP0 Hgrav Hwall (fun _ => True) G); auto.
  - intros r Hr c Hc. unfold init_state. cbn [finish s_cell]. rewrite (bcs_owned K N dims X L HL) by (auto; exact (ro_faces HR)).
    cbn [init_cons c_rho]. exact (sf_rho H r Hr c Hc).
  - intros n _ r Hr c Hc. unfold init_state. cbn [finish s_cell]. rewrite (bcs_owned K N dims X L HL) by (auto; exact (ro_faces HR)).
    cbn [init_cons c_fx]. exact (f_equal (fun f => f n) (sf_fx H r Hr c Hc)).
Qed.
Lemma still_unmoved G S : still G S -> unmoved K dims L P0 G S.
Proof.
  intros (H1 & H2 & H3). split; [exact H2|]. split; [exact H3|]. intros r c Hr Hc.
  destruct (adv_carried K dims L u0 P0 Hev HP0 (fun _ => True) S H1 r c Hr Hc) as (A & B & C & D & E).
  split; [exact A|]. split; [intros k; rewrite B; unfold no_velocity; ring|]. split; [|split; [exact D|exact E]].
  rewrite C. rewrite (vsum_ext nd _ (fun _ => 0)) by (intros; unfold no_velocity; ring). rewrite vsum_0 by reflexivity. field.
Qed.

Lemma layers_stay G S : starts_from K dims L G S -> layers_at_rest P0 G ->
  (forall ts, unmoved K dims L P0 G (run K L ts (init_state K L S))) /\
  (forall cfl n t, unmoved K dims L P0 G (snd (run_cfl K L cfl n t (init_state K L S)))).
Proof.
  intros H HG. pose proof (still_init G S H HG) as HI. split; intros; apply still_unmoved; [now apply still_run|now apply still_cfl].
Qed.
End Contact.
End Run.
