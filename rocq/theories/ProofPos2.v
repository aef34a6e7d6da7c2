(** * Positivity of whole runs (C36). *)
From Coq Require Import FunctionalExtensionality ZifyBool ZifyNat Lra.
From Verif Require Import Base RBase ModelMesh ModelGeom ModelBoundary ModelHydro ModelScheme ModelStep ModelMain
  SpecMesh SpecGeom SpecBoundary SpecHydro SpecScheme SpecStep SpecMain SpecPos
  ProofBase ProofMesh ProofR ProofBoundary ProofBoundary2 ProofHydro ProofHydro2 ProofScheme ProofMirror ProofShift ProofReduce ProofStep
  ProofSteady ProofCfl ProofMain ProofMain2 ProofMainEx ProofJump ProofPos.
Local Open Scope R_scope.

Lemma face_value_constant m var c sd d : face_value LConstant m var c sd d = var c.
Proof. unfold face_value, face_slope. cbn [slope]. destruct sd; ring. Qed.

(** ** One cell *)
Section Cell.
Variables (nd : nat) (m : mesh) (dt : R) (c : idx).
Hypothesis Hnd : (nd <= 3)%nat.
Hypothesis Hpos : forall d, (d < 3)%nat -> 0 < mdx m d (coord d c).

Lemma cart_rate d fL fR : (d < 3)%nat -> flux_diff Cartesian nd m dt c d fL fR = dt / mdx m d (coord d c) * (fL - fR).
Proof.
  intros Hd. rewrite cart_flux_diff by exact Hd. cbn [ds dv]. unfold cart_ds, cart_dv.
  pose proof (Hpos 0 ltac:(lia)) as P0. pose proof (Hpos 1 ltac:(lia)) as P1. pose proof (Hpos 2 ltac:(lia)) as P2. cbn [coord] in P0, P1, P2.
  destruct d as [|[|[|d]]]; [| | |lia]; cbn [Nat.eqb coord]; field; lra.
Qed.

Variables (e : eos) (s : solver) (grav : gravity) (a : idx -> cell) (r : recon).
Hypothesis Hg : forall d, grav c d = 0.

Lemma functional_update F G : functional nd F G ->
  F (cons_of (god_cell Cartesian nd e s m grav dt a r c))
  = F (cons_of (a c)) + vsum nd (fun d => dt / mdx m d (coord d c) * (G (flux_left s nd e r c d) - G (flux_right s nd e r c d))).
Proof.
  set (lam := fun d => dt / mdx m d (coord d c)).
  assert (E1 : god_rho Cartesian nd e s m dt a r c
    = c_rho (a c) + vsum nd (fun d => lam d * (f_rho (flux_left s nd e r c d) - f_rho (flux_right s nd e r c d)))).
  { unfold god_rho. f_equal. apply vsum_ext. intros d Hd. apply cart_rate. lia. }
  assert (E2 : forall k, god_rhou Cartesian nd e s m grav dt a r c k
    = c_rhou (a c) k + vsum nd (fun d => lam d * (f_m (flux_left s nd e r c d) k - f_m (flux_right s nd e r c d) k))).
  { intros k. unfold god_rhou. rewrite Hg. replace (dt * 0 * c_rho (a c)) with 0 by ring. rewrite Rplus_0_r. f_equal. apply vsum_ext. intros d Hd.
    cbn [geo_source]. rewrite Rplus_0_r. apply cart_rate. lia. }
  assert (E3 : god_E Cartesian nd e s m grav dt a r c
    = c_E (a c) + vsum nd (fun d => lam d * (f_E (flux_left s nd e r c d) - f_E (flux_right s nd e r c d)))).
  { unfold god_E. f_equal. apply vsum_ext. intros d Hd. rewrite Hg. rewrite cart_rate by lia. unfold lam. ring. }
  intros [|v].
  - cbn [cons_of god_cell c_rho q_rho]. exact E1.
  - set (V2 := vsum nd (fun d => v d ^ 2)).
    set (DE := fun d => lam d * (f_E (flux_left s nd e r c d) - f_E (flux_right s nd e r c d))) in *.
    set (DR := fun d => lam d * (f_rho (flux_left s nd e r c d) - f_rho (flux_right s nd e r c d))) in *.
    set (DM := fun d k => lam d * (f_m (flux_left s nd e r c d) k - f_m (flux_right s nd e r c d) k)).
    assert (E4 : vsum nd (fun d => lam d * (ellf nd v (flux_left s nd e r c d) - ellf nd v (flux_right s nd e r c d)))
                 = vsum nd DE - vsum nd (fun d => vsum nd (fun k => v k * DM d k)) + V2 / 2 * vsum nd DR).
    { rewrite <- vsum_minus, <- vsum_scal, <- vsum_plus. apply vsum_ext. intros d _. unfold ellf, DE, DR, DM. fold V2.
      rewrite (vsum_ext nd (fun k => v k * (lam d * (f_m (flux_left s nd e r c d) k - f_m (flux_right s nd e r c d) k)))
          (fun k => lam d * (v k * f_m (flux_left s nd e r c d) k - v k * f_m (flux_right s nd e r c d) k))) by (intros; ring).
      rewrite (vsum_scal nd (lam d) (fun k => v k * f_m (flux_left s nd e r c d) k - v k * f_m (flux_right s nd e r c d) k)).
      rewrite (vsum_minus nd (fun k => v k * f_m (flux_left s nd e r c d) k) (fun k => v k * f_m (flux_right s nd e r c d) k)). field. }
    change (ell nd v (cons_of (god_cell Cartesian nd e s m grav dt a r c)) = ell nd v (cons_of (a c))
      + vsum nd (fun d => lam d * (ellf nd v (flux_left s nd e r c d) - ellf nd v (flux_right s nd e r c d)))).
    rewrite E4. unfold ell. fold V2. cbn [cons_of god_cell c_rho c_rhou c_E q_rho q_m q_E]. rewrite E1, E3.
    rewrite (vsum_ext nd (fun k => v k * god_rhou Cartesian nd e s m grav dt a r c k)
      (fun k => v k * c_rhou (a c) k + vsum nd (fun d => v k * DM d k)))
      by (intros k _; rewrite E2, vsum_scal; unfold DM; ring).
    rewrite (vsum_plus nd (fun k => v k * c_rhou (a c) k)), (vsum_swap nd nd (fun k d => v k * DM d k)). field.
Qed.

(** A convex combination, written with the weights [w d] of the faces. *)
Lemma update_pos F G (w : R) (s_ : nat -> R) : functional nd F G -> (1 <= nd)%nat -> 0 < dt ->
  0 < F (cons_of (a c)) -> INR nd * w <= 1 ->
  (forall d, (d < nd)%nat -> dt / mdx m d (coord d c) * s_ d = w) ->
  (forall d, (d < nd)%nat -> 0 < s_ d * F (cons_of (a c)) + G (flux_left s nd e r c d) - G (flux_right s nd e r c d)) ->
  0 < F (cons_of (god_cell Cartesian nd e s m grav dt a r c)).
Proof.
  intros HF Hn Hdt Hx Hw Hs HG. rewrite (functional_update F G HF). set (x := F (cons_of (a c))) in *.
  rewrite (vsum_ext nd _ (fun d => dt / mdx m d (coord d c) * (s_ d * x + G (flux_left s nd e r c d) - G (flux_right s nd e r c d)) + (- (w * x)))).
  2:{ intros d Hd. rewrite <- (Hs d Hd). ring. }
  rewrite vsum_plus.
  assert (E : vsum nd (fun _ => - (w * x)) = - (INR nd * w) * x).
  { clear. induction nd as [|n IH]; [cbn; ring|]. rewrite vsum_S_first, IH, S_INR. ring. }
  rewrite E. assert (0 < vsum nd (fun d => dt / mdx m d (coord d c) * (s_ d * x + G (flux_left s nd e r c d) - G (flux_right s nd e r c d)))).
  { apply vsum_pos; [exact Hn|]. intros d Hd. apply Rmult_lt_0_compat; [|now apply HG]. apply Rdiv_lt_0_compat; [exact Hdt|apply Hpos; lia]. }
  nra.
Qed.
End Cell.

(** ** Whole steps *)
Section Run.
Context (K : config) (N dims : idx) (X : nat -> arr1) (L : layout) (q : R).
Hypothesis HR : runs_on K N dims X L.
Hypothesis He : lawful_eos (k_eos K).
Hypothesis Hrob : robust_eos (k_eos K).
Hypothesis HF : first_order K.
Hypothesis Hincr : increasing (k_nd K) N (k_ng K) X.
Hypothesis Hgrad : graded (k_nd K) N (k_ng K) X q.
Notation nd := (k_nd K).
Notation ng := (k_ng K).
Notation vr := (process nd dims).
Notation own r := (owned nd ng (d_nloc (l_dec L r))).
Notation arr r := (in_array (d_nwg (l_dec L r))).
Let HL := ro_layout HR.
Let HD := lo_dec HL.
Let Hnd : (1 <= nd <= 3)%nat := dcp_nd HD.

(** *** Widths *)
Lemma global_range r c d : vr r -> arr r c -> (d < 3)%nat ->
  (0 <= coord d (corner_min (d_range (l_dec L r))) + coord d c < coord d N + 2 * ghosts nd ng d)%Z /\
  (0 <= coord d (corner_min (d_range (l_dec L r))))%Z.
Proof.
  intros Hr Hc Hd. specialize (Hc d Hd). rewrite (dec_nwg _ _ _ _ _ HD r d Hr Hd) in Hc. rewrite (dec_cmin _ _ _ _ _ HD r d Hr Hd).
  pose proof (cm_nonneg _ _ _ _ _ HD d (coord d r) Hd ltac:(apply (Hr d Hd))). pose proof (cm_max _ _ _ _ _ HD d (coord d r) Hd ltac:(apply (Hr d Hd))). lia.
Qed.
Lemma local_width r i d : vr r -> (d < 3)%nat ->
  mdx (l_mesh L r) d i = a_at (X d) (coord d (corner_min (d_range (l_dec L r))) + i + 1)%Z
                       - a_at (X d) (coord d (corner_min (d_range (l_dec L r))) + i)%Z.
Proof. intros Hr Hd. unfold mdx. rewrite !(set_grid_at _ _ _ (lo_mesh HL Hr)) by exact Hd. now rewrite Z.add_assoc. Qed.
Lemma width_pos r c d : vr r -> arr r c -> (d < 3)%nat -> 0 < mdx (l_mesh L r) d (coord d c).
Proof.
  intros Hr Hc Hd. rewrite local_width by assumption. destruct (global_range r c d Hr Hc Hd) as [H _]. pose proof (Hincr d _ Hd H). lra.
Qed.
Lemma width_mdx r c d : (d < 3)%nat -> width Cartesian (l_mesh L r) c d = mdx (l_mesh L r) d (coord d c).
Proof. intros Hd. unfold width, mdx. destruct d as [|[|[|d]]]; [reflexivity..|lia]. Qed.
Lemma width_ratio r c c' d : vr r -> arr r c -> arr r c' -> (d < nd)%nat ->
  (coord d c' = coord d c + 1)%Z \/ (coord d c' = coord d c - 1)%Z ->
  mdx (l_mesh L r) d (coord d c') <= q * mdx (l_mesh L r) d (coord d c).
Proof.
  intros Hr Hc Hc' Hd H. rewrite !local_width by (assumption || lia).
  destruct (global_range r c d Hr Hc ltac:(lia)) as [G1 G0]. destruct (global_range r c' d Hr Hc' ltac:(lia)) as [G2 _].
  rewrite (ghosts_lt nd ng d Hd) in G1, G2. set (b := coord d (corner_min (d_range (l_dec L r)))) in *.
  destruct H as [H|H].
  - destruct (Hgrad d (b + coord d c)%Z Hd ltac:(lia) ltac:(lia)) as [_ E]. cbv zeta in E. rewrite H, Z.add_assoc. exact E.
  - destruct (Hgrad d (b + coord d c')%Z Hd ltac:(lia) ltac:(lia)) as [E _]. cbv zeta in E.
    replace (b + coord d c' + 1)%Z with (b + coord d c)%Z in E by lia. replace (b + coord d c' + 1)%Z with (b + coord d c)%Z by lia. exact E.
Qed.

(** *** Consistent states *)
Definition sound_state (S : idx -> pstate) : Prop :=
  forall r c, vr r -> arr r c ->
    valid_cons nd (cons_of (s_cell (S r) c)) /\ (forall k, s_u (S r) c k = velocity (cons_of (s_cell (S r) c)) k) /\
    s_P (S r) c = pressure nd (k_eos K) (cons_of (s_cell (S r) c)) /\ (forall j, s_grav (S r) c j = 0).

Lemma sound_physical S : sound_state S -> physical K dims L S.
Proof.
  intros H r c Hr Hc. destruct (H r c Hr Hc) as (H1 & _ & H3 & _). split; [exact H1|]. rewrite H3.
  apply (law_pres_pos _ He); apply H1.
Qed.

Lemma negate_valid d x : valid_cons nd (cons_of x) -> valid_cons nd (cons_of (negate_momentum d x)).
Proof.
  unfold valid_cons, internal, kinetic. cbn [cons_of negate_momentum q_rho q_m q_E c_rho c_rhou c_E].
  rewrite (vsum_ext nd (fun n => (if Nat.eqb n d then - c_rhou x n else c_rhou x n) ^ 2) (fun n => c_rhou x n ^ 2)); [auto|].
  intros k _. destruct (Nat.eqb k d); ring.
Qed.

Lemma sound_finish A rec new S : (forall r c, vr r -> arr r c -> valid_cons nd (cons_of (A r c))) -> sound_state (finish K L A rec new S).
Proof.
  intros HA r c Hr Hc. specialize (HA r c Hr Hc).
  pose proof (proj2 (sel_array _ _ _ _ _ _ _ HL Hr) Hc) as Hs.
  cbn [finish s_cell s_u s_P s_grav conv_cons_to_prim fst snd]. unfold kwrite. rewrite Hs.
  change (mkCons (c_rho (A r c)) (c_rhou (A r c)) (c_E (A r c))) with (cons_of (A r c)).
  split; [exact HA|]. split; [reflexivity|]. split; [apply pressure_to_prim; exact HA|].
  intros j. destruct (fo_grav HF) as (g & Eg & Hg). unfold gravity_values. rewrite Eg. apply Hg.
Qed.

Lemma sound_rec S r c sd k dt : sound_state S -> vr r -> sel K L 1 r c = true -> (sd < 2)%nat -> (k < nd)%nat ->
  r_q (step_rec K L dt S r) c sd k = cons_of (s_cell (S r) c).
Proof.
  intros HS Hr Hs Hsd Hk. unfold step_rec. cbn [hydro_reconstruction r_q]. unfold kwrite. rewrite Hs.
  destruct (HS r c Hr (sel1_array K N dims X L HL (ro_ng HR) r c Hr Hs)) as (H1 & H2 & H3 & H4).
  rewrite (fo_geom HF), (fo_lim HF). rewrite <- (to_cons_to_prim nd (k_eos K) He (cons_of (s_cell (S r) c)) H1).
  apply hancock_uniform; try assumption; [lia|]. intros sd' d Hsd' Hd. unfold face_prim. apply prim_ext; cbn [p_rho p_u p_P to_prim]; intros; rewrite face_value_constant.
  - reflexivity.
  - now rewrite H2.
  - rewrite H3. unfold pressure. now rewrite evol_cons_internal by apply H1.
Qed.

Definition factor : R := match k_sol K with HLL => 1 | _ => 2 end.

Lemma riemann_pair qc ql qr dir s : k_sol K <> LowMach -> (dir < nd)%nat ->
  valid_cons nd qc -> valid_cons nd ql -> valid_cons nd qr ->
  speed nd (k_eos K) qc dir <= s -> speed nd (k_eos K) ql dir <= s -> speed nd (k_eos K) qr dir <= s ->
  forall F G, functional nd F G ->
    0 < factor * s * F qc + G (riemann (k_sol K) nd (k_eos K) ql qc dir) - G (riemann (k_sol K) nd (k_eos K) qc qr dir).
Proof.
  intros Hs Hd H0 Hl Hr S0 Sl Sr F G HFG. unfold factor. destruct (k_sol K); [| |congruence]; cbn [riemann].
  - rewrite Rmult_1_l. now apply hll_pair.
  - now apply hllc_pair.
Qed.

Lemma cell_speed S r c d : sound_state S -> vr r -> arr r c -> (d < nd)%nat ->
  speed nd (k_eos K) (cons_of (s_cell (S r) c)) d / mdx (l_mesh L r) d (coord d c) <= crossing_rate K L S r c.
Proof.
  intros HS Hr Hc Hd. unfold crossing_rate. rewrite (fo_geom HF). destruct (HS r c Hr Hc) as (H1 & H2 & H3 & _).
  set (f := fun d => _ / _). assert (E : speed nd (k_eos K) (cons_of (s_cell (S r) c)) d / mdx (l_mesh L r) d (coord d c) = f d).
  { unfold f, speed. rewrite width_mdx by lia. rewrite H2, H3. reflexivity. }
  rewrite E. apply vsum_pos_term; [|exact Hd]. intros i Hi. unfold f. rewrite width_mdx by lia.
  apply Rmult_le_pos; [|left; apply Rinv_0_lt_compat, width_pos; (assumption || lia)].
  rewrite H3. pose proof (Rabs_pos (s_u (S r) c i)). destruct (state_facts nd (k_eos K) He Hrob _ H1) as (_ & Hc0 & _).
  unfold sound in Hc0. cbn [cons_of q_rho] in Hc0. lra.
Qed.

Variable cfl : R.
Hypothesis Hcfl : cfl_allowed K q cfl.

Lemma sound_owned S t dt r c : sound_state S -> 0 < dt ->
  (forall r c, vr r -> arr r c -> dt * crossing_rate K L S r c <= cfl) ->
  vr r -> own r c -> valid_cons nd (cons_of (step_user K L t dt S r c)).
Proof.
  intros HS Hdt Hrate Hr Hc. destruct Hcfl as (C0 & Cq & C1).
  pose proof (proj2 (sel_owned _ _ _ _ _ _ _ HL Hr) Hc) as Hs.
  unfold step_user, user_step. rewrite kwrite_in by assumption. rewrite (fo_user HF). cbn [user_cell].
  unfold step_pf. rewrite (fo_pf HF). unfold step_godunov, godunov. rewrite kwrite_in by assumption. rewrite (fo_geom HF).
  pose proof (owned_in_array K N dims X L HL r c Hr Hc) as Ha. destruct (HS r c Hr Ha) as (V0 & _ & _ & Hg).
  assert (Hst : forall x, in_stencil nd c x -> arr r x /\ sel K L 1 r x = true).
  { intros x Hx. pose proof (owned_sel1 K N dims X L HL r c x Hr Hc Hx) as H. split; [|exact H].
    exact (sel1_array K N dims X L HL (ro_ng HR) r x Hr H). }
  assert (Hsol : k_sol K <> LowMach) by (intros E; rewrite E in C1; exact C1).
  assert (Hw : INR nd * (factor * q * cfl) <= 1) by (unfold factor; destruct (k_sol K); [lra|lra|contradiction]).
  assert (Hpw : forall d, (d < 3)%nat -> 0 < mdx (l_mesh L r) d (coord d c)) by (intros d Hd; now apply width_pos).
  apply functional_valid. intros F G HFG.
  apply (update_pos nd (l_mesh L r) dt c ltac:(lia) Hpw (k_eos K) (k_sol K) (s_grav (S r)) (s_cell (S r)) (step_rec K L dt S r) Hg F G
    (factor * q * cfl) (fun d => factor * (q * cfl * mdx (l_mesh L r) d (coord d c) / dt)) HFG ltac:(lia) Hdt); [|exact Hw| |].
  - now apply (functional_pos nd F G).
  - intros d Hd. pose proof (Hpw d ltac:(lia)). field. lra.
  - intros d Hd. unfold flux_left, flux_right, face_flux.
    destruct (Hst _ (or_introl eq_refl)) as [_ Sc]. destruct (Hst _ (st_l K c d Hd)) as [Al Sl]. destruct (Hst _ (st_r K c d Hd)) as [Ar Sr].
    rewrite !sound_rec by (assumption || lia).
    pose proof (Hpw d ltac:(lia)) as W0. pose proof (width_pos r _ d Hr Al ltac:(lia)) as Wl. pose proof (width_pos r _ d Hr Ar ltac:(lia)) as Wr.
    assert (B : forall x, arr r x -> mdx (l_mesh L r) d (coord d x) <= q * mdx (l_mesh L r) d (coord d c) ->
      speed nd (k_eos K) (cons_of (s_cell (S r) x)) d <= q * cfl * mdx (l_mesh L r) d (coord d c) / dt).
    { intros x Ax Wx. pose proof (cell_speed S r x d HS Hr Ax Hd) as H1. pose proof (Hrate r x Hr Ax) as H2.
      pose proof (width_pos r x d Hr Ax ltac:(lia)) as W. set (w := mdx (l_mesh L r) d (coord d x)) in *. set (sp := speed _ _ _ d) in *.
      assert (H3 : dt * (sp / w) <= cfl) by (eapply Rle_trans; [|exact H2]; apply Rmult_le_compat_l; lra).
      apply (Rmult_le_reg_r dt); [exact Hdt|]. unfold Rdiv at 1. rewrite Rmult_assoc, Rinv_l, Rmult_1_r by lra.
      replace (sp * dt) with (dt * (sp / w) * w) by (field; lra).
      apply Rle_trans with (cfl * w); [apply Rmult_le_compat_r; lra|]. rewrite (Rmult_comm q cfl), Rmult_assoc. apply Rmult_le_compat_l; lra. }
    apply riemann_pair; try assumption.
    + now apply (HS r _ Hr Al).
    + now apply (HS r _ Hr Ar).
    + apply B; [exact Ha|]. nra.
    + apply B; [exact Al|]. apply width_ratio; try assumption. right. apply coord_lindex_same; lia.
    + apply B; [exact Ar|]. apply width_ratio; try assumption. left. apply coord_rindex_same; lia.
Qed.

Lemma sound_step S t dt : sound_state S -> 0 < dt ->
  (forall r c, vr r -> arr r c -> dt * crossing_rate K L S r c <= cfl) -> sound_state (full_step K L t dt S).
Proof.
  intros HS Hdt Hrate. unfold full_step. apply sound_finish.
  apply (bcs_all K N dims X L HL (fun x => valid_cons nd (cons_of x))); [exact (ro_thick HR)|exact (ro_faces HR)| |].
  - intros f x _ _. apply negate_valid.
  - intros r c Hr Hc. now apply sound_owned.
Qed.

Lemma sound_init G S : starts_from K dims L G S -> (forall c, 0 < g_rho G c /\ 0 < g_P G c) -> sound_state (init_state K L S).
Proof.
  intros H HG. unfold init_state. apply sound_finish.
  apply (bcs_all K N dims X L HL (fun x => valid_cons nd (cons_of x))); [exact (ro_thick HR)|exact (ro_faces HR)| |].
  - intros f x _ _. apply negate_valid.
  - intros r c Hr Hc. pose proof (proj2 (sel_owned _ _ _ _ _ _ _ HL Hr) Hc) as Hs.
    unfold init_cons. cbn [conv_prim_to_cons fst snd]. unfold kwrite. rewrite Hs.
    pose proof (sf_rho H r Hr c Hc) as A1. pose proof (sf_P H r Hr c Hc) as A4. cbn beta in *.
    set (p := mkPrim (c_rho (s_cell (S r) c)) (s_u (S r) c) (s_P (S r) c)).
    change (valid_cons nd (to_cons nd (k_eos K) p)). apply (valid_to_cons nd (k_eos K) He). unfold p, valid_prim. cbn [p_rho p_P].
    rewrite A1, A4. apply HG.
Qed.

Lemma sound_cfl S : sound_state S -> exists h, time_step K L S = Some h /\ 0 < h /\
  forall r c, vr r -> arr r c -> cfl * h * crossing_rate K L S r c <= cfl.
Proof.
  intros HS. destruct (time_step_defined K N dims X L HL S) as (h & E). exists h. split; [exact E|].
  destruct (cfl_bound K N dims X L HL S h He) as (H0 & H1 & _); [|exact E|].
  - intros r c Hr Hc. pose proof (owned_in_array K N dims X L HL r c Hr Hc) as Ha. destruct (sound_physical S HS r c Hr Ha) as [[V1 _] V2].
    split; [exact V1|]. split; [exact V2|]. intros d Hd. rewrite (fo_geom HF), width_mdx by lia. apply width_pos; (assumption || lia).
  - split; [exact H0|]. intros r c Hr Hc. specialize (H1 r c Hr Hc). destruct Hcfl as (C0 & _). rewrite Rmult_assoc. nra.
Qed.

Lemma sound_run_cfl n : forall t S, sound_state S -> sound_state (snd (run_cfl K L cfl n t S)).
Proof.
  induction n as [|n IH]; intros t S HS; [exact HS|]. cbn [run_cfl].
  destruct (sound_cfl S HS) as (h & E & Hh & Hr). rewrite E. apply IH. apply sound_step; try assumption. destruct Hcfl as (C0 & _). nra.
Qed.

(** *** The time loop *)
Lemma sound_not_bad S : sound_state S -> y_bad (hydro K L cfl) S = false.
Proof.
  intros HS. apply Bool.not_true_iff_false. intros Hb. apply (bad_iff K N dims X L HL) in Hb. destruct Hb as (r & c & Hr & Hc & Hlt).
  destruct (HS r c Hr (owned_in_array K N dims X L HL r c Hr Hc)) as ((V1 & V2) & _). rewrite evol_cons_internal in Hlt by exact V1. lra.
Qed.

Lemma sound_body p clock m m' v : sound_state (m_st m) -> m_t m < p_t_end p ->
  body (hydro K L cfl) p clock m = (m', v) -> completed v ->
  sound_state (m_st m') /\ (v = Going -> m_t m' < p_t_end p).
Proof.
  intros HS Ht Hb Hv. destruct (sound_cfl _ HS) as (h & E & Hh & Hr). destruct Hcfl as (C0 & _).
  assert (Hd : 0 < y_dt (hydro K L cfl) (m_st m)) by (cbn [hydro y_dt]; rewrite E; nra).
  split; [|intros Hg; now apply (body_time _ _ _ _ _ _ Ht Hd Hb Hv)].
  destruct (body_inv _ _ _ _ _ _ Hb Hv) as (o1 & iid & o2 & tid & dt2 & s1 & dt & _ & _ & E2 & E3 & _ & Em & _).
  cbv zeta in Em. set (stop := (s1 || _ || _)%bool) in Em.
  destruct (step_of_fields (hydro K L cfl) m o1 iid o2 tid stop dt) as (_ & _ & _ & _ & Es & _). rewrite <- Em in Es. rewrite Es. cbn [hydro y_step].
  cbn [hydro y_dt] in E2. rewrite E in E2.
  assert (D : 0 < dt <= cfl * h).
  { assert (0 < cfl * h) by nra. destruct (time_schedule_inv _ _ _ _ _ _ E2) as [(_ & _ & _ & Q)|(F & [(Q1 & Q2 & _ & _ & Q)|(_ & _ & _ & Q)])];
      destruct (clip_inv _ _ _ _ _ E3) as [(P1 & _ & P)|(_ & _ & P)]; subst dt dt2; lra. }
  apply sound_step; [exact HS|lra|]. intros r c Hrr Hcc. specialize (Hr r c Hrr Hcc).
  set (x := crossing_rate K L (m_st m) r c) in *. destruct (Rle_lt_dec 0 x) as [Q|Q]; [|nra].
  apply Rle_trans with (cfl * h * x); [apply Rmult_le_compat_r; lra|exact Hr].
Qed.

Lemma sound_loop p clock m0 : sound_state (m_st m0) -> m_t m0 < p_t_end p ->
  (forall f, In f (m_files m0) -> sound_state (fl_data f)) ->
  forall n m v, loop (hydro K L cfl) p clock n m0 = (m, v) ->
  sound_state (m_st m) /\ (forall f, In f (m_files m) -> sound_state (fl_data f)) /\ v <> Failed "detected invalid volumic internal energy".
Proof.
  intros H0 Ht Hf0.
  assert (Hbody : forall m m' v, sound_state (m_st m) -> m_t m < p_t_end p -> (forall f, In f (m_files m) -> sound_state (fl_data f)) ->
    body (hydro K L cfl) p clock m = (m', v) ->
    sound_state (m_st m') /\ (forall f, In f (m_files m') -> sound_state (fl_data f)) /\ v <> Failed "detected invalid volumic internal energy" /\
    (v = Going -> m_t m' < p_t_end p)).
  { intros m m' v HS HT Hf Hb. 
    assert (Hcase : completed v \/ (m' = m /\ v <> Going /\ v <> Failed "detected invalid volumic internal energy")).
    { revert Hb. unfold body. destruct (negb _); [intros H; inversion H; subst; right; repeat split; congruence|].
      unfold iter_schedule. 
      destruct (iter_schedule p m) as [[o1 iid]|w|w] eqn:E1; unfold iter_schedule in E1; rewrite E1;
        [|exfalso; revert E1; destruct (0 <? p_iter_freq p)%Z; [destruct (negb _); [|destruct (_ <=? _)%Z]|]; discriminate|intros H; inversion H; subst; right; repeat split; congruence].
      destruct (time_schedule p m _) as [[[o2 tid] dt2]|w|w] eqn:E2;
        [|unfold time_schedule in E2; destruct (rltb _ _); [destruct (rleb _ (m_t m + _)); [destruct (rleb _ 0)|]|]; try discriminate;
          injection E2 as <-; intros H; inversion H; subst; right; repeat split; congruence
         |intros H; inversion H; subst; right; repeat split; congruence].
      destruct (clip_to_end p (m_t m) dt2) as [s1 dt]. rewrite (sound_not_bad _ HS). intros H; inversion H; subst. left.
      match goal with |- completed (if ?b then _ else _) => destruct b end; [right|left]; reflexivity. }
    destruct Hcase as [Hv|(-> & H1 & H2)].
    2:{ split; [exact HS|]. split; [exact Hf|]. split; [exact H2|]. intros; contradiction. }
    destruct (sound_body p clock m m' v HS HT Hb Hv) as [A B]. split; [exact A|]. split; [|split; [destruct Hv; subst; discriminate|exact B]].
    destruct (body_inv _ _ _ _ _ _ Hb Hv) as (o1 & iid & o2 & tid & dt2 & s1 & dt & _ & _ & _ & _ & _ & Em & _).
    cbv zeta in Em. set (stop := (s1 || _ || _)%bool) in Em.
    destruct (step_of_fields (hydro K L cfl) m o1 iid o2 tid stop dt) as (_ & _ & _ & _ & _ & Ef & _). rewrite <- Em in Ef.
    intros f Hin. rewrite Ef in Hin. destruct (_ || stop)%bool in Hin; [|now apply Hf].
    apply in_app_or in Hin. destruct Hin as [Hin|[<-|[]]]; [now apply Hf|]. exact A. }
  intros n. revert m0 H0 Ht Hf0. induction n as [|n IH]; intros m0 H0 Ht Hf0 m v H.
  - cbn in H. inversion H; subst. split; [exact H0|]. split; [exact Hf0|discriminate].
  - cbn in H. destruct (body (hydro K L cfl) p clock m0) as [m1 v1] eqn:E.
    destruct (Hbody _ _ _ H0 Ht Hf0 E) as (A & B & C & D).
    destruct v1; [apply (IH m1 A (D eq_refl) B m v H)|inversion H; subst; auto..].
Qed.
End Run.
