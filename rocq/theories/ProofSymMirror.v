(** * Runs in a mirror (C99). *)
From Coq Require Import FunctionalExtensionality ZifyBool ZifyNat.
From Verif Require Import Base RBase ModelMesh ModelGeom ModelBoundary ModelHydro ModelScheme ModelStep
  SpecMesh SpecGeom SpecBoundary SpecHydro SpecScheme SpecStep SpecFill SpecSym
  ProofBase ProofMesh ProofR ProofBoundary ProofBoundary2 ProofHydro ProofHydro2 ProofScheme ProofAxes ProofMirror ProofSchemeEx ProofShift ProofReduce ProofStep ProofStepEx ProofLayout ProofMPIGrid
  ProofFill ProofSym ProofSym2.
Local Open Scope R_scope.

Lemma step_rec_clean K N X L dt S c sd k : laid_out K N one_process X L -> (2 <= k_ng K)%Z -> sel K L 1 rank0 c = true -> (k < k_nd K)%nat ->
  r_q (step_rec K (clean_layout X L) dt (clean K L S) rank0) c sd k = r_q (step_rec K L dt S rank0) c sd k.
Proof.
  intros HL Hng Hc Hk. pose proof (rank0_ok (k_nd K)) as Hr. rewrite <- (iadd_zero c) at 1.
  assert (Hnd : (k_nd K <= 3)%nat) by (pose proof (dcp_nd (lo_dec HL)); lia).
  apply (step_rec_shift K L (clean_layout X L) rank0 rank0 (I3 0 0 0) S (clean K L S) dt Hnd); try assumption.
  - assert (E : forall d i, (d < 3)%nat -> l_mesh (clean_layout X L) rank0 d i = l_mesh L rank0 d i).
    { intros d i Hd. rewrite (set_grid_at _ _ _ (lo_mesh HL Hr)) by assumption. rewrite (s_cmin _ _ _ _ HL) by assumption.
      cbn [clean_layout l_mesh]. destruct (Nat.ltb_spec d 3); [|lia]. now rewrite Z.add_0_l. }
    unfold geo_agree. destruct (k_geom K); intros d j Hd Hj; rewrite ?coord_zero, Z.add_0_l; unfold mdx; now rewrite ?E by assumption.
  - intros j. rewrite iadd_zero. cbn [clean s_grav]. assert (A : sel K L (k_ng K) rank0 c = true) by (apply (sel_mono _ _ _ _ _ 1 _ _ _ HL Hr); [lia|exact Hc]). now rewrite A.
  - intros y Hy. pose proof (sel_stencil _ _ _ _ _ _ _ _ _ HL Hr Hc Hy) as Hy2. cbn [Z.add Pos.add] in Hy2.
    assert (B : sel K L (k_ng K) rank0 y = true) by (apply (sel_mono _ _ _ _ _ 2 _ _ _ HL Hr); [lia|exact Hy2]).
    unfold alike. rewrite iadd_zero. cbn [clean s_cell s_u s_P]. now rewrite B.
Qed.

(** ** Ghost cells *)
Lemma mod_mirror n x : (1 <= n)%Z -> ((n - 1 - x) mod n = n - 1 - x mod n)%Z.
Proof.
  intros Hn. pose proof (Z.mod_pos_bound x n ltac:(lia)). pose proof (Z.div_mod x n ltac:(lia)) as E.
  symmetry. apply (Z.mod_unique_pos _ _ (- (x / n))); lia.
Qed.
Lemma continue_mirror bl br n x : (1 <= n)%Z -> continue br bl n (n - 1 - x) = (n - 1 - continue bl br n x)%Z.
Proof.
  intros Hn. unfold continue.
  destruct (Z.ltb_spec x 0), (Z.leb_spec n x), (Z.ltb_spec (n - 1 - x) 0), (Z.leb_spec n (n - 1 - x)); try lia;
    destruct bl, br; rewrite ?mod_mirror by assumption; try lia.
Qed.
Lemma turned_mirror bl br n x : (1 <= n)%Z -> turned br bl n (n - 1 - x) = turned bl br n x.
Proof.
  intros Hn. unfold turned.
  destruct (Z.ltb_spec x 0), (Z.leb_spec n x), (Z.ltb_spec (n - 1 - x) 0), (Z.leb_spec n (n - 1 - x)); try lia; reflexivity.
Qed.

Lemma mirror_coord d N c k : (d < 3)%nat -> (k < 3)%nat -> coord k (mirror_idx d N c) = if Nat.eqb k d then (coord d N - 1 - coord d c)%Z else coord k c.
Proof.
  intros Hd Hk. unfold mirror_idx. destruct (Nat.eqb_spec k d) as [->|Hn]; [now apply coord_set_same|apply coord_set_other; auto].
Qed.

Lemma continuation_mirror nd d N (b b' : nat -> bcond) (G G' : idx -> cell) g : (nd <= 3)%nat -> (d < nd)%nat ->
  (forall k, (k < 3)%nat -> (1 <= coord k N)%Z) ->
  (forall k s, (k < nd)%nat -> (s < 2)%nat -> b' (2 * k + s)%nat = b (2 * k + (if Nat.eqb k d then 1 - s else s))%nat) ->
  (forall k, (k < nd)%nat -> (- coord k N <= coord k g < 2 * coord k N)%Z) ->
  (forall k, (nd <= k < 3)%nat -> (0 <= coord k g < coord k N)%Z) ->
  (forall x, (forall k, (k < 3)%nat -> (0 <= coord k x < coord k N)%Z) -> G' (mirror_idx d N x) = negate_momentum d (G x)) ->
  continuation nd N b' G' (mirror_idx d N g) = negate_momentum d (continuation nd N b G g).
Proof.
  intros Hnd Hd HN Hb Hg Hg' HG. unfold continuation. assert (Hd3 : (d < 3)%nat) by lia.
  assert (B0 : forall k, (k < nd)%nat -> k <> d -> b' (2 * k)%nat = b (2 * k)%nat /\ b' (2 * k + 1)%nat = b (2 * k + 1)%nat).
  { intros k Hk Hn. pose proof (Hb k 0%nat Hk ltac:(lia)) as H0. pose proof (Hb k 1%nat Hk ltac:(lia)) as H1.
    destruct (Nat.eqb_spec k d); [congruence|]. rewrite !Nat.add_0_r in H0. now split. }
  assert (B1 : b' (2 * d)%nat = b (2 * d + 1)%nat /\ b' (2 * d + 1)%nat = b (2 * d)%nat).
  { pose proof (Hb d 0%nat Hd ltac:(lia)) as H0. pose proof (Hb d 1%nat Hd ltac:(lia)) as H1.
    rewrite Nat.eqb_refl in H0, H1. cbn [Nat.sub] in H0, H1. rewrite Nat.add_0_r in H0, H1. now split. }
  set (x := mk3 (fun k => if Nat.ltb k nd then continue (b (2 * k)%nat) (b (2 * k + 1)%nat) (coord k N) (coord k g) else coord k g)).
  assert (E : mk3 (fun k => if Nat.ltb k nd then continue (b' (2 * k)%nat) (b' (2 * k + 1)%nat) (coord k N) (coord k (mirror_idx d N g)) else coord k (mirror_idx d N g))
              = mirror_idx d N x).
  { apply idx_ext3. intros k Hk. rewrite coord_mk3, !mirror_coord by assumption. unfold x. rewrite !coord_mk3 by assumption.
    destruct (Nat.eqb_spec k d) as [->|Hn].
    - destruct (Nat.ltb_spec d nd); [|lia]. destruct B1 as [-> ->]. apply continue_mirror. now apply HN.
    - destruct (Nat.ltb_spec k nd) as [H|H]; [|reflexivity]. destruct (B0 k H Hn) as [-> ->]. reflexivity. }
  rewrite E, HG.
  - apply cell_ext; try reflexivity. intros k. cbn [negate_momentum c_rhou]. destruct (Nat.ltb_spec k nd) as [H|H]; cbn [andb].
    + destruct (Nat.eqb_spec k d) as [->|Hn].
      * destruct B1 as [-> ->]. rewrite mirror_coord, Nat.eqb_refl, turned_mirror by (auto; now apply HN).
        destruct (turned _ _ _ _); ring.
      * destruct (B0 k H Hn) as [-> ->]. rewrite mirror_coord by lia. destruct (Nat.eqb_spec k d); [congruence|]. reflexivity.
    + reflexivity.
  - intros k Hk. unfold x. rewrite coord_mk3 by assumption. destruct (Nat.ltb_spec k nd); [apply continue_range; auto|apply Hg'; lia].
Qed.

(** ** The run *)
Section Run.
Variables (K K' : config) (d : nat) (N : idx) (X X' : nat -> arr1) (L L' : layout).
Hypothesis HK : mirrored_run d K K'.
Hypothesis HX : mirrored_mesh (k_nd K) (k_ng K) d N X X'.
Hypothesis HL : laid_out K N one_process X L.
Hypothesis HL' : laid_out K' N one_process X' L'.
Hypothesis Hth : thick (k_nd K) one_process (k_ng K) (l_dec L).
Hypothesis Hng : (2 <= k_ng K)%Z.
Hypothesis He : lawful_eos (k_eos K).
Notation M := (coord d N + 2 * ghosts (k_nd K) (k_ng K) d - 1)%Z.
Notation rc := (refl d M).
Notation rel := (related K L rc (negate_momentum d) (mirror_vec d)).

Let Hnd : (k_nd K <= 3)%nat.
Proof. pose proof (dcp_nd (lo_dec HL)). lia. Qed.
Let Hdn : (d < k_nd K)%nat := mr_d _ _ _ HK.
Let Hd : (d < 3)%nat.
Proof. pose proof (mr_d _ _ _ HK). pose proof (dcp_nd (lo_dec HL)). lia. Qed.

Lemma rc_sel n c : sel K' L' n rank0 (rc c) = sel K L n rank0 c.
Proof.
  apply eq_true_iff_eq. rewrite (sel_spec _ _ _ _ _ _ _ _ HL' (rank0_ok _)), (sel_spec _ _ _ _ _ _ _ _ HL (rank0_ok _)).
  rewrite (mr_nd _ _ _ HK), (mr_ng _ _ _ HK).
  split; intros H k Hk; specialize (H k Hk); rewrite (s_nloc _ _ _ _ HL), (s_nloc _ _ _ _ HL') in * by assumption;
    (destruct (Nat.eq_dec k d) as [->|Hn]; [rewrite (coord_refl_same d) in *; lia|rewrite (coord_refl_other d) in * by assumption; exact H]).
Qed.

Definition good (dt : R) (S : idx -> pstate) : Prop := forall c sd k, sel K L 1 rank0 c = true -> (sd < 2)%nat -> (k < k_nd K)%nat ->
  valid_cons (k_nd K) (r_q (step_rec K L dt S rank0) c sd k).

Lemma zero_mirror : negate_momentum d zero_cell = zero_cell.
Proof. apply cell_ext; try reflexivity. intros k. cbn. destruct (Nat.eqb k d); ring. Qed.

Lemma step_user_mirror t dt S S' : rel S S' -> good dt S -> forall c, sel K L 0 rank0 c = true ->
  step_user K' L' t dt S' rank0 (rc c) = negate_momentum d (step_user K L t dt S rank0 c).
Proof.
  intros H Hv c Hc. pose proof (rc_sel 0 c) as Hc'. rewrite Hc in Hc'.
  assert (Hng' : (2 <= k_ng K')%Z) by (rewrite (mr_ng _ _ _ HK); exact Hng).
  rewrite (step_user_clean K N X L t dt S c HL Hng Hc), (step_user_clean K' N X' L' t dt S' (rc c) HL' Hng' Hc').
  pose proof (fun c sd k Hc Hk => step_rec_clean K N X L dt S c sd k HL Hng Hc Hk) as Hcl.
  set (C := clean K L S) in *. set (C' := clean K' L' S').
  assert (Rl : forall x, s_cell (C' rank0) (rc x) = negate_momentum d (s_cell (C rank0) x) /\ s_u (C' rank0) (rc x) = mirror_vec d (s_u (C rank0) x) /\
    s_P (C' rank0) (rc x) = s_P (C rank0) x /\ s_grav (C' rank0) (rc x) = mirror_vec d (s_grav (C rank0) x)).
  { intros x. unfold C, C'. cbn [clean s_cell s_u s_P s_grav]. rewrite (mr_ng _ _ _ HK), rc_sel.
    assert (Z0 : mirror_vec d (fun _ => 0) = fun _ => 0) by (apply functional_extensionality; intros k; unfold mirror_vec; destruct (Nat.eqb k d); ring).
    destruct (sel K L (k_ng K) rank0 x) eqn:E; [apply (H x E)|]. rewrite zero_mirror, Z0. repeat split. }
  assert (EM : forall x, mesh_refl d M (l_mesh (clean_layout X L) rank0) (l_mesh (clean_layout X' L') rank0) x).
  { intros x k i Hk _. unfold mdx. cbn [clean_layout l_mesh]. destruct (Nat.ltb_spec k 3); [|lia]. exact (HX k i Hk). }
  unfold step_user, user_step. rewrite !kwrite_in by assumption. rewrite (mr_user _ _ _ HK).
  unfold step_pf. rewrite (mr_pf _ _ _ HK), (mr_pf' _ _ _ HK). unfold step_godunov.
  assert (G : step_godunov K' (clean_layout X' L') dt C' rank0 (rc c) = negate_momentum d (step_godunov K (clean_layout X L) dt C rank0 c)).
  { unfold step_godunov. unfold step_rec at 1. rewrite (mr_geom _ _ _ HK), (mr_geom' _ _ _ HK), (mr_nd _ _ _ HK), (mr_eos _ _ _ HK), (mr_lim _ _ _ HK), (mr_sol _ _ _ HK).
    assert (Hv' : forall c sd k, sel K (clean_layout X L) 1 rank0 c = true -> (sd < 2)%nat -> (k < k_nd K)%nat ->
      valid_cons (k_nd K) (r_q (step_rec K (clean_layout X L) dt C rank0) c sd k)).
    { intros x sd k Hx Hs Hk. rewrite Hcl by assumption. now apply Hv. }
    unfold step_rec in *. rewrite (mr_geom _ _ _ HK) in *.
    apply (step_reflected (k_nd K) (k_eos K) He Hnd d M); try assumption.
    - intros x Hx. rewrite <- Hx. exact (rc_sel 1 x).
    - intros x. exact (rc_sel 0 x).
    - intros x y Hx Hy. exact (sel_stencil _ _ _ _ _ _ _ _ _ HL (rank0_ok _) Hx Hy).
    - intros x. destruct (Rl x) as (-> & _). reflexivity.
    - intros x. now destruct (Rl x) as (_ & _ & -> & _).
    - intros x k. destruct (Rl x) as (_ & -> & _). reflexivity.
    - intros x k. destruct (Rl x) as (-> & _). reflexivity.
    - intros x k. destruct (Rl x) as (_ & _ & _ & ->). reflexivity.
    - intros x. apply Rl.
    - intros x. symmetry. apply zero_mirror. }
  unfold step_godunov in G. rewrite G. unfold user_cell. destruct (k_user K); reflexivity.
Qed.

Lemma local_mirror g : local K' (mirror_idx d N g) = rc (local K g).
Proof.
  unfold local. rewrite (mr_nd _ _ _ HK), (mr_ng _ _ _ HK). apply idx_ext3. intros k Hk. rewrite coord_mk3, mirror_coord by assumption.
  destruct (Nat.eqb_spec k d) as [->|Hn].
  - rewrite (coord_refl_same d), coord_mk3 by assumption. lia.
  - rewrite (coord_refl_other d) by assumption. now rewrite coord_mk3.
Qed.

Lemma bcs_mirror (W W' : world cell) : (forall c, sel K L 0 rank0 c = true -> W' rank0 (rc c) = negate_momentum d (W rank0 c)) ->
  forall c, sel K L (k_ng K) rank0 c = true -> bcs_update K' L' W' rank0 (rc c) = negate_momentum d (bcs_update K L W rank0 c).
Proof.
  intros H c Hc. pose proof (rc_sel (k_ng K) c) as Hc'. rewrite Hc in Hc'.
  assert (Hth' : thick (k_nd K') one_process (k_ng K') (l_dec L')).
  { intros r Hr k Hk. rewrite (mr_nd _ _ _ HK) in Hk. assert (Er : r = rank0).
    { apply idx_ext. intros j Hj. specialize (Hr j Hj). rewrite mpi_dims_one, coord_one in Hr. rewrite coord_rank0. lia. }
    subst r. rewrite (s_nloc _ _ _ _ HL') by lia. rewrite (mr_ng _ _ _ HK).
    pose proof (Hth rank0 (rank0_ok _) k Hk) as Q. rewrite (s_nloc _ _ _ _ HL) in Q by lia. exact Q. }
  assert (Ho' : complete_order (k_nd K') (k_bcs K') (k_order K')) by (rewrite (mr_nd _ _ _ HK); exact (mr_order' _ _ _ HK)).
  rewrite (bcs_filled K N X L HL Hth (mr_order _ _ _ HK) W c Hc).
  rewrite (bcs_filled K' N X' L' HL' Hth' Ho' W' (rc c)) by (rewrite (mr_ng _ _ _ HK); exact Hc').
  rewrite (mr_nd _ _ _ HK), (mr_ng _ _ _ HK).
  assert (Eg : mk3 (fun k => (coord k (rc c) - ghosts (k_nd K) (k_ng K) k)%Z) = mirror_idx d N (mk3 (fun k => (coord k c - ghosts (k_nd K) (k_ng K) k)%Z))).
  { apply idx_ext3. intros k Hk. rewrite mirror_coord, !coord_mk3 by assumption. destruct (Nat.eqb_spec k d) as [->|Hn].
    - rewrite (coord_refl_same d). lia.
    - now rewrite (coord_refl_other d). }
  rewrite Eg. pose proof (proj1 (sel_spec _ _ _ _ _ _ _ _ HL (rank0_ok _)) Hc) as Hb.
  apply (continuation_mirror (k_nd K) d N (k_bcs K) (k_bcs K')); auto.
  - intros k Hk. exact (dcp_n (lo_dec HL) Hk).
  - exact (mr_bcs _ _ _ HK).
  - intros k Hk. rewrite coord_mk3 by lia. specialize (Hb k ltac:(lia)). rewrite (s_nloc _ _ _ _ HL) in Hb by lia.
    pose proof (Hth rank0 (rank0_ok _) k Hk) as Q. rewrite (s_nloc _ _ _ _ HL) in Q by lia. unfold ghosts in *. destruct (Nat.ltb_spec k (k_nd K)); lia.
  - intros k Hk. rewrite coord_mk3 by lia. specialize (Hb k ltac:(lia)). rewrite (s_nloc _ _ _ _ HL) in Hb by lia.
    unfold ghosts in *. destruct (Nat.ltb_spec k (k_nd K)); lia.
  - intros x Hx. rewrite local_mirror. apply H. apply (sel_spec _ _ _ _ _ _ _ _ HL (rank0_ok _)). intros k Hk. unfold local. rewrite coord_mk3 by assumption.
    rewrite (s_nloc _ _ _ _ HL) by assumption. specialize (Hx k Hk). destruct (Nat.ltb k (k_nd K)); lia.
Qed.

Lemma prim_mirror x : p_u (to_prim (k_nd K') (k_eos K') (cons_of (negate_momentum d x))) = mirror_vec d (p_u (to_prim (k_nd K) (k_eos K) (cons_of x))) /\
  p_P (to_prim (k_nd K') (k_eos K') (cons_of (negate_momentum d x))) = p_P (to_prim (k_nd K) (k_eos K) (cons_of x)).
Proof.
  rewrite (mr_nd _ _ _ HK), (mr_eos _ _ _ HK). change (cons_of (negate_momentum d x)) with (mirror d (cons_of x)).
  rewrite to_prim_mirror. split; reflexivity.
Qed.
Lemma cons_mirror rho u P fx :
  let q := to_cons (k_nd K) (k_eos K) (mkPrim rho u P) in let q' := to_cons (k_nd K') (k_eos K') (mkPrim rho (mirror_vec d u) P) in
  mkCell rho (q_m q') (q_E q') fx = negate_momentum d (mkCell rho (q_m q) (q_E q) fx).
Proof.
  cbv zeta. rewrite (mr_nd _ _ _ HK), (mr_eos _ _ _ HK).
  change (mkPrim rho (mirror_vec d u) P) with (mirror_prim d (mkPrim rho u P)). rewrite to_cons_mirror. reflexivity.
Qed.
Lemma grav_mirror A A' c : gravity_values K' L' A' rank0 (rc c) = mirror_vec d (gravity_values K L A rank0 c).
Proof.
  destruct (mr_grav _ _ _ HK) as (g & g' & E & E' & H). unfold gravity_values. rewrite E, E'. apply functional_extensionality. intros k. apply H.
Qed.
Lemma dt_mirror S S' : rel S S' -> forall c, sel K L (k_ng K) rank0 c = true ->
  cell_inverse_dt K' L' S' rank0 (rc c) = cell_inverse_dt K L S rank0 c.
Proof.
  intros H c Hc. destruct (H c Hc) as (E1 & E2 & E3 & _). unfold cell_inverse_dt, inverse_dt. rewrite E1, E2, E3.
  rewrite (mr_geom _ _ _ HK), (mr_geom' _ _ _ HK), (mr_nd _ _ _ HK), (mr_eos _ _ _ HK).
  apply vsum_ext. intros k Hk. cbn [negate_momentum c_rho dx_geom].
  assert (Ea : Rabs (mirror_vec d (s_u (S rank0) c) k) = Rabs (s_u (S rank0) c k)).
  { unfold mirror_vec. destruct (Nat.eqb k d); [apply Rabs_Ropp|reflexivity]. }
  rewrite Ea. f_equal. unfold mdx.
  rewrite !(set_grid_at _ _ _ (lo_mesh HL (rank0_ok _))) by lia.
  rewrite !(set_grid_at _ _ _ (lo_mesh HL' (rank0_ok _))) by lia.
  rewrite (s_cmin _ _ _ _ HL), (s_cmin _ _ _ _ HL') by lia. rewrite !Z.add_0_l.
  pose proof (HX k (coord k c) ltac:(lia)) as Q. cbv zeta in Q. rewrite <- Q.
  destruct (Nat.eqb_spec k d) as [->|Hn]; [now rewrite (coord_refl_same d)|now rewrite (coord_refl_other d) by lia].
Qed.
End Run.
