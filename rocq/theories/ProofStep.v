(** * One time step on a process grid gives the slices of the single-process step (C35). *)
From Coq Require Import FunctionalExtensionality ZifyBool ZifyNat.
From Verif Require Import Base RBase ModelMesh ModelGeom ModelBoundary ModelHydro ModelScheme ModelStep
  SpecMesh SpecBoundary SpecHydro SpecScheme SpecStep
  ProofBase ProofMesh ProofR ProofBoundary ProofBoundary2 ProofHydro ProofScheme ProofMirror ProofShift ProofReduce.
Local Open Scope R_scope.

(** ** The cells of a range *)
Lemma sel_spec K N dims X L n r c : laid_out K N dims X L -> process (k_nd K) dims r ->
  sel K L n r c = true <->
  forall d, (d < 3)%nat ->
    (ghosts (k_nd K) (k_ng K) d - (if Nat.ltb d (k_nd K) then n else 0) <= coord d c
     < ghosts (k_nd K) (k_ng K) d + coord d (d_nloc (l_dec L r)) + (if Nat.ltb d (k_nd K) then n else 0))%Z.
Proof.
  intros HL Hr. pose proof (lo_dec HL) as HD. pose proof (dcp_ok HD Hr) as H.
  rewrite mpi_decomposition_ok in H; [|intros d Hd; pose proof (dcp_n HD Hd); lia|exact Hr].
  injection H as H. unfold sel, in_cells. rewrite <- H. unfold ghosted, decomp_of.
  cbn [d_range corner_min corner_max rng_ng rng_nghost rng_ngeff d_nloc].
  rewrite in_boxb_spec, in_box_coord. unfold cell_begin, cell_end, nghost_of, ghosts.
  cbn [corner_min corner_max rng_ng rng_nghost rng_ngeff].
  split; intros G d Hd; specialize (G d Hd); rewrite !coord_mk3 in * by assumption;
    destruct (Nat.ltb d (k_nd K)); lia.
Qed.

Lemma sel_owned K N dims X L r c : laid_out K N dims X L -> process (k_nd K) dims r ->
  sel K L 0 r c = true <-> owned (k_nd K) (k_ng K) (d_nloc (l_dec L r)) c.
Proof.
  intros HL Hr. rewrite (sel_spec _ _ _ _ _ _ _ _ HL Hr). unfold owned.
  split; intros H d Hd; specialize (H d Hd); destruct (Nat.ltb d (k_nd K)); lia.
Qed.
Lemma sel_array K N dims X L r c : laid_out K N dims X L -> process (k_nd K) dims r ->
  sel K L (k_ng K) r c = true <-> in_array (d_nwg (l_dec L r)) c.
Proof.
  intros HL Hr. rewrite (sel_spec _ _ _ _ _ _ _ _ HL Hr). unfold in_array. pose proof (lo_dec HL) as HD.
  split; intros H d Hd; specialize (H d Hd); rewrite (dec_nwg _ _ _ _ _ HD), <- (dec_nloc _ _ _ _ _ HD) in * by assumption;
    unfold ghosts in *; destruct (Nat.ltb d (k_nd K)); lia.
Qed.
Lemma sel_mono K N dims X L n n' r c : laid_out K N dims X L -> process (k_nd K) dims r -> (n <= n')%Z ->
  sel K L n r c = true -> sel K L n' r c = true.
Proof.
  intros HL Hr Hn. rewrite !(sel_spec _ _ _ _ _ _ _ _ HL Hr). intros H d Hd. specialize (H d Hd).
  destruct (Nat.ltb d (k_nd K)); lia.
Qed.
Lemma sel_stencil K N dims X L n r c c' : laid_out K N dims X L -> process (k_nd K) dims r ->
  sel K L n r c = true -> in_stencil (k_nd K) c c' -> sel K L (n + 1) r c' = true.
Proof.
  intros HL Hr. rewrite !(sel_spec _ _ _ _ _ _ _ _ HL Hr). intros H Hs d Hd. specialize (H d Hd).
  destruct Hs as [->|(k & Hk & [->| ->])].
  - destruct (Nat.ltb d (k_nd K)); lia.
  - rewrite coord_lindex by assumption. destruct (Nat.ltb d (k_nd K)) eqn:E; destruct (Nat.eqb k d) eqn:F; lia.
  - rewrite coord_rindex by assumption. destruct (Nat.ltb d (k_nd K)) eqn:E; destruct (Nat.eqb k d) eqn:F; lia.
Qed.

Lemma rank0_ok nd : process nd one_process rank0.
Proof. intros d Hd. rewrite mpi_dims_one, coord_one, coord_rank0. lia. Qed.

Lemma s_nloc K N X L1 : laid_out K N one_process X L1 -> forall d, (d < 3)%nat -> coord d (d_nloc (l_dec L1 rank0)) = coord d N.
Proof. intros H d. apply (serial_nloc _ _ N _ (l_dec L1) _ (lo_dec H)). Qed.
Lemma s_cmin K N X L1 : laid_out K N one_process X L1 -> forall d, (d < 3)%nat -> coord d (corner_min (d_range (l_dec L1 rank0))) = 0%Z.
Proof. intros H d. apply (serial_cmin _ _ N _ (l_dec L1) _ (lo_dec H)). Qed.
Lemma s_ext K N X L1 : laid_out K N one_process X L1 -> forall d, (d < 3)%nat ->
  coord d (d_nwg (l_dec L1 rank0)) = (coord d N + 2 * ghosts (k_nd K) (k_ng K) d)%Z.
Proof. intros H d. apply (serial_ext _ _ N _ (l_dec L1) _ (lo_dec H)). Qed.

(** ** The local coordinates *)
Lemma set_grid_at dec X m : set_grid dec X = Ok m -> forall d i, (d < 3)%nat ->
  m d i = a_at (X d) (coord d (corner_min (d_range dec)) + i)%Z.
Proof.
  unfold set_grid, set_grid_1d, subview1.
  destruct (_ && _)%bool; cbn [obind]; [|discriminate].
  destruct (_ && _)%bool; cbn [obind]; [|discriminate].
  destruct (_ && _)%bool; cbn [obind]; [|discriminate].
  intros [= <-] d i Hd. destruct d as [|[|[|d]]]; [reflexivity..|lia].
Qed.

(** ** Reconstruction and update depend on the neighbourhood only *)
Section StepShift.
Variables (K : config) (L L' : layout) (r r' : idx) (o : idx) (S S' : idx -> pstate) (dt : R).
Hypothesis Hnd : (k_nd K <= 3)%nat.

Definition alike (c : idx) : Prop :=
  s_cell (S' r') (iadd o c) = s_cell (S r) c /\ s_u (S' r') (iadd o c) = s_u (S r) c /\ s_P (S' r') (iadd o c) = s_P (S r) c.

Lemma step_rec_shift c sd k : (k < k_nd K)%nat ->
  geo_agree (k_geom K) (l_mesh L r) (l_mesh L' r') o c ->
  (forall j, s_grav (S' r') (iadd o c) j = s_grav (S r) c j) ->
  (forall x, in_stencil (k_nd K) c x -> alike x) ->
  sel K L 1 r c = true -> sel K L' 1 r' (iadd o c) = true ->
  r_q (step_rec K L' dt S' r') (iadd o c) sd k = r_q (step_rec K L dt S r) c sd k /\
  (forall n, r_fx (step_rec K L' dt S' r') (iadd o c) sd k n = r_fx (step_rec K L dt S r) c sd k n).
Proof.
  intros Hk Hgeo Hg Hal Hp Hp'. unfold step_rec. apply recon_shift; try assumption.
  - intros x Hx. destruct (Hal x Hx) as (-> & _). reflexivity.
  - intros x Hx. now destruct (Hal x Hx) as (_ & _ & ->).
  - intros x Hx. now destruct (Hal x Hx) as (_ & -> & _).
  - intros x Hx. destruct (Hal x Hx) as (-> & _). reflexivity.
Qed.

Lemma step_user_shift t c :
  (forall x, in_stencil (k_nd K) c x ->
     geo_agree (k_geom K) (l_mesh L r) (l_mesh L' r') o x /\
     (forall j, s_grav (S' r') (iadd o x) j = s_grav (S r) x j) /\
     sel K L 1 r x = true /\ sel K L' 1 r' (iadd o x) = true /\
     forall y, in_stencil (k_nd K) x y -> alike y) ->
  sel K L 0 r c = true -> sel K L' 0 r' (iadd o c) = true ->
  step_user K L' t dt S' r' (iadd o c) = step_user K L t dt S r c.
Proof.
  intros H Hp Hp'.
  assert (H0 : in_stencil (k_nd K) c c) by (left; reflexivity).
  destruct (H c H0) as (Hgeo & Hg & _ & _ & Hal0).
  assert (Hr : forall x sd k, in_stencil (k_nd K) c x -> (k < k_nd K)%nat ->
    r_q (step_rec K L' dt S' r') (iadd o x) sd k = r_q (step_rec K L dt S r) x sd k).
  { intros x sd k Hx Hk. destruct (H x Hx) as (A1 & A2 & A3 & A4 & A5). now apply step_rec_shift. }
  assert (Hrx : forall x sd k n, in_stencil (k_nd K) c x -> (k < k_nd K)%nat ->
    r_fx (step_rec K L' dt S' r') (iadd o x) sd k n = r_fx (step_rec K L dt S r) x sd k n).
  { intros x sd k n Hx Hk. destruct (H x Hx) as (A1 & A2 & A3 & A4 & A5). now apply step_rec_shift. }
  assert (Ha : forall x, in_stencil (k_nd K) c x -> s_cell (S' r') (iadd o x) = s_cell (S r) x).
  { intros x Hx. now destruct (Hal0 x Hx). }
  assert (Eg : step_godunov K L' dt S' r' (iadd o c) = step_godunov K L dt S r c).
  { unfold step_godunov, godunov. rewrite !kwrite_in by assumption. apply god_cell_shift; auto. }
  unfold step_user, user_step. rewrite !kwrite_in by assumption. f_equal.
  unfold step_pf. destruct (k_pf K) as [eps|]; [|exact Eg].
  unfold pressure_fix. rewrite !kwrite_in by assumption. apply pf_cell_shift; auto.
Qed.
End StepShift.

(** ** The process grid *)
Section Par.
Variables (K : config) (N dims : idx) (X : nat -> arr1) (L L1 : layout).
Hypothesis HL : laid_out K N dims X L.
Hypothesis HL1 : laid_out K N one_process X L1.
Hypothesis Hthick : thick (k_nd K) dims (k_ng K) (l_dec L).
Hypothesis Hng : (2 <= k_ng K)%Z.
Hypothesis Hfaces : faces_ok (k_nd K) (k_order K).
Hypothesis Hgrav : gravity_ok K dims.
Notation nd := (k_nd K).
Notation ng := (k_ng K).
Notation cmn r := (corner_min (d_range (l_dec L r))).
Notation vr := (process nd dims).

Let HD := lo_dec HL.
Let HD1 := lo_dec HL1.

Lemma Hnd3 : (nd <= 3)%nat.
Proof. pose proof (dcp_nd HD). lia. Qed.

Lemma mesh_slice r d i : vr r -> (d < 3)%nat -> l_mesh L1 rank0 d (coord d (cmn r) + i)%Z = l_mesh L r d i.
Proof.
  intros Hr Hd. rewrite (set_grid_at _ _ _ (lo_mesh HL Hr)) by assumption.
  rewrite (set_grid_at _ _ _ (lo_mesh HL1 (rank0_ok nd))) by assumption.
  now rewrite (s_cmin _ _ _ _ HL1) by assumption.
Qed.
Lemma geo_slice r c : vr r -> geo_agree (k_geom K) (l_mesh L r) (l_mesh L1 rank0) (cmn r) c.
Proof.
  intros Hr. unfold geo_agree. destruct (k_geom K); intros d j Hd _.
  - unfold mdx. rewrite <- !Z.add_assoc, !mesh_slice by assumption. reflexivity.
  - rewrite <- Z.add_assoc, mesh_slice by assumption. reflexivity.
Qed.

Lemma owned_slice r c : vr r -> owned nd ng (d_nloc (l_dec L r)) c ->
  owned nd ng (d_nloc (l_dec L1 rank0)) (iadd (cmn r) c).
Proof.
  intros Hr Hc d Hd. specialize (Hc d Hd). pose proof (Hr d Hd) as Hrd.
  rewrite (s_nloc _ _ _ _ HL1), coord_iadd by assumption.
  rewrite (dec_nloc _ _ _ _ _ HD) in Hc by assumption. rewrite (dec_cmin _ _ _ _ _ HD) by assumption.
  pose proof (cm_nonneg _ _ _ _ _ HD d (coord d r) Hd ltac:(lia)).
  pose proof (cm_max _ _ _ _ _ HD d (coord d r) Hd ltac:(lia)). lia.
Qed.
Lemma sel_slice n r c : vr r -> sel K L n r c = true -> sel K L1 n rank0 (iadd (cmn r) c) = true.
Proof.
  intros Hr. rewrite (sel_spec _ _ _ _ _ _ _ _ HL Hr), (sel_spec _ _ _ _ _ _ _ _ HL1 (rank0_ok nd)).
  intros Hc d Hd. specialize (Hc d Hd). pose proof (Hr d Hd) as Hrd.
  rewrite (s_nloc _ _ _ _ HL1), coord_iadd by assumption.
  rewrite (dec_nloc _ _ _ _ _ HD) in Hc by assumption. rewrite (dec_cmin _ _ _ _ _ HD) by assumption.
  pose proof (cm_nonneg _ _ _ _ _ HD d (coord d r) Hd ltac:(lia)).
  pose proof (cm_max _ _ _ _ _ HD d (coord d r) Hd ltac:(lia)). lia.
Qed.

(** Every cell of the single-process array is a cell of some process's array; the owned ones are owned. *)
Lemma covered n c : (0 <= n <= ng)%Z -> sel K L1 n rank0 c = true ->
  exists r c', vr r /\ sel K L n r c' = true /\ iadd (cmn r) c' = c.
Proof.
  intros Hn. rewrite (sel_spec _ _ _ _ _ _ _ _ HL1 (rank0_ok nd)). intros Hc.
  assert (H : forall d, (d < 3)%nat -> exists x, (0 <= x < coord d (mpi_dims nd dims))%Z /\
    (ghosts nd ng d - (if Nat.ltb d nd then n else 0) <= coord d c - cm nd N dims d x
      < ghosts nd ng d + nl nd N dims d x + (if Nat.ltb d nd then n else 0))%Z).
  { intros d Hd. specialize (Hc d Hd). rewrite (s_nloc _ _ _ _ HL1) in Hc by assumption.
    pose proof (dcp_n HD Hd) as HN. pose proof (dcp_dims HD Hd) as HP.
    set (y := (coord d c - ghosts nd ng d)%Z).
    set (n' := (if Nat.ltb d nd then n else 0)%Z) in *. assert (0 <= n')%Z by (unfold n'; destruct (Nat.ltb d nd); lia).
    (* the owner of the nearest owned cell *)
    set (z := Z.max 0 (Z.min y (coord d N - 1))).
    assert (Hown : forall k, (Z.of_nat k <= coord d (mpi_dims nd dims))%Z -> (z < cm nd N dims d (Z.of_nat k))%Z ->
      exists x, (0 <= x < Z.of_nat k)%Z /\ (cm nd N dims d x <= z < cm nd N dims d (x + 1))%Z).
    { induction k as [|k IH]; intros Hk Hz.
      - cbn [Z.of_nat] in Hz. rewrite (cm_0 _ _ _ _ _ HD) in Hz by assumption. lia.
      - destruct (Z_lt_ge_dec z (cm nd N dims d (Z.of_nat k))) as [G|G].
        + destruct (IH ltac:(lia) G) as (x & Hx & Hx'). exists x. split; [lia|assumption].
        + exists (Z.of_nat k). split; [lia|]. replace (Z.of_nat k + 1)%Z with (Z.of_nat (S k)) by lia. lia. }
    destruct (Hown (Z.to_nat (coord d (mpi_dims nd dims)))) as (x & Hx & Hz).
    { lia. }
    { rewrite Z2Nat.id by lia. rewrite (cm_p _ _ _ _ _ HD) by assumption. lia. }
    rewrite Z2Nat.id in Hx by lia. exists x. split; [lia|].
    pose proof (cm_succ _ _ _ _ _ HD d x Hd).
    pose proof (cm_nonneg _ _ _ _ _ HD d x Hd ltac:(lia)).
    pose proof (cm_max _ _ _ _ _ HD d x Hd ltac:(lia)). lia. }
  destruct (H 0%nat ltac:(lia)) as (x0 & A0 & B0). destruct (H 1%nat ltac:(lia)) as (x1 & A1 & B1).
  destruct (H 2%nat ltac:(lia)) as (x2 & A2 & B2).
  assert (Hr : vr (I3 x0 x1 x2)).
  { intros d Hd. destruct d as [|[|[|d]]]; [exact A0|exact A1|exact A2|lia]. }
  exists (I3 x0 x1 x2), (isub c (cmn (I3 x0 x1 x2))). split; [exact Hr|]. split.
  - rewrite (sel_spec _ _ _ _ _ _ _ _ HL Hr). intros d Hd.
    rewrite (dec_nloc _ _ _ _ _ HD) by assumption.
    assert (E : coord d (isub c (cmn (I3 x0 x1 x2))) = (coord d c - coord d (cmn (I3 x0 x1 x2)))%Z)
      by (destruct d as [|[|d]]; reflexivity).
    rewrite E, (dec_cmin _ _ _ _ _ HD) by assumption.
    destruct d as [|[|[|d]]]; [exact B0|exact B1|exact B2|lia].
  - destruct c as [a b e], (cmn (I3 x0 x1 x2)) as [a' b' e']. unfold iadd, isub. cbn. f_equal; lia.
Qed.

(** ** Gravity *)
Lemma shell_slice (f f1 : idx -> idx -> R) r i : coord 0 (mpi_dims nd dims) = 1%Z -> vr r ->
  (forall r' c, vr r' -> owned nd ng (I3 1 (jj (d_nloc (l_dec L r'))) (kk (d_nloc (l_dec L r')))) (I3 (ii c - i) (jj c) (kk c)) ->
     f r' c = f1 rank0 (iadd (cmn r') c)) ->
  shell_sum K L f r i = shell_sum K L1 f1 rank0 i.
Proof.
  intros H1 Hr Hf. unfold shell_sum, horizontal_ranks, shell_cells.
  rewrite (lo_dims HL), (lo_dims HL1), mpi_dims_one.
  pose proof (Hr 0%nat ltac:(lia)) as Hr0. rewrite H1 in Hr0. cbn [coord] in Hr0.
  assert (Er : ii r = 0%Z) by lia. rewrite Er. cbn [ii jj kk one_process rank0 Z.add].
  set (gg := nghost_of nd ng).
  assert (Eg : forall d, (d < 3)%nat -> coord d gg = ghosts nd ng d).
  { intros d Hd. unfold gg, nghost_of, ghosts. now rewrite coord_mk3. }
  pose proof (Eg 0%nat ltac:(lia)) as G0. pose proof (Eg 1%nat ltac:(lia)) as G1. pose proof (Eg 2%nat ltac:(lia)) as G2.
  cbn [coord] in G0, G1, G2.
  set (cm' := fun d x => match d with O => x | _ => cm nd N dims d x end).
  set (nl' := fun d x => match d with O => 1%Z | _ => nl nd N dims d x end).
  pose proof (block_sum3 (f1 rank0) cm' nl' (I3 (i + ii gg) (jj gg) (kk gg)) (mpi_dims nd dims)) as B.
  assert (E0 : mpi_dims nd dims = I3 1 (jj (mpi_dims nd dims)) (kk (mpi_dims nd dims))).
  { rewrite <- (idx_eta (mpi_dims nd dims)) at 1. now rewrite <- H1. }
  etransitivity; [|etransitivity; [apply B|]].
  - rewrite E0 at 3. apply lsum_ext. intros r' Hr'. rewrite in_box_cells in Hr'. destruct Hr' as (R0 & R1 & R2).
    cbn [ii jj kk] in R0, R1, R2.
    assert (Hv : vr r').
    { intros d Hd. destruct d as [|[|[|d]]]; [rewrite H1; cbn [coord]; lia|exact R1|exact R2|lia]. }
    pose proof (dec_cmin _ _ _ _ _ HD r' 0 Hv ltac:(lia)) as C0. pose proof (dec_cmin _ _ _ _ _ HD r' 1 Hv ltac:(lia)) as C1.
    pose proof (dec_cmin _ _ _ _ _ HD r' 2 Hv ltac:(lia)) as C2.
    pose proof (dec_nloc _ _ _ _ _ HD r' 1 Hv ltac:(lia)) as D1. pose proof (dec_nloc _ _ _ _ _ HD r' 2 Hv ltac:(lia)) as D2.
    cbn [coord] in C0, C1, C2, D1, D2.
    assert (Z0 : ii r' = 0%Z) by lia. rewrite Z0 in C0. rewrite (cm_0 _ _ _ _ _ HD) in C0 by lia.
    unfold mk3, nl'. cbn [coord ii jj kk]. rewrite D1, D2.
    apply lsum_ext. intros c Hc. rewrite in_box_cells in Hc. destruct Hc as (Q0 & Q1 & Q2). cbn [ii jj kk] in Q0, Q1, Q2.
    rewrite Hf; [|exact Hv|].
    + f_equal. f_equal. unfold cm'. cbn [coord]. rewrite Z0. destruct (cmn r') as [a b e]. cbn [ii jj kk] in *. congruence.
    + intros d Hd. destruct d as [|[|[|d]]]; [| | |lia]; cbn [coord ii jj kk].
      * rewrite G0 in Q0. lia.
      * rewrite G1 in Q1. lia.
      * rewrite G2 in Q2. lia.
  - intros d Hd. pose proof (dcp_dims HD Hd). split; [lia|]. unfold cm', nl'. destruct d as [|d].
    + split; [reflexivity|]. intros; lia.
    + split; [now apply (cm_0 _ _ _ _ _ HD)|]. intros x Hx. split; [now apply (cm_succ _ _ _ _ _ HD)|now apply (nl_nonneg _ _ _ _ _ HD)].
  - change (box_cells (I3 0 0 0) (I3 1 1 1)) with [rank0]. cbn [lsum]. rewrite Rplus_0_r.
    unfold mk3. cbn [coord ii jj kk]. unfold cm'.
    pose proof (s_nloc _ _ _ _ HL1 1 ltac:(lia)) as N1. pose proof (s_nloc _ _ _ _ HL1 2 ltac:(lia)) as N2.
    pose proof (cm_p _ _ _ _ _ HD 1 ltac:(lia)) as M1. pose proof (cm_p _ _ _ _ _ HD 2 ltac:(lia)) as M2.
    cbn [coord] in *. rewrite H1, M1, M2, N1, N2. change (I3 0 0 0) with rank0. reflexivity.
Qed.

Lemma shell_mean_slice (A A1 : world cell) r i : coord 0 (mpi_dims nd dims) = 1%Z -> vr r ->
  slice_of nd dims (l_dec L) A (A1 rank0) -> (0 <= i < coord 0 N + ghosts nd ng 0)%Z ->
  shell_mean K L A r i = shell_mean K L1 A1 rank0 i.
Proof.
  intros H1 Hr HA Hi. unfold shell_mean.
  assert (Hdv : forall r' c, vr r' -> dv (k_geom K) nd (l_mesh L r') c = dv (k_geom K) nd (l_mesh L1 rank0) (iadd (cmn r') c)).
  { intros r' c Hv. symmetry. apply dv_shift. now apply geo_slice. }
  f_equal; apply shell_slice; try assumption.
  - intros r' c Hv Hc. rewrite Hdv by assumption. f_equal. f_equal. apply HA; [exact Hv|].
    intros d Hd. specialize (Hc d Hd). rewrite (dec_nwg _ _ _ _ _ HD) by assumption.
    pose proof (dec_nloc _ _ _ _ _ HD r' d Hv Hd) as E. pose proof (ghosts_nonneg _ _ _ _ _ HD d).
    pose proof (nl_nonneg _ _ _ _ _ HD d (coord d r') Hd).
    destruct d as [|[|[|d]]]; [| | |lia]; cbn [coord ii jj kk] in Hc, E, Hi |- *; [|cbn [coord] in *; lia..].
    pose proof (Hv 0%nat ltac:(lia)) as R0. rewrite H1 in R0. cbn [coord] in R0.
    replace (ii r') with 0%Z in * by lia.
    pose proof (cm_succ _ _ _ _ _ HD 0 0 ltac:(lia)) as E1. pose proof (cm_p _ _ _ _ _ HD 0 ltac:(lia)) as E2.
    rewrite H1 in E2. rewrite (cm_0 _ _ _ _ _ HD) in E1 by lia. cbn [Z.add] in E1. rewrite E2 in E1. cbn [coord] in *. lia.
  - intros r' c Hv _. now apply Hdv.
Qed.

Lemma enclosed_ext m m' M g0 rm rm' n :
  (forall i, m 0%nat i = m' 0%nat i) -> (forall j, (0 <= j <= Z.of_nat n)%Z -> rm j = rm' j) ->
  enclosed_mass m M g0 rm n = enclosed_mass m' M g0 rm' n.
Proof.
  intros Hm. induction n as [|n IH]; intros H; cbn [enclosed_mass].
  - unfold mxc. rewrite !Hm, H by lia. reflexivity.
  - rewrite IH by (intros; apply H; lia). unfold mxc. rewrite !Hm, !H by lia. reflexivity.
Qed.

Lemma gravity_slice (A A1 : world cell) r c d : vr r -> slice_of nd dims (l_dec L) A (A1 rank0) ->
  in_array (d_nwg (l_dec L r)) c ->
  gravity_values K L1 A1 rank0 (iadd (cmn r) c) d = gravity_values K L A r c d.
Proof.
  intros Hr HA Hc. unfold gravity_values. unfold gravity_ok in Hgrav.
  assert (Hx : mxc (l_mesh L1 rank0) 0 (ii (iadd (cmn r) c)) = mxc (l_mesh L r) 0 (ii c)).
  { unfold mxc. cbn [ii iadd]. rewrite <- Z.add_assoc. pose proof (mesh_slice r 0 (ii c) Hr ltac:(lia)) as E1.
    pose proof (mesh_slice r 0 (ii c + 1) Hr ltac:(lia)) as E2. cbn [coord] in E1, E2. now rewrite E1, E2. }
  destruct (k_grav K) as [g|M|M]; [reflexivity| |]; unfold radial_gravity; (destruct d as [|d]; [|reflexivity]).
  - now rewrite Hx.
  - rewrite Hx. f_equal. f_equal. unfold mass_r.
    pose proof (dec_cmin _ _ _ _ _ HD r 0 Hr ltac:(lia)) as C0.
    pose proof (Hr 0%nat ltac:(lia)) as R0. rewrite Hgrav in R0. replace (coord 0 r) with 0%Z in C0 by lia.
    rewrite (cm_0 _ _ _ _ _ HD) in C0 by lia. cbn [coord] in C0.
    assert (Ei : ii (iadd (cmn r) c) = ii c) by (cbn [ii iadd]; lia). rewrite Ei.
    destruct (Z.ltb_spec (ii c) (ii (nghost_of nd ng))) as [Hlt|Hge]; [reflexivity|].
    apply enclosed_ext.
    + intros i. pose proof (mesh_slice r 0 i Hr ltac:(lia)) as E. cbn [coord] in E. rewrite C0 in E. exact E.
    + intros j Hj. symmetry. apply shell_mean_slice; try assumption.
      pose proof (Hc 0%nat ltac:(lia)) as Hc0. rewrite (dec_nwg _ _ _ _ _ HD) in Hc0 by (assumption || lia).
      pose proof (cm_max _ _ _ _ _ HD 0 (coord 0 r) ltac:(lia) ltac:(lia)) as Hm.
      pose proof (cm_nonneg _ _ _ _ _ HD 0 (coord 0 r) ltac:(lia) ltac:(lia)) as Hp.
      assert (Eg : ii (nghost_of nd ng) = ghosts nd ng 0) by reflexivity. rewrite Eg in *. cbn [coord] in *. lia.
Qed.

(** ** The invariant *)
Definition in_step (S S1 : idx -> pstate) : Prop :=
  same_results K dims L S S1 /\
  forall r c j, vr r -> in_array (d_nwg (l_dec L r)) c -> s_grav (S1 rank0) (iadd (cmn r) c) j = s_grav (S r) c j.

Lemma holds_by_slice {A : Type} (W W1 : world A) :
  (forall r c, vr r -> owned nd ng (d_nloc (l_dec L r)) c -> W1 rank0 (iadd (cmn r) c) = W r c) ->
  exists G, holds_owned nd dims ng (l_dec L) G W /\ holds_owned nd one_process ng (l_dec L1) G W1.
Proof.
  intros H. exists (fun g => W1 rank0 (mk3 (fun d => (coord d g + ghosts nd ng d)%Z))). split.
  - intros r Hr c Hc. rewrite <- H by assumption. f_equal. apply idx_ext. intros d Hd.
    rewrite coord_iadd, coord_mk3 by assumption. unfold global_index. rewrite coord_mk3 by assumption. lia.
  - intros r Hr c Hc. assert (Er : r = rank0).
    { apply idx_ext. intros d Hd. specialize (Hr d Hd). rewrite mpi_dims_one, coord_one in Hr. rewrite coord_rank0. lia. }
    subst r. f_equal. apply idx_ext. intros d Hd. rewrite coord_mk3 by assumption.
    unfold global_index. rewrite coord_mk3, (s_cmin _ _ _ _ HL1) by assumption. lia.
Qed.

Lemma array_stencil2 r c : vr r -> sel K L 2 r c = true -> in_array (d_nwg (l_dec L r)) c.
Proof.
  intros Hr H. apply (sel_array _ _ _ _ _ _ _ HL Hr). apply (sel_mono _ _ _ _ _ 2 _ _ _ HL Hr); [lia|exact H].
Qed.

Lemma finish_slice A A1 rec rec1 new new1 S S1 :
  slice_of nd dims (l_dec L) A (A1 rank0) -> in_step (finish K L A rec new S) (finish K L1 A1 rec1 new1 S1).
Proof.
  intros HA. split.
  - assert (Hin : forall r c, vr r -> in_array (d_nwg (l_dec L r)) c ->
      sel K L ng r c = true /\ sel K L1 ng rank0 (iadd (cmn r) c) = true).
    { intros r c Hr Hc. apply (sel_array _ _ _ _ _ _ _ HL Hr) in Hc. split; [exact Hc|]. now apply sel_slice. }
    split; [exact HA|]. split; intros r Hr c Hc; destruct (Hin r c Hr Hc) as [E1 E2];
      cbn [finish s_u s_P conv_cons_to_prim fst snd]; unfold kwrite; rewrite E1, E2, (HA r Hr c Hc); reflexivity.
  - intros r c j Hr Hc. cbn [finish s_grav]. now apply gravity_slice.
Qed.

Lemma bcs_slice (W W1 : world cell) :
  (forall r c, vr r -> owned nd ng (d_nloc (l_dec L r)) c -> W1 rank0 (iadd (cmn r) c) = W r c) ->
  slice_of nd dims (l_dec L) (bcs_update K L W) (bcs_update K L1 W1 rank0).
Proof.
  intros H. destruct (holds_by_slice W W1 H) as (G & HG & HG1). unfold bcs_update. rewrite (lo_dims HL), (lo_dims HL1).
  exact (boundary_slice nd N dims ng (l_dec L) (l_dec L1) HD HD1 Hthick G (k_bcs K) (k_order K) W W1 Hfaces HG HG1).
Qed.

Lemma full_step_slice t dt S S1 : in_step S S1 -> in_step (full_step K L t dt S) (full_step K L1 t dt S1).
Proof.
  intros [(HC & HU & HP) HG]. unfold full_step. apply finish_slice. apply bcs_slice.
  intros r c Hr Hc. pose proof (proj2 (sel_owned _ _ _ _ _ _ _ HL Hr) Hc) as Hs.
  apply (step_user_shift K L L1 r rank0 (cmn r) S S1 dt Hnd3 t c).
  - intros x Hx. pose proof (sel_stencil _ _ _ _ _ _ _ _ _ HL Hr Hs Hx) as Hx1. cbn [Z.add] in Hx1.
    split; [now apply geo_slice|]. split; [|split; [exact Hx1|split; [now apply sel_slice|]]].
    + intros j. apply HG; [exact Hr|]. apply array_stencil2; [exact Hr|]. apply (sel_mono _ _ _ _ _ 1 _ _ _ HL Hr); [lia|exact Hx1].
    + intros y Hy. pose proof (sel_stencil _ _ _ _ _ _ _ _ _ HL Hr Hx1 Hy) as Hy2. cbn [Z.add Pos.add] in Hy2.
      pose proof (array_stencil2 r y Hr Hy2) as Hya.
      split; [symmetry; now apply HC|]. split; [symmetry; now apply HU|symmetry; now apply HP].
  - exact Hs.
  - now apply sel_slice.
Qed.

Lemma init_slice G S S1 : starts_from K dims L G S -> starts_from K one_process L1 G S1 ->
  in_step (init_state K L S) (init_state K L1 S1).
Proof.
  intros H H1. unfold init_state. apply finish_slice. apply bcs_slice.
  intros r c Hr Hc. pose proof (owned_slice r c Hr Hc) as Hc1.
  pose proof (proj2 (sel_owned _ _ _ _ _ _ _ HL Hr) Hc) as Hs.
  assert (Eg : global_index nd ng (corner_min (d_range (l_dec L1 rank0))) (iadd (cmn r) c) = global_index nd ng (cmn r) c).
  { apply idx_ext. intros d Hd. unfold global_index. rewrite !coord_mk3, (s_cmin _ _ _ _ HL1), coord_iadd by assumption. lia. }
  pose proof (sf_rho H r Hr c Hc) as A1. pose proof (sf_rho H1 rank0 (rank0_ok nd) _ Hc1) as B1.
  pose proof (sf_fx H r Hr c Hc) as A2. pose proof (sf_fx H1 rank0 (rank0_ok nd) _ Hc1) as B2.
  pose proof (sf_u H r Hr c Hc) as A3. pose proof (sf_u H1 rank0 (rank0_ok nd) _ Hc1) as B3.
  pose proof (sf_P H r Hr c Hc) as A4. pose proof (sf_P H1 rank0 (rank0_ok nd) _ Hc1) as B4.
  cbn beta in *. rewrite Eg in B1, B2, B3, B4. rewrite <- A1 in B1. rewrite <- A2 in B2. rewrite <- A3 in B3. rewrite <- A4 in B4.
  unfold init_cons. cbn [conv_prim_to_cons fst snd]. unfold kwrite.
  rewrite Hs, (sel_slice _ _ _ Hr Hs), B1, B2, B3, B4. reflexivity.
Qed.

Lemma run_slice ts : forall S S1, in_step S S1 -> in_step (run K L ts S) (run K L1 ts S1).
Proof.
  induction ts as [|[t dt] ts IH]; intros S S1 H; [exact H|].
  cbn [run fold_left fst snd]. apply IH. now apply full_step_slice.
Qed.

(** ** Reductions *)
Lemma sel_cells_in n r c : In c (sel_cells K L n r) <-> sel K L n r c = true.
Proof. unfold sel_cells, sel. symmetry. apply in_cells_iff. Qed.
Lemma sel_cells_in1 n r c : In c (sel_cells K L1 n r) <-> sel K L1 n r c = true.
Proof. unfold sel_cells, sel. symmetry. apply in_cells_iff. Qed.

Lemma in_ranks r : In r (ranks (l_dims L)) <-> vr r.
Proof.
  unfold ranks. rewrite in_box_cells, (lo_dims HL), in_box_coord. split.
  - intros H d Hd. specialize (H d Hd). destruct d as [|[|[|d]]]; exact H || lia.
  - intros H d Hd. specialize (H d Hd). destruct d as [|[|[|d]]]; exact H || lia.
Qed.
Lemma ranks1 : ranks (l_dims L1) = [rank0].
Proof. unfold ranks. rewrite (lo_dims HL1), mpi_dims_one. reflexivity. Qed.

Lemma values_slice n f f1 : (0 <= n <= ng)%Z ->
  (forall r c, vr r -> sel K L n r c = true -> f r c = f1 rank0 (iadd (cmn r) c)) ->
  forall x, In x (all_values K L n f) <-> In x (all_values K L1 n f1).
Proof.
  intros Hn Hf x. unfold all_values. rewrite ranks1. cbn [flat_map]. rewrite app_nil_r, in_flat_map, in_map_iff. split.
  - intros (r & Hr & Hx). apply in_ranks in Hr. apply in_map_iff in Hx. destruct Hx as (c & <- & Hc).
    apply sel_cells_in in Hc. exists (iadd (cmn r) c). split; [symmetry; now apply Hf|]. apply sel_cells_in1. now apply sel_slice.
  - intros (c & <- & Hc). apply sel_cells_in1 in Hc. destruct (covered n c Hn Hc) as (r & c' & Hr & Hs & <-).
    exists r. split; [now apply in_ranks|]. apply in_map_iff. exists c'. split; [now apply Hf|now apply sel_cells_in].
Qed.

Lemma inverse_dt_slice S S1 r c : in_step S S1 -> vr r -> sel K L ng r c = true ->
  cell_inverse_dt K L S r c = cell_inverse_dt K L1 S1 rank0 (iadd (cmn r) c).
Proof.
  intros [(HC & HU & HP) _] Hr Hs. apply (sel_array _ _ _ _ _ _ _ HL Hr) in Hs.
  unfold cell_inverse_dt, inverse_dt. rewrite (HC r Hr c Hs), (HU r Hr c Hs), (HP r Hr c Hs).
  pose proof Hnd3 as H3. apply vsum_ext. intros d Hd. f_equal.
  assert (Edx : forall k, (k < 3)%nat -> mdx (l_mesh L r) k (coord k c) = mdx (l_mesh L1 rank0) k (coord k (iadd (cmn r) c))).
  { intros k Hk. unfold mdx. rewrite coord_iadd, <- Z.add_assoc, !mesh_slice by assumption. reflexivity. }
  assert (Exc : forall k, (k < 3)%nat -> mxc (l_mesh L r) k (coord k c) = mxc (l_mesh L1 rank0) k (coord k (iadd (cmn r) c))).
  { intros k Hk. unfold mxc. rewrite coord_iadd, <- Z.add_assoc, !mesh_slice by assumption. reflexivity. }
  pose proof (Edx 1%nat ltac:(lia)) as E1. pose proof (Edx 2%nat ltac:(lia)) as E2.
  pose proof (Exc 0%nat ltac:(lia)) as F0. pose proof (Exc 1%nat ltac:(lia)) as F1.
  pose proof (Edx d ltac:(lia)) as Ed. unfold dx_geom. cbn [coord] in E1, E2, F0, F1.
  rewrite E1, E2, F0, F1, Ed. reflexivity.
Qed.
Lemma time_step_slice S S1 : in_step S S1 -> time_step K L S = time_step K L1 S1.
Proof.
  intros H. unfold time_step. erewrite max_list_same; [reflexivity|].
  apply values_slice; [lia|]. intros r c Hr Hs. now apply inverse_dt_slice.
Qed.
Lemma min_energy_slice S S1 : in_step S S1 -> minimum_internal_energy K L S = minimum_internal_energy K L1 S1.
Proof.
  intros [(HC & _) _]. unfold minimum_internal_energy. apply min_list_same. apply values_slice; [lia|].
  intros r c Hr Hs. unfold cell_internal. rewrite (HC r Hr c); [reflexivity|].
  apply (sel_array _ _ _ _ _ _ _ HL Hr). apply (sel_mono _ _ _ _ _ 0 _ _ _ HL Hr); [lia|exact Hs].
Qed.

Lemma sel_cells_box n r : vr r -> sel_cells K L n r =
  box_cells (mk3 (fun d => (ghosts nd ng d - (if Nat.ltb d nd then n else 0))%Z))
            (mk3 (fun d => (ghosts nd ng d + nl nd N dims d (coord d r) + (if Nat.ltb d nd then n else 0))%Z)).
Proof.
  intros Hr. pose proof (dcp_ok HD Hr) as H.
  rewrite mpi_decomposition_ok in H; [|intros d Hd; pose proof (dcp_n HD Hd); lia|exact Hr].
  injection H as H. unfold sel_cells, cells_of. rewrite <- H. unfold ghosted, decomp_of.
  cbn [d_range corner_min corner_max rng_ng rng_nghost rng_ngeff d_nloc].
  unfold cell_begin, cell_end, nghost_of, ghosts. cbn [corner_min corner_max rng_ng rng_nghost rng_ngeff].
  f_equal; apply idx_ext; intros d Hd; rewrite !coord_mk3 by assumption; unfold nl; destruct (Nat.ltb d nd); lia.
Qed.

Lemma integrate_slice f f1 :
  (forall r c, vr r -> sel K L 0 r c = true -> f r c = f1 rank0 (iadd (cmn r) c)) ->
  integrate K L f = integrate K L1 f1.
Proof.
  intros Hf. unfold integrate. rewrite ranks1. cbn [lsum]. rewrite Rplus_0_r.
  set (F := fun c => f1 rank0 c * dv (k_geom K) nd (l_mesh L1 rank0) c).
  set (gg := mk3 (ghosts nd ng)).
  transitivity (lsum (fun r => lsum (fun c => F (iadd (mk3 (fun d => cm nd N dims d (coord d r))) c))
                 (box_cells gg (mk3 (fun d => (coord d gg + nl nd N dims d (coord d r))%Z)))) (box_cells (I3 0 0 0) (mpi_dims nd dims))).
  - unfold ranks. rewrite (lo_dims HL). apply lsum_ext. intros r Hr.
    assert (Hv : vr r) by (apply in_ranks; unfold ranks; now rewrite (lo_dims HL)).
    assert (Ebox : sel_cells K L 0 r = box_cells gg (mk3 (fun d => (coord d gg + nl nd N dims d (coord d r))%Z))).
    { rewrite sel_cells_box by assumption. f_equal; apply idx_ext; intros d Hd; unfold gg; rewrite !coord_mk3 by assumption;
        destruct (Nat.ltb d nd); lia. }
    rewrite <- Ebox. apply lsum_ext. intros c Hc. apply sel_cells_in in Hc. unfold F.
    assert (Ec : mk3 (fun d => cm nd N dims d (coord d r)) = cmn r).
    { apply idx_ext. intros d Hd. rewrite coord_mk3 by assumption. symmetry. now apply (dec_cmin _ _ _ _ _ HD). }
    rewrite Ec, <- Hf by assumption. f_equal. symmetry. apply dv_shift. now apply geo_slice.
  - rewrite block_sum3.
    + pose proof (dcp_ok HD1 (rank0_ok nd)) as H.
      rewrite mpi_decomposition_ok in H; [|intros d Hd; pose proof (dcp_n HD Hd); lia|exact (rank0_ok nd)].
      injection H as H. f_equal. unfold sel_cells, cells_of.
      f_equal; apply idx_ext; intros d Hd; unfold cell_begin, cell_end; rewrite !coord_mk3 by assumption;
        unfold ghosted; cbn [rng_nghost rng_ngeff corner_max corner_min]; unfold gg; rewrite coord_mk3 by assumption.
      * rewrite <- H. unfold decomp_of. cbn [d_range rng_nghost]. unfold nghost_of, ghosts. rewrite coord_mk3 by assumption.
        destruct (Nat.ltb d nd); lia.
      * rewrite (cm_p _ _ _ _ _ HD) by assumption.
        pose proof (s_nloc _ _ _ _ HL1 d Hd) as En. rewrite <- H in En |- *. unfold decomp_of in *.
        cbn [d_range rng_nghost corner_max corner_min d_nloc] in *. unfold nghost_of, ghosts. rewrite !coord_mk3 in * by assumption.
        destruct (Nat.ltb d nd); lia.
    + intros d Hd. pose proof (dcp_dims HD Hd). split; [lia|]. split; [now apply (cm_0 _ _ _ _ _ HD)|].
      intros x Hx. split; [now apply (cm_succ _ _ _ _ _ HD)|now apply (nl_nonneg _ _ _ _ _ HD)].
Qed.

Lemma run_cfl_slice cfl n : forall t S S1, in_step S S1 ->
  fst (run_cfl K L cfl n t S) = fst (run_cfl K L1 cfl n t S1) /\
  in_step (snd (run_cfl K L cfl n t S)) (snd (run_cfl K L1 cfl n t S1)).
Proof.
  induction n as [|n IH]; intros t S S1 H; cbn [run_cfl]; [split; [reflexivity|exact H]|].
  rewrite (time_step_slice S S1 H). destruct (time_step K L1 S1) as [h|]; [|split; [reflexivity|exact H]].
  apply IH. now apply full_step_slice.
Qed.
End Par.
