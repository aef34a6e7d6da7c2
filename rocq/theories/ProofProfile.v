(** * Proofs for C96: runs of v1d. *)
From Coq Require Import List Ascii Reals Lra Lia ZifyBool FunctionalExtensionality.
From Coq Require String.
From Flocq Require Import Core.
From Verif Require Import Base RBase ModelMesh ModelGeom ModelBoundary ModelHydro ModelRad ModelScheme ModelStep ModelUtil ModelIni ModelMain ModelMove ModelMPI
  ModelSetup ModelParam ModelH5 ModelLaunch ModelProfile
  SpecMesh SpecGeom SpecBoundary SpecHydro SpecScheme SpecStep SpecPos SpecSetup SpecMain SpecMove SpecMPI SpecIni SpecParam SpecProfile
  ProofBase ProofR ProofMesh ProofGeom ProofBoundary ProofBoundary2 ProofBcOrder ProofUtil ProofStep ProofLayout ProofSetup ProofMain ProofRestart ProofParam ProofParamRun ProofParamRun2
  ProofMPIGrid ProofLaunch.
Local Open Scope string_scope.
Local Open Scope Z_scope.
Local Open Scope list_scope.

(** ** Reading the profiles *)
Section Read.
Context (nd : nat) (N dims : idx) (ng : Z) (dec : idx -> decomp).
Hypothesis D : decomposed nd N dims ng dec.
Let n0 := ii N.
Let place (r c : idx) : Z := ii (global_index nd ng (corner_min (d_range (dec r))) c).

Lemma place_in r c : process nd dims r -> owned nd ng (d_nloc (dec r)) c -> 0 <= place r c < n0.
Proof.
  intros Hr Hc. pose proof (Hc 0%nat ltac:(lia)) as Q. pose proof (Hr 0%nat ltac:(lia)) as Hr0.
  pose proof (dec_cmin nd N dims ng dec D r 0%nat Hr ltac:(lia)) as E1.
  pose proof (dec_nloc nd N dims ng dec D r 0%nat Hr ltac:(lia)) as E2.
  pose proof (cm_nonneg nd N dims ng dec D 0 (coord 0 r) ltac:(lia) ltac:(lia)).
  pose proof (cm_max nd N dims ng dec D 0 (coord 0 r) ltac:(lia) ltac:(lia)).
  unfold place. change (ii (global_index nd ng (corner_min (d_range (dec r))) c)) with (coord 0 (global_index nd ng (corner_min (d_range (dec r))) c)).
  unfold global_index. rewrite coord_mk3 by lia. change (coord 0 N) with n0 in *. lia.
Qed.
Lemma piece r : process nd dims r -> exists rg, no_ghosts (d_range (dec r)) = Ok rg /\
  forall d n, exists a o, part_1d n0 (dec r) d n = Ok a /\ broadcast_profile nd rg a (fun _ => 0%R) = Ok o /\
    forall c, owned nd ng (d_nloc (dec r)) c -> o c = ds_at d (Z.of_nat n * n0 + place r c).
Proof.
  intros Hr.
  assert (A : forall d n, exists a rg o, part_1d n0 (dec r) d n = Ok a /\ no_ghosts (d_range (dec r)) = Ok rg /\
    broadcast_profile nd rg a (fun _ => 0%R) = Ok o /\ forall c, owned nd ng (d_nloc (dec r)) c -> o c = ds_at d (Z.of_nat n * n0 + place r c)).
  { intros d n. destruct (init_profile_ok nd N dims ng dec D (mkArr1 n0 (fun i => ds_at d (Z.of_nat n * n0 + i))) (fun _ => 0%R) r eq_refl Hr) as (o & E & V).
    unfold init_profile in E. destruct (check_extent _ _) as [u0|w|w]; [|discriminate..]. cbn [obind] in E. unfold part_1d.
    destruct (read_profile (dec r) _) as [a|w|w]; [|discriminate..]. cbn [obind] in E.
    destruct (no_ghosts (d_range (dec r))) as [rg|w|w]; [|discriminate..]. cbn [obind] in E.
    exists a, rg, o. split; [reflexivity|]. split; [reflexivity|]. split; [exact E|]. intros c Hc. now rewrite (V c Hc). }
  destruct (A (mkDataset [] (fun _ => 0%R)) 0%nat) as (_ & rg & _ & _ & Erg & _). exists rg. split; [exact Erg|].
  intros d n. destruct (A d n) as (a & rg' & o & E1 & E2 & E3 & E4). rewrite Erg in E2. injection E2 as <-. now exists a, o.
Qed.
Lemma pieces r rg d : process nd dims r -> no_ghosts (d_range (dec r)) = Ok rg -> forall l, exists az os,
  omap (part_1d n0 (dec r) d) l = Ok az /\ omap (fun a => broadcast_profile nd rg a (fun _ => 0%R)) az = Ok os /\ List.length os = List.length l /\
  forall c, owned nd ng (d_nloc (dec r)) c -> forall i, (i < List.length l)%nat -> nth i os (fun _ => 0%R) c = ds_at d (Z.of_nat (nth i l 0%nat) * n0 + place r c).
Proof.
  intros Hr Hg. destruct (piece r Hr) as (rg' & E & A). rewrite Hg in E. injection E as <-.
  induction l as [|n l (az & os & I1 & I2 & I3 & I4)].
  - exists [], []. repeat split. intros c _ i Hi. cbn in Hi. lia.
  - destruct (A d n) as (a & o & E1 & E2 & E3). exists (a :: az), (o :: os). cbn [omap]. rewrite E1. cbn [obind]. rewrite I1. cbn [obind].
    split; [reflexivity|]. rewrite E2. cbn [obind]. rewrite I2. cbn [obind List.length]. split; [reflexivity|]. split; [now rewrite I3|].
    intros c Hc [|i] Hi; cbn [nth]; [now apply E3|]. apply I4; [exact Hc|lia].
Qed.
Lemma read_exact r nfx rho u P fx : process nd dims r -> exists f, v1d_read nd nfx n0 (dec r) (rho, u, P, fx) = Ok f /\
  forall c, owned nd ng (d_nloc (dec r)) c -> let i := place r c in
    i_rho (f c) = ds_at rho i /\ (forall d, i_u (f c) d = match d with O => ds_at u i | _ => 0%R end) /\ i_P (f c) = ds_at P i /\
    forall n, i_fx (f c) n = if Nat.ltb n (Z.to_nat nfx) then ds_at fx (Z.of_nat n * n0 + i) else 0%R.
Proof.
  intros Hr. destruct (piece r Hr) as (rg & Eg & A). destruct (A rho 0%nat) as (a1 & o1 & B1 & C1 & V1).
  destruct (A u 0%nat) as (a2 & o2 & B2 & C2 & V2). destruct (A P 0%nat) as (a3 & o3 & B3 & C3 & V3).
  destruct (pieces r rg fx Hr Eg (seq 0 (Z.to_nat nfx))) as (az & os & B4 & C4 & L4 & V4). rewrite seq_length in L4, V4.
  eexists. split.
  - unfold v1d_read. cbv zeta. rewrite B1. cbn [obind]. rewrite B2. cbn [obind]. rewrite B3. cbn [obind]. rewrite B4. cbn [obind]. rewrite Eg. cbn [obind].
    rewrite C1. cbn [obind]. rewrite C2. cbn [obind]. rewrite C3. cbn [obind]. rewrite C4. cbn [obind]. reflexivity.
  - intros c Hc i. cbn [i_rho i_u i_P i_fx]. rewrite (V1 c Hc), (V3 c Hc). split; [reflexivity|]. split; [|split; [reflexivity|]].
    + intros [|d]; [now rewrite (V2 c Hc)|]. unfold broadcast_const, kwrite. now destruct (in_cells _ _ _).
    + intros n. destruct (Nat.ltb_spec n (Z.to_nat nfx)) as [H|H].
      * rewrite (V4 c Hc n H), seq_nth by exact H. reflexivity.
      * rewrite nth_overflow by lia. reflexivity.
Qed.
End Read.

(** ** The file *)
Lemma row_checked h name n F : row_in h name n F -> exists d, check_extent_dset h name n = Ok d /\ forall i, 0 <= i < n -> ds_at d i = F i.
Proof. intros (d & E & Ed & V). exists d. unfold check_extent_dset. rewrite E. cbn [need obind]. rewrite Ed, Z.eqb_refl. now split. Qed.
Lemma checked_iff h name n : (exists d, check_extent_dset h name n = Ok d) <-> has_dataset h name [n].
Proof.
  unfold check_extent_dset, has_dataset. split.
  - intros (d & E). destruct (h_real h name) as [x|]; [|discriminate]. cbn [need obind] in E. destruct (ds_dims x) as [|k [|? ?]] eqn:Q; try discriminate.
    exists x. split; [reflexivity|]. destruct (Z.eqb_spec k n); [now subst|discriminate].
  - intros (d & E & Q). exists d. rewrite E. cbn [need obind]. now rewrite Q, Z.eqb_refl.
Qed.
Lemma checked2_iff h name n m : (exists d, check_extent_dset2 h name n m = Ok d) <-> has_dataset h name [n; m].
Proof.
  unfold check_extent_dset2, has_dataset. split.
  - intros (d & E). destruct (h_real h name) as [x|]; [|discriminate]. cbn [need obind] in E. destruct (ds_dims x) as [|k [|k' [|? ?]]] eqn:Q; try discriminate.
    exists x. split; [reflexivity|]. destruct (Z.eqb_spec k n); destruct (Z.eqb_spec k' m); try discriminate. now subst.
  - intros (d & E & Q). exists d. rewrite E. cbn [need obind]. now rewrite Q, !Z.eqb_refl.
Qed.
Lemma unchecked h name n : ~ has_dataset h name [n] -> exists w, check_extent_dset h name n = Throw w.
Proof.
  intros H. rewrite <- checked_iff in H. unfold check_extent_dset in *. destruct (h_real h name) as [x|]; cbn [need obind] in *; [|eauto].
  destruct (ds_dims x) as [|k [|? ?]]; eauto. destruct (k =? n); [|eauto]. elim H. eauto.
Qed.
Lemma unchecked2 h name n m : ~ has_dataset h name [n; m] -> exists w, check_extent_dset2 h name n m = Throw w.
Proof.
  intros H. rewrite <- checked2_iff in H. unfold check_extent_dset2 in *. destruct (h_real h name) as [x|]; cbn [need obind] in *; [|eauto].
  destruct (ds_dims x) as [|k [|k' [|? ?]]]; eauto. destruct ((k =? n) && (k' =? m))%bool; [|eauto]. elim H. eauto.
Qed.

(** ** Start-up *)
Lemma says_v1d T m v : holds T m -> described_v1d T v -> read_v1d m = Ok v.
Proof.
  intros H [D1 D2 D3]. unfold read_v1d.
  assert (D1' : says_text T "problem" "init_file" "" (vp_file v)) by exact D1.
  assert (D2' : says_real T "problem" "vmax_shift" 0 (vp_vmax v)) by exact D2.
  assert (D3' : says_int T "problem" "cell_shift" 0 (vp_cells v)) by exact D3.
  rewrite (text_says T m "problem" "init_file" _ _ H ltac:(plain_tac) D1'), (real_says T m "problem" "vmax_shift" _ _ H ltac:(plain_tac) D2'). cbn [obind].
  rewrite (integer_says T m "problem" "cell_shift" _ _ H ltac:(plain_tac) D3'). cbn [obind]. now destruct v.
Qed.

Section Usable.
Context (b : build) (dims : idx) (p : param).
Hypothesis Hu : usable_v1d b p dims.
Let nd := b_nd b.
Let ng := pm_ng p.
Let N := extents p.
Lemma v1d_process r : process nd dims r -> process_of nd dims r.
Proof.
  intros H d Hd. split; [exact (uv_dims _ _ _ Hu d Hd)|]. specialize (H d Hd). unfold mpi_dims in H. rewrite coord_mk3 in H by exact Hd.
  destruct (Nat.ltb d nd); exact H.
Qed.
Lemma v1d_N d : (d < 3)%nat -> 1 <= coord d N /\ coord d N + 2 * ng + 3 < 2 ^ 31.
Proof.
  intros Hd. apply (uv_cells _ _ _ Hu). destruct d as [|[|[|d]]]; [now left|right; now left|right; right; now left|lia].
Qed.
Lemma v1d_mpi d : (d < 3)%nat -> 1 <= coord d (mpi_dims nd dims).
Proof. intros Hd. unfold mpi_dims. rewrite coord_mk3 by exact Hd. destruct (Nat.ltb d nd); [exact (uv_dims _ _ _ Hu d Hd)|lia]. Qed.
Lemma v1d_ng : 2 <= ng. Proof. exact (uv_ng _ _ _ Hu). Qed.
Lemma v1d_decomposed : decomposed nd N dims ng (decs nd N dims ng).
Proof.
  apply decs_decomposed; [exact (uv_nd _ _ _ Hu)|pose proof v1d_ng; lia| |exact v1d_mpi]. intros d Hd. apply (v1d_N d Hd).
Qed.
Lemma v1d_extents : extents_ok nd p.
Proof.
  pose proof v1d_ng. pose proof (v1d_N 0%nat ltac:(lia)). split; [unfold ng in *; lia|]. split; [unfold ng in *; lia|].
  intros n Hn. pose proof (uv_cells _ _ _ Hu n Hn). fold ng in H1 |- *. lia.
Qed.
Lemma v1d_rank0 : process nd dims (I3 0 0 0).
Proof. exact (rank0_process nd dims (uv_dims _ _ _ Hu)). Qed.
End Usable.

Section Run.
Context (b : build) (T : list entry) (f : bytes) (p : param) (v : v1d_params).
Context (bc : nat -> bcond) (g : gas) (lim : limiter) (sol : solver) (user : user_kind).
Hypothesis Hf : file_with T f.
Hypothesis Hp : described T p.
Hypothesis Hv : described_v1d T v.
Hypothesis Hc : chosen b T p bc g lim sol user.
Let nd := b_nd b.
Let ng := pm_ng p.
Let N := extents p.

Definition v1d_run (dec : decomp) : run :=
  mkRun p [] dec g (Some FromSetup) (map (fun i => Builtin (bc i)) (seq 0 (2 * nd))) (map Some (seq 0 (2 * nd))) lim sol (Builtin user)
    (String.eqb (pm_shift_grid p) "UserDefined") (String.eqb (pm_pressure_fix p) "On").
Let K : ModelStep.config := config_of b (v1d_run (decs nd N (I3 1 1 1) ng rank0)).
Lemma v1d_config : configured b p bc g lim sol user K.
Proof.
  split; try reflexivity.
  - change (k_pf K) with (if String.eqb (pm_pressure_fix p) "On" then Some (value_of (pm_eps_pf p)) else None).
    destruct (String.eqb_spec (pm_pressure_fix p) "On") as [E|E]; [|reflexivity].
    destruct (real_finite _ _ _ _ _ (g_eps_pf _ _ Hp)) as (eps & Ee). exists eps. split; [exact Ee|]. now rewrite Ee.
  - intros i Hi. cbn [K config_of k_bcs v1d_run r_bcs]. fold nd in Hi. rewrite (nth_indep _ _ ((fun i => Builtin (bc i)) 0%nat)) by (rewrite map_length, seq_length; exact Hi).
    rewrite (map_nth (fun i => Builtin (bc i))), seq_nth by exact Hi. reflexivity.
  - cbn [K config_of k_order v1d_run r_order]. now rewrite applied_order_some.
  - cbn [K config_of k_grav v1d_run r_param].
    destruct (real_finite _ _ _ _ _ (g_gx0 _ _ Hp)) as (g0 & E0). destruct (real_finite _ _ _ _ _ (g_gx1 _ _ Hp)) as (g1 & E1).
    destruct (real_finite _ _ _ _ _ (g_gx2 _ _ Hp)) as (g2 & E2). destruct (real_finite _ _ _ _ _ (g_M _ _ Hp)) as (M & EM).
    rewrite E0, E1, E2, EM. destruct (b_grav b).
    + eexists. split; [reflexivity|]. cbn [value_of]. split; [reflexivity|split; [reflexivity|]]. intros [|[|d]] Hd'; [lia|lia|reflexivity].
    + exists M. now split.
    + exists M. now split.
Qed.

Section Dims.
Context (dims : idx).
Hypothesis Hu : usable_v1d b p dims.
Lemma v1d_starts r : process nd dims r -> startup b dims r (Some f) = Ok (v1d_run (decs nd N dims ng r)).
Proof.
  intros Hr. destruct Hc as [(ga & mu & Eg & Em & Lg & Lm & Hg) Hb Hl Hso Hus].
  destruct (split_forall2 _ (fun w i => named bc_table w (Builtin (bc i))) _ _ Hb) as (ws & W1 & W2).
  assert (W3 : Forall2 (named bc_table) ws (map (fun i => Builtin (bc i)) (seq 0 (2 * nd)))).
  { fold nd in W2. revert W2. generalize (seq 0 (2 * nd)) as l. clear. induction ws as [|w ws IH]; intros l F; inversion F; subst; constructor; auto. }
  destruct (the_run_described b T f dims r p [] ga mu g (map (fun i => Builtin (bc i)) (seq 0 (2 * nd))) ws (Some FromSetup)
    (map Some (seq 0 (2 * nd))) lim sol (Builtin user)) as (dec & Ed & E); try assumption.
  - exact (uv_nd _ _ _ Hu).
  - rewrite (uv_setup _ _ _ Hu). exists [], []. split; [reflexivity|split; constructor].
  - exact (v1d_extents b dims p Hu).
  - exact (v1d_process b dims p Hu r Hr).
  - exact (uv_grav _ _ _ Hu).
  - rewrite (uv_new _ _ _ Hu), (uv_grid _ _ _ Hu). exists FromSetup. split; [reflexivity|right; now left].
  - rewrite (uv_order _ _ _ Hu). reflexivity.
  - pose proof (dcp_ok (v1d_decomposed b dims p Hu) Hr) as D. change (mpi_decomposition nd N dims ng r = Ok dec) in Ed. fold nd ng N in D. rewrite Ed in D. injection D as D.
    rewrite E, D. reflexivity.
Qed.
Lemma v1d_runs_on X runs : global_coords nd N ng X -> (forall r, process nd dims r -> r_dec (runs r) = decs nd N dims ng r) ->
  runs_on K N dims X (layout_with b dims runs X).
Proof.
  intros HX Hruns. assert (Hg2 := v1d_ng b dims p Hu). fold ng in Hg2. pose proof (v1d_decomposed b dims p Hu) as D. fold nd ng N in D.
  split.
  - split; change (k_nd K) with nd; change (k_ng K) with ng.
    + destruct D as [D1 D2 D3 D4 D5]. split; auto. intros r Hr. cbn [layout_with l_dec]. rewrite (Hruns r Hr). exact (D5 r Hr).
    + reflexivity.
    + exact HX.
    + intros r Hr. cbn [layout_with l_dec l_mesh]. rewrite (Hruns r Hr).
      destruct (set_grid_ok nd N dims ng r (decs nd N dims ng r) X) as (m & E & _).
      * intros e He. pose proof (v1d_N b dims p Hu e He). fold N ng in H. lia.
      * lia.
      * exact Hr.
      * exact (dcp_ok D Hr).
      * exact HX.
      * now rewrite E.
  - change (k_nd K) with nd; change (k_ng K) with ng. intros r Hr d Hd. cbn [layout_with l_dec]. rewrite (Hruns r Hr). revert r Hr d Hd.
    apply decs_thick.
    + exact (uv_nd _ _ _ Hu).
    + lia.
    + intros d Hd. apply (v1d_N b dims p Hu d Hd).
    + exact (v1d_mpi b dims p Hu).
    + intros d Hd. pose proof (uv_thick _ _ _ Hu d Hd) as Q. change (pm_ng p) with ng in Q.
      pose proof (uv_nd _ _ _ Hu) as HN. fold nd in HN.
      assert (M : coord d (mpi_dims nd dims) = coord d dims).
      { unfold mpi_dims. rewrite coord_mk3 by lia. destruct (Nat.ltb_spec d nd); [reflexivity|lia]. }
      rewrite M. pose proof (uv_dims _ _ _ Hu d ltac:(lia)).
      assert (coord d N = nth d [pm_nx0 p; pm_nx1 p; pm_nx2 p] 0) as -> by (destruct d as [|[|[|d]]]; [reflexivity..|lia]).
      apply Z.div_le_lower_bound; lia.
  - exact Hg2.
  - cbn [K config_of k_order k_nd v1d_run r_order]. rewrite applied_order_some. intros i Hi. apply in_seq in Hi. fold nd. lia.
  - unfold gravity_ok. cbn [K config_of k_grav k_nd]. destruct (b_grav b) eqn:E; [exact I|exact I|].
    unfold mpi_dims. rewrite coord_mk3 by lia. destruct (Nat.ltb 0 (b_nd b)); [exact (uv_grav _ _ _ Hu E)|reflexivity].
Qed.
End Dims.
End Run.

(** ** The whole run *)
Lemma all_read {A : Type} (reads : idx -> outcome A) l : (forall r, In r l -> exists a, reads r = Ok a) -> all_ok reads l = Ok tt.
Proof.
  intros H. unfold all_ok. assert (Q : exists y, omap reads l = Ok y).
  { induction l as [|r l IH]; [now exists []|]. destruct (H r (or_introl eq_refl)) as (a & E).
    destruct (IH ltac:(intros q Hq; apply H; now right)) as (y & E'). exists (a :: y). cbn [omap]. rewrite E. cbn [obind]. rewrite E'. reflexivity. }
  destruct Q as (y & ->). reflexivity.
Qed.
Lemma numbers_finite_v1d T p v : described T p -> described_v1d T v ->
  forallb finite_number [pm_x0min p; pm_x0max p; pm_x1min p; pm_x1max p; pm_x2min p; pm_x2max p; pm_t_ini p; pm_t_end p; pm_cfl p;
    pm_time_freq p; pm_time_first p; pm_gx0 p; pm_gx1 p; pm_gx2 p; pm_M p; pm_eps_pf p; pm_rmax_shift p; vp_vmax v] = true.
Proof.
  intros D D'. pose proof (numbers_finite T p D) as Q.
  destruct (real_finite _ _ _ _ _ (g_rmax_shift _ _ D)) as (a & E). destruct (real_finite _ _ _ _ _ (dv_vmax _ _ D')) as (c & E').
  change (forallb finite_number ([pm_x0min p; pm_x0max p; pm_x1min p; pm_x1max p; pm_x2min p; pm_x2max p; pm_t_ini p; pm_t_end p; pm_cfl p;
    pm_time_freq p; pm_time_first p; pm_gx0 p; pm_gx1 p; pm_gx2 p; pm_M p; pm_eps_pf p] ++ [pm_rmax_shift p; vp_vmax v]) = true).
  rewrite forallb_app, Q, E, E'. reflexivity.
Qed.

Section Whole.
Context (b : build) (T : list entry) (f : bytes) (p : param) (v : v1d_params).
Context (bc : nat -> bcond) (g : gas) (lim : limiter) (sol : solver) (user : user_kind) (cfl rmax : R) (P : params) (sh : shift_kind).
Context (disk : string -> option h5) (h : h5) (x rho u Pr : Z -> R) (fx : nat -> Z -> R).
Hypothesis Hf : file_with T f.
Hypothesis Hp : described T p.
Hypothesis Hv : described_v1d T v.
Hypothesis Hc : chosen b T p bc g lim sol user.
Hypothesis Ht : timing p cfl P.
Hypothesis Hm : moves p v sh.
Hypothesis Hrm : pm_rmax_shift p = Finite rmax.
Hypothesis Hd : disk (vp_file v) = Some h.
Hypothesis Hh : profiles (pm_nx0 p) (pm_ng p) (Z.to_nat (pm_nfx p)) h x rho u Pr fx.
Let nd := b_nd b.
Let ng := pm_ng p.
Let N := extents p.
Let G := along_rays (Z.to_nat (pm_nfx p)) rho u Pr fx.
Let the_run' := v1d_run b p bc g lim sol user.
Let K : ModelStep.config := config_of b (the_run' (decs nd N (I3 1 1 1) ng rank0)).

Lemma moves_shift dec : v1d_shift (the_run' dec) v = sh.
Proof.
  revert Hm. unfold moves, v1d_shift, the_run', v1d_run. cbn [r_shift]. destruct (String.eqb _ _); [|now intros ->]. intros (vm & E & ->). now rewrite E.
Qed.
Lemma fits_window L : criterion_ok sh L -> window_fits sh L = true.
Proof. destruct sh as [|cs vm]; [reflexivity|]. cbn [criterion_ok window_fits]. lia. Qed.
Lemma rays_state dims dec L (F : idx -> idx -> icell) (gr : idx -> gravity) dr du dp df : decomposed nd N dims ng dec ->
  (forall r, process nd dims r -> l_dec L r = dec r) ->
  (forall i, 0 <= i < pm_nx0 p -> ds_at dr i = rho i) -> (forall i, 0 <= i < pm_nx0 p -> ds_at du i = u i) ->
  (forall i, 0 <= i < pm_nx0 p -> ds_at dp i = Pr i) ->
  (forall n i, (n < Z.to_nat (pm_nfx p))%nat -> 0 <= i < pm_nx0 p -> ds_at df (Z.of_nat n * pm_nx0 p + i) = fx n i) ->
  (forall r, process nd dims r -> v1d_read nd (pm_nfx p) (pm_nx0 p) (dec r) (dr, du, dp, df) = Ok (F r)) ->
  starts_from K dims L G (fun r => v1d_state (F r) (gr r)).
Proof.
  intros D EL Vr Vu Vp Vf HF.
  assert (A : forall r, process nd dims r -> forall c, owned nd ng (d_nloc (dec r)) c ->
    let i := ii (global_index nd ng (corner_min (d_range (dec r))) c) in
    i_rho (F r c) = rho i /\ (i_u (F r c) = fun d => match d with O => u i | _ => 0%R end) /\ i_P (F r c) = Pr i /\
    i_fx (F r c) = fun n => if Nat.ltb n (Z.to_nat (pm_nfx p)) then fx n i else 0%R).
  { intros r Hr c Hc' i. destruct (read_exact nd N dims ng dec D r (pm_nfx p) dr du dp df Hr) as (f' & E & V).
    change (ii N) with (pm_nx0 p) in E. rewrite (HF r Hr) in E. injection E as E. rewrite E. destruct (V c Hc') as (V1 & V2 & V3 & V4).
    pose proof (place_in nd N dims ng dec D r c Hr Hc') as Pi. change (ii N) with (pm_nx0 p) in Pi, V4. fold i in Pi, V1, V2, V3, V4.
    rewrite V1, V3, (Vr i Pi), (Vp i Pi). split; [reflexivity|]. split; [|split; [reflexivity|]].
    - apply functional_extensionality. intros d. rewrite V2. destruct d; [now apply Vu|reflexivity].
    - apply functional_extensionality. intros n. rewrite V4. destruct (Nat.ltb_spec n (Z.to_nat (pm_nfx p))); [|reflexivity]. now apply Vf. }
  split; intros r Hr c Hc'; change (k_nd K) with nd in *; change (k_ng K) with ng in *; rewrite (EL r Hr) in *; destruct (A r Hr c Hc') as (A1 & A2 & A3 & A4);
    cbn [G along_rays g_rho g_u g_P g_fx v1d_state s_cell s_u s_P c_rho c_fx].
  - exact A1.
  - exact A4.
  - exact A2.
  - exact A3.
Qed.

Theorem v1d_executed_as : exists X K', K' = K /\ v1d_faces b p x X /\ forall dims, usable_v1d b p dims -> exists L St,
  L = layout_with b dims (program_runs b dims (Some f) (the_run' (decs nd N dims ng (I3 0 0 0)))) X /\
  (exists ds, v1d_datasets p disk v = Ok ds /\ v1d_coords b p (Some FromSetup) disk v = Ok X /\
     forall r, process nd dims r -> exists F, v1d_read nd (pm_nfx p) (pm_nx0 p) (decs nd N dims ng r) ds = Ok F /\
       St r = v1d_state F (gravity_values K L (fun _ _ => zero_cell) r)) /\
  v1d_executes b f disk p v bc g lim sol user cfl rmax P sh G X K' dims L St.
Proof.
  destruct Hh as [Hx Hr Hu' HP (df & Ef & Edf & Vf)].
  destruct (row_checked _ _ _ _ Hx) as (dx & Ex & Vx). destruct (row_checked _ _ _ _ Hr) as (dr & Er & Vr).
  destruct (row_checked _ _ _ _ Hu') as (du & Eu & Vu). destruct (row_checked _ _ _ _ HP) as (dp & Ep & Vp).
  set (X := fun d => match d with O => mkArr1 (pm_nx0 p + 2 * coord 0 (nghost_of (b_nd b) (pm_ng p)) + 1) (ds_at dx) | _ => coords_of b p d end).
  exists X, K. split; [reflexivity|]. split.
  { split; [intros i Hi; apply Vx; lia|]. intros d i Hdd.
    destruct (real_finite _ _ _ _ _ (g_x1min _ _ Hp)) as (l1 & E1). destruct (real_finite _ _ _ _ _ (g_x1max _ _ Hp)) as (h1 & E2).
    destruct (real_finite _ _ _ _ _ (g_x2min _ _ Hp)) as (l2 & E3). destruct (real_finite _ _ _ _ _ (g_x2max _ _ Hp)) as (h2 & E4).
    destruct d as [|[|[|d]]]; [lia| | |lia]; [exists l1, h1|exists l2, h2]; cbn [nth]; (split; [assumption|split; [assumption|]]);
      cbn [X]; unfold coords_of, regular_mesh, compute_regular_mesh_1d; cbn [a_at lower_bound upper_bound]; rewrite ?E1, ?E2, ?E3, ?E4;
      unfold nghost_of; rewrite coord_mk3 by lia; reflexivity. }
  intros dims Hu.
  set (runs := fun r => the_run' (decs nd N dims ng r)).
  assert (Hst : forall r, process nd dims r -> startup b dims r (Some f) = Ok (runs r)).
  { intros r Hrr. exact (v1d_starts b T f p bc g lim sol user Hf Hp Hc dims Hu r Hrr). }
  assert (Hpr : forall r, process nd dims r -> program_runs b dims (Some f) (runs (I3 0 0 0)) r = runs r).
  { intros r Hrr. unfold program_runs. now rewrite (Hst r Hrr). }
  assert (H0 : process nd dims (I3 0 0 0)) by exact (v1d_rank0 b dims p Hu).
  assert (D := v1d_decomposed b dims p Hu). fold nd ng N in D.
  assert (Eng : coord 0 (nghost_of (b_nd b) (pm_ng p)) = pm_ng p).
  { unfold nghost_of. rewrite coord_mk3 by lia. pose proof (uv_nd _ _ _ Hu). destruct (Nat.ltb_spec 0 (b_nd b)); [reflexivity|lia]. }
  assert (HX : global_coords nd N ng X).
  { intros d Hd3. destruct d as [|d].
    - cbn [X a_ext]. unfold nghost_of. rewrite coord_mk3 by lia. reflexivity.
    - change (X (Datatypes.S d)) with (coords_of b p (Datatypes.S d)). unfold coords_of, regular_mesh, compute_regular_mesh_1d. cbn [a_ext]. unfold nghost_of. rewrite coord_mk3 by exact Hd3. reflexivity. }
  set (pruns := program_runs b dims (Some f) (runs (I3 0 0 0))).
  set (L := layout_with b dims pruns X).
  assert (HR : runs_on K N dims X L).
  { apply (v1d_runs_on b p bc g lim sol user dims Hu X pruns HX). intros r Hrr. unfold pruns. now rewrite (Hpr r Hrr). }
  set (ds := (dr, du, dp, df)).
  assert (Hread : forall r, process nd dims r -> exists F, v1d_read nd (pm_nfx p) (pm_nx0 p) (decs nd N dims ng r) ds = Ok F).
  { intros r Hrr. destruct (read_exact nd N dims ng (decs nd N dims ng) D r (pm_nfx p) dr du dp df Hrr) as (F & E & _). now exists F. }
  set (F := fun r => match v1d_read nd (pm_nfx p) (pm_nx0 p) (r_dec (pruns r)) ds with Ok f => f | _ => fun _ => mkI 0 (fun _ => 0%R) 0 (fun _ => 0%R) end).
  assert (HF : forall r, process nd dims r -> v1d_read nd (pm_nfx p) (pm_nx0 p) (decs nd N dims ng r) ds = Ok (F r)).
  { intros r Hrr. unfold F. unfold pruns. rewrite (Hpr r Hrr). cbn [runs the_run' v1d_run r_dec]. fold nd ng N. destruct (Hread r Hrr) as (F' & E). now rewrite E. }
  set (St := fun r => v1d_state (F r) (gravity_values K L (fun _ _ => zero_cell) r)).
  assert (Eds : v1d_datasets p disk v = Ok ds).
  { unfold v1d_datasets, v1d_checks. rewrite Hd. cbn [need obind]. rewrite Er. cbn [obind]. rewrite Eu. cbn [obind]. rewrite Ep. cbn [obind].
    unfold check_extent_dset2. rewrite Ef. cbn [need obind]. rewrite Edf, Z2Nat.id, !Z.eqb_refl by exact (uv_nfx _ _ _ Hu). reflexivity. }
  assert (EX : v1d_coords b p (Some FromSetup) disk v = Ok X).
  { unfold v1d_coords. rewrite Hd. cbn [need obind]. unfold v1d_grid. cbv zeta. unfold X. rewrite Eng, Ex. reflexivity. }
  exists L, St. split; [reflexivity|]. split.
  { exists ds. split; [exact Eds|]. split; [exact EX|]. intros r Hrr. exists (F r). split; [exact (HF r Hrr)|reflexivity]. }
  split.
  - intros r Hrr. exists (runs r). split; [exact (Hst r Hrr)|]. now split.
  - exact Hu.
  - exact (v1d_config b T p bc g lim sol user Hp).
  - exact Hm.
  - exact Hrm.
  - exact HR.
  - apply (rays_state dims (decs nd N dims ng) L F _ dr du dp df D); auto.
    intros r Hrr. unfold L. cbn [layout_with l_dec]. unfold pruns. now rewrite (Hpr r Hrr).
  - intros Hcr clock n. unfold v1d_program. rewrite (Hst _ H0). cbn [obind].
    destruct (file_reader T f Hf) as (m & Em & Hhm). rewrite Em. cbn [obind]. rewrite (says_v1d T m v Hhm Hv). cbn [obind].
    assert (Ec : composed_v1d (runs (I3 0 0 0)) v = true).
    { unfold composed_v1d, runs, the_run', v1d_run. cbn [r_param r_grid r_bcs r_user]. cbv zeta.
      rewrite (numbers_finite_v1d T p v Hp Hv). cbn [is_builtin andb]. rewrite !Bool.andb_true_r.
      apply forallb_forall. intros y Hy. apply in_map_iff in Hy. destruct Hy as (i & <- & _). reflexivity. }
    rewrite Ec. cbn [negb]. cbv zeta. cbn [runs the_run' v1d_run r_param r_grid]. rewrite EX. cbn [obind]. rewrite Eds. cbn [obind].
    change (mkRun p [] (decs nd N dims ng (I3 0 0 0)) g (Some FromSetup) (map (fun i : nat => Builtin (bc i)) (seq 0 (2 * b_nd b)))
      (map Some (seq 0 (2 * b_nd b))) lim sol (Builtin user) (String.eqb (pm_shift_grid p) "UserDefined") (String.eqb (pm_pressure_fix p) "On")) with (runs (I3 0 0 0)).
    fold pruns. fold nd. rewrite all_read.
    2: { intros r Hrr. apply (proj1 (in_process nd dims r)) in Hrr. exists (F r). unfold pruns. rewrite (Hpr r Hrr). exact (HF r Hrr). }
    cbn [obind]. fold L. change (v1d_shift (runs (I3 0 0 0)) v) with (v1d_shift (the_run' (decs nd N dims ng (I3 0 0 0))) v). rewrite moves_shift, (fits_window L Hcr). cbn [negb].
    destruct Ht as (T1 & T2 & T3 & T4 & T5 & T6 & T7).
    assert (EP : params_of (runs (I3 0 0 0)) = P).
    { unfold params_of, runs, the_run', v1d_run. cbn [r_param]. rewrite T2, T3, T6, T7, <- T4, <- T5. now destruct P. }
    rewrite EP, T1, Hrm. cbn [value_of].
    change (config_of b (runs (I3 0 0 0))) with K.
    unfold the_end. reflexivity.
Qed.
End Whole.
