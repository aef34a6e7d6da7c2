(** * Proofs for C93: a restart through the files. *)
From Coq Require Import List Ascii Reals Lra Lia ZifyBool FunctionalExtensionality.
From Coq Require String.
From Flocq Require Import Core.
From Verif Require Import Base RBase ModelMesh ModelGeom ModelBoundary ModelHydro ModelRad ModelScheme ModelStep ModelUtil ModelIni ModelMain ModelSetup ModelIO ModelParam ModelH5
  SpecMesh SpecGeom SpecBoundary SpecHydro SpecScheme SpecStep SpecPos SpecSetup SpecMain SpecIni SpecParam SpecH5
  ProofBase ProofR ProofMesh ProofGeom ProofBoundary ProofBoundary2 ProofBcOrder ProofHydro ProofStep ProofLayout ProofSteady ProofStepEx ProofSetup ProofSetupRun ProofMain ProofRestart
  ProofParam ProofParamRun ProofParamRun2 ProofPhantom ProofH5.
Local Open Scope string_scope.
Local Open Scope Z_scope.
Local Open Scope list_scope.

(** ** The state read back, completed in the components that do not exist *)
Section Completed.
Variables (K : ModelStep.config) (N dims : idx) (X : nat -> arr1) (L : layout) (nfx : nat) (G : gfields) (D : idx -> restart_data).
Variables (oid iid tid iter : Z) (t : R).
Notation nd := (k_nd K).
Notation ng := (k_ng K).
Hypothesis HD : forall r, process nd dims r -> SpecH5.restored nd ng nfx X oid iid tid iter t G (l_dec L r) (D r).
Let gi r c := global_index nd ng (corner_min (d_range (l_dec L r))) c.

Definition complete : idx -> pstate := fun r =>
  let a := fun r' c => mkCell (rs_rho (D r') c) (fun _ => 0%R) 0%R (rs_fx (D r') c) in
  mkState (fun c => mkCell (rs_rho (D r) c) (fun _ => 0%R) 0%R (fun n => if Nat.ltb n nfx then rs_fx (D r) c n else g_fx G (gi r c) n))
    (fun c d => if Nat.ltb d nd then rs_u (D r) c d else g_u G (gi r c) d) (rs_P (D r)) zero_rec (fun _ => zero_cell) (gravity_values K L a r).
Lemma complete_like r : same_components nd nfx (complete r) (read_state K L D r).
Proof.
  clear HD.
  split; [|split; [|split; [|split; [|split]]]]; cbn [complete read_state s_cell s_u s_P s_rec s_new s_grav]; try reflexivity.
  - intros c. split; [reflexivity|]. split; [intros d _; reflexivity|]. split; [reflexivity|]. intros n Hn. cbn [c_fx].
    destruct (Nat.ltb_spec n nfx); [reflexivity|lia].
  - intros c d Hd. destruct (Nat.ltb_spec d nd); [reflexivity|lia].
  - intros c f d. repeat split; intros k _; reflexivity.
  - intros c. repeat split; intros k _; reflexivity.
Qed.
Lemma complete_starts : starts_from K dims L G complete.
Proof.
  split; intros r Hr c Hc; pose proof (HD r Hr) as R; cbn [complete s_cell s_u s_P c_rho c_fx].
  - now rewrite (re_rho _ _ _ _ _ _ _ _ _ _ _ _ R c Hc).
  - apply functional_extensionality. intros n. destruct (Nat.ltb_spec n nfx); [|reflexivity]. now rewrite (re_fx _ _ _ _ _ _ _ _ _ _ _ _ R n H c Hc).
  - apply functional_extensionality. intros d. destruct (Nat.ltb_spec d nd); [|reflexivity]. now rewrite (re_u _ _ _ _ _ _ _ _ _ _ _ _ R d H c Hc).
  - now rewrite (re_P _ _ _ _ _ _ _ _ _ _ _ _ R c Hc).
Qed.
End Completed.

(** The arrays of a run are those of a global field. *)
Lemma gathered K N dims X L (S : idx -> pstate) : laid_out K N dims X L -> exists G, starts_from K dims L G S.
Proof.
  intros HL. destruct (gather K N dims X L HL (fun r c => c_rho (s_cell (S r) c))) as (G1 & H1).
  destruct (gather K N dims X L HL (fun r c => c_fx (s_cell (S r) c))) as (G2 & H2).
  destruct (gather K N dims X L HL (fun r c => s_u (S r) c)) as (G3 & H3). destruct (gather K N dims X L HL (fun r c => s_P (S r) c)) as (G4 & H4).
  exists (mkG G1 G3 G4 G2). split; assumption.
Qed.
Lemma starts_holds K dims L G S nfx : starts_from K dims L G S -> holds_fields (k_nd K) (k_ng K) nfx dims L G S.
Proof.
  intros [A B C D]. split; [exact A| |intros d _ r Hr c Hc; cbn beta; now rewrite <- (C r Hr c Hc)|intros n _ r Hr c Hc; cbn beta; now rewrite <- (B r Hr c Hc)].
  intros r Hr c Hc. exact (D r Hr c Hc).
Qed.

(** ** Start-up of the second run *)
Section Second.
Context (b : build) (f : bytes) (p : param) (lo hi : nat -> R).
Context (bc : nat -> bcond) (g : gas) (lim : limiter) (sol : solver) (user : user_kind) (amp : R * R * R * R) (s : setup) (cfl : R) (P : params).
Context (X : nat -> arr1) (K : ModelStep.config) (dims : idx) (L : layout).
Hypothesis HE : executes b f p lo hi bc g lim sol user amp s cfl P X K dims L.
Context (T2 : list entry) (f2 : bytes) (q : param) (path : string) (ps : list real_value) (dims' : idx).
Hypothesis Hf : file_with T2 f2.
Hypothesis Hq : described T2 q.
Hypothesis Hs : described_setup T2 (b_setup b) ps.
Hypothesis Hc : chosen b T2 q bc g lim sol user.
Hypothesis Ht : timing q cfl P.
Hypothesis Hr : resumes p q path.
Hypothesis Hu : usable b p dims' lo hi.
Let nd := b_nd b.
Let ng := pm_ng p.
Let N := extents p.

Definition the_restart (dec : decomp) : run :=
  mkRun q ps dec g None (map (fun i => Builtin (bc i)) (seq 0 (2 * nd))) (map Some (seq 0 (2 * nd))) lim sol (Builtin user)
    (String.eqb (pm_shift_grid q) "UserDefined") (String.eqb (pm_pressure_fix q) "On").
Lemma restart_starts r : process nd dims' r -> startup b dims' r (Some f2) = Ok (the_restart (decs nd N dims' ng r)).
Proof.
  intros Hp. destruct Hc as [(ga & mu & Eg & Em & Lg & Lm & Hg) Hb Hl Hso Hus].
  destruct (split_forall2 _ (fun w i => named bc_table w (Builtin (bc i))) _ _ Hb) as (ws & W1 & W2).
  assert (W3 : Forall2 (named bc_table) ws (map (fun i => Builtin (bc i)) (seq 0 (2 * nd)))).
  { fold nd in W2. revert W2. generalize (seq 0 (2 * nd)) as l. clear. induction ws as [|w ws IH]; intros l F; inversion F; subst; constructor; auto. }
  destruct (rq_cells _ _ _ Hr) as (C0 & C1 & C2).
  destruct (the_run_described b T2 f2 dims' r q ps ga mu g (map (fun i => Builtin (bc i)) (seq 0 (2 * nd))) ws None
    (map Some (seq 0 (2 * nd))) lim sol (Builtin user)) as (dec & Ed & E); try assumption.
  - exact (us_nd _ _ _ _ _ Hu).
  - pose proof (run_extents b dims' p lo hi Hu) as Q. unfold extents_ok in *. rewrite C0, C1, C2, (rq_ng _ _ _ Hr). exact Q.
  - exact (run_process b dims' p lo hi Hu r Hp).
  - exact (us_grav _ _ _ _ _ Hu).
  - rewrite (rq_restart _ _ _ Hr). reflexivity.
  - rewrite (rq_order _ _ _ Hr). reflexivity.
  - pose proof (dcp_ok (run_decomposed b dims' p lo hi Hu) Hp) as D. rewrite C0, C1, C2, (rq_ng _ _ _ Hr) in Ed.
    change (mpi_decomposition nd N dims' ng r = Ok dec) in Ed. fold nd ng N in D. rewrite Ed in D. injection D as D.
    rewrite E, D. reflexivity.
Qed.

Lemma same_config dec : config_of b (the_restart dec) = K.
Proof.
  destruct HE as [_ Xu _ Xg Xn Xng Xl Xs Xus Xe Xpf Xb Xnb Xo Xgr _ _ _]. destruct K as [kg kn kng ke kl ks kpf ku kgr kb ko].
  cbn [k_geom k_nd k_ng k_lim k_sol k_user k_eos k_pf k_bcs k_order k_grav] in *. subst kg kn kng kl ks ku ke ko.
  unfold config_of, the_restart. cbn [r_param r_gas r_lim r_sol r_pf r_user r_bcs r_order].
  rewrite (rq_ng _ _ _ Hr), applied_order_some.
  f_equal.
  - destruct (rq_fix _ _ _ Hr) as [-> ->]. destruct (String.eqb _ "On"); [|now rewrite Xpf]. destruct Xpf as (eps & -> & ->). reflexivity.
  - destruct (rq_gravity _ _ _ Hr) as (-> & -> & -> & ->). destruct (b_grav b).
    + destruct Xgr as (gv & -> & -> & -> & E). f_equal. apply functional_extensionality. intros [|[|d]]; [reflexivity|reflexivity|].
      rewrite (E (Datatypes.S (Datatypes.S d)) ltac:(lia)). reflexivity.
    + destruct Xgr as (M & -> & ->). reflexivity.
    + destruct Xgr as (M & -> & ->). reflexivity.
  - apply functional_extensionality. intros i. destruct (Nat.ltb_spec i (2 * nd)) as [Hi|Hi].
    + rewrite (nth_indep _ _ ((fun i => Builtin (bc i)) 0%nat)) by (rewrite map_length, seq_length; exact Hi).
      rewrite (map_nth (fun i => Builtin (bc i))), seq_nth by exact Hi. now rewrite (Xb i Hi).
    + rewrite nth_overflow by (rewrite map_length, seq_length; exact Hi). now rewrite (Xnb i Hi).
Qed.
Lemma restart_runs Y runs : (forall k, (k < 3)%nat -> Y k = X k) -> (forall r, process nd dims' r -> runs r = the_restart (decs nd N dims' ng r)) ->
  runs_on K N dims' X (layout_with b dims' runs Y).
Proof.
  intros HY Hruns. assert (HR := xr_runs _ _ _ _ _ _ _ _ _ _ _ _ _ _ _ _ _ _ HE). change (I3 (pm_nx0 p) (pm_nx1 p) (pm_nx2 p)) with N in HR.
  assert (En : k_nd K = nd) by exact (xr_nd _ _ _ _ _ _ _ _ _ _ _ _ _ _ _ _ _ _ HE).
  assert (Eg : k_ng K = ng) by exact (xr_ng _ _ _ _ _ _ _ _ _ _ _ _ _ _ _ _ _ _ HE).
  destruct HR as [[_ _ C _] _ G F _]. rewrite En, Eg in *.
  pose proof (file_runs_on b dims' p ps lo hi bc g lim sol user Hu) as [[D' _ _ _] T' _ _ _].
  cbn [layout_of l_dec the_run r_dec config_of k_nd k_ng r_param] in D', T'.
  split.
  - split; rewrite ?En, ?Eg.
    + destruct D' as [D1 D2 D3 D4 D5]. split; auto. intros r Hp. cbn [layout_with l_dec]. rewrite (Hruns r Hp). exact (D5 r Hp).
    + reflexivity.
    + exact C.
    + intros r Hp. cbn [layout_with l_dec l_mesh]. rewrite (Hruns r Hp). cbn [the_restart r_dec].
      assert (ES : set_grid (decs nd N dims' ng r) Y = set_grid (decs nd N dims' ng r) X) by (unfold set_grid; rewrite !HY by lia; reflexivity).
      rewrite ES. destruct (set_grid_ok nd N dims' ng r (decs nd N dims' ng r) X) as (m & E & _).
      * intros e He. pose proof (run_N b dims' p lo hi Hu e He). fold N ng in H. lia.
      * lia.
      * exact Hp.
      * exact (dcp_ok (run_decomposed b dims' p lo hi Hu) Hp).
      * exact C.
      * now rewrite E.
  - rewrite En, Eg. intros r Hp d Hd. cbn [layout_with l_dec]. rewrite (Hruns r Hp). exact (T' r Hp d Hd).
  - lia.
  - rewrite En. exact F.
  - unfold gravity_ok. rewrite En, <- (same_config (decs nd N dims' ng rank0)). cbn [config_of k_grav]. destruct (b_grav b) eqn:E; [exact I|exact I|].
    unfold mpi_dims. rewrite coord_mk3 by lia. destruct (Nat.ltb 0 nd); [exact (us_grav _ _ _ _ _ Hu E)|reflexivity].
Qed.

Lemma resumed gamma (T : idx -> field3) f1 disk : 0 <= pm_nfx p <= 10 ->
  disk path = (match write_pdi nd ng (pm_nfx p) N L X gamma T f1 with Ok h => Some h | _ => None end) ->
  exists L' G Rst Rst', runs_on K N dims' X L' /\ starts_from K dims L G (fl_data f1) /\ starts_from K dims' L' G Rst /\
    (forall r, same_components (k_nd K) (Z.to_nat (pm_nfx p)) (Rst r) (Rst' r)) /\
    forall clock n, restart_program b dims' (Some f2) disk clock n =
      Ok (Some (loop (hydro K L' cfl) P clock n (restarted f1 (init_state K L' Rst')))).
Proof.
  intros Hn Hd. assert (HR := xr_runs _ _ _ _ _ _ _ _ _ _ _ _ _ _ _ _ _ _ HE). change (I3 (pm_nx0 p) (pm_nx1 p) (pm_nx2 p)) with N in HR.
  assert (En : k_nd K = nd) by exact (xr_nd _ _ _ _ _ _ _ _ _ _ _ _ _ _ _ _ _ _ HE).
  assert (Eg : k_ng K = ng) by exact (xr_ng _ _ _ _ _ _ _ _ _ _ _ _ _ _ _ _ _ _ HE).
  destruct (gathered K N dims X L (fl_data f1) (ro_layout HR)) as (G & HG).
  destruct (write_ok K N dims X L (pm_nfx p) (ro_layout HR) gamma T f1 G ltac:(lia) (starts_holds K dims L G _ _ HG)) as (h & Wh & Hh).
  rewrite En, Eg in Wh. rewrite En in Hh. rewrite Wh in Hd.
  assert (H0 : process nd dims' (I3 0 0 0)) by exact (rank0_process nd dims' (us_dims _ _ _ _ _ Hu)).
  set (r0 := the_restart (decs nd N dims' ng (I3 0 0 0))).
  set (runs := program_runs b dims' (Some f2) r0).
  assert (Hruns : forall r, process nd dims' r -> runs r = the_restart (decs nd N dims' ng r)).
  { intros r Hp. unfold runs, program_runs. now rewrite (restart_starts r Hp). }
  assert (Eq : pm_ng q = ng /\ pm_nfx q = pm_nfx p /\ extents q = N).
  { split; [exact (rq_ng _ _ _ Hr)|]. split; [exact (rq_nfx _ _ _ Hr)|]. unfold extents. destruct (rq_cells _ _ _ Hr) as (-> & -> & ->). reflexivity. }
  destruct Eq as (Q1 & Q2 & Q3).
  set (reads := fun r => read_pdi nd (pm_ng q) (pm_nfx q) (extents q) (r_dec (runs r)) h).
  assert (Hreads : forall r, process nd dims' r -> exists d, reads r = Ok d /\
    SpecH5.restored nd ng (Z.to_nat (pm_nfx p)) X (fl_oid f1) (fl_iid f1) (fl_tid f1) (fl_iter f1) (fl_t f1) G (decs nd N dims' ng r) d).
  { intros r Hp. unfold reads. rewrite (Hruns r Hp), Q1, Q2, Q3. cbn [the_restart r_dec].
    apply (read_ok nd N dims' ng (decs nd N dims' ng) N h (run_decomposed b dims' p lo hi Hu) ltac:(intros; lia) (Z.to_nat (pm_nfx p)) X
      (fl_oid f1) (fl_iid f1) (fl_tid f1) (fl_iter f1) (fl_t f1) G (pm_nfx p)); [exact Hh| |lia|exact Hp].
    intros d Hd3. pose proof (lo_coords (ro_layout HR) d Hd3) as C. rewrite En, Eg in C. exact C. }
  destruct (Hreads _ H0) as (d0 & Ed0 & R0).
  set (D := fun r => match reads r with Ok d => d | _ => d0 end).
  set (L' := layout_with b dims' runs (rs_x d0)).
  assert (HR' : runs_on K N dims' X L').
  { apply restart_runs; [exact (re_x _ _ _ _ _ _ _ _ _ _ _ _ R0)|exact Hruns]. }
  exists L', G, (complete K L' (Z.to_nat (pm_nfx p)) G D), (read_state K L' D).
  split; [exact HR'|]. split; [exact HG|]. split; [|split].
  - apply (complete_starts K dims' X L' _ G D (fl_oid f1) (fl_iid f1) (fl_tid f1) (fl_iter f1) (fl_t f1)). rewrite En, Eg. intros r Hp.
    destruct (Hreads r Hp) as (d & Ed & Rd). unfold D. rewrite Ed. cbn [L' layout_with l_dec]. rewrite (Hruns r Hp). exact Rd.
  - intros r. exact (complete_like K X L' _ G D r).
  - intros clock n. unfold restart_program. rewrite (restart_starts _ H0). cbn [obind]. fold r0.
    assert (Ec : composed_restart r0 = true).
    { unfold composed_restart, r0, the_restart. cbn [r_param r_grid r_bcs r_user r_shift].
      pose proof (numbers_finite T2 q Hq) as F. cbn [forallb] in F |- *. rewrite !andb_true_iff in F.
      destruct (String.eqb_spec (pm_shift_grid q) "UserDefined") as [E|_]; [now elim (rq_fixed _ _ _ Hr)|]. cbn [is_builtin negb andb].
      rewrite !andb_true_iff. split; [split; [|reflexivity]|tauto]. split; [|reflexivity].
      apply forallb_forall. intros x Hx. apply in_map_iff in Hx. destruct Hx as (i & <- & _). reflexivity. }
    rewrite Ec. cbn [negb]. change (r_param r0) with q. rewrite (rq_file _ _ _ Hr), Hd. cbn [need obind]. fold runs nd. fold reads.
    assert (Ea : all_ok reads (ranks (mpi_dims nd dims')) = Ok tt).
    { unfold all_ok. assert (exists l, omap reads (ranks (mpi_dims nd dims')) = Ok l) as (l & ->); [|reflexivity].
      assert (A : forall r, In r (ranks (mpi_dims nd dims')) -> exists d, reads r = Ok d).
      { intros r Hin. rewrite <- En in Hin. change (mpi_dims (k_nd K) dims') with (l_dims L') in Hin || rewrite <- (lo_dims (ro_layout HR')) in Hin.
        apply (in_ranks' K N dims' X L' (ro_layout HR')) in Hin. rewrite En in Hin. destruct (Hreads r Hin) as (d & Ed & _). now exists d. }
      revert A. generalize (ranks (mpi_dims nd dims')) as l. clear. induction l as [|r l IH]; intros A; [now exists []|].
      destruct (A r (or_introl eq_refl)) as (d & Ed). destruct IH as (l' & El); [intros; apply A; now right|].
      exists (d :: l'). cbn [omap]. rewrite Ed. cbn [obind]. rewrite El. reflexivity. }
    rewrite Ea. cbn [obind]. assert (Ed0' : read_pdi nd (pm_ng q) (pm_nfx q) (extents q) (r_dec (runs (I3 0 0 0))) h = Ok d0) by exact Ed0.
    rewrite Ed0'. cbn [obind]. assert (EK : config_of b r0 = K) by exact (same_config _). rewrite EK.
    assert (EP : params_of r0 = P).
    { destruct Ht as (T1 & T2' & T3 & T4 & T5 & T6 & T7). unfold params_of, r0, the_restart. cbn [r_param]. rewrite T2', T3, T6, T7, <- T4, <- T5. now destruct P. }
    rewrite EP. destruct Ht as (-> & _). cbn [value_of]. unfold restarted. cbn [fl_oid fl_iid fl_tid fl_iter fl_t].
    rewrite (re_oid _ _ _ _ _ _ _ _ _ _ _ _ R0), (re_iid _ _ _ _ _ _ _ _ _ _ _ _ R0), (re_tid _ _ _ _ _ _ _ _ _ _ _ _ R0),
      (re_iter _ _ _ _ _ _ _ _ _ _ _ _ R0), (re_t _ _ _ _ _ _ _ _ _ _ _ _ R0). reflexivity.
Qed.

(** ** The whole *)
Lemma disk_last gamma T m f1 : last_file m f1 ->
  disk_after b p L X gamma T (m_files m) (path_of p (fl_oid f1)) =
  match write_pdi nd ng (pm_nfx p) N L X gamma (T f1) f1 with Ok h => Some h | _ => None end.
Proof. intros (l & ->). unfold disk_after. rewrite fold_left_app. cbn [fold_left]. now rewrite String.eqb_refl. Qed.

Hypothesis Heos : b_eos b = PerfectGasEos.
Hypothesis Hn : 0 <= pm_nfx p <= 10.
Hypothesis Hnick : user = UHeatNickel -> 1 <= pm_nfx p.
Notation same L' := (same_values K (Z.to_nat (pm_nfx p)) N X dims L dims' L').
Notation st0 := (init_state K L (setup_state s K (match g with PGas g => pg_thermo g | RGas g => rg_thermo g end) (I3 (pm_nx0 p) (pm_nx1 p) (pm_nx2 p)) L)).

Lemma lawful : lawful_eos (k_eos K).
Proof.
  destruct (xr_gas _ _ _ _ _ _ _ _ _ _ _ _ _ _ _ _ _ _ HE) as (ga & mu & _ & _ & G1 & G2 & G3). rewrite Heos in G3. cbn [gas_is] in G3.
  rewrite (xr_eos _ _ _ _ _ _ _ _ _ _ _ _ _ _ _ _ _ _ HE), G3. apply pg_lawful. now split.
Qed.

(** The loop on the data read is the loop on the data completed. *)
Lemma as_completed L' Rst Rst' clock f1 j m v m' v' :
  (forall r, same_components (k_nd K) (Z.to_nat (pm_nfx p)) (Rst r) (Rst' r)) ->
  loop (hydro K L' cfl) P clock j (restarted f1 (init_state K L' Rst)) = (m, v) ->
  loop (hydro K L' cfl) P clock j (restarted f1 (init_state K L' Rst')) = (m', v') ->
  v' = v /\ m_oid m' = m_oid m /\ m_iter m' = m_iter m /\ m_t m' = m_t m /\
  (forall r, same_components (k_nd K) (Z.to_nat (pm_nfx p)) (m_st m r) (m_st m' r)) /\
  Forall2 (same_file (fun a a' => forall r, same_components (k_nd K) (Z.to_nat (pm_nfx p)) (a r) (a' r)) 0) (m_files m) (m_files m').
Proof.
  intros HS H H'.
  assert (Hk : k_user K = UHeatNickel -> (0 < Z.to_nat (pm_nfx p))%nat).
  { rewrite (xr_user _ _ _ _ _ _ _ _ _ _ _ _ _ _ _ _ _ _ HE). intros E. specialize (Hnick E). lia. }
  destruct (loop_like (hydro K L' cfl) (hydro K L' cfl) P clock clock (fun a a' => forall r, same_components (k_nd K) (Z.to_nat (pm_nfx p)) (a r) (a' r))
    (fun a a' Q => cong K L' (Z.to_nat (pm_nfx p)) Hk cfl a a' Q) (fl_iter f1) (fun i _ => eq_refl) 0 [] [] j
    (restarted f1 (init_state K L' Rst)) (restarted f1 (init_state K L' Rst')) m v m' v') as [Ev (A & _ & _ & B & C & R & _ & F & F' & HF & HF' & H2)];
    [|exact H|exact H'|].
  - unfold like. cbn [restarted m_oid m_iid m_tid m_iter m_t m_st m_files]. split; [lia|]. do 4 (split; [reflexivity|]).
    split; [apply init_like; assumption|]. split; [lia|]. exists [], []. repeat split; constructor.
  - cbn [app] in HF, HF'. rewrite HF, HF'. split; [exact Ev|]. split; [lia|]. split; [exact B|]. split; [exact C|]. split; [exact R|exact H2].
Qed.

Lemma files_values L' d F F1 F' : Forall2 (same_file (same_arrays K N X dims L dims' L') d) F F1 ->
  Forall2 (same_file (fun a a' => forall r, same_components (k_nd K) (Z.to_nat (pm_nfx p)) (a r) (a' r)) 0) F1 F' ->
  Forall2 (same_file (same L') d) F F'.
Proof.
  intros H. revert F'. induction H as [|x y l l' (A1 & A2 & A3 & A4 & A5 & A6) _ IH]; intros F' H'; inversion H' as [|y' z l1 l2 (B1 & B2 & B3 & B4 & B5 & B6) HH]; subst; constructor.
  - split; [lia|]. split; [congruence|]. split; [congruence|]. split; [congruence|]. split; [congruence|].
    exists (fl_data y). split; [exact A6|]. intros r _. apply B6.
  - now apply IH.
Qed.

Theorem restart_from_file gamma T clock clock' k m1 f1 disk :
  program b dims (Some f) amp clock k = Ok (Some (m1, Going)) ->
  last_file m1 f1 -> fl_iter f1 = m_iter m1 ->
  (forall r c, process (k_nd K) dims r -> owned (k_nd K) (k_ng K) (d_nloc (l_dec L r)) c -> valid_cons (k_nd K) (cons_of (s_cell (fl_data f1 r) c))) ->
  path = path_of p (fl_oid f1) -> disk path = disk_after b p L X gamma T (m_files m1) path ->
  (forall i, m_iter m1 <= i -> clock i = clock' i) ->
  exists L', runs_on K N dims' X L' /\ forall j, exists m v m',
    program b dims (Some f) amp clock (k + j) = Ok (Some (m, v)) /\
    restart_program b dims' (Some f2) disk clock' j = Ok (Some (m', v)) /\
    m_oid m' = m_oid m /\ m_iter m' = m_iter m /\ m_t m' = m_t m /\
    same L' (m_st m) (m_st m') /\
    exists F, m_files m = m_files m1 ++ F /\ Forall2 (same_file (same L') 0) F (m_files m').
Proof.
  rewrite (xr_program _ _ _ _ _ _ _ _ _ _ _ _ _ _ _ _ _ _ HE). intros E Hl Hi HV Hpath Hdisk Hclk. injection E as E.
  assert (HR := xr_runs _ _ _ _ _ _ _ _ _ _ _ _ _ _ _ _ _ _ HE). change (I3 (pm_nx0 p) (pm_nx1 p) (pm_nx2 p)) with N in HR.
  rewrite Hpath, (disk_last gamma T m1 f1 Hl), <- Hpath in Hdisk.
  destruct (resumed gamma (T f1) f1 disk Hn Hdisk) as (L' & G & Rst & Rst' & HR' & HG & HRst & HS & HP).
  exists L'. split; [exact HR'|]. intros j.
  destruct (gathered K N dims X L (setup_state s K (match g with PGas g => pg_thermo g | RGas g => rg_thermo g end) (I3 (pm_nx0 p) (pm_nx1 p) (pm_nx2 p)) L) (ro_layout HR)) as (G0 & HG0).
  destruct (loop (hydro K L cfl) P clock (k + j) (fresh P st0)) as [m v] eqn:Em.
  destruct (loop (hydro K L' cfl) P clock' j (restarted f1 (init_state K L' Rst))) as [ms vs] eqn:Es.
  destruct (loop (hydro K L' cfl) P clock' j (restarted f1 (init_state K L' Rst'))) as [m' v'] eqn:Em'.
  destruct (restart_same K N dims dims' X L L' cfl P clock clock' HR HR' lawful G0 _ k m1 f1 G Rst HG0 E Hl Hi HV HG HRst Hclk j m v ms vs Em Es)
    as (Ev & A1 & A2 & A3 & A4 & F & A5 & A6).
  destruct (as_completed L' Rst Rst' clock' f1 j ms vs m' v' HS Es Em') as (Ev' & B1 & B2 & B3 & B4 & B5).
  exists m, v, m'. split; [rewrite (xr_program _ _ _ _ _ _ _ _ _ _ _ _ _ _ _ _ _ _ HE); now rewrite Em|].
  split; [rewrite HP, Em'; now rewrite Ev', Ev|]. split; [congruence|]. split; [congruence|]. split; [congruence|].
  split; [exists (m_st ms); split; [exact A4|intros r _; apply B4]|]. exists F. split; [exact A5|]. exact (files_values L' 0 F _ _ A6 B5).
Qed.

Theorem restart_after_time_limit gamma T clock clock1 clock' k x m1 m2 f1 disk : (1 <= k)%nat ->
  program b dims (Some f) amp clock k = Ok (Some (m1, Going)) ->
  program b dims (Some f) amp clock1 (k - 1) = Ok (Some (x, Going)) ->
  program b dims (Some f) amp clock1 k = Ok (Some (m2, Finished)) ->
  last_file m2 f1 ->
  (forall r c, process (k_nd K) dims r -> owned (k_nd K) (k_ng K) (d_nloc (l_dec L r)) c -> valid_cons (k_nd K) (cons_of (s_cell (fl_data f1 r) c))) ->
  path = path_of p (fl_oid f1) -> disk path = disk_after b p L X gamma T (m_files m2) path ->
  (forall i, m_iter m1 <= i -> clock i = clock' i) ->
  exists d, (d = 0 \/ d = 1) /\ (d = 0 <-> exists g, last_file m1 g /\ fl_iter g = m_iter m1) /\
  exists L', runs_on K N dims' X L' /\ forall j, exists m v m',
    program b dims (Some f) amp clock (k + j) = Ok (Some (m, v)) /\
    restart_program b dims' (Some f2) disk clock' j = Ok (Some (m', v)) /\
    m_oid m' = m_oid m + d /\ m_iter m' = m_iter m /\ m_t m' = m_t m /\
    same L' (m_st m) (m_st m') /\
    exists F, m_files m = m_files m1 ++ F /\ Forall2 (same_file (same L') d) F (m_files m').
Proof.
  intros Hk. rewrite !(xr_program _ _ _ _ _ _ _ _ _ _ _ _ _ _ _ _ _ _ HE). intros E Ex E2 Hl HV Hpath Hdisk Hclk. injection E as E. injection Ex as Ex. injection E2 as E2.
  assert (HR := xr_runs _ _ _ _ _ _ _ _ _ _ _ _ _ _ _ _ _ _ HE). change (I3 (pm_nx0 p) (pm_nx1 p) (pm_nx2 p)) with N in HR.
  rewrite Hpath, (disk_last gamma T m2 f1 Hl), <- Hpath in Hdisk.
  destruct (resumed gamma (T f1) f1 disk Hn Hdisk) as (L' & G & Rst & Rst' & HR' & HG & HRst & HS & HP).
  destruct (gathered K N dims X L (setup_state s K (match g with PGas g => pg_thermo g | RGas g => rg_thermo g end) (I3 (pm_nx0 p) (pm_nx1 p) (pm_nx2 p)) L) (ro_layout HR)) as (G0 & HG0).
  assert (EP : with_max_iter P (p_max_iter P) = P) by (now destruct P). 
  destruct (restart_interrupted K N dims dims' X L L' cfl P clock clock' HR HR' lawful (p_max_iter P) clock1 G0 _ k m1 m2 x f1 G Rst HG0 Hk E) as (d & D1 & D2 & _ & D3);
    try (rewrite EP); try assumption.
  exists d. split; [exact D1|]. split; [exact D2|]. exists L'. split; [exact HR'|]. intros j.
  destruct (loop (hydro K L cfl) P clock (k + j) (fresh P st0)) as [m v] eqn:Em.
  destruct (loop (hydro K L' cfl) P clock' j (restarted f1 (init_state K L' Rst))) as [ms vs] eqn:Es.
  destruct (loop (hydro K L' cfl) P clock' j (restarted f1 (init_state K L' Rst'))) as [m' v'] eqn:Em'.
  destruct (D3 j m v ms vs Em Es) as (Ev & A1 & A2 & A3 & A4 & F & A5 & A6).
  destruct (as_completed L' Rst Rst' clock' f1 j ms vs m' v' HS Es Em') as (Ev' & B1 & B2 & B3 & B4 & B5).
  exists m, v, m'. split; [rewrite (xr_program _ _ _ _ _ _ _ _ _ _ _ _ _ _ _ _ _ _ HE); now rewrite Em|].
  split; [rewrite HP, Em'; now rewrite Ev', Ev|]. split; [congruence|]. split; [congruence|]. split; [congruence|].
  split; [exists (m_st ms); split; [exact A4|intros r _; apply B4]|]. exists F. split; [exact A5|]. exact (files_values L' d F _ _ A6 B5).
Qed.
End Second.
