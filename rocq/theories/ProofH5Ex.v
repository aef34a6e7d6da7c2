(** * Proofs for C92-C94: consequences and examples. *)
From Coq Require Import List Ascii Reals Lra Lia ZifyBool.
From Coq Require String.
From Flocq Require Import Core.
From Verif Require Import Base RBase ModelMesh ModelGeom ModelBoundary ModelHydro ModelRad ModelScheme ModelStep ModelUtil ModelIni ModelMain ModelSetup ModelIO ModelParam ModelH5
  SpecMesh SpecGeom SpecBoundary SpecHydro SpecScheme SpecStep SpecPos SpecSetup SpecMain SpecIni SpecParam SpecH5
  ProofBase ProofR ProofMesh ProofBoundary ProofBoundary2 ProofHydro ProofStep ProofLayout ProofSteady ProofStepEx ProofMain ProofRestart
  ProofIni ProofIniNum ProofParam ProofParam2 ProofParamEx ProofParamRun2 ProofParamEx2 ProofH5 ProofH5Run.
Local Open Scope string_scope.
Local Open Scope Z_scope.
Local Open Scope list_scope.

(** ** C92 *)
Lemma read_back K N dims dims' X L L' nfx gamma T f G : laid_out K N dims X L -> laid_out K N dims' X L' -> 0 <= nfx <= 10 ->
  holds_fields (k_nd K) (k_ng K) (Z.to_nat nfx) dims L G (fl_data f) ->
  exists h, write_pdi (k_nd K) (k_ng K) nfx N L X gamma T f = Ok h /\
  forall r, process (k_nd K) dims' r -> exists d, read_pdi (k_nd K) (k_ng K) nfx N (l_dec L' r) h = Ok d /\
    SpecH5.restored (k_nd K) (k_ng K) (Z.to_nat nfx) X (fl_oid f) (fl_iid f) (fl_tid f) (fl_iter f) (fl_t f) G (l_dec L' r) d.
Proof.
  intros HL HL' Hn HF. destruct (write_ok K N dims X L nfx HL gamma T f G ltac:(lia) HF) as (h & Wh & Hh). exists h. split; [exact Wh|].
  intros r Hr. apply (read_ok (k_nd K) N dims' (k_ng K) (l_dec L') N h (lo_dec HL') ltac:(intros; lia) (Z.to_nat nfx) X
    (fl_oid f) (fl_iid f) (fl_tid f) (fl_iter f) (fl_t f) G nfx); [exact Hh| |lia|exact Hr].
  intros d Hd. exact (lo_coords HL' d Hd).
Qed.

(** ** C93 *)
Lemma same_ghosts nd ng N X dims' N' nfx nfx' dec' oid iid tid iter t G h :
  global_coords nd N ng X -> decomposed nd N' dims' ng dec' -> 0 <= nfx' <= 10 ->
  holds_run nd nfx N X oid iid tid iter t G h ->
  ((forall r, process nd dims' r -> exists d, read_pdi nd ng nfx' N' (dec' r) h = Ok d) <-> N' = N /\ (Z.to_nat nfx' <= nfx)%nat).
Proof.
  intros HX D Hn H. rewrite (accepted_iff nd ng N X dims' N' ng nfx nfx' dec' oid iid tid iter t G h HX D Hn H). split.
  - intros (A & _ & B). split; [|exact B]. apply idx_ext. intros d Hd. specialize (A d Hd). lia.
  - intros [-> B]. split; [reflexivity|]. split; [intros; lia|exact B].
Qed.
Lemma displaced n ng nfx X dims' dec' oid iid tid iter t G h : 1 <= n -> 0 <= ng -> (nfx <= 10)%nat -> global_coords 1 (I3 (n + 2) 1 1) ng X ->
  holds_run 1 nfx (I3 (n + 2) 1 1) X oid iid tid iter t G h -> decomposed 1 (I3 n 1 1) dims' (ng + 1) dec' ->
  forall r, process 1 dims' r -> exists d, read_pdi 1 (ng + 1) (Z.of_nat nfx) (I3 n 1 1) (dec' r) h = Ok d /\
    (forall i, a_at (rs_x d 0) (i + (ng + 1)) = a_at (X 0%nat) (i + 1 + ng)) /\
    forall c, owned 1 (ng + 1) (d_nloc (dec' r)) c ->
      let g := global_index 1 (ng + 1) (corner_min (d_range (dec' r))) c in
      rs_rho d c = g_rho G g /\ rs_P d c = g_P G g /\ rs_u d c 0%nat = g_u G g 0%nat.
Proof.
  intros Hn Hg Hf HX H D r Hr.
  destruct (read_ok 1 (I3 n 1 1) dims' (ng + 1) dec' (I3 (n + 2) 1 1) h D) with (nfx := nfx) (X := X) (oid := oid) (iid := iid) (tid := tid) (iter := iter)
    (t := t) (G := G) (nfx' := Z.of_nat nfx) (r := r) as (d & E & R); [| | | |exact Hr|].
  - intros [|[|[|d]]] Hd; cbn [coord ii jj kk]; lia.
  - exact H.
  - intros d Hd. rewrite (HX d Hd). destruct d as [|[|[|d]]]; [| | |lia]; unfold ghosts; cbn [coord ii jj kk Nat.ltb Nat.leb]; lia.
  - rewrite Nat2Z.id. lia.
  - exists d. split; [exact E|]. split.
    + intros i. rewrite (re_x _ _ _ _ _ _ _ _ _ _ _ _ R 0%nat ltac:(lia)). f_equal. lia.
    + intros c Hc g. split; [exact (re_rho _ _ _ _ _ _ _ _ _ _ _ _ R c Hc)|]. split; [exact (re_P _ _ _ _ _ _ _ _ _ _ _ _ R c Hc)|].
      exact (re_u _ _ _ _ _ _ _ _ _ _ _ _ R 0%nat ltac:(lia) c Hc).
Qed.
(** Any mesh has such a file. *)
Lemma some_file nd ng N X nfx : (1 <= nd <= 3)%nat -> 0 <= ng -> (forall d, (d < 3)%nat -> 1 <= coord d N) -> global_coords nd N ng X -> (nfx <= 10)%nat ->
  exists oid iid tid iter t G h, holds_run nd nfx N X oid iid tid iter t G h.
Proof.
  intros Hnd Hng HN HX Hf.
  set (K := mkConfig Cartesian nd ng (pg_eos (mkPG (5 / 3) 1)) LVanLeer HLLC None UOff (GUniform (fun _ => 0%R)) (fun _ => Periodic) []).
  assert (HL : laid_out K N one_process X (the_layout K N one_process X)).
  { apply the_layout_ok; auto. intros d Hd. rewrite mpi_dims_one, coord_one. lia. }
  set (G := mkG (fun _ => 1%R) (fun _ _ => 0%R) (fun _ => 1%R) (fun _ _ => 0%R)).
  set (f := mkFile 0 0 0 0 0%R (the_state K (the_layout K N one_process X) G)).
  destruct (write_ok K N one_process X _ (Z.of_nat nfx) HL 1 (fun _ _ => 0%R) f G) as (h & _ & Hh).
  - rewrite Nat2Z.id. exact Hf.
  - apply starts_holds. exact (the_state_ok K one_process _ G).
  - rewrite Nat2Z.id in Hh. now exists 0, 0, 0, 0, 0%R, G, h.
Qed.
Lemma wrong_mesh_accepted : exists nd N X ng N' ng' nfx oid iid tid iter t G h,
  global_coords nd N ng X /\ holds_run nd nfx N X oid iid tid iter t G h /\ N' <> N /\
  exists dims' dec', decomposed nd N' dims' ng' dec' /\
    forall r, process nd dims' r -> exists d, read_pdi nd ng' (Z.of_nat nfx) N' (dec' r) h = Ok d.
Proof.
  set (X := fun d : nat => mkArr1 (match d with O => 15 | _ => 2 end) IZR).
  assert (HX : global_coords 1 (I3 10 1 1) 2 X) by (intros [|[|[|d]]] Hd; [reflexivity..|lia]).
  destruct (some_file 1 2 (I3 10 1 1) X 0) as (oid & iid & tid & iter & t & G & h & H); [lia|lia| |exact HX|lia|].
  { intros [|[|[|d]]] Hd; cbn; lia. }
  exists 1%nat, (I3 10 1 1), X, 2, (I3 8 1 1), 3, 0%nat, oid, iid, tid, iter, t, G, h. split; [exact HX|]. split; [exact H|]. split; [discriminate|].
  assert (D : decomposed 1 (I3 8 1 1) (I3 2 1 1) 3 (decs 1 (I3 8 1 1) (I3 2 1 1) 3)).
  { apply decs_decomposed; [lia|lia| |]; intros [|[|[|d]]] Hd; cbn; lia. }
  exists (I3 2 1 1), (decs 1 (I3 8 1 1) (I3 2 1 1) 3). split; [exact D|]. intros r Hr.
  destruct (displaced 8 2 0 X (I3 2 1 1) _ oid iid tid iter t G h ltac:(lia) ltac:(lia) ltac:(lia) HX H D r Hr) as (d & E & _). now exists d.
Qed.

(** ** C94 *)

(** The parameter file of the restart: one process, other bounds. *)
Definition again : list tagged :=
  [THeader "Problem"; TSetting "restart" "true"; TSetting "restart_file" "./result_00000001.h5";
   THeader "Grid"; TSetting "Nx0_glob" "8"; TSetting "Nx1_glob" "6"; TSetting "Nx2_glob" "1"; TSetting "type" "no grid";
   THeader "Run"; TSetting "cfl" "0.25";
   THeader "Output"; TSetting "iter_frequency" "1"; TSetting "time_frequency" "0.1";
   THeader "Hydro"; TSetting "reconstruction" "Constant"; TSetting "riemann_solver" "HLLC";
   THeader "Perfect Gas"; TSetting "gamma" "1.4";
   THeader "Boundary Condition"; TSetting "BC" "Periodic"].
Definition again_T : list entry := entries_of [] again.
Definition again_f : bytes := unlines (map line_of again).
Definition again_p : param :=
  let zero := def 0 in let one := def 1 in
  mkParam "ShockTube" true "./result_00000001.h5" (def (10 ^ 20)) 8 6 1 "no grid" 2 zero one zero one zero one "Off" false 0 0 0
    zero (def (1 / 5)) (dbl 25 (-2)) 10000 1 (dbl 1 (-1)) (Finite (double_of (double_of 0 + double_of (IZR 1 * powerRZ 10 (-1)))))
    "." "result" 20 "Constant" "HLLC" zero zero zero one (dbl 14 (-1)) one "Periodic" "" 0 "Off" "Off" (def (1 / 1000000)).
Definition again_ps : list real_value := [def 1; def 1; def 1; def 1].
Lemma again_described : described again_T again_p.
Proof.
  constructor; unfold again_p; cbv zeta; cbn [pm_problem pm_restart pm_restart_file pm_rmax_shift pm_nx0 pm_nx1 pm_nx2 pm_grid_type pm_ng pm_x0min pm_x0max
    pm_x1min pm_x1max pm_x2min pm_x2max pm_shift_grid pm_device_aware pm_dims0 pm_dims1 pm_dims2 pm_t_ini pm_t_end pm_cfl pm_max_iter pm_iter_freq
    pm_time_freq pm_time_first pm_directory pm_prefix pm_time_job pm_reconstruction pm_riemann pm_gx0 pm_gx1 pm_gx2 pm_M pm_gamma pm_mu pm_bc pm_priority
    pm_nfx pm_user_step pm_pressure_fix pm_eps_pf]; unfold def, dbl.
  all: try solve [default_tac].
  all: try solve [word_tac].
  all: try solve [int_tac].
  - right. exists (lit "true"). split; [now left|vm_compute; reflexivity].
  - right; exists 25, (-2); split; [dot_tac "" "0" "25"|split; [ordinary2|reflexivity]].
  - real_tac 1 (-1) ltac:(dot_tac "" "0" "1").
  - eexists. split; [|left; split; [vm_compute; reflexivity|reflexivity]].
    exists (double_of 0), (double_of (IZR 1 * powerRZ 10 (-1))). split; [reflexivity|split; [reflexivity|split; [|reflexivity]]].
    rewrite double_0, Rplus_0_l. apply Rle_lt_trans with (bpow radix2 0); [|apply bpow_lt; lia]. apply double_upper; [lia|].
    apply double_upper; [lia|]. rewrite pow10_m1. change (bpow radix2 0) with 1%R. rewrite Rabs_pos_eq; lra.
  - real_tac 14 (-1) ltac:(dot_tac "" "1" "4").
Qed.
Lemma again_file : file_with again_T again_f.
Proof. apply tagged_file; vm_compute; reflexivity. Qed.
Lemma again_setup : described_setup again_T KAdvectionGap again_ps.
Proof.
  exists again_ps, []. split; [reflexivity|]. split; [|apply Forall2_nil]. unfold again_ps, def. cbn [setup_options fst].
  repeat (apply Forall2_cons; [cbn [fst snd]; default_tac|]). apply Forall2_nil.
Qed.
Lemma again_chosen : chosen carried_b again_T again_p (fun _ => Periodic) carried_g LConstant HLLC UOff.
Proof.
  split.
  - exists (double_of (IZR 14 * powerRZ 10 (-1))), (double_of 1). split; [reflexivity|split; [reflexivity|split; [exact dbl_14|]]].
    split; [rewrite double_1; lra|reflexivity].
  - cbn [carried_b b_nd Nat.mul Nat.add seq firstn face_names].
    repeat (apply Forall2_cons; [exists "Periodic"; split; [vm_compute; reflexivity|right; now left]|]). apply Forall2_nil.
  - now left.
  - right. now left.
  - now left.
Qed.
Lemma again_timing : timing again_p (1 / 4) carried_P.
Proof.
  unfold timing, again_p, carried_P, def, dbl. cbv zeta. cbn [pm_cfl pm_t_ini pm_t_end pm_max_iter pm_iter_freq pm_time_freq pm_time_first
    p_t_ini p_t_end p_max_iter p_iter_freq p_time_freq p_time_first]. rewrite quarter, double_0. repeat split; reflexivity.
Qed.
Lemma again_resumes : resumes carried_p again_p "./result_00000001.h5".
Proof. unfold again_p, carried_p. cbv zeta. split; cbn; repeat split; try reflexivity. discriminate. Qed.

Lemma physical_owned K N dims X L S : laid_out K N dims X L -> physical K dims L S ->
  forall r c, process (k_nd K) dims r -> owned (k_nd K) (k_ng K) (d_nloc (l_dec L r)) c -> valid_cons (k_nd K) (cons_of (s_cell (S r) c)).
Proof. intros HL H r c Hr Hc. apply (H r c Hr). exact (owned_in_array K N dims X L HL r c Hr Hc). Qed.
Lemma last_left {S : Type} (m : mstate S) f : last_file m f -> left_behind m (fl_data f).
Proof. intros (l & E). right. exists f. split; [rewrite E; apply in_app_iff; right; now left|reflexivity]. Qed.
Lemma f16 : F2R (Float radix2 1 (-4)) = (1 / 16)%R. Proof. unfold F2R; cbn; lra. Qed.
Lemma f8 : F2R (Float radix2 1 (-3)) = (1 / 8)%R. Proof. unfold F2R; cbn; lra. Qed.
Lemma between x : (1 / 16 <= x <= 1 / 8)%R -> (1 / 16 <= double_of x <= 1 / 8)%R.
Proof.
  intros [A B]. rewrite <- f16, <- f8, <- (double_F 1 (-4)), <- (double_F 1 (-3)) by lia. split; apply double_le; rewrite ?f16, ?f8; assumption.
Qed.
Lemma tenth : (1 / 16 <= double_of (IZR 1 * powerRZ 10 (-1)) <= 1 / 8)%R.
Proof. apply between. rewrite pow10_m1. lra. Qed.
Lemma first_time : (1 / 16 <= p_time_first carried_P <= 1 / 8)%R.
Proof. cbn [carried_P p_time_first]. rewrite double_0, Rplus_0_l. apply between. exact tenth. Qed.
Lemma end_time : (3 / 16 <= p_t_end carried_P)%R.
Proof.
  cbn [carried_P p_t_end]. replace (3 / 16)%R with (F2R (Float radix2 3 (-4))) by (unfold F2R; cbn; lra). rewrite <- (double_F 3 (-4)) by lia.
  apply double_le. unfold F2R. cbn. lra.
Qed.
(** The first iteration writes output 1 and goes on unless the time is up. *)
Lemma first_iteration {S : Type} (D : dynamics S) s : y_bad D s = false -> exists m, m_oid m = 1 /\ m_iter m = 1 /\ last_file m (file_of m) /\
  forall clock, loop D carried_P clock 1 (fresh carried_P s) = (m, if clock 0 then Finished else Going).
Proof.
  intros Hb. pose proof first_time as [F1 F2]. pose proof end_time as F3.
  unfold fresh. change ((0 <? p_iter_freq carried_P) || rltb 0 (p_time_freq carried_P)) with true. cbv iota.
  set (m0 := output _). cbn [loop].
  assert (E : exists o2 tid dt, time_schedule carried_P m0 (y_dt D (m_st m0)) = Ok (o2, tid, dt) /\ (dt <= 1 / 8)%R).
  { unfold time_schedule. change (m_tid m0) with (-1). change (m_t m0) with 0%R. change (-1 + 1) with 0. rewrite Rmult_0_l, Rplus_0_r.
    destruct (rltb 0 (p_time_freq carried_P)) eqn:Ef.
    2:{ apply rltb_false in Ef. pose proof tenth. cbn [carried_P p_time_freq] in Ef. lra. }
    destruct (rleb (p_time_first carried_P) (0 + y_dt D (m_st m0))) eqn:E1.
    - destruct (rleb (p_time_first carried_P - 0) 0) eqn:E2; [apply rleb_true in E2; lra|]. eexists _, _, _. split; [reflexivity|lra].
    - apply rleb_false in E1. eexists _, _, _. split; [reflexivity|lra]. }
  destruct E as (o2 & tid & dt & E & Hdt).
  set (m2 := output (mkM 0 1 tid 1 (0 + dt)%R (m_record m0) (y_step D 0 dt s) (m_files m0))).
  exists m2. split; [reflexivity|]. split; [reflexivity|]. split; [exists (m_files m0); reflexivity|]. intros clock.
  unfold ModelMain.body. change (int32 (m_iter m0 + 1)) with true. cbn [negb]. change (iter_schedule carried_P m0) with (Ok (true, 1)).
  rewrite E. unfold clip_to_end. change (m_t m0) with 0%R. rewrite (proj2 (rleb_false _ _)) by lra.
  change (m_st m0) with s. rewrite Hb. change (p_max_iter carried_P <=? m_iter m0 + 1) with false. cbn [orb]. change (m_iter m0) with 0.
  destruct (clock 0); reflexivity.
Qed.
Lemma carried_first amp : exists X K L,
  executes carried_b carried_f carried_p unit_lo unit_hi (fun _ => Periodic) carried_g LConstant HLLC UOff amp carried_s (1 / 4) carried_P X K (I3 2 2 1) L /\
  exists m, (forall clock, program carried_b (I3 2 2 1) (Some carried_f) amp clock 1 = Ok (Some (m, if clock 0 then Finished else Going))) /\
  last_file m (file_of m) /\ m_oid m = 1 /\ m_iter m = 1 /\
  forall r c, process (k_nd K) (I3 2 2 1) r -> owned (k_nd K) (k_ng K) (d_nloc (l_dec L r)) c -> valid_cons (k_nd K) (cons_of (s_cell (m_st m r) c)).
Proof.
  destruct (carried_executed amp) as (X & K & L & _ & HE & _). exists X, K, L. split; [exact HE|].
  pose proof (xr_program _ _ _ _ _ _ _ _ _ _ _ _ _ _ _ _ _ _ HE) as E. set (s0 := init_state K L _) in E.
  destruct carried_conditions as (C1 & C2 & C3 & C4 & C5 & C6 & C7 & C8 & C9).
  pose proof (file_physical HE C1 C2 C3 C4 C5 C6 eq_refl eq_refl C7 ltac:(lra) (or_intror (conj eq_refl C8)) C9) as HP.
  assert (Hb : y_bad (hydro K L (1 / 4)) s0 = false).
  { destruct (y_bad (hydro K L (1 / 4)) s0) eqn:Hb; [|reflexivity]. exfalso.
    specialize (E (fun _ => false) 1%nat).
    destruct (loop (hydro K L (1 / 4)) carried_P (fun _ => false) 1 (fresh carried_P s0)) as [m v] eqn:El.
    destruct (HP _ _ _ _ E) as [Hv _]. apply Hv. clear - El Hb.
    unfold fresh in El. change ((0 <? p_iter_freq carried_P) || rltb 0 (p_time_freq carried_P)) with true in El. cbv iota in El.
    set (m0 := output _) in El. cbn [loop] in El. pose proof first_time as [F1 F2]. 
    assert (Q : exists x, time_schedule carried_P m0 (y_dt (hydro K L (1 / 4)) (m_st m0)) = Ok x).
    { unfold time_schedule. change (m_tid m0) with (-1). change (m_t m0) with 0%R. change (-1 + 1) with 0. rewrite Rmult_0_l, Rplus_0_r.
      destruct (rltb 0 (p_time_freq carried_P)); [|eexists; reflexivity]. destruct (rleb (p_time_first carried_P) _); [|eexists; reflexivity].
      destruct (rleb (p_time_first carried_P - 0) 0) eqn:E2; [apply rleb_true in E2; lra|]. eexists; reflexivity. }
    destruct Q as ([[o2 tid] dt2] & Q). unfold ModelMain.body in El. change (int32 (m_iter m0 + 1)) with true in El. cbn [negb] in El.
    change (iter_schedule carried_P m0) with (Ok (true, 1)) in El. rewrite Q in El. destruct (clip_to_end carried_P (m_t m0) dt2) as [s1 dt].
    change (m_st m0) with s0 in El. rewrite Hb in El. now inversion El. }
  destruct (first_iteration (hydro K L (1 / 4)) s0 Hb) as (m & M1 & M2 & M3 & M4).
  exists m. split; [intros clock; rewrite E; now rewrite M4|]. split; [exact M3|]. split; [exact M1|]. split; [exact M2|].
  apply (physical_owned K (I3 8 6 1) (I3 2 2 1) X L); [exact (ro_layout (xr_runs _ _ _ _ _ _ _ _ _ _ _ _ _ _ _ _ _ _ HE))|].
  apply (proj2 (HP (fun _ => false) 1%nat m Going ltac:(rewrite E; now rewrite M4))). now left.
Qed.

(** ** The examples *)
Lemma carried_restart amp gamma T : exists X K L L' m1,
  executes carried_b carried_f carried_p unit_lo unit_hi (fun _ => Periodic) carried_g LConstant HLLC UOff amp carried_s (1 / 4) carried_P X K (I3 2 2 1) L /\
  program carried_b (I3 2 2 1) (Some carried_f) amp (fun _ => false) 1 = Ok (Some (m1, Going)) /\
  runs_on K (I3 8 6 1) (I3 1 1 1) X L' /\
  forall j, exists m v m',
    program carried_b (I3 2 2 1) (Some carried_f) amp (fun _ => false) (1 + j) = Ok (Some (m, v)) /\
    restart_program carried_b (I3 1 1 1) (Some again_f) (disk_after carried_b carried_p L X gamma T (m_files m1)) (fun _ => false) j = Ok (Some (m', v)) /\
    m_oid m' = m_oid m /\ m_iter m' = m_iter m /\ m_t m' = m_t m /\
    same_values K 0 (I3 8 6 1) X (I3 2 2 1) L (I3 1 1 1) L' (m_st m) (m_st m').
Proof.
  destruct (carried_first amp) as (X & K & L & HE & m1 & E & Hl & Ho & Hi & HV).
  destruct (restart_from_file _ _ _ _ _ _ _ _ _ _ _ _ _ _ _ _ _ _ HE again_T again_f again_p "./result_00000001.h5" again_ps (I3 1 1 1)
    again_file again_described again_setup again_chosen again_timing again_resumes carried_one eq_refl) with (gamma := gamma) (T := T)
    (clock := fun _ : Z => false) (clock' := fun _ : Z => false)
    (k := 1%nat) (m1 := m1) (f1 := file_of m1) (disk := disk_after carried_b carried_p L X gamma T (m_files m1)) as (L' & HR' & H).
  - cbn. lia.
  - discriminate.
  - exact (E (fun _ => false)).
  - exact Hl.
  - reflexivity.
  - exact HV.
  - cbn [file_of fl_oid]. rewrite Ho. vm_compute. reflexivity.
  - reflexivity.
  - reflexivity.
  - exists X, K, L, L', m1. split; [exact HE|]. split; [exact (E (fun _ => false))|]. split; [exact HR'|]. intros j.
    destruct (H j) as (m & v & m' & A1 & A2 & A3 & A4 & A5 & A6 & _). exists m, v, m'. repeat (split; [assumption|]). exact A6.
Qed.
(** The same run with no time left after its first iteration. *)
Lemma carried_limited amp gamma T : exists X K L L' m1,
  executes carried_b carried_f carried_p unit_lo unit_hi (fun _ => Periodic) carried_g LConstant HLLC UOff amp carried_s (1 / 4) carried_P X K (I3 2 2 1) L /\
  program carried_b (I3 2 2 1) (Some carried_f) amp (fun _ => true) 1 = Ok (Some (m1, Finished)) /\
  runs_on K (I3 8 6 1) (I3 1 1 1) X L' /\
  forall j, exists m v m',
    program carried_b (I3 2 2 1) (Some carried_f) amp (fun _ => false) (1 + j) = Ok (Some (m, v)) /\
    restart_program carried_b (I3 1 1 1) (Some again_f) (disk_after carried_b carried_p L X gamma T (m_files m1)) (fun _ => false) j = Ok (Some (m', v)) /\
    m_oid m' = m_oid m /\ m_iter m' = m_iter m /\ m_t m' = m_t m /\
    same_values K 0 (I3 8 6 1) X (I3 2 2 1) L (I3 1 1 1) L' (m_st m) (m_st m').
Proof.
  destruct (carried_first amp) as (X & K & L & HE & m1 & E & Hl & Ho & Hi & HV).
  destruct (restart_after_time_limit _ _ _ _ _ _ _ _ _ _ _ _ _ _ _ _ _ _ HE again_T again_f again_p "./result_00000001.h5" again_ps (I3 1 1 1)
    again_file again_described again_setup again_chosen again_timing again_resumes carried_one eq_refl) with (gamma := gamma) (T := T)
    (clock := fun _ : Z => false) (clock1 := fun _ : Z => true) (clock' := fun _ : Z => false) (x := fresh carried_P (init_state K L (setup_state carried_s K (match carried_g with PGas g => pg_thermo g | RGas g => rg_thermo g end)
      (I3 (pm_nx0 carried_p) (pm_nx1 carried_p) (pm_nx2 carried_p)) L)))
    (k := 1%nat) (m1 := m1) (m2 := m1) (f1 := file_of m1) (disk := disk_after carried_b carried_p L X gamma T (m_files m1)) as (d & D1 & D2 & L' & HR' & H).
  - cbn. lia.
  - discriminate.
  - lia.
  - exact (E (fun _ => false)).
  - exact (xr_program _ _ _ _ _ _ _ _ _ _ _ _ _ _ _ _ _ _ HE (fun _ => true) 0%nat).
  - exact (E (fun _ => true)).
  - exact Hl.
  - exact HV.
  - cbn [file_of fl_oid]. rewrite Ho. vm_compute. reflexivity.
  - reflexivity.
  - reflexivity.
  - assert (d = 0) as -> by (apply D2; exists (file_of m1); now split).
    exists X, K, L, L', m1. split; [exact HE|]. split; [exact (E (fun _ => true))|]. split; [exact HR'|]. intros j.
    destruct (H j) as (m & v & m' & A1 & A2 & A3 & A4 & A5 & A6 & _). exists m, v, m'. rewrite Z.add_0_r in A3. repeat (split; [assumption|]). exact A6.
Qed.

(** Every output of a first-order gas can be resumed. *)
Lemma restart_first_order b f p lo hi bc g lim sol user amp s cfl P X K dims L :
  executes b f p lo hi bc g lim sol user amp s cfl P X K dims L ->
  positional s -> (forall a b c d e f g, s <> SRayleighTaylor3d a b c d e f g) -> positive_parameters s ->
  b_eos b = PerfectGasEos -> b_geom b = Cartesian -> no_gravity b p -> lim = LConstant -> user = UOff -> pm_pressure_fix p <> "On" ->
  (0 < cfl)%R -> (sol = HLL /\ (INR (b_nd b) * cfl <= 1)%R \/ sol = HLLC /\ (2 * INR (b_nd b) * cfl <= 1)%R) -> (p_t_ini P < p_t_end P)%R ->
  forall T2 f2 q path ps dims', file_with T2 f2 -> described T2 q -> described_setup T2 (b_setup b) ps -> chosen b T2 q bc g lim sol user ->
  timing q cfl P -> resumes p q path -> usable b p dims' lo hi -> 0 <= pm_nfx p <= 10 ->
  forall gamma T clock clock' k m1 f1 disk,
  program b dims (Some f) amp clock k = Ok (Some (m1, Going)) ->
  last_file m1 f1 -> fl_iter f1 = m_iter m1 ->
  path = path_of p (fl_oid f1) -> disk path = disk_after b p L X gamma T (m_files m1) path ->
  (forall i, m_iter m1 <= i -> clock i = clock' i) ->
  let N := I3 (pm_nx0 p) (pm_nx1 p) (pm_nx2 p) in
  exists L', runs_on K N dims' X L' /\ let same := same_values K (Z.to_nat (pm_nfx p)) N X dims L dims' L' in
  forall j, exists m v m',
    program b dims (Some f) amp clock (k + j) = Ok (Some (m, v)) /\
    restart_program b dims' (Some f2) disk clock' j = Ok (Some (m', v)) /\
    m_oid m' = m_oid m /\ m_iter m' = m_iter m /\ m_t m' = m_t m /\
    same (m_st m) (m_st m') /\
    exists F, m_files m = m_files m1 ++ F /\ Forall2 (same_file same 0) F (m_files m').
Proof.
  intros HE C1 C2 C3 C4 C5 C6 C7 C8 C9 C10 C11 C12 T2 f2 q path ps dims' Hf Hq Hs Hc Ht Hr Hu Hn gamma T clock clock' k m1 f1 disk E Hl Hi Hp Hd Hclk N.
  apply (restart_from_file _ _ _ _ _ _ _ _ _ _ _ _ _ _ _ _ _ _ HE T2 f2 q path ps dims' Hf Hq Hs Hc Ht Hr Hu C4 Hn
    ltac:(rewrite C8; discriminate) gamma T clock clock' k m1 f1 disk E Hl Hi); try assumption.
  apply (physical_owned K N dims X L); [exact (ro_layout (xr_runs _ _ _ _ _ _ _ _ _ _ _ _ _ _ _ _ _ _ HE))|].
  apply (proj2 (file_physical HE C1 C2 C3 C4 C5 C6 C7 C8 C9 C10 C11 C12 clock k m1 Going E)). now apply last_left.
Qed.
