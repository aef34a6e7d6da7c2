(** * Output files and restarts from them: C92-C94. *)
From Coq Require Import Ascii Reals.
From Coq Require String.
From Verif Require Import Base RBase ModelMesh ModelGeom ModelBoundary ModelHydro ModelRad ModelScheme ModelStep ModelUtil ModelIni ModelMain ModelSetup ModelIO ModelParam ModelH5
  SpecMesh SpecGeom SpecBoundary SpecHydro SpecScheme SpecStep SpecPos SpecSetup SpecMain SpecIni SpecParam SpecH5
  ProofLayout ProofSteady ProofStepEx ProofParamEx2 ProofH5 ProofH5Run ProofH5Ex.
Local Open Scope string_scope.
Local Open Scope Z_scope.
Local Open Scope list_scope.

(** ** C92 *)

(** On any process grid: the file holds the counters, the time, the coordinates with ghosts and, under their names, all
    fields of the owned cells of all processes, each at its place in the mesh, and nothing of the ghost cells. *)
Theorem C92_the_file_holds_the_run : forall K N dims X L nfx, laid_out K N dims X L ->
  forall gamma T f G, (Z.to_nat nfx <= 10)%nat -> holds_fields (k_nd K) (k_ng K) (Z.to_nat nfx) dims L G (fl_data f) ->
  exists h, write_pdi (k_nd K) (k_ng K) nfx N L X gamma T f = Ok h /\
    holds_run (k_nd K) (Z.to_nat nfx) N X (fl_oid f) (fl_iid f) (fl_tid f) (fl_iter f) (fl_t f) G h.
Proof. exact write_ok. Qed.
Print Assumptions C92_the_file_holds_the_run.

(** Read on any other process grid, it gives every process what belongs to its owned cells. *)
Theorem C92_read_on_any_process_grid : forall K N dims dims' X L L' nfx gamma T f G,
  laid_out K N dims X L -> laid_out K N dims' X L' -> 0 <= nfx <= 10 ->
  holds_fields (k_nd K) (k_ng K) (Z.to_nat nfx) dims L G (fl_data f) ->
  exists h, write_pdi (k_nd K) (k_ng K) nfx N L X gamma T f = Ok h /\
  forall r, process (k_nd K) dims' r -> exists d, read_pdi (k_nd K) (k_ng K) nfx N (l_dec L' r) h = Ok d /\
    restored (k_nd K) (k_ng K) (Z.to_nat nfx) X (fl_oid f) (fl_iid f) (fl_tid f) (fl_iter f) (fl_t f) G (l_dec L' r) d.
Proof. exact read_back. Qed.
Print Assumptions C92_read_on_any_process_grid.

(** Only the scalars fx0 to fx9 are declared: a run with more cannot write its first output. *)
Theorem C92_eleven_scalars_refuted : forall K N dims X L nfx gamma T f, laid_out K N dims X L -> (10 < Z.to_nat nfx)%nat ->
  exists w, write_pdi (k_nd K) (k_ng K) nfx N L X gamma T f = Throw w.
Proof. exact write_too_many. Qed.
Print Assumptions C92_eleven_scalars_refuted.

(** 7 x 5 cells on 3 x 2 processes, with two scalars; read by one process. *)
Example C92_example :
  let K := ex_K ex_bcs Cartesian in let L := ex_L ex_bcs Cartesian in let L1 := ex_L1 ex_bcs Cartesian in
  let f := mkFile 3 2 1 40 (1 / 2)%R (the_state K L (ex_G ex_u)) in
  laid_out K ex_N ex_dims ex_X L /\ laid_out K ex_N one_process ex_X L1 /\
  holds_fields 2 2 2 ex_dims L (ex_G ex_u) (fl_data f).
Proof.
  intros K L L1 f. split; [exact (ro_layout (ex_runs ex_bcs Cartesian))|]. split; [exact (ex_laid1 ex_bcs Cartesian)|].
  exact (starts_holds K ex_dims L (ex_G ex_u) _ 2 (the_state_ok K ex_dims L (ex_G ex_u))).
Qed.

(** ** C93 *)

(** All processes of a run accept a file exactly when the number of coordinates is the same, the run has no more cells in
    any direction, and no more scalars. *)
Theorem C93_accepted_iff : forall nd ng N X dims' N' ng' nfx nfx' dec' oid iid tid iter t G h,
  global_coords nd N ng X -> decomposed nd N' dims' ng' dec' -> 0 <= nfx' <= 10 ->
  holds_run nd nfx N X oid iid tid iter t G h ->
  ((forall r, process nd dims' r -> exists d, read_pdi nd ng' nfx' N' (dec' r) h = Ok d) <->
   (forall d, (d < 3)%nat -> coord d N + 2 * ghosts nd ng d = coord d N' + 2 * ghosts nd ng' d) /\
   (forall d, (d < 3)%nat -> coord d N' <= coord d N) /\ (Z.to_nat nfx' <= nfx)%nat).
Proof. exact accepted_iff. Qed.
Print Assumptions C93_accepted_iff.

(** With the same number of ghosts: only on the same mesh. *)
Theorem C93_same_ghosts_same_mesh : forall nd ng N X dims' N' nfx nfx' dec' oid iid tid iter t G h,
  global_coords nd N ng X -> decomposed nd N' dims' ng dec' -> 0 <= nfx' <= 10 ->
  holds_run nd nfx N X oid iid tid iter t G h ->
  ((forall r, process nd dims' r -> exists d, read_pdi nd ng nfx' N' (dec' r) h = Ok d) <-> N' = N /\ (Z.to_nat nfx' <= nfx)%nat).
Proof. exact same_ghosts. Qed.
Print Assumptions C93_same_ghosts_same_mesh.
Example C93_file : exists X oid iid tid iter t G h, global_coords 1 (I3 10 1 1) 2 X /\ holds_run 1 3 (I3 10 1 1) X oid iid tid iter t G h.
Proof.
  set (X := fun d : nat => mkArr1 (match d with O => 15 | _ => 2 end) IZR).
  assert (HX : global_coords 1 (I3 10 1 1) 2 X) by (intros [|[|[|d]]] Hd; [reflexivity..|lia]).
  destruct (some_file 1 2 (I3 10 1 1) X 3) as (oid & iid & tid & iter & t & G & h & H); [lia|lia| |exact HX|lia|].
  - intros [|[|[|d]]] Hd; cbn; lia.
  - now exists X, oid, iid, tid, iter, t, G, h.
Qed.

(** A file can be accepted on another mesh. *)
Theorem C93_other_mesh_refuted : exists nd N X ng N' ng' nfx oid iid tid iter t G h,
  global_coords nd N ng X /\ holds_run nd nfx N X oid iid tid iter t G h /\ N' <> N /\
  exists dims' dec', decomposed nd N' dims' ng' dec' /\
    forall r, process nd dims' r -> exists d, read_pdi nd ng' (Z.of_nat nfx) N' (dec' r) h = Ok d.
Proof. exact wrong_mesh_accepted. Qed.
Print Assumptions C93_other_mesh_refuted.

(** ... and then the fields are displaced: with two cells less and one ghost layer more, cell [i] of the run has the place of
    cell [i+1] of the file and the values of its cell [i]. *)
Theorem C93_displaced_fields_refuted : forall n ng nfx X dims' dec' oid iid tid iter t G h,
  1 <= n -> 0 <= ng -> (nfx <= 10)%nat -> global_coords 1 (I3 (n + 2) 1 1) ng X ->
  holds_run 1 nfx (I3 (n + 2) 1 1) X oid iid tid iter t G h -> decomposed 1 (I3 n 1 1) dims' (ng + 1) dec' ->
  forall r, process 1 dims' r -> exists d, read_pdi 1 (ng + 1) (Z.of_nat nfx) (I3 n 1 1) (dec' r) h = Ok d /\
    (forall i, a_at (rs_x d 0) (i + (ng + 1)) = a_at (X 0%nat) (i + 1 + ng)) /\
    forall c, owned 1 (ng + 1) (d_nloc (dec' r)) c ->
      let g := global_index 1 (ng + 1) (corner_min (d_range (dec' r))) c in
      rs_rho d c = g_rho G g /\ rs_P d c = g_P G g /\ rs_u d c 0%nat = g_u G g 0%nat.
Proof. exact displaced. Qed.
Print Assumptions C93_displaced_fields_refuted.

(** ** C94 *)

(** A run from the parameter file [f] has just written an output; its files are on the disk.  A second parameter file [f2]
    asks for a restart from that output, on any process grid, whatever its bounds, type of grid and initial conditions.
    The second run then has the verdict, ids, iterations, times, arrays and further outputs of the first. *)
Theorem C94_restart_from_an_output : forall b f p lo hi bc g lim sol user amp s cfl P X K dims L,
  executes b f p lo hi bc g lim sol user amp s cfl P X K dims L ->
  forall T2 f2 q path ps dims', file_with T2 f2 -> described T2 q -> described_setup T2 (b_setup b) ps -> chosen b T2 q bc g lim sol user ->
  timing q cfl P -> resumes p q path -> usable b p dims' lo hi ->
  b_eos b = PerfectGasEos -> 0 <= pm_nfx p <= 10 -> (user = UHeatNickel -> 1 <= pm_nfx p) ->
  forall gamma T clock clock' k m1 f1 disk,
  program b dims (Some f) amp clock k = Ok (Some (m1, Going)) ->
  last_file m1 f1 -> fl_iter f1 = m_iter m1 ->
  (forall r c, process (k_nd K) dims r -> owned (k_nd K) (k_ng K) (d_nloc (l_dec L r)) c -> valid_cons (k_nd K) (cons_of (s_cell (fl_data f1 r) c))) ->
  path = path_of p (fl_oid f1) -> disk path = disk_after b p L X gamma T (m_files m1) path ->
  (forall i, m_iter m1 <= i -> clock i = clock' i) ->
  let N := I3 (pm_nx0 p) (pm_nx1 p) (pm_nx2 p) in
  exists L', runs_on K N dims' X L' /\ let same := same_values K (Z.to_nat (pm_nfx p)) N X dims L dims' L' in
  forall j, exists m v m',
    program b dims (Some f) amp clock (k + j) = Ok (Some (m, v)) /\
    restart_program b dims' (Some f2) disk clock' j = Ok (Some (m', v)) /\
    m_oid m' = m_oid m /\ m_iter m' = m_iter m /\ m_t m' = m_t m /\
    same (m_st m) (m_st m') /\
    exists F, m_files m = m_files m1 ++ F /\ Forall2 (same_file same 0) F (m_files m').
Proof. exact restart_from_file. Qed.
Print Assumptions C94_restart_from_an_output.
Example C94_gas_on_one_process : forall amp gamma T, exists X K L L' m1,
  executes carried_b carried_f carried_p unit_lo unit_hi (fun _ => Periodic) carried_g LConstant HLLC UOff amp carried_s (1 / 4) carried_P X K (I3 2 2 1) L /\
  program carried_b (I3 2 2 1) (Some carried_f) amp (fun _ => false) 1 = Ok (Some (m1, Going)) /\
  runs_on K (I3 8 6 1) (I3 1 1 1) X L' /\
  forall j, exists m v m',
    program carried_b (I3 2 2 1) (Some carried_f) amp (fun _ => false) (1 + j) = Ok (Some (m, v)) /\
    restart_program carried_b (I3 1 1 1) (Some again_f) (disk_after carried_b carried_p L X gamma T (m_files m1)) (fun _ => false) j = Ok (Some (m', v)) /\
    m_oid m' = m_oid m /\ m_iter m' = m_iter m /\ m_t m' = m_t m /\
    same_values K 0 (I3 8 6 1) X (I3 2 2 1) L (I3 1 1 1) L' (m_st m) (m_st m').
Proof. exact carried_restart. Qed.

(** No condition on the arrays for the outputs of a first-order gas. *)
Theorem C94_any_output_of_a_first_order_gas : forall b f p lo hi bc g lim sol user amp s cfl P X K dims L,
  executes b f p lo hi bc g lim sol user amp s cfl P X K dims L ->
  positional s -> (forall a b c d e f g, s <> SRayleighTaylor3d a b c d e f g) -> positive_parameters s ->
  b_eos b = PerfectGasEos -> b_geom b = Cartesian -> no_gravity b p -> lim = LConstant -> user = UOff -> pm_pressure_fix p <> "On" ->
  (0 < cfl)%R -> (sol = HLL /\ (INR (b_nd b) * cfl <= 1)%R \/ sol = HLLC /\ (2 * INR (b_nd b) * cfl <= 1)%R) -> (p_t_ini P < p_t_end P)%R ->
  forall T2 f2 q path ps dims', file_with T2 f2 -> described T2 q -> described_setup T2 (b_setup b) ps -> chosen b T2 q bc g lim sol user ->
  timing q cfl P -> resumes p q path -> usable b p dims' lo hi -> 0 <= pm_nfx p <= 10 ->
  forall gamma T clock clock' k m1 f1 disk,
  program b dims (Some f) amp clock k = Ok (Some (m1, Going)) ->
  last_file m1 f1 -> fl_iter f1 = m_iter m1 ->
  path = path_of p (fl_oid f1) -> disk path = disk_after b p L X gamma T (m_files m1) path ->
  (forall i, m_iter m1 <= i -> clock i = clock' i) ->
  let N := I3 (pm_nx0 p) (pm_nx1 p) (pm_nx2 p) in
  exists L', runs_on K N dims' X L' /\ let same := same_values K (Z.to_nat (pm_nfx p)) N X dims L dims' L' in
  forall j, exists m v m',
    program b dims (Some f) amp clock (k + j) = Ok (Some (m, v)) /\
    restart_program b dims' (Some f2) disk clock' j = Ok (Some (m', v)) /\
    m_oid m' = m_oid m /\ m_iter m' = m_iter m /\ m_t m' = m_t m /\
    same (m_st m) (m_st m') /\
    exists F, m_files m = m_files m1 ++ F /\ Forall2 (same_file same 0) F (m_files m').
Proof. exact restart_first_order. Qed.
Print Assumptions C94_any_output_of_a_first_order_gas.

(** A run ended by its time limit ([time_job]) and resumed: as if it had not been ended, except that the ids are one higher
    from then on if the uninterrupted run had no output after that iteration. *)
Theorem C94_restart_after_the_time_limit : forall b f p lo hi bc g lim sol user amp s cfl P X K dims L,
  executes b f p lo hi bc g lim sol user amp s cfl P X K dims L ->
  forall T2 f2 q path ps dims', file_with T2 f2 -> described T2 q -> described_setup T2 (b_setup b) ps -> chosen b T2 q bc g lim sol user ->
  timing q cfl P -> resumes p q path -> usable b p dims' lo hi ->
  b_eos b = PerfectGasEos -> 0 <= pm_nfx p <= 10 -> (user = UHeatNickel -> 1 <= pm_nfx p) ->
  forall gamma T clock clock1 clock' k x m1 m2 f1 disk, (1 <= k)%nat ->
  program b dims (Some f) amp clock k = Ok (Some (m1, Going)) ->
  program b dims (Some f) amp clock1 (k - 1) = Ok (Some (x, Going)) ->
  program b dims (Some f) amp clock1 k = Ok (Some (m2, Finished)) ->
  last_file m2 f1 ->
  (forall r c, process (k_nd K) dims r -> owned (k_nd K) (k_ng K) (d_nloc (l_dec L r)) c -> valid_cons (k_nd K) (cons_of (s_cell (fl_data f1 r) c))) ->
  path = path_of p (fl_oid f1) -> disk path = disk_after b p L X gamma T (m_files m2) path ->
  (forall i, m_iter m1 <= i -> clock i = clock' i) ->
  let N := I3 (pm_nx0 p) (pm_nx1 p) (pm_nx2 p) in
  exists d, (d = 0 \/ d = 1) /\ (d = 0 <-> exists g, last_file m1 g /\ fl_iter g = m_iter m1) /\
  exists L', runs_on K N dims' X L' /\ let same := same_values K (Z.to_nat (pm_nfx p)) N X dims L dims' L' in
  forall j, exists m v m',
    program b dims (Some f) amp clock (k + j) = Ok (Some (m, v)) /\
    restart_program b dims' (Some f2) disk clock' j = Ok (Some (m', v)) /\
    m_oid m' = m_oid m + d /\ m_iter m' = m_iter m /\ m_t m' = m_t m /\
    same (m_st m) (m_st m') /\
    exists F, m_files m = m_files m1 ++ F /\ Forall2 (same_file same d) F (m_files m').
Proof. exact restart_after_time_limit. Qed.
Print Assumptions C94_restart_after_the_time_limit.
Example C94_gas_out_of_time : forall amp gamma T, exists X K L L' m1,
  executes carried_b carried_f carried_p unit_lo unit_hi (fun _ => Periodic) carried_g LConstant HLLC UOff amp carried_s (1 / 4) carried_P X K (I3 2 2 1) L /\
  program carried_b (I3 2 2 1) (Some carried_f) amp (fun _ => true) 1 = Ok (Some (m1, Finished)) /\
  runs_on K (I3 8 6 1) (I3 1 1 1) X L' /\
  forall j, exists m v m',
    program carried_b (I3 2 2 1) (Some carried_f) amp (fun _ => false) (1 + j) = Ok (Some (m, v)) /\
    restart_program carried_b (I3 1 1 1) (Some again_f) (disk_after carried_b carried_p L X gamma T (m_files m1)) (fun _ => false) j = Ok (Some (m', v)) /\
    m_oid m' = m_oid m /\ m_iter m' = m_iter m /\ m_t m' = m_t m /\
    same_values K 0 (I3 8 6 1) X (I3 2 2 1) L (I3 1 1 1) L' (m_st m) (m_st m').
Proof. exact carried_limited. Qed.
