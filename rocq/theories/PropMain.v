(** * The time loop, its outputs and restarts: C37-C42, C44, C65-C67. *)
From Coq Require Import Sorted Lra.
From Verif Require Import Base RBase ModelMesh ModelGeom ModelBoundary ModelHydro ModelScheme ModelStep ModelMain
  SpecGeom SpecBoundary SpecHydro SpecScheme SpecStep SpecMain ProofLayout ProofStepEx ProofMain ProofRestart ProofMain2 ProofMainEx.
Local Open Scope R_scope.

(** [D] is any dynamics (CFL step, energy check, step), [clock] any behaviour of the wall clock, [n] any number of
    iterations.  [m0] is any state in which the loop is entered: that of a fresh run or of a restart. *)

(** ** C37 *)

(** As long as CFL steps are positive: time never decreases, stays below the end time while the loop continues, every
    iteration advances it, and a run not ended by the iteration limit or the clock ends exactly at the end time. *)
Theorem C37_time_advances_to_the_end :
  forall (S : Type) (D : dynamics S) p clock m0 n m v,
  m_t m0 < p_t_end p -> positive_steps D p clock m0 -> loop D p clock n m0 = (m, v) -> completed v ->
  m_t m0 <= m_t m <= p_t_end p /\ (v = Going -> m_t m < p_t_end p) /\
  (forall m' v', v = Going -> body D p clock m = (m', v') -> completed v' -> m_t m < m_t m') /\
  (v = Finished -> (m_iter m < p_max_iter p)%Z -> clock (m_iter m - 1)%Z = false -> m_t m = p_t_end p).
Proof. exact @times. Qed.
Print Assumptions C37_time_advances_to_the_end.

(** Steps of length 1, end time 5/2: three steps, the last one shortened. *)
Example C37_example :
  let p := mkParams 0 (5 / 2) 100 0 0 0 in
  positive_steps unit_dyn p never (fresh p 0%nat) /\ m_t (fresh p 0%nat) < p_t_end p /\
  exists m, loop unit_dyn p never 3 (fresh p 0%nat) = (m, Finished) /\ m_iter m = 3%Z /\ m_t m = 5 / 2.
Proof. exact unit_run_ends. Qed.

(** ** C26 *)

(** Every step of a run keeps the CFL condition with the given CFL number in all cells, ghosts included, and is as long
    as that allows unless it was cut at the end time or at the next output time. *)
Theorem C26_every_step_of_a_run :
  forall K N dims X L, laid_out K N dims X L -> lawful_eos (k_eos K) ->
  forall cfl p clock m m' v, 0 < cfl -> m_t m < p_t_end p ->
  (forall r c, process (k_nd K) dims r -> owned (k_nd K) (k_ng K) (d_nloc (l_dec L r)) c ->
     0 < c_rho (s_cell (m_st m r) c) /\ 0 < s_P (m_st m r) c /\
     forall d, (d < k_nd K)%nat -> 0 < width (k_geom K) (l_mesh L r) c d) ->
  body (hydro K L cfl) p clock m = (m', v) -> completed v ->
  m_t m < m_t m' /\
  (forall r c, process (k_nd K) dims r -> in_array (d_nwg (l_dec L r)) c ->
     (m_t m' - m_t m) * crossing_rate K L (m_st m) r c <= cfl) /\
  (m_t m' = p_t_end p \/ (0 < p_time_freq p /\ m_t m' = p_time_first p + IZR (m_tid m + 1) * p_time_freq p) \/
   exists r c, process (k_nd K) dims r /\ in_array (d_nwg (l_dec L r)) c /\
     (m_t m' - m_t m) * crossing_rate K L (m_st m) r c = cfl).
Proof. exact cfl_in_loop. Qed.
Print Assumptions C26_every_step_of_a_run.

(** ** C38 *)

(** Whatever the dynamics and the clock do, the loop is left after at least one and at most
    max(1, max_iter - initial iteration) iterations; when it is left normally, the last state has been written. *)
Theorem C38_terminates_with_an_output :
  forall (S : Type) (D : dynamics S) p clock m0, exists k m v,
  (1 <= Z.of_nat k <= Z.max 1 (p_max_iter p - m_iter m0))%Z /\ v <> Going /\
  (exists m1, loop D p clock (k - 1) m0 = (m1, Going)) /\
  (forall n, (k <= n)%nat -> loop D p clock n m0 = (m, v)) /\
  (v = Finished -> m_iter m = (m_iter m0 + Z.of_nat k)%Z /\
     exists f, last_file m f /\ fl_iter f = m_iter m /\ fl_t f = m_t m /\ fl_data f = m_st m /\ fl_oid f = m_oid m).
Proof. exact @terminates. Qed.
Print Assumptions C38_terminates_with_an_output.

(** ** C39 *)

(** A run with iteration outputs writes every multiple of the frequency; without time outputs it writes nothing else
    but its last iteration, each once and in order. *)
Theorem C39_iteration_outputs :
  forall (S : Type) (D : dynamics S) p clock s n m v,
  (0 < p_iter_freq p)%Z -> loop D p clock n (fresh p s) = (m, v) -> completed v ->
  (forall i, (0 <= i <= m_iter m)%Z -> (i mod p_iter_freq p = 0)%Z -> In i (map (@fl_iter S) (m_files m))) /\
  (p_time_freq p <= 0 -> map (@fl_iter S) (m_files m) =
     filter (fun i => (i mod p_iter_freq p =? 0)%Z || (match v with Finished => i =? m_iter m | _ => false end)%Z)
       (zrange 0 (m_iter m + 1))).
Proof. exact @iter_outputs. Qed.
Print Assumptions C39_iteration_outputs.

(** Frequency 3, iteration limit 7: outputs at 0, 3, 6 and 7. *)
Example C39_example :
  let p := mkParams 0 100 7 3 0 0 in
  exists m, loop unit_dyn p never 7 (fresh p 0%nat) = (m, Finished) /\ map (@fl_iter nat) (m_files m) = [0; 3; 6; 7]%Z.
Proof. exact unit_run_outputs. Qed.

(** ** C40 *)

(** A fresh run whose first output time is after the start writes every scheduled time it passes, exactly, in
    increasing order, nothing else but the start and the end (without iteration outputs), and never throws the
    "time step is negative" error. *)
Theorem C40_scheduled_times :
  forall (S : Type) (D : dynamics S) p clock s,
  0 < p_time_freq p -> p_t_ini p < p_time_first p -> p_t_ini p < p_t_end p -> positive_steps D p clock (fresh p s) ->
  (forall n m v, loop D p clock n (fresh p s) = (m, v) -> completed v ->
    (forall k, scheduled p k <= m_t m -> In (scheduled p k) (map (@fl_t S) (m_files m))) /\
    StronglySorted Rlt (map (@fl_t S) (m_files m)) /\
    ((p_iter_freq p <= 0)%Z -> forall f, In f (m_files m) ->
       fl_t f = p_t_ini p \/ (exists k, fl_t f = scheduled p k) \/ (v = Finished /\ fl_t f = m_t m))) /\
  forall n m, loop D p clock n (fresh p s) <> (m, Failed "Error: the time step is negative"%string).
Proof.
  intros S D p clock s H1 H2 H3 H4. split; [exact (schedule_kept D p clock s H1 H2 H3 H4)|exact (never_negative D p clock s H1 H2 H3 H4)].
Qed.
Print Assumptions C40_scheduled_times.

(** First time 1/2, frequency 3/4, steps of 1: outputs at 0, 1/2, 5/4, 2 and the end time 5/2. *)
Example C40_example :
  let p := mkParams 0 (5 / 2) 100 0 (3 / 4) (1 / 2) in
  positive_steps unit_dyn p never (fresh p 0%nat) /\
  exists m, loop unit_dyn p never 4 (fresh p 0%nat) = (m, Finished) /\
    map (@fl_t nat) (m_files m) = [0; 1 / 2; 5 / 4; 2; 5 / 2].
Proof. exact unit_run_times. Qed.

(** But a first output time at or before the start (for instance 0 when the run starts at 0) makes every run fail in
    its first iteration, right after the initial output. *)
Theorem C40_first_output_at_the_start_refuted :
  forall (S : Type) (D : dynamics S) p clock s n,
  0 < p_time_freq p -> p_time_first p <= p_t_ini p -> (p_iter_freq p <= int_max)%Z -> 0 < y_dt D s -> (1 <= n)%nat ->
  loop D p clock n (fresh p s) = (fresh p s, Failed "Error: the time step is negative"%string).
Proof. exact @early_first_output. Qed.
Print Assumptions C40_first_output_at_the_start_refuted.

(** ** C41 *)

(** The outputs of a run, whatever its outcome (also the emergency one), are numbered 0, 1, 2, ... and go to distinct
    files. *)
Theorem C41_consecutive_ids_and_distinct_names :
  forall (S : Type) (D : dynamics S) p clock s n m v prefix,
  loop D p clock n (fresh p s) = (m, v) ->
  map (@fl_oid S) (m_files m) = zrange 0 (Z.of_nat (List.length (m_files m))) /\
  NoDup (map (fun f => get_output_filename prefix (fl_oid f)) (m_files m)).
Proof. exact @ids_and_names. Qed.
Print Assumptions C41_consecutive_ids_and_distinct_names.

(** A restart from the last file, with any parameters, continues the numbering and overwrites nothing. *)
Theorem C41_also_after_a_restart :
  forall (S : Type) (D D' : dynamics S) p p' clock clock' s s' n j m m' v v' f prefix,
  loop D p clock n (fresh p s) = (m, v) -> last_file m f -> loop D' p' clock' j (restarted f s') = (m', v') ->
  let ids := map (@fl_oid S) (m_files m) ++ map (@fl_oid S) (m_files m') in
  ids = zrange 0 (Z.of_nat (List.length (m_files m) + List.length (m_files m'))) /\
  NoDup (map (get_output_filename prefix) ids).
Proof. exact @ids_after_restart. Qed.
Print Assumptions C41_also_after_a_restart.

(** File names determine the id. *)
Theorem C41_names_determine_ids :
  forall prefix a b, (0 <= a)%Z -> (0 <= b)%Z -> get_output_filename prefix a = get_output_filename prefix b -> a = b.
Proof. exact filename_inj. Qed.
Print Assumptions C41_names_determine_ids.

Example C41_example :
  get_output_filename "shock" 42 = "shock_00000042.h5"%string /\
  get_output_filename "shock" 123456789 = "shock_123456789.h5"%string.
Proof. split; reflexivity. Qed.

(** ** C42 *)

(** A run on any process grid has just written the file [f]; the restarted run, on any (other) process grid, whose
    arrays [Rst] hold the file's fields on the owned cells and anything elsewhere, then does the same as the
    uninterrupted run: outcome, ids, iterations, times, global arrays and all further files. *)
Theorem C42_restart_continues_the_run :
  forall K N dims dims' X L L' cfl p clock clock',
  runs_on K N dims X L -> runs_on K N dims' X L' -> lawful_eos (k_eos K) ->
  forall G0 S0 k m1 f G Rst, starts_from K dims L G0 S0 ->
  loop (hydro K L cfl) p clock k (fresh p (init_state K L S0)) = (m1, Going) ->
  last_file m1 f -> fl_iter f = m_iter m1 ->
  (forall r c, process (k_nd K) dims r -> owned (k_nd K) (k_ng K) (d_nloc (l_dec L r)) c ->
     valid_cons (k_nd K) (cons_of (s_cell (fl_data f r) c))) ->
  starts_from K dims L G (fl_data f) -> starts_from K dims' L' G Rst ->
  (forall i, (m_iter m1 <= i)%Z -> clock i = clock' i) ->
  forall j m v m' v',
    loop (hydro K L cfl) p clock (k + j) (fresh p (init_state K L S0)) = (m, v) ->
    loop (hydro K L' cfl) p clock' j (restarted f (init_state K L' Rst)) = (m', v') ->
    v' = v /\ m_oid m' = m_oid m /\ m_iter m' = m_iter m /\ m_t m' = m_t m /\
    same_arrays K N X dims L dims' L' (m_st m) (m_st m') /\
    exists F, m_files m = m_files m1 ++ F /\ Forall2 (same_file (same_arrays K N X dims L dims' L') 0) F (m_files m').
Proof. exact restart_same. Qed.
Print Assumptions C42_restart_continues_the_run.

(** A run ended by the wall clock or by a lower iteration limit after [k] iterations and then restarted without that
    limit: everything as in the uninterrupted run, except that ids are one higher from then on if that run had no
    output after iteration [k]. *)
Theorem C42_restart_of_an_interrupted_run :
  forall K N dims dims' X L L' cfl p clock clock',
  runs_on K N dims X L -> runs_on K N dims' X L' -> lawful_eos (k_eos K) ->
  forall nmax clock1 G0 S0 k m1 m2 x f G Rst, starts_from K dims L G0 S0 -> (1 <= k)%nat ->
  loop (hydro K L cfl) p clock k (fresh p (init_state K L S0)) = (m1, Going) ->
  loop (hydro K L cfl) (with_max_iter p nmax) clock1 (k - 1) (fresh (with_max_iter p nmax) (init_state K L S0)) = (x, Going) ->
  loop (hydro K L cfl) (with_max_iter p nmax) clock1 k (fresh (with_max_iter p nmax) (init_state K L S0)) = (m2, Finished) ->
  last_file m2 f ->
  (forall r c, process (k_nd K) dims r -> owned (k_nd K) (k_ng K) (d_nloc (l_dec L r)) c ->
     valid_cons (k_nd K) (cons_of (s_cell (fl_data f r) c))) ->
  starts_from K dims L G (fl_data f) -> starts_from K dims' L' G Rst ->
  (forall i, (m_iter m1 <= i)%Z -> clock i = clock' i) ->
  exists d, (d = 0 \/ d = 1)%Z /\
    (d = 0%Z <-> exists g, last_file m1 g /\ fl_iter g = m_iter m1) /\
    m_files m2 = m_files m1 ++ (if (d =? 0)%Z then [] else [f]) /\
    forall j m v m' v',
      loop (hydro K L cfl) p clock (k + j) (fresh p (init_state K L S0)) = (m, v) ->
      loop (hydro K L' cfl) p clock' j (restarted f (init_state K L' Rst)) = (m', v') ->
      v' = v /\ m_oid m' = (m_oid m + d)%Z /\ m_iter m' = m_iter m /\ m_t m' = m_t m /\
      same_arrays K N X dims L dims' L' (m_st m) (m_st m') /\
      exists F, m_files m = m_files m1 ++ F /\ Forall2 (same_file (same_arrays K N X dims L dims' L') d) F (m_files m').
Proof. exact restart_interrupted. Qed.
Print Assumptions C42_restart_of_an_interrupted_run.

(** A gas in uniform motion on 3 x 2 processes, written after its first step and restarted on one process. *)
Example C42_example :
  let K := ex_K ex_bcs Cartesian in let L := ex_L ex_bcs Cartesian in let L1 := ex_L1 ex_bcs Cartesian in
  let G := ex_G ex_u in let S0 := the_state K L G in
  exists m1 f Rst,
  runs_on K ex_N ex_dims ex_X L /\ runs_on K ex_N one_process ex_X L1 /\ lawful_eos (k_eos K) /\
  starts_from K ex_dims L G S0 /\
  loop (hydro K L (1 / 2)) gas_p never 1 (fresh gas_p (init_state K L S0)) = (m1, Going) /\
  last_file m1 f /\ fl_iter f = m_iter m1 /\ m_iter m1 = 1%Z /\
  (forall r c, process 2 ex_dims r -> owned 2 2 (d_nloc (l_dec L r)) c -> valid_cons 2 (cons_of (s_cell (fl_data f r) c))) /\
  starts_from K ex_dims L G (fl_data f) /\ starts_from K one_process L1 G Rst /\
  p_max_iter gas_p = 100%Z /\ m_t m1 + 1 = p_t_end gas_p.
Proof. exact restart_example. Qed.

(** ** C44 *)

(** The last file of a run that was ended before its end time, or at an end time that is itself scheduled; restarted
    with a later end time (and any dynamics with positive steps): every scheduled time that has passed is among the
    outputs of the two runs, and the restart does not fail on a negative time step. *)
Theorem C44_no_scheduled_output_is_lost :
  forall (S : Type) (D D' : dynamics S) p clock clock' tend' s n m v f s',
  0 < p_time_freq p -> p_t_ini p < p_time_first p -> p_t_ini p < p_t_end p ->
  positive_steps D p clock (fresh p s) -> loop D p clock n (fresh p s) = (m, v) -> completed v ->
  last_file m f -> fl_iter f = m_iter m ->
  (m_t m < p_t_end p \/ exists k, p_t_end p = scheduled p k) ->
  let p' := with_t_end p tend' in
  fl_t f < tend' -> positive_steps D' p' clock' (restarted f s') ->
  (forall j m', loop D' p' clock' j (restarted f s') <> (m', Failed "Error: the time step is negative"%string)) /\
  forall j m' v', loop D' p' clock' j (restarted f s') = (m', v') -> completed v' ->
  forall k, scheduled p k <= m_t m' -> In (scheduled p k) (map (@fl_t S) (m_files m) ++ map (@fl_t S) (m_files m')).
Proof. exact @no_output_lost. Qed.
Print Assumptions C44_no_scheduled_output_is_lost.

(** Otherwise one can be lost: if the last CFL step reaches beyond both the end time and the next scheduled time, the
    schedule is advanced although the step is then cut at the end time.  The restart skips that output, whatever
    happens later. *)
Theorem C44_scheduled_output_skipped_refuted :
  forall (S : Type) (D D' : dynamics S) p clock clock' s s' tend',
  0 < p_time_freq p -> (p_iter_freq p <= 0)%Z -> p_t_ini p < p_t_end p < p_time_first p -> y_bad D s = false ->
  p_time_first p <= p_t_ini p + y_dt D s ->
  let p' := with_t_end p tend' in
  let f := mkFile 1 0 0 1 (p_t_end p) (y_step D (p_t_ini p) (p_t_end p - p_t_ini p) s) in
  p_time_first p + p_time_freq p < tend' -> p_time_first p + p_time_freq p <= p_t_end p + y_dt D' s' ->
  positive_steps D' p' clock' (restarted f s') ->
  (exists m, loop D p clock 1 (fresh p s) = (m, Finished) /\ last_file m f /\
     map (@fl_t S) (m_files m) = [p_t_ini p; p_t_end p]) /\
  forall j m' v', loop D' p' clock' (Datatypes.S j) (restarted f s') = (m', v') -> completed v' ->
  scheduled p 0 < m_t m' /\ Forall (fun g => scheduled p 0 < fl_t g) (m_files m').
Proof.
  intros S D D' p clock clock' s s' tend' H1 H2 H3 H4 H5 p' f H6 H7 H8. split.
  - exact (stops_at_end D p clock s H1 H2 H3 H4 H5).
  - exact (never_written D D' p clock' s s' tend' H1 H6 H7 H8).
Qed.
Print Assumptions C44_scheduled_output_skipped_refuted.

(** End time 1, outputs planned at 3/2, 3, ..., steps of 2; restarted with end time 4: written at 0, 1, 3 and 4. *)
Example C44_example :
  let p := mkParams 0 1 100 0 (3 / 2) (3 / 2) in let p' := with_t_end p 4 in
  let f := mkFile 1 0 0 1 1 1%nat in
  (0 < p_time_freq p /\ p_t_ini p < p_t_end p < p_time_first p /\ p_time_first p <= p_t_ini p + y_dt big_dyn 0%nat /\
   p_time_first p + p_time_freq p < 4 /\ p_time_first p + p_time_freq p <= p_t_end p + y_dt big_dyn 1%nat /\
   positive_steps big_dyn p' never (restarted f 1%nat)) /\
  exists m', loop big_dyn p' never 2 (restarted f 1%nat) = (m', Finished) /\ map (@fl_t nat) (m_files m') = [3; 4].
Proof. exact skipped_example. Qed.

(** ** C65 *)

(** A restart from a file that is not before the end time still makes one step, of zero or negative duration, back to
    the end time, and writes one more file. *)
Theorem C65_step_after_the_end_refuted :
  forall (S : Type) (D : dynamics S) p clock f s j,
  (p_iter_freq p <= 0)%Z -> p_time_freq p <= 0 -> p_t_end p <= fl_t f -> y_bad D s = false -> 0 < y_dt D s ->
  int32 (fl_iter f + 1) = true -> (1 <= j)%nat ->
  exists m, loop D p clock j (restarted f s) = (m, Finished) /\ m_t m = p_t_end p /\ m_iter m = (fl_iter f + 1)%Z /\
    m_oid m = (fl_oid f + 1)%Z /\ m_st m = y_step D (fl_t f) (p_t_end p - fl_t f) s /\ List.length (m_files m) = 1%nat.
Proof. exact @restart_at_end. Qed.
Print Assumptions C65_step_after_the_end_refuted.

(** A restart from a file before the end time never moves time backwards (C37 from the restart). *)
Theorem C65_restart_before_the_end :
  forall (S : Type) (D : dynamics S) p clock f s n m v,
  fl_t f < p_t_end p -> positive_steps D p clock (restarted f s) -> loop D p clock n (restarted f s) = (m, v) ->
  completed v -> fl_t f <= m_t m <= p_t_end p.
Proof. intros S D p clock f s n m v H1 H2 H3 H4. exact (proj1 (times D p clock (restarted f s) n m v H1 H2 H3 H4)). Qed.
Print Assumptions C65_restart_before_the_end.

(** ** C66 *)

(** If [output frequency + max_iter] fits in an [int], no run evaluates an overflowing expression. *)
Theorem C66_counters_do_not_overflow :
  forall (S : Type) (D : dynamics S) p clock s n m w,
  counters_fit p -> loop D p clock n (fresh p s) <> (m, Undefined w).
Proof. exact @no_overflow. Qed.
Print Assumptions C66_counters_do_not_overflow.

(** The default limit on the iterations is the largest int: with it, the condition says that there is no iteration
    output; and it is sharp. *)
Example C66_example :
  counters_fit (mkParams 0 1 100000 50 0 0) /\ counters_fit (mkParams 0 1 int_max 0 (1 / 2) 1) /\
  body unit_dyn (mkParams 0 (IZR int_max) int_max int_max 0 0) never (mkM 1 1 (-1) int_max 0 [] 0%nat []) =
    (mkM 1 1 (-1) int_max 0 [] 0%nat [], Undefined "signed overflow: iter + 1").
Proof. repeat split; cbv; congruence. Qed.

(** ** C67 *)

(** Restart with any schedule for which the file's counter is that of the last scheduled time before the file's time:
    every later scheduled time is written, in order. *)
Theorem C67_restart_with_a_consistent_schedule :
  forall (S : Type) (D : dynamics S) p clock f s,
  0 < p_time_freq p -> (-1 <= fl_tid f)%Z -> fl_t f < p_t_end p ->
  p_time_first p + IZR (fl_tid f) * p_time_freq p <= fl_t f < p_time_first p + IZR (fl_tid f + 1) * p_time_freq p ->
  positive_steps D p clock (restarted f s) ->
  forall n m v, loop D p clock n (restarted f s) = (m, v) -> completed v ->
  (forall k, fl_t f < scheduled p k <= m_t m -> In (scheduled p k) (map (@fl_t S) (m_files m))) /\
  StronglySorted Rlt (map (@fl_t S) (m_files m)).
Proof. exact @restart_schedule. Qed.
Print Assumptions C67_restart_with_a_consistent_schedule.

(** A smaller output interval, so that the counter is behind: the restarted run fails at once. *)
Theorem C67_smaller_time_interval_refuted :
  forall (S : Type) (D : dynamics S) p clock f s n,
  0 < p_time_freq p -> (p_iter_freq p <= 0)%Z -> int32 (fl_iter f + 1) = true -> 0 < y_dt D s ->
  p_time_first p + IZR (fl_tid f + 1) * p_time_freq p <= fl_t f -> (1 <= n)%nat ->
  loop D p clock n (restarted f s) = (restarted f s, Failed "Error: the time step is negative"%string).
Proof. exact @smaller_time_frequency. Qed.
Print Assumptions C67_smaller_time_interval_refuted.

(** A smaller iteration interval: every iteration is written until the counter has caught up. *)
Theorem C67_smaller_iteration_interval_refuted :
  forall (S : Type) (D : dynamics S) p clock f s n m v,
  (0 < p_iter_freq p)%Z -> p_time_freq p <= 0 ->
  ((fl_iid f + Z.of_nat n) * p_iter_freq p <= fl_iter f + Z.of_nat n)%Z ->
  loop D p clock n (restarted f s) = (m, v) -> v = Going ->
  map (@fl_iter S) (m_files m) = zrange (fl_iter f + 1) (fl_iter f + Z.of_nat n + 1).
Proof. exact @smaller_iter_frequency. Qed.
Print Assumptions C67_smaller_iteration_interval_refuted.

(** Files written every 10 iterations up to iteration 100, restarted with interval 5: iterations 101, 102, 103 are
    written. *)
Example C67_example :
  let p := mkParams 0 1000 1000 5 0 0 in let f := mkFile 10 10 (-1) 100 100 0%nat in
  exists m, loop unit_dyn p never 3 (restarted f 0%nat) = (m, Going) /\ map (@fl_iter nat) (m_files m) = [101; 102; 103]%Z.
Proof. exact frequent_example. Qed.
