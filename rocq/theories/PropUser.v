(** * C100: runs with the boundary conditions of the setup. *)
From Verif Require Import Base RBase ModelMesh ModelGeom ModelBoundary ModelHydro ModelScheme ModelStep ModelSetup ModelMain ModelUser
  SpecMesh SpecBoundary SpecHydro SpecScheme SpecStep SpecSetup SpecMain SpecUser
  ProofBase ProofStepEx ProofSetup ProofMainEx ProofUser2 ProofUser3 ProofUser4 ProofUserEx.
Local Open Scope R_scope.

(** Whatever the setup (its state depends on the position only), the faces with its own condition, the conditions on the
    other faces, their order and the process grid: the same verdict, ids, iterations, times, arrays and files. *)
Theorem C100_any_process_grid :
  forall K N dims dims' X L L' U cfl p clock, runs_on K N dims X L -> runs_on K N dims' X L' ->
  forall s th n, positional s ->
  let e := loop (own_hydro K N L U cfl) p clock n (fresh p (own_init K N L U (setup_state s K th N L))) in
  let e' := loop (own_hydro K N L' U cfl) p clock n (fresh p (own_init K N L' U (setup_state s K th N L'))) in
  snd e' = snd e /\ m_oid (fst e') = m_oid (fst e) /\ m_iter (fst e') = m_iter (fst e) /\ m_t (fst e') = m_t (fst e) /\
  same_arrays K N X dims L dims' L' (m_st (fst e)) (m_st (fst e')) /\
  Forall2 (same_file (same_arrays K N X dims L dims' L') 0) (m_files (fst e)) (m_files (fst e')).
Proof. exact own_alike. Qed.
Print Assumptions C100_any_process_grid.

(** A restart from the last file, on any process grid, continues the run.  The arrays [Rst] hold the file's fields on
    the owned cells; their gravity was made from the mesh. *)
Theorem C100_restart_continues_the_run :
  forall K N dims dims' X L L' U cfl p clock clock' s th, runs_on K N dims X L -> runs_on K N dims' X L' ->
  lawful_eos (k_eos K) -> mesh_gravity K -> positional s ->
  forall k m1 f G Rst,
  loop (own_hydro K N L U cfl) p clock k (fresh p (own_init K N L U (setup_state s K th N L))) = (m1, Going) ->
  last_file m1 f -> fl_iter f = m_iter m1 ->
  (forall r c, process (k_nd K) dims r -> owned (k_nd K) (k_ng K) (d_nloc (l_dec L r)) c -> valid_cons (k_nd K) (cons_of (s_cell (fl_data f r) c))) ->
  starts_from K dims L G (fl_data f) -> starts_from K dims' L' G Rst ->
  (forall r, process (k_nd K) dims' r -> made_on K L' r (s_grav (Rst r))) ->
  (forall i, (m_iter m1 <= i)%Z -> clock i = clock' i) ->
  forall j m v m' v',
    loop (own_hydro K N L U cfl) p clock (k + j) (fresh p (own_init K N L U (setup_state s K th N L))) = (m, v) ->
    loop (own_hydro K N L' U cfl) p clock' j (restarted f (own_init K N L' U Rst)) = (m', v') ->
    v' = v /\ m_oid m' = m_oid m /\ m_iter m' = m_iter m /\ m_t m' = m_t m /\
    same_arrays K N X dims L dims' L' (m_st m) (m_st m') /\
    exists F, m_files m = m_files m1 ++ F /\ Forall2 (same_file (same_arrays K N X dims L dims' L') 0) F (m_files m').
Proof. exact own_restart. Qed.
Print Assumptions C100_restart_continues_the_run.

(** After every iteration, whatever happened inside, a ghost cell holds the gas at rest of the profile at its own place
    if the last of the faces beyond which it lies has the condition of the setup. *)
Theorem C100_ghost_cells_hold_the_profile :
  forall K N dims X L U, runs_on K N dims X L ->
  forall gas rho0 T0, ob_th U = pg_thermo gas -> atmosphere (ob_setup U) rho0 0 T0 -> valid_gas gas -> 0 < rho0 ->
  forall t dt S r c l1 f l2, k_order K = l1 ++ f :: l2 -> process (k_nd K) dims r -> beyond K L f r c -> ob_face U f = true ->
  (forall h, In h l2 -> ~ beyond K L h r c) ->
  at_rest_with (k_nd K) gas (setup_cell (ob_setup U) (mkEnv (k_geom K) (k_nd K) (pg_thermo gas) (l_mesh L r) r N (s_grav (S r))) c old_cell)
    (s_cell (own_full_step K N L U t dt S r) c).
Proof. exact own_step_rest. Qed.
Print Assumptions C100_ghost_cells_hold_the_profile.

(** At the start every cell of every process, edges and corners included, holds the profile, if both faces of the first
    direction have the condition of the setup; whatever the conditions in the other directions and the order. *)
Theorem C100_starts_in_the_profile :
  forall K N dims X L U gas s rho0 T0, runs_on K N dims X L -> ob_setup U = s -> ob_th U = pg_thermo gas -> k_eos K = pg_eos gas ->
  atmosphere s rho0 0 T0 -> valid_gas gas -> 0 < rho0 -> 0 < T0 -> ob_face U 0 = true -> ob_face U 1 = true ->
  In 0%nat (k_order K) -> In 1%nat (k_order K) ->
  forall r c, process (k_nd K) dims r -> in_array (d_nwg (l_dec L r)) c ->
  let v := setup_cell s (setup_env K (pg_thermo gas) N L r) c old_cell in
  let S := own_init K N L U (setup_state s K (pg_thermo gas) N L) in
  at_rest_with (k_nd K) gas v (s_cell (S r) c) /\ (forall k, (k < k_nd K)%nat -> s_u (S r) c k = 0) /\ s_P (S r) c = i_P v.
Proof. exact rest_start. Qed.
Print Assumptions C100_starts_in_the_profile.

(** The atmosphere of inputs/stratified_atm.ini in two dimensions, 7 x 5 cells on 3 x 2 processes and on one. *)
Example C100_example :
  runs_on own_K ex_N ex_dims ex_X own_L /\ runs_on own_K ex_N one_process ex_X own_L1 /\ lawful_eos (k_eos own_K) /\ mesh_gravity own_K /\
  positional own_s /\ valid_gas own_gas /\ atmosphere own_s 10 0 100 /\ k_order own_K = [2%nat] ++ 0%nat :: [3; 1]%nat /\
  (beyond own_K own_L 0 rank0 (I3 0 0 0) /\ beyond own_K own_L 2 rank0 (I3 0 0 0) /\
   (forall h, In h [3; 1]%nat -> ~ beyond own_K own_L h rank0 (I3 0 0 0))) /\
  ob_face own_U 0 = true /\ ob_face own_U 1 = true /\ ob_face own_U 2 = false.
Proof.
  split; [exact own_runs|]. split; [exact own_runs1|]. split; [apply ProofHydro.pg_lawful, own_gas_ok|]. split; [exact I|]. split; [exact I|].
  split; [exact own_gas_ok|]. split; [left; reflexivity|]. split; [reflexivity|]. split; [exact own_corner|]. repeat split.
Qed.

(** The restart from the first file of that run. *)
Example C100_example_restart :
  let m1 := fresh own_p (own_init own_K ex_N own_L own_U (setup_state own_s own_K (pg_thermo own_gas) ex_N own_L)) in
  exists f, loop (own_hydro own_K ex_N own_L own_U (4 / 10)) own_p never 0 m1 = (m1, Going) /\ last_file m1 f /\ fl_iter f = m_iter m1 /\
  (forall r c, process 2 ex_dims r -> owned 2 2 (d_nloc (l_dec own_L r)) c -> valid_cons 2 (cons_of (s_cell (fl_data f r) c))) /\
  starts_from own_K ex_dims own_L (global_fields own_s own_K (pg_thermo own_gas) ex_N ex_X) (fl_data f) /\
  starts_from own_K one_process own_L1 (global_fields own_s own_K (pg_thermo own_gas) ex_N ex_X) (setup_state own_s own_K (pg_thermo own_gas) ex_N own_L1) /\
  (forall r, process 2 one_process r -> made_on own_K own_L1 r (s_grav (setup_state own_s own_K (pg_thermo own_gas) ex_N own_L1 r))).
Proof. exact own_first. Qed.
