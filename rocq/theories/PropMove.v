(** * C43, C54, C57: moving grid, its restart, and the shift criterion of the v1d setup. *)
From Coq Require Import Lra ZifyBool.
From Verif Require Import Base RBase ModelMesh ModelGeom ModelBoundary ModelHydro ModelScheme ModelStep ModelMain ModelMove
  SpecMesh SpecGeom SpecBoundary SpecHydro SpecScheme SpecStep SpecMain SpecMove
  ProofLayout ProofStepEx ProofMainEx ProofMove ProofV1d ProofMoveRun ProofMoveEx.
Local Open Scope R_scope.

(** ** C54 *)

(** The coordinates after one shift: defined whenever there are four interfaces; one to the left; the new last width
    continues the ratio of the last two; still increasing. *)
Theorem C54_coordinates_move_by_one : forall x, (4 <= a_ext x)%Z -> rising x ->
  exists y, shift_coords x = Ok y /\ a_ext y = a_ext x /\ rising y /\
    (forall i, (0 <= i < a_ext x - 1)%Z -> a_at y i = a_at x (i + 1)%Z) /\
    let n := a_ext x in
    (a_at y (n - 1)%Z - a_at y (n - 2)%Z) / (a_at y (n - 2)%Z - a_at y (n - 3)%Z) =
    (a_at x (n - 1)%Z - a_at x (n - 2)%Z) / (a_at x (n - 2)%Z - a_at x (n - 3)%Z).
Proof. exact shift_one. Qed.
Print Assumptions C54_coordinates_move_by_one.

(** Any number of shifts. *)
Theorem C54_coordinates_after_many_shifts : forall k x, (4 <= a_ext x)%Z -> rising x ->
  exists y, shifts k x y /\ (forall z, shifts k x z -> z = y) /\ a_ext y = a_ext x /\ rising y /\
    forall i, (0 <= i)%Z -> (i + Z.of_nat k < a_ext x)%Z -> a_at y i = a_at x (i + Z.of_nat k)%Z.
Proof. exact shifts_all. Qed.
Print Assumptions C54_coordinates_after_many_shifts.

(** Meshes whose widths are in constant ratio [q] (1 for uniform ones) keep being the mesh of the same formula. *)
Theorem C54_geometric_meshes_are_kept : forall f q, q <> 0 -> (forall i : Z, f (i + 1)%Z <> f i) ->
  (forall i : Z, f (i + 2)%Z - f (i + 1)%Z = q * (f (i + 1)%Z - f i)) ->
  forall k x y, (forall i, (0 <= i < a_ext x)%Z -> a_at x i = f i) -> shifts k x y ->
  a_ext y = a_ext x /\ forall i, (0 <= i < a_ext x)%Z -> a_at y i = f (i + Z.of_nat k)%Z.
Proof. exact geometric_kept. Qed.
Print Assumptions C54_geometric_meshes_are_kept.

(** A step in which the grid shifts, on any process grid: coordinates as above in the first direction and unchanged in
    the others, the local coordinates of every process are defined, and every owned cell gets what the step without
    shift computed in its right neighbour (owned, exchanged or boundary ghost cell). *)
Theorem C54_a_shift_moves_every_cell_by_one :
  forall K N dims X0 L crit rmax t dt g, runs_on K N dims X0 L -> global_coords (k_nd K) N (k_ng K) (v_x g) ->
  let plain := full_step (with_bcs K (v_bcs g)) (relaid L (v_x g)) t dt (v_st g) in
  let g' := move_step K L (ii N) crit rmax t dt g in
  (v_on g && crit (relaid L (v_x g)) (fun r => s_cell (plain r)))%bool = true ->
  a_at (v_x g 0%nat) (ii N + k_ng K + 1)%Z < rmax ->
  shift_coords (v_x g 0%nat) = Ok (v_x g' 0%nat) /\ (forall d, d <> 0%nat -> v_x g' d = v_x g d) /\
  (forall r, process (k_nd K) dims r -> exists m, set_grid (l_dec L r) (v_x g') = Ok m) /\
  v_on g' = v_on g /\ v_bcs g' = v_bcs g /\
  forall r c, process (k_nd K) dims r -> owned (k_nd K) (k_ng K) (d_nloc (l_dec L r)) c ->
    in_array (d_nwg (l_dec L r)) (east c) /\ s_cell (v_st g' r) c = s_cell (plain r) (east c).
Proof. exact (fun K N dims X0 L crit rmax t dt g HR HX => step_shift K N dims X0 L crit rmax HR t dt g HX). Qed.
Print Assumptions C54_a_shift_moves_every_cell_by_one.

(** Otherwise the step is the one without moving grid; where the grid has reached rmax_shift, owned cells are those of
    the step without moving grid, no more shifts follow, and the outer boundary becomes a null-gradient one. *)
Theorem C54_other_steps :
  forall K N dims X0 L crit rmax t dt g, runs_on K N dims X0 L -> global_coords (k_nd K) N (k_ng K) (v_x g) ->
  let plain := full_step (with_bcs K (v_bcs g)) (relaid L (v_x g)) t dt (v_st g) in
  let g' := move_step K L (ii N) crit rmax t dt g in
  ((v_on g && crit (relaid L (v_x g)) (fun r => s_cell (plain r)))%bool = false ->
     v_x g' = v_x g /\ v_on g' = v_on g /\ v_bcs g' = v_bcs g /\ v_st g' = plain) /\
  ((v_on g && crit (relaid L (v_x g)) (fun r => s_cell (plain r)))%bool = true ->
   rmax <= a_at (v_x g 0%nat) (ii N + k_ng K + 1)%Z ->
     v_x g' = v_x g /\ v_on g' = false /\ v_bcs g' 1%nat = NullGradient /\
     (forall f, f <> 1%nat -> v_bcs g' f = v_bcs g f) /\
     forall r c, process (k_nd K) dims r -> owned (k_nd K) (k_ng K) (d_nloc (l_dec L r)) c ->
       s_cell (v_st g' r) c = s_cell (plain r) c).
Proof.
  exact (fun K N dims X0 L crit rmax t dt g HR HX =>
    conj (step_no_shift K N L crit rmax t dt g) (step_stops K N dims X0 L crit rmax HR t dt g HX)).
Qed.
Print Assumptions C54_other_steps.

(** Any list of steps gives the same coordinates, boundary conditions and global arrays on any two process grids. *)
Theorem C54_independent_of_the_process_grid :
  forall K N dims dims' X L L' L1 crit rmax G S S' ts,
  runs_on K N dims X L -> runs_on K N dims' X L' -> laid_out K N one_process X L1 ->
  decides_alike K N dims L L1 crit -> decides_alike K N dims' L' L1 crit ->
  starts_from K dims L G S -> starts_from K dims' L' G S' ->
  same_moving K N dims L dims' L' (move_run K L (ii N) crit rmax ts (move_init K L X S))
                                  (move_run K L' (ii N) crit rmax ts (move_init K L' X S')).
Proof. exact move_run_same. Qed.
Print Assumptions C54_independent_of_the_process_grid.

(** The criterion of v1d with a positive threshold is one of those. *)
Theorem C54_v1d_decides_alike : forall K N dims X L L1 cs thr,
  runs_on K N dims X L -> runs_on K N one_process X L1 -> 0 < thr ->
  (forall r, process (k_nd K) dims r -> ii r = (ii (mpi_dims (k_nd K) dims) - 1)%Z -> (cs <= ii (d_nloc (l_dec L r)))%Z) ->
  (cs <= ii N)%Z ->
  decides_alike K N dims L L1 (v1d_decision K cs thr).
Proof. exact v1d_alike. Qed.
Print Assumptions C54_v1d_decides_alike.

(** A mesh whose cells grow by the factor 2; a gas on 3 x 2 processes whose grid shifts in the first step. *)
Example C54_example_mesh : let x := mkArr1 5 (fun i => if (i =? 0)%Z then 1 else if (i =? 1)%Z then 2 else if (i =? 2)%Z then 4 else if (i =? 3)%Z then 8 else 16) in
  (4 <= a_ext x)%Z /\ rising x /\ forall y, shift_coords x = Ok y -> a_at y 0 = 2 /\ a_at y 4 = 32.
Proof.
  intros x. split; [cbn; lia|]. split.
  - intros i Hi. cbn in Hi. assert (i = 0 \/ i = 1 \/ i = 2 \/ i = 3)%Z as [->|[->|[->| ->]]] by lia; cbn; lra.
  - intros y H. destruct (shift_coords_at _ _ H) as (_ & _ & A & B). cbn in B.
    rewrite (A 3%Z), (A 2%Z), (A 1%Z) in B by (cbn; lia). rewrite (A 0%Z) by (cbn; lia). cbn in *. split; [lra|]. lra.
Qed.
Example C54_example_run :
  let K := ex_K ex_bcs Cartesian in let L := ex_L ex_bcs Cartesian in let L1 := ex_L1 ex_bcs Cartesian in
  let g := move_init K L ex_X (the_state K L (ex_G ex_u)) in let crit := fun _ _ => true in
  runs_on K ex_N ex_dims ex_X L /\ laid_out K ex_N one_process ex_X L1 /\ decides_alike K ex_N ex_dims L L1 crit /\
  global_coords 2 ex_N 2 (v_x g) /\ v_on g = true /\ a_at (v_x g 0%nat) (ii ex_N + 2 + 1) < 1000 /\
  starts_from K ex_dims L (ex_G ex_u) (the_state K L (ex_G ex_u)).
Proof.
  intros K L L1 g crit. split; [apply ex_runs|]. split; [apply ex_laid1|]. split; [intros X W W1 _ _; reflexivity|].
  split; [exact ex_coords|]. split; [reflexivity|]. split; [cbn; lra|apply the_state_ok].
Qed.

(** ** C57 *)

(** Without a floor problem (positive threshold) the criterion fires iff the radial velocity reaches the threshold in
    some cell of a window of [cell_shift + Nghost] radial cells: from [Nx - cell_shift] in the array's numbering, in
    which owned cells begin at [Nghost].  (With [cell_shift > Nx - Nghost] that includes inner ghost cells.) *)
Theorem C57_fires_iff_the_window_is_fast_partial :
  forall K N dims X L cs thr W S b, runs_on K N dims X L -> 0 < thr -> slice_of (k_nd K) dims (l_dec L) W S ->
  v1d_criterion K L cs thr W = Ok b ->
  b = true <-> exists c, in_shell K N (ii N - cs) (ii N + k_ng K) c /\ thr <= radial_velocity (S c).
Proof. exact v1d_window_iff. Qed.
Print Assumptions C57_fires_iff_the_window_is_fast_partial.

(** In particular it never misses a fast cell among the last [cell_shift] ones. *)
Theorem C57_never_misses_a_fast_cell :
  forall K N dims X L cs thr W S b, runs_on K N dims X L -> slice_of (k_nd K) dims (l_dec L) W S ->
  v1d_criterion K L cs thr W = Ok b ->
  forall c, last_cells K N cs c -> thr <= radial_velocity (S c) -> b = true.
Proof. exact v1d_no_miss. Qed.
Print Assumptions C57_never_misses_a_fast_cell.

(** It throws iff the last process has fewer cells than the window asked for. *)
Theorem C57_refuses_windows_beyond_the_last_process :
  forall K N dims X L cs thr W r, runs_on K N dims X L -> process (k_nd K) dims r ->
  ii r = (ii (mpi_dims (k_nd K) dims) - 1)%Z ->
  ((exists what, v1d_criterion K L cs thr W = Throw what) <-> (ii (d_nloc (l_dec L r)) < cs)%Z) /\
  ((exists b, v1d_criterion K L cs thr W = Ok b) <-> (cs <= ii (d_nloc (l_dec L r)))%Z).
Proof. exact (fun K N dims X L cs thr W r HR => v1d_passes K N dims X L cs thr W HR r). Qed.
Print Assumptions C57_refuses_windows_beyond_the_last_process.

Theorem C57_same_on_all_process_grids :
  forall K N dims dims' X L L' cs thr W W' S b b', runs_on K N dims X L -> runs_on K N dims' X L' -> 0 < thr ->
  slice_of (k_nd K) dims (l_dec L) W S -> slice_of (k_nd K) dims' (l_dec L') W' S ->
  v1d_criterion K L cs thr W = Ok b -> v1d_criterion K L' cs thr W' = Ok b' -> b = b'.
Proof. exact v1d_same. Qed.
Print Assumptions C57_same_on_all_process_grids.

(** The window is larger than asked for: it fires although all of the last [cell_shift] cells are at rest. *)
Theorem C57_window_reaches_too_far_refuted :
  exists K N X L cs thr W S, runs_on K N one_process X L /\ (1 <= cs <= ii N)%Z /\ 0 < thr /\
    slice_of (k_nd K) one_process (l_dec L) W S /\
    v1d_criterion K L cs thr W = Ok true /\
    forall c, last_cells K N cs c -> radial_velocity (S c) = 0.
Proof.
  destruct window_example as (W & A & B & C).
  exists (fall_K 0), fall_N, fall_X, (fall_L 0), 1%Z, 1, W, puff.
  split; [apply fall_runs|]. split; [cbn; lia|]. split; [lra|]. split; [exact A|]. split; [exact B|exact C].
Qed.
Print Assumptions C57_window_reaches_too_far_refuted.

(** The floor of 0 applies only when the first direction is distributed: for a threshold that is not positive, one
    and two processes decide differently on the same gas. *)
Theorem C57_floor_depends_on_the_process_grid_refuted :
  exists K N X L dims' L' cs thr S, runs_on K N one_process X L /\ runs_on K N dims' X L' /\
    (forall c, radial_velocity (S c) < thr) /\
    v1d_criterion K L cs thr (fun _ => S) = Ok false /\ v1d_criterion K L' cs thr (fun _ => S) = Ok true /\
    slice_of (k_nd K) one_process (l_dec L) (fun _ => S) S /\ slice_of (k_nd K) dims' (l_dec L') (fun _ => S) S.
Proof.
  exists (fall_K 0), fall_N, fall_X, (fall_L 0), two, (the_layout (fall_K 0) fall_N two fall_X), 1%Z, 0, inward.
  split; [apply fall_runs|]. split; [apply fall_runs2|]. split; [intros c; unfold radial_velocity; cbn; lra|].
  split; [apply floor_example|]. split; [apply floor_example|]. split; intros r _ c _; reflexivity.
Qed.
Print Assumptions C57_floor_depends_on_the_process_grid_refuted.

Example C57_example : exists b, v1d_criterion (fall_K 0) (fall_L 0) 2 1 (fun _ => puff) = Ok b.
Proof.
  apply (v1d_passes (fall_K 0) fall_N one_process fall_X (fall_L 0) 2 1 (fun _ => puff) (fall_runs 0) rank0 rank0_process eq_refl).
  vm_compute. congruence.
Qed.

(** ** C43 *)

(** A restart from a file written while shifting is still active, or in a run whose outer boundary was a null-gradient
    one from the beginning, on any (other) process grid: everything as in the uninterrupted run, coordinates and
    boundary conditions included. *)
Theorem C43_restart_before_deactivation_partial :
  forall K N dims dims' X0 L L' L1 crit rmax cfl p clock clock',
  runs_on K N dims X0 L -> runs_on K N dims' X0 L' -> laid_out K N one_process X0 L1 ->
  decides_alike K N dims L L1 crit -> decides_alike K N dims' L' L1 crit -> lawful_eos (k_eos K) ->
  forall G0 S0 k m1 f G Rst, starts_from K dims L G0 S0 ->
  loop (moving K L (ii N) crit rmax cfl) p clock k (fresh p (move_init K L X0 S0)) = (m1, Going) ->
  last_file m1 f -> fl_iter f = m_iter m1 ->
  (v_on (fl_data f) = true \/ k_bcs K 1%nat = NullGradient) ->
  (forall r c, process (k_nd K) dims r -> owned (k_nd K) (k_ng K) (d_nloc (l_dec L r)) c ->
     valid_cons (k_nd K) (cons_of (s_cell (v_st (fl_data f) r) c))) ->
  starts_from K dims L G (v_st (fl_data f)) -> starts_from K dims' L' G Rst ->
  (forall i, (m_iter m1 <= i)%Z -> clock i = clock' i) ->
  forall j m v m' v',
    loop (moving K L (ii N) crit rmax cfl) p clock (k + j) (fresh p (move_init K L X0 S0)) = (m, v) ->
    loop (moving K L' (ii N) crit rmax cfl) p clock' j (restarted f (move_init K L' (v_x (fl_data f)) Rst)) = (m', v') ->
    v' = v /\ m_oid m' = m_oid m /\ m_iter m' = m_iter m /\ m_t m' = m_t m /\
    same_moving K N dims L dims' L' (m_st m) (m_st m') /\
    exists F, m_files m = m_files m1 ++ F /\ Forall2 (same_file (same_moving K N dims L dims' L') 0) F (m_files m').
Proof. exact move_restart. Qed.
Print Assumptions C43_restart_before_deactivation_partial.

(** A gas between walls.  The first step of any duration reaches rmax_shift and opens the right wall; the run restarted
    from there has the wall again: its ghost cells mirror the momentum that the other run lets out. *)
Theorem C43_wall_comes_back_after_restart_refuted :
  exists K N X L G0 S0 rmax, runs_on K N one_process X L /\ lawful_eos (k_eos K) /\ starts_from K one_process L G0 S0 /\
  forall t dt G Rst, 0 < dt ->
  let g1 := move_step K L (ii N) (fun _ _ => true) rmax t dt (move_init K L X S0) in
  let g' := move_init K L (v_x g1) Rst in
  starts_from K one_process L G (v_st g1) -> starts_from K one_process L G Rst ->
  v_bcs g1 1%nat = NullGradient /\ v_bcs g' 1%nat = Reflexive /\
  exists c, in_array (d_nwg (l_dec L rank0)) c /\
    c_rhou (s_cell (v_st g1 rank0) c) 0%nat = dt /\ c_rhou (s_cell (v_st g' rank0) c) 0%nat = - dt.
Proof.
  exists (fall_K 1), fall_N, fall_X, (fall_L 1), fall_G, (the_state (fall_K 1) (fall_L 1) fall_G), 0.
  split; [apply fall_runs|]. split; [exact ex_eos|]. split; [apply the_state_ok|].
  intros t dt G Rst Hdt g1 g' HG HR. destruct (fall_restart t dt G Rst HG HR) as (_ & _ & A & B & C & D).
  split; [exact A|]. split; [exact B|]. exists (I3 6 0 0). split; [|split; [exact C|exact D]].
  intros d Hd. destruct d as [|[|[|d]]]; [vm_compute; split; congruence..|lia].
Qed.
Print Assumptions C43_wall_comes_back_after_restart_refuted.

(** A gas on 3 x 2 processes whose grid shifted in its first step, written, and restarted on one process. *)
Example C43_example :
  let K := ex_K ex_bcs Cartesian in let L := ex_L ex_bcs Cartesian in let L1 := ex_L1 ex_bcs Cartesian in
  let G := ex_G ex_u in let S0 := the_state K L G in let crit := fun _ _ => true in
  exists m1 f Rst,
  runs_on K ex_N ex_dims ex_X L /\ runs_on K ex_N one_process ex_X L1 /\ lawful_eos (k_eos K) /\
  decides_alike K ex_N ex_dims L L1 crit /\ decides_alike K ex_N one_process L1 L1 crit /\
  starts_from K ex_dims L G S0 /\
  loop (moving K L 7 crit 1000 (1 / 2)) gas_p never 1 (fresh gas_p (move_init K L ex_X S0)) = (m1, Going) /\
  last_file m1 f /\ fl_iter f = m_iter m1 /\ v_on (fl_data f) = true /\ a_at (v_x (fl_data f) 0%nat) 2 = 3 /\
  (forall r c, process 2 ex_dims r -> owned 2 2 (d_nloc (l_dec L r)) c -> valid_cons 2 (cons_of (s_cell (v_st (fl_data f) r) c))) /\
  starts_from K ex_dims L G (v_st (fl_data f)) /\ starts_from K one_process L1 G Rst.
Proof. exact sg_example. Qed.
