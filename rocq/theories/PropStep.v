(** * Whole time steps on any process grid: C22-C27, C35. *)
From Verif Require Import Base RBase ModelMesh ModelGeom ModelBoundary ModelHydro ModelScheme ModelStep
  SpecMesh SpecGeom SpecBoundary SpecHydro SpecScheme SpecStep
  ProofLayout ProofSteady ProofCfl ProofStepEx.
Local Open Scope R_scope.

(** ** C35 *)

(** Any number of steps of any durations, from any initial fields, on any process grid with wide enough
    subdomains: every process ends with the slice of the single-process arrays, ghosts included.
    [S] and [S1] hold the initial fields [G] on owned cells and anything elsewhere. *)
Theorem C35_any_process_grid :
  forall K N dims X L, runs_on K N dims X L ->
  forall L1 G S S1 ts, laid_out K N one_process X L1 ->
    starts_from K dims L G S -> starts_from K one_process L1 G S1 ->
    same_results K dims L (run K L ts (init_state K L S)) (run K L1 ts (init_state K L1 S1)).
Proof. exact same_results_run. Qed.
Print Assumptions C35_any_process_grid.

(** The same with the time steps chosen by the run itself. *)
Theorem C35_with_cfl_time_steps :
  forall K N dims X L, runs_on K N dims X L ->
  forall L1 G S S1 cfl n t, laid_out K N one_process X L1 ->
    starts_from K dims L G S -> starts_from K one_process L1 G S1 ->
    let end_ := run_cfl K L cfl n t (init_state K L S) in
    let end1 := run_cfl K L1 cfl n t (init_state K L1 S1) in
    fst end_ = fst end1 /\ same_results K dims L (snd end_) (snd end1).
Proof. exact same_results_cfl. Qed.
Print Assumptions C35_with_cfl_time_steps.

(** 7 x 5 cells on 3 x 2 processes, with a mix of boundary conditions. *)
Example C35_example :
  let K := ex_K ex_bcs Cartesian in
  runs_on K ex_N ex_dims ex_X (ex_L ex_bcs Cartesian) /\ laid_out K ex_N one_process ex_X (ex_L1 ex_bcs Cartesian) /\
  forall G, starts_from K ex_dims (ex_L ex_bcs Cartesian) G (the_state K (ex_L ex_bcs Cartesian) G) /\
            starts_from K one_process (ex_L1 ex_bcs Cartesian) G (the_state K (ex_L1 ex_bcs Cartesian) G).
Proof.
  split; [apply ex_runs|]. split; [apply ex_laid1|]. intros G. split; apply the_state_ok.
Qed.

(** ** C27 *)

(** Whatever the order and association in which the per-cell values of all processes are combined, the time
    step, the minimum internal energy and the total mass are the same as with one process (also combined in
    any order), and are what the program's functions return. *)
Theorem C27_reductions_do_not_depend_on_the_grid :
  forall K N dims X L, runs_on K N dims X L ->
  forall L1 S S1, laid_out K N one_process X L1 -> same_results K dims L S S1 ->
  (forall v v1, reduction Rmax (all_values K L (k_ng K) (cell_inverse_dt K L S)) v ->
     reduction Rmax (all_values K L1 (k_ng K) (cell_inverse_dt K L1 S1)) v1 ->
     v = v1 /\ time_step K L S = Some (1 / v) /\ time_step K L1 S1 = Some (1 / v1)) /\
  (forall v v1, reduction Rmin (all_values K L 0 (cell_internal K S)) v ->
     reduction Rmin (all_values K L1 0 (cell_internal K S1)) v1 -> v = v1 /\ minimum_internal_energy K L S = Some v) /\
  (let rho U := fun r c => c_rho (s_cell (U r) c) in
   forall v v1, reduction Rplus (all_values K L 0 (fun r c => rho S r c * dv (k_geom K) (k_nd K) (l_mesh L r) c)) v ->
     reduction Rplus (all_values K L1 0 (fun r c => rho S1 r c * dv (k_geom K) (k_nd K) (l_mesh L1 r) c)) v1 ->
     v = v1 /\ integrate K L (rho S) = v).
Proof. exact reductions_same. Qed.
Print Assumptions C27_reductions_do_not_depend_on_the_grid.

(** Reductions exist; two ways of combining the same four values. *)
Example C27_example :
  (forall op x l, exists v, reduction op (x :: l) v) /\
  reduction Rplus [1; 2; 3; 4] (1 + (2 + (3 + 4))) /\ reduction Rplus [1; 2; 3; 4] ((4 + 1) + (2 + 3)).
Proof.
  split; [exact reduction_exists|]. split.
  - apply (red_op Rplus _ [1] [2; 3; 4]); [reflexivity|constructor|].
    apply (red_op Rplus _ [2] [3; 4]); [reflexivity|constructor|].
    apply (red_op Rplus _ [3] [4]); [reflexivity|constructor|constructor].
  - apply (red_op Rplus _ [4; 1] [2; 3]).
    + exact (Permutation.Permutation_sym (Permutation.Permutation_cons_append [1; 2; 3] 4)).
    + apply (red_op Rplus _ [4] [1]); [reflexivity|constructor|constructor].
    + apply (red_op Rplus _ [2] [3]); [reflexivity|constructor|constructor].
Qed.

(** ** C22 *)

(** Total mass and every momentum component are the initial ones after any number of steps, for all initial
    fields; so is total energy unless the pressure fix or a user step changes it. *)
Theorem C22_periodic_runs_conserve :
  forall K N dims X L, runs_on K N dims X L ->
  forall G S ts,
    (forall f, (f < 2 * k_nd K)%nat -> k_bcs K f = Periodic) -> k_geom K = Cartesian -> weightless K ->
    periodic_widths (k_nd K) N (k_ng K) X -> increasing (k_nd K) N (k_ng K) X ->
    starts_from K dims L G S ->
    let S0 := init_state K L S in
    let S1 := run K L ts S0 in
    integrate K L (fun r c => c_rho (s_cell (S1 r) c)) = integrate K L (fun r c => c_rho (s_cell (S0 r) c)) /\
    (forall k, integrate K L (fun r c => c_rhou (s_cell (S1 r) c) k) = integrate K L (fun r c => c_rhou (s_cell (S0 r) c) k)) /\
    (k_pf K = None -> k_user K = UOff ->
       integrate K L (fun r c => c_E (s_cell (S1 r) c)) = integrate K L (fun r c => c_E (s_cell (S0 r) c))).
Proof. exact conserved. Qed.
Print Assumptions C22_periodic_runs_conserve.

Example C22_example :
  let K := ex_K (fun _ => Periodic) Cartesian in
  runs_on K ex_N ex_dims ex_X (ex_L (fun _ => Periodic) Cartesian) /\ weightless K /\
  periodic_widths 2 ex_N 2 ex_X /\ increasing 2 ex_N 2 ex_X /\ k_pf K = None /\ k_user K = UOff.
Proof.
  split; [apply ex_runs|]. split; [exists (fun _ => 0); auto|]. split; [apply ex_widths|]. split; [apply ex_widths|]. auto.
Qed.

(** ** C23, C24 *)

(** Uniform flow on a Cartesian mesh, any spacing; walls must not be crossed by the flow, and the pressure
    fix, if on, must not be triggered by the state. *)
Theorem C23_uniform_flow_preserved :
  forall K N dims X L, runs_on K N dims X L ->
  forall G S ts rho0 u0 P0 fx0,
    lawful_eos (k_eos K) -> weightless K -> k_user K = UOff -> k_geom K = Cartesian ->
    (forall f, (f < 2 * k_nd K)%nat -> k_bcs K f = Reflexive -> u0 (f / 2)%nat = 0) ->
    (forall eps, k_pf K = Some eps -> eps * (rho0 * vsum (k_nd K) (fun d => u0 d ^ 2) / 2) <= eos_evol (k_eos K) rho0 P0) ->
    0 < rho0 -> 0 < P0 -> (forall n, 0 <= fx0 n <= 1) ->
    uniform_fields rho0 u0 P0 fx0 G -> starts_from K dims L G S ->
    uniform_everywhere K dims L rho0 u0 P0 fx0 (run K L ts (init_state K L S)).
Proof.
  intros K N dims X L HR G S ts rho0 u0 P0 fx0 H1 H2 H3 H4.
  exact (uniform_kept K N dims X L HR G S ts rho0 u0 P0 fx0 H1 H2 H3 (or_introl H4)).
Qed.
Print Assumptions C23_uniform_flow_preserved.

Example C23_example :
  let K := ex_K ex_bcs Cartesian in
  runs_on K ex_N ex_dims ex_X (ex_L ex_bcs Cartesian) /\ lawful_eos (k_eos K) /\ weightless K /\
  (forall f, (f < 2 * k_nd K)%nat -> k_bcs K f = Reflexive -> ex_u (f / 2)%nat = 0) /\
  uniform_fields 1 ex_u 2 (g_fx (ex_G ex_u) rank0) (ex_G ex_u) /\ ex_u 0%nat <> 0 /\
  (forall n, 0 <= g_fx (ex_G ex_u) rank0 n <= 1).
Proof.
  split; [apply ex_runs|]. split; [exact ex_eos|]. split; [exists (fun _ => 0); auto|]. split; [|split; [|split]].
  - intros f Hf. change (f < 4)%nat in Hf. destruct f as [|[|[|[|f]]]]; try lia; cbn; (discriminate || reflexivity).
  - intros c. repeat split.
  - cbn. lra.
  - intros n. destruct n; cbn; lra.
Qed.

(** Gas at rest with uniform density and pressure: in any geometry, spherical included, and with any setting
    of the pressure fix. *)
Theorem C24_uniform_gas_at_rest_stays :
  forall K N dims X L, runs_on K N dims X L ->
  forall G S ts rho0 P0 fx0,
    lawful_eos (k_eos K) -> weightless K -> k_user K = UOff ->
    0 < rho0 -> 0 < P0 -> (forall n, 0 <= fx0 n <= 1) ->
    uniform_fields rho0 (fun _ => 0) P0 fx0 G -> starts_from K dims L G S ->
    uniform_everywhere K dims L rho0 (fun _ => 0) P0 fx0 (run K L ts (init_state K L S)).
Proof.
  intros K N dims X L HR G S ts rho0 P0 fx0 H1 H2 H3 H4 H5 H6.
  exact (uniform_kept K N dims X L HR G S ts rho0 (fun _ => 0) P0 fx0 H1 H2 H3 (or_intror (fun _ => eq_refl))
    (fun _ _ _ => eq_refl) (rest_no_fix K rho0 P0 H1 H4 H5) H4 H5 H6).
Qed.
Print Assumptions C24_uniform_gas_at_rest_stays.

Example C24_example :
  let K := ex_K ex_bcs Spherical in
  runs_on K ex_N ex_dims ex_X (ex_L ex_bcs Spherical) /\ lawful_eos (k_eos K) /\ weightless K /\
  uniform_fields 1 (fun _ => 0) 2 (g_fx (ex_G (fun _ => 0)) rank0) (ex_G (fun _ => 0)).
Proof.
  split; [apply ex_runs|]. split; [exact ex_eos|]. split; [exists (fun _ => 0); auto|]. intros c. repeat split.
Qed.

(** ** C25 *)

(** After at least one step, all scalars are in [0, 1] in all cells, ghosts included, whatever the state was. *)
Theorem C25_scalars_in_bounds :
  forall K N dims X L, runs_on K N dims X L ->
  forall S ts r c n, ts <> [] -> process (k_nd K) dims r -> in_array (d_nwg (l_dec L r)) c ->
    0 <= c_fx (s_cell (run K L ts S r) c) n <= 1.
Proof. exact scalars_bounded. Qed.
Print Assumptions C25_scalars_in_bounds.

(** A uniform scalar stays uniform whatever the flow does, as long as no density vanishes. *)
Theorem C25_uniform_scalar_stays_uniform :
  forall K N dims X L, runs_on K N dims X L ->
  forall G S ts n phi, 0 <= phi <= 1 ->
    starts_from K dims L G S -> (forall c, g_fx G c n = phi) ->
    (forall pre t dt post, ts = pre ++ (t, dt) :: post -> no_vacuum K dims L dt (run K L pre (init_state K L S))) ->
    forall r c, process (k_nd K) dims r -> in_array (d_nwg (l_dec L r)) c ->
      c_fx (s_cell (run K L ts (init_state K L S) r) c) n = phi.
Proof. exact scalar_stays_uniform. Qed.
Print Assumptions C25_uniform_scalar_stays_uniform.

Example C25_example :
  let K := ex_K ex_bcs Cartesian in let L := ex_L ex_bcs Cartesian in
  let S := the_state K L (ex_G ex_u) in
  runs_on K ex_N ex_dims ex_X L /\ starts_from K ex_dims L (ex_G ex_u) S /\ (forall c, g_fx (ex_G ex_u) c 0%nat = 1 / 4) /\
  forall ts pre t dt post, ts = pre ++ (t, dt) :: post -> no_vacuum K ex_dims L dt (run K L pre (init_state K L S)).
Proof.
  split; [apply ex_runs|]. split; [apply the_state_ok|]. split; [reflexivity|]. exact ex_no_vacuum.
Qed.

(** ** C26 *)

(** The time step before multiplication by the CFL number: positive, respected by every cell of every
    process including ghosts, and attained.  Ghost cells may have non-positive widths (cells beyond the
    origin or the axis in spherical geometry), but not zero ones. *)
Theorem C26_time_step :
  forall K N dims X L, laid_out K N dims X L ->
  forall S, lawful_eos (k_eos K) ->
  (forall r c, process (k_nd K) dims r -> owned (k_nd K) (k_ng K) (d_nloc (l_dec L r)) c ->
     0 < c_rho (s_cell (S r) c) /\ 0 < s_P (S r) c /\
     forall d, (d < k_nd K)%nat -> 0 < width (k_geom K) (l_mesh L r) c d) ->
  (forall r c d, process (k_nd K) dims r -> in_array (d_nwg (l_dec L r)) c -> (d < k_nd K)%nat ->
     width (k_geom K) (l_mesh L r) c d <> 0) ->
  exists dt, time_step K L S = Some dt /\ 0 < dt /\
    (forall r c, process (k_nd K) dims r -> in_array (d_nwg (l_dec L r)) c -> dt * crossing_rate K L S r c <= 1) /\
    (exists r c, process (k_nd K) dims r /\ in_array (d_nwg (l_dec L r)) c /\ dt * crossing_rate K L S r c = 1).
Proof. exact cfl_time_step. Qed.
Print Assumptions C26_time_step.

(** Multiplying all velocities and sound speeds by [k] divides the time step by [k]. *)
Theorem C26_scales_inversely :
  forall K N dims X L, laid_out K N dims X L ->
  forall S S' k dt, 0 < k ->
  (forall r c, process (k_nd K) dims r -> in_array (d_nwg (l_dec L r)) c ->
     (forall d, s_u (S' r) c d = k * s_u (S r) c d) /\
     eos_sound (k_eos K) (c_rho (s_cell (S' r) c)) (s_P (S' r) c)
     = k * eos_sound (k_eos K) (c_rho (s_cell (S r) c)) (s_P (S r) c)) ->
  time_step K L S = Some dt -> time_step K L S' = Some (dt / k).
Proof. exact cfl_scaling. Qed.
Print Assumptions C26_scales_inversely.

(** With the perfect gas: velocities times k, pressures times k^2. *)
Example C26_example :
  (let K := ex_K ex_bcs Cartesian in let L := ex_L ex_bcs Cartesian in
   forall r c d, (d < 2)%nat -> width Cartesian (l_mesh L r) c d = 1 \/ ~ process 2 ex_dims r) /\
  (forall g k rho P, 0 < k -> 0 < P -> 0 < rho -> 0 < pg_gamma g ->
     eos_sound (pg_eos g) rho (k ^ 2 * P) = k * eos_sound (pg_eos g) rho P).
Proof. exact c26_example. Qed.
