(** * C99: runs respect the symmetries of the grid. *)
From Verif Require Import Base RBase ModelMesh ModelGeom ModelBoundary ModelHydro ModelScheme ModelStep
  SpecMesh SpecGeom SpecBoundary SpecHydro SpecScheme SpecStep SpecSource SpecFill SpecSym
  ProofBase ProofHydro ProofSourceEx ProofMirror ProofStepEx ProofLayout ProofSym2 ProofSym3 ProofSymEx.
Local Open Scope R_scope.

(** Axes renamed: whole runs with the time steps the run chooses itself, all solvers and limiters, the pressure fix,
    the user step, uniform gravity, all boundary conditions in any order, each run on its own process grid. *)
Theorem C99_axes_renamed :
  forall K K' sigma tau N N' dims dims' X X' L L' G G' S S' cfl n t,
  axis_perm (k_nd K) sigma tau -> relabelled_run tau K K' -> relabelled_mesh tau N N' X X' -> relabelled_fields tau G G' ->
  runs_on K N dims X L -> runs_on K' N' dims' X' L' ->
  starts_from K dims L G S -> starts_from K' dims' L' G' S' ->
  let e := run_cfl K L cfl n t (init_state K L S) in let e' := run_cfl K' L' cfl n t (init_state K' L' S') in
  fst e' = fst e /\ corresponding (relabel_idx tau) (relabel_cell tau) (relabel_vec tau) K K' dims dims' L L' (snd e) (snd e').
Proof. exact relabelled_runs. Qed.
Print Assumptions C99_axes_renamed.

(** Hence a run that starts symmetric about a diagonal stays so: this is the case [K' = K] of one run. *)
Theorem C99_symmetric_runs_stay_symmetric :
  forall K sigma tau N dims X L G S cfl n t,
  axis_perm (k_nd K) sigma tau -> relabelled_run tau K K -> relabelled_mesh tau N N X X -> relabelled_fields tau G G ->
  runs_on K N dims X L -> starts_from K dims L G S ->
  let e := snd (run_cfl K L cfl n t (init_state K L S)) in
  forall r c r' c', process (k_nd K) dims r -> in_array (d_nwg (l_dec L r)) c ->
    process (k_nd K) dims r' -> in_array (d_nwg (l_dec L r')) c' -> cell_number K L r' c' = relabel_idx tau (cell_number K L r c) ->
    c_rho (s_cell (e r') c') = c_rho (s_cell (e r) c) /\ (forall d, c_rhou (s_cell (e r') c') d = c_rhou (s_cell (e r) c) (tau d)) /\
    c_E (s_cell (e r') c') = c_E (s_cell (e r) c) /\ s_P (e r') c' = s_P (e r) c.
Proof. exact symmetric_runs. Qed.
Print Assumptions C99_symmetric_runs_stay_symmetric.

Example C99_example_axes :
  (forall b G, axis_perm 2 swap swap /\ relabelled_run swap (ex_K b Cartesian) (ex_K (sw_bcs b) Cartesian) /\
   relabelled_mesh swap ex_N sw_N ex_X sw_X /\ relabelled_fields swap G (sw_G G) /\
   runs_on (ex_K b Cartesian) ex_N ex_dims ex_X (ex_L b Cartesian) /\
   runs_on (ex_K (sw_bcs b) Cartesian) sw_N sw_dims sw_X (sw_L b)) /\
  axis_perm 2 swap swap /\ relabelled_run swap sq_K sq_K /\ relabelled_mesh swap sq_N sq_N sq_X sq_X /\ relabelled_fields swap sq_G sq_G /\
  runs_on sq_K sq_N sq_dims sq_X sq_L /\ starts_from sq_K sq_dims sq_L sq_G (the_state sq_K sq_L sq_G).
Proof. split; [exact sym_example_axes|exact sym_example_square]. Qed.

(** In a mirror, without the pressure fix, as long as the reconstructed states of the run are physical. *)
Theorem C99_mirror_image_partial :
  forall K K' d N dims dims' X X' L L' G G' S S' cfl n t, lawful_eos (k_eos K) ->
  mirrored_run d K K' -> mirrored_mesh (k_nd K) (k_ng K) d N X X' -> mirrored_fields d N G G' ->
  runs_on K N dims X L -> runs_on K' N dims' X' L' ->
  starts_from K dims L G S -> starts_from K' dims' L' G' S' ->
  sane_run K dims L cfl n t (init_state K L S) ->
  let e := run_cfl K L cfl n t (init_state K L S) in let e' := run_cfl K' L' cfl n t (init_state K' L' S') in
  fst e' = fst e /\ corresponding (mirror_idx d N) (negate_momentum d) (mirror_vec d) K K' dims dims' L L' (snd e) (snd e').
Proof. exact mirrored_runs. Qed.
Print Assumptions C99_mirror_image_partial.

Example C99_example_mirror :
  forall d cfl n t, (d < 2)%nat ->
  let u0 : vec := fun k => match k with O => 3 | _ => 0 end in
  let K := ex_K ex_bcs Cartesian in let K' := ex_K (mi_bcs d ex_bcs) Cartesian in
  lawful_eos (k_eos K) /\ mirrored_run d K K' /\ mirrored_mesh (k_nd K) (k_ng K) d ex_N ex_X ex_X /\
  mirrored_fields d ex_N (ex_G u0) (ex_G (mirror_vec d u0)) /\
  runs_on K ex_N ex_dims ex_X (ex_L ex_bcs Cartesian) /\ runs_on K' ex_N ex_dims ex_X (ex_L (mi_bcs d ex_bcs) Cartesian) /\
  starts_from K ex_dims (ex_L ex_bcs Cartesian) (ex_G u0) (the_state K (ex_L ex_bcs Cartesian) (ex_G u0)) /\
  sane_run K ex_dims (ex_L ex_bcs Cartesian) cfl n t (init_state K (ex_L ex_bcs Cartesian) (the_state K (ex_L ex_bcs Cartesian) (ex_G u0))).
Proof. exact sym_example_mirror. Qed.

(** With the pressure fix a shear flow is cooled and its mirror image is heated. *)
Theorem C99_pressure_fix_in_a_mirror_refuted :
  forall e l m h dt eps rate M, lawful_eos e -> (forall d, (d < 3)%nat -> 0 < h d) -> even_mesh m h ->
  forall rho0 P0 fx0, 0 < rho0 -> 0 < P0 -> forall old old' a_new a_new' c,
  eos_evol e rho0 P0 < eps / 10 * (rho0 * (rate * mxc m 1 (jj c)) ^ 2 / 2) -> 0 < eps -> 0 < dt -> 0 < rate ->
  let u s : field4 := fun c k => match k with O => s * rate * mxc m 1 (jj c) | _ => 0 end in
  let a s := fun c => gas 2 e rho0 (u s c) P0 fx0 in
  let new s o x := pressure_fix (fun _ => true) Cartesian 2 e m dt eps (a s) (half_step 2 e l m (fun _ _ => 0) dt (a s) (u s) (fun _ => P0) o) x in
  (forall c, mesh_refl 0 M m m c) /\
  (forall c, a (-1) (refl 0 M c) = negate_momentum 0 (a 1 c)) /\
  c_E (new 1 old a_new c) < c_E (a 1 c) < c_E (new (-1) old' a_new' (refl 0 M c)).
Proof. exact fix_mirror. Qed.
Print Assumptions C99_pressure_fix_in_a_mirror_refuted.

(** Hypotheses met: unit cells, a cold shear. *)
Example C99_example_shear :
  lawful_eos w_eos /\ even_mesh line_mesh (fun _ => 1) /\
  eos_evol w_eos 1 (2 / 3) < 1 / 10 * (1 * (10 * mxc line_mesh 1 (jj (I3 0 9 0))) ^ 2 / 2).
Proof.
  split; [apply pg_lawful; split; cbn; lra|]. split; [exact line_even|].
  cbn [eos_evol w_eos pg_eos]. rewrite pg_evol by (first [lra|split; cbn; lra]). unfold mxc, line_mesh. cbn. lra.
Qed.
