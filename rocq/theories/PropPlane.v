(** * C107: a flow that varies along fewer axes than the run has dimensions. *)
From Verif Require Import Base RBase ModelMesh ModelGeom ModelBoundary ModelHydro ModelScheme ModelStep
  SpecMesh SpecGeom SpecBoundary SpecHydro SpecScheme SpecStep SpecFill SpecSym SpecPlane
  ProofBase ProofStepEx ProofLayout ProofPlane4 ProofPlane5 ProofPlaneEx.
Local Open Scope R_scope.

(** Whole runs with the same time steps hold the same values, in the ghost cells too, whatever the conditions on the
    additional faces and the two process grids. *)
Theorem C107_same_flow_partial :
  forall K K' N N' dims dims' X X' L L' G G' S S' ts,
  extruded_run K K' -> extruded_mesh (k_nd K) N N' X X' -> no_flat_cells K N X -> no_flat_cells K' N' X' ->
  (k_pf K = None \/ even_along (k_nd K) (k_nd K') X') -> extruded_fields (k_nd K) (k_nd K') N N' G G' ->
  runs_on K N dims X L -> runs_on K' N' dims' X' L' -> starts_from K dims L G S -> starts_from K' dims' L' G' S' ->
  extruded_results K K' dims dims' L L' (run K L ts (init_state K L S)) (run K' L' ts (init_state K' L' S')).
Proof. exact extruded_runs. Qed.
Print Assumptions C107_same_flow_partial.

(** Hypotheses met: a gas that varies along the first axis, 7 cells on 2 processes, against 7 x 5 cells on 3 x 2
    processes between a wall and an open face, Cartesian with the pressure fix and spherical without. *)
Example C107_example : forall g pf, (g = Spherical -> pf = None) ->
  let K := pl_K g pf 1 in let K' := pl_K g pf 2 in let X := pl_X pl_even 1 in let X' := pl_X pl_even 2 in
  let L := pl_L g pf pl_even (pl_dims 1) 1 in let L' := pl_L g pf pl_even (pl_dims 2) 2 in
  extruded_run K K' /\ extruded_mesh (k_nd K) (pl_N 1) (pl_N 2) X X' /\ no_flat_cells K (pl_N 1) X /\ no_flat_cells K' (pl_N 2) X' /\
  even_along (k_nd K) (k_nd K') X' /\ extruded_fields (k_nd K) (k_nd K') (pl_N 1) (pl_N 2) pl_G pl_G /\
  runs_on K (pl_N 1) (pl_dims 1) X L /\ runs_on K' (pl_N 2) (pl_dims 2) X' L' /\
  starts_from K (pl_dims 1) L pl_G (the_state K L pl_G) /\ starts_from K' (pl_dims 2) L' pl_G (the_state K' L' pl_G).
Proof.
  intros g pf Hg K K' X X' L L'.
  split; [now apply pl_extruded|]. split; [apply pl_mesh|]. split; [apply pl_flat; lia|]. split; [apply pl_flat; lia|].
  split; [exact pl_even_along|]. split; [exact pl_fields|]. split; [apply pl_runs; [lia|now left]|]. split; [apply pl_runs; [lia|now left]|].
  split; apply the_state_ok.
Qed.

(** The run with more dimensions chooses a shorter time step from the same gas. *)
Theorem C107_shorter_steps :
  forall K K' N N' X X' L L' S S', lawful_eos (k_eos K) ->
  extruded_run K K' -> extruded_mesh (k_nd K) N N' X X' -> (k_nd K < k_nd K')%nat ->
  runs_on K N one_process X L -> runs_on K' N' one_process X' L' -> extruded_results K K' one_process one_process L L' S S' ->
  (forall c, in_array (d_nwg (l_dec L rank0)) c -> 0 < c_rho (s_cell (S rank0) c) /\ 0 < s_P (S rank0) c /\
     forall d, (d < k_nd K)%nat -> 0 < width (k_geom K) (l_mesh L rank0) c d) ->
  (forall c, in_array (d_nwg (l_dec L' rank0)) c -> 0 < c_rho (s_cell (S' rank0) c) /\ 0 < s_P (S' rank0) c /\
     forall d, (d < k_nd K')%nat -> 0 < width (k_geom K') (l_mesh L' rank0) c d) ->
  exists h h', time_step K L S = Some h /\ time_step K' L' S' = Some h' /\ 0 < h' < h.
Proof. exact shorter_steps. Qed.
Print Assumptions C107_shorter_steps.

(** Hypotheses met: a uniform wind. *)
Example C107_example_steps :
  let K nd := pl_K Cartesian None nd in let L nd := pl_L Cartesian None pl_even one_process nd in
  lawful_eos (k_eos (K 1%nat)) /\ extruded_run (K 1%nat) (K 2%nat) /\ extruded_mesh 1 (pl_N 1) (pl_N 2) (pl_X pl_even 1) (pl_X pl_even 2) /\
  runs_on (K 1%nat) (pl_N 1) one_process (pl_X pl_even 1) (L 1%nat) /\ runs_on (K 2%nat) (pl_N 2) one_process (pl_X pl_even 2) (L 2%nat) /\
  extruded_results (K 1%nat) (K 2%nat) one_process one_process (L 1%nat) (L 2%nat) (pl_S 1) (pl_S 2) /\
  forall nd, (1 <= nd <= 2)%nat -> forall c, in_array (d_nwg (l_dec (L nd) rank0)) c ->
    0 < c_rho (s_cell (pl_S nd rank0) c) /\ 0 < s_P (pl_S nd rank0) c /\
    forall d, (d < k_nd (K nd))%nat -> 0 < width (k_geom (K nd)) (l_mesh (L nd) rank0) c d.
Proof.
  intros K L. split; [exact ex_eos|]. split; [now apply pl_extruded|]. split; [apply pl_mesh|].
  split; [apply pl_runs; [lia|now right]|]. split; [apply pl_runs; [lia|now right]|]. split; [exact pl_S_same|]. exact pl_S_ok.
Qed.

(** With the pressure fix and cells of unequal widths along the additional axis the two runs differ: after one step a
    cold uniform wind has kept its energy in one dimension, and gained or lost some in two. *)
Theorem C107_pressure_fix_refuted :
  forall K K' N N' dims dims' X X' L L' G G' S S' rho0 v P0 eps t dt, lawful_eos (k_eos K) ->
  extruded_run K K' -> extruded_mesh (k_nd K) N N' X X' -> k_nd K = 1%nat -> k_nd K' = 2%nat -> k_geom K = Cartesian ->
  k_pf K = Some eps -> k_user K = UOff -> k_grav K = GUniform (fun _ => 0) -> k_grav K' = GUniform (fun _ => 0) -> k_bcs K 0 <> Reflexive -> k_bcs K 1 <> Reflexive ->
  runs_on K N dims X L -> runs_on K' N' dims' X' L' -> starts_from K dims L G S -> starts_from K' dims' L' G' S' ->
  extruded_fields (k_nd K) (k_nd K') N N' G G' ->
  (forall c, g_rho G c = rho0 /\ (forall d, g_u G c d = if Nat.eqb d 0 then v else 0) /\ g_P G c = P0 /\ forall n, g_fx G c n = 0) ->
  (forall c, g_rho G' c = rho0 /\ (forall d, g_u G' c d = if Nat.eqb d 0 then v else 0) /\ g_P G' c = P0 /\ forall n, g_fx G' c n = 0) ->
  0 < rho0 -> 0 < P0 -> 0 < eps -> let e0 := eos_evol (k_eos K) rho0 P0 in e0 < eps / 10 * (rho0 * (v * v) / 2) ->
  (forall r c, process 1 dims r -> owned 1 (k_ng K) (d_nloc (l_dec L r)) c ->
     c_E (s_cell (run K L [(t, dt)] (init_state K L S) r) c) = e0 + rho0 * (v * v) / 2) /\
  (forall r c, process 2 dims' r -> owned 2 (k_ng K) (d_nloc (l_dec L' r)) c ->
     (forall d, (d < 3)%nat -> mdx (l_mesh L' r) d (coord d c) <> 0) ->
     c_E (s_cell (run K' L' [(t, dt)] (init_state K' L' S') r) c) = e0 + rho0 * (v * v) / 2
       - dt * (P0 + e0) * v * (mdx (l_mesh L' r) 1 (jj c + 1) - mdx (l_mesh L' r) 1 (jj c)) / (mdx (l_mesh L' r) 0 (ii c) * mdx (l_mesh L' r) 1 (jj c))).
Proof. exact fix_breaks_plane. Qed.
Print Assumptions C107_pressure_fix_refuted.

(** Hypotheses met: a wind of velocity 10, threshold 1, widths along the second axis that grow from cell to cell. *)
Example C107_example_fix :
  let K := pl_K Cartesian (Some 1) 1 in let K' := pl_K Cartesian (Some 1) 2 in let X := pl_X pl_uneven 1 in let X' := pl_X pl_uneven 2 in
  let L := pl_L Cartesian (Some 1) pl_uneven (pl_dims 1) 1 in let L' := pl_L Cartesian (Some 1) pl_uneven (pl_dims 2) 2 in
  lawful_eos (k_eos K) /\ extruded_run K K' /\ extruded_mesh (k_nd K) (pl_N 1) (pl_N 2) X X' /\
  k_bcs K 0 <> Reflexive /\ k_bcs K 1 <> Reflexive /\
  runs_on K (pl_N 1) (pl_dims 1) X L /\ runs_on K' (pl_N 2) (pl_dims 2) X' L' /\
  starts_from K (pl_dims 1) L pl_wind (the_state K L pl_wind) /\ starts_from K' (pl_dims 2) L' pl_wind (the_state K' L' pl_wind) /\
  extruded_fields 1 2 (pl_N 1) (pl_N 2) pl_wind pl_wind /\
  eos_evol (k_eos K) 1 1 < 1 / 10 * (1 * (10 * 10) / 2) /\
  forall i, (0 <= i)%Z -> 0 < a_at (X' 1%nat) (i + 1)%Z - a_at (X' 1%nat) i < a_at (X' 1%nat) (i + 2)%Z - a_at (X' 1%nat) (i + 1)%Z.
Proof.
  intros K K' X X' L L'. split; [exact ex_eos|]. split; [now apply pl_extruded|]. split; [apply pl_mesh|]. split; [discriminate|]. split; [discriminate|].
  split; [apply pl_runs; [lia|now left]|]. split; [apply pl_runs; [lia|now left]|]. split; [apply the_state_ok|]. split; [apply the_state_ok|].
  split; [exact pl_wind_fields|]. split; [exact pl_cold|].
  intros i Hi. apply IZR_le in Hi. cbn [X' pl_X a_at]. unfold pl_uneven. rewrite !plus_IZR. set (z := IZR i) in *. split; nra.
Qed.
