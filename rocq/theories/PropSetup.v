(** * Properties of the initial conditions and user-defined boundary conditions of the setups (C78-C83). *)
From Coq Require Import ZifyBool ZifyNat.
From Verif Require Import Base RBase ModelMesh ModelGeom ModelBoundary ModelHydro ModelRad ModelScheme ModelStep ModelMain ModelSetup
  SpecMesh SpecGeom SpecBoundary SpecHydro SpecScheme SpecStep SpecPos SpecAdvect SpecSetup
  ProofBase ProofBoundary2 ProofHydro ProofLayout ProofStepEx ProofPosEx ProofAdvectEx
  ProofSetup ProofSetupGrid ProofSetupEq ProofSetupGresho ProofSetupEnergy ProofSetupPos ProofSetupRun.
Local Open Scope R_scope.

(** ** C78 *)

(** Every setup but sedov1d and sedov3d starts the same run whatever the number and arrangement of the processes. *)
Theorem C78_start_does_not_depend_on_the_grid :
  forall s K th N X, positional s -> grid_independent s K th N X.
Proof. exact positional_independent. Qed.
Print Assumptions C78_start_does_not_depend_on_the_grid.

(** Hence the whole run is the same, with imposed or CFL time steps. *)
Theorem C78_whole_runs :
  forall s K th N dims X L L1, positional s -> runs_on K N dims X L -> laid_out K N one_process X L1 ->
  (forall ts, same_results K dims L (run K L ts (init_state K L (setup_state s K th N L)))
                                    (run K L1 ts (init_state K L1 (setup_state s K th N L1)))) /\
  (forall cfl n t, let end_ := run_cfl K L cfl n t (init_state K L (setup_state s K th N L)) in
     let end1 := run_cfl K L1 cfl n t (init_state K L1 (setup_state s K th N L1)) in
     fst end_ = fst end1 /\ same_results K dims L (snd end_) (snd end1)).
Proof. exact setup_runs. Qed.
Print Assumptions C78_whole_runs.

(** sedov1d on the mesh it is written for: one dimension, Cartesian, regular, two ghost layers. *)
Theorem C78_sedov1d_on_a_regular_line :
  forall rho0 u0 E0 E1 K th N X h, k_geom K = Cartesian -> k_nd K = 1%nat -> k_ng K = 2%Z ->
  (forall i, (0 <= i < coord 0 N + 2 * k_ng K)%Z -> a_at (X 0%nat) (i + 1)%Z - a_at (X 0%nat) i = h) ->
  grid_independent (SSedov1d rho0 u0 E0 E1) K th N X.
Proof. exact sedov1d_regular. Qed.
Print Assumptions C78_sedov1d_on_a_regular_line.

(** sedov1d in spherical geometry: each process uses the volume of its own first cell for the background. *)
Theorem C78_sedov1d_spherical_refuted :
  forall gas rho0 u0 E0 E1, valid_gas gas -> 0 < rho0 -> E0 <> 0 ->
  ~ grid_independent (SSedov1d rho0 u0 E0 E1) (plain_config Spherical 1 gas) (pg_thermo gas) (I3 4 1 1) (unit_X 1 (I3 4 1 1) 2).
Proof. exact sedov1d_spherical. Qed.
Print Assumptions C78_sedov1d_spherical_refuted.

(** sedov1d in two dimensions: only the rows of process 0 are hot. *)
Theorem C78_sedov1d_plane_refuted :
  forall gas rho0 u0 E0 E1, valid_gas gas -> 0 < rho0 -> 1 / 2 * E1 <> E0 ->
  ~ grid_independent (SSedov1d rho0 u0 E0 E1) (plain_config Cartesian 2 gas) (pg_thermo gas) (I3 4 2 1) (unit_X 2 (I3 4 2 1) 2).
Proof. exact sedov1d_plane. Qed.
Print Assumptions C78_sedov1d_plane_refuted.

(** sedov3d: the hot cell is found by comparing local indices with the global number of cells. *)
Theorem C78_sedov3d_refuted :
  forall gas rho0 P0, valid_gas gas -> 0 < rho0 ->
  exists E1, 0 < E1 /\
    ~ grid_independent (SSedov3d rho0 P0 E1) (plain_config Spherical 3 gas) (pg_thermo gas) (I3 4 4 4) (shell_X (I3 4 4 4)).
Proof. exact sedov3d_grid. Qed.
Print Assumptions C78_sedov3d_refuted.

(** 7 x 5 cells on 3 x 2 processes, implosion and shock tube; a line of cells for sedov1d. *)
Example C78_example :
  let K := ex_K ex_bcs Cartesian in
  positional (SImplosion 1 (1 / 8) 0 1 (14 / 100)) /\ positional (SShockTube 1 (1 / 8) 0 0 1 (1 / 10) (1 / 2)) /\
  runs_on K ex_N ex_dims ex_X (ex_L ex_bcs Cartesian) /\ laid_out K ex_N one_process ex_X (ex_L1 ex_bcs Cartesian) /\
  let K1 := plain_config Cartesian 1 (mkPG (5 / 3) 1) in
  k_geom K1 = Cartesian /\ k_nd K1 = 1%nat /\ k_ng K1 = 2%Z /\
  (forall i, a_at (unit_X 1 (I3 4 1 1) 2 0%nat) (i + 1)%Z - a_at (unit_X 1 (I3 4 1 1) 2 0%nat) i = 1) /\
  valid_gas (mkPG (5 / 3) 1).
Proof.
  split; [exact I|]. split; [exact I|]. split; [apply ex_runs|]. split; [apply ex_laid1|]. split; [reflexivity|]. split; [reflexivity|].
  split; [reflexivity|]. split; [|split; cbn; lra]. intros i. cbn [unit_X a_at]. rewrite !plus_IZR. lra.
Qed.

(** ** C79 *)

(** stratified_atm with gravity towards -x. *)
Theorem C79_stratified_atmosphere_is_hydrostatic :
  forall gm nd th r N o rho0 u0 T0 g, gas_law th -> 0 < T0 -> g < 0 ->
  hydrostatic (fun m c => setup_cell (SStratifiedAtm rho0 u0 T0) (mkEnv gm nd th m r N (fun _ d => match d with O => g | _ => 0 end)) c o)
    (centre 0) (fun _ _ => True) (fun _ => g).
Proof. exact strat_equilibrium. Qed.
Print Assumptions C79_stratified_atmosphere_is_hydrostatic.

(** eq_hydro_sphe around a point mass. *)
Theorem C79_spherical_atmosphere_is_hydrostatic :
  forall gm nd th r N o rho0 u0 T0 M, gas_law th -> 0 < T0 -> 0 < M ->
  hydrostatic (fun m c => setup_cell (SEqHydroSphe rho0 u0 T0 M) (mkEnv gm nd th m r N (radial_gravity m (fun _ => M))) c o)
    (centre 0) (fun m c => 0 < centre 0 m c) (fun x => - Ggrav * M / x ^ 2).
Proof. exact sphere_equilibrium. Qed.
Print Assumptions C79_spherical_atmosphere_is_hydrostatic.

(** rayleigh_taylor3d: both fluids, as functions of the lower face of the cells, below the top of the polytrope. *)
Theorem C79_rayleigh_taylor3d_layers_are_hydrostatic :
  forall gm nd th r N o rho0 rho1 u0 ak bk ck dk g, 0 < rho0 -> 0 < rho1 -> g < 0 ->
  forall upper : bool, let base := if upper then rho0 else rho1 in
  hydrostatic (fun m c => setup_cell (SRayleighTaylor3d rho0 rho1 u0 ak bk ck dk)
                            (mkEnv gm nd th m r N (fun _ d => match d with 2%nat => g | _ => 0 end)) c o)
    (lower_face 2)
    (fun m c => (if upper then Rle else Rgt) (interface_height ak bk ck dk (lower_face 0 m c) (lower_face 1 m c)) (lower_face 2 m c) /\
                2 / 5 * base * Rabs g * lower_face 2 m c < 2 * PI * (rho0 + rho1) * Rabs g * 10)
    (fun _ => g).
Proof. exact rt3_equilibrium. Qed.
Print Assumptions C79_rayleigh_taylor3d_layers_are_hydrostatic.

(** The gases of the program qualify. *)
Theorem C79_gases : (forall g, valid_gas g -> gas_law (pg_thermo g)) /\ (forall g, 0 < rg_mmw g -> gas_law (rg_thermo g)).
Proof. exact (conj pg_gas_law rg_gas_law). Qed.
Print Assumptions C79_gases.

(** stratified_atm with gravity towards +x: the absolute value of g puts the dense gas on the wrong side. *)
Theorem C79_upward_gravity_refuted :
  forall gm nd th r N o rho0 u0 T0 g, gas_law th -> 0 < T0 -> 0 < g -> rho0 <> 0 ->
  ~ hydrostatic (fun m c => setup_cell (SStratifiedAtm rho0 u0 T0) (mkEnv gm nd th m r N (fun _ d => match d with O => g | _ => 0 end)) c o)
    (centre 0) (fun _ _ => True) (fun _ => g).
Proof. exact strat_upward. Qed.
Print Assumptions C79_upward_gravity_refuted.

(** rayleigh_taylor (2D): on every column, balanced only if the two fluids have the same density. *)
Theorem C79_rayleigh_taylor_refuted :
  forall gm nd th r N o rho0 rho1 u fx0 fx1 g x, g < 0 ->
  (hydrostatic (fun m c => setup_cell (SRayleighTaylor rho0 rho1 u fx0 fx1) (mkEnv gm nd th m r N (fun _ d => match d with S O => g | _ => 0 end)) c o)
    (centre 1) (fun m c => centre 0 m c = x) (fun _ => g) <-> rho0 = rho1).
Proof. exact rt2_balance. Qed.
Print Assumptions C79_rayleigh_taylor_refuted.

(** A layer of rayleigh_taylor3d in the domain of the input file (|z| <= 5, g = -2, densities 3 and 1). *)
Example C79_example :
  gas_law (pg_thermo (mkPG (5 / 3) 1)) /\
  (forall z base, Rabs z <= 5 -> base = 3 \/ base = 1 -> 2 / 5 * base * Rabs (-2) * z < 2 * PI * (3 + 1) * Rabs (-2) * 10) /\
  interface_height 0 0 0 0 0 0 <= 1 /\ ~ interface_height 0 0 0 0 0 0 <= -1.
Proof.
  split; [apply pg_gas_law; split; cbn; lra|]. split.
  - intros z base Hz Hb. rewrite Rabs_left by lra. pose proof PI_RGT_0. pose proof PI2_1.
    assert (z <= 5) by (pose proof (Rle_abs z); lra). destruct Hb as [-> | ->]; lra.
  - assert (E : interface_height 0 0 0 0 0 0 = 0).
    { unfold interface_height. cbv zeta. apply ProofR.lsum_0. intros [kx ky] _. ring. }
    rewrite E. split; lra.
Qed.

(** ** C80 *)

(** A gas at rest: the ghost layers written by the user-defined conditions of stratified_atm and eq_hydro_sphe hold the
    conservative state of the initial profile at the position of the ghost cell. *)
Theorem C80_ghosts_continue_the_atmosphere :
  forall gm nd gas m rk N gr s rho0 u0 T0 ext ng d face a c,
  atmosphere s rho0 u0 T0 -> valid_gas gas -> 0 < rho0 -> (d < 3)%nat -> (0 <= ng <= coord d ext)%Z -> in_face ext ng d face c ->
  let e := mkEnv gm nd (pg_thermo gas) m rk N gr in
  let v := setup_cell s e c old_cell in
  let w := user_condition s e ext ng d face a c in
  u0 = 0 ->
  c_rho w = i_rho v /\ (forall k, (k < nd)%nat -> c_rhou w k = i_rho v * i_u v k) /\
  c_E w = pg_evol_from_pres gas (i_rho v) (i_P v) /\ c_fx w = c_fx (a c).
Proof. exact ghost_rest. Qed.
Print Assumptions C80_ghosts_continue_the_atmosphere.

(** With a wind the internal energy of the ghost cells is not that of the profile: the kinetic energy is missing. *)
Theorem C80_wind_energy_refuted :
  forall gm nd gas m rk N gr s rho0 u0 T0 ext ng d face a c,
  atmosphere s rho0 u0 T0 -> valid_gas gas -> 0 < rho0 -> (d < 3)%nat -> (0 <= ng <= coord d ext)%Z -> in_face ext ng d face c ->
  let e := mkEnv gm nd (pg_thermo gas) m rk N gr in
  let v := setup_cell s e c old_cell in
  let w := user_condition s e ext ng d face a c in
  (1 <= nd)%nat -> (internal_of nd w = pg_evol_from_pres gas (i_rho v) (i_P v) <-> u0 = 0).
Proof. exact ghost_moving. Qed.
Print Assumptions C80_wind_energy_refuted.

(** ... nor is the momentum, which is computed with the reference density. *)
Theorem C80_wind_momentum_refuted :
  forall gm nd gas m rk N gr s rho0 u0 T0 ext ng d face a c,
  atmosphere s rho0 u0 T0 -> 0 < rho0 -> (d < 3)%nat -> (0 <= ng <= coord d ext)%Z -> in_face ext ng d face c ->
  let e := mkEnv gm nd (pg_thermo gas) m rk N gr in
  let v := setup_cell s e c old_cell in
  let w := user_condition s e ext ng d face a c in
  forall k, (k < nd)%nat -> (c_rhou w k = i_rho v * i_u v k <-> (u0 = 0 \/ i_rho v = rho0)).
Proof. exact ghost_momentum. Qed.
Print Assumptions C80_wind_momentum_refuted.

(** ... and a fast wind makes the internal energy negative. *)
Theorem C80_fast_wind_refuted :
  forall gm nd gas m rk N gr rho0 T0 ext ng d face a c, valid_gas gas -> 0 < rho0 -> 0 < T0 -> (1 <= nd)%nat ->
  (d < 3)%nat -> (0 <= ng <= coord d ext)%Z -> in_face ext ng d face c ->
  exists u0, 0 < u0 /\
    internal_of nd (user_condition (SStratifiedAtm rho0 u0 T0) (mkEnv gm nd (pg_thermo gas) m rk N gr) ext ng d face a c) < 0.
Proof. exact ghost_negative. Qed.
Print Assumptions C80_fast_wind_refuted.

(** The right ghost layer of a line of 10 cells. *)
Example C80_example :
  atmosphere (SStratifiedAtm 1 0 100) 1 0 100 /\ atmosphere (SEqHydroSphe 1 0 100 7) 1 0 100 /\
  in_face (I3 14 1 1) 2 0 1 (I3 12 0 0) /\ in_face (I3 14 1 1) 2 0 0 (I3 1 0 0) /\ ~ in_face (I3 14 1 1) 2 0 0 (I3 2 0 0).
Proof.
  split; [left; reflexivity|]. split; [right; exists 7; reflexivity|].
  split; [split; [dims3; cbn; lia|cbn; lia]|]. split; [split; [dims3; cbn; lia|cbn; lia]|]. intros [_ H]. cbn in H. lia.
Qed.

(** ** C81 *)

(** gresho_vortex is a steady rotation exactly for unit density and no background velocity. *)
Theorem C81_vortex_is_steady_iff :
  forall gm th rk N gr o rho0 u0 Ma,
  steady_rotation (fun m c => setup_cell (SGresho rho0 u0 Ma) (mkEnv gm 2 th m rk N gr) c o) <-> rho0 = 1 /\ u0 = 0.
Proof. exact vortex_steady_iff. Qed.
Print Assumptions C81_vortex_is_steady_iff.

(** The default of the code, u0 = 1, is not (nor is any other density). *)
Theorem C81_default_velocity_refuted :
  forall gm th rk N gr o Ma,
  ~ steady_rotation (fun m c => setup_cell (SGresho 1 1 Ma) (mkEnv gm 2 th m rk N gr) c o).
Proof. intros gm th rk N gr o Ma H. apply vortex_steady_iff in H. lra. Qed.
Print Assumptions C81_default_velocity_refuted.

(** The vortex moves: the velocity at (0, 1/10). *)
Example C81_example :
  exists m c, let v := setup_cell (SGresho 1 0 (1 / 10)) (mkEnv Cartesian 2 (pg_thermo (mkPG (7 / 5) 1)) m (I3 0 0 0) (I3 1 1 1) (fun _ _ => 0)) c old_cell in
  i_u v 0%nat = - (1 / 2) /\ i_u v 1%nat = 0.
Proof.
  exists (mesh_at 0 (1 / 10)), (I3 0 0 0). destruct (centre_at 0 (1 / 10) (I3 0 0 0)) as [Cx Cy].
  pose proof (vortex_values Cartesian (pg_thermo (mkPG (7 / 5) 1)) (I3 0 0 0) (I3 1 1 1) (fun _ _ => 0) old_cell 1 0 (1 / 10) (mesh_at 0 (1 / 10)) (I3 0 0 0)) as V.
  cbv zeta in V. rewrite Cx, Cy in V. assert (E : sqrt (0 ^ 2 + (1 / 10) ^ 2) = 1 / 10) by (replace (0 ^ 2 + (1 / 10) ^ 2) with (1 / 10 * (1 / 10)) by field; apply sqrt_square; lra).
  rewrite E in V. destruct (V ltac:(lra)) as (_ & _ & A & B). unfold vortex_v in A, B.
  destruct (Rlt_dec (1 / 10) (4 / 10)); [|lra]. destruct (Rlt_dec (1 / 10) (2 / 10)); [|lra].
  cbv zeta. unfold vortex_cell in A, B. rewrite A, B. split; field.
Qed.

(** ** C82 *)

(** sedov1d on a regular line puts half of E1 (the other half belongs to the mirror image) in the domain, whatever the
    resolution and the number of processes; the background energy E0 is per cell. *)
Theorem C82_sedov1d_energy :
  forall K N dims X L gas h rho0 u0 E0 E1, laid_out K N dims X L ->
  k_geom K = Cartesian -> k_nd K = 1%nat -> k_ng K = 2%Z -> jj N = 1%Z -> kk N = 1%Z ->
  (forall i, (0 <= i < coord 0 N + 2 * k_ng K)%Z -> a_at (X 0%nat) (i + 1)%Z - a_at (X 0%nat) i = h) ->
  h * (a_at (X 1%nat) 1%Z - a_at (X 1%nat) 0%Z) * (a_at (X 2%nat) 1%Z - a_at (X 2%nat) 0%Z) <> 0 -> valid_gas gas -> 0 < rho0 ->
  initial_energy (SSedov1d rho0 u0 E0 E1) K gas N L = 1 / 2 * E1 + IZR (ii N - 1) * E0.
Proof. exact sedov1d_energy. Qed.
Print Assumptions C82_sedov1d_energy.

(** sedov2d puts E1 in every cell whose lower corner is closer than 0.025 to the origin. *)
Theorem C82_sedov2d_energy :
  forall K N dims X L gas, laid_out K N dims X L -> k_geom K = Cartesian -> valid_gas gas -> increasing (k_nd K) N (k_ng K) X ->
  forall rho0 u0 E0 E1, 0 < rho0 ->
  initial_energy (SSedov2d rho0 u0 E0 E1) K gas N L
  = lsum (fun c => if Rlt_dec (sqrt (a_at (X 0%nat) (ii c + ghosts (k_nd K) (k_ng K) 0) ^ 2 + a_at (X 1%nat) (jj c + ghosts (k_nd K) (k_ng K) 1) ^ 2)) (25 / 1000)
                   then E1 else E0) (box_cells (I3 0 0 0) N).
Proof. exact sedov2d_energy. Qed.
Print Assumptions C82_sedov2d_energy.

(** Hence the blast energy of sedov2d grows with the resolution without bound: n^2 E1 on the square [0, 1/80]^2 with
    n x n cells. *)
Theorem C82_sedov2d_resolution_refuted :
  forall gas n dims L rho0 u0 E0 E1, valid_gas gas -> 0 < rho0 -> (1 <= n)%Z ->
  laid_out (plain_config Cartesian 2 gas) (I3 n n 1) dims (square_X n) L ->
  initial_energy (SSedov2d rho0 u0 E0 E1) (plain_config Cartesian 2 gas) gas (I3 n n 1) L = IZR n * (IZR n * E1).
Proof. exact square_energy. Qed.
Print Assumptions C82_sedov2d_resolution_refuted.

(** With three or more ghost layers (a parameter of the input file) sedov1d has no blast at all. *)
Theorem C82_sedov1d_ghosts_refuted :
  forall K N dims X L th rho0 u0 E0 E1, laid_out K N dims X L -> (3 <= k_ng K)%Z ->
  forall r c, process (k_nd K) dims r -> owned (k_nd K) (k_ng K) (d_nloc (l_dec L r)) c ->
  setup_fields (SSedov1d rho0 u0 E0 E1) K th N L r c = setup_fields (SSedov1d rho0 u0 E0 0) K th N L r c.
Proof. exact sedov1d_ghosts. Qed.
Print Assumptions C82_sedov1d_ghosts_refuted.

(** sedov3d has no blast unless a lower face lies exactly at radius 1. *)
Theorem C82_sedov3d_no_blast_refuted :
  forall K N dims X L th rho0 P0 E1, laid_out K N dims X L ->
  (forall i, (0 <= i < ii N)%Z -> a_at (X 0%nat) (i + ghosts (k_nd K) (k_ng K) 0)%Z <> 1) ->
  forall r c, process (k_nd K) dims r -> owned (k_nd K) (k_ng K) (d_nloc (l_dec L r)) c ->
  i_P (setup_fields (SSedov3d rho0 P0 E1) K th N L r c) = P0.
Proof. exact sedov3d_no_face. Qed.
Print Assumptions C82_sedov3d_no_blast_refuted.

(** Only the 2D blast on spherical and the 3D blast on Cartesian meshes are refused, with an exception. *)
Theorem C82_refused_geometries : forall s K th N L,
  ((exists St, initialise s K th N L = Ok St) <->
   match s with SSedov2d _ _ _ _ => k_geom K = Cartesian | SSedov3d _ _ _ => k_geom K = Spherical | _ => True end) /\
  (forall St, initialise s K th N L = Ok St -> St = setup_state s K th N L) /\
  (forall w, initialise s K th N L <> UB w).
Proof. exact initialise_iff. Qed.
Print Assumptions C82_refused_geometries.

Example C82_example :
  let gas := mkPG (5 / 3) 1 in
  (forall n, (1 <= n)%Z -> laid_out (plain_config Cartesian 2 gas) (I3 n n 1) (I3 1 1 1) (square_X n)
     (the_layout (plain_config Cartesian 2 gas) (I3 n n 1) (I3 1 1 1) (square_X n))) /\
  (let K := plain_config Cartesian 1 gas in let N := I3 4 1 1 in
   laid_out K N (I3 2 1 1) (unit_X 1 N 2) (the_layout K N (I3 2 1 1) (unit_X 1 N 2)) /\
   1 * (a_at (unit_X 1 N 2 1%nat) 1%Z - a_at (unit_X 1 N 2 1%nat) 0%Z) * (a_at (unit_X 1 N 2 2%nat) 1%Z - a_at (unit_X 1 N 2 2%nat) 0%Z) <> 0) /\
  (let K := plain_config Spherical 3 gas in let N := I3 4 4 4 in
   laid_out K N (I3 2 1 1) (unit_X 3 N 2) (the_layout K N (I3 2 1 1) (unit_X 3 N 2)) /\
   (forall i, (0 <= i < 4)%Z -> a_at (unit_X 3 N 2 0%nat) (i + 2)%Z <> 1)).
Proof.
  split; [intros n Hn; apply square_laid; [exact Hn|dims3; vm_compute; congruence]|]. split.
  - split; [apply unit_laid; [lia|dims3; vm_compute; congruence..]|]. cbn [unit_X a_at]. rewrite !plus_IZR. lra.
  - split; [apply unit_laid; [lia|dims3; vm_compute; congruence..]|]. intros i Hi. cbn [unit_X a_at]. intros E. apply eq_IZR in E. lia.
Qed.

(** ** C83 *)

(** Positive parameters give positive densities and pressures in every cell. *)
Theorem C83_positive_start :
  forall e c o, sound_thermo (e_th e) -> forall s, positive_parameters s ->
  height_ok s (e_grav e c 1%nat) (e_grav e c 2%nat) (e_mesh e) c -> 0 < e_dv e c -> (positional s \/ 0 < e_dv e (I3 2 0 0)) ->
  0 < i_rho (setup_cell s e c o) /\ 0 < i_P (setup_cell s e c o).
Proof. exact setup_positive. Qed.
Print Assumptions C83_positive_start.

Theorem C83_perfect_gas : forall g, valid_gas g -> sound_thermo (pg_thermo g).
Proof. exact pg_sound_thermo. Qed.
Print Assumptions C83_perfect_gas.

(** The arguments of std::pow in rayleigh_taylor3d are positive (it would return NaN otherwise). *)
Theorem C83_powers_are_defined :
  forall e c rho0 rho1 u0 ak bk ck dk, let s := SRayleighTaylor3d rho0 rho1 u0 ak bk ck dk in
  positive_parameters s -> height_ok s (e_grav e c 1%nat) (e_grav e c 2%nat) (e_mesh e) c ->
  forall r, r = rho0 \/ r = rho1 -> 0 < rt3_base rho0 rho1 r (e_grav e c 2%nat) (e_mesh e 2%nat (kk c)).
Proof. exact rt3_defined. Qed.
Print Assumptions C83_powers_are_defined.

(** The bounds one reads off the formulas. *)
Theorem C83_bounds :
  forall e c o,
  (forall u0 P0, 9 / 10 <= i_rho (setup_cell (SAdvectionSinus u0 P0) e c o) <= 11 / 10) /\
  (forall P0, let v := setup_cell (SKelvinHelmholtz P0) e c o in
     1 < i_rho v < 3 /\ i_u v 0%nat = i_rho v - 1 /\ Rabs (i_u v 1%nat) <= 2 / 100) /\
  (forall rho0 rho1 u fx0 fx1, let v := setup_cell (SRayleighTaylor rho0 rho1 u fx0 fx1) e c o in
     Rmin rho0 rho1 <= i_rho v <= Rmax rho0 rho1) /\
  (forall rho0 rho1 u fx0, let v := setup_cell (SRayleighTaylor rho0 rho1 u fx0 0) e c o in
     Rmin fx0 0 <= i_fx v 0%nat <= Rmax fx0 0).
Proof. exact (fun e c o => conj (sinus_bounds e c o) (conj (shear_bounds e c o) (conj (rt2_bounds e c o) (rt2_scalar e c o)))). Qed.
Print Assumptions C83_bounds.

(** From the initialisation to every output file: first-order HLL and HLLC runs of a perfect gas without gravity keep the
    density, the internal energy and the pressure positive. *)
Theorem C83_runs_from_setups_stay_physical :
  forall s K gas N dims X L q cfl p clock n m v, positional s -> valid_gas gas -> positive_parameters s ->
  (forall a b c d e f g, s <> SRayleighTaylor3d a b c d e f g) ->
  runs_on K N dims X L -> k_eos K = pg_eos gas -> first_order K ->
  increasing (k_nd K) N (k_ng K) X -> graded (k_nd K) N (k_ng K) X q -> cfl_allowed K q cfl -> p_t_ini p < p_t_end p ->
  loop (hydro K L cfl) p clock n (fresh p (init_state K L (setup_state s K (pg_thermo gas) N L))) = (m, v) ->
  physical K dims L (m_st m) /\ (forall f, In f (m_files m) -> physical K dims L (fl_data f)) /\
  v <> Failed "detected invalid volumic internal energy".
Proof. exact setup_run_positive. Qed.
Print Assumptions C83_runs_from_setups_stay_physical.

(** The advection tests carry their density profile with uniform velocity and pressure, within its initial bounds. *)
Theorem C83_advection_tests :
  forall s K th N dims X L u0 P0 lo hi nu h, advection s u0 P0 lo hi -> 0 < lo -> 0 < P0 ->
  runs_on K N dims X L -> lawful_eos (k_eos K) -> energy_of_pressure (k_eos K) -> plain_flow K (diagonal (k_nd K) u0) ->
  increasing (k_nd K) N (k_ng K) X -> contact_solver (k_sol K) -> 0 < nu <= 1 ->
  (k_lim K = LConstant \/ k_nd K = 1%nat /\ regular_axis N (k_ng K) X h /\ safe_limiter (k_lim K) nu lo hi) ->
  forall n t, let S' := snd (run_cfl K L nu n t (init_state K L (setup_state s K th N L))) in
  carried K dims L (diagonal (k_nd K) u0) P0 S' /\ density_within K dims L lo hi S'.
Proof. exact advection_runs. Qed.
Print Assumptions C83_advection_tests.

(** rayleigh_taylor loses a uniform scalar: with fx0 = fx1 = f the scalar is 0 everywhere. *)
Theorem C83_uniform_scalar_refuted :
  forall e c o rho0 rho1 u f, i_fx (setup_cell (SRayleighTaylor rho0 rho1 u f f) e c o) 0%nat = 0.
Proof. exact rt2_scalar_lost. Qed.
Print Assumptions C83_uniform_scalar_refuted.

(** ... and starts with a negative pressure high enough above the interface. *)
Theorem C83_tall_domain_refuted :
  forall e c o rho0 rho1 u fx0 fx1, 10 / 7 + 1 / 4 < rho0 * Rabs (e_grav e c 1%nat) * centre 1 (e_mesh e) c ->
  i_P (setup_cell (SRayleighTaylor rho0 rho1 u fx0 fx1) e c o) < 0.
Proof. exact rt2_pressure_negative. Qed.
Print Assumptions C83_tall_domain_refuted.

(** The implosion on 3 x 2 processes; the sinus wave with van Leer reconstruction on a line of three processes. *)
Example C83_example :
  (forall s, s = HLL \/ s = HLLC -> let K := pos_K s in let L := pos_L s in let t := SImplosion 1 (1 / 8) 0 1 (14 / 100) in
     positional t /\ positive_parameters t /\ valid_gas (mkPG (5 / 3) 1) /\ k_eos K = pg_eos (mkPG (5 / 3) 1) /\
     runs_on K ex_N ex_dims ex_X L /\ first_order K /\ increasing 2 ex_N 2 ex_X /\ graded 2 ex_N 2 ex_X 1 /\ cfl_allowed K 1 (1 / 4)) /\
  (forall s, contact_solver s -> let K := line_K LVanLeer s in let L := line_L LVanLeer s in
     advection (SAdvectionSinus 3 1) 3 1 (9 / 10) (11 / 10) /\ runs_on K line_N line_dims line_X L /\ plain_flow K (diagonal 1 3) /\
     regular_axis line_N 2 line_X (1 / 10) /\ safe_limiter LVanLeer (1 / 2) (9 / 10) (11 / 10)) /\
  height_ok (SRayleighTaylor3d 3 1 0 0 0 0 0) 0 (-2) (mesh_at 0 0) (I3 0 0 0).
Proof.
  split; [|split].
  - intros s Hs K L t. destruct (positive_example s Hs) as (A & _ & _ & B & C & D & E & _).
    split; [exact I|]. split; [cbn; repeat split; lra|]. split; [split; cbn; lra|]. split; [reflexivity|].
    split; [exact A|]. split; [exact B|]. split; [exact C|]. split; [exact D|exact E].
  - intros s Hs K L. destruct (line_example LVanLeer s Hs) as (A & _ & _ & B & _ & C & _).
    split; [cbn; repeat split; lra|]. split; [exact A|]. split; [split; try apply B; intros f Hf; cbn; discriminate|]. split; [exact C|]. cbn. lra.
  - cbn. unfold mesh_at, lower_face. cbn. pose proof PI_RGT_0. split; lra.
Qed.
