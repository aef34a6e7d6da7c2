(** * C105: runs do not depend on the choice of units. *)
From Coq Require Import Lra.
From Verif Require Import Base RBase ModelMesh ModelGeom ModelBoundary ModelHydro ModelScheme ModelStep ModelMain ModelRad
  SpecMesh SpecBoundary SpecStep SpecUnits ProofLayout ProofStepEx ProofUnits3 ProofUnits4.
Local Open Scope R_scope.

(** The run in the new units goes through the same iterations, ends the same way after the same number of them, and
    writes the same files, everything in them being expressed in the new units. *)
Theorem C105_whole_runs :
  forall U e' K N dims X L, compatible U e' K -> runs_on K N dims X L ->
  runs_on (config_in U e' K) N dims (coords_in U X) (layout_in U L) /\
  forall G S, starts_from K dims L G S ->
  starts_from (config_in U e' K) dims (layout_in U L) (fields_in U G) (states_in U S) /\
  forall cfl p clock n m v, loop (hydro K L cfl) p clock n (fresh p (init_state K L S)) = (m, v) ->
  loop (hydro (config_in U e' K) (layout_in U L) cfl) (params_in U p) clock n
    (fresh (params_in U p) (init_state (config_in U e' K) (layout_in U L) (states_in U S))) = (main_in U m, v).
Proof. exact units_run. Qed.
Print Assumptions C105_whole_runs.

Theorem C105_restarted_runs :
  forall U e' K L, compatible U e' K -> forall f S cfl p clock n m v,
  loop (hydro K L cfl) p clock n (restarted f (init_state K L S)) = (m, v) ->
  loop (hydro (config_in U e' K) (layout_in U L) cfl) (params_in U p) clock n
    (restarted (file_in U f) (init_state (config_in U e' K) (layout_in U L) (states_in U S))) = (main_in U m, v).
Proof. exact units_restart. Qed.
Print Assumptions C105_restarted_runs.

(** The CFL time step is a time, the least internal energy an energy per volume. *)
Theorem C105_reductions :
  forall U e' K L, compatible U e' K -> forall S,
  time_step (config_in U e' K) (layout_in U L) (states_in U S) = option_map (Rmult (u_T U)) (time_step K L S) /\
  minimum_internal_energy (config_in U e' K) (layout_in U L) (states_in U S)
  = option_map (Rmult (u_E U)) (minimum_internal_energy K L S).
Proof. intros U e' K L H S. exact (conj (time_step_in U e' K L H S) (internal_in U e' K L H S)). Qed.
Print Assumptions C105_reductions.

(** A perfect gas is the same gas in all units, whatever its molecular weight, which only the temperatures depend on. *)
Theorem C105_perfect_gas :
  forall U gas, 0 < u_D U -> 0 < u_V U ->
  (forall k, k <> 0 -> same_gas U (pg_eos gas) (pg_eos (mkPG (pg_gamma gas) (k * pg_mmw gas)))) /\
  forall rho P, pg_temp_from_pres (mkPG (pg_gamma gas) (/ (u_V U * u_V U) * pg_mmw gas)) (u_D U * rho) (u_E U * P)
                = pg_temp_from_pres gas rho P.
Proof.
  exact (fun U gas HD HV => conj (fun k Hk => perfect_gas_units U gas k HD HV Hk) (fun rho P => temperature_units U gas rho P HD HV)).
Qed.
Print Assumptions C105_perfect_gas.

(** With radiation, whose energy depends on the temperature alone, pressures keep their unit. *)
Theorem C105_radiating_gas :
  forall U gas, 0 < u_D U -> 0 < u_V U -> u_E U = 1 ->
  same_gas U (rg_eos gas) (rg_eos (mkRG (rg_gamma gas) (u_D U * rg_mmw gas))).
Proof. exact rad_gas_units. Qed.
Print Assumptions C105_radiating_gas.

(** Two-dimensional spherical and Cartesian runs on six processes, with self-gravity excluded and included. *)
Example C105_example :
  let b := ex_bcs in
  let sph := mkUnits 3 2 5 (fun d => match d with O => 5 | _ => 1 end) in
  let cart := mkUnits 3 2 5 (fun d => match d with O => 5 | 1%nat => 5 | _ => 1 end) in
  let own := mkUnits (1 / 25) 1 5 (fun d => match d with O => 5 | _ => 1 end) in
  let e := pg_eos (mkPG (5 / 3) 1) in
  let heavy := mkConfig Spherical 2 2 e LMinmod LowMach (Some (1 / 10)) UOff (GInternalMass 7) b [2; 3; 0; 1]%nat in
  compatible sph e (ex_K b Spherical) /\ runs_on (ex_K b Spherical) ex_N ex_dims ex_X (ex_L b Spherical) /\
  compatible cart e (ex_K b Cartesian) /\ runs_on (ex_K b Cartesian) ex_N ex_dims ex_X (ex_L b Cartesian) /\
  compatible own e heavy /\
  (exists G, starts_from (ex_K b Spherical) ex_dims (ex_L b Spherical) G (the_state (ex_K b Spherical) (ex_L b Spherical) G)) /\
  u_T sph = 5 / 2 /\ u_E sph = 12.
Proof.
  cbv zeta.
  assert (E : forall U, 0 < u_D U -> 0 < u_V U -> same_gas U (pg_eos (mkPG (5 / 3) 1)) (pg_eos (mkPG (5 / 3) 1))).
  { intros U HD HV. pose proof (perfect_gas_units U (mkPG (5 / 3) 1) 1 HD HV R1_neq_R0) as H. cbn [pg_gamma pg_mmw] in H.
    now rewrite Rmult_1_l in H. }
  split. { unfold compatible, unit_system. cbn. repeat split; try Lia.lia; try lra; try (apply E; cbn; lra). intros d. destruct d; lra. }
  split; [apply ex_runs|].
  split. { unfold compatible, unit_system. cbn. repeat split; try Lia.lia; try lra; try (apply E; cbn; lra).
    - intros d. destruct d as [|[|d]]; lra.
    - intros d Hd. destruct d as [|[|d]]; try reflexivity. exfalso; Lia.lia. }
  split; [apply ex_runs|].
  split. { unfold compatible, unit_system. cbn. repeat split; try Lia.lia; try lra; try (apply E; cbn; lra). intros d. destruct d; lra. }
  split; [exists (ex_G ex_u); apply the_state_ok|]. unfold u_T, u_E; cbn. lra.
Qed.
