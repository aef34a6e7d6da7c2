(** * Change of units: whole steps and runs. *)
From Coq Require Import FunctionalExtensionality Lra Lia.
From Verif Require Import Base RBase ModelMesh ModelGeom ModelBoundary ModelHydro ModelScheme ModelStep ModelMain ProofR
  SpecMesh SpecGeom SpecBoundary SpecStep SpecUnits ProofUnits ProofUnits2.
Local Open Scope R_scope.

(** ** Boundaries *)
Section Boundary.
Variable U : units.
Notation wi W := (fun (r c : idx) => cell_in U (W r c)).
Lemma ghost_sync_in dims ext ng d f W : ghost_sync dims ext ng d f (wi W) = wi (ghost_sync dims ext ng d f W).
Proof. fext r. fext c. unfold ghost_sync. destruct f; destruct (in_boxb _ _ _); reflexivity. Qed.
Lemma sync_in dims ext ng n W : sync_dims dims ext ng n (wi W) = wi (sync_dims dims ext ng n W).
Proof. induction n; [reflexivity|]. cbn [sync_dims]. now rewrite IHn, !ghost_sync_in. Qed.
Lemma negate_in d x : negate_momentum d (cell_in U x) = cell_in U (negate_momentum d x).
Proof. unfold negate_momentum, cell_in; cbn [c_rho c_rhou c_E c_fx]. f_equal. fext n. destruct (Nat.eqb n d); ring. Qed.
Lemma bc_step_in dims ext ng bcs W f : bc_step dims ext ng bcs (wi W) f = wi (bc_step dims ext ng bcs W f).
Proof.
  fext r. fext c. unfold bc_step. destruct (is_border _ _ _ _); [|reflexivity].
  destruct (bcs f); cbn [bc_apply]; [|reflexivity|]; unfold kwrite; destruct (in_boxb _ _ _); try reflexivity.
  unfold reflexive_body. apply negate_in.
Qed.
Lemma update_in d dims ext ng bcs order W : boundary_update d dims ext ng bcs order (wi W) = wi (boundary_update d dims ext ng bcs order W).
Proof.
  unfold boundary_update. rewrite sync_in. generalize (sync_dims dims ext ng d W).
  induction order as [|f o IH]; intros A; [reflexivity|]. cbn [fold_left]. rewrite bc_step_in. apply IH.
Qed.
End Boundary.

Section Run.
Variables (U : units) (e' : eos) (K : config) (L : layout).
Hypothesis HC : compatible U e' K.
Notation K' := (config_in U e' K).
Notation L' := (layout_in U L).
Notation g := (k_geom K). Notation nd := (k_nd K).
Lemma HU : unit_system g nd U. Proof. apply HC. Qed.
Lemma Hnd : (1 <= nd <= 3)%nat. Proof. apply HC. Qed.
Lemma He : same_gas U (k_eos K) e'. Proof. apply HC. Qed.
Lemma D0 : 0 < u_D U. Proof. apply HU. Qed.
Lemma V0 : 0 < u_V U. Proof. apply HU. Qed.
Lemma L0 : 0 < u_L U. Proof. apply HU. Qed.
Lemma T0 : 0 < u_T U. Proof. exact (T_pos U g nd HU). Qed.
Lemma M0 : 0 < u_M U. Proof. exact (M_pos U g nd HU). Qed.
Lemma E0 : 0 < u_E U. Proof. exact (E_pos U g nd HU). Qed.
Lemma S0 : 0 < u_S U g. Proof. exact (S_pos U g nd HU). Qed.
#[local] Hint Resolve D0 V0 L0 T0 M0 E0 S0 neq : core.
Notation si := (states_in U).
Notation wi W := (fun (r c : idx) => cell_in U (W r c)).

Lemma mesh_is r : l_mesh L' r = mesh_in U (l_mesh L r). Proof. reflexivity. Qed.
Lemma sel_in n r : sel K' L' n r = sel K L n r. Proof. reflexivity. Qed.

(** ** One step *)
Lemma step_rec_in dt S r : step_rec K' L' (u_T U * dt) (si S) r = recon_in U (step_rec K L dt S r).
Proof.
  unfold step_rec. cbv zeta. replace (u_T U * dt / 2) with (u_T U * (dt / 2)) by (unfold Rdiv; ring).
  exact (reconstruction_in U g nd HU Hnd (k_eos K) e' He (s_grav (S r)) (l_mesh L r) (dt / 2) (sel K L 1 r) (k_lim K)
    (fun c => c_rho (s_cell (S r) c)) (s_u (S r)) (s_P (S r)) (fun c => c_fx (s_cell (S r) c)) (s_rec (S r))).
Qed.
Lemma step_godunov_in dt S r c : step_godunov K' L' (u_T U * dt) (si S) r c = cell_in U (step_godunov K L dt S r c).
Proof.
  unfold step_godunov. cbv zeta. rewrite step_rec_in. unfold godunov, kwrite. rewrite sel_in. destruct (sel K L 0 r c); [|reflexivity].
  exact (god_cell_in U g nd HU Hnd (k_eos K) e' He (s_grav (S r)) (l_mesh L r) dt (k_sol K) (s_cell (S r)) (step_rec K L dt S r) c).
Qed.
Lemma step_pf_in dt S r c : step_pf K' L' (u_T U * dt) (si S) r c = cell_in U (step_pf K L dt S r c).
Proof.
  unfold step_pf. cbv zeta. change (k_pf K') with (k_pf K). destruct (k_pf K) as [eps|]; [|apply step_godunov_in].
  replace (step_godunov K' L' (u_T U * dt) (si S) r) with (fun c => cell_in U (step_godunov K L dt S r c)) by (symmetry; fext x; apply step_godunov_in).
  rewrite step_rec_in. unfold pressure_fix, kwrite. rewrite sel_in. destruct (sel K L 0 r c); [|reflexivity].
  exact (pf_cell_in U g nd HU Hnd (k_eos K) e' He (l_mesh L r) dt (s_cell (S r)) (step_rec K L dt S r) eps (step_godunov K L dt S r) c).
Qed.
Lemma step_user_in t dt S : step_user K' L' (u_T U * t) (u_T U * dt) (si S) = wi (step_user K L t dt S).
Proof.
  fext r. fext c. unfold step_user, user_step, kwrite. rewrite sel_in, step_pf_in. destruct (sel K L 0 r c); [|reflexivity].
  pose proof HC as HC1; destruct HC1 as (_ & _ & _ & _ & H). change (k_user K') with (k_user K). destruct (k_user K); [reflexivity|].
  destruct H as (HV & HL). unfold user_cell, cell_in; cbn [c_rho c_rhou c_E c_fx]. f_equal.
  unfold u_E, u_T. rewrite HV, HL. replace (1 / 1) with 1 by field. rewrite !Rmult_1_l. ring.
Qed.
Lemma bcs_in A : bcs_update K' L' (wi A) = wi (bcs_update K L A).
Proof. unfold bcs_update. apply update_in. Qed.

(** ** Gravity *)
Lemma shell_sum_in k f f' r i : (forall r c, f' r c = k * f r c) -> shell_sum K' L' f' r i = k * shell_sum K L f r i.
Proof.
  intros H. unfold shell_sum. rewrite <- lsum_scal. apply lsum_ext. intros r' _. rewrite <- lsum_scal. apply lsum_ext. intros c _. apply H.
Qed.
Lemma shell_mean_in A r i : shell_mean K' L' (wi A) r i = u_D U * shell_mean K L A r i.
Proof.
  unfold shell_mean. cbv zeta.
  assert (E : forall r c, dv (k_geom K') (k_nd K') (l_mesh L' r) c = u_S U g * u_L U * dv g nd (l_mesh L r) c).
  { intros. rewrite mesh_is. apply dv_in'; [exact HU|exact Hnd]. }
  rewrite (shell_sum_in (u_D U * (u_S U g * u_L U)) (fun r c => c_rho (A r c) * dv g nd (l_mesh L r) c)).
  2: { intros. rewrite E. unfold cell_in; cbn [c_rho]. ring. }
  rewrite (shell_sum_in (u_S U g * u_L U) (fun r c => dv g nd (l_mesh L r) c)) by (intros; apply E).
  assert (H : u_S U g * u_L U <> 0) by (apply neq, Rmult_lt_0_compat; auto).
  rewrite sdiv by exact H. f_equal. field. split; auto.
Qed.

Lemma x0_in : (match k_grav K with GUniform _ => False | _ => True end) -> u_X U 0%nat = u_L U.
Proof.
  intros _. pose proof HU as HU1; destruct HU1 as (_ & _ & _ & _ & H). destruct (k_geom K); [apply H; pose proof Hnd; lia|apply H].
Qed.
Lemma radial_in m Mr Mr' c d : u_X U 0%nat = u_L U -> (forall i, Mr' i = u_L U * u_V U * u_V U * Mr i) ->
  radial_gravity (mesh_in U m) Mr' c d = u_A U * radial_gravity m Mr c d.
Proof.
  intros HX H. unfold radial_gravity. destruct d; [|ring]. rewrite H. unfold mxc, mesh_in. rewrite HX.
  replace (- Ggrav * (u_L U * u_V U * u_V U * Mr (ii c))) with (u_L U * u_V U * u_V U * (- Ggrav * Mr (ii c))) by ring.
  replace ((u_L U * m 0%nat (ii c) + u_L U * m 0%nat (ii c + 1)%Z) / 2 * ((u_L U * m 0%nat (ii c) + u_L U * m 0%nat (ii c + 1)%Z) / 2))
    with (u_L U * u_L U * ((m 0%nat (ii c) + m 0%nat (ii c + 1)%Z) / 2 * ((m 0%nat (ii c) + m 0%nat (ii c + 1)%Z) / 2))) by field.
  rewrite sdiv by (apply neq, Rmult_lt_0_compat; auto). f_equal. unfold u_A. field. auto.
Qed.
Lemma gravity_values_in A r c d : gravity_values K' L' (wi A) r c d = u_A U * gravity_values K L A r c d.
Proof.
  pose proof x0_in as Hx. unfold gravity_values. pose proof HC as HC1; destruct HC1 as (_ & _ & _ & HG & _). change (k_grav K') with (gravity_in U (k_grav K)).
  destruct (k_grav K) as [gv|M|M]; cbn [gravity_in]; [reflexivity| |]; rewrite mesh_is; (apply radial_in; [exact (Hx I)|intros i]); [reflexivity|].
  cbn [gravity_units] in HG. unfold mass_r. change (nghost_of (k_nd K') (k_ng K')) with (nghost_of nd (k_ng K)).
  destruct (i <? _)%Z; [reflexivity|]. generalize (Z.to_nat (i - ii (nghost_of nd (k_ng K)))). intros n. specialize (Hx I).
  assert (Q : forall x y z, cube (u_L U * x) = u_L U * u_L U * u_L U * cube x /\
     4 * PI / 3 * (u_L U * u_L U * u_L U * x - u_L U * u_L U * u_L U * y) * (u_D U * z) = u_L U * u_V U * u_V U * (4 * PI / 3 * (x - y) * z)).
  { intros. unfold cube. split; [ring|]. replace (u_L U * u_V U * u_V U) with (u_L U * (u_V U * u_V U)) by ring. rewrite <- HG. field. }
  assert (X : forall i, mesh_in U (l_mesh L r) 0%nat i = u_L U * l_mesh L r 0%nat i) by (intros; unfold mesh_in; now rewrite Hx).
  assert (Y : forall i, mxc (mesh_in U (l_mesh L r)) 0 i = u_L U * mxc (l_mesh L r) 0 i) by (intros; unfold mxc; rewrite !X; field).
  induction n as [|n IH]; cbn [enclosed_mass]; cbv zeta; rewrite ?IH, !shell_mean_in, !X, !Y, !(fun x => proj1 (Q x 0 0)), !(fun x y z => proj2 (Q x y z)); ring.
Qed.

(** ** States *)
Lemma finish_in A rec new S :
  finish K' L' (wi A) (fun r => recon_in U (rec r)) (wi new) (si S) = si (finish K L A rec new S).
Proof.
  fext r. unfold finish, states_in, state_in. cbv zeta. cbn [s_cell s_u s_P s_rec s_new s_grav]. rewrite sel_in.
  assert (P : forall c, to_prim (k_nd K') (k_eos K') (mkCons (c_rho (cell_in U (A r c))) (c_rhou (cell_in U (A r c))) (c_E (cell_in U (A r c))))
     = prim_in U (to_prim nd (k_eos K) (mkCons (c_rho (A r c)) (c_rhou (A r c)) (c_E (A r c))))).
  { intros. exact (to_prim_in U g nd HU (k_eos K) e' He (mkCons (c_rho (A r c)) (c_rhou (A r c)) (c_E (A r c)))). }
  unfold conv_cons_to_prim, kwrite; cbn [fst snd]. f_equal.
  - fext c. fext d. rewrite P. change (k_ng K') with (k_ng K). destruct (sel K L (k_ng K) r c); reflexivity.
  - fext c. rewrite P. change (k_ng K') with (k_ng K). destruct (sel K L (k_ng K) r c); reflexivity.
  - fext c. fext d. apply gravity_values_in.
Qed.
Lemma full_step_in t dt S : full_step K' L' (u_T U * t) (u_T U * dt) (si S) = si (full_step K L t dt S).
Proof.
  unfold full_step. cbv zeta. rewrite step_user_in, bcs_in. rewrite <- finish_in. f_equal. fext r. apply step_rec_in.
Qed.
Lemma init_state_in S : init_state K' L' (si S) = si (init_state K L S).
Proof.
  unfold init_state. cbv zeta.
  assert (E : init_cons K' L' (si S) = wi (init_cons K L S)).
  { fext r. fext c. unfold init_cons. cbv zeta. unfold conv_prim_to_cons, kwrite; cbn [fst snd]. rewrite sel_in.
    pose proof (to_cons_in U nd (k_eos K) e' He (mkPrim (c_rho (s_cell (S r) c)) (s_u (S r) c) (s_P (S r) c))) as Q.
    destruct (sel K L 0 r c); [|reflexivity].
    unfold cell_in; cbn [c_rho c_rhou c_E c_fx]. f_equal; [exact (f_equal q_m Q)|exact (f_equal q_E Q)]. }
  rewrite E, bcs_in, <- finish_in. reflexivity.
Qed.
Lemma run_in ts S : run K' L' (map (fun p => (u_T U * fst p, u_T U * snd p)) ts) (si S) = si (run K L ts S).
Proof. unfold run. revert S. induction ts as [|p ts IH]; intros S; [reflexivity|]. cbn [map fold_left fst snd]. rewrite full_step_in. apply IH. Qed.

(** ** Reductions *)
Lemma max_list_in k l : 0 < k -> max_list (map (Rmult k) l) = option_map (Rmult k) (max_list l).
Proof.
  intros H. induction l as [|x l IH]; [reflexivity|]. cbn [map max_list]. rewrite IH. destruct (max_list l); cbn [option_map]; [|reflexivity].
  now rewrite Rmax_scale.
Qed.
Lemma min_list_in k l : 0 < k -> min_list (map (Rmult k) l) = option_map (Rmult k) (min_list l).
Proof.
  intros H. induction l as [|x l IH]; [reflexivity|]. cbn [map min_list]. rewrite IH. destruct (min_list l); cbn [option_map]; [|reflexivity].
  now rewrite Rmin_scale.
Qed.
Lemma all_values_in k n f f' : (forall r c, f' r c = k * f r c) -> all_values K' L' n f' = map (Rmult k) (all_values K L n f).
Proof.
  intros H. unfold all_values. change (l_dims L') with (l_dims L). induction (ranks (l_dims L)) as [|r l IH]; [reflexivity|].
  cbn [flat_map]. rewrite map_app, IH. f_equal. change (sel_cells K' L' n r) with (sel_cells K L n r). rewrite map_map. apply map_ext. apply H.
Qed.
Lemma dx_geom_in m c d : (d < nd)%nat -> dx_geom g nd (mesh_in U m) c d = u_L U * dx_geom g nd m c d.
Proof.
  pose proof HU as HU1; destruct HU1 as (_ & _ & _ & _ & HX). intros Hd. pose proof Hnd as Hnd1. unfold dx_geom. destruct (k_geom K).
  - rewrite <- (HX d Hd). unfold mdx, mesh_in. destruct d as [|[|[|d]]]; try ring. lia.
  - destruct HX as (H0 & H1 & H2).
    assert (E0' : forall i, mdx (mesh_in U m) 0 i = u_L U * mdx m 0 i) by (intros; unfold mdx, mesh_in; rewrite H0; ring).
    assert (C0 : forall i, mxc (mesh_in U m) 0 i = u_L U * mxc m 0 i) by (intros; unfold mxc, mesh_in; rewrite H0; field).
    assert (E1 : forall i, mdx (mesh_in U m) 1 i = mdx m 1 i) by (intros; unfold mdx, mesh_in; rewrite H1; ring).
    assert (C1 : forall i, mxc (mesh_in U m) 1 i = mxc m 1 i) by (intros; unfold mxc, mesh_in; rewrite H1; field).
    assert (E2 : forall i, mdx (mesh_in U m) 2 i = mdx m 2 i) by (intros; unfold mdx, mesh_in; rewrite H2; ring).
    destruct nd as [|[|[|[|n]]]]; [lia| | | |lia]; destruct d as [|[|[|d]]]; try lia; cbn [coord]; rewrite ?E0', ?C0, ?E1, ?C1, ?E2; ring.
Qed.
Lemma inverse_dt_in S r c : cell_inverse_dt K' L' (si S) r c = u_V U / u_L U * cell_inverse_dt K L S r c.
Proof.
  unfold cell_inverse_dt, inverse_dt. cbv zeta. change (k_nd K') with nd. change (k_geom K') with g. rewrite mesh_is.
  apply (vsum_in nd). intros d Hd. rewrite dx_geom_in by exact Hd. unfold states_in, state_in, cell_in; cbn [s_cell s_u s_P c_rho].
  change (k_eos K') with e'. rewrite (sound_in U (k_eos K) e' He), Rabs_mult, (Rabs_pos_eq (u_V U)) by (left; auto).
  rewrite <- Rmult_plus_distr_l. now rewrite sdiv by auto.
Qed.
Lemma time_step_in S : time_step K' L' (si S) = option_map (Rmult (u_T U)) (time_step K L S).
Proof.
  unfold time_step. change (k_ng K') with (k_ng K). rewrite (all_values_in (u_V U / u_L U) _ (cell_inverse_dt K L S)) by apply inverse_dt_in.
  rewrite max_list_in by (apply Rdiv_lt_0_compat; auto). destruct (max_list _); cbn [option_map]; [|reflexivity].
  f_equal. unfold u_T, Rdiv. rewrite !Rinv_mult, Rinv_inv. ring.
Qed.
Lemma internal_in S : minimum_internal_energy K' L' (si S) = option_map (Rmult (u_E U)) (minimum_internal_energy K L S).
Proof.
  unfold minimum_internal_energy. rewrite (all_values_in (u_E U) _ (cell_internal K S)); [rewrite min_list_in by auto; reflexivity|].
  intros. unfold cell_internal. exact (evol_cons_in U g nd HU (cons_of (s_cell (S r) c))).
Qed.
Lemma run_cfl_in cfl n : forall t S,
  run_cfl K' L' cfl n (u_T U * t) (si S) = (u_T U * fst (run_cfl K L cfl n t S), si (snd (run_cfl K L cfl n t S))).
Proof.
  induction n as [|n IH]; intros t S; [reflexivity|]. cbn [run_cfl]. rewrite time_step_in. destruct (time_step K L S) as [h|]; cbn [option_map]; [|reflexivity].
  replace (u_T U * t + cfl * (u_T U * h)) with (u_T U * (t + cfl * h)) by ring. replace (cfl * (u_T U * h)) with (u_T U * (cfl * h)) by ring.
  rewrite full_step_in. apply IH.
Qed.

(** ** The main loop *)
Section Loop.
Variables (cfl : R) (p : params) (clock : Z -> bool).
Notation Y := (hydro K L cfl). Notation Y' := (hydro K' L' cfl).
Notation p' := (params_in U p).
Notation mi := (main_in U).

Lemma y_dt_in S : y_dt Y' (si S) = u_T U * y_dt Y S.
Proof. cbn [y_dt hydro]. rewrite time_step_in. destruct (time_step K L S); cbn [option_map]; ring. Qed.
Lemma y_bad_in S : y_bad Y' (si S) = y_bad Y S.
Proof. cbn [y_bad hydro]. rewrite internal_in. destruct (minimum_internal_energy K L S); cbn [option_map]; [|reflexivity]. now apply rltb_scale_0. Qed.

Lemma time_schedule_in m dt : time_schedule p' (mi m) (u_T U * dt)
  = match time_schedule p m dt with Ok (b, i, x) => Ok (b, i, u_T U * x) | Throw w => Throw w | UB w => UB w end.
Proof.
  unfold time_schedule. cbn [p' params_in p_time_freq p_time_first mi main_in m_tid m_t]. rewrite rltb_scale0 by auto. destruct (rltb 0 _); [|reflexivity].
  cbv zeta. set (nx := p_time_first p + IZR (m_tid m + 1) * p_time_freq p).
  replace (u_T U * p_time_first p + IZR (m_tid m + 1) * (u_T U * p_time_freq p)) with (u_T U * nx) by (unfold nx; ring).
  rewrite <- Rmult_plus_distr_l, rleb_scale by auto. destruct (rleb nx _); [|reflexivity].
  replace (u_T U * nx - u_T U * m_t m) with (u_T U * (nx - m_t m)) by ring.
  replace (rleb (u_T U * (nx - m_t m)) 0) with (rleb (nx - m_t m) 0) by (rewrite <- (rleb_scale (u_T U)) by auto; now rewrite Rmult_0_r).
  destruct (rleb _ 0); reflexivity.
Qed.
Lemma output_in m : output (mi m) = mi (output m).
Proof. unfold output, write, next_id, file_of, main_in; cbn. now rewrite !map_app. Qed.
Lemma body_in m : body Y' p' clock (mi m) = (mi (fst (body Y p clock m)), snd (body Y p clock m)).
Proof.
  unfold body. change (m_iter (mi m)) with (m_iter m). destruct (negb _); [reflexivity|].
  change (iter_schedule p' (mi m)) with (iter_schedule p m). destruct (iter_schedule p m) as [[o1 iid]|w|w]; [|reflexivity|reflexivity].
  change (m_st (mi m)) with (si (m_st m)). rewrite y_dt_in, y_bad_in, time_schedule_in.
  destruct (time_schedule p m (y_dt Y (m_st m))) as [[[o2 tid] dt2]|w|w]; [|reflexivity|reflexivity].
  assert (C : clip_to_end p' (m_t (mi m)) (u_T U * dt2) = (fst (clip_to_end p (m_t m) dt2), u_T U * snd (clip_to_end p (m_t m) dt2))).
  { unfold clip_to_end. cbn [p' params_in p_t_end mi main_in m_t]. rewrite <- Rmult_plus_distr_l, rleb_scale by auto.
    destruct (rleb _ _); cbn [fst snd]; f_equal. ring. }
  rewrite C. destruct (clip_to_end p (m_t m) dt2) as [stop1 dt]. cbn [fst snd]. cbv zeta. change (p_max_iter p') with (p_max_iter p).
  destruct (y_bad Y (m_st m)).
  - cbn [fst snd]. f_equal. unfold write, next_id, file_of, main_in; cbn. now rewrite !map_app.
  - cbn [fst snd]. f_equal. set (b := (o1 || o2 || _)%bool).
    cbn [y_step hydro]. change (m_t (mi m)) with (u_T U * m_t m). rewrite full_step_in, <- Rmult_plus_distr_l.
    match goal with |- (if b then output ?x else ?x) = mi (if b then output ?y else ?y) => change x with (mi y) end.
    destruct b; [apply output_in|reflexivity].
Qed.
Lemma loop_in n : forall m, loop Y' p' clock n (mi m) = (mi (fst (loop Y p clock n m)), snd (loop Y p clock n m)).
Proof.
  induction n as [|n IH]; intros m; [reflexivity|]. cbn [loop]. rewrite body_in. destruct (body Y p clock m) as [m1 v]. cbn [fst snd].
  destruct v; cbn [fst snd]; [apply IH| | |]; reflexivity.
Qed.
Lemma fresh_in S : fresh p' (si S) = mi (fresh p S).
Proof.
  unfold fresh. cbv zeta. cbn [p' params_in p_iter_freq p_time_freq p_t_ini]. rewrite rltb_scale0 by auto.
  destruct (_ || _)%bool; [|reflexivity]. rewrite <- output_in. reflexivity.
Qed.
End Loop.
End Run.
