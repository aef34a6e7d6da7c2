(** * Proofs for C101: what the runs do. *)
From Coq Require Import List Ascii Reals Lra Lia ZifyBool.
From Coq Require String.
From Flocq Require Import Core.
From Verif Require Import Base RBase ModelMesh ModelGeom ModelBoundary ModelHydro ModelRad ModelScheme ModelStep ModelUtil ModelIni ModelMain ModelSetup ModelParam ModelUser ModelUserRun
  SpecMesh SpecGeom SpecBoundary SpecHydro SpecScheme SpecStep SpecPos SpecSetup SpecMain SpecIni SpecParam SpecUser SpecUserRun
  ProofBase ProofR ProofMesh ProofBoundary ProofStep ProofLayout ProofStepEx ProofSetup ProofSetupRun ProofMain ProofRestart
  ProofParam ProofParamRun ProofParamRun2 ProofUser2 ProofUser3 ProofUser4 ProofUserRun.
Local Open Scope string_scope.
Local Open Scope Z_scope.
Local Open Scope list_scope.

Theorem own_executed b T f p lo hi bc g lim sol user amp s cfl P : file_with T f -> described T p -> own_chosen b T p bc g lim sol user ->
  starts_with T (b_setup b) amp s -> pm_shift_grid p <> "UserDefined" -> implemented (b_geom b) s -> timing p cfl P ->
  (wants_own (b_nd b) bc -> offers_own s) ->
  exists X K U, forall dims, usable b p dims lo hi -> exists L, own_executes b f p lo hi bc g lim sol user amp s cfl P X K U dims L.
Proof.
  intros Hf Hp Hc Hs Hm Hi Ht Ho. destruct amp as [[[ak bk] ck] dk].
  destruct (starts_described T (b_setup b) ak bk ck dk s Hs) as (vs & Hd & Hso).
  eexists. eexists. eexists. intros dims Hu. eexists.
  exact (own_file_executed b T f p lo hi bc g lim sol user ak bk ck dk s cfl P (map Finite vs) Hf Hp Hc Hd Hso Hm Hi Ht dims Hu Ho).
Qed.
Theorem own_refused b T f p lo hi bc g lim sol user amp s cfl P : file_with T f -> described T p -> own_chosen b T p bc g lim sol user ->
  starts_with T (b_setup b) amp s -> pm_shift_grid p <> "UserDefined" -> implemented (b_geom b) s -> timing p cfl P ->
  wants_own (b_nd b) bc -> ~ offers_own s -> forall dims clock n, usable b p dims lo hi ->
  own_program b dims (Some f) amp clock n = Throw "Boundary setup not implemented".
Proof.
  intros Hf Hp Hc Hs Hm Hi Ht Hw Hn dims clock n Hu. destruct amp as [[[ak bk] ck] dk].
  destruct (starts_described T (b_setup b) ak bk ck dk s Hs) as (vs & Hd & Hso).
  exact (own_file_refused b T f p lo hi bc g lim sol user ak bk ck dk s cfl P (map Finite vs) Hf Hp Hc Hd Hso Hm Hi Ht dims clock n Hu Hw Hn).
Qed.

(** ** Files without such faces *)
Section Ext.
Context {S : Type} (D D' : dynamics S) (p : params) (clock : Z -> bool).
Hypothesis H1 : forall s, y_dt D s = y_dt D' s.
Hypothesis H2 : forall s, y_bad D s = y_bad D' s.
Hypothesis H3 : forall t dt s, y_step D t dt s = y_step D' t dt s.
Lemma body_ext m : ModelMain.body D p clock m = ModelMain.body D' p clock m.
Proof.
  unfold ModelMain.body. destruct (negb _); [reflexivity|]. destruct (iter_schedule p m) as [[o1 iid]|w|w]; [|reflexivity..].
  rewrite H1. destruct (time_schedule p m _) as [[[o2 tid] dt2]|w|w]; [|reflexivity..].
  destruct (clip_to_end p (m_t m) dt2) as [s1 dt]. cbv zeta. rewrite H2, H3. reflexivity.
Qed.
Lemma loop_ext n : forall m, loop D p clock n m = loop D' p clock n m.
Proof.
  induction n as [|n IH]; intros m; [reflexivity|]. cbn [loop]. rewrite body_ext. destruct (ModelMain.body D' p clock m) as [m1 v1].
  destruct v1; [apply IH|reflexivity..].
Qed.
End Ext.
Lemma own_update_builtin K N L U g A : (forall f, ob_face U f = false) -> own_update K N L U g A = bcs_update K L A.
Proof.
  intros H. unfold own_update, bcs_update, boundary_update. generalize (sync_dims (l_dims L) (fun r => d_nwg (l_dec L r)) (k_ng K) (k_nd K) A) as W. 
  generalize (k_order K) as l. induction l as [|f l IH]; intros W; [reflexivity|]. cbn [fold_left].
  unfold own_step at 2. rewrite (H f). apply IH.
Qed.
Lemma builtin_faces r : forallb is_builtin (r_bcs r) = true -> forall f, own_faces r f = false.
Proof.
  intros H f. unfold own_faces. destruct (nth_in_or_default f (r_bcs r) (Builtin NullGradient)) as [Q|Q]; [|now rewrite Q].
  rewrite forallb_forall in H. specialize (H _ Q). now destruct (nth f (r_bcs r) (Builtin NullGradient)).
Qed.
Theorem own_program_builtin b dims file amp clock n :
  (forall r, startup b dims (I3 0 0 0) file = Ok r -> forallb is_builtin (r_bcs r) = true) ->
  own_program b dims file amp clock n = program b dims file amp clock n.
Proof.
  intros H. destruct amp as [[[ak bk] ck] dk]. unfold own_program, program. destruct (startup b dims (I3 0 0 0) file) as [r| |]; [|reflexivity..].
  cbn [obind]. specialize (H r eq_refl). assert (E : own_composed r = composed r).
  { unfold own_composed, composed. rewrite H. now rewrite Bool.andb_true_r. }
  rewrite E. destruct (composed r); [|reflexivity]. cbn [negb]. destruct (setup_of b r ak bk ck dk) as [s|]; [|reflexivity]. cbv zeta.
  destruct (initialise _ _ _ _ _) as [st| |]; [|reflexivity..]. cbn [obind]. pose proof (builtin_faces r H) as F.
  set (K := config_of b r). set (L := layout_of b dims _). set (U := bounds_of s r).
  assert (Q : existsb (calls_bounds K L U) (ranks (l_dims L)) = false).
  { apply Bool.not_true_is_false. intros Q. apply existsb_exists in Q. destruct Q as (q & _ & Q). apply existsb_exists in Q.
    destruct Q as (i & _ & Q). apply andb_prop in Q. destruct Q as [Q _]. change (ob_face U i) with (own_faces r i) in Q. now rewrite F in Q. }
  rewrite Q. cbn [andb]. do 2 f_equal.
  assert (EI : own_init K (extents (r_param r)) L U st = init_state K L st).
  { unfold own_init, init_state. cbv zeta. now rewrite own_update_builtin by exact F. }
  rewrite EI. apply loop_ext; try reflexivity. intros t dt S. cbn [own_hydro hydro y_step]. unfold own_full_step, full_step. cbv zeta.
  now rewrite own_update_builtin by exact F.
Qed.

(** ** Any process grid *)
Theorem own_any_grid b f p lo hi bc g lim sol user amp s cfl P X K U dims dims' L L' :
  own_executes b f p lo hi bc g lim sol user amp s cfl P X K U dims L -> own_executes b f p lo hi bc g lim sol user amp s cfl P X K U dims' L' ->
  positional s -> forall clock n m v m' v',
  own_program b dims (Some f) amp clock n = Ok (Some (m, v)) -> own_program b dims' (Some f) amp clock n = Ok (Some (m', v')) ->
  v' = v /\ m_oid m' = m_oid m /\ m_iter m' = m_iter m /\ m_t m' = m_t m /\
  let same := same_arrays K (I3 (pm_nx0 p) (pm_nx1 p) (pm_nx2 p)) X dims L dims' L' in
  same (m_st m) (m_st m') /\ Forall2 (same_file same 0) (m_files m) (m_files m').
Proof.
  intros HE HE' Hs clock n m v m' v'.
  rewrite (oe_program _ _ _ _ _ _ _ _ _ _ _ _ _ _ _ _ _ _ _ HE), (oe_program _ _ _ _ _ _ _ _ _ _ _ _ _ _ _ _ _ _ _ HE').
  intros E E'. injection E as E. injection E' as E'.
  assert (HR := oe_runs _ _ _ _ _ _ _ _ _ _ _ _ _ _ _ _ _ _ _ HE). assert (HR' := oe_runs _ _ _ _ _ _ _ _ _ _ _ _ _ _ _ _ _ _ _ HE').
  set (N := I3 (pm_nx0 p) (pm_nx1 p) (pm_nx2 p)) in *. set (th := match g with PGas g => pg_thermo g | RGas g => rg_thermo g end) in *.
  pose proof (own_alike K N dims dims' X L L' U cfl P clock HR HR' s th n Hs) as A. cbv zeta in A. rewrite E, E' in A. exact A.
Qed.

(** ** The profile *)
Section Profile.
Context {b : build} {f : bytes} {p : param} {lo hi : nat -> R} {bc : nat -> choice bcond} {g : gas} {lim : limiter} {sol : solver} {user : user_kind}
  {amp : R * R * R * R} {s : setup} {cfl : R} {P : params} {X : nat -> arr1} {K : ModelStep.config} {U : own_bounds} {dims : idx} {L : layout}.
Hypothesis HE : own_executes b f p lo hi bc g lim sol user amp s cfl P X K U dims L.
Variables (gas : perfect_gas) (rho0 T0 : R).
Hypothesis Hg : g = PGas gas.
Hypothesis Hat : atmosphere s rho0 0 T0.
Hypothesis Hrho : (0 < rho0)%R.
Hypothesis HT0 : (0 < T0)%R.
Let N := I3 (pm_nx0 p) (pm_nx1 p) (pm_nx2 p).
Let HR := oe_runs _ _ _ _ _ _ _ _ _ _ _ _ _ _ _ _ _ _ _ HE.
Lemma own_valid_gas : valid_gas gas.
Proof.
  destruct (oe_gas _ _ _ _ _ _ _ _ _ _ _ _ _ _ _ _ _ _ _ HE) as (ga & mu & _ & _ & G1 & G2 & G3).
  rewrite Hg in G3. destruct (b_eos b); cbn [gas_is] in G3; [|discriminate]. injection G3 as ->. split; assumption.
Qed.
Lemma own_th : ob_th U = pg_thermo gas.
Proof. rewrite (oe_thermo _ _ _ _ _ _ _ _ _ _ _ _ _ _ _ _ _ _ _ HE). now rewrite Hg. Qed.
Lemma own_setup_is : ob_setup U = s. Proof. exact (oe_setup _ _ _ _ _ _ _ _ _ _ _ _ _ _ _ _ _ _ _ HE). Qed.

Theorem own_first_output : bc 0%nat = FromSetup -> bc 1%nat = FromSetup ->
  forall clock m v, own_program b dims (Some f) amp clock 0 = Ok (Some (m, v)) ->
  forall St r c, left_behind m St -> process (b_nd b) dims r -> in_array (d_nwg (l_dec L r)) c ->
  let v := setup_cell s (setup_env K (pg_thermo gas) N L r) c old_cell in
  at_rest_with (b_nd b) gas v (s_cell (St r) c) /\ (forall k, (k < b_nd b)%nat -> s_u (St r) c k = 0%R) /\ s_P (St r) c = i_P v.
Proof.
  intros B0 B1 clock m v. rewrite (oe_program _ _ _ _ _ _ _ _ _ _ _ _ _ _ _ _ _ _ _ HE). intros E. cbn [loop] in E. injection E as E _. fold N in E.
  rewrite Hg in E. intros St r c HS.
  assert (ES : St = own_init K N L U (setup_state s K (pg_thermo gas) N L)).
  { revert HS. rewrite <- E. unfold fresh. destruct (_ || _)%bool; intros [->|(fl & Hfl & ->)]; try reflexivity; [|contradiction].
    cbn in Hfl. destruct Hfl as [<-|[]]. reflexivity. }
  clear E HS. subst St. intros Hr Hc. assert (Hnd := oe_nd _ _ _ _ _ _ _ _ _ _ _ _ _ _ _ _ _ _ _ HE).
  assert (Hle := us_nd _ _ _ _ _ (oe_usable _ _ _ _ _ _ _ _ _ _ _ _ _ _ _ _ _ _ _ HE)).
  assert (Ho := oe_order _ _ _ _ _ _ _ _ _ _ _ _ _ _ _ _ _ _ _ HE).
  rewrite <- Hnd in Hr |- *.
  apply (rest_start K N dims X L U gas s rho0 T0); try assumption.
  - exact own_setup_is.
  - exact own_th.
  - rewrite (oe_eos _ _ _ _ _ _ _ _ _ _ _ _ _ _ _ _ _ _ _ HE). now rewrite Hg.
  - exact own_valid_gas.
  - apply (oe_own _ _ _ _ _ _ _ _ _ _ _ _ _ _ _ _ _ _ _ HE); [lia|exact B0].
  - apply (oe_own _ _ _ _ _ _ _ _ _ _ _ _ _ _ _ _ _ _ _ HE); [lia|exact B1].
  - rewrite Ho. apply in_seq. lia.
  - rewrite Ho. apply in_seq. lia.
Qed.

Theorem own_ghosts_kept : b_grav b <> InternalMassGrav -> forall clock n m v, own_program b dims (Some f) amp clock n = Ok (Some (m, v)) ->
  forall St r c i, left_behind m St -> process (b_nd b) dims r -> (i < 2 * b_nd b)%nat -> bc i = FromSetup -> beyond K L i r c ->
  (forall h, (i < h < 2 * b_nd b)%nat -> ~ beyond K L h r c) ->
  at_rest_with (b_nd b) gas (setup_cell s (setup_env K (pg_thermo gas) N L r) c old_cell) (s_cell (St r) c).
Proof.
  intros Hgr clock n m v. rewrite (oe_program _ _ _ _ _ _ _ _ _ _ _ _ _ _ _ _ _ _ _ HE). intros E. injection E as E. fold N in E.
  assert (Hmg : mesh_gravity K).
  { pose proof (oe_grav _ _ _ _ _ _ _ _ _ _ _ _ _ _ _ _ _ _ _ HE) as G. unfold mesh_gravity. destruct (b_grav b).
    - destruct G as (gv & -> & _). exact I.
    - destruct G as (M & _ & ->). exact I.
    - now elim Hgr. }
  assert (Hnd := oe_nd _ _ _ _ _ _ _ _ _ _ _ _ _ _ _ _ _ _ _ HE).
  assert (Ho := oe_order _ _ _ _ _ _ _ _ _ _ _ _ _ _ _ _ _ _ _ HE).
  set (Q := fun St : idx -> pstate => (forall r, exists A, s_grav (St r) = gravity_values K L A r) /\
    forall r c i, process (k_nd K) dims r -> (i < 2 * b_nd b)%nat -> bc i = FromSetup -> beyond K L i r c ->
    (forall h, (i < h < 2 * b_nd b)%nat -> ~ beyond K L h r c) ->
    at_rest_with (k_nd K) gas (setup_cell s (setup_env K (pg_thermo gas) N L r) c old_cell) (s_cell (St r) c)).
  assert (Split : forall i, (i < 2 * b_nd b)%nat -> k_order K = seq 0 i ++ i :: seq (Datatypes.S i) (2 * b_nd b - Datatypes.S i)).
  { intros i Hi. rewrite Ho. replace (2 * b_nd b)%nat with (i + Datatypes.S (2 * b_nd b - Datatypes.S i))%nat at 1 by lia.
    rewrite seq_app. reflexivity. }
  assert (Step : forall St A r c i, process (k_nd K) dims r -> (i < 2 * b_nd b)%nat -> bc i = FromSetup -> beyond K L i r c ->
    (forall h, (i < h < 2 * b_nd b)%nat -> ~ beyond K L h r c) -> (forall q, exists B, s_grav (St q) = gravity_values K L B q) ->
    at_rest_with (k_nd K) gas (setup_cell s (setup_env K (pg_thermo gas) N L r) c old_cell) (own_update K N L U (fun q => s_grav (St q)) A r c)).
  { intros St A r c i Hr Hi Hbc Hb Hl HG. destruct (HG r) as (B & EB).
    pose proof (own_last_rest K N dims X L U HR gas rho0 T0 own_th ltac:(rewrite own_setup_is; exact Hat) own_valid_gas Hrho (fun q => s_grav (St q)) A r c _ i _ (Split i Hi) Hr Hb
      (oe_own _ _ _ _ _ _ _ _ _ _ _ _ _ _ _ _ _ _ _ HE i Hi Hbc)) as R.
    unfold setup_env. rewrite (made_mesh K L L r (fun _ _ => zero_cell) B Hmg eq_refl), <- EB, <- own_setup_is. apply R.
    intros h Hh. apply in_seq in Hh. apply Hl. lia. }
  assert (Q0 : Q (own_init K N L U (setup_state s K (match g with PGas g => pg_thermo g | RGas g => rg_thermo g end) N L))).
  { split; [intros r; eexists; reflexivity|]. intros r c i Hr Hi Hbc Hb Hl. unfold own_init. cbv zeta. cbn [finish s_cell].
    apply (Step _ _ r c i); try assumption. intros q. eexists. reflexivity. }
  assert (Q1 : forall t dt x, Q x -> Q (y_step (own_hydro K N L U cfl) t dt x)).
  { intros t dt x [G _]. split; [intros r; eexists; reflexivity|]. intros r c i Hr Hi Hbc Hb Hl. cbn [own_hydro y_step]. unfold own_full_step. cbv zeta.
    cbn [finish s_cell]. now apply (Step _ _ r c i). }
  intros St r c i HS Hr Hi Hbc Hb Hl. destruct (left_run (own_hydro K N L U cfl) P clock Q Q1 _ n m v Q0 E St HS) as [_ QS].
  rewrite <- Hnd in Hr |- *. now apply (QS r c i).
Qed.
End Profile.
