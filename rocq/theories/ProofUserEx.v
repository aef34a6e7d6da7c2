(** * An atmosphere on 3 x 2 processes with its own boundary conditions (C100). *)
From Coq Require Import FunctionalExtensionality ZifyBool ZifyNat.
From Verif Require Import Base RBase ModelMesh ModelGeom ModelBoundary ModelHydro ModelScheme ModelStep ModelSetup ModelMain ModelUser
  SpecMesh SpecBoundary SpecHydro SpecScheme SpecStep SpecSetup SpecMain SpecUser
  ProofBase ProofMesh ProofR ProofBoundary ProofBoundary2 ProofHydro ProofScheme ProofShift ProofReduce ProofStep ProofStepEx ProofLayout ProofSetup
  ProofSetupEnergy ProofSteady ProofMain ProofMainEx ProofRestart ProofMPIGrid ProofUser ProofUser2 ProofUser3 ProofUser4.
Local Open Scope R_scope.

(** The owned cells at the start of a run. *)
Section Fields.
Variables (K : config) (N dims : idx) (X : nat -> arr1) (L : layout) (U : own_bounds) (gas : perfect_gas) (s : setup) (rho0 T0 : R).
Hypothesis HR : runs_on K N dims X L.
Hypothesis Heos : k_eos K = pg_eos gas.
Hypothesis Hat : atmosphere s rho0 0 T0.
Hypothesis Hgas : valid_gas gas.
Hypothesis Hrho : 0 < rho0.
Hypothesis HT : 0 < T0.
Notation nd := (k_nd K).
Notation ng := (k_ng K).
Notation th := (pg_thermo gas).
Notation St := (own_init K N L U (setup_state s K th N L)).
Notation own r c := (owned nd ng (d_nloc (l_dec L r)) c).
Notation v r c := (setup_cell s (setup_env K th N L r) c old_cell).

Lemma start_owned r c : process nd dims r -> own r c ->
  cons_of (s_cell (St r) c) = to_cons nd (k_eos K) (mkPrim (i_rho (v r c)) (i_u (v r c)) (i_P (v r c))) /\ c_fx (s_cell (St r) c) = i_fx (v r c).
Proof.
  intros Hr Hc. unfold own_init. cbn [finish s_cell].
  rewrite (own_owned K N dims X L U _ _ r c (ro_layout HR) (ro_faces HR) Hr Hc).
  pose proof (proj2 (sel_owned _ _ _ _ _ _ _ (ro_layout HR) Hr) Hc) as Hs.
  pose proof (setup_fields_owned K N dims X L th (ro_layout HR) s r c Hr Hc) as EF.
  unfold init_cons. cbn [conv_prim_to_cons fst snd]. unfold kwrite. rewrite Hs. cbn [setup_state s_cell s_u s_P c_rho c_fx]. rewrite EF.
  split; reflexivity.
Qed.
Lemma start_valid r c : process nd dims r -> own r c -> valid_prim (mkPrim (i_rho (v r c)) (i_u (v r c)) (i_P (v r c))).
Proof.
  intros Hr Hc. split; cbn [p_rho p_P]; [now apply (profile_rho s rho0 0 T0)|]. unfold setup_env. now apply (profile_P s rho0 0 T0).
Qed.
Lemma start_prim r c : process nd dims r -> own r c -> s_u (St r) c = i_u (v r c) /\ s_P (St r) c = i_P (v r c).
Proof.
  intros Hr Hc. destruct (start_owned r c Hr Hc) as [E _].
  pose proof (to_prim_to_cons nd (k_eos K) ltac:(rewrite Heos; now apply pg_lawful) _ (start_valid r c Hr Hc)) as T. rewrite <- E in T.
  assert (Ha : sel K L ng r c = true).
  { apply (sel_mono _ _ _ _ _ 0 _ _ _ (ro_layout HR) Hr); [pose proof (ro_ng HR); lia|]. now apply (sel_owned _ _ _ _ _ _ _ (ro_layout HR) Hr). }
  unfold own_init in T |- *. cbn [finish s_cell s_u s_P conv_cons_to_prim fst snd] in *. unfold kwrite. rewrite Ha.
  unfold cons_of in T. rewrite T. split; reflexivity.
Qed.
Lemma start_fields : starts_from K dims L (global_fields s K th N X) St.
Proof.
  pose proof (setup_starts K N dims X L th (ro_layout HR) s ltac:(destruct Hat as [->|[M ->]]; exact I)) as H.
  split; intros r Hr c Hc; [rewrite <- (sf_rho H r Hr c Hc)|rewrite <- (sf_fx H r Hr c Hc)|rewrite <- (sf_u H r Hr c Hc)|rewrite <- (sf_P H r Hr c Hc)];
    cbn [setup_state s_cell s_u s_P c_rho c_fx]; rewrite (setup_fields_owned K N dims X L th (ro_layout HR) s r c Hr Hc).
  - destruct (start_owned r c Hr Hc) as [E _]. exact (f_equal q_rho E).
  - apply (start_owned r c Hr Hc).
  - apply (start_prim r c Hr Hc).
  - apply (start_prim r c Hr Hc).
Qed.
Lemma start_cons r c : process nd dims r -> own r c -> valid_cons nd (cons_of (s_cell (St r) c)).
Proof.
  intros Hr Hc. destruct (start_owned r c Hr Hc) as [-> _].
  pose proof (start_valid r c Hr Hc) as [V1 V2]. cbn [p_rho p_P] in V1, V2. split; [exact V1|].
  rewrite <- evol_cons_internal by exact V1. unfold evol_cons. rewrite ek_cons_to_cons by exact V1. cbn [to_cons q_E p_rho p_P].
  rewrite Heos. pose proof (law_evol_pos _ (pg_lawful gas Hgas) _ _ V1 V2) as H.
  match goal with |- 0 < ?a + ?b - ?b' => replace (a + b - b') with a by ring end. exact H.
Qed.
End Fields.

(** Gravity towards the left, user-defined conditions at both ends of the first direction, walls in the second. *)
Definition own_gas : perfect_gas := mkPG (5 / 3) 1.
Definition own_K : config :=
  mkConfig Cartesian 2 2 (pg_eos own_gas) LVanLeer HLLC None UOff (GUniform (fun d => match d with O => -10 | _ => 0 end)) (fun _ => Reflexive) [2; 0; 3; 1]%nat.
Definition own_L := the_layout own_K ex_N ex_dims ex_X.
Definition own_L1 := the_layout own_K ex_N one_process ex_X.
Definition own_s : setup := SStratifiedAtm 10 0 100.
Definition own_U : own_bounds := mkOwn own_s (pg_thermo own_gas) (fun f => Nat.ltb f 2).
Definition own_p : params := mkParams 0 400 100 1 0 0.
Lemma own_runs : runs_on own_K ex_N ex_dims ex_X own_L.
Proof.
  assert (H3 : forall d, (d < 3)%nat -> (1 <= coord d ex_N)%Z) by (dims3; vm_compute; congruence).
  assert (H4 : forall d, (d < 3)%nat -> (1 <= coord d (mpi_dims 2 ex_dims))%Z) by (dims3; vm_compute; congruence).
  split; cbn [own_K k_nd k_ng k_order].
  - apply the_layout_ok; cbn [own_K k_nd k_ng]; try lia; [exact H3|exact H4|exact ex_coords].
  - unfold own_L, the_layout. cbn [l_dec own_K k_nd k_ng]. apply decs_thick; try lia; [exact H3|exact H4|].
    intros d Hd; destruct d as [|[|d]]; [| |lia]; vm_compute; congruence.
  - lia.
  - intros f Hf. cbn in Hf. lia.
  - exact I.
Qed.
Lemma own_runs1 : runs_on own_K ex_N one_process ex_X own_L1.
Proof.
  assert (H3 : forall d, (d < 3)%nat -> (1 <= coord d ex_N)%Z) by (dims3; vm_compute; congruence).
  assert (H4 : forall d, (d < 3)%nat -> (1 <= coord d (mpi_dims 2 one_process))%Z) by (dims3; vm_compute; congruence).
  split; cbn [own_K k_nd k_ng k_order].
  - apply the_layout_ok; cbn [own_K k_nd k_ng]; try lia; [exact H3|exact H4|exact ex_coords].
  - unfold own_L1, the_layout. cbn [l_dec own_K k_nd k_ng]. apply decs_thick; try lia; [exact H3|exact H4|].
    intros d Hd; destruct d as [|[|d]]; [| |lia]; vm_compute; congruence.
  - lia.
  - intros f Hf. cbn in Hf. lia.
  - exact I.
Qed.
Lemma own_gas_ok : valid_gas own_gas.
Proof. split; cbn; lra. Qed.

(** The corner cell (0, 0) of the first process lies beyond the faces 2 and 0; 0 is treated after 2, 1 does not touch it. *)
Lemma own_corner : beyond own_K own_L 0 rank0 (I3 0 0 0) /\ beyond own_K own_L 2 rank0 (I3 0 0 0) /\
  (forall h, In h [3; 1]%nat -> ~ beyond own_K own_L h rank0 (I3 0 0 0)).
Proof.
  assert (A : in_array (d_nwg (l_dec own_L rank0)) (I3 0 0 0)) by (dims3; vm_compute; split; congruence).
  split; [split; [reflexivity|split; [exact A|reflexivity]]|]. split; [split; [reflexivity|split; [exact A|reflexivity]]|].
  intros h [<-|[<-|[]]] [E _]; discriminate E.
Qed.

(** The file written at the start. *)
Lemma own_first : let S0 := setup_state own_s own_K (pg_thermo own_gas) ex_N own_L in
  let m1 := fresh own_p (own_init own_K ex_N own_L own_U S0) in
  exists f, loop (own_hydro own_K ex_N own_L own_U (4 / 10)) own_p never 0 m1 = (m1, Going) /\ last_file m1 f /\ fl_iter f = m_iter m1 /\
  (forall r c, process 2 ex_dims r -> owned 2 2 (d_nloc (l_dec own_L r)) c -> valid_cons 2 (cons_of (s_cell (fl_data f r) c))) /\
  starts_from own_K ex_dims own_L (global_fields own_s own_K (pg_thermo own_gas) ex_N ex_X) (fl_data f) /\
  starts_from own_K one_process own_L1 (global_fields own_s own_K (pg_thermo own_gas) ex_N ex_X) (setup_state own_s own_K (pg_thermo own_gas) ex_N own_L1) /\
  (forall r, process 2 one_process r -> made_on own_K own_L1 r (s_grav (setup_state own_s own_K (pg_thermo own_gas) ex_N own_L1 r))).
Proof.
  intros S0 m1. assert (Hat : atmosphere own_s 10 0 100) by (left; reflexivity).
  assert (Ef : exists f, m_files m1 = [f] /\ fl_iter f = m_iter m1 /\ fl_data f = own_init own_K ex_N own_L own_U S0).
  { unfold m1, fresh. cbn [own_p p_iter_freq]. cbn. eexists. split; [reflexivity|]. split; reflexivity. }
  destruct Ef as (f & E1 & E2 & E3). exists f. split; [reflexivity|]. split; [exists []; exact E1|]. split; [exact E2|]. rewrite E3.
  split; [exact (start_cons own_K ex_N ex_dims ex_X own_L own_U own_gas own_s 10 100 own_runs eq_refl Hat own_gas_ok ltac:(lra) ltac:(lra))|].
  split; [exact (start_fields own_K ex_N ex_dims ex_X own_L own_U own_gas own_s 10 100 own_runs eq_refl Hat own_gas_ok ltac:(lra) ltac:(lra))|].
  split; [exact (setup_starts own_K ex_N one_process ex_X own_L1 (pg_thermo own_gas) (ro_layout own_runs1) own_s I)|].
  intros r _. exists (fun _ _ => zero_cell). reflexivity.
Qed.
