(** * Three cells of a line: one step of the first-order scheme, and the run that follows (C104). *)
From Coq Require Import ZifyBool ZifyNat Lra Psatz.
From Verif Require Import Base RBase ModelMesh ModelGeom ModelBoundary ModelHydro ModelScheme ModelStep ModelMain
  SpecMesh SpecGeom SpecBoundary SpecHydro SpecScheme SpecStep SpecSetup SpecMain SpecPos
  ProofBase ProofMesh ProofR ProofBoundary ProofBoundary2 ProofHydro ProofHydro2 ProofScheme ProofMirror ProofShift ProofReduce ProofStep ProofSteady ProofCfl ProofLayout ProofMain ProofMainEx ProofJump ProofPos ProofPos2.
Local Open Scope R_scope.

(** ** One step in one dimension *)
Section OneStep.
Variables (K : config) (N dims : idx) (X : nat -> arr1) (L : layout).
Hypothesis HR : runs_on K N dims X L.
Hypothesis He : lawful_eos (k_eos K).
Hypothesis HF : first_order K.
Hypothesis Hincr : increasing (k_nd K) N (k_ng K) X.
Hypothesis Hnd : k_nd K = 1%nat.
Notation vr := (process (k_nd K) dims).
Notation own r c := (owned (k_nd K) (k_ng K) (d_nloc (l_dec L r)) c).
Notation qc S r c := (cons_of (s_cell (S r) c)).

Lemma line_step S t dt r c F G : sound_state K dims L S -> vr r -> own r c -> functional 1 F G ->
  F (cons_of (s_cell (full_step K L t dt S r) c)) = F (qc S r c) + dt / mdx (l_mesh L r) 0 (ii c) *
    (G (riemann (k_sol K) 1 (k_eos K) (qc S r (lindex 0 c)) (qc S r c) 0) - G (riemann (k_sol K) 1 (k_eos K) (qc S r c) (qc S r (rindex 0 c)) 0)).
Proof.
  intros HS Hr Hc HFG. pose proof (ro_layout HR) as HL. cbn [full_step finish s_cell].
  rewrite (bcs_owned K N dims X L HL) by (exact (ro_faces HR) || assumption).
  pose proof (proj2 (sel_owned _ _ _ _ _ _ _ HL Hr) Hc) as Hs.
  unfold step_user, user_step. rewrite kwrite_in by assumption. rewrite (fo_user HF). cbn [user_cell].
  unfold step_pf. rewrite (fo_pf HF). unfold step_godunov, godunov. rewrite kwrite_in by assumption. rewrite (fo_geom HF).
  pose proof (owned_in_array K N dims X L HL r c Hr Hc) as Ha. destruct (HS r c Hr Ha) as (V0 & _ & _ & Hg).
  assert (Hpw : forall d, (d < 3)%nat -> 0 < mdx (l_mesh L r) d (coord d c)) by (intros d Hd; now apply (width_pos K N dims X L HR Hincr)).
  pose proof (functional_update (k_nd K) (l_mesh L r) dt c ltac:(lia) Hpw (k_eos K) (k_sol K) (s_grav (S r)) (s_cell (S r)) (step_rec K L dt S r) Hg F G) as E.
  assert (Hst : forall x sd, in_stencil (k_nd K) c x -> (sd < 2)%nat -> r_q (step_rec K L dt S r) x sd 0%nat = qc S r x).
  { intros x sd Hx Hsd. apply (sound_rec K N dims X L HR He HF); try assumption; [|lia]. exact (owned_sel1 K N dims X L HL r c x Hr Hc Hx). }
  assert (Hl : in_stencil (k_nd K) c (lindex 0 c)) by (apply st_l; lia). assert (Hrr : in_stencil (k_nd K) c (rindex 0 c)) by (apply st_r; lia).
  rewrite Hnd in *. rewrite (E HFG). cbn [vsum coord]. rewrite Rplus_0_l. unfold flux_left, flux_right, face_flux.
  rewrite !Hst by (assumption || lia || (left; reflexivity)). reflexivity.
Qed.
End OneStep.

(** ** Three cells *)
Definition tri_N : idx := I3 3 1 1.
Definition tri_X : nat -> arr1 := fun d => match d with 0%nat => mkArr1 8 (fun i => IZR i) | _ => mkArr1 2 (fun i => IZR i) end.
Definition tri_gas : perfect_gas := mkPG (5 / 3) 1.
Definition tri_K (s : solver) : config :=
  mkConfig Cartesian 1 2 (pg_eos tri_gas) LConstant s None UOff (GUniform (fun _ => 0)) (fun _ => NullGradient) [0; 1]%nat.
Definition tri_L s := the_layout (tri_K s) tri_N one_process tri_X.
Definition tri (p0 p1 p2 : prim) (i : Z) : prim := if (i <=? 0)%Z then p0 else if (i =? 1)%Z then p1 else p2.
Definition tri_G (p0 p1 p2 : prim) : gfields :=
  mkG (fun c => p_rho (tri p0 p1 p2 (ii c))) (fun c => p_u (tri p0 p1 p2 (ii c))) (fun c => p_P (tri p0 p1 p2 (ii c))) (fun _ _ => 0).

Lemma tri_runs s : runs_on (tri_K s) tri_N one_process tri_X (tri_L s).
Proof.
  assert (H3 : forall d, (d < 3)%nat -> (1 <= coord d tri_N)%Z) by (dims3; vm_compute; congruence).
  assert (H4 : forall d, (d < 3)%nat -> (1 <= coord d (mpi_dims 1 one_process))%Z) by (dims3; vm_compute; congruence).
  split; cbn [tri_K k_nd k_ng k_order].
  - apply the_layout_ok; cbn [tri_K k_nd k_ng]; try lia; [exact H3|exact H4|]. intros d Hd. destruct d as [|[|[|d]]]; [reflexivity..|lia].
  - unfold tri_L, the_layout. cbn [l_dec tri_K k_nd k_ng]. apply decs_thick; try lia; [exact H3|exact H4|].
    intros d Hd; destruct d as [|d]; [|lia]; vm_compute; congruence.
  - lia.
  - intros f Hf. cbn in Hf. lia.
  - exact I.
Qed.
Lemma tri_first s : first_order (tri_K s).
Proof. split; try reflexivity. exists (fun _ => 0). split; reflexivity. Qed.
Lemma tri_gas_ok : pg_ok tri_gas.
Proof. split; cbn; lra. Qed.
Lemma tri_eos s : lawful_eos (k_eos (tri_K s)) /\ robust_eos (k_eos (tri_K s)).
Proof. split; [apply pg_lawful; exact tri_gas_ok|apply perfect_gas_robust; apply tri_gas_ok]. Qed.
Lemma tri_increasing : increasing 1 tri_N 2 tri_X.
Proof. intros d i Hd _. destruct d as [|[|[|d]]]; cbn [tri_X a_at]; [| | |lia]; rewrite plus_IZR; lra. Qed.
Lemma tri_graded : graded 1 tri_N 2 tri_X 1.
Proof. intros d i Hd _ _. destruct d as [|d]; [|lia]. cbn [tri_X a_at]. rewrite !plus_IZR. lra. Qed.
Lemma tri_start s p0 p1 p2 : starts_from (tri_K s) one_process (tri_L s) (tri_G p0 p1 p2) (the_state (tri_K s) (tri_L s) (tri_G p0 p1 p2)).
Proof. apply the_state_ok. Qed.

Definition mid : idx := I3 3 0 0.
Definition pid0 : idx := I3 0 0 0.
Section Tri.
Variables (s : solver) (p0 p1 p2 : prim) (smax : R).
Notation K := (tri_K s).
Notation L := (tri_L s).
Notation e := (pg_eos tri_gas).
Notation S0 := (init_state K L (the_state K L (tri_G p0 p1 p2))).
Notation qc S r c := (cons_of (s_cell (S r) c)).
Notation arr r c := (in_array (d_nwg (l_dec L r)) c).
Notation own r c := (owned 1 2 (d_nloc (l_dec L r)) c).
Hypothesis V0 : valid_prim p0.
Hypothesis V1 : valid_prim p1.
Hypothesis V2 : valid_prim p2.

Lemma tri_valid i : valid_prim (tri p0 p1 p2 i).
Proof. unfold tri. destruct (i <=? 0)%Z; [exact V0|]. destruct (i =? 1)%Z; assumption. Qed.
Lemma tri_sound : sound_state K one_process L S0.
Proof.
  apply (sound_init K tri_N one_process tri_X L (tri_runs s) (proj1 (tri_eos s)) (tri_first s) _ _ (tri_start s p0 p1 p2)).
  intros c. apply (tri_valid (ii c)).
Qed.

Lemma tri_init_cons r c : process 1 one_process r -> own r c ->
  cons_of (init_cons K L (the_state K L (tri_G p0 p1 p2)) r c) = to_cons 1 e (tri p0 p1 p2 (ii (global_index 1 2 (corner_min (d_range (l_dec L r))) c))).
Proof.
  intros Hr Hc. pose proof (ro_layout (tri_runs s)) as HL. pose proof (proj2 (sel_owned _ _ _ _ _ _ _ HL Hr) Hc) as Hs.
  unfold init_cons. cbn [conv_prim_to_cons fst snd]. unfold kwrite. rewrite Hs.
  pose proof (tri_start s p0 p1 p2) as H.
  pose proof (sf_rho H r Hr c Hc) as A1. pose proof (sf_u H r Hr c Hc) as A3. pose proof (sf_P H r Hr c Hc) as A4. cbn beta in *.
  set (p := mkPrim _ _ _).
  assert (Ep : p = tri p0 p1 p2 (ii (global_index 1 2 (corner_min (d_range (l_dec L r))) c))).
  { unfold p. apply prim_ext; cbn [p_rho p_u p_P]; [exact A1|intros k; now rewrite A3|exact A4]. }
  rewrite <- Ep. reflexivity.
Qed.
Lemma tri_owned r c : process 1 one_process r -> own r c ->
  qc S0 r c = to_cons 1 e (tri p0 p1 p2 (ii (global_index 1 2 (corner_min (d_range (l_dec L r))) c))).
Proof.
  intros Hr Hc. rewrite <- tri_init_cons by assumption. unfold init_state. cbn [finish s_cell].
  now rewrite (bcs_owned K tri_N one_process tri_X L (ro_layout (tri_runs s))) by (exact (ro_faces (tri_runs s)) || assumption).
Qed.
Lemma pid0_ok : process 1 one_process pid0.
Proof. intros d Hd. destruct d as [|[|[|d]]]; [vm_compute; intuition congruence..|lia]. Qed.
Lemma tri_three : own pid0 mid /\ qc S0 pid0 (lindex 0 mid) = to_cons 1 e p0 /\ qc S0 pid0 mid = to_cons 1 e p1 /\ qc S0 pid0 (rindex 0 mid) = to_cons 1 e p2.
Proof.
  assert (O : own pid0 (lindex 0 mid) /\ own pid0 mid /\ own pid0 (rindex 0 mid)).
  { split; [|split]; intros d Hd; (destruct d as [|[|[|d]]]; [vm_compute; intuition congruence..|lia]). }
  destruct O as (O1 & O2 & O3). split; [exact O2|]. pose proof pid0_ok as HP.
  rewrite !tri_owned by assumption. repeat split; reflexivity.
Qed.
Lemma tri_any r c : process 1 one_process r -> arr r c -> exists i, qc S0 r c = to_cons 1 e (tri p0 p1 p2 i).
Proof.
  intros Hr Hc. unfold init_state. cbn [finish s_cell].
  apply (bcs_all K tri_N one_process tri_X L (ro_layout (tri_runs s)) (fun x => exists i, cons_of x = to_cons 1 e (tri p0 p1 p2 i)));
    [exact (ro_thick (tri_runs s))|exact (ro_faces (tri_runs s))| | |exact Hr|exact Hc].
  - intros f x _ H. cbn in H. discriminate.
  - intros r' c' Hr' Hc'. eexists. now apply tri_init_cons.
Qed.
Lemma tri_width r i : process 1 one_process r -> mdx (l_mesh L r) 0 i = 1.
Proof.
  intros Hr. rewrite (local_width K tri_N one_process tri_X L (tri_runs s)) by (assumption || lia). cbn [tri_X a_at]. rewrite plus_IZR. lra.
Qed.
Definition pspeed (p : prim) : R := Rabs (p_u p 0%nat) + pg_sound tri_gas (p_rho p) (p_P p).
Lemma tri_rate r c : process 1 one_process r -> arr r c ->
  crossing_rate K L S0 r c = pspeed (to_prim 1 e (qc S0 r c)).
Proof.
  intros Hr Hc. destruct (tri_sound r c Hr Hc) as (Vc & Hu & HP & _). unfold crossing_rate. cbn [tri_K k_nd k_geom vsum].
  rewrite (width_mdx K tri_N one_process tri_X L (tri_runs s)) by lia. cbn [coord]. rewrite tri_width by exact Hr. rewrite Hu, HP, Rplus_0_l. unfold pspeed.
  rewrite pressure_to_prim by exact Vc. cbn [to_prim p_u p_rho]. unfold velocity. unfold Rdiv at 1. rewrite Rinv_1, Rmult_1_r. reflexivity.
Qed.
Hypothesis B0 : pspeed p0 <= smax.
Hypothesis B1 : pspeed p1 <= smax.
Hypothesis B2 : pspeed p2 <= smax.
Hypothesis BM : pspeed p1 = smax \/ pspeed p2 = smax.

Lemma tri_dt : time_step K L S0 = Some (1 / smax) /\ 0 < smax.
Proof.
  pose proof (ro_layout (tri_runs s)) as HL. destruct (tri_eos s) as [He _].
  destruct (time_step_defined K tri_N one_process tri_X L HL S0) as (h & E). 
  destruct (cfl_bound K tri_N one_process tri_X L HL S0 h He) as (H0 & H1 & (r & c & Hr & Hc & H2)); [|exact E|].
  { intros r c Hr Hc. pose proof (owned_in_array K tri_N one_process tri_X L HL r c Hr Hc) as Ha.
    destruct (sound_physical K one_process L He S0 tri_sound r c Hr Ha) as [[W1 _] W2].
    split; [exact W1|]. split; [exact W2|]. intros d Hd. cbn [tri_K k_nd k_geom] in *. rewrite (width_mdx K tri_N one_process tri_X L (tri_runs s)) by lia. assert (d = 0)%nat as -> by lia. cbn [coord]. rewrite tri_width by exact Hr. lra. }
  rewrite tri_rate in H2 by assumption. destruct (tri_any r c Hr Hc) as (i & Ei). rewrite Ei in H2.
  rewrite (to_prim_to_cons 1 e He) in H2 by apply tri_valid.
  assert (Hi : pspeed (tri p0 p1 p2 i) <= smax) by (unfold tri; destruct (i <=? 0)%Z; [exact B0|destruct (i =? 1)%Z; assumption]).
  assert (Hm : h * smax <= 1).
  { destruct tri_three as (O & _ & E1 & E2). pose proof (owned_in_array K tri_N one_process tri_X L HL _ _ pid0_ok O) as A1.
    assert (A2 : arr pid0 (rindex 0 mid)) by (intros d Hd; destruct d as [|[|[|d]]]; [vm_compute; intuition congruence..|lia]).
    destruct BM as [Q|Q]; rewrite <- Q.
    - specialize (H1 pid0 mid pid0_ok A1). rewrite tri_rate in H1 by (exact pid0_ok || assumption). rewrite E1, (to_prim_to_cons 1 e He) in H1 by exact V1. exact H1.
    - specialize (H1 pid0 _ pid0_ok A2). rewrite tri_rate in H1 by (exact pid0_ok || assumption). rewrite E2, (to_prim_to_cons 1 e He) in H1 by exact V2. exact H1. }
  assert (Hs : 0 < smax) by nra. split; [|exact Hs]. rewrite E. f_equal.
  assert (h * smax = 1) by nra. apply Rmult_eq_reg_r with smax; [|lra]. rewrite H. field. lra.
Qed.

(** The middle cell after a step. *)
Lemma tri_step t dt F G : functional 1 F G ->
  F (qc (full_step K L t dt S0) pid0 mid) = F (to_cons 1 e p1) + dt *
    (G (riemann s 1 e (to_cons 1 e p0) (to_cons 1 e p1) 0) - G (riemann s 1 e (to_cons 1 e p1) (to_cons 1 e p2) 0)).
Proof.
  intros HFG. destruct tri_three as (O & E0 & E1 & E2).
  rewrite (line_step K tri_N one_process tri_X L (tri_runs s) (proj1 (tri_eos s)) (tri_first s) tri_increasing eq_refl S0 t dt pid0 mid F G tri_sound pid0_ok O HFG).
  rewrite E0, E1, E2, tri_width by exact pid0_ok. cbn [tri_K k_eos k_sol]. unfold Rdiv. rewrite Rinv_1, Rmult_1_r. reflexivity.
Qed.
End Tri.
