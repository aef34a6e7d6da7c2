(** * Runs with a moving grid: single steps, restarts. *)
From Coq Require Import Lra ZifyBool FunctionalExtensionality.
From Verif Require Import Base RBase ModelMesh ModelGeom ModelBoundary ModelHydro ModelScheme ModelStep ModelMain ModelMove
  SpecMesh SpecGeom SpecBoundary SpecHydro SpecScheme SpecStep SpecMain SpecMove
  ProofBase ProofR ProofMesh ProofGeom ProofBoundary ProofBoundary2 ProofHydro ProofStep ProofLayout ProofSteady ProofReduce ProofMain ProofRestart ProofMove ProofV1d.
Local Open Scope R_scope.

(** ** The three kinds of steps *)
Section Kinds.
Variables (K : config) (N dims : idx) (X0 : nat -> arr1) (L : layout) (crit : layout -> world cell -> bool) (rmax : R).
Hypothesis HR : runs_on K N dims X0 L.
Variables (t dt : R) (g : gstate).
Hypothesis HX : global_coords (k_nd K) N (k_ng K) (v_x g).
Notation nd := (k_nd K).
Notation ng := (k_ng K).
Notation LX := (relaid L (v_x g)).
Notation plain := (full_step (with_bcs K (v_bcs g)) LX t dt (v_st g)).
Notation g' := (move_step K L (ii N) crit rmax t dt g).

Lemma ng0 : ii (nghost_of nd ng) = ng.
Proof.
  pose proof (dcp_nd (lo_dec (ro_layout HR))). unfold nghost_of, mk3. cbn [ii]. destruct nd; [lia|reflexivity].
Qed.

Lemma step_no_shift : (v_on g && crit LX (fun r => s_cell (plain r)))%bool = false ->
  v_x g' = v_x g /\ v_on g' = v_on g /\ v_bcs g' = v_bcs g /\ v_st g' = plain.
Proof.
  intros H. unfold move_step. cbv zeta. cbn [full_step finish s_cell] in H.
  change (fun r => bcs_update (with_bcs K (v_bcs g)) LX (step_user (with_bcs K (v_bcs g)) LX t dt (v_st g)) r)
    with (bcs_update (with_bcs K (v_bcs g)) LX (step_user (with_bcs K (v_bcs g)) LX t dt (v_st g))) in H.
  rewrite H. cbn. repeat split; reflexivity.
Qed.

Lemma step_shift : (v_on g && crit LX (fun r => s_cell (plain r)))%bool = true ->
  a_at (v_x g 0%nat) (ii N + ng + 1)%Z < rmax ->
  shift_coords (v_x g 0%nat) = Ok (v_x g' 0%nat) /\ (forall d, d <> 0%nat -> v_x g' d = v_x g d) /\
  (forall r, process nd dims r -> exists m, set_grid (l_dec L r) (v_x g') = Ok m) /\
  v_on g' = v_on g /\ v_bcs g' = v_bcs g /\
  forall r c, process nd dims r -> owned nd ng (d_nloc (l_dec L r)) c ->
    in_array (d_nwg (l_dec L r)) (east c) /\ s_cell (v_st g' r) c = s_cell (plain r) (east c).
Proof.
  intros H Hr. unfold move_step. cbv zeta. cbn [full_step finish s_cell] in H.
  set (K1 := with_bcs K (v_bcs g)) in *. set (A := bcs_update K1 LX (step_user K1 LX t dt (v_st g))) in *.
  change (fun r => A r) with A in H. rewrite H, ng0.
  replace (rleb rmax _) with false by (symmetry; apply rleb_false; exact Hr).
  destruct (shift_mesh_ok (v_x g) (coords_long K N dims X0 L HR _ HX)) as (Y & EY & E0 & Ed). rewrite EY. cbn [v_x v_on v_bcs v_st].
  pose proof (shift_mesh_coords _ _ _ _ _ EY HX) as HY.
  pose proof (relaid_runs K N dims X0 L Y HR HY) as HRY.
  split; [exact E0|]. split; [exact Ed|]. split; [intros r Hp; eexists; exact (lo_mesh (ro_layout HRY) Hp)|]. split; [reflexivity|]. split; [reflexivity|].
  intros r c Hp Hc. cbn [full_step finish s_cell]. fold K1.
  pose proof (with_bcs_runs K (v_bcs g) N dims Y (relaid L Y) HRY) as HR2. fold K1 in HR2.
  rewrite (bcs_owned K1 N dims Y (relaid L Y) (ro_layout HR2) _ r c (ro_faces HR2) Hp Hc). pose proof (ro_ng HR).
  destruct (shift_owned_at K N dims X0 L r c (A r) (ro_layout HR) ltac:(lia) Hp Hc) as [E Hin]. auto.
Qed.

Lemma step_stops : (v_on g && crit LX (fun r => s_cell (plain r)))%bool = true ->
  rmax <= a_at (v_x g 0%nat) (ii N + ng + 1)%Z ->
  v_x g' = v_x g /\ v_on g' = false /\ v_bcs g' 1%nat = NullGradient /\ (forall f, f <> 1%nat -> v_bcs g' f = v_bcs g f) /\
  forall r c, process nd dims r -> owned nd ng (d_nloc (l_dec L r)) c -> s_cell (v_st g' r) c = s_cell (plain r) c.
Proof.
  intros H Hr. unfold move_step. cbv zeta. cbn [full_step finish s_cell] in H.
  set (K1 := with_bcs K (v_bcs g)) in *. set (A := bcs_update K1 LX (step_user K1 LX t dt (v_st g))) in *.
  change (fun r => A r) with A in H. rewrite H, ng0.
  replace (rleb rmax _) with true by (symmetry; apply rleb_true; exact Hr). cbn [v_x v_on v_bcs v_st].
  split; [reflexivity|]. split; [reflexivity|]. split; [reflexivity|]. split; [intros f Hf; unfold open_right; destruct (Nat.eqb_spec f 1); congruence|].
  intros r c Hp Hc. cbn [full_step finish s_cell]. fold K1.
  pose proof (with_bcs_runs K (open_right (v_bcs g)) N dims (v_x g) LX (relaid_runs K N dims X0 L _ HR HX)) as HR2.
  exact (bcs_owned (with_bcs K (open_right (v_bcs g))) N dims (v_x g) LX (ro_layout HR2) A r c (ro_faces HR2) Hp Hc).
Qed.
End Kinds.

Lemma v1d_alike K N dims X L L1 cs thr : runs_on K N dims X L -> runs_on K N one_process X L1 -> 0 < thr ->
  (forall r, process (k_nd K) dims r -> ii r = (ii (mpi_dims (k_nd K) dims) - 1)%Z -> (cs <= ii (d_nloc (l_dec L r)))%Z) ->
  (cs <= ii N)%Z ->
  decides_alike K N dims L L1 (v1d_decision K cs thr).
Proof.
  intros HR HR1 Ht Hc Hc1 Y W W1 HY HW. unfold v1d_decision.
  pose proof (relaid_runs K N dims X L Y HR HY) as H. pose proof (relaid_runs K N one_process X L1 Y HR1 HY) as H1.
  assert (HW1 : slice_of (k_nd K) one_process (l_dec L1) W1 (W1 rank0)).
  { intros r Hr c _. assert (r = rank0) as ->.
    { apply idx_ext. intros d Hd. specialize (Hr d Hd). rewrite mpi_dims_one, coord_one in Hr. rewrite coord_rank0. lia. }
    f_equal. apply idx_ext. intros d Hd. rewrite coord_iadd, (s_cmin _ _ _ _ (ro_layout HR1)) by assumption. lia. }
  assert (HD := lo_dec (ro_layout HR)).
  assert (Hl : process (k_nd K) dims (I3 (ii (mpi_dims (k_nd K) dims) - 1) 0 0)).
  { intros d Hd. pose proof (dcp_dims HD (d := d) Hd). destruct d as [|[|[|d]]]; cbn [coord ii jj kk] in *; lia. }
  destruct (v1d_passes K N dims Y _ cs thr W H _ Hl eq_refl) as [_ [_ P]]. destruct (P (Hc _ Hl eq_refl)) as (b & Eb).
  assert (P1 : exists b1, v1d_criterion K (relaid L1 Y) cs thr W1 = Ok b1).
  { apply (v1d_passes K N one_process Y _ cs thr W1 H1 rank0 (rank0_ok (k_nd K))).
    - rewrite mpi_dims_one. reflexivity.
    - pose proof (s_nloc _ _ _ _ (ro_layout HR1) 0%nat ltac:(lia)) as E. cbn [relaid l_dec coord] in *. lia. }
  destruct P1 as (b1 & Eb1). rewrite Eb, Eb1. exact (v1d_same K N dims one_process Y _ _ cs thr W W1 (W1 rank0) b b1 H H1 Ht HW HW1 Eb Eb1).
Qed.

(** ** Restarting *)
Section Restart.
Variables (K : config) (N dims dims' : idx) (X0 : nat -> arr1) (L L' L1 : layout) (crit : layout -> world cell -> bool)
  (rmax cfl : R) (p : params) (clock clock' : Z -> bool).
Hypothesis HR : runs_on K N dims X0 L.
Hypothesis HR' : runs_on K N dims' X0 L'.
Hypothesis HL1 : laid_out K N one_process X0 L1.
Hypothesis Hcrit : decides_alike K N dims L L1 crit.
Hypothesis Hcrit' : decides_alike K N dims' L' L1 crit.
Hypothesis He : lawful_eos (k_eos K).
Notation nd := (k_nd K).
Notation ng := (k_ng K).
Notation D := (moving K L (ii N) crit rmax cfl).
Notation D' := (moving K L' (ii N) crit rmax cfl).
Notation rl := (mrel K N dims L rmax).
Notation rl' := (mrel K N dims' L' rmax).

Definition rel2 (g g' : gstate) : Prop := exists g1, rl g g1 /\ rl' g' g1.

Lemma rel2_same g g' : rel2 g g' -> same_moving K N dims L dims' L' g g'.
Proof.
  intros (g1 & (A & B & C & _ & E) & (A' & B' & C' & _ & E')). split; [congruence|]. split; [congruence|].
  rewrite A. exists (relaid L1 (v_x g1)), (v_st g1). split; [now apply (relaid_ok K N one_process X0)|].
  split; [exact (proj1 E)|exact (proj1 E')].
Qed.

Lemma rel2_cong g g' : rel2 g g' ->
  y_dt D g = y_dt D' g' /\ y_bad D g = y_bad D' g' /\ forall t dt, rel2 (y_step D t dt g) (y_step D' t dt g').
Proof.
  intros (g1 & A & B).
  destruct (mrel_dyn K N dims X0 L L1 crit rmax HR HL1 cfl g g1 A) as [-> ->].
  destruct (mrel_dyn K N dims' X0 L' L1 crit rmax HR' HL1 cfl g' g1 B) as [-> ->].
  split; [reflexivity|]. split; [reflexivity|]. intros t dt. exists (move_step K L1 (ii N) crit rmax t dt g1).
  split; [apply (mrel_step K N dims X0 L L1 crit rmax HR HL1 Hcrit); exact A|apply (mrel_step K N dims' X0 L' L1 crit rmax HR' HL1 Hcrit'); exact B].
Qed.

Definition settled1 (g1 : gstate) : Prop := settled (with_bcs K (v_bcs g1)) (relaid L1 (v_x g1)) (v_st g1).
Definition kept (g : gstate) : Prop :=
  (v_on g = true /\ v_bcs g = k_bcs K) \/
  (v_on g = false /\ v_bcs g = open_right (k_bcs K) /\ beyond K N rmax (v_x g)).

Lemma settled1_step t dt g1 : settled1 (move_step K L1 (ii N) crit rmax t dt g1).
Proof.
  unfold settled1, move_step. cbv zeta. destruct (_ && _)%bool; [destruct (rleb _ _)|]; cbn [v_x v_bcs v_st]; unfold settled; eexists _, _, _, _; reflexivity.
Qed.
Lemma settled1_init X S : settled1 (move_init K L1 X S).
Proof. unfold settled1, move_init. cbn [v_x v_bcs v_st]. rewrite with_bcs_same. apply settled_init. Qed.

Lemma kept_step t dt g : kept g -> kept (move_step K L (ii N) crit rmax t dt g).
Proof.
  intros H. unfold move_step. cbv zeta. destruct (v_on g) eqn:Eo; cbn [andb].
  - destruct H as [[_ H]|[H _]]; [|congruence].
    destruct (crit _ _); [destruct (rleb _ _) eqn:Er|]; unfold kept; cbn [v_x v_on v_bcs].
    + right. rewrite H. split; [reflexivity|]. split; [reflexivity|]. apply rleb_true. exact Er.
    + left. auto.
    + left. auto.
  - destruct H as [[H _]|H]; [congruence|]. right. cbn [v_x v_on v_bcs]. split; [reflexivity|exact (proj2 H)].
Qed.

Lemma reached G0 S0 k m : starts_from K dims L G0 S0 ->
  loop D p clock k (fresh p (move_init K L X0 S0)) = (m, Going) ->
  kept (m_st m) /\ exists g1, settled1 g1 /\ rl (m_st m) g1.
Proof.
  intros H0 H. refine (loop_going _ _ _ _ _ _ H (fun _ m => kept (m_st m) /\ exists g1, settled1 g1 /\ rl (m_st m) g1) _ _).
  - destruct (fresh_fields p (move_init K L X0 S0)) as (_ & _ & _ & ->). split; [left; split; reflexivity|].
    exists (move_init K L1 X0 (the_state K L1 G0)). split; [apply settled1_init|].
    apply (mrel_init K N dims X0 L L1 rmax HR HL1 X0 G0); [exact (lo_coords HL1)|exact H0|apply the_state_ok].
  - intros i m1 m2 (Hk & g1 & _ & Hs) _ Hb.
    destruct (body_inv _ _ _ _ _ _ Hb ltac:(left; reflexivity)) as (o1 & iid & o2 & tid & dt2 & st1 & dt & _ & _ & _ & _ & _ & E & _).
    cbv zeta in E. destruct (step_of_fields D m1 o1 iid o2 tid (st1 || (p_max_iter p <=? m_iter m1 + 1)%Z || clock (m_iter m1)) dt) as (_ & _ & _ & _ & Es & _).
    rewrite <- E in Es. rewrite Es. cbn [moving y_step]. split; [now apply kept_step|].
    exists (move_step K L1 (ii N) crit rmax (m_t m1) dt g1). split; [apply settled1_step|].
    now apply (mrel_step K N dims X0 L L1 crit rmax HR HL1 Hcrit).
Qed.

Lemma move_restored G0 S0 k m G Rst : starts_from K dims L G0 S0 ->
  loop D p clock k (fresh p (move_init K L X0 S0)) = (m, Going) ->
  (v_on (m_st m) = true \/ k_bcs K 1%nat = NullGradient) ->
  owned_valid K dims L (v_st (m_st m)) -> starts_from K dims L G (v_st (m_st m)) -> starts_from K dims' L' G Rst ->
  rel2 (m_st m) (move_init K L' (v_x (m_st m)) Rst).
Proof.
  intros H0 H Hon HV HG HRst. destruct (reached G0 S0 k m H0 H) as (Hk & g1 & Hs & Hr). exists g1. split; [exact Hr|].
  destruct Hr as (EX & EB & HX & Ho & HS). set (g := m_st m) in *.
  assert (Eb : v_bcs g1 = k_bcs K).
  { rewrite <- EB. destruct Hk as [[_ Hk]|[Hk [Hk' _]]]; [exact Hk|]. destruct Hon as [Hon|Hon]; [congruence|]. rewrite Hk'. now apply open_right_same. }
  unfold move_init, mrel. cbn [v_x v_on v_bcs v_st]. split; [exact EX|]. split; [now rewrite Eb|]. split; [exact HX|]. split.
  - destruct Ho as [Ho|Ho]; [|right; exact Ho]. destruct Hk as [[Hk _]|(Hk & _ & Hb)]; [left; congruence|right].
    rewrite EX in Hb. split; [exact Hb|]. rewrite Eb. destruct Hon as [Hon|Hon]; [congruence|exact Hon].
  - rewrite EX. pose proof (relaid_runs K N dims' X0 L' (v_x g1) HR' HX) as HRX. pose proof (relaid_ok K N one_process X0 L1 (v_x g1) HL1 HX) as HLX1.
    pose proof (relaid_runs K N dims X0 L (v_x g1) HR HX) as HRX0.
    unfold settled1 in Hs. rewrite Eb, with_bcs_same in Hs.
    apply (rebuilt K N dims' (v_x g1) (relaid L' (v_x g1)) (relaid L1 (v_x g1)) HRX HLX1 He G (v_st g1) Rst Hs).
    + exact (valid_serial K N dims (v_x g1) (relaid L (v_x g1)) (relaid L1 (v_x g1)) HRX0 HLX1 (v_st g) (v_st g1) HV HS).
    + refine (file_serial K N dims (v_x g1) (relaid L (v_x g1)) (relaid L1 (v_x g1)) HRX0 HLX1 G (v_st g) (v_st g1) _ HS). destruct HG; split; assumption.
    + destruct HRst; split; assumption.
Qed.

Lemma same_moving_weaken d F F' : Forall2 (same_file rel2 d) F F' -> Forall2 (same_file (same_moving K N dims L dims' L') d) F F'.
Proof.
  intros H. induction H as [|f f' F F' (A & B & C & E & T & R) _ IH]; constructor; auto.
  repeat split; auto; now apply rel2_same.
Qed.

Lemma move_restart G0 S0 k m1 f G Rst : starts_from K dims L G0 S0 ->
  loop D p clock k (fresh p (move_init K L X0 S0)) = (m1, Going) ->
  last_file m1 f -> fl_iter f = m_iter m1 ->
  (v_on (fl_data f) = true \/ k_bcs K 1%nat = NullGradient) ->
  (forall r c, process nd dims r -> owned nd ng (d_nloc (l_dec L r)) c -> valid_cons nd (cons_of (s_cell (v_st (fl_data f) r) c))) ->
  starts_from K dims L G (v_st (fl_data f)) -> starts_from K dims' L' G Rst ->
  (forall i, (m_iter m1 <= i)%Z -> clock i = clock' i) ->
  forall j m v m' v',
    loop D p clock (k + j) (fresh p (move_init K L X0 S0)) = (m, v) ->
    loop D' p clock' j (restarted f (move_init K L' (v_x (fl_data f)) Rst)) = (m', v') ->
    v' = v /\ m_oid m' = m_oid m /\ m_iter m' = m_iter m /\ m_t m' = m_t m /\
    same_moving K N dims L dims' L' (m_st m) (m_st m') /\
    exists F, m_files m = m_files m1 ++ F /\ Forall2 (same_file (same_moving K N dims L dims' L') 0) F (m_files m').
Proof.
  intros H0 H (l & Hl) Hi Hon HV HG HRst Hc j m v m' v' Hm Hm'.
  destruct (file_is_current D p clock _ k m1 H f) as [_ Ef]; [rewrite Hl; apply in_app_iff; right; left; reflexivity|].
  rewrite (Ef Hi) in *. clear Ef. cbn [file_of fl_data] in *.
  pose proof (move_restored G0 S0 k m1 G Rst H0 H Hon HV HG HRst) as Hrel.
  rewrite (loop_app _ _ _ _ _ _ _ H) in Hm.
  destruct (loop_like D D' p clock clock' rel2 rel2_cong (m_iter m1) Hc 0 (m_files m1) [] j m1
    (restarted (file_of m1) (move_init K L' (v_x (m_st m1)) Rst)) m v m' v') as [Ev (A & _ & _ & B & C & R & _ & F & F' & HF & HF' & H2)]; [|exact Hm|exact Hm'|].
  - unfold like. cbn [restarted file_of fl_oid fl_iid fl_tid fl_iter fl_t m_oid m_iid m_tid m_iter m_t m_st m_files].
    split; [lia|]. split; [reflexivity|]. split; [reflexivity|]. split; [reflexivity|]. split; [reflexivity|]. split; [exact Hrel|]. split; [lia|].
    exists [], []. rewrite app_nil_r. repeat split; constructor.
  - split; [exact Ev|]. split; [lia|]. split; [exact B|]. split; [exact C|]. split; [now apply rel2_same|].
    exists F. split; [exact HF|]. cbn in HF'. rewrite HF'. now apply same_moving_weaken.
Qed.
End Restart.

(** ** Forms used by PropMove.v *)
Lemma shift_one x : (4 <= a_ext x)%Z -> rising x ->
  exists y, shift_coords x = Ok y /\ a_ext y = a_ext x /\ rising y /\
    (forall i, (0 <= i < a_ext x - 1)%Z -> a_at y i = a_at x (i + 1)%Z) /\
    let n := a_ext x in
    (a_at y (n - 1)%Z - a_at y (n - 2)%Z) / (a_at y (n - 2)%Z - a_at y (n - 3)%Z) =
    (a_at x (n - 1)%Z - a_at x (n - 2)%Z) / (a_at x (n - 2)%Z - a_at x (n - 3)%Z).
Proof.
  intros Hn Hx. destruct (shift_coords_ok x Hn) as (y & E). exists y. destruct (shift_coords_at _ _ E) as (_ & En & Hi & _).
  destruct (shift_coords_rising x y Hx E) as [Hr Hq]. auto.
Qed.
Lemma shifts_all k x : (4 <= a_ext x)%Z -> rising x ->
  exists y, shifts k x y /\ (forall z, shifts k x z -> z = y) /\ a_ext y = a_ext x /\ rising y /\
    forall i, (0 <= i)%Z -> (i + Z.of_nat k < a_ext x)%Z -> a_at y i = a_at x (i + Z.of_nat k)%Z.
Proof.
  intros Hn Hx. destruct (shifts_at k x Hn Hx) as (y & A & B & C & D). exists y. split; [exact A|]. split; [|auto].
  intros z Hz. exact (shifts_det k x z Hz y A).
Qed.
Lemma move_run_same K N dims dims' X L L' L1 crit rmax G S S' ts :
  runs_on K N dims X L -> runs_on K N dims' X L' -> laid_out K N one_process X L1 ->
  decides_alike K N dims L L1 crit -> decides_alike K N dims' L' L1 crit ->
  starts_from K dims L G S -> starts_from K dims' L' G S' ->
  same_moving K N dims L dims' L' (move_run K L (ii N) crit rmax ts (move_init K L X S))
                                  (move_run K L' (ii N) crit rmax ts (move_init K L' X S')).
Proof.
  intros HR HR' HL1 Hc Hc' HS HS'. apply (rel2_same K N dims dims' X L L' L1 rmax HL1).
  exists (move_run K L1 (ii N) crit rmax ts (move_init K L1 X (the_state K L1 G))).
  pose proof (lo_coords HL1) as HX.
  split; [apply (mrel_run K N dims X L L1 crit rmax HR HL1 Hc)|apply (mrel_run K N dims' X L' L1 crit rmax HR' HL1 Hc')].
  - exact (mrel_init K N dims X L L1 rmax HR HL1 X G S _ HX HS (the_state_ok _ _ _ _)).
  - exact (mrel_init K N dims' X L' L1 rmax HR' HL1 X G S' _ HX HS' (the_state_ok _ _ _ _)).
Qed.
Lemma v1d_window_iff K N dims X L cs thr W S b : runs_on K N dims X L -> 0 < thr -> slice_of (k_nd K) dims (l_dec L) W S ->
  v1d_criterion K L cs thr W = Ok b ->
  b = true <-> exists c, in_shell K N (ii N - cs) (ii N + k_ng K) c /\ thr <= radial_velocity (S c).
Proof.
  intros HR Ht HW H. rewrite (v1d_fires K N dims X L HR cs W S HW (v1d_ok_pass _ _ _ _ _ _ H) thr b H).
  split; [intros [Q|[_ Q]]; [exact Q|lra]|auto].
Qed.
Lemma v1d_no_miss K N dims X L cs thr W S b : runs_on K N dims X L -> slice_of (k_nd K) dims (l_dec L) W S ->
  v1d_criterion K L cs thr W = Ok b ->
  forall c, last_cells K N cs c -> thr <= radial_velocity (S c) -> b = true.
Proof.
  intros HR HW H c [Hc Hd] Hv. apply (v1d_fires K N dims X L HR cs W S HW (v1d_ok_pass _ _ _ _ _ _ H) thr b H).
  left. exists c. split; [|exact Hv]. split; [|exact Hd]. pose proof (ro_ng HR). lia.
Qed.
