(** * The moving grid: coordinates, cells, process grids. *)
From Coq Require Import Lra ZifyBool FunctionalExtensionality.
From Verif Require Import Base RBase ModelMesh ModelGeom ModelBoundary ModelHydro ModelScheme ModelStep ModelMain ModelMove
  SpecMesh SpecGeom SpecBoundary SpecHydro SpecScheme SpecStep SpecMain SpecMove
  ProofBase ProofR ProofMesh ProofGeom ProofBoundary ProofBoundary2 ProofHydro ProofStep ProofLayout ProofSteady ProofReduce ProofMain ProofRestart.
Local Open Scope R_scope.

(** ** Coordinates *)
Lemma zrange_snoc a b : (a <= b)%Z -> zrange a (b + 1) = zrange a b ++ [b].
Proof.
  intros H. unfold zrange. replace (Z.to_nat (b + 1 - a)) with (Z.to_nat (b - a) + 1)%nat by lia.
  rewrite seq_app, map_app. cbn [seq map plus]. do 2 f_equal. lia.
Qed.
Lemma zrange_empty a b : (b <= a)%Z -> zrange a b = [].
Proof. intros H. unfold zrange. replace (Z.to_nat (b - a)) with 0%nat by lia. reflexivity. Qed.

Lemma shift_left_at n x j : shift_left n x j = if ((0 <=? j) && (j <? n - 1))%Z%bool then x (j + 1)%Z else x j.
Proof.
  unfold shift_left. destruct (Z.le_gt_cases (n - 1) 0) as [H|H].
  { rewrite zrange_empty by assumption. cbn. replace ((0 <=? j) && (j <? n - 1))%Z%bool with false by lia. reflexivity. }
  assert (G : forall m, (0 <= m)%Z -> forall j, fold_left copy_next (zrange 0 m) x j = if ((0 <=? j) && (j <? m))%Z%bool then x (j + 1)%Z else x j).
  { apply (natlike_ind (fun m => forall j, fold_left copy_next (zrange 0 m) x j = if ((0 <=? j) && (j <? m))%Z%bool then x (j + 1)%Z else x j)).
    - intros i. cbn. replace ((0 <=? i) && (i <? 0))%Z%bool with false by lia. reflexivity.
    - intros m Hm IH i. unfold Z.succ. rewrite zrange_snoc, fold_left_app by lia. cbn [fold_left]. unfold copy_next at 1. rewrite !IH.
      destruct (Z.eqb_spec i m) as [->|Hi].
      + replace ((0 <=? m + 1) && (m + 1 <? m))%Z%bool with false by lia.
        replace ((0 <=? m) && (m <? m + 1))%Z%bool with true by lia. reflexivity.
      + replace (i <? m + 1)%Z with (i <? m)%Z by lia. reflexivity. }
  apply G. lia.
Qed.

Lemma shift_coords_at x y : shift_coords x = Ok y ->
  (4 <= a_ext x)%Z /\ a_ext y = a_ext x /\
  (forall i, (0 <= i < a_ext x - 1)%Z -> a_at y i = a_at x (i + 1)%Z) /\
  let n := a_ext x in
  a_at y (n - 1)%Z - a_at y (n - 2)%Z = (a_at y (n - 2)%Z - a_at y (n - 3)%Z) * ((a_at y (n - 2)%Z - a_at y (n - 3)%Z) / (a_at y (n - 3)%Z - a_at y (n - 4)%Z)).
Proof.
  unfold shift_coords. destruct (Z.ltb_spec (a_ext x) 4) as [|H]; [discriminate|]. intros [= <-]. cbn [a_ext a_at].
  split; [exact H|]. split; [reflexivity|]. set (n := a_ext x) in *. split.
  - intros i Hi. replace (i =? n - 1)%Z with false by lia. rewrite shift_left_at.
    replace ((0 <=? i) && (i <? n - 1))%Z%bool with true by lia. reflexivity.
  - cbv zeta. replace (n - 1 =? n - 1)%Z with true by lia. replace (n - 2 =? n - 1)%Z with false by lia.
    replace (n - 3 =? n - 1)%Z with false by lia. replace (n - 4 =? n - 1)%Z with false by lia. ring.
Qed.

Lemma shift_coords_ok x : (4 <= a_ext x)%Z -> exists y, shift_coords x = Ok y.
Proof. intros H. unfold shift_coords. replace (a_ext x <? 4)%Z with false by lia. eauto. Qed.

Lemma shift_coords_rising x y : rising x -> shift_coords x = Ok y ->
  rising y /\
  (let n := a_ext x in
   (a_at y (n - 1)%Z - a_at y (n - 2)%Z) / (a_at y (n - 2)%Z - a_at y (n - 3)%Z) =
   (a_at x (n - 1)%Z - a_at x (n - 2)%Z) / (a_at x (n - 2)%Z - a_at x (n - 3)%Z)).
Proof.
  intros Hx H. destruct (shift_coords_at _ _ H) as (Hn & En & Hi & Hl). cbv zeta in *. set (n := a_ext x) in *.
  pose proof (Hi (n - 2)%Z ltac:(lia)) as E2. pose proof (Hi (n - 3)%Z ltac:(lia)) as E3. pose proof (Hi (n - 4)%Z ltac:(lia)) as E4.
  replace (n - 2 + 1)%Z with (n - 1)%Z in E2 by lia. replace (n - 3 + 1)%Z with (n - 2)%Z in E3 by lia. replace (n - 4 + 1)%Z with (n - 3)%Z in E4 by lia.
  pose proof (Hx (n - 2)%Z ltac:(unfold n; lia)) as R2. pose proof (Hx (n - 3)%Z ltac:(unfold n; lia)) as R3.
  replace (n - 2 + 1)%Z with (n - 1)%Z in R2 by lia. replace (n - 3 + 1)%Z with (n - 2)%Z in R3 by lia.
  rewrite E2, E3, E4 in Hl. split.
  - intros i Hr. rewrite En in Hr. destruct (Z.eq_dec i (n - 2)) as [->|Hne].
    + replace (n - 2 + 1)%Z with (n - 1)%Z by lia. apply Rminus_gt_0_lt. rewrite E2, Hl.
      apply Rmult_lt_0_compat; [lra|]. apply Rdiv_lt_0_compat; lra.
    + rewrite !Hi by (fold n; lia). apply Hx. unfold n in *. lia.
  - rewrite E2, E3, Hl. field. split; lra.
Qed.

Lemma shifts_at k : forall x, (4 <= a_ext x)%Z -> rising x ->
  exists y, shifts k x y /\ a_ext y = a_ext x /\ rising y /\
    forall i, (0 <= i)%Z -> (i + Z.of_nat k < a_ext x)%Z -> a_at y i = a_at x (i + Z.of_nat k)%Z.
Proof.
  induction k as [|k IH]; intros x Hn Hx.
  - exists x. repeat split; auto; [constructor|]. intros i Hi _. f_equal. lia.
  - destruct (shift_coords_ok x Hn) as (y & Hy). destruct (shift_coords_at _ _ Hy) as (_ & En & Hi & _).
    destruct (shift_coords_rising x y Hx Hy) as [Hr _]. destruct (IH y ltac:(lia) Hr) as (z & Hz & Ez & Rz & Az).
    exists z. split; [econstructor; eassumption|]. split; [lia|]. split; [exact Rz|].
    intros i Hi0 Hik. rewrite Az by lia. rewrite Hi by lia. f_equal. lia.
Qed.

Lemma shifts_det k x y : shifts k x y -> forall z, shifts k x z -> y = z.
Proof.
  induction 1 as [|k x y z Hy _ IH]; intros w Hw; inversion Hw; subst; [reflexivity|]. apply IH. congruence.
Qed.

(** A mesh with a constant ratio of successive widths. *)
Lemma geometric_kept f q : q <> 0 -> (forall i : Z, f (i + 1)%Z <> f i) ->
  (forall i : Z, f (i + 2)%Z - f (i + 1)%Z = q * (f (i + 1)%Z - f i)) ->
  forall k x y, (forall i, (0 <= i < a_ext x)%Z -> a_at x i = f i) -> shifts k x y ->
  a_ext y = a_ext x /\ forall i, (0 <= i < a_ext x)%Z -> a_at y i = f (i + Z.of_nat k)%Z.
Proof.
  intros Hq Hne Hf k x y Hx H. revert f Hne Hf Hx. induction H as [x|k x y z Hy _ IH]; intros f Hne Hf Hx.
  - split; [reflexivity|]. intros i Hi. rewrite Hx by assumption. f_equal. lia.
  - destruct (shift_coords_at _ _ Hy) as (Hn & En & Hi & Hl). cbv zeta in Hl. set (n := a_ext x) in *.
    assert (Hyf : forall i, (0 <= i < a_ext y)%Z -> a_at y i = f (i + 1)%Z).
    { intros i Hr. rewrite En in Hr. destruct (Z.eq_dec i (n - 1)) as [->|Hd].
      - rewrite (Hi (n - 2)%Z), (Hi (n - 3)%Z), (Hi (n - 4)%Z) in Hl by (fold n; lia). rewrite !Hx in Hl by lia.
        pose proof (Hf (n - 2)%Z) as F2. pose proof (Hf (n - 3)%Z) as F3. pose proof (Hne (n - 3)%Z) as H3.
        replace (n - 2 + 2)%Z with n in F2 by lia. replace (n - 2 + 1)%Z with (n - 1)%Z in F2, Hl by lia.
        replace (n - 3 + 2)%Z with (n - 1)%Z in F3 by lia. replace (n - 3 + 1)%Z with (n - 2)%Z in F3, H3, Hl by lia.
        replace (n - 4 + 1)%Z with (n - 3)%Z in Hl by lia. replace (n - 1 + 1)%Z with n by lia.
        assert (Eq : (f (n - 1)%Z - f (n - 2)%Z) / (f (n - 2)%Z - f (n - 3)%Z) = q) by (rewrite F3; field; lra).
        rewrite Eq in Hl. lra.
      - rewrite Hi by (fold n; lia). apply Hx. lia. }
    destruct (IH (fun i => f (i + 1)%Z)) as [Ez Az].
    + intros i. apply Hne.
    + intros i. replace (i + 2 + 1)%Z with (i + 1 + 2)%Z by lia. apply Hf.
    + exact Hyf.
    + split; [lia|]. intros i Hr. rewrite Az by lia. f_equal. lia.
Qed.

Lemma shift_mesh_ok X : (4 <= a_ext (X 0%nat))%Z -> exists Y, shift_mesh X = Ok Y /\
  shift_coords (X 0%nat) = Ok (Y 0%nat) /\ forall d, d <> 0%nat -> Y d = X d.
Proof.
  intros H. destruct (shift_coords_ok _ H) as (y & Hy). unfold shift_mesh. rewrite Hy. cbn [obind].
  eexists. split; [reflexivity|]. split; [reflexivity|]. intros [|d] Hd; [congruence|reflexivity].
Qed.

Lemma shift_mesh_coords nd N ng X Y : shift_mesh X = Ok Y -> global_coords nd N ng X -> global_coords nd N ng Y.
Proof.
  unfold shift_mesh. destruct (shift_coords (X 0%nat)) as [y|w|w] eqn:E; [|discriminate..]. cbn [obind]. intros [= <-] H d Hd.
  destruct d as [|d]; [|exact (H (S d) Hd)]. destruct (shift_coords_at _ _ E) as (_ & -> & _). exact (H 0%nat Hd).
Qed.

(** ** Layouts *)
Lemma relaid_ok K N dims X L Y : laid_out K N dims X L -> global_coords (k_nd K) N (k_ng K) Y -> laid_out K N dims Y (relaid L Y).
Proof.
  intros HL HY. pose proof (lo_dec HL) as HD. split; [exact HD|exact (lo_dims HL)|exact HY|].
  intros r Hr. cbn [relaid l_dec l_mesh].
  destruct (set_grid_ok (k_nd K) N dims (k_ng K) r (l_dec L r) Y) as (m & E & _); auto.
  - intros d Hd. pose proof (dcp_n HD Hd). lia.
  - exact (dcp_ng HD).
  - exact (dcp_ok HD Hr).
  - now rewrite E.
Qed.
Lemma relaid_runs K N dims X L Y : runs_on K N dims X L -> global_coords (k_nd K) N (k_ng K) Y -> runs_on K N dims Y (relaid L Y).
Proof.
  intros [A B C D E] HY. split; auto. now apply (relaid_ok K N dims X).
Qed.
Lemma with_bcs_laid K b N dims X L : laid_out K N dims X L -> laid_out (with_bcs K b) N dims X L.
Proof. intros [A B C D]. now split. Qed.
Lemma with_bcs_runs K b N dims X L : runs_on K N dims X L -> runs_on (with_bcs K b) N dims X L.
Proof. intros [A B C D E]. split; auto. now apply with_bcs_laid. Qed.
Lemma with_bcs_same K : with_bcs K (k_bcs K) = K.
Proof. now destruct K. Qed.

Lemma open_right_same b : b 1%nat = NullGradient -> open_right b = b.
Proof. intros H. apply functional_extensionality. intros f. unfold open_right. destruct (Nat.eqb_spec f 1) as [->|]; auto. Qed.

(** An owned cell after the shift. *)
Lemma shift_owned_at {T : Type} K N dims X L r c (A : idx -> T) : laid_out K N dims X L -> (1 <= k_ng K)%Z ->
  process (k_nd K) dims r -> owned (k_nd K) (k_ng K) (d_nloc (l_dec L r)) c ->
  shift_array (d_nwg (l_dec L r)) A A c = A (east c) /\ in_array (d_nwg (l_dec L r)) (east c).
Proof.
  intros HL Hng Hr Hc. pose proof (dcp_nd (lo_dec HL)).
  assert (B : forall d, (d < 3)%nat -> (0 <= ghosts (k_nd K) (k_ng K) d <= coord d c /\ coord d c < ghosts (k_nd K) (k_ng K) d + coord d (d_nloc (l_dec L r)) /\
     coord d (d_nwg (l_dec L r)) = coord d (d_nloc (l_dec L r)) + 2 * ghosts (k_nd K) (k_ng K) d)%Z).
  { intros d Hd. specialize (Hc d Hd). pose proof (ghosts_nonneg _ _ _ _ _ (lo_dec HL) d). rewrite (dec_nwg _ _ _ _ _ (lo_dec HL)) by assumption.
    rewrite (dec_nloc _ _ _ _ _ (lo_dec HL)) in * by assumption. lia. }
  assert (G0 : ghosts (k_nd K) (k_ng K) 0 = (k_ng K)) by (unfold ghosts; replace (Nat.ltb 0 (k_nd K)) with true; [reflexivity|symmetry; apply Nat.ltb_lt; lia]).
  pose proof (B 0%nat ltac:(lia)) as B0. pose proof (B 1%nat ltac:(lia)) as B1. pose proof (B 2%nat ltac:(lia)) as B2.
  rewrite G0 in B0. cbn [coord] in B0, B1, B2. split.
  - unfold shift_array, kwrite. assert (E : in_boxb (I3 0 0 0) (I3 (ii (d_nwg (l_dec L r)) - 1) (jj (d_nwg (l_dec L r))) (kk (d_nwg (l_dec L r)))) c = true).
    { apply in_boxb_spec. unfold in_box. cbn. lia. }
    rewrite E. reflexivity.
  - intros d Hd. destruct d as [|[|[|d]]]; cbn [east coord ii jj kk]; lia.
Qed.

(** ** The process grid *)
Section Par.
Variables (K : config) (N dims : idx) (X0 : nat -> arr1) (L L1 : layout) (crit : layout -> world cell -> bool) (rmax : R).
Hypothesis HR : runs_on K N dims X0 L.
Hypothesis HL1 : laid_out K N one_process X0 L1.
Hypothesis Hcrit : decides_alike K N dims L L1 crit.
Notation nd := (k_nd K).
Notation ng := (k_ng K).
Notation step := (move_step K L (ii N) crit rmax).
Notation step1 := (move_step K L1 (ii N) crit rmax).
Let HL := ro_layout HR.

(** Where the end of the shifting range is tested. *)
Definition beyond (X : nat -> arr1) : Prop := rmax <= a_at (X 0%nat) (ii N + ii (nghost_of nd ng) + 1)%Z.

Definition mrel (g g1 : gstate) : Prop :=
  v_x g = v_x g1 /\ v_bcs g = v_bcs g1 /\ global_coords nd N ng (v_x g1) /\
  (v_on g = v_on g1 \/ beyond (v_x g1) /\ v_bcs g1 1%nat = NullGradient) /\
  in_step K dims L (v_st g) (v_st g1).

Lemma coords_long X : global_coords nd N ng X -> (4 <= a_ext (X 0%nat))%Z.
Proof.
  intros H. pose proof (H 0%nat ltac:(lia)) as E. pose proof (dcp_nd (lo_dec HL)). pose proof (ro_ng HR).
  pose proof (dcp_n (lo_dec HL) (d := 0%nat) ltac:(lia)).
  replace (Nat.ltb 0 nd) with true in E by (symmetry; apply Nat.ltb_lt; lia). rewrite E. lia.
Qed.


Lemma east_iadd o c : iadd o (east c) = east (iadd o c).
Proof. unfold iadd, east. cbn. f_equal. lia. Qed.

Lemma mrel_step t dt g g1 : mrel g g1 -> mrel (step t dt g) (step1 t dt g1).
Proof.
  intros (EX & EB & HX & Hon & HS). unfold move_step. rewrite EX, EB in *. clear EX EB.
  destruct g as [X' on b' S]. destruct g1 as [X on1 b S1]. cbn [v_x v_on v_bcs v_st] in *. clear X' b'. cbv zeta.
  set (K1 := with_bcs K b) in *. set (LX := relaid L X). set (L1X := relaid L1 X).
  pose proof (with_bcs_runs K b N dims X LX (relaid_runs K N dims X0 L X HR HX)) as HRX. fold K1 in HRX.
  pose proof (with_bcs_laid K b N one_process X L1X (relaid_ok K N one_process X0 L1 X HL1 HX)) as HLX1. fold K1 in HLX1.
  pose proof (ro_layout HRX) as HLX.
  set (W0 := step_user K1 LX t dt S). set (W01 := step_user K1 L1X t dt S1).
  set (A := bcs_update K1 LX W0). set (A1 := bcs_update K1 L1X W01).
  pose proof (full_step_slice K1 N dims X LX L1X HLX HLX1 (ro_thick HRX) (ro_ng HRX) (ro_faces HRX) (ro_grav HRX) t dt S S1 HS) as HF.
  assert (HA : slice_of nd dims (l_dec L) A (A1 rank0)) by exact (proj1 (proj1 HF)).
  assert (OA : forall r c, process nd dims r -> owned nd ng (d_nloc (l_dec L r)) c ->
     A r c = W0 r c /\ A1 rank0 (iadd (corner_min (d_range (l_dec L r))) c) = W01 rank0 (iadd (corner_min (d_range (l_dec L r))) c) /\
     A1 rank0 (iadd (corner_min (d_range (l_dec L r))) c) = A r c).
  { intros r c Hr Hc. split; [exact (bcs_owned K1 N dims X LX HLX W0 r c (ro_faces HRX) Hr Hc)|]. split.
    - exact (bcs_owned K1 N one_process X L1X HLX1 W01 rank0 _ (ro_faces HRX) (rank0_ok nd) (owned_slice K1 N dims X LX L1X HLX HLX1 r c Hr Hc)).
    - symmetry. apply HA; [exact Hr|]. exact (owned_in_array K1 N dims X LX HLX r c Hr Hc). }
  assert (HC : crit LX A = crit L1X A1) by (apply Hcrit; assumption).
  assert (FIN : forall V V1 rec rec1 new new1, V = W0 \/ V = A -> V1 = W01 \/ V1 = A1 ->
     in_step K dims L (finish K1 LX (bcs_update K1 LX V) rec new S) (finish K1 L1X (bcs_update K1 L1X V1) rec1 new1 S1)).
  { intros V V1 rec rec1 new new1 HV HV1. apply (finish_slice K1 N dims X LX L1X HLX HLX1 (ro_grav HRX)).
    apply (bcs_slice K1 N dims X LX L1X HLX HLX1 (ro_thick HRX) (ro_faces HRX)). intros r c Hr Hc.
    destruct (OA r c Hr Hc) as (E1 & E2 & E3). destruct HV as [-> | ->], HV1 as [-> | ->]; cbn [LX relaid l_dec]; congruence. }
  destruct Hon as [-> | [Hbey Hnull]].
  - rewrite <- HC. destruct (on1 && crit LX A)%bool.
    + destruct (rleb rmax _) eqn:Er.
      * unfold mrel. cbn [v_x v_on v_bcs v_st]. split; [reflexivity|]. split; [reflexivity|]. split; [exact HX|]. split; [left; reflexivity|].
        set (K2 := with_bcs K (open_right b)).
        pose proof (with_bcs_runs K (open_right b) N dims X LX (relaid_runs K N dims X0 L X HR HX)) as HR2.
        pose proof (with_bcs_laid K (open_right b) N one_process X L1X (relaid_ok K N one_process X0 L1 X HL1 HX)) as HL2.
        apply (finish_slice K2 N dims X LX L1X (ro_layout HR2) HL2 (ro_grav HR2)).
        apply (bcs_slice K2 N dims X LX L1X (ro_layout HR2) HL2 (ro_thick HR2) (ro_faces HR2)). intros r c Hr Hc.
        exact (proj2 (proj2 (OA r c Hr Hc))).
      * destruct (shift_mesh_ok X (coords_long X HX)) as (Y & EY & _). rewrite EY.
        pose proof (shift_mesh_coords _ _ _ _ _ EY HX) as HY.
        unfold mrel. cbn [v_x v_on v_bcs v_st]. split; [reflexivity|]. split; [reflexivity|]. split; [exact HY|]. split; [left; reflexivity|].
        pose proof (with_bcs_runs K b N dims Y (relaid L Y) (relaid_runs K N dims X0 L Y HR HY)) as HR2. fold K1 in HR2.
        pose proof (with_bcs_laid K b N one_process Y (relaid L1 Y) (relaid_ok K N one_process X0 L1 Y HL1 HY)) as HL2. fold K1 in HL2.
        apply (finish_slice K1 N dims Y (relaid L Y) (relaid L1 Y) (ro_layout HR2) HL2 (ro_grav HR2)).
        apply (bcs_slice K1 N dims Y (relaid L Y) (relaid L1 Y) (ro_layout HR2) HL2 (ro_thick HR2) (ro_faces HR2)). intros r c Hr Hc.
        pose proof (ro_ng HR) as Hng. cbn [relaid l_dec] in *.
        destruct (shift_owned_at K N dims X0 L r c (A r) HL ltac:(lia) Hr Hc) as [-> Hin].
        destruct (shift_owned_at K N one_process X0 L1 rank0 (iadd (corner_min (d_range (l_dec L r))) c) (A1 rank0) HL1 ltac:(lia) (rank0_ok nd)
          (owned_slice K N dims X0 L L1 HL HL1 r c Hr Hc)) as [-> _].
        rewrite <- east_iadd. symmetry. now apply HA.
    + unfold mrel. cbn [v_x v_on v_bcs v_st]. split; [reflexivity|]. split; [reflexivity|]. split; [exact HX|]. split; [left; reflexivity|].
      apply FIN; auto.
  - assert (Er : rleb rmax (a_at (X 0%nat) (ii N + ii (nghost_of nd ng) + 1)%Z) = true) by (apply rleb_true; exact Hbey).
    rewrite Er, (open_right_same b Hnull). fold K1. rewrite <- HC.
    destruct (on && crit LX A)%bool, (on1 && crit LX A)%bool; unfold mrel; cbn [v_x v_on v_bcs v_st];
      (split; [reflexivity|]; split; [reflexivity|]; split; [exact HX|]; split; [right; auto|]; apply FIN; auto).
Qed.

Lemma mrel_run ts : forall g g1, mrel g g1 -> mrel (move_run K L (ii N) crit rmax ts g) (move_run K L1 (ii N) crit rmax ts g1).
Proof.
  induction ts as [|[t dt] ts IH]; intros g g1 H; [exact H|]. cbn [move_run fold_left fst snd]. apply IH. now apply mrel_step.
Qed.

Lemma mrel_init X G S S1 : global_coords nd N ng X -> starts_from K dims L G S -> starts_from K one_process L1 G S1 ->
  mrel (move_init K L X S) (move_init K L1 X S1).
Proof.
  intros HX HS HS1. unfold move_init, mrel. cbn [v_x v_on v_bcs v_st]. split; [reflexivity|]. split; [reflexivity|]. split; [exact HX|]. split; [left; reflexivity|].
  pose proof (relaid_runs K N dims X0 L X HR HX) as HRX. pose proof (relaid_ok K N one_process X0 L1 X HL1 HX) as HL1X.
  apply (init_slice K N dims X (relaid L X) (relaid L1 X) (ro_layout HRX) HL1X (ro_thick HRX) (ro_faces HRX) (ro_grav HRX) G); [destruct HS; split; assumption|destruct HS1; split; assumption].
Qed.

Lemma mrel_dyn cfl g g1 : mrel g g1 ->
  y_dt (moving K L (ii N) crit rmax cfl) g = y_dt (moving K L1 (ii N) crit rmax cfl) g1 /\
  y_bad (moving K L (ii N) crit rmax cfl) g = y_bad (moving K L1 (ii N) crit rmax cfl) g1.
Proof.
  intros (EX & _ & HX & _ & HS). cbn [moving y_dt y_bad hydro]. rewrite EX.
  pose proof (relaid_runs K N dims X0 L (v_x g1) HR HX) as HRX. pose proof (relaid_ok K N one_process X0 L1 (v_x g1) HL1 HX) as HL1X.
  rewrite (time_step_slice K N dims (v_x g1) _ _ (ro_layout HRX) HL1X (ro_ng HRX) _ _ HS).
  rewrite (min_energy_slice K N dims (v_x g1) _ _ (ro_layout HRX) HL1X (ro_ng HRX) _ _ HS). split; reflexivity.
Qed.
End Par.
