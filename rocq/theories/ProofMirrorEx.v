(** * An expanding flow in binary64 and its mirror image (C97). *)
From Coq Require Import FunctionalExtensionality.
From Flocq Require Import IEEE754.BinarySingleNaN.
From Verif Require Import Base RBase ModelMesh ModelGeom ModelBoundary ModelHydro ModelScheme ModelStep ModelFloat ModelArith ModelArith64
  SpecHydro SpecScheme SpecArith SpecMirror
  ProofBase ProofR ProofHydro ProofHydro2 ProofScheme ProofAxes ProofMirror ProofArith64 ProofArithNum ProofArithEx
  ProofMirrorBits ProofMirrorBits2 ProofMirror64 ProofMirrorBits3.
Local Open Scope R_scope.

Section Ex.
Variables dsin dcos dexp : double -> double.
Notation A := (b64 dsin dcos dexp).
Notation gas := (gas64 dsin dcos dexp).

(** Six unit cells; the three on the left move to the left, the others to the right. *)
Definition em : mesh := fun _ i => lit i 0.
Definition ep (lo hi : Z) (c : idx) : bool := ((lo <=? ii c) && (ii c <=? hi) && (jj c =? 0) && (kk c =? 0))%Z.
Definition ez (c : idx) : Z := if (ii c <? 3)%Z then (- two_code)%Z else two_code.
Definition P0_code : Z := 22597261490294195206.
Definition erho : field3 := fun _ => IZR one_code.
Definition eu : field4 := fun c k => IZR (along0 (ez c) k).
Definition eP : field3 := fun _ => IZR P0_code.
Definition egrav : gravity := fun _ _ => IZR 1.
Definition ecell (c : idx) : cell :=
  mkCell (IZR one_code) (fun k => IZR (along0 (ez c) k)) (IZR (code (dlit 100 0))) (fun _ => IZR 1).
Definition edth : R := lit 1 2.
Definition edt : R := lit 2 2.
Definition erec (old : recon) : recon :=
  ahydro_reconstruction A (ep 0 5) Cartesian 1 gas LConstant em egrav edth erho eu eP (fun _ _ => IZR 1) old.

Lemma ep_coords lo hi c : ep lo hi c = true -> (lo <= ii c <= hi)%Z /\ jj c = 0%Z /\ kk c = 0%Z.
Proof. unfold ep. rewrite !andb_true_iff, !Z.leb_le, !Z.eqb_eq. lia. Qed.
Lemma ewidth c d : ep 0 5 c = true -> (d < 3)%nat -> adx A em d (coord d c) = IZR one_code.
Proof.
  intros H Hd. apply ep_coords in H. unfold adx, em. apply unit_width. destruct d as [|[|[|d]]]; cbn [coord]; lia.
Qed.
Definition econs : list Z := [one_code; P0_code; two_code; (- two_code)%Z; 1%Z].
Lemma eface (var : field3) c sd k z : ep 0 5 c = true -> In z econs -> var c = IZR z -> aface_value A LConstant em var c sd k = IZR z.
Proof.
  intros H Hz Hv. unfold aface_value. cbv zeta. rewrite Hv. cbn [aslope].
  assert (W : acell_width A em c k = IZR one_code \/ acell_width A em c k = IZR 1).
  { unfold acell_width. pose proof (ewidth c 0 H ltac:(lia)) as E0. pose proof (ewidth c 1 H ltac:(lia)) as E1. pose proof (ewidth c 2 H ltac:(lia)) as E2.
    cbn [coord] in E0, E1, E2. rewrite E0, E1, E2. unfold one_code. destruct k as [|[|[|k]]].
    - left. unfold kron. cbn [Nat.eqb]. num. reflexivity.
    - left. unfold kron. cbn [Nat.eqb]. num. reflexivity.
    - left. unfold kron. cbn [Nat.eqb]. num. reflexivity.
    - right. unfold kron. cbn [Nat.eqb]. num. reflexivity. }
  destruct W as [-> | ->]; destruct Hz as [<-|[<-|[<-|[<-|[<-|[]]]]]]; destruct sd; unfold one_code, two_code, P0_code; cbn [Z.opp]; num; reflexivity.
Qed.
Lemma eprim c sd k : ep 0 5 c = true -> aface_prim A LConstant em erho eu eP c sd k = wall_prim (ez c).
Proof.
  intros H. unfold aface_prim, wall_prim. f_equal.
  - change (code (dlit 1 0)) with one_code || idtac. apply eface; [assumption|now left|].
    unfold erho. reflexivity.
  - apply functional_extensionality. intros n. apply eface; [assumption| |reflexivity].
    unfold ez, along0, econs. destruct (ii c <? 3)%Z, n; cbn [In]; auto 7.
  - apply eface; [assumption|cbn; auto|reflexivity].
Qed.

Lemma ehancock c sd : ep 0 5 c = true ->
  ahancock_cons A Cartesian 1 gas em egrav edth (aface_prim A LConstant em erho eu eP c) c sd 0
  = wall_cons (ez c).
Proof.
  intros H.
  assert (V : adv A Cartesian 1 em c = IZR one_code).
  { cbn [adv]. unfold acart_dv. pose proof (ewidth c 0 H ltac:(lia)) as E0. pose proof (ewidth c 1 H ltac:(lia)) as E1. pose proof (ewidth c 2 H ltac:(lia)) as E2.
    cbn [coord] in E0, E1, E2. rewrite E0, E1, E2. unfold one_code. num. reflexivity. }
  assert (D : ads A Cartesian 1 em c 0 = IZR one_code).
  { cbn [ads]. unfold acart_ds. cbn [Nat.eqb]. rewrite (ewidth c 1), (ewidth c 2) by (assumption || lia). unfold one_code. num. reflexivity. }
  assert (D' : ads A Cartesian 1 em (rindex 0 c) 0 = IZR one_code) by (rewrite <- D; cbn [ads]; apply (acart_ds_rindex A 0); lia).
  unfold ahancock_cons. rewrite !eprim by assumption. cbv zeta. cbn [loop]. rewrite !eprim by assumption.
  unfold aflux_diff. rewrite V, D, D'. cbn [ageo].
  unfold ato_cons, aflux_prim, aek_prim, wall_prim, gas64, apg_eos, asum, loop, apg_evol_from_temp, apg_temp_from_pres, akb, amp, egrav, edth, lit.
  cbn [eos_evol p_rho p_u p_P q_rho q_m q_E f_rho f_m f_E Nat.eqb Nat.ltb Nat.leb].
  unfold ez. destruct (ii c <? 3)%Z; unfold two_code; cbn [Z.opp along0]; unfold one_code, wall_cons; codes; num.
  all: f_equal; apply functional_extensionality; intros [|n]; cbn [along0 Nat.eqb Nat.leb]; num; reflexivity.
Qed.

Lemma etame z1 z2 : (z1 = two_code \/ z1 = - two_code)%Z -> (z2 = two_code \/ z2 = - two_code)%Z ->
  tame A nonzero64 finite64 HLL 1 gas (wall_cons z1) (wall_cons z2) 0.
Proof.
  intros H1 H2. unfold tame. rewrite !wall_P by assumption. cbv zeta. cbn [wall_cons q_rho].
  split; [apply nonzero_code; vm_compute; discriminate|]. split; [apply nonzero_code; vm_compute; discriminate|].
  unfold awave_L, awave_R, wall_prim, gas64, apg_eos. cbn [eos_sound p_rho p_u p_P].
  destruct H1 as [->| ->], H2 as [->| ->]; unfold two_code; cbn [Z.opp along0]; codes; num; apply nonzero_code; discriminate.
Qed.
Lemma ez_cases c : (ez c = two_code \/ ez c = - two_code)%Z.
Proof. unfold ez. destruct (ii c <? 3)%Z; auto. Qed.
Lemma same_one : same64 (IZR one_code) (IZR one_code).
Proof. apply same_code. vm_compute. reflexivity. Qed.
Lemma same_P0 : same64 (IZR P0_code) (IZR P0_code).
Proof. apply same_code. vm_compute. reflexivity. Qed.
Lemma same_two : same64 (IZR two_code) (IZR two_code).
Proof. apply same_code. vm_compute. reflexivity. Qed.
Lemma same_minus_two : same64 (IZR (- two_code)) (IZR (- two_code)).
Proof. apply same_code. vm_compute. reflexivity. Qed.
Lemma same_E : same64 (IZR (code (dlit 100 0))) (IZR (code (dlit 100 0))).
Proof. apply same_code. vm_compute. reflexivity. Qed.
Lemma same_dth : same64 edth edth.
Proof. unfold edth, lit. apply same_code. vm_compute. reflexivity. Qed.
Lemma same_dt : same64 edt edt.
Proof. unfold edt, lit. apply same_code. vm_compute. reflexivity. Qed.
Lemma same_zero : same64 (IZR 1) (IZR 1).
Proof. apply same_code. vm_compute. reflexivity. Qed.
Lemma ez_twin c k : twin same64 (Nat.eqb k 0) (IZR (along0 (ez c) k)) (IZR (along0 (ez (refl 0 5 c)) k)).
Proof.
  unfold twin. destruct k as [|k]; cbn [Nat.eqb sgb along0]; [|apply same_zero].
  unfold ez, refl. destruct c as [i j l]. cbn [set_coord coord ii]. 
  rewrite <- opp_IZR. destruct (Z.ltb_spec i 3), (Z.ltb_spec (5 - i) 3); try lia; rewrite ?Z.opp_involutive; [apply same_two|apply same_minus_two].
Qed.

(** All the hypotheses of the mirror theorem hold for this flow, which is its own mirror image. *)
Lemma expanding_flow : forall old,
  sign_symmetric A same64 nonzero64 finite64 /\ plain_eos same64 nonzero64 gas /\
  (forall c, ep 0 5 c = true -> mesh_twin A same64 0 5 em em c) /\ same64 edth edth /\ same64 edt edt /\
  (forall c, ep 0 5 c = true -> ep 0 5 (refl 0 5 c) = true) /\ (forall c, ep 1 4 (refl 0 5 c) = ep 1 4 c) /\
  (forall c c', ep 1 4 c = true -> in_stencil 1 c c' -> ep 0 5 c' = true) /\
  (forall c, twin same64 false (erho c) (erho (refl 0 5 c)) /\ twin same64 false (eP c) (eP (refl 0 5 c)) /\
     (forall k, twin same64 (Nat.eqb k 0) (eu c k) (eu (refl 0 5 c) k)) /\
     (forall k, twin same64 (Nat.eqb k 0) (egrav c k) (egrav (refl 0 5 c) k)) /\
     twin_cell same64 0 (ecell c) (ecell (refl 0 5 c))) /\
  (forall c, ep 0 5 c = true -> nonzero64 (adv A Cartesian 1 em c) /\ forall sd k, nonzero64 (aface_value A LConstant em erho c sd k)) /\
  (forall c, ep 1 4 c = true ->
     tame A nonzero64 finite64 HLL 1 gas (r_q (erec old) (lindex 0 c) 1%nat 0%nat) (r_q (erec old) c 0%nat 0%nat) 0 /\
     tame A nonzero64 finite64 HLL 1 gas (r_q (erec old) c 1%nat 0%nat) (r_q (erec old) (rindex 0 c) 0%nat 0%nat) 0).
Proof.
  intros old. pose proof (b64_sign_symmetric dsin dcos dexp) as HA.
  assert (R5 : forall c, refl 0 5 c = I3 (5 - ii c) (jj c) (kk c)) by (intros [i j l]; reflexivity).
  assert (St : forall c c', ep 1 4 c = true -> in_stencil 1 c c' -> ep 0 5 c' = true).
  { intros c c' H [->|(k & Hk & [-> | ->])]; apply ep_coords in H; unfold ep; rewrite !andb_true_iff, !Z.leb_le, !Z.eqb_eq; [lia| |];
      assert (k = 0%nat) as -> by lia; destruct c as [i j l]; cbn in *; lia. }
  assert (Vol : forall c, ep 0 5 c = true -> adv A Cartesian 1 em c = IZR one_code).
  { intros c H. cbn [adv]. unfold acart_dv. pose proof (ewidth c 0 H ltac:(lia)) as E0. pose proof (ewidth c 1 H ltac:(lia)) as E1. pose proof (ewidth c 2 H ltac:(lia)) as E2.
    cbn [coord] in E0, E1, E2. rewrite E0, E1, E2. unfold one_code. num. reflexivity. }
  assert (Mir : forall c, ep 0 5 c = true -> ep 0 5 (refl 0 5 c) = true).
  { intros c H. apply ep_coords in H. rewrite R5. unfold ep. cbn [ii jj kk]. rewrite !andb_true_iff, !Z.leb_le, !Z.eqb_eq. lia. }
  split; [exact HA|]. split; [apply (pg_plain_eos _ _ _ _ HA); apply same_code; vm_compute; reflexivity|].
  split. { intros c H k Hk. rewrite (ewidth c k H Hk).
           replace (if Nat.eqb k 0 then 5 - coord k c else coord k c)%Z with (coord k (refl 0 5 c)).
           - rewrite (ewidth _ k (Mir c H) Hk). apply same_one.
           - rewrite R5. destruct k as [|[|[|k]]]; [reflexivity..|lia]. }
  split; [apply same_dth|]. split; [apply same_dt|]. split; [exact Mir|].
  split. { intros c. rewrite R5. unfold ep. cbn [ii jj kk]. f_equal. f_equal. apply eq_iff_eq_true. rewrite !andb_true_iff, !Z.leb_le. lia. }
  split; [exact St|].
  split. { intros c. split; [apply same_one|]. split; [apply same_P0|]. split; [apply ez_twin|].
           split; [intros k; exact (twin_zero _ _ _ _ HA (Nat.eqb k 0))|].
           unfold twin_cell, twin_cons, cons_of, ecell. cbn [c_rho c_rhou c_E q_rho q_m q_E].
           split; [apply same_one|]. split; [apply ez_twin|apply same_E]. }
  split. { intros c H. rewrite Vol by assumption. split; [apply nonzero_code; vm_compute; discriminate|].
           intros sd k. rewrite (eface erho c sd k one_code H) by (try (now left); reflexivity). apply nonzero_code; vm_compute; discriminate. }
  intros c H.
  assert (RQ : forall c' sd, in_stencil 1 c c' -> r_q (erec old) c' sd 0%nat = wall_cons (ez c')).
  { intros c' sd Hc. pose proof (St c c' H Hc) as E. unfold erec, ahydro_reconstruction. cbn [r_q]. unfold kwrite. rewrite E. now apply ehancock. }
  assert (SL : in_stencil 1 c (lindex 0 c)) by (right; exists 0%nat; split; [lia|auto]).
  assert (SR : in_stencil 1 c (rindex 0 c)) by (right; exists 0%nat; split; [lia|auto]).
  rewrite !RQ by (try assumption; now left). split; apply etame; apply ez_cases.
Qed.
End Ex.
