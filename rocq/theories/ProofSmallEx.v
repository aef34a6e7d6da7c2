(** * C108: the statements assembled, and the values of the tests. *)
From Coq Require Import Reals Lra Lia ZArith List Permutation Ascii String.
From Verif Require Import Base RBase ModelMesh ModelGeom ModelHydro ModelBoundary ModelUtil ModelStep ModelSmall ProofBase ProofMesh ProofGeom ProofR
  ProofSmall ProofSmall2.
Import ListNotations.
Local Open Scope R_scope.

Lemma valid_examples :
  is_valid (XR 1) (XR 2) = true /\ is_valid (XR 1) (XR 0) = false /\ is_valid XNaN (XR 1) = false /\ is_valid (XR 1) (XInf false) = false.
Proof.
  split; [apply is_valid_spec; exists 1, 2; repeat split; lra|]. unfold is_valid. cbn.
  repeat split; destruct (Rlt_dec 0 1); try destruct (Rlt_dec 0 0); try reflexivity; lra.
Qed.

Lemma fill_repeat n : fill "." n = String.concat "" (repeat "."%string n).
Proof.
  induction n as [|n IH]; [reflexivity|]. cbn [fill repeat]. rewrite IH.
  destruct n as [|n]; [reflexivity|]. reflexivity.
Qed.

Lemma parameter_lines name value :
  (exists n, print_info name value
             = (name ++ String.concat "" (repeat "."%string n) ++ value ++ String (Ascii.ascii_of_nat 10) "")%string) /\
  String.length (print_info name value) = (Nat.max 40 (String.length name) + Nat.max 40 (String.length value) + 1)%nat /\
  forall name' value', (String.length name <= 40)%nat -> (String.length name' <= 40)%nat ->
    (forall p, name <> (p ++ ".")%string /\ name' <> (p ++ ".")%string /\ value <> ("." ++ p)%string /\ value' <> ("." ++ p)%string) ->
    print_info name value = print_info name' value' -> name = name' /\ value = value'.
Proof.
  split; [|split].
  - eexists. rewrite print_info_text, fill_repeat. reflexivity.
  - apply print_info_len.
  - intros n' v' L L' H. apply print_info_inj; auto; intros p; apply (H p).
Qed.

Lemma equal_sizes dirs v0 vs :
  (equal_extents dirs v0 vs = true <-> forall i v, In i dirs -> In v vs -> nth i v 1%Z = nth i v0 1%Z) /\
  equal_extents_array dirs (v0 :: vs) = equal_extents dirs v0 vs /\
  forall ws, Permutation (v0 :: vs) ws -> equal_extents_array dirs ws = equal_extents_array dirs (v0 :: vs).
Proof.
  split; [exact (equal_extents_spec dirs v0 vs)|]. split; [apply equal_extents_both|].
  intros ws P. symmetry. now apply equal_extents_perm.
Qed.

Lemma dual_states (V : Type) (d : dual V) s m :
  (forall t, (0 <= flag d t < 2 ^ 32 - 1)%Z) ->
  (has_write m = true ->
     need_synchronization (access d s m) s = false /\ need_synchronization (access d s m) (other s) = true) /\
  need_synchronization (access d s ReadOnly) s = false /\
  (need_synchronization d s = false -> access d s ReadOnly = d) /\
  need_synchronization (synchronize d s) s = false /\
  (need_synchronization d s = true -> need_synchronization (synchronize d s) (other s) = false /\
     forall t i, mem (synchronize d s) t i = mem d (other s) i) /\
  need_synchronization (clear_synchronization_state d) s = false.
Proof.
  intros H. split; [exact (access_write_flags V d s m H)|]. destruct (access_read_flags V d s) as (A & B).
  destruct (sync_clean V d s) as (C & D & _). repeat (split; [assumption|]). reflexivity.
Qed.

(** ** tests/gravity.cpp *)
Definition test_mesh : mesh := fun d i =>
  match d with
  | O => 1000 + 600 * (IZR i - 2)
  | _ => PI / 4 + (IZR i - 2) * (PI / 30)
  end.
Definition test_K : config :=
  mkConfig Spherical 3 2 (pg_eos (mkPG (7 / 5) 1)) LVanLeer HLL None UOff (GInternalMass (2 * 10 ^ 30)) (fun _ => NullGradient) [0; 1; 2; 3; 4; 5]%nat.
Definition test_L : layout :=
  mkLayout (I3 1 1 1)
    (fun _ => mkDecomp (I3 15 15 15) (I3 19 19 19) (mkRange (I3 0 0 0) (I3 15 15 15) 2 0 (I3 2 2 2)) (fun _ => (true, true)))
    (fun _ => test_mesh).
Definition test_world : world cell := fun _ _ => mkCell (10 ^ 10) (fun _ => 0) 1 (fun _ => 0).

Lemma test_field c : (2 <= ii c < 17)%Z ->
  let x := mxc test_mesh 0 (ii c) in
  gravity_values test_K test_L test_world (I3 0 0 0) c 0%nat
  = - Ggrav * (2 * 10 ^ 30 + 4 / 3 * PI * 10 ^ 10 * (x * x * x - 1000 ^ 3)) / (x * x).
Proof.
  intros Hc x.
  rewrite (uniform_sphere test_K test_L test_world (2 * 10 ^ 30) (I3 0 0 0) (10 ^ 10) c); try reflexivity.
  - cbn [l_mesh test_L test_K k_ng]. fold x. replace (test_mesh 0%nat 2%Z) with 1000; [reflexivity|]. unfold test_mesh. ring.
  - cbn. lia.
  - cbn. lia.
  - cbn. lia.
  - intros r' _ _ _. split; [cbn; lia|]. intros c' C0 C1 C2. split; [|reflexivity].
    cbn in C0, C1, C2. cbn [test_K k_geom k_nd test_L l_mesh].
    assert (Q0 : 2 <= IZR (ii c')) by (apply IZR_le; lia).
    assert (Q1 : 2 <= IZR (jj c') <= 16) by (split; apply IZR_le; lia). pose proof PI_RGT_0 as P.
    apply (spherical_positive 3); [lia| | | | | |]; unfold test_mesh; rewrite ?plus_IZR; nra.
Qed.
