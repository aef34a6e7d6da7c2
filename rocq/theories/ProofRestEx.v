(** * Examples of PropRest.v. *)
From Coq Require Import ZifyBool ZifyNat Lra Psatz.
From Verif Require Import Base RBase ModelMesh ModelGeom ModelBoundary ModelHydro ModelScheme ModelStep
  SpecMesh SpecBoundary SpecHydro SpecScheme SpecStep SpecAdvect SpecRest
  ProofBase ProofMesh ProofR ProofBoundary ProofBoundary2 ProofHydro ProofScheme ProofStep ProofLayout ProofStepEx ProofAdvectEx ProofRest.
Local Open Scope R_scope.

Definition rest_G : gfields :=
  mkG (fun c => if (ii c <? 5)%Z then 2 else 1) (fun _ => no_velocity) (fun _ => 1) (fun _ _ => 1).

Lemma rest_example l s :
  let K := line_K l s in let L := line_L l s in
  runs_on K line_N line_dims line_X L /\ lawful_eos (k_eos K) /\ energy_of_pressure (k_eos K) /\ plain_flow K no_velocity /\
  increasing 1 line_N 2 line_X /\ bounded_faces l 1 line_N 2 line_X /\
  starts_from K line_dims L rest_G (the_state K L rest_G) /\ layers_at_rest 1 rest_G /\
  let r := I3 1 0 0 in let c := I3 3 0 0 in let at_ x := g_rho rest_G (global_index 1 2 (corner_min (d_range (l_dec L r))) x) in
  process 1 line_dims r /\ owned 1 2 (d_nloc (l_dec L r)) c /\ owned 1 2 (d_nloc (l_dec L r)) (lindex 0 c) /\
  owned 1 2 (d_nloc (l_dec L r)) (rindex 0 c) /\ at_ (lindex 0 c) = at_ c /\ at_ (rindex 0 c) <> at_ c.
Proof.
  intros K L. destruct adv_eos_ok as [E1 E2].
  split; [exact (line_runs l s)|]. split; [exact E1|]. split; [exact E2|]. split.
  { split; try reflexivity. exists (fun _ => 0). auto. }
  split. { intros d i Hd _. destruct d as [|[|[|d]]]; cbn [line_X a_at]; [| | |lia]; rewrite plus_IZR; lra. }
  split.
  { assert (E : even_axes 1 line_N 2 line_X).
    { intros d Hd. destruct d as [|d]; [|lia]. exists (1 / 10). intros i _. cbn [line_X a_at]. rewrite plus_IZR. lra. }
    destruct l; exact I || exact E. }
  split; [apply the_state_ok|].
  split. { intros c. cbn. split; [destruct (_ <? _)%Z; lra|]. split; reflexivity. }
  cbn zeta.
  assert (W : forall x, (2 <= x <= 4)%Z -> owned 1 2 (d_nloc (l_dec L (I3 1 0 0))) (I3 x 0 0)).
  { intros x Hx d Hd. assert (Hx' : (x = 2 \/ x = 3 \/ x = 4)%Z) by lia.
    destruct d as [|[|[|d]]]; [| | |lia]; destruct Hx' as [->|[->| ->]]; vm_compute; split; congruence. }
  split. { intros d Hd. destruct d as [|[|[|d]]]; [| | |lia]; vm_compute; split; congruence. }
  split; [apply W; lia|]. split; [apply (W 2%Z); lia|]. split; [apply (W 4%Z); lia|].
  unfold rest_G, global_index. cbn [g_rho]. split.
  - match goal with |- (if ?b then _ else _) = (if ?b' then _ else _) => let x := eval vm_compute in b in let y := eval vm_compute in b' in change b with x; change b' with y end. reflexivity.
  - match goal with |- (if ?b then _ else _) <> (if ?b' then _ else _) => let x := eval vm_compute in b in let y := eval vm_compute in b' in change b with x; change b' with y end. cbv iota. lra.
Qed.

(** 7 x 5 cells on 3 x 2 processes, spherical, pressure fix on, a wall at the lower theta face. *)
Definition sphere_K (s : solver) : config :=
  mkConfig Spherical 2 2 (pg_eos (mkPG (5 / 3) 1)) LVanLeer s (Some 1) UOff (GUniform (fun _ => 0)) ex_bcs [2; 3; 0; 1]%nat.
Definition sphere_L s := the_layout (sphere_K s) ex_N ex_dims ex_X.

Lemma sphere_runs s : runs_on (sphere_K s) ex_N ex_dims ex_X (sphere_L s).
Proof.
  assert (H3 : forall d, (d < 3)%nat -> (1 <= coord d ex_N)%Z) by (dims3; vm_compute; congruence).
  assert (H4 : forall d, (d < 3)%nat -> (1 <= coord d (mpi_dims 2 ex_dims))%Z) by (dims3; vm_compute; congruence).
  split; cbn [sphere_K k_nd k_ng k_order].
  - apply the_layout_ok; cbn [sphere_K k_nd k_ng]; try lia; [exact H3|exact H4|exact ex_coords].
  - unfold sphere_L, the_layout. cbn [l_dec sphere_K k_nd k_ng]. apply decs_thick; try lia; [exact H3|exact H4|].
    intros d Hd; destruct d as [|[|d]]; [| |lia]; vm_compute; congruence.
  - lia.
  - intros f Hf. cbn in Hf. lia.
  - exact I.
Qed.

Lemma sphere_example s :
  let K := sphere_K s in let L := sphere_L s in
  runs_on K ex_N ex_dims ex_X L /\ lawful_eos (k_eos K) /\ energy_of_pressure (k_eos K) /\ weightless K /\
  increasing 2 ex_N 2 ex_X /\ bounded_faces (k_lim K) 2 ex_N 2 ex_X /\ k_bcs K 2 = Reflexive /\
  starts_from K ex_dims L rest_G (the_state K L rest_G) /\ layers_at_rest 1 rest_G /\
  g_rho rest_G (I3 4 0 0) <> g_rho rest_G (I3 5 0 0).
Proof.
  intros K L. destruct adv_eos_ok as [E1 E2]. split.
  { exact (sphere_runs s). }
  split; [exact E1|]. split; [exact E2|]. split; [exists (fun _ => 0); auto|]. split; [exact (proj2 ex_widths)|].
  split. { intros d Hd. exists 1. intros i _. cbn [ex_X a_at]. rewrite plus_IZR. lra. }
  split; [reflexivity|]. split; [apply the_state_ok|].
  split. { intros c. cbn. split; [destruct (_ <? _)%Z; lra|]. split; reflexivity. }
  cbn. lra.
Qed.
