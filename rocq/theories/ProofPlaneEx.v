(** * Runs in one and in two dimensions: concrete cases (C107). *)
From Coq Require Import ZifyBool ZifyNat.
From Verif Require Import Base RBase ModelMesh ModelGeom ModelBoundary ModelHydro ModelScheme ModelStep
  SpecMesh SpecGeom SpecBoundary SpecHydro SpecScheme SpecStep SpecFill SpecSym SpecPlane
  ProofBase ProofMesh ProofR ProofBoundary ProofBoundary2 ProofHydro ProofScheme ProofStep ProofStepEx ProofLayout ProofSteady ProofPlane4.
Local Open Scope R_scope.

(** Seven cells along the first axis, five along the second one; the faces of the second axis reflect. *)
Definition pl_bcs : nat -> bcond := fun f => match f with 0 | 1 => Periodic | 2 => Reflexive | _ => NullGradient end%nat.
Definition pl_K (g : geom) (pf : option R) (nd : nat) : config :=
  mkConfig g nd 2 (pg_eos (mkPG (5 / 3) 1)) LVanLeer HLLC pf UOff (GUniform (fun _ => 0)) pl_bcs (seq 0 (2 * nd)).
Definition pl_N (nd : nat) : idx := if Nat.eqb nd 1 then I3 7 1 1 else I3 7 5 1.
Definition pl_dims (nd : nat) : idx := if Nat.eqb nd 1 then I3 2 1 1 else I3 3 2 1.
Definition pl_X (y : Z -> R) (nd : nat) : nat -> arr1 := fun d =>
  mkArr1 (coord d (pl_N nd) + 2 * (if Nat.ltb d nd then 2 else 0) + 1)%Z
    (fun i => match d with O => 1 + IZR i | S O => y i | _ => IZR i end).
Definition pl_even : Z -> R := fun i => IZR i / 10.
Definition pl_uneven : Z -> R := fun i => (1 + IZR i) * (1 + IZR i).
Definition pl_L g pf y dims nd := the_layout (pl_K g pf nd) (pl_N nd) dims (pl_X y nd).
(** A gas that varies along the first axis, and a uniform wind. *)
Definition pl_G : gfields :=
  mkG (fun c => 1 + IZR (ii c) * IZR (ii c)) (fun c d => match d with O => 3 - IZR (ii c) | _ => 0 end) (fun c => 2 + IZR (ii c) * IZR (ii c))
    (fun c n => match n with O => 1 / 4 | _ => 1 end).
Definition pl_wind : gfields := mkG (fun _ => 1) (fun _ d => if Nat.eqb d 0 then 10 else 0) (fun _ => 1) (fun _ _ => 0).

Lemma pl_runs g pf y dims nd : (1 <= nd <= 2)%nat -> dims = pl_dims nd \/ dims = one_process -> runs_on (pl_K g pf nd) (pl_N nd) dims (pl_X y nd) (pl_L g pf y dims nd).
Proof.
  intros Hn Hd.
  assert (H3 : forall d, (d < 3)%nat -> (1 <= coord d (pl_N nd))%Z) by (destruct nd as [|[|[|nd]]]; try lia; dims3; vm_compute; congruence).
  assert (H4 : forall d, (d < 3)%nat -> (1 <= coord d (mpi_dims nd dims))%Z) by (destruct Hd as [-> | ->]; destruct nd as [|[|[|nd]]]; try lia; dims3; vm_compute; congruence).
  split; cbn [pl_K k_nd k_ng k_order].
  - apply the_layout_ok; cbn [pl_K k_nd k_ng]; try lia; [exact H3|exact H4|]. intros d Hd'. reflexivity.
  - unfold pl_L, the_layout. cbn [l_dec pl_K k_nd k_ng]. apply decs_thick; try lia; [exact H3|exact H4|].
    intros d Hd'. destruct Hd as [-> | ->]; destruct nd as [|[|[|nd]]]; try lia; destruct d as [|[|d]]; try lia; vm_compute; congruence.
  - lia.
  - intros f Hf. apply in_seq in Hf. lia.
  - exact I.
Qed.

Lemma pl_extruded g pf : (g = Spherical -> pf = None) -> extruded_run (pl_K g pf 1) (pl_K g pf 2).
Proof.
  intros Hg. split; cbn [pl_K k_nd k_geom k_ng k_eos k_lim k_sol k_pf k_user k_bcs k_order k_grav]; try reflexivity; try lia.
  - intros E. split; [now apply Hg|discriminate].
  - left. exists (fun _ => 0), (fun _ => 0). repeat split.
  - split; [intros f Hf; apply in_seq in Hf; lia|]. intros f Hf _. apply in_seq. lia.
  - split; [intros f Hf; apply in_seq in Hf; lia|]. intros f Hf _. apply in_seq. lia.
Qed.
Lemma pl_mesh y : extruded_mesh 1 (pl_N 1) (pl_N 2) (pl_X y 1) (pl_X y 2).
Proof. intros d Hd. destruct d; [|lia]. split; [reflexivity|]. intros i. reflexivity. Qed.
Lemma pl_even_along : even_along 1 2 (pl_X pl_even 2).
Proof. intros d Hd. exists (1 / 10). intros i. destruct d as [|[|d]]; try lia. cbn [pl_X a_at]. unfold pl_even. rewrite plus_IZR. lra. Qed.
Lemma pl_flat g pf nd : (1 <= nd <= 2)%nat -> no_flat_cells (pl_K g pf nd) (pl_N nd) (pl_X pl_even nd).
Proof.
  intros Hn c Hc. assert (C0 : (0 <= ii c)%Z) by (apply (Hc 0%nat); lia). apply IZR_le in C0.
  destruct g; cbn [pl_K k_geom k_nd dv].
  - unfold cart_dv, mdx, pl_even. cbn [pl_X a_at]. unfold pl_even. rewrite !plus_IZR. apply Rgt_not_eq. lra.
  - assert (R3 : 0 < (1 + IZR (ii c + 1)) * (1 + IZR (ii c + 1)) * (1 + IZR (ii c + 1)) - (1 + IZR (ii c)) * (1 + IZR (ii c)) * (1 + IZR (ii c))).
    { rewrite plus_IZR. set (z := IZR (ii c)) in *. nra. }
    pose proof PI_RGT_0 as HP. destruct nd as [|[|[|nd]]]; try lia; cbn [sph_dv pl_X a_at].
    + apply Rgt_not_eq. apply Rmult_lt_0_compat; [|lra]. apply Rmult_lt_0_compat; [lra|exact R3].
    + apply Rgt_not_eq. apply Rmult_lt_0_compat; [apply Rmult_lt_0_compat; [lra|exact R3]|].
      unfold sph_dcos. cbn [pl_X a_at]. pose proof (Hc 1%nat ltac:(lia)) as Cj. cbn in Cj. destruct Cj as [J1 J2].
      assert (J3 : (jj c <= 8)%Z) by lia. apply IZR_le in J1, J3. unfold pl_even. rewrite plus_IZR.
      assert (PI / 2 > 1) by (pose proof PI2_1; lra).
      assert (cos ((IZR (jj c) + 1) / 10) < cos (IZR (jj c) / 10)) by (apply cos_decreasing_1; lra). lra.
Qed.
Lemma pl_fields : extruded_fields 1 2 (pl_N 1) (pl_N 2) pl_G pl_G.
Proof.
  intros c c' _ _ A. assert (E : ii c' = ii c) by (apply (A 0%nat); lia). cbn [pl_G g_rho g_u g_P g_fx]. rewrite E.
  split; [reflexivity|]. split; [|split; reflexivity]. split; [reflexivity|]. intros d Hd. destruct d; [lia|reflexivity].
Qed.
Lemma pl_wind_fields : extruded_fields 1 2 (pl_N 1) (pl_N 2) pl_wind pl_wind.
Proof. intros c c' _ _ A. split; [reflexivity|]. split; [|split; reflexivity]. split; [reflexivity|]. intros d Hd. destruct d; [lia|reflexivity]. Qed.

(** The state in which the wind starts, on one process. *)
Definition pl_S nd : idx -> pstate :=
  let K := pl_K Cartesian None nd in let L := pl_L Cartesian None pl_even one_process nd in init_state K L (the_state K L pl_wind).
Lemma pl_S_ok nd : (1 <= nd <= 2)%nat -> let K := pl_K Cartesian None nd in let L := pl_L Cartesian None pl_even one_process nd in
  forall c, in_array (d_nwg (l_dec L rank0)) c -> 0 < c_rho (s_cell (pl_S nd rank0) c) /\ 0 < s_P (pl_S nd rank0) c /\
     forall d, (d < k_nd K)%nat -> 0 < width (k_geom K) (l_mesh L rank0) c d.
Proof.
  intros Hn K L c Hc. pose proof (pl_runs Cartesian None pl_even one_process nd Hn (or_intror eq_refl)) as HR. fold K L in HR.
  assert (Hb : forall f, (f < 2 * k_nd K)%nat -> k_bcs K f = Reflexive -> (fun d => if Nat.eqb d 0 then 10 else 0) (f / 2)%nat = 0).
  { intros f Hf E. destruct f as [|[|[|[|f]]]]; try discriminate; reflexivity. }
  destruct (uni_init K (pl_N nd) one_process (pl_X pl_even nd) L (ro_layout HR) 1 (fun d => if Nat.eqb d 0 then 10 else 0) 1 (fun _ => 0) ex_eos (conj Rlt_0_1 Rlt_0_1) (ro_thick HR) (ro_faces HR) Hb
    (ex_intro _ _ (conj eq_refl (fun _ => eq_refl))) pl_wind (the_state K L pl_wind) (the_state_ok _ _ _ _) (fun _ => eq_refl) (fun _ _ => eq_refl) (fun _ => eq_refl) (fun _ _ => eq_refl) rank0 c (rank0_ok _) Hc) as ((E1 & _) & _ & E2 & _).
  fold (pl_S nd) in E1, E2. unfold pl_S. cbv zeta. fold K L. rewrite E1, E2. split; [lra|]. split; [lra|].
  intros d Hd. cbn [K pl_K k_geom k_nd] in *. unfold width.
  rewrite !(set_grid_at _ _ _ (lo_mesh (ro_layout HR) (rank0_ok _))) by lia.
  destruct d as [|[|d]]; try lia; cbn [pl_X a_at]; unfold pl_even; rewrite !plus_IZR; lra.
Qed.
Lemma pl_S_same : let K nd := pl_K Cartesian None nd in let L nd := pl_L Cartesian None pl_even one_process nd in
  extruded_results (K 1%nat) (K 2%nat) one_process one_process (L 1%nat) (L 2%nat) (pl_S 1) (pl_S 2).
Proof.
  intros K L. apply (extruded_runs (K 1%nat) (K 2%nat) (pl_N 1) (pl_N 2) one_process one_process (pl_X pl_even 1) (pl_X pl_even 2) (L 1%nat) (L 2%nat) pl_wind pl_wind (the_state (K 1%nat) (L 1%nat) pl_wind) (the_state (K 2%nat) (L 2%nat) pl_wind) []).
  - apply pl_extruded. reflexivity.
  - apply pl_mesh.
  - apply pl_flat. lia.
  - apply pl_flat. lia.
  - now left.
  - exact pl_wind_fields.
  - apply pl_runs; [lia|now right].
  - apply pl_runs; [lia|now right].
  - apply the_state_ok.
  - apply the_state_ok.
Qed.
Lemma pl_cold : eos_evol (pg_eos (mkPG (5 / 3) 1)) 1 1 < 1 / 10 * (1 * (10 * 10) / 2).
Proof. cbn [eos_evol pg_eos]. rewrite pg_evol by (first [lra|split; cbn; lra]). cbn. lra. Qed.
