(** * Every valid process grid has a layout; states with given owned cells exist. *)
From Coq Require Import ZifyBool ZifyNat.
From Verif Require Import Base RBase ModelMesh ModelGeom ModelBoundary ModelHydro ModelScheme ModelStep
  SpecMesh SpecGeom SpecBoundary SpecHydro SpecScheme SpecStep
  ProofBase ProofMesh ProofGeom ProofBoundary ProofBoundary2 ProofShift ProofStep.
Local Open Scope R_scope.

Definition the_layout (K : config) (N dims : idx) (X : nat -> arr1) : layout :=
  let dec := decs (k_nd K) N dims (k_ng K) in
  mkLayout (mpi_dims (k_nd K) dims) dec
    (fun r => match set_grid (dec r) X with Ok m => m | _ => fun _ _ => 0 end).

Lemma the_layout_ok K N dims X : (1 <= k_nd K <= 3)%nat -> (0 <= k_ng K)%Z ->
  (forall d, (d < 3)%nat -> (1 <= coord d N)%Z) ->
  (forall d, (d < 3)%nat -> (1 <= coord d (mpi_dims (k_nd K) dims))%Z) ->
  global_coords (k_nd K) N (k_ng K) X ->
  laid_out K N dims X (the_layout K N dims X).
Proof.
  intros H1 H2 H3 H4 H5. pose proof (decs_decomposed _ _ _ _ H1 H2 H3 H4) as HD.
  split; [exact HD|reflexivity|exact H5|].
  intros r Hr. cbn [the_layout l_dec l_mesh].
  destruct (set_grid_ok (k_nd K) N dims (k_ng K) r (decs (k_nd K) N dims (k_ng K) r) X) as (m & E & _); auto.
  - intros e He. specialize (H3 e He). lia.
  - exact (dcp_ok HD Hr).
  - now rewrite E.
Qed.

(** The single-process layout of the same mesh. *)
Lemma serial_layout K N dims X L : laid_out K N dims X L -> exists L1, laid_out K N one_process X L1.
Proof.
  intros HL. pose proof (lo_dec HL) as HD. exists (the_layout K N one_process X).
  apply the_layout_ok; [exact (dcp_nd HD)|exact (dcp_ng HD)|intros d Hd; exact (dcp_n HD Hd)| |exact (lo_coords HL)].
  intros d Hd. rewrite mpi_dims_one. destruct d as [|[|[|d]]]; cbn; lia.
Qed.

Definition the_state (K : config) (L : layout) (G : gfields) : idx -> pstate := fun r =>
  let g c := global_index (k_nd K) (k_ng K) (corner_min (d_range (l_dec L r))) c in
  mkState (fun c => mkCell (g_rho G (g c)) (fun _ => 0) 0 (g_fx G (g c)))
    (fun c => g_u G (g c)) (fun c => g_P G (g c)) (mkRec (fun _ _ _ => mkCons 0 (fun _ => 0) 0) (fun _ _ _ _ => 0))
    (fun _ => mkCell 0 (fun _ => 0) 0 (fun _ => 0)) (fun _ _ => 0).
Lemma the_state_ok K dims L G : starts_from K dims L G (the_state K L G).
Proof. split; intros r Hr c Hc; reflexivity. Qed.
