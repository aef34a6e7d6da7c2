(** * C28, C75: every access is inside its view *)
From Verif Require Import Base ModelMesh ModelGeom SpecMesh ModelMem SpecMem ProofMem.
Local Open Scope string_scope.
Local Open Scope Z_scope.
Local Open Scope list_scope.

(** C28.  With two ghost layers or more, no run of any process touches an element outside a view: every geometry,
    dimension, mesh, process grid, setup, gravity, boundary condition, with or without restart, pressure fix, heating
    and moving grid, for any number of iterations and whatever the values make the branches do. *)
Theorem C28_accesses_stay_inside :
  forall (K : mconfig) (far : idx -> bool) (Bs : list branches),
    started K -> provided K -> 2 <= m_ng K ->
    forall why, run_mem K far Bs <> UB why.
Proof. exact run_safe. Qed.

(** Such a run gets to its end unless the program refuses the choice of options or stops by itself. *)
Theorem C28_runs_complete :
  forall (K : mconfig) (far : idx -> bool) (Bs : list branches),
    started K -> provided K -> accepted K -> 2 <= m_ng K -> Forall undisturbed Bs ->
    run_mem K far Bs = Ok tt.
Proof. exact run_completes. Qed.

(** With one ghost layer, the first iteration of every run reads outside the arrays: it is not rejected. *)
Theorem C28_one_ghost_layer_reads_outside_refuted :
  forall (K : mconfig) (far : idx -> bool) (B : branches) (Bs : list branches),
    started K -> provided K -> accepted K -> m_ng K = 1 -> undisturbed B ->
    run_mem K far (B :: Bs) = UB "access outside a view".
Proof. exact run_with_one_ghost. Qed.

(** Without ghost layers, the run is rejected, in the first iteration. *)
Theorem C28_no_ghost_layer_is_rejected :
  forall (K : mconfig) (far : idx -> bool) (B : branches) (Bs : list branches),
    started K -> provided K -> accepted K -> m_ng K = 0 ->
    (m_restart K = true \/ m_setup K <> Sedov1d) -> undisturbed B ->
    run_mem K far (B :: Bs) = Throw "NgEff > Ng".
Proof. exact run_without_ghosts. Qed.

(** A 3d spherical v1d run with moving grid on 2 x 3 x 1 processes, periodic in the third direction. *)
Definition case28 (ng : Z) : mconfig :=
  mkMem Spherical 3 PointMass V1d (I3 8 7 4) ng 5 (I3 2 3 1) (I3 1 2 0) false true true
        (fun f => match f with 0%nat => CReflexive | 1%nat => CNullGradient | 2%nat | 3%nat => CReflexive | _ => CPeriodic end)
        [5; 0; 1; 2; 3; 4]%nat (Some 3).
Definition step28 : branches :=
  mkBranches None (fun c d => Z.even (ii c)) (fun c d => Z.odd (jj c)) (fun c => Z.even (kk c)) (fun _ _ _ => true)
             (fun _ _ _ => false) true false true.

Example C28_not_vacuous : forall ng, started (case28 ng) /\ provided (case28 ng) /\ accepted (case28 ng).
Proof.
  intros ng. split; [|split].
  - split; [unfold ndim_ok; cbn; lia|]. split; [|split].
    + intros d Hd. destruct d as [|[|[|d]]]; cbn; lia.
    + intros d Hd. destruct d as [|[|[|d]]]; cbn; lia.
    + cbn. repeat constructor; lia.
  - split; [|split]; cbn; intros; try discriminate; lia.
  - split; [|split; [|split]]; cbn; intros; try discriminate; auto.
    + destruct f as [|[|[|[|f]]]]; discriminate.
    + inversion H. subst s. split; [reflexivity|]. vm_compute. discriminate.
Qed.
Example C28_runs : run_mem (case28 2) (fun _ => true) [step28; step28; step28] = Ok tt.
Proof. vm_compute. reflexivity. Qed.
Example C28_one_layer : run_mem (case28 1) (fun _ => true) [step28] = UB "access outside a view".
Proof. vm_compute. reflexivity. Qed.
(** The program can be refused in the middle. *)
Example C28_refused : run_mem (case28 0) (fun _ => true) [step28] = Throw "NgEff > Ng".
Proof. vm_compute. reflexivity. Qed.

Print Assumptions C28_accesses_stay_inside.
Print Assumptions C28_runs_complete.
Print Assumptions C28_one_ghost_layer_reads_outside_refuted.
Print Assumptions C28_no_ghost_layer_is_rejected.

(** C75.  When the components and scalars exist, setups and the heating step touch nothing else: this is the part of
    [C28_runs_complete] about [provided], restated for a run without an iteration. *)
Theorem C75_setups_write_what_exists :
  forall (K : mconfig) (far : idx -> bool),
    started K -> provided K -> accepted K -> 2 <= m_ng K ->
    run_mem K far [] = Ok tt.
Proof. intros K far S P A H. exact (run_completes K far [] S P A H (Forall_nil _)). Qed.

(** The default number of scalars is 0: a setup that writes the first scalar then writes outside the array, on every
    process that owns a cell; nothing rejects the run. *)
Theorem C75_missing_scalar_is_written_refuted :
  forall (K : mconfig) (far : idx -> bool) (Bs : list branches),
    m_restart K = false -> started K -> accepted K -> owns_cells K -> 0 <= m_ng K ->
    needs_scalar (m_setup K) = true -> m_nfx K = 0%nat -> m_nickel K = false ->
    run_mem K far Bs = UB "access outside a view".
Proof. exact missing_scalar. Qed.

(** The same for the second velocity component in one dimension. *)
Theorem C75_missing_component_is_written_refuted :
  forall (K : mconfig) (far : idx -> bool) (Bs : list branches),
    m_restart K = false -> started K -> accepted K -> owns_cells K -> 0 <= m_ng K ->
    needs_second_component (m_setup K) = true -> m_nd K = 1%nat -> (m_nickel K = true -> (1 <= m_nfx K)%nat) ->
    far (nghost_of (m_nd K) (m_ng K)) = false ->
    run_mem K far Bs = UB "access outside a view".
Proof. exact missing_component. Qed.

(** The same for the heating step, with any setup. *)
Theorem C75_heating_without_scalar_refuted :
  forall (K : mconfig) (far : idx -> bool) (B : branches) (Bs : list branches),
    started K -> accepted K -> owns_cells K -> 2 <= m_ng K ->
    (m_restart K = false -> needs_second_component (m_setup K) = true -> (2 <= m_nd K)%nat) ->
    (m_restart K = false -> needs_scalar (m_setup K) = false) ->
    m_nickel K = true -> m_nfx K = 0%nat -> undisturbed B ->
    run_mem K far (B :: Bs) = UB "access outside a view".
Proof. exact missing_nickel. Qed.

Definition case75 (nd : nat) (s : setup) (nickel : bool) : mconfig :=
  mkMem Cartesian nd Uniform s (I3 4 (if Nat.leb 2 nd then 4 else 1) 1) 2 0 (I3 1 1 1) (I3 0 0 0) false false nickel
        (fun _ => CNullGradient) [0; 1]%nat None.
Example C75_not_vacuous : forall nd s nickel, In nd [1; 2]%nat -> s <> Sedov3d ->
  started (case75 nd s nickel) /\ accepted (case75 nd s nickel) /\ owns_cells (case75 nd s nickel).
Proof.
  intros nd s nickel Hd Hs. destruct Hd as [<-|[<-|[]]]; (split; [|split]).
  1, 4: split; [unfold ndim_ok; cbn; lia|]; split; [|split];
        [intros d H; destruct d as [|[|[|d]]]; cbn; lia|intros d H; destruct d as [|[|[|d]]]; cbn; lia|cbn; repeat constructor; lia].
  1, 3: split; [|split; [|split]]; cbn; intros; try discriminate; destruct s; try reflexivity; congruence.
  all: intros d H; destruct d as [|[|[|d]]]; vm_compute; try discriminate; lia.
Qed.
Example C75_cases :
  run_mem (case75 2 RayleighTaylor false) (fun _ => false) [] = UB "access outside a view"
  /\ run_mem (case75 1 KelvinHelmholtz false) (fun _ => false) [] = UB "access outside a view"
  /\ run_mem (case75 1 ShockTube true) (fun _ => false) [step28] = UB "access outside a view"
  /\ run_mem (case75 2 KelvinHelmholtz false) (fun _ => false) [step28] = Ok tt.
Proof. vm_compute. repeat split. Qed.

Print Assumptions C75_setups_write_what_exists.
Print Assumptions C75_missing_scalar_is_written_refuted.
Print Assumptions C75_missing_component_is_written_refuted.
Print Assumptions C75_heating_without_scalar_refuted.
