(** * C98: ghost cells hold the continuation of the fields, whatever the order of the faces. *)
From Verif Require Import Base RBase ModelMesh ModelGeom ModelBoundary ModelHydro ModelScheme ModelStep
  SpecMesh SpecGeom SpecBoundary SpecHydro SpecScheme SpecStep SpecFill SpecSym
  ProofBase ProofBoundary ProofStepEx ProofLayout ProofFill ProofFill2 ProofSymEx.
Local Open Scope R_scope.

(** After the boundary update every cell of every process's array, edges and corners included, holds the global
    field continued in all directions at once: wrapped, extended or reflected according to the condition at each
    end, with the momentum turned in the directions where the cell lies behind a wall.  The ghost cells' old values
    are arbitrary. *)
Theorem C98_closed_form :
  forall nd N dims ng dec bcs order G W, decomposed nd N dims ng dec -> thick nd dims ng dec -> complete_order nd bcs order ->
  holds_owned nd dims ng dec G W ->
  forall r, process nd dims r -> forall c, in_array (d_nwg (dec r)) c ->
    boundary_update nd (mpi_dims nd dims) (fun r => d_nwg (dec r)) ng bcs order W r c
    = continuation nd N bcs G (global_index nd ng (corner_min (d_range (dec r))) c).
Proof. exact boundary_filled. Qed.
Print Assumptions C98_closed_form.

(** Hence the order in which the faces are treated does not matter. *)
Theorem C98_order_does_not_matter :
  forall nd N dims ng dec bcs order order' G W W', decomposed nd N dims ng dec -> thick nd dims ng dec ->
  complete_order nd bcs order -> complete_order nd bcs order' ->
  holds_owned nd dims ng dec G W -> holds_owned nd dims ng dec G W' ->
  forall r c, process nd dims r -> in_array (d_nwg (dec r)) c ->
    boundary_update nd (mpi_dims nd dims) (fun r => d_nwg (dec r)) ng bcs order W r c
    = boundary_update nd (mpi_dims nd dims) (fun r => d_nwg (dec r)) ng bcs order' W' r c.
Proof. exact order_free. Qed.
Print Assumptions C98_order_does_not_matter.

(** Nor does it in whole runs: same times, same values in all cells of the same number, on any two process grids. *)
Theorem C98_runs_do_not_depend_on_the_order :
  forall K o N dims dims' X L L' G S S' cfl n t,
  complete_order (k_nd K) (k_bcs K) (k_order K) -> complete_order (k_nd K) (k_bcs K) o ->
  runs_on K N dims X L -> runs_on (with_order K o) N dims' X L' ->
  starts_from K dims L G S -> starts_from (with_order K o) dims' L' G S' ->
  let e := run_cfl K L cfl n t (init_state K L S) in let e' := run_cfl (with_order K o) L' cfl n t (init_state (with_order K o) L' S') in
  fst e' = fst e /\ corresponding (fun g => g) (fun x => x) (fun v => v) K (with_order K o) dims dims' L L' (snd e) (snd e').
Proof. exact reordered_runs. Qed.
Print Assumptions C98_runs_do_not_depend_on_the_order.

(** Periodic in x, a wall at the bottom, outflow at the top, 7 x 5 cells on 3 x 2 processes: a cell behind the
    corner; the same between two walls. *)
Example C98_example :
  runs_on (ex_K ex_bcs Cartesian) ex_N ex_dims ex_X (ex_L ex_bcs Cartesian) /\
  complete_order 2 ex_bcs [2; 3; 0; 1]%nat /\ complete_order 2 ex_bcs [3; 2; 3]%nat /\
  forall G, c_rho (continuation 2 ex_N ex_bcs G (I3 (-1) (-2) 0)) = c_rho (G (I3 6 1 0)) /\
    c_rhou (continuation 2 ex_N ex_bcs G (I3 (-1) (-2) 0)) 0%nat = c_rhou (G (I3 6 1 0)) 0%nat /\
    c_rhou (continuation 2 ex_N ex_bcs G (I3 (-1) (-2) 0)) 1%nat = - c_rhou (G (I3 6 1 0)) 1%nat /\
    c_rhou (continuation 2 ex_N ex_bcs G (I3 8 6 0)) 1%nat = c_rhou (G (I3 1 4 0)) 1%nat /\
    c_rhou (continuation 2 ex_N (fun _ => Reflexive) G (I3 8 (-1) 0)) 0%nat = - c_rhou (G (I3 5 0 0)) 0%nat.
Proof.
  split; [apply ex_runs|]. split; [apply all_faces|]. split.
  - split; [intros f Hf; cbn in Hf; lia|]. intros f Hf Hb. destruct f as [|[|[|[|f]]]]; cbn in *; auto; try congruence; lia.
  - intros G. repeat split.
Qed.
