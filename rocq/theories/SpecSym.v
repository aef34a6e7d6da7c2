(** * Symmetric runs (C99). *)
From Verif Require Import Base RBase ModelMesh ModelGeom ModelBoundary ModelHydro ModelScheme ModelStep
  SpecGeom SpecBoundary SpecHydro SpecScheme SpecStep SpecFill.
Local Open Scope R_scope.

(** [K'] is the Cartesian run [K] with axis [tau d] called [d]. *)
Record relabelled_run (tau : nat -> nat) (K K' : config) : Prop := {
  rl_geom : k_geom K = Cartesian; rl_geom' : k_geom K' = Cartesian;
  rl_nd : k_nd K' = k_nd K; rl_ng : k_ng K' = k_ng K; rl_eos : k_eos K' = k_eos K; rl_lim : k_lim K' = k_lim K;
  rl_sol : k_sol K' = k_sol K; rl_pf : k_pf K' = k_pf K; rl_user : k_user K' = k_user K;
  rl_grav : exists g g', k_grav K = GUniform g /\ k_grav K' = GUniform g' /\ forall d, g' d = g (tau d);
  rl_bcs : forall d s, (d < k_nd K)%nat -> (s < 2)%nat -> k_bcs K' (2 * d + s)%nat = k_bcs K (2 * tau d + s)%nat;
  rl_order : complete_order (k_nd K) (k_bcs K) (k_order K);
  rl_order' : complete_order (k_nd K) (k_bcs K') (k_order K') }.

(** The same for meshes and initial fields. *)
Definition relabelled_mesh (tau : nat -> nat) (N N' : idx) (X X' : nat -> arr1) : Prop :=
  (forall d, (d < 3)%nat -> coord d N' = coord (tau d) N) /\
  forall d i, (d < 3)%nat -> a_at (X' d) i = a_at (X (tau d)) i.
Definition relabelled_fields (tau : nat -> nat) (G G' : gfields) : Prop :=
  forall c, g_rho G' (relabel_idx tau c) = g_rho G c /\ (forall d, g_u G' (relabel_idx tau c) d = g_u G c (tau d)) /\
    g_P G' (relabel_idx tau c) = g_P G c /\ forall n, g_fx G' (relabel_idx tau c) n = g_fx G c n.

(** The global number of cell [c] of process [r]. *)
Definition cell_number (K : config) (L : layout) (r c : idx) : idx :=
  global_index (k_nd K) (k_ng K) (corner_min (d_range (l_dec L r))) c.

(** The states of two runs, each on its process grid, correspond: the cell numbered [phi g] of the second one, on
    whatever process and whether owned or not, holds the image under [T], [V] of the cell numbered [g] of the first one. *)
Definition corresponding (phi : idx -> idx) (T : cell -> cell) (V : vec -> vec)
  (K K' : config) (dims dims' : idx) (L L' : layout) (S S' : idx -> pstate) : Prop :=
  forall r c r' c', process (k_nd K) dims r -> in_array (d_nwg (l_dec L r)) c ->
    process (k_nd K') dims' r' -> in_array (d_nwg (l_dec L' r')) c' ->
    cell_number K' L' r' c' = phi (cell_number K L r c) ->
    s_cell (S' r') c' = T (s_cell (S r) c) /\ s_u (S' r') c' = V (s_u (S r) c) /\ s_P (S' r') c' = s_P (S r) c.

(** [K'] is the Cartesian run [K] seen in a mirror across direction [d]. *)
Record mirrored_run (d : nat) (K K' : config) : Prop := {
  mr_geom : k_geom K = Cartesian; mr_geom' : k_geom K' = Cartesian; mr_d : (d < k_nd K)%nat;
  mr_nd : k_nd K' = k_nd K; mr_ng : k_ng K' = k_ng K; mr_eos : k_eos K' = k_eos K; mr_lim : k_lim K' = k_lim K;
  mr_sol : k_sol K' = k_sol K; mr_user : k_user K' = k_user K;
  mr_pf : k_pf K = None; mr_pf' : k_pf K' = None;
  mr_grav : exists g g', k_grav K = GUniform g /\ k_grav K' = GUniform g' /\ forall k, g' k = if Nat.eqb k d then - g k else g k;
  mr_bcs : forall k s, (k < k_nd K)%nat -> (s < 2)%nat ->
    k_bcs K' (2 * k + s)%nat = k_bcs K (2 * k + (if Nat.eqb k d then 1 - s else s))%nat;
  mr_order : complete_order (k_nd K) (k_bcs K) (k_order K);
  mr_order' : complete_order (k_nd K) (k_bcs K') (k_order K') }.
Definition mirror_vec (d : nat) (v : vec) : vec := fun k => if Nat.eqb k d then - v k else v k.
(** Cell number [i] in direction [d] becomes [n - 1 - i]. *)
Definition mirror_idx (d : nat) (N c : idx) : idx := set_coord d (coord d N - 1 - coord d c)%Z c.
Definition mirrored_mesh (nd : nat) (ng : Z) (d : nat) (N : idx) (X X' : nat -> arr1) : Prop :=
  forall k i, (k < 3)%nat ->
    let j := (if Nat.eqb k d then coord d N + 2 * ghosts nd ng d - 1 - i else i)%Z in
    a_at (X' k) (j + 1)%Z - a_at (X' k) j = a_at (X k) (i + 1)%Z - a_at (X k) i.
Definition mirrored_fields (d : nat) (N : idx) (G G' : gfields) : Prop :=
  forall c, g_rho G' (mirror_idx d N c) = g_rho G c /\ (forall k, g_u G' (mirror_idx d N c) k = mirror_vec d (g_u G c) k) /\
    g_P G' (mirror_idx d N c) = g_P G c /\ forall n, g_fx G' (mirror_idx d N c) n = g_fx G c n.

(** At every step of the run all the reconstructed face states have positive density and internal energy. *)
Definition sane_faces (K : config) (dims : idx) (L : layout) (dt : R) (S : idx -> pstate) : Prop :=
  forall r c sd k, process (k_nd K) dims r -> sel K L 1 r c = true -> (sd < 2)%nat -> (k < k_nd K)%nat ->
    valid_cons (k_nd K) (r_q (step_rec K L dt S r) c sd k).
Fixpoint sane_run (K : config) (dims : idx) (L : layout) (cfl : R) (n : nat) (t : R) (S : idx -> pstate) : Prop :=
  match n with
  | O => True
  | Datatypes.S n' =>
      match time_step K L S with
      | None => True
      | Some h => sane_faces K dims L (cfl * h) S /\ sane_run K dims L cfl n' (t + cfl * h) (full_step K L t (cfl * h) S)
      end
  end.

(** The run [K] with the faces taken in the order [o]. *)
Definition with_order (K : config) (o : list nat) : config :=
  mkConfig (k_geom K) (k_nd K) (k_ng K) (k_eos K) (k_lim K) (k_sol K) (k_pf K) (k_user K) (k_grav K) (k_bcs K) o.
