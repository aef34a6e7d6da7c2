(** * C108: what the unit tests check for one value holds for all values. *)
From Coq Require Import Permutation.
From Verif Require Import Base RBase ModelMesh ModelGeom ModelHydro ModelBoundary ModelUtil ModelStep ModelSmall ProofR ProofSmall ProofSmall2
  ProofSmallEx.
Import ListNotations.
Local Open Scope Z_scope.

(** tests/thermodynamics.cpp: a state is valid exactly when density and pressure are finite and positive. *)
Theorem C108_valid_states rho P :
  is_valid rho P = true <-> exists a b, rho = XR a /\ P = XR b /\ (0 < a)%R /\ (0 < b)%R.
Proof. exact (is_valid_spec rho P). Qed.
Print Assumptions C108_valid_states.

Example C108_valid_states_example :
  is_valid (XR 1) (XR 2) = true /\ is_valid (XR 1) (XR 0) = false /\ is_valid XNaN (XR 1) = false /\ is_valid (XR 1) (XInf false) = false.
Proof. exact valid_examples. Qed.

(** tests/print_info.cpp: name, dots, value, end of line; nothing is cut; names and values of at most 40 characters
    make lines of the same length; and a line gives back its name and value. *)
Theorem C108_parameter_lines name value :
  (exists n, print_info name value
             = (name ++ String.concat "" (repeat "."%string n) ++ value ++ String (Ascii.ascii_of_nat 10) "")%string) /\
  String.length (print_info name value) = (Nat.max 40 (String.length name) + Nat.max 40 (String.length value) + 1)%nat /\
  forall name' value', (String.length name <= 40)%nat -> (String.length name' <= 40)%nat ->
    (forall p, name <> (p ++ ".")%string /\ name' <> (p ++ ".")%string /\ value <> ("." ++ p)%string /\ value' <> ("." ++ p)%string) ->
    print_info name value = print_info name' value' -> name = name' /\ value = value'.
Proof. exact (parameter_lines name value). Qed.
Print Assumptions C108_parameter_lines.

Example C108_parameter_lines_example :
  print_info "Parameter" "Value"
  = ("Parameter..................................................................Value" ++ String (Ascii.ascii_of_nat 10) "")%string.
Proof. reflexivity. Qed.

(** tests/kokkos_shortcut.cpp: sizes compare equal exactly when they are in every direction asked for; both forms
    agree, and which array comes first does not matter. *)
Theorem C108_equal_sizes dirs v0 vs :
  (equal_extents dirs v0 vs = true <-> forall i v, In i dirs -> In v vs -> nth i v 1 = nth i v0 1) /\
  equal_extents_array dirs (v0 :: vs) = equal_extents dirs v0 vs /\
  forall ws, Permutation (v0 :: vs) ws -> equal_extents_array dirs ws = equal_extents_array dirs (v0 :: vs).
Proof. exact (equal_sizes dirs v0 vs). Qed.
Print Assumptions C108_equal_sizes.

Example C108_equal_sizes_example :
  let v0 := [2; 3; 4; 5] in let v1 := [2; 0; 4] in
  equal_extent 0 v0 [v1] = true /\ equal_extent 1 v0 [v1] = false /\ equal_extent 2 v0 [v1] = true /\
  equal_extents [0; 2]%nat v0 [v1] = true /\ equal_extents [1]%nat v0 [v1] = false.
Proof. repeat split. Qed.

(** tests/partitioner.cpp: cutting a range into blocks of any positive sizes, every cell of the range is visited in
    exactly one block, at one place, and nothing else is. *)
Theorem C108_blocks_visit_once nd ng (N B : idx) fuel :
  0 <= ng -> (forall d, (d < 3)%nat -> 0 <= coord d N /\ 1 <= coord d B /\ coord d N <= Z.of_nat fuel) ->
  exists l0 l1 l2 r r0,
    blocks fuel (ii N) (ii B) = Some l0 /\ blocks fuel (jj N) (jj B) = Some l1 /\ blocks fuel (kk N) (kk B) = Some l2 /\
    make_range nd (I3 0 0 0) N ng = Ok r /\ no_ghosts r = Ok r0 /\
    (forall b0 b1 b2, In b0 l0 -> In b1 l1 -> In b2 l2 -> exists q q0,
       make_range_of nd b0 b1 b2 ng = Ok q /\ no_ghosts q = Ok q0 /\
       forall c, In c (cells_of nd q0) -> In (I3 (fst b0 + ii c) (fst b1 + jj c) (fst b2 + kk c)) (cells_of nd r0)) /\
    (forall e, In e (cells_of nd r0) ->
       exists b0 b1 b2 q q0 c, In b0 l0 /\ In b1 l1 /\ In b2 l2 /\
         make_range_of nd b0 b1 b2 ng = Ok q /\ no_ghosts q = Ok q0 /\ In c (cells_of nd q0) /\
         e = I3 (fst b0 + ii c) (fst b1 + jj c) (fst b2 + kk c) /\
         forall b0' b1' b2' q' q0' c', In b0' l0 -> In b1' l1 -> In b2' l2 ->
           make_range_of nd b0' b1' b2' ng = Ok q' -> no_ghosts q' = Ok q0' -> In c' (cells_of nd q0') ->
           e = I3 (fst b0' + ii c') (fst b1' + jj c') (fst b2' + kk c') -> b0' = b0 /\ b1' = b1 /\ b2' = b2 /\ c' = c).
Proof. exact (blocks_cover nd ng N B fuel). Qed.
Print Assumptions C108_blocks_visit_once.

(** The sizes must be positive: otherwise the iteration never reaches the end. *)
Theorem C108_empty_blocks size block : 0 < size -> block <= 0 -> forall fuel, blocks fuel size block = None.
Proof. exact (blocks_never size block). Qed.
Print Assumptions C108_empty_blocks.

Example C108_blocks_example :
  blocks 9 9 3 = Some [(0, 3); (3, 6); (6, 9)] /\ blocks 7 7 3 = Some [(0, 3); (3, 6); (6, 7)] /\ blocks 3 3 3 = Some [(0, 3)].
Proof. repeat split. Qed.

(** tests/gravity.cpp: in a gas of uniform density, at any dimension and on any process grid, the field is that of
    the central mass and a uniform ball from which the centre has been taken out. *)
Theorem C108_uniform_ball K L A M r rho c :
  k_grav K = GInternalMass M -> (1 <= k_nd K)%nat -> k_ng K <= ii c ->
  1 <= jj (l_dims L) /\ 1 <= kk (l_dims L) ->
  let g d := if Nat.ltb d (k_nd K) then k_ng K else 0 in
  (forall r', ii r' = ii r -> 0 <= jj r' < jj (l_dims L) -> 0 <= kk r' < kk (l_dims L) ->
     (1 <= jj (d_nloc (l_dec L r')) /\ 1 <= kk (d_nloc (l_dec L r'))) /\
     forall c', k_ng K <= ii c' <= ii c -> g 1%nat <= jj c' < g 1%nat + jj (d_nloc (l_dec L r')) ->
       g 2%nat <= kk c' < g 2%nat + kk (d_nloc (l_dec L r')) ->
       (0 < dv (k_geom K) (k_nd K) (l_mesh L r') c')%R /\ c_rho (A r' c') = rho) ->
  let x := mxc (l_mesh L r) 0 (ii c) in
  (gravity_values K L A r c 0%nat
   = - Ggrav * (M + 4 / 3 * PI * rho * (x * x * x - l_mesh L r 0%nat (k_ng K) ^ 3)) / (x * x))%R.
Proof. exact (uniform_sphere K L A M r rho c). Qed.
Print Assumptions C108_uniform_ball.

(** The mesh, masses and density of the test; the innermost and every other owned cell. *)
Example C108_uniform_ball_example c : 2 <= ii c < 17 ->
  let x := mxc test_mesh 0 (ii c) in
  (gravity_values test_K test_L test_world (I3 0 0 0) c 0%nat
   = - Ggrav * (2 * 10 ^ 30 + 4 / 3 * PI * 10 ^ 10 * (x * x * x - 1000 ^ 3)) / (x * x))%R.
Proof. exact (test_field c). Qed.

(** tests/dual_view.cpp: after a write access the other side needs a transfer and this one does not; after a transfer
    or a read the side asked for does not, and a transfer that was needed leaves both sides alike. *)
Theorem C108_dual_view_states (V : Type) (d : dual V) s m :
  (forall t, 0 <= flag d t < 2 ^ 32 - 1) ->
  (has_write m = true ->
     need_synchronization (access d s m) s = false /\ need_synchronization (access d s m) (other s) = true) /\
  need_synchronization (access d s ReadOnly) s = false /\
  (need_synchronization d s = false -> access d s ReadOnly = d) /\
  need_synchronization (synchronize d s) s = false /\
  (need_synchronization d s = true -> need_synchronization (synchronize d s) (other s) = false /\
     forall t i, mem (synchronize d s) t i = mem d (other s) i) /\
  need_synchronization (clear_synchronization_state d) s = false.
Proof. exact (dual_states V d s m). Qed.
Print Assumptions C108_dual_view_states.

Example C108_dual_view_example :
  let d0 := new_dual (fun _ => 0) in
  let d1 := access d0 Dev ReadWrite in let d2 := synchronize d1 Host in let d3 := access d2 Dev ReadOnly in
  let d4 := access d3 Dev ReadWrite in
  map (fun d => (need_synchronization d Dev, need_synchronization d Host)) [d1; d2; d3; d4]
  = [(false, true); (false, false); (false, false); (false, true)].
Proof. reflexivity. Qed.

(** tests/range.cpp, CellBounds and FaceBounds. *)
Example C108_range_example :
  exists r, make_range 3 (I3 2 3 4) (I3 4 5 6) 3 = Ok r /\
    map (fun g => (nc_min 3 r g 0, nc_max 3 r g 1, nf_min 3 r g 2, nf_max 3 r g 0)) [0; 1; 2]
    = [(3, 5, 3, 6); (2, 6, 2, 7); (1, 7, 1, 8)].
Proof. eexists. split; reflexivity. Qed.
