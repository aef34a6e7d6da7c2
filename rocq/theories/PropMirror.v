(** * Mirror symmetry and walls to the last bit (C97): theorems only. *)
From Flocq Require Import IEEE754.BinarySingleNaN.
From Verif Require Import Base RBase ModelMesh ModelGeom ModelBoundary ModelHydro ModelScheme ModelStep ModelFloat ModelArith ModelArith64
  SpecHydro SpecScheme SpecArith SpecMirror
  ProofScheme ProofMirror ProofArith64 ProofArithNum ProofArithEx
  ProofMirrorBits ProofMirrorBits2 ProofMirror64 ProofMirrorBits3 ProofMirrorEx.
Local Open Scope R_scope.

(** C97: in every arithmetic whose operations treat opposite numbers alike, one first-order step (no reconstruction,
    HLL or low-Mach fluxes: [tame] excludes HLLC) takes mirror images in direction [d] to mirror images, to the
    last bit except for the sign of zeros. *)
Theorem C97_first_order_step :
  forall A same nonzero finite, sign_symmetric A same nonzero finite ->
  forall nd e, plain_eos same nonzero e -> (nd <= 3)%nat ->
  forall d M s m m' dth dt p1 p1' p2 p2' rho rho' u u' P P' fx fx' grav grav' a a' rold rold' old old',
    (d < nd)%nat -> (forall c, p1 c = true -> mesh_twin A same d M m m' c) -> same dth dth -> same dt dt ->
    (forall c, p1 c = true -> p1' (refl d M c) = true) -> (forall c, p2' (refl d M c) = p2 c) ->
    (forall c c', p2 c = true -> in_stencil nd c c' -> p1 c' = true) ->
    (forall c, twin same false (rho c) (rho' (refl d M c)) /\ twin same false (P c) (P' (refl d M c)) /\
       (forall k, twin same (Nat.eqb k d) (u c k) (u' (refl d M c) k)) /\
       (forall k, twin same (Nat.eqb k d) (grav c k) (grav' (refl d M c) k)) /\
       twin_cell same d (a c) (a' (refl d M c)) /\ twin_cell same d (old c) (old' (refl d M c))) ->
    let r := ahydro_reconstruction A p1 Cartesian nd e LConstant m grav dth rho u P fx rold in
    let r' := ahydro_reconstruction A p1' Cartesian nd e LConstant m' grav' dth rho' u' P' fx' rold' in
    (forall c, p1 c = true -> nonzero (adv A Cartesian nd m c) /\ forall sd k, nonzero (aface_value A LConstant m rho c sd k)) ->
    (forall c k, p2 c = true -> (k < nd)%nat ->
       tame A nonzero finite s nd e (r_q r (lindex k c) 1%nat k) (r_q r c 0%nat k) k /\
       tame A nonzero finite s nd e (r_q r c 1%nat k) (r_q r (rindex k c) 0%nat k) k) ->
    forall c, twin_cell same d (kwrite p2 (agod_cell A Cartesian nd e s m grav dt a r) old c)
                               (kwrite p2' (agod_cell A Cartesian nd e s m' grav' dt a' r') old' (refl d M c)).
Proof. exact first_order_step. Qed.
Print Assumptions C97_first_order_step.

(** Binary64 is such an arithmetic, and the perfect gas computed in it does not distinguish the zeros. *)
Theorem C97_binary64 : forall dsin dcos dexp,
  sign_symmetric (b64 dsin dcos dexp) same64 nonzero64 finite64 /\
  forall gamma mmw, same64 gamma gamma -> same64 mmw mmw -> plain_eos same64 nonzero64 (apg_eos (b64 dsin dcos dexp) gamma mmw).
Proof. exact (fun x y z => conj (b64_sign_symmetric x y z) (pg_plain_eos _ _ _ _ (b64_sign_symmetric x y z))). Qed.
Print Assumptions C97_binary64.

(** Mirror images allow the same time step. *)
Theorem C97_same_time_step :
  forall A same nonzero finite, sign_symmetric A same nonzero finite ->
  forall K L L' S S' r c d M, plain_eos same nonzero (k_eos K) -> k_geom K = Cartesian -> (k_nd K <= 3)%nat -> (d < k_nd K)%nat ->
    mesh_twin A same d M (l_mesh L r) (l_mesh L' r) c -> (forall k, (k < k_nd K)%nat -> nonzero (adx A (l_mesh L r) k (coord k c))) ->
    let c' := refl d M c in
    twin same false (c_rho (s_cell (S r) c)) (c_rho (s_cell (S' r) c')) -> nonzero (c_rho (s_cell (S r) c)) ->
    twin same false (s_P (S r) c) (s_P (S' r) c') -> (forall k, twin same (Nat.eqb k d) (s_u (S r) c k) (s_u (S' r) c' k)) ->
    twin same false (acell_inverse_dt A K L S r c) (acell_inverse_dt A K L' S' r c').
Proof. exact mirrored_time_step. Qed.
Print Assumptions C97_same_time_step.

(** At the plane of symmetry of a flow that is its own mirror image, the fluxes of mass, of momentum along the plane
    and of energy are their own opposites. *)
Theorem C97_plane_of_symmetry :
  forall A same nonzero finite, sign_symmetric A same nonzero finite ->
  forall nd e, plain_eos same nonzero e -> (nd <= 3)%nat ->
  forall d M s m dth p1 rho u P fx grav rold c,
    (d < nd)%nat -> mesh_twin A same d M m m c -> same dth dth -> refl d M c = lindex d c ->
    (forall c, twin same false (rho c) (rho (refl d M c)) /\ twin same false (P c) (P (refl d M c)) /\
       (forall k, twin same (Nat.eqb k d) (u c k) (u (refl d M c) k)) /\
       (forall k, twin same (Nat.eqb k d) (grav c k) (grav (refl d M c) k))) ->
    let r := ahydro_reconstruction A p1 Cartesian nd e LConstant m grav dth rho u P fx rold in
    p1 c = true -> p1 (lindex d c) = true ->
    nonzero (adv A Cartesian nd m c) -> (forall sd k, nonzero (aface_value A LConstant m rho c sd k)) ->
    tame A nonzero finite s nd e (r_q r (lindex d c) 1%nat d) (r_q r c 0%nat d) d ->
    let f := aflux_left A s nd e r c d in
    twin same true (f_rho f) (f_rho f) /\ (forall j, j <> d -> twin same true (f_m f j) (f_m f j)) /\ twin same true (f_E f) (f_E f).
Proof. exact plane_of_symmetry. Qed.
Print Assumptions C97_plane_of_symmetry.

(** In binary64, where only zeros and NaN are their own opposites: nothing goes through a wall, that is, between
    two states that are mirror images, with HLL or low-Mach fluxes. *)
Theorem C97_walls_hold :
  forall dsin dcos dexp s nd gamma mmw q q' d, s <> HLLC -> same64 gamma gamma -> same64 mmw mmw ->
  let e := apg_eos (b64 dsin dcos dexp) gamma mmw in
  twin_cons same64 d q q' -> tame (b64 dsin dcos dexp) nonzero64 finite64 s nd e q q' d ->
  let f := ariemann (b64 dsin dcos dexp) s nd e q q' d in
  ((exists z, f_rho f = enc (B754_zero z)) \/ f_rho f = enc dnan) /\
  (forall j, j <> d -> (exists z, f_m f j = enc (B754_zero z)) \/ f_m f j = enc dnan) /\
  ((exists z, f_E f = enc (B754_zero z)) \/ f_E f = enc dnan).
Proof. exact walls64. Qed.
Print Assumptions C97_walls_hold.

(** HLLC lets mass through a wall: a gas of density 1, momentum 2 and energy 100 loses 2^-51 per unit of surface
    and of time. *)
Theorem C97_walls_leak_refuted :
  exists e q q', twin_cons same64 0 q q' /\
    forall dsin dcos dexp, e dsin dcos dexp = apg_eos (b64 dsin dcos dexp) (a_lit (b64 dsin dcos dexp) 14 1) (a_lit (b64 dsin dcos dexp) 1 0) /\
      f_rho (ariemann (b64 dsin dcos dexp) HLLC 1 (e dsin dcos dexp) q q' 0)
      = enc (binary_normalize 53 1024 prec64 emax64 mode_NE 1 (-51) false).
Proof.
  exact (ex_intro _ gas64 (ex_intro _ (wall_cons (- two_code)) (ex_intro _ (wall_cons two_code)
    (conj wall_twin (fun x y z => conj eq_refl (hllc_leak x y z)))))).
Qed.
Print Assumptions C97_walls_leak_refuted.

(** No limiter of the second-order scheme is symmetric in binary64: exchanging the slopes on the left and on the
    right changes the result. *)
Theorem C97_limiters_refuted : forall dsin dcos dexp l, l <> LConstant -> exists a b, (0 < a)%Z /\ (0 < b)%Z /\
  let A := b64 dsin dcos dexp in aslope A l (a_lit A a 0) (a_lit A b 0) <> aslope A l (a_lit A b 0) (a_lit A a 0).
Proof. exact limiters64. Qed.
Print Assumptions C97_limiters_refuted.

(** The hypotheses of the first theorem hold for a gas that expands from the middle of six unit cells. *)
Example C97_expanding_flow : forall dsin dcos dexp old, let A := b64 dsin dcos dexp in let gas := gas64 dsin dcos dexp in
  sign_symmetric A same64 nonzero64 finite64 /\ plain_eos same64 nonzero64 gas /\
  (forall c, ep 0 5 c = true -> mesh_twin A same64 0 5 em em c) /\ same64 edth edth /\ same64 edt edt /\
  (forall c, ep 0 5 c = true -> ep 0 5 (refl 0 5 c) = true) /\ (forall c, ep 1 4 (refl 0 5 c) = ep 1 4 c) /\
  (forall c c', ep 1 4 c = true -> in_stencil 1 c c' -> ep 0 5 c' = true) /\
  (forall c, twin same64 false (erho c) (erho (refl 0 5 c)) /\ twin same64 false (eP c) (eP (refl 0 5 c)) /\
     (forall k, twin same64 (Nat.eqb k 0) (eu c k) (eu (refl 0 5 c) k)) /\
     (forall k, twin same64 (Nat.eqb k 0) (egrav c k) (egrav (refl 0 5 c) k)) /\
     twin_cell same64 0 (ecell c) (ecell (refl 0 5 c))) /\
  (forall c, ep 0 5 c = true -> nonzero64 (adv A Cartesian 1 em c) /\ forall sd k, nonzero64 (aface_value A LConstant em erho c sd k)) /\
  (forall c, ep 1 4 c = true ->
     tame A nonzero64 finite64 HLL 1 gas (r_q (erec dsin dcos dexp old) (lindex 0 c) 1%nat 0%nat) (r_q (erec dsin dcos dexp old) c 0%nat 0%nat) 0 /\
     tame A nonzero64 finite64 HLL 1 gas (r_q (erec dsin dcos dexp old) c 1%nat 0%nat) (r_q (erec dsin dcos dexp old) (rindex 0 c) 0%nat 0%nat) 0).
Proof. exact expanding_flow. Qed.
(** Opposite momenta, at a wall, with HLL fluxes. *)
Example C97_wall : forall dsin dcos dexp, twin_cons same64 0 (wall_cons (- two_code)) (wall_cons two_code) /\
  tame (b64 dsin dcos dexp) nonzero64 finite64 HLL 1 (gas64 dsin dcos dexp) (wall_cons (- two_code)) (wall_cons two_code) 0.
Proof. exact (fun x y z => conj wall_twin (etame x y z _ _ (or_intror eq_refl) (or_introl eq_refl))). Qed.
