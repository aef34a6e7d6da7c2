(** * Mirror images to the last bit: a step, walls, counterexamples (C97). *)
From Coq Require Import FunctionalExtensionality.
From Flocq Require Import IEEE754.BinarySingleNaN.
From Verif Require Import Base RBase ModelMesh ModelGeom ModelBoundary ModelHydro ModelScheme ModelStep ModelFloat ModelArith ModelArith64
  SpecHydro SpecScheme SpecArith SpecMirror
  ProofBase ProofR ProofHydro ProofHydro2 ProofScheme ProofAxes ProofMirror ProofArith64 ProofArithNum ProofMirrorBits ProofMirrorBits2 ProofMirror64.
Local Open Scope R_scope.

(** A step with the cell averages as face values. *)
Lemma first_order_step :
  forall A same nonzero finite, sign_symmetric A same nonzero finite ->
  forall nd e, plain_eos same nonzero e -> (nd <= 3)%nat ->
  forall d M s m m' dth dt p1 p1' p2 p2' rho rho' u u' P P' fx fx' grav grav' a a' rold rold' old old',
    (d < nd)%nat -> (forall c, p1 c = true -> mesh_twin A same d M m m' c) -> same dth dth -> same dt dt ->
    (forall c, p1 c = true -> p1' (refl d M c) = true) -> (forall c, p2' (refl d M c) = p2 c) ->
    (forall c c', p2 c = true -> in_stencil nd c c' -> p1 c' = true) ->
    (forall c, twin same false (rho c) (rho' (refl d M c)) /\ twin same false (P c) (P' (refl d M c)) /\
       (forall k, twin same (Nat.eqb k d) (u c k) (u' (refl d M c) k)) /\
       (forall k, twin same (Nat.eqb k d) (grav c k) (grav' (refl d M c) k)) /\
       twin_cell same d (a c) (a' (refl d M c)) /\ twin_cell same d (old c) (old' (refl d M c))) ->
    let r := ahydro_reconstruction A p1 Cartesian nd e LConstant m grav dth rho u P fx rold in
    let r' := ahydro_reconstruction A p1' Cartesian nd e LConstant m' grav' dth rho' u' P' fx' rold' in
    (forall c, p1 c = true -> nonzero (adv A Cartesian nd m c) /\ forall sd k, nonzero (aface_value A LConstant m rho c sd k)) ->
    (forall c k, p2 c = true -> (k < nd)%nat ->
       tame A nonzero finite s nd e (r_q r (lindex k c) 1%nat k) (r_q r c 0%nat k) k /\
       tame A nonzero finite s nd e (r_q r c 1%nat k) (r_q r (rindex k c) 0%nat k) k) ->
    forall c, twin_cell same d (kwrite p2 (agod_cell A Cartesian nd e s m grav dt a r) old c)
                               (kwrite p2' (agod_cell A Cartesian nd e s m' grav' dt a' r') old' (refl d M c)).
Proof.
  intros A same nonzero finite HA nd e He Hnd d M s m m' dth dt p1 p1' p2 p2' rho rho' u u' P P' fx fx' grav grav' a a' rold rold' old old'
    Hd Hm Hdth Hdt Hp1 Hp2 Hst HF r r' HN HT c.
  unfold kwrite. rewrite Hp2. destruct (p2 c) eqn:E; [|apply HF].
  assert (Hd3 : (d < 3)%nat) by lia.
  apply (twin_godunov A same nonzero finite HA nd e d M m m' c He Hd3 (Hm c (Hst c c E (or_introl eq_refl)))); try assumption.
  - exact (proj1 (HN c (Hst c c E (or_introl eq_refl)))).
  - apply HF.
  - apply HF.
  - intros c0 sd sd' k Hk Hc0. pose proof (Hst c c0 E Hc0) as E0. destruct (HN c0 E0) as [N1 N2].
    unfold r, r', ahydro_reconstruction. cbn [r_q]. unfold kwrite. rewrite E0, (Hp1 c0 E0).
    apply (twin_hancock A same nonzero finite HA nd e d M m m' c0 He Hd3 (Hm c0 E0)); try assumption.
    + apply HF.
    + intros sd0 sd1 k0. unfold aface_prim, twin_prim. cbn [p_rho p_u p_P].
      split; [|split; [intros k1|]]; apply (twin_face A same nonzero finite HA d M m m' c0 Hd3 (Hm c0 E0)); apply HF.
  - intros k Hk. now apply HT.
Qed.

(** The plane of symmetry between the cells [lindex d c] and [c] of a flow that is its own mirror image. *)
Lemma plane_of_symmetry :
  forall A same nonzero finite, sign_symmetric A same nonzero finite ->
  forall nd e, plain_eos same nonzero e -> (nd <= 3)%nat ->
  forall d M s m dth p1 rho u P fx grav rold c,
    (d < nd)%nat -> mesh_twin A same d M m m c -> same dth dth -> refl d M c = lindex d c ->
    (forall c, twin same false (rho c) (rho (refl d M c)) /\ twin same false (P c) (P (refl d M c)) /\
       (forall k, twin same (Nat.eqb k d) (u c k) (u (refl d M c) k)) /\
       (forall k, twin same (Nat.eqb k d) (grav c k) (grav (refl d M c) k))) ->
    let r := ahydro_reconstruction A p1 Cartesian nd e LConstant m grav dth rho u P fx rold in
    p1 c = true -> p1 (lindex d c) = true ->
    nonzero (adv A Cartesian nd m c) -> (forall sd k, nonzero (aface_value A LConstant m rho c sd k)) ->
    tame A nonzero finite s nd e (r_q r (lindex d c) 1%nat d) (r_q r c 0%nat d) d ->
    let f := aflux_left A s nd e r c d in
    twin same true (f_rho f) (f_rho f) /\ (forall j, j <> d -> twin same true (f_m f j) (f_m f j)) /\ twin same true (f_E f) (f_E f).
Proof.
  intros A same nonzero finite HA nd e He Hnd d M s m dth p1 rho u P fx grav rold c Hd Hm Hdth Hc HF r E E' N1 N2 HT f.
  assert (Hd3 : (d < 3)%nat) by lia.
  assert (T : twin_cons same d (r_q r c 0%nat d) (r_q r (lindex d c) 1%nat d)).
  { unfold r, ahydro_reconstruction. cbn [r_q]. unfold kwrite. rewrite E, E', <- Hc.
    apply (twin_hancock A same nonzero finite HA nd e d M m m c He Hd3 Hm); try assumption.
    - apply HF.
    - intros sd0 sd1 k0. unfold aface_prim, twin_prim. cbn [p_rho p_u p_P].
      split; [|split; [intros k1|]]; apply (twin_face A same nonzero finite HA d M m m c Hd3 Hm); apply HF. }
  assert (T' : twin_cons same d (r_q r (lindex d c) 1%nat d) (r_q r c 0%nat d)).
  { destruct T as (H1 & H2 & H3). split; [|split; [intros k|]]; apply (twin_sym _ _ _ _ HA); auto. }
  pose proof (riemann_across A same nonzero finite HA nd e d He s _ _ _ _ T' T HT) as (F1 & F2 & F3). rewrite Nat.eqb_refl in *.
  split; [exact F1|split; [|exact F3]]. intros j Hj. pose proof (F2 j) as F. apply Nat.eqb_neq in Hj. now rewrite Hj in F.
Qed.

(** Mirror images allow the same time step. *)
Lemma mirrored_time_step :
  forall A same nonzero finite, sign_symmetric A same nonzero finite ->
  forall K L L' S S' r c d M, plain_eos same nonzero (k_eos K) -> k_geom K = Cartesian -> (k_nd K <= 3)%nat -> (d < k_nd K)%nat ->
    mesh_twin A same d M (l_mesh L r) (l_mesh L' r) c -> (forall k, (k < k_nd K)%nat -> nonzero (adx A (l_mesh L r) k (coord k c))) ->
    let c' := refl d M c in
    twin same false (c_rho (s_cell (S r) c)) (c_rho (s_cell (S' r) c')) -> nonzero (c_rho (s_cell (S r) c)) ->
    twin same false (s_P (S r) c) (s_P (S' r) c') -> (forall k, twin same (Nat.eqb k d) (s_u (S r) c k) (s_u (S' r) c' k)) ->
    twin same false (acell_inverse_dt A K L S r c) (acell_inverse_dt A K L' S' r c').
Proof.
  intros A same nonzero finite HA K L L' S S' r c d M He Hg Hnd Hd Hm HN c' Hr Nr HP Hu.
  unfold acell_inverse_dt. cbv zeta. apply (twin_asum _ _ _ _ HA). intros k Hk. rewrite Hg. cbn [adx_geom].
  apply (twin_div _ _ _ _ HA); [|apply (twin_dx A same d M _ _ c); [lia|assumption|lia]|now apply HN].
  apply (twin_add _ _ _ _ HA); [exact (twin_abs _ _ _ _ HA _ _ _ (Hu k))|]. now apply (twin_sound _ _ _ _ HA).
Qed.

(** A number equal to its opposite. *)
Lemma self_twin64 x : twin same64 true x x -> (exists s, x = enc (B754_zero s)) \/ x = enc dnan.
Proof.
  intros (a & b & -> & E & H). cbn [sgb] in E. rewrite <- enc_opp in E. apply enc_inj in E. subst b.
  destruct H as [H|(s & s' & -> & _)]; [right|left; eauto].
  destruct a as [[]|[]| |[] m ex Hb]; try discriminate. reflexivity.
Qed.

Ltac codes := repeat match goal with |- context [code (dlit ?m ?k)] => norm_z (code (dlit m k)) end.

Section B64.
Variables dsin dcos dexp : double -> double.
Notation A := (b64 dsin dcos dexp).

Lemma walls64 s nd gamma mmw q q' d : s <> HLLC -> same64 gamma gamma -> same64 mmw mmw ->
  let e := apg_eos A gamma mmw in
  twin_cons same64 d q q' -> tame A nonzero64 finite64 s nd e q q' d ->
  let f := ariemann A s nd e q q' d in
  ((exists z, f_rho f = enc (B754_zero z)) \/ f_rho f = enc dnan) /\
  (forall j, j <> d -> (exists z, f_m f j = enc (B754_zero z)) \/ f_m f j = enc dnan) /\
  ((exists z, f_E f = enc (B754_zero z)) \/ f_E f = enc dnan).
Proof.
  intros Hs Hg Hw e Hq Ht f. pose proof (b64_sign_symmetric dsin dcos dexp) as HA.
  assert (Hq' : twin_cons same64 d q' q).
  { destruct Hq as (H1 & H2 & H3). split; [|split; [intros k|]]; apply (twin_sym _ _ _ _ HA); auto. }
  pose proof (riemann_across A same64 nonzero64 finite64 HA nd e d (pg_plain_eos _ _ _ _ HA gamma mmw Hg Hw) s q q q' q' Hq Hq' Ht) as (F1 & F2 & F3).
  rewrite Nat.eqb_refl in F1, F3. split; [now apply self_twin64|split; [|now apply self_twin64]].
  intros j Hj. pose proof (F2 j) as T. apply Nat.eqb_neq in Hj. rewrite Nat.eqb_refl, Hj in T. now apply self_twin64.
Qed.

(** ** HLLC leaks *)
Definition gas64 : eos := apg_eos A (IZR (code (dlit 14 1))) (IZR (code (dlit 1 0))).
Definition along0 (z : Z) (k : nat) : Z := match k with O => z | _ => 1 end.
Definition wall_cons (z : Z) : cons := mkCons (IZR (code (dlit 1 0))) (fun k => IZR (along0 z k)) (IZR (code (dlit 100 0))).
Definition two_code : Z := Eval vm_compute in code (dlit 2 0).
Definition leak_code : Z := Eval vm_compute in code (decode (code (BinarySingleNaN.binary_normalize 53 1024 prec64 emax64 mode_NE 1 (-51) false))).
Definition wall_prim (z : Z) : prim := mkPrim (IZR (code (dlit 1 0))) (fun k => IZR (along0 z k)) (IZR 22597261490294195206).
Lemma wall_P z : (z = two_code \/ z = - two_code)%Z -> ato_prim A 1 gas64 (wall_cons z) = wall_prim z.
Proof.
  intros Hz. unfold ato_prim, wall_cons, wall_prim. cbn [q_rho q_m q_E]. f_equal.
  { apply functional_extensionality. intros [|k]; cbn [along0]; [destruct Hz as [->| ->]; unfold two_code; cbn [Z.opp]|]; codes; num; reflexivity. }
  unfold aevol_cons, aek_cons, gas64, apg_eos, asum, loop, apg_temp_from_evol, apg_pres_from_temp, akb, amp. cbn [eos_pres q_rho q_m q_E].
  destruct Hz as [->| ->]; unfold two_code; cbn [Z.opp along0]; codes; num; reflexivity.
Qed.
Definition wallL : prim := wall_prim (- two_code).
Definition wallR : prim := wall_prim two_code.
Lemma wall_waves : awave_L A gas64 wallL wallR 0 = IZR (-21693610079688893444) /\ awave_R A gas64 wallL wallR 0 = IZR 21693610079688893444.
Proof.
  unfold awave_L, awave_R, wallL, wallR, wall_prim, gas64, apg_eos. cbn [eos_sound p_rho p_u p_P]. unfold two_code; cbn [Z.opp along0]; codes; num.
  split; reflexivity.
Qed.
Lemma wall_fluxes : f_rho (aflux_prim A 1 gas64 wallR 0) = IZR two_code /\ f_rho (aflux_prim A 1 gas64 wallL 0) = IZR (- two_code).
Proof.
  unfold aflux_prim, wallL, wallR, wall_prim. cbn [f_rho p_rho p_u p_P]. unfold two_code; cbn [Z.opp along0]; codes; num. split; reflexivity.
Qed.
Lemma hllc_leak : f_rho (ahllc A 1 gas64 (wall_cons (- two_code)) (wall_cons two_code) 0) = IZR leak_code.
Proof.
  unfold ahllc. rewrite (wall_P two_code), (wall_P (- two_code)) by auto. fold wallL wallR. destruct wall_waves as [W1 W2]. rewrite W1, W2.
  destruct wall_fluxes as [F1 F2]. cbv zeta.
  set (gL := aflux_prim A 1 gas64 wallL 0) in *. set (gR := aflux_prim A 1 gas64 wallR 0) in *.
  unfold aflux_hllc, wallL, wallR, wall_prim, wall_cons. cbn [p_rho p_u p_P q_rho q_m q_E].
  unfold two_code in *; cbn [Z.opp along0] in *; codes; num. cbn [f_rho p_rho p_u p_P q_rho q_m q_E]. rewrite ?F1, ?F2. num. reflexivity.
Qed.

Lemma same_code z : code (decode z) = z -> same64 (IZR z) (IZR z).
Proof. intros E. exists (decode z), (decode z). unfold enc. rewrite E. split; [reflexivity|]. split; [reflexivity|apply zeq_refl]. Qed.
Lemma nonzero_code z : z <> 1%Z -> z <> (-1)%Z -> nonzero64 (IZR z).
Proof. intros H1 H2 [] E; apply eq_IZR in E; contradiction. Qed.
Lemma wall_twin : twin_cons same64 0 (wall_cons (- two_code)) (wall_cons two_code).
Proof.
  unfold twin_cons, wall_cons, twin. cbn [q_rho q_m q_E sgb].
  split; [apply same_code; vm_compute; reflexivity|]. split; [|apply same_code; vm_compute; reflexivity].
  intros [|k]; cbn [Nat.eqb sgb along0].
  - rewrite <- opp_IZR, Z.opp_involutive. apply same_code. vm_compute. reflexivity.
  - apply same_code. reflexivity.
Qed.

(** ** The limiters *)
Lemma limiters64 : forall l, l <> LConstant -> exists a b, (0 < a)%Z /\ (0 < b)%Z /\
  aslope A l (a_lit A a 0) (a_lit A b 0) <> aslope A l (a_lit A b 0) (a_lit A a 0).
Proof.
  intros [| | |] Hl; [contradiction| | |].
  - exists 2%Z, 3%Z. split; [lia|]. split; [lia|]. unfold aslope. cbv zeta. num. apply IZR_neq. discriminate.
  - exists 2%Z, 5%Z. split; [lia|]. split; [lia|]. unfold aslope. cbv zeta. num. apply IZR_neq. discriminate.
  - exists 3%Z, 5%Z. split; [lia|]. split; [lia|]. unfold aslope. cbv zeta. num. apply IZR_neq. discriminate.
Qed.
End B64.
