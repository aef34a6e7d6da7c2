(** * The Godunov update: conservation, gravity, scalars, steady states. *)
From Coq Require Import FunctionalExtensionality.
From Verif Require Import Base RBase ModelMesh ModelGeom ModelBoundary ModelHydro ModelScheme SpecHydro SpecScheme
  ProofBase ProofR ProofHydro ProofHydro2.
Local Open Scope R_scope.

(** ** Index arithmetic *)
Lemma lindex_rindex d c : lindex d (rindex d c) = c.
Proof. destruct c. unfold lindex, rindex. cbn. f_equal; lia. Qed.
Lemma rindex_lindex d c : rindex d (lindex d c) = c.
Proof. destruct c. unfold lindex, rindex. cbn. f_equal; lia. Qed.
Lemma rindex_set d c : (d < 3)%nat -> rindex d c = set_coord d (coord d c + 1)%Z c.
Proof.
  intros H. destruct c. destruct d as [|[|[|d]]]; try lia; unfold rindex, kron; cbn; f_equal; lia.
Qed.
Lemma lindex_set d c : (d < 3)%nat -> lindex d c = set_coord d (coord d c - 1)%Z c.
Proof.
  intros H. destruct c. destruct d as [|[|[|d]]]; try lia; unfold lindex, kron; cbn; f_equal; lia.
Qed.
Lemma coord_rindex_other d d' c : (d < 3)%nat -> (d' < 3)%nat -> d <> d' -> coord d' (rindex d c) = coord d' c.
Proof. intros H H' Hn. rewrite rindex_set by assumption. apply coord_set_other; auto. Qed.
Lemma coord_lindex_other d d' c : (d < 3)%nat -> (d' < 3)%nat -> d <> d' -> coord d' (lindex d c) = coord d' c.
Proof. intros H H' Hn. rewrite lindex_set by assumption. apply coord_set_other; auto. Qed.

Lemma idx_ext3 a b : (forall d, (d < 3)%nat -> coord d a = coord d b) -> a = b.
Proof.
  intros H. destruct a, b. pose proof (H 0%nat ltac:(lia)). pose proof (H 1%nat ltac:(lia)). pose proof (H 2%nat ltac:(lia)).
  cbn in *. congruence.
Qed.

Lemma coord_rindex d k c : (k < 3)%nat -> coord k (rindex d c) = (coord k c + (if Nat.eqb d k then 1 else 0))%Z.
Proof. intros H. destruct k as [|[|[|k]]]; [reflexivity..|lia]. Qed.
Lemma coord_lindex d k c : (k < 3)%nat -> coord k (lindex d c) = (coord k c - (if Nat.eqb d k then 1 else 0))%Z.
Proof. intros H. destruct k as [|[|[|k]]]; [reflexivity..|lia]. Qed.

(** ** Sums over boxes *)
Lemma lsum_box (f : idx -> R) b e :
  lsum f (box_cells b e)
  = lsum (fun k => lsum (fun j => lsum (fun i => f (I3 i j k)) (zrange (ii b) (ii e))) (zrange (jj b) (jj e)))
         (zrange (kk b) (kk e)).
Proof.
  unfold box_cells. rewrite lsum_flat_map. apply lsum_ext. intros k _.
  rewrite lsum_flat_map. apply lsum_ext. intros j _. apply lsum_map.
Qed.

Lemma zrange_one a : zrange a (a + 1) = [a].
Proof. unfold zrange. replace (a + 1 - a)%Z with 1%Z by lia. change (Z.to_nat 1) with 1%nat. cbn [seq map]. f_equal. change (Z.of_nat 0) with 0%Z. apply Z.add_0_r. Qed.

Lemma lsum_zrange_tele (f : Z -> R) a b : (a <= b)%Z ->
  lsum (fun i => f i - f (i + 1)%Z) (zrange a b) = f a - f b.
Proof.
  intros H. rewrite (lsum_ext _ (fun i => (-1) * (f (i + 1)%Z - f i))) by (intros; ring).
  rewrite lsum_scal, (lsum_zrange_telescope f) by assumption. ring.
Qed.

Lemma lsum_one (f : Z -> R) a : lsum f (zrange a (a + 1)) = f a.
Proof. rewrite zrange_one. cbn. ring. Qed.

Lemma box_telescope (f : idx -> R) b e d : (d < 3)%nat -> box_ok b e ->
  lsum (fun c => f c - f (rindex d c)) (box_cells b e) = lsum f (lower_side b e d) - lsum f (upper_side b e d).
Proof.
  intros Hd Hb. unfold lower_side, upper_side. rewrite !lsum_box.
  pose proof (Hb 0%nat ltac:(lia)) as B0. pose proof (Hb 1%nat ltac:(lia)) as B1. pose proof (Hb 2%nat ltac:(lia)) as B2.
  destruct b as [bi bj bk]. destruct e as [ei ej ek]. cbn [ii jj kk coord set_coord] in *.
  destruct d as [|[|[|d]]]; [| | |lia]; cbn [ii jj kk coord set_coord] in *.
  - rewrite <- lsum_minus. apply lsum_ext. intros k _. rewrite <- lsum_minus. apply lsum_ext. intros j _.
    rewrite !lsum_one.
    rewrite (lsum_ext _ (fun i => (fun i => f (I3 i j k)) i - (fun i => f (I3 i j k)) (i + 1)%Z)).
    + now rewrite (lsum_zrange_tele (fun i => f (I3 i j k))).
    + intros i _. unfold rindex, kron. cbn. do 3 f_equal; lia.
  - rewrite <- lsum_minus. apply lsum_ext. intros k _. rewrite !lsum_one.
    rewrite <- lsum_minus.
    rewrite (lsum_swap (fun j i => f (I3 i j k) - f (rindex 1 (I3 i j k)))). apply lsum_ext. intros i _.
    rewrite (lsum_ext _ (fun j => (fun j => f (I3 i j k)) j - (fun j => f (I3 i j k)) (j + 1)%Z)).
    + now rewrite (lsum_zrange_tele (fun j => f (I3 i j k))).
    + intros j _. unfold rindex, kron. cbn. do 3 f_equal; lia.
  - rewrite !lsum_one. rewrite <- lsum_minus.
    rewrite (lsum_swap (fun k j => lsum (fun i => f (I3 i j k) - f (rindex 2 (I3 i j k))) (zrange bi ei))).
    apply lsum_ext. intros j _. rewrite <- lsum_minus.
    rewrite (lsum_swap (fun k i => f (I3 i j k) - f (rindex 2 (I3 i j k)))). apply lsum_ext. intros i _.
    rewrite (lsum_ext _ (fun k => (fun k => f (I3 i j k)) k - (fun k => f (I3 i j k)) (k + 1)%Z)).
    + now rewrite (lsum_zrange_tele (fun k => f (I3 i j k))).
    + intros k _. unfold rindex, kron. cbn. do 3 f_equal; lia.
Qed.

(** ** C21 *)
Section Cons.
Variables (g : geom) (nd : nat) (e : eos) (s : solver) (m : mesh) (grav : gravity) (dt : R).
Variable a : idx -> cell.
Variable r : recon.

Lemma flux_right_face c d : flux_right s nd e r c d = face_flux s nd e r (rindex d c) d.
Proof. unfold flux_right, face_flux. now rewrite lindex_rindex. Qed.
Lemma fx_right_face c d n : fx_right s nd e r c d n = fx_left s nd e r (rindex d c) d n.
Proof. unfold fx_right, fx_left. rewrite flux_right_face. unfold flux_left. now rewrite lindex_rindex. Qed.

Lemma flux_sum_box (phi : idx -> nat -> R) (q qn : idx -> R) b en :
  (nd <= 3)%nat -> box_ok b en ->
  (forall c, in_box b en c -> dv g nd m c <> 0) ->
  (forall c, in_box b en c -> qn c = q c + vsum nd (fun d => flux_diff g nd m dt c d (phi c d) (phi (rindex d c) d))) ->
  total (dv g nd m) qn b en - total (dv g nd m) q b en
  = dt * vsum nd (fun d => lsum (fun c => phi c d * ds g nd m c d) (lower_side b en d)
                           - lsum (fun c => phi c d * ds g nd m c d) (upper_side b en d)).
Proof.
  intros Hnd Hb Hv Hq. unfold total. rewrite <- lsum_minus.
  rewrite (lsum_ext _ (fun c => dt * vsum nd (fun d => phi c d * ds g nd m c d - phi (rindex d c) d * ds g nd m (rindex d c) d))).
  - rewrite lsum_scal. f_equal.
    rewrite (lsum_vsum (fun c d => phi c d * ds g nd m c d - phi (rindex d c) d * ds g nd m (rindex d c) d)).
    apply vsum_ext. intros d Hd.
    rewrite <- (box_telescope (fun c => phi c d * ds g nd m c d)) by (assumption || lia). reflexivity.
  - intros c Hc. apply in_box_cells in Hc. rewrite (Hq c Hc).
    unfold flux_diff. rewrite (vsum_scal nd (dt / dv g nd m c)). field. now apply Hv.
Qed.

Lemma mass_balance b en : (nd <= 3)%nat -> box_ok b en -> (forall c, in_box b en c -> dv g nd m c <> 0) ->
  total (dv g nd m) (god_rho g nd e s m dt a r) b en - total (dv g nd m) (fun c => c_rho (a c)) b en
  = dt * vsum nd (fun d =>
      lsum (fun c => f_rho (face_flux s nd e r c d) * ds g nd m c d) (lower_side b en d)
      - lsum (fun c => f_rho (face_flux s nd e r c d) * ds g nd m c d) (upper_side b en d)).
Proof.
  intros Hnd Hb Hv. apply (flux_sum_box (fun c d => f_rho (face_flux s nd e r c d))); try assumption.
  intros c _. unfold god_rho. f_equal. apply vsum_ext. intros d _. now rewrite flux_right_face.
Qed.

Lemma energy_balance b en : (nd <= 3)%nat -> no_gravity grav -> box_ok b en -> (forall c, in_box b en c -> dv g nd m c <> 0) ->
  total (dv g nd m) (god_E g nd e s m grav dt a r) b en - total (dv g nd m) (fun c => c_E (a c)) b en
  = dt * vsum nd (fun d =>
      lsum (fun c => f_E (face_flux s nd e r c d) * ds g nd m c d) (lower_side b en d)
      - lsum (fun c => f_E (face_flux s nd e r c d) * ds g nd m c d) (upper_side b en d)).
Proof.
  intros Hnd Hg Hb Hv. apply (flux_sum_box (fun c d => f_E (face_flux s nd e r c d))); try assumption.
  intros c _. unfold god_E. f_equal. apply vsum_ext. intros d _. rewrite flux_right_face, Hg. unfold flux_left. ring.
Qed.

Lemma momentum_balance b en k : (nd <= 3)%nat -> g = Cartesian -> no_gravity grav -> box_ok b en -> (forall c, in_box b en c -> dv g nd m c <> 0) ->
  total (dv g nd m) (fun c => god_rhou g nd e s m grav dt a r c k) b en
  - total (dv g nd m) (fun c => c_rhou (a c) k) b en
  = dt * vsum nd (fun d =>
      lsum (fun c => f_m (face_flux s nd e r c d) k * ds g nd m c d) (lower_side b en d)
      - lsum (fun c => f_m (face_flux s nd e r c d) k * ds g nd m c d) (upper_side b en d)).
Proof.
  intros Hnd Hgeo Hg Hb Hv. apply (flux_sum_box (fun c d => f_m (face_flux s nd e r c d) k)); try assumption.
  intros c _. unfold god_rhou. rewrite Hg.
  replace (c_rhou (a c) k + vsum nd (fun d => flux_diff g nd m dt c d (f_m (flux_left s nd e r c d) k) (f_m (flux_right s nd e r c d) k)
      + geo_source g nd m c (dt / dv g nd m c) (to_prim nd e (r_q r c 0%nat d)) (to_prim nd e (r_q r c 1%nat d)) d k) + dt * 0 * c_rho (a c))
    with (c_rhou (a c) k + vsum nd (fun d => flux_diff g nd m dt c d (f_m (flux_left s nd e r c d) k) (f_m (flux_right s nd e r c d) k)
      + geo_source g nd m c (dt / dv g nd m c) (to_prim nd e (r_q r c 0%nat d)) (to_prim nd e (r_q r c 1%nat d)) d k)) by ring.
  f_equal. apply vsum_ext. intros d _. rewrite flux_right_face. unfold flux_left. subst g. cbn [geo_source]. ring.
Qed.

(** Scalar mass rho * fx before the clamp. *)
Lemma scalar_balance b en n : (nd <= 3)%nat -> box_ok b en -> (forall c, in_box b en c -> dv g nd m c <> 0) ->
  total (dv g nd m) (fun c => god_rhofx g nd e s m dt a r c n) b en
  - total (dv g nd m) (fun c => c_fx (a c) n * c_rho (a c)) b en
  = dt * vsum nd (fun d =>
      lsum (fun c => fx_left s nd e r c d n * f_rho (face_flux s nd e r c d) * ds g nd m c d) (lower_side b en d)
      - lsum (fun c => fx_left s nd e r c d n * f_rho (face_flux s nd e r c d) * ds g nd m c d) (upper_side b en d)).
Proof.
  intros Hnd Hb Hv. apply (flux_sum_box (fun c d => fx_left s nd e r c d n * f_rho (face_flux s nd e r c d))); try assumption.
  intros c _. unfold god_rhofx. f_equal. apply vsum_ext. intros d _. now rewrite flux_right_face, fx_right_face.
Qed.

Lemma clamp_bounds x lo hi : lo <= hi -> lo <= clamp x lo hi <= hi.
Proof.
  intros H. unfold clamp. destruct (rltb x lo) eqn:E1; [lra|]. apply rltb_false in E1.
  destruct (rltb hi x) eqn:E2; [lra|]. apply rltb_false in E2. lra.
Qed.
Lemma clamp_id x lo hi : lo <= x <= hi -> clamp x lo hi = x.
Proof.
  intros H. unfold clamp. rewrite (proj2 (rltb_false x lo)) by lra. now rewrite (proj2 (rltb_false hi x)) by lra.
Qed.

(** Without clamping the new scalar times the new density is the transported quantity. *)
Lemma unclamped c n : god_rho g nd e s m dt a r c <> 0 ->
  0 <= god_rhofx g nd e s m dt a r c n / god_rho g nd e s m dt a r c <= 1 ->
  c_fx (god_cell g nd e s m grav dt a r c) n * c_rho (god_cell g nd e s m grav dt a r c)
  = god_rhofx g nd e s m dt a r c n.
Proof. intros H1 H2. cbn. rewrite clamp_id by assumption. field. assumption. Qed.

(** ** C33 *)
Lemma gravity_effect c :
  let with_g := god_cell g nd e s m grav dt a r c in
  let without := god_cell g nd e s m (fun _ _ => 0) dt a r c in
  c_rho with_g = c_rho without /\
  (forall d, c_rhou with_g d = c_rhou without d + dt * (c_rho (a c) * grav c d)) /\
  c_E with_g = c_E without + dt * vsum nd (fun d => c_rhou (a c) d * grav c d) /\
  (forall n, c_fx with_g n = c_fx without n).
Proof.
  cbv zeta. cbn. split; [reflexivity|]. split; [|split; [|reflexivity]].
  - intros d. unfold god_rhou. ring.
  - unfold god_E. rewrite !vsum_plus.
    rewrite (vsum_0 nd (fun d => dt * 0 * c_rhou (a c) d)) by (intros; ring).
    rewrite (vsum_ext nd (fun d => dt * grav c d * c_rhou (a c) d) (fun d => dt * (c_rhou (a c) d * grav c d))) by (intros; ring).
    rewrite vsum_scal. ring.
Qed.

(** ** C25: a uniform scalar stays uniform *)
Lemma uniform_scalar_godunov c n phi :
  0 <= phi <= 1 -> c_fx (a c) n = phi -> god_rho g nd e s m dt a r c <> 0 ->
  (forall d, (d < nd)%nat -> r_fx r c 0%nat d n = phi /\ r_fx r c 1%nat d n = phi /\
     r_fx r (lindex d c) 1%nat d n = phi /\ r_fx r (rindex d c) 0%nat d n = phi) ->
  c_fx (god_cell g nd e s m grav dt a r c) n = phi.
Proof.
  intros Hphi Ha Hr Hf. cbn.
  assert (E : god_rhofx g nd e s m dt a r c n = phi * god_rho g nd e s m dt a r c).
  { unfold god_rhofx, god_rho. rewrite Ha, Rmult_plus_distr_l. f_equal. rewrite <- vsum_scal. apply vsum_ext.
    intros d Hd. destruct (Hf d Hd) as (F1 & F2 & F3 & F4). unfold fx_left, fx_right.
    rewrite F1, F2, F3, F4. unfold flux_diff.
    destruct (rltb _ 0), (rltb _ 0); ring. }
  rewrite E. replace (phi * god_rho g nd e s m dt a r c / god_rho g nd e s m dt a r c) with phi by (field; assumption).
  now apply clamp_id.
Qed.
End Cons.

(** Hancock step on a uniform scalar. *)
Lemma uniform_scalar_hancock g nd e m grav dt fp ffx c side ipos n phi :
  (ipos < nd)%nat -> (side < 2)%nat ->
  (forall sd d, (sd < 2)%nat -> (d < nd)%nat -> ffx sd d n = phi) ->
  q_rho (hancock_cons g nd e m grav dt fp c side ipos) <> 0 ->
  hancock_fx g nd e m grav dt fp ffx c side ipos n = phi.
Proof.
  intros Hi Hs Hf Hr. unfold hancock_fx.
  assert (E : ffx side ipos n * p_rho (fp side ipos)
     + vsum nd (fun idim => flux_diff g nd m dt c idim (ffx 0%nat idim n * f_rho (flux_prim nd e (fp 0%nat idim) idim))
                                                       (ffx 1%nat idim n * f_rho (flux_prim nd e (fp 1%nat idim) idim)))
     = phi * q_rho (hancock_cons g nd e m grav dt fp c side ipos)).
  { rewrite (Hf side ipos Hs Hi). cbn [hancock_cons q_rho to_cons]. rewrite Rmult_plus_distr_l. f_equal.
    rewrite <- vsum_scal. apply vsum_ext. intros d Hd. rewrite !Hf by (lia || assumption). unfold flux_diff. ring. }
  rewrite E. field. assumption.
Qed.

(** ** Steady states, locally *)
Lemma cart_ds_rindex m c d : (d < 3)%nat -> ds Cartesian 1 m (rindex d c) d = ds Cartesian 1 m c d.
Proof.
  intros Hd. cbn. unfold cart_ds. destruct c. destruct d as [|[|[|d]]]; try lia; unfold rindex, kron; cbn; rewrite ?Z.add_0_r; reflexivity.
Qed.
Lemma cart_ds_rindex' nd m c d : (d < 3)%nat -> ds Cartesian nd m (rindex d c) d = ds Cartesian nd m c d.
Proof. exact (cart_ds_rindex m c d). Qed.

Lemma flux_diff_same g nd m dt c d f : ds g nd m (rindex d c) d = ds g nd m c d ->
  flux_diff g nd m dt c d f f = 0.
Proof. intros H. unfold flux_diff. rewrite H. ring. Qed.

(** A uniform state at all faces of a cell of a Cartesian mesh, no gravity: the half step changes nothing. *)
Lemma hancock_uniform nd e m grav dt fp c side ipos p :
  (nd <= 3)%nat -> (forall d, grav c d = 0) -> (ipos < nd)%nat -> (side < 2)%nat ->
  (forall sd d, (sd < 2)%nat -> (d < nd)%nat -> fp sd d = p) ->
  hancock_cons Cartesian nd e m grav dt fp c side ipos = to_cons nd e p.
Proof.
  intros Hnd Hg Hi Hs Hf. unfold hancock_cons. rewrite (Hf side ipos Hs Hi).
  apply cons_ext; cbn [q_rho q_m q_E].
  - rewrite vsum_0; [ring|]. intros d Hd. rewrite !Hf by (lia || assumption).
    apply flux_diff_same, cart_ds_rindex'. lia.
  - intros k. rewrite Hg. rewrite vsum_0; [ring|]. intros d Hd. rewrite !Hf by (lia || assumption).
    rewrite flux_diff_same by (apply cart_ds_rindex'; lia). cbn. ring.
  - rewrite vsum_0; [ring|]. intros d Hd. rewrite !Hf by (lia || assumption).
    rewrite flux_diff_same by (apply cart_ds_rindex'; lia). rewrite Hg. ring.
Qed.

Lemma godunov_uniform nd e s m grav dt a r c :
  lawful_eos e -> (nd <= 3)%nat -> (forall d, grav c d = 0) ->
  let q := cons_of (a c) in
  valid_cons nd q ->
  (forall d, (d < nd)%nat -> r_q r c 0%nat d = q /\ r_q r c 1%nat d = q /\
     r_q r (lindex d c) 1%nat d = q /\ r_q r (rindex d c) 0%nat d = q) ->
  c_rho (god_cell Cartesian nd e s m grav dt a r c) = c_rho (a c) /\
  (forall k, c_rhou (god_cell Cartesian nd e s m grav dt a r c) k = c_rhou (a c) k) /\
  c_E (god_cell Cartesian nd e s m grav dt a r c) = c_E (a c).
Proof.
  intros He Hnd Hg q Hq Hr. cbn.
  assert (FL : forall d, (d < nd)%nat -> flux_left s nd e r c d = euler_flux nd e q d).
  { intros d Hd. destruct (Hr d Hd) as (H1 & H2 & H3 & H4). unfold flux_left, face_flux. rewrite H1, H3.
    now apply riemann_consistent. }
  assert (FR : forall d, (d < nd)%nat -> flux_right s nd e r c d = euler_flux nd e q d).
  { intros d Hd. destruct (Hr d Hd) as (H1 & H2 & H3 & H4). unfold flux_right. rewrite H2, H4.
    now apply riemann_consistent. }
  repeat split.
  - unfold god_rho. rewrite vsum_0; [ring|]. intros d Hd. rewrite FL, FR by assumption.
    apply flux_diff_same, cart_ds_rindex'. lia.
  - intros k. unfold god_rhou. rewrite Hg, vsum_0; [ring|]. intros d Hd. rewrite FL, FR by assumption.
    rewrite flux_diff_same by (apply cart_ds_rindex'; lia). cbn. ring.
  - unfold god_E. rewrite vsum_0; [ring|]. intros d Hd. rewrite FL, FR by assumption.
    rewrite flux_diff_same by (apply cart_ds_rindex'; lia). rewrite Hg. ring.
Qed.

(** Gas at rest with uniform density and pressure, any geometry. *)
Lemma sph_ds_phi nd m c : ds Spherical nd m (rindex 2 c) 2 = ds Spherical nd m c 2.
Proof.
  destruct c. cbn. unfold sph_ds, rindex, kron. cbn. rewrite !Z.add_0_r.
  destruct nd as [|[|[|[|nd]]]]; reflexivity.
Qed.

Lemma rest_balance g nd m dt c d k pL pR : (d < nd)%nat -> (nd <= 3)%nat ->
  p_P pL = p_P pR -> (forall i, p_u pL i = 0) -> (forall i, p_u pR i = 0) ->
  flux_diff g nd m dt c d (if Nat.eqb k d then p_P pL else 0) (if Nat.eqb k d then p_P pL else 0)
  + geo_source g nd m c (dt / dv g nd m c) pL pR d k = 0.
Proof.
  intros Hd Hnd HP HL HR. destruct g.
  - rewrite flux_diff_same by (apply cart_ds_rindex'; lia). cbn. ring.
  - unfold geo_source. rewrite !HL, !HR, <- HP. unfold flux_diff.
    set (X := dt / dv Spherical nd m c). clearbody X.
    assert (GU : forall rL rR A B, source_grad_u_r X rL rR 0 0 A B = 0)
      by (intros; unfold source_grad_u_r, Rdiv; ring).
    assert (GI : forall x y rL rR A B, source_grad_u_idir_r X x y rL rR 0 0 0 0 A B = 0)
      by (intros; unfold source_grad_u_idir_r, Rdiv; ring).
    assert (GT : forall x y rL rR A B, source_grad_u_th X x y rL rR 0 0 A B = 0)
      by (intros; unfold source_grad_u_th, Rdiv; ring).
    assert (GP : forall x y rL rR A B, source_grad_u_phi X x y rL rR 0 0 0 0 A B = 0)
      by (intros; unfold source_grad_u_phi, Rdiv; ring).
    destruct d as [|[|[|d]]]; [| | |lia].
    + destruct k as [|[|[|k]]]; cbn [Nat.eqb]; rewrite ?GU, ?GI; unfold source_grad_pres.
      * destruct (Nat.leb 2 nd), (Nat.eqb nd 3); field.
      * destruct (Nat.leb 2 nd); ring.
      * destruct (Nat.eqb nd 3); ring.
      * ring.
    + destruct k as [|[|[|k]]]; cbn [Nat.eqb]; rewrite ?GT, ?GP; unfold source_grad_pres.
      * ring.
      * destruct (Nat.eqb nd 3); field.
      * destruct (Nat.eqb nd 3); ring.
      * ring.
    + rewrite sph_ds_phi. ring.
Qed.

Lemma hancock_rest g nd e m grav dt fp c side ipos p :
  (nd <= 3)%nat -> (forall d, grav c d = 0) -> (ipos < nd)%nat -> (side < 2)%nat ->
  (forall i, p_u p i = 0) ->
  (forall sd d, (sd < 2)%nat -> (d < nd)%nat -> fp sd d = p) ->
  hancock_cons g nd e m grav dt fp c side ipos = to_cons nd e p.
Proof.
  intros Hnd Hg Hi Hs Hu Hf. unfold hancock_cons. rewrite (Hf side ipos Hs Hi).
  apply cons_ext; cbn [q_rho q_m q_E].
  - rewrite vsum_0; [ring|]. intros d Hd. rewrite !Hf by (lia || assumption). cbn. rewrite Hu. unfold flux_diff. ring.
  - intros k. rewrite Hg. rewrite vsum_0; [ring|]. intros d Hd. rewrite !Hf by (lia || assumption).
    rewrite <- (rest_balance g nd m dt c d k p p Hd Hnd eq_refl Hu Hu). f_equal.
    cbn. rewrite !Hu. f_equal; ring.
  - rewrite vsum_0; [ring|]. intros d Hd. rewrite !Hf by (lia || assumption). cbn. rewrite Hu, Hg. unfold flux_diff. ring.
Qed.

Lemma godunov_rest g nd e s m grav dt a r c :
  lawful_eos e -> (nd <= 3)%nat -> (forall d, grav c d = 0) ->
  let q := cons_of (a c) in
  valid_cons nd q -> (forall k, c_rhou (a c) k = 0) ->
  (forall d, (d < nd)%nat -> r_q r c 0%nat d = q /\ r_q r c 1%nat d = q /\
     r_q r (lindex d c) 1%nat d = q /\ r_q r (rindex d c) 0%nat d = q) ->
  c_rho (god_cell g nd e s m grav dt a r c) = c_rho (a c) /\
  (forall k, c_rhou (god_cell g nd e s m grav dt a r c) k = 0) /\
  c_E (god_cell g nd e s m grav dt a r c) = c_E (a c).
Proof.
  intros He Hnd Hg q Hq Hm Hr. cbn.
  assert (FL : forall d, (d < nd)%nat -> flux_left s nd e r c d = euler_flux nd e q d).
  { intros d Hd. destruct (Hr d Hd) as (H1 & H2 & H3 & H4). unfold flux_left, face_flux. rewrite H1, H3.
    now apply riemann_consistent. }
  assert (FR : forall d, (d < nd)%nat -> flux_right s nd e r c d = euler_flux nd e q d).
  { intros d Hd. destruct (Hr d Hd) as (H1 & H2 & H3 & H4). unfold flux_right. rewrite H2, H4.
    now apply riemann_consistent. }
  assert (Hm' : forall k, q_m q k = 0) by exact Hm.
  repeat split.
  - unfold god_rho. rewrite vsum_0; [ring|]. intros d Hd. rewrite FL, FR by assumption. cbn [euler_flux f_rho].
    rewrite Hm'. unfold flux_diff. ring.
  - intros k. unfold god_rhou. rewrite Hg, Hm, vsum_0; [ring|]. intros d Hd. rewrite FL, FR by assumption.
    destruct (Hr d Hd) as (-> & -> & _).
    assert (Hu : forall i, p_u (to_prim nd e q) i = 0) by (intros i; cbn; rewrite Hm; unfold Rdiv; ring).
    rewrite <- (rest_balance g nd m dt c d k (to_prim nd e q) (to_prim nd e q) Hd Hnd eq_refl Hu Hu). f_equal.
    cbn [euler_flux f_m]. rewrite !Hm'. unfold pressure.
    rewrite <- evol_cons_internal by (destruct Hq; assumption). cbn [p_P to_prim].
    f_equal; unfold Rdiv; ring.
  - unfold god_E. rewrite vsum_0; [ring|]. intros d Hd. rewrite FL, FR by assumption. cbn [euler_flux f_E].
    rewrite Hm', Hg. unfold flux_diff, Rdiv. ring.
Qed.

(** ** The statements about [godunov] *)
Lemma kwrite_in {A : Type} (p : idx -> bool) (f old : idx -> A) c : p c = true -> kwrite p f old c = f c.
Proof. intros H. unfold kwrite. now rewrite H. Qed.

Lemma total_ext vol q q' b e : (forall c, in_box b e c -> q c = q' c) -> total vol q b e = total vol q' b e.
Proof. intros H. apply lsum_ext. intros c Hc. apply in_box_cells in Hc. now rewrite H. Qed.

Section GodunovBalance.
Variables (p : idx -> bool) (g : geom) (nd : nat) (e : eos) (s : solver) (m : mesh) (grav : gravity) (dt : R).
Variables (a old : idx -> cell) (r : recon) (b en : idx).
Hypothesis Hnd : (nd <= 3)%nat.
Hypothesis Hb : box_ok b en.
Hypothesis Hp : forall c, in_box b en c -> p c = true.
Hypothesis Hv : forall c, in_box b en c -> dv g nd m c <> 0.
Let new := godunov p g nd e s m grav dt a r old.
Let F c d := riemann s nd e (r_q r (lindex d c) 1%nat d) (r_q r c 0%nat d) d.

Lemma god_in c : in_box b en c -> new c = god_cell g nd e s m grav dt a r c.
Proof. intros H. unfold new, godunov. apply kwrite_in. auto. Qed.

Lemma god_mass_balance :
  total (dv g nd m) (fun c => c_rho (new c)) b en - total (dv g nd m) (fun c => c_rho (a c)) b en
  = dt * inflow nd (ds g nd m) (fun c d => f_rho (F c d)) b en.
Proof.
  rewrite (total_ext _ _ (god_rho g nd e s m dt a r)) by (intros c Hc; now rewrite god_in).
  now apply mass_balance.
Qed.
Lemma god_energy_balance : no_gravity grav ->
  total (dv g nd m) (fun c => c_E (new c)) b en - total (dv g nd m) (fun c => c_E (a c)) b en
  = dt * inflow nd (ds g nd m) (fun c d => f_E (F c d)) b en.
Proof.
  intros Hg. rewrite (total_ext _ _ (god_E g nd e s m grav dt a r)) by (intros c Hc; now rewrite god_in).
  now apply energy_balance.
Qed.
Lemma god_momentum_balance k : g = Cartesian -> no_gravity grav ->
  total (dv g nd m) (fun c => c_rhou (new c) k) b en - total (dv g nd m) (fun c => c_rhou (a c) k) b en
  = dt * inflow nd (ds g nd m) (fun c d => f_m (F c d) k) b en.
Proof.
  intros Hc Hg. rewrite (total_ext _ _ (fun c => god_rhou g nd e s m grav dt a r c k)) by (intros c Hc'; now rewrite god_in).
  now apply momentum_balance.
Qed.

(** [n] is not clamped at [c]: the transported scalar mass over the new density is a fraction. *)
Lemma god_scalar_balance n :
  (forall c, in_box b en c -> c_rho (new c) <> 0 /\
     0 <= god_rhofx g nd e s m dt a r c n / c_rho (new c) <= 1) ->
  total (dv g nd m) (fun c => c_fx (new c) n * c_rho (new c)) b en
  - total (dv g nd m) (fun c => c_fx (a c) n * c_rho (a c)) b en
  = dt * inflow nd (ds g nd m)
      (fun c d => (if rltb (f_rho (F c d)) 0 then r_fx r c 0%nat d n else r_fx r (lindex d c) 1%nat d n)
                  * f_rho (F c d)) b en.
Proof.
  intros Hcl. rewrite (total_ext _ (fun c => c_fx (new c) n * c_rho (new c)) (fun c => god_rhofx g nd e s m dt a r c n)).
  - exact (scalar_balance g nd e s m dt a r b en n Hnd Hb Hv).
  - intros c Hc. destruct (Hcl c Hc) as [H1 H2]. rewrite (god_in c Hc) in *. now apply unclamped.
Qed.
End GodunovBalance.

(** Gravity in the half step. *)
Lemma hancock_gravity g nd e m grav dt fp c side ipos :
  let with_g := hancock_cons g nd e m grav dt fp c side ipos in
  let without := hancock_cons g nd e m (fun _ _ => 0) dt fp c side ipos in
  let q := to_cons nd e (fp side ipos) in
  q_rho with_g = q_rho without /\
  (forall d, q_m with_g d = q_m without d + dt * (q_rho q * grav c d)) /\
  q_E with_g = q_E without + dt * vsum nd (fun d => q_m q d * grav c d).
Proof.
  cbv zeta. split; [reflexivity|]. split.
  - intros d. cbn [hancock_cons q_m]. ring.
  - cbn [hancock_cons q_E]. rewrite !vsum_plus.
    set (q := to_cons nd e (fp side ipos)).
    rewrite (vsum_0 nd (fun d => dt * 0 * q_m q d)) by (intros; ring).
    rewrite (vsum_ext nd (fun d => dt * grav c d * q_m q d) (fun d => dt * (q_m q d * grav c d))) by (intros; ring).
    rewrite vsum_scal. ring.
Qed.

Lemma godunov_gravity p g nd e s m grav dt a r old c : p c = true ->
  let with_g := godunov p g nd e s m grav dt a r old c in
  let without := godunov p g nd e s m (fun _ _ => 0) dt a r old c in
  c_rho with_g = c_rho without /\
  (forall d, c_rhou with_g d = c_rhou without d + dt * (c_rho (a c) * grav c d)) /\
  c_E with_g = c_E without + dt * vsum nd (fun d => c_rhou (a c) d * grav c d) /\
  (forall n, c_fx with_g n = c_fx without n).
Proof. intros H. unfold godunov. rewrite !kwrite_in by assumption. apply gravity_effect. Qed.

Lemma godunov_writes_only p g nd e s m grav dt a r old c : p c = false ->
  godunov p g nd e s m grav dt a r old c = old c.
Proof. intros H. unfold godunov, kwrite. now rewrite H. Qed.
