(** * Change of units by powers of two: cell-local physics. *)
From Coq Require Import FunctionalExtensionality Lia.
From Verif Require Import Base RBase ModelMesh ModelGeom ModelBoundary ModelHydro ModelScheme ModelStep ModelArith SpecStep SpecBits.
Local Open Scope R_scope.
Ltac fext x := apply functional_extensionality; intros x.

Section B.
Variables (A : arith) (sc : Z -> R -> R).
Hypothesis HA : exponent_shift A sc.

(** Rules that pull shifts out of operations. *)
Lemma s_comp j k x : sc j (sc k x) = sc (j + k)%Z x. Proof. apply HA. Qed.
Lemma s_id k x : k = 0%Z -> sc k x = x. Proof. intros ->. apply HA. Qed.
Lemma s_opp k x : (- sc k x)%R = sc k (- x)%R. Proof. apply HA. Qed.
Lemma s_add j k x y : j = k -> a_add A (sc j x) (sc k y) = sc k (a_add A x y). Proof. intros ->. apply HA. Qed.
Lemma s_sub j k x y : j = k -> a_sub A (sc j x) (sc k y) = sc k (a_sub A x y). Proof. intros ->. apply HA. Qed.
Lemma s_fmin j k x y : j = k -> a_fmin A (sc j x) (sc k y) = sc k (a_fmin A x y). Proof. intros ->. apply HA. Qed.
Lemma s_fmax j k x y : j = k -> a_fmax A (sc j x) (sc k y) = sc k (a_fmax A x y). Proof. intros ->. apply HA. Qed.
Lemma s_lt j k x y : j = k -> a_lt A (sc j x) (sc k y) = a_lt A x y. Proof. intros ->. apply HA. Qed.
Lemma s_mull k x y : a_mul A (sc k x) y = sc k (a_mul A x y).
Proof. rewrite <- (s_id 0 y) at 1 by reflexivity. rewrite (es_mul _ _ HA). f_equal. lia. Qed.
Lemma s_mulr k x y : a_mul A x (sc k y) = sc k (a_mul A x y).
Proof. rewrite <- (s_id 0 x) at 1 by reflexivity. now rewrite (es_mul _ _ HA). Qed.
Lemma s_divl k x y : a_div A (sc k x) y = sc k (a_div A x y).
Proof. rewrite <- (s_id 0 y) at 1 by reflexivity. rewrite (es_div _ _ HA). f_equal. lia. Qed.
Lemma s_divr k x y : a_div A x (sc k y) = sc (- k) (a_div A x y).
Proof. rewrite <- (s_id 0 x) at 1 by reflexivity. now rewrite (es_div _ _ HA). Qed.
Lemma s_abs k x : a_abs A (sc k x) = sc k (a_abs A x). Proof. apply HA. Qed.
Notation zero := (a_lit A 0 0).
Lemma s_none k : sc k zero = zero. Proof. apply HA. Qed.
Lemma s_fmin0 k x : a_fmin A (sc k x) zero = sc k (a_fmin A x zero). Proof. rewrite <- (s_none k) at 1. now apply s_fmin. Qed.
Lemma s_fmax0 k x : a_fmax A (sc k x) zero = sc k (a_fmax A x zero). Proof. rewrite <- (s_none k) at 1. now apply s_fmax. Qed.
Lemma s_lt0 k x : a_lt A zero (sc k x) = a_lt A zero x. Proof. rewrite <- (s_none k) at 1. now apply s_lt. Qed.
Lemma s_lt_0 k x : a_lt A (sc k x) zero = a_lt A x zero. Proof. rewrite <- (s_none k) at 1. now apply s_lt. Qed.
Lemma s_if (b : bool) j k x y : j = k -> (if b then sc j x else sc k y) = sc k (if b then x else y).
Proof. intros ->. now destruct b. Qed.

Lemma s_loop k n f f' x : (forall i y, (i < n)%nat -> f' i (sc k y) = sc k (f i y)) -> loop n f' (sc k x) = sc k (loop n f x).
Proof. intros H. induction n as [|n IH]; [reflexivity|]. cbn [loop]. rewrite IH by (intros; apply H; lia). apply H. lia. Qed.
Lemma s_loop0 k n f f' : (forall i y, (i < n)%nat -> f' i (sc k y) = sc k (f i y)) -> loop n f' zero = sc k (loop n f zero).
Proof. intros H. rewrite <- (s_none k) at 1. now apply s_loop. Qed.
Lemma s_loop_same k n f f' x : sc k x = x -> (forall i y, (i < n)%nat -> f' i y = f i y) -> loop n f' x = loop n f x.
Proof. intros _ H. induction n as [|n IH]; [reflexivity|]. cbn [loop]. rewrite IH by (intros; apply H; lia). apply H. lia. Qed.
Lemma s_sum k n f f' : (forall i, (i < n)%nat -> f' i = sc k (f i)) -> asum A n f' = sc k (asum A n f).
Proof. intros H. unfold asum. apply s_loop0. intros i y Hi. rewrite (H i Hi). now apply s_add. Qed.

(** Linear arithmetic on exponents. *)
Ltac zl := unfold w_T, w_M, w_E, w_A in *; lia.
Ltac drop := repeat match goal with |- context [sc ?k ?x] => rewrite (s_id k x) by zl end.
Ltac pair := match goal with
  | |- context [a_add A (sc ?j ?x) (sc ?k ?y)] => rewrite (s_add j k x y) by zl
  | |- context [a_sub A (sc ?j ?x) (sc ?k ?y)] => rewrite (s_sub j k x y) by zl
  | |- context [a_fmin A (sc ?j ?x) (sc ?k ?y)] => rewrite (s_fmin j k x y) by zl
  | |- context [a_fmax A (sc ?j ?x) (sc ?k ?y)] => rewrite (s_fmax j k x y) by zl
  | |- context [a_lt A (sc ?j ?x) (sc ?k ?y)] => rewrite (s_lt j k x y) by zl
  | |- context [if ?b then sc ?j ?x else sc ?k ?y] => rewrite (s_if b j k x y) by zl
  end.
Ltac push := repeat (first [rewrite s_comp | rewrite s_opp | rewrite s_mull | rewrite s_mulr | rewrite s_divl | rewrite s_divr | rewrite s_abs
  | rewrite s_none | rewrite s_fmin0 | rewrite s_fmax0 | rewrite s_lt0 | rewrite s_lt_0 | pair]).
Ltac fin := try reflexivity; try (f_equal; zl).

Lemma slope_by l k dR dL : aslope A l (sc k dR) (sc k dL) = sc k (aslope A l dR dL).
Proof.
  destruct l; unfold aslope; push; [reflexivity| | |]; (destruct (a_lt A zero (a_mul A dL dR)); [|now rewrite s_none]); cbv zeta; push; drop; push; fin.
Qed.

Variable w : powers.
Definition mesh_by (m : mesh) : mesh := fun d i => sc (w_X w d) (m d i).
Lemma s_zmul k x : a_mul A zero x = sc k (a_mul A zero x). Proof. rewrite <- s_mull. now rewrite s_none. Qed.
Lemma s_sqrt k j x : k = (2 * j)%Z -> a_sqrt A (sc k x) = sc j (a_sqrt A x). Proof. intros ->. apply HA. Qed.
Lemma dx_by m d i : adx A (mesh_by m) d i = sc (w_X w d) (adx A m d i).
Proof. unfold adx, mesh_by. now push. Qed.
Lemma xc_by m d i : axc A (mesh_by m) d i = sc (w_X w d) (axc A m d i).
Proof. unfold axc, mesh_by. now push. Qed.

Lemma width_by m c d : acell_width A (mesh_by m) c d = sc (w_X w d) (acell_width A m c d).
Proof.
  unfold acell_width, kron. rewrite !dx_by.
  assert (F : forall j k x, sc j (a_mul A zero x) = sc k (a_mul A zero x)) by (intros; now rewrite <- !s_zmul).
  destruct d as [|[|[|d]]]; cbn [Nat.eqb]; rewrite !s_mulr.
  - rewrite (F (w_X w 1) (w_X w 0)), (F (w_X w 2) (w_X w 0)). now push.
  - rewrite (F (w_X w 0) (w_X w 1)), (F (w_X w 2) (w_X w 1)). now push.
  - rewrite (F (w_X w 0) (w_X w 2)), (F (w_X w 1) (w_X w 2)). now push.
  - set (k := w_X w (Datatypes.S (Datatypes.S (Datatypes.S d)))). rewrite (F (w_X w 0) k), (F (w_X w 1) k), (F (w_X w 2) k). now push.
Qed.

Lemma face_by k l m v v' c sd d : (forall c, v' c = sc k (v c)) ->
  aface_value A l (mesh_by m) v' c sd d = sc k (aface_value A l m v c sd d).
Proof.
  intros Hv. unfold aface_value. cbv zeta. rewrite !Hv, !width_by. push.
  rewrite slope_by. destruct sd; push; fin;
  match goal with |- ?r => idtac r end.
Qed.

Variables (g : geom) (nd : nat).
Hypothesis Hg : power_system g nd w.
Hypothesis Hnd : (nd <= 3)%nat.
Definition w_S (d : nat) : Z :=
  match g with
  | Cartesian => (match d with O => 0 | _ => w_X w 0 end + match d with 1%nat => 0 | _ => w_X w 1 end + match d with 2%nat => 0 | _ => w_X w 2 end)%Z
  | Spherical => (2 * w_L w)%Z
  end.
Definition w_Vol : Z := match g with Cartesian => (w_X w 0 + w_X w 1 + w_X w 2)%Z | Spherical => (3 * w_L w)%Z end.
Lemma vol_surf d : (d < nd)%nat -> w_Vol = (w_S d + w_L w)%Z.
Proof.
  intros Hd. unfold w_Vol, w_S. unfold power_system in Hg. destruct g; [|lia].
  specialize (Hg d Hd). destruct d as [|[|[|d]]]; lia.
Qed.
Lemma dv_by m c : adv A g nd (mesh_by m) c = sc w_Vol (adv A g nd m c).
Proof.
  unfold adv, w_Vol. unfold power_system in Hg. destruct g.
  - unfold acart_dv. rewrite !dx_by. push. fin.
  - destruct Hg as (H0 & H1 & H2). unfold asph_dv. cbv zeta. unfold asph_dcos, mesh_by.
    destruct nd as [|[|[|[|n]]]]; [now rewrite s_none| | | |now rewrite s_none];
      unfold adx, mesh_by; rewrite ?H0, ?H1, ?H2; repeat (rewrite (s_id 0) by reflexivity); push; fin.
Qed.
Lemma ds_by m c d : (d < nd)%nat -> ads A g nd (mesh_by m) c d = sc (w_S d) (ads A g nd m c d).
Proof.
  intros Hd. unfold ads, w_S. unfold power_system in Hg. destruct g.
  - unfold acart_ds. cbv zeta. rewrite !dx_by. destruct d as [|[|[|d]]]; [| | |lia]; cbn [Nat.eqb]; push; fin.
  - destruct Hg as (H0 & H1 & H2). unfold asph_ds. cbv zeta. unfold asph_dcos, mesh_by.
    destruct nd as [|[|[|[|n]]]]; try lia; destruct d as [|[|[|d]]]; try lia;
      unfold adx, mesh_by; rewrite ?H0, ?H1, ?H2; repeat (rewrite (s_id 0) by reflexivity); push; fin.
Qed.

(** ** Euler equations and Riemann solvers *)
Variable e : eos.
Hypothesis He : shifted_gas sc w e.
Definition prim_by (p : prim) : prim :=
  mkPrim (sc (w_D w) (p_rho p)) (fun d => sc (w_V w) (p_u p d)) (sc (w_E w) (p_P p)).
Definition flux_by (f : flux) : flux :=
  mkFlux (sc (w_M w) (f_rho f)) (fun d => sc (w_E w) (f_m f d)) (sc (w_E w + w_V w) (f_E f)).
Notation cons_by := (cons_by sc w).
Lemma evol_by rho x : eos_evol e (sc (w_D w) rho) (sc (w_E w) x) = sc (w_E w) (eos_evol e rho x). Proof. apply He. Qed.
Lemma pres_by rho x : eos_pres e (sc (w_D w) rho) (sc (w_E w) x) = sc (w_E w) (eos_pres e rho x). Proof. apply He. Qed.
Lemma sound_by rho x : eos_sound e (sc (w_D w) rho) (sc (w_E w) x) = sc (w_V w) (eos_sound e rho x). Proof. apply He. Qed.

Lemma ek_cons_by q : aek_cons A nd (cons_by q) = sc (w_E w) (aek_cons A nd q).
Proof.
  unfold aek_cons. cbn [q_rho q_m SpecBits.cons_by].
  rewrite (s_sum (w_M w + w_M w) nd (fun d => a_mul A (q_m q d) (q_m q d))) by (intros; push; fin). push. fin.
Qed.
Lemma ek_prim_by p : aek_prim A nd (prim_by p) = sc (w_E w) (aek_prim A nd p).
Proof.
  unfold aek_prim. cbn [p_rho p_u prim_by].
  rewrite (s_sum (w_V w + w_V w) nd (fun d => a_mul A (p_u p d) (p_u p d))) by (intros; push; fin). push. fin.
Qed.
Lemma to_prim_by q : ato_prim A nd e (cons_by q) = prim_by (ato_prim A nd e q).
Proof.
  unfold ato_prim, prim_by, aevol_cons. rewrite ek_cons_by. cbn [q_rho q_m q_E p_rho p_u p_P SpecBits.cons_by]. push.
  rewrite pres_by. f_equal. fext d. push. fin.
Qed.
Lemma to_cons_by p : ato_cons A nd e (prim_by p) = cons_by (ato_cons A nd e p).
Proof.
  unfold ato_cons, SpecBits.cons_by. rewrite ek_prim_by. cbn [q_rho q_m q_E p_rho p_u p_P prim_by]. rewrite evol_by. push.
  f_equal. fext d. push. fin.
Qed.
Lemma flux_prim_by p d : aflux_prim A nd e (prim_by p) d = flux_by (aflux_prim A nd e p d).
Proof.
  unfold aflux_prim, flux_by. cbv zeta. rewrite ek_prim_by. cbn [f_rho f_m f_E p_rho p_u p_P prim_by]. rewrite evol_by.
  f_equal; [push; fin| |push; fin]. fext n. destruct (n =? d)%nat; push; fin.
Qed.
Lemma wave_L_by p q d : awave_L A e (prim_by p) (prim_by q) d = sc (w_V w) (awave_L A e p q d).
Proof. unfold awave_L. cbn [p_rho p_u p_P prim_by]. rewrite !sound_by. push. fin. Qed.
Lemma wave_R_by p q d : awave_R A e (prim_by p) (prim_by q) d = sc (w_V w) (awave_R A e p q d).
Proof. unfold awave_R. cbn [p_rho p_u p_P prim_by]. rewrite !sound_by. push. fin. Qed.
Lemma flux_hll_by k a b x y l r :
  aflux_hll A (sc k a) (sc k b) (sc (k + w_V w) x) (sc (k + w_V w) y) (sc (w_V w) l) (sc (w_V w) r) =
  sc (k + w_V w) (aflux_hll A a b x y l r).
Proof. unfold aflux_hll. push. fin. Qed.
Lemma hll_by a b d : ahll A nd e (cons_by a) (cons_by b) d = flux_by (ahll A nd e a b d).
Proof.
  unfold ahll. cbv zeta. rewrite !to_prim_by, !wave_L_by, !wave_R_by, !flux_prim_by.
  unfold flux_by, SpecBits.cons_by. cbn [f_rho f_m f_E q_rho q_m q_E].
  rewrite !s_fmin0, !s_fmax0. f_equal.
  - apply (flux_hll_by (w_D w)).
  - fext n. apply (flux_hll_by (w_M w)).
  - apply (flux_hll_by (w_E w)).
Qed.
Lemma if_prim (b : bool) p q : (if b then prim_by p else prim_by q) = prim_by (if b then p else q). Proof. now destruct b. Qed.
Lemma if_cons (b : bool) p q : (if b then cons_by p else cons_by q) = cons_by (if b then p else q). Proof. now destruct b. Qed.
Lemma if_flux (b : bool) p q : (if b then flux_by p else flux_by q) = flux_by (if b then p else q). Proof. now destruct b. Qed.
Definition h_us (pL pR : prim) (sL sR : R) (d : nat) : R :=
  a_div A (a_sub A (a_add A (a_sub A (p_P pR) (p_P pL)) (a_mul A (a_mul A (p_rho pL) (a_sub A sL (p_u pL d))) (p_u pL d)))
                   (a_mul A (a_mul A (p_rho pR) (a_sub A sR (p_u pR d))) (p_u pR d)))
          (a_sub A (a_mul A (p_rho pL) (a_sub A sL (p_u pL d))) (a_mul A (p_rho pR) (a_sub A sR (p_u pR d)))).
Lemma h_us_by pL pR sL sR d : h_us (prim_by pL) (prim_by pR) (sc (w_V w) sL) (sc (w_V w) sR) d = sc (w_V w) (h_us pL pR sL sR d).
Proof. unfold h_us. cbn [p_rho p_u p_P prim_by]. push. fin. Qed.
Lemma hllc_by a b d : ahllc A nd e (cons_by a) (cons_by b) d = flux_by (ahllc A nd e a b d).
Proof.
  unfold ahllc. cbv zeta. rewrite !to_prim_by, !wave_L_by, !wave_R_by, !flux_prim_by.
  set (pL := ato_prim A nd e a). set (pR := ato_prim A nd e b). set (sL := awave_L A e pL pR d). set (sR := awave_R A e pL pR d).
  set (fL := aflux_prim A nd e pL d). set (fR := aflux_prim A nd e pR d).
  pose proof (h_us_by pL pR sL sR d) as HU. unfold h_us in HU.
  rewrite !HU. match type of HU with _ = sc _ ?u => set (us := u) in * end. clear HU. clearbody us.
  rewrite s_lt0, s_mull, s_mulr, !s_lt0.
  destruct (a_lt A zero (a_mul A sL sR)); destruct (a_lt A zero us); try reflexivity;
    unfold aflux_hllc, flux_by, SpecBits.cons_by; cbn [f_rho f_m f_E q_rho q_m q_E p_rho p_u p_P prim_by];
    (f_equal; [push; drop; push; fin| |push; drop; push; fin]); fext n; destruct (n =? d)%nat; push; drop; push; fin.
Qed.
Lemma split_by a b d : asplitting A nd e (cons_by a) (cons_by b) d = flux_by (asplitting A nd e a b d).
Proof.
  unfold asplitting. cbv zeta. rewrite !to_prim_by.
  set (pL := ato_prim A nd e a). set (pR := ato_prim A nd e b).
  cbn [p_rho p_u p_P prim_by]. rewrite !sound_by.
  set (cL := eos_sound e _ _). set (cR := eos_sound e _ _).
  rewrite !s_mull, !s_mulr, !s_comp, (s_fmax (w_D w + w_V w) (w_D w + w_V w)) by reflexivity.
  rewrite !s_mulr. set (ac := a_mul A (a_lit A 11 1) _). rewrite !s_divr.
  match goal with |- context [a_lt A zero ?u] =>
    match u with context [sc] => assert (HU : u = sc (w_V w) (a_sub A (a_div A (a_add A (p_u pL d) (p_u pR d)) (a_lit A 2 0))
       (a_mul A (a_div A (a_lit A 1 0) (a_mul A (a_lit A 2 0) ac)) (a_sub A (p_P pR) (p_P pL))))) by (push; fin) end end.
  rewrite !HU. match type of HU with _ = sc _ ?u => set (us := u) in * end. clear HU. clearbody us.
  rewrite s_lt0. destruct (a_lt A zero us); unfold flux_by, SpecBits.cons_by; cbn [f_rho f_m f_E q_rho q_m q_E];
    (f_equal; [push; fin| |push; drop; push; fin]); fext n; destruct (n =? d)%nat; push; drop; push; fin.
Qed.
Lemma riemann_by s a b d : ariemann A s nd e (cons_by a) (cons_by b) d = flux_by (ariemann A s nd e a b d).
Proof. destruct s; [apply hll_by|apply hllc_by|apply split_by]. Qed.

(** ** Scheme *)
Notation mb := mesh_by.
Lemma flux_diff_by k m dt c d fl fr : (d < nd)%nat ->
  aflux_diff A g nd (mb m) (sc (w_T w) dt) c d (sc (k + w_V w) fl) (sc (k + w_V w) fr) = sc k (aflux_diff A g nd m dt c d fl fr).
Proof. intros Hd. unfold aflux_diff. rewrite dv_by, !ds_by by exact Hd. pose proof (vol_surf d Hd). push. fin. Qed.
Lemma geo_by m c dt p q d n x : (d < nd)%nat ->
  ageo A g nd (mb m) c (a_div A (sc (w_T w) dt) (adv A g nd (mb m) c)) (prim_by p) (prim_by q) d n (sc (w_M w) x) =
  sc (w_M w) (ageo A g nd m c (a_div A dt (adv A g nd m c)) p q d n x).
Proof.
  intros Hd. unfold ageo. rewrite dv_by, !ds_by by exact Hd. pose proof (vol_surf d Hd) as HV. unfold power_system in Hg.
  destruct g eqn:Eg; [reflexivity|]. cbv zeta. destruct Hg as (H0 & H1 & H2).
  unfold mesh_by at 1 2 3 4 5 6 7 8. rewrite ?H0, ?H1.
  rewrite !(s_id 0) by reflexivity.
  cbn [p_rho p_u p_P prim_by].
  unfold asource_grad_pres, asource_grad_u_r, asource_grad_u_idir_r, asource_grad_u_th, asource_grad_u_phi. cbv zeta.
  destruct d as [|[|[|d]]]; destruct n as [|[|[|n]]]; try reflexivity;
    destruct (Nat.eqb nd 2); destruct (Nat.eqb nd 3); cbn [orb]; try reflexivity; push; drop; push; fin.
Qed.
Lemma face_prim_by l m rho u P c sd d :
  aface_prim A l (mb m) (fun c => sc (w_D w) (rho c)) (fun c n => sc (w_V w) (u c n)) (fun c => sc (w_E w) (P c)) c sd d =
  prim_by (aface_prim A l m rho u P c sd d).
Proof.
  unfold aface_prim, prim_by. cbn [p_rho p_u p_P]. f_equal.
  - now apply face_by.
  - fext n. now apply (face_by (w_V w)).
  - now apply face_by.
Qed.
Lemma face_fx_by l m fx c sd d : aface_fx A l (mb m) fx c sd d = aface_fx A l m fx c sd d.
Proof.
  unfold aface_fx. fext n. rewrite <- (s_id 0 (aface_value A l m _ c sd d)) by reflexivity. apply face_by. intros. now rewrite s_id.
Qed.
Lemma flux_diff_M m dt c d fl fr : (d < nd)%nat ->
  aflux_diff A g nd (mb m) (sc (w_T w) dt) c d (sc (w_M w) fl) (sc (w_M w) fr) = sc (w_D w) (aflux_diff A g nd m dt c d fl fr).
Proof. apply flux_diff_by. Qed.
Lemma flux_diff_E m dt c d fl fr : (d < nd)%nat ->
  aflux_diff A g nd (mb m) (sc (w_T w) dt) c d (sc (w_E w) fl) (sc (w_E w) fr) = sc (w_M w) (aflux_diff A g nd m dt c d fl fr).
Proof. apply flux_diff_by. Qed.
Lemma flux_diff_F m dt c d fl fr : (d < nd)%nat ->
  aflux_diff A g nd (mb m) (sc (w_T w) dt) c d (sc (w_E w + w_V w) fl) (sc (w_E w + w_V w) fr) = sc (w_E w) (aflux_diff A g nd m dt c d fl fr).
Proof. apply flux_diff_by. Qed.
Notation grav_by G := (fun (c : idx) (d : nat) => sc (w_A w) (G c d)).

Lemma hancock_cons_by m G dt fp c sd d :
  ahancock_cons A g nd e (mb m) (grav_by G) (sc (w_T w) dt) (fun s n => prim_by (fp s n)) c sd d =
  cons_by (ahancock_cons A g nd e m G dt fp c sd d).
Proof.
  unfold ahancock_cons. cbv zeta. rewrite to_cons_by. unfold SpecBits.cons_by. cbn [q_rho q_m q_E]. f_equal.
  - apply s_loop. intros i y Hi. rewrite !flux_prim_by. cbn [f_rho flux_by]. rewrite flux_diff_M by exact Hi. now push.
  - fext n. match goal with |- (if _ then ?x' else ?y') = sc _ (if _ then ?x else ?y) => assert (Q : x' = sc (w_M w) x) end.
    { apply s_loop. intros i y Hi. rewrite !flux_prim_by. cbn [f_m flux_by]. rewrite flux_diff_E by exact Hi. rewrite (s_add (w_M w) (w_M w)) by reflexivity. rewrite geo_by by exact Hi.
      destruct (n =? i)%nat; [|reflexivity]. push. fin. }
    rewrite Q. destruct (n <? nd)%nat; [reflexivity|]. push. fin.
  - apply s_loop. intros i y Hi. rewrite !flux_prim_by. cbn [f_E flux_by]. rewrite flux_diff_F by exact Hi. push. fin.
Qed.
Lemma hancock_fx_by m G dt fp ffx c sd d :
  ahancock_fx A g nd e (mb m) (grav_by G) (sc (w_T w) dt) (fun s n => prim_by (fp s n)) ffx c sd d =
  ahancock_fx A g nd e m G dt fp ffx c sd d.
Proof.
  unfold ahancock_fx. cbv zeta. fext n. rewrite hancock_cons_by. cbn [q_rho SpecBits.cons_by p_rho prim_by].
  rewrite s_mulr, (s_loop (w_D w) nd (fun i x => a_add A x (aflux_diff A g nd m dt c i (a_mul A (ffx 0%nat i n) (f_rho (aflux_prim A nd e (fp 0%nat i) i)))
    (a_mul A (ffx 1%nat i n) (f_rho (aflux_prim A nd e (fp 1%nat i) i)))))).
  2: { intros i y Hi. rewrite !flux_prim_by. cbn [f_rho flux_by]. rewrite !s_mulr, flux_diff_M by exact Hi. now push. }
  push. drop. reflexivity.
Qed.
Lemma reconstruction_by sel l m G dt rho u P fx old :
  ahydro_reconstruction A sel g nd e l (mb m) (grav_by G) (sc (w_T w) dt) (fun c => sc (w_D w) (rho c)) (fun c n => sc (w_V w) (u c n))
    (fun c => sc (w_E w) (P c)) fx (recon_by sc w old) = recon_by sc w (ahydro_reconstruction A sel g nd e l m G dt rho u P fx old).
Proof.
  unfold ahydro_reconstruction, recon_by. cbn [r_q r_fx].
  assert (F : forall c, aface_prim A l (mb m) (fun c => sc (w_D w) (rho c)) (fun c n => sc (w_V w) (u c n)) (fun c => sc (w_E w) (P c)) c =
    fun s n => prim_by (aface_prim A l m rho u P c s n)) by (intros; fext s; fext n; apply face_prim_by).
  f_equal; fext c; unfold kwrite; destruct (sel c); try reflexivity; fext s; fext d; rewrite F.
  - apply hancock_cons_by.
  - replace (aface_fx A l (mb m) fx c) with (aface_fx A l m fx c) by (fext a; fext b; symmetry; apply face_fx_by). apply hancock_fx_by.
Qed.

Notation rb := (recon_by sc w).
Notation cb := (cell_by sc w).
Lemma flux_left_by s r c d : aflux_left A s nd e (rb r) c d = flux_by (aflux_left A s nd e r c d). Proof. apply riemann_by. Qed.
Lemma flux_right_by s r c d : aflux_right A s nd e (rb r) c d = flux_by (aflux_right A s nd e r c d). Proof. apply riemann_by. Qed.
Lemma fx_left_by s r c d n : afx_left A s nd e (rb r) c d n = afx_left A s nd e r c d n.
Proof. unfold afx_left. rewrite flux_left_by. cbn [f_rho flux_by r_fx recon_by]. now rewrite s_lt_0. Qed.
Lemma fx_right_by s r c d n : afx_right A s nd e (rb r) c d n = afx_right A s nd e r c d n.
Proof. unfold afx_right. rewrite flux_right_by. cbn [f_rho flux_by r_fx recon_by]. now rewrite s_lt_0. Qed.

Lemma god_rho_by s m dt a r c : agod_rho A g nd e s (mb m) (sc (w_T w) dt) (fun c => cb (a c)) (rb r) c = sc (w_D w) (agod_rho A g nd e s m dt a r c).
Proof.
  unfold agod_rho. apply s_loop. intros i y Hi. rewrite flux_left_by, flux_right_by. cbn [f_rho flux_by]. rewrite flux_diff_M by exact Hi. now push.
Qed.
Lemma god_cell_by s m G dt a r c :
  agod_cell A g nd e s (mb m) (grav_by G) (sc (w_T w) dt) (fun c => cb (a c)) (rb r) c = cb (agod_cell A g nd e s m G dt a r c).
Proof.
  unfold agod_cell. rewrite god_rho_by. symmetry. unfold cell_by at 1. symmetry. cbn [c_rho c_rhou c_E c_fx]. f_equal.
  - fext n. unfold agod_rhou. cbv zeta.
    match goal with |- (if _ then ?x' else ?y') = sc _ (if _ then ?x else ?y) => assert (Q : x' = sc (w_M w) x) end.
    { apply s_loop. intros i y Hi. rewrite flux_left_by, flux_right_by. cbn [f_m flux_by]. rewrite flux_diff_E by exact Hi.
      cbn [r_q recon_by]. rewrite !to_prim_by. rewrite (s_add (w_M w) (w_M w)) by reflexivity. rewrite geo_by by exact Hi.
      destruct (n =? i)%nat; [|reflexivity]. cbn [c_rho cell_by]. push. fin. }
    rewrite Q. destruct (n <? nd)%nat; [reflexivity|]. cbn [c_rho cell_by]. push. fin.
  - unfold agod_E. apply s_loop. intros i y Hi. rewrite flux_left_by, flux_right_by. cbn [f_E flux_by c_rhou cell_by]. rewrite flux_diff_F by exact Hi. push. fin.
  - fext n. f_equal. unfold agod_rhofx. cbn [c_rho c_fx cell_by].
    rewrite s_mulr, (s_loop (w_D w) nd (fun d x => a_add A x (aflux_diff A g nd m dt c d (a_mul A (afx_left A s nd e r c d n) (f_rho (aflux_left A s nd e r c d)))
       (a_mul A (afx_right A s nd e r c d n) (f_rho (aflux_right A s nd e r c d)))))).
    2: { intros i y Hi. rewrite flux_left_by, flux_right_by, fx_left_by, fx_right_by. cbn [f_rho flux_by]. rewrite !s_mulr, flux_diff_M by exact Hi. now push. }
    push. drop. reflexivity.
Qed.

(** ** Pressure fix *)
Section PF.
Variables (m : mesh) (dt eps : R) (a an : idx -> cell) (r : recon).
Notation a' := (fun c => cb (a c)). Notation an' := (fun c => cb (an c)). Notation r' := (rb r). Notation dt' := (sc (w_T w) dt).
Lemma cons_of_by x : cons_of (cb x) = cons_by (cons_of x). Proof. reflexivity. Qed.
Lemma eint_by x : aeint A nd (cb x) = sc (w_E w) (aeint A nd x).
Proof. unfold aeint. rewrite cons_of_by, ek_cons_by. cbn [c_E cell_by]. now push. Qed.
Lemma ekin_by c : aekin A nd a' c = sc (w_E w) (aekin A nd a c).
Proof. unfold aekin. now rewrite cons_of_by, ek_cons_by. Qed.
Lemma us_left_by c i j : aus_left A nd e r' c i j = sc (w_V w) (aus_left A nd e r c i j).
Proof. unfold aus_left. cbn [r_q recon_by]. rewrite !to_prim_by. cbn [p_u prim_by]. now push. Qed.
Lemma us_right_by c i j : aus_right A nd e r' c i j = sc (w_V w) (aus_right A nd e r c i j).
Proof. unfold aus_right. cbn [r_q recon_by]. rewrite !to_prim_by. cbn [p_u prim_by]. now push. Qed.
Lemma ein_left_by c i j : aein_left A nd e a' r' c i j = sc (w_E w) (aein_left A nd e a r c i j).
Proof. unfold aein_left. rewrite us_left_by, s_lt_0, !eint_by. now rewrite s_if. Qed.
Lemma ein_right_by c i j : aein_right A nd e a' r' c i j = sc (w_E w) (aein_right A nd e a r c i j).
Proof. unfold aein_right. rewrite us_right_by, s_lt0, !eint_by. now rewrite s_if. Qed.
Lemma div_u_by c : adiv_u A g nd e (mb m) r' c = sc (w_V w - w_L w) (adiv_u A g nd e m r c).
Proof.
  unfold adiv_u. apply s_loop0. intros i y Hi. apply s_loop. intros j z Hj. rewrite us_left_by, us_right_by, !ds_by, dv_by by exact Hj.
  pose proof (vol_surf j Hj). push. fin.
Qed.
Lemma div_ue_by c : adiv_ue A g nd e (mb m) a' r' c = sc (w_E w + w_V w - w_L w) (adiv_ue A g nd e m a r c).
Proof.
  unfold adiv_ue. apply s_loop0. intros i y Hi. apply s_loop. intros j z Hj.
  rewrite us_left_by, us_right_by, ein_left_by, ein_right_by, !ds_by, dv_by by exact Hj.
  pose proof (vol_surf j Hj). push. fin.
Qed.
Lemma de_pf_by c : ade_pf A g nd e (mb m) dt' a' r' c = sc (w_E w) (ade_pf A g nd e m dt a r c).
Proof. unfold ade_pf. rewrite cons_of_by, to_prim_by, div_u_by, div_ue_by. cbn [p_P prim_by]. push. fin. Qed.
Lemma alpha_by c : aalpha A nd eps a' c = aalpha A nd eps a c.
Proof. unfold aalpha. rewrite ekin_by, eint_by. push. destruct (a_lt A _ _); [reflexivity|]. push. now drop. Qed.
Lemma pf_energy_by c : apf_energy A g nd e (mb m) dt' eps a' r' an' c = sc (w_E w) (apf_energy A g nd e m dt eps a r an c).
Proof.
  unfold apf_energy. cbv zeta. rewrite alpha_by, de_pf_by, !eint_by.
  rewrite (s_sum (w_E w) nd (fun i => a_div A (a_mul A (c_rhou (a c) i) (c_rhou (a c) i)) (c_rho (a c)))).
  2: { intros. cbn [c_rhou c_rho cell_by]. push. fin. }
  push. fin.
Qed.
Lemma pf_cell_by c : apf_cell A g nd e (mb m) dt' eps a' r' an' c = cb (apf_cell A g nd e m dt eps a r an c).
Proof.
  unfold apf_cell. rewrite pf_energy_by, eint_by, ekin_by. push. destruct (a_lt A _ _); reflexivity.
Qed.
End PF.
End B.
