(** * Runs with more dimensions than the flow: reconstruction, Godunov update, pressure fix (C107). *)
From Coq Require Import ZifyBool ZifyNat.
From Verif Require Import Base RBase ModelMesh ModelGeom ModelBoundary ModelHydro ModelScheme ModelStep
  SpecMesh SpecGeom SpecBoundary SpecHydro SpecScheme SpecStep SpecFill SpecSym SpecPlane
  ProofBase ProofMesh ProofR ProofPlane.
Local Open Scope R_scope.

(** ** Face values *)
Lemma width_at m c d : (d < 3)%nat -> cell_width m c d = mdx m d (coord d c).
Proof. intros H. unfold cell_width. destruct d as [|[|[|d]]]; [| | |lia]; unfold kron; cbn [Nat.eqb coord]; lra. Qed.
Lemma slope_zero l : slope l 0 0 = 0.
Proof. destruct l; cbn [slope]; unfold van_leer, minmod, van_albada; rewrite ?Rmult_0_l; unfold rltb; destruct (Rlt_dec 0 0); try lra; reflexivity. Qed.
Lemma face_const l m var c sd d k : var c = k -> var (rindex d c) = k -> var (lindex d c) = k -> face_value l m var c sd d = k.
Proof.
  intros A B C. unfold face_value, face_slope. cbv zeta. rewrite A, B, C. replace (k - k) with 0 by ring. rewrite !div0, slope_zero. destruct sd; ring.
Qed.
Lemma face_more nd l m m' var var' c c' sd d : (d < nd)%nat -> (nd <= 3)%nat -> (forall d i, (d < nd)%nat -> m' d i = m d i) -> above nd c c' ->
  var' c' = var c -> var' (rindex d c') = var (rindex d c) -> var' (lindex d c') = var (lindex d c) ->
  face_value l m' var' c' sd d = face_value l m var c sd d.
Proof.
  intros Hd Hn Hm Hc A B C. unfold face_value, face_slope. cbv zeta. rewrite !width_at by lia. unfold mdx. rewrite !Hm by assumption. rewrite A, B, C.
  rewrite (Hc d Hd). pose proof (above_r nd c c' d Hc Hd d Hd) as E1. pose proof (above_l nd c c' d Hc Hd d Hd) as E2. now rewrite E1, E2.
Qed.

Lemma lq_join nd nd' a b c : (nd <= nd')%nat -> lq nd nd' a b -> lq nd nd' a c -> lq nd' nd' b c.
Proof.
  intros Hn (A1 & (A2 & A3) & A4) (B1 & (B2 & B3) & B4). unfold lq, padded. rewrite A1, B1, A4, B4. split; [reflexivity|]. split; [|reflexivity].
  split; intros d Hd; [|lia]. destruct (Nat.lt_ge_cases d nd); [now rewrite A2, B2|now rewrite A3, B3].
Qed.

Lemma cross2 nd nd' m m' c c' d k : (nd <= nd')%nat -> (nd' <= 3)%nat -> (forall d i, (d < nd)%nat -> m' d i = m d i) -> above nd c c' ->
  (d < nd)%nat -> (k < nd)%nat ->
  cart_ds m' c' k * cart_dv m c = cart_ds m c k * cart_dv m' c' /\
  cart_ds m' (rindex d c') k * cart_dv m c = cart_ds m (rindex d c) k * cart_dv m' c'.
Proof.
  intros Hnn Hn Hm Hc Hd Hk. pose proof (Hc 0%nat) as C0. pose proof (Hc 1%nat) as C1. pose proof (Hc 2%nat) as C2. pose proof (Hm 0%nat) as M0. pose proof (Hm 1%nat) as M1. pose proof (Hm 2%nat) as M2. clear Hc Hm.
  assert (E : nd = 1%nat \/ nd = 2%nat \/ nd = 3%nat) by lia.
  assert (Ed : d = 0%nat \/ d = 1%nat \/ d = 2%nat) by lia. assert (Ek : k = 0%nat \/ k = 1%nat \/ k = 2%nat) by lia.
  destruct c as [i j l], c' as [i' j' l'].
  destruct E as [->|[->| ->]]; destruct Ed as [->|[->| ->]]; try lia; destruct Ek as [->|[->| ->]]; try lia;
  cbn [coord ii jj kk] in C0, C1, C2;
  try (specialize (C0 ltac:(lia)); subst i'); try (specialize (C1 ltac:(lia)); subst j'); try (specialize (C2 ltac:(lia)); subst l');
  unfold cart_ds, cart_dv, mdx, rindex; cbn [Nat.eqb coord ii jj kk kron set_coord Z.add]; rewrite ?Z.add_0_r;
  repeat (rewrite M0 by lia); repeat (rewrite M1 by lia); repeat (rewrite M2 by lia); split; ring.
Qed.
Lemma even_ds nd nd' m' c' d k : (nd' <= 3)%nat -> (1 <= nd)%nat -> (forall d i, (nd <= d < nd')%nat -> mdx m' d (i + 1) = mdx m' d i) -> (nd <= d < nd')%nat -> (k < nd)%nat ->
  cart_ds m' (rindex d c') k = cart_ds m' c' k.
Proof.
  intros H3 H1 He Hd Hk. pose proof (fun i => He d i Hd) as E. assert (Ed : d = 1%nat \/ d = 2%nat) by lia. assert (Ek : k = 0%nat \/ k = 1%nat) by lia.
  destruct c' as [i j l]. destruct Ed as [-> | ->], Ek as [-> | ->]; try lia; unfold cart_ds, rindex; cbn [Nat.eqb coord ii jj kk kron set_coord Z.add]; rewrite ?Z.add_0_r;
  cbn [coord ii jj kk]; now rewrite E.
Qed.

Section Step.
Variables (g : geom) (nd nd' : nat) (e : eos) (l : limiter) (s : solver) (m m' : mesh) (c c' : idx) (dt : R) (grav grav' : gravity).
Hypothesis Hnd : (1 <= nd)%nat.
Hypothesis Hnn : (nd <= nd')%nat.
Hypothesis Hnd' : (nd' <= 3)%nat.
Hypothesis Hm : forall d i, (d < nd)%nat -> m' d i = m d i.
Hypothesis Hc : above nd c c'.
Hypothesis Hv : dv g nd m c <> 0.
Hypothesis Hv' : dv g nd' m' c' <> 0.
Hypothesis Hg : padded nd nd' (grav c) (grav' c').

Lemma hancock_more fp fp' : (forall sd d, (d < nd')%nat -> lp nd nd' (fp sd d) (fp' sd d)) -> (forall d, (nd <= d)%nat -> fp 0%nat d = fp 1%nat d) ->
  forall sd ip, (ip < nd')%nat -> lq nd nd' (hancock_cons g nd e m grav dt fp c sd ip) (hancock_cons g nd' e m' grav' dt fp' c' sd ip).
Proof.
  intros Hf Hx sd ip Hip. destruct Hg as [G1 G2].
  destruct (to_cons_more nd nd' Hnn e _ _ (Hf sd ip Hip)) as (Q1 & (Q2 & Q3) & Q4).
  unfold lq, padded, hancock_cons. cbv zeta. cbn [q_rho q_m q_E]. rewrite Q1, Q4.
  assert (P0 : forall d, (nd <= d < nd')%nat -> p_P (fp' 1%nat d) = p_P (fp' 0%nat d)).
  { intros d Hd. destruct (Hf 0%nat d ltac:(lia)) as (_ & _ & ->), (Hf 1%nat d ltac:(lia)) as (_ & _ & ->). now rewrite Hx by lia. }
  assert (U0 : forall t d k, (d < nd')%nat -> (nd <= k < nd')%nat -> p_u (fp' t d) k = 0).
  { intros t d k Hd Hk. destruct (Hf t d Hd) as (_ & (_ & U) & _). now apply U. }
  assert (F : forall t d, (d < nd)%nat -> lf nd nd' (flux_prim nd e (fp t d) d) (flux_prim nd' e (fp' t d) d)).
  { intros t d Hd. apply flux_prim_more; [exact Hnn|exact Hd|apply Hf; lia]. }
  assert (EX : forall d k, (nd <= d < nd')%nat -> (k < nd')%nat ->
    flux_diff g nd' m' dt c' d (f_m (flux_prim nd' e (fp' 0%nat d) d) k) (f_m (flux_prim nd' e (fp' 1%nat d) d) k)
    + geo_source g nd' m' c' (dt / dv g nd' m' c') (fp' 0%nat d) (fp' 1%nat d) d k = 0).
  { intros d k Hd Hk. cbn [flux_prim f_m]. rewrite !(U0 _ d d) by lia. rewrite (P0 d Hd).
    rewrite !Rmult_0_r, !Rmult_0_l, !Rplus_0_l. apply (extra_vector g nd nd' m m' c c'); try assumption. right. split; [reflexivity|]. split; [now apply P0|].
    intros j Hj. split; apply U0; lia. }
  split; [|split; [split|]].
  - f_equal. apply vsum_more; [exact Hnn| |]; intros d Hd.
    + destruct (F 0%nat d Hd) as (-> & _ & _), (F 1%nat d Hd) as (-> & _ & _). now apply flux_diff_more.
    + cbn [flux_prim f_rho]. rewrite !(U0 _ d d) by lia. rewrite !Rmult_0_r. apply (extra_scalar g nd nd' m m' c c'); auto.
  - intros k Hk. rewrite Q2, G1 by assumption. f_equal. f_equal. apply vsum_more; [exact Hnn| |]; intros d Hd.
    + destruct (F 0%nat d Hd) as (_ & (E1 & _) & _), (F 1%nat d Hd) as (_ & (E2 & _) & _). rewrite E1, E2 by assumption.
      rewrite (flux_diff_more g nd nd' m m' c c') by assumption.
      rewrite (geo_more g nd nd' m m' c c' Hnd Hnn Hnd' Hm Hc Hv Hv' dt (fp 0%nat d) (fp 1%nat d)) by (try apply Hf; lia).
      destruct (Nat.ltb_spec k nd); [reflexivity|lia].
    + apply EX; lia.
  - intros k Hk. rewrite Q3, G2 by assumption. rewrite vsum_0; [ring|]. intros d Hd.
    destruct (Nat.lt_ge_cases d nd) as [A|A]; [|apply EX; lia].
    destruct (F 0%nat d A) as (_ & (_ & E1) & _), (F 1%nat d A) as (_ & (_ & E2) & _). rewrite E1, E2 by assumption.
    rewrite (geo_more g nd nd' m m' c c' Hnd Hnn Hnd' Hm Hc Hv Hv' dt (fp 0%nat d) (fp 1%nat d)) by (try apply Hf; lia).
    destruct (Nat.ltb_spec k nd); [lia|]. unfold flux_diff. ring.
  - f_equal. apply vsum_more; [exact Hnn| |]; intros d Hd.
    + destruct (F 0%nat d Hd) as (_ & _ & ->), (F 1%nat d Hd) as (_ & _ & ->). rewrite G1, Q2 by assumption. f_equal. now apply flux_diff_more.
    + rewrite G2 by assumption. cbn [flux_prim f_E]. rewrite !(U0 _ d d) by lia. rewrite !Rmult_0_l.
      rewrite (extra_scalar g nd nd' m m' c c') by auto. ring.
Qed.

Lemma hancock_fx_more fp fp' ffx ffx' : (forall sd d, (d < nd')%nat -> lp nd nd' (fp sd d) (fp' sd d)) -> (forall d, (nd <= d)%nat -> fp 0%nat d = fp 1%nat d) ->
  (forall sd d n, (d < nd')%nat -> ffx' sd d n = ffx sd d n) ->
  forall sd ip n, (ip < nd')%nat -> hancock_fx g nd' e m' grav' dt fp' ffx' c' sd ip n = hancock_fx g nd e m grav dt fp ffx c sd ip n.
Proof.
  intros Hf Hx Hfx sd ip n Hip. unfold hancock_fx. cbv zeta.
  destruct (hancock_more fp fp' Hf Hx sd ip Hip) as (-> & _). destruct (Hf sd ip Hip) as (-> & _ & _). rewrite Hfx by assumption. do 2 f_equal.
  apply vsum_more; [exact Hnn| |]; intros d Hd.
  - rewrite !Hfx by lia. destruct (flux_prim_more nd nd' Hnn e _ _ d Hd (Hf 0%nat d ltac:(lia))) as (-> & _), (flux_prim_more nd nd' Hnn e _ _ d Hd (Hf 1%nat d ltac:(lia))) as (-> & _).
    now apply flux_diff_more.
  - cbn [flux_prim f_rho]. destruct (Hf 0%nat d ltac:(lia)) as (_ & (_ & Z0) & _), (Hf 1%nat d ltac:(lia)) as (_ & (_ & Z1) & _). rewrite (Z0 d Hd), (Z1 d Hd).
    rewrite !Rmult_0_r. apply (extra_scalar g nd nd' m m' c c'); auto.
Qed.

(** ** Godunov update *)
Section Update.
Variables (a a' : idx -> cell) (r r' : recon) (Q : idx -> nat -> nat -> cons) (FX : idx -> nat -> nat -> vec).
Hypothesis Hs : g = Spherical -> s <> HLL.
Hypothesis Ha : lc nd nd' (a c) (a' c').
Hypothesis Er : forall d, (d < nd)%nat -> forall x sd, (x = c \/ x = lindex d c \/ x = rindex d c) -> r_q r x sd d = Q x sd d /\ r_fx r x sd d = FX x sd d.
Hypothesis Hq : forall d, (d < nd)%nat -> forall sd, lq nd nd' (Q c sd d) (r_q r' c' sd d) /\ lq nd nd' (Q (lindex d c) sd d) (r_q r' (lindex d c') sd d)
  /\ lq nd nd' (Q (rindex d c) sd d) (r_q r' (rindex d c') sd d).
Hypothesis Hq' : forall d, (nd <= d < nd')%nat -> forall sd, lq nd nd' (Q c 0%nat d) (r_q r' c' sd d) /\ lq nd nd' (Q c 0%nat d) (r_q r' (lindex d c') sd d)
  /\ lq nd nd' (Q c 0%nat d) (r_q r' (rindex d c') sd d).
Hypothesis Hx : forall d, (d < nd)%nat -> forall sd n, r_fx r' c' sd d n = FX c sd d n /\ r_fx r' (lindex d c') sd d n = FX (lindex d c) sd d n
  /\ r_fx r' (rindex d c') sd d n = FX (rindex d c) sd d n.
Hypothesis Hx' : forall d, (nd <= d < nd')%nat -> forall sd n, r_fx r' c' sd d n = FX c 0%nat d n /\ r_fx r' (lindex d c') sd d n = FX c 0%nat d n
  /\ r_fx r' (rindex d c') sd d n = FX c 0%nat d n.

Lemma left_more d : (d < nd)%nat -> lf nd nd' (flux_left s nd e r c d) (flux_left s nd' e r' c' d).
Proof.
  intros Hd. unfold flux_left, face_flux. destruct (Er d Hd (lindex d c) 1%nat) as [-> _]; [auto|]. destruct (Er d Hd c 0%nat) as [-> _]; [auto|].
  apply riemann_more; [exact Hnn|exact Hd|apply Hq; exact Hd|apply Hq; exact Hd].
Qed.
Lemma right_more d : (d < nd)%nat -> lf nd nd' (flux_right s nd e r c d) (flux_right s nd' e r' c' d).
Proof.
  intros Hd. unfold flux_right. destruct (Er d Hd (rindex d c) 0%nat) as [-> _]; [auto|]. destruct (Er d Hd c 1%nat) as [-> _]; [auto|].
  apply riemann_more; [exact Hnn|exact Hd|apply Hq; exact Hd|apply Hq; exact Hd].
Qed.

(** The two faces of an additional direction. *)
Lemma both_faces d : (nd <= d < nd')%nat -> let f := riemann s nd' e (r_q r' c' 0%nat d) (r_q r' c' 0%nat d) d in
  lf nd' nd' f (flux_left s nd' e r' c' d) /\ lf nd' nd' f (flux_right s nd' e r' c' d).
Proof.
  intros Hd. cbv zeta. destruct (Hq' d Hd 0%nat) as (A1 & A2 & A3). destruct (Hq' d Hd 1%nat) as (B1 & B2 & B3).
  unfold flux_left, face_flux, flux_right.
  split; apply riemann_more; try lia; eapply lq_join; try exact Hnn; eassumption.
Qed.

Definition zero_or (P : R) (d k : nat) (f : flux) : Prop := g = Cartesian \/ (f_rho f = 0 /\ f_E f = 0 /\ f_m f k = if Nat.eqb k d then P else 0).
Lemma still d k : (nd <= d < nd')%nat -> (k < nd')%nat -> zero_or (p_P (to_prim nd' e (r_q r' c' 0%nat d))) d k (riemann s nd' e (r_q r' c' 0%nat d) (r_q r' c' 0%nat d) d).
Proof.
  intros Hd Hk. unfold zero_or. assert (Eg : g = Cartesian \/ g = Spherical) by (destruct g; auto). destruct Eg as [Eg|Eg]; [now left|]. right.
  destruct (Hq' d Hd 0%nat) as ((_ & (_ & Z) & _) & _).
  destruct (still_face s nd' e (r_q r' c' 0%nat d) d (Hs Eg) (Z d Hd)) as (F1 & F2 & F3 & F4).
  split; [exact F1|]. split; [exact F2|]. destruct (Nat.eqb_spec k d) as [->|E]; [exact F3|now apply F4].
Qed.

Lemma extra_flux d k : (nd <= d < nd')%nat -> (k < nd')%nat ->
  flux_diff g nd' m' dt c' d (f_m (flux_left s nd' e r' c' d) k) (f_m (flux_right s nd' e r' c' d) k)
  + geo_source g nd' m' c' (dt / dv g nd' m' c') (to_prim nd' e (r_q r' c' 0%nat d)) (to_prim nd' e (r_q r' c' 1%nat d)) d k = 0.
Proof.
  intros Hd Hk. destruct (both_faces d Hd) as [(_ & (A & _) & _) (_ & (B & _) & _)]. rewrite A, B by assumption.
  apply (extra_vector g nd nd' m m' c c'); try assumption. destruct (still d k Hd Hk) as [E|(_ & _ & E)]; [now left|]. right.
  destruct (Hq' d Hd 0%nat) as (Q0 & _). destruct (Hq' d Hd 1%nat) as (Q1 & _).
  pose proof (to_prim_more nd nd' Hnn e _ _ Q0) as (_ & (_ & T0) & T1). pose proof (to_prim_more nd nd' Hnn e _ _ Q1) as (_ & (_ & T2) & T3).
  split; [exact E|]. split; [rewrite T1, T3; reflexivity|]. intros j Hj. split; [now apply T0|now apply T2].
Qed.

Lemma god_more : lc nd nd' (god_cell g nd e s m grav dt a r c) (god_cell g nd' e s m' grav' dt a' r' c').
Proof.
  destruct Ha as (A1 & (A2 & A3) & A4 & A5), Hg as [G1 G2].
  assert (R : god_rho g nd' e s m' dt a' r' c' = god_rho g nd e s m dt a r c).
  { unfold god_rho. rewrite A1. f_equal. apply vsum_more; [exact Hnn| |]; intros d Hd.
    - destruct (left_more d Hd) as (-> & _), (right_more d Hd) as (-> & _). now apply flux_diff_more.
    - destruct (both_faces d Hd) as [(-> & _) (-> & _)]. apply (extra_scalar g nd nd' m m' c c'); try assumption. destruct (still d d Hd ltac:(lia)) as [E|(E & _)]; auto. }
  unfold lc, padded, god_cell. cbn [c_rho c_rhou c_E c_fx]. rewrite R. split; [reflexivity|]. split; [split|split].
  - intros k Hk. unfold god_rhou. rewrite A1, A2, G1 by assumption. do 2 f_equal. apply vsum_more; [exact Hnn| |]; intros d Hd; [|apply extra_flux; lia].
    destruct (left_more d Hd) as (_ & (Z0 & _) & _), (right_more d Hd) as (_ & (Z1 & _) & _). rewrite (Z0 k Hk), (Z1 k Hk).
    rewrite (flux_diff_more g nd nd' m m' c c') by assumption.
    destruct (Er d Hd c 0%nat) as [-> _]; [auto|]. destruct (Er d Hd c 1%nat) as [-> _]; [auto|].
    rewrite (geo_more g nd nd' m m' c c' Hnd Hnn Hnd' Hm Hc Hv Hv' dt (to_prim nd e (Q c 0%nat d)) (to_prim nd e (Q c 1%nat d)))
      by (first [lia|apply to_prim_more; [exact Hnn|apply Hq; exact Hd]]).
    destruct (Nat.ltb_spec k nd); [reflexivity|lia].
  - intros k Hk. unfold god_rhou. rewrite A3, G2 by assumption. rewrite vsum_0; [ring|]. intros d Hd.
    destruct (Nat.lt_ge_cases d nd) as [B|B]; [|apply extra_flux; lia].
    destruct (left_more d B) as (_ & (_ & Z0) & _), (right_more d B) as (_ & (_ & Z1) & _). rewrite (Z0 k Hk), (Z1 k Hk).
    rewrite (geo_more g nd nd' m m' c c' Hnd Hnn Hnd' Hm Hc Hv Hv' dt (to_prim nd e (Q c 0%nat d)) (to_prim nd e (Q c 1%nat d)))
      by (first [lia|apply to_prim_more; [exact Hnn|apply Hq; exact B]]).
    destruct (Nat.ltb_spec k nd); [lia|]. unfold flux_diff. ring.
  - unfold god_E. rewrite A4. f_equal. apply vsum_more; [exact Hnn| |]; intros d Hd.
    + destruct (left_more d Hd) as (_ & _ & ->), (right_more d Hd) as (_ & _ & ->). rewrite A2, G1 by assumption. f_equal. now apply flux_diff_more.
    + destruct (both_faces d Hd) as [(_ & _ & ->) (_ & _ & ->)]. rewrite A3 by assumption. rewrite (extra_scalar g nd nd' m m' c c'); try assumption; [ring|].
      destruct (still d d Hd ltac:(lia)) as [E|(_ & E & _)]; auto.
  - intros n. f_equal. f_equal. unfold god_rhofx. rewrite A1, A5. f_equal. apply vsum_more; [exact Hnn| |]; intros d Hd.
    + destruct (left_more d Hd) as (E1 & _), (right_more d Hd) as (E2 & _). unfold fx_left, fx_right. rewrite E1, E2.
      destruct (Er d Hd c 0%nat) as [_ ->]; [auto|]. destruct (Er d Hd c 1%nat) as [_ ->]; [auto|].
      destruct (Er d Hd (lindex d c) 1%nat) as [_ ->]; [auto|]. destruct (Er d Hd (rindex d c) 0%nat) as [_ ->]; [auto|].
      destruct (Hx d Hd 0%nat n) as (-> & _ & ->). destruct (Hx d Hd 1%nat n) as (-> & -> & _). now apply flux_diff_more.
    + destruct (both_faces d Hd) as [(E1 & _) (E2 & _)]. unfold fx_left, fx_right. rewrite E1, E2.
      destruct (Hx' d Hd 0%nat n) as (-> & _ & ->). destruct (Hx' d Hd 1%nat n) as (-> & -> & _).
      match goal with |- context [if ?b then ?x else ?x] => replace (if b then x else x) with x by (destruct b; reflexivity) end.
      apply (extra_scalar g nd nd' m m' c c'); try assumption. destruct (still d d Hd ltac:(lia)) as [E|(E & _)]; [auto|]. right. rewrite E. ring.
Qed.

(** ** Pressure fix, Cartesian *)
Lemma fix_more eps an an' : g = Cartesian -> (forall d i, (nd <= d < nd')%nat -> mdx m' d (i + 1) = mdx m' d i) ->
  (forall d, (d < nd)%nat -> lc nd nd' (a (lindex d c)) (a' (lindex d c')) /\ lc nd nd' (a (rindex d c)) (a' (rindex d c'))) ->
  (forall d, (nd <= d < nd')%nat -> lc nd nd' (a c) (a' (lindex d c')) /\ lc nd nd' (a c) (a' (rindex d c'))) ->
  lc nd nd' (an c) (an' c') ->
  lc nd nd' (pf_cell g nd e m dt eps a r an c) (pf_cell g nd' e m' dt eps a' r' an' c').
Proof.
  intros Eg He Hb Hb' Hn.
  assert (EI : forall x x', lc nd nd' x x' -> eint nd' x' = eint nd x).
  { intros x x' H. unfold eint. destruct H as (E1 & E2 & E3 & _). rewrite E3. f_equal. apply ek_cons_more; [exact Hnn|]. split; [exact E1|]. split; assumption. }
  assert (EK : ekin nd' a' c' = ekin nd a c).
  { unfold ekin. destruct Ha as (E1 & E2 & E3 & _). apply ek_cons_more; [exact Hnn|]. split; [exact E1|]. split; assumption. }
  assert (UL : forall d k, (d < nd)%nat -> (k < nd)%nat -> us_left nd' e r' c' d k = us_left nd e r c d k).
  { intros d k Hd Hk. unfold us_left. destruct (Er d Hd c 0%nat) as [-> _]; [auto|]. destruct (Er d Hd (lindex d c) 1%nat) as [-> _]; [auto|].
    rewrite (proj1 (proj1 (proj2 (to_prim_more nd nd' Hnn e _ _ (proj1 (Hq d Hd 0%nat))))) k Hk).
    rewrite (proj1 (proj1 (proj2 (to_prim_more nd nd' Hnn e _ _ (proj1 (proj2 (Hq d Hd 1%nat)))))) k Hk). reflexivity. }
  assert (UR : forall d k, (d < nd)%nat -> (k < nd)%nat -> us_right nd' e r' c' d k = us_right nd e r c d k).
  { intros d k Hd Hk. unfold us_right. destruct (Er d Hd c 1%nat) as [-> _]; [auto|]. destruct (Er d Hd (rindex d c) 0%nat) as [-> _]; [auto|].
    rewrite (proj1 (proj1 (proj2 (to_prim_more nd nd' Hnn e _ _ (proj1 (Hq d Hd 1%nat))))) k Hk).
    rewrite (proj1 (proj1 (proj2 (to_prim_more nd nd' Hnn e _ _ (proj2 (proj2 (Hq d Hd 0%nat)))))) k Hk). reflexivity. }
  assert (ZL : forall d k, (d < nd')%nat -> (nd <= k < nd')%nat -> us_left nd' e r' c' d k = 0 /\ us_right nd' e r' c' d k = 0).
  { intros d k Hd Hk. unfold us_left, us_right. destruct (Nat.lt_ge_cases d nd) as [B|B].
    - destruct (Hq d B 0%nat) as (X1 & X2 & X3), (Hq d B 1%nat) as (Y1 & Y2 & Y3).
      rewrite (proj2 (proj1 (proj2 (to_prim_more nd nd' Hnn e _ _ X1))) k Hk). rewrite (proj2 (proj1 (proj2 (to_prim_more nd nd' Hnn e _ _ X3))) k Hk).
      rewrite (proj2 (proj1 (proj2 (to_prim_more nd nd' Hnn e _ _ Y1))) k Hk). rewrite (proj2 (proj1 (proj2 (to_prim_more nd nd' Hnn e _ _ Y2))) k Hk). lra.
    - destruct (Hq' d (conj B Hd) 0%nat) as (X1 & X2 & X3), (Hq' d (conj B Hd) 1%nat) as (Y1 & Y2 & Y3).
      rewrite (proj2 (proj1 (proj2 (to_prim_more nd nd' Hnn e _ _ X1))) k Hk). rewrite (proj2 (proj1 (proj2 (to_prim_more nd nd' Hnn e _ _ X3))) k Hk).
      rewrite (proj2 (proj1 (proj2 (to_prim_more nd nd' Hnn e _ _ Y1))) k Hk). rewrite (proj2 (proj1 (proj2 (to_prim_more nd nd' Hnn e _ _ Y2))) k Hk). lra. }
  assert (XE : forall d k, (nd <= d < nd')%nat -> (k < nd)%nat -> us_right nd' e r' c' d k = us_left nd' e r' c' d k).
  { intros d k Hd Hk. unfold us_left, us_right. destruct (Hq' d Hd 0%nat) as (X1 & X2 & X3), (Hq' d Hd 1%nat) as (Y1 & Y2 & Y3).
    rewrite (proj1 (proj1 (proj2 (to_prim_more nd nd' Hnn e _ _ X1))) k Hk). rewrite (proj1 (proj1 (proj2 (to_prim_more nd nd' Hnn e _ _ X3))) k Hk).
    rewrite (proj1 (proj1 (proj2 (to_prim_more nd nd' Hnn e _ _ Y1))) k Hk). rewrite (proj1 (proj1 (proj2 (to_prim_more nd nd' Hnn e _ _ Y2))) k Hk). reflexivity. }
  assert (IL : forall d k, (d < nd)%nat -> (k < nd)%nat -> ein_left nd' e a' r' c' d k = ein_left nd e a r c d k /\ ein_right nd' e a' r' c' d k = ein_right nd e a r c d k).
  { intros d k Hd Hk. unfold ein_left, ein_right. rewrite UL, UR by assumption. destruct (Hb d Hd) as [B1 B2]. now rewrite (EI _ _ Ha), (EI _ _ B1), (EI _ _ B2). }
  assert (IX : forall d k, (nd <= d < nd')%nat -> ein_left nd' e a' r' c' d k = eint nd (a c) /\ ein_right nd' e a' r' c' d k = eint nd (a c)).
  { intros d k Hd. unfold ein_left, ein_right. destruct (Hb' d Hd) as [B1 B2]. rewrite (EI _ _ Ha), (EI _ _ B1), (EI _ _ B2).
    split; [now destruct (rltb _ _)|now destruct (rltb _ _)]. }
  assert (CR : forall d k x y, (d < nd)%nat -> (k < nd)%nat ->
    (x * ds g nd' m' (rindex d c') k - y * ds g nd' m' c' k) / dv g nd' m' c' = (x * ds g nd m (rindex d c) k - y * ds g nd m c k) / dv g nd m c).
  { intros d k x y Hd Hk. pose proof (cross2 nd nd' m m' c c' d k Hnn Hnd' Hm Hc Hd Hk) as [C1 C2]. rewrite Eg in *. cbn [ds dv] in *.
    set (V := cart_dv m c) in *. set (V' := cart_dv m' c') in *.
    replace (cart_ds m' c' k) with (cart_ds m c k * V' / V) by (rewrite <- C1; field; assumption).
    replace (cart_ds m' (rindex d c') k) with (cart_ds m (rindex d c) k * V' / V) by (rewrite <- C2; field; assumption). field. split; assumption. }
  assert (CX : forall d k x, (nd <= d < nd')%nat -> (k < nd)%nat -> (x * ds g nd' m' (rindex d c') k - x * ds g nd' m' c' k) / dv g nd' m' c' = 0).
  { intros d k x Hd Hk. rewrite Eg. cbn [ds]. rewrite (even_ds nd nd' m' c' d k) by (assumption || lia). unfold Rdiv. ring. }
  assert (DU : div_u g nd' e m' r' c' = div_u g nd e m r c).
  { unfold div_u. apply vsum_more; [exact Hnn| |]; intros d Hd.
    - apply vsum_more; [exact Hnn| |]; intros k Hk.
      + rewrite UL, UR by assumption. now apply CR.
      + destruct (ZL d k ltac:(lia) Hk) as [-> ->]. unfold Rdiv. ring.
    - apply vsum_0. intros k Hk. destruct (Nat.lt_ge_cases k nd) as [B|B].
      + rewrite XE by assumption. now apply CX.
      + destruct (ZL d k ltac:(lia) (conj B Hk)) as [-> ->]. unfold Rdiv. ring. }
  assert (DE : div_ue g nd' e m' a' r' c' = div_ue g nd e m a r c).
  { unfold div_ue. apply vsum_more; [exact Hnn| |]; intros d Hd.
    - apply vsum_more; [exact Hnn| |]; intros k Hk.
      + destruct (IL d k Hd Hk) as [-> ->]. rewrite UL, UR by assumption. now apply CR.
      + destruct (ZL d k ltac:(lia) Hk) as [-> ->]. unfold Rdiv. ring.
    - apply vsum_0. intros k Hk. destruct (IX d k Hd) as [-> ->]. destruct (Nat.lt_ge_cases k nd) as [B|B].
      + rewrite XE by assumption. now apply CX.
      + destruct (ZL d k ltac:(lia) (conj B Hk)) as [-> ->]. unfold Rdiv. ring. }
  assert (DP : de_pf g nd' e m' dt a' r' c' = de_pf g nd e m dt a r c).
  { unfold de_pf. rewrite DU, DE. destruct Ha as (E1 & E2 & E3 & _).
    destruct (to_prim_more nd nd' Hnn e (cons_of (a c)) (cons_of (a' c'))) as (_ & _ & ->); [|reflexivity]. split; [exact E1|]. split; assumption. }
  unfold pf_cell. rewrite EK, (EI _ _ Ha). destruct (rltb _ _); [|exact Hn].
  destruct Hn as (N1 & N2 & N3 & N4). unfold lc. cbn [c_rho c_rhou c_E c_fx]. split; [exact N1|]. split; [exact N2|]. split; [|exact N4].
  unfold pf_energy, alpha. cbv zeta. rewrite EK, (EI _ _ Ha), DP, (EI (an c) (an' c')) by (split; [exact N1|split; [exact N2|split; [exact N3|exact N4]]]).
  f_equal. f_equal. destruct Ha as (E1 & (E2 & E2') & E3 & _). apply vsum_more; [exact Hnn| |]; intros d Hd; [now rewrite E1, E2|]. rewrite E2' by assumption. unfold Rdiv. ring.
Qed.
End Update.
End Step.
