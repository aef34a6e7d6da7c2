(** * Components beyond the dimensions of the run and the number of scalars do not matter: congruence of one time step. *)
From Coq Require Import Lra.
From Verif Require Import Base RBase ModelMesh ModelGeom ModelBoundary ModelHydro ModelScheme ModelStep ModelMain
  SpecH5 ProofBase ProofR.
Local Open Scope R_scope.

Ltac vs := apply vsum_ext; intros ? ?.

Section Phantom.
Variables (nd nfx : nat) (e : eos).
Notation upto := SpecH5.upto.

Definition pl (p p' : prim) : Prop := p_rho p = p_rho p' /\ upto nd (p_u p) (p_u p') /\ p_P p = p_P p'.
Definition ql (q q' : cons) : Prop := q_rho q = q_rho q' /\ upto nd (q_m q) (q_m q') /\ q_E q = q_E q'.
Definition fl (f f' : flux) : Prop := f_rho f = f_rho f' /\ upto nd (f_m f) (f_m f') /\ f_E f = f_E f'.
Definition cl (x x' : cell) : Prop := same_cell nd nfx x x'.

Lemma ek_cons_like q q' : ql q q' -> ek_cons nd q = ek_cons nd q'.
Proof. intros (A & B & C). unfold ek_cons. rewrite A. f_equal. f_equal. vs. now rewrite B. Qed.
Lemma ek_prim_like p p' : pl p p' -> ek_prim nd p = ek_prim nd p'.
Proof. intros (A & B & C). unfold ek_prim. rewrite A. f_equal. f_equal. vs. now rewrite B. Qed.
Lemma evol_like q q' : ql q q' -> evol_cons nd q = evol_cons nd q'.
Proof. intros H. unfold evol_cons. rewrite (ek_cons_like _ _ H). now destruct H as (_ & _ & ->). Qed.
Lemma to_prim_like q q' : ql q q' -> pl (to_prim nd e q) (to_prim nd e q').
Proof.
  intros H. pose proof (evol_like _ _ H) as E. destruct H as (A & B & C). unfold to_prim, pl; cbn [p_rho p_u p_P].
  rewrite A, E. repeat split; auto. intros d Hd. now rewrite B.
Qed.
Lemma to_cons_like p p' : pl p p' -> ql (to_cons nd e p) (to_cons nd e p').
Proof.
  intros H. pose proof (ek_prim_like _ _ H) as E. destruct H as (A & B & C). unfold to_cons, ql; cbn [q_rho q_m q_E].
  rewrite A, E, C. repeat split; auto. intros d Hd. now rewrite B.
Qed.
Lemma flux_prim_like p p' dir : (dir < nd)%nat -> pl p p' -> fl (flux_prim nd e p dir) (flux_prim nd e p' dir).
Proof.
  intros Hd H. pose proof (ek_prim_like _ _ H) as E. destruct H as (A & B & C). unfold flux_prim, fl; cbn [f_rho f_m f_E].
  rewrite A, E, C, (B dir Hd). repeat split; auto. intros d Hd'. now rewrite B.
Qed.
Lemma wave_L_like p p' r r' dir : (dir < nd)%nat -> pl p p' -> pl r r' -> wave_L e p r dir = wave_L e p' r' dir.
Proof. intros Hd (A & B & C) (A' & B' & C'). unfold wave_L. now rewrite A, A', C, C', (B dir Hd), (B' dir Hd). Qed.
Lemma wave_R_like p p' r r' dir : (dir < nd)%nat -> pl p p' -> pl r r' -> wave_R e p r dir = wave_R e p' r' dir.
Proof. intros Hd (A & B & C) (A' & B' & C'). unfold wave_R. now rewrite A, A', C, C', (B dir Hd), (B' dir Hd). Qed.

Lemma hll_like q q' r r' dir : (dir < nd)%nat -> ql q q' -> ql r r' -> fl (hll nd e q r dir) (hll nd e q' r' dir).
Proof.
  intros Hd H H'. pose proof (to_prim_like _ _ H) as P. pose proof (to_prim_like _ _ H') as P'.
  pose proof (flux_prim_like _ _ _ Hd P) as F. pose proof (flux_prim_like _ _ _ Hd P') as F'.
  unfold hll, fl; cbv zeta; cbn [f_rho f_m f_E]. rewrite (wave_L_like _ _ _ _ _ Hd P P'), (wave_R_like _ _ _ _ _ Hd P P').
  destruct H as (A & B & C), H' as (A' & B' & C'), F as (F1 & F2 & F3), F' as (F1' & F2' & F3').
  rewrite A, A', C, C', F1, F1', F3, F3'. repeat split; auto. intros d Hd'. now rewrite B, B', F2, F2'.
Qed.

Lemma hllc_like q q' r r' dir : (dir < nd)%nat -> ql q q' -> ql r r' -> fl (hllc nd e q r dir) (hllc nd e q' r' dir).
Proof.
  intros Hd H H'. pose proof (to_prim_like _ _ H) as P. pose proof (to_prim_like _ _ H') as P'.
  pose proof (flux_prim_like _ _ _ Hd P) as F. pose proof (flux_prim_like _ _ _ Hd P') as F'.
  unfold hllc. cbv zeta. rewrite (wave_L_like _ _ _ _ _ Hd P P'), (wave_R_like _ _ _ _ _ Hd P P').
  pose proof P as (P1 & P2 & P3). pose proof P' as (P1' & P2' & P3').
  rewrite P1, P1', P3, P3', (P2 dir Hd), (P2' dir Hd).
  set (wl := wave_L _ _ _ _). set (wr := wave_R _ _ _ _). set (us := (_ / _)). destruct (rltb 0 us) eqn:Eu.
  - destruct (rltb 0 (wl * wr)); [exact F|]. unfold fl; cbn [f_rho f_m f_E].
    destruct H as (A & B & C), F as (F1 & F2 & F3). rewrite A, C, F1, F3, (P2 dir Hd), P3. repeat split; auto.
    intros d Hd'. destruct (Nat.eqb d dir); [reflexivity|]. now rewrite P2.
  - destruct (rltb 0 (wl * wr)); [exact F'|]. unfold fl; cbn [f_rho f_m f_E].
    destruct H' as (A & B & C), F' as (F1 & F2 & F3). rewrite A, C, F1, F3, (P2' dir Hd), P3'. repeat split; auto.
    intros d Hd'. destruct (Nat.eqb d dir); [reflexivity|]. now rewrite P2'.
Qed.

Lemma splitting_like q q' r r' dir : (dir < nd)%nat -> ql q q' -> ql r r' -> fl (splitting nd e q r dir) (splitting nd e q' r' dir).
Proof.
  intros Hd H H'. pose proof (to_prim_like _ _ H) as P. pose proof (to_prim_like _ _ H') as P'.
  unfold splitting. cbv zeta. pose proof P as (P1 & P2 & P3). pose proof P' as (P1' & P2' & P3').
  rewrite P1, P1', P3, P3', (P2 dir Hd), (P2' dir Hd).
  set (us := _ - _). destruct H as (A & B & C), H' as (A' & B' & C'). unfold fl; cbn [f_rho f_m f_E].
  destruct (rltb 0 us); [rewrite A, C|rewrite A', C']; repeat split; auto; intros d Hd'; [now rewrite B|now rewrite B'].
Qed.

Lemma riemann_like s q q' r r' dir : (dir < nd)%nat -> ql q q' -> ql r r' -> fl (riemann s nd e q r dir) (riemann s nd e q' r' dir).
Proof. destruct s; [apply hll_like|apply hllc_like|apply splitting_like]. Qed.

(** Reconstruction. *)
Lemma face_value_ext l m v v' c side d : (forall x, v x = v' x) -> face_value l m v c side d = face_value l m v' c side d.
Proof. intros H. unfold face_value, face_slope. now rewrite !H. Qed.

Definition f4 (n : nat) (a b : field4) : Prop := forall c, upto n (a c) (b c).

Lemma face_prim_like l m rho rho' u u' P P' c side d : (forall x, rho x = rho' x) -> f4 nd u u' -> (forall x, P x = P' x) ->
  pl (face_prim l m rho u P c side d) (face_prim l m rho' u' P' c side d).
Proof.
  intros A B C. unfold face_prim, pl; cbn [p_rho p_u p_P]. repeat split; [now apply face_value_ext| |now apply face_value_ext].
  intros n Hn. apply face_value_ext. intros x. now apply B.
Qed.
Lemma face_fx_like l m fx fx' c side d : f4 nfx fx fx' -> upto nfx (face_fx l m fx c side d) (face_fx l m fx' c side d).
Proof. intros B n Hn. apply face_value_ext. intros x. now apply B. Qed.

Lemma geo_source_like g m c h p p' r r' idim comp : (idim < nd)%nat -> (comp < nd)%nat -> pl p p' -> pl r r' ->
  geo_source g nd m c h p r idim comp = geo_source g nd m c h p' r' idim comp.
Proof.
  intros Hi Hc (A & B & C) (A' & B' & C'). unfold geo_source. destruct g; [reflexivity|]. cbv zeta. rewrite A, A', C, C'.
  assert (E : forall k, (k < nd)%nat -> p_u p k = p_u p' k /\ p_u r k = p_u r' k) by (intros k Hk; now rewrite B, B').
  destruct idim as [|[|[|]]], comp as [|[|[|]]]; try reflexivity;
  repeat match goal with |- context [if ?b then _ else _] => let Q := fresh "Q" in destruct b eqn:Q; try reflexivity end;
  repeat match goal with H : Nat.leb _ _ = true |- _ => apply Nat.leb_le in H | H : Nat.eqb _ _ = true |- _ => apply Nat.eqb_eq in H end;
  repeat match goal with |- context [p_u p ?k] => destruct (E k ltac:(lia)) as [-> ->] end; reflexivity.
Qed.

Section Hancock.
Variables (g : geom) (m : mesh) (gr gr' : gravity) (dt : R).
Hypothesis Hg : forall c d, gr c d = gr' c d.

Lemma hancock_cons_like fp fp' c side i : (forall s d, pl (fp s d) (fp' s d)) ->
  ql (hancock_cons g nd e m gr dt fp c side i) (hancock_cons g nd e m gr' dt fp' c side i).
Proof.
  intros H. unfold hancock_cons, ql; cbn [q_rho q_m q_E].
  destruct (to_cons_like _ _ (H side i)) as (A & B & C).
  assert (F : forall s d, (d < nd)%nat -> fl (flux_prim nd e (fp s d) d) (flux_prim nd e (fp' s d) d)) by (intros; now apply flux_prim_like).
  rewrite A, C. repeat split.
  - f_equal. vs. destruct (F 0%nat i0 H0) as (-> & _), (F 1%nat i0 H0) as (-> & _). reflexivity.
  - intros d Hd. rewrite Hg, (B d Hd). f_equal. f_equal. vs. destruct (F 0%nat i0 H0) as (_ & E1 & _), (F 1%nat i0 H0) as (_ & E2 & _). rewrite (E1 d Hd), (E2 d Hd).
    now rewrite (geo_source_like _ _ _ _ _ _ _ _ _ _ H0 Hd (H 0%nat i0) (H 1%nat i0)).
  - f_equal. vs. destruct (F 0%nat i0 H0) as (_ & _ & ->), (F 1%nat i0 H0) as (_ & _ & ->). now rewrite Hg, (B i0 H0).
Qed.
Lemma hancock_fx_like fp fp' fx fx' c side i : (forall s d, pl (fp s d) (fp' s d)) -> (forall s d, upto nfx (fx s d) (fx' s d)) ->
  upto nfx (hancock_fx g nd e m gr dt fp fx c side i) (hancock_fx g nd e m gr' dt fp' fx' c side i).
Proof.
  intros H Hx n Hn. unfold hancock_fx. destruct (hancock_cons_like fp fp' c side i H) as (-> & _).
  destruct (H side i) as (-> & _). rewrite (Hx side i n Hn). f_equal. f_equal. vs.
  destruct (flux_prim_like _ _ i0 H0 (H 0%nat i0)) as (-> & _), (flux_prim_like _ _ i0 H0 (H 1%nat i0)) as (-> & _).
  now rewrite (Hx 0%nat i0 n Hn), (Hx 1%nat i0 n Hn).
Qed.
End Hancock.

Definition rl (r r' : recon) : Prop := forall c s d, ql (r_q r c s d) (r_q r' c s d) /\ upto nfx (r_fx r c s d) (r_fx r' c s d).

Lemma reconstruction_like p g l m gr gr' dt rho rho' u u' P P' fx fx' old old' : (forall c d, gr c d = gr' c d) ->
  (forall x, rho x = rho' x) -> f4 nd u u' -> (forall x, P x = P' x) -> f4 nfx fx fx' -> rl old old' ->
  rl (hydro_reconstruction p g nd e l m gr dt rho u P fx old) (hydro_reconstruction p g nd e l m gr' dt rho' u' P' fx' old').
Proof.
  intros Hg A B C F O c s d. unfold hydro_reconstruction; cbn [r_q r_fx]. unfold kwrite. destruct (p c); [|apply O]. split.
  - apply hancock_cons_like; auto. intros. now apply face_prim_like.
  - apply hancock_fx_like; auto; intros; [now apply face_prim_like|now apply face_fx_like].
Qed.

(** Godunov. *)
Section God.
Variables (g : geom) (s : solver) (m : mesh) (gr gr' : gravity) (dt : R) (a a' : idx -> cell) (r r' : recon).
Hypothesis Hg : forall c d, gr c d = gr' c d.
Hypothesis Ha : forall c, cl (a c) (a' c).
Hypothesis Hr : rl r r'.

Lemma left_like c d : (d < nd)%nat -> fl (flux_left s nd e r c d) (flux_left s nd e r' c d).
Proof. intros Hd. unfold flux_left, face_flux. apply riemann_like; auto; apply Hr. Qed.
Lemma right_like c d : (d < nd)%nat -> fl (flux_right s nd e r c d) (flux_right s nd e r' c d).
Proof. intros Hd. unfold flux_right. apply riemann_like; auto; apply Hr. Qed.

Lemma god_cell_like c : cl (god_cell g nd e s m gr dt a r c) (god_cell g nd e s m gr' dt a' r' c).
Proof.
  destruct (Ha c) as (A & B & C & D). unfold god_cell, cl, same_cell; cbn [c_rho c_rhou c_E c_fx].
  assert (E : god_rho g nd e s m dt a r c = god_rho g nd e s m dt a' r' c).
  { unfold god_rho. rewrite A. f_equal. vs. destruct (left_like c i H) as (-> & _), (right_like c i H) as (-> & _). reflexivity. }
  rewrite E. repeat split.
  - intros d Hd. unfold god_rhou. rewrite (B d Hd), Hg, A. f_equal. f_equal. vs.
    destruct (left_like c i H) as (_ & E1 & _), (right_like c i H) as (_ & E2 & _). rewrite (E1 d Hd), (E2 d Hd).
    f_equal. apply geo_source_like; auto; apply to_prim_like; apply Hr.
  - unfold god_E. rewrite C. f_equal. vs. destruct (left_like c i H) as (_ & _ & ->), (right_like c i H) as (_ & _ & ->).
    now rewrite Hg, (B i H).
  - intros n Hn. f_equal. f_equal. unfold god_rhofx. rewrite (D n Hn), A. f_equal. vs. unfold fx_left, fx_right.
    destruct (left_like c i H) as (-> & _), (right_like c i H) as (-> & _). unfold flux_diff.
    repeat match goal with |- context [r_fx r ?x ?y ?z n] => rewrite (proj2 (Hr x y z) n Hn) end. reflexivity.
Qed.

Lemma cons_of_like x x' : cl x x' -> ql (cons_of x) (cons_of x').
Proof. intros (A & B & C & D). repeat split; auto. Qed.
Lemma eint_like x x' : cl x x' -> eint nd x = eint nd x'.
Proof. intros H. unfold eint. rewrite (ek_cons_like _ _ (cons_of_like _ _ H)). now destruct H as (_ & _ & -> & _). Qed.

Lemma pf_cell_like eps n n' c : cl (n c) (n' c) -> cl (pf_cell g nd e m dt eps a r n c) (pf_cell g nd e m dt eps a' r' n' c).
Proof.
  intros Hn. unfold pf_cell.
  assert (Ei : forall x, eint nd (a x) = eint nd (a' x)) by (intros; now apply eint_like).
  assert (Ek : ekin nd a c = ekin nd a' c) by (unfold ekin; now apply ek_cons_like, cons_of_like).
  rewrite Ei, Ek. destruct (rltb _ _); [|exact Hn].
  assert (Ul : forall d i, (i < nd)%nat -> us_left nd e r c d i = us_left nd e r' c d i).
  { intros d i Hi. unfold us_left. destruct (to_prim_like _ _ (proj1 (Hr (lindex d c) 1%nat d))) as (_ & E1 & _).
    destruct (to_prim_like _ _ (proj1 (Hr c 0%nat d))) as (_ & E2 & _). now rewrite (E1 i Hi), (E2 i Hi). }
  assert (Ur : forall d i, (i < nd)%nat -> us_right nd e r c d i = us_right nd e r' c d i).
  { intros d i Hi. unfold us_right. destruct (to_prim_like _ _ (proj1 (Hr (rindex d c) 0%nat d))) as (_ & E1 & _).
    destruct (to_prim_like _ _ (proj1 (Hr c 1%nat d))) as (_ & E2 & _). now rewrite (E1 i Hi), (E2 i Hi). }
  assert (Ed : de_pf g nd e m dt a r c = de_pf g nd e m dt a' r' c).
  { unfold de_pf. destruct (to_prim_like _ _ (cons_of_like _ _ (Ha c))) as (_ & _ & ->). f_equal. f_equal; [f_equal|].
    - unfold div_u. vs. vs. now rewrite Ul, Ur.
    - unfold div_ue. vs. vs. unfold ein_right, ein_left. now rewrite Ul, Ur, !Ei. }
  destruct Hn as (A & B & C & D). unfold cl, same_cell; cbn [c_rho c_rhou c_E c_fx]. repeat split; auto.
  unfold pf_energy, alpha. cbv zeta. rewrite Ed, !Ei, Ek. rewrite (eint_like (n c) (n' c)) by (repeat split; auto).
  f_equal. f_equal. vs. destruct (Ha c) as (-> & F & _). now rewrite (F i H).
Qed.
End God.

Lemma user_cell_like k t dt x x' : (k = UHeatNickel -> (0 < nfx)%nat) -> cl x x' -> cl (user_cell k t dt x) (user_cell k t dt x').
Proof.
  intros Hk (A & B & C & D). destruct k; [repeat split; auto|]. cbn [user_cell]. unfold cl, same_cell; cbn [c_rho c_rhou c_E c_fx].
  rewrite A, C, (D 0%nat (Hk eq_refl)). repeat split; auto.
Qed.

(** Boundaries. *)
Definition wl (W W' : world cell) : Prop := forall r c, cl (W r c) (W' r c).
Lemma ghost_sync_like dims ext ng d f W W' : wl W W' -> wl (ghost_sync dims ext ng d f W) (ghost_sync dims ext ng d f W').
Proof. intros H r c. unfold ghost_sync. destruct f; destruct (in_boxb _ _ _); apply H. Qed.
Lemma sync_like dims ext ng n W W' : wl W W' -> wl (sync_dims dims ext ng n W) (sync_dims dims ext ng n W').
Proof. intros H. induction n; [exact H|]. cbn [sync_dims]. now do 2 apply ghost_sync_like. Qed.
Lemma bc_step_like dims ext ng bcs W W' f : wl W W' -> wl (bc_step dims ext ng bcs W f) (bc_step dims ext ng bcs W' f).
Proof.
  intros H r c. unfold bc_step. destruct (is_border _ _ _ _); [|apply H].
  destruct (bcs f); cbn [bc_apply]; [| apply H|]; unfold kwrite; destruct (in_boxb _ _ _); try apply H.
  unfold reflexive_body. destruct (H r (set_coord (Nat.div f 2) (match Nat.modulo f 2 with 0%nat => 2 * ng - 1 | _ => 2 * (coord (Nat.div f 2) (ext r) - ng) - 1 end - coord (Nat.div f 2) c)%Z c)) as (A & B & C & D).
  unfold negate_momentum. unfold cl, same_cell; cbn [c_rho c_rhou c_E c_fx]. repeat split; auto.
  intros d Hd. now rewrite (B d Hd).
Qed.
Lemma update_like d dims ext ng bcs order W W' : wl W W' -> wl (boundary_update d dims ext ng bcs order W) (boundary_update d dims ext ng bcs order W').
Proof.
  intros H. unfold boundary_update. pose proof (sync_like dims ext ng d W W' H) as H1. revert H1. generalize (sync_dims dims ext ng d W) (sync_dims dims ext ng d W').
  induction order as [|f o IH]; intros A B HAB; [exact HAB|]. cbn [fold_left]. apply IH. now apply bc_step_like.
Qed.
End Phantom.

Section Step.
Variables (K : config) (L : layout) (nfx : nat).
Notation nd := (k_nd K).
Notation sl := (same_components nd nfx).
Hypothesis Hk : k_user K = UHeatNickel -> (0 < nfx)%nat.

Lemma gravity_like A A' r c d : (forall r c, c_rho (A r c) = c_rho (A' r c)) -> gravity_values K L A r c d = gravity_values K L A' r c d.
Proof.
  intros H. unfold gravity_values. destruct (k_grav K); try reflexivity. unfold radial_gravity. destruct d; [|reflexivity].
  assert (E : forall i, shell_mean K L A r i = shell_mean K L A' r i).
  { intros i. unfold shell_mean. f_equal. unfold shell_sum. apply lsum_ext. intros r' _. apply lsum_ext. intros c' _. now rewrite H. }
  assert (E1 : forall n, enclosed_mass (l_mesh L r) M (ii (nghost_of nd (k_ng K))) (shell_mean K L A r) n =
    enclosed_mass (l_mesh L r) M (ii (nghost_of nd (k_ng K))) (shell_mean K L A' r) n).
  { induction n; cbn [enclosed_mass]; [now rewrite E|]. now rewrite IHn, !E. }
  unfold mass_r. now rewrite E1.
Qed.

Lemma rec_like t S S' : (forall r, sl (S r) (S' r)) -> forall r, rl nd nfx (step_rec K L t S r) (step_rec K L t S' r).
Proof.
  intros H r. destruct (H r) as (A & B & C & D & E & F). unfold step_rec.
  apply reconstruction_like; auto; [intros x; apply (A x)|intros x; apply (A x)].
Qed.
Lemma user_like t dt S S' : (forall r, sl (S r) (S' r)) -> wl nd nfx (step_user K L t dt S) (step_user K L t dt S').
Proof.
  intros H r c. pose proof (rec_like dt S S' H r) as Hr. destruct (H r) as (A & B & C & D & E & F).
  assert (G : forall c, cl nd nfx (step_godunov K L dt S r c) (step_godunov K L dt S' r c)).
  { intros x. unfold step_godunov, godunov, kwrite. destruct (sel _ _ _ _ _); [|apply E]. now apply god_cell_like. }
  assert (P : forall c, cl nd nfx (step_pf K L dt S r c) (step_pf K L dt S' r c)).
  { intros x. unfold step_pf. destruct (k_pf K); [|apply G]. unfold pressure_fix, kwrite. destruct (sel _ _ _ _ _); [|apply G].
    now apply pf_cell_like. }
  unfold step_user, user_step, kwrite. destruct (sel _ _ _ _ _); [|apply P]. now apply user_cell_like.
Qed.
Lemma finish_like A A' rec rec' new new' S S' : wl nd nfx A A' -> (forall r, rl nd nfx (rec r) (rec' r)) -> wl nd nfx new new' ->
  (forall r, sl (S r) (S' r)) -> forall r, sl (finish K L A rec new S r) (finish K L A' rec' new' S' r).
Proof.
  intros HA HR HN HS r. destruct (HS r) as (_ & B & C & _).
  assert (T : forall c, pl nd (to_prim nd (k_eos K) (cons_of (A r c))) (to_prim nd (k_eos K) (cons_of (A' r c)))).
  { intros c. apply to_prim_like. eapply cons_of_like, HA. }
  unfold finish, same_components; cbn [s_cell s_u s_P s_rec s_new s_grav conv_cons_to_prim fst snd]. repeat split; try apply HA; try apply HN.
  - intros c. unfold kwrite. destruct (sel _ _ _ _ _); [|apply B]. apply (T c).
  - intros c. unfold kwrite. destruct (sel _ _ _ _ _); [|apply C]. apply (T c).
  - apply HR.
  - apply HR.
  - apply HR.
  - apply HR.
  - intros c d. apply gravity_like. intros r' c'. apply HA.
Qed.
Lemma full_step_like t dt S S' : (forall r, sl (S r) (S' r)) -> forall r, sl (full_step K L t dt S r) (full_step K L t dt S' r).
Proof.
  intros H. unfold full_step. assert (W : wl nd nfx (bcs_update K L (step_user K L t dt S)) (bcs_update K L (step_user K L t dt S'))).
  { apply update_like. now apply user_like. }
  apply finish_like; auto. now apply rec_like.
Qed.
Lemma init_like S S' : (forall r, sl (S r) (S' r)) -> forall r, sl (init_state K L S r) (init_state K L S' r).
Proof.
  intros H. unfold init_state. apply finish_like; auto.
  - apply update_like. intros r c. unfold init_cons. destruct (H r) as (A & B & C & _). destruct (A c) as (A1 & A2 & A3 & A4).
    cbn [conv_prim_to_cons fst snd]. unfold kwrite.
    destruct (to_cons_like nd (k_eos K) (mkPrim (c_rho (s_cell (S r) c)) (s_u (S r) c) (s_P (S r) c)) (mkPrim (c_rho (s_cell (S' r) c)) (s_u (S' r) c) (s_P (S' r) c)))
      as (Q1 & Q2 & Q3); [repeat split; cbn; auto; apply B|].
    destruct (sel _ _ _ _ _); repeat split; cbn [c_rho c_rhou c_E c_fx]; auto.
  - intros r. destruct (H r) as (_ & _ & _ & R & _). exact R.
  - intros r c. destruct (H r) as (_ & _ & _ & _ & R & _). apply R.
Qed.

Lemma time_step_like S S' : (forall r, sl (S r) (S' r)) -> time_step K L S = time_step K L S'.
Proof.
  intros H. unfold time_step. replace (all_values K L (k_ng K) (cell_inverse_dt K L S)) with (all_values K L (k_ng K) (cell_inverse_dt K L S')); [reflexivity|].
  unfold all_values. apply flat_map_ext. intros r. apply map_ext. intros c. unfold cell_inverse_dt, inverse_dt. vs.
  destruct (H r) as (A & B & C & _). destruct (A c) as (-> & _). now rewrite (B c i H0), C.
Qed.
Lemma min_energy_like S S' : (forall r, sl (S r) (S' r)) -> minimum_internal_energy K L S = minimum_internal_energy K L S'.
Proof.
  intros H. unfold minimum_internal_energy. f_equal.
  unfold all_values. apply flat_map_ext. intros r. apply map_ext. intros c. unfold cell_internal. apply evol_like.
  eapply cons_of_like. apply (H r).
Qed.

Lemma cong cfl s s' : (forall r, sl (s r) (s' r)) ->
  y_dt (hydro K L cfl) s = y_dt (hydro K L cfl) s' /\ y_bad (hydro K L cfl) s = y_bad (hydro K L cfl) s' /\
  forall t dt, forall r, sl (y_step (hydro K L cfl) t dt s r) (y_step (hydro K L cfl) t dt s' r).
Proof.
  intros H. cbn [hydro y_dt y_bad y_step]. rewrite (time_step_like s s' H), (min_energy_like s s' H).
  split; [reflexivity|]. split; [reflexivity|]. intros t dt. now apply full_step_like.
Qed.
End Step.
