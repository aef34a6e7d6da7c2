(** * Proofs for C90: what an accepted parameter file guarantees, and what it does not. *)
From Coq Require Import List Ascii Reals Lra Lia ZifyBool.
From Coq Require String.
From Flocq Require Import Core.
From Verif Require Import Base RBase ModelMesh ModelGeom ModelBoundary ModelHydro ModelRad ModelStep ModelUtil ModelIni ModelMain ModelSetup ModelParam SpecMesh SpecIni SpecParam ProofBase ProofR ProofMesh ProofIni ProofIniNum ProofParam.
Local Open Scope string_scope.
Local Open Scope Z_scope.
Local Open Scope list_scope.

(** ** Accepted files *)
Lemma obind_ok {A B : Type} (o : outcome A) (f : A -> outcome B) y : obind o f = Ok y -> exists x, o = Ok x /\ f x = Ok y.
Proof. destruct o; cbn; intros H; try discriminate. eauto. Qed.

Ltac names_in w :=
  repeat match goal with |- context [String.eqb w ?x] => destruct (String.eqb_spec w x) as [->|_]; [cbn [obind]; intros [= <-]; cbn [In]; tauto|] end;
  cbn [obind]; discriminate.
Lemma limiter_ok w l : factory_limiter w = Ok l -> named limiter_table w l.
Proof.
  unfold factory_limiter, named, limiter_table. names_in w.
Qed.
Lemma solver_ok w l : factory_solver w = Ok l -> named solver_table w l.
Proof.
  unfold factory_solver, named, solver_table. names_in w.
Qed.
Lemma user_ok w l : or_setup factory_user_step w = Ok l -> named user_table w l.
Proof.
  unfold or_setup, factory_user_step, named, user_table. names_in w.
Qed.
Lemma bc_ok w l : or_setup factory_boundary w = Ok l -> named bc_table w l.
Proof.
  unfold or_setup, factory_boundary, named, bc_table. names_in w.
Qed.
Lemma grid_ok w l : or_setup factory_grid_type w = Ok l -> named grid_table w l.
Proof.
  unfold or_setup, factory_grid_type, named, grid_table. names_in w.
Qed.
Lemma omap_forall2 {A B : Type} (f : A -> outcome B) l : forall ys, omap f l = Ok ys -> Forall2 (fun a y => f a = Ok y) l ys.
Proof.
  induction l as [|a l IH]; intros ys H; cbn [omap] in H; [injection H as <-; constructor|].
  apply obind_ok in H. destruct H as (y & E & H). apply obind_ok in H. destruct H as (ys' & E' & H). injection H as <-. constructor; auto.
Qed.

Lemma gas_ok k p g : make_eos k p = Ok g ->
  exists ga mu, pm_gamma p = Finite ga /\ pm_mu p = Finite mu /\ (1 < ga)%R /\ (0 < mu)%R /\ gas_is k ga mu g.
Proof.
  unfold make_eos, make_perfect_gas, make_rad_gas.
  destruct (pm_gamma p) as [ga| |] eqn:Eg; destruct k; cbn [xreal_of xfinite negb orb xleb obind]; try discriminate.
  all: destruct (rleb ga 1) eqn:Lg; cbn [obind]; try discriminate.
  all: destruct (pm_mu p) as [mu| |] eqn:Em; cbn [xreal_of xfinite negb orb xleb obind]; try discriminate.
  all: destruct (rleb mu 0) eqn:Lm; cbn [obind]; try discriminate.
  all: intros [= <-]; exists ga, mu; rewrite rleb_false in Lg, Lm; repeat (split; [first [reflexivity|assumption]|]); reflexivity.
Qed.

(** A negative number of cells makes the bounds of the range of every process negative. *)
Lemma decomp_negative N p r : N < 0 -> 1 <= p -> 0 <= r < p ->
  decomp_cmin N p r < 0 \/ decomp_cmin N p r + decomp_nloc N p r < decomp_cmin N p r.
Proof.
  intros HN Hp Hr. unfold decomp_cmin, decomp_nloc.
  pose proof (Z.quot_rem' N p) as E. assert (Q : Z.rem N p <= 0 /\ - p < Z.rem N p) by (pose proof (Z.rem_bound_pos (- N) p ltac:(lia) ltac:(lia)) as B; rewrite Z.rem_opp_l in B by lia; lia).
  assert (Z.quot N p <= 0) by nia. destruct (Z.ltb_spec r (Z.rem N p)); [lia|]. destruct (Z.eq_dec (Z.quot N p) 0); [left; nia|right; lia].
Qed.
Lemma grid_extents nd p dims rank dec : process_of nd dims rank -> make_grid nd p dims rank = Ok dec ->
  0 <= pm_nx0 p /\ 0 <= pm_nx1 p /\ 0 <= pm_nx2 p.
Proof.
  intros Pr H. unfold make_grid in H. apply obind_ok in H. destruct H as (dec' & E & _). clear dec.
  set (N := I3 (pm_nx0 p) (pm_nx1 p) (pm_nx2 p)) in *.
  assert (G : forall d, (d < 3)%nat -> 0 <= coord d N).
  { intros d Hd. destruct (Z_lt_le_dec (coord d N) 0) as [L|L]; [exfalso|exact L].
    unfold mpi_decomposition in E. destruct (_ || _)%bool in E; [discriminate|].
    apply obind_ok in E. destruct E as (rg & E & _).
    assert (Q : exists r, make_range nd (mk3 (fun d => decomp_cmin (coord d N) (coord d (mpi_dims nd dims)) (coord d rank)))
        (mk3 (fun d => coord d (mk3 (fun d => decomp_cmin (coord d N) (coord d (mpi_dims nd dims)) (coord d rank))) +
                       coord d (mk3 (fun d => decomp_nloc (coord d N) (coord d (mpi_dims nd dims)) (coord d rank))))) (pm_ng p) = Ok r) by (exists rg; exact E).
    rewrite make_range_ok_iff in Q. specialize (Q d Hd). rewrite !coord_mk3 in Q by exact Hd.
    pose proof (process_valid nd dims rank Pr d Hd) as V.
    pose proof (decomp_negative (coord d N) (coord d (mpi_dims nd dims)) (coord d rank) L ltac:(lia) ltac:(lia)). lia. }
  split; [exact (G 0%nat ltac:(lia))|split; [exact (G 1%nat ltac:(lia))|exact (G 2%nat ltac:(lia))]].
Qed.

Theorem accepted_file : forall b dims rank f r, process_of (b_nd b) dims rank -> startup b dims rank f = Ok r ->
  let p := r_param r in
  (exists ga mu, pm_gamma p = Finite ga /\ pm_mu p = Finite mu /\ (1 < ga)%R /\ (0 < mu)%R /\ gas_is (b_eos b) ga mu (r_gas r)) /\
  0 <= pm_nx0 p /\ 0 <= pm_nx1 p /\ 0 <= pm_nx2 p /\
  (exists ws, List.length ws = (2 * b_nd b)%nat /\ Forall2 (named bc_table) ws (r_bcs r)) /\
  (if pm_restart p then r_grid r = None else exists c, r_grid r = Some c /\ named grid_table (pm_grid_type p) c) /\
  generate_order (b_nd b) (pm_priority p) = Ok (r_order r) /\
  named limiter_table (pm_reconstruction p) (r_lim r) /\ named solver_table (pm_riemann p) (r_sol r) /\
  named user_table (pm_user_step p) (r_user r).
Proof.
  intros b dims rank f r Pr H p. unfold startup in H. apply obind_ok in H. destruct H as (m & _ & H). unfold startup_from in H.
  apply obind_ok in H. destruct H as (p' & E1 & H). apply obind_ok in H. destruct H as (ps & E2 & H).
  apply obind_ok in H. destruct H as (dec & E3 & H). apply obind_ok in H. destruct H as (g & E4 & H).
  apply obind_ok in H. destruct H as (ws & E5 & H). apply obind_ok in H. destruct H as (gt & E6 & H).
  apply obind_ok in H. destruct H as (u & E7 & H). apply obind_ok in H. destruct H as (bcs & E8 & H).
  apply obind_ok in H. destruct H as (order & E9 & H). apply obind_ok in H. destruct H as (lim & E10 & H).
  apply obind_ok in H. destruct H as (sol & E11 & H). apply obind_ok in H. destruct H as (us & E12 & H).
  injection H as <-. cbn [r_param r_gas r_bcs r_grid r_order r_lim r_sol r_user] in *. subst p.
  split; [exact (gas_ok _ _ _ E4)|]. destruct (grid_extents _ _ _ _ _ Pr E3) as (X0 & X1 & X2).
  split; [exact X0|split; [exact X1|split; [exact X2|]]].
  split. { exists ws. split.
    - unfold bc_names in E5. apply omap_forall2 in E5. rewrite <- (seq_length (2 * b_nd b) 0). clear - E5.
      induction E5; cbn [List.length]; congruence.
    - apply omap_forall2 in E8. clear - E8. induction E8 as [|w c ws cs A B IH]; constructor; [now apply bc_ok|exact IH]. }
  split. { destruct (pm_restart p'); [now injection E6 as <-|]. apply obind_ok in E6. destruct E6 as (c & E & H). injection H as <-.
    exists c. split; [reflexivity|now apply grid_ok]. }
  split; [exact E9|]. split; [now apply limiter_ok|]. split; [now apply solver_ok|now apply user_ok].
Qed.

(** ** Meshes that the index arithmetic cannot handle *)
Theorem overflow : forall b T f dims rank p ps, (1 <= b_nd b <= 3)%nat -> file_with T f ->
  described T p -> described_setup T (b_setup b) ps -> process_of (b_nd b) dims rank ->
  0 <= pm_ng p -> 0 <= pm_nx0 p -> 0 <= pm_nx1 p -> 0 <= pm_nx2 p -> 2 ^ 31 <= pm_nx0 p + 2 * pm_ng p + 1 ->
  startup b dims rank (Some f) = UB "signed overflow".
Proof.
  intros b T f dims rank p ps Hnd Hf Hp Hs Pr G X0 X1 X2 O. destruct (file_reader T f Hf) as (m & Rm & Hm).
  unfold startup. rewrite Rm. cbn [obind]. unfold startup_from. rewrite (param_says T m p Hm Hp). cbn [obind].
  rewrite (setup_says T m (b_setup b) ps Hm Hs). cbn [obind]. unfold make_grid.
  rewrite mpi_decomposition_ok; [|intros [|[|[|d]]] Hd; [exact X0|exact X1|exact X2|lia]|exact (process_valid _ _ _ Pr)].
  cbn [obind].
  match goal with |- context [forallb int32 ?l] => assert (Q : forallb int32 l = false) end; [|now rewrite Q].
  destruct (forallb int32 _) eqn:E; [exfalso|reflexivity]. rewrite forallb_forall in E.
  assert (K : int32 (pm_nx0 p + 2 * pm_ng p + 1) = true).
  { apply E. apply in_flat_map. exists 0%nat. split; [now left|]. unfold grid_ints. cbv zeta.
    assert (N0 : coord 0 (nghost_of (b_nd b) (pm_ng p)) = pm_ng p).
    { unfold nghost_of. rewrite coord_mk3 by lia. destruct (Nat.ltb_spec 0 (b_nd b)); [reflexivity|lia]. }
    rewrite N0. rewrite !in_app_iff. right. right. cbn [In coord ii]. tauto. }
  unfold int32, int_max in K. change (2 ^ 31) with 2147483648 in O. lia.
Qed.

(** ** A negative CFL number *)
Section Backwards.
Context {S : Type} (D : dynamics S) (p : params) (clock : Z -> bool).
Hypothesis Ht : (p_t_ini p < p_t_end p)%R.
Hypothesis Hfirst : (0 < p_time_freq p)%R -> (p_t_ini p < p_time_first p)%R.

Let good (m : mstate S) : Prop := (m_t m <= p_t_ini p)%R /\ m_tid m = -1.
Lemma output_t (m : mstate S) : m_t (output m) = m_t m /\ m_tid (output m) = m_tid m.
Proof. now split. Qed.
Lemma back_body (m m' : mstate S) v : (y_dt D (m_st m) < 0)%R -> good m -> ModelMain.body D p clock m = (m', v) -> good m'.
Proof.
  intros Hdt [G1 G2] H. unfold ModelMain.body in H.
  destruct (negb (int32 (m_iter m + 1))); [injection H as <- <-; now split|].
  destruct (iter_schedule p m) as [[o1 iid]| |]; [|injection H as <- <-; now split..].
  assert (Q : time_schedule p m (y_dt D (m_st m)) = Ok (false, -1, y_dt D (m_st m))).
  { unfold time_schedule. rewrite G2. destruct (rltb 0 (p_time_freq p)) eqn:F; [|reflexivity]. apply rltb_true in F.
    specialize (Hfirst F). cbv zeta. replace (-1 + 1) with 0 by lia.
    assert (L : rleb (p_time_first p + IZR 0 * p_time_freq p) (m_t m + y_dt D (m_st m)) = false)
      by (apply rleb_false; lra). rewrite L. reflexivity. }
  rewrite Q in H. unfold clip_to_end in H.
  assert (L : rleb (p_t_end p) (m_t m + y_dt D (m_st m)) = false) by (apply rleb_false; lra). rewrite L in H.
  destruct (y_bad D (m_st m)).
  - injection H as <- <-. split; cbn; [exact G1|reflexivity].
  - injection H as <- <-.
    match goal with |- good ?x => assert (K : m_t x = (m_t m + y_dt D (m_st m))%R /\ m_tid x = -1) end.
    { destruct (o1 || false || _); [apply output_t|now split]. }
    destruct K as [K1 K2]. split; [lra|exact K2].
Qed.
Lemma back_loop n : forall m m' v, (forall k x, loop D p clock k m = (x, Going) -> (y_dt D (m_st x) < 0)%R) -> good m ->
  loop D p clock n m = (m', v) -> (m_t m' <= p_t_ini p)%R.
Proof.
  induction n as [|n IH]; intros m m' v Hd G H.
  - injection H as <- <-. apply G.
  - cbn [loop] in H. destruct (ModelMain.body D p clock m) as [m1 v1] eqn:E.
    pose proof (back_body m m1 v1 (Hd 0%nat m eq_refl) G E) as G1.
    destruct v1; [|injection H as <- <-; apply G1..]. apply (IH m1 m' v); [|exact G1|exact H].
    intros k x Hk. apply (Hd (Datatypes.S k) x). cbn [loop]. rewrite E. exact Hk.
Qed.
Theorem time_runs_backwards s :
  (forall k x, loop D p clock k (fresh p s) = (x, Going) -> (y_dt D (m_st x) < 0)%R) ->
  forall n m' v, loop D p clock n (fresh p s) = (m', v) -> (m_t m' <= p_t_ini p)%R.
Proof.
  intros Hd n m' v H. apply (back_loop n (fresh p s) m' v Hd); [|exact H].
  unfold fresh. destruct (_ || _); split; cbn; lra || reflexivity.
Qed.
End Backwards.
Lemma negative_cfl K L cfl p clock s : (cfl < 0)%R -> (p_t_ini p < p_t_end p)%R -> ((0 < p_time_freq p)%R -> (p_t_ini p < p_time_first p)%R) ->
  (forall k x, loop (hydro K L cfl) p clock k (fresh p s) = (x, Going) -> exists h, time_step K L (m_st x) = Some h /\ (0 < h)%R) ->
  forall n m' v, loop (hydro K L cfl) p clock n (fresh p s) = (m', v) -> (m_t m' <= p_t_ini p)%R.
Proof.
  intros Hc Ht Hf Hd n m' v H. apply (time_runs_backwards (hydro K L cfl) p clock Ht Hf s) with (n := n) (v := v); [|exact H].
  intros k x Hk. destruct (Hd k x Hk) as (h & E & Hh). cbn [hydro y_dt]. rewrite E. nra.
Qed.
