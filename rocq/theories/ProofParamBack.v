(** * A run with a negative CFL number (C90). *)
From Coq Require Import Reals Lra Lia.
From Verif Require Import Base RBase ModelMesh ModelGeom ModelBoundary ModelHydro ModelScheme ModelStep ModelMain
  SpecGeom SpecBoundary SpecHydro SpecScheme SpecStep SpecMain ProofBase ProofR ProofSteady ProofLayout ProofStepEx ProofMain ProofRestart ProofMain2
  ProofMainEx ProofParam2.
Local Open Scope R_scope.

Section Reached.
Context (K : config) (L : layout) (cfl : R) (p : params) (clock : Z -> bool) (s : idx -> pstate).
Lemma reached_run n : forall m x, (exists ts, m_st m = run K L ts s) -> loop (hydro K L cfl) p clock n m = (x, Going) ->
  exists ts, m_st x = run K L ts s.
Proof.
  induction n as [|n IH]; intros m x Hm H; [now injection H as <-|].
  cbn [loop] in H. destruct (ModelMain.body (hydro K L cfl) p clock m) as [m1 v] eqn:E.
  destruct v; try discriminate. apply (IH m1 x); [|exact H].
  destruct (body_inv _ _ _ _ _ _ E) as (o1 & iid & o2 & tid & dt2 & stop1 & dt & _ & _ & _ & _ & _ & -> & _); [now left|].
  destruct Hm as (ts & Hm). exists (ts ++ [(m_t m, dt)]). unfold run. rewrite fold_left_app. cbn [fold_left fst snd]. fold (run K L ts s). rewrite <- Hm.
  pose proof (step_of_fields (hydro K L cfl) m o1 iid o2 tid (stop1 || (p_max_iter p <=? m_iter m + 1)%Z || clock (m_iter m)) dt) as F. apply F.
Qed.
Lemma fresh_st : m_st (fresh p s) = s.
Proof. unfold fresh. now destruct (_ || _). Qed.
End Reached.

(** The gas of ProofMainEx.v with CFL number -1/2. *)
Lemma gas_backwards : let K := ex_K ex_bcs Cartesian in let L := ex_L ex_bcs Cartesian in
  let S0 := init_state K L (the_state K L (ex_G ex_u)) in
  forall p clock, p_t_ini p < p_t_end p -> (0 < p_time_freq p -> p_t_ini p < p_time_first p) ->
  (forall k x, loop (hydro K L (-1 / 2)) p clock k (fresh p S0) = (x, Going) -> exists h, time_step K L (m_st x) = Some h /\ 0 < h) /\
  forall n m' v, loop (hydro K L (-1 / 2)) p clock n (fresh p S0) = (m', v) -> m_t m' <= p_t_ini p.
Proof.
  intros K L S0 p clock Ht Hf.
  assert (A : forall k x, loop (hydro K L (-1 / 2)) p clock k (fresh p S0) = (x, Going) -> exists h, time_step K L (m_st x) = Some h /\ 0 < h).
  { intros k x Hk. destruct (reached_run K L (-1 / 2) p clock S0 k (fresh p S0) x) as (ts & E); [exists []; apply fresh_st|exact Hk|].
    destruct (gas_good ts) as (_ & _ & _ & P). rewrite E. cbn [hydro y_dt] in P. change (run K L ts S0) with (run (ex_K ex_bcs Cartesian) (ex_L ex_bcs Cartesian) ts (init_state (ex_K ex_bcs Cartesian) (ex_L ex_bcs Cartesian) (the_state (ex_K ex_bcs Cartesian) (ex_L ex_bcs Cartesian) (ex_G ex_u)))).
    subst K L. destruct (time_step _ _ _) as [h|]; [exists h; split; [reflexivity|lra]|lra]. }
  split; [exact A|]. apply negative_cfl; [lra|exact Ht|exact Hf|exact A].
Qed.
