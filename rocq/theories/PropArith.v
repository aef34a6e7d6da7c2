(** * Results to the last bit (C86-C88): theorems only. *)
From Flocq Require Import IEEE754.BinarySingleNaN.
From Verif Require Import Base RBase ModelMesh ModelGeom ModelBoundary ModelHydro ModelScheme ModelStep ModelArith ModelFloat ModelArith64
  SpecBoundary SpecHydro SpecStep SpecArith
  ProofBoundary ProofLayout ProofStepEx ProofArithReal ProofArith ProofArith64 ProofArithNum ProofArithUniform ProofArithRestart
  ProofArithEx ProofArithEx2 ProofArithEx3.
Local Open Scope R_scope.

(** C86: with the same operations performed on numbers of any kind, a run on any process grid ends at the same
    time with the same bits in every cell as the run on one process, whatever the order of the global
    reductions, as long as no inverse time step is NaN. *)
Theorem C86_any_arithmetic :
  forall A good K N dims X L L1, ordered A good -> runs_on K N dims X L -> laid_out K N one_process X L1 -> local_gravity K ->
  forall G S S1 cfl n t t' S' t1' S1', starts_from K dims L G S -> starts_from K one_process L1 G S1 ->
  good_run A good K L1 cfl n t (ainit_state A K L1 S1) ->
  aruns A K L cfl n t (ainit_state A K L S) t' S' -> aruns A K L1 cfl n t (ainit_state A K L1 S1) t1' S1' ->
  t' = t1' /\ same_results K dims L S' S1'.
Proof. exact bitwise_grid. Qed.
Print Assumptions C86_any_arithmetic.

(** In IEEE binary64 with rounding to nearest and any sin, cos, exp. *)
Theorem C86_binary64 :
  forall dsin dcos dexp, let A := b64 dsin dcos dexp in
  forall K N dims X L L1, runs_on K N dims X L -> laid_out K N one_process X L1 -> local_gravity K ->
  forall G S S1 cfl n t t' S' t1' S1', starts_from K dims L G S -> starts_from K one_process L1 G S1 ->
  good_run A good64 K L1 cfl n t (ainit_state A K L1 S1) ->
  aruns A K L cfl n t (ainit_state A K L S) t' S' -> aruns A K L1 cfl n t (ainit_state A K L1 S1) t1' S1' ->
  t' = t1' /\ same_results K dims L S' S1'.
Proof. intros dsin dcos dexp A K N dims X L L1. exact (bitwise_grid A good64 K N dims X L L1 (b64_ordered dsin dcos dexp)). Qed.
Print Assumptions C86_binary64.

(** When the time steps are given, NaN and infinities are allowed everywhere. *)
Theorem C86_given_time_steps :
  forall A K N dims X L L1, runs_on K N dims X L -> laid_out K N one_process X L1 -> local_gravity K ->
  forall G S S1 ts, starts_from K dims L G S -> starts_from K one_process L1 G S1 ->
  same_results K dims L (fold_left (fun U s => afull_step A K L (fst s) (snd s) U) ts (ainit_state A K L S))
                        (fold_left (fun U s => afull_step A K L1 (fst s) (snd s) U) ts (ainit_state A K L1 S1)).
Proof. exact given_grid. Qed.
Print Assumptions C86_given_time_steps.

(** A NaN among the values makes the global maximum depend on the order in which it is taken. *)
Theorem C86_nan_refuted :
  forall dsin dcos dexp, let A := b64 dsin dcos dexp in let nan := enc dnan in let one := a_lit A 1 0 in
  reduces A [nan; one] nan /\ reduces A [nan; one] one /\ nan <> one.
Proof. exact nan_order. Qed.
Print Assumptions C86_nan_refuted.

(** The operations of this model, performed exactly, are the functions of the exact model; its literals are
    correctly rounded in binary64. *)
Theorem C86_agrees_with_the_exact_model :
  forall K L, (k_nd K <= 3)%nat -> local_gravity K ->
  (forall t dt S, afull_step real_arith K L t dt S = full_step K L t dt S) /\
  (forall S, ainit_state real_arith K L S = init_state K L S) /\
  (forall S r c, acell_inverse_dt real_arith K L S r c = cell_inverse_dt K L S r c).
Proof.
  intros K L Hn Hg.
  exact (conj (afull_step_real K L Hn Hg) (conj (ainit_state_real K L Hg) (ainverse_dt_real K L Hn))).
Qed.
Print Assumptions C86_agrees_with_the_exact_model.

Theorem C86_literals :
  forall m k, Rabs (rnd64 (IZR m / 10 ^ k)) < Raux.bpow Zaux.radix2 1024 ->
  B2R (dlit m k) = rnd64 (IZR m / 10 ^ k) /\ is_finite (dlit m k) = true.
Proof. exact dlit_round. Qed.
Print Assumptions C86_literals.

(** A run of 7 x 5 cells on 3 x 2 processes in binary64, for any number of steps. *)
Example C86_example : forall dsin dcos dexp n, let A := b64 dsin dcos dexp in let K := K64 dsin dcos dexp in
  let L := L64 dsin dcos dexp in let L1 := L64_1 dsin dcos dexp in let G := G64 (fun _ => IZR one_code) in
  runs_on K ex_N ex_dims X64 L /\ laid_out K ex_N one_process X64 L1 /\ local_gravity K /\
  starts_from K ex_dims L G (the_state K L G) /\ starts_from K one_process L1 G (the_state K L1 G) /\
  good_run A good64 K L1 (lit 5 1) n (lit 0 0) (ainit_state A K L1 (the_state K L1 G)) /\
  (exists t' S', aruns A K L (lit 5 1) n (lit 0 0) (ainit_state A K L (the_state K L G)) t' S') /\
  (exists t' S', aruns A K L1 (lit 5 1) n (lit 0 0) (ainit_state A K L1 (the_state K L1 G)) t' S').
Proof.
  intros dsin dcos dexp n. cbv zeta. pose proof (runs64 dsin dcos dexp) as HR. pose proof (runs64_1 dsin dcos dexp) as HR1.
  split; [exact HR|]. split; [exact (ro_layout HR1)|]. split; [apply gravity64|].
  split; [apply the_state_ok|]. split; [apply the_state_ok|]. split; [|split].
  - apply (good_level dsin dcos dexp one_process _ n HR1 (fun _ => one_code)); [intros j; right; right; left; reflexivity|].
    apply (flat64 dsin dcos dexp one_process (L64_1 dsin dcos dexp) (fun _ => one_code) (the_state (K64 dsin dcos dexp) (L64_1 dsin dcos dexp) (G64 (fun _ => IZR one_code))) 0 (lit 0 0) (lit 0 0) _ HR1).
    + intros j; right; right; left; reflexivity.
    + apply the_state_ok.
    + apply aruns_end.
  - apply (runs_exist _ _ ex_N ex_dims X64). exact (ro_layout HR).
  - apply (runs_exist _ _ ex_N one_process X64). exact (ro_layout HR1).
Qed.

(** C87: restarting changes bits. *)
Theorem C87_restart_refuted :
  forall dsin dcos dexp, let A := b64 dsin dcos dexp in
  exists K N X G F cfl P E P' E', P <> P' /\ E <> E' /\
  forall dims L dims2 L2 n t S t' S' S2, runs_on K N dims X L -> runs_on K N dims2 X L2 ->
  starts_from K dims L G S -> aruns A K L cfl n t (ainit_state A K L S) t' S' ->
  starts_from K dims2 L2 F S2 ->
  starts_from K dims L F S' /\
  (forall r c, process (k_nd K) dims r -> in_array (d_nwg (l_dec L r)) c -> s_P (S' r) c = P /\ c_E (s_cell (S' r) c) = E) /\
  (forall r c, process (k_nd K) dims2 r -> in_array (d_nwg (l_dec L2 r)) c ->
     s_P (ainit_state A K L2 S2 r) c = P' /\ c_E (s_cell (ainit_state A K L2 S2 r) c) = E').
Proof.
  intros dsin dcos dexp A.
  exists (K64 dsin dcos dexp), ex_N, X64, (G64 (fun _ => IZR one_code)), (file64 (fun _ => one_code)), (lit 5 1),
    (IZR P_code), (IZR E_code), (IZR P2_code), (IZR E1_code).
  split; [apply IZR_neq; discriminate|]. split; [apply IZR_neq; discriminate|].
  intros dims L dims2 L2 n t S t' S' S2 HR HR2 HS H HS2. apply (restart_one dsin dcos dexp dims L dims2 L2 n t S t' S' S2); assumption.
Qed.
Print Assumptions C87_restart_refuted.

(** Where converting to pressure and back is exact in every cell of the file, a restart on any other process grid
    continues to the last bit as the uninterrupted run on one process. *)
Theorem C87_exact_conversions :
  forall A good K N dims dims2 X L L2 L1, ordered A good ->
  runs_on K N dims X L -> runs_on K N dims2 X L2 -> laid_out K N one_process X L1 -> local_gravity K ->
  forall G S S1 cfl n n2 t0 t1 S1' t1' S1'' t' S' G' S2 t'' S'',
  starts_from K dims L G S -> starts_from K one_process L1 G S1 ->
  good_run A good K L1 cfl n t0 (ainit_state A K L1 S1) -> good_run A good K L1 cfl n2 t1 S1' ->
  aruns A K L1 cfl n t0 (ainit_state A K L1 S1) t1 S1' -> aruns A K L1 cfl n2 t1 S1' t1' S1'' ->
  aruns A K L cfl n t0 (ainit_state A K L S) t' S' ->
  (forall r c, process (k_nd K) dims r -> owned (k_nd K) (k_ng K) (d_nloc (l_dec L r)) c ->
     ato_cons A (k_nd K) (k_eos K) (ato_prim A (k_nd K) (k_eos K) (cons_of (s_cell (S' r) c))) = cons_of (s_cell (S' r) c)) ->
  starts_from K dims L G' S' -> starts_from K dims2 L2 G' S2 ->
  aruns A K L2 cfl n2 t' (ainit_state A K L2 S2) t'' S'' ->
  t'' = t1' /\ same_results K dims2 L2 S'' S1''.
Proof. exact restart_runs. Qed.
Print Assumptions C87_exact_conversions.

(** Gas at rest on five cells in binary64, stopped after [n] steps on one process, restarted on two. *)
Example C87_example : forall dsin dcos dexp n n2, let A := b64 dsin dcos dexp in let K := K1 dsin dcos dexp in
  let L := L1d_1 dsin dcos dexp in let L2 := L1d dsin dcos dexp in
  ordered A good64 /\ runs_on K N1 one_process X1 L /\ runs_on K N1 dims1 X1 L2 /\ local_gravity K /\
  exists t1 S1 t2 S2 t3 S3, let S0 := the_state K L G1 in
  starts_from K one_process L G1 S0 /\
  good_run A good64 K L (lit 5 1) n (lit 0 0) (ainit_state A K L S0) /\ good_run A good64 K L (lit 5 1) n2 t1 S1 /\
  aruns A K L (lit 5 1) n (lit 0 0) (ainit_state A K L S0) t1 S1 /\ aruns A K L (lit 5 1) n2 t1 S1 t2 S2 /\
  (forall r c, process 1 one_process r -> owned 1 2 (d_nloc (l_dec L r)) c ->
     ato_cons A 1 (k_eos K) (ato_prim A 1 (k_eos K) (cons_of (s_cell (S1 r) c))) = cons_of (s_cell (S1 r) c)) /\
  starts_from K one_process L G1 S1 /\
  aruns A K L2 (lit 5 1) n2 t1 (ainit_state A K L2 (the_state K L2 G1)) t3 S3.
Proof. exact rest_example. Qed.

(** C88: in Cartesian geometry a uniform flow keeps all its bits except those of the scalars, which go through
    a multiplication and a division by the density at every step. *)
Theorem C88_uniform_flow :
  forall A finite plain, cancelling A finite plain -> forall K N dims X L, runs_on K N dims X L ->
  forall x G S cfl n t t' S', free_flow A K x -> starts_from K dims L G S ->
  (forall c, g_rho G c = c_rho x /\ g_fx G c = c_fx x /\
     mkCons (c_rho x) (c_rhou x) (c_E x) = ato_cons A (k_nd K) (k_eos K) (mkPrim (g_rho G c) (g_u G c) (g_P G c))) ->
  (forall k S v, filled_with A K dims L (Nat.iter k (next_cell A) x) S ->
     reduces A (all_values K L (k_ng K) (acell_inverse_dt A K L S)) v ->
     calm A finite plain K dims L (Nat.iter k (next_cell A) x) (a_mul A cfl (a_div A (a_lit A 1 0) v))) ->
  aruns A K L cfl n t (ainit_state A K L S) t' S' ->
  forall r c, process (k_nd K) dims r -> in_array (d_nwg (l_dec L r)) c ->
    c_rho (s_cell (S' r) c) = c_rho x /\ c_rhou (s_cell (S' r) c) = c_rhou x /\ c_E (s_cell (S' r) c) = c_E x /\
    s_u (S' r) c = p_u (cell_prim A K x) /\ s_P (S' r) c = p_P (cell_prim A K x) /\
    c_fx (s_cell (S' r) c) = c_fx (Nat.iter n (next_cell A) x).
Proof. exact uniform_bits. Qed.
Print Assumptions C88_uniform_flow.

(** Scalars that survive the multiplication and division keep their bits too. *)
Theorem C88_surviving_scalars :
  forall A x, (forall n, carried A x n = c_fx x n /\ a_lt A (c_fx x n) (a_lit A 0 0) = false /\
                         a_lt A (a_lit A 1 0) (c_fx x n) = false) ->
  forall n, Nat.iter n (next_cell A) x = x.
Proof. intros A x H n. exact (iter_same A x n (next_same A x H)). Qed.
Print Assumptions C88_surviving_scalars.

(** Binary64 satisfies the hypotheses on the arithmetic. *)
Theorem C88_binary64 : forall dsin dcos dexp, cancelling (b64 dsin dcos dexp) finite64 plain64.
Proof. exact b64_cancelling. Qed.
Print Assumptions C88_binary64.

(** A uniform scalar of 0.1 in a uniform flow of density 3 changes. *)
Theorem C88_scalars_refuted :
  forall dsin dcos dexp, let A := b64 dsin dcos dexp in
  exists K N X rho u P fx fx' cfl, fx <> fx' /\
  forall dims L S n t t' S', runs_on K N dims X L ->
  starts_from K dims L (mkG (fun _ => rho) (fun _ => u) (fun _ => P) (fun _ _ => fx)) S ->
  aruns A K L cfl (Datatypes.S n) t (ainit_state A K L S) t' S' ->
  forall r c, process (k_nd K) dims r -> in_array (d_nwg (l_dec L r)) c -> c_fx (s_cell (S' r) c) 0%nat = fx'.
Proof. exact scalars_change. Qed.
Print Assumptions C88_scalars_refuted.

(** The flow of C86_example is free and calm throughout. *)
Example C88_example : forall dsin dcos dexp, let A := b64 dsin dcos dexp in let K := K64 dsin dcos dexp in
  let L := L64 dsin dcos dexp in let x := c64 (fun _ => tenth) in
  runs_on K ex_N ex_dims X64 L /\ free_flow A K x /\
  (forall k S v, filled_with A K ex_dims L (Nat.iter k (next_cell A) x) S ->
     reduces A (all_values K L (k_ng K) (acell_inverse_dt A K L S)) v ->
     calm A finite64 plain64 K ex_dims L (Nat.iter k (next_cell A) x) (a_mul A (lit 5 1) (a_div A (a_lit A 1 0) v))).
Proof.
  intros dsin dcos dexp. cbv zeta. split; [apply runs64|]. split; [apply free64|].
  apply calm_iterates; [exact (ro_layout (runs64 dsin dcos dexp))|]. intros j. left. reflexivity.
Qed.
