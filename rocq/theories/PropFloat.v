(** * Rounding and NaN: C45, C46, C68. *)
From Coq Require Import List Bool Reals.
From Flocq Require Import Core.Core IEEE754.BinarySingleNaN.
From Verif Require Import Base RBase ModelMesh ModelGeom ModelBoundary ModelHydro ModelScheme ModelStep ModelMain ModelFloat
  SpecBoundary SpecHydro SpecStep SpecMain ProofMain2 ProofMainEx ProofFloat.
Local Open Scope R_scope.

(** ** C45 *)

(** Exact arithmetic: if in a state reached by the loop some owned cell of some process has a negative internal energy,
    the next iteration ends in an error without changing the fields or the time. *)
Theorem C45_negative_energy_stops_the_run :
  forall K N dims X L, laid_out K N dims X L ->
  forall cfl p clock m m' v r c,
  process (k_nd K) dims r -> owned (k_nd K) (k_ng K) (d_nloc (l_dec L r)) c ->
  0 < c_rho (s_cell (m_st m r) c) -> internal (k_nd K) (cons_of (s_cell (m_st m r) c)) < 0 ->
  body (hydro K L cfl) p clock m = (m', v) ->
  v <> Going /\ v <> Finished /\ m_st m' = m_st m /\ m_t m' = m_t m /\ m_iter m' = m_iter m.
Proof. exact negative_stops. Qed.
Print Assumptions C45_negative_energy_stops_the_run.

(** Doubles: for every distribution of the cells over threads and processes and every order of the joins, the check
    fires exactly when some cell value is less than zero. *)
Theorem C45_check_sees_every_negative_value :
  forall s, energy_alarm s = true <-> exists x, In x (cells_of_schedule s) /\ Bltb x dzero = true.
Proof. exact alarm_iff. Qed.
Print Assumptions C45_check_sees_every_negative_value.

(** So NaN cells never trigger it, although [isnan] is tested: even if all cells are NaN the run goes on, with a
    negative time step. *)
Theorem C45_nan_goes_unnoticed_refuted :
  forall s, forallb is_nan (cells_of_schedule s) = true ->
  is_nan (reduce_min s) = false /\ energy_alarm s = false /\ Bltb (time_step_of s) dzero = true.
Proof. intros s H. split; [apply reduce_min_spec|]. exact (all_nan_goes_on s H). Qed.
Print Assumptions C45_nan_goes_unnoticed_refuted.

Example C45_example :
  let nan := B754_nan : double in
  let s := Join (Thread [done; nan; Bopp done]) (Join (Thread [nan]) (Thread [nan; done])) in
  energy_alarm s = true /\ energy_alarm (Join (Thread [done; nan]) (Thread [nan; nan])) = false.
Proof. vm_compute. split; reflexivity. Qed.

(** ** C46 *)

(** The time of the last output, [t + (t_end - t)] in double arithmetic, is the double [t_end] if the last step starts
    at 0 or in the second half of the run. *)
Theorem C46_ends_exactly_from_the_second_half :
  forall t te : double, is_finite t = true -> is_finite te = true -> 0 <= B2R t <= B2R te -> 0 < B2R te ->
  (B2R t = 0 \/ B2R te / 2 <= B2R t) ->
  forall dt, fst (end_of_run te t dt) = true -> next_time te t dt = te.
Proof. exact ends_exactly. Qed.
Print Assumptions C46_ends_exactly_from_the_second_half.

(** From anywhere, it is at most one unit in the last place off. *)
Theorem C46_within_one_ulp :
  forall t te : double, is_finite t = true -> is_finite te = true -> 0 <= B2R t <= B2R te -> 0 < B2R te < bpow radix2 1023 ->
  forall dt, fst (end_of_run te t dt) = true ->
  is_finite (next_time te t dt) = true /\
  Rabs (B2R (next_time te t dt) - B2R te) <= ulp radix2 (SpecFloat.fexp 53 1024) (B2R te).
Proof. exact ends_close. Qed.
Print Assumptions C46_within_one_ulp.

(** But it can be less than [t_end]. *)
Theorem C46_may_end_before_t_end_refuted :
  exists t te dt : double,
  is_finite t = true /\ is_finite te = true /\ is_finite dt = true /\ Bltb dzero t = true /\ Bltb t te = true /\ Bltb dzero dt = true /\
  fst (end_of_run te t dt) = true /\ Bltb (next_time te t dt) te = true.
Proof. exact missed_end. Qed.
Print Assumptions C46_may_end_before_t_end_refuted.

Example C46_example :
  let t := dplus done (pow2 (-1)) in let te := pow2 1 in
  is_finite t = true /\ is_finite te = true /\ 0 <= B2R t <= B2R te /\ 0 < B2R te < bpow radix2 1023 /\ B2R te / 2 <= B2R t /\
  fst (end_of_run te t done) = true.
Proof. exact end_example. Qed.

(** ** C68 *)

(** One step of the clock in double arithmetic, for non-negative steps: time does not decrease, stays below the end
    time until the last step, and never exceeds it by more than one unit in the last place. *)
Theorem C68_clock_in_doubles :
  forall t te dt : double, is_finite t = true -> is_finite te = true -> is_finite dt = true ->
  0 <= B2R t < B2R te -> B2R te < bpow radix2 1023 -> 0 <= B2R dt ->
  let t' := next_time te t dt in
  is_finite t' = true /\ B2R t <= B2R t' <= B2R te + ulp radix2 (SpecFloat.fexp 53 1024) (B2R te) /\
  (fst (end_of_run te t dt) = false -> B2R t' < B2R te).
Proof. exact clock_bounds. Qed.
Print Assumptions C68_clock_in_doubles.

(** But a positive step may leave it where it is (steps below half a unit in the last place). *)
Theorem C68_time_may_stall_refuted :
  exists t te dt : double,
  is_finite t = true /\ is_finite te = true /\ is_finite dt = true /\ Bltb dzero t = true /\ Bltb t te = true /\ Bltb dzero dt = true /\
  fst (end_of_run te t dt) = false /\ next_time te t dt = t.
Proof. exact stalled. Qed.
Print Assumptions C68_time_may_stall_refuted.
