(** * C47, C51, C52, C56, C69, C70: DualView, option names, int_cast, broadcast. *)
From Verif Require Import Base RBase ModelMesh ModelGeom ModelBoundary ModelHydro ModelStep ModelUtil SpecUtil SpecBoundary ProofUtil.
Local Open Scope string_scope.
Local Open Scope Z_scope.
Local Open Scope list_scope.

(** ** C47: a read access in either space sees the latest data.

    Missing for the full claim: histories with 2^32 or more write accesses between two transfers, where it
    is false (next theorem but one). *)
Theorem C47_reads_see_latest_partial (V : Type) (alias : bool) (init : Z -> V) (h : list (dual_op V)) s m i v :
  disciplined h -> bounded h -> has_read m = true -> latest init h i = Some v ->
  mem (dual_run alias init (h ++ [Access s m])) s i = v.
Proof. exact (dual_latest V alias init h s m i v). Qed.
Print Assumptions C47_reads_see_latest_partial.

(** Where host and device memory coincide the claim holds for all histories and at any moment. *)
Theorem C47_shared_memory (V : Type) (init : Z -> V) (h : list (dual_op V)) s i v :
  latest init h i = Some v -> mem (dual_run true init h) s i = v.
Proof. exact (alias_latest init h s i v). Qed.
Print Assumptions C47_shared_memory.

(** The flags are 32-bit counters that nothing resets while only one side is used. *)
Theorem C47_stale_after_wrap_refuted : exists (h : list (dual_op bool)) i v,
  disciplined h /\ latest (fun _ => false) h i = Some v /\
  mem (dual_run false (fun _ => false) (h ++ [Access Host ReadOnly])) Host i <> v.
Proof. exact dual_stale. Qed.
Print Assumptions C47_stale_after_wrap_refuted.

Definition ex_history : list (dual_op Z) :=
  [Access Host DiscardWrite; Store Host 0 7; Store Host 1 8; Access Dev ReadWrite; Store Dev 0 9; Access Dev ReadWrite; Store Dev 1 10;
   Access Host ReadWrite; Store Host 0 11].
Example C47_example : latest (fun _ => 0) ex_history 0 = Some 11 /\ latest (fun _ => 0) ex_history 1 = Some 10 /\
  disciplined ex_history /\ bounded ex_history /\ mem (dual_run false (fun _ => 0) (ex_history ++ [Access Dev ReadOnly])) Dev 1 = 10.
Proof.
  repeat split.
  - intros h1 s i v h2 E. unfold ex_history in E.
    do 9 (destruct h1 as [|o h1]; [cbn in E; try discriminate E; injection E; intros; subst; reflexivity|cbn in E; injection E as <- E]).
    destruct h1; discriminate.
  - intros h1 h2 E. unfold ex_history in E.
    do 9 (destruct h1 as [|o h1]; [reflexivity|cbn in E; injection E as <- E]).
    destruct h1; [reflexivity|discriminate].
Qed.

(** ** C51: option names. *)
Theorem C51_names :
  accepts factory_limiter limiter_names /\ accepts factory_solver solver_names /\
  accepts (or_setup factory_boundary) bc_names /\ accepts (or_setup factory_grid_type) grid_names /\
  accepts (or_setup factory_user_step) user_names.
Proof. exact (conj limiter_accepts (conj solver_accepts (conj bc_accepts (conj grid_accepts user_accepts)))). Qed.
Print Assumptions C51_names.

(** A whole configuration: it starts with the operators its names stand for, or throws. *)
Theorem C51_configuration (nd : nat) (n : names) :
  (documented nd n -> exists o, build_operators nd n = Ok o /\ named_by nd n o) /\
  (~ documented nd n -> exists w, build_operators nd n = Throw w).
Proof. exact (conj (build_ok nd n) (build_rejects nd n)). Qed.
Print Assumptions C51_configuration.

Definition ex_names : names :=
  mkNames false "Regular" (fun f => if Nat.ltb f 2 then "Reflexive" else "Periodic") "Minmod" "HLLC" "UserDefined" "Off" "Off".
Example C51_example : documented 2 ex_names /\ ~ documented 2 (mkNames false "regular" (fun _ => "Periodic") "Minmod" "HLL" "Off" "Off" "Off").
Proof.
  split.
  - constructor; [cbn; tauto| |cbn; tauto|cbn; tauto|cbn; tauto]. intros f _. cbn [n_bc ex_names]. destruct (Nat.ltb f 2); cbn; tauto.
  - intros [H _ _ _ _]. specialize (H eq_refl). cbn in H. intuition discriminate.
Qed.

(** ** C69: switches with unknown values are rejected.  They are not: anything but the one spelling is off. *)
Theorem C69_switches_partial (nd : nat) (n : names) (o : operators) : build_operators nd n = Ok o ->
  (o_pf o = true <-> n_pf n = "On") /\ (o_shift o = true <-> n_shift n = "UserDefined").
Proof. exact (build_switches nd n o). Qed.
Print Assumptions C69_switches_partial.

Theorem C69_unknown_switch_accepted_refuted : exists n o, documented 1 n /\ n_pf n = "on" /\ n_shift n = "On" /\
  build_operators 1 n = Ok o /\ o_pf o = false /\ o_shift o = false.
Proof.
  exists (mkNames false "Regular" (fun _ => "Periodic") "VanLeer" "HLL" "Off" "On" "on"). eexists. split; [|repeat split].
  constructor; cbn; tauto.
Qed.
Print Assumptions C69_unknown_switch_accepted_refuted.

(** ** C52: int_cast is exact or throws. *)
Theorem C52_int_cast (r t : ctype) (x : Z) : proper_type r -> proper_type t -> value_of t x ->
  (value_of r x -> int_cast r t x = Ok x) /\ (~ value_of r x -> exists w, int_cast r t x = Throw w).
Proof. exact (int_cast_exact r t x). Qed.
Print Assumptions C52_int_cast.

Example C52_example : int_cast (mkCtype true 32) (mkCtype false 64) (2 ^ 31 - 1) = Ok (2 ^ 31 - 1) /\
  (exists w, int_cast (mkCtype true 32) (mkCtype false 64) (2 ^ 31) = Throw w) /\
  (exists w, int_cast (mkCtype false 64) (mkCtype true 8) (-1) = Throw w).
Proof. split; [|split]; [vm_compute; reflexivity|eexists; vm_compute; reflexivity|eexists; vm_compute; reflexivity]. Qed.

(** ** C56: broadcasting a profile. *)
Theorem C56_broadcast (nd : nat) (cmin cmax : idx) (ng : Z) (r r0 : range) (p : arr1) (out : field3) :
  make_range nd cmin cmax ng = Ok r -> no_ghosts r = Ok r0 -> coord 0 cmax - coord 0 cmin <= a_ext p ->
  exists out', broadcast_profile nd r0 p out = Ok out' /\
    (forall c, (forall d, (d < 3)%nat -> ghosts nd ng d <= coord d c < ghosts nd ng d + (coord d cmax - coord d cmin)) ->
       out' c = a_at p (coord 0 c - ghosts nd ng 0)) /\
    (forall c, ~ (forall d, (d < 3)%nat -> ghosts nd ng d <= coord d c < ghosts nd ng d + (coord d cmax - coord d cmin)) -> out' c = out c).
Proof. exact (broadcast_exact nd cmin cmax ng r r0 p out). Qed.
Print Assumptions C56_broadcast.

Theorem C56_broadcast_constant (nd : nat) (cmin cmax : idx) (ng : Z) (r r0 : range) (x : R) (out : field3) (c : idx) :
  make_range nd cmin cmax ng = Ok r -> no_ghosts r = Ok r0 ->
  ((forall d, (d < 3)%nat -> ghosts nd ng d <= coord d c < ghosts nd ng d + (coord d cmax - coord d cmin)) -> broadcast_const nd r0 x out c = x) /\
  (~ (forall d, (d < 3)%nat -> ghosts nd ng d <= coord d c < ghosts nd ng d + (coord d cmax - coord d cmin)) -> broadcast_const nd r0 x out c = out c).
Proof. exact (broadcast_const_exact nd cmin cmax ng r r0 x out c). Qed.
Print Assumptions C56_broadcast_constant.

(** The profile setup: on every process grid the owned cells hold the profile at their global radius. *)
Theorem C56_profile_setup (nd : nat) (N dims : idx) (ng : Z) (dec : idx -> decomp) (file : arr1) (W W' : world R) :
  decomposed nd N dims ng dec -> a_ext file = coord 0 N ->
  (forall r, (forall d, (d < 3)%nat -> 0 <= coord d r < coord d (mpi_dims nd dims)) ->
     init_profile nd (coord 0 N) (dec r) file (W r) = Ok (W' r)) ->
  holds_owned nd dims ng dec (fun g => a_at file (coord 0 g)) W'.
Proof.
  exact (fun D He H r Hr c Hc =>
    match init_profile_ok nd N dims ng dec D file (W r) r He Hr with
    | ex_intro _ o (conj E V) => eq_trans (f_equal (fun q => match q with Ok f => f c | _ => 0%R end) (eq_trans (eq_sym (H r Hr)) E)) (V c Hc)
    end).
Qed.
Print Assumptions C56_profile_setup.

Theorem C56_profile_setup_runs (nd : nat) (N dims : idx) (ng : Z) (dec : idx -> decomp) (file : arr1) (out : field3) (r : idx) :
  decomposed nd N dims ng dec -> (forall d, (d < 3)%nat -> 0 <= coord d r < coord d (mpi_dims nd dims)) ->
  (a_ext file = coord 0 N -> exists o, init_profile nd (coord 0 N) (dec r) file out = Ok o) /\
  (a_ext file <> coord 0 N -> exists w, init_profile nd (coord 0 N) (dec r) file out = Throw w).
Proof.
  intros D Hr. split; intros He.
  - destruct (init_profile_ok nd N dims ng dec D file out r He Hr) as (o & E & _). eauto.
  - unfold init_profile, check_extent. apply Z.eqb_neq in He. rewrite He. cbn. eauto.
Qed.
Print Assumptions C56_profile_setup_runs.

Definition ex_profile : arr1 := mkArr1 3 (fun i => IZR (10 + i)).
Example C56_example : exists r r0 out', make_range 2 (I3 0 0 0) (I3 3 2 1) 2 = Ok r /\ no_ghosts r = Ok r0 /\
  broadcast_profile 2 r0 ex_profile (fun _ => 0%R) = Ok out' /\ out' (I3 4 3 0) = 12%R /\ out' (I3 4 1 0) = 0%R.
Proof. eexists. eexists. eexists. repeat split; vm_compute; reflexivity. Qed.

(** ** C70: a debug build stops on a profile whose length does not fit.  It does not: the comparison is
    added to the extent instead of being compared with it.  All it detects is an empty profile. *)
Theorem C70_length_check_partial (r : range) (p : arr1) (n : Z) : rng_ngeff r = 0 -> 2 * ii (rng_nghost r) < n -> 0 <= a_ext p ->
  (broadcast_asserts r p n = true <-> 0 < a_ext p).
Proof.
  intros H E P. unfold broadcast_asserts. assert (X : (2 * ii (rng_nghost r) =? n) = false) by lia. rewrite H, X.
  destruct (a_ext p + 0 =? 0) eqn:Y; cbn; split; intros; lia.
Qed.
Print Assumptions C70_length_check_partial.

Theorem C70_wrong_length_unnoticed_refuted : exists nd cmin cmax ng r r0 p out,
  make_range nd cmin cmax ng = Ok r /\ no_ghosts r = Ok r0 /\ a_ext p < coord 0 cmax - coord 0 cmin /\
  broadcast_asserts r0 p (coord 0 cmax - coord 0 cmin + 2 * ng) = true /\
  exists w, broadcast_profile nd r0 p out = UB w.
Proof.
  exists 1%nat, (I3 0 0 0), (I3 8 1 1), 2, (mkRange (I3 0 0 0) (I3 8 1 1) 2 0 (I3 2 0 0)), (mkRange (I3 0 0 0) (I3 8 1 1) 2 0 (I3 2 0 0)),
    (mkArr1 1 (fun _ => 0%R)), (fun _ => 0%R).
  repeat split; try reflexivity. eexists. vm_compute. reflexivity.
Qed.
Print Assumptions C70_wrong_length_unnoticed_refuted.
