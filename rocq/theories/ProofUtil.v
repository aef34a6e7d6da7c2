From Coq Require Import ZifyBool.
From Verif Require Import Base RBase ModelMesh ModelGeom ModelBoundary ModelHydro ModelStep ModelUtil SpecUtil SpecBoundary SpecMesh ProofBase ProofMesh ProofBoundary.
Local Open Scope string_scope.
Local Open Scope Z_scope.
Local Open Scope list_scope.

(** ** DualView *)
Section Dual.
  Variable V : Type.
  Variable alias : bool.
  Variable init : Z -> V.

  (** The content of side [s] is what the client expects. *)
  Definition current (d : dual V) (a : Z -> option V) (s : side) : Prop := forall i v, a i = Some v -> mem d s i = v.

  Definition dinv (d : dual V) (l : log) (a : Z -> option V) : Prop :=
    0 <= pending l /\
    match ahead l with
    | None => flag d Dev = 0 /\ flag d Host = 0 /\ pending l = 0 /\ current d a Dev /\ current d a Host
    | Some s => 0 <= flag d (other s) < flag d s /\ flag d s <= pending l /\ current d a s
    end.

  Lemma dinv_new : dinv (new_dual init) (mkLog None 0) (fun i => Some (init i)).
  Proof. unfold dinv, current; cbn. repeat split; try lia; intros i v H; congruence. Qed.

  Lemma log_pending_nonneg l s : 0 <= pending l -> 0 <= pending (log_read s l).
  Proof. unfold log_read. destruct (ahead l) as [t|]; [destruct (side_eqb t s)|]; cbn; lia. Qed.

  Lemma dinv_read d l a s : dinv d l a ->
    dinv (synchronize d s) (log_read s l) a /\ current (synchronize d s) a s.
  Proof.
    unfold dinv, log_read, synchronize, need_synchronization, current. intros [Hp H].
    destruct (ahead l) as [t|] eqn:E.
    - destruct H as ((H0 & H1) & H2 & H3).
      assert (D : side_eqb t s = true /\ t = s \/ side_eqb t s = false /\ t = other s) by (destruct s, t; auto).
      destruct D as [(D & ->)|(D & ->)]; rewrite D.
      + replace (flag d s <? flag d (other s)) with false by lia.
        rewrite E. repeat split; try lia; assumption.
      + replace (flag d s <? flag d (other s)) with true by (destruct s; cbn in *; lia).
        cbn [ahead pending flag mem set_side].
        repeat split; try lia; intros i v Hv; unfold set_side; destruct s; cbn; apply H3, Hv.
    - destruct H as (H0 & H1 & H2 & H3 & H4).
      replace (flag d s <? flag d (other s)) with false by (destruct s; cbn; lia).
      rewrite E. repeat split; try assumption; try lia. destruct s; assumption.
  Qed.

  Lemma dinv_write d l a a' s : dinv d l a -> pending l + 1 < 2 ^ 32 ->
    (forall i v, a' i = Some v -> mem d s i = v) -> dinv (mark_modified d s) (log_write s l) a'.
  Proof.
    unfold dinv, log_write, mark_modified, current. intros [Hp H] B C. cbn [ahead pending flag mem].
    split; [lia|].
    assert (F : 0 <= Z.max (flag d Host) (flag d Dev) <= pending l /\ 0 <= flag d (other s)).
    { destruct (ahead l) as [t|]; [|destruct s; cbn; lia]. destruct t, s; cbn in *; lia. }
    unfold uint. rewrite Z.mod_small by lia.
    repeat split.
    - destruct s; cbn in *; lia.
    - destruct s; cbn in *; lia.
    - destruct s; cbn in *; lia.
    - intros i v Hv. now apply C.
  Qed.

  Lemma dinv_step d l a o : dinv d l a -> pending (log_step l o) < 2 ^ 32 ->
    (forall s i v, o = Store s i v -> ahead l = Some s) ->
    dinv (dual_step alias d o) (log_step l o) (latest_step a o).
  Proof.
    intros I B G. destruct o as [s m|s i v].
    - destruct m; cbn [dual_step access has_read has_write log_step latest_step].
      + apply dinv_read, I.
      + destruct (dinv_read d l a s I) as [J C]. apply dinv_write with (a := a); [exact J|exact B|exact C].
      + apply dinv_write with (a := a); [exact I|exact B|intros ? ? [=]].
    - specialize (G s i v eq_refl). cbn [dual_step log_step latest_step].
      unfold dinv in *. rewrite G in *. destruct I as [Hp (H0 & H1 & H2)]. split; [exact Hp|].
      cbn [flag mem]. split; [exact H0|]. split; [exact H1|].
      intros k w Hk. destruct alias; unfold put, set_side; cbn.
      + destruct (k =? i); [congruence|]. now apply H2.
      + destruct s; cbn; (destruct (k =? i); [congruence|]; now apply H2).
  Qed.

  Lemma dual_run_snoc h o : dual_run alias init (h ++ [o]) = dual_step alias (dual_run alias init h) o.
  Proof. unfold dual_run. rewrite fold_left_app. reflexivity. Qed.
  Lemma log_of_snoc h (o : dual_op V) : log_of (h ++ [o]) = log_step (log_of h) o.
  Proof. unfold log_of. rewrite fold_left_app. reflexivity. Qed.
  Lemma latest_snoc h o : latest init (h ++ [o]) = latest_step (latest init h) o.
  Proof. unfold latest. rewrite fold_left_app. reflexivity. Qed.

  Lemma dinv_run h : disciplined h -> bounded h -> dinv (dual_run alias init h) (log_of h) (latest init h).
  Proof.
    induction h as [|o h IH] using rev_ind; intros D B.
    - apply dinv_new.
    - rewrite dual_run_snoc, log_of_snoc, latest_snoc. apply dinv_step.
      + apply IH.
        * intros h1 s i v h2 ->. apply (D h1 s i v (h2 ++ [o])). now rewrite <- app_assoc.
        * intros h1 h2 ->. apply (B h1 (h2 ++ [o])). now rewrite app_assoc.
      + rewrite <- log_of_snoc. apply (B (h ++ [o]) []). now rewrite app_nil_r.
      + intros s i v ->. now apply (D h s i v []).
  Qed.

  Lemma dual_latest h s m i v : disciplined h -> bounded h -> has_read m = true -> latest init h i = Some v ->
    mem (dual_run alias init (h ++ [Access s m])) s i = v.
  Proof.
    intros D B M L. rewrite dual_run_snoc. cbn [dual_step]. unfold access. rewrite M.
    destruct (dinv_read _ _ _ s (dinv_run h D B)) as [_ C].
    destruct (has_write m); [cbn [mark_modified mem]|]; apply C, L.
  Qed.
End Dual.

(** When host and device memory coincide no bookkeeping can go wrong. *)
Lemma alias_latest {V : Type} (init : Z -> V) h s i v : latest init h i = Some v -> mem (dual_run true init h) s i = v.
Proof.
  assert (G : forall t, (forall i v, latest init h i = Some v -> mem (dual_run true init h) t i = v) /\
              (forall i, mem (dual_run true init h) Dev i = mem (dual_run true init h) Host i)).
  { induction h as [|o h IH] using rev_ind; intros t.
    - cbn. split; [intros; congruence|reflexivity].
    - rewrite dual_run_snoc, latest_snoc.
      assert (S : forall s, (forall i, mem (synchronize (dual_run true init h) s) t i = mem (dual_run true init h) t i) /\
                   (forall i, mem (synchronize (dual_run true init h) s) Dev i = mem (synchronize (dual_run true init h) s) Host i)).
      { intros s0. unfold synchronize. destruct (IH Dev) as [_ E]. destruct (need_synchronization _ _); cbn; [|tauto].
        split; intros j; unfold set_side; destruct s0, t; cbn; rewrite ?E; reflexivity. }
      destruct o as [s0 m|s0 j w].
      + destruct m; cbn [dual_step access has_read has_write latest_step mark_modified mem].
        * destruct (S s0) as [S1 S2]. split; [|exact S2]. intros i0 v0 H. rewrite S1. now apply (proj1 (IH t)).
        * destruct (S s0) as [S1 S2]. split; [|exact S2]. intros i0 v0 H. rewrite S1. now apply (proj1 (IH t)).
        * split; [discriminate|apply (IH t)].
      + cbn [dual_step latest_step mem]. split.
        * intros i0 v0. unfold put. destruct (i0 =? j); [congruence|]. apply (proj1 (IH t)).
        * intros i0. unfold put. destruct (i0 =? j); [reflexivity|]. apply (proj2 (IH t)). }
  intros H. now apply (proj1 (G s)).
Qed.

(** 2^32 write accesses on the device bring its flag back to zero. *)
Definition burst (n : nat) : list (dual_op bool) := List.repeat (Access Dev ReadWrite) n.
Lemma burst_log n : log_of (burst (Datatypes.S n)) = mkLog (Some Dev) (Z.of_nat (Datatypes.S n)).
Proof.
  unfold burst. induction n as [|n IH]; [reflexivity|].
  change (List.repeat _ (Datatypes.S (Datatypes.S n))) with (Access (V := bool) Dev ReadWrite :: List.repeat (Access Dev ReadWrite) (Datatypes.S n)).
  rewrite repeat_cons, log_of_snoc, IH. unfold log_step, log_write, log_read, ahead, side_eqb, pending. f_equal. lia.
Qed.
Lemma burst_run n init : dual_run false init (burst n) = dual_run false init (burst n) /\
  flag (dual_run false init (burst n)) Dev = Z.of_nat n mod 2 ^ 32 /\
  flag (dual_run false init (burst n)) Host = 0 /\ (forall s, mem (dual_run false init (burst n)) s = init).
Proof.
  split; [reflexivity|]. unfold burst. induction n as [|n IH]; [repeat split; reflexivity|].
  cbn [List.repeat]. rewrite repeat_cons, dual_run_snoc. cbn [dual_step access has_read has_write].
  destruct IH as (F & G & M). revert F G M. generalize (dual_run false init (List.repeat (Access Dev ReadWrite) n)). intros d F G M.
  assert (0 <= Z.of_nat n mod 2 ^ 32 < 2 ^ 32) by (apply Z.mod_pos_bound; lia).
  assert (E : synchronize d Dev = d). { unfold synchronize, need_synchronization. cbn [other]. rewrite F, G. now replace (Z.of_nat n mod 2 ^ 32 <? 0) with false by lia. }
  rewrite E. unfold mark_modified; cbn [flag mem]. unfold set_side; cbn [side_eqb]. rewrite F, G. split; [|split; [reflexivity|exact M]].
  unfold uint. rewrite Z.max_r by lia. rewrite Zplus_mod_idemp_l. f_equal. lia.
Qed.

Lemma dual_stale : exists (h : list (dual_op bool)) i v, disciplined h /\ latest (fun _ => false) h i = Some v /\
  mem (dual_run false (fun _ => false) (h ++ [Access Host ReadOnly])) Host i <> v.
Proof.
  remember (Z.to_nat (2 ^ 32)) as n eqn:En.
  assert (Zn : Z.of_nat n = 2 ^ 32) by (subst n; apply Z2Nat.id; lia). clear En.
  destruct n as [|n]; [discriminate|].
  exists (burst (Datatypes.S n) ++ [Store Dev 0 true]), 0, true. split; [|split].
  - intros h1 s i v h2 E.
    destruct h2 as [|o h2] using rev_ind.
    + apply app_inj_tail in E. destruct E as [<- [= <- <- <-]]. now rewrite burst_log.
    + clear IHh2. change (Store s i v :: h2 ++ [o]) with ((Store s i v :: h2) ++ [o]) in E. rewrite app_assoc in E.
      apply app_inj_tail in E. destruct E as [E _]. exfalso.
      assert (I : In (Store s i v) (burst (Datatypes.S n))) by (rewrite E; apply in_or_app; right; left; reflexivity).
      apply repeat_spec in I. discriminate.
  - rewrite latest_snoc. reflexivity.
  - rewrite !dual_run_snoc. destruct (burst_run (Datatypes.S n) (fun _ => false)) as (_ & F & G & M).
    rewrite Zn, Z_mod_same_full in F. revert F G M. generalize (dual_run false (fun _ : Z => false) (burst (Datatypes.S n))). intros d F G M.
    cbn [dual_step access has_read has_write]. unfold synchronize, need_synchronization. cbn [flag other mem]. rewrite F, G. cbn [Z.ltb].
    change (0 <? 0) with false. cbn [mem]. unfold set_side; cbn [side_eqb]. rewrite M. discriminate.
Qed.

(** ** int_cast *)
Lemma pow2_pos n : 0 <= n -> 0 < 2 ^ n.
Proof. intros. apply Z.pow_pos_nonneg; lia. Qed.
Lemma pow2_pred n : 1 <= n -> 2 ^ n = 2 * 2 ^ (n - 1).
Proof. intros. rewrite <- Z.pow_succ_r by lia. f_equal. lia. Qed.

Lemma static_cast_exact t x : proper_type t -> value_of t x -> static_cast t x = x.
Proof.
  unfold proper_type, value_of, static_cast. intros P Hx.
  pose proof (pow2_pos (ct_bits t - 1) ltac:(lia)). pose proof (pow2_pred (ct_bits t) P).
  destruct (ct_signed t); cbn [andb].
  - destruct (Z.leb_spec (2 ^ (ct_bits t - 1)) (x mod 2 ^ ct_bits t)) as [L|L].
    + destruct (Z_lt_le_dec x 0) as [N|N].
      * assert (x mod 2 ^ ct_bits t = x + 2 ^ ct_bits t) by (symmetry; apply Z.mod_unique with (q := -1); lia). lia.
      * rewrite Z.mod_small in L by lia. lia.
    + destruct (Z_lt_le_dec x 0) as [N|N].
      * assert (x mod 2 ^ ct_bits t = x + 2 ^ ct_bits t) by (symmetry; apply Z.mod_unique with (q := -1); lia). lia.
      * apply Z.mod_small. lia.
  - apply Z.mod_small. lia.
Qed.

Lemma cmp_less_correct t u x y : proper_type t -> proper_type u -> value_of t x -> value_of u y ->
  cmp_less t u x y = (x <? y).
Proof.
  intros Pt Pu Hx Hy. unfold cmp_less.
  destruct (Bool.eqb (ct_signed t) (ct_signed u)) eqn:E; [reflexivity|].
  assert (M : forall w z, proper_type w -> value_of w z -> 0 <= z -> make_unsigned w z = z).
  { intros w z Pw Hz N. unfold make_unsigned. apply static_cast_exact; [exact Pw|]. unfold value_of in *. cbn [ct_signed ct_bits].
    unfold proper_type in Pw. pose proof (pow2_pred (ct_bits w) Pw). pose proof (pow2_pos (ct_bits w - 1) ltac:(lia)).
    destruct (ct_signed w); lia. }
  destruct (ct_signed t) eqn:St.
  - destruct (ct_signed u) eqn:Su; [discriminate|]. destruct (Z.ltb_spec x 0) as [N|N].
    + unfold value_of in Hy. rewrite Su in Hy. lia.
    + rewrite M by (assumption || lia). reflexivity.
  - destruct (ct_signed u) eqn:Su; [|discriminate]. destruct (Z.ltb_spec y 0) as [N|N].
    + unfold value_of in Hx. rewrite St in Hx. lia.
    + rewrite M by (assumption || lia). reflexivity.
Qed.

Lemma limits_are_values t : proper_type t -> value_of t (ct_min t) /\ value_of t (ct_max t).
Proof.
  unfold proper_type, value_of, ct_min, ct_max. intros P. pose proof (pow2_pred (ct_bits t) P). pose proof (pow2_pos (ct_bits t - 1) ltac:(lia)).
  destruct (ct_signed t); lia.
Qed.

Lemma in_range_iff r t x : proper_type r -> proper_type t -> value_of t x -> in_range r t x = true <-> value_of r x.
Proof.
  intros Pr Pt Hx. unfold in_range. destruct (limits_are_values r Pr).
  rewrite !cmp_less_correct by assumption. unfold value_of, ct_min, ct_max. destruct (ct_signed r); lia.
Qed.

Lemma int_cast_exact r t x : proper_type r -> proper_type t -> value_of t x ->
  (value_of r x -> int_cast r t x = Ok x) /\ (~ value_of r x -> exists w, int_cast r t x = Throw w).
Proof.
  intros Pr Pt Hx. pose proof (in_range_iff r t x Pr Pt Hx) as E. unfold int_cast. split; intros H.
  - rewrite (proj2 E H). now rewrite static_cast_exact.
  - destruct (in_range r t x) eqn:F; [destruct (H (proj1 E eq_refl))|eauto].
Qed.

(** ** Names *)
Definition look_up {A : Type} (tb : list (string * A)) (s : string) : option A :=
  match find (fun p => String.eqb s (fst p)) tb with Some p => Some (snd p) | None => None end.
Lemma look_up_some {A : Type} (tb : list (string * A)) s a : NoDup (map fst tb) -> look_up tb s = Some a <-> In (s, a) tb.
Proof.
  unfold look_up. induction tb as [|[n x] tb IH]; cbn; intros D; [split; [discriminate|tauto]|].
  inversion D as [|? ? D1 D2]; subst. destruct (String.eqb_spec s n) as [->|N]; cbn.
  - split; [intros [= <-]; tauto|]. intros [[= <-]|I]; [reflexivity|]. exfalso. apply D1. apply in_map_iff. now exists (n, a).
  - rewrite IH by exact D2. split; [tauto|]. intros [[= -> <-]|I]; [congruence|exact I].
Qed.
Lemma look_up_none {A : Type} (tb : list (string * A)) s : look_up tb s = None <-> ~ In s (map fst tb).
Proof.
  unfold look_up. induction tb as [|[n x] tb IH]; cbn; [tauto|].
  destruct (String.eqb_spec s n) as [->|N]; cbn; [split; [discriminate|tauto]|]. rewrite IH. intuition congruence.
Qed.
Lemma accepts_intro {A : Type} f (tb : list (string * A)) : NoDup (map fst tb) ->
  (forall s, match look_up tb s with Some a => f s = Ok a | None => exists w, f s = Throw w end) -> accepts f tb.
Proof.
  intros D H s. specialize (H s). destruct (look_up tb s) as [a|] eqn:E.
  - split.
    + intros b. rewrite H, <- (look_up_some tb s b D), E. split; intros [= ->]; reflexivity.
    + split; [intros [w F]; congruence|]. intros N. apply look_up_none in N. congruence.
  - destruct H as [w H]. split.
    + intros b. rewrite H, <- (look_up_some tb s b D), E. split; discriminate.
    + split; [intros _; now apply look_up_none|eauto].
Qed.
Ltac names_tac :=
  apply accepts_intro; [cbn; repeat constructor; cbn; intuition congruence|];
  intros s; unfold look_up; cbn [find fst];
  repeat match goal with |- context [String.eqb s ?n] => destruct (String.eqb_spec s n) as [->|?]; [cbn; eauto; fail|] end;
  cbn; eauto.

Lemma limiter_accepts : accepts factory_limiter limiter_names.
Proof. unfold accepts, factory_limiter, limiter_names. names_tac. Qed.
Lemma solver_accepts : accepts factory_solver solver_names.
Proof. unfold accepts, factory_solver, solver_names. names_tac. Qed.
Lemma bc_accepts : accepts (or_setup factory_boundary) bc_names.
Proof. unfold accepts, or_setup, factory_boundary, bc_names. names_tac. Qed.
Lemma grid_accepts : accepts (or_setup factory_grid_type) grid_names.
Proof. unfold accepts, or_setup, factory_grid_type, grid_names. names_tac. Qed.
Lemma user_accepts : accepts (or_setup factory_user_step) user_names.
Proof. unfold accepts, or_setup, factory_user_step, user_names. names_tac. Qed.

Lemma accepts_ok {A : Type} f (tb : list (string * A)) s : accepts f tb -> In s (map fst tb) -> exists a, f s = Ok a /\ In (s, a) tb.
Proof.
  intros H I. apply in_map_iff in I. destruct I as ([s' a] & <- & I). exists a. split; [|exact I]. now apply H.
Qed.

Lemma omap_ok {A B : Type} (f : A -> outcome B) l bs : omap f l = Ok bs <-> Forall2 (fun a b => f a = Ok b) l bs.
Proof.
  revert bs. induction l as [|a l IH]; intros bs; cbn.
  - split; [intros [= <-]; constructor|intros H; inversion H; reflexivity].
  - split.
    + destruct (f a) as [b|w|w] eqn:E; cbn; try discriminate. destruct (omap f l) as [bs'|w|w] eqn:E'; cbn; try discriminate.
      intros [= <-]. constructor; [exact E|]. now apply IH.
    + intros H. inversion H as [|? b ? bs' E F]; subst. rewrite E; cbn. apply IH in F. now rewrite F.
Qed.
Lemma omap_throw {A B : Type} (f : A -> outcome B) (l : list A) : (forall a, In a l -> exists b, f a = Ok b \/ exists w, f a = Throw w) ->
  (exists bs, omap f l = Ok bs) \/ (exists w, omap f l = Throw w).
Proof.
  induction l as [|a l IH]; intros H; cbn; [left; eauto|].
  destruct (H a (or_introl eq_refl)) as [b [E|[w E]]]; rewrite E; cbn; [|right; eauto].
  destruct (IH (fun a I => H a (or_intror I))) as [[bs F]|[w F]]; rewrite F; cbn; [left|right]; eauto.
Qed.

Lemma accepts_total {A : Type} f (tb : list (string * A)) s : accepts f tb -> (exists a, f s = Ok a) \/ (exists w, f s = Throw w).
Proof.
  intros H. destruct (in_dec string_dec s (map fst tb)) as [I|I].
  - left. destruct (accepts_ok f tb s H I) as (a & E & _). eauto.
  - right. now apply H.
Qed.
Lemma accepts_in {A : Type} f (tb : list (string * A)) s a : accepts f tb -> f s = Ok a -> In (s, a) tb /\ In s (map fst tb).
Proof. intros H E. apply H in E. split; [exact E|]. apply in_map_iff. now exists (s, a). Qed.

Lemma omap_bad {A B : Type} (f : A -> outcome B) (l : list A) a w : In a l -> f a = Throw w ->
  (forall a, In a l -> (exists b, f a = Ok b) \/ (exists w, f a = Throw w)) -> exists w', omap f l = Throw w'.
Proof.
  induction l as [|b l IH]; cbn; [tauto|]. intros I E T.
  destruct (T b (or_introl eq_refl)) as [[x F]|[x F]]; rewrite F; cbn; [|eauto].
  destruct I as [->|I]; [congruence|]. destruct (IH I E (fun a H => T a (or_intror H))) as [w' G]. rewrite G. cbn. eauto.
Qed.
Lemma omap_all {A B : Type} (f : A -> outcome B) (l : list A) : (forall a, In a l -> exists b, f a = Ok b) -> exists bs, omap f l = Ok bs.
Proof.
  induction l as [|a l IH]; intros H; cbn; [eauto|]. destruct (H a (or_introl eq_refl)) as [b E]. rewrite E; cbn.
  destruct (IH (fun a I => H a (or_intror I))) as [bs F]. rewrite F; cbn. eauto.
Qed.

Lemma forall2_nth {A B : Type} (P : A -> B -> Prop) l bs : Forall2 P l bs -> forall k x b, nth_error l k = Some x -> nth_error bs k = Some b -> P x b.
Proof.
  induction 1 as [|y c l bs E F IH]; intros [|k] x b; cbn; try discriminate.
  - now intros [= ->] [= ->].
  - apply IH.
Qed.
Lemma forall2_len {A B : Type} (P : A -> B -> Prop) l bs : Forall2 P l bs -> List.length l = List.length bs.
Proof. induction 1; cbn; congruence. Qed.

Lemma build_ok nd n : documented nd n -> exists o, build_operators nd n = Ok o /\ named_by nd n o.
Proof.
  intros [Dg Db Dr Ds Du]. unfold build_operators.
  assert (G : exists g, (if n_restart n then Ok None else obind (or_setup factory_grid_type (n_grid n)) (fun g => Ok (Some g))) = Ok g /\
              (if n_restart n then g = None else exists x, g = Some x /\ In (n_grid n, x) grid_names)).
  { destruct (n_restart n); [eauto|]. destruct (accepts_ok _ _ _ grid_accepts (Dg eq_refl)) as (x & E & I). rewrite E. cbn. eauto. }
  destruct G as (g & Eg & Hg). rewrite Eg. cbn [obind].
  destruct (omap_all (fun f => or_setup factory_boundary (n_bc n f)) (seq 0 (2 * nd))) as [bs Eb].
  { intros f I. apply in_seq in I. destruct (accepts_ok _ _ _ bc_accepts (Db f ltac:(lia))) as (x & E & _). eauto. }
  rewrite Eb. cbn [obind].
  destruct (accepts_ok _ _ _ limiter_accepts Dr) as (l & El & Il). rewrite El. cbn [obind].
  destruct (accepts_ok _ _ _ solver_accepts Ds) as (r & Er & Ir). rewrite Er. cbn [obind].
  destruct (accepts_ok _ _ _ user_accepts Du) as (u & Eu & Iu). rewrite Eu. cbn [obind].
  eexists. split; [reflexivity|]. constructor; cbn [o_grid o_bc o_recon o_riemann o_user]; try assumption.
  apply omap_ok in Eb. split.
  - now rewrite <- (forall2_len _ _ _ Eb), seq_length.
  - intros f b Hb. assert (Lf : (f < 2 * nd)%nat).
    { rewrite <- (seq_length (2 * nd) 0), (forall2_len _ _ _ Eb). apply nth_error_Some. congruence. }
    assert (Hs : nth_error (seq 0 (2 * nd)) f = Some f).
    { rewrite nth_error_nth' with (d := 0%nat) by now rewrite seq_length. now rewrite seq_nth. }
    exact (proj1 (accepts_in _ _ _ _ bc_accepts (forall2_nth _ _ _ Eb f f b Hs Hb))).
Qed.

Lemma build_rejects nd n : ~ documented nd n -> exists w, build_operators nd n = Throw w.
Proof.
  intros D. unfold build_operators.
  assert (G : (exists g, (if n_restart n then Ok None else obind (or_setup factory_grid_type (n_grid n)) (fun g => Ok (Some g))) = Ok g /\
               (n_restart n = false -> In (n_grid n) (map fst grid_names))) \/
              (exists w, (if n_restart n then Ok None else obind (or_setup factory_grid_type (n_grid n)) (fun g => Ok (Some g))) = Throw w)).
  { destruct (n_restart n); [left; eexists; split; [reflexivity|discriminate]|].
    destruct (accepts_total _ _ (n_grid n) grid_accepts) as [[x E]|[w E]]; rewrite E; cbn; [left|right]; [|eauto].
    eexists; split; [reflexivity|]. intros _. exact (proj2 (accepts_in _ _ _ _ grid_accepts E)). }
  destruct G as [(g & E & Dg)|(w & E)]; rewrite E; cbn [obind]; [|eauto].
  destruct (omap_throw (fun f => or_setup factory_boundary (n_bc n f)) (seq 0 (2 * nd))) as [[bs Eb]|[w Eb]].
  { intros f _. destruct (accepts_total _ _ (n_bc n f) bc_accepts) as [[x F]|[w F]]; [exists x; now left|exists FromSetup; right; eauto]. }
  2: { rewrite Eb. cbn. eauto. }
  rewrite Eb. cbn [obind].
  destruct (accepts_total _ _ (n_recon n) limiter_accepts) as [[l El]|[w El]]; rewrite El; cbn [obind]; [|eauto].
  destruct (accepts_total _ _ (n_riemann n) solver_accepts) as [[r Er]|[w Er]]; rewrite Er; cbn [obind]; [|eauto].
  destruct (accepts_total _ _ (n_user n) user_accepts) as [[u Eu]|[w Eu]]; rewrite Eu; cbn [obind]; [|eauto].
  exfalso. apply D. constructor.
  - exact Dg.
  - intros f Hf. destruct (accepts_total _ _ (n_bc n f) bc_accepts) as [[x F]|[w F]].
    + exact (proj2 (accepts_in _ _ _ _ bc_accepts F)).
    + destruct (omap_bad (fun f => or_setup factory_boundary (n_bc n f)) (seq 0 (2 * nd)) f w) as [w' G].
      * apply in_seq. lia.
      * exact F.
      * intros a _. apply accepts_total with (tb := bc_names). exact bc_accepts.
      * congruence.
  - exact (proj2 (accepts_in _ _ _ _ limiter_accepts El)).
  - exact (proj2 (accepts_in _ _ _ _ solver_accepts Er)).
  - exact (proj2 (accepts_in _ _ _ _ user_accepts Eu)).
Qed.

Lemma build_switches nd n o : build_operators nd n = Ok o ->
  (o_pf o = true <-> n_pf n = "On") /\ (o_shift o = true <-> n_shift n = "UserDefined").
Proof.
  unfold build_operators. intros H.
  destruct (if n_restart n then _ else _) as [g|?|?]; cbn [obind] in H; try discriminate.
  destruct (omap _ _) as [bs|?|?]; cbn [obind] in H; try discriminate.
  destruct (factory_limiter _) as [l|?|?]; cbn [obind] in H; try discriminate.
  destruct (factory_solver _) as [r|?|?]; cbn [obind] in H; try discriminate.
  destruct (or_setup _ _) as [u|?|?]; cbn [obind] in H; try discriminate.
  injection H as <-. cbn [o_pf o_shift]. now rewrite !String.eqb_eq.
Qed.

(** ** broadcast *)
Lemma owned_cells nd cmin cmax ng r r0 c : make_range nd cmin cmax ng = Ok r -> no_ghosts r = Ok r0 ->
  in_cells nd r0 c = true <-> (forall d, (d < 3)%nat -> ghosts nd ng d <= coord d c < ghosts nd ng d + (coord d cmax - coord d cmin)).
Proof.
  intros Hr H0. rewrite in_cells_iff, (cells_with_ghosts nd cmin cmax ng r 0 r0 c Hr H0). unfold ghosts.
  split; intros H d Hd; specialize (H d Hd); destruct (Nat.ltb d nd); lia.
Qed.
Lemma no_ghosts_nghost nd cmin cmax ng r r0 : make_range nd cmin cmax ng = Ok r -> no_ghosts r = Ok r0 -> ii (rng_nghost r0) = ghosts nd ng 0.
Proof.
  intros Hr H0. apply make_range_ok_val in Hr. subst r. unfold no_ghosts, with_ghosts in H0. cbn [rng_ng] in H0.
  destruct (ng <? 0); [discriminate|]. injection H0 as <-. reflexivity.
Qed.

Lemma profile_reads nd cmin cmax ng r r0 p : make_range nd cmin cmax ng = Ok r -> no_ghosts r = Ok r0 ->
  (forall d, (d < 3)%nat -> coord d cmin < coord d cmax) ->
  profile_reads_ok nd r0 p = true <-> coord 0 cmax - coord 0 cmin <= a_ext p.
Proof.
  intros Hr H0 NE. unfold profile_reads_ok. rewrite forallb_forall, (no_ghosts_nghost _ _ _ _ _ _ Hr H0). split.
  - intros H. specialize (H (mk3 (fun d => ghosts nd ng d + (coord d cmax - coord d cmin) - 1))).
    cbn [mk3 ii] in H. assert (I : In (mk3 (fun d => ghosts nd ng d + (coord d cmax - coord d cmin) - 1)) (cells_of nd r0)).
    { apply in_cells_iff, (owned_cells _ _ _ _ _ _ _ Hr H0). intros d Hd. rewrite coord_mk3 by exact Hd. specialize (NE d Hd). lia. }
    specialize (H I). pose proof (NE 0%nat ltac:(lia)). lia.
  - intros H c I. apply in_cells_iff in I. pose proof (proj1 (owned_cells _ _ _ _ _ _ _ Hr H0) I 0%nat ltac:(lia)) as J.
    change (coord 0 c) with (ii c) in J. lia.
Qed.

Lemma broadcast_exact nd cmin cmax ng r r0 p out : make_range nd cmin cmax ng = Ok r -> no_ghosts r = Ok r0 ->
  coord 0 cmax - coord 0 cmin <= a_ext p ->
  exists out', broadcast_profile nd r0 p out = Ok out' /\
    (forall c, (forall d, (d < 3)%nat -> ghosts nd ng d <= coord d c < ghosts nd ng d + (coord d cmax - coord d cmin)) ->
       out' c = a_at p (coord 0 c - ghosts nd ng 0)) /\
    (forall c, ~ (forall d, (d < 3)%nat -> ghosts nd ng d <= coord d c < ghosts nd ng d + (coord d cmax - coord d cmin)) -> out' c = out c).
Proof.
  intros Hr H0 He. unfold broadcast_profile.
  assert (E : profile_reads_ok nd r0 p = true).
  { unfold profile_reads_ok. rewrite forallb_forall, (no_ghosts_nghost _ _ _ _ _ _ Hr H0). intros c I.
    apply in_cells_iff in I. pose proof (proj1 (owned_cells _ _ _ _ _ _ _ Hr H0) I 0%nat ltac:(lia)) as J. change (coord 0 c) with (ii c) in J. lia. }
  rewrite E. eexists. split; [reflexivity|]. unfold kwrite. split; intros c Hc.
  - rewrite (proj2 (owned_cells _ _ _ _ _ _ c Hr H0) Hc). now rewrite (no_ghosts_nghost _ _ _ _ _ _ Hr H0).
  - destruct (in_cells nd r0 c) eqn:F; [|reflexivity]. destruct Hc. now apply (owned_cells _ _ _ _ _ _ c Hr H0).
Qed.

Lemma broadcast_too_short nd cmin cmax ng r r0 p out : make_range nd cmin cmax ng = Ok r -> no_ghosts r = Ok r0 ->
  (forall d, (d < 3)%nat -> coord d cmin < coord d cmax) -> a_ext p < coord 0 cmax - coord 0 cmin ->
  exists w, broadcast_profile nd r0 p out = UB w.
Proof.
  intros Hr H0 NE He. unfold broadcast_profile. destruct (profile_reads_ok nd r0 p) eqn:E; [|eauto].
  apply (profile_reads _ _ _ _ _ _ p Hr H0 NE) in E. lia.
Qed.

Lemma broadcast_const_exact nd cmin cmax ng r r0 x out c : make_range nd cmin cmax ng = Ok r -> no_ghosts r = Ok r0 ->
  ((forall d, (d < 3)%nat -> ghosts nd ng d <= coord d c < ghosts nd ng d + (coord d cmax - coord d cmin)) -> broadcast_const nd r0 x out c = x) /\
  (~ (forall d, (d < 3)%nat -> ghosts nd ng d <= coord d c < ghosts nd ng d + (coord d cmax - coord d cmin)) -> broadcast_const nd r0 x out c = out c).
Proof.
  intros Hr H0. unfold broadcast_const, kwrite. split; intros Hc.
  - now rewrite (proj2 (owned_cells _ _ _ _ _ _ c Hr H0) Hc).
  - destruct (in_cells nd r0 c) eqn:F; [|reflexivity]. destruct Hc. now apply (owned_cells _ _ _ _ _ _ c Hr H0).
Qed.

(** The initial data of v1d on every process. *)
Section Init.
  Variables (nd : nat) (N dims : idx) (ng : Z) (dec : idx -> decomp).
  Hypothesis D : decomposed nd N dims ng dec.
  Let vr (r : idx) : Prop := forall d, (d < 3)%nat -> 0 <= coord d r < coord d (mpi_dims nd dims).

  Lemma dec_range r : vr r -> make_range nd (corner_min (d_range (dec r))) (corner_max (d_range (dec r))) ng = Ok (d_range (dec r)) /\
    (forall d, (d < 3)%nat -> coord d (corner_max (d_range (dec r))) = coord d (corner_min (d_range (dec r))) + coord d (d_nloc (dec r))).
  Proof.
    intros Hr. pose proof (dcp_ok D Hr) as E.
    rewrite mpi_decomposition_ok in E by (try exact Hr; intros d Hd; pose proof (dcp_n D Hd); lia).
    injection E as <-. unfold decomp_of. cbn [d_range corner_min corner_max d_nloc]. split.
    - edestruct (make_range_ok_iff nd) as [_ K]. destruct K as [rg K].
      2: { rewrite K. pose proof (make_range_ok_val _ _ _ _ _ K) as ->. reflexivity. }
      intros d Hd. rewrite !coord_mk3 by exact Hd. specialize (Hr d Hd). pose proof (dcp_n D Hd) as Nd.
      pose proof (cmin_nonneg (coord d N) (coord d (mpi_dims nd dims)) ltac:(lia) ltac:(lia) (coord d r) ltac:(lia)).
      pose proof (nloc_nonneg (coord d N) (coord d (mpi_dims nd dims)) ltac:(lia) ltac:(lia) (coord d r)). lia.
    - intros d Hd. now rewrite !coord_mk3.
  Qed.

  Lemma init_profile_ok file out r : a_ext file = coord 0 N -> vr r ->
    exists o, init_profile nd (coord 0 N) (dec r) file out = Ok o /\
      forall c, owned nd ng (d_nloc (dec r)) c -> o c = a_at file (coord 0 (global_index nd ng (corner_min (d_range (dec r))) c)).
  Proof.
    intros He Hr. destruct (dec_range r Hr) as [M C].
    pose proof (dec_cmin nd N dims ng dec D r 0%nat Hr ltac:(lia)) as E1.
    pose proof (dec_nloc nd N dims ng dec D r 0%nat Hr ltac:(lia)) as E2.
    pose proof (cm_nonneg nd N dims ng dec D 0 (coord 0 r) ltac:(lia) ltac:(apply (Hr 0%nat); lia)).
    pose proof (cm_max nd N dims ng dec D 0 (coord 0 r) ltac:(lia) ltac:(apply (Hr 0%nat); lia)).
    pose proof (nl_nonneg nd N dims ng dec D 0 (coord 0 r) ltac:(lia)).
    unfold init_profile, check_extent, read_profile, subview1. rewrite He, Z.eqb_refl. cbn [obind].
    match goal with |- context [if ?b then _ else _] => replace b with true by lia end. cbn [obind].
    unfold no_ghosts. rewrite with_ghosts_ok.
    2: { pose proof (make_range_ok_val _ _ _ _ _ M) as ->. cbn. exact (dcp_ng D). }
    cbn [obind].
    destruct (broadcast_exact nd (corner_min (d_range (dec r))) (corner_max (d_range (dec r))) ng (d_range (dec r))
      (mkRange (corner_min (d_range (dec r))) (corner_max (d_range (dec r))) (rng_ng (d_range (dec r))) 0 (rng_nghost (d_range (dec r))))
      (mkArr1 (coord 0 (corner_min (d_range (dec r))) + coord 0 (d_nloc (dec r)) - coord 0 (corner_min (d_range (dec r))))
         (fun i => a_at file (coord 0 (corner_min (d_range (dec r))) + i))) out M) as (o & E & V & _).
    - unfold no_ghosts. apply with_ghosts_ok. pose proof (make_range_ok_val _ _ _ _ _ M) as ->. cbn. exact (dcp_ng D).
    - cbn [a_ext]. rewrite (C 0%nat) by lia. lia.
    - exists o. split; [exact E|]. intros c Hc. rewrite V.
      + cbn [a_at]. f_equal. unfold global_index. rewrite coord_mk3 by lia. lia.
      + intros d Hd. specialize (Hc d Hd). rewrite (C d Hd). lia.
  Qed.
End Init.
