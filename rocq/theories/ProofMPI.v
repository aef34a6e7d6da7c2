(** * Processes with a common lock-step execution neither block nor diverge, whatever their relative speeds (C84). *)
From Coq Require Import Relations FunctionalExtensionality ZifyBool ZifyNat.
From Verif Require Import Base RBase ModelMesh ModelGeom ModelBoundary ModelHydro ModelScheme ModelStep ModelMain ModelMove ModelMPI SpecMPI ProofBase ProofBox.
Set Implicit Arguments.
Unset Strict Implicit.
Local Open Scope list_scope.

Section Lists.
Context {T : Type} (Q : T -> bool).
Lemma filter_firstn_le n m (l : list T) : (n <= m)%nat ->
  (List.length (filter Q (firstn n l)) <= List.length (filter Q (firstn m l)))%nat.
Proof.
  intro H. replace m with (n + (m - n))%nat by lia. generalize (m - n)%nat. clear m H.
  revert l. induction n as [|n IH]; intros l k; [cbn; lia|]. destruct l as [|a l]; [cbn; lia|].
  cbn [firstn plus filter]. specialize (IH l k). destruct (Q a); cbn [List.length]; lia.
Qed.
Lemma nth_filter_firstn n m (l : list T) x : nth_error l n = Some x -> Q x = true ->
  nth_error (filter Q (firstn m l)) (List.length (filter Q (firstn n l))) = if Nat.ltb n m then Some x else None.
Proof.
  intros E q. destruct (Nat.ltb_spec n m) as [H|H].
  - revert m l E H. induction n as [|n IH]; intros m l E H; destruct l as [|a l]; try discriminate; destruct m as [|m]; try lia.
    + cbn in E. injection E as ->. cbn. rewrite q. reflexivity.
    + cbn in E. cbn [firstn filter]. destruct (Q a); cbn [List.length nth_error]; apply IH; try assumption; lia.
  - apply nth_error_None. apply filter_firstn_le. exact H.
Qed.
Lemma length_filter_S n (l : list T) x : nth_error l n = Some x -> Q x = true ->
  List.length (filter Q (firstn (Datatypes.S n) l)) = Datatypes.S (List.length (filter Q (firstn n l))).
Proof.
  revert l. induction n as [|n IH]; intros l E q; destruct l as [|a l]; try discriminate.
  - cbn in E. injection E as ->. cbn. now rewrite q.
  - cbn in E. specialize (IH l E q). cbn [firstn filter] in *. destruct (Q a); cbn [List.length]; lia.
Qed.
End Lists.

Lemma firstn_S_nth {T : Type} n (l : list T) x : nth_error l n = Some x -> firstn (Datatypes.S n) l = firstn n l ++ [x].
Proof.
  revert l. induction n as [|n IH]; intros l E; destruct l as [|a l]; try discriminate; cbn in E.
  - injection E as ->. reflexivity.
  - cbn [firstn]. rewrite <- app_comm_cons. f_equal. exact (IH _ E).
Qed.

Lemma filter_map {T U : Type} (P : U -> bool) (Q : T -> bool) (f : T -> U) l :
  (forall x, In x l -> P (f x) = Q x) -> filter P (map f l) = map f (filter Q l).
Proof.
  induction l as [|a l IH]; intro H; [reflexivity|]. cbn. rewrite (H a (or_introl eq_refl)).
  rewrite IH by (intros; apply H; right; assumption). destruct (Q a); reflexivity.
Qed.

Lemma nth_firstn_in {T : Type} n (l : list T) x : In x (firstn n l) -> In x l.
Proof. revert l. induction n as [|n IH]; intros [|a l]; cbn; try tauto. intros [->|H]; [now left|right; exact (IH _ H)]. Qed.

Lemma filter_ext_in' {T : Type} (P Q : T -> bool) l : (forall x, In x l -> P x = Q x) -> filter P l = filter Q l.
Proof.
  induction l as [|a l IH]; intro H; [reflexivity|]. cbn. rewrite (H a (or_introl eq_refl)).
  rewrite IH by (intros; apply H; right; assumption). reflexivity.
Qed.

Lemma idx_eqb_true a b : idx_eqb a b = true <-> a = b.
Proof.
  destruct a as [a1 a2 a3], b as [b1 b2 b3]. unfold idx_eqb. cbn [ii jj kk].
  rewrite !andb_true_iff, !Z.eqb_eq. split; [intros [[-> ->] ->]; reflexivity|]. intro E. injection E as -> -> ->. auto.
Qed.

Lemma update_same {T : Type} (s : idx -> T) r v : update s r v r = v.
Proof. unfold update. replace (idx_eqb r r) with true by (symmetry; now apply idx_eqb_true). reflexivity. Qed.
Lemma update_other {T : Type} (s : idx -> T) r v q : q <> r -> update s r v q = s q.
Proof.
  intro H. unfold update. destruct (idx_eqb r q) eqn:E; [|reflexivity]. apply idx_eqb_true in E. congruence.
Qed.

Lemma idx_dec (a b : idx) : {a = b} + {a <> b}.
Proof. decide equality; apply Z.eq_dec. Qed.

Section Lockstep.
Context {A : Type} (dims : idx).
Local Notation grid := (ranks dims).

Definition final (p : prog A) : Prop := match p with Call _ _ => False | _ => True end.

(** One phase of a lock-step execution: what every process calls, and what it gets. *)
Record phase : Type := mkPhase { ph_call : idx -> call; ph_val : idx -> msg }.

Definition coll_phase (c : comm) (o : op) (m : idx -> msg) : phase :=
  mkPhase (fun r => Collective c o (m r)) (fun r => combine o (group dims c r) m (m r)).
Definition exch_phase (dst src : idx -> idx) (t : nat) (m : idx -> msg) : phase :=
  mkPhase (fun r => Exchange (dst r) (src r) t (m r)) (fun r => m (src r)).
Definition coll_good (c : comm) (o : op) (m : idx -> msg) : Prop :=
  (forall r q, In r grid -> In q (group dims c r) -> shape_of (m q) = shape_of (m r)) /\
  (forall root r, o = OBcast root -> In r grid -> In root (group dims c r)).
Definition exch_good (dst src : idx -> idx) (m : idx -> msg) : Prop :=
  forall r, In r grid ->
    In (dst r) grid /\ In (src r) grid /\ src (dst r) = r /\ dst (src r) = r /\ shape_of (m (src r)) = shape_of (m r).
Inductive good (f : phase) : Prop :=
| good_coll c o m : f = coll_phase c o m -> coll_good c o m -> good f
| good_exch dst src t m : f = exch_phase dst src t m -> exch_good dst src m -> good f.

Fixpoint follows (W : idx -> prog A) (l : list phase) (F : idx -> prog A) : Prop :=
  match l with
  | [] => forall r, In r grid -> W r = F r
  | f :: l' =>
      good f /\ exists k, (forall r, In r grid -> W r = Call (ph_call f r) (k r)) /\
                          follows (fun r => k r (ph_val f r)) l' F
  end.

(** The program of [r] after [n] phases. *)
Fixpoint after (p : prog A) (l : list phase) (n : nat) (r : idx) {struct n} : prog A :=
  match n, l, p with
  | Datatypes.S n', f :: l', Call _ k => after (k (ph_val f r)) l' n' r
  | _, _, _ => p
  end.

Lemma after_step W l F r n f : follows W l F -> In r grid -> nth_error l n = Some f ->
  exists k, after (W r) l n r = Call (ph_call f r) k /\ after (W r) l (Datatypes.S n) r = k (ph_val f r).
Proof.
  revert W n. induction l as [|a l IH]; intros W n H Hr E; [destruct n; discriminate|].
  cbn [follows] in H. destruct H as [_ [k [Hk H]]]. destruct n as [|n].
  - cbn in E. injection E as ->. exists (k r). rewrite (Hk r Hr). split; reflexivity.
  - cbn in E. destruct (IH _ n H Hr E) as [k' [E1 E2]]. exists k'.
    change (after (W r) (a :: l) (Datatypes.S n) r) with
      (match W r with Call _ k => after (k (ph_val a r)) l n r | _ => W r end).
    change (after (W r) (a :: l) (Datatypes.S (Datatypes.S n)) r) with
      (match W r with Call _ k => after (k (ph_val a r)) l (Datatypes.S n) r | _ => W r end).
    rewrite (Hk r Hr). split; assumption.
Qed.

Lemma after_end W l F r : follows W l F -> In r grid -> after (W r) l (List.length l) r = F r.
Proof.
  revert W. induction l as [|a l IH]; intros W H Hr.
  - exact (H r Hr).
  - cbn [follows] in H. destruct H as [_ [k [Hk H]]]. cbn [List.length after]. rewrite (Hk r Hr). exact (IH _ H Hr).
Qed.

Lemma follows_good W l F f : follows W l F -> In f l -> good f.
Proof.
  revert W. induction l as [|a l IH]; intros W H Hf; [destruct Hf|].
  cbn [follows] in H. destruct H as [G [k [_ H]]]. destruct Hf as [->|Hf]; [exact G|exact (IH _ H Hf)].
Qed.

Lemma group_in c r q : In r grid -> In q (group dims c r) -> In q grid.
Proof.
  intros Hr. destruct c; [trivial|]. cbn [group]. unfold ranks, horizontal_ranks in *. intro Hq.
  apply in_box_cells in Hr. apply in_box_cells in Hq. apply in_box_cells. unfold in_box in *. cbn [ii jj kk] in *. lia.
Qed.
Lemma group_sym c r q : In r grid -> In q (group dims c r) -> In r (group dims c q).
Proof.
  intros Hr. destruct c; [trivial|]. cbn [group]. unfold ranks, horizontal_ranks in *. intro Hq.
  apply in_box_cells in Hr. apply in_box_cells in Hq. apply in_box_cells. unfold in_box in *. cbn [ii jj kk] in *. lia.
Qed.

Section Fix.
Variables (W F : idx -> prog A) (l : list phase).
Hypothesis HF : follows W l F.

(** Process [r] has left [n] calls and is inside the next one when [e]. *)
Record stands (p : proc A) (r : idx) (n : nat) (e : bool) : Prop := {
  sd_pc : pc p = after (W r) l n r;
  sd_in : inside p = e;
  sd_past : past p = map (fun f => ph_call f r) (firstn (n + if e then 1 else 0) l);
  sd_len : (n + (if e then 1 else 0) <= List.length l)%nat }.
Definition inv (s : idx -> proc A) (pos : idx -> nat) (ent : idx -> bool) : Prop :=
  forall r, In r grid -> stands (s r) r (pos r) (ent r).
Definition entered (pos : idx -> nat) (ent : idx -> bool) (r : idx) : nat := (pos r + if ent r then 1 else 0)%nat.

Lemma inv_start : inv (start W) (fun _ => 0%nat) (fun _ => false).
Proof. intros r Hr. split; cbn; try reflexivity; try lia. Qed.

Lemma good_nth n f : nth_error l n = Some f -> good f.
Proof. intro E. exact (follows_good HF (nth_error_In _ _ E)). Qed.

Lemma on_comm_uniform f c r q : good f -> on_comm c (ph_call f r) = on_comm c (ph_call f q).
Proof. intros [c' o m -> _|dst src t m -> _]; reflexivity. Qed.
Lemma sent_received f r q t : good f -> In r grid -> In q grid ->
  sent_to r t (ph_call f q) = received_from q t (ph_call f r).
Proof.
  intros [c' o m -> _|dst src t' m -> G] Hr Hq; [reflexivity|]. cbn [ph_call exch_phase sent_to received_from].
  destruct (G r Hr) as [_ [_ [_ [G1 _]]]]. destruct (G q Hq) as [_ [_ [G2 _]]]. f_equal.
  destruct (idx_eqb (dst q) r) eqn:E1, (idx_eqb (src r) q) eqn:E2; try reflexivity.
  - apply idx_eqb_true in E1. assert (src r = q) as X by congruence. apply idx_eqb_true in X. congruence.
  - apply idx_eqb_true in E2. assert (dst q = r) as X by congruence. apply idx_eqb_true in X. congruence.
Qed.

Lemma coll_matched s pos ent c r q n f o m : inv s pos ent -> In r grid -> In q grid ->
  pos r = n -> ent r = true -> nth_error l n = Some f -> ph_call f r = Collective c o m ->
  matched_coll s c r q = if Nat.ltb n (entered pos ent q) then Some (ph_call f q) else None.
Proof.
  intros I Hr Hq En Ee Ef Ec. unfold matched_coll. rewrite (sd_past (I r Hr)), (sd_past (I q Hq)).
  fold (entered pos ent q). rewrite En, Ee. replace (n + 1)%nat with (Datatypes.S n) by lia.
  set (Q := fun f => on_comm c (ph_call f r)).
  assert (U : forall p k, filter (on_comm c) (map (fun f => ph_call f p) (firstn k l)) = map (fun f => ph_call f p) (filter Q (firstn k l))).
  { intros p k. apply filter_map. intros x Hx. unfold Q. apply on_comm_uniform.
    exact (follows_good HF (nth_firstn_in Hx)). }
  rewrite !U, map_length. assert (Qf : Q f = true) by (unfold Q; rewrite Ec; destruct c; reflexivity).
  rewrite (length_filter_S Ef Qf). cbn [minus]. rewrite Nat.sub_0_r, nth_error_map, (nth_filter_firstn _ Ef Qf).
  destruct (Nat.ltb _ _); reflexivity.
Qed.

Lemma send_matched s pos ent r n f dst src t m : inv s pos ent -> In r grid -> In src grid ->
  pos r = n -> ent r = true -> nth_error l n = Some f -> ph_call f r = Exchange dst src t m ->
  matched_send s r src t = if Nat.ltb n (entered pos ent src) then Some (ph_call f src) else None.
Proof.
  intros I Hr Hq En Ee Ef Ec. unfold matched_send. rewrite (sd_past (I r Hr)), (sd_past (I src Hq)).
  fold (entered pos ent src). rewrite En, Ee. replace (n + 1)%nat with (Datatypes.S n) by lia.
  set (Q := fun f => received_from src t (ph_call f r)).
  assert (U1 : forall k, filter (received_from src t) (map (fun f => ph_call f r) (firstn k l)) = map (fun f => ph_call f r) (filter Q (firstn k l))).
  { intros k. apply filter_map. reflexivity. }
  assert (U2 : forall k, filter (sent_to r t) (map (fun f => ph_call f src) (firstn k l)) = map (fun f => ph_call f src) (filter Q (firstn k l))).
  { intros k. apply filter_map. intros x Hx. unfold Q. apply sent_received; trivial.
    exact (follows_good HF (nth_firstn_in Hx)). }
  rewrite U1, U2, map_length. assert (Qf : Q f = true).
  { unfold Q. rewrite Ec. cbn. apply andb_true_iff. split; [now apply idx_eqb_true|now apply Nat.eqb_eq]. }
  rewrite (length_filter_S Ef Qf). cbn [minus]. rewrite Nat.sub_0_r, nth_error_map, (nth_filter_firstn _ Ef Qf).
  destruct (Nat.ltb _ _); reflexivity.
Qed.

Lemma recv_matched s pos ent r n f dst src t m : inv s pos ent -> In r grid -> In dst grid ->
  pos r = n -> ent r = true -> nth_error l n = Some f -> ph_call f r = Exchange dst src t m ->
  matched_recv s r dst t = if Nat.ltb n (entered pos ent dst) then Some (ph_call f dst) else None.
Proof.
  intros I Hr Hq En Ee Ef Ec. unfold matched_recv. rewrite (sd_past (I r Hr)), (sd_past (I dst Hq)).
  fold (entered pos ent dst). rewrite En, Ee. replace (n + 1)%nat with (Datatypes.S n) by lia.
  set (Q := fun f => sent_to dst t (ph_call f r)).
  assert (U1 : forall k, filter (sent_to dst t) (map (fun f => ph_call f r) (firstn k l)) = map (fun f => ph_call f r) (filter Q (firstn k l))).
  { intros k. apply filter_map. reflexivity. }
  assert (U2 : forall k, filter (received_from r t) (map (fun f => ph_call f dst) (firstn k l)) = map (fun f => ph_call f dst) (filter Q (firstn k l))).
  { intros k. apply filter_map. intros x Hx. unfold Q. symmetry. apply sent_received; trivial.
    exact (follows_good HF (nth_firstn_in Hx)). }
  rewrite U1, U2, map_length. assert (Qf : Q f = true).
  { unfold Q. rewrite Ec. cbn. apply andb_true_iff. split; [now apply idx_eqb_true|now apply Nat.eqb_eq]. }
  rewrite (length_filter_S Ef Qf). cbn [minus]. rewrite Nat.sub_0_r, nth_error_map, (nth_filter_firstn _ Ef Qf).
  destruct (Nat.ltb _ _); reflexivity.
Qed.

Lemma opt_fold_ext (h : option R -> option R -> option R) (f f' : idx -> msg) g : (forall q, In q g -> f q = f' q) ->
  fold_right (fun q acc => h (real_of (f q)) acc) None g = fold_right (fun q acc => h (real_of (f' q)) acc) None g.
Proof.
  induction g as [|a g IH]; intro H; [reflexivity|]. cbn. rewrite (H a (or_introl eq_refl)), IH; [reflexivity|].
  intros; apply H; now right.
Qed.
Lemma combine_ext o g f f' mine : (forall q, In q g -> f q = f' q) -> (forall root, o = OBcast root -> f root = f' root) ->
  combine o g f mine = combine o g f' mine.
Proof.
  intros H1 H2. destruct o; cbn [combine]; try reflexivity.
  - f_equal. exact (opt_fold_ext opt_max H1).
  - f_equal. exact (opt_fold_ext opt_min H1).
  - f_equal. apply functional_extensionality. intro i. clear H2. induction g as [|a g IH]; [reflexivity|]. cbn.
    rewrite (H1 a (or_introl eq_refl)), IH; [reflexivity|]. intros; apply H1; now right.
  - apply H2. reflexivity.
Qed.
Lemma combine_bcast root g f f' mine : f root = f' root -> combine (OBcast root) g f mine = combine (OBcast root) g f' mine.
Proof. intro H. exact H. Qed.

(** The data a process waits for is that of the lock-step execution. *)
Lemma result_ref s pos ent r x k n f : inv s pos ent -> In r grid -> pos r = n -> ent r = true ->
  nth_error l n = Some f -> pc (s r) = Call x k -> x = ph_call f r -> available dims s r x ->
  result dims s r x = ph_val f r.
Proof.
  intros I Hr En Ee Ef _ -> Av. destruct (good_nth Ef) as [c o m Eq G|dst src t m Eq G]; rewrite Eq.
  - assert (Ec : ph_call f r = Collective c o (m r)) by (rewrite Eq; reflexivity).
    rewrite Ec in Av. cbn [ph_call ph_val coll_phase result].
    destruct o as [| | |root| |]; try (apply combine_ext; [|discriminate]; intros q Hq;
      specialize (Av q Hq); rewrite (coll_matched I Hr (group_in Hr Hq) En Ee Ef Ec) in *;
      destruct (Nat.ltb _ _); [rewrite Eq; reflexivity|congruence]).
    apply combine_bcast. cbn [available] in Av.
    assert (Hq : In root grid) by exact (group_in Hr (proj2 G root r eq_refl Hr)).
    rewrite (coll_matched I Hr Hq En Ee Ef Ec) in *. destruct (Nat.ltb _ _); [rewrite Eq; reflexivity|congruence].
  - assert (Ec : ph_call f r = Exchange (dst r) (src r) t (m r)) by (rewrite Eq; reflexivity).
    rewrite Ec in Av. cbn [ph_call ph_val exch_phase result]. cbn [available] in Av.
    destruct (G r Hr) as [_ [Hs _]]. rewrite (send_matched I Hr Hs En Ee Ef Ec) in *.
    destruct (Nat.ltb _ _); [rewrite Eq; reflexivity|congruence].
Qed.

Definition upd {T : Type} (g : idx -> T) (r : idx) (v : T) : idx -> T := fun q => if idx_eqb r q then v else g q.
Lemma upd_same {T : Type} (g : idx -> T) r v : upd g r v r = v.
Proof. exact (update_same g r v). Qed.
Lemma upd_other {T : Type} (g : idx -> T) r v q : q <> r -> upd g r v q = g q.
Proof. intro H. exact (@update_other T g r v q H). Qed.

Lemma after_call r n x k : In r grid -> (n <= List.length l)%nat -> ((n < List.length l)%nat \/ final (F r)) -> after (W r) l n r = Call x k ->
  exists f, nth_error l n = Some f /\ x = ph_call f r /\ after (W r) l (Datatypes.S n) r = k (ph_val f r).
Proof.
  intros Hr Hn Hf E. destruct (nth_error l n) as [f|] eqn:Ef.
  - destruct (after_step HF Hr Ef) as [k' [E1 E2]]. rewrite E in E1. injection E1 as -> ->. exists f. auto.
  - apply nth_error_None in Ef. assert (n = List.length l) as -> by lia.
    pose proof (after_end HF Hr) as E1. rewrite E in E1. rewrite <- E1 in Hf. destruct Hf as [Hf|[]]. lia.
Qed.

(** A step of one process, in one direction or the other. *)
Definition moves (pos : idx -> nat) (ent : idx -> bool) (r : idx) (s' : idx -> proc A) : Prop :=
  (ent r = false /\ inv s' pos (upd ent r true)) \/
  (ent r = true /\ inv s' (upd pos r (Datatypes.S (pos r))) (upd ent r false)).

Lemma enter_inv s pos ent r x k h : inv s pos ent -> In r grid -> ((pos r < List.length l)%nat \/ final (F r)) ->
  s r = mkProc (Call x k) false h -> moves pos ent r (update s r (mkProc (Call x k) true (h ++ [x]))).
Proof.
  intros I Hr Hf Es. destruct (I r Hr) as [P1 P2 P3 P4]; rewrite Es in *; cbn [pc inside past] in *.
  left. split; [auto|]. rewrite <- P2 in *. cbn in P3, P4. rewrite Nat.add_0_r in *.
  destruct (after_call Hr P4 Hf (eq_sym P1)) as [f [Ef [-> E2]]].
  intros q Hq. destruct (idx_dec q r) as [->|N].
  - rewrite update_same, upd_same. split; cbn [pc inside past]; auto.
    + rewrite P3. replace (pos r + 1)%nat with (Datatypes.S (pos r)) by lia.
      rewrite (firstn_S_nth Ef), map_app. reflexivity.
    + assert (pos r < List.length l)%nat by (apply nth_error_Some; congruence). lia.
  - rewrite update_other, upd_other by assumption. exact (I q Hq).
Qed.
Lemma leave_inv s pos ent r x k h : inv s pos ent -> In r grid ->
  s r = mkProc (Call x k) true h -> available dims s r x -> moves pos ent r (update s r (mkProc (k (result dims s r x)) false h)).
Proof.
  intros I Hr Es Av. destruct (I r Hr) as [P1 P2 P3 P4]; rewrite Es in *; cbn [pc inside past] in *.
  right. split; [auto|]. rewrite <- P2 in *. cbn in P3, P4.
  assert (P4' : (pos r < List.length l)%nat) by lia.
  destruct (after_call Hr (Nat.lt_le_incl _ _ P4') (or_introl P4') (eq_sym P1)) as [f [Ef [Ex E2]]].
  assert (R : result dims s r x = ph_val f r).
  { assert (pc (s r) = Call x k) as Epc by (rewrite Es; reflexivity).
    exact (result_ref I Hr eq_refl (eq_sym P2) Ef Epc Ex Av). }
  intros q Hq. destruct (idx_dec q r) as [->|N].
  - rewrite update_same, !upd_same. split; cbn [pc inside past]; auto.
    + rewrite R. symmetry. exact E2.
    + rewrite P3. f_equal. f_equal. lia.
    + lia.
  - rewrite update_other, !upd_other by assumption. exact (I q Hq).
Qed.

(** Every step keeps the invariant and advances one process. *)
Lemma step_inv s s' pos ent : (forall r, In r grid -> final (F r)) -> inv s pos ent -> step dims s s' ->
  exists r, In r grid /\ moves pos ent r s'.
Proof.
  intros Hf I [r x k h Hr Es|r x k h Hr Es Av]; exists r; (split; [exact Hr|]).
  - exact (enter_inv I Hr (or_intror (Hf r Hr)) Es).
  - exact (leave_inv I Hr Es Av).
Qed.

Definition total (pos : idx -> nat) (ent : idx -> bool) : nat :=
  list_sum (map (fun r => (2 * pos r + if ent r then 1 else 0)%nat) grid).

Lemma grid_nodup : NoDup grid.
Proof. apply NoDup_box_cells. Qed.

Lemma list_sum_upd (g : list idx) (f f' : idx -> nat) r : NoDup g -> In r g -> (forall q, q <> r -> f' q = f q) ->
  f' r = Datatypes.S (f r) -> list_sum (map f' g) = Datatypes.S (list_sum (map f g)).
Proof.
  intros N. induction N as [|a g Ha N IH]; intros Hr H1 H2; [destruct Hr|].
  cbn [map list_sum fold_right]. change (fold_right Nat.add 0%nat) with list_sum.
  destruct Hr as [->|Hr].
  - rewrite H2. assert (E : map f' g = map f g).
    { apply map_ext_in. intros q Hq. apply H1. intros ->. contradiction. }
    rewrite E. cbn. reflexivity.
  - rewrite (H1 a) by (intros ->; contradiction). change (fold_right Nat.add 0%nat (map f' g)) with (list_sum (map f' g)).
    change (fold_right Nat.add 0%nat (map f g)) with (list_sum (map f g)). rewrite (IH Hr H1 H2). lia.
Qed.

Lemma moves_total pos ent r s' : In r grid -> moves pos ent r s' ->
  exists pos' ent', inv s' pos' ent' /\ total pos' ent' = Datatypes.S (total pos ent).
Proof.
  intros Hr [[E I']|[E I']].
  - exists pos, (upd ent r true). split; [exact I'|]. unfold total.
    apply list_sum_upd with r; [exact grid_nodup|exact Hr| |].
    + intros q N. now rewrite upd_other.
    + rewrite upd_same, E. lia.
  - exists (upd pos r (Datatypes.S (pos r))), (upd ent r false). split; [exact I'|]. unfold total.
    apply list_sum_upd with r; [exact grid_nodup|exact Hr| |].
    + intros q N. now rewrite !upd_other.
    + rewrite !upd_same, E. lia.
Qed.
Lemma total_0 : total (fun _ => 0%nat) (fun _ => false) = 0%nat.
Proof. unfold total. induction (ranks dims) as [|a g IH]; [reflexivity|exact IH]. Qed.

Lemma inv_bounded s pos ent : inv s pos ent -> (total pos ent <= 2 * List.length l * List.length grid)%nat.
Proof.
  intro I. unfold total.
  assert (G : forall g, incl g grid -> (list_sum (map (fun r => (2 * pos r + if ent r then 1 else 0)%nat) g) <= 2 * List.length l * List.length g)%nat).
  { induction g as [|a g IH]; intro Hg; [cbn; lia|]. cbn [map list_sum fold_right List.length].
    change (fold_right Nat.add 0%nat) with list_sum.
    pose proof (sd_len (I a (Hg a (or_introl eq_refl)))). assert (incl g grid) by (intros x Hx; apply Hg; now right).
    specialize (IH H0). change (fold_right Nat.add 0%nat (map (fun r => (2 * pos r + (if ent r then 1 else 0))%nat) g))
      with (list_sum (map (fun r => (2 * pos r + (if ent r then 1 else 0))%nat) g)). destruct (ent a); nia. }
  apply G. apply incl_refl.
Qed.

Lemma min_pos (g : list idx) (pos : idx -> nat) : g <> [] -> exists r, In r g /\ forall q, In q g -> (pos r <= pos q)%nat.
Proof.
  induction g as [|a g IH]; intro N; [congruence|]. destruct g as [|b g].
  - exists a. split; [now left|]. intros q [->|[]]. lia.
  - destruct IH as [r [Hr M]]; [discriminate|]. destruct (le_lt_dec (pos a) (pos r)) as [L|L].
    + exists a. split; [now left|]. intros q [->|Hq]; [lia|]. specialize (M q Hq). lia.
    + exists r. split; [now right|]. intros q [->|Hq]; [lia|exact (M q Hq)].
Qed.

Lemma exists_out (g : list idx) (pos : idx -> nat) (ent : idx -> bool) n :
  (exists q, In q g /\ pos q = n /\ ent q = false) \/ (forall q, In q g -> pos q = n -> ent q = true).
Proof.
  induction g as [|a g IH]; [right; intros q []|].
  destruct IH as [[q [Hq E]]|IH]; [left; exists q; split; [now right|exact E]|].
  destruct (Nat.eq_dec (pos a) n) as [Ea|Na].
  - destruct (ent a) eqn:Ee.
    + right. intros q [->|Hq] E; [exact Ee|exact (IH q Hq E)].
    + left. exists a. split; [now left|]. auto.
  - right. intros q [->|Hq] E; [contradiction|exact (IH q Hq E)].
Qed.

(** A process among the slowest can move, even if every call waits for all its partners. *)
Lemma slowest s pos ent : inv s pos ent -> grid <> [] -> exists r, In r grid /\ (forall q, In q grid -> (pos r <= pos q)%nat) /\
  ((pos r < List.length l)%nat ->
   exists q s', In q grid /\ pos q = pos r /\ strict_step dims s s' /\ step dims s s' /\ moves pos ent q s').
Proof.
  intros I N. destruct (@min_pos grid pos N) as [r [Hr M]]. exists r. split; [exact Hr|]. split; [exact M|]. intro Lt.
  destruct (nth_error l (pos r)) as [f|] eqn:Ef; [|apply nth_error_None in Ef; lia].
  destruct (exists_out grid pos ent (pos r)) as [[q [Hq [Eq Ee]]]|Hin].
  - destruct (I q Hq) as [P1 P2 P3 P4]. rewrite Eq in P1.
    destruct (after_step HF Hq Ef) as [k [E1 E2]]. rewrite E1 in P1.
    destruct (s q) as [p i h] eqn:Es. cbn in P1, P2. rewrite P1, P2, Ee in Es.
    exists q, (update s q (mkProc (Call (ph_call f q) k) true (h ++ [ph_call f q]))).
    split; [exact Hq|]. split; [exact Eq|]. split; [apply enter; assumption|]. split; [apply enter; assumption|].
    apply enter_inv; trivial. left. lia.
  - assert (All : forall q, In q grid -> (pos r < entered pos ent q)%nat).
    { intros q Hq. unfold entered. specialize (M q Hq). destruct (Nat.eq_dec (pos q) (pos r)) as [E|E].
      - rewrite (Hin q Hq E). lia.
      - lia. }
    pose proof (Hin r Hr eq_refl) as Ee. destruct (I r Hr) as [P1 P2 P3 P4].
    destruct (after_step HF Hr Ef) as [k [E1 E2]]. rewrite E1 in P1.
    destruct (s r) as [p i h] eqn:Es. cbn in P1, P2. rewrite P1, P2, Ee in Es.
    exists r, (update s r (mkProc (k (result dims s r (ph_call f r))) false h)).
    assert (Rd : rendezvous dims s r (ph_call f r) /\ available dims s r (ph_call f r)).
    { destruct (good_nth Ef) as [c o m Eq G|dst src t m Eq G].
      - assert (Ec : ph_call f r = Collective c o (m r)) by (rewrite Eq; reflexivity). rewrite Ec.
        assert (Rd : forall q, In q (group dims c r) -> matched_coll s c r q <> None).
        { intros q Hq. pose proof (group_in Hr Hq) as Hq'. rewrite (coll_matched I Hr Hq' eq_refl Ee Ef Ec).
          specialize (All q Hq'). apply Nat.ltb_lt in All. rewrite All. discriminate. }
        split; [exact Rd|]. destruct o; try exact Rd. apply Rd. exact (proj2 G _ r eq_refl Hr).
      - assert (Ec : ph_call f r = Exchange (dst r) (src r) t (m r)) by (rewrite Eq; reflexivity). rewrite Ec.
        destruct (G r Hr) as [Hd [Hs _]].
        assert (S1 : matched_send s r (src r) t <> None).
        { rewrite (send_matched I Hr Hs eq_refl Ee Ef Ec). specialize (All _ Hs). apply Nat.ltb_lt in All. rewrite All. discriminate. }
        split; [|exact S1]. split; [exact S1|].
        rewrite (recv_matched I Hr Hd eq_refl Ee Ef Ec). specialize (All _ Hd). apply Nat.ltb_lt in All. rewrite All. discriminate. }
    split; [exact Hr|]. split; [reflexivity|].
    split; [eapply leave; [exact Hr|exact Es|exact (proj1 Rd)]|].
    split; [eapply leave; [exact Hr|exact Es|exact (proj2 Rd)]|].
    apply leave_inv; trivial. exact (proj2 Rd).
Qed.

Section Final.
Hypothesis Hfin : forall r, In r grid -> final (F r).

Lemma steps_inv n s : steps dims n (start W) s -> exists pos ent, inv s pos ent /\ total pos ent = n.
Proof.
  intro H. remember (start W) as s0 eqn:E0. induction H as [s|n s s' s'' H IH H'].
  - subst. exists (fun _ => 0%nat), (fun _ => false). split; [exact inv_start|exact total_0].
  - destruct (IH E0) as [pos [ent [I T]]]. destruct (step_inv Hfin I H') as [r [Hr Mv]].
    destruct (moves_total Hr Mv) as [pos' [ent' [I' T']]]. exists pos', ent'. split; [exact I'|lia].
Qed.

Lemma steps_bounded n s : steps dims n (start W) s -> (n <= 2 * List.length l * List.length grid)%nat.
Proof. intro H. destruct (steps_inv H) as [pos [ent [I <-]]]. exact (inv_bounded I). Qed.

(** No deadlock. *)
Lemma progress n s : steps dims n (start W) s -> all_ended dims s \/ exists s', strict_step dims s s' /\ step dims s s'.
Proof.
  intro H. destruct (steps_inv H) as [pos [ent [I _]]]. clear H.
  assert (Cs : grid = [] \/ grid <> []) by (destruct (ranks dims); [now left|right; discriminate]).
  destruct Cs as [Eg|N].
  { left. intros r Hr. rewrite Eg in Hr. destruct Hr. }
  destruct (slowest I N) as [r [Hr [M Go]]]. destruct (lt_dec (pos r) (List.length l)) as [Lt|Ge].
  - right. destruct (Go Lt) as [q [s' [_ [_ [St [St' _]]]]]]. exists s'. split; assumption.
  - left. intros q Hq. specialize (M q Hq). pose proof (sd_len (I q Hq)).
    assert (pos q = List.length l) as E by lia. unfold ended. rewrite (sd_pc (I q Hq)), E, (after_end HF Hq). exact (Hfin Hq).
Qed.

Lemma steps_cons n (s s1 s' : idx -> proc A) : step dims s s1 -> steps dims n s1 s' -> steps dims (Datatypes.S n) s s'.
Proof.
  intros H H'. induction H' as [s1|n s1 s2 s3 H1 IH H2]; [apply steps_S with s; [apply steps_0|exact H]|].
  apply steps_S with s2; [exact (IH H)|exact H2].
Qed.

(** Every execution can be completed. *)
Lemma complete n s : steps dims n (start W) s -> exists s', reaches dims s s' /\ all_ended dims s'.
Proof.
  intro H. remember (2 * List.length l * List.length grid - n)%nat as m eqn:Em.
  revert n s H Em. induction m as [|m IH]; intros n s H Em.
  - destruct (progress H) as [E|[s' [_ St]]].
    + exists s. split; [exists 0%nat; apply steps_0|exact E].
    + exfalso. pose proof (steps_bounded (steps_S H St)). lia.
  - destruct (progress H) as [E|[s' [_ St]]].
    + exists s. split; [exists 0%nat; apply steps_0|exact E].
    + destruct (IH (Datatypes.S n) s' (steps_S H St)) as [s2 [[j Hj] E]]; [lia|].
      exists s2. split; [|exact E]. exists (Datatypes.S j). exact (steps_cons St Hj).
Qed.

(** Every process that ended did so as in the lock-step execution. *)
Lemma same_end n s r : steps dims n (start W) s -> In r grid -> ended (s r) -> pc (s r) = F r.
Proof.
  intros H Hr E. destruct (steps_inv H) as [pos [ent [I _]]]. unfold ended in E. rewrite (sd_pc (I r Hr)) in *.
  pose proof (sd_len (I r Hr)) as Len. destruct (nth_error l (pos r)) as [f|] eqn:Ef.
  - destruct (after_step HF Hr Ef) as [k [E1 E2]]. rewrite E1 in E. destruct E.
  - apply nth_error_None in Ef. assert (pos r = List.length l) as -> by lia. exact (after_end HF Hr).
Qed.

Lemma no_clash n s : steps dims n (start W) s -> ~ has_clash dims s.
Proof.
  intros H [r [x [k [h [Hr [Es C]]]]]]. destruct (steps_inv H) as [pos [ent [I _]]].
  destruct (I r Hr) as [P1 P2 P3 P4]. rewrite Es in P1, P2. cbn [pc inside] in P1, P2. rewrite <- P2 in P4.
  assert (P4' : (pos r < List.length l)%nat) by lia.
  destruct (after_call Hr (Nat.lt_le_incl _ _ P4') (or_introl P4') (eq_sym P1)) as [f [Ef [Ex _]]].
  destruct (good_nth Ef) as [c o m Eq G|dst src t m Eq G].
  - assert (Ec : ph_call f r = Collective c o (m r)) by (rewrite Eq; reflexivity). rewrite Ex, Ec in C. cbn [clash] in C.
    destruct C as [q [y [Hq [Ey C]]]]. rewrite (coll_matched I Hr (group_in Hr Hq) eq_refl (eq_sym P2) Ef Ec) in Ey.
    destruct (Nat.ltb _ _); [|discriminate]. injection Ey as <-. rewrite Eq in C. cbn [ph_call coll_phase] in C.
    destruct C as [C|C]; [congruence|]. apply C. exact (proj1 G r q Hr Hq).
  - assert (Ec : ph_call f r = Exchange (dst r) (src r) t (m r)) by (rewrite Eq; reflexivity). rewrite Ex, Ec in C. cbn [clash] in C.
    destruct C as [y [Ey C]]. destruct (G r Hr) as [_ [Hs [_ [_ Sh]]]].
    rewrite (send_matched I Hr Hs eq_refl (eq_sym P2) Ef Ec) in Ey. destruct (Nat.ltb _ _); [|discriminate].
    injection Ey as <-. rewrite Eq in C. cbn [ph_call exch_phase msg_of] in C. contradiction.
Qed.
End Final.

(** The state after all phases can be reached. *)
Lemma reach_end : exists s, reaches dims (start W) s /\
  forall r, In r grid -> s r = mkProc (F r) false (map (fun f => ph_call f r) l).
Proof.
  assert (G : forall m n s pos ent, steps dims n (start W) s -> inv s pos ent ->
            (2 * List.length l * List.length grid - total pos ent <= m)%nat ->
            exists n' s' pos' ent', steps dims n' (start W) s' /\ inv s' pos' ent' /\ forall r, In r grid -> pos' r = List.length l).
  { induction m as [|m IH]; intros n s pos ent H I Hm.
    - exists n, s, pos, ent. split; [exact H|]. split; [exact I|]. intros r Hr.
      assert (N : grid <> []) by (intro E; rewrite E in Hr; destruct Hr).
      destruct (slowest I N) as [q [Hq [M Go]]]. pose proof (sd_len (I r Hr)). pose proof (M r Hr).
      destruct (lt_dec (pos q) (List.length l)) as [Lt|Ge]; [|lia]. exfalso.
      destruct (Go Lt) as [q' [s' [Hq' [_ [_ [_ Mv]]]]]]. destruct (moves_total Hq' Mv) as [pos' [ent' [I' T']]].
      pose proof (inv_bounded I'). lia.
    - assert (Cs : grid = [] \/ grid <> []) by (destruct (ranks dims); [now left|right; discriminate]).
      destruct Cs as [Eg|N].
      { exists n, s, pos, ent. split; [exact H|]. split; [exact I|]. intros r Hr. rewrite Eg in Hr. destruct Hr. }
      destruct (slowest I N) as [q [Hq [M Go]]].
      destruct (lt_dec (pos q) (List.length l)) as [Lt|Ge].
      + destruct (Go Lt) as [q' [s' [Hq' [_ [_ [St Mv]]]]]]. destruct (moves_total Hq' Mv) as [pos' [ent' [I' T']]].
        apply (IH (Datatypes.S n) s' pos' ent'); [|exact I'|lia]. now apply steps_S with s.
      + exists n, s, pos, ent. split; [exact H|]. split; [exact I|]. intros r Hr. pose proof (M r Hr). pose proof (sd_len (I r Hr)). lia. }
  destruct (G _ 0%nat _ _ _ (steps_0 dims (start W)) inv_start (le_n _)) as [n [s [pos [ent [H [I E]]]]]].
  exists s. split; [exists n; exact H|]. intros r Hr. destruct (I r Hr) as [P1 P2 P3 P4]. rewrite (E r Hr) in *.
  destruct (ent r); [lia|]. destruct (s r) as [pp ii hh]. cbn in *. rewrite P1, P2, P3, (after_end HF Hr), Nat.add_0_r, firstn_all. reflexivity.
Qed.

(** If afterwards some processes have ended and all others start a reduction over all processes, nothing goes on. *)
Lemma deadlock b q0 : In b grid -> final (F b) -> In q0 grid -> ~ final (F q0) ->
  (forall q, In q grid -> final (F q) \/ exists o m k, F q = Call (Collective World o m) k /\ forall root, o <> OBcast root) ->
  exists s, reaches dims (start W) s /\ stuck dims s.
Proof.
  intros Hb Fb Hq0 Fq0 HC. destruct reach_end as [s0 [[n0 R0] E0]].
  set (past0 := fun r => map (fun f => ph_call f r) l).
  assert (G : forall g, NoDup g -> incl g grid -> exists s n, steps dims n (start W) s /\
            (forall r, In r grid -> ~ In r g -> s r = s0 r) /\
            (forall r, In r g -> match F r with
               | Call x k => s r = mkProc (Call x k) true (past0 r ++ [x]) | _ => s r = s0 r end)).
  { induction g as [|a g IH]; intros Nd Hg.
    - exists s0, n0. split; [exact R0|]. split; [reflexivity|intros r []].
    - inversion Nd as [|? ? Na Nd']; subst. destruct IH as [s [n [R [Out In_]]]]; [exact Nd'|intros x Hx; apply Hg; now right|].
      assert (Ha : In a grid) by (apply Hg; now left). pose proof (Out a Ha Na) as Ea. pose proof (E0 a Ha) as Ea0.
      destruct (F a) as [v|w|x k] eqn:Fa.
      + exists s, n. split; [exact R|]. split; [intros r Hr Nr; apply Out; [exact Hr|intro; apply Nr; now right]|].
        intros r [<-|Hr]; [rewrite Fa; exact Ea|exact (In_ r Hr)].
      + exists s, n. split; [exact R|]. split; [intros r Hr Nr; apply Out; [exact Hr|intro; apply Nr; now right]|].
        intros r [<-|Hr]; [rewrite Fa; exact Ea|exact (In_ r Hr)].
      + exists (update s a (mkProc (Call x k) true (past0 a ++ [x]))), (Datatypes.S n). split; [|split].
        * apply steps_S with s; [exact R|]. apply enter; [exact Ha|]. rewrite Ea, Ea0. reflexivity.
        * intros r Hr Nr. rewrite update_other by (intros ->; apply Nr; now left). apply Out; [exact Hr|]. intro. apply Nr. now right.
        * intros r [<-|Hr]; [rewrite Fa, update_same; reflexivity|].
          rewrite update_other by (intros ->; contradiction). exact (In_ r Hr). }
  destruct (G grid grid_nodup (incl_refl _)) as [s [n [R [_ St]]]]. exists s. split; [exists n; exact R|]. split.
  - intro AE. specialize (AE q0 Hq0). specialize (St q0 Hq0). unfold ended in AE.
    destruct (F q0); cbn in Fq0; try tauto. rewrite St in AE. exact AE.
  - intros s' H. inversion H as [r x k h Hr Es|r x k h Hr Es Av]; subst; pose proof (St r Hr) as Sr; pose proof (E0 r Hr) as Er0;
      destruct (F r) as [v|w|x' k'] eqn:Fr; rewrite Es in Sr; try congruence.
    injection Sr as -> -> ->. destruct (HC r Hr) as [Fi|[o [m [k2 [Ec Nb]]]]]; [rewrite Fr in Fi; exact Fi|].
    rewrite Fr in Ec. injection Ec as -> ->.
    assert (Av' : matched_coll s World r b <> None).
    { destruct o as [| | |root| |]; try (apply Av; exact Hb). exfalso. exact (Nb root eq_refl). }
    apply Av'. unfold matched_coll. apply nth_error_None.
    assert (Eb : s b = s0 b) by (specialize (St b Hb); destruct (F b); [exact St|exact St|destruct Fb]).
    rewrite Eb, (E0 b Hb), Es. cbn [past]. unfold past0. rewrite filter_app, app_length. cbn [filter on_comm List.length].
    assert (U : forall p, filter (on_comm World) (map (fun f => ph_call f p) l) = map (fun f => ph_call f p) (filter (fun f => on_comm World (ph_call f r)) l)).
    { intro p. apply filter_map. intros f Hf. apply on_comm_uniform. exact (follows_good HF Hf). }
    rewrite !U, !map_length. lia.
Qed.
End Fix.

(** ** Composition of lock-step executions *)
Definition locks (W F : idx -> prog A) : Prop := exists l, follows W l F.

Lemma locks_ret (W F : idx -> prog A) : (forall r, In r grid -> W r = F r) -> locks W F.
Proof. intros H1. exists []. cbn. auto. Qed.
Lemma locks_coll c o m (W F : idx -> prog A) k : (forall r, In r grid -> W r = Call (Collective c o (m r)) (k r)) ->
  coll_good c o m -> locks (fun r => k r (combine o (group dims c r) m (m r))) F -> locks W F.
Proof.
  intros H G [l Hl]. exists (coll_phase c o m :: l). cbn [follows]. split; [now apply good_coll with c o m|].
  exists k. split; [exact H|exact Hl].
Qed.
Lemma locks_exch dst src t m (W F : idx -> prog A) k : (forall r, In r grid -> W r = Call (Exchange (dst r) (src r) t (m r)) (k r)) ->
  exch_good dst src m -> locks (fun r => k r (m (src r))) F -> locks W F.
Proof.
  intros H G [l Hl]. exists (exch_phase dst src t m :: l). cbn [follows]. split; [now apply good_exch with dst src t m|].
  exists k. split; [exact H|exact Hl].
Qed.
Lemma follows_ext W W' l F : (forall r, In r grid -> W r = W' r) -> follows W l F -> follows W' l F.
Proof.
  destruct l as [|f l]; cbn [follows]; intros E H.
  - intros r Hr. rewrite <- (E r Hr). exact (H r Hr).
  - destruct H as [G [k [Hk H]]]. split; [exact G|]. exists k. split; [|exact H]. intros r Hr. rewrite <- (E r Hr). exact (Hk r Hr).
Qed.
Lemma locks_ext W W' F : (forall r, In r grid -> W r = W' r) -> locks W F -> locks W' F.
Proof. intros E [l H]. exists l. exact (follows_ext E H). Qed.
End Lockstep.

Lemma follows_bind {A B : Type} dims (W : idx -> prog A) l (v : idx -> A) (k : idx -> A -> prog B) F l' :
  follows dims W l (fun r => Ret (v r)) -> follows dims (fun r => k r (v r)) l' F ->
  follows dims (fun r => pbind (W r) (k r)) (l ++ l') F.
Proof.
  revert W. induction l as [|f l IH]; intros W H1 H2; cbn [follows app] in *.
  - apply follows_ext with (fun r => k r (v r)); [|exact H2]. intros r Hr. rewrite (H1 r Hr). reflexivity.
  - destruct H1 as [G [c [Hc H1]]]. split; [exact G|]. exists (fun r m => pbind (c r m) (k r)). split.
    + intros r Hr. rewrite (Hc r Hr). reflexivity.
    + exact (IH _ H1 H2).
Qed.
Lemma locks_bind {A B : Type} dims (W : idx -> prog A) (v : idx -> A) (k : idx -> A -> prog B) F :
  locks dims W (fun r => Ret (v r)) -> locks dims (fun r => k r (v r)) F -> locks dims (fun r => pbind (W r) (k r)) F.
Proof. intros [l H1] [l' H2]. exists (l ++ l'). exact (follows_bind H1 H2). Qed.
Lemma locks_bind_fail {A B : Type} dims (W : idx -> prog A) w (k : idx -> A -> prog B) :
  locks dims W (fun _ => Fail w) -> locks dims (fun r => pbind (W r) (k r)) (fun _ => Fail w).
Proof.
  intros [l H]. exists l. revert W H. induction l as [|f l IH]; intros W H; cbn [follows] in *.
  - intros r Hr. rewrite (H r Hr). reflexivity.
  - destruct H as [G [c [Hc H]]]. split; [exact G|]. exists (fun r m => pbind (c r m) (k r)). split.
    + intros r Hr. rewrite (Hc r Hr). reflexivity.
    + exact (IH _ H).
Qed.
