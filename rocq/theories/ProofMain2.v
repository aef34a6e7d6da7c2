(** * Restart schedules, counters, file names and examples for the time loop. *)
From Coq Require Import Classical_Prop Ascii Decimal DecimalString DecimalN Sorted Lra ZifyBool.
From Verif Require Import Base RBase ModelMesh ModelGeom ModelBoundary ModelHydro ModelScheme ModelStep ModelMain
  SpecGeom SpecBoundary SpecHydro SpecScheme SpecStep SpecMain
  ProofBase ProofR ProofReduce ProofStep ProofCfl ProofLayout ProofStepEx ProofMain ProofRestart.
Local Open Scope R_scope.

(** ** Counters stay in the range of int *)
Section Counters.
Context {S : Type} (D : dynamics S) (p : params) (clock : Z -> bool).

Lemma no_overflow s n m w : counters_fit p -> loop D p clock n (fresh p s) <> (m, Undefined w).
Proof.
  intros [F1 F2] H. destruct (loop_last _ _ _ _ _ _ _ H) as (k & m1 & _ & Hk & Hb); [discriminate|].
  destruct (going_iter _ _ _ _ _ _ Hk) as [Hi Hm]. destruct (fresh_fields p s) as (E0 & _). cbv zeta in E0. rewrite E0 in Hi.
  assert (A : (0 <= m_iter m1 /\ m_iter m1 + 1 <= Z.max 1 (p_max_iter p))%Z) by lia.
  unfold body in Hb.
  assert (B : int32 (m_iter m1 + 1) = true) by (unfold int32, int_max in *; lia). rewrite B in Hb. cbn [negb] in Hb.
  destruct (iter_schedule p m1) as [[o1 iid]|w'|w'] eqn:E1; [|discriminate|].
  - destruct (time_schedule p m1 (y_dt D (m_st m1))) as [[[o2 tid] dt2]|w'|w'] eqn:E2; [|discriminate|].
    + destruct (clip_to_end _ _ _) as [s1 dt]. destruct (y_bad _ _); [discriminate|]. destruct (_ || clock _); discriminate.
    + unfold time_schedule in E2. destruct (rltb 0 (p_time_freq p)); [|discriminate]. cbv zeta in E2.
      destruct (rleb _ (m_t m1 + _)); [|discriminate]. destruct (rleb (_ - m_t m1) 0); discriminate.
  - unfold iter_schedule in E1. destruct (Z.ltb_spec 0 (p_iter_freq p)) as [Hf|]; [|discriminate]. cbv zeta in E1.
    destruct (iter_invariant D p clock s k m1 Hf Hk) as (_ & Ei & _).
    assert (C : int32 ((m_iid m1 + 1) * p_iter_freq p) = true).
    { rewrite Ei. pose proof (Z.mul_div_le (m_iter m1) (p_iter_freq p) Hf).
      pose proof (Z.div_pos (m_iter m1) (p_iter_freq p) ltac:(lia) Hf). unfold int32, int_max in *. nia. }
    rewrite C in E1. cbn [negb] in E1. destruct (_ <=? _)%Z; discriminate.
Qed.
End Counters.

(** ** C44 *)
Section Later.
Context {S : Type} (D D' : dynamics S) (p : params) (clock clock' : Z -> bool).

Lemma counter_not_ahead s n m v f : 0 < p_time_freq p -> p_t_ini p < p_time_first p -> p_t_ini p < p_t_end p ->
  positive_steps D p clock (fresh p s) -> loop D p clock n (fresh p s) = (m, v) -> completed v ->
  last_file m f -> fl_iter f = m_iter m ->
  (m_t m < p_t_end p \/ exists k, p_t_end p = scheduled p k) ->
  fl_t f = m_t m /\ (-1 <= fl_tid f)%Z /\ fl_t f < p_time_first p + IZR (fl_tid f + 1) * p_time_freq p /\
  (forall k, (Z.of_nat k <= fl_tid f)%Z -> scheduled p k <= fl_t f).
Proof.
  intros Hf Hfirst Hend Hpos H Hv (l & Hl) Hi Hc.
  destruct (fresh_on_schedule p s Hf Hfirst Hend) as (A0 & B0 & C0).
  assert (Old : forall n m, loop D p clock n (fresh p s) = (m, Going) -> (-1 <= m_tid m)%Z /\ m_t m < p_time_first p + IZR (m_tid m + 1) * p_time_freq p /\
    m_t m < p_t_end p /\ forall k, (Z.of_nat k <= m_tid m)%Z -> scheduled p k <= m_t m).
  { clear n m H Hl Hi Hc. intros n m H. destruct (schedule_going D p clock _ Hf C0 Hpos A0 B0 _ _ H) as ((A1 & A2 & A3) & (_ & B) & C & _).
    repeat split; auto. intros k Hk. rewrite Forall_forall in B. destruct (A3 k Hk) as [Hle|Hin]; [|now apply B].
    destruct (time_invariant D p clock _ _ _ C0 Hpos H). lra. }
  destruct (loop_cases _ _ _ _ _ _ _ H) as [[-> _]|(n1 & m1 & Hk & Hb & Hn)].
  - destruct (file_is_current D p clock s n m H f) as [_ Ef]; [rewrite Hl; apply in_app_iff; right; left; reflexivity|].
    rewrite (Ef Hi). cbn. destruct (Old _ _ H) as (A & B & _ & C). auto.
  - destruct Hv as [->| ->]; [congruence|]. destruct (Old _ _ Hk) as (A & B & Ct & C).
    destruct (body_iter D p clock _ _ _ Hb) as (_ & _ & Ef); [right; reflexivity|]. specialize (Ef eq_refl).
    rewrite Ef in Hl. apply app_inj_tail in Hl. destruct Hl as [_ <-]. cbn [file_of fl_t fl_tid].
    destruct (body_inv _ _ _ _ _ _ Hb ltac:(right; reflexivity)) as (o1 & iid & o2 & tid & dt2 & s1 & dt & _ & _ & E2 & E3 & _ & Em & _).
    cbv zeta in Em. set (stop := s1 || _ || _) in Em.
    destruct (step_of_fields D m1 o1 iid o2 tid stop dt) as (_ & Etid & _ & Et & _). rewrite <- Em in Etid, Et.
    assert (Hd : 0 < y_dt D (m_st m1)) by (eapply Hpos; eauto).
    rewrite Etid, Et in *. split; [reflexivity|].
    destruct (time_schedule_inv _ _ _ _ _ _ E2) as [(? & _)|(_ & [(Ha & Hb' & -> & -> & ->)|(Ha & -> & -> & ->)])]; [lra|..].
    + set (next := p_time_first p + IZR (m_tid m1 + 1) * p_time_freq p) in *.
      assert (En : m_t m1 + dt = next).
      { destruct (clip_inv _ _ _ _ _ E3) as [(G & _ & ->)|(_ & _ & ->)]; [|lra].
        destruct Hc as [Hc|(k & Hk')]; [lra|]. rewrite Hk' in *. destruct (Rle_lt_or_eq_dec _ _ G) as [Hlt|]; [|lra].
        exfalso. assert (Hks : (Z.of_nat k < m_tid m1 + 1)%Z) by (apply (sched_index p k _ (scheduled p k) Hf (Rle_refl _)); fold next; lra).
        specialize (C k ltac:(lia)). lra. }
      rewrite En. split; [lia|]. split; [unfold next; rewrite !plus_IZR; lra|].
      intros k Hks. unfold scheduled, next. rewrite INR_IZR_INZ. apply Rplus_le_compat_l, Rmult_le_compat_r; [lra|]. apply IZR_le. lia.
    + assert (Hlt : m_t m1 + dt < p_time_first p + IZR (m_tid m1 + 1) * p_time_freq p /\ m_t m1 <= m_t m1 + dt)
        by (destruct (clip_inv _ _ _ _ _ E3) as [(? & _ & ->)|(? & _ & ->)]; lra).
      split; [exact A|]. split; [apply Hlt|]. intros k Hks. specialize (C k Hks). lra.
Qed.

Lemma no_output_lost tend' s n m v f s' : 0 < p_time_freq p -> p_t_ini p < p_time_first p -> p_t_ini p < p_t_end p ->
  positive_steps D p clock (fresh p s) -> loop D p clock n (fresh p s) = (m, v) -> completed v ->
  last_file m f -> fl_iter f = m_iter m ->
  (m_t m < p_t_end p \/ exists k, p_t_end p = scheduled p k) ->
  let p' := with_t_end p tend' in
  fl_t f < tend' -> positive_steps D' p' clock' (restarted f s') ->
  (forall j m', loop D' p' clock' j (restarted f s') <> (m', Failed "Error: the time step is negative"%string)) /\
  forall j m' v', loop D' p' clock' j (restarted f s') = (m', v') -> completed v' ->
  forall k, scheduled p k <= m_t m' -> In (scheduled p k) (map (@fl_t S) (m_files m) ++ map (@fl_t S) (m_files m')).
Proof.
  intros Hf Hfirst Hend Hpos H Hv Hl Hi Hc p' Ht' Hpos'.
  destruct (counter_not_ahead _ _ _ _ _ Hf Hfirst Hend Hpos H Hv Hl Hi Hc) as (E1 & E2 & E3 & E4).
  assert (A : on_schedule p' (m_t (restarted f s')) (restarted f s')).
  { split; [exact E2|]. split; [exact E3|]. intros k Hk. left. exact (E4 k Hk). }
  assert (B : ordered (restarted f s')) by (split; constructor).
  split.
  - intros j m'. exact (never_negative_from D' p' clock' (restarted f s') Hf Ht' Hpos' A B j m').
  - intros j m' v' Hj Hv' k Hk. apply in_app_iff.
    destruct (schedule_from D' p' clock' (restarted f s') Hf Ht' Hpos' A B j m' v' Hj Hv') as (G & _).
    destruct (G k Hk) as [Hle|Hin]; [left|right; exact Hin].
    destruct (schedule_kept D p clock s Hf Hfirst Hend Hpos n m v H Hv) as (G0 & _). apply G0. cbn in Hle.
    change (scheduled p' k) with (scheduled p k) in Hle. lra.
Qed.
End Later.

(** A first CFL step beyond both the end time and the first scheduled time. *)
Section Lost.
Context {S : Type} (D D' : dynamics S) (p : params) (clock clock' : Z -> bool) (s s' : S) (tend' : R).
Hypothesis Hf : 0 < p_time_freq p.
Hypothesis Hi : (p_iter_freq p <= 0)%Z.
Hypothesis Hend : p_t_ini p < p_t_end p < p_time_first p.
Hypothesis Hbad : y_bad D s = false.
Hypothesis Hdt : p_time_first p <= p_t_ini p + y_dt D s.
Let p' := with_t_end p tend'.
Let f := mkFile 1 0 0 1 (p_t_end p) (y_step D (p_t_ini p) (p_t_end p - p_t_ini p) s).
Hypothesis Hend' : p_time_first p + p_time_freq p < tend'.
Hypothesis Hdt' : p_time_first p + p_time_freq p <= p_t_end p + y_dt D' s'.
Hypothesis Hpos' : positive_steps D' p' clock' (restarted f s').

Lemma stops_at_end : exists m, loop D p clock 1 (fresh p s) = (m, Finished) /\ last_file m f /\ map (@fl_t S) (m_files m) = [p_t_ini p; p_t_end p].
Proof.
  cbn [loop]. rewrite (fresh_time p s Hf). unfold body. cbn [output write next_id m_iter m_iid m_tid m_t m_st m_oid m_record m_files Z.add].
  change (int32 1) with true. cbn [negb]. unfold iter_schedule, time_schedule. cbn [output write next_id m_iter m_iid m_tid m_t m_st m_oid].
  rewrite (proj2 (Z.ltb_ge 0 (p_iter_freq p)) Hi), (proj2 (rltb_true 0 _) Hf). cbv zeta. change (-1 + 1)%Z with 0%Z.
  rewrite (proj2 (rleb_true _ _)) by lra. rewrite (proj2 (rleb_false _ _)) by lra.
  unfold clip_to_end. rewrite (proj2 (rleb_true _ _)) by lra. rewrite Hbad. cbn [orb].
  replace (p_t_ini p + (p_t_end p - p_t_ini p)) with (p_t_end p) by ring.
  eexists. split; [reflexivity|]. split; [|reflexivity].
  exists [mkFile 0 0 (-1) 0 (p_t_ini p) s]. reflexivity.
Qed.

Lemma never_written j m' v' : loop D' p' clock' (Datatypes.S j) (restarted f s') = (m', v') -> completed v' ->
  scheduled p 0 < m_t m' /\ Forall (fun g => scheduled p 0 < fl_t g) (m_files m').
Proof.
  intros Hj Hv'. cbn [loop] in Hj. destruct (body D' p' clock' (restarted f s')) as [m1 v1] eqn:Eb.
  assert (Es : scheduled p 0 = p_time_first p) by (unfold scheduled; cbn; ring).
  assert (Q : completed v1 -> m_t m1 < tend' /\ p_time_first p < m_t m1 /\ Forall (fun g => p_time_first p < fl_t g) (m_files m1)).
  { intros Hv1. destruct (body_inv _ _ _ _ _ _ Eb Hv1) as (o1 & iid & o2 & tid & dt2 & s1 & dt & _ & _ & E2 & E3 & _ & Em & _).
    cbv zeta in Em. set (stop := s1 || _ || _) in Em.
    destruct (step_of_fields D' (restarted f s') o1 iid o2 tid stop dt) as (_ & _ & _ & Et & _ & Ef & _). rewrite <- Em in Et, Ef.
    assert (T : m_t m1 = p_time_first p + p_time_freq p).
    { rewrite Et. destruct (time_schedule_inv _ _ _ _ _ _ E2) as [(Hx & _)|(_ & [(Ha & Hb' & -> & -> & ->)|(Ha & -> & -> & ->)])];
        cbn [restarted m_t m_tid m_st f fl_t fl_tid p' with_t_end p_time_first p_time_freq Z.add] in *; [lra| |lra].
      destruct (clip_inv _ _ _ _ _ E3) as [(Hx & _ & ->)|(_ & _ & ->)]; [|lra].
      cbn [p' with_t_end p_t_end] in Hx. lra. }
    split; [lra|]. split; [lra|]. rewrite Ef. cbn [restarted m_files app]. destruct (o1 || o2 || stop); [|constructor].
    constructor; [cbn; lra|constructor]. }
  assert (P : forall j m m', m_t m < tend' -> p_time_first p < m_t m -> Forall (fun g => p_time_first p < fl_t g) (m_files m) ->
    (forall k x, loop D' p' clock' k m = (x, Going) -> 0 < y_dt D' (m_st x)) ->
    loop D' p' clock' j m = (m', v') -> p_time_first p < m_t m' /\ Forall (fun g => p_time_first p < fl_t g) (m_files m')).
  { clear - Hv'. induction j as [|j IH]; intros m m' Ht Ha Hb Hp H; cbn in H; [inversion H; subst; auto|].
    destruct (body D' p' clock' m) as [m1 v1] eqn:Eb.
    assert (Q : completed v1 -> (v1 = Going -> m_t m1 < tend') /\ p_time_first p < m_t m1 /\ Forall (fun g => p_time_first p < fl_t g) (m_files m1)).
    { intros Hv1. destruct (body_time D' p' clock' m m1 v1 Ht (Hp 0%nat m eq_refl) Eb Hv1) as ((A & _) & B & _).
      split; [exact B|]. split; [lra|].
      destruct (body_inv _ _ _ _ _ _ Eb Hv1) as (o1 & iid & o2 & tid & dt2 & s1 & dt & _ & _ & _ & _ & _ & Em & _).
      cbv zeta in Em. set (stop := s1 || _ || _) in Em.
      destruct (step_of_fields D' m o1 iid o2 tid stop dt) as (_ & _ & _ & _ & _ & Ef & _). rewrite <- Em in Ef. rewrite Ef.
      destruct (o1 || o2 || stop); [|assumption]. apply Forall_app. split; [assumption|]. constructor; [cbn; lra|constructor]. }
    destruct v1.
    - destruct (Q ltac:(left; reflexivity)) as (Q1 & Q2 & Q3). apply (IH m1 m' (Q1 eq_refl) Q2 Q3); [|exact H].
      intros k x Hx. apply (Hp (Datatypes.S k) x). cbn. rewrite Eb. exact Hx.
    - inversion H; subst. destruct (Q ltac:(right; reflexivity)) as (_ & Q2 & Q3). auto.
    - inversion H; subst. destruct Hv'; discriminate.
    - inversion H; subst. destruct Hv'; discriminate. }
  rewrite Es. destruct v1.
  - destruct (Q ltac:(left; reflexivity)) as (Q1 & Q2 & Q3). apply (P j m1 m' Q1 Q2 Q3); [|exact Hj].
    intros k x Hx. apply (Hpos' (Datatypes.S k) x). cbn [loop]. rewrite Eb. exact Hx.
  - inversion Hj; subst. destruct (Q ltac:(right; reflexivity)) as (_ & Q2 & Q3). auto.
  - inversion Hj; subst. destruct Hv'; discriminate.
  - inversion Hj; subst. destruct Hv'; discriminate.
Qed.
End Lost.

(** ** C65: restarting at or after the end time *)
Lemma restart_at_end {S : Type} (D : dynamics S) p clock f s j : (p_iter_freq p <= 0)%Z -> p_time_freq p <= 0 ->
  p_t_end p <= fl_t f -> y_bad D s = false -> 0 < y_dt D s -> int32 (fl_iter f + 1) = true -> (1 <= j)%nat ->
  exists m, loop D p clock j (restarted f s) = (m, Finished) /\ m_t m = p_t_end p /\ m_iter m = (fl_iter f + 1)%Z /\
    m_oid m = (fl_oid f + 1)%Z /\ m_st m = y_step D (fl_t f) (p_t_end p - fl_t f) s /\ List.length (m_files m) = 1%nat.
Proof.
  intros Hi Ht He Hb Hd H32 Hj. destruct j as [|j]; [lia|]. cbn [loop]. unfold body. cbn [restarted m_iter m_iid m_tid m_t m_st m_oid m_record m_files].
  rewrite H32. cbn [negb]. unfold iter_schedule, time_schedule. cbn [restarted m_iter m_iid m_tid m_t m_st m_oid m_record m_files].
  rewrite (proj2 (Z.ltb_ge 0 (p_iter_freq p)) Hi), (proj2 (rltb_false 0 _) Ht).
  unfold clip_to_end. rewrite (proj2 (rleb_true _ _)) by lra. rewrite Hb. cbn [orb].
  eexists. split; [reflexivity|]. cbn. repeat split. lra.
Qed.

(** ** File names *)
Lemma append_inj_r a b c : (a ++ c)%string = (b ++ c)%string -> a = b.
Proof.
  revert b. induction a as [|x a IH]; intros b H.
  - destruct b as [|y b]; [reflexivity|]. exfalso. apply (f_equal String.length) in H. cbn in H.
    assert (L : forall s t, String.length (s ++ t)%string = (String.length s + String.length t)%nat) by (induction s; cbn; intros; auto).
    rewrite L in H. lia.
  - destruct b as [|y b].
    + exfalso. apply (f_equal String.length) in H. cbn in H.
      assert (L : forall s t, String.length (s ++ t)%string = (String.length s + String.length t)%nat) by (induction s; cbn; intros; auto).
      rewrite L in H. lia.
    + cbn in H. inversion H. f_equal. now apply IH.
Qed.
Lemma append_inj_l a b c : (a ++ b)%string = (a ++ c)%string -> b = c.
Proof. induction a as [|x a IH]; intros H; [exact H|]. cbn in H. inversion H. auto. Qed.

Fixpoint dzeros (k : nat) (u : uint) : uint := match k with O => u | Datatypes.S k' => D0 (dzeros k' u) end.
Lemma zeros_uint k u : zeros k (NilEmpty.string_of_uint u) = NilEmpty.string_of_uint (dzeros k u).
Proof. induction k as [|k IH]; [reflexivity|]. cbn. rewrite IH. reflexivity. Qed.
Lemma dzeros_value k u : N.of_uint (dzeros k u) = N.of_uint u.
Proof. induction k as [|k IH]; [reflexivity|]. cbn [dzeros]. rewrite <- IH. reflexivity. Qed.

Lemma padded_inj a b k l : (0 <= a)%Z -> (0 <= b)%Z -> zeros k (decimal a) = zeros l (decimal b) -> a = b.
Proof.
  intros Ha Hb H. unfold decimal in H. rewrite !zeros_uint in H. apply (f_equal NilEmpty.uint_of_string) in H.
  rewrite !NilEmpty.usu in H. inversion H as [E]. apply (f_equal N.of_uint) in E. rewrite !dzeros_value, !Unsigned.of_to in E. lia.
Qed.
Lemma filename_inj prefix a b : (0 <= a)%Z -> (0 <= b)%Z -> get_output_filename prefix a = get_output_filename prefix b -> a = b.
Proof.
  intros Ha Hb H. unfold get_output_filename in H. apply append_inj_l in H. apply append_inj_l in H. apply append_inj_r in H.
  now apply padded_inj in H.
Qed.

Lemma zrange_in a b x : In x (zrange a b) <-> (a <= x < b)%Z.
Proof.
  unfold zrange. rewrite in_map_iff. split.
  - intros (n & <- & H). apply in_seq in H. lia.
  - intros H. exists (Z.to_nat (x - a)). split; [lia|]. apply in_seq. lia.
Qed.
Lemma zrange_nodup a b : NoDup (zrange a b).
Proof. unfold zrange. apply FinFun.Injective_map_NoDup; [intros x y; lia|apply seq_NoDup]. Qed.

Lemma names_distinct prefix ids : (forall i, In i ids -> (0 <= i)%Z) -> NoDup ids -> NoDup (map (get_output_filename prefix) ids).
Proof.
  induction ids as [|i ids IH]; intros Hp H; cbn; [constructor|]. inversion H; subst. constructor.
  - rewrite in_map_iff. intros (j & E & Hj). apply filename_inj in E; [subst; contradiction| |]; apply Hp; [now right|now left].
  - apply IH; [intros; apply Hp; now right|assumption].
Qed.

Lemma ids_and_names {S : Type} (D : dynamics S) p clock s n m v prefix : loop D p clock n (fresh p s) = (m, v) ->
  map (@fl_oid S) (m_files m) = zrange 0 (Z.of_nat (List.length (m_files m))) /\
  NoDup (map (fun f => get_output_filename prefix (fl_oid f)) (m_files m)).
Proof.
  intros H. destruct (numbered D p clock s n m v H) as [A _]. split; [exact A|].
  rewrite <- (map_map (@fl_oid S) (get_output_filename prefix)), A. apply names_distinct; [|apply zrange_nodup].
  intros i Hi. apply zrange_in in Hi. lia.
Qed.

Lemma ids_after_restart {S : Type} (D D' : dynamics S) p p' clock clock' s s' n j m m' v v' f prefix :
  loop D p clock n (fresh p s) = (m, v) -> last_file m f -> loop D' p' clock' j (restarted f s') = (m', v') ->
  let ids := map (@fl_oid S) (m_files m) ++ map (@fl_oid S) (m_files m') in
  ids = zrange 0 (Z.of_nat (List.length (m_files m) + List.length (m_files m'))) /\ NoDup (map (get_output_filename prefix) ids).
Proof.
  intros H (l & Hl) H' ids. destruct (numbered D p clock s n m v H) as [A B].
  destruct (loop_ids D' p' clock' j _ _ _ H') as (l' & F & G & I). cbn in F, G, I. subst l'.
  assert (Ef : fl_oid f = m_oid m).
  { rewrite Hl in A. rewrite map_app in A. cbn [map] in A. rewrite Hl in B.
    rewrite app_length in A, B. cbn [List.length] in A, B.
    rewrite Nat2Z.inj_add in A. change (Z.of_nat 1) with 1%Z in A. rewrite (zrange_snoc 0%Z (Z.of_nat (List.length l))) in A by apply Nat2Z.is_nonneg.
    apply app_inj_tail in A. lia. }
  assert (E : ids = zrange 0 (Z.of_nat (List.length (m_files m) + List.length (m_files m')))).
  { unfold ids. rewrite A, I, Ef. symmetry.
    replace (Z.of_nat (List.length (m_files m) + List.length (m_files m'))) with (m_oid m' + 1)%Z by lia.
    replace (Z.of_nat (List.length (m_files m))) with (m_oid m + 1)%Z by lia. apply zrange_app. lia. }
  split; [exact E|]. rewrite E. apply names_distinct; [|apply zrange_nodup]. intros i Hi. apply zrange_in in Hi. lia.
Qed.

(** ** C45: a bad energy stops the run before the step *)
Lemma bad_stops {S : Type} (D : dynamics S) p clock m m' v : y_bad D (m_st m) = true -> body D p clock m = (m', v) ->
  v <> Going /\ v <> Finished /\ m_st m' = m_st m /\ m_t m' = m_t m /\ m_iter m' = m_iter m.
Proof.
  intros Hb. unfold body. destruct (int32 (m_iter m + 1)); cbn [negb]; [|intros H; inversion H; subst; repeat split; discriminate].
  destruct (iter_schedule p m) as [[o1 iid]|w|w]; [|intros H; inversion H; subst; repeat split; discriminate..].
  destruct (time_schedule p m (y_dt D (m_st m))) as [[[o2 tid] dt2]|w|w]; [|intros H; inversion H; subst; repeat split; discriminate..].
  destruct (clip_to_end _ _ _) as [s1 dt]. rewrite Hb. intros H; inversion H; subst. repeat split; discriminate.
Qed.

(** ** C67: other frequencies at a restart *)
Section Frequencies.
Context {S : Type} (D : dynamics S) (p : params) (clock : Z -> bool) (f : file S) (s : S).

Lemma restart_schedule : 0 < p_time_freq p -> (-1 <= fl_tid f)%Z -> fl_t f < p_t_end p ->
  p_time_first p + IZR (fl_tid f) * p_time_freq p <= fl_t f < p_time_first p + IZR (fl_tid f + 1) * p_time_freq p ->
  positive_steps D p clock (restarted f s) ->
  forall n m v, loop D p clock n (restarted f s) = (m, v) -> completed v ->
  (forall k, fl_t f < scheduled p k <= m_t m -> In (scheduled p k) (map (@fl_t S) (m_files m))) /\
  StronglySorted Rlt (map (@fl_t S) (m_files m)).
Proof.
  intros Hf Ht He [H1 H2] Hpos n m v H Hv.
  assert (A : on_schedule p (m_t (restarted f s)) (restarted f s)).
  { split; [exact Ht|]. split; [exact H2|]. intros k Hk. left. cbn in *. eapply Rle_trans; [|exact H1].
    unfold scheduled. rewrite INR_IZR_INZ. apply Rplus_le_compat_l, Rmult_le_compat_r; [lra|]. now apply IZR_le. }
  assert (B : ordered (restarted f s)) by (split; constructor).
  destruct (schedule_from D p clock (restarted f s) Hf He Hpos A B n m v H Hv) as (G & I & _). split; [|exact I].
  intros k [Hk1 Hk2]. destruct (G k Hk2) as [Hx|Hx]; [cbn in Hx; lra|exact Hx].
Qed.

Lemma smaller_time_frequency n : 0 < p_time_freq p -> (p_iter_freq p <= 0)%Z -> int32 (fl_iter f + 1) = true -> 0 < y_dt D s ->
  p_time_first p + IZR (fl_tid f + 1) * p_time_freq p <= fl_t f -> (1 <= n)%nat ->
  loop D p clock n (restarted f s) = (restarted f s, Failed "Error: the time step is negative"%string).
Proof.
  intros Hf Hi H32 Hd Ht Hn. destruct n as [|n]; [lia|]. cbn [loop].
  assert (E : body D p clock (restarted f s) = (restarted f s, Failed "Error: the time step is negative"%string)); [|rewrite E; reflexivity].
  unfold body. cbn [restarted m_iter]. rewrite H32. cbn [negb]. unfold iter_schedule, time_schedule. cbn [restarted m_iter m_iid m_tid m_t m_st].
  rewrite (proj2 (Z.ltb_ge 0 (p_iter_freq p)) Hi), (proj2 (rltb_true 0 _) Hf). cbv zeta.
  rewrite (proj2 (rleb_true _ _)) by lra. rewrite (proj2 (rleb_true _ 0)) by lra. reflexivity.
Qed.

(** Every iteration is output until the counter has caught up. *)
Lemma smaller_iter_frequency n m v : (0 < p_iter_freq p)%Z -> p_time_freq p <= 0 ->
  ((fl_iid f + Z.of_nat n) * p_iter_freq p <= fl_iter f + Z.of_nat n)%Z ->
  loop D p clock n (restarted f s) = (m, v) -> v = Going ->
  map (@fl_iter S) (m_files m) = zrange (fl_iter f + 1) (fl_iter f + Z.of_nat n + 1).
Proof.
  intros Hf Ht Hn H ->.
  assert (G : (0 <= Z.of_nat n)%Z /\ ((fl_iid f + Z.of_nat n) * p_iter_freq p <= fl_iter f + Z.of_nat n)%Z) by lia. clear Hn.
  enough (P : m_iter m = (fl_iter f + Z.of_nat n)%Z /\ m_iid m = (fl_iid f + Z.of_nat n)%Z /\
     map (@fl_iter S) (m_files m) = zrange (fl_iter f + 1) (fl_iter f + Z.of_nat n + 1)) by apply P.
  revert m H G. induction n as [|n IH]; intros m H [G1 G2].
  - inversion H; subst. cbn [restarted m_iter m_iid m_files map]. split; [lia|]. split; [lia|].
    unfold zrange. replace (Z.to_nat _) with 0%nat by lia. reflexivity.
  - destruct (loop D p clock n (restarted f s)) as [m1 v1] eqn:H1.
    destruct (classic (v1 = Going)) as [->|Hv1].
    2:{ rewrite (loop_more D p clock n (Datatypes.S n) _ _ _ H1 Hv1) in H by lia. congruence. }
    rewrite (loop_snoc D p clock n _ _ H1) in H. rename H into Eb.
    destruct (IH m1 eq_refl) as (A & B & C); [split; [lia|]; nia|].
    destruct (body_inv _ _ _ _ _ _ Eb ltac:(left; reflexivity)) as (o1 & iid & o2 & tid & dt2 & s1 & dt & _ & E1 & E2 & E3 & _ & Em & _).
    cbv zeta in Em. set (stop := s1 || _ || _) in Em.
    destruct (step_of_fields D m1 o1 iid o2 tid stop dt) as (Ei & _ & Eit & _ & _ & Ef & _). rewrite <- Em in Ei, Eit, Ef.
    destruct (iter_schedule_inv _ _ _ _ E1) as [(? & _)|(_ & _ & [(_ & -> & ->)|(Hx & _)])]; [lia| |exfalso; rewrite A, B in Hx; nia].
    split; [lia|]. split; [lia|]. rewrite Ef. cbn [orb]. rewrite map_app, C. cbn [map fl_iter file_of].
    replace (fl_iter f + Z.of_nat (Datatypes.S n) + 1)%Z with (fl_iter f + Z.of_nat n + 1 + 1)%Z by lia. rewrite (zrange_snoc (fl_iter f + 1)%Z (fl_iter f + Z.of_nat n + 1)%Z) by lia.
    rewrite Eit, A. reflexivity.
Qed.
End Frequencies.

(** ** The CFL condition in the time loop *)
Lemma cfl_in_loop K N dims X L : laid_out K N dims X L -> lawful_eos (k_eos K) ->
  forall cfl p clock m m' v, 0 < cfl -> m_t m < p_t_end p ->
  (forall r c, process (k_nd K) dims r -> owned (k_nd K) (k_ng K) (d_nloc (l_dec L r)) c ->
     0 < c_rho (s_cell (m_st m r) c) /\ 0 < s_P (m_st m r) c /\
     forall d, (d < k_nd K)%nat -> 0 < width (k_geom K) (l_mesh L r) c d) ->
  body (hydro K L cfl) p clock m = (m', v) -> completed v ->
  m_t m < m_t m' /\
  (forall r c, process (k_nd K) dims r -> in_array (d_nwg (l_dec L r)) c ->
     (m_t m' - m_t m) * crossing_rate K L (m_st m) r c <= cfl) /\
  (m_t m' = p_t_end p \/ (0 < p_time_freq p /\ m_t m' = p_time_first p + IZR (m_tid m + 1) * p_time_freq p) \/
   exists r c, process (k_nd K) dims r /\ in_array (d_nwg (l_dec L r)) c /\
     (m_t m' - m_t m) * crossing_rate K L (m_st m) r c = cfl).
Proof.
  intros HL He cfl p clock m m' v Hc Ht Hp Hb Hv.
  destruct (time_step_defined K N dims X L HL (m_st m)) as (h & E).
  destruct (cfl_bound K N dims X L HL (m_st m) h He Hp E) as (H0 & H1 & r0 & c0 & Hr0 & Hc0 & H2).
  destruct (body_inv _ _ _ _ _ _ Hb Hv) as (o1 & iid & o2 & tid & dt2 & s1 & dt & _ & _ & E2 & E3 & _ & Em & _).
  cbv zeta in Em. set (stop := s1 || _ || _) in Em.
  destruct (step_of_fields (hydro K L cfl) m o1 iid o2 tid stop dt) as (_ & _ & _ & Et & _). rewrite <- Em in Et.
  cbn [hydro y_dt] in E2. rewrite E in E2.
  assert (Hpos : 0 < cfl * h) by nra.
  assert (D : 0 < dt <= cfl * h /\ (m_t m + dt = p_t_end p \/ (0 < p_time_freq p /\ m_t m + dt = p_time_first p + IZR (m_tid m + 1) * p_time_freq p) \/ dt = cfl * h)).
  { destruct (time_schedule_inv _ _ _ _ _ _ E2) as [(_ & _ & _ & Q)|(F & [(Q1 & Q2 & _ & _ & Q)|(_ & _ & _ & Q)])];
      destruct (clip_inv _ _ _ _ _ E3) as [(P1 & _ & P)|(_ & _ & P)]; subst dt dt2; (split; [lra|]); try (left; lra); try (right; left; split; [exact F|lra]); right; right; reflexivity. }
  rewrite Et. replace (m_t m + dt - m_t m) with dt by ring. destruct D as [D D']. split; [lra|]. split.
  - intros r c Hr Hcc. specialize (H1 r c Hr Hcc). set (q := crossing_rate K L (m_st m) r c) in *.
    destruct (Rle_lt_dec 0 q) as [Q|Q]; [|nra]. apply Rle_trans with (cfl * h * q); [|rewrite Rmult_assoc; nra]. apply Rmult_le_compat_r; lra.
  - destruct D' as [D'|[D'|D']]; [left; exact D'|right; left; exact D'|right; right]. exists r0, c0. split; [exact Hr0|]. split; [exact Hc0|].
    rewrite D', Rmult_assoc, H2. ring.
Qed.
