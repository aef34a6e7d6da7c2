(** * Proofs about the time loop. *)
From Coq Require Import Sorted Lra ZifyBool.
From Verif Require Import Base RBase ModelMesh ModelGeom ModelStep ModelMain SpecBoundary SpecStep SpecMain ProofR.
Local Open Scope R_scope.

Section Runs.
Context {S : Type} (D : dynamics S) (p : params) (clock : Z -> bool).
Notation body := (body D p clock).
Notation loop := (loop D p clock).
Implicit Types m : mstate S.

(** ** Shape of an iteration *)
Definition step_of m (o1 : bool) (iid : Z) (o2 : bool) (tid : Z) (stop : bool) (dt : R) : mstate S :=
  let m2 := mkM (m_oid m) iid tid (m_iter m + 1)%Z (m_t m + dt) (m_record m) (y_step D (m_t m) dt (m_st m)) (m_files m) in
  if o1 || o2 || stop then output m2 else m2.

Lemma body_inv m m' v : body m = (m', v) -> completed v ->
  exists o1 iid o2 tid dt2 stop1 dt,
    int32 (m_iter m + 1) = true /\
    iter_schedule p m = Ok (o1, iid) /\ time_schedule p m (y_dt D (m_st m)) = Ok (o2, tid, dt2) /\
    clip_to_end p (m_t m) dt2 = (stop1, dt) /\ y_bad D (m_st m) = false /\
    let stop := stop1 || (p_max_iter p <=? m_iter m + 1)%Z || clock (m_iter m) in
    m' = step_of m o1 iid o2 tid stop dt /\ v = if stop then Finished else Going.
Proof.
  unfold ModelMain.body. intros H Hv.
  destruct (int32 (m_iter m + 1)) eqn:E32; cbn [negb] in H; [|inversion H; subst; destruct Hv; discriminate].
  destruct (iter_schedule p m) as [[o1 iid]|w|w] eqn:E1; [|inversion H; subst; destruct Hv; discriminate..].
  destruct (time_schedule p m (y_dt D (m_st m))) as [[[o2 tid] dt2]|w|w] eqn:E2; [|inversion H; subst; destruct Hv; discriminate..].
  destruct (clip_to_end p (m_t m) dt2) as [stop1 dt] eqn:E3.
  destruct (y_bad D (m_st m)) eqn:E4; [inversion H; subst; destruct Hv; discriminate|].
  exists o1, iid, o2, tid, dt2, stop1, dt. cbn [m_oid m_record m_files] in H. cbv zeta. inversion H. repeat split; auto.
Qed.

Lemma step_of_fields m o1 iid o2 tid stop dt :
  let m' := step_of m o1 iid o2 tid stop dt in
  m_iid m' = iid /\ m_tid m' = tid /\ m_iter m' = (m_iter m + 1)%Z /\ m_t m' = m_t m + dt /\
  m_st m' = y_step D (m_t m) dt (m_st m) /\
  m_files m' = (if o1 || o2 || stop then m_files m ++ [file_of m'] else m_files m) /\
  m_oid m' = (if o1 || o2 || stop then m_oid m + 1 else m_oid m)%Z.
Proof. cbv zeta. unfold step_of. destruct (o1 || o2 || stop); cbn; repeat split; reflexivity. Qed.

Lemma iter_schedule_inv m o1 iid : iter_schedule p m = Ok (o1, iid) ->
  (p_iter_freq p <= 0 /\ o1 = false /\ iid = m_iid m)%Z \/
  (0 < p_iter_freq p /\ int32 ((m_iid m + 1) * p_iter_freq p) = true /\
   (((m_iid m + 1) * p_iter_freq p <= m_iter m + 1 /\ o1 = true /\ iid = m_iid m + 1) \/
    (m_iter m + 1 < (m_iid m + 1) * p_iter_freq p /\ o1 = false /\ iid = m_iid m)))%Z.
Proof.
  unfold iter_schedule. destruct (Z.ltb_spec 0 (p_iter_freq p)); [|intros H'; inversion H'; subst; left; lia].
  destruct (int32 _) eqn:E; cbn [negb]; [|discriminate].
  destruct (Z.leb_spec ((m_iid m + 1) * p_iter_freq p) (m_iter m + 1)); intros H'; inversion H'; subst; right;
    (split; [lia|split; [reflexivity|]]); [left|right]; repeat split; lia.
Qed.

Lemma time_schedule_inv m dt0 o2 tid dt : time_schedule p m dt0 = Ok (o2, tid, dt) ->
  let next := p_time_first p + IZR (m_tid m + 1) * p_time_freq p in
  (p_time_freq p <= 0 /\ o2 = false /\ tid = m_tid m /\ dt = dt0) \/
  (0 < p_time_freq p /\
   ((next <= m_t m + dt0 /\ m_t m < next /\ o2 = true /\ tid = (m_tid m + 1)%Z /\ dt = next - m_t m) \/
    (m_t m + dt0 < next /\ o2 = false /\ tid = m_tid m /\ dt = dt0))).
Proof.
  unfold time_schedule. cbv zeta. intros H. destruct (rltb 0 (p_time_freq p)) eqn:E.
  2:{ inversion H; subst. apply rltb_false in E. left. auto. }
  apply rltb_true in E. right. split; [exact E|].
  destruct (rleb _ (m_t m + dt0)) eqn:E1; [apply rleb_true in E1|apply rleb_false in E1; inversion H; subst; right; auto].
  destruct (rleb (_ - m_t m) 0) eqn:E2; [discriminate|apply rleb_false in E2]. inversion H; subst. left.
  repeat split; auto; lra.
Qed.

Lemma clip_inv t dt0 b dt : clip_to_end p t dt0 = (b, dt) ->
  (p_t_end p <= t + dt0 /\ b = true /\ dt = p_t_end p - t) \/ (t + dt0 < p_t_end p /\ b = false /\ dt = dt0).
Proof.
  unfold clip_to_end. destruct (rleb _ _) eqn:E; intros H; inversion H; subst.
  - apply rleb_true in E. left. auto.
  - apply rleb_false in E. right. auto.
Qed.

(** ** The loop *)
Lemma loop_going n m0 m : loop n m0 = (m, Going) ->
  forall P : nat -> mstate S -> Prop, P 0%nat m0 ->
  (forall k m m', P k m -> loop k m0 = (m, Going) -> body m = (m', Going) -> P (Datatypes.S k) m') -> P n m.
Proof.
  intros H P H0 HS.
  assert (G : forall n k m1, loop k m0 = (m1, Going) -> P k m1 -> loop n m1 = (m, Going) -> P (k + n)%nat m /\ loop (k + n) m0 = (m, Going)).
  { clear n H. induction n as [|n IH]; intros k m1 Hk HP H.
    - cbn in H. inversion H; subst. rewrite Nat.add_0_r. auto.
    - cbn in H. destruct (body m1) as [m2 v] eqn:E. destruct v; [|inversion H..].
      rewrite Nat.add_succ_r, <- Nat.add_succ_l. apply (IH (Datatypes.S k) m2); [|eauto|exact H].
      clear - Hk E. revert m0 Hk. induction k as [|k IH]; intros m0 Hk.
      + cbn in Hk. inversion Hk; subst. cbn. rewrite E. reflexivity.
      + cbn in Hk. cbn [ModelMain.loop]. destruct (body m0) as [m3 v3] eqn:E3. destruct v3; [|inversion Hk..]. now apply IH. }
  apply (G n 0%nat m0); auto.
Qed.

Lemma loop_app k : forall n m0 m, loop k m0 = (m, Going) -> loop (k + n) m0 = loop n m.
Proof.
  induction k as [|k IH]; intros n m0 m H; cbn in H.
  - inversion H; subst. reflexivity.
  - cbn. destruct (body m0) as [m1 v]. destruct v; [|inversion H..]. now apply IH.
Qed.

Lemma loop_more k : forall n m0 m v, loop k m0 = (m, v) -> v <> Going -> (k <= n)%nat -> loop n m0 = (m, v).
Proof.
  induction k as [|k IH]; intros n m0 m v H Hv Hn; cbn in H.
  - inversion H; subst. congruence.
  - destruct n as [|n]; [lia|]. cbn. destruct (body m0) as [m1 v1]. destruct v1; [apply IH; auto; lia|exact H..].
Qed.

Lemma loop_last n : forall m0 m v, loop n m0 = (m, v) -> v <> Going ->
  exists k m1, (k < n)%nat /\ loop k m0 = (m1, Going) /\ body m1 = (m, v).
Proof.
  induction n as [|n IH]; intros m0 m v H Hv; cbn in H.
  - inversion H; subst. congruence.
  - destruct (body m0) as [m1 v1] eqn:E.
    destruct v1; [|exists 0%nat, m0; cbn; split; [lia|split; [reflexivity|]]; congruence..].
    destruct (IH _ _ _ H Hv) as (k & m2 & Hk & H1 & H2). exists (Datatypes.S k), m2. split; [lia|]. cbn. rewrite E. auto.
Qed.

Lemma loop_cases n m0 m v : loop n m0 = (m, v) ->
  (v = Going /\ loop n m0 = (m, Going)) \/ (exists k m1, loop k m0 = (m1, Going) /\ body m1 = (m, v) /\ v <> Going).
Proof.
  intros H. destruct v; [left; auto|right..]; (destruct (loop_last _ _ _ _ H) as (k & m1 & _ & A & B); [discriminate|]);
    exists k, m1; repeat split; auto; discriminate.
Qed.

(** ** C37 *)
Lemma body_time m m' v : m_t m < p_t_end p -> 0 < y_dt D (m_st m) -> body m = (m', v) -> completed v ->
  m_t m < m_t m' <= p_t_end p /\ (v = Going -> m_t m' < p_t_end p) /\
  (v = Finished -> (m_iter m' < p_max_iter p)%Z -> clock (m_iter m) = false -> m_t m' = p_t_end p).
Proof.
  intros Ht Hd Hb Hv. destruct (body_inv _ _ _ Hb Hv) as (o1 & iid & o2 & tid & dt2 & stop1 & dt & _ & _ & E2 & E3 & _ & -> & ->).
  destruct (step_of_fields m o1 iid o2 tid (stop1 || (p_max_iter p <=? m_iter m + 1)%Z || clock (m_iter m)) dt)
    as (_ & _ & Ei & Et & _). rewrite Ei, Et. clear Ei Et.
  assert (Hd2 : 0 < dt2) by (destruct (time_schedule_inv _ _ _ _ _ E2) as [(_ & _ & _ & ->)|(_ & [(? & ? & _ & _ & ->)|(_ & _ & _ & ->)])]; lra).
  destruct (clip_inv _ _ _ _ E3) as [(A & -> & ->)|(A & -> & ->)]; cbn [orb].
  - repeat split; try lra; discriminate.
  - split; [lra|]. split; [intros; lra|]. intros Hf Hm Hc. rewrite Hc in Hf.
    destruct (Z.leb_spec (p_max_iter p) (m_iter m + 1)); [lia|discriminate].
Qed.

Lemma time_invariant m0 n m : m_t m0 < p_t_end p -> positive_steps D p clock m0 -> loop n m0 = (m, Going) ->
  m_t m0 <= m_t m < p_t_end p.
Proof.
  intros H0 Hp H. refine (loop_going _ _ _ H (fun _ m => m_t m0 <= m_t m < p_t_end p) _ _); [lra|].
  intros k m1 m2 H1 Hk Hb. destruct (@body_time m1 m2 Going) as (A & B & _); [lra|eauto|exact Hb|left; reflexivity|].
  specialize (B eq_refl). lra.
Qed.

Lemma times m0 n m v : m_t m0 < p_t_end p -> positive_steps D p clock m0 -> loop n m0 = (m, v) -> completed v ->
  m_t m0 <= m_t m <= p_t_end p /\ (v = Going -> m_t m < p_t_end p) /\
  (forall m' v', v = Going -> body m = (m', v') -> completed v' -> m_t m < m_t m') /\
  (v = Finished -> (m_iter m < p_max_iter p)%Z -> clock (m_iter m - 1) = false -> m_t m = p_t_end p).
Proof.
  intros H0 Hp H Hv.
  assert (G : v = Going -> forall m' v', body m = (m', v') -> completed v' -> m_t m < m_t m').
  { intros -> m' v' Hb Hv'. pose proof (time_invariant _ _ _ H0 Hp H). apply (@body_time m m' v'); auto; [lra|]. eapply Hp; eauto. }
  destruct (loop_cases _ _ _ _ H) as [[-> _]|(k & m1 & Hk & Hb & Hn)].
  - pose proof (time_invariant _ _ _ H0 Hp H). repeat split; try lra; try discriminate. intros; eapply G; eauto.
  - destruct Hv as [->| ->]; [congruence|]. pose proof (time_invariant _ _ _ H0 Hp Hk).
    destruct (@body_time m1 m Finished) as (A & _ & C); [lra|eapply Hp; eauto|exact Hb|right; reflexivity|].
    repeat split; try lra; try discriminate. intros _ Hi Hc. apply C; auto.
    destruct (body_inv _ _ _ Hb ltac:(right; reflexivity)) as (o1 & iid & o2 & tid & dt2 & stop1 & dt & _ & _ & _ & _ & _ & Em & _).
    destruct (step_of_fields m1 o1 iid o2 tid (stop1 || (p_max_iter p <=? m_iter m1 + 1)%Z || clock (m_iter m1)) dt) as (_ & _ & Ei & _).
    rewrite <- Em in Ei. rewrite Ei in Hc. replace (m_iter m1) with (m_iter m1 + 1 - 1)%Z by lia. exact Hc.
Qed.

(** ** C38 *)
Lemma loop_snoc k m0 m : loop k m0 = (m, Going) -> loop (Datatypes.S k) m0 = body m.
Proof.
  intros H. rewrite <- Nat.add_1_r, (loop_app _ _ _ _ H). cbn. destruct (body m) as [m' v]; destruct v; reflexivity.
Qed.

Lemma body_iter m m' v : body m = (m', v) -> completed v ->
  m_iter m' = (m_iter m + 1)%Z /\ (v = Going -> (m_iter m' < p_max_iter p)%Z) /\ (v = Finished -> m_files m' = m_files m ++ [file_of m']).
Proof.
  intros Hb Hv. destruct (body_inv _ _ _ Hb Hv) as (o1 & iid & o2 & tid & dt2 & stop1 & dt & _ & _ & _ & _ & _ & -> & ->).
  set (stop := stop1 || _ || _). destruct (step_of_fields m o1 iid o2 tid stop dt) as (_ & _ & Ei & _ & _ & Ef & _).
  rewrite Ei. split; [reflexivity|]. split; intros Hs.
  - unfold stop in Hs. destruct (Z.leb_spec (p_max_iter p) (m_iter m + 1)); [|lia]. rewrite orb_true_r in Hs. discriminate.
  - destruct stop; [|discriminate]. rewrite orb_true_r in Ef. exact Ef.
Qed.

Lemma going_iter n m0 m : loop n m0 = (m, Going) ->
  m_iter m = (m_iter m0 + Z.of_nat n)%Z /\ (n = 0%nat \/ (m_iter m < p_max_iter p)%Z).
Proof.
  intros H. refine (loop_going _ _ _ H (fun k m => m_iter m = (m_iter m0 + Z.of_nat k)%Z /\ (k = 0%nat \/ (m_iter m < p_max_iter p)%Z)) _ _).
  - split; [lia|auto].
  - intros k m1 m2 [A _] _ Hb. destruct (body_iter m1 m2 Going Hb) as (E & F & _); [left; reflexivity|]. split; [lia|]. right. auto.
Qed.

Lemma terminates m0 : exists k m v,
  (1 <= Z.of_nat k <= Z.max 1 (p_max_iter p - m_iter m0))%Z /\ v <> Going /\
  (exists m1, loop (k - 1) m0 = (m1, Going)) /\
  (forall n, (k <= n)%nat -> loop n m0 = (m, v)) /\
  (v = Finished -> m_iter m = (m_iter m0 + Z.of_nat k)%Z /\
     exists f, last_file m f /\ fl_iter f = m_iter m /\ fl_t f = m_t m /\ fl_data f = m_st m /\ fl_oid f = m_oid m).
Proof.
  set (N := Z.to_nat (Z.max 1 (p_max_iter p - m_iter m0))).
  destruct (loop N m0) as [m v] eqn:E.
  assert (Hv : v <> Going).
  { intros ->. destruct (going_iter _ _ _ E) as [A [B|B]]; lia. }
  destruct (loop_last _ _ _ _ E Hv) as (k & m1 & Hk & H1 & Hb). exists (Datatypes.S k), m, v.
  split; [lia|]. split; [exact Hv|]. split; [exists m1; replace (Datatypes.S k - 1)%nat with k by lia; exact H1|]. split.
  - intros n Hn. apply (loop_more (Datatypes.S k)); auto. rewrite (loop_snoc _ _ _ H1). exact Hb.
  - intros ->. destruct (body_iter _ _ _ Hb) as (Ei & _ & Ef); [right; reflexivity|].
    destruct (going_iter _ _ _ H1) as [A _]. split; [lia|].
    exists (file_of m). split; [exists (m_files m1); auto|]. cbn. auto.
Qed.

(** ** C39 *)
Lemma zrange_snoc a n : (a <= n)%Z -> zrange a (n + 1) = zrange a n ++ [n].
Proof using. clear D p clock.
  intros H. unfold zrange. replace (Z.to_nat (n + 1 - a)) with (Z.to_nat (n - a) + 1)%nat by lia.
  rewrite seq_app, map_app. cbn. do 2 f_equal. lia.
Qed.

Definition multiples (f n : Z) : list Z := filter (fun i => (i mod f =? 0)%Z) (zrange 0 (n + 1)).

Lemma multiples_0 f : (0 < f)%Z -> multiples f 0 = [0%Z].
Proof. intros H. unfold multiples. change (zrange 0 (0 + 1)) with [0%Z]. cbn [filter]. rewrite Z.mod_0_l by lia. reflexivity. Qed.
Lemma multiples_snoc f n : (0 <= n)%Z -> multiples f (n + 1) = multiples f n ++ (if ((n + 1) mod f =? 0)%Z then [n + 1] else [])%Z.
Proof.
  intros H. unfold multiples. rewrite (zrange_snoc 0 (n + 1)) by lia. rewrite filter_app. cbn -[Z.modulo].
  destruct ((n + 1) mod f =? 0)%Z; reflexivity.
Qed.

Lemma fresh_fields (s : S) : let m := fresh p s in
  m_iter m = 0%Z /\ m_t m = p_t_ini p /\ m_tid m = (-1)%Z /\ m_st m = s.
Proof. unfold fresh. destruct ((0 <? p_iter_freq p)%Z || rltb 0 (p_time_freq p)); cbn; auto. Qed.

Lemma next_multiple f n : (0 < f)%Z -> (0 <= n)%Z ->
  let q := (n / f)%Z in
  (((q + 1) * f <= n + 1)%Z -> ((n + 1) mod f = 0)%Z /\ ((n + 1) / f = q + 1)%Z) /\
  ((n + 1 < (q + 1) * f)%Z -> ((n + 1) mod f <> 0)%Z /\ ((n + 1) / f = q)%Z).
Proof.
  intros Hf Hn q. pose proof (Z.div_mod n f ltac:(lia)) as E. pose proof (Z.mod_pos_bound n f Hf) as B. fold q in E.
  split; intros H.
  - assert (E1 : (n + 1 = (q + 1) * f)%Z) by nia. rewrite E1, Z.mod_mul, Z.div_mul by lia. auto.
  - assert (E1 : ((n + 1) / f = q)%Z) by (symmetry; apply (Z.div_unique (n + 1) f q (n + 1 - q * f)); nia).
    split; [|exact E1]. pose proof (Z.div_mod (n + 1) f ltac:(lia)) as E2. rewrite E1 in E2. nia.
Qed.

Lemma iter_step m m' v : (0 < p_iter_freq p)%Z -> (0 <= m_iter m)%Z -> m_iid m = (m_iter m / p_iter_freq p)%Z ->
  body m = (m', v) -> completed v ->
  m_iid m' = (m_iter m' / p_iter_freq p)%Z /\
  ((m_iter m' mod p_iter_freq p = 0)%Z -> m_files m' = m_files m ++ [file_of m']) /\
  (p_time_freq p <= 0 -> v = Going -> (m_iter m' mod p_iter_freq p <> 0)%Z -> m_files m' = m_files m) /\
  (m_files m' = m_files m \/ m_files m' = m_files m ++ [file_of m']).
Proof.
  intros Hf Hn Hi Hb Hv. destruct (body_inv _ _ _ Hb Hv) as (o1 & iid & o2 & tid & dt2 & stop1 & dt & _ & E1 & E2 & _ & _ & -> & ->).
  set (stop := stop1 || _ || _). destruct (step_of_fields m o1 iid o2 tid stop dt) as (Eiid & _ & Ei & _ & _ & Ef & _).
  rewrite Eiid, Ei. destruct (next_multiple (p_iter_freq p) (m_iter m) Hf Hn) as [A B].
  split; [|split; [|split]].
  - destruct (iter_schedule_inv _ _ _ E1) as [(? & _)|(_ & _ & [(H & _ & ->)|(H & _ & ->)])]; [lia|..]; rewrite Hi in *;
      [destruct (A H)|destruct (B H)]; lia.
  - intros Hm. destruct (iter_schedule_inv _ _ _ E1) as [(? & _)|(_ & _ & [(H & -> & _)|(H & _ & _)])]; [lia|exact Ef|].
    rewrite Hi in H. destruct (B H). lia.
  - intros Ht Hs Hm.
    assert (stop = false) as -> by (destruct stop; [discriminate|reflexivity]).
    assert (o2 = false) as -> by (destruct (time_schedule_inv _ _ _ _ _ E2) as [(_ & ? & _)|(? & _)]; [assumption|lra]).
    destruct (iter_schedule_inv _ _ _ E1) as [(? & _)|(_ & _ & [(H & _ & _)|(H & -> & _)])]; [lia| |exact Ef].
    rewrite Hi in H. destruct (A H). lia.
  - destruct (o1 || o2 || stop); auto.
Qed.

Lemma iter_invariant (s : S) n m : (0 < p_iter_freq p)%Z -> loop n (fresh p s) = (m, Going) ->
  (0 <= m_iter m)%Z /\ m_iid m = (m_iter m / p_iter_freq p)%Z /\
  (forall i, (0 <= i <= m_iter m)%Z -> (i mod p_iter_freq p = 0)%Z -> In i (map (@fl_iter S) (m_files m))) /\
  (p_time_freq p <= 0 -> map (@fl_iter S) (m_files m) = multiples (p_iter_freq p) (m_iter m)).
Proof.
  intros Hf H. refine (loop_going _ _ _ H (fun _ m => (0 <= m_iter m)%Z /\ m_iid m = (m_iter m / p_iter_freq p)%Z /\
    (forall i, (0 <= i <= m_iter m)%Z -> (i mod p_iter_freq p = 0)%Z -> In i (map (@fl_iter S) (m_files m))) /\
    (p_time_freq p <= 0 -> map (@fl_iter S) (m_files m) = multiples (p_iter_freq p) (m_iter m))) _ _).
  - unfold fresh. rewrite (proj2 (Z.ltb_lt 0 (p_iter_freq p)) Hf). cbn -[Z.div Z.modulo]. rewrite Z.div_0_l by lia.
    split; [lia|]. split; [reflexivity|]. split; [intros i Hi _; left; lia|]. intros _. symmetry. exact (multiples_0 _ Hf).
  - intros k m1 m2 (H0 & Hi & HA & HB) _ Hb. destruct (iter_step m1 m2 Going Hf H0 Hi Hb) as (A & B & C & F); [left; reflexivity|].
    destruct (body_iter _ _ _ Hb) as (E & _); [left; reflexivity|]. split; [lia|]. split; [exact A|]. split.
    + intros i Hr Hm. destruct (Z.eq_dec i (m_iter m2)) as [->|Hne].
      * rewrite (B Hm), map_app. apply in_app_iff. right. left. reflexivity.
      * specialize (HA i ltac:(lia) Hm). destruct F as [->| ->]; [exact HA|]. rewrite map_app. apply in_app_iff. auto.
    + intros Ht. rewrite E, multiples_snoc by assumption. rewrite E in *. destruct (Z.eqb_spec ((m_iter m1 + 1) mod p_iter_freq p) 0) as [e|e].
      * rewrite (B e), map_app, (HB Ht). cbn. rewrite E. reflexivity.
      * rewrite (C Ht eq_refl e), (HB Ht), app_nil_r. reflexivity.
Qed.

Lemma iter_outputs (s : S) n m v : (0 < p_iter_freq p)%Z -> loop n (fresh p s) = (m, v) -> completed v ->
  (forall i, (0 <= i <= m_iter m)%Z -> (i mod p_iter_freq p = 0)%Z -> In i (map (@fl_iter S) (m_files m))) /\
  (p_time_freq p <= 0 -> map (@fl_iter S) (m_files m) =
     filter (fun i => (i mod p_iter_freq p =? 0)%Z || (match v with Finished => i =? m_iter m | _ => false end)%Z) (zrange 0 (m_iter m + 1))).
Proof.
  intros Hf H Hv. destruct (loop_cases _ _ _ _ H) as [[-> _]|(k & m1 & Hk & Hb & Hn)].
  - destruct (iter_invariant _ _ _ Hf H) as (_ & _ & A & B). split; [exact A|]. intros Ht. rewrite (B Ht).
    unfold multiples. apply filter_ext. intros; now rewrite orb_false_r.
  - destruct Hv as [->| ->]; [congruence|]. destruct (iter_invariant _ _ _ Hf Hk) as (H0 & Hi & A & B).
    destruct (iter_step m1 m Finished Hf H0 Hi Hb) as (_ & C & _ & _); [right; reflexivity|].
    destruct (body_iter _ _ _ Hb) as (E & _ & F); [right; reflexivity|]. specialize (F eq_refl). rewrite F, map_app.
    split.
    + intros i Hr Hm. apply in_app_iff. destruct (Z.eq_dec i (m_iter m)) as [->|]; [right; left; reflexivity|left; apply A; auto; lia].
    + intros Ht. rewrite (B Ht), (zrange_snoc 0 (m_iter m)), filter_app by lia. cbn -[Z.modulo]. rewrite Z.eqb_refl, orb_true_r. f_equal.
      unfold multiples. rewrite E. apply filter_ext_in. intros i Hi'. unfold zrange in Hi'. apply in_map_iff in Hi'.
      destruct Hi' as (x & <- & Hx). apply in_seq in Hx. destruct (Z.eqb_spec (0 + Z.of_nat x) (m_iter m1 + 1)); [lia|]. now rewrite orb_false_r.
Qed.

(** ** C40 *)
Lemma sched_index k z t : 0 < p_time_freq p -> scheduled p k <= t -> t < p_time_first p + IZR z * p_time_freq p ->
  (Z.of_nat k < z)%Z.
Proof.
  unfold scheduled. rewrite INR_IZR_INZ. intros Hf A B. apply lt_IZR. apply (Rmult_lt_reg_r (p_time_freq p)); lra.
Qed.

Lemma sorted_snoc (l : list R) x : StronglySorted Rlt l -> Forall (fun y => y < x) l -> StronglySorted Rlt (l ++ [x]).
Proof.
  induction l as [|a l IH]; intros H1 H2; cbn; [repeat constructor|]. inversion H1; subst. inversion H2; subst.
  constructor; [now apply IH|]. apply Forall_app. split; [assumption|]. repeat constructor. assumption.
Qed.

(** What holds whenever the loop is about to start an iteration; times up to [t0] are not its business. *)
Definition on_schedule (t0 : R) m : Prop :=
  (-1 <= m_tid m)%Z /\ m_t m < p_time_first p + IZR (m_tid m + 1) * p_time_freq p /\
  (forall k, (Z.of_nat k <= m_tid m)%Z -> scheduled p k <= t0 \/ In (scheduled p k) (map (@fl_t S) (m_files m))).

Definition ordered m : Prop :=
  StronglySorted Rlt (map (@fl_t S) (m_files m)) /\ Forall (fun t => t <= m_t m) (map (@fl_t S) (m_files m)).

Lemma body_ordered m m' v : m_t m < p_t_end p -> 0 < y_dt D (m_st m) -> ordered m -> body m = (m', v) -> completed v -> ordered m'.
Proof.
  intros Ht Hd [HS HF] Hb Hv. destruct (body_time _ _ _ Ht Hd Hb Hv) as ((A & _) & _).
  destruct (body_inv _ _ _ Hb Hv) as (o1 & iid & o2 & tid & dt2 & stop1 & dt & _ & _ & _ & _ & _ & -> & _).
  set (stop := stop1 || _ || _) in *. set (m' := step_of m o1 iid o2 tid stop dt) in *.
  destruct (step_of_fields m o1 iid o2 tid stop dt) as (_ & _ & _ & _ & _ & Ef & _). fold m' in Ef.
  assert (HF' : Forall (fun t => t < m_t m') (map (@fl_t S) (m_files m))) by (eapply Forall_impl; [|exact HF]; cbn; intros; lra).
  unfold ordered. rewrite Ef. destruct (o1 || o2 || stop).
  - rewrite map_app. split; [now apply sorted_snoc|]. apply Forall_app. split; [|repeat constructor; cbn; lra].
    eapply Forall_impl; [|exact HF']; cbn; intros; lra.
  - split; [exact HS|]. eapply Forall_impl; [|exact HF']; cbn; intros; lra.
Qed.

Lemma body_schedule t0 m m' v : 0 < p_time_freq p -> m_t m < p_t_end p -> 0 < y_dt D (m_st m) -> on_schedule t0 m ->
  body m = (m', v) -> completed v ->
  (v = Going -> on_schedule t0 m') /\
  (forall k, scheduled p k <= m_t m' -> scheduled p k <= t0 \/ In (scheduled p k) (map (@fl_t S) (m_files m'))) /\
  ((p_iter_freq p <= 0)%Z -> v = Going -> m_files m' = m_files m \/ (m_files m' = m_files m ++ [file_of m'] /\ exists k, m_t m' = scheduled p k)).
Proof.
  intros Hf Ht Hd (H1 & H2 & H3) Hb Hv. pose proof (body_time _ _ _ Ht Hd Hb Hv) as (_ & HT & _).
  destruct (body_inv _ _ _ Hb Hv) as (o1 & iid & o2 & tid & dt2 & stop1 & dt & _ & E1 & E2 & E3 & _ & -> & Ev).
  set (stop := stop1 || _ || _) in *. set (m' := step_of m o1 iid o2 tid stop dt) in *.
  destruct (step_of_fields m o1 iid o2 tid stop dt) as (_ & Etid & _ & Et & _ & Ef & _). fold m' in Etid, Et, Ef.
  assert (Hstop : stop1 = true -> stop = true) by (intros ->; reflexivity).
  destruct (time_schedule_inv _ _ _ _ _ E2) as [(? & _)|(_ & [(Ha & Hb' & -> & -> & ->)|(Ha & -> & -> & ->)])]; [lra|..].
  - (* an output is due *)
    assert (Ef' : m_files m' = m_files m ++ [file_of m']) by (rewrite Ef; now rewrite orb_true_r).
    set (next := p_time_first p + IZR (m_tid m + 1) * p_time_freq p) in *.
    assert (Hnext : next = scheduled p (Z.to_nat (m_tid m + 1))).
    { unfold scheduled, next. rewrite INR_IZR_INZ, Z2Nat.id by lia. reflexivity. }
    assert (Hle : m_t m' <= next) by (rewrite Et; destruct (clip_inv _ _ _ _ E3) as [(? & _ & ->)|(? & _ & ->)]; lra).
    assert (HIn : forall k, scheduled p k <= m_t m' -> scheduled p k <= t0 \/ In (scheduled p k) (map (@fl_t S) (m_files m'))).
    { intros k Hk. rewrite Ef', map_app, in_app_iff.
      assert (Hk' : (Z.of_nat k < m_tid m + 2)%Z).
      { apply (sched_index k _ (m_t m') Hf Hk). rewrite (plus_IZR _ 2). unfold next in Hle. rewrite plus_IZR in Hle. lra. }
      destruct (Z.eq_dec (Z.of_nat k) (m_tid m + 1)) as [e|e]; [|destruct (H3 k); [lia|auto..]].
      right. right. left. cbn. assert (Ek : next = scheduled p k) by (rewrite Hnext; f_equal; lia). lra. }
    split; [|split; [exact HIn|]].
    + intros ->. assert (Es1 : stop1 = false) by (destruct stop1; [rewrite Hstop in Ev by reflexivity; discriminate|reflexivity]).
      assert (Et' : m_t m' = next) by (rewrite Et; destruct (clip_inv _ _ _ _ E3) as [(? & ? & _)|(? & _ & ->)]; [congruence|lra]).
      split; [lia|]. rewrite Etid. split.
      * rewrite Et'. unfold next. rewrite !plus_IZR. lra.
      * intros k Hk. apply HIn. rewrite Et'. unfold next, scheduled. rewrite INR_IZR_INZ.
        apply Rplus_le_compat_l, Rmult_le_compat_r; [lra|]. apply IZR_le. lia.
    + intros _ ->. right. split; [exact Ef'|]. exists (Z.to_nat (m_tid m + 1)). rewrite <- Hnext.
      assert (Es1 : stop1 = false) by (destruct stop1; [rewrite Hstop in Ev by reflexivity; discriminate|reflexivity]).
      rewrite Et. destruct (clip_inv _ _ _ _ E3) as [(? & ? & _)|(? & _ & ->)]; [congruence|lra].
  - assert (Hlt : m_t m' < p_time_first p + IZR (m_tid m + 1) * p_time_freq p)
      by (rewrite Et; destruct (clip_inv _ _ _ _ E3) as [(? & _ & ->)|(? & _ & ->)]; lra).
    assert (HIn : forall k, (Z.of_nat k <= m_tid m)%Z -> scheduled p k <= t0 \/ In (scheduled p k) (map (@fl_t S) (m_files m'))).
    { intros k Hk. rewrite Ef. destruct (o1 || false || stop); [rewrite map_app, in_app_iff|]; destruct (H3 k Hk); auto. }
    split; [|split].
    + intros _. split; [lia|]. rewrite Etid. split; [exact Hlt|exact HIn].
    + intros k Hk. apply HIn. pose proof (sched_index k _ _ Hf Hk Hlt). lia.
    + intros Hi Hg. left. rewrite Ef.
      assert (o1 = false) as -> by (destruct (iter_schedule_inv _ _ _ E1) as [(_ & ? & _)|(? & _)]; [assumption|lia]).
      destruct stop; [subst v; discriminate|reflexivity].
Qed.

(** From a state that is on schedule (a fresh start or an output file) onwards. *)
Section From.
Context (m0 : mstate S).
Hypothesis Hf : 0 < p_time_freq p.
Hypothesis Hend : m_t m0 < p_t_end p.
Hypothesis Hpos : positive_steps D p clock m0.
Hypothesis Hon : on_schedule (m_t m0) m0.
Hypothesis Hord : ordered m0.

Lemma schedule_going n m : loop n m0 = (m, Going) ->
  on_schedule (m_t m0) m /\ ordered m /\ m_t m < p_t_end p /\
  ((p_iter_freq p <= 0)%Z -> forall t, In t (map (@fl_t S) (m_files m)) -> In t (map (@fl_t S) (m_files m0)) \/ exists k, t = scheduled p k).
Proof.
  intros H. refine (loop_going _ _ _ H (fun _ m => on_schedule (m_t m0) m /\ ordered m /\ m_t m < p_t_end p /\
     ((p_iter_freq p <= 0)%Z -> forall t, In t (map (@fl_t S) (m_files m)) -> In t (map (@fl_t S) (m_files m0)) \/ exists k, t = scheduled p k)) _ _).
  - auto.
  - intros k m1 m2 (A & B & C & F) Hk Hb. assert (Hd : 0 < y_dt D (m_st m1)) by (eapply Hpos; eauto).
    destruct (body_schedule _ m1 m2 Going Hf C Hd A Hb) as (A' & _ & F'); [left; reflexivity|].
    destruct (body_time m1 m2 Going C Hd Hb) as (_ & C' & _); [left; reflexivity|].
    split; [auto|]. split; [apply (body_ordered m1 m2 Going C Hd B Hb); left; reflexivity|]. split; [auto|].
    intros Hi t. specialize (F Hi). destruct (F' Hi eq_refl) as [->|(-> & k' & E)]; [exact (F t)|].
    rewrite map_app, in_app_iff. intros [Ht|[<-|[]]]; [auto|]. right. exists k'. exact E.
Qed.

Lemma schedule_from n m v : loop n m0 = (m, v) -> completed v ->
  (forall k, scheduled p k <= m_t m -> scheduled p k <= m_t m0 \/ In (scheduled p k) (map (@fl_t S) (m_files m))) /\
  StronglySorted Rlt (map (@fl_t S) (m_files m)) /\
  ((p_iter_freq p <= 0)%Z -> forall f, In f (m_files m) ->
     In (fl_t f) (map (@fl_t S) (m_files m0)) \/ (exists k, fl_t f = scheduled p k) \/ (v = Finished /\ fl_t f = m_t m)).
Proof.
  intros H Hv. destruct (loop_cases _ _ _ _ H) as [[-> _]|(n1 & m1 & Hk & Hb & Hn)].
  - destruct (schedule_going _ _ H) as ((A1 & A2 & A3) & (B & _) & _ & F). split; [|split; [exact B|]].
    + intros k Hk. apply A3. pose proof (sched_index k _ _ Hf Hk A2). lia.
    + intros Hi f Hin. destruct (F Hi (fl_t f)) as [?|?]; [now apply in_map|auto..].
  - destruct Hv as [->| ->]; [congruence|]. destruct (schedule_going _ _ Hk) as (A & B & C & F).
    assert (Hd : 0 < y_dt D (m_st m1)) by (eapply Hpos; eauto).
    destruct (body_schedule _ m1 m Finished Hf C Hd A Hb) as (_ & G & _); [right; reflexivity|].
    split; [exact G|]. split; [apply (body_ordered m1 m Finished C Hd B Hb); right; reflexivity|].
    intros Hi f Hin. destruct (body_iter _ _ _ Hb) as (_ & _ & Ef); [right; reflexivity|]. rewrite (Ef eq_refl) in Hin.
    apply in_app_iff in Hin. destruct Hin as [Hin|[<-|[]]]; [|right; right; split; reflexivity].
    destruct (F Hi (fl_t f)) as [?|?]; [now apply in_map|auto..].
Qed.

Lemma never_negative_from n m : loop n m0 <> (m, Failed "Error: the time step is negative"%string).
Proof.
  intros H. destruct (loop_last _ _ _ _ H) as (k & m1 & _ & Hk & Hb); [discriminate|].
  destruct (schedule_going _ _ Hk) as ((A1 & A2 & A3) & _ & C & _).
  assert (Hd : 0 < y_dt D (m_st m1)) by (eapply Hpos; eauto).
  unfold ModelMain.body in Hb. destruct (int32 _); cbn [negb] in Hb; [|discriminate].
  destruct (iter_schedule p m1) as [[o1 iid]|w|w] eqn:E1; [| |discriminate].
  - destruct (time_schedule p m1 (y_dt D (m_st m1))) as [[[o2 tid] dt2]|w|w] eqn:E2; [| |discriminate].
    + destruct (clip_to_end _ _ _) as [s1 dt]. destruct (y_bad _ _); [discriminate|]. destruct (_ || clock _); discriminate.
    + unfold time_schedule in E2. destruct (rltb 0 (p_time_freq p)); [|discriminate]. cbv zeta in E2.
      destruct (rleb _ (m_t m1 + _)); [|discriminate]. destruct (rleb (_ - m_t m1) 0) eqn:E; [|discriminate]. apply rleb_true in E. lra.
  - unfold iter_schedule in E1. destruct (0 <? p_iter_freq p)%Z; [|discriminate]. cbv zeta in E1.
    destruct (int32 _); cbn [negb] in E1; [|discriminate]. destruct (_ <=? _)%Z; discriminate.
Qed.
End From.

Lemma fresh_time (s : S) : 0 < p_time_freq p -> fresh p s = output (mkM (-1) 0 (-1) 0 (p_t_ini p) [] s []).
Proof. intros Hf. unfold fresh. rewrite (proj2 (rltb_true 0 (p_time_freq p)) Hf), orb_true_r. reflexivity. Qed.

Section Schedule.
Context (s : S).
Hypothesis Hf : 0 < p_time_freq p.
Hypothesis Hfirst : p_t_ini p < p_time_first p.
Hypothesis Hend : p_t_ini p < p_t_end p.
Hypothesis Hpos : positive_steps D p clock (fresh p s).

Lemma fresh_on_schedule : on_schedule (m_t (fresh p s)) (fresh p s) /\ ordered (fresh p s) /\ m_t (fresh p s) < p_t_end p.
Proof.
  rewrite (fresh_time s Hf). cbn. unfold on_schedule, ordered. cbn. split; [|split; [|exact Hend]].
  - split; [lia|]. split; [lra|]. intros; lia.
  - split; [repeat constructor|]. apply Forall_cons; [apply Rle_refl|apply Forall_nil].
Qed.

Lemma schedule_kept n m v : loop n (fresh p s) = (m, v) -> completed v ->
  (forall k, scheduled p k <= m_t m -> In (scheduled p k) (map (@fl_t S) (m_files m))) /\
  StronglySorted Rlt (map (@fl_t S) (m_files m)) /\
  ((p_iter_freq p <= 0)%Z -> forall f, In f (m_files m) ->
     fl_t f = p_t_ini p \/ (exists k, fl_t f = scheduled p k) \/ (v = Finished /\ fl_t f = m_t m)).
Proof.
  intros H Hv. destruct fresh_on_schedule as (A & B & C).
  destruct (schedule_from _ Hf C Hpos A B n m v H Hv) as (E1 & E2 & E3). split; [|split; [exact E2|]].
  - intros k Hk. destruct (E1 k Hk) as [Hle|]; [|assumption]. exfalso. revert Hle. rewrite (fresh_time s Hf). cbn. unfold scheduled.
    pose proof (pos_INR k). pose proof (Rmult_le_pos _ _ H0 (Rlt_le _ _ Hf)). lra.
  - intros Hi f Hin. destruct (E3 Hi f Hin) as [Hx|Hx]; [left|auto]. rewrite (fresh_time s Hf) in Hx. cbn in Hx. destruct Hx as [Hx|[]]. auto.
Qed.

Lemma never_negative n m : loop n (fresh p s) <> (m, Failed "Error: the time step is negative"%string).
Proof. destruct fresh_on_schedule as (A & B & C). exact (never_negative_from _ Hf C Hpos A B n m). Qed.
End Schedule.

(** A first output time that is not after the start is fatal in the very first iteration. *)
Lemma early_first_output s n : 0 < p_time_freq p -> p_time_first p <= p_t_ini p -> (p_iter_freq p <= int_max)%Z ->
  0 < y_dt D s -> (1 <= n)%nat ->
  loop n (fresh p s) = (fresh p s, Failed "Error: the time step is negative"%string).
Proof.
  intros Hf Ht Hi Hd Hn. destruct n as [|n]; [lia|]. cbn [ModelMain.loop].
  assert (E : body (fresh p s) = (fresh p s, Failed "Error: the time step is negative"%string)); [|rewrite E; reflexivity].
  rewrite (fresh_time s Hf). unfold ModelMain.body. cbn [output write next_id m_iter m_iid m_tid m_t m_st Z.add].
  change (int32 1) with true. cbn [negb]. unfold iter_schedule. cbn [output write next_id m_iter m_iid m_tid m_t m_st].
  assert (Et : time_schedule p (output (mkM (-1) 0 (-1) 0 (p_t_ini p) [] s [])) (y_dt D s) = Throw "Error: the time step is negative"%string).
  { unfold time_schedule. cbn [output write next_id m_iter m_iid m_tid m_t m_st]. rewrite (proj2 (rltb_true 0 _) Hf). cbv zeta. change (-1 + 1)%Z with 0%Z.
    rewrite (proj2 (rleb_true _ _)) by lra. rewrite (proj2 (rleb_true _ _)) by lra. reflexivity. }
  destruct (Z.ltb_spec 0 (p_iter_freq p)).
  - replace (int32 ((0 + 1) * p_iter_freq p)) with true by (unfold int32, int_max in *; lia). cbn [negb].
    destruct (_ <=? _)%Z; rewrite Et; reflexivity.
  - rewrite Et. reflexivity.
Qed.

(** ** C41 *)
Lemma body_ids m m' v : body m = (m', v) ->
  exists l, m_files m' = m_files m ++ l /\ (l = [] /\ m_oid m' = m_oid m \/ exists f, l = [f] /\ fl_oid f = (m_oid m + 1)%Z /\ m_oid m' = (m_oid m + 1)%Z).
Proof.
  unfold ModelMain.body. intros H.
  assert (N : m' = m -> exists l, m_files m' = m_files m ++ l /\ (l = [] /\ m_oid m' = m_oid m \/ exists f, l = [f] /\ fl_oid f = (m_oid m + 1)%Z /\ m_oid m' = (m_oid m + 1)%Z)).
  { intros ->. exists []. rewrite app_nil_r. auto. }
  destruct (int32 _); cbn [negb] in H; [|apply N; inversion H; reflexivity].
  destruct (iter_schedule p m) as [[o1 iid]|w|w]; [|apply N; inversion H; reflexivity..].
  destruct (time_schedule p m (y_dt D (m_st m))) as [[[o2 tid] dt2]|w|w]; [|apply N; inversion H; reflexivity..].
  destruct (clip_to_end _ _ _) as [s1 dt]. destruct (y_bad _ _).
  - inversion H. cbn. eexists [_]. split; [reflexivity|]. right. eexists. split; [reflexivity|]. cbn. auto.
  - inversion H. clear H N. set (b := o1 || o2 || _) in *. destruct b; cbn.
    + eexists [_]. split; [reflexivity|]. right. eexists. split; [reflexivity|]. cbn. auto.
    + exists []. rewrite app_nil_r. auto.
Qed.

Lemma loop_ids n : forall m0 m v, loop n m0 = (m, v) ->
  exists l, m_files m = m_files m0 ++ l /\ m_oid m = (m_oid m0 + Z.of_nat (List.length l))%Z /\
    map (@fl_oid S) l = zrange (m_oid m0 + 1) (m_oid m + 1).
Proof.
  induction n as [|n IH]; intros m0 m v H.
  - inversion H; subst. exists []. rewrite app_nil_r. split; [reflexivity|]. split; [cbn; lia|].
    unfold zrange. replace (m_oid m + 1 - (m_oid m + 1))%Z with 0%Z by lia. reflexivity.
  - cbn [ModelMain.loop] in H. destruct (body m0) as [m1 v1] eqn:Eb.
    assert (HH : exists l, m_files m = m_files m1 ++ l /\ m_oid m = (m_oid m1 + Z.of_nat (List.length l))%Z /\
      map (@fl_oid S) l = zrange (m_oid m1 + 1) (m_oid m + 1)).
    { destruct v1; [now apply (IH _ _ v)|inversion H; subst..];
        exists []; rewrite app_nil_r; (split; [reflexivity|]); (split; [cbn; lia|]);
        unfold zrange; replace (m_oid m + 1 - (m_oid m + 1))%Z with 0%Z by lia; reflexivity. }
    destruct HH as (l & A & B & C). destruct (body_ids _ _ _ Eb) as (l1 & F & [(-> & G)|(f & -> & G1 & G2)]).
    + exists l. rewrite app_nil_r in F. rewrite G in *. rewrite A, F. auto.
    + exists (f :: l). rewrite A, F, <- app_assoc. split; [reflexivity|]. rewrite G2 in *. split; [cbn [List.length]; lia|].
      cbn [map]. rewrite G1, C. unfold zrange.
      replace (Z.to_nat (m_oid m + 1 - (m_oid m0 + 1))) with (Datatypes.S (Z.to_nat (m_oid m + 1 - (m_oid m0 + 1 + 1)))) by lia.
      cbn [seq map]. f_equal; [lia|]. rewrite <- seq_shift, map_map. apply map_ext. intros; lia.
Qed.

Lemma zrange_shift_nil a : zrange a a = [].
Proof. unfold zrange. replace (a - a)%Z with 0%Z by lia. reflexivity. Qed.

Lemma fresh_ids s : m_oid (fresh p s) = (Z.of_nat (List.length (m_files (fresh p s))) - 1)%Z /\
  map (@fl_oid S) (m_files (fresh p s)) = zrange 0 (m_oid (fresh p s) + 1).
Proof. unfold fresh. destruct ((0 <? p_iter_freq p)%Z || rltb 0 (p_time_freq p)); cbn; auto. Qed.

Lemma zrange_app a b c : (a <= b <= c)%Z -> zrange a c = zrange a b ++ zrange b c.
Proof using. clear D p clock.
  intros H. unfold zrange. replace (Z.to_nat (c - a)) with (Z.to_nat (b - a) + Z.to_nat (c - b))%nat by lia.
  rewrite seq_app, map_app. f_equal. cbn [Nat.add].
  replace (Z.to_nat (b - a)) with (Z.to_nat (b - a) + 0)%nat by lia. rewrite Nat.add_comm.
  generalize (Z.to_nat (c - b)) as k. generalize 0%nat as i. intros i k. revert i.
  induction k as [|k IH]; intros i; cbn; [reflexivity|]. f_equal; [lia|]. rewrite <- IH. f_equal.
Qed.

Lemma numbered s n m v : loop n (fresh p s) = (m, v) ->
  map (@fl_oid S) (m_files m) = zrange 0 (Z.of_nat (List.length (m_files m))) /\
  m_oid m = (Z.of_nat (List.length (m_files m)) - 1)%Z.
Proof.
  intros H. destruct (loop_ids _ _ _ _ H) as (l & A & B & C). destruct (fresh_ids s) as [E F].
  assert (Em : m_oid m = (Z.of_nat (List.length (m_files m)) - 1)%Z) by (rewrite A, app_length; lia).
  split; [|exact Em]. replace (Z.of_nat (List.length (m_files m))) with (m_oid m + 1)%Z by lia.
  rewrite A, map_app, C, F. symmetry. apply zrange_app. lia.
Qed.
End Runs.
