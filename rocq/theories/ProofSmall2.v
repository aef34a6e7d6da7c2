(** * The field of a uniform sphere, and the states of a DualView. *)
From Coq Require Import Reals Lra Lia ZArith List.
From Verif Require Import Base RBase ModelMesh ModelGeom ModelHydro ModelBoundary ModelUtil ModelStep ModelSmall ProofBase ProofMesh ProofR.
Import ListNotations.
Local Open Scope R_scope.

Lemma lsum_pos {A} (f : A -> R) l : l <> [] -> (forall a, In a l -> 0 < f a) -> 0 < lsum f l.
Proof.
  induction l as [|a l IH]; [contradiction|]. intros _ H. cbn [lsum].
  assert (0 < f a) by (apply H; now left). destruct l as [|b l]; [cbn; lra|].
  assert (0 < lsum f (b :: l)) by (apply IH; [discriminate|]; intros c Hc; apply H; now right). cbn in *. lra.
Qed.
Lemma box_nonempty b e : in_box b e b -> box_cells b e <> [].
Proof. intros H E. apply in_box_cells in H. rewrite E in H. destruct H. Qed.

Lemma enclosed_uniform m M g0 rm rho n : (forall k, (0 <= k <= Z.of_nat n)%Z -> rm k = rho) ->
  enclosed_mass m M g0 rm n
  = M + 4 * PI / 3 * rho * (cube (mxc m 0 (g0 + Z.of_nat n)) - cube (m 0%nat g0)).
Proof.
  induction n as [|n IH]; intros H; cbn [enclosed_mass].
  - cbn [Z.of_nat]. rewrite Z.add_0_r, (H 0%Z) by lia. ring.
  - rewrite IH by (intros k Hk; apply H; lia). rewrite !H by lia.
    replace (g0 + Z.of_nat (S n) - 1)%Z with (g0 + Z.of_nat n)%Z by lia. ring.
Qed.

Lemma uniform_shell_mean K L A r rho i :
  (1 <= jj (l_dims L) /\ 1 <= kk (l_dims L))%Z ->
  let g d := if Nat.ltb d (k_nd K) then k_ng K else 0%Z in
  (forall r', ii r' = ii r -> (0 <= jj r' < jj (l_dims L))%Z -> (0 <= kk r' < kk (l_dims L))%Z ->
     (1 <= jj (d_nloc (l_dec L r')) /\ 1 <= kk (d_nloc (l_dec L r')))%Z /\
     forall c, ii c = (i + g 0%nat)%Z -> (g 1%nat <= jj c < g 1%nat + jj (d_nloc (l_dec L r')))%Z ->
       (g 2%nat <= kk c < g 2%nat + kk (d_nloc (l_dec L r')))%Z ->
       0 < dv (k_geom K) (k_nd K) (l_mesh L r') c /\ c_rho (A r' c) = rho) ->
  shell_mean K L A r i = rho.
Proof.
  intros D g H. unfold shell_mean.
  assert (HR : forall r', In r' (horizontal_ranks (l_dims L) r) ->
    ii r' = ii r /\ (0 <= jj r' < jj (l_dims L))%Z /\ (0 <= kk r' < kk (l_dims L))%Z).
  { intros r' Hr. unfold horizontal_ranks in Hr. apply in_box_cells in Hr. unfold in_box in Hr. cbn [ii jj kk] in Hr. lia. }
  assert (HC : forall r' c, In c (shell_cells (d_nloc (l_dec L r')) (nghost_of (k_nd K) (k_ng K)) i) ->
    ii c = (i + g 0%nat)%Z /\ (g 1%nat <= jj c < g 1%nat + jj (d_nloc (l_dec L r')))%Z /\
    (g 2%nat <= kk c < g 2%nat + kk (d_nloc (l_dec L r')))%Z).
  { intros r' c Hc. unfold shell_cells in Hc. apply in_box_cells in Hc. unfold in_box in Hc. cbn [ii jj kk nghost_of mk3] in Hc.
    fold (g 0%nat) (g 1%nat) (g 2%nat) in Hc. lia. }
  assert (P : 0 < shell_sum K L (fun r' c => dv (k_geom K) (k_nd K) (l_mesh L r') c) r i).
  { unfold shell_sum. apply lsum_pos.
    - apply box_nonempty. unfold in_box. cbn [ii jj kk]. lia.
    - intros r' Hr. destruct (HR r' Hr) as (A1 & A2 & A3). destruct (H r' A1 A2 A3) as (N & V). apply lsum_pos.
      + apply box_nonempty. unfold in_box. cbn [ii jj kk]. lia.
      + intros c Hc. destruct (HC r' c Hc) as (C1 & C2 & C3). exact (proj1 (V c C1 C2 C3)). }
  replace (shell_sum K L (fun r' c => c_rho (A r' c) * dv (k_geom K) (k_nd K) (l_mesh L r') c) r i)
    with (rho * shell_sum K L (fun r' c => dv (k_geom K) (k_nd K) (l_mesh L r') c) r i).
  - field. lra.
  - unfold shell_sum. rewrite <- lsum_scal. apply lsum_ext. intros r' Hr. rewrite <- lsum_scal. apply lsum_ext. intros c Hc.
    destruct (HR r' Hr) as (A1 & A2 & A3). destruct (H r' A1 A2 A3) as (N & V). destruct (HC r' c Hc) as (C1 & C2 & C3).
    rewrite (proj2 (V c C1 C2 C3)). ring.
Qed.

Lemma uniform_sphere K L A M r rho c :
  k_grav K = GInternalMass M -> (1 <= k_nd K)%nat -> (k_ng K <= ii c)%Z ->
  (1 <= jj (l_dims L) /\ 1 <= kk (l_dims L))%Z ->
  let g d := if Nat.ltb d (k_nd K) then k_ng K else 0%Z in
  (forall r', ii r' = ii r -> (0 <= jj r' < jj (l_dims L))%Z -> (0 <= kk r' < kk (l_dims L))%Z ->
     (1 <= jj (d_nloc (l_dec L r')) /\ 1 <= kk (d_nloc (l_dec L r')))%Z /\
     forall c', (k_ng K <= ii c' <= ii c)%Z -> (g 1%nat <= jj c' < g 1%nat + jj (d_nloc (l_dec L r')))%Z ->
       (g 2%nat <= kk c' < g 2%nat + kk (d_nloc (l_dec L r')))%Z ->
       0 < dv (k_geom K) (k_nd K) (l_mesh L r') c' /\ c_rho (A r' c') = rho) ->
  let x := mxc (l_mesh L r) 0 (ii c) in
  gravity_values K L A r c 0%nat = - Ggrav * (M + 4 / 3 * PI * rho * (x * x * x - l_mesh L r 0%nat (k_ng K) ^ 3)) / (x * x).
Proof.
  intros HM Hnd Hc D g H x. unfold gravity_values. rewrite HM. unfold radial_gravity, mass_r.
  assert (E : ii (nghost_of (k_nd K) (k_ng K)) = k_ng K).
  { unfold nghost_of, mk3. cbn [ii]. destruct (k_nd K); [lia|reflexivity]. }
  assert (g0 : g 0%nat = k_ng K) by (unfold g; destruct (k_nd K); [lia|reflexivity]).
  rewrite E. replace (ii c <? k_ng K)%Z with false by (symmetry; apply Z.ltb_ge; lia).
  rewrite (enclosed_uniform _ _ _ _ rho).
  - rewrite Z2Nat.id by lia. replace (k_ng K + (ii c - k_ng K))%Z with (ii c) by lia. unfold cube. fold x.
    f_equal. f_equal. field.
  - intros k Hk. apply uniform_shell_mean; [exact D|]. fold g. intros r' A1 A2 A3. destruct (H r' A1 A2 A3) as (N & V).
    split; [exact N|]. intros c' C1 C2 C3. assert (C0 : ii c' = (k + k_ng K)%Z) by (rewrite <- g0; exact C1). apply V; auto. lia.
Qed.

(** ** DualView *)

Definition small (V : Type) (d : dual V) : Prop := forall s, (0 <= flag d s < 2 ^ 32 - 1)%Z.

Lemma sync_clean V (d : dual V) s :
  need_synchronization (synchronize d s) s = false /\
  (need_synchronization d s = true -> need_synchronization (synchronize d s) (other s) = false /\
     forall t i, mem (synchronize d s) t i = mem d (other s) i) /\
  (need_synchronization d s = false -> synchronize d s = d).
Proof.
  unfold synchronize. destruct (need_synchronization d s) eqn:E; cbn.
  - split; [reflexivity|]. split; [|discriminate]. intros _. split; [reflexivity|]. intros t i. destruct s, t; reflexivity.
  - split; [exact E|]. split; [discriminate|reflexivity].
Qed.

Lemma access_marks V (d : dual V) s m : small V d ->
  need_synchronization (access d s m) s = false \/ has_read m = false /\ has_write m = false.
Proof.
  intros H. left. unfold access.
  assert (W : forall d' : dual V, small V d' -> need_synchronization (mark_modified d' s) s = false).
  { intros d' H'. unfold need_synchronization, mark_modified. cbn [flag]. pose proof (H' Host) as A. pose proof (H' Dev) as B.
    unfold uint. rewrite Z.mod_small by lia. apply Z.ltb_ge. destruct s; cbn; lia. }
  assert (S0 : small V (synchronize d s)).
  { unfold synchronize. destruct (need_synchronization d s); [intros t; cbn; lia|exact H]. }
  destruct m; cbn; [apply sync_clean|apply W; exact S0|apply W; exact H].
Qed.
Lemma access_write_flags V (d : dual V) s m : small V d -> has_write m = true ->
  need_synchronization (access d s m) s = false /\ need_synchronization (access d s m) (other s) = true.
Proof.
  intros H Hw. destruct (access_marks V d s m H) as [A|(_ & A)]; [|congruence]. split; [exact A|].
  unfold access. rewrite Hw.
  assert (W : forall d' : dual V, small V d' -> need_synchronization (mark_modified d' s) (other s) = true).
  { intros d' H'. unfold need_synchronization, mark_modified. cbn [flag]. pose proof (H' Host) as X. pose proof (H' Dev) as Y.
    unfold uint. rewrite Z.mod_small by lia. apply Z.ltb_lt. destruct s; cbn; lia. }
  apply W. destruct (has_read m); [|exact H].
  unfold synchronize. destruct (need_synchronization d s); [intros t; cbn; lia|exact H].
Qed.
Lemma access_read_flags V (d : dual V) s : 
  need_synchronization (access d s ReadOnly) s = false /\
  (need_synchronization d s = false -> access d s ReadOnly = d).
Proof. cbn. split; [apply sync_clean|]. intros E. unfold synchronize. rewrite E. reflexivity. Qed.
