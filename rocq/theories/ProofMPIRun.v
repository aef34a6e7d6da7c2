(** * The processes of HERACLES++ execute the simultaneous updates of the other models in lock step (C84, C85). *)
From Coq Require Import Relations FunctionalExtensionality ZifyBool ZifyNat.
From Verif Require Import Base RBase ModelMesh ModelGeom ModelBoundary ModelHydro ModelScheme ModelStep ModelMain ModelMove ModelMPI
  SpecBoundary SpecStep SpecMPI ProofBase ProofMesh ProofBoundary ProofBox ProofMPI.
Set Implicit Arguments.
Unset Strict Implicit.
Local Open Scope string_scope.
Local Open Scope Z_scope.
Local Open Scope list_scope.

Lemma max_list_app a b : max_list (a ++ b) = opt_max (max_list a) (max_list b).
Proof.
  induction a as [|x a IH]; [reflexivity|]. cbn [app max_list]. rewrite IH.
  destruct (max_list a) as [u|], (max_list b) as [v|]; cbn [opt_max]; try reflexivity. now rewrite Rmax_assoc.
Qed.
Lemma max_flat {T : Type} (g : T -> list R) l :
  max_list (flat_map g l) = fold_right (fun q acc => opt_max (max_list (g q)) acc) None l.
Proof. induction l as [|a l IH]; [reflexivity|]. cbn [flat_map fold_right]. now rewrite max_list_app, IH. Qed.
Lemma min_list_app a b : min_list (a ++ b) = opt_min (min_list a) (min_list b).
Proof.
  induction a as [|x a IH]; [reflexivity|]. cbn [app min_list]. rewrite IH.
  destruct (min_list a) as [u|], (min_list b) as [v|]; cbn [opt_min]; try reflexivity. now rewrite Rmin_assoc.
Qed.
Lemma min_flat {T : Type} (g : T -> list R) l :
  min_list (flat_map g l) = fold_right (fun q acc => opt_min (min_list (g q)) acc) None l.
Proof. induction l as [|a l IH]; [reflexivity|]. cbn [flat_map fold_right]. now rewrite min_list_app, IH. Qed.

Lemma with_own_bcs K : with_bcs K (k_bcs K) = K.
Proof. destruct K; reflexivity. Qed.

Section Run.
Variables (K : config) (nfx : Z) (cfl : R) (p : params) (sh : shift_kind) (rmax : R) (Nx0 : Z) (nglob dims0 : idx)
  (L0 : layout) (clock : idx -> Z -> bool).
Hypothesis HD : decomposed (k_nd K) nglob dims0 (k_ng K) (l_dec L0).
Hypothesis HP : l_dims L0 = mpi_dims (k_nd K) dims0.
Local Notation dims := (l_dims L0).
Local Notation T := (task_of K nfx cfl p sh rmax Nx0 L0 clock).
Local Notation nd := (k_nd K).
Local Notation ng := (k_ng K).

Hypothesis Hfit : forall d r, (d < nd)%nat -> In r (ranks dims) -> message_size K nfx L0 d r <= int_max.

Lemma in_grid r : In r (ranks dims) <-> (forall d, (d < 3)%nat -> 0 <= coord d r < coord d (mpi_dims nd dims0)).
Proof. rewrite HP. unfold ranks. rewrite in_box_cells, in_box_coord. split; intros H d Hd; specialize (H d Hd); rewrite coord_zero in *; exact H. Qed.

Lemma grid_vrank r : In r (ranks dims) -> forall d, (d < 3)%nat -> 0 <= coord d r < coord d (mpi_dims nd dims0).
Proof. apply (proj1 (in_grid r)). Qed.
Lemma vrank_grid r : (forall d, (d < 3)%nat -> 0 <= coord d r < coord d (mpi_dims nd dims0)) -> In r (ranks dims).
Proof. apply (proj2 (in_grid r)). Qed.

Lemma dims_pos d : (d < 3)%nat -> 1 <= coord d dims.
Proof. rewrite HP. exact (dcp_dims HD (d := d)). Qed.

Lemma neighbour_inv d s r : (d < 3)%nat -> In r (ranks dims) -> neighbour dims d s (neighbour dims d (- s) r) = r.
Proof.
  intros Hd Hr. apply idx_ext. intros e He. unfold neighbour. destruct (Nat.eq_dec d e) as [<-|N].
  - rewrite !coord_set_same. rewrite in_grid in Hr. specialize (Hr d Hd). rewrite <- HP in Hr. pose proof (dims_pos Hd).
    rewrite Zplus_mod_idemp_l. replace (coord d r + - s + s) with (coord d r) by lia. apply Z.mod_small. lia.
  - rewrite !coord_set_other by assumption. reflexivity.
Qed.
Lemma neighbour_in d s r : (d < 3)%nat -> In r (ranks dims) -> In (neighbour dims d s r) (ranks dims).
Proof. intros Hd Hr. apply vrank_grid. rewrite HP. apply (vrank_neighbour _ _ _ _ _ HD); [exact (grid_vrank Hr)|exact Hd]. Qed.
Lemma neighbour_ext d s r e : (d < 3)%nat -> (e < 3)%nat -> d <> e -> In r (ranks dims) ->
  coord e (d_nwg (l_dec L0 (neighbour dims d s r))) = coord e (d_nwg (l_dec L0 r)).
Proof.
  intros Hd He N Hr. pose proof (neighbour_in s Hd Hr) as Hn.
  rewrite (dec_nwg _ _ _ _ _ HD _ _ (grid_vrank Hn) He), (dec_nwg _ _ _ _ _ HD _ _ (grid_vrank Hr) He).
  unfold neighbour. rewrite coord_set_other by assumption. reflexivity.
Qed.

Lemma exchange_locks d face (A : world cell) : (d < nd)%nat -> (face < 2)%nat ->
  locks dims (fun r => pexchange (T r) d face (A r))
    (fun r => Ret (ghost_sync dims (fun r => d_nwg (l_dec L0 r)) ng d face A r)).
Proof.
  intros Hd Hf. assert (Hd3 : (d < 3)%nat) by (pose proof (dcp_nd HD); lia).
  set (ext := fun r => d_nwg (l_dec L0 r)).
  set (first := fun r => match face with O => ng | _ => coord d (ext r) - 2 * ng end).
  set (b := fun r => set_coord d ng (ext r)).
  set (pack := fun r c => if in_boxb (I3 0 0 0) (b r) c then A r (set_coord d (first r + coord d c) c)
                       else mkCell 0 (fun _ => 0%R) 0 (fun _ => 0%R)).
  set (first' := fun r => match face with O => coord d (ext r) - ng | _ => 0 end).
  set (s1 := match face with O => -1 | _ => 1 end).
  apply locks_exch with (dst := fun r => neighbour dims d s1 r) (src := fun r => neighbour dims d (- s1) r)
    (t := d) (m := fun r => MBuffer (b r) (Z.of_nat nd + 2 + nfx) (pack r))
    (k := fun r m => match m with
      | MBuffer _ _ f =>
          Ret (kwrite (in_boxb (set_coord d (first' r) (I3 0 0 0)) (set_coord d (first' r + ng) (ext r)))
                 (fun c => f (set_coord d (coord d c - first' r) c)) (A r))
      | _ => Fail "unreachable"
      end).
  - intros r Hr. unfold pexchange. cbn [task_of j_K j_dec j_dims j_r j_nfx].
    pose proof (Hfit Hd Hr) as F. unfold message_size in F.
    destruct (int_max <? _) eqn:E; [apply Z.ltb_lt in E; lia|]. unfold s1. destruct face as [|[|face]]; [reflexivity|reflexivity|lia].
  - intros r Hr. split; [now apply neighbour_in|]. split; [now apply neighbour_in|].
    assert (N1 : neighbour dims d (- s1) (neighbour dims d s1 r) = r).
    { replace s1 with (- - s1) at 2 by lia. now apply neighbour_inv. }
    split; [exact N1|]. split; [now apply neighbour_inv|]. cbn [shape_of]. f_equal. unfold b. apply idx_ext. intros e He.
    destruct (Nat.eq_dec d e) as [<-|N]; [now rewrite !coord_set_same|]. rewrite !coord_set_other by assumption.
    unfold ext. now apply neighbour_ext.
  - apply locks_ret. intros r Hr. f_equal. apply functional_extensionality. intro c. unfold kwrite, ghost_sync.
    assert (Key : in_boxb (set_coord d (first' r) (I3 0 0 0)) (set_coord d (first' r + ng) (ext r)) c = true ->
       pack (neighbour dims d (- s1) r) (set_coord d (coord d c - first' r) c)
       = A (neighbour dims d (- s1) r) (set_coord d (first (neighbour dims d (- s1) r) + (coord d c - first' r)) c)).
    { intro B. unfold pack. apply in_boxb_spec in B. rewrite in_box_coord in B.
      rewrite in_boxb_true.
      - f_equal. apply idx_ext. intros e He. destruct (Nat.eq_dec d e) as [<-|N].
        + now rewrite !coord_set_same.
        + now rewrite !coord_set_other by assumption.
      - intros e He. specialize (B e He). rewrite coord_zero. unfold b. destruct (Nat.eq_dec d e) as [<-|N].
        + rewrite !coord_set_same in *. lia.
        + rewrite !coord_set_other in * by assumption. rewrite coord_zero in B. unfold ext in *. rewrite neighbour_ext by assumption. lia. }
    unfold s1, first', first in *. destruct face as [|[|face]]; [| |lia].
    + change (- -1) with 1 in *. fold (ext r). destruct (in_boxb _ _ c); [apply Key; reflexivity|reflexivity].
    + change (- (1)) with (-1) in *. fold (ext r). destruct (in_boxb _ _ c); [apply Key; reflexivity|reflexivity].
Qed.

Lemma sync_locks n (A : world cell) : (n <= nd)%nat ->
  locks dims (fun r => psync (T r) n (A r)) (fun r => Ret (sync_dims dims (fun r => d_nwg (l_dec L0 r)) ng n A r)).
Proof.
  revert A. induction n as [|d IH]; intros A Hn.
  - apply locks_ret. reflexivity.
  - cbn [psync sync_dims].
    apply (locks_bind (v := sync_dims dims (fun r => d_nwg (l_dec L0 r)) ng d A)
             (k := fun r a => pbind (pexchange (T r) d 0 a) (pexchange (T r) d 1))); [apply IH; lia|].
    apply (locks_bind (v := ghost_sync dims (fun r => d_nwg (l_dec L0 r)) ng d 0 (sync_dims dims (fun r => d_nwg (l_dec L0 r)) ng d A))
             (k := fun r => pexchange (T r) d 1)); apply exchange_locks; lia.
Qed.

Lemma faces_ret (b : nat -> bcond) order (A : world cell) r :
  pfaces (T r) (fun f => Some (b f)) order (A r)
  = Ret (fold_left (bc_step dims (fun r => d_nwg (l_dec L0 r)) ng b) order A r).
Proof.
  revert A. induction order as [|f order IH]; intro A; [reflexivity|]. cbn [pfaces fold_left].
  rewrite <- IH. unfold bc_step. cbn [task_of j_dims j_r j_dec j_K].
  destruct (is_border dims r (Nat.div f 2) (Nat.modulo f 2)); reflexivity.
Qed.

Lemma boundary_locks (b : nat -> bcond) X (A : world cell) :
  locks dims (fun r => pboundary (T r) (fun f => Some (b f)) (A r)) (fun r => Ret (bcs_update (with_bcs K b) (relaid L0 X) A r)).
Proof.
  unfold pboundary. apply (locks_bind (v := sync_dims dims (fun r => d_nwg (l_dec L0 r)) ng nd A)
    (k := fun r => pfaces (T r) (fun f => Some (b f)) (k_order K))); [exact (sync_locks A (le_n nd))|].
  apply locks_ret. intros r Hr. apply faces_ret.
Qed.

(** Internal-mass gravity is not refused. *)
Hypothesis Hgrav : match k_grav K with GInternalMass _ => ii dims = 1 | _ => True end.

Lemma gravity_locks (b : nat -> bcond) X (A : world cell) :
  locks dims (fun r => pgravity (T r) (own_layout (T r) X) (A r))
    (fun r => Ret (gravity_values (with_bcs K b) (relaid L0 X) A r)).
Proof.
  unfold pgravity, gravity_values. cbn [task_of j_K with_bcs k_grav k_nd k_ng k_geom]. destruct (k_grav K) as [g|M|M].
  - apply locks_ret. reflexivity.
  - apply locks_ret. reflexivity.
  - cbn [task_of j_dims]. rewrite Hgrav, Z.eqb_refl.
    assert (Gd : forall (f : idx -> Z -> R), coll_good dims Horizontal OSum (fun r => MReals (ii (d_nloc (l_dec L0 r)) + ii (nghost_of nd ng)) (f r))).
    { intros f. split; [|discriminate]. intros r q Hr Hq. cbn [shape_of]. f_equal. f_equal.
      pose proof (group_in Hr Hq) as Hq'. 
      assert (E : ii q = ii r).
      { cbn [group] in Hq. unfold horizontal_ranks in Hq. apply in_box_cells in Hq. unfold in_box in Hq. cbn [ii jj kk] in Hq. lia. }
      change (ii (d_nloc (l_dec L0 q))) with (coord 0 (d_nloc (l_dec L0 q))).
      change (ii (d_nloc (l_dec L0 r))) with (coord 0 (d_nloc (l_dec L0 r))).
      rewrite (dec_nloc _ _ _ _ _ HD _ 0%nat (grid_vrank Hq') ltac:(lia)), (dec_nloc _ _ _ _ _ HD _ 0%nat (grid_vrank Hr) ltac:(lia)). cbn [coord]. now rewrite E. }
    set (vol := fun r c => dv (k_geom K) nd (l_mesh (relaid L0 X) r) c).
    set (shell := fun r (f : idx -> R) i => lsum f (shell_cells (d_nloc (l_dec L0 r)) (nghost_of nd ng) i)).
    eapply locks_coll with (m := fun r => MReals (ii (d_nloc (l_dec L0 r)) + ii (nghost_of nd ng)) (shell r (vol r)));
      [intros; reflexivity|apply Gd|]. cbv beta.
    eapply locks_coll with (m := fun r => MReals (ii (d_nloc (l_dec L0 r)) + ii (nghost_of nd ng)) (shell r (fun c => (c_rho (A r c) * vol r c)%R)));
      [intros; reflexivity|apply Gd|]. cbv beta.
    apply locks_ret. reflexivity.
Qed.

Lemma finish_locks (b : nat -> bcond) X (A : world cell) (rec : idx -> recon) (new : world cell) (St : idx -> pstate) :
  locks dims (fun r => pfinish (T r) (own_layout (T r) X) (A r) (rec r) (new r) (St r))
    (fun r => Ret (finish (with_bcs K b) (relaid L0 X) A rec new St r)).
Proof.
  unfold pfinish. apply (locks_bind (v := gravity_values (with_bcs K b) (relaid L0 X) A)
    (k := fun r g => Ret (mkState (A r) _ _ (rec r) (new r) g))); [apply gravity_locks|].
  apply locks_ret. reflexivity.
Qed.


Lemma init_locks X (St : idx -> pstate) :
  locks dims (fun r => pinit (T r) X (fun f => Some (k_bcs K f)) (St r)) (fun r => Ret (init_state K (relaid L0 X) St r)).
Proof.
  unfold pinit. apply (locks_bind (v := bcs_update K (relaid L0 X) (init_cons K (relaid L0 X) St))
    (k := fun r a => pfinish (T r) (own_layout (T r) X) a (s_rec (St r)) (s_new (St r)) (St r))).
  - pose proof (boundary_locks (k_bcs K) X (init_cons K (relaid L0 X) St)) as H. rewrite with_own_bcs in H. exact H.
  - pose proof (finish_locks (k_bcs K) X (bcs_update K (relaid L0 X) (init_cons K (relaid L0 X) St))
      (fun r => s_rec (St r)) (fun r => s_new (St r)) St) as H. rewrite with_own_bcs in H. exact H.
Qed.

Local Notation criterion_ok := (SpecMPI.criterion_ok sh L0).
Local Notation decision := (SpecMPI.decision K sh).

Lemma last_in : In (I3 (ii dims - 1) 0 0) (ranks dims).
Proof.
  unfold ranks. apply in_box_cells. unfold in_box. cbn [ii jj kk].
  pose proof (@dims_pos 0%nat ltac:(lia)). pose proof (@dims_pos 1%nat ltac:(lia)). pose proof (@dims_pos 2%nat ltac:(lia)).
  cbn [coord] in *. lia.
Qed.
Lemma zero_in : In (I3 0 0 0) (ranks dims).
Proof.
  unfold ranks. apply in_box_cells. unfold in_box. cbn [ii jj kk].
  pose proof (@dims_pos 0%nat ltac:(lia)). pose proof (@dims_pos 1%nat ltac:(lia)). pose proof (@dims_pos 2%nat ltac:(lia)).
  cbn [coord] in *. lia.
Qed.

Lemma criterion_locks X (A : world cell) : criterion_ok ->
  locks dims (fun r => pcriterion (T r) (own_layout (T r) X) (A r)) (fun _ => Ret (decision (relaid L0 X) A)).
Proof.
  unfold pcriterion, SpecMPI.decision, SpecMPI.criterion_ok. cbn [task_of j_shift]. destruct sh as [|cs vm]; intro Ok_.
  - apply locks_ret. reflexivity.
  - eapply locks_coll with (o := OBcast (I3 (ii dims - 1) 0 0)) (m := fun r => MBool (ii (d_nloc (l_dec L0 r)) <? cs)); [intros; reflexivity| |].
    { split; [reflexivity|]. intros root r E Hr. injection E as <-. cbn [group]. exact last_in. }
    cbv beta. cbn [combine bool_of task_of j_dims j_dec]. replace (_ <? cs) with false by (symmetry; apply Z.ltb_ge; exact Ok_).
    eapply locks_coll with (m := fun r => MReal (if ii r =? ii dims - 1
             then max_list (map (fun c => (c_rhou (A r c) 0%nat / c_rho (A r c))%R) (v1d_window K (relaid L0 X) cs r))
             else Some 0%R)); [intros; reflexivity| |].
    { split; [reflexivity|discriminate]. }
    apply locks_ret. intros r Hr. cbn [combine real_of]. f_equal. unfold v1d_decision, v1d_criterion.
    cbn [relaid l_dims l_dec]. replace (_ <? cs) with false by (symmetry; apply Z.ltb_ge; exact Ok_).
    unfold v1d_values. cbn [relaid l_dims]. rewrite max_flat.
    assert (E : forall l, fold_right (fun q acc => opt_max (if ii q =? ii dims - 1
             then max_list (map (fun c => (c_rhou (A q c) 0%nat / c_rho (A q c))%R) (v1d_window K (relaid L0 X) cs q))
             else Some 0%R) acc) None l
       = fold_right (fun q acc => opt_max (max_list (if ii q =? ii dims - 1
             then map (fun c => (c_rhou (A q c) 0%nat / c_rho (A q c))%R) (v1d_window K (relaid L0 X) cs q)
             else [0%R])) acc) None l).
    { induction l as [|a l IH]; [reflexivity|]. cbn [fold_right]. rewrite IH. destruct (ii a =? ii dims - 1); reflexivity. }
    cbn [group]. rewrite E. reflexivity.
Qed.
Lemma criterion_fails X (A : world cell) : ~ criterion_ok ->
  locks dims (fun r => pcriterion (T r) (own_layout (T r) X) (A r))
    (fun _ => Fail "The shift criterion is greater than the size of the last MPI process").
Proof.
  unfold pcriterion, SpecMPI.criterion_ok. cbn [task_of j_shift]. destruct sh as [|cs vm]; intro Ok_; [tauto|].
  eapply locks_coll with (o := OBcast (I3 (ii dims - 1) 0 0)) (m := fun r => MBool (ii (d_nloc (l_dec L0 r)) <? cs)); [intros; reflexivity| |].
  { split; [reflexivity|]. intros root r E Hr. injection E as <-. cbn [group]. exact last_in. }
  cbv beta. cbn [combine bool_of task_of j_dims j_dec]. replace (_ <? cs) with true by (symmetry; apply Z.ltb_lt; lia).
  apply locks_ret. reflexivity.
Qed.

Lemma step_locks t dt g : criterion_ok ->
  locks dims (fun r => pstep (T r) t dt (loc g r)) (fun r => Ret (loc (move_step K L0 Nx0 decision rmax t dt g) r)).
Proof.
  intro Hc. unfold pstep. cbn [loc ls_x ls_on ls_bcs ls_st].
  set (K1 := with_bcs K (v_bcs g)). set (L := relaid L0 (v_x g)).
  set (A := bcs_update K1 L (step_user K1 L t dt (v_st g))).
  apply (locks_bind (v := A) (k := fun r a => pbind (if v_on g then pcriterion (T r) (own_layout (T r) (v_x g)) a else Ret false) _)).
  { exact (boundary_locks (v_bcs g) (v_x g) (step_user K1 L t dt (v_st g))). }
  cbv beta.
  apply (locks_bind (v := fun _ => (v_on g && decision L A)%bool) (k := fun r shift => if shift then _ else _)).
  { destruct (v_on g); cbn [andb]; [exact (criterion_locks (v_x g) A Hc)|apply locks_ret; reflexivity]. }
  cbv beta. unfold move_step. fold K1 L A. destruct (v_on g && decision L A)%bool.
  - cbn [task_of j_rmax j_Nx0 j_K].
    destruct (rleb rmax (a_at (v_x g 0%nat) (Nx0 + ii (nghost_of nd ng) + 1))).
    + set (b := open_right (v_bcs g)). set (K2 := with_bcs K b). set (A2 := bcs_update K2 L A).
      assert (Eb : (fun f => if Nat.eqb f 1 then Some NullGradient else Some (v_bcs g f)) = (fun f => Some (b f))).
      { apply functional_extensionality. intro f. unfold b, open_right. destruct (Nat.eqb f 1); reflexivity. }
      rewrite Eb.
      apply (locks_bind (v := A2) (k := fun r a2 => pbind (pgravity (T r) (own_layout (T r) (v_x g)) a2) _)).
      { exact (boundary_locks b (v_x g) A). }
      apply (locks_bind (v := gravity_values K2 L A2) (k := fun r _ => pbind (pfinish (T r) _ (A2 r) _ (A2 r) (v_st g r)) _)).
      { exact (gravity_locks b (v_x g) A2). }
      apply (locks_bind (v := finish K2 L A2 (step_rec K1 L dt (v_st g)) A2 (v_st g))
               (k := fun r st' => Ret (mkLS (v_x g) false (fun f => Some (b f)) st'))).
      { exact (finish_locks b (v_x g) A2 (step_rec K1 L dt (v_st g)) A2 (v_st g)). }
      apply locks_ret. reflexivity.
    + set (X2 := match shift_mesh (v_x g) with Ok x => x | _ => v_x g end).
      set (L2 := relaid L0 X2).
      set (A2 := bcs_update K1 L2 (fun r => shift_array (d_nwg (l_dec L0 r)) (A r) (A r))).
      apply (locks_bind (v := A2) (k := fun r a2 => pbind (pgravity (T r) (own_layout (T r) X2) a2) _)).
      { exact (boundary_locks (v_bcs g) X2 (fun r => shift_array (d_nwg (l_dec L0 r)) (A r) (A r))). }
      apply (locks_bind (v := gravity_values K1 L2 A2) (k := fun r _ => pbind (pfinish (T r) _ (A2 r) _ (A2 r) (v_st g r)) _)).
      { exact (gravity_locks (v_bcs g) X2 A2). }
      apply (locks_bind (v := finish K1 L2 A2 (step_rec K1 L dt (v_st g)) A2 (v_st g))
               (k := fun r st' => Ret (mkLS X2 (v_on g) (fun f => Some (v_bcs g f)) st'))).
      { exact (finish_locks (v_bcs g) X2 A2 (step_rec K1 L dt (v_st g)) A2 (v_st g)). }
      apply locks_ret. reflexivity.
  - apply (locks_bind (v := finish K1 L A (step_rec K1 L dt (v_st g)) A (v_st g))
             (k := fun r st' => Ret (mkLS (v_x g) (v_on g) (fun f => Some (v_bcs g f)) st'))).
    { exact (finish_locks (v_bcs g) (v_x g) A (step_rec K1 L dt (v_st g)) A (v_st g)). }
    apply locks_ret. reflexivity.
Qed.

Lemma step_fails t dt g : ~ criterion_ok -> v_on g = true ->
  locks dims (fun r => pstep (T r) t dt (loc g r))
    (fun _ => Fail "The shift criterion is greater than the size of the last MPI process").
Proof.
  intros Hc Hon. unfold pstep. cbn [loc ls_x ls_on ls_bcs ls_st]. rewrite Hon.
  set (K1 := with_bcs K (v_bcs g)). set (L := relaid L0 (v_x g)).
  set (A := bcs_update K1 L (step_user K1 L t dt (v_st g))).
  apply (locks_bind (v := A) (k := fun r a => pbind (pcriterion (T r) (own_layout (T r) (v_x g)) a) _)).
  { exact (boundary_locks (v_bcs g) (v_x g) (step_user K1 L t dt (v_st g))). }
  cbv beta. eapply locks_bind_fail. exact (criterion_fails (v_x g) A Hc).
Qed.

Lemma dt_locks g : locks dims (fun r => pdt (T r) (loc g r))
  (fun _ => Ret (y_dt (hydro K (relaid L0 (v_x g)) cfl) (v_st g))).
Proof.
  unfold pdt. set (L := relaid L0 (v_x g)).
  eapply locks_coll with (m := fun r => MReal (max_list (map (cell_inverse_dt K L (v_st g) r) (sel_cells K L ng r)))); [intros; reflexivity| |].
  { split; [reflexivity|discriminate]. }
  apply locks_ret. intros r Hr. cbn [combine real_of group hydro y_dt task_of j_cfl]. unfold time_step, all_values. cbn [relaid l_dims L].
  change (l_dims L) with dims. rewrite max_flat. destruct (fold_right _ _ _); reflexivity.
Qed.

Lemma bad_locks g : locks dims (fun r => pbad (T r) (loc g r))
  (fun _ => Ret (y_bad (hydro K (relaid L0 (v_x g)) cfl) (v_st g))).
Proof.
  unfold pbad. set (L := relaid L0 (v_x g)).
  eapply locks_coll with (m := fun r => MReal (min_list (map (cell_internal K (v_st g) r) (sel_cells K L 0 r)))); [intros; reflexivity| |].
  { split; [reflexivity|discriminate]. }
  apply locks_ret. intros r Hr. cbn [combine real_of group hydro y_bad]. unfold minimum_internal_energy, all_values.
  change (l_dims L) with dims. rewrite min_flat. reflexivity.
Qed.

Lemma mass_locks g : locks dims (fun r => pmass (T r) (loc g r))
  (fun _ => Ret (integrate K (relaid L0 (v_x g)) (fun r c => c_rho (s_cell (v_st g r) c)))).
Proof.
  unfold pmass. set (L := relaid L0 (v_x g)).
  eapply locks_coll with (m := fun r => MReals 1 (fun _ =>
    lsum (fun c => (c_rho (s_cell (v_st g r) c) * dv (k_geom K) nd (l_mesh L r) c)%R) (sel_cells K L 0 r))); [intros; reflexivity| |].
  { split; [reflexivity|discriminate]. }
  apply locks_ret. reflexivity.
Qed.

Lemma access_locks {B : Type} n (W F : idx -> prog B) : locks dims W F -> locks dims (fun r => paccess n (W r)) F.
Proof.
  intro H. induction n as [|n IH]; [exact H|]. cbn [paccess].
  eapply locks_coll with (m := fun _ => MNone); [intros; reflexivity|split; [reflexivity|discriminate]|]. exact IH.
Qed.
Lemma write_locks {B : Type} (W F : idx -> prog B) : locks dims W F -> locks dims (fun r => pwrite (T r) (W r)) F.
Proof. intro H. exact (access_locks (Datatypes.S (Z.to_nat nfx)) H). Qed.
Lemma barrier_locks {B : Type} (W F : idx -> prog B) : locks dims W F ->
  locks dims (fun r => Call (Collective World OBarrier MNone) (fun _ => W r)) F.
Proof.
  intro H. eapply locks_coll with (m := fun _ => MNone) (k := fun r _ => W r); [intros; reflexivity|split; [reflexivity|discriminate]|]. exact H.
Qed.

(** ** The loop *)
Local Notation dyn := (moving K L0 Nx0 decision rmax cfl).
Local Notation clk := (clock (I3 0 0 0)).
Local Notation the_end := (SpecMPI.the_end K cfl p sh rmax Nx0 L0 clock).
Local Notation missing := (SpecMPI.missing K L0).

Lemma write_loc m r : write (mloc m r) = mloc (write m) r.
Proof. unfold write, mloc. cbn. rewrite map_app. reflexivity. Qed.
Lemma output_loc m r : output (mloc m r) = mloc (output m) r.
Proof. unfold output. rewrite <- write_loc. reflexivity. Qed.
Lemma fresh_loc g r : fresh p (loc g r) = mloc (fresh p g) r.
Proof. unfold fresh. destruct (_ || _)%bool; [rewrite <- output_loc|]; reflexivity. Qed.

(** What the lock-step body needs of the step: [Some w] when the step throws. *)
Definition body_end (err : option string) (m : mstate gstate) (W : idx -> prog (mstate lstate * verdict)) : Prop :=
  let (m', v) := body dyn p clk m in
  (locks dims W (fun r => Ret (mloc m' r, v)) /\ (err = None \/ v <> Going)) \/
  (exists w, err = Some w /\ locks dims W (fun _ => Fail w)).

Lemma pbody_unfold m r : pbody (T r) (mloc m r) =
  if negb (int32 (m_iter m + 1)) then Ret (mloc m r, Undefined "signed overflow: iter + 1") else
  pbind (pdt (T r) (loc (m_st m) r)) (fun dt0 =>
  match iter_schedule p m with
  | Throw w => Ret (mloc m r, Failed w)
  | UB w => Ret (mloc m r, Undefined w)
  | Ok (out1, iid) =>
      match time_schedule p m dt0 with
      | Throw w => Ret (mloc m r, Failed w)
      | UB w => Ret (mloc m r, Undefined w)
      | Ok (out2, tid, dt2) =>
          let (stop1, dt) := clip_to_end p (m_t m) dt2 in
          Call (Collective World (OBcast (I3 0 0 0)) (MBool (clock r (m_iter m)))) (fun save_and_exit =>
          let stop := stop1 || (p_max_iter p <=? m_iter m + 1) || bool_of save_and_exit in
          let m1 := mkM (m_oid m) iid tid (m_iter m) (m_t m) (m_record m) (m_st m) (m_files m) in
          pbind (pbad (T r) (loc (m_st m) r)) (fun bad =>
          if bad then
            pwrite (T r) (Ret (write (next_id (mloc m1 r)), Failed "detected invalid volumic internal energy"))
          else
            pbind (pstep (T r) (m_t m) dt (loc (m_st m) r)) (fun st =>
            let m2 := mkM (m_oid m1) iid tid (m_iter m + 1) (m_t m + dt)%R (m_record m1) st (map (floc r) (m_files m1)) in
            let v := if stop then Finished else Going in
            if out1 || out2 || stop then pwrite (T r) (Ret (output m2, v)) else Ret (m2, v))))
      end
  end).
Proof. reflexivity. Qed.

Lemma body_locks (err : option string) m :
  (forall t dt, match err with
                | None => locks dims (fun r => pstep (T r) t dt (loc (m_st m) r)) (fun r => Ret (loc (move_step K L0 Nx0 decision rmax t dt (m_st m)) r))
                | Some w => locks dims (fun r => pstep (T r) t dt (loc (m_st m) r)) (fun _ => Fail w)
                end) ->
  body_end err m (fun r => pbody (T r) (mloc m r)).
Proof.
  intro Hs. unfold body_end.
  assert (Go : forall W', (forall r, In r (ranks dims) -> W' r = pbody (T r) (mloc m r)) -> body_end err m W' ->
               body_end err m (fun r => pbody (T r) (mloc m r))).
  { intros W' E H. unfold body_end in *. destruct (body dyn p clk m) as [m' v].
    destruct H as [[H Hv]|[w [Ew H]]]; [left; split; [|exact Hv]|right; exists w; split; [exact Ew|]]; exact (locks_ext E H). }
  eapply Go; [intros r Hr; symmetry; apply pbody_unfold|]. clear Go. unfold body_end, body.
  destruct (negb (int32 (m_iter m + 1))).
  { left. split; [|right; discriminate]. apply locks_ret. reflexivity. }
  pose proof (dt_locks (m_st m)) as Hdt. change (y_dt (hydro K (relaid L0 (v_x (m_st m))) cfl) (v_st (m_st m))) with (y_dt dyn (m_st m)) in Hdt.
  set (dt0 := y_dt dyn (m_st m)) in *.
  destruct (iter_schedule p m) as [[out1 iid]|w|w].
  2:{ left. split; [|right; discriminate]. apply (locks_bind (v := fun _ => dt0) (k := fun r _ => Ret _)); [exact Hdt|]. apply locks_ret. reflexivity. }
  2:{ left. split; [|right; discriminate]. apply (locks_bind (v := fun _ => dt0) (k := fun r _ => Ret _)); [exact Hdt|]. apply locks_ret. reflexivity. }
  destruct (time_schedule p m dt0) as [[[out2 tid] dt2]|w|w] eqn:Et.
  2:{ left. split; [|right; discriminate]. eapply (locks_bind (v := fun _ => dt0)); [exact Hdt|]. cbv beta. rewrite Et. apply locks_ret. reflexivity. }
  2:{ left. split; [|right; discriminate]. eapply (locks_bind (v := fun _ => dt0)); [exact Hdt|]. cbv beta. rewrite Et. apply locks_ret. reflexivity. }
  destruct (clip_to_end p (m_t m) dt2) as [stop1 dt] eqn:Ecl.
  set (stop := (stop1 || (p_max_iter p <=? m_iter m + 1) || clk (m_iter m))%bool).
  set (m1 := mkM (m_oid m) iid tid (m_iter m) (m_t m) (m_record m) (m_st m) (m_files m)).
  set (tail := fun (r : idx) (stop : bool) => pbind (pbad (T r) (loc (m_st m) r)) (fun bad =>
          if bad then
            pwrite (T r) (Ret (write (next_id (mloc m1 r)), Failed "detected invalid volumic internal energy"))
          else
            pbind (pstep (T r) (m_t m) dt (loc (m_st m) r)) (fun st =>
            let m2 := mkM (m_oid m1) iid tid (m_iter m + 1) (m_t m + dt)%R (m_record m1) st (map (floc r) (m_files m1)) in
            let v := if stop then Finished else Going in
            if out1 || out2 || stop then pwrite (T r) (Ret (output m2, v)) else Ret (m2, v)))).
  assert (Tl : forall F, locks dims (fun r => tail r stop) F -> locks dims
     (fun r => pbind (pdt (T r) (loc (m_st m) r)) (fun dt0 =>
      match time_schedule p m dt0 with
      | Throw w => Ret (mloc m r, Failed w)
      | UB w => Ret (mloc m r, Undefined w)
      | Ok (out2, tid, dt2) =>
          let (stop1, dt) := clip_to_end p (m_t m) dt2 in
          Call (Collective World (OBcast (I3 0 0 0)) (MBool (clock r (m_iter m)))) (fun save_and_exit =>
          let stop := stop1 || (p_max_iter p <=? m_iter m + 1) || bool_of save_and_exit in
          let m1 := mkM (m_oid m) iid tid (m_iter m) (m_t m) (m_record m) (m_st m) (m_files m) in
          pbind (pbad (T r) (loc (m_st m) r)) (fun bad =>
          if bad then
            pwrite (T r) (Ret (write (next_id (mloc m1 r)), Failed "detected invalid volumic internal energy"))
          else
            pbind (pstep (T r) (m_t m) dt (loc (m_st m) r)) (fun st =>
            let m2 := mkM (m_oid m1) iid tid (m_iter m + 1) (m_t m + dt)%R (m_record m1) st (map (floc r) (m_files m1)) in
            let v := if stop then Finished else Going in
            if out1 || out2 || stop then pwrite (T r) (Ret (output m2, v)) else Ret (m2, v))))
      end)) F).
  { intros F H. eapply (locks_bind (v := fun _ => dt0)); [exact Hdt|]. cbv beta. rewrite Et, Ecl.
    eapply locks_coll with (m := fun r => MBool (clock r (m_iter m))); [intros; reflexivity| |].
    { split; [reflexivity|]. intros root r E Hr. injection E as <-. exact zero_in. }
    exact H. }
  pose proof (bad_locks (m_st m)) as Hb. change (y_bad (hydro K (relaid L0 (v_x (m_st m))) cfl) (v_st (m_st m))) with (y_bad dyn (m_st m)) in Hb.
  destruct (y_bad dyn (m_st m)).
  - left. split; [|right; discriminate]. apply Tl. unfold tail. eapply (locks_bind (v := fun _ => true)); [exact Hb|]. cbv beta.
    apply write_locks. apply locks_ret. intros r Hr. f_equal. f_equal. rewrite <- write_loc. reflexivity.
  - specialize (Hs (m_t m) dt). destruct err as [w|].
    + right. exists w. split; [reflexivity|]. apply Tl. unfold tail. eapply (locks_bind (v := fun _ => false)); [exact Hb|]. cbv beta.
      eapply locks_bind_fail. exact Hs.
    + left. split; [|left; reflexivity]. apply Tl. unfold tail. eapply (locks_bind (v := fun _ => false)); [exact Hb|]. cbv beta.
      eapply locks_bind; [exact Hs|]. cbv beta zeta. change (y_step dyn) with (move_step K L0 Nx0 decision rmax).
      fold stop. destruct (out1 || out2 || stop)%bool.
      * apply write_locks. apply locks_ret. intros r Hr. rewrite <- output_loc. reflexivity.
      * apply locks_ret. reflexivity.
Qed.

Lemma loop_locks n m : criterion_ok ->
  locks dims (fun r => ploop (T r) n (mloc m r)) (fun r => Ret (mloc (fst (loop dyn p clk n m)) r, snd (loop dyn p clk n m))).
Proof.
  intro Hc. revert m. induction n as [|n IH]; intro m; [apply locks_ret; reflexivity|]. cbn [ploop loop].
  pose proof (@body_locks None m (fun t dt => step_locks t dt (m_st m) Hc)) as Hb. unfold body_end in Hb.
  destruct (body dyn p clk m) as [m' v]. destruct Hb as [[Hb _]|[w [E _]]]; [|discriminate].
  eapply locks_bind; [exact Hb|]. cbv beta. destruct v; cbn [fst snd]; [apply IH| | |]; apply locks_ret; reflexivity.
Qed.

Lemma run_locks n X (St : idx -> pstate) : criterion_ok ->
  locks dims (fun r => prun (T r) n X (fun f => Some (k_bcs K f)) (St r))
    (fun r => Ret (mloc (fst (the_end n X St)) r, snd (the_end n X St))).
Proof.
  intro Hc. unfold prun.
  eapply locks_bind; [exact (init_locks X St)|]. cbv beta.
  set (g := move_init K L0 X St).
  assert (Tl : locks dims (fun r => pbind (pmass (T r) (loc g r)) (fun _ =>
     Call (Collective World OBarrier MNone) (fun _ =>
     pbind (ploop (T r) n (fresh p (loc g r))) (fun mv =>
     match mv with
     | (m, Finished) =>
         Call (Collective World OBarrier MNone) (fun _ => pbind (pmass (T r) (m_st m)) (fun _ => Ret mv))
     | _ => Ret mv
     end)))) (fun r => Ret (mloc (fst (the_end n X St)) r, snd (the_end n X St)))).
  { eapply locks_bind; [exact (mass_locks g)|]. cbv beta. apply barrier_locks.
    eapply locks_bind.
    - eapply locks_ext; [|exact (loop_locks n (fresh p g) Hc)]. intros r Hr. cbv beta. now rewrite fresh_loc.
    - cbv beta. unfold SpecMPI.the_end. fold g. destruct (loop dyn p clk n (fresh p g)) as [m v]. cbn [fst snd].
      destruct v; try (apply locks_ret; reflexivity).
      apply (barrier_locks (W := fun r => pbind (pmass (T r) (m_st (mloc m r))) (fun _ => Ret (mloc m r, Finished)))).
      eapply locks_bind; [exact (mass_locks (m_st m))|]. apply locks_ret. reflexivity. }
  cbn [task_of j_p]. destruct ((0 <? p_iter_freq p) || rltb 0 (p_time_freq p))%bool.
  - apply write_locks. exact Tl.
  - exact Tl.
Qed.

(** With a refused shift criterion: the run is over before the first shift, or all processes throw. *)
Lemma run_locks_refused n X (St : idx -> pstate) : ~ criterion_ok ->
  (exists m v, locks dims (fun r => prun (T r) n X (fun f => Some (k_bcs K f)) (St r)) (fun r => Ret (mloc m r, v))) \/
  locks dims (fun r => prun (T r) n X (fun f => Some (k_bcs K f)) (St r))
    (fun _ => Fail "The shift criterion is greater than the size of the last MPI process").
Proof.
  intro Hc. set (w := "The shift criterion is greater than the size of the last MPI process").
  set (g := move_init K L0 X St).
  set (rest := fun r => pbind (ploop (T r) n (fresh p (loc g r))) (fun mv =>
     match mv with
     | (m, Finished) =>
         Call (Collective World OBarrier MNone) (fun _ => pbind (pmass (T r) (m_st m)) (fun _ => Ret mv))
     | _ => Ret mv
     end)).
  assert (Pre : forall F, locks dims rest F -> locks dims (fun r => prun (T r) n X (fun f => Some (k_bcs K f)) (St r)) F).
  { intros F H. unfold prun. eapply locks_bind; [exact (init_locks X St)|]. cbv beta.
    assert (Tl : locks dims (fun r => pbind (pmass (T r) (loc g r)) (fun _ => Call (Collective World OBarrier MNone) (fun _ => rest r))) F).
    { eapply locks_bind; [exact (mass_locks g)|]. cbv beta. apply barrier_locks. exact H. }
    cbn [task_of j_p]. destruct ((0 <? p_iter_freq p) || rltb 0 (p_time_freq p))%bool.
    - apply write_locks. exact Tl.
    - exact Tl. }
  assert (Ex : forall m, v_on (m_st m) = true ->
    (exists m' v, locks dims (fun r => ploop (T r) n (mloc m r)) (fun r => Ret (mloc m' r, v))) \/
    locks dims (fun r => ploop (T r) n (mloc m r)) (fun _ => Fail w)).
  { destruct n as [|n']; intros m On.
    - left. exists m, Going. apply locks_ret. reflexivity.
    - cbn [ploop]. pose proof (@body_locks (Some w) m (fun t dt => step_fails t dt Hc On)) as Hb. unfold body_end in Hb.
      destruct (body dyn p clk m) as [m' v] eqn:Eb. destruct Hb as [[Hb [E|Nv]]|[w' [E Hb]]]; [discriminate| |].
      + left. exists m', v. eapply locks_bind; [exact Hb|]. cbv beta. destruct v; try congruence; apply locks_ret; reflexivity.
      + right. injection E as <-. eapply locks_bind_fail. exact Hb. }
  assert (Fr : forall F, locks dims (fun r => ploop (T r) n (mloc (fresh p g) r)) F -> locks dims (fun r => ploop (T r) n (fresh p (loc g r))) F).
  { intros F H. eapply locks_ext; [|exact H]. intros r Hr. cbv beta. now rewrite fresh_loc. }
  destruct (Ex (fresh p g)) as [[m' [v H]]|H].
  { unfold fresh. destruct (_ || _)%bool; reflexivity. }
  - left. exists m', v. apply Pre. unfold rest. eapply locks_bind; [exact (Fr _ H)|]. cbv beta.
    destruct v; try (apply locks_ret; reflexivity).
    apply (barrier_locks (W := fun r => pbind (pmass (T r) (m_st (mloc m' r))) (fun _ => Ret (mloc m' r, Finished)))).
    eapply locks_bind; [exact (mass_locks (m_st m'))|]. apply locks_ret. reflexivity.
  - right. apply Pre. unfold rest. eapply locks_bind_fail. exact (Fr _ H).
Qed.
(** ** Refused gravity *)
Lemma run_locks_gravity M n X (St : idx -> pstate) : k_grav K = GInternalMass M -> ii dims <> 1 ->
  locks dims (fun r => prun (T r) n X (fun f => Some (k_bcs K f)) (St r))
    (fun _ => Fail "The function make_internal_mass_gravity does not handle more than 1 MPI process in the first dimension").
Proof.
  intros Hg Hn. unfold prun. eapply locks_bind_fail. unfold pinit.
  apply (locks_bind (v := bcs_update K (relaid L0 X) (init_cons K (relaid L0 X) St))
    (k := fun r a => pfinish (T r) (own_layout (T r) X) a (s_rec (St r)) (s_new (St r)) (St r))).
  - pose proof (boundary_locks (k_bcs K) X (init_cons K (relaid L0 X) St)) as H. rewrite with_own_bcs in H. exact H.
  - apply locks_ret. intros r Hr. unfold pfinish, pgravity. cbn [task_of j_K j_dims]. rewrite Hg.
    replace (ii dims =? 1) with false by (symmetry; now apply Z.eqb_neq). reflexivity.
Qed.

(** ** Missing boundary conditions *)
Lemma faces_missing bcs order a r :
  existsb (fun f => is_border dims r (Nat.div f 2) (Nat.modulo f 2) && match bcs f with None => true | Some _ => false end) order = true ->
  pfaces (T r) bcs order a = Fail "Boundary setup not implemented".
Proof.
  revert a. induction order as [|f order IH]; intros a H; [discriminate|]. cbn [existsb pfaces] in *. cbn [task_of j_dims j_r j_dec j_K].
  destruct (is_border dims r (Nat.div f 2) (Nat.modulo f 2)); cbn [andb] in H.
  - destruct (bcs f); [apply IH; exact H|reflexivity].
  - apply IH. exact H.
Qed.
Lemma faces_present bcs order a r :
  existsb (fun f => is_border dims r (Nat.div f 2) (Nat.modulo f 2) && match bcs f with None => true | Some _ => false end) order = false ->
  exists a', pfaces (T r) bcs order a = Ret a'.
Proof.
  revert a. induction order as [|f order IH]; intros a H; [exists a; reflexivity|]. cbn [existsb pfaces] in *. cbn [task_of j_dims j_r j_dec j_K].
  destruct (is_border dims r (Nat.div f 2) (Nat.modulo f 2)); cbn [andb] in H.
  - destruct (bcs f); [apply IH; exact H|discriminate].
  - apply IH. exact H.
Qed.

Lemma pbind_assoc {B C D : Type} (q : prog B) (f : B -> prog C) (h : C -> prog D) : pbind (pbind q f) h = pbind q (fun a => pbind (f a) h).
Proof.
  induction q as [a|w|c k IH]; [reflexivity|reflexivity|]. cbn [pbind]. f_equal. apply functional_extensionality. exact IH.
Qed.

Lemma run_locks_missing n X bcs (St : idx -> pstate) : (forall M, k_grav K <> GInternalMass M) ->
  exists F, locks dims (fun r => prun (T r) n X bcs (St r)) F /\
    forall r, In r (ranks dims) ->
      if missing bcs r then F r = Fail "Boundary setup not implemented"
      else exists o m k, F r = Call (Collective World o m) k /\ forall root, o <> OBcast root.
Proof.
  intro Hg. set (A := sync_dims dims (fun r => d_nwg (l_dec L0 r)) ng nd (init_cons K (relaid L0 X) St)).
  set (rest := fun r st0 =>
     let g := mkLS X true bcs st0 in
     (if ((0 <? p_iter_freq p) || rltb 0 (p_time_freq p))%bool then pwrite (T r) else fun k => k) (
      pbind (pmass (T r) g) (fun _ =>
      Call (Collective World OBarrier MNone) (fun _ =>
      pbind (ploop (T r) n (fresh p g)) (fun mv =>
      match mv with
      | (m, Finished) =>
          Call (Collective World OBarrier MNone) (fun _ => pbind (pmass (T r) (m_st m)) (fun _ => Ret mv))
      | _ => Ret mv
      end))))).
  exists (fun r => pbind (pfaces (T r) bcs (k_order K) (A r)) (fun a =>
                   pbind (pfinish (T r) (own_layout (T r) X) a (s_rec (St r)) (s_new (St r)) (St r)) (rest r))). split.
  - eapply locks_ext with (W := fun r => pbind (psync (T r) nd (init_cons K (relaid L0 X) St r)) (fun a => pbind (pfaces (T r) bcs (k_order K) a) (fun a =>
                   pbind (pfinish (T r) (own_layout (T r) X) a (s_rec (St r)) (s_new (St r)) (St r)) (rest r)))).
    + intros r Hr. unfold prun, pinit, pboundary. rewrite !pbind_assoc.
      f_equal. apply functional_extensionality. intro a. f_equal. apply functional_extensionality. intro a'.
      f_equal. apply functional_extensionality. intro st0. unfold rest. cbv zeta. cbn [task_of j_p].
      destruct ((0 <? p_iter_freq p) || rltb 0 (p_time_freq p))%bool; reflexivity.
    + eapply locks_bind; [exact (sync_locks (init_cons K (relaid L0 X) St) (le_n nd))|]. apply locks_ret. reflexivity.
  - intros r Hr. unfold SpecMPI.missing. destruct (existsb _ (k_order K)) eqn:E.
    + rewrite (faces_missing (A r) E). reflexivity.
    + destruct (faces_present (A r) E) as [a' ->]. cbn [pbind].
      assert (Gr : exists g, pgravity (T r) (own_layout (T r) X) a' = Ret g).
      { unfold pgravity. cbn [task_of j_K]. destruct (k_grav K) as [g|M|M] eqn:Eg; [eexists; reflexivity|eexists; reflexivity|].
        exfalso. exact (Hg M eq_refl). }
      destruct Gr as [gg Eg]. unfold pfinish. rewrite Eg. cbn [pbind]. unfold rest. cbv zeta.
      destruct ((0 <? p_iter_freq p) || rltb 0 (p_time_freq p))%bool.
      * unfold pwrite. cbn [paccess]. eexists. eexists. eexists. split; [reflexivity|]. discriminate.
      * unfold pmass. cbn [pbind]. eexists. eexists. eexists. split; [reflexivity|]. discriminate.
Qed.

Lemma run_deadlock n X bcs (St : idx -> pstate) r1 r2 : (forall M, k_grav K <> GInternalMass M) ->
  In r1 (ranks dims) -> In r2 (ranks dims) -> missing bcs r1 = true -> missing bcs r2 = false ->
  exists s, reaches dims (start (fun r => prun (T r) n X bcs (St r))) s /\ stuck dims s.
Proof.
  intros Hg H1 H2 M1 M2. destruct (run_locks_missing n X bcs St Hg) as [F [[l HF] HC]].
  pose proof (HC r1 H1) as C1. rewrite M1 in C1. pose proof (HC r2 H2) as C2. rewrite M2 in C2.
  apply (deadlock HF (b := r1) (q0 := r2)); trivial.
  - rewrite C1. exact I.
  - destruct C2 as [o [m [k [-> _]]]]. tauto.
  - intros q Hq. specialize (HC q Hq). destruct (missing bcs q); [left; rewrite HC; exact I|right; exact HC].
Qed.
End Run.

(** ** Forms used by PropMPI.v *)
Section Forms.
Variables (K : config) (nfx : Z) (cfl : R) (p : params) (sh : shift_kind) (rmax : R) (Nx0 : Z) (N dims0 : idx)
  (X : nat -> arr1) (L0 : layout) (clock : idx -> Z -> bool) (n : nat) (St : idx -> pstate).
Hypothesis HL : launched K nfx N dims0 X L0.
Local Notation dims := (l_dims L0).
Local Notation W := (processes K nfx cfl p sh rmax Nx0 L0 clock n X (fun f => Some (k_bcs K f)) St).
Local Notation the_end := (SpecMPI.the_end K cfl p sh rmax Nx0 L0 clock n X St).

Lemma grav_dims : gravity_ok K dims0 -> match k_grav K with GInternalMass _ => ii dims = 1 | _ => True end.
Proof. unfold gravity_ok. destruct (k_grav K); trivial. rewrite (lo_dims (la_layout HL)). intro H. exact H. Qed.

Lemma full_locks : gravity_ok K dims0 -> criterion_ok sh L0 -> locks dims W (fun r => Ret (mloc (fst the_end) r, snd the_end)).
Proof.
  intros Hg Hc. exact (run_locks (nfx := nfx) cfl p rmax Nx0 clock (lo_dec (la_layout HL)) (lo_dims (la_layout HL))
    (la_size HL) (grav_dims Hg) n X St Hc).
Qed.

Lemma any_locks : exists F, locks dims W F /\
  ((exists m v, forall r, F r = Ret (mloc m r, v)) \/ (exists w, forall r, F r = Fail w)).
Proof.
  assert (Dg : gravity_ok K dims0 \/ exists M, k_grav K = GInternalMass M /\ ii dims <> 1).
  { unfold gravity_ok. destruct (k_grav K) as [g|M|M]; [left; exact I|left; exact I|].
    rewrite (lo_dims (la_layout HL)). cbn [coord]. destruct (Z.eq_dec (ii (mpi_dims (k_nd K) dims0)) 1); [now left|right; now exists M]. }
  destruct Dg as [Hg|[M [Eg Hd]]].
  - assert (Dc : criterion_ok sh L0 \/ ~ criterion_ok sh L0) by (unfold criterion_ok; destruct sh; [left; exact I|lia]).
    destruct Dc as [Hc|Hc].
    + eexists. split; [exact (full_locks Hg Hc)|]. left. eexists. eexists. intro r. reflexivity.
    + destruct (run_locks_refused (nfx := nfx) cfl p rmax Nx0 clock (lo_dec (la_layout HL)) (lo_dims (la_layout HL))
        (la_size HL) (grav_dims Hg) n X St Hc) as [[m [v H]]|H].
      * eexists. split; [exact H|]. left. exists m, v. reflexivity.
      * eexists. split; [exact H|]. right. eexists. reflexivity.
  - eexists. split; [exact (run_locks_gravity (nfx := nfx) cfl p sh rmax Nx0 clock (lo_dec (la_layout HL)) (lo_dims (la_layout HL))
      (la_size HL) n X St Eg Hd)|]. right. eexists. reflexivity.
Qed.
Lemma any_final (F : idx -> prog (mstate lstate * verdict)) : ((exists m v, forall r, F r = Ret (mloc m r, v)) \/ (exists w, forall r, F r = Fail w)) ->
  forall r, In r (ranks dims) -> final (F r).
Proof. intros [[m [v H]]|[w H]] r _; rewrite H; exact I. Qed.

Lemma no_deadlock s : reaches dims (start W) s -> all_ended dims s \/ exists s', strict_step dims s s' /\ step dims s s'.
Proof. intros [k H]. destruct any_locks as [F [[l HF] C]]. exact (progress HF (any_final C) H). Qed.

Lemma executions_end : exists B, (forall k s, steps dims k (start W) s -> (k <= B)%nat) /\
  forall s, reaches dims (start W) s -> exists s', reaches dims s s' /\ all_ended dims s'.
Proof.
  destruct any_locks as [F [[l HF] C]]. exists (2 * List.length l * List.length (ranks dims))%nat. split.
  - intros k s H. exact (steps_bounded HF (any_final C) H).
  - intros s [k H]. exact (complete HF (any_final C) H).
Qed.

Lemma calls_match s : reaches dims (start W) s -> ~ has_clash dims s.
Proof. intros [k H]. destruct any_locks as [F [[l HF] C]]. exact (no_clash HF (any_final C) H). Qed.

Lemma any_schedule s r : gravity_ok K dims0 -> criterion_ok sh L0 -> reaches dims (start W) s -> In r (ranks dims) ->
  ended (s r) -> pc (s r) = Ret (mloc (fst the_end) r, snd the_end).
Proof.
  intros Hg Hc [k H] Hr E. destruct (full_locks Hg Hc) as [l HF].
  exact (same_end HF (fun r _ => I : final (Ret (mloc (fst the_end) r, snd the_end))) H Hr E).
Qed.

Lemma unanimous : (exists m v, forall s r, reaches dims (start W) s -> In r (ranks dims) -> ended (s r) -> pc (s r) = Ret (mloc m r, v)) \/
  (exists w, forall s r, reaches dims (start W) s -> In r (ranks dims) -> ended (s r) -> pc (s r) = Fail w).
Proof.
  destruct any_locks as [F [[l HF] C]]. pose proof (any_final C) as Fi. destruct C as [[m [v C]]|[w C]].
  - left. exists m, v. intros s r [k H] Hr E. rewrite <- (C r). exact (same_end HF Fi H Hr E).
  - right. exists w. intros s r [k H] Hr E. rewrite <- (C r). exact (same_end HF Fi H Hr E).
Qed.
End Forms.

Lemma boundary_deadlock K nfx cfl p sh rmax Nx0 N dims0 X L0 clock n bcs St r1 r2 : launched K nfx N dims0 X L0 ->
  (forall M, k_grav K <> GInternalMass M) -> In r1 (ranks (l_dims L0)) -> In r2 (ranks (l_dims L0)) ->
  missing K L0 bcs r1 = true -> missing K L0 bcs r2 = false ->
  exists s, reaches (l_dims L0) (start (processes K nfx cfl p sh rmax Nx0 L0 clock n X bcs St)) s /\ stuck (l_dims L0) s.
Proof.
  intros HL Hg H1 H2 M1 M2.
  assert (G : match k_grav K with GInternalMass _ => ii (l_dims L0) = 1 | _ => True end).
  { destruct (k_grav K) as [g|M|M]; trivial. destruct (Hg M eq_refl). }
  exact (run_deadlock (nfx := nfx) cfl p sh rmax Nx0 clock (lo_dec (la_layout HL)) (lo_dims (la_layout HL)) (la_size HL)
    G n X St Hg H1 H2 M1 M2).
Qed.
