(** * Example runs for the theorems about the time loop, and the check of the internal energy (C45). *)
From Coq Require Import Sorted Lra FunctionalExtensionality.
From Verif Require Import Base RBase ModelMesh ModelGeom ModelBoundary ModelHydro ModelScheme ModelStep ModelMain
  SpecGeom SpecBoundary SpecHydro SpecScheme SpecStep SpecMain
  ProofBase ProofR ProofHydro ProofReduce ProofBoundary ProofBoundary2 ProofStep ProofSteady ProofLayout ProofStepEx ProofMain ProofRestart ProofMain2.
Local Open Scope R_scope.


Section Bad.
Context (K : config) (N dims : idx) (X : nat -> arr1) (L : layout) (HL : laid_out K N dims X L).

Lemma energies_in S x : In x (all_values K L 0 (cell_internal K S)) <->
  exists r c, process (k_nd K) dims r /\ owned (k_nd K) (k_ng K) (d_nloc (l_dec L r)) c /\ x = evol_cons (k_nd K) (cons_of (s_cell (S r) c)).
Proof.
  unfold all_values. rewrite in_flat_map. split.
  - intros (r & Hr & Hx). apply in_map_iff in Hx. destruct Hx as (c & <- & Hc). apply (in_ranks' K N dims X L HL) in Hr.
    exists r, c. split; [exact Hr|]. split; [|reflexivity]. apply (sel_owned _ _ _ _ _ _ _ HL Hr). now apply sel_cells_in.
  - intros (r & c & Hr & Hc & ->). exists r. split; [now apply (in_ranks' K N dims X L HL)|].
    apply in_map_iff. exists c. split; [reflexivity|]. apply sel_cells_in. now apply (sel_owned _ _ _ _ _ _ _ HL Hr).
Qed.

Lemma bad_iff cfl S : y_bad (hydro K L cfl) S = true <->
  exists r c, process (k_nd K) dims r /\ owned (k_nd K) (k_ng K) (d_nloc (l_dec L r)) c /\
    evol_cons (k_nd K) (cons_of (s_cell (S r) c)) < 0.
Proof.
  cbn [hydro y_bad]. unfold minimum_internal_energy. destruct (min_list _) as [e|] eqn:E.
  - apply min_list_some in E. destruct E as [E1 E2]. split.
    + intros H. apply rltb_true in H. apply energies_in in E1. destruct E1 as (r & c & Hr & Hc & ->). eauto.
    + intros (r & c & Hr & Hc & Hlt). apply rltb_true. eapply Rle_lt_trans; [|exact Hlt]. apply E2, energies_in. eauto.
  - split; [discriminate|]. intros (r & c & Hr & Hc & Hlt). exfalso.
    assert (Hin : In (evol_cons (k_nd K) (cons_of (s_cell (S r) c))) (all_values K L 0 (cell_internal K S))) by (apply energies_in; eauto).
    destruct (all_values K L 0 (cell_internal K S)) as [|a l]; [destruct Hin|]. cbn in E. destruct (min_list l); discriminate.
Qed.
End Bad.

(** ** A counting program: every step lasts 1 and adds one *)
Definition unit_dyn : dynamics nat := mkDyn (fun _ => 1) (fun _ => false) (fun _ _ n => S n).
Definition big_dyn : dynamics nat := mkDyn (fun _ => 2) (fun _ => false) (fun _ _ n => S n).
Definition never : Z -> bool := fun _ => false.

(** ** A gas in uniform motion on 3 x 2 processes, restarted on one process *)
Lemma ex_runs1 b g : runs_on (ex_K b g) ex_N one_process ex_X (ex_L1 b g).
Proof.
  assert (H3 : forall d, (d < 3)%nat -> (1 <= coord d ex_N)%Z) by (dims3; vm_compute; congruence).
  assert (H4 : forall d, (d < 3)%nat -> (1 <= coord d (mpi_dims 2 one_process))%Z) by (dims3; vm_compute; congruence).
  split; cbn [ex_K k_nd k_ng k_order].
  - apply the_layout_ok; cbn [ex_K k_nd k_ng]; try lia; [exact H3|exact H4|exact ex_coords].
  - unfold ex_L1, the_layout. cbn [l_dec ex_K k_nd k_ng]. apply decs_thick; try lia; [exact H3|exact H4|].
    intros d Hd; destruct d as [|[|d]]; [| |lia]; vm_compute; congruence.
  - lia.
  - intros f Hf. cbn in Hf. lia.
  - exact I.
Qed.

Section Gas.
Let K := ex_K ex_bcs Cartesian.
Let L := ex_L ex_bcs Cartesian.
Let L1 := ex_L1 ex_bcs Cartesian.
Let G := ex_G ex_u.
Let S0 := init_state K L (the_state K L G).

Lemma gas_uniform ts : uniform_everywhere K ex_dims L 1 ex_u 2 (g_fx G rank0) (run K L ts S0).
Proof.
  assert (Hrefl : forall f, (f < 2 * k_nd K)%nat -> k_bcs K f = Reflexive -> ex_u (f / 2)%nat = 0).
  { intros f Hf. change (k_nd K) with 2%nat in Hf. destruct f as [|[|[|[|f]]]]; try lia; cbn; (discriminate || reflexivity). }
  pose proof (ex_runs ex_bcs Cartesian) as HR.
  apply (uniform_kept K ex_N ex_dims ex_X L HR G);
    [exact ex_eos|exists (fun _ => 0); auto|reflexivity|left; reflexivity|exact Hrefl|discriminate|lra|lra| | |apply the_state_ok].
  - intros n. cbn. destruct n; lra.
  - intros c. cbn. auto.
Qed.

Lemma gas_good ts : 
  (forall r c, process 2 ex_dims r -> owned 2 2 (d_nloc (l_dec L r)) c -> valid_cons 2 (cons_of (s_cell (run K L ts S0 r) c))) /\
  starts_from K ex_dims L G (run K L ts S0) /\
  y_bad (hydro K L (1 / 2)) (run K L ts S0) = false /\
  0 < y_dt (hydro K L (1 / 2)) (run K L ts S0).
Proof.
  pose proof (gas_uniform ts) as H. set (U := run K L ts S0) in *. pose proof (ro_layout (ex_runs ex_bcs Cartesian)) as HL.
  assert (HU : forall r c, process 2 ex_dims r -> owned 2 2 (d_nloc (l_dec L r)) c -> valid_cons 2 (cons_of (s_cell (U r) c)) /\
     c_rho (s_cell (U r) c) = 1 /\ c_fx (s_cell (U r) c) = g_fx G rank0 /\ s_u (U r) c = ex_u /\ s_P (U r) c = 2).
  { intros r c Hr Hc. pose proof (owned_in_array K ex_N ex_dims ex_X L HL r c Hr Hc) as Ha.
    destruct (H r c Hr Ha) as (A & B & C & E & F & P).
    split; [|split; [exact A|]; split; [extensionality n; apply E|]; split; [extensionality n; apply F|exact P]].
    unfold valid_cons, internal, kinetic. cbn [cons_of q_rho q_E q_m]. rewrite A, C. split; [lra|].
    rewrite (vsum_ext 2 (fun k => c_rhou (s_cell (U r) c) k ^ 2) (fun k => ex_u k ^ 2)) by (intros; rewrite B; ring). 
    pose proof (law_evol_pos _ ex_eos 1 2 ltac:(lra) ltac:(lra)) as He. change (k_eos K) with (pg_eos (mkPG (5 / 3) 1)). change (k_nd K) with 2%nat. lra. }
  assert (HV : forall r c, process 2 ex_dims r -> owned 2 2 (d_nloc (l_dec L r)) c -> valid_cons 2 (cons_of (s_cell (U r) c))) by (intros; now apply HU).
  split; [exact HV|]. split; [|split].
  - split; intros r Hr c Hc; destruct (HU r c Hr Hc) as (_ & A & B & C & E); [rewrite A|rewrite B|rewrite C|rewrite E]; reflexivity.
  - apply Bool.not_true_iff_false. intros Hb. apply (bad_iff K ex_N ex_dims ex_X L HL) in Hb. destruct Hb as (r & c & Hr & Hc & Hlt).
    destruct (HV r c Hr Hc) as [Hp Hq]. rewrite (evol_cons_internal 2) in Hlt by exact Hp. change (k_nd K) with 2%nat in Hlt. lra.
  - assert (W : forall r c d, process 2 ex_dims r -> (d < 2)%nat -> width Cartesian (l_mesh L r) c d = 1).
    { intros r c d Hr Hd. destruct (proj1 c26_example r c d Hd) as [E|E]; [exact E|contradiction]. }
    destruct (cfl_time_step K ex_N ex_dims ex_X L HL U ex_eos) as (dt & E & Hdt & _).
    + intros r c Hr Hc. destruct (HU r c Hr Hc) as (_ & A & _ & _ & P). rewrite A, P. split; [lra|]. split; [lra|].
      intros d Hd. change (k_geom K) with Cartesian. rewrite W; [lra|exact Hr|exact Hd].
    + intros r c d Hr Hc Hd. change (k_geom K) with Cartesian. rewrite W; [lra|exact Hr|exact Hd].
    + cbn [hydro y_dt]. rewrite E. lra.
Qed.

(** One step, with an output after each step, well before the end time. *)
Definition gas_dt : R := y_dt (hydro K L (1 / 2)) S0.
Definition gas_p : params := mkParams 0 (gas_dt + 1) 100 1 0 0.
Lemma gas_first : exists m1 f, loop (hydro K L (1 / 2)) gas_p never 1 (fresh gas_p S0) = (m1, Going) /\
  last_file m1 f /\ fl_iter f = m_iter m1 /\ m_iter m1 = 1%Z /\ m_t m1 = gas_dt /\ fl_data f = run K L [(0, gas_dt)] S0.
Proof.
  destruct (gas_good []) as (_ & _ & B & D). cbn [run fold_left] in B, D. fold gas_dt in D.
  cbn [loop]. unfold fresh. cbn [gas_p p_iter_freq p_time_freq p_t_ini]. change ((0 <? 1)%Z || rltb 0 0) with true. cbv iota.
  unfold body. cbn [output write next_id m_iter m_iid m_tid m_t m_st m_oid m_record m_files Z.add].
  change (int32 1) with true. cbn [negb]. unfold iter_schedule, time_schedule. cbn [gas_p p_iter_freq p_time_freq p_t_ini m_iter m_iid m_tid m_t m_st m_oid].
  rewrite (proj2 (rltb_false 0 0)) by lra. unfold clip_to_end. cbn [gas_p p_t_end].
  change (int32 ((0 + 1) * 1)) with true. change (0 <? 1)%Z with true. cbn [negb]. change ((0 + 1) * 1 <=? 0 + 1)%Z with true. cbv iota zeta.
  fold gas_dt. rewrite (proj2 (rleb_false _ _)) by lra. rewrite B. cbv iota. cbn [gas_p p_max_iter never orb].
  change (100 <=? 1)%Z with false. cbn [orb].
  eexists _, _. split; [reflexivity|]. split; [|split; [|split; [|split]]].
  - eexists [_]. reflexivity.
  - reflexivity.
  - reflexivity.
  - cbn. lra.
  - reflexivity.
Qed.

Lemma restart_example : exists m1 f Rst,
  runs_on K ex_N ex_dims ex_X L /\ runs_on K ex_N one_process ex_X L1 /\ lawful_eos (k_eos K) /\
  starts_from K ex_dims L G (the_state K L G) /\
  loop (hydro K L (1 / 2)) gas_p never 1 (fresh gas_p S0) = (m1, Going) /\
  last_file m1 f /\ fl_iter f = m_iter m1 /\ m_iter m1 = 1%Z /\
  (forall r c, process 2 ex_dims r -> owned 2 2 (d_nloc (l_dec L r)) c -> valid_cons 2 (cons_of (s_cell (fl_data f r) c))) /\
  starts_from K ex_dims L G (fl_data f) /\ starts_from K one_process L1 G Rst /\
  p_max_iter gas_p = 100%Z /\ m_t m1 + 1 = p_t_end gas_p.
Proof.
  destruct gas_first as (m1 & f & A & B & C & D & E & F). exists m1, f, (the_state K L1 G).
  destruct (gas_good [(0, gas_dt)]) as (V & W & _). rewrite <- F in V, W.
  split; [apply ex_runs|]. split; [apply ex_runs1|]. split; [exact ex_eos|]. split; [apply the_state_ok|].
  repeat (split; [assumption|]). split; [apply the_state_ok|]. split; [reflexivity|]. rewrite E. reflexivity.
Qed.
End Gas.

(** ** Runs of the counting program *)
Ltac go_step := unfold body, iter_schedule, time_schedule, clip_to_end;
  cbn [unit_dyn big_dyn never y_dt y_bad y_step p_t_ini p_t_end p_max_iter p_iter_freq p_time_freq p_time_first with_t_end
       m_iter m_iid m_tid m_t m_st m_oid m_record m_files output write next_id file_of restarted app
       fl_oid fl_iid fl_tid fl_iter fl_t fl_data].
Ltac go_bools := repeat first
  [ match goal with |- context [int32 ?x] => let b := eval vm_compute in (int32 x) in change (int32 x) with b end
  | match goal with |- context [(?a <? ?b)%Z] => let r := eval vm_compute in (a <? b)%Z in change (a <? b)%Z with r end
  | match goal with |- context [(?a <=? ?b)%Z] => let r := eval vm_compute in (a <=? b)%Z in change (a <=? b)%Z with r end
  | match goal with |- context [IZR (?a + ?b)] => let r := eval vm_compute in (a + b)%Z in change (IZR (a + b)) with (IZR r) end
  | match goal with |- context [rltb ?a ?b] => first [rewrite (proj2 (rltb_true a b)) by lra | rewrite (proj2 (rltb_false a b)) by lra] end
  | match goal with |- context [rleb ?a ?b] => first [rewrite (proj2 (rleb_true a b)) by lra | rewrite (proj2 (rleb_false a b)) by lra] end
  | progress cbn [negb orb andb] | progress cbv iota zeta ].
Ltac go := cbn [loop]; repeat (go_step; go_bools).
Ltac fresh_go := unfold fresh; cbn [p_iter_freq p_time_freq p_t_ini]; go_bools.

Lemma unit_positive p m : positive_steps unit_dyn p never m.
Proof. intros k x _. cbn. lra. Qed.
Lemma big_positive p m : positive_steps big_dyn p never m.
Proof. intros k x _. cbn. lra. Qed.

Lemma unit_run_ends :
  let p := mkParams 0 (5 / 2) 100 0 0 0 in
  positive_steps unit_dyn p never (fresh p 0%nat) /\ m_t (fresh p 0%nat) < p_t_end p /\
  exists m, loop unit_dyn p never 3 (fresh p 0%nat) = (m, Finished) /\ m_iter m = 3%Z /\ m_t m = 5 / 2.
Proof.
  intros p. split; [apply unit_positive|]. unfold p. fresh_go. split; [cbn; lra|]. go.
  eexists. split; [reflexivity|]. cbn. split; [reflexivity|lra].
Qed.
Lemma unit_run_outputs :
  let p := mkParams 0 100 7 3 0 0 in
  exists m, loop unit_dyn p never 7 (fresh p 0%nat) = (m, Finished) /\ map (@fl_iter nat) (m_files m) = [0; 3; 6; 7]%Z.
Proof. intros p. unfold p. fresh_go. go. eexists. split; reflexivity. Qed.
Lemma unit_run_times :
  let p := mkParams 0 (5 / 2) 100 0 (3 / 4) (1 / 2) in
  positive_steps unit_dyn p never (fresh p 0%nat) /\
  exists m, loop unit_dyn p never 4 (fresh p 0%nat) = (m, Finished) /\
    map (@fl_t nat) (m_files m) = [0; 1 / 2; 5 / 4; 2; 5 / 2].
Proof.
  intros p. split; [apply unit_positive|]. unfold p. fresh_go. go. eexists. split; [reflexivity|]. cbn. repeat (apply (f_equal2 (@Datatypes.cons R)); [lra|]). reflexivity.
Qed.
Lemma skipped_example :
  let p := mkParams 0 1 100 0 (3 / 2) (3 / 2) in let p' := with_t_end p 4 in
  let f := mkFile 1 0 0 1 1 1%nat in
  (0 < p_time_freq p /\ p_t_ini p < p_t_end p < p_time_first p /\ p_time_first p <= p_t_ini p + y_dt big_dyn 0%nat /\
   p_time_first p + p_time_freq p < 4 /\ p_time_first p + p_time_freq p <= p_t_end p + y_dt big_dyn 1%nat /\
   positive_steps big_dyn p' never (restarted f 1%nat)) /\
  exists m', loop big_dyn p' never 2 (restarted f 1%nat) = (m', Finished) /\ map (@fl_t nat) (m_files m') = [3; 4].
Proof.
  intros p p' f. split; [repeat split; try (cbn; lra); apply big_positive|].
  unfold f, p', p. go. eexists. split; [reflexivity|]. cbn. repeat (apply (f_equal2 (@Datatypes.cons R)); [lra|]). reflexivity.
Qed.
Lemma frequent_example :
  let p := mkParams 0 1000 1000 5 0 0 in let f := mkFile 10 10 (-1) 100 100 0%nat in
  exists m, loop unit_dyn p never 3 (restarted f 0%nat) = (m, Going) /\ map (@fl_iter nat) (m_files m) = [101; 102; 103]%Z.
Proof. intros p f. unfold f, p. go. eexists. split; reflexivity. Qed.

(** C45 for the hydrodynamics. *)
Lemma negative_stops K N dims X L : laid_out K N dims X L ->
  forall cfl p clock m m' v r c,
  process (k_nd K) dims r -> owned (k_nd K) (k_ng K) (d_nloc (l_dec L r)) c ->
  0 < c_rho (s_cell (m_st m r) c) -> internal (k_nd K) (cons_of (s_cell (m_st m r) c)) < 0 ->
  body (hydro K L cfl) p clock m = (m', v) ->
  v <> Going /\ v <> Finished /\ m_st m' = m_st m /\ m_t m' = m_t m /\ m_iter m' = m_iter m.
Proof.
  intros HL cfl p clock m m' v r c Hr Hc Hrho Hneg. apply bad_stops. apply (bad_iff K N dims X L HL).
  exists r, c. split; [exact Hr|]. split; [exact Hc|]. now rewrite evol_cons_internal.
Qed.
