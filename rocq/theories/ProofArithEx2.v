(** * The uniform flow in binary64 (ProofArithEx.v): whole runs. *)
From Coq Require Import FunctionalExtensionality ZifyBool ZifyNat.
From Flocq Require Import IEEE754.BinarySingleNaN.
From Verif Require Import Base RBase ModelMesh ModelGeom ModelBoundary ModelHydro ModelScheme ModelStep ModelArith ModelFloat ModelArith64
  SpecMesh SpecGeom SpecBoundary SpecHydro SpecScheme SpecStep SpecArith
  ProofBase ProofMesh ProofR ProofBoundary ProofBoundary2 ProofHydro ProofScheme ProofMirror ProofShift ProofReduce ProofStep
  ProofLayout ProofSteady ProofStepEx ProofArithReal ProofArith ProofArith64 ProofArithNum ProofArithUniform ProofArithRestart ProofArithEx.
Local Open Scope R_scope.

Section Ex.
Variables dsin dcos dexp : double -> double.
Notation A := (b64 dsin dcos dexp).
Notation eos64 := (eos64 dsin dcos dexp).
Notation K64 := (K64 dsin dcos dexp).
Notation L64 := (L64 dsin dcos dexp).
Notation L64_1 := (L64_1 dsin dcos dexp).
Ltac fin := apply finite_code; vm_compute; reflexivity.
Ltac pla := apply plain_code; [vm_compute; reflexivity|vm_compute; congruence].

(** *** The flow is calm *)
Definition c64 (z : nat -> Z) : cell := x64 (fun n => IZR (z n)).
Lemma cell_prim64 fx : cell_prim A K64 (x64 fx) = p64.
Proof. apply prim64. Qed.
Lemma cell_back64 fx : cell_back A K64 (x64 fx) = q64.
Proof. unfold cell_back. rewrite cell_prim64. apply back64. Qed.

Lemma adv64 dims L r c : laid_out K64 ex_N dims X64 L -> process 2 dims r -> in_array (d_nwg (l_dec L r)) c ->
  adv A Cartesian 2 (l_mesh L r) c = IZR one_code.
Proof.
  intros HL Hr Hc. cbn [adv]. unfold acart_dv.
  change (ii c) with (coord 0 c). change (jj c) with (coord 1 c). change (kk c) with (coord 2 c).
  rewrite !(dx64 dsin dcos dexp dims L r c) by (assumption || lia). num. reflexivity.
Qed.
Lemma ads64 dims L r c d : laid_out K64 ex_N dims X64 L -> process 2 dims r -> in_array (d_nwg (l_dec L r)) c ->
  (d < 2)%nat -> ads A Cartesian 2 (l_mesh L r) c d = IZR one_code.
Proof.
  intros HL Hr Hc Hd. cbn [ads]. unfold acart_ds. cbv zeta.
  rewrite !(dx64 dsin dcos dexp dims L r c) by (assumption || lia). destruct d as [|[|d]]; [| |lia]; cbn [Nat.eqb]; num; reflexivity.
Qed.
Lemma width64 dims L r c d : laid_out K64 ex_N dims X64 L -> process 2 dims r -> in_array (d_nwg (l_dec L r)) c ->
  (d < 2)%nat -> acell_width A (l_mesh L r) c d = IZR one_code.
Proof.
  intros HL Hr Hc Hd. unfold acell_width.
  change (ii c) with (coord 0 c). change (jj c) with (coord 1 c). change (kk c) with (coord 2 c).
  rewrite !(dx64 dsin dcos dexp dims L r c) by (assumption || lia). destruct d as [|[|d]]; [| |lia]; cbn [kron Nat.eqb]; num; reflexivity.
Qed.

Definition next_code (z : Z) : Z := if Z.eqb z tenth then tenth' else z.
Lemma carried64 (z : nat -> Z) n : (forall n, In (z n) fx_codes) -> carried A (c64 z) n = IZR (next_code (z n)).
Proof.
  intros Hz. unfold carried, c64. cbn [x64 c_fx c_rho].
  destruct (Hz n) as [E|[E|[E|[]]]]; rewrite <- E; num; reflexivity.
Qed.
Lemma next_codes (z : nat -> Z) : (forall n, In (z n) fx_codes) -> forall n, In (next_code (z n)) fx_codes.
Proof. intros Hz n. destruct (Hz n) as [E|[E|[E|[]]]]; rewrite <- E; vm_compute; tauto. Qed.
Lemma next64 (z : nat -> Z) : (forall n, In (z n) fx_codes) -> next_cell A (c64 z) = c64 (fun n => next_code (z n)).
Proof.
  intros Hz. unfold next_cell, c64 at 1 2 3. cbn [x64 c_rho c_rhou c_E]. unfold c64, x64. f_equal.
  apply functional_extensionality. intros n. change (mkCell _ _ _ _) with (c64 z). rewrite (carried64 z n Hz).
  destruct (Hz n) as [E|[E|[E|[]]]]; rewrite <- E; cbn [next_code]; num; reflexivity.
Qed.
Lemma free64 z : free_flow A K64 (c64 z).
Proof.
  split; cbn [K64 k_geom k_bcs k_grav k_user k_pf]; try reflexivity; try discriminate.
  eexists. split; [reflexivity|]. intros d. reflexivity.
Qed.
Lemma calm64 dims L (z : nat -> Z) : laid_out K64 ex_N dims X64 L -> (forall n, In (z n) fx_codes) ->
  calm A finite64 plain64 K64 dims L (c64 z) (IZR dt_code).
Proof.
  intros HL Hz.
  assert (Hm : forall d, plain64 (IZR (m_code d)) /\ finite64 (IZR (m_code d))) by (intros [|[|d]]; split; (fin || pla)).
  assert (Hu : forall d, plain64 (IZR (u_code d)) /\ finite64 (IZR (u_code d))) by (intros [|[|d]]; split; (fin || pla)).
  split.
  - cbn [c64 x64 c_rho c_rhou c_E]. split; [pla|]. split; [intros d; apply Hm|pla].
  - unfold c64. rewrite cell_prim64. cbn [p64 p_u p_P]. split; [intros d; apply Hu|pla].
  - unfold c64. rewrite cell_back64. cbn [q64 q_m q_E]. split; [intros d; apply Hm|pla].
  - unfold c64. rewrite cell_prim64, cell_back64. cbn [q64 p64 q_m q_E p_u p_P x64 c_rho c_rhou c_fx].
    split; [fin|]. split; [intros d; apply Hu|]. split; [fin|]. split; [intros d; apply Hm|]. split; [intros d; apply Hm|].
    split; [intros n; destruct (Hz n) as [E|[E|[E|[]]]]; rewrite <- E; fin|]. split; [fin|]. num. fin.
  - intros n. cbn [c64 x64 c_fx c_rho]. destruct (Hz n) as [E|[E|[E|[]]]]; rewrite <- E; num; split; pla.
  - intros r c d Hr Hc Hd. cbn [K64 k_geom k_nd k_eos k_sol] in *. cbv zeta.
    rewrite (adv64 dims), (ads64 dims), (width64 dims) by assumption. num.
    split; [fin|]. split; [fin|]. split; [fin|].
    change (cell_prim A _ (c64 z)) with (cell_prim A K64 (c64 z)). change (cell_back A _ (c64 z)) with (cell_back A K64 (c64 z)).
    unfold c64 at 1. rewrite cell_prim64.
    split; [apply (flux64 dsin dcos dexp d z Hd Hz)|].
    unfold c64 at 1 2. rewrite cell_back64.
    replace (carried A (c64 z)) with (fun n => IZR (next_code (z n)))
      by (apply functional_extensionality; intros n; symmetry; now apply carried64).
    cbn [ariemann]. destruct d as [|[|d]]; [apply solver64_x|apply solver64_y|lia]; now apply next_codes.
Qed.

(** *** Runs *)
Lemma iter64 z k : (forall n, In (z n) fx_codes) ->
  Nat.iter k (next_cell A) (c64 z) = c64 (fun n => Nat.iter k next_code (z n)) /\ (forall n, In (Nat.iter k next_code (z n)) fx_codes).
Proof.
  intros Hz. induction k as [|k [IH1 IH2]]; [now split|].
  change (Nat.iter (S k) (next_cell A) (c64 z)) with (next_cell A (Nat.iter k (next_cell A) (c64 z))).
  rewrite IH1, (next64 _ IH2). split; [reflexivity|]. exact (next_codes _ IH2).
Qed.
Lemma values64 dims L z S x : laid_out K64 ex_N dims X64 L -> filled_with A K64 dims L (c64 z) S ->
  In x (all_values K64 L (k_ng K64) (acell_inverse_dt A K64 L S)) -> x = IZR w_code.
Proof.
  intros HL HS Hx. unfold all_values in Hx. apply in_flat_map in Hx. destruct Hx as (r & Hr & Hx).
  apply (in_ranks' K64 ex_N dims X64 L HL) in Hr. apply in_map_iff in Hx. destruct Hx as (c & <- & Hc).
  apply sel_cells_in in Hc. apply (sel_array _ _ _ _ _ _ _ HL Hr) in Hc.
  destruct (HS r c Hr Hc) as (E1 & E2 & E3). rewrite <- (speed64 dsin dcos dexp).
  unfold acell_inverse_dt. rewrite E1, E2, E3. unfold c64. rewrite cell_prim64.
  cbn [K64 ProofArithEx.K64 k_nd k_geom k_eos adx_geom p64 p_u p_P x64 c_rho]. unfold asum, loop.
  rewrite !(dx64 dsin dcos dexp dims L r c) by (assumption || lia). reflexivity.
Qed.
Lemma reduces_const l w v : (forall x, In x l -> x = w) -> reduces A l v -> v = w.
Proof.
  intros Hl H. induction H as [x|l1 l2 l a b Hin H1 IH1 H2 IH2]; [apply Hl; now left|].
  rewrite IH1, IH2 by (intros x Hx; apply Hl, Hin; auto). unfold akmax. now destruct (a_lt A w w).
Qed.
Lemma calm_iterates dims L z : laid_out K64 ex_N dims X64 L -> (forall n, In (z n) fx_codes) ->
  forall k S v, filled_with A K64 dims L (Nat.iter k (next_cell A) (c64 z)) S ->
  reduces A (all_values K64 L (k_ng K64) (acell_inverse_dt A K64 L S)) v ->
  calm A finite64 plain64 K64 dims L (Nat.iter k (next_cell A) (c64 z)) (a_mul A (lit 5 1) (a_div A (a_lit A 1 0) v)).
Proof.
  intros HL Hz k S v. destruct (iter64 z k Hz) as [-> Hk]. intros HS Hv.
  rewrite (reduces_const _ (IZR w_code) v (fun x => values64 dims L _ S x HL HS) Hv), dt64. now apply calm64.
Qed.
Lemma flat64 dims L z S n t t' S' : runs_on K64 ex_N dims X64 L -> (forall n, In (z n) fx_codes) ->
  starts_from K64 dims L (G64 (fun n => IZR (z n))) S ->
  aruns A K64 L (lit 5 1) n t (ainit_state A K64 L S) t' S' ->
  level A K64 dims L (c64 (fun j => Nat.iter n next_code (z j))) S'.
Proof.
  intros HR Hz HS H. destruct (iter64 z n Hz) as [<- Hk].
  refine (flat_runs A finite64 plain64 (b64_cancelling dsin dcos dexp) K64 ex_N dims X64 L HR (lit 5 1) n (c64 z) t _ t' S' (free64 z) _ _ H).
  - apply (flat_init A K64 ex_N dims X64 L HR (c64 z) (G64 (fun n => IZR (z n))) S (free64 z) HS).
    intros c. split; [reflexivity|]. split; [reflexivity|]. apply (init64 dsin dcos dexp (fun n => IZR (z n)) c).
  - now apply calm_iterates, Hz; apply (ro_layout HR).
Qed.
Lemma good_level dims L n : runs_on K64 ex_N dims X64 L -> forall z t S, (forall n, In (z n) fx_codes) ->
  level A K64 dims L (c64 z) S -> good_run A good64 K64 L (lit 5 1) n t S.
Proof.
  intros HR. pose proof (ro_layout HR) as HL. induction n as [|n IH]; intros z t S Hz HS; constructor.
  - intros x Hx. rewrite (values64 dims L z S x HL (proj1 HS) Hx). apply good_code; vm_compute; congruence.
  - intros v Hv. cbv zeta. apply (IH (fun j => next_code (z j))); [exact (next_codes z Hz)|]. rewrite <- (next64 z Hz).
    apply (level_step A finite64 plain64 (b64_cancelling dsin dcos dexp) K64 ex_N dims X64 L HL (ro_thick HR) (ro_ng HR) (ro_faces HR)
             (c64 z) (free64 z) S t _ HS (calm_iterates dims L z HL Hz 0%nat S v (proj1 HS) Hv)).
Qed.

(** *** Restart: the file holds density, velocity, pressure and scalars *)
Definition file64 (z : nat -> Z) : gfields :=
  mkG (fun _ => IZR rho_code) (fun _ d => IZR (u_code d)) (fun _ => IZR P_code) (fun _ n => IZR (z n)).
Definition y64 (z : nat -> Z) : cell := mkCell (IZR rho_code) (fun d => IZR (m_code d)) (IZR E1_code) (fun n => IZR (z n)).
Lemma free64' z : free_flow A K64 (y64 z).
Proof.
  split; cbn [K64 k_geom k_bcs k_grav k_user k_pf]; try reflexivity; try discriminate.
  eexists. split; [reflexivity|]. intros d. reflexivity.
Qed.
Lemma restart64 dims L dims2 L2 z n t S t' S' S2 : runs_on K64 ex_N dims X64 L -> runs_on K64 ex_N dims2 X64 L2 ->
  (forall n, In (z n) fx_codes) -> starts_from K64 dims L (G64 (fun n => IZR (z n))) S ->
  aruns A K64 L (lit 5 1) n t (ainit_state A K64 L S) t' S' ->
  let F := file64 (fun j => Nat.iter n next_code (z j)) in
  starts_from K64 dims2 L2 F S2 ->
  starts_from K64 dims L F S' /\
  (forall r c, process 2 dims r -> in_array (d_nwg (l_dec L r)) c -> s_P (S' r) c = IZR P_code /\ c_E (s_cell (S' r) c) = IZR E_code) /\
  (forall r c, process 2 dims2 r -> in_array (d_nwg (l_dec L2 r)) c ->
     s_P (ainit_state A K64 L2 S2 r) c = IZR P2_code /\ c_E (s_cell (ainit_state A K64 L2 S2 r) c) = IZR E1_code).
Proof.
  intros HR HR2 Hz HS H F HS2. pose proof (flat64 dims L z S n t t' S' HR Hz HS H) as [HF _].
  pose proof (ro_layout HR) as HL.
  assert (Ho : forall r c, process 2 dims r -> owned 2 2 (d_nloc (l_dec L r)) c -> in_array (d_nwg (l_dec L r)) c).
  { intros r c Hr Hc. apply (sel_array _ _ _ _ _ _ _ HL Hr). apply (sel_mono _ _ _ _ _ 0 _ _ _ HL Hr); [cbn; lia|].
    now apply (sel_owned _ _ _ _ _ _ _ HL Hr). }
  split; [|split].
  - split; intros r Hr c Hc; cbn beta; destruct (HF r c Hr (Ho r c Hr Hc)) as (E1 & E2 & E3);
      rewrite ?E1, ?E2, ?E3; unfold c64; rewrite ?cell_prim64; reflexivity.
  - intros r c Hr Hc. destruct (HF r c Hr Hc) as (E1 & E2 & E3). rewrite E1, E3. unfold c64. rewrite cell_prim64. now split.
  - intros r c Hr Hc.
    destruct (flat_init A K64 ex_N dims2 X64 L2 HR2 (y64 (fun j => Nat.iter n next_code (z j))) F S2 (free64' _) HS2) as [HF2 _].
    + intros c0. split; [reflexivity|]. split; [reflexivity|]. symmetry. apply (back64 dsin dcos dexp).
    + destruct (HF2 r c Hr Hc) as (E1 & E2 & E3). rewrite E1, E3. split; [|reflexivity].
      replace (cell_prim A K64 (y64 _)) with p64'; [reflexivity|]. symmetry. apply (prim64' dsin dcos dexp).
Qed.
End Ex.

(** ** Every run exists *)
Lemma reduces_exists A l : l <> [] -> exists v, reduces A l v.
Proof.
  induction l as [|x l IH]; intros H; [now destruct H|]. destruct l as [|y l].
  - exists x. constructor.
  - destruct IH as (v & Hv); [discriminate|]. exists (akmax A x v). apply (reduces_join A [x] (y :: l)); [|constructor|exact Hv].
    intros z. cbn [In]. tauto.
Qed.
Lemma values_exist K N dims X L f : laid_out K N dims X L -> (0 <= k_ng K)%Z -> all_values K L (k_ng K) f <> [].
Proof.
  intros HL Hng. destruct (serial_layout K N dims X L HL) as (L1 & HL1).
  assert (H0 : sel K L1 (k_ng K) rank0 (I3 0 0 0) = true).
  { apply (sel_array _ _ _ _ _ _ _ HL1 (rank0_ok _)). intros d Hd. rewrite (s_ext _ _ _ _ HL1) by assumption.
    pose proof (dcp_n (lo_dec HL1) Hd). unfold ghosts. destruct d as [|[|[|d]]]; [cbn [coord ii jj kk] in *; destruct (Nat.ltb _ _); lia..|lia]. }
  destruct (covered K N dims X L L1 HL HL1 (k_ng K) (I3 0 0 0) ltac:(lia) H0) as (r & c & Hr & Hs & _).
  assert (Hin : In (f r c) (all_values K L (k_ng K) f)).
  { unfold all_values. apply in_flat_map. exists r. split; [now apply (in_ranks' K N dims X L HL)|]. apply in_map, sel_cells_in, Hs. }
  intros E. rewrite E in Hin. destruct Hin.
Qed.
Lemma runs_exist A K N dims X L cfl n : laid_out K N dims X L -> forall t S, exists t' S', aruns A K L cfl n t S t' S'.
Proof.
  intros HL. pose proof (dcp_ng (lo_dec HL)) as Hng. induction n as [|n IH]; intros t S; [eexists _, _; constructor|].
  destruct (reduces_exists A _ (values_exist K N dims X L (acell_inverse_dt A K L S) HL Hng)) as (v & Hv).
  destruct (IH (a_add A t (a_mul A cfl (a_div A (a_lit A 1 0) v))) (afull_step A K L t (a_mul A cfl (a_div A (a_lit A 1 0) v)) S)) as (t' & S' & H).
  exists t', S'. econstructor; eassumption.
Qed.

(** ** Given time steps: no order is needed *)
Lemma given_grid A K N dims X L L1 : runs_on K N dims X L -> laid_out K N one_process X L1 -> local_gravity K ->
  forall G S S1 ts, starts_from K dims L G S -> starts_from K one_process L1 G S1 ->
  same_results K dims L (fold_left (fun U s => afull_step A K L (fst s) (snd s) U) ts (ainit_state A K L S))
                        (fold_left (fun U s => afull_step A K L1 (fst s) (snd s) U) ts (ainit_state A K L1 S1)).
Proof.
  intros HR HL1 Hg G S S1 ts HS HS1. pose proof (ro_layout HR) as HL.
  pose proof (ainit_slice A K N dims X L L1 HL HL1 (ro_thick HR) (ro_faces HR) Hg G S S1 HS HS1) as HI.
  enough (E : forall U U1, in_step K dims L U U1 ->
    in_step K dims L (fold_left (fun U s => afull_step A K L (fst s) (snd s) U) ts U)
                     (fold_left (fun U s => afull_step A K L1 (fst s) (snd s) U) ts U1)) by exact (proj1 (E _ _ HI)).
  clear HI. induction ts as [|[t dt] ts IH]; intros U U1 HU; [exact HU|]. cbn [fold_left fst snd]. apply IH.
  now apply (afull_step_slice A K N dims X L L1 HL HL1 (ro_thick HR) (ro_ng HR) (ro_faces HR) Hg).
Qed.
Lemma nan_order dsin dcos dexp : let A := b64 dsin dcos dexp in let nan := enc dnan in let one := a_lit A 1 0 in
  reduces A [nan; one] nan /\ reduces A [nan; one] one /\ nan <> one.
Proof.
  cbv zeta.
  assert (E1 : a_lt (b64 dsin dcos dexp) (enc dnan) (a_lit (b64 dsin dcos dexp) 1 0) = false).
  { cbn [a_lt a_lit b64]. now rewrite !dec_enc. }
  assert (E2 : a_lt (b64 dsin dcos dexp) (a_lit (b64 dsin dcos dexp) 1 0) (enc dnan) = false).
  { cbn [a_lt a_lit b64]. rewrite !dec_enc. vm_compute. reflexivity. }
  split; [|split].
  - replace (enc dnan) with (akmax (b64 dsin dcos dexp) (enc dnan) (a_lit (b64 dsin dcos dexp) 1 0)) at 2 by (unfold akmax; now rewrite E1).
    apply (reduces_join _ [enc dnan] [a_lit (b64 dsin dcos dexp) 1 0]); [intros x; cbn [In]; tauto|constructor|constructor].
  - replace (a_lit (b64 dsin dcos dexp) 1 0) with (akmax (b64 dsin dcos dexp) (a_lit (b64 dsin dcos dexp) 1 0) (enc dnan)) at 2 by (unfold akmax; now rewrite E2).
    apply (reduces_join _ [a_lit (b64 dsin dcos dexp) 1 0] [enc dnan]); [intros x; cbn [In]; tauto|constructor|constructor].
  - cbn [a_lit b64]. intros E. apply enc_inj in E. apply (f_equal is_nan) in E. vm_compute in E. discriminate.
Qed.
