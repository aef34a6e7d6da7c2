(** * Gas at rest in binary64, on 5 cells; its round trip through the restart file is exact. *)
From Coq Require Import FunctionalExtensionality ZifyBool ZifyNat.
From Flocq Require Import IEEE754.BinarySingleNaN.
From Verif Require Import Base RBase ModelMesh ModelGeom ModelBoundary ModelHydro ModelScheme ModelStep ModelArith ModelFloat ModelArith64
  SpecMesh SpecGeom SpecBoundary SpecHydro SpecScheme SpecStep SpecArith
  ProofBase ProofMesh ProofR ProofBoundary ProofBoundary2 ProofHydro ProofScheme ProofMirror ProofShift ProofReduce ProofStep
  ProofLayout ProofSteady ProofStepEx ProofArithReal ProofArith ProofArith64 ProofArithNum ProofArithUniform ProofArithRestart ProofArithEx ProofArithEx2.
Local Open Scope R_scope.


Section Ex.
Variables dsin dcos dexp : double -> double.
Notation A := (b64 dsin dcos dexp).

Definition N1 : idx := I3 5 1 1.
Definition dims1 : idx := I3 2 1 1.
Definition eos1 : eos := apg_eos A (lit 14 1) (lit 1 0).
Definition K1 : config :=
  mkConfig Cartesian 1 2 eos1 LMinmod HLL None UOff (GUniform (fun _ => lit 0 0)) (fun _ => NullGradient) [0; 1]%nat.
Definition X1 : nat -> arr1 := fun d => mkArr1 (match d with O => 10 | _ => 2 end)%Z (fun i => lit i 0).
Definition L1d : layout := the_layout K1 N1 dims1 X1.
Definition L1d_1 : layout := the_layout K1 N1 one_process X1.

Lemma coords1 : global_coords 1 N1 2 X1.
Proof. intros d Hd. destruct d as [|[|[|d]]]; [reflexivity..|lia]. Qed.
Lemma laid1_1 : laid_out K1 N1 one_process X1 L1d_1.
Proof. apply the_layout_ok; cbn [K1 k_nd k_ng]; try lia; [| |exact coords1]; dims3; vm_compute; congruence. Qed.
Lemma runs1 : runs_on K1 N1 dims1 X1 L1d.
Proof.
  assert (H3 : forall d, (d < 3)%nat -> (1 <= coord d N1)%Z) by (dims3; vm_compute; congruence).
  assert (H4 : forall d, (d < 3)%nat -> (1 <= coord d (mpi_dims 1 dims1))%Z) by (dims3; vm_compute; congruence).
  split; cbn [K1 k_nd k_ng k_order].
  - apply the_layout_ok; cbn [K1 k_nd k_ng]; try lia; [exact H3|exact H4|exact coords1].
  - unfold L1d, the_layout. cbn [l_dec K1 k_nd k_ng]. apply decs_thick; try lia; [exact H3|exact H4|].
    intros d Hd; destruct d as [|d]; [|lia]; vm_compute; congruence.
  - lia.
  - intros f Hf. cbn in Hf. lia.
  - exact I.
Qed.
Lemma runs1_1 : runs_on K1 N1 one_process X1 L1d_1.
Proof.
  assert (H3 : forall d, (d < 3)%nat -> (1 <= coord d N1)%Z) by (dims3; vm_compute; congruence).
  assert (H4 : forall d, (d < 3)%nat -> (1 <= coord d (mpi_dims 1 one_process))%Z) by (dims3; vm_compute; congruence).
  split; cbn [K1 k_nd k_ng k_order].
  - exact laid1_1.
  - unfold L1d_1, the_layout. cbn [l_dec K1 k_nd k_ng]. apply decs_thick; try lia; [exact H3|exact H4|].
    intros d Hd; destruct d as [|d]; [|lia]; vm_compute; congruence.
  - lia.
  - intros f Hf. cbn in Hf. lia.
  - exact I.
Qed.

Lemma dx1 dims L r c d : laid_out K1 N1 dims X1 L -> process 1 dims r -> in_array (d_nwg (l_dec L r)) c -> (d < 3)%nat ->
  adx A (l_mesh L r) d (coord d c) = IZR one_code.
Proof.
  intros HL Hr Hc Hd.
  pose proof (proj2 (sel_array _ _ _ _ _ _ _ HL Hr) Hc) as Hs.
  pose proof (sel_slice K1 N1 dims X1 L L1d_1 HL laid1_1 _ _ _ Hr Hs) as H1.
  apply (sel_array _ _ _ _ _ _ _ laid1_1 (rank0_ok 1)) in H1. specialize (H1 d Hd). rewrite coord_iadd in H1 by assumption.
  pose proof (set_grid_at _ _ _ (lo_mesh HL Hr)) as Hm.
  unfold adx. rewrite !Hm by assumption. cbn [X1 a_at]. rewrite Z.add_assoc. apply unit_width.
  assert (E : (coord d (d_nwg (l_dec L1d_1 rank0)) <= 12)%Z) by (destruct d as [|[|[|d]]]; [vm_compute; congruence..|lia]).
  lia.
Qed.

(** Density 1, pressure 1, one scalar kind of value 1. *)
Definition G1 : gfields := mkG (fun _ => IZR one_code) (fun _ _ => IZR 1) (fun _ => IZR one_code) (fun _ _ => IZR one_code).
Definition E1d : Z := 23058430092136944642.
Definition x1 : cell := mkCell (IZR one_code) (fun _ => IZR 1) (IZR E1d) (fun _ => IZR one_code).
Definition p1 : prim := mkPrim (IZR one_code) (fun _ => IZR 1) (IZR one_code).
Definition q1 : cons := mkCons (IZR one_code) (fun _ => IZR 1) (IZR E1d).
Ltac eval64 := unfold lit; num.
Ltac fin := apply finite_code; vm_compute; reflexivity.
Ltac pla := apply plain_code; [vm_compute; reflexivity|vm_compute; congruence].
Lemma cons1 : ato_cons A 1 eos1 p1 = q1.
Proof.
  unfold ato_cons, p1, q1. cbn [p_rho p_u p_P]. f_equal.
  - apply functional_extensionality. intros d. eval64. reflexivity.
  - unfold eos1, apg_eos, aek_prim, asum, loop, apg_evol_from_temp, apg_temp_from_pres, akb, amp.
    cbn [eos_evol p_rho p_P p_u]. eval64. reflexivity.
Qed.
Lemma prim1 : ato_prim A 1 eos1 q1 = p1.
Proof.
  unfold ato_prim, q1, p1. cbn [q_rho q_m q_E]. f_equal.
  - apply functional_extensionality. intros d. eval64. reflexivity.
  - unfold aevol_cons, aek_cons, eos1, apg_eos, asum, loop, apg_temp_from_evol, apg_pres_from_temp, akb, amp.
    cbn [eos_pres q_rho q_m q_E]. eval64. reflexivity.
Qed.
Definition w1 : Z := 21826481935697146881.
Lemma speed1 : asum A 1 (fun d => a_div A (a_add A (a_abs A (IZR 1)) (eos_sound eos1 (IZR one_code) (IZR one_code))) (IZR one_code)) = IZR w1.
Proof. unfold asum, loop, eos1, apg_eos. cbn [eos_sound]. eval64. reflexivity. Qed.
Definition dt1 : Z := 31180688479567352831.
Lemma step1 : a_mul A (lit 5 1) (a_div A (a_lit A 1 0) (IZR w1)) = IZR dt1.
Proof. unfold w1. eval64. reflexivity. Qed.
Lemma fluxes1 : aflux_prim A 1 eos1 p1 0 = mkFlux (IZR 1) (fun d => if Nat.eqb d 0 then IZR one_code else IZR 1) (IZR 1).
Proof.
  unfold aflux_prim, aek_prim, p1, eos1, apg_eos, asum, loop, apg_evol_from_temp, apg_temp_from_pres, akb, amp.
  cbn [eos_evol p_rho p_u p_P]. f_equal; try (apply functional_extensionality; intros [|d]; cbn [Nat.eqb]).
  all: eval64; reflexivity.
Qed.
Lemma waves1 : awave_L A eos1 p1 p1 0 = IZR (- w1) /\ awave_R A eos1 p1 p1 0 = IZR w1.
Proof. unfold awave_L, awave_R, p1, eos1, apg_eos. cbn [eos_sound p_rho p_u p_P]. eval64. split; reflexivity. Qed.
Lemma solver1 : flux_finite A finite64 (ahll A 1 eos1 q1 q1 0) (fun n => IZR one_code) (IZR one_code).
Proof.
  destruct waves1 as (W1 & W2). unfold ahll. rewrite prim1, W1, W2, fluxes1. cbv zeta. unfold q1, aflux_hll.
  cbn [q_rho q_m q_E f_rho f_m f_E]. repeat split; cbn [f_rho f_m f_E].
  all: try (intros [|d]; cbn [Nat.eqb]). all: unfold w1; num; fin.
Qed.
Lemma flux1 : flux_finite A finite64 (aflux_prim A 1 eos1 p1 0) (fun n => IZR one_code) (IZR one_code).
Proof.
  rewrite fluxes1. repeat split; cbn [f_rho f_m f_E]. all: try (intros [|d]; cbn [Nat.eqb]). all: num; fin.
Qed.

Lemma next1 : next_cell A x1 = x1.
Proof.
  apply next_same. intros n. unfold carried. cbn [x1 c_fx c_rho]. num. split; [reflexivity|now split].
Qed.
Lemma iter1 k : Nat.iter k (next_cell A) x1 = x1.
Proof. apply iter_same, next1. Qed.
Lemma free1 : free_flow A K1 x1.
Proof.
  split; cbn [K1 k_geom k_bcs k_grav k_user k_pf]; try reflexivity; try discriminate.
  eexists. split; [reflexivity|]. intros d. reflexivity.
Qed.
Lemma calm1 dims L : laid_out K1 N1 dims X1 L -> calm A finite64 plain64 K1 dims L x1 (IZR dt1).
Proof.
  intros HL.
  assert (EP : cell_prim A K1 x1 = p1) by apply prim1.
  assert (EB : cell_back A K1 x1 = q1) by (unfold cell_back; rewrite EP; apply cons1).
  assert (H0 : plain64 (IZR 1) /\ finite64 (IZR 1)) by (split; [pla|fin]).
  split.
  - cbn [x1 c_rho c_rhou c_E]. split; [pla|]. split; [intros d; apply H0|pla].
  - rewrite EP. cbn [p1 p_u p_P]. split; [intros d; apply H0|pla].
  - rewrite EB. cbn [q1 q_m q_E]. split; [intros d; apply H0|pla].
  - rewrite EP, EB. cbn [q1 p1 q_m q_E p_u p_P x1 c_rho c_rhou c_fx].
    split; [fin|]. split; [intros d; apply H0|]. split; [fin|]. split; [intros d; apply H0|]. split; [intros d; apply H0|].
    split; [intros n; fin|]. split; [fin|]. num. fin.
  - intros n. cbn [x1 c_fx c_rho]. num; split; pla.
  - intros r c d Hr Hc Hd. cbn [K1 k_nd] in Hr, Hd. destruct d as [|d]; [|lia]. rewrite EP, EB. cbn [K1 k_geom k_nd k_eos k_sol]. cbv zeta.
    unfold acell_width, adv, ads, acart_dv, acart_ds.
    change (ii c) with (coord 0 c). change (jj c) with (coord 1 c). change (kk c) with (coord 2 c).
    rewrite !(dx1 dims L r c) by (assumption || lia). cbn [kron Nat.eqb]. num.
    split; [fin|]. split; [fin|]. split; [fin|]. split; [exact flux1|].
    replace (carried A x1) with (fun n : nat => IZR one_code)
      by (apply functional_extensionality; intros n; unfold carried; cbn [x1 c_fx c_rho]; num; reflexivity).
    exact solver1.
Qed.
Lemma values1 dims L S x : laid_out K1 N1 dims X1 L -> filled_with A K1 dims L x1 S ->
  In x (all_values K1 L (k_ng K1) (acell_inverse_dt A K1 L S)) -> x = IZR w1.
Proof.
  intros HL HS Hx. unfold all_values in Hx. apply in_flat_map in Hx. destruct Hx as (r & Hr & Hx).
  apply (in_ranks' K1 N1 dims X1 L HL) in Hr. apply in_map_iff in Hx. destruct Hx as (c & <- & Hc).
  apply sel_cells_in in Hc. apply (sel_array _ _ _ _ _ _ _ HL Hr) in Hc.
  destruct (HS r c Hr Hc) as (E1 & E2 & E3). rewrite <- speed1.
  unfold acell_inverse_dt. rewrite E1, E2, E3. replace (cell_prim A K1 x1) with p1 by (symmetry; apply prim1).
  cbn [K1 k_nd k_geom k_eos adx_geom p1 p_u p_P x1 c_rho]. unfold asum, loop.
  rewrite !(dx1 dims L r c) by (assumption || lia). reflexivity.
Qed.
Lemma calm_iter1 dims L : laid_out K1 N1 dims X1 L ->
  forall k S v, filled_with A K1 dims L (Nat.iter k (next_cell A) x1) S ->
  reduces A (all_values K1 L (k_ng K1) (acell_inverse_dt A K1 L S)) v ->
  calm A finite64 plain64 K1 dims L (Nat.iter k (next_cell A) x1) (a_mul A (lit 5 1) (a_div A (a_lit A 1 0) v)).
Proof.
  intros HL k S v. rewrite iter1. intros HS Hv.
  rewrite (reduces_const _ _ _ _ (IZR w1) v (fun x => values1 dims L S x HL HS) Hv), step1. now apply calm1.
Qed.
Lemma level1 dims L S : runs_on K1 N1 dims X1 L -> starts_from K1 dims L G1 S -> level A K1 dims L x1 (ainit_state A K1 L S).
Proof.
  intros HR HS. apply (flat_init A K1 N1 dims X1 L HR x1 G1 S free1 HS).
  intros c. split; [reflexivity|]. split; [reflexivity|]. symmetry. exact cons1.
Qed.
Lemma flat1 dims L S n t t' S' : runs_on K1 N1 dims X1 L -> level A K1 dims L x1 S ->
  aruns A K1 L (lit 5 1) n t S t' S' -> level A K1 dims L x1 S'.
Proof.
  intros HR HS H. rewrite <- (iter1 n).
  exact (flat_runs A finite64 plain64 (b64_cancelling dsin dcos dexp) K1 N1 dims X1 L HR (lit 5 1) n x1 t S t' S' free1 HS
           (calm_iter1 dims L (ro_layout HR)) H).
Qed.
Lemma good1 dims L n : runs_on K1 N1 dims X1 L -> forall t S, level A K1 dims L x1 S -> good_run A good64 K1 L (lit 5 1) n t S.
Proof.
  intros HR. pose proof (ro_layout HR) as HL. induction n as [|n IH]; intros t S HS; constructor.
  - intros x Hx. rewrite (values1 dims L S x HL (proj1 HS) Hx). apply good_code; vm_compute; congruence.
  - intros v Hv. cbv zeta. apply IH. rewrite <- next1.
    apply (level_step A finite64 plain64 (b64_cancelling dsin dcos dexp) K1 N1 dims X1 L HL (ro_thick HR) (ro_ng HR) (ro_faces HR)
             x1 free1 S t _ HS (calm_iter1 dims L HL 0%nat S v (proj1 HS) Hv)).
Qed.
(** The state written and read again is the state itself. *)
Lemma exact1 dims L S : runs_on K1 N1 dims X1 L -> level A K1 dims L x1 S -> forall r c, process 1 dims r ->
  owned 1 2 (d_nloc (l_dec L r)) c ->
  ato_cons A 1 eos1 (ato_prim A 1 eos1 (cons_of (s_cell (S r) c))) = cons_of (s_cell (S r) c).
Proof.
  intros HR [HS _] r c Hr Hc. pose proof (ro_layout HR) as HL.
  assert (Hin : in_array (d_nwg (l_dec L r)) c).
  { apply (sel_array _ _ _ _ _ _ _ HL Hr). apply (sel_mono _ _ _ _ _ 0 _ _ _ HL Hr); [cbn; lia|].
    now apply (sel_owned _ _ _ _ _ _ _ HL Hr). }
  destruct (HS r c Hr Hin) as (-> & _). change (cons_of x1) with q1. rewrite prim1. exact cons1.
Qed.
End Ex.

(** ** Statements of PropArith.v *)
Lemma iter_const (z : Z) : next_code z = z -> forall n, (fun _ : nat => Nat.iter n next_code z) = (fun _ => z).
Proof.
  intros E n. apply functional_extensionality. intros _. induction n as [|n IH]; [reflexivity|].
  change (next_code (Nat.iter n next_code z) = z). now rewrite IH.
Qed.
Lemma restart_one dsin dcos dexp dims L dims2 L2 n t S t' S' S2 : let A := b64 dsin dcos dexp in let K := K64 dsin dcos dexp in
  runs_on K ex_N dims X64 L -> runs_on K ex_N dims2 X64 L2 -> starts_from K dims L (G64 (fun _ => IZR one_code)) S ->
  aruns A K L (lit 5 1) n t (ainit_state A K L S) t' S' -> starts_from K dims2 L2 (file64 (fun _ => one_code)) S2 ->
  starts_from K dims L (file64 (fun _ => one_code)) S' /\
  (forall r c, process 2 dims r -> in_array (d_nwg (l_dec L r)) c -> s_P (S' r) c = IZR P_code /\ c_E (s_cell (S' r) c) = IZR E_code) /\
  (forall r c, process 2 dims2 r -> in_array (d_nwg (l_dec L2 r)) c ->
     s_P (ainit_state A K L2 S2 r) c = IZR P2_code /\ c_E (s_cell (ainit_state A K L2 S2 r) c) = IZR E1_code).
Proof.
  intros A K HR HR2 HS H HS2. pose proof (restart64 dsin dcos dexp dims L dims2 L2 (fun _ => one_code) n t S t' S' S2 HR HR2) as E.
  cbv beta zeta in E. rewrite (iter_const one_code eq_refl n) in E. apply E; try assumption. intros j. right. right. left. reflexivity.
Qed.

Lemma rest_example : forall dsin dcos dexp n n2, let A := b64 dsin dcos dexp in let K := K1 dsin dcos dexp in
  let L := L1d_1 dsin dcos dexp in let L2 := L1d dsin dcos dexp in
  ordered A good64 /\ runs_on K N1 one_process X1 L /\ runs_on K N1 dims1 X1 L2 /\ local_gravity K /\
  exists t1 S1 t2 S2 t3 S3, let S0 := the_state K L G1 in
  starts_from K one_process L G1 S0 /\
  good_run A good64 K L (lit 5 1) n (lit 0 0) (ainit_state A K L S0) /\ good_run A good64 K L (lit 5 1) n2 t1 S1 /\
  aruns A K L (lit 5 1) n (lit 0 0) (ainit_state A K L S0) t1 S1 /\ aruns A K L (lit 5 1) n2 t1 S1 t2 S2 /\
  (forall r c, process 1 one_process r -> owned 1 2 (d_nloc (l_dec L r)) c ->
     ato_cons A 1 (k_eos K) (ato_prim A 1 (k_eos K) (cons_of (s_cell (S1 r) c))) = cons_of (s_cell (S1 r) c)) /\
  starts_from K one_process L G1 S1 /\
  aruns A K L2 (lit 5 1) n2 t1 (ainit_state A K L2 (the_state K L2 G1)) t3 S3.
Proof.
  intros dsin dcos dexp n n2. cbv zeta. pose proof (runs1 dsin dcos dexp) as HR2. pose proof (runs1_1 dsin dcos dexp) as HR.
  split; [apply b64_ordered|]. split; [exact HR|]. split; [exact HR2|]. split; [intros M; discriminate|].
  set (A := b64 dsin dcos dexp). set (K := K1 dsin dcos dexp) in *. set (L := L1d_1 dsin dcos dexp) in *.
  pose proof (the_state_ok K one_process L G1) as H0.
  pose proof (level1 dsin dcos dexp one_process L _ HR H0) as HL0.
  destruct (runs_exist A K N1 one_process X1 L (lit 5 1) n (ro_layout HR) (lit 0 0) (ainit_state A K L (the_state K L G1))) as (t1 & S1 & R1).
  pose proof (flat1 dsin dcos dexp one_process L _ n _ _ _ HR HL0 R1) as HL1.
  destruct (runs_exist A K N1 one_process X1 L (lit 5 1) n2 (ro_layout HR) t1 S1) as (t2 & S2 & R2).
  destruct (runs_exist A K N1 dims1 X1 (L1d dsin dcos dexp) (lit 5 1) n2 (ro_layout HR2) t1
              (ainit_state A K (L1d dsin dcos dexp) (the_state K (L1d dsin dcos dexp) G1))) as (t3 & S3 & R3).
  exists t1, S1, t2, S2, t3, S3. cbv zeta. split; [exact H0|].
  split; [exact (good1 dsin dcos dexp one_process L n HR _ _ HL0)|].
  split; [exact (good1 dsin dcos dexp one_process L n2 HR _ _ HL1)|].
  split; [exact R1|]. split; [exact R2|]. split; [exact (exact1 dsin dcos dexp one_process L S1 HR HL1)|].
  split; [|exact R3].
  assert (Hin : forall r c, process 1 one_process r -> owned 1 2 (d_nloc (l_dec L r)) c -> in_array (d_nwg (l_dec L r)) c).
  { intros r c Hr Hc. apply (sel_array _ _ _ _ _ _ _ (ro_layout HR) Hr). apply (sel_mono _ _ _ _ _ 0 _ _ _ (ro_layout HR) Hr); [cbn; lia|].
    now apply (sel_owned _ _ _ _ _ _ _ (ro_layout HR) Hr). }
  assert (EP : cell_prim (b64 dsin dcos dexp) (K1 dsin dcos dexp) x1 = p1) by apply prim1.
  split; intros r Hr c Hc; cbn beta; destruct (proj1 HL1 r c Hr (Hin r c Hr Hc)) as (E1 & E2 & E3);
    rewrite ?E1, ?E2, ?E3, ?EP; reflexivity.
Qed.

Lemma iter_parts A K x n : c_rho (Nat.iter n (next_cell A) x) = c_rho x /\ c_rhou (Nat.iter n (next_cell A) x) = c_rhou x /\
  c_E (Nat.iter n (next_cell A) x) = c_E x /\ cell_prim A K (Nat.iter n (next_cell A) x) = cell_prim A K x.
Proof.
  induction n as [|n (H1 & H2 & H3 & H4)]; [repeat split; reflexivity|].
  change (Nat.iter (S n) (next_cell A) x) with (next_cell A (Nat.iter n (next_cell A) x)).
  split; [exact H1|]. split; [exact H2|]. split; [exact H3|]. rewrite <- H4. reflexivity.
Qed.
Lemma uniform_bits : forall A finite plain, cancelling A finite plain -> forall K N dims X L, runs_on K N dims X L ->
  forall x G S cfl n t t' S', free_flow A K x -> starts_from K dims L G S ->
  (forall c, g_rho G c = c_rho x /\ g_fx G c = c_fx x /\
     mkCons (c_rho x) (c_rhou x) (c_E x) = ato_cons A (k_nd K) (k_eos K) (mkPrim (g_rho G c) (g_u G c) (g_P G c))) ->
  (forall k S v, filled_with A K dims L (Nat.iter k (next_cell A) x) S ->
     reduces A (all_values K L (k_ng K) (acell_inverse_dt A K L S)) v ->
     calm A finite plain K dims L (Nat.iter k (next_cell A) x) (a_mul A cfl (a_div A (a_lit A 1 0) v))) ->
  aruns A K L cfl n t (ainit_state A K L S) t' S' ->
  forall r c, process (k_nd K) dims r -> in_array (d_nwg (l_dec L r)) c ->
    c_rho (s_cell (S' r) c) = c_rho x /\ c_rhou (s_cell (S' r) c) = c_rhou x /\ c_E (s_cell (S' r) c) = c_E x /\
    s_u (S' r) c = p_u (cell_prim A K x) /\ s_P (S' r) c = p_P (cell_prim A K x) /\
    c_fx (s_cell (S' r) c) = c_fx (Nat.iter n (next_cell A) x).
Proof.
  intros A finite plain HC K N dims X L HR x G S cfl n t t' S' HF HS HG Hq H r c Hr Hc.
  destruct (flat_runs A finite plain HC K N dims X L HR cfl n x t _ t' S' HF (flat_init A K N dims X L HR x G S HF HS HG) Hq H) as [HB _].
  destruct (HB r c Hr Hc) as (E1 & E2 & E3). destruct (iter_parts A K x n) as (I1 & I2 & I3 & I4).
  rewrite E1, E2, E3, I1, I2, I3, I4. repeat split.
Qed.
Lemma scalars_change : forall dsin dcos dexp, let A := b64 dsin dcos dexp in
  exists K N X rho u P fx fx' cfl, fx <> fx' /\
  forall dims L S n t t' S', runs_on K N dims X L ->
  starts_from K dims L (mkG (fun _ => rho) (fun _ => u) (fun _ => P) (fun _ _ => fx)) S ->
  aruns A K L cfl (Datatypes.S n) t (ainit_state A K L S) t' S' ->
  forall r c, process (k_nd K) dims r -> in_array (d_nwg (l_dec L r)) c -> c_fx (s_cell (S' r) c) 0%nat = fx'.
Proof.
  intros dsin dcos dexp A. exists (K64 dsin dcos dexp), ex_N, X64, (lit 3 0), u64, (lit 12 0), (IZR tenth), (IZR tenth'), (lit 5 1).
  split; [apply IZR_neq; discriminate|].
  intros dims L S n t t' S' HR HS H r c Hr Hc.
  destruct (flat64 dsin dcos dexp dims L (fun _ => tenth) S (Datatypes.S n) t t' S' HR) as [HF _]; [intros j; left; reflexivity|exact HS|exact H|].
  destruct (HF r c Hr Hc) as (-> & _). cbn [c64 x64 c_fx]. f_equal. rewrite iter_inside.
  change (next_code tenth) with tenth'. exact (f_equal (fun f => f 0%nat) (iter_const tenth' eq_refl n)).
Qed.
