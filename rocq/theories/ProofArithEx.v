(** * A uniform flow in binary64: 7 x 5 cells on 3 x 2 processes. *)
From Coq Require Import FunctionalExtensionality ZifyBool ZifyNat.
From Flocq Require Import IEEE754.BinarySingleNaN.
From Verif Require Import Base RBase ModelMesh ModelGeom ModelBoundary ModelHydro ModelScheme ModelStep ModelArith ModelFloat ModelArith64
  SpecMesh SpecGeom SpecBoundary SpecHydro SpecScheme SpecStep SpecArith
  ProofBase ProofMesh ProofR ProofBoundary ProofBoundary2 ProofHydro ProofScheme ProofMirror ProofShift ProofReduce ProofStep
  ProofLayout ProofSteady ProofStepEx ProofArithReal ProofArith ProofArith64 ProofArithNum ProofArithUniform ProofArithRestart.
Local Open Scope R_scope.

(** The code of the literal m / 10^k. *)
Definition lit (m : Z) (k : nat) : R := IZR (code (dlit m k)).
Definition one_code : Z := Eval vm_compute in code (dlit 1 0).

Section Ex.
Variables dsin dcos dexp : double -> double.
Notation A := (b64 dsin dcos dexp).

(** gamma = 5/3 as written in a parameter file, molar mass 1 *)
Definition eos64 : eos := apg_eos A (lit 16666666666666667 16) (lit 1 0).
Definition K64 : config :=
  mkConfig Cartesian 2 2 eos64 LVanLeer HLLC None UOff (GUniform (fun _ => lit 0 0)) (fun _ => Periodic) [2; 3; 0; 1]%nat.
Definition X64 : nat -> arr1 := fun d =>
  mkArr1 (match d with O => 12 | S O => 10 | _ => 2 end)%Z (fun i => lit i 0).
Definition L64 : layout := the_layout K64 ex_N ex_dims X64.
Definition L64_1 : layout := the_layout K64 ex_N one_process X64.

Lemma coords64 : global_coords 2 ex_N 2 X64.
Proof. intros d Hd. destruct d as [|[|[|d]]]; [reflexivity..|lia]. Qed.
Lemma laid64_1 : laid_out K64 ex_N one_process X64 L64_1.
Proof.
  apply the_layout_ok; cbn [K64 k_nd k_ng]; try lia; [| |exact coords64]; dims3; vm_compute; congruence.
Qed.
Lemma runs64 : runs_on K64 ex_N ex_dims X64 L64.
Proof.
  assert (H3 : forall d, (d < 3)%nat -> (1 <= coord d ex_N)%Z) by (dims3; vm_compute; congruence).
  assert (H4 : forall d, (d < 3)%nat -> (1 <= coord d (mpi_dims 2 ex_dims))%Z) by (dims3; vm_compute; congruence).
  split; cbn [K64 k_nd k_ng k_order].
  - apply the_layout_ok; cbn [K64 k_nd k_ng]; try lia; [exact H3|exact H4|exact coords64].
  - unfold L64, the_layout. cbn [l_dec K64 k_nd k_ng]. apply decs_thick; try lia; [exact H3|exact H4|].
    intros d Hd; destruct d as [|[|d]]; [| |lia]; vm_compute; congruence.
  - lia.
  - intros f Hf. cbn in Hf. lia.
  - exact I.
Qed.
Lemma runs64_1 : runs_on K64 ex_N one_process X64 L64_1.
Proof.
  assert (H3 : forall d, (d < 3)%nat -> (1 <= coord d ex_N)%Z) by (dims3; vm_compute; congruence).
  assert (H4 : forall d, (d < 3)%nat -> (1 <= coord d (mpi_dims 2 one_process))%Z) by (dims3; vm_compute; congruence).
  split; cbn [K64 k_nd k_ng k_order].
  - exact laid64_1.
  - unfold L64_1, the_layout. cbn [l_dec K64 k_nd k_ng]. apply decs_thick; try lia; [exact H3|exact H4|].
    intros d Hd; destruct d as [|[|d]]; [| |lia]; vm_compute; congruence.
  - lia.
  - intros f Hf. cbn in Hf. lia.
  - exact I.
Qed.
Lemma gravity64 : local_gravity K64.
Proof. intros M. discriminate. Qed.

(** *** Unit cells *)
Lemma unit_width k : (0 <= k <= 12)%Z -> a_sub A (lit (k + 1) 0) (lit k 0) = IZR one_code.
Proof.
  intros Hk. unfold lit. rewrite e_sub. f_equal.
  assert (H : forallb (fun k => (z2 dminus (code (dlit (k + 1) 0)) (code (dlit k 0)) =? one_code)%Z)
                (map Z.of_nat (seq 0 13)) = true) by (vm_compute; reflexivity).
  rewrite forallb_forall in H. apply Z.eqb_eq. apply H. apply in_map_iff. exists (Z.to_nat k). split; [lia|].
  apply in_seq. lia.
Qed.
Lemma dx64 dims L r c d : laid_out K64 ex_N dims X64 L -> process 2 dims r -> in_array (d_nwg (l_dec L r)) c -> (d < 3)%nat ->
  adx A (l_mesh L r) d (coord d c) = IZR one_code.
Proof.
  intros HL Hr Hc Hd.
  pose proof (proj2 (sel_array _ _ _ _ _ _ _ HL Hr) Hc) as Hs.
  pose proof (sel_slice K64 ex_N dims X64 L L64_1 HL laid64_1 _ _ _ Hr Hs) as H1.
  apply (sel_array _ _ _ _ _ _ _ laid64_1 (rank0_ok 2)) in H1. specialize (H1 d Hd). rewrite coord_iadd in H1 by assumption.
  pose proof (set_grid_at _ _ _ (lo_mesh HL Hr)) as Hm.
  unfold adx. rewrite !Hm by assumption. cbn [X64 a_at]. rewrite Z.add_assoc. apply unit_width.
  assert (E : (coord d (d_nwg (l_dec L64_1 rank0)) <= 12)%Z) by (destruct d as [|[|[|d]]]; [vm_compute; congruence..|lia]).
  lia.
Qed.

(** *** The flow: density 3, velocity (3, 1/2), pressure 12 *)
Definition u64 : vec := fun d => match d with O => lit 3 0 | 1%nat => lit 5 1 | _ => lit 0 0 end.
Definition G64 (fx : vec) : gfields := mkG (fun _ => lit 3 0) (fun _ => u64) (fun _ => lit 12 0) (fun _ => fx).
Definition rho_code : Z := Eval vm_compute in code (dlit 3 0).
Definition m_code (d : nat) : Z := match d with O => code (dlit 9 0) | 1%nat => code (dlit 15 1) | _ => code (dlit 0 0) end.
Definition E_code : Z := 36749372959343244293.
Definition x64 (fx : vec) : cell := mkCell (IZR rho_code) (fun d => IZR (m_code d)) (IZR E_code) fx.

Ltac eval64 := unfold lit; num.
Lemma init64 fx c : mkCons (c_rho (x64 fx)) (c_rhou (x64 fx)) (c_E (x64 fx))
  = ato_cons A 2 eos64 (mkPrim (g_rho (G64 fx) c) (g_u (G64 fx) c) (g_P (G64 fx) c)).
Proof.
  unfold ato_cons. cbn [G64 g_rho g_u g_P p_rho p_u p_P x64 c_rho c_rhou c_E]. f_equal.
  - apply functional_extensionality. intros [|[|d]]; unfold u64; eval64; reflexivity.
  - unfold eos64, apg_eos, aek_prim, asum, loop, u64, apg_evol_from_temp, apg_temp_from_pres, akb, amp.
    cbn [eos_evol p_rho p_P p_u]. eval64. reflexivity.
Qed.
Definition u_code (d : nat) : Z := match d with O => code (dlit 3 0) | 1%nat => code (dlit 5 1) | _ => code (dlit 0 0) end.
Definition P_code : Z := 27670116110564324356.
Definition p64 : prim := mkPrim (IZR rho_code) (fun d => IZR (u_code d)) (IZR P_code).
Lemma prim64 : ato_prim A 2 eos64 (mkCons (IZR rho_code) (fun d => IZR (m_code d)) (IZR E_code)) = p64.
Proof.
  unfold ato_prim, p64. cbn [q_rho q_m q_E]. f_equal.
  - apply functional_extensionality. intros [|[|d]]; unfold m_code, u_code; eval64; reflexivity.
  - unfold aevol_cons, aek_cons, eos64, apg_eos, asum, loop, m_code, apg_temp_from_evol, apg_pres_from_temp, akb, amp.
    cbn [eos_pres q_rho q_m q_E]. eval64. reflexivity.
Qed.
Definition E1_code : Z := 36749372959343240197.
Definition q64 : cons := mkCons (IZR rho_code) (fun d => IZR (m_code d)) (IZR E1_code).
Lemma back64 : ato_cons A 2 eos64 p64 = q64.
Proof.
  unfold ato_cons, p64, q64. cbn [p_rho p_u p_P]. f_equal.
  - apply functional_extensionality. intros [|[|d]]; unfold u_code, m_code; eval64; reflexivity.
  - unfold eos64, apg_eos, aek_prim, asum, loop, u_code, apg_evol_from_temp, apg_temp_from_pres, akb, amp.
    cbn [eos_evol p_rho p_P p_u]. eval64. reflexivity.
Qed.
Definition P2_code : Z := 27670116110564320260.
Definition p64' : prim := mkPrim (IZR rho_code) (fun d => IZR (u_code d)) (IZR P2_code).
Lemma prim64' : ato_prim A 2 eos64 q64 = p64'.
Proof.
  unfold ato_prim, q64, p64'. cbn [q_rho q_m q_E]. f_equal.
  - apply functional_extensionality. intros [|[|d]]; unfold m_code, u_code; eval64; reflexivity.
  - unfold aevol_cons, aek_cons, eos64, apg_eos, asum, loop, m_code, apg_temp_from_evol, apg_pres_from_temp, akb, amp.
    cbn [eos_pres q_rho q_m q_E]. eval64. reflexivity.
Qed.

Definition w_code : Z := 19977772630452503556.
Lemma speed64 : asum A 2 (fun d => a_div A (a_add A (a_abs A (IZR (u_code d))) (eos_sound eos64 (IZR rho_code) (IZR P_code))) (IZR one_code)) = IZR w_code.
Proof. unfold asum, loop, eos64, apg_eos, u_code. cbn [eos_sound]. eval64. reflexivity. Qed.
Definition dt_code : Z := 34066096678089081852.
Lemma dt64 : a_mul A (lit 5 1) (a_div A (a_lit A 1 0) (IZR w_code)) = IZR dt_code.
Proof. unfold w_code. eval64. reflexivity. Qed.

(** 0.1, the next double above it, and 1 *)
Definition tenth : Z := Eval vm_compute in code (dlit 1 1).
Definition tenth' : Z := 29514790517935289341.
Definition fx_codes : list Z := [tenth; tenth'; one_code].
Lemma carried_tenth : a_div A (a_mul A (IZR tenth) (IZR rho_code)) (IZR rho_code) = IZR tenth'.
Proof. unfold tenth. eval64. reflexivity. Qed.

Ltac fin := apply finite_code; vm_compute; reflexivity.
Ltac pla := apply plain_code; [vm_compute; reflexivity|vm_compute; congruence].
Lemma flux64 d z : (d < 2)%nat -> (forall n, In (z n) fx_codes) ->
  flux_finite A finite64 (aflux_prim A 2 eos64 p64 d) (fun n => IZR (z n)) (IZR one_code).
Proof.
  intros Hd Hz. unfold aflux_prim, aek_prim, p64, eos64, apg_eos, asum, loop, apg_evol_from_temp, apg_temp_from_pres, akb, amp.
  cbn [eos_evol p_rho p_u p_P].
  destruct d as [|[|d]]; [| |lia]; repeat split; cbn [f_rho f_m f_E].
  all: try (intros n; destruct (Hz n) as [E|[E|[E|[]]]]; rewrite <- E).
  all: try (intros [|[|d]]; cbn [Nat.eqb]).
  all: unfold u_code; eval64; fin.
Qed.
Lemma waves64 : awave_L A eos64 p64' p64' 0 = IZR 30843775313241441279 /\ awave_R A eos64 p64' p64' 0 = IZR 25742380153486738435 /\
  awave_L A eos64 p64' p64' 1 = IZR (-19202958177981760514) /\ awave_R A eos64 p64' p64' 1 = IZR 28426330214836536322.
Proof.
  unfold awave_L, awave_R, p64', eos64, apg_eos. cbn [eos_sound p_rho p_u p_P]. unfold u_code. eval64. repeat split; reflexivity.
Qed.
Definition f_code (d : nat) (j : nat) : Z :=
  match d with
  | O => match j with O => 22481969339833517062 | 1%nat => 20752587082923246595 | _ => 1 end
  | _ => match j with O => 20752587082923246595 | 1%nat => 29399498367474590724 | _ => 1 end
  end.
Lemma fluxes64' : aflux_prim A 2 eos64 p64' 0 = mkFlux (IZR 20752587082923246596) (fun d => IZR (f_code 0 d)) (IZR 18969161630484521992) /\
  aflux_prim A 2 eos64 p64' 1 = mkFlux (IZR 27670116110564328449) (fun d => IZR (f_code 1 d)) (IZR 25292215507312698373).
Proof.
  unfold aflux_prim, aek_prim, p64', eos64, apg_eos, asum, loop, apg_evol_from_temp, apg_temp_from_pres, akb, amp.
  cbn [eos_evol p_rho p_u p_P]. unfold u_code. split; f_equal; try (apply functional_extensionality; intros [|[|d]]; cbn [Nat.eqb]). 
  all: eval64; reflexivity.
Qed.
Lemma solver64_x z : (forall n, In (z n) fx_codes) ->
  flux_finite A finite64 (ahllc A 2 eos64 q64 q64 0) (fun n => IZR (z n)) (IZR one_code).
Proof.
  intros Hz. destruct waves64 as (W1 & W2 & W3 & W4). destruct fluxes64' as (F1 & F2).
  unfold ahllc. rewrite prim64', W1, W2, F1. cbv zeta. unfold p64', q64. cbn [p_rho p_u p_P q_rho q_m q_E f_rho f_m f_E]. num.
  repeat split; cbn [f_rho f_m f_E].
  all: try (intros n; destruct (Hz n) as [E|[E|[E|[]]]]; rewrite <- E).
  all: try (intros [|[|d]]; cbn [Nat.eqb f_code]).
  all: num; fin.
Qed.
Lemma solver64_y z : (forall n, In (z n) fx_codes) ->
  flux_finite A finite64 (ahllc A 2 eos64 q64 q64 1) (fun n => IZR (z n)) (IZR one_code).
Proof.
  intros Hz. destruct waves64 as (W1 & W2 & W3 & W4). destruct fluxes64' as (F1 & F2).
  unfold ahllc. rewrite prim64', W3, W4, F2. cbv zeta. unfold p64', q64, aflux_hllc. cbn [p_rho p_u p_P q_rho q_m q_E f_rho f_m f_E].
  cbn [u_code m_code]. num. cbn [p_rho p_u p_P q_rho q_m q_E f_rho f_m f_E u_code]. num.
  repeat split; cbn [f_rho f_m f_E].
  all: try (intros n; destruct (Hz n) as [E|[E|[E|[]]]]; rewrite <- E).
  all: try (intros [|[|d]]; cbn [Nat.eqb u_code m_code f_code]).
  all: num; fin.
Qed.

End Ex.
