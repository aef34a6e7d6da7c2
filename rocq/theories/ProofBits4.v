(** * Change of units by powers of two: the range of binary64, and an example. *)
From Coq Require Import Lia.
From Flocq Require Import Core.Core IEEE754.BinarySingleNaN.
From Verif Require Import Base RBase ModelMesh ModelGeom ModelBoundary ModelHydro ModelScheme ModelStep ModelArith ModelFloat ModelArith64
  SpecBoundary SpecHydro SpecStep SpecArith SpecBits
  ProofBoundary ProofBoundary2 ProofLayout ProofStepEx ProofArith64 ProofArithEx2 ProofBits ProofBits2 ProofBits3.
Local Open Scope R_scope.

Definition tiny : double := BinarySingleNaN.binary_normalize 53 1024 prec64 emax64 mode_NE 1 (-600) false.
Lemma kinetic_range : forall dsin dcos dexp, let A := b64 dsin dcos dexp in
  exists m, B2R m = bpow radix2 (-600) /\
  forall E, aek_cons A 1 (mkCons (enc (dlit 1 0)) (fun _ => enc (dlit 1 0)) E) = enc (dlit 5 1) /\
            aek_cons A 1 (mkCons (enc (dlit 1 0)) (fun _ => enc m) E) = enc (dlit 0 0).
Proof.
  intros dsin dcos dexp A. exists tiny. split.
  - rewrite <- SF2R_B2SF. replace (B2SF tiny) with (SpecFloat.S754_finite false 4503599627370496 (-652)) by (vm_compute; reflexivity).
    unfold SF2R, F2R. cbn [cond_Zopp Fnum Fexp]. 
    assert (H : IZR 4503599627370496 = bpow radix2 52) by (rewrite <- IZR_Zpower by lia; apply f_equal; vm_compute; reflexivity).
    rewrite H.
    rewrite <- bpow_plus. reflexivity.
  - intros E. unfold A, aek_cons, asum, loop, b64; cbn [a_add a_mul a_div a_lit q_m q_rho]. unfold op2. rewrite !dec_enc.
    split; apply (f_equal enc), B2SF_inj; vm_compute; reflexivity.
Qed.

Definition K106 (A : arith) : config :=
  mkConfig Cartesian 2 2 (apg_eos A (7 / 5) 1) LVanLeer HLLC (Some (1 / 100)) UOff (GPointMass 3) (fun _ => Reflexive) [2; 3; 0; 1]%nat.
Definition X106 : nat -> arr1 := fun d => mkArr1 (match d with O => 12 | S O => 10 | _ => 2 end)%Z (fun i => IZR i).
Lemma laid106 A : laid_out (K106 A) ex_N ex_dims X106 (the_layout (K106 A) ex_N ex_dims X106).
Proof.
  apply the_layout_ok; cbn [K106 k_nd k_ng]; try lia.
  - dims3; vm_compute; congruence.
  - dims3; vm_compute; congruence.
  - intros d Hd. destruct d as [|[|[|d]]]; [reflexivity..|lia].
Qed.
Lemma example106 : forall fsin fcos fexp n, let A := unbounded 53 ZnearestE fsin fcos fexp in
  let K := K106 A in let L := the_layout K ex_N ex_dims X106 in let w := mkPowers 70 (-9) 5 (fun _ => 5%Z) in
  exponent_shift A times_power /\ fits times_power w K /\ laid_out K ex_N ex_dims X106 L /\ w_T w = 14%Z /\
  forall t S, exists t' S', aruns A K L (1 / 2) n t S t' S' /\
    aruns A (config_by times_power w K) (layout_by times_power w L) (1 / 2) n (times_power 14 t) (states_by times_power w S)
      (times_power 14 t') (states_by times_power w S').
Proof.
  intros fsin fcos fexp n A K L w.
  assert (HA : exponent_shift A times_power) by (apply unbounded_shift, valid_rnd_N).
  assert (HK : fits times_power w K).
  { split; [intros d Hd; reflexivity|]. split; [cbn; lia|]. split; [now apply perfect_gas_shifted|]. split; [intros M; discriminate|reflexivity]. }
  split; [exact HA|]. split; [exact HK|]. split; [apply laid106|]. split; [reflexivity|].
  intros t S. destruct (runs_exist A K ex_N ex_dims X106 L (1 / 2) n (laid106 A) t S) as (t' & S' & H).
  exists t', S'. split; [exact H|]. exact (runs_by A times_power HA w K L HK (1 / 2) n t S t' S' H).
Qed.
