(** * Units changed by powers of two (C106): theorems only. *)
From Flocq Require Import Core.Core IEEE754.BinarySingleNaN.
From Verif Require Import Base RBase ModelMesh ModelGeom ModelBoundary ModelHydro ModelScheme ModelStep ModelArith ModelFloat ModelArith64
  SpecBoundary SpecHydro SpecStep SpecArith SpecBits
  ProofBoundary ProofBoundary2 ProofLayout ProofStepEx ProofArith64 ProofArithEx2 ProofBits ProofBits2 ProofBits3 ProofBits4.
Local Open Scope R_scope.

(** C106: wherever the operations respect a shift of the binary exponents, the runs in the new units are exactly
    the runs in the old units with the exponents shifted: whole runs, with every order of the reductions. *)
Theorem C106_whole_runs :
  forall A sc, exponent_shift A sc -> forall w K, fits sc w K -> forall L cfl n t S t' S',
  aruns A (config_by sc w K) (layout_by sc w L) cfl n (sc (w_T w) t) (states_by sc w S) (sc (w_T w) t') (states_by sc w S') <->
  aruns A K L cfl n t S t' S'.
Proof. exact runs_iff. Qed.
Print Assumptions C106_whole_runs.

(** There are no other runs in the new units. *)
Theorem C106_no_other_runs :
  forall A sc, exponent_shift A sc -> forall w K, fits sc w K -> forall L cfl n t S t1 S1,
  aruns A (config_by sc w K) (layout_by sc w L) cfl n (sc (w_T w) t) (states_by sc w S) t1 S1 ->
  exists t' S', t1 = sc (w_T w) t' /\ S1 = states_by sc w S' /\ aruns A K L cfl n t S t' S'.
Proof. exact runs_all. Qed.
Print Assumptions C106_no_other_runs.

(** The start from primitive fields, and one step of given length. *)
Theorem C106_start_and_step :
  forall A sc, exponent_shift A sc -> forall w K, fits sc w K -> forall L S t t' dt,
  ainit_state A (config_by sc w K) (layout_by sc w L) (states_by sc w S) = states_by sc w (ainit_state A K L S) /\
  afull_step A (config_by sc w K) (layout_by sc w L) t' (sc (w_T w) dt) (states_by sc w S) = states_by sc w (afull_step A K L t dt S).
Proof. intros A sc HA w K HK L S t t' dt. split; [exact (init_state_by A sc HA w K L HK S)|exact (full_step_by A sc HA w K L HK t t' dt S)]. Qed.
Print Assumptions C106_start_and_step.

(** Multiplication by powers of two is such a shift in radix 2 with any precision, any rounding, any sin, cos and
    exp, as long as no exponent overflows or underflows. *)
Theorem C106_rounded_arithmetic :
  forall prec rnd, Valid_rnd rnd -> forall fsin fcos fexp, exponent_shift (unbounded prec rnd fsin fcos fexp) times_power.
Proof. exact unbounded_shift. Qed.
Print Assumptions C106_rounded_arithmetic.

(** The perfect gas computes alike in both units. *)
Theorem C106_perfect_gas :
  forall A sc, exponent_shift A sc -> forall w gamma mmw, shifted_gas sc w (apg_eos A gamma mmw).
Proof. exact perfect_gas_shifted. Qed.
Print Assumptions C106_perfect_gas.

(** The range matters: in binary64 a unit momentum in unit density has kinetic energy 1/2, a momentum of 2^-600 none. *)
Theorem C106_binary64_range :
  forall dsin dcos dexp, let A := b64 dsin dcos dexp in
  exists m, B2R m = bpow radix2 (-600) /\
  forall E, aek_cons A 1 (mkCons (enc (dlit 1 0)) (fun _ => enc (dlit 1 0)) E) = enc (dlit 5 1) /\
            aek_cons A 1 (mkCons (enc (dlit 1 0)) (fun _ => enc m) E) = enc (dlit 0 0).
Proof. exact kinetic_range. Qed.
Print Assumptions C106_binary64_range.

(** A point mass around which a gas flows in 2-D, with precision 53 and rounding to nearest: the units of density,
    velocity and length are multiplied by 2^70, 2^-9 and 2^5. *)
Example C106_example : forall fsin fcos fexp n, let A := unbounded 53 ZnearestE fsin fcos fexp in
  let K := K106 A in let L := the_layout K ex_N ex_dims X106 in let w := mkPowers 70 (-9) 5 (fun _ => 5%Z) in
  exponent_shift A times_power /\ fits times_power w K /\ laid_out K ex_N ex_dims X106 L /\ w_T w = 14%Z /\
  forall t S, exists t' S', aruns A K L (1 / 2) n t S t' S' /\
    aruns A (config_by times_power w K) (layout_by times_power w L) (1 / 2) n (times_power 14 t) (states_by times_power w S)
      (times_power 14 t') (states_by times_power w S').
Proof. exact example106. Qed.
