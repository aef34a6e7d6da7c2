(** * C60: the Riemann solvers obey the jump conditions of their wave models. *)
From Verif Require Import Base RBase ModelMesh ModelGeom ModelHydro SpecHydro ProofHydro3 ProofJump.
Local Open Scope R_scope.

(** HLL: with the outermost acoustic speeds, one intermediate state satisfies both jump conditions and
    the flux is that of the region containing the interface. *)
Theorem C60_hll_two_waves :
  forall nd e, lawful_eos e -> forall qL qR dir, valid_cons nd qL -> valid_cons nd qR ->
  exists sL sR U F,
    sL = Rmin (velocity qL dir - sound nd e qL) (velocity qR dir - sound nd e qR) /\
    sR = Rmax (velocity qL dir + sound nd e qL) (velocity qR dir + sound nd e qR) /\
    sL < sR /\
    jump sL U qL F (euler_flux nd e qL dir) /\
    jump sR U qR F (euler_flux nd e qR dir) /\
    hll nd e qL qR dir = (if rleb 0 sL then euler_flux nd e qL dir
                          else if rleb sR 0 then euler_flux nd e qR dir else F).
Proof. exact hll_wave_model. Qed.
Print Assumptions C60_hll_two_waves.

(** HLLC: two intermediate states of positive density with common normal velocity and pressure and the
    tangential velocities of their sides satisfy the jump conditions. *)
Theorem C60_hllc_three_waves :
  forall nd e, lawful_eos e -> forall qL qR dir, valid_cons nd qL -> valid_cons nd qR ->
  exists sL us sR P UL UR,
    sL = Rmin (velocity qL dir - sound nd e qL) (velocity qR dir - sound nd e qR) /\
    sR = Rmax (velocity qL dir + sound nd e qL) (velocity qR dir + sound nd e qR) /\
    sL < us < sR /\
    0 < q_rho UL /\ 0 < q_rho UR /\
    velocity UL dir = us /\ velocity UR dir = us /\
    (forall d, d <> dir -> velocity UL d = velocity qL d /\ velocity UR d = velocity qR d) /\
    jump sL UL qL (advected_flux UL us P dir) (euler_flux nd e qL dir) /\
    jump sR UR qR (advected_flux UR us P dir) (euler_flux nd e qR dir) /\
    hllc nd e qL qR dir =
      (if rltb 0 (sL * sR) then if rltb 0 us then euler_flux nd e qL dir else euler_flux nd e qR dir
       else if rltb 0 us then advected_flux UL us P dir else advected_flux UR us P dir) /\
    (0 < sL -> 0 < us) /\ (sR < 0 -> us < 0).
Proof. exact hllc_wave_model. Qed.
Print Assumptions C60_hllc_three_waves.

(** Low Mach: the impedance exceeds rho c on both sides, the flux is pure advection of the upwind state
    with the interface velocity and pressure; these satisfy the acoustic Riemann invariants for
    Mach >= 1 and the pressure correction shrinks with the interface Mach number below. *)
Theorem C60_low_mach_acoustic_relations :
  forall nd e, lawful_eos e -> forall qL qR dir, valid_cons nd qL -> valid_cons nd qR ->
  exists a us P,
    q_rho qL * sound nd e qL < a /\ q_rho qR * sound nd e qR < a /\
    splitting nd e qL qR dir = advected_flux (if rltb 0 us then qL else qR) us P dir /\
    2 * a * us = a * (velocity qL dir + velocity qR dir) - (pressure nd e qR - pressure nd e qL) /\
    (Rmin (sound nd e qL) (sound nd e qR) <= Rabs us ->
       P + a * us = pressure nd e qL + a * velocity qL dir /\
       P - a * us = pressure nd e qR - a * velocity qR dir) /\
    (Rabs us <= Rmin (sound nd e qL) (sound nd e qR) ->
       P - (pressure nd e qL + pressure nd e qR) / 2
       = Rabs us / Rmin (sound nd e qL) (sound nd e qR) * (a / 2 * (velocity qL dir - velocity qR dir))).
Proof. exact splitting_wave_model. Qed.
Print Assumptions C60_low_mach_acoustic_relations.

(** Each name of [riemann] is the solver above. *)
Theorem C60_solver_selected :
  forall nd e, riemann HLL nd e = hll nd e /\ riemann HLLC nd e = hllc nd e /\
    riemann LowMach nd e = splitting nd e.
Proof. exact (fun nd e => conj eq_refl (conj eq_refl eq_refl)). Qed.
Print Assumptions C60_solver_selected.

Example C60_example :
  let L := mkCons 1 (fun d => match d with O => 0 | _ => 2 end) 4 in
  let R := mkCons 4 (fun d => match d with O => 0 | _ => -4 end) 4 in
  lawful_eos (pg_eos (mkPG 2 1)) /\ valid_cons 2 L /\ valid_cons 2 R /\ L <> R.
Proof. exact demo_pair. Qed.
