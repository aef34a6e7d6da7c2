(** * The first-order scheme on an isothermal atmosphere at rest: real numbers (C102). *)
From Coq Require Import Lra.
From Verif Require Import Base RBase ModelMesh ModelGeom ModelHydro SpecHydro SpecSetup SpecBalance
  ProofR ProofHydro.
Local Open Scope R_scope.

Section HLL.
Variables (nd : nat) (gas : perfect_gas) (w a0 : R).
Hypothesis Hgas : valid_gas gas.
Hypothesis Hnd : (0 < nd)%nat.
Let gam := pg_gamma gas.
Let ha := a0 - (gam - 1) * (w * w) / 2.
Let hc := sqrt (gam * ha).
Hypothesis Hsub : w * w < gam * ha.

(** Gas of density [rho] moving at [w] in direction 0 with total energy rho a0 / (gam - 1). *)
Definition kicked (rho : R) (q : cons) : Prop :=
  q_rho q = rho /\ (forall k, (k < nd)%nat -> q_m q k = match k with O => rho * w | _ => 0 end) /\ q_E q = rho * (a0 / (gam - 1)).

Lemma hc_pos : 0 < hc.
Proof. apply sqrt_lt_R0. nra. Qed.
Lemma hc_sq : hc * hc = gam * ha.
Proof. apply sqrt_sqrt. nra. Qed.
Lemma gam1 : 1 < gam.
Proof. exact (proj1 Hgas). Qed.

Lemma vsum_first f : (forall k, (0 < k < nd)%nat -> f k = 0) -> vsum nd f = f 0%nat.
Proof. intros H. apply (vsum_single nd f 0); [exact Hnd|]. intros i Hi Hn. apply H. lia. Qed.

Lemma kicked_prim rho q : 0 < rho -> kicked rho q ->
  let p := to_prim nd (pg_eos gas) q in
  p_rho p = rho /\ (forall k, (k < nd)%nat -> p_u p k = match k with O => w | _ => 0 end) /\ p_P p = rho * ha /\
  eos_sound (pg_eos gas) rho (rho * ha) = hc /\ eos_evol (pg_eos gas) rho (rho * ha) + rho * (w * w) / 2 = rho * (a0 / (gam - 1)).
Proof.
  intros Hr (A & B & C) p. pose proof gam1 as G. split; [exact A|]. split; [|split; [|split]].
  - intros k Hk. cbn [p to_prim p_u]. rewrite (B k Hk), A. destruct k; field; lra.
  - cbn [p to_prim p_P pg_eos eos_pres]. rewrite A, pg_pres by (assumption || lra). unfold evol_cons, ek_cons. rewrite A, C.
    rewrite vsum_first by (intros k Hk; rewrite (B k) by lia; destruct k; [lia|ring]). rewrite (B 0%nat Hnd). unfold ha. fold gam. field. lra.
  - cbn [pg_eos eos_sound]. unfold pg_sound, hc. fold gam. f_equal. field. lra.
  - cbn [pg_eos eos_evol]. rewrite pg_evol by (assumption || lra). unfold ha. fold gam. field. lra.
Qed.

Lemma kicked_flux qL qR rL rR : 0 < rL -> 0 < rR -> kicked rL qL -> kicked rR qR ->
  let f := hll nd (pg_eos gas) qL qR 0 in
  f_rho f = (rL * (w + hc) + rR * (w - hc)) / 2 /\
  f_m f 0%nat = (rL * ((w + hc) * (ha + w * hc)) + rR * ((w - hc) * (w * hc - ha))) / (2 * hc) /\
  (forall k, (0 < k < nd)%nat -> f_m f k = 0) /\
  f_E f = (rL * ((w + hc) * (w * ha + hc * (a0 / (gam - 1)))) + rR * ((w - hc) * (hc * (a0 / (gam - 1)) - w * ha))) / (2 * hc).
Proof.
  intros HL HR KL KR. pose proof (kicked_prim rL qL HL KL) as (L1 & L2 & L3 & L4 & L5). pose proof (kicked_prim rR qR HR KR) as (R1 & R2 & R3 & R4 & R5).
  destruct KL as (A1 & A2 & A3). destruct KR as (B1 & B2 & B3). pose proof hc_pos as Hc. pose proof hc_sq as Hq.
  pose proof (L2 0%nat Hnd) as L20. pose proof (R2 0%nat Hnd) as R20. pose proof (A2 0%nat Hnd) as A20. pose proof (B2 0%nat Hnd) as B20. cbn iota in L20, R20, A20, B20.
  assert (Hw : - hc < w < hc) by (split; nra).
  assert (WL : wave_L (pg_eos gas) (to_prim nd (pg_eos gas) qL) (to_prim nd (pg_eos gas) qR) 0 = w - hc).
  { unfold wave_L. rewrite L1, L3, R1, R3, L4, R4, L20, R20. apply Rmin_left. lra. }
  assert (WR : wave_R (pg_eos gas) (to_prim nd (pg_eos gas) qL) (to_prim nd (pg_eos gas) qR) 0 = w + hc).
  { unfold wave_R. rewrite L1, L3, R1, R3, L4, R4, L20, R20. apply Rmax_left. lra. }
  cbv zeta. unfold hll. cbv zeta. rewrite WL, WR, (Rmin_left (w - hc) 0), (Rmax_left (w + hc) 0) by lra.
  assert (EL : ek_prim nd (to_prim nd (pg_eos gas) qL) = rL * (w * w) / 2).
  { unfold ek_prim. rewrite L1, vsum_first by (intros k Hk; rewrite (L2 k) by lia; destruct k; [lia|ring]). now rewrite L20. }
  assert (ER : ek_prim nd (to_prim nd (pg_eos gas) qR) = rR * (w * w) / 2).
  { unfold ek_prim. rewrite R1, vsum_first by (intros k Hk; rewrite (R2 k) by lia; destruct k; [lia|ring]). now rewrite R20. }
  cbn [f_rho f_m f_E flux_prim Nat.eqb]. unfold flux_hll. split; [|split; [|split]].
  - rewrite A1, B1, L1, R1, L20, R20. field. lra.
  - rewrite A20, B20, L1, R1, L20, R20, L3, R3. field. lra.
  - intros k Hk. destruct k as [|k]; [lia|]. cbn [Nat.eqb]. rewrite (A2 (S k)), (B2 (S k)), (L2 (S k)), (R2 (S k)) by lia. field. lra.
  - rewrite A3, B3, EL, ER, L1, R1, L20, R20, L3, R3.
    assert (L5' : rL * (w * w) / 2 + eos_evol (pg_eos gas) rL (rL * ha) = rL * (a0 / (gam - 1))) by lra.
    assert (R5' : rR * (w * w) / 2 + eos_evol (pg_eos gas) rR (rR * ha) = rR * (a0 / (gam - 1))) by lra.
    rewrite L5', R5'. pose proof gam1. field. lra.
Qed.

(** Across the flow, between cells of the same density. *)
Lemma kicked_side qL qR rho d : 0 < rho -> kicked rho qL -> kicked rho qR -> (0 < d < nd)%nat ->
  let f := hll nd (pg_eos gas) qL qR d in
  f_rho f = 0 /\ (forall k, (k < nd)%nat -> f_m f k = if Nat.eqb k d then rho * ha else 0) /\ f_E f = 0.
Proof.
  intros Hr KL KR Hd. pose proof (kicked_prim rho qL Hr KL) as (L1 & L2 & L3 & L4 & L5). pose proof (kicked_prim rho qR Hr KR) as (R1 & R2 & R3 & R4 & R5).
  destruct KL as (A1 & A2 & A3). destruct KR as (B1 & B2 & B3). pose proof hc_pos as Hc. destruct d as [|d]; [lia|].
  pose proof (L2 (S d) ltac:(lia)) as L20. pose proof (R2 (S d) ltac:(lia)) as R20. cbn iota in L20, R20.
  assert (WL : wave_L (pg_eos gas) (to_prim nd (pg_eos gas) qL) (to_prim nd (pg_eos gas) qR) (S d) = - hc).
  { unfold wave_L. rewrite L1, L3, R1, R3, L4, L20, R20. rewrite Rmin_left; lra. }
  assert (WR : wave_R (pg_eos gas) (to_prim nd (pg_eos gas) qL) (to_prim nd (pg_eos gas) qR) (S d) = hc).
  { unfold wave_R. rewrite L1, L3, R1, R3, L4, L20, R20. rewrite Rmax_left; lra. }
  cbv zeta. unfold hll. cbv zeta. rewrite WL, WR, (Rmin_left (- hc) 0), (Rmax_left hc 0) by lra.
  cbn [f_rho f_m f_E flux_prim]. unfold flux_hll. split; [|split].
  - rewrite A1, B1, L1, R1, L20, R20. field. lra.
  - intros k Hk. rewrite (A2 k Hk), (B2 k Hk), L1, R1, L20, R20, L3, R3. destruct (Nat.eqb k (S d)), k; field; lra.
  - rewrite A3, B3, L20, R20. pose proof gam1. field. lra.
Qed.
End HLL.
