(** * Runs with more dimensions than the flow: the kernels (C107). *)
From Coq Require Import ZifyBool ZifyNat.
From Verif Require Import Base RBase ModelMesh ModelGeom ModelBoundary ModelHydro ModelScheme ModelStep
  SpecMesh SpecGeom SpecBoundary SpecHydro SpecScheme SpecStep SpecFill SpecSym SpecPlane
  ProofBase ProofMesh ProofR.
Local Open Scope R_scope.

Lemma div0 x : 0 / x = 0. Proof. unfold Rdiv. ring. Qed.

Section Kernels.
Variables (nd nd' : nat).
Hypothesis Hnd : (nd <= nd')%nat.

Definition lp (p p' : prim) : Prop := p_rho p' = p_rho p /\ padded nd nd' (p_u p) (p_u p') /\ p_P p' = p_P p.
Definition lq (q q' : cons) : Prop := q_rho q' = q_rho q /\ padded nd nd' (q_m q) (q_m q') /\ q_E q' = q_E q.
Definition lf (f f' : flux) : Prop := f_rho f' = f_rho f /\ padded nd nd' (f_m f) (f_m f') /\ f_E f' = f_E f.
Definition lc (x x' : cell) : Prop := c_rho x' = c_rho x /\ padded nd nd' (c_rhou x) (c_rhou x') /\ c_E x' = c_E x /\ forall n, c_fx x' n = c_fx x n.

Lemma vsum_more f f' : (forall d, (d < nd)%nat -> f' d = f d) -> (forall d, (nd <= d < nd')%nat -> f' d = 0) -> vsum nd' f' = vsum nd f.
Proof.
  intros H1 H2. assert (A : forall n, (n <= nd)%nat -> vsum n f' = vsum n f).
  { induction n as [|n IH]; intros Hn; cbn [vsum]; [reflexivity|]. rewrite IH, H1 by lia. reflexivity. }
  assert (B : forall k, (nd + k <= nd')%nat -> vsum (nd + k) f' = vsum nd f).
  { induction k as [|k IH]; intros Hk; [rewrite Nat.add_0_r; now apply A|].
    rewrite Nat.add_succ_r. cbn [vsum]. rewrite IH, H2 by lia. ring. }
  replace nd' with (nd + (nd' - nd))%nat at 1 by lia. apply B. lia.
Qed.

Lemma ek_prim_more p p' : lp p p' -> ek_prim nd' p' = ek_prim nd p.
Proof.
  intros (A & (B & C) & D). unfold ek_prim. rewrite A. do 2 f_equal. apply vsum_more; intros d Hd; [now rewrite B|rewrite C by assumption; ring].
Qed.
Lemma ek_cons_more q q' : lq q q' -> ek_cons nd' q' = ek_cons nd q.
Proof.
  intros (A & (B & C) & D). unfold ek_cons. rewrite A. do 2 f_equal. apply vsum_more; intros d Hd; [now rewrite B|rewrite C by assumption; ring].
Qed.
Lemma to_prim_more e q q' : lq q q' -> lp (to_prim nd e q) (to_prim nd' e q').
Proof.
  intros H. pose proof (ek_cons_more _ _ H) as E. destruct H as (A & (B & C) & D). unfold lp, padded, to_prim, evol_cons. cbn [p_rho p_u p_P].
  rewrite E, A, D. split; [reflexivity|]. split; [|reflexivity]. split; intros d Hd; [now rewrite B|rewrite C by assumption; apply div0].
Qed.
Lemma to_cons_more e p p' : lp p p' -> lq (to_cons nd e p) (to_cons nd' e p').
Proof.
  intros H. pose proof (ek_prim_more _ _ H) as E. destruct H as (A & (B & C) & D). unfold lq, padded, to_cons. cbn [q_rho q_m q_E].
  rewrite E, A, D. split; [reflexivity|]. split; [|reflexivity]. split; intros d Hd; [now rewrite B|rewrite C by assumption; ring].
Qed.
Lemma flux_prim_more e p p' dir : (dir < nd)%nat -> lp p p' -> lf (flux_prim nd e p dir) (flux_prim nd' e p' dir).
Proof.
  intros Hd H. pose proof (ek_prim_more _ _ H) as E. destruct H as (A & (B & C) & D). unfold lf, padded, flux_prim. cbn [f_rho f_m f_E].
  rewrite E, A, D, (B dir Hd). split; [reflexivity|]. split; [|reflexivity]. split; intros d Hd'; [now rewrite B|]. rewrite C by assumption.
  destruct (Nat.eqb_spec d dir); [lia|ring].
Qed.

Lemma riemann_more s e qL qR qL' qR' dir : (dir < nd)%nat -> lq qL qL' -> lq qR qR' -> lf (riemann s nd e qL qR dir) (riemann s nd' e qL' qR' dir).
Proof.
  intros Hd HL HR.
  pose proof (to_prim_more e _ _ HL) as PL. pose proof (to_prim_more e _ _ HR) as PR.
  pose proof (flux_prim_more e _ _ dir Hd PL) as FL. pose proof (flux_prim_more e _ _ dir Hd PR) as FR.
  destruct HL as (L1 & (L2 & L3) & L4), HR as (R1 & (R2 & R3) & R4).
  destruct s; cbn [riemann].
  - destruct PL as (PL1 & (PL2 & PL3) & PL4), PR as (PR1 & (PR2 & PR3) & PR4), FL as (FL1 & (FL2 & FL3) & FL4), FR as (FR1 & (FR2 & FR3) & FR4).
    unfold lf, padded, hll, wave_L, wave_R. cbv zeta. cbn [f_rho f_m f_E].
    rewrite L1, R1, L4, R4, PL1, PR1, PL4, PR4, FL1, FR1, FL4, FR4, !(PL2 dir Hd), !(PR2 dir Hd).
    split; [reflexivity|]. split; [|reflexivity]. split; intros d Hd'; [now rewrite L2, R2, FL2, FR2 by assumption|].
    rewrite L3, R3, FL3, FR3 by assumption. unfold flux_hll, Rdiv. ring.
  - destruct PL as (PL1 & (PL2 & PL3) & PL4), PR as (PR1 & (PR2 & PR3) & PR4), FL as (FL1 & (FL2 & FL3) & FL4), FR as (FR1 & (FR2 & FR3) & FR4).
    unfold hllc, wave_L, wave_R. cbv zeta. rewrite ?L1, ?R1, ?L4, ?R4, ?PL1, ?PR1, ?PL4, ?PR4, !(PL2 dir Hd), !(PR2 dir Hd).
    match goal with |- context [rltb 0 (?a * ?b)] => destruct (rltb 0 (a * b)) end.
    { match goal with |- context [rltb 0 ?a] => destruct (rltb 0 a) end; (split; [assumption|split; [split; assumption|assumption]]). }
    match goal with |- context [rltb 0 ?a] => destruct (rltb 0 a) end; unfold lf, padded; cbn [f_rho f_m f_E];
    rewrite ?L1, ?R1, ?L4, ?R4, ?PL1, ?PR1, ?PL4, ?PR4, ?FL1, ?FR1, ?FL4, ?FR4, ?(PL2 dir Hd), ?(PR2 dir Hd);
    (split; [reflexivity|]; split; [|reflexivity]; split; intros d Hd';
     [destruct (Nat.eqb d dir); [reflexivity|]; now rewrite ?PL2, ?PR2 by assumption
     |destruct (Nat.eqb_spec d dir); [lia|]; rewrite ?PL3, ?PR3 by assumption; ring]).
  - destruct PL as (PL1 & (PL2 & PL3) & PL4), PR as (PR1 & (PR2 & PR3) & PR4).
    unfold splitting. cbv zeta. rewrite PL1, PR1, PL4, PR4, !(PL2 dir Hd), !(PR2 dir Hd).
    match goal with |- context [rltb 0 ?a] => destruct (rltb 0 a) end; unfold lf, padded; cbn [f_rho f_m f_E]; rewrite ?L1, ?R1, ?L4, ?R4;
    (split; [reflexivity|]; split; [|reflexivity]; split; intros d Hd';
     [now rewrite ?L2, ?R2 by assumption|destruct (Nat.eqb_spec d dir); [lia|]; rewrite ?L3, ?R3 by assumption; ring]).
Qed.
End Kernels.

(** Equal left and right states without normal velocity: only the pressure acts. *)
Lemma still_face s nd e q dir : s <> HLL -> q_m q dir = 0 ->
  let f := riemann s nd e q q dir in
  f_rho f = 0 /\ f_E f = 0 /\ f_m f dir = p_P (to_prim nd e q) /\ forall d, d <> dir -> f_m f d = 0.
Proof.
  intros Hs Hq. assert (Hu : p_u (to_prim nd e q) dir = 0) by (cbn [to_prim p_u]; rewrite Hq; apply div0).
  destruct s; [congruence| |]; cbn [riemann].
  - unfold hllc, wave_L, wave_R. cbv zeta. rewrite Hu.
    set (p := to_prim nd e q) in *. set (c := eos_sound e (p_rho p) (p_P p)).
    rewrite Rmin_left, Rmax_left by lra.
    assert (U : (p_P p - p_P p + p_rho p * (0 - c - 0) * 0 - p_rho p * (0 + c - 0) * 0) / (p_rho p * (0 - c - 0) - p_rho p * (0 + c - 0)) = 0).
    { replace (p_P p - p_P p + p_rho p * (0 - c - 0) * 0 - p_rho p * (0 + c - 0) * 0) with 0 by ring. apply div0. }
    rewrite U.
    replace (rltb 0 ((0 - c) * (0 + c))) with false by (symmetry; unfold rltb; destruct (Rlt_dec 0 ((0 - c) * (0 + c))); [nra|reflexivity]).
    replace (rltb 0 0) with false by (symmetry; unfold rltb; destruct (Rlt_dec 0 0); [lra|reflexivity]).
    cbn [f_rho f_m f_E]. unfold flux_hllc. rewrite Hu. rewrite Nat.eqb_refl.
    assert (F1 : f_rho (flux_prim nd e p dir) = 0) by (cbn [flux_prim f_rho]; rewrite Hu; ring).
    assert (F2 : f_E (flux_prim nd e p dir) = 0) by (cbn [flux_prim f_E]; rewrite Hu; ring).
    rewrite F1, F2.
    split; [|split; [|split]].
    + destruct (Req_dec c 0) as [->|Hc]; [ring|field; lra].
    + destruct (Req_dec c 0) as [->|Hc]; [ring|field; lra].
    + transitivity (1 / 2 * (p_P p + p_P p)); [unfold Rdiv; ring|lra].
    + intros d Hd. destruct (Nat.eqb_spec d dir); [contradiction|ring].
  - unfold splitting. cbv zeta. rewrite Hu. set (p := to_prim nd e q) in *.
    match goal with |- context [rltb 0 ?x] => assert (U : x = 0) by (replace (p_P p - p_P p) with 0 by ring; unfold Rdiv; ring); rewrite U end.
    destruct (rltb 0 0); cbn [f_rho f_m f_E]; rewrite Nat.eqb_refl;
    (split; [ring|split; [ring|split; [|intros d Hd; destruct (Nat.eqb_spec d dir); [contradiction|ring]]]];
     replace (0 - 0) with 0 by ring; unfold Rdiv; lra).
Qed.

(** ** Geometry *)
Lemma above_r nd c c' d : above nd c c' -> (d < nd)%nat -> above nd (rindex d c) (rindex d c').
Proof. intros Hc Hd k Hk. specialize (Hc k Hk). destruct c as [i j k0], c' as [i' j' k'], d as [|[|[|d]]], k as [|[|[|k]]]; cbn in *; lia. Qed.
Lemma above_l nd c c' d : above nd c c' -> (d < nd)%nat -> above nd (lindex d c) (lindex d c').
Proof. intros Hc Hd k Hk. specialize (Hc k Hk). destruct c as [i j k0], c' as [i' j' k'], d as [|[|[|d]]], k as [|[|[|k]]]; cbn in *; lia. Qed.
Lemma above_r' nd c c' d : above nd c c' -> (nd <= d < 3)%nat -> above nd c (rindex d c').
Proof. intros Hc Hd k Hk. specialize (Hc k Hk). destruct c as [i j k0], c' as [i' j' k'], d as [|[|[|d]]], k as [|[|[|k]]]; cbn in *; lia. Qed.
Lemma above_l' nd c c' d : above nd c c' -> (nd <= d < 3)%nat -> above nd c (lindex d c').
Proof. intros Hc Hd k Hk. specialize (Hc k Hk). destruct c as [i j k0], c' as [i' j' k'], d as [|[|[|d]]], k as [|[|[|k]]]; cbn in *; lia. Qed.

Section Geometry.
Variables (g : geom) (nd nd' : nat) (m m' : mesh) (c c' : idx).
Hypothesis Hnd : (1 <= nd)%nat.
Hypothesis Hnn : (nd <= nd')%nat.
Hypothesis Hnd' : (nd' <= 3)%nat.
Hypothesis Hm : forall d i, (d < nd)%nat -> m' d i = m d i.
Hypothesis Hc : above nd c c'.
Hypothesis Hv : dv g nd m c <> 0.
Hypothesis Hv' : dv g nd' m' c' <> 0.

Lemma cross d x x' : (d < nd)%nat -> (x = c /\ x' = c') \/ (x = rindex d c /\ x' = rindex d c') ->
  ds g nd' m' x' d * dv g nd m c = ds g nd m x d * dv g nd' m' c'.
Proof.
  intros Hd Hx. pose proof (Hc 0%nat) as C0. pose proof (Hc 1%nat) as C1. pose proof (Hc 2%nat) as C2. pose proof (Hm 0%nat) as M0. pose proof (Hm 1%nat) as M1. pose proof (Hm 2%nat) as M2. clear Hv Hv' Hc Hm.
  assert (E : nd = 1%nat \/ nd = 2%nat \/ nd = 3%nat) by lia. assert (E' : nd' = 1%nat \/ nd' = 2%nat \/ nd' = 3%nat) by lia.
  assert (Ed : d = 0%nat \/ d = 1%nat \/ d = 2%nat) by lia.
  destruct c as [i j k], c' as [i' j' k'].
  destruct E as [->|[->| ->]], E' as [->|[->| ->]]; try lia; destruct Ed as [->|[->| ->]]; try lia;
  cbn [coord ii jj kk] in C0, C1, C2;
  try (specialize (C0 ltac:(lia)); subst i'); try (specialize (C1 ltac:(lia)); subst j'); try (specialize (C2 ltac:(lia)); subst k');
  destruct Hx as [[-> ->]|[-> ->]]; destruct g;
  unfold ds, dv, cart_ds, cart_dv, sph_ds, sph_dv, sph_dcos, mdx, rindex; cbn [Nat.eqb coord ii jj kk kron set_coord Z.add]; rewrite ?Z.add_0_r;
  repeat (rewrite M0 by lia); repeat (rewrite M1 by lia); repeat (rewrite M2 by lia); try (field; fail); try ring.
Qed.

Lemma flux_diff_more dt d fL fR : (d < nd)%nat -> flux_diff g nd' m' dt c' d fL fR = flux_diff g nd m dt c d fL fR.
Proof.
  intros Hd. unfold flux_diff. pose proof (cross d c c' Hd (or_introl (conj eq_refl eq_refl))) as A.
  pose proof (cross d _ _ Hd (or_intror (conj eq_refl eq_refl))) as B. cbv beta in *.
  set (V := dv g nd m c) in *. set (V' := dv g nd' m' c') in *.
  replace (ds g nd' m' c' d) with (ds g nd m c d * V' / V) by (rewrite <- A; field; assumption).
  replace (ds g nd' m' (rindex d c') d) with (ds g nd m (rindex d c) d * V' / V) by (rewrite <- B; field; assumption).
  field. split; assumption.
Qed.

Lemma geo_more dt pL pR pL' pR' d k : (d < nd)%nat -> (k < nd')%nat -> lp nd nd' pL pL' -> lp nd nd' pR pR' ->
  geo_source g nd' m' c' (dt / dv g nd' m' c') pL' pR' d k = if Nat.ltb k nd then geo_source g nd m c (dt / dv g nd m c) pL pR d k else 0.
Proof.
  intros Hd Hk (L1 & (L2 & L3) & L4) (R1 & (R2 & R3) & R4).
  destruct g eqn:Eg; [cbn [geo_source]; now destruct (Nat.ltb k nd)|].
  pose proof (cross d c c' Hd (or_introl (conj eq_refl eq_refl))) as A. rewrite Eg in A.
  pose proof (cross d _ _ Hd (or_intror (conj eq_refl eq_refl))) as B. rewrite Eg in B. cbv beta in *.
  unfold geo_source. cbv zeta.
  set (V := dv Spherical nd m c) in *. set (V' := dv Spherical nd' m' c') in *.
  replace (ds Spherical nd' m' c' d) with (ds Spherical nd m c d * V' / V) by (rewrite <- A; field; assumption).
  replace (ds Spherical nd' m' (rindex d c') d) with (ds Spherical nd m (rindex d c) d * V' / V) by (rewrite <- B; field; assumption).
  clear A B. set (s := ds Spherical nd m c d). set (sp := ds Spherical nd m (rindex d c) d). clearbody V V' s sp.
  rewrite L1, L4, R1, R4.
  pose proof (Hc 0%nat ltac:(lia)) as C0. cbn [coord] in C0. rewrite C0, !(Hm 0%nat) by lia.
  assert (T : (d = 1)%nat -> jj c' = jj c) by (intros ->; exact (Hc 1%nat Hd)).
  assert (En : nd = 1%nat \/ nd = 2%nat \/ nd = 3%nat) by lia. assert (En' : nd' = 1%nat \/ nd' = 2%nat \/ nd' = 3%nat) by lia.
  assert (Ed : d = 0%nat \/ d = 1%nat \/ d = 2%nat) by lia. assert (Ek : k = 0%nat \/ k = 1%nat \/ k = 2%nat) by lia.
  unfold source_grad_pres, source_grad_u_r, source_grad_u_idir_r, source_grad_u_th, source_grad_u_phi. cbv zeta.
  destruct Ed as [->|[->| ->]]; [clear T|specialize (T eq_refl); rewrite T, !(Hm 1%nat) by lia; clear T|clear T].
  all: destruct En as [En|[En|En]], En' as [En'|[En'|En']]; try lia; destruct Ek as [->|[->| ->]]; try lia;
       rewrite En, En' in *; cbn [Nat.leb Nat.eqb Nat.ltb];
       rewrite ?(L2 0%nat), ?(L2 1%nat), ?(L2 2%nat), ?(R2 0%nat), ?(R2 1%nat), ?(R2 2%nat) by lia;
       rewrite ?(L3 1%nat), ?(L3 2%nat), ?(R3 1%nat), ?(R3 2%nat) by lia.
  all: try reflexivity.
  all: try (unfold Rdiv; field; fail).
  all: try (unfold Rdiv; ring; fail).
  all: unfold Rdiv; try (match goal with |- context [/ (?a + ?b)] => set (w := / (a + b)) end); try (match goal with |- context [/ sin ?a] => set (w' := / sin a) end); field; auto.
Qed.

Lemma extra_scalar dt d f : (nd <= d < nd')%nat -> (g = Cartesian \/ f = 0) -> flux_diff g nd' m' dt c' d f f = 0.
Proof.
  intros Hd [E| ->]; unfold flux_diff; [|ring]. clear Hv Hv'. rewrite E. assert (Ed : d = 1%nat \/ d = 2%nat) by lia.
  destruct c' as [i' j' k']. destruct Ed as [-> | ->]; unfold ds, cart_ds, rindex; cbn [Nat.eqb coord ii jj kk kron set_coord]; rewrite ?Z.add_0_r; ring.
Qed.

Lemma extra_vector dt d k f pL pR : (nd <= d < nd')%nat -> (k < nd')%nat ->
  (g = Cartesian \/ (f = (if Nat.eqb k d then p_P pL else 0) /\ p_P pR = p_P pL /\ forall j, (nd <= j < nd')%nat -> p_u pL j = 0 /\ p_u pR j = 0)) ->
  flux_diff g nd' m' dt c' d f f + geo_source g nd' m' c' (dt / dv g nd' m' c') pL pR d k = 0.
Proof.
  intros Hd Hk H. destruct H as [E|(Ef & EP & EU)].
  - rewrite extra_scalar by (auto). rewrite E. cbn [geo_source]. ring.
  - assert (Eg : g = Cartesian \/ g = Spherical) by (destruct g; auto). destruct Eg as [Eg|Eg]; [rewrite extra_scalar by auto; rewrite Eg; cbn [geo_source]; ring|].
    rewrite Eg in *.
    unfold flux_diff, geo_source, source_grad_pres, source_grad_u_th, source_grad_u_phi. cbv zeta. rewrite EP, Ef.
    assert (Ed : d = 1%nat \/ d = 2%nat) by lia. assert (Ek : k = 0%nat \/ k = 1%nat \/ k = 2%nat) by lia.
    destruct Ed as [-> | ->].
    + destruct Ek as [->|[->| ->]]; cbn [Nat.eqb]; [ring| |].
      * destruct (Nat.eqb_spec nd' 3) as [E3|E3]; [destruct (EU 2%nat ltac:(lia)) as [-> ->]|]; unfold Rdiv; try (match goal with |- context [/ sin ?a] => set (w' := / sin a) end); field; assumption.
      * destruct (Nat.eqb_spec nd' 3) as [E3|E3]; [destruct (EU 2%nat ltac:(lia)) as [-> ->]|]; unfold Rdiv; ring.
    + assert (E3 : nd' = 3%nat) by lia. rewrite E3. unfold ds, sph_ds, rindex. destruct c' as [i' j' k']. cbn [Nat.eqb coord ii jj kk kron set_coord]. rewrite ?Z.add_0_r.
      destruct Ek as [->|[->| ->]]; cbn [Nat.eqb]; ring.
Qed.
End Geometry.
