(** * Remaining lemmas and concrete states for PropHydro.v. *)
From Verif Require Import Base RBase ModelMesh ModelGeom ModelHydro SpecHydro ProofBase ProofR ProofHydro ProofHydro2.
Local Open Scope R_scope.

Lemma pg_inverses gamma mu rho x : 1 < gamma -> 0 < mu -> 0 < rho ->
  let g := mkPG gamma mu in
  pg_pres_from_temp g rho (pg_temp_from_pres g rho x) = x /\
  pg_temp_from_pres g rho (pg_pres_from_temp g rho x) = x /\
  pg_evol_from_temp g rho (pg_temp_from_evol g rho x) = x /\
  pg_temp_from_evol g rho (pg_evol_from_temp g rho x) = x /\
  pg_pres_from_evol g rho (pg_evol_from_pres g rho x) = x /\
  pg_evol_from_pres g rho (pg_pres_from_evol g rho x) = x.
Proof.
  intros H1 H2 H3. cbv zeta. assert (Hg : pg_ok (mkPG gamma mu)) by (split; assumption).
  repeat split.
  - apply pg_temp_pres; [assumption|lra].
  - apply pg_pres_temp; [assumption|lra].
  - apply pg_temp_evol; [assumption|lra].
  - apply pg_evol_temp; [assumption|lra].
  - rewrite pg_evol, pg_pres by (assumption || lra). cbn. field. lra.
  - rewrite pg_evol, pg_pres by (assumption || lra). cbn. field. lra.
Qed.

Lemma pg_laws gamma mu rho T P : 1 < gamma -> 0 < mu -> 0 < rho ->
  let g := mkPG gamma mu in
  pg_pres_from_temp g rho T * (mu * mp) = rho * kb * T /\
  pg_evol_from_pres g rho P = P / (gamma - 1) /\
  (0 < P -> pg_sound g rho P * pg_sound g rho P = gamma * P / rho /\ 0 < pg_sound g rho P).
Proof.
  intros H1 H2 H3. cbv zeta. assert (Hg : pg_ok (mkPG gamma mu)) by (split; assumption).
  pose proof mp_pos. split; [|split].
  - unfold pg_pres_from_temp. cbn. field. lra.
  - rewrite pg_evol by (assumption || lra). reflexivity.
  - intros HP. now apply (pg_sound_sq (mkPG gamma mu)).
Qed.

Lemma pg_monotone gamma mu rho x y : 1 < gamma -> 0 < mu -> 0 < rho -> x < y ->
  let g := mkPG gamma mu in
  forall f, In f [pg_pres_from_temp g rho; pg_temp_from_pres g rho; pg_evol_from_temp g rho;
                  pg_temp_from_evol g rho; pg_evol_from_pres g rho; pg_pres_from_evol g rho] ->
  f x < f y /\ (0 < x -> 0 < f x).
Proof.
  intros H1 H2 H3 Hxy. cbv zeta. assert (Hg : pg_ok (mkPG gamma mu)) by (split; assumption).
  set (g := mkPG gamma mu) in *. intros f Hf.
  assert (K : (forall a b, a < b -> f a < f b) /\ f 0 = 0).
  { destruct (pg_zero g rho) as (Z1 & Z2 & Z3 & Z4).
    cbn in Hf. destruct Hf as [<-|[<-|[<-|[<-|[<-|[<-|[]]]]]]]; split; try assumption.
    - intros. now apply pg_pres_from_temp_mono.
    - intros. now apply pg_temp_from_pres_mono.
    - intros. now apply pg_evol_from_temp_mono.
    - intros. now apply pg_temp_from_evol_mono.
    - intros. apply pg_evol_from_temp_mono; try assumption. now apply pg_temp_from_pres_mono.
    - unfold pg_evol_from_pres. now rewrite Z1.
    - intros. apply pg_pres_from_temp_mono; try assumption. now apply pg_temp_from_evol_mono.
    - unfold pg_pres_from_evol. now rewrite Z4. }
  destruct K as [K K0]. split; [now apply K|]. intros Hx. rewrite <- K0. now apply K.
Qed.

Lemma to_cons_components nd e p : 0 < p_rho p ->
  q_rho (to_cons nd e p) = p_rho p /\
  (forall d, velocity (to_cons nd e p) d = p_u p d) /\
  kinetic nd (to_cons nd e p) = p_rho p * vsum nd (fun d => p_u p d ^ 2) / 2 /\
  internal nd (to_cons nd e p) = eos_evol e (p_rho p) (p_P p).
Proof.
  intros H. split; [reflexivity|]. split; [intros d; unfold velocity; cbn; field; lra|].
  assert (E : kinetic nd (to_cons nd e p) = ek_prim nd p).
  { rewrite <- ek_cons_kinetic by assumption. now apply ek_cons_to_cons. }
  split.
  - rewrite E. unfold ek_prim. f_equal. f_equal. apply vsum_ext. intros. ring.
  - unfold internal. rewrite E. cbn. ring.
Qed.

Lemma slope_values :
  (forall l a, l <> LConstant -> slope l a a = a) /\
  (forall a b, slope LConstant a b = 0) /\
  (forall a b, 0 < a * b -> slope LVanLeer a b = 2 / (/ a + / b)) /\
  (forall a b, 0 < a * b -> slope LVanAlbada a b = a * b * (a + b) / (a ^ 2 + b ^ 2)).
Proof.
  split; [exact slope_equal|]. split; [reflexivity|]. split; intros a b H; cbn.
  - rewrite van_leer_form by lra.
    assert (a <> 0) by (intros ->; lra). assert (b <> 0) by (intros ->; lra).
    assert (a + b <> 0) by nra. field. repeat split; try assumption. lra.
  - rewrite van_albada_form by lra. f_equal. ring.
Qed.

Lemma hllc_stationary_contact nd e : lawful_eos e -> forall qL qR dir, valid_cons nd qL -> valid_cons nd qR ->
  velocity qL dir = 0 -> velocity qR dir = 0 -> pressure nd e qL = pressure nd e qR ->
  f_rho (hllc nd e qL qR dir) = 0 /\ f_E (hllc nd e qL qR dir) = 0 /\
  forall d, f_m (hllc nd e qL qR dir) d = if Nat.eqb d dir then pressure nd e qL else 0.
Proof.
  intros He qL qR dir HL HR H1 H2 HP. rewrite (hllc_contact nd e He) by (assumption || congruence).
  rewrite H1. rewrite (proj2 (rltb_false 0 0)) by lra.
  assert (Hm : q_m qR dir = 0).
  { destruct HR as [HR _]. unfold velocity in H2. apply (f_equal (fun x => x * q_rho qR)) in H2.
    unfold Rdiv in H2. rewrite Rmult_assoc, Rinv_l in H2 by lra. lra. }
  unfold euler_flux. cbn [f_rho f_m f_E]. rewrite Hm. unfold Rdiv.
  split; [reflexivity|]. split; [ring|]. intros d. rewrite HP.
  destruct (Nat.eqb d dir); ring.
Qed.

Lemma demo_gas_lawful : lawful_eos (pg_eos (mkPG 2 1)).
Proof. apply pg_lawful. split; cbn; lra. Qed.

Lemma demo_states :
  let gas := pg_eos (mkPG 2 1) in
  let L := mkCons 1 (fun d => match d with O => 0 | _ => 2 end) 4 in
  let R := mkCons 4 (fun d => match d with O => 0 | _ => -4 end) 4 in
  lawful_eos gas /\ valid_cons 3 (mkCons 1 (fun d => match d with O => 0 | _ => 2 end) 5)
  /\ valid_cons 2 L /\ valid_cons 2 R /\ valid_prim (to_prim 2 gas L).
Proof.
  cbv zeta. assert (V : valid_cons 2 (mkCons 1 (fun d => match d with O => 0 | _ => 2 end) 4)).
  { split; unfold internal, kinetic; cbn; lra. }
  split; [exact demo_gas_lawful|]. split; [split; unfold internal, kinetic; cbn; lra|].
  split; [assumption|]. split; [split; unfold internal, kinetic; cbn; lra|].
  apply valid_to_prim; [exact demo_gas_lawful|assumption].
Qed.

Lemma demo_pair :
  let L := mkCons 1 (fun d => match d with O => 0 | _ => 2 end) 4 in
  let R := mkCons 4 (fun d => match d with O => 0 | _ => -4 end) 4 in
  lawful_eos (pg_eos (mkPG 2 1)) /\ valid_cons 2 L /\ valid_cons 2 R /\ L <> R.
Proof.
  cbv zeta. destruct demo_states as (H1 & _ & H2 & H3 & _). repeat split; try apply H1; try apply H2; try apply H3.
  intros H. apply (f_equal q_rho) in H. cbn in H. lra.
Qed.

Lemma demo_pressure q : 0 < q_rho q -> forall nd, pressure nd (pg_eos (mkPG 2 1)) q = internal nd q.
Proof.
  intros H nd. unfold pressure. cbn [eos_pres pg_eos]. rewrite pg_pres by (try split; cbn; lra). cbn. ring.
Qed.

Lemma demo_contact :
  let L := mkCons 1 (fun d => match d with O => 0 | _ => 2 end) 4 in
  let R := mkCons 4 (fun d => match d with O => 0 | _ => -4 end) 4 in
  velocity L 0 = 0 /\ velocity R 0 = 0 /\ q_rho L <> q_rho R /\
  pressure 2 (pg_eos (mkPG 2 1)) L = pressure 2 (pg_eos (mkPG 2 1)) R.
Proof.
  cbv zeta. rewrite !demo_pressure by (cbn; lra). unfold velocity, internal, kinetic. cbn.
  repeat split; lra.
Qed.

Lemma demo_flux :
  let L := mkCons 1 (fun d => match d with O => 0 | _ => 2 end) 4 in
  valid_cons 2 L /\ f_rho (euler_flux 2 (pg_eos (mkPG 2 1)) L 1) = 2 /\
  f_m (euler_flux 2 (pg_eos (mkPG 2 1)) L 1) 1%nat = 6.
Proof.
  cbv zeta. split; [apply demo_states|]. unfold euler_flux. rewrite demo_pressure by (cbn; lra).
  unfold internal, kinetic. cbn. split; lra.
Qed.

Lemma demo_supersonic :
  let q := mkCons 1 (fun d => match d with O => 10 | _ => 0 end) 52 in
  valid_cons 1 q /\ sound 1 (pg_eos (mkPG 2 1)) q < velocity q 0.
Proof.
  cbv zeta. split; [split; unfold internal, kinetic; cbn; lra|].
  unfold sound. rewrite demo_pressure by (cbn; lra). unfold internal, kinetic, velocity. cbn [eos_sound pg_eos].
  unfold pg_sound. cbn.
  apply Rlt_le_trans with (sqrt (10 * 10)); [apply sqrt_lt_1; lra|]. rewrite sqrt_square by lra. lra.
Qed.

Lemma faces_demo :
  let m : mesh := fun _ i => IZR i in
  let var : field3 := fun c => IZR (ii c * ii c) in
  regular_at m 0 2 1 /\
  face_value LMinmod m var (I3 2 0 0) 0 0 = 5 / 2 /\ face_value LMinmod m var (I3 2 0 0) 1 0 = 11 / 2.
Proof.
  cbv zeta. split; [unfold regular_at, mdx; cbn; lra|].
  rewrite !face_value_eq by lia. unfold mdx. cbn.
  rewrite minmod_form, Rmin_right by lra. split; lra.
Qed.
