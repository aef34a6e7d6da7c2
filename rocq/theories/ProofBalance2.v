(** * One step of the first-order scheme on an isothermal atmosphere at rest (C102). *)
From Coq Require Import FunctionalExtensionality ZifyBool ZifyNat Lra.
From Verif Require Import Base RBase ModelMesh ModelGeom ModelBoundary ModelHydro ModelScheme ModelStep ModelSetup ModelMain ModelUser
  SpecMesh SpecGeom SpecBoundary SpecHydro SpecScheme SpecStep SpecSetup SpecMain SpecUser SpecBalance
  ProofBase ProofMesh ProofR ProofBoundary ProofBoundary2 ProofHydro ProofHydro2 ProofScheme ProofMirror ProofShift ProofReduce ProofStep ProofSteady
  ProofSetup ProofPos2 ProofMPIGrid ProofUser ProofUser2 ProofUser4 ProofBalance.
Local Open Scope R_scope.

Section Step.
Variables (K : config) (N dims : idx) (X : nat -> arr1) (L : layout) (U : own_bounds) (gas : perfect_gas) (rho0 T0 g h : R) (fg : nat -> R).
Hypothesis HR : runs_on K N dims X L.
Hypothesis Hset : ob_setup U = SStratifiedAtm rho0 0 T0.
Hypothesis Hth : ob_th U = pg_thermo gas.
Hypothesis Heos : k_eos K = pg_eos gas.
Hypothesis Hgas : valid_gas gas.
Hypothesis Hrho : 0 < rho0.
Hypothesis HT : 0 < T0.
Hypothesis H0 : ob_face U 0 = true.
Hypothesis H1 : ob_face U 1 = true.
Hypothesis I0 : In 0%nat (k_order K).
Hypothesis I1 : In 1%nat (k_order K).
Hypothesis Hgeom : k_geom K = Cartesian.
Hypothesis Hlim : k_lim K = LConstant.
Hypothesis Hsol : k_sol K = HLL.
Hypothesis Hpf : k_pf K = None.
Hypothesis Huser : k_user K = UOff.
Hypothesis Hgrav : k_grav K = GUniform fg.
Hypothesis Hdown : downward (k_nd K) fg g.
Hypothesis Hg : 0 < g.
Hypothesis HX : increasing (k_nd K) N (k_ng K) X.
Hypothesis Hh : evenly_spaced X N (k_ng K) h.
Notation nd := (k_nd K).
Notation ng := (k_ng K).
Notation th := (pg_thermo gas).
Notation vr := (process nd dims).
Notation own r c := (owned nd ng (d_nloc (l_dec L r)) c).
Notation arr r c := (in_array (d_nwg (l_dec L r)) c).
Notation s := (SStratifiedAtm rho0 0 T0).
Notation S0 := (own_init K N L U (setup_state s K th N L)).
Let a := isothermal gas T0.
Let gam := pg_gamma gas.
Let HL := ro_layout HR.
Let HD := lo_dec HL.

Lemma a_pos : 0 < a.
Proof. unfold a, isothermal. pose proof kb_pos. pose proof mp_pos. destruct Hgas. apply Rdiv_lt_0_compat; apply Rmult_lt_0_compat; lra. Qed.
Lemma nd_pos : (0 < nd)%nat.
Proof. pose proof (dcp_nd HD). lia. Qed.
Lemma nd_3 : (nd <= 3)%nat.
Proof. pose proof (dcp_nd HD). lia. Qed.

(** The profile. *)
Definition prof (r c : idx) : R := rho0 * exp (- (g / a * mxc (l_mesh L r) 0 (ii c))).
Lemma prof_pos r c : 0 < prof r c.
Proof. apply Rmult_lt_0_compat; [exact Hrho|apply exp_pos]. Qed.

Lemma start_prof r c : vr r -> arr r c ->
  c_rho (s_cell (S0 r) c) = prof r c /\ (forall k, (k < nd)%nat -> c_rhou (s_cell (S0 r) c) k = 0) /\ c_E (s_cell (S0 r) c) = prof r c * (a / (gam - 1)) /\
  (forall k, (k < nd)%nat -> s_u (S0 r) c k = 0) /\ s_P (S0 r) c = prof r c * a.
Proof.
  intros Hr Hc.
  destruct (rest_start K N dims X L U gas s rho0 T0 HR Hset Hth Heos ltac:(left; reflexivity) Hgas Hrho HT H0 H1 I0 I1 r c Hr Hc) as ((A & B & C) & D & E).
  assert (Er : i_rho (setup_cell s (setup_env K th N L r) c old_cell) = prof r c).
  { cbn [setup_cell]. unfold k_stratified, setup_env. cbv zeta. cbn [i_rho e_mesh e_grav e_th]. unfold stratified_rho. cbv zeta.
    rewrite start_gravity_eq, Hgrav. cbn [start_gravity]. rewrite (proj1 Hdown), Rabs_left by lra.
    unfold prof. do 2 f_equal. unfold a, isothermal. cbn [pg_thermo th_mmw]. pose proof kb_pos. pose proof mp_pos. destruct Hgas. field. repeat split; lra. }
  assert (Ep : i_P (setup_cell s (setup_env K th N L r) c old_cell) = prof r c * a).
  { transitivity (pg_pres_from_temp gas (i_rho (setup_cell s (setup_env K th N L r) c old_cell)) T0); [reflexivity|]. rewrite Er.
    unfold pg_pres_from_temp, a, isothermal. pose proof mp_pos. destruct Hgas. field. split; lra. }
  rewrite Er, Ep in *. pose proof (prof_pos r c). split; [exact A|]. split; [exact B|]. split; [|split; [exact D|exact E]].
  rewrite C, pg_evol by (assumption || lra). fold gam. unfold Rdiv. ring.
Qed.

Lemma start_grav r c d : s_grav (S0 r) c d = fg d.
Proof. unfold own_init, finish. cbn [s_grav]. unfold gravity_values. now rewrite Hgrav. Qed.

(** The half step. *)
Lemma half_step dt r c sd k : vr r -> sel K L 1 r c = true -> (sd < 2)%nat -> (k < nd)%nat ->
  kicked nd gas (half_u g dt) a (prof r c) (r_q (step_rec K L dt S0 r) c sd k).
Proof.
  intros Hr Hc Hs Hk. pose proof (sel1_array K N dims X L HL (ro_ng HR) r c Hr Hc) as Ha.
  destruct (start_prof r c Hr Ha) as (A & _ & _ & D & E). pose proof (prof_pos r c) as Hp.
  unfold step_rec, hydro_reconstruction. cbn [r_q]. unfold kwrite. rewrite Hc. unfold hancock_cons. cbv zeta. rewrite Hgeom, Hlim, Heos.
  assert (Eq : forall sd1 d1 sd2 d2, face_prim LConstant (l_mesh L r) (fun c0 => c_rho (s_cell (S0 r) c0)) (s_u (S0 r)) (s_P (S0 r)) c sd1 d1
                                   = face_prim LConstant (l_mesh L r) (fun c0 => c_rho (s_cell (S0 r) c0)) (s_u (S0 r)) (s_P (S0 r)) c sd2 d2).
  { intros. unfold face_prim. f_equal; [now rewrite !face_value_constant| |now rewrite !face_value_constant].
    apply functional_extensionality. intros n. now rewrite !face_value_constant. }
  assert (Ed : forall d f, (d < nd)%nat -> flux_diff Cartesian nd (l_mesh L r) (dt / 2) c d f f = 0).
  { intros d f Hd. apply flux_diff_same, cart_ds_rindex'. pose proof nd_3. lia. }
  split; [|split]; cbn [q_rho q_m q_E].
  - cbn [to_cons q_rho face_prim p_rho]. rewrite face_value_constant, A, vsum_0; [ring|]. intros d Hd. rewrite (Eq 1%nat d 0%nat d). now apply Ed.
  - intros j Hj. rewrite vsum_0; [|intros d Hd; rewrite (Eq 1%nat d 0%nat d), Ed by exact Hd; cbn [geo_source]; ring].
    cbn [to_cons q_m q_rho face_prim p_rho p_u]. rewrite !face_value_constant, A, (D j Hj), start_grav. destruct Hdown as [G1 G2]. destruct j.
    + rewrite G1. unfold half_u. field.
    + rewrite (G2 (Datatypes.S j)) by lia. ring.
  - rewrite vsum_0.
    + cbn [to_cons q_E face_prim p_rho p_P]. unfold ek_prim. cbn [face_prim p_rho p_u]. rewrite vsum_0 by (intros d Hd; cbn [face_prim p_u]; rewrite face_value_constant, (D d Hd); ring).
      rewrite !face_value_constant, A, E. cbn [pg_eos eos_evol]. rewrite pg_evol by (assumption || lra). fold gam. field. pose proof (proj1 Hgas). fold gam in H. lra.
    + intros d Hd. rewrite (Eq 1%nat d 0%nat d), Ed by exact Hd. cbn [to_cons q_m face_prim p_u]. rewrite !face_value_constant, (D d Hd). ring.
Qed.

(** The mesh. *)
Lemma spacing r c i : vr r -> own r c -> (ii c - 1 <= i <= ii c + 1)%Z -> l_mesh L r 0%nat (i + 1)%Z - l_mesh L r 0%nat i = h.
Proof.
  intros Hr Hc Hi. rewrite !(set_grid_at _ _ _ (lo_mesh HL Hr)) by lia. rewrite Z.add_assoc. apply Hh.
  pose proof (Hc 0%nat ltac:(lia)) as C. pose proof (Hr 0%nat ltac:(lia)) as R.
  rewrite (dec_cmin _ _ _ _ _ HD r 0%nat Hr) by lia. rewrite (dec_nloc _ _ _ _ _ HD r 0%nat Hr) in C by lia.
  pose proof (cm_nonneg _ _ _ _ _ HD 0%nat (coord 0 r) ltac:(lia) ltac:(lia)). pose proof (cm_max _ _ _ _ _ HD 0%nat (coord 0 r) ltac:(lia) ltac:(lia)).
  pose proof (ro_ng HR). pose proof nd_pos. unfold ghosts in C. destruct (Nat.ltb_spec 0 nd); [|lia]. cbn [coord] in *. lia.
Qed.
Lemma widths r c d : vr r -> own r c -> (d < 3)%nat -> 0 < mdx (l_mesh L r) d (coord d c).
Proof.
  intros Hr Hc Hd. unfold mdx. rewrite !(set_grid_at _ _ _ (lo_mesh HL Hr)) by exact Hd. rewrite Z.add_assoc.
  specialize (HX d (coord d (corner_min (d_range (l_dec L r))) + coord d c)%Z Hd).
  pose proof (Hc d Hd) as C. pose proof (Hr d Hd) as R.
  rewrite (dec_cmin _ _ _ _ _ HD r d Hr Hd) in *. rewrite (dec_nloc _ _ _ _ _ HD r d Hr Hd) in C.
  pose proof (cm_nonneg _ _ _ _ _ HD d (coord d r) Hd ltac:(lia)). pose proof (cm_max _ _ _ _ _ HD d (coord d r) Hd ltac:(lia)).
  pose proof (ghosts_nonneg _ _ _ _ _ HD d). lapply HX; [lra|]. lia.
Qed.
Lemma h_pos r c : vr r -> own r c -> 0 < h.
Proof. intros Hr Hc. rewrite <- (spacing r c (ii c) Hr Hc) by lia. exact (widths r c 0%nat Hr Hc ltac:(lia)). Qed.
Lemma prof_right r c : vr r -> own r c -> prof r (rindex 0 c) = prof r c * exp (- thickness a g h).
Proof.
  intros Hr Hc. unfold prof. rewrite Rmult_assoc, <- exp_plus. do 2 f_equal. unfold thickness, mxc. cbn [rindex ii]. change (kron 0 0) with 1%Z. pose proof a_pos.
  pose proof (spacing r c (ii c) Hr Hc ltac:(lia)) as E1. pose proof (spacing r c (ii c + 1)%Z Hr Hc ltac:(lia)) as E2.
  replace (l_mesh L r 0%nat (ii c + 1 + 1)%Z) with (l_mesh L r 0%nat (ii c) + 2 * h) by lra.
  replace (l_mesh L r 0%nat (ii c + 1)%Z) with (l_mesh L r 0%nat (ii c) + h) by lra. field. lra.
Qed.
Lemma prof_left r c : vr r -> own r c -> prof r (lindex 0 c) = prof r c * exp (thickness a g h).
Proof.
  intros Hr Hc. unfold prof. rewrite Rmult_assoc, <- exp_plus. do 2 f_equal. unfold thickness, mxc. cbn [lindex ii]. change (kron 0 0) with 1%Z. pose proof a_pos.
  pose proof (spacing r c (ii c) Hr Hc ltac:(lia)) as E1. pose proof (spacing r c (ii c - 1)%Z Hr Hc ltac:(lia)) as E2.
  replace (ii c - 1 + 1)%Z with (ii c) in * by lia.
  replace (l_mesh L r 0%nat (ii c + 1)%Z) with (l_mesh L r 0%nat (ii c) + h) by lra.
  replace (l_mesh L r 0%nat (ii c - 1)%Z) with (l_mesh L r 0%nat (ii c) - h) by lra. field. lra.
Qed.
Lemma prof_other r c k : (0 < k < 3)%nat -> prof r (rindex k c) = prof r c /\ prof r (lindex k c) = prof r c.
Proof.
  intros Hk. unfold prof. pose proof (coord_rindex k 0 c ltac:(lia)) as E1. pose proof (coord_lindex k 0 c ltac:(lia)) as E2. cbn [coord] in E1, E2.
  destruct (Nat.eqb_spec k 0); [lia|]. rewrite E1, E2, Z.add_0_r, Z.sub_0_r. split; reflexivity.
Qed.

(** The fluxes through the faces of an owned cell. *)
Section Fluxes.
Variables (t dt : R).
Hypothesis Hsub : subsonic gam a g dt.
Notation w := (half_u g dt).
Notation ha := (half_a gam a g dt).
Notation hc := (half_c gam a g dt).
Notation rc dt := (step_rec K L dt S0).
Let e := a / (gam - 1).

Lemma flux_0 r c c' : vr r -> sel K L 1 r c = true -> sel K L 1 r c' = true ->
  let f := riemann (k_sol K) nd (k_eos K) (r_q (rc dt r) c 1%nat 0%nat) (r_q (rc dt r) c' 0%nat 0%nat) 0 in
  f_rho f = (prof r c * (w + hc) + prof r c' * (w - hc)) / 2 /\
  f_m f 0%nat = (prof r c * ((w + hc) * (ha + w * hc)) + prof r c' * ((w - hc) * (w * hc - ha))) / (2 * hc) /\
  (forall k, (0 < k < nd)%nat -> f_m f k = 0) /\
  f_E f = (prof r c * ((w + hc) * (w * ha + hc * e)) + prof r c' * ((w - hc) * (hc * e - w * ha))) / (2 * hc).
Proof.
  intros Hr Hc Hc'. rewrite Hsol, Heos. cbn [riemann].
  exact (kicked_flux nd gas w a Hgas nd_pos Hsub _ _ _ _ (prof_pos r c) (prof_pos r c')
    (half_step dt r c 1 0 Hr Hc ltac:(lia) nd_pos) (half_step dt r c' 0 0 Hr Hc' ltac:(lia) nd_pos)).
Qed.
Lemma flux_side r c c' d : vr r -> sel K L 1 r c = true -> sel K L 1 r c' = true -> prof r c' = prof r c -> (0 < d < nd)%nat ->
  let f := riemann (k_sol K) nd (k_eos K) (r_q (rc dt r) c 1%nat d) (r_q (rc dt r) c' 0%nat d) d in
  f_rho f = 0 /\ (forall k, (k < nd)%nat -> f_m f k = if Nat.eqb k d then prof r c * ha else 0) /\ f_E f = 0.
Proof.
  intros Hr Hc Hc' Hp Hd. rewrite Hsol, Heos. cbn [riemann].
  pose proof (half_step dt r c' 0 d Hr Hc' ltac:(lia) ltac:(lia)) as Q. rewrite Hp in Q.
  exact (kicked_side nd gas w a Hgas nd_pos Hsub _ _ _ d (prof_pos r c) (half_step dt r c 1 d Hr Hc ltac:(lia) ltac:(lia)) Q Hd).
Qed.

Notation new r c := (god_cell Cartesian nd (k_eos K) (k_sol K) (l_mesh L r) (s_grav (S0 r)) dt (s_cell (S0 r)) (rc dt r) c).
Lemma new_cell r c : vr r -> own r c -> s_cell (own_full_step K N L U t dt S0 r) c = new r c.
Proof.
  intros Hr Hc. unfold own_full_step. cbn [finish s_cell]. rewrite (own_owned K N dims X L U _ _ r c HL (ro_faces HR) Hr Hc).
  pose proof (proj2 (sel_owned _ _ _ _ _ _ _ HL Hr) Hc) as Hs.
  unfold step_user, user_step. unfold kwrite at 1. rewrite Hs, Huser. unfold step_pf. rewrite Hpf. unfold step_godunov, godunov, kwrite. rewrite Hs, Hgeom. reflexivity.
Qed.

Lemma step_cell r c : vr r -> own r c ->
  let x := s_cell (own_full_step K N L U t dt S0 r) c in
  c_rho x = prof r c * new_mass gam a g h dt /\
  c_rhou x 0%nat = prof r c * new_momentum gam a g h dt /\
  (forall k, (0 < k < nd)%nat -> c_rhou x k = 0) /\
  c_E x = prof r c * new_energy gam a g h dt.
Proof.
  intros Hr Hc. rewrite new_cell by assumption. cbv zeta.
  assert (Hst : forall x, in_stencil nd c x -> sel K L 1 r x = true) by (intros x Hx; apply (owned_sel1 K N dims X L HL r c _ Hr Hc Hx)).
  pose proof (Hst c ltac:(now left)) as Sc. pose proof (Hst _ (st_l K c 0%nat nd_pos)) as Sl. pose proof (Hst _ (st_r K c 0%nat nd_pos)) as Sr.
  pose proof (sel1_array K N dims X L HL (ro_ng HR) r c Hr Sc) as Ha. destruct (start_prof r c Hr Ha) as (A & B & C & _ & _).
  destruct (flux_0 r (lindex 0 c) c Hr Sl Sc) as (FL1 & FL2 & FL3 & FL4). destruct (flux_0 r c (rindex 0 c) Hr Sc Sr) as (FR1 & FR2 & FR3 & FR4).
  rewrite (prof_left r c Hr Hc) in FL1, FL2, FL4. rewrite (prof_right r c Hr Hc) in FR1, FR2, FR4.
  assert (Side : forall d, (0 < d < nd)%nat -> forall k, (k < nd)%nat ->
    let fl := flux_left (k_sol K) nd (k_eos K) (rc dt r) c d in let fr := flux_right (k_sol K) nd (k_eos K) (rc dt r) c d in
    f_rho fl = f_rho fr /\ f_m fl k = f_m fr k /\ f_E fl = f_E fr).
  { intros d Hd k Hk. pose proof nd_3. destruct (prof_other r c d ltac:(lia)) as [P1 P2].
    destruct (flux_side r (lindex d c) c d Hr (Hst _ (st_l K c d ltac:(lia))) Sc (eq_sym P2) Hd) as (U1 & U2 & U3).
    destruct (flux_side r c (rindex d c) d Hr Sc (Hst _ (st_r K c d ltac:(lia))) P1 Hd) as (V1 & V2 & V3).
    unfold flux_left, face_flux, flux_right. cbv zeta. rewrite U1, U3, V1, V3, (U2 k Hk), (V2 k Hk), P2. auto. }
  assert (Ex : forall fL fR, flux_diff Cartesian nd (l_mesh L r) dt c 0 fL fR = dt / h * (fL - fR)).
  { intros fL fR. rewrite (cart_rate nd (l_mesh L r) dt c nd_3 (fun d Hd => widths r c d Hr Hc Hd)) by lia. do 2 f_equal. unfold mdx. cbn [coord].
    apply (spacing r c (ii c) Hr Hc). lia. }
  assert (Es : forall d f, (0 < d < nd)%nat -> flux_diff Cartesian nd (l_mesh L r) dt c d f f = 0).
  { intros d f Hd. apply flux_diff_same, cart_ds_rindex'. pose proof nd_3. lia. }
  pose proof (hc_pos gas w a Hsub) as Hc0. fold gam in Hc0. change (0 < hc) in Hc0. pose proof (hc_sq gas w a Hsub) as Hc2. change (hc * hc = gam * ha) in Hc2.
  pose proof (h_pos r c Hr Hc) as Hh0. destruct Hdown as [G1 G2].
  cbn [god_cell c_rho c_rhou c_E]. split; [|split; [|split]].
  - unfold god_rho. rewrite A, (vsum_first nd nd_pos) by (intros d Hd; destruct (Side d Hd 0%nat nd_pos) as (-> & _); now apply Es).
    rewrite Ex. unfold flux_left, face_flux, flux_right. rewrite FL1, FR1. unfold new_mass, sinh, cosh. field. lra.
  - unfold god_rhou. rewrite A, (B 0%nat nd_pos), (vsum_first nd nd_pos)
      by (intros d Hd; destruct (Side d Hd 0%nat nd_pos) as (_ & -> & _); rewrite Es by exact Hd; cbn [geo_source]; ring).
    rewrite Ex, start_grav, G1. unfold flux_left, face_flux, flux_right. cbn [geo_source]. rewrite FL2, FR2. unfold new_momentum, sinh, cosh. field. lra.
  - intros k Hk. unfold god_rhou. rewrite A, (B k) by lia. rewrite (vsum_first nd nd_pos)
      by (intros d Hd; destruct (Side d Hd k ltac:(lia)) as (_ & -> & _); rewrite Es by exact Hd; cbn [geo_source]; ring).
    rewrite Ex, start_grav, (G2 k Hk). unfold flux_left, face_flux, flux_right. cbn [geo_source]. rewrite (FL3 k Hk), (FR3 k Hk). ring.
  - unfold god_E. rewrite C, (vsum_first nd nd_pos)
      by (intros d Hd; destruct (Side d Hd 0%nat nd_pos) as (_ & _ & ->); rewrite Es by exact Hd; rewrite (B d) by lia; ring).
    rewrite Ex, (B 0%nat nd_pos). unfold flux_left, face_flux, flux_right. rewrite FL4, FR4. unfold new_energy, sinh, cosh. cbv zeta. fold e. field. lra.
Qed.
End Fluxes.
End Step.
