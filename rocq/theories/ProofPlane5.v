(** * One step of a cold uniform wind with the pressure fix (C107). *)
From Coq Require Import FunctionalExtensionality ZifyBool ZifyNat.
From Verif Require Import Base RBase ModelMesh ModelGeom ModelBoundary ModelHydro ModelScheme ModelStep
  SpecMesh SpecGeom SpecBoundary SpecHydro SpecScheme SpecStep SpecFill SpecSym SpecPlane
  ProofBase ProofMesh ProofR ProofBoundary ProofBoundary2 ProofHydro ProofScheme ProofShift ProofReduce ProofStep ProofMirror ProofSteady.
Local Open Scope R_scope.

Section Wind.
Variables (K : config) (N dims : idx) (X : nat -> arr1) (L : layout).
Hypothesis HR : runs_on K N dims X L.
Variables (rho0 : R) (u0 : vec) (P0 : R) (fx0 : vec) (eps : R).
Hypothesis He : lawful_eos (k_eos K).
Hypothesis Hp0 : 0 < rho0 /\ 0 < P0.
Hypothesis Hrefl : forall f, (f < 2 * k_nd K)%nat -> k_bcs K f = Reflexive -> u0 (f / 2)%nat = 0.
Hypothesis Huser : k_user K = UOff.
Hypothesis Hgrav : exists g, k_grav K = GUniform g /\ forall d, g d = 0.
Hypothesis Hgeo : k_geom K = Cartesian.
Hypothesis Hpf : k_pf K = Some eps.
Notation nd := (k_nd K).
Let p0 := mkPrim rho0 u0 P0.
Let HL := ro_layout HR.
Let e0 := eos_evol (k_eos K) rho0 P0.
Hypothesis Hcold : e0 < eps / 10 * ek_prim nd p0.
Hypothesis Hcold1 : e0 < eps * ek_prim nd p0.

Lemma vsum_scale n a f : vsum n (fun d => a * f d) = a * vsum n f.
Proof. induction n as [|n IH]; cbn [vsum]; [ring|]. rewrite IH. ring. Qed.

Lemma wind_energy S t dt r c : uni_state K dims L rho0 u0 P0 fx0 S -> process nd dims r -> owned nd (k_ng K) (d_nloc (l_dec L r)) c ->
  c_E (s_cell (full_step K L t dt S r) c) = e0 + ek_prim nd p0 - dt * ((P0 + e0) *
    vsum nd (fun i => vsum nd (fun k => (u0 k * ds Cartesian nd (l_mesh L r) (rindex i c) k - u0 k * ds Cartesian nd (l_mesh L r) c k) / dv Cartesian nd (l_mesh L r) c))).
Proof.
  intros HS Hr Hc. unfold full_step. cbn [finish s_cell]. rewrite (bcs_owned K N dims X L HL _ r c (ro_faces HR) Hr Hc).
  pose proof (proj2 (sel_owned _ _ _ _ _ _ _ HL Hr) Hc) as Hs.
  unfold step_user, user_step. rewrite kwrite_in by assumption. rewrite Huser. cbn [user_cell].
  unfold step_pf. rewrite Hpf, Hgeo. unfold pressure_fix. rewrite kwrite_in by assumption.
  set (rec := step_rec K L dt S r). set (a := s_cell (S r)).
  assert (Hrec : forall x sd k, in_stencil nd c x -> (sd < 2)%nat -> (k < nd)%nat -> r_q rec x sd k = to_cons nd (k_eos K) p0).
  { intros x sd k Hx Hsd Hk. apply (uni_rec K N dims X L HL (ro_ng HR) rho0 u0 P0 fx0 Hp0 Hrefl (or_introl Hgeo) S r x sd k dt HS Hr); auto.
    exact (owned_sel1 K N dims X L HL r c x Hr Hc Hx). }
  assert (Ha : forall x, in_stencil nd c x -> cons_of (a x) = to_cons nd (k_eos K) p0).
  { intros x Hx. apply (uni_cons K rho0 u0 P0 fx0). apply HS; [exact Hr|].
    exact (sel1_array K N dims X L HL (ro_ng HR) r x Hr (owned_sel1 K N dims X L HL r c x Hr Hc Hx)). }
  assert (Hek : ek_cons nd (to_cons nd (k_eos K) p0) = ek_prim nd p0) by (apply ek_cons_to_cons; apply Hp0).
  assert (Hei : forall x, in_stencil nd c x -> eint nd (a x) = e0).
  { intros x Hx. unfold eint. rewrite (Ha x Hx), Hek. change (c_E (a x)) with (q_E (cons_of (a x))). rewrite (Ha x Hx). cbn [to_cons q_E]. unfold e0, p0. cbn [p_rho p_P]. ring. }
  assert (H0 : in_stencil nd c c) by now left.
  assert (Hpr : to_prim nd (k_eos K) (to_cons nd (k_eos K) p0) = p0) by (apply to_prim_to_cons; [exact He|exact Hp0]).
  unfold pf_cell, ekin. rewrite (Hei c H0), (Ha c H0), Hek. rewrite (proj2 (rltb_true _ _)) by exact Hcold1. cbn [c_E].
  unfold pf_energy. cbv zeta. unfold alpha. rewrite (Hei c H0). unfold ekin. rewrite (Ha c H0), Hek. rewrite (proj2 (rltb_true _ _)) by exact Hcold.
  assert (Esum : 1 / 2 * vsum nd (fun idr => c_rhou (a c) idr * c_rhou (a c) idr / c_rho (a c)) = ek_prim nd p0).
  { rewrite <- Hek, <- (Ha c H0). unfold ek_cons, cons_of. cbn [q_m q_rho].
    rewrite (vsum_ext nd _ (fun d => / c_rho (a c) * (c_rhou (a c) d * c_rhou (a c) d))) by (intros; unfold Rdiv; ring). rewrite vsum_scale. unfold Rdiv. ring. }
  rewrite Esum. unfold de_pf. rewrite (Ha c H0), Hpr. cbn [p0 p_P].
  assert (El : forall i k, (i < nd)%nat -> us_left nd (k_eos K) rec c i k = u0 k).
  { intros i k Hi. unfold us_left. rewrite !Hrec by (first [assumption|lia|now apply st_l]). rewrite Hpr. cbn [p0 p_u]. field. }
  assert (Er : forall i k, (i < nd)%nat -> us_right nd (k_eos K) rec c i k = u0 k).
  { intros i k Hi. unfold us_right. rewrite !Hrec by (first [assumption|lia|now apply st_r]). rewrite Hpr. cbn [p0 p_u]. field. }
  unfold div_ue. rewrite (vsum_ext nd _ (fun i => e0 * vsum nd (fun k => (u0 k * ds Cartesian nd (l_mesh L r) (rindex i c) k - u0 k * ds Cartesian nd (l_mesh L r) c k) / dv Cartesian nd (l_mesh L r) c))).
  2:{ intros i Hi. rewrite <- vsum_scale. apply vsum_ext. intros k Hk. rewrite El, Er by assumption.
      assert (E1 : ein_right nd (k_eos K) a rec c i k = e0) by (unfold ein_right; rewrite (Hei c H0), (Hei _ (st_r K c i Hi)); now destruct (rltb _ _)).
      assert (E2 : ein_left nd (k_eos K) a rec c i k = e0) by (unfold ein_left; rewrite (Hei c H0), (Hei _ (st_l K c i Hi)); now destruct (rltb _ _)).
      rewrite E1, E2. unfold Rdiv. ring. }
  rewrite vsum_scale. unfold div_u.
  rewrite (vsum_ext nd (fun i => vsum nd (fun k => (us_right nd (k_eos K) rec c i k * ds Cartesian nd (l_mesh L r) (rindex i c) k - us_left nd (k_eos K) rec c i k * ds Cartesian nd (l_mesh L r) c k) / dv Cartesian nd (l_mesh L r) c))
    (fun i => vsum nd (fun k => (u0 k * ds Cartesian nd (l_mesh L r) (rindex i c) k - u0 k * ds Cartesian nd (l_mesh L r) c k) / dv Cartesian nd (l_mesh L r) c))).
  2:{ intros i Hi. apply vsum_ext. intros k Hk. now rewrite El, Er by assumption. }
  ring.
Qed.
End Wind.

(** The same wind in one and in two dimensions. *)
Lemma fix_breaks_plane K K' N N' dims dims' X X' L L' G G' S S' rho0 v P0 eps t dt : lawful_eos (k_eos K) ->
  extruded_run K K' -> extruded_mesh (k_nd K) N N' X X' -> k_nd K = 1%nat -> k_nd K' = 2%nat -> k_geom K = Cartesian ->
  k_pf K = Some eps -> k_user K = UOff -> k_grav K = GUniform (fun _ => 0) -> k_grav K' = GUniform (fun _ => 0) -> k_bcs K 0 <> Reflexive -> k_bcs K 1 <> Reflexive ->
  runs_on K N dims X L -> runs_on K' N' dims' X' L' -> starts_from K dims L G S -> starts_from K' dims' L' G' S' ->
  extruded_fields (k_nd K) (k_nd K') N N' G G' ->
  (forall c, g_rho G c = rho0 /\ (forall d, g_u G c d = if Nat.eqb d 0 then v else 0) /\ g_P G c = P0 /\ forall n, g_fx G c n = 0) ->
  (forall c, g_rho G' c = rho0 /\ (forall d, g_u G' c d = if Nat.eqb d 0 then v else 0) /\ g_P G' c = P0 /\ forall n, g_fx G' c n = 0) ->
  0 < rho0 -> 0 < P0 -> 0 < eps -> let e0 := eos_evol (k_eos K) rho0 P0 in e0 < eps / 10 * (rho0 * (v * v) / 2) ->
  (forall r c, process 1 dims r -> owned 1 (k_ng K) (d_nloc (l_dec L r)) c ->
     c_E (s_cell (run K L [(t, dt)] (init_state K L S) r) c) = e0 + rho0 * (v * v) / 2) /\
  (forall r c, process 2 dims' r -> owned 2 (k_ng K) (d_nloc (l_dec L' r)) c ->
     (forall d, (d < 3)%nat -> mdx (l_mesh L' r) d (coord d c) <> 0) ->
     c_E (s_cell (run K' L' [(t, dt)] (init_state K' L' S') r) c) = e0 + rho0 * (v * v) / 2
       - dt * (P0 + e0) * v * (mdx (l_mesh L' r) 1 (jj c + 1) - mdx (l_mesh L' r) 1 (jj c)) / (mdx (l_mesh L' r) 0 (ii c) * mdx (l_mesh L' r) 1 (jj c))).
Proof.
  intros He HK HX Hn Hn' Hg Hpf Hu Hgr Hgr' B0 B1 HR HR' Hs Hs' _ HG HG' Hr Hp Heps e0 Hc.
  set (u0 := fun d => if Nat.eqb d 0 then v else 0 : R).
  assert (Ek1 : ek_prim 1 (mkPrim rho0 u0 P0) = rho0 * (v * v) / 2) by (unfold ek_prim; cbn; field).
  assert (Ek2 : ek_prim 2 (mkPrim rho0 u0 P0) = rho0 * (v * v) / 2) by (unfold ek_prim; cbn; field).
  assert (Hc1 : e0 < eps * (rho0 * (v * v) / 2)).
  { assert (0 <= rho0 * (v * v) / 2) by (pose proof (Rle_0_sqr v) as Q; unfold Rsqr in Q; assert (0 <= rho0 * (v * v)) by (apply Rmult_le_pos; lra); lra).
    assert (0 <= eps * (rho0 * (v * v) / 2)) by (apply Rmult_le_pos; lra). lra. }
  assert (Hb : forall f, (f < 2 * k_nd K)%nat -> k_bcs K f = Reflexive -> u0 (f / 2)%nat = 0).
  { intros f Hf E. rewrite Hn in Hf. destruct f as [|[|f]]; [contradiction|contradiction|lia]. }
  assert (Hb' : forall f, (f < 2 * k_nd K')%nat -> k_bcs K' f = Reflexive -> u0 (f / 2)%nat = 0).
  { intros f Hf E. rewrite Hn' in Hf. destruct f as [|[|[|[|f]]]]; [| |reflexivity|reflexivity|lia].
    - rewrite (xr_bcs _ _ HK) in E by (rewrite Hn; lia). contradiction.
    - rewrite (xr_bcs _ _ HK) in E by (rewrite Hn; lia). contradiction. }
  split; intros r c Pr Oc; [|intros Hm]; cbn [run fold_left fst snd].
  - rewrite (wind_energy K N dims X L HR rho0 u0 P0 (fun _ => 0) eps He (conj Hr Hp) Hb Hu Hg Hpf); rewrite ?Hn, ?Ek1; try assumption.
    + fold e0. unfold ds, dv, cart_ds, cart_dv, rindex, Rdiv. destruct c as [i j k]; cbn. rewrite !Z.add_0_r. ring.
    + apply (uni_init K N dims X L (ro_layout HR) rho0 u0 P0 (fun _ => 0) He (conj Hr Hp) (ro_thick HR) (ro_faces HR) Hb (ex_intro _ _ (conj Hgr (fun _ => eq_refl))) G S Hs);
        intros; try (apply HG); intros; apply HG.
  - assert (He' : lawful_eos (k_eos K')) by (rewrite (xr_eos _ _ HK); exact He).
    assert (Hg' : k_geom K' = Cartesian) by (rewrite (xr_geom _ _ HK); exact Hg).
    assert (Hpf' : k_pf K' = Some eps) by (rewrite (xr_pf _ _ HK); exact Hpf).
    assert (Hu' : k_user K' = UOff) by (rewrite (xr_user _ _ HK); exact Hu).
    rewrite (wind_energy K' N' dims' X' L' HR' rho0 u0 P0 (fun _ => 0) eps He' (conj Hr Hp) Hb' Hu' Hg' Hpf'); rewrite ?Hn', ?Ek2, ?(xr_eos _ _ HK), ?(xr_ng _ _ HK); try assumption.
    + fold e0. pose proof (Hm 0%nat ltac:(lia)) as M0. pose proof (Hm 1%nat ltac:(lia)) as M1. pose proof (Hm 2%nat ltac:(lia)) as M2.
      unfold ds, dv, cart_ds, cart_dv, rindex in *. destruct c as [i j k]; cbn in *. rewrite !Z.add_0_r. unfold u0; cbn. field. auto.
    + apply (uni_init K' N' dims' X' L' (ro_layout HR') rho0 u0 P0 (fun _ => 0) He' (conj Hr Hp) (ro_thick HR') (ro_faces HR') Hb' (ex_intro _ _ (conj Hgr' (fun _ => eq_refl))) G' S' Hs');
        intros; try (apply HG'); intros; apply HG'.
Qed.
