(** * In exact arithmetic the operation-by-operation model is ModelStep (C86). *)
From Coq Require Import FunctionalExtensionality.
From Verif Require Import Base RBase ModelMesh ModelGeom ModelBoundary ModelHydro ModelScheme ModelStep ModelArith
  ProofBase ProofR ProofHydro.
Local Open Scope R_scope.

Lemma lit0 z : a_lit real_arith z 0 = IZR z.
Proof. cbn [a_lit real_arith pow]. field. Qed.

Ltac arith_real :=
  cbn [a_add a_sub a_mul a_div a_fmin a_fmax a_abs a_sqrt a_sin a_cos a_exp a_lt a_pi real_arith];
  rewrite ?lit0.

Lemma loop_plus n f x : loop n (fun k s => s + f k) x = x + vsum n f.
Proof. induction n as [|n IH]; cbn [loop vsum]; [ring|]. rewrite IH. ring. Qed.
Lemma loop_ext n f g x : (forall k s, (k < n)%nat -> f k s = g k s) -> loop n f x = loop n g x.
Proof. induction n as [|n IH]; intros H; cbn [loop]; [reflexivity|]. rewrite IH by auto. apply H. lia. Qed.
Lemma asum_real n f : asum real_arith n f = vsum n f.
Proof. unfold asum. arith_real. rewrite loop_plus. ring. Qed.

Lemma adx_real m d i : adx real_arith m d i = mdx m d i.
Proof. reflexivity. Qed.
Lemma axc_real m d i : axc real_arith m d i = mxc m d i.
Proof. unfold axc, mxc. arith_real. reflexivity. Qed.
Lemma ads_real g nd m c d : ads real_arith g nd m c d = ds g nd m c d.
Proof.
  destruct g; cbn [ads ds].
  - unfold acart_ds, cart_ds. arith_real. reflexivity.
  - unfold asph_ds, sph_ds. destruct nd as [|[|[|[|nd]]]]; destruct d as [|[|[|d]]]; arith_real; reflexivity.
Qed.
Lemma adv_real g nd m c : adv real_arith g nd m c = dv g nd m c.
Proof.
  destruct g; cbn [adv dv]; [reflexivity|].
  unfold asph_dv, sph_dv. destruct nd as [|[|[|[|nd]]]]; arith_real; reflexivity.
Qed.
Lemma apg_real g : apg_eos real_arith (pg_gamma g) (pg_mmw g) = pg_eos g.
Proof.
  unfold apg_eos, pg_eos, pg_evol_from_pres, pg_pres_from_evol, pg_sound. f_equal; apply functional_extensionality; intros rho;
    apply functional_extensionality; intros x;
    unfold apg_evol_from_temp, apg_temp_from_pres, apg_pres_from_temp, apg_temp_from_evol, akb, amp; arith_real; reflexivity.
Qed.

Section Kernels.
Variables (g : geom) (nd : nat) (e : eos).
Hypothesis Hnd : (nd <= 3)%nat.

Lemma aek_cons_real q : aek_cons real_arith nd q = ek_cons nd q.
Proof. unfold aek_cons, ek_cons. rewrite asum_real. arith_real. reflexivity. Qed.
Lemma aek_prim_real p : aek_prim real_arith nd p = ek_prim nd p.
Proof. unfold aek_prim, ek_prim. rewrite asum_real. arith_real. reflexivity. Qed.
Lemma ato_prim_real q : ato_prim real_arith nd e q = to_prim nd e q.
Proof. unfold ato_prim, to_prim, aevol_cons, evol_cons. rewrite aek_cons_real. reflexivity. Qed.
Lemma ato_cons_real p : ato_cons real_arith nd e p = to_cons nd e p.
Proof. unfold ato_cons, to_cons. rewrite aek_prim_real. reflexivity. Qed.
Lemma aflux_prim_real p d : aflux_prim real_arith nd e p d = flux_prim nd e p d.
Proof.
  unfold aflux_prim, flux_prim. rewrite aek_prim_real. arith_real. f_equal.
  apply functional_extensionality. intros k. destruct (Nat.eqb k d); ring.
Qed.
Lemma ariemann_real s qL qR d : ariemann real_arith s nd e qL qR d = riemann s nd e qL qR d.
Proof.
  destruct s; cbn [ariemann riemann].
  - unfold ahll, hll. rewrite !ato_prim_real, !aflux_prim_real. arith_real. reflexivity.
  - unfold ahllc, hllc. rewrite !ato_prim_real, !aflux_prim_real. arith_real. reflexivity.
  - unfold asplitting, splitting. rewrite !ato_prim_real. arith_real.
    replace (a_lit real_arith 11 1) with (11 / 10) by (cbn; field). f_equal.
    apply functional_extensionality. intros k. destruct (Nat.eqb k d); ring.
Qed.
Lemma aslope_real l x y : aslope real_arith l x y = slope l x y.
Proof. destruct l; cbn [aslope slope]; unfold van_leer, minmod, van_albada; arith_real; reflexivity. Qed.
Lemma aface_value_real l m v c sd d : aface_value real_arith l m v c sd d = face_value l m v c sd d.
Proof.
  unfold aface_value, face_value, face_slope. rewrite aslope_real. unfold acell_width, cell_width. arith_real. reflexivity.
Qed.
Lemma aface_prim_real l m rho u P c : aface_prim real_arith l m rho u P c = face_prim l m rho u P c.
Proof.
  apply functional_extensionality. intros sd. apply functional_extensionality. intros d. unfold aface_prim, face_prim.
  rewrite !aface_value_real. f_equal. apply functional_extensionality. intros n. apply aface_value_real.
Qed.
Lemma aface_fx_real l m fx c : aface_fx real_arith l m fx c = face_fx l m fx c.
Proof.
  apply functional_extensionality. intros sd. apply functional_extensionality. intros d. apply functional_extensionality. intros n.
  apply aface_value_real.
Qed.
Lemma ageo_real m c x dtodv pL pR d k : ageo real_arith g nd m c dtodv pL pR d k x = x + geo_source g nd m c dtodv pL pR d k.
Proof.
  unfold ageo, geo_source. destruct g; [ring|].
  assert (E : (Nat.eqb nd 2 || Nat.eqb nd 3)%bool = Nat.leb 2 nd).
  { destruct nd as [|[|[|[|n]]]]; try reflexivity. lia. }
  rewrite E, !ads_real.
  destruct d as [|[|d]]; destruct k as [|[|[|k]]];
    unfold asource_grad_pres, asource_grad_u_r, asource_grad_u_idir_r, asource_grad_u_th, asource_grad_u_phi,
      source_grad_pres, source_grad_u_r, source_grad_u_idir_r, source_grad_u_th, source_grad_u_phi; arith_real;
    destruct (Nat.leb 2 nd), (Nat.eqb nd 3); ring.
Qed.
Lemma aflux_diff_real m dt c d x y : aflux_diff real_arith g nd m dt c d x y = flux_diff g nd m dt c d x y.
Proof. unfold aflux_diff, flux_diff. rewrite adv_real, !ads_real. reflexivity. Qed.

(** The momentum loop. *)
Lemma loop_pull n f h k x :
  (if Nat.ltb k n then loop n (fun d s => if Nat.eqb k d then s + f d + h else s + f d) x
   else loop n (fun d s => if Nat.eqb k d then s + f d + h else s + f d) x + h) = x + vsum n f + h.
Proof.
  assert (G : forall n, loop n (fun d s => if Nat.eqb k d then s + f d + h else s + f d) x
                        = x + vsum n f + (if Nat.ltb k n then h else 0)).
  { clear n. induction n as [|n IH]; cbn [loop vsum]; [cbn; ring|]. rewrite IH.
    destruct (Nat.eqb_spec k n) as [->|Hk].
    - rewrite Nat.ltb_irrefl. rewrite (proj2 (Nat.ltb_lt n (S n))) by lia. ring.
    - replace (Nat.ltb k (S n)) with (Nat.ltb k n); [ring|].
      destruct (Nat.ltb_spec k n), (Nat.ltb_spec k (S n)); try reflexivity; lia. }
  rewrite G. destruct (Nat.ltb k n); ring.
Qed.

Lemma ahancock_real m grav dt fp c sd d :
  ahancock_cons real_arith g nd e m grav dt fp c sd d = hancock_cons g nd e m grav dt fp c sd d.
Proof.
  unfold ahancock_cons, hancock_cons. rewrite ato_cons_real. f_equal.
  - rewrite <- loop_plus. apply loop_ext. intros k s _. rewrite aflux_diff_real, !aflux_prim_real. reflexivity.
  - apply functional_extensionality. intros idr. rewrite <- (loop_pull _ _ _ idr). arith_real. rewrite adv_real.
    assert (E : forall x, loop nd (fun idim s => if Nat.eqb idr idim
        then ageo real_arith g nd m c (dt / dv g nd m c) (fp 0%nat idim) (fp 1%nat idim) idim idr
               (s + aflux_diff real_arith g nd m dt c idim (f_m (aflux_prim real_arith nd e (fp 0%nat idim) idim) idr)
                      (f_m (aflux_prim real_arith nd e (fp 1%nat idim) idim) idr)) + dt * grav c idr * q_rho (to_cons nd e (fp sd d))
        else ageo real_arith g nd m c (dt / dv g nd m c) (fp 0%nat idim) (fp 1%nat idim) idim idr
               (s + aflux_diff real_arith g nd m dt c idim (f_m (aflux_prim real_arith nd e (fp 0%nat idim) idim) idr)
                      (f_m (aflux_prim real_arith nd e (fp 1%nat idim) idim) idr))) x
      = loop nd (fun idim s => if Nat.eqb idr idim
          then s + (flux_diff g nd m dt c idim (f_m (flux_prim nd e (fp 0%nat idim) idim) idr) (f_m (flux_prim nd e (fp 1%nat idim) idim) idr)
                    + geo_source g nd m c (dt / dv g nd m c) (fp 0%nat idim) (fp 1%nat idim) idim idr)
                 + dt * grav c idr * q_rho (to_cons nd e (fp sd d))
          else s + (flux_diff g nd m dt c idim (f_m (flux_prim nd e (fp 0%nat idim) idim) idr) (f_m (flux_prim nd e (fp 1%nat idim) idim) idr)
                    + geo_source g nd m c (dt / dv g nd m c) (fp 0%nat idim) (fp 1%nat idim) idim idr)) x).
    { intros x. apply loop_ext. intros k s _. rewrite !ageo_real, aflux_diff_real, !aflux_prim_real. destruct (Nat.eqb idr k); ring. }
    rewrite !E. reflexivity.
  - rewrite <- loop_plus. apply loop_ext. intros k s _. rewrite aflux_diff_real, !aflux_prim_real. arith_real. ring.
Qed.
Lemma ahancock_fx_real m grav dt fp ffx c sd d n :
  ahancock_fx real_arith g nd e m grav dt fp ffx c sd d n = hancock_fx g nd e m grav dt fp ffx c sd d n.
Proof.
  unfold ahancock_fx, hancock_fx. rewrite ahancock_real. arith_real. f_equal. rewrite <- loop_plus. apply loop_ext.
  intros k s _. rewrite aflux_diff_real, !aflux_prim_real. reflexivity.
Qed.

Lemma arec_real p l m grav dt rho u P fx old :
  ahydro_reconstruction real_arith p g nd e l m grav dt rho u P fx old = hydro_reconstruction p g nd e l m grav dt rho u P fx old.
Proof.
  unfold ahydro_reconstruction, hydro_reconstruction. f_equal; apply functional_extensionality; intros c; unfold kwrite;
    (destruct (p c); [|reflexivity]); apply functional_extensionality; intros sd; apply functional_extensionality; intros d;
    rewrite aface_prim_real.
  - apply ahancock_real.
  - apply functional_extensionality. intros n. rewrite aface_fx_real. apply ahancock_fx_real.
Qed.

Lemma aflux_left_real s r c d : aflux_left real_arith s nd e r c d = flux_left s nd e r c d.
Proof. apply ariemann_real. Qed.
Lemma aflux_right_real s r c d : aflux_right real_arith s nd e r c d = flux_right s nd e r c d.
Proof. apply ariemann_real. Qed.
Lemma agod_cell_real s m grav dt a r c : agod_cell real_arith g nd e s m grav dt a r c = god_cell g nd e s m grav dt a r c.
Proof.
  assert (E0 : agod_rho real_arith g nd e s m dt a r c = god_rho g nd e s m dt a r c).
  { unfold agod_rho, god_rho. rewrite <- loop_plus. apply loop_ext. intros k x _.
    rewrite aflux_diff_real, aflux_left_real, aflux_right_real. reflexivity. }
  unfold agod_cell, god_cell. f_equal.
  - exact E0.
  - apply functional_extensionality. intros idr. unfold agod_rhou, god_rhou. rewrite <- (loop_pull _ _ _ idr). arith_real. rewrite adv_real.
    assert (E : forall x, loop nd (fun d s0 => if Nat.eqb idr d
        then ageo real_arith g nd m c (dt / dv g nd m c) (ato_prim real_arith nd e (r_q r c 0%nat d)) (ato_prim real_arith nd e (r_q r c 1%nat d)) d idr
               (s0 + aflux_diff real_arith g nd m dt c d (f_m (aflux_left real_arith s nd e r c d) idr) (f_m (aflux_right real_arith s nd e r c d) idr))
             + dt * grav c idr * c_rho (a c)
        else ageo real_arith g nd m c (dt / dv g nd m c) (ato_prim real_arith nd e (r_q r c 0%nat d)) (ato_prim real_arith nd e (r_q r c 1%nat d)) d idr
               (s0 + aflux_diff real_arith g nd m dt c d (f_m (aflux_left real_arith s nd e r c d) idr) (f_m (aflux_right real_arith s nd e r c d) idr))) x
      = loop nd (fun d s0 => if Nat.eqb idr d
          then s0 + (flux_diff g nd m dt c d (f_m (flux_left s nd e r c d) idr) (f_m (flux_right s nd e r c d) idr)
                    + geo_source g nd m c (dt / dv g nd m c) (to_prim nd e (r_q r c 0%nat d)) (to_prim nd e (r_q r c 1%nat d)) d idr)
               + dt * grav c idr * c_rho (a c)
          else s0 + (flux_diff g nd m dt c d (f_m (flux_left s nd e r c d) idr) (f_m (flux_right s nd e r c d) idr)
                    + geo_source g nd m c (dt / dv g nd m c) (to_prim nd e (r_q r c 0%nat d)) (to_prim nd e (r_q r c 1%nat d)) d idr)) x).
    { intros x. apply loop_ext. intros k s0 _. rewrite !ageo_real, aflux_diff_real, aflux_left_real, aflux_right_real, !ato_prim_real.
      destruct (Nat.eqb idr k); ring. }
    rewrite !E. reflexivity.
  - unfold agod_E, god_E. rewrite <- loop_plus. apply loop_ext. intros k x _.
    rewrite aflux_diff_real, aflux_left_real, aflux_right_real. arith_real. ring.
  - apply functional_extensionality. intros n. rewrite E0. unfold aclamp, clamp. arith_real.
    replace (agod_rhofx real_arith g nd e s m dt a r c n) with (god_rhofx g nd e s m dt a r c n); [reflexivity|].
    unfold agod_rhofx, god_rhofx. rewrite <- loop_plus. apply loop_ext. intros k x _.
    unfold afx_left, afx_right, fx_left, fx_right. rewrite aflux_diff_real, aflux_left_real, aflux_right_real. arith_real. reflexivity.
Qed.

Lemma loop2 n k f x : loop n (fun i s => loop k (fun j s => s + f i j) s) x = x + vsum n (fun i => vsum k (f i)).
Proof. rewrite <- loop_plus. apply loop_ext. intros i s _. apply loop_plus. Qed.
Lemma aeint_real x : aeint real_arith nd x = eint nd x.
Proof. unfold aeint, eint. rewrite aek_cons_real. reflexivity. Qed.
Lemma aus_left_real r c d k : aus_left real_arith nd e r c d k = us_left nd e r c d k.
Proof. unfold aus_left, us_left. rewrite !ato_prim_real. arith_real. reflexivity. Qed.
Lemma aus_right_real r c d k : aus_right real_arith nd e r c d k = us_right nd e r c d k.
Proof. unfold aus_right, us_right. rewrite !ato_prim_real. arith_real. reflexivity. Qed.
Lemma apf_cell_real m dt eps a r new c : apf_cell real_arith g nd e m dt eps a r new c = pf_cell g nd e m dt eps a r new c.
Proof.
  assert (E1 : adiv_u real_arith g nd e m r c = div_u g nd e m r c).
  { unfold adiv_u, div_u. arith_real. rewrite <- (Rplus_0_l (vsum nd _)), <- loop2. apply loop_ext. intros i s _. apply loop_ext. intros j s' _.
    rewrite !aus_left_real, !aus_right_real, !ads_real, adv_real. reflexivity. }
  assert (E2 : adiv_ue real_arith g nd e m a r c = div_ue g nd e m a r c).
  { unfold adiv_ue, div_ue. arith_real. rewrite <- (Rplus_0_l (vsum nd _)), <- loop2. apply loop_ext. intros i s _. apply loop_ext. intros j s' _.
    unfold aein_left, aein_right, ein_left, ein_right.
    rewrite !aus_left_real, !aus_right_real, !aeint_real, !ads_real, adv_real. arith_real. reflexivity. }
  unfold apf_cell, pf_cell, apf_energy, pf_energy, ade_pf, de_pf, aalpha, alpha, aekin, ekin.
  rewrite E1, E2, !aeint_real, !aek_cons_real, ato_prim_real, asum_real. arith_real. reflexivity.
Qed.
End Kernels.

Lemma nickel_real t : anickel_rate real_arith t = nickel_rate t.
Proof.
  unfold anickel_rate, nickel_rate, aQ_ni56, aQ_co56, atau_ni56, atau_co56, am_ni56, aMeV, aday, Q_ni56, Q_co56, tau_ni56, tau_co56,
    m_ni56, MeV, day, atomic_mass_unit. arith_real.
  cbn [a_lit real_arith]. rewrite !pow_1.
  replace (24 * (60 * 60)) with (24 * 60 * 60) by ring.
  replace (1000000) with (10 ^ 6) by ring. replace (10 ^ 2) with 100 by ring. reflexivity.
Qed.
Lemma auser_real k t dt x : auser_cell real_arith k t dt x = user_cell k t dt x.
Proof. destruct k; cbn [auser_cell user_cell]; [reflexivity|]. rewrite nickel_real. reflexivity. Qed.

Section Step.
Variables (K : config) (L : layout).
Hypothesis Hnd : (k_nd K <= 3)%nat.
Hypothesis Hgrav : forall M, k_grav K <> GInternalMass M.

Lemma agravity_real W r : agravity_values real_arith K L r = Some (gravity_values K L W r).
Proof.
  unfold agravity_values, gravity_values. destruct (k_grav K) as [g|M|M] eqn:E; [reflexivity| |now destruct (Hgrav M)].
  f_equal. apply functional_extensionality. intros c. apply functional_extensionality. intros d. unfold radial_gravity.
  destruct d as [|d]; rewrite ?axc_real; arith_real; reflexivity.
Qed.
Lemma astep_rec_real dt S r : astep_rec real_arith K L dt S r = step_rec K L dt S r.
Proof. unfold astep_rec, step_rec. rewrite arec_real by exact Hnd. arith_real. reflexivity. Qed.
Lemma astep_user_real t dt S : astep_user real_arith K L t dt S = step_user K L t dt S.
Proof.
  apply functional_extensionality. intros r.
  assert (E1 : astep_godunov real_arith K L dt S r = step_godunov K L dt S r).
  { unfold astep_godunov, step_godunov, godunov. rewrite astep_rec_real. apply functional_extensionality. intros c. unfold kwrite.
    destruct (sel K L 0 r c); [|reflexivity]. now apply agod_cell_real. }
  assert (E2 : astep_pf real_arith K L dt S r = step_pf K L dt S r).
  { unfold astep_pf, step_pf. rewrite E1, astep_rec_real. destruct (k_pf K) as [eps|]; [|reflexivity].
    apply functional_extensionality. intros c. unfold pressure_fix, kwrite. destruct (sel K L 0 r c); [|reflexivity]. apply apf_cell_real. }
  unfold astep_user, step_user, user_step. rewrite E2. apply functional_extensionality. intros c. unfold kwrite.
  destruct (sel K L 0 r c); [|reflexivity]. apply auser_real.
Qed.
Lemma afinish_real W rec new S : afinish real_arith K L W rec new S = finish K L W rec new S.
Proof.
  apply functional_extensionality. intros r. unfold afinish, finish. rewrite (agravity_real W). cbn [conv_cons_to_prim fst snd].
  f_equal; apply functional_extensionality; intros c; unfold kwrite; (destruct (sel K L (k_ng K) r c); [|reflexivity]);
    now rewrite ato_prim_real.
Qed.
Lemma afull_step_real t dt S : afull_step real_arith K L t dt S = full_step K L t dt S.
Proof.
  unfold afull_step, full_step. rewrite astep_user_real, afinish_real. f_equal.
  apply functional_extensionality. intros r. apply astep_rec_real.
Qed.
Lemma ainit_state_real S : ainit_state real_arith K L S = init_state K L S.
Proof.
  assert (E : ainit_cons real_arith K L S = init_cons K L S).
  { apply functional_extensionality. intros r. apply functional_extensionality. intros c. unfold ainit_cons, init_cons.
    cbn [conv_prim_to_cons fst snd]. f_equal; unfold kwrite; (destruct (sel K L 0 r c); [|reflexivity]); now rewrite ato_cons_real. }
  unfold ainit_state, init_state. rewrite E. apply afinish_real.
Qed.
Lemma ainverse_dt_real S r c : acell_inverse_dt real_arith K L S r c = cell_inverse_dt K L S r c.
Proof.
  unfold acell_inverse_dt, cell_inverse_dt, inverse_dt. rewrite asum_real. apply vsum_ext. intros d Hd. unfold adx_geom, dx_geom.
  destruct (k_geom K); [reflexivity|]. destruct (k_nd K) as [|[|[|[|n]]]]; try reflexivity;
    destruct d as [|[|[|d]]]; rewrite ?axc_real; reflexivity.
Qed.
End Step.
