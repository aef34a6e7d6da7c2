(** * Cases for C96: a parameter file and a file of profiles. *)
From Coq Require Import List Ascii Reals Lra Lia ZifyBool.
From Coq Require String.
From Flocq Require Import Core.
From Verif Require Import Base RBase ModelMesh ModelGeom ModelBoundary ModelHydro ModelRad ModelScheme ModelStep ModelUtil ModelIni ModelMain
  ModelMove ModelMPI ModelSetup ModelParam ModelH5 ModelLaunch ModelProfile
  SpecMesh SpecGeom SpecBoundary SpecStep SpecSetup SpecMain SpecIni SpecParam SpecMPI SpecLaunch SpecProfile
  ProofBase ProofMesh ProofIni ProofIniNum ProofParam ProofParam2 ProofParamEx ProofParamRun ProofParamRun2 ProofParamEx2 ProofLaunch ProofProfile ProofProfile2.
Local Open Scope string_scope.
Local Open Scope Z_scope.
Local Open Scope list_scope.

(** A star of 8 shells, 6 cells in the polar angle, with a grid that follows the gas. *)
Section Scalars.
(** With two scalars, or without. *)
Context (k : bool).
Definition star : list tagged :=
  [TInert "; a star from profiles";
   THeader "Problem"; TSetting "init_file" "star.h5"; TSetting "vmax_shift" "1"; TSetting "cell_shift" "2";
   THeader "Grid"; TSetting "Nx0_glob" "8"; TSetting "Nx1_glob" "6"; TSetting "Nx2_glob" "1"; TSetting "type" "UserDefined";
   TSetting "shift_grid" "UserDefined";
   THeader "Run"; TSetting "cfl" "0.25";
   THeader "Output"; TSetting "iter_frequency" "1"; TSetting "time_frequency" "0.1";
   THeader "Hydro"; TSetting "reconstruction" "Minmod"; TSetting "riemann_solver" "HLLC";
   THeader "Perfect Gas"; TSetting "gamma" "1.4";
   THeader "Passive Scalar"; TSetting "nfx" (if k then "2" else "0");
   THeader "Boundary Condition"; TSetting "BC" "NullGradient"; TSetting "BC_X0_left" "Reflexive"].
Definition star_T : list entry := entries_of [] star.
Definition star_f : bytes := unlines (map line_of star).
Definition star_p : param :=
  let zero := def 0 in let one := def 1 in
  mkParam "ShockTube" false "None" (def (10 ^ 20)) 8 6 1 "UserDefined" 2 zero one zero one zero one "UserDefined" false 0 0 0
    zero (def (1 / 5)) (dbl 25 (-2)) 10000 1 (dbl 1 (-1)) (Finite (double_of (double_of 0 + double_of (IZR 1 * powerRZ 10 (-1)))))
    "." "result" 20 "Minmod" "HLLC" zero zero zero one (dbl 14 (-1)) one "NullGradient" "" (if k then 2 else 0) "Off" "Off" (def (1 / 1000000)).
Definition star_v : v1d_params := mkV1d "star.h5" (dbl 1 0) 2.
Definition star_b : build := mkBuild 2 Spherical PerfectGasEos PointMassGrav KV1d.
Definition star_bc : nat -> bcond := fun f => match f with O => Reflexive | _ => NullGradient end.
Definition star_sh : shift_kind := ShiftV1d 2 (double_of (IZR 1 * powerRZ 10 0)).

Lemma star_described : described star_T star_p.
Proof.
  unfold star_T, star, star_p. destruct k.
  all: constructor; cbv zeta; cbn [pm_problem pm_restart pm_restart_file pm_rmax_shift pm_nx0 pm_nx1 pm_nx2 pm_grid_type pm_ng pm_x0min pm_x0max
    pm_x1min pm_x1max pm_x2min pm_x2max pm_shift_grid pm_device_aware pm_dims0 pm_dims1 pm_dims2 pm_t_ini pm_t_end pm_cfl pm_max_iter pm_iter_freq
    pm_time_freq pm_time_first pm_directory pm_prefix pm_time_job pm_reconstruction pm_riemann pm_gx0 pm_gx1 pm_gx2 pm_M pm_gamma pm_mu pm_bc pm_priority
    pm_nfx pm_user_step pm_pressure_fix pm_eps_pf]; unfold def, dbl.
  all: try solve [default_tac].
  all: try solve [word_tac].
  all: try solve [int_tac].
  all: try solve [right; exists 25, (-2); split; [dot_tac "" "0" "25"|split; [ordinary2|reflexivity]]].
  all: try solve [real_tac 1 (-1) ltac:(dot_tac "" "0" "1")].
  all: try solve [real_tac 14 (-1) ltac:(dot_tac "" "1" "4")].
  all: eexists; split; [|left; split; [vm_compute; reflexivity|reflexivity]];
    exists (double_of 0), (double_of (IZR 1 * powerRZ 10 (-1))); (split; [reflexivity|split; [reflexivity|split; [|reflexivity]]]);
    rewrite double_0, Rplus_0_l; (apply Rle_lt_trans with (bpow radix2 0); [|apply bpow_lt; lia]); (apply double_upper; [lia|]);
    (apply double_upper; [lia|]); rewrite pow10_m1; change (bpow radix2 0) with 1%R; rewrite Rabs_pos_eq; lra.
Qed.
Lemma star_described_v1d : described_v1d star_T star_v.
Proof.
  unfold star_T, star. destruct k; constructor; cbn [star_v vp_file vp_vmax vp_cells]; unfold dbl.
  1, 4: word_tac.
  1, 3: real_tac 1 0 ltac:(who_tac "" "1").
  all: int_tac.
Qed.
Lemma star_file : file_with star_T star_f.
Proof. unfold star_T, star_f, star. destruct k; apply tagged_file; vm_compute; reflexivity. Qed.
Lemma star_chosen : chosen star_b star_T star_p star_bc carried_g LMinmod HLLC UOff.
Proof.
  split.
  - exists (double_of (IZR 14 * powerRZ 10 (-1))), (double_of 1). split; [reflexivity|split; [reflexivity|split; [exact dbl_14|]]].
    split; [rewrite double_1; lra|reflexivity].
  - cbn [star_b b_nd Nat.mul Nat.add seq firstn face_names].
    unfold star_T, star. destruct k; (apply Forall2_cons; [exists "Reflexive"; split; [vm_compute; reflexivity|right; right; now left]|]);
      repeat (apply Forall2_cons; [exists "NullGradient"; split; [vm_compute; reflexivity|now left]|]); apply Forall2_nil.
  - right. right. now left.
  - right. now left.
  - now left.
Qed.
Lemma star_timing : timing star_p (1 / 4) carried_P.
Proof.
  unfold timing, star_p, carried_P, def, dbl. cbv zeta. cbn [pm_cfl pm_t_ini pm_t_end pm_max_iter pm_iter_freq pm_time_freq pm_time_first
    p_t_ini p_t_end p_max_iter p_iter_freq p_time_freq p_time_first]. rewrite quarter, double_0. repeat split; reflexivity.
Qed.
Lemma star_moves : SpecProfile.moves star_p star_v star_sh.
Proof. unfold SpecProfile.moves, star_p. cbv zeta. cbn [pm_shift_grid]. change (String.eqb "UserDefined" "UserDefined") with true. cbv iota. eexists. split; reflexivity. Qed.
Lemma star_usable dims : dims = I3 2 2 1 \/ dims = I3 1 1 1 -> usable_v1d star_b star_p dims.
Proof.
  intros [->| ->]; unfold star_p, star_b; cbv zeta; destruct k; split; cbn [b_setup b_nd b_grav pm_restart pm_grid_type pm_priority pm_ng pm_nfx pm_nx0 pm_nx1 pm_nx2];
    try reflexivity; try discriminate; try lia; try solve [intros n [<-|[<-|[<-|[]]]]; lia];
    try solve [intros [|[|[|d]]] Hd; cbn [coord ii jj kk]; lia]; intros [|[|d]] Hd; cbn [coord ii jj kk nth]; lia.
Qed.
Lemma star_fit : messages_fit star_b star_p (I3 2 2 1).
Proof.
  intros d r dec Hd Hr E. change (b_nd star_b) with 2%nat in *.
  assert (C : (r = I3 0 0 0 \/ r = I3 1 0 0) \/ (r = I3 0 1 0 \/ r = I3 1 1 0)).
  { pose proof (Hr 0%nat ltac:(lia)) as A0. pose proof (Hr 1%nat ltac:(lia)) as A1. pose proof (Hr 2%nat ltac:(lia)) as A2. destruct r as [i j l].
    cbn in A0, A1, A2. assert (l = 0) by lia. assert (i = 0 \/ i = 1) by lia. assert (j = 0 \/ j = 1) by lia.
    destruct H0 as [->| ->], H1 as [->| ->]; subst l; tauto. }
  assert (D : d = 0%nat \/ d = 1%nat) by lia. clear Hd Hr.
  unfold star_p in *. cbv zeta in *. cbn [pm_ng pm_nx0 pm_nx1 pm_nx2 pm_nfx] in *.
  destruct k; destruct C as [[->| ->]|[->| ->]]; vm_compute in E; injection E as <-; destruct D as [->| ->]; vm_compute; discriminate.
Qed.

End Scalars.

(** The profiles: faces at 1, 2, ..., a density that falls, a velocity that rises. *)
Definition star_x (i : Z) : R := IZR (i + 1).
Definition star_rho (i : Z) : R := (1 / IZR (i + 1))%R.
Definition star_u (i : Z) : R := (IZR i / 4)%R.
Definition star_P (_ : Z) : R := 1%R.
Definition star_fx (n : nat) (i : Z) : R := match n with O => IZR i | _ => (1 - IZR i)%R end.
Section Files.
Context (x rho u P : Z -> R) (fx : option (nat -> Z -> R)).
Definition shells_data (name : string) : option dataset :=
  if String.eqb name "x0" then Some (mkDataset [13] x)
  else if String.eqb name "rho_1d" then Some (mkDataset [8] rho)
  else if String.eqb name "u_1d" then Some (mkDataset [8] u)
  else if String.eqb name "P_1d" then Some (mkDataset [8] P)
  else if String.eqb name "fx_1d" then option_map (fun fx => mkDataset [2; 8] (fun k => fx (Z.to_nat (k / 8)) (k mod 8))) fx
  else None.
Definition shells_h : h5 := mkH5 (fun _ => None) shells_data.
Definition shells_disk (name : string) : option h5 := if String.eqb name "star.h5" then Some shells_h else None.
Lemma shells_open : shells_disk (vp_file star_v) = Some shells_h. Proof. reflexivity. Qed.
Lemma shells_profiles F : fx = Some F -> profiles 8 2 2 shells_h x rho u P F.
Proof.
  intros E. split.
  - exists (mkDataset [13] x). now repeat split.
  - exists (mkDataset [8] rho). now repeat split.
  - exists (mkDataset [8] u). now repeat split.
  - exists (mkDataset [8] P). now repeat split.
  - unfold shells_h, shells_data. rewrite E. eexists. split; [reflexivity|]. split; [reflexivity|]. intros n i Hn Hi. cbn [ds_at].
    rewrite Z.add_comm, Z.div_add, Z.mod_add by lia. rewrite Z.div_small, Z.mod_small by lia. now rewrite Z.add_0_l, Nat2Z.id.
Qed.
Lemma shells_rows : row_in shells_h "x0" 13 x /\ row_in shells_h "rho_1d" 8 rho /\ row_in shells_h "u_1d" 8 u /\ row_in shells_h "P_1d" 8 P.
Proof.
  split; [exists (mkDataset [13] x); now repeat split|]. split; [exists (mkDataset [8] rho); now repeat split|].
  split; [exists (mkDataset [8] u); now repeat split|exists (mkDataset [8] P); now repeat split].
Qed.
End Files.
Lemma star_threshold : threshold_ok star_sh.
Proof. cbn [threshold_ok star_sh]. change (powerRZ 10 0) with 1%R. rewrite Rmult_1_r, double_1. lra. Qed.
Lemma star_criterion X K L dims : dims = I3 2 2 1 \/ dims = I3 1 1 1 -> k_nd K = 2%nat -> k_ng K = 2 -> runs_on K (I3 8 6 1) dims X L -> criterion_ok star_sh L.
Proof.
  intros Hd End Eng HR. cbn [criterion_ok star_sh]. pose proof (lo_dims (ro_layout HR)) as ED. rewrite End in ED.
  pose proof (lo_dec (ro_layout HR)) as D. rewrite End, Eng in D. set (r := I3 (ii (l_dims L) - 1) 0 0).
  assert (Hr : process 2 dims r).
  { unfold r. rewrite ED. intros d Hd3. destruct Hd as [->| ->]; destruct d as [|[|[|d]]]; cbn [coord ii jj kk mpi_dims mk3]; vm_compute; split; congruence. }
  pose proof (dcp_ok D Hr) as E. revert E. generalize (l_dec L r) as dec. intros dec E. unfold r in E. rewrite ED in E.
  destruct Hd as [->| ->]; vm_compute in E; injection E as <-; vm_compute; discriminate.
Qed.

Lemma shells_executed x rho u P F : exists X K L St L1 St1,
  v1d_faces star_b (star_p true) x X /\
  v1d_executes star_b (star_f true) (shells_disk x rho u P (Some F)) (star_p true) star_v star_bc carried_g LMinmod HLLC UOff (1 / 4) (double_of (10 ^ 20))
    carried_P star_sh (along_rays 2 rho u P F) X K (I3 2 2 1) L St /\
  v1d_executes star_b (star_f true) (shells_disk x rho u P (Some F)) (star_p true) star_v star_bc carried_g LMinmod HLLC UOff (1 / 4) (double_of (10 ^ 20))
    carried_P star_sh (along_rays 2 rho u P F) X K (I3 1 1 1) L1 St1 /\
  threshold_ok star_sh /\ criterion_ok star_sh L /\ criterion_ok star_sh L1 /\ messages_fit star_b (star_p true) (I3 2 2 1).
Proof.
  destruct (v1d_launched star_b (star_T true) (star_f true) (star_p true) star_v star_bc carried_g LMinmod HLLC UOff (1 / 4) (double_of (10 ^ 20)) carried_P star_sh
    (shells_disk x rho u P (Some F)) (shells_h x rho u P (Some F)) x rho u P F (star_file true) (star_described true) (star_described_v1d true) (star_chosen true)
    (star_timing true) (star_moves true) eq_refl (shells_open _ _ _ _ _) (shells_profiles x rho u P (Some F) F eq_refl)) as (X & K & HX & H).
  destruct (H _ (star_usable true _ (or_introl eq_refl))) as (L & St & He & _). destruct (H _ (star_usable true _ (or_intror eq_refl))) as (L1 & St1 & He1 & _).
  exists X, K, L, St, L1, St1. split; [exact HX|]. split; [exact He|]. split; [exact He1|]. split; [exact star_threshold|].
  pose proof (ve_config _ _ _ _ _ _ _ _ _ _ _ _ _ _ _ _ _ _ _ _ He) as C.
  split; [|split; [|exact (star_fit true)]].
  - apply (star_criterion X K L (I3 2 2 1)); [now left|exact (cf_nd _ _ _ _ _ _ _ _ C)|exact (cf_ng _ _ _ _ _ _ _ _ C)|].
    exact (ve_runs _ _ _ _ _ _ _ _ _ _ _ _ _ _ _ _ _ _ _ _ He).
  - apply (star_criterion X K L1 (I3 1 1 1)); [now right|exact (cf_nd _ _ _ _ _ _ _ _ C)|exact (cf_ng _ _ _ _ _ _ _ _ C)|].
    exact (ve_runs _ _ _ _ _ _ _ _ _ _ _ _ _ _ _ _ _ _ _ _ He1).
Qed.

(** ** Refused although sufficient, accepted although meaningless *)
Lemma no_scalars_refused : exists b f p v disk h dims,
  usable_v1d b p dims /\ (exists x, startup b dims (I3 0 0 0) (Some f) = Ok x /\ r_param x = p) /\
  pm_nfx p = 0 /\ disk (vp_file v) = Some h /\
  (exists x rho u P, row_in h "x0" (pm_nx0 p + 2 * pm_ng p + 1) x /\ row_in h "rho_1d" (pm_nx0 p) rho /\ row_in h "u_1d" (pm_nx0 p) u /\ row_in h "P_1d" (pm_nx0 p) P) /\
  exists w, forall clock n, v1d_program b dims (Some f) disk clock n = Throw w.
Proof.
  set (h := shells_h star_x star_rho star_u star_P None).
  exists star_b, (star_f false), (star_p false), star_v, (shells_disk star_x star_rho star_u star_P None), h, (I3 2 2 1).
  pose proof (star_usable false (I3 2 2 1) (or_introl eq_refl)) as Hu.
  split; [exact Hu|]. split.
  { eexists. split; [|shelve]. exact (v1d_starts star_b (star_T false) (star_f false) (star_p false) star_bc carried_g LMinmod HLLC UOff (star_file false)
      (star_described false) (star_chosen false) (I3 2 2 1) Hu (I3 0 0 0) (v1d_rank0 star_b (I3 2 2 1) (star_p false) Hu)). Unshelve. reflexivity. }
  split; [reflexivity|]. split; [reflexivity|]. split.
  { exists star_x, star_rho, star_u, star_P. exact (shells_rows _ _ _ _ None). }
  destruct (v1d_refused star_b (star_T false) (star_f false) (star_p false) star_v star_bc carried_g LMinmod HLLC UOff (1 / 4) carried_P star_sh (double_of (10 ^ 20))
    (shells_disk star_x star_rho star_u star_P None) (star_file false) (star_described false) (star_described_v1d false) (star_chosen false) (star_moves false)
    (star_timing false) eq_refl (I3 2 2 1) Hu) as (w & Hw & _).
  - intros (h' & E & _ & _ & _ & _ & (d & Ed & _)). injection E as <-. discriminate Ed.
  - exists w. exact Hw.
Qed.
Lemma meaningless_accepted : exists b f p v disk h dims X x rho,
  usable_v1d b p dims /\ disk (vp_file v) = Some h /\ row_in h "x0" (pm_nx0 p + 2 * pm_ng p + 1) x /\ row_in h "rho_1d" (pm_nx0 p) rho /\
  (forall i, x i = 0%R) /\ (forall i, (rho i < 0)%R) /\ v1d_faces b p x X /\
  forall clock n, exists m w, v1d_program b dims (Some f) disk clock n = Ok (Some (m, w)).
Proof.
  destruct (shells_executed (fun _ => 0%R) (fun _ => -1)%R star_u star_P star_fx) as (X & K & L & St & L1 & St1 & HX & He & _ & _ & Hc & _ & _).
  exists star_b, (star_f true), (star_p true), star_v, (shells_disk (fun _ => 0%R) (fun _ => -1)%R star_u star_P (Some star_fx)),
    (shells_h (fun _ => 0%R) (fun _ => -1)%R star_u star_P (Some star_fx)), (I3 2 2 1), X, (fun _ => 0%R), (fun _ => -1)%R.
  split; [exact (ve_usable _ _ _ _ _ _ _ _ _ _ _ _ _ _ _ _ _ _ _ _ He)|]. split; [reflexivity|].
  destruct (shells_rows (fun _ => 0%R) (fun _ => -1)%R star_u star_P (Some star_fx)) as (R1 & R2 & _). split; [exact R1|]. split; [exact R2|].
  split; [reflexivity|]. split; [intros; lra|]. split; [exact HX|]. intros clock n.
  pose proof (ve_program _ _ _ _ _ _ _ _ _ _ _ _ _ _ _ _ _ _ _ _ He Hc clock n) as Q. destruct (the_end _ _ _ _ _ _ _ _ _ _ _) as [m w]. exists m, w. exact Q.
Qed.
