(** * Energy deposited by the blast setups (C82) and ghost states of the atmospheres (C80). *)
From Coq Require Import ZifyBool ZifyNat.
From Verif Require Import Base RBase ModelMesh ModelGeom ModelBoundary ModelHydro ModelRad ModelScheme ModelStep ModelSetup
  SpecMesh SpecGeom SpecBoundary SpecHydro SpecScheme SpecStep SpecSetup
  ProofBase ProofMesh ProofR ProofGeom ProofBoundary ProofBoundary2 ProofHydro ProofShift ProofReduce ProofScheme ProofStep ProofLayout ProofBox
  ProofSetup ProofSetupGrid.
Local Open Scope R_scope.

(** A sum over the cells of all processes is a sum over the cells of the mesh. *)
Lemma integrate_global K N dims X L f q : laid_out K N dims X L ->
  (forall r c, process (k_nd K) dims r -> owned (k_nd K) (k_ng K) (d_nloc (l_dec L r)) c ->
     f r c * dv (k_geom K) (k_nd K) (l_mesh L r) c = q (global_index (k_nd K) (k_ng K) (corner_min (d_range (l_dec L r))) c)) ->
  integrate K L f = lsum q (box_cells (I3 0 0 0) N).
Proof.
  intros HL Hf. pose proof (lo_dec HL) as HD. set (nd := k_nd K). set (ng := k_ng K). set (gg := mk3 (ghosts nd ng)).
  set (F := fun c => q (isub c gg)).
  assert (EF : lsum q (box_cells (I3 0 0 0) N) = lsum F (box_cells gg (iadd gg N))).
  { replace gg with (iadd gg (I3 0 0 0)) at 1 by (unfold gg, iadd, mk3; cbn [ii jj kk]; f_equal; lia). rewrite lsum_box_shift. apply lsum_ext.
    intros c _. unfold F. f_equal. destruct c as [x y z]. unfold isub, iadd. cbn [ii jj kk]. f_equal; lia. }
  rewrite EF. unfold integrate.
  transitivity (lsum (fun r => lsum (fun c => F (iadd (mk3 (fun d => cm nd N dims d (coord d r))) c))
                 (box_cells gg (mk3 (fun d => (coord d gg + nl nd N dims d (coord d r))%Z)))) (box_cells (I3 0 0 0) (mpi_dims nd dims))).
  - unfold ranks. rewrite (lo_dims HL). apply lsum_ext. intros r Hr.
    assert (Hv : process nd dims r).
    { intros d Hd. apply in_box_cells in Hr. rewrite in_box_coord in Hr. specialize (Hr d Hd). destruct d as [|[|[|d]]]; try lia; cbn [coord ii jj kk] in *; lia. }
    assert (Ebox : sel_cells K L 0 r = box_cells gg (mk3 (fun d => (coord d gg + nl nd N dims d (coord d r))%Z))).
    { rewrite (sel_cells_box K N dims X L HL 0 r Hv). f_equal; apply idx_ext; intros d Hd; unfold gg, nd, ng; rewrite !coord_mk3 by assumption;
        destruct (Nat.ltb d (k_nd K)); lia. }
    rewrite <- Ebox. apply lsum_ext. intros c Hc. apply sel_cells_in in Hc.
    apply (sel_owned _ _ _ _ _ _ _ HL Hv) in Hc. rewrite (Hf r c Hv Hc). unfold F. f_equal. apply idx_ext. intros d Hd.
    rewrite gi_coord by exact Hd. rewrite (dec_cmin _ _ _ _ _ HD r d Hv Hd). unfold gg, nd, ng.
    destruct d as [|[|[|d]]]; try lia; cbn [coord ii jj kk isub iadd mk3]; lia.
  - rewrite block_sum3.
    + f_equal. f_equal. apply idx_ext. intros d Hd. rewrite coord_mk3 by exact Hd. rewrite (cm_p _ _ _ _ _ HD) by exact Hd.
      destruct d as [|[|[|d]]]; try lia; reflexivity.
    + intros d Hd. pose proof (dcp_dims HD Hd). split; [unfold nd; lia|]. split; [now apply (cm_0 _ _ _ _ _ HD)|].
      intros x Hx. split; [now apply (cm_succ _ _ _ _ _ HD)|now apply (nl_nonneg _ _ _ _ _ HD)].
Qed.

Lemma pg_energy_round g rho ev : valid_gas g -> 0 < rho -> pg_evol_from_pres g rho ((pg_gamma g - 1) * ev) = ev.
Proof.
  intros [H1 H2] Hr. unfold pg_evol_from_pres, pg_evol_from_temp, pg_temp_from_pres. pose proof kb_pos. pose proof mp_pos.
  field. repeat split; lra.
Qed.

(** ** sedov2d *)
Section Plane.
Variables (K : config) (N dims : idx) (X : nat -> arr1) (L : layout) (gas : perfect_gas).
Hypothesis HL : laid_out K N dims X L.
Hypothesis Hg : k_geom K = Cartesian.
Hypothesis Hgas : valid_gas gas.
Hypothesis HX : increasing (k_nd K) N (k_ng K) X.

Lemma cart_dv_pos r c : process (k_nd K) dims r -> owned (k_nd K) (k_ng K) (d_nloc (l_dec L r)) c ->
  0 < dv (k_geom K) (k_nd K) (l_mesh L r) c.
Proof.
  intros Hr Hc. rewrite Hg. unfold dv, cart_dv, mdx.
  assert (H : forall d, (d < 3)%nat -> 0 < l_mesh L r d (coord d c + 1)%Z - l_mesh L r d (coord d c)).
  { intros d Hd. rewrite !(set_grid_at _ _ _ (lo_mesh HL Hr)) by exact Hd. rewrite Z.add_assoc.
    specialize (HX d (coord d (corner_min (d_range (l_dec L r))) + coord d c)%Z Hd).
    pose proof (lo_dec HL) as HD. pose proof (Hc d Hd) as C. pose proof (Hr d Hd) as R.
    rewrite (dec_cmin _ _ _ _ _ HD r d Hr Hd) in *. rewrite (dec_nloc _ _ _ _ _ HD r d Hr Hd) in C.
    pose proof (cm_nonneg _ _ _ _ _ HD d (coord d r) Hd ltac:(lia)). pose proof (cm_max _ _ _ _ _ HD d (coord d r) Hd ltac:(lia)).
    pose proof (ghosts_nonneg _ _ _ _ _ HD d). lapply HX; [lra|]. lia. }
  pose proof (H 0%nat ltac:(lia)) as A. pose proof (H 1%nat ltac:(lia)) as B. pose proof (H 2%nat ltac:(lia)) as C. cbn [coord] in A, B, C.
  apply Rmult_lt_0_compat; [apply Rmult_lt_0_compat|]; assumption.
Qed.

Lemma sedov2d_energy rho0 u0 E0 E1 : 0 < rho0 ->
  initial_energy (SSedov2d rho0 u0 E0 E1) K gas N L
  = lsum (fun c => if Rlt_dec (sqrt (a_at (X 0%nat) (ii c + ghosts (k_nd K) (k_ng K) 0) ^ 2 + a_at (X 1%nat) (jj c + ghosts (k_nd K) (k_ng K) 1) ^ 2)) (25 / 1000)
                   then E1 else E0) (box_cells (I3 0 0 0) N).
Proof.
  intros Hrho. unfold initial_energy. apply (integrate_global K N dims X L _ _ HL). intros r c Hr Hc. cbv zeta.
  rewrite (setup_fields_owned K N dims X L _ HL _ r c Hr Hc). cbn [setup_cell]. unfold k_sedov2d. cbv zeta. cbn [i_rho i_P].
  cbn [setup_env e_th e_mesh pg_thermo th_pres_e]. unfold pg_pres_from_evol. rewrite pg_round, pg_energy_round by assumption.
  pose proof (cart_dv_pos r c Hr Hc) as Hv. unfold e_dv. cbn [e_geom e_nd e_mesh].
  assert (Hx : forall d, (d < 3)%nat -> l_mesh L r d (coord d c) = a_at (X d) (coord d (global_index (k_nd K) (k_ng K) (corner_min (d_range (l_dec L r))) c) + ghosts (k_nd K) (k_ng K) d)%Z).
  { intros d Hd. rewrite (set_grid_at _ _ _ (lo_mesh HL Hr)) by exact Hd. f_equal. rewrite gi_coord by exact Hd. lia. }
  pose proof (Hx 0%nat ltac:(lia)) as X0. pose proof (Hx 1%nat ltac:(lia)) as X1. cbn [coord] in X0, X1. rewrite X0, X1.
  unfold Rdiv at 1. rewrite Rmult_assoc, Rinv_l, Rmult_1_r by lra.
  unfold rltb. set (a := a_at (X 0%nat) _). set (b := a_at (X 1%nat) _).
  replace (a * a + b * b) with (a ^ 2 + b ^ 2) by ring. destruct (Rlt_dec _ _); reflexivity.
Qed.
End Plane.

Lemma lsum_const {A} (k : R) (l : list A) : lsum (fun _ => k) l = INR (List.length l) * k.
Proof. induction l as [|a l IH]; cbn [lsum List.length]; [cbn; ring|]. rewrite IH, S_INR. ring. Qed.
Lemma zrange_length a b : List.length (zrange a b) = Z.to_nat (b - a).
Proof. unfold zrange. now rewrite map_length, seq_length. Qed.
Lemma lsum_box_const k b e : lsum (fun _ => k) (box_cells b e)
  = INR (Z.to_nat (kk e - kk b)) * (INR (Z.to_nat (jj e - jj b)) * (INR (Z.to_nat (ii e - ii b)) * k)).
Proof.
  rewrite lsum_box.
  rewrite (lsum_ext _ (fun _ => INR (Z.to_nat (jj e - jj b)) * (INR (Z.to_nat (ii e - ii b)) * k))).
  - now rewrite lsum_const, zrange_length.
  - intros a _. rewrite (lsum_ext _ (fun _ => INR (Z.to_nat (ii e - ii b)) * k)).
    + now rewrite lsum_const, zrange_length.
    + intros a' _. now rewrite lsum_const, zrange_length.
Qed.

(** The square [0, 1/80]^2 with n x n cells. *)
Definition square_X (n : Z) : nat -> arr1 := fun d =>
  mkArr1 (coord d (I3 n n 1) + 2 * (if Nat.ltb d 2 then 2 else 0) + 1)
    (fun i => match d with O | S O => IZR (i - 2) * (1 / 80 / IZR n) | _ => IZR i end).

Lemma square_energy gas n dims L rho0 u0 E0 E1 : valid_gas gas -> 0 < rho0 -> (1 <= n)%Z ->
  laid_out (plain_config Cartesian 2 gas) (I3 n n 1) dims (square_X n) L ->
  initial_energy (SSedov2d rho0 u0 E0 E1) (plain_config Cartesian 2 gas) gas (I3 n n 1) L = IZR n * (IZR n * E1).
Proof.
  intros Hgas Hrho Hn HL. assert (Hn' : 0 < IZR n) by (apply IZR_lt; lia).
  assert (Hh : 0 < 1 / 80 / IZR n) by (apply Rdiv_lt_0_compat; lra).
  rewrite (sedov2d_energy _ _ _ _ _ gas HL eq_refl Hgas); [| |exact Hrho].
  - rewrite (lsum_ext _ (fun _ => E1)).
    + rewrite lsum_box_const. cbn [ii jj kk]. rewrite !Z.sub_0_r. change (Z.to_nat 1) with 1%nat. rewrite !INR_IZR_INZ, !Z2Nat.id by lia. cbn. ring.
    + intros c Hc. apply in_box_cells in Hc. destruct Hc as (Hi & Hj & _). cbn [ii jj kk] in Hi, Hj.
      cbn [plain_config k_nd k_ng square_X a_at]. change (ghosts 2 2 0) with 2%Z. change (ghosts 2 2 1) with 2%Z.
      replace (ii c + 2 - 2)%Z with (ii c) by lia. replace (jj c + 2 - 2)%Z with (jj c) by lia.
      assert (B : forall i, (0 <= i < n)%Z -> 0 <= IZR i * (1 / 80 / IZR n) <= 1 / 80).
      { intros i Hi'. assert (0 <= IZR i <= IZR n) by (split; apply IZR_le; lia). split; [apply Rmult_le_pos; lra|].
        apply Rle_trans with (IZR n * (1 / 80 / IZR n)); [apply Rmult_le_compat_r; lra|]. right. field. lra. }
      pose proof (B (ii c) ltac:(lia)). pose proof (B (jj c) ltac:(lia)).
      set (x := IZR (ii c) * _) in *. set (y := IZR (jj c) * _) in *.
      destruct (Rlt_dec _ _) as [_|Hf]; [reflexivity|]. exfalso. apply Hf.
      rewrite <- (sqrt_pow2 (25 / 1000)) by lra. apply sqrt_lt_1_alt. split; [nra|]. nra.
  - intros d i Hd Hi. cbn [square_X a_at]. destruct d as [|[|d]].
    + apply Rmult_lt_compat_r; [exact Hh|apply IZR_lt; lia].
    + apply Rmult_lt_compat_r; [exact Hh|apply IZR_lt; lia].
    + apply IZR_lt. lia.
Qed.
Lemma square_laid gas n dims : (1 <= n)%Z -> (forall d, (d < 3)%nat -> (1 <= coord d (mpi_dims 2 dims))%Z) ->
  laid_out (plain_config Cartesian 2 gas) (I3 n n 1) dims (square_X n) (the_layout (plain_config Cartesian 2 gas) (I3 n n 1) dims (square_X n)).
Proof.
  intros Hn Hd. apply the_layout_ok; cbn [plain_config k_nd k_ng]; [lia|lia|dims3; cbn; lia|exact Hd|intros d Hd'; reflexivity].
Qed.

(** ** sedov1d *)
Lemma sedov1d_energy K N dims X L gas h rho0 u0 E0 E1 : laid_out K N dims X L ->
  k_geom K = Cartesian -> k_nd K = 1%nat -> k_ng K = 2%Z -> jj N = 1%Z -> kk N = 1%Z ->
  (forall i, (0 <= i < coord 0 N + 2 * k_ng K)%Z -> a_at (X 0%nat) (i + 1)%Z - a_at (X 0%nat) i = h) ->
  line_volume X h <> 0 -> valid_gas gas -> 0 < rho0 ->
  initial_energy (SSedov1d rho0 u0 E0 E1) K gas N L = 1 / 2 * E1 + IZR (ii N - 1) * E0.
Proof.
  intros HL Hg Hn Hng N1 N2 Hreg Hv Hgas Hrho. pose proof (lo_dec HL) as HD.
  unfold initial_energy. rewrite (integrate_global K N dims X L _ (fun c => if (ii c =? 0)%Z then 1 / 2 * E1 else E0) HL).
  - rewrite lsum_box. cbn [ii jj kk]. rewrite N1, N2. change 1%Z with (0 + 1)%Z at 1 2. rewrite !lsum_one.
    pose proof (dcp_n HD (d := 0%nat) ltac:(lia)) as P0. cbn [coord] in P0.
    rewrite (zrange_split 0 1 (ii N)) by lia. rewrite lsum_app. change 1%Z with (0 + 1)%Z at 1. rewrite lsum_one. cbn [Z.eqb].
    f_equal. rewrite (lsum_ext _ (fun _ => E0)).
    + rewrite lsum_const, zrange_length, INR_IZR_INZ, Z2Nat.id by lia. reflexivity.
    + intros i Hi. apply in_zrange in Hi. destruct (Z.eqb_spec i 0); [lia|reflexivity].
  - intros r c Hr Hc. cbv zeta. rewrite (setup_fields_owned K N dims X L _ HL _ r c Hr Hc). cbn [setup_cell].
    unfold k_sedov1d. cbv zeta. cbn [i_rho i_P]. pose proof (Hc 0%nat ltac:(lia)) as C0.
    pose proof (ghosts_nonneg _ _ _ _ _ HD 0) as G0.
    rewrite (line_dv K N dims X L _ h HL Hg Hn Hng Hreg r 2 Hr) by lia.
    assert (Ec : c = I3 (ii c) 0 0).
    { pose proof (Hc 1%nat ltac:(lia)) as C1. pose proof (Hc 2%nat ltac:(lia)) as C2.
      pose proof (dec_nloc _ _ _ _ _ HD r 1%nat Hr ltac:(lia)) as E1'. pose proof (dec_nloc _ _ _ _ _ HD r 2%nat Hr ltac:(lia)) as E2'.
      pose proof (line_rank K dims Hn r 1 Hr ltac:(lia) ltac:(lia)) as R1. pose proof (line_rank K dims Hn r 2 Hr ltac:(lia) ltac:(lia)) as R2.
      rewrite R1 in E1'. rewrite R2 in E2'.
      pose proof (cm_succ _ _ _ _ _ HD 1 0 ltac:(lia)) as S1. pose proof (cm_succ _ _ _ _ _ HD 2 0 ltac:(lia)) as S2.
      rewrite (cm_0 _ _ _ _ _ HD) in S1, S2 by lia.
      pose proof (dcp_dims HD (d := 1%nat) ltac:(lia)) as D1. pose proof (dcp_dims HD (d := 2%nat) ltac:(lia)) as D2.
      assert (M1 : coord 1 (mpi_dims (k_nd K) dims) = 1%Z) by (rewrite Hn; reflexivity).
      assert (M2 : coord 2 (mpi_dims (k_nd K) dims) = 1%Z) by (rewrite Hn; reflexivity).
      pose proof (cm_p _ _ _ _ _ HD 1 ltac:(lia)) as Q1. pose proof (cm_p _ _ _ _ _ HD 2 ltac:(lia)) as Q2.
      rewrite M1 in Q1. rewrite M2 in Q2. cbn [Z.add] in S1, S2.
      rewrite Hn in C1, C2. change (ghosts 1 (k_ng K) 1) with 0%Z in C1. change (ghosts 1 (k_ng K) 2) with 0%Z in C2.
      rewrite E1' in C1. rewrite E2' in C2. rewrite Hn in *. cbn [coord] in *.
      destruct c as [x y z]. cbn [ii jj kk] in *. f_equal; lia. }
    assert (Edv : dv (k_geom K) (k_nd K) (l_mesh L r) c = line_volume X h).
    { rewrite Ec. pose proof (line_dv K N dims X L (pg_thermo gas) h HL Hg Hn Hng Hreg r (ii c) Hr) as E. unfold e_dv in E.
      cbn [setup_env e_geom e_nd e_mesh] in E. apply E. rewrite Hn, Hng in C0. change (ghosts 1 2 0) with 2%Z in C0. cbn [coord] in *. lia. }
    rewrite Edv. cbn [setup_env e_geom e_th e_rank pg_thermo th_pres_T th_temp_e]. rewrite Hg.
    rewrite (line_first K N dims X L HL Hn Hng r c Hr Hc).
    destruct (_ =? 0)%Z; rewrite pg_round, pg_energy_round by assumption; field; exact Hv.
Qed.

(** With another number of ghost layers no owned cell has index 2. *)
Lemma sedov1d_ghosts K N dims X L th rho0 u0 E0 E1 : laid_out K N dims X L -> (3 <= k_ng K)%Z ->
  forall r c, process (k_nd K) dims r -> owned (k_nd K) (k_ng K) (d_nloc (l_dec L r)) c ->
  setup_fields (SSedov1d rho0 u0 E0 E1) K th N L r c = setup_fields (SSedov1d rho0 u0 E0 0) K th N L r c.
Proof.
  intros HL Hng r c Hr Hc. rewrite !(setup_fields_owned K N dims X L th HL _ r c Hr Hc). cbn [setup_cell]. unfold k_sedov1d. cbv zeta.
  pose proof (dcp_nd (lo_dec HL)) as Hnd. pose proof (Hc 0%nat ltac:(lia)) as C0. unfold ghosts in C0.
  destruct (Nat.ltb_spec 0 (k_nd K)); [|lia]. cbn [coord] in C0.
  destruct (Z.eqb_spec (ii c) 2); [lia|]. now rewrite andb_false_r.
Qed.

(** ** sedov3d *)
Lemma sedov3d_no_face K N dims X L th rho0 P0 E1 : laid_out K N dims X L ->
  (forall i, (0 <= i < ii N)%Z -> a_at (X 0%nat) (i + ghosts (k_nd K) (k_ng K) 0)%Z <> 1) ->
  forall r c, process (k_nd K) dims r -> owned (k_nd K) (k_ng K) (d_nloc (l_dec L r)) c ->
  i_P (setup_fields (SSedov3d rho0 P0 E1) K th N L r c) = P0.
Proof.
  intros HL HX r c Hr Hc. rewrite (setup_fields_owned K N dims X L th HL _ r c Hr Hc). cbn [setup_cell]. unfold k_sedov3d. cbv zeta.
  cbn [i_P setup_env e_mesh]. pose proof (Hc 0%nat ltac:(lia)) as C0. pose proof (lo_dec HL) as HD.
  pose proof (Hr 0%nat ltac:(lia)) as R0.
  unfold reqb. destruct (Req_EM_T _ _) as [E|E]; [|reflexivity]. exfalso.
  rewrite (set_grid_at _ _ _ (lo_mesh HL Hr)) in E by lia.
  apply (HX (coord 0 (corner_min (d_range (l_dec L r))) + ii c - ghosts (k_nd K) (k_ng K) 0)%Z).
  - rewrite (dec_nloc _ _ _ _ _ HD r 0%nat Hr) in C0 by lia. rewrite (dec_cmin _ _ _ _ _ HD r 0%nat Hr) by lia.
    pose proof (cm_max _ _ _ _ _ HD 0 (coord 0 r) ltac:(lia) ltac:(lia)) as M.
    pose proof (cm_nonneg _ _ _ _ _ HD 0 (coord 0 r) ltac:(lia) ltac:(lia)). cbn [coord] in *. lia.
  - rewrite <- E. f_equal. lia.
Qed.

(** ** Ghost states of the atmospheres *)
Section Ghosts.
Variables (gm : geom) (nd : nat) (gas : perfect_gas) (m : mesh) (rk N : idx) (gr : gravity).
Variables (s : setup) (rho0 u0 T0 : R) (ext : idx) (ng : Z) (d face : nat) (a : idx -> cell) (c : idx).
Hypothesis Hs : atmosphere s rho0 u0 T0.
Hypothesis Hgas : valid_gas gas.
Hypothesis Hrho : 0 < rho0.
Hypothesis HT : 0 < T0.
Hypothesis Hd : (d < 3)%nat.
Hypothesis Hng : (0 <= ng <= coord d ext)%Z.
Hypothesis Hc : in_face ext ng d face c.
Let e := mkEnv gm nd (pg_thermo gas) m rk N gr.
Let v := setup_cell s e c old_cell.
Let w := user_condition s e ext ng d face a c.

Lemma ghost_eq : w = mkCell (i_rho v) (all_u nd (rho0 * u0) (c_rhou (a c))) (pg_evol_from_temp gas (i_rho v) T0) (c_fx (a c)).
Proof.
  unfold w, v. rewrite (ghost_cell s rho0 u0 T0); [reflexivity|exact Hs|]. apply in_boxb_spec.
  apply bc_box_iff; assumption.
Qed.
Lemma ghost_profile : 0 < i_rho v /\ i_P v = pg_pres_from_temp gas (i_rho v) T0 /\ (forall k, (k < nd)%nat -> i_u v k = u0).
Proof.
  unfold v. destruct Hs as [E|[M E]]; rewrite E; cbn [setup_cell]; unfold k_stratified, k_eq_hydro; cbv zeta; cbn [i_rho i_P i_u].
  - split; [unfold stratified_rho; apply Rmult_lt_0_compat; [exact Hrho|apply exp_pos]|]. split; [reflexivity|].
    intros k Hk. unfold all_u. cbn [e e_nd]. destruct (Nat.ltb_spec k nd); [reflexivity|lia].
  - split; [unfold eq_hydro_rho; apply Rmult_lt_0_compat; [exact Hrho|apply exp_pos]|]. split; [reflexivity|].
    intros k Hk. unfold all_u. cbn [e e_nd]. destruct (Nat.ltb_spec k nd); [reflexivity|lia].
Qed.

Lemma evol_temp_pres rho : 0 < rho -> pg_evol_from_temp gas rho T0 = pg_evol_from_pres gas rho (pg_pres_from_temp gas rho T0).
Proof.
  intros H. destruct Hgas as [H1 H2]. unfold pg_evol_from_pres, pg_evol_from_temp, pg_temp_from_pres, pg_pres_from_temp.
  pose proof kb_pos. pose proof mp_pos. field. repeat split; lra.
Qed.
Lemma evol_temp_pos rho : 0 < rho -> 0 < pg_evol_from_temp gas rho T0.
Proof.
  intros H. destruct Hgas as [H1 H2]. unfold pg_evol_from_temp. pose proof kb_pos. pose proof mp_pos.
  apply Rdiv_lt_0_compat; repeat apply Rmult_lt_0_compat; lra.
Qed.


Lemma ghost_internal : internal_of nd w = pg_evol_from_pres gas (i_rho v) (i_P v) - INR nd * (rho0 * u0) ^ 2 / (2 * i_rho v).
Proof.
  rewrite ghost_eq. unfold internal_of. cbn [c_E c_rhou c_rho]. destruct ghost_profile as (H & -> & _). rewrite evol_temp_pres by exact H.
  f_equal. f_equal. rewrite (vsum_ext nd _ (fun _ => (rho0 * u0) ^ 2)).
  - generalize nd. intros n. induction n as [|n IH]; [cbn; ring|]. cbn [vsum]. rewrite IH, S_INR. ring.
  - intros k Hk. unfold all_u. destruct (Nat.ltb_spec k nd); [reflexivity|lia].
Qed.

Lemma ghost_rest : u0 = 0 ->
  c_rho w = i_rho v /\ (forall k, (k < nd)%nat -> c_rhou w k = i_rho v * i_u v k) /\
  c_E w = pg_evol_from_pres gas (i_rho v) (i_P v) /\ c_fx w = c_fx (a c).
Proof.
  intros Eu. destruct ghost_profile as (H & P & U). rewrite ghost_eq. cbn [c_rho c_rhou c_E c_fx].
  split; [reflexivity|]. split; [|split; [|reflexivity]].
  - intros k Hk. rewrite U by exact Hk. unfold all_u. destruct (Nat.ltb_spec k nd); [|lia]. rewrite Eu. ring.
  - rewrite P. now apply evol_temp_pres.
Qed.

Lemma ghost_moving : (1 <= nd)%nat -> (internal_of nd w = pg_evol_from_pres gas (i_rho v) (i_P v) <-> u0 = 0).
Proof.
  intros Hn. rewrite ghost_internal. destruct ghost_profile as (H & _ & _).
  assert (Hnd : 0 < INR nd) by (apply lt_0_INR; lia). split; intros E.
  - assert (E' : INR nd * (rho0 * u0) ^ 2 / (2 * i_rho v) = 0) by lra.
    assert (E2 : INR nd * (rho0 * u0) ^ 2 = 0).
    { apply (Rmult_eq_reg_r (/ (2 * i_rho v))); [|apply Rinv_neq_0_compat; lra]. unfold Rdiv in E'. lra. }
    apply Rmult_integral in E2. destruct E2 as [E2|E2]; [lra|]. replace ((rho0 * u0) ^ 2) with ((rho0 * u0) * (rho0 * u0)) in E2 by ring.
    apply Rmult_integral in E2. assert (E3 : rho0 * u0 = 0) by tauto. apply Rmult_integral in E3. destruct E3; lra.
  - rewrite E. unfold Rdiv. ring.
Qed.
Lemma ghost_momentum k : (k < nd)%nat -> (c_rhou w k = i_rho v * i_u v k <-> (u0 = 0 \/ i_rho v = rho0)).
Proof.
  intros Hk. rewrite ghost_eq. cbn [c_rhou]. destruct ghost_profile as (H & _ & U). rewrite U by exact Hk. unfold all_u.
  destruct (Nat.ltb_spec k nd); [|lia]. split; intros E.
  - assert (E' : (rho0 - i_rho v) * u0 = 0) by lra. apply Rmult_integral in E'. destruct E'; [right|left]; lra.
  - destruct E as [E|E]; rewrite E; ring.
Qed.
End Ghosts.

(** Fast winds: the ghost state has a negative internal energy. *)
Lemma ghost_negative gm nd gas m rk N gr rho0 T0 ext ng d face a c : valid_gas gas -> 0 < rho0 -> 0 < T0 -> (1 <= nd)%nat ->
  (d < 3)%nat -> (0 <= ng <= coord d ext)%Z -> in_face ext ng d face c ->
  exists u0, 0 < u0 /\
    internal_of nd (user_condition (SStratifiedAtm rho0 u0 T0) (mkEnv gm nd (pg_thermo gas) m rk N gr) ext ng d face a c) < 0.
Proof.
  intros Hgas Hrho HT Hn Hd Hng Hc.
  set (v := setup_cell (SStratifiedAtm rho0 0 T0) (mkEnv gm nd (pg_thermo gas) m rk N gr) c old_cell).
  assert (Hv : 0 < i_rho v) by (unfold v; cbn; unfold stratified_rho; apply Rmult_lt_0_compat; [exact Hrho|apply exp_pos]).
  set (P := pg_evol_from_pres gas (i_rho v) (i_P v)).
  assert (HP : 0 < P).
  { unfold P. replace (i_P v) with (pg_pres_from_temp gas (i_rho v) T0) by reflexivity.
    rewrite <- (evol_temp_pres gas T0 Hgas) by exact Hv. now apply evol_temp_pos. }
  assert (Hnd : 1 <= INR nd) by (change 1 with (INR 1); apply le_INR; lia).
  exists (sqrt (4 * i_rho v * P) / rho0).
  assert (Hq : 0 < 4 * i_rho v * P) by (apply Rmult_lt_0_compat; [apply Rmult_lt_0_compat; [lra|exact Hv]|exact HP]).
  split; [apply Rdiv_lt_0_compat; [now apply sqrt_lt_R0|exact Hrho]|].
  rewrite (ghost_internal gm nd gas m rk N gr _ rho0 _ T0 ext ng d face a c (or_introl eq_refl)) by assumption.
  change (pg_evol_from_pres gas _ _) with P.
  replace (rho0 * (sqrt (4 * i_rho v * P) / rho0)) with (sqrt (4 * i_rho v * P)) by (field; lra).
  rewrite pow2_sqrt by lra. change (i_rho (setup_cell _ _ _ _)) with (i_rho v).
  replace (INR nd * (4 * i_rho v * P) / (2 * i_rho v)) with (2 * INR nd * P) by (field; lra). nra.
Qed.

Lemma initialise_iff s K th N L :
  ((exists St, initialise s K th N L = Ok St) <->
   match s with SSedov2d _ _ _ _ => k_geom K = Cartesian | SSedov3d _ _ _ => k_geom K = Spherical | _ => True end) /\
  (forall St, initialise s K th N L = Ok St -> St = setup_state s K th N L) /\
  (forall w, initialise s K th N L <> UB w).
Proof.
  unfold initialise, setup_check.
  split; [|split]; destruct s; destruct (k_geom K); cbn [obind];
    try (split; [intros [St H]; first [discriminate|reflexivity|exact I]|intro H; first [discriminate|eexists; reflexivity]]);
    try (intros St H; first [discriminate|now injection H as <-]); try (intros w H; discriminate).
Qed.
