(** * Statements and examples of PropStep.v. *)
From Coq Require Import ZifyBool ZifyNat.
From Verif Require Import Base RBase ModelMesh ModelGeom ModelBoundary ModelHydro ModelScheme ModelStep
  SpecMesh SpecGeom SpecBoundary SpecHydro SpecScheme SpecStep
  ProofBase ProofMesh ProofR ProofBoundary ProofBoundary2 ProofHydro ProofHydro2 ProofScheme ProofMirror ProofShift ProofReduce
  ProofStep ProofLayout ProofSteady SpecWall ProofWall ProofBox ProofCfl.
Local Open Scope R_scope.

Section Statements.
Variables (K : config) (N dims : idx) (X : nat -> arr1) (L : layout).
Hypothesis HR : runs_on K N dims X L.
Let HL := ro_layout HR.
Let Ht := ro_thick HR.
Let Hng := ro_ng HR.
Let Hf := ro_faces HR.
Let Hg := ro_grav HR.

Lemma same_results_run L1 G S S1 ts : laid_out K N one_process X L1 ->
  starts_from K dims L G S -> starts_from K one_process L1 G S1 ->
  same_results K dims L (run K L ts (init_state K L S)) (run K L1 ts (init_state K L1 S1)).
Proof.
  intros HL1 H H1. apply (run_slice K N dims X L L1 HL HL1 Ht Hng Hf Hg ts).
  exact (init_slice K N dims X L L1 HL HL1 Ht Hf Hg G S S1 H H1).
Qed.
Lemma same_results_cfl L1 G S S1 cfl n t : laid_out K N one_process X L1 ->
  starts_from K dims L G S -> starts_from K one_process L1 G S1 ->
  let end_ := run_cfl K L cfl n t (init_state K L S) in
  let end1 := run_cfl K L1 cfl n t (init_state K L1 S1) in
  fst end_ = fst end1 /\ same_results K dims L (snd end_) (snd end1).
Proof.
  intros HL1 H H1. cbv zeta.
  destruct (run_cfl_slice K N dims X L L1 HL HL1 Ht Hng Hf Hg cfl n t (init_state K L S) (init_state K L1 S1)) as [A [B _]].
  - exact (init_slice K N dims X L L1 HL HL1 Ht Hf Hg G S S1 H H1).
  - split; assumption.
Qed.

Lemma reductions_same L1 S S1 : laid_out K N one_process X L1 -> same_results K dims L S S1 ->
  (forall v v1, reduction Rmax (all_values K L (k_ng K) (cell_inverse_dt K L S)) v ->
     reduction Rmax (all_values K L1 (k_ng K) (cell_inverse_dt K L1 S1)) v1 ->
     v = v1 /\ time_step K L S = Some (1 / v) /\ time_step K L1 S1 = Some (1 / v1)) /\
  (forall v v1, reduction Rmin (all_values K L 0 (cell_internal K S)) v ->
     reduction Rmin (all_values K L1 0 (cell_internal K S1)) v1 -> v = v1 /\ minimum_internal_energy K L S = Some v) /\
  (let rho U := fun r c => c_rho (s_cell (U r) c) in
   forall v v1, reduction Rplus (all_values K L 0 (fun r c => rho S r c * dv (k_geom K) (k_nd K) (l_mesh L r) c)) v ->
     reduction Rplus (all_values K L1 0 (fun r c => rho S1 r c * dv (k_geom K) (k_nd K) (l_mesh L1 r) c)) v1 ->
     v = v1 /\ integrate K L (rho S) = v).
Proof.
  intros HL1 H. split; [|split].
  - intros v v1 Hv Hv1.
    pose proof (time_step_any_order K L S v Hv) as E. pose proof (time_step_any_order K L1 S1 v1 Hv1) as E1.
    split; [|split; assumption].
    assert (F : max_list (all_values K L (k_ng K) (cell_inverse_dt K L S)) = max_list (all_values K L1 (k_ng K) (cell_inverse_dt K L1 S1))).
    { apply max_list_same. apply (values_slice K N dims X L L1 HL HL1); [lia|].
      intros r c Hr Hs.
      set (still := fun (U : idx -> pstate) (r : idx) => mkState (s_cell (U r)) (s_u (U r)) (s_P (U r)) (s_rec (U r)) (s_new (U r)) (fun _ _ => 0)).
      assert (Hi : in_step K dims L (still S) (still S1)) by (split; [exact H|reflexivity]).
      exact (inverse_dt_slice K N dims X L L1 HL HL1 _ _ r c Hi Hr Hs). }
    rewrite (reduction_max _ _ Hv), (reduction_max _ _ Hv1) in F. congruence.
  - intros v v1 Hv Hv1. pose proof (min_energy_same K N dims X L L1 HL HL1 Hng S S1 H) as E.
    rewrite (min_energy_any_order K L S v Hv), (min_energy_any_order K L1 S1 v1 Hv1) in E.
    split; [congruence|exact (min_energy_any_order K L S v Hv)].
  - cbv zeta. intros v v1 Hv Hv1. pose proof (mass_same K N dims X L L1 HL HL1 Hng S S1 H) as E.
    rewrite (integrate_any_order K L _ v Hv), (integrate_any_order K L1 _ v1 Hv1) in E.
    split; [exact E|exact (integrate_any_order K L _ v Hv)].
Qed.

Lemma uniform_kept G S ts rho0 u0 P0 fx0 :
  lawful_eos (k_eos K) -> weightless K -> k_user K = UOff ->
  (k_geom K = Cartesian \/ forall k, u0 k = 0) ->
  (forall f, (f < 2 * k_nd K)%nat -> k_bcs K f = Reflexive -> u0 (f / 2)%nat = 0) ->
  (forall eps, k_pf K = Some eps -> eps * (rho0 * vsum (k_nd K) (fun d => u0 d ^ 2) / 2) <= eos_evol (k_eos K) rho0 P0) ->
  0 < rho0 -> 0 < P0 -> (forall n, 0 <= fx0 n <= 1) ->
  uniform_fields rho0 u0 P0 fx0 G -> starts_from K dims L G S ->
  uniform_everywhere K dims L rho0 u0 P0 fx0 (run K L ts (init_state K L S)).
Proof.
  intros He Hw Hu Hgeo Hrefl Hpf Hr HP Hfx HG HS.
  assert (Ek : rho0 * vsum (k_nd K) (fun d => u0 d ^ 2) / 2 = ek_prim (k_nd K) (mkPrim rho0 u0 P0)).
  { unfold ek_prim. cbn [p_rho p_u]. rewrite (vsum_ext _ (fun d => u0 d ^ 2) (fun d => u0 d * u0 d)) by (intros; ring). reflexivity. }
  assert (Hpf' : match k_pf K with None => True | Some eps => eps * ek_prim (k_nd K) (mkPrim rho0 u0 P0) <= eos_evol (k_eos K) rho0 P0 end).
  { destruct (k_pf K) as [eps|]; [|exact I]. rewrite <- Ek. now apply Hpf. }
  intros r c Hr' Hc.
  destruct (uni_run K N dims X L HL Hng rho0 u0 P0 fx0 He (conj Hr HP) Ht Hf Hrefl Hpf' Hu Hw Hgeo ts (init_state K L S)) with (r := r) (c := c)
    as ((A1 & A2 & A3 & A4) & A5 & A6 & _); [|exact Hr'|exact Hc|].
  - apply (uni_init K N dims X L HL rho0 u0 P0 fx0 He (conj Hr HP) Ht Hf Hrefl Hw G S HS); intros x; apply HG.
  - rewrite Ek. repeat split; auto.
Qed.

Lemma scalars_bounded S ts r c n : ts <> [] -> process (k_nd K) dims r -> in_array (d_nwg (l_dec L r)) c ->
  0 <= c_fx (s_cell (run K L ts S r) c) n <= 1.
Proof.
  intros Hne. destruct (exists_last Hne) as (ts' & [t dt] & ->). intros Hr Hc.
  unfold run. rewrite fold_left_app. cbn [fold_left fst snd]. now apply (scalar_bounds_all K N dims X L HL Hf).
Qed.

Lemma scalar_stays_uniform G S ts n phi : 0 <= phi <= 1 ->
  starts_from K dims L G S -> (forall c, g_fx G c n = phi) ->
  (forall pre t dt post, ts = pre ++ (t, dt) :: post -> no_vacuum K dims L dt (run K L pre (init_state K L S))) ->
  forall r c, process (k_nd K) dims r -> in_array (d_nwg (l_dec L r)) c ->
    c_fx (s_cell (run K L ts (init_state K L S) r) c) n = phi.
Proof.
  intros Hphi HS HG Hd. apply (scalar_uniform_run K N dims X L HL Hng Hf n phi ts Ht Hphi _ Hd).
  now apply (scalar_uniform_init K N dims X L HL Hf n phi G S Ht HS).
Qed.

Lemma conserved G S ts :
  (forall f, (f < 2 * k_nd K)%nat -> k_bcs K f = Periodic) -> k_geom K = Cartesian -> weightless K ->
  periodic_widths (k_nd K) N (k_ng K) X -> increasing (k_nd K) N (k_ng K) X ->
  starts_from K dims L G S ->
  let S0 := init_state K L S in
  let S1 := run K L ts S0 in
  integrate K L (fun r c => c_rho (s_cell (S1 r) c)) = integrate K L (fun r c => c_rho (s_cell (S0 r) c)) /\
  (forall k, integrate K L (fun r c => c_rhou (s_cell (S1 r) c) k) = integrate K L (fun r c => c_rhou (s_cell (S0 r) c) k)) /\
  (k_pf K = None -> k_user K = UOff ->
     integrate K L (fun r c => c_E (s_cell (S1 r) c)) = integrate K L (fun r c => c_E (s_cell (S0 r) c))).
Proof.
  intros H1 H2 H3 H4 H5 HS S0 S1.
  assert (Hp : forall d, (d < k_nd K)%nat -> periodic_dir K N X d).
  { intros d Hd. split; [|split]; [apply H1; lia..|]. intros i Hi. now apply H4. }
  destruct (box_conservation K N dims X L HR H2 H3 H5 G S ts HS) as (A & B & C); [intros d Hd; left; auto|].
  split; [exact A|]. split; [|exact C].
  intros k. apply B. intros Hk. split; [auto|]. rewrite H1 by lia. discriminate.
Qed.
End Statements.

(** ** A run: 7 x 5 cells on 3 x 2 processes *)
Definition ex_K (bcs : nat -> bcond) (g : geom) : config :=
  mkConfig g 2 2 (pg_eos (mkPG (5 / 3) 1)) LVanLeer HLLC None UOff (GUniform (fun _ => 0)) bcs [2; 3; 0; 1]%nat.
Definition ex_N : idx := I3 7 5 1.
Definition ex_dims : idx := I3 3 2 1.
Definition ex_X : nat -> arr1 := fun d =>
  mkArr1 (match d with O => 12 | S O => 10 | _ => 2 end)%Z (fun i => IZR i).
Definition ex_bcs : nat -> bcond := fun f => match f with 0 | 1 => Periodic | 2 => Reflexive | _ => NullGradient end%nat.
Definition ex_L b g := the_layout (ex_K b g) ex_N ex_dims ex_X.
Definition ex_L1 b g := the_layout (ex_K b g) ex_N one_process ex_X.

Lemma ex_coords : global_coords 2 ex_N 2 ex_X.
Proof. intros d Hd. destruct d as [|[|[|d]]]; [reflexivity..|lia]. Qed.
Lemma ex_runs b g : runs_on (ex_K b g) ex_N ex_dims ex_X (ex_L b g).
Proof.
  assert (H3 : forall d, (d < 3)%nat -> (1 <= coord d ex_N)%Z) by (dims3; vm_compute; congruence).
  assert (H4 : forall d, (d < 3)%nat -> (1 <= coord d (mpi_dims 2 ex_dims))%Z) by (dims3; vm_compute; congruence).
  split; cbn [ex_K k_nd k_ng k_order].
  - apply the_layout_ok; cbn [ex_K k_nd k_ng]; try lia; [exact H3|exact H4|exact ex_coords].
  - unfold ex_L, the_layout. cbn [l_dec ex_K k_nd k_ng]. apply decs_thick; try lia; [exact H3|exact H4|].
    intros d Hd; destruct d as [|[|d]]; [| |lia]; vm_compute; congruence.
  - lia.
  - intros f Hf. cbn in Hf. lia.
  - exact I.
Qed.
Lemma ex_laid1 b g : laid_out (ex_K b g) ex_N one_process ex_X (ex_L1 b g).
Proof.
  apply the_layout_ok; cbn [ex_K k_nd k_ng]; try lia; [| |exact ex_coords]; dims3; vm_compute; congruence.
Qed.
Lemma ex_widths : periodic_widths 2 ex_N 2 ex_X /\ increasing 2 ex_N 2 ex_X.
Proof.
  split.
  - intros d i Hd Hi. cbn [ex_X a_at]. rewrite !plus_IZR. ring.
  - intros d i Hd Hi. cbn [ex_X a_at]. rewrite plus_IZR. lra.
Qed.

Lemma ex_eos : lawful_eos (pg_eos (mkPG (5 / 3) 1)).
Proof. apply pg_lawful. split; cbn; lra. Qed.

(** Uniform fields with some scalar. *)
Definition ex_G (u0 : vec) : gfields := mkG (fun _ => 1) (fun _ => u0) (fun _ => 2) (fun _ n => match n with O => 1 / 4 | _ => 1 end).
Definition ex_u : vec := fun d => match d with O => 3 | _ => 0 end.

Lemma ex_no_vacuum ts : let K := ex_K ex_bcs Cartesian in let L := ex_L ex_bcs Cartesian in
  let S := the_state K L (ex_G ex_u) in
  forall pre t dt post, ts = pre ++ (t, dt) :: post -> no_vacuum K ex_dims L dt (run K L pre (init_state K L S)).
Proof.
  intros K L S pre t dt post _. pose proof (ex_runs ex_bcs Cartesian) as HR.
  pose proof (ro_layout HR) as HL. fold K L in HL, HR.
  assert (Hrefl : forall f, (f < 2 * k_nd K)%nat -> k_bcs K f = Reflexive -> ex_u (f / 2)%nat = 0).
  { intros f Hf. change (k_nd K) with 2%nat in Hf. destruct f as [|[|[|[|f]]]]; try lia; cbn; (discriminate || reflexivity). }
  assert (Hw : weightless K) by (exists (fun _ => 0); auto).
  assert (Hp0 : 0 < 1 /\ 0 < 2) by lra.
  set (fx0 := g_fx (ex_G ex_u) rank0).
  pose proof (uni_init K ex_N ex_dims ex_X L HL 1 ex_u 2 fx0 ex_eos Hp0 (ro_thick HR) (ro_faces HR) Hrefl Hw (ex_G ex_u) S
    (the_state_ok K ex_dims L (ex_G ex_u)) (fun _ => eq_refl) (fun _ _ => eq_refl) (fun _ => eq_refl) (fun _ _ => eq_refl)) as H0.
  pose proof (uni_run K ex_N ex_dims ex_X L HL (ro_ng HR) 1 ex_u 2 fx0 ex_eos Hp0 (ro_thick HR) (ro_faces HR) Hrefl I eq_refl Hw (or_introl eq_refl) pre _ H0) as H1.
  set (S1 := run K L pre (init_state K L S)) in *. intros r Hr. split.
  - intros c sd k Hc Hsd Hk.
    destruct (uni_rec K ex_N ex_dims ex_X L HL (ro_ng HR) 1 ex_u 2 fx0 Hp0 Hrefl (or_introl eq_refl) S1 r c sd k dt H1 Hr Hc Hsd Hk) as [-> _].
    cbn. lra.
  - intros c Hc.
    destruct (uni_owned K ex_N ex_dims ex_X L HL (ro_ng HR) 1 ex_u 2 fx0 ex_eos Hp0 Hrefl I eq_refl (or_introl eq_refl) S1 0 dt r c H1 Hr Hc) as (E & _).
    unfold step_user, user_step, kwrite in E.
    rewrite (proj2 (sel_owned _ _ _ _ _ _ _ HL Hr) Hc) in E. cbn [K ex_K k_user user_cell] in E.
    change (c_rho (step_godunov K L dt S1 r c) = 1) in E. rewrite E. lra.
Qed.

Lemma rest_no_fix K rho0 P0 : lawful_eos (k_eos K) -> 0 < rho0 -> 0 < P0 ->
  forall eps, k_pf K = Some eps -> eps * (rho0 * vsum (k_nd K) (fun d => 0 ^ 2) / 2) <= eos_evol (k_eos K) rho0 P0.
Proof.
  intros He Hr HP eps _. rewrite vsum_0 by (intros; ring). pose proof (law_evol_pos _ He _ _ Hr HP). lra.
Qed.

Lemma cfl_time_step K N dims X L : laid_out K N dims X L ->
  forall S, lawful_eos (k_eos K) ->
  (forall r c, process (k_nd K) dims r -> owned (k_nd K) (k_ng K) (d_nloc (l_dec L r)) c ->
     0 < c_rho (s_cell (S r) c) /\ 0 < s_P (S r) c /\
     forall d, (d < k_nd K)%nat -> 0 < width (k_geom K) (l_mesh L r) c d) ->
  (forall r c d, process (k_nd K) dims r -> in_array (d_nwg (l_dec L r)) c -> (d < k_nd K)%nat ->
     width (k_geom K) (l_mesh L r) c d <> 0) ->
  exists dt, time_step K L S = Some dt /\ 0 < dt /\
    (forall r c, process (k_nd K) dims r -> in_array (d_nwg (l_dec L r)) c -> dt * crossing_rate K L S r c <= 1) /\
    (exists r c, process (k_nd K) dims r /\ in_array (d_nwg (l_dec L r)) c /\ dt * crossing_rate K L S r c = 1).
Proof.
  intros HL S He Hp _. destruct (time_step_defined K N dims X L HL S) as (dt & E). exists dt. split; [exact E|].
  exact (cfl_bound K N dims X L HL S dt He Hp E).
Qed.

Lemma c26_example :
  (let L := ex_L ex_bcs Cartesian in
   forall r c d, (d < 2)%nat -> width Cartesian (l_mesh L r) c d = 1 \/ ~ process 2 ex_dims r) /\
  (forall g k rho P, 0 < k -> 0 < P -> 0 < rho -> 0 < pg_gamma g ->
     eos_sound (pg_eos g) rho (k ^ 2 * P) = k * eos_sound (pg_eos g) rho P).
Proof.
  split.
  - intros L r c d Hd. destruct (Classical_Prop.classic (process 2 ex_dims r)) as [Hr|Hr]; [left|now right].
    pose proof (ro_layout (ex_runs ex_bcs Cartesian)) as HL. pose proof (lo_mesh HL Hr) as E. fold L in E.
    unfold width.
    rewrite !(set_grid_at _ _ _ E) by lia. cbn [ex_X a_at]. rewrite !plus_IZR. destruct d as [|[|[|d]]]; cbn [coord]; try lia; ring.
  - intros g k rho P Hk HP Hr Hg. cbn. unfold pg_sound.
    replace (pg_gamma g * (k * (k * 1) * P) / rho) with ((k * k) * (pg_gamma g * P / rho)) by (field; lra).
    rewrite sqrt_mult_alt by nra. rewrite sqrt_square by lra. reflexivity.
Qed.
