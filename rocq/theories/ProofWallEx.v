(** * Statements and examples of PropWall.v. *)
From Coq Require Import FunctionalExtensionality ZifyBool ZifyNat.
From Verif Require Import Base RBase ModelMesh ModelGeom ModelBoundary ModelHydro ModelScheme ModelStep
  SpecMesh SpecGeom SpecBoundary SpecHydro SpecScheme SpecStep SpecWall
  ProofBase ProofMesh ProofR ProofBoundary ProofBoundary2 ProofHydro ProofHydro2 ProofScheme ProofMirror ProofShift ProofReduce
  ProofStep ProofLayout ProofSteady ProofWall ProofBox ProofStepEx.
Local Open Scope R_scope.

Lemma walls_impermeable K N dims X L : runs_on K N dims X L ->
  forall d face S ts dt r c,
  (d < k_nd K)%nat -> (face < 2)%nat -> wall K d face -> k_geom K = Cartesian ->
  mirrored_widths N (k_ng K) X d face -> no_pull_along K d -> lawful_eos (k_eos K) ->
  process (k_nd K) dims r -> on_wall K dims L d face r c ->
  let now := run K L ts (init_state K L S) in
  valid_cons (k_nd K) (inner_face K L dt now d face r c) ->
  let F := step_flux K L dt now r c d in
  f_rho F = 0 /\ f_E F = 0 /\ (forall k, k <> d -> f_m F k = 0) /\
  (forall n, step_scalar_flux K L dt now r c d n = 0).
Proof.
  intros HR d face S ts dt r c Hd Hface Hw Hc Hm Hp He Hr Ho now Hv F.
  pose proof (ro_layout HR) as HL.
  destruct (wall_flux K N dims X L HL (ro_ng HR) (ro_thick HR) d face Hd Hface Hw Hc Hm He now dt r c) as (A & B & C);
    [apply (wall_run K N dims X L HL); try assumption; apply HR|assumption|assumption| |].
  - unfold inner_face in Hv. destruct face; exact Hv.
  - split; [exact A|]. split; [exact B|]. split; [exact C|].
    intros n. unfold step_scalar_flux. fold F. fold F in A. rewrite A. cbv zeta. ring.
Qed.

(** Without its gravity, everything else equal. *)
Definition ungrav (K : config) : config :=
  mkConfig (k_geom K) (k_nd K) (k_ng K) (k_eos K) (k_lim K) (k_sol K) (k_pf K) (k_user K) (GUniform (fun _ => 0)) (k_bcs K) (k_order K).

Lemma gravity_face K N dims X L (HR : runs_on K N dims X L) g G S rho0 P0 fx0 dt r c sd k :
  k_grav K = GUniform g -> lawful_eos (k_eos K) -> 0 < rho0 -> 0 < P0 ->
  uniform_fields rho0 (fun _ => 0) P0 fx0 G -> starts_from K dims L G S ->
  process (k_nd K) dims r -> sel K L 1 r c = true -> (sd < 2)%nat -> (k < k_nd K)%nat ->
  r_q (step_rec K L dt (init_state K L S) r) c sd k
  = mkCons rho0 (fun d => rho0 * g d * (dt / 2)) (eos_evol (k_eos K) rho0 P0).
Proof.
  intros Hg He Hr0 HP0 HG HS Hr Hs Hsd Hk.
  set (K0 := ungrav K).
  assert (HL0 : laid_out K0 N dims X L).
  { destruct (ro_layout HR) as [A B C D]. now constructor. }
  assert (Hrefl : forall f, (f < 2 * k_nd K0)%nat -> k_bcs K0 f = Reflexive -> (fun _ : nat => 0) (f / 2)%nat = 0) by reflexivity.
  assert (Hw : weightless K0) by (exists (fun _ => 0); auto).
  assert (HS0 : starts_from K0 dims L G S) by (destruct HS; now constructor).
  assert (G1 : forall x, g_rho G x = rho0) by apply HG. assert (G2 : forall x j, g_u G x j = (fun _ => 0) j) by apply HG.
  assert (G3 : forall x, g_P G x = P0) by apply HG. assert (G4 : forall x n, g_fx G x n = fx0 n) by apply HG.
  pose proof (uni_init K0 N dims X L HL0 rho0 (fun _ => 0) P0 fx0 He (conj Hr0 HP0) (ro_thick HR) (ro_faces HR) Hrefl Hw G S HS0 G1 G2 G3 G4) as U.
  destruct (uni_rec K0 N dims X L HL0 (ro_ng HR) rho0 (fun _ => 0) P0 fx0 (conj Hr0 HP0) Hrefl (or_intror (fun _ => eq_refl)) _ r c sd k dt U Hr Hs Hsd Hk) as [E _].
  unfold step_rec in E |- *. cbn [hydro_reconstruction r_q] in E |- *. unfold kwrite in E |- *.
  change (sel K0 L 1 r c) with (sel K L 1 r c) in E. rewrite Hs in E |- *.
  pose proof (uni_face K0 N dims X L HL0 (ro_ng HR) rho0 (fun _ => 0) P0 fx0 Hrefl _ r c sd k U Hr Hs Hk) as [Ef _].
  change (k_geom K0) with (k_geom K) in E. change (k_nd K0) with (k_nd K) in E. change (k_eos K0) with (k_eos K) in E.
  change (k_lim K0) with (k_lim K) in E, Ef.
  change (s_cell (init_state K0 L S r)) with (s_cell (init_state K L S r)) in E, Ef.
  change (s_u (init_state K0 L S r)) with (s_u (init_state K L S r)) in E, Ef.
  change (s_P (init_state K0 L S r)) with (s_P (init_state K L S r)) in E, Ef.
  change (s_grav (init_state K0 L S r)) with (fun (_ : idx) (_ : nat) => 0) in E.
  assert (Eg : s_grav (init_state K L S r) = fun _ d => g d).
  { unfold init_state, finish. cbn [s_grav]. unfold gravity_values. now rewrite Hg. }
  rewrite Eg.
  set (fp := face_prim _ _ _ _ _ _) in *.
  destruct (hancock_gravity (k_geom K) (k_nd K) (k_eos K) (l_mesh L r) (fun _ d => g d) (dt / 2) fp c sd k) as (A1 & A2 & A3).
  rewrite E in A1, A2, A3. rewrite Ef in A2, A3.
  apply cons_ext.
  - rewrite A1. reflexivity.
  - intros d. rewrite A2. cbn. ring.
  - rewrite A3. cbn. rewrite vsum_0 by (intros; ring). unfold ek_prim. cbn. rewrite vsum_0 by (intros; ring). field.
Qed.

Lemma gravity_leaks K N dims X L : runs_on K N dims X L ->
  forall g G S rho0 P0 fx0 dt d face r c,
  k_grav K = GUniform g -> lawful_eos (k_eos K) -> 0 < rho0 -> 0 < P0 ->
  uniform_fields rho0 (fun _ => 0) P0 fx0 G -> starts_from K dims L G S ->
  (d < k_nd K)%nat -> (face < 2)%nat -> process (k_nd K) dims r -> on_wall K dims L d face r c ->
  rho0 * vsum (k_nd K) (fun j => g j ^ 2) * dt ^ 2 / 8 < eos_evol (k_eos K) rho0 P0 ->
  let now := init_state K L S in
  valid_cons (k_nd K) (inner_face K L dt now d face r c) /\
  f_rho (step_flux K L dt now r c d) = rho0 * g d * dt / 2.
Proof.
  intros HR g G S rho0 P0 fx0 dt d face r c Hg He Hr0 HP0 HG HS Hd Hface Hr Ho Hsmall now.
  pose proof (ro_layout HR) as HL. pose proof (dcp_nd (lo_dec HL)) as Hnd.
  set (q := mkCons rho0 (fun d => rho0 * g d * (dt / 2)) (eos_evol (k_eos K) rho0 P0)).
  assert (Hv : valid_cons (k_nd K) q).
  { split; [exact Hr0|]. unfold q, internal, kinetic. cbn [q_rho q_m q_E].
    rewrite (vsum_ext _ _ (fun j => (rho0 * rho0 * dt ^ 2 / 4) * (g j ^ 2))) by (intros; field).
    rewrite vsum_scal. match goal with |- 0 < _ - ?a => replace a with (rho0 * vsum (k_nd K) (fun j => g j ^ 2) * dt ^ 2 / 8) end; [lra|].
    field. lra. }
  assert (Hs : sel K L 1 r c = true /\ sel K L 1 r (lindex d c) = true).
  { destruct Ho as [Hp Ht]. assert (Hlt : (d <? k_nd K)%nat = true) by (apply Nat.ltb_lt; lia).
    assert (Eg' : ghosts (k_nd K) (k_ng K) d = k_ng K) by (unfold ghosts; now rewrite Hlt).
    pose proof (ro_ng HR) as Hng.
    pose proof (ro_thick HR) as Hth. pose proof (thick_d K dims L Hth r d Hr Hd) as Hn.
    split; apply (sel_spec _ _ _ _ _ _ _ _ HL Hr); intros k Hk; destruct (Nat.eq_dec k d) as [->|Hne].
    - rewrite Hlt, Eg'. destruct face; lia.
    - specialize (Ht k Hk Hne). destruct (k <? k_nd K)%nat; lia.
    - rewrite Hlt, Eg', coord_lindex_same by lia. destruct face; lia.
    - rewrite coord_lindex_other by (assumption || lia). specialize (Ht k Hk Hne). destruct (k <? k_nd K)%nat; lia. }
  destruct Hs as [Hs Hsl].
  pose proof (fun x sd Hx Hsd => gravity_face K N dims X L HR g G S rho0 P0 fx0 dt r x sd d Hg He Hr0 HP0 HG HS Hr Hx Hsd Hd) as Hq.
  fold now in Hq. split.
  - unfold inner_face. destruct face; rewrite Hq by (assumption || lia); exact Hv.
  - unfold step_flux. cbv zeta. rewrite !Hq by (assumption || lia).
    rewrite riemann_consistent by assumption. cbn. field.
Qed.

(** ** A box with walls: 7 x 5 cells on 3 x 2 processes, periodic along x, walls along y *)
Definition box_bcs : nat -> bcond := fun f => match f with 0 | 1 => Periodic | _ => Reflexive end%nat.
Lemma ex_mirrored face : mirrored_widths ex_N 2 ex_X 1 face.
Proof. unfold mirrored_widths. cbv zeta. intros j Hj. cbn [ex_X a_at]. rewrite !plus_IZR. ring. Qed.
Lemma ex_walls face : (face < 2)%nat -> wall (ex_K box_bcs Cartesian) 1 face.
Proof. intros H. destruct face as [|[|face]]; [..|lia]; split; cbn; auto. Qed.

Lemma ex_admissible ts : let K := ex_K box_bcs Cartesian in let L := ex_L box_bcs Cartesian in
  let S := the_state K L (ex_G ex_u) in
  forall pre t dt post, ts = pre ++ (t, dt) :: post -> admissible_faces K ex_dims L dt (run K L pre (init_state K L S)).
Proof.
  intros K L S pre t dt post _. pose proof (ex_runs box_bcs Cartesian) as HR.
  pose proof (ro_layout HR) as HL. fold K L in HL, HR.
  assert (Hrefl : forall f, (f < 2 * k_nd K)%nat -> k_bcs K f = Reflexive -> ex_u (f / 2)%nat = 0).
  { intros f Hf. change (k_nd K) with 2%nat in Hf. destruct f as [|[|[|[|f]]]]; try lia; cbn; (discriminate || reflexivity). }
  assert (Hw : weightless K) by (exists (fun _ => 0); auto).
  assert (Hp0 : 0 < 1 /\ 0 < 2) by lra.
  set (fx0 := g_fx (ex_G ex_u) rank0).
  pose proof (uni_init K ex_N ex_dims ex_X L HL 1 ex_u 2 fx0 ex_eos Hp0 (ro_thick HR) (ro_faces HR) Hrefl Hw (ex_G ex_u) S
    (the_state_ok K ex_dims L (ex_G ex_u)) (fun _ => eq_refl) (fun _ _ => eq_refl) (fun _ => eq_refl) (fun _ _ => eq_refl)) as H0.
  pose proof (uni_run K ex_N ex_dims ex_X L HL (ro_ng HR) 1 ex_u 2 fx0 ex_eos Hp0 (ro_thick HR) (ro_faces HR) Hrefl I eq_refl Hw (or_introl eq_refl) pre _ H0) as H1.
  set (S1 := run K L pre (init_state K L S)) in *. intros r c sd k Hr Hc Hsd Hk.
  assert (Hs : sel K L 1 r c = true).
  { apply (sel_mono _ _ _ _ _ 0 _ _ _ HL Hr); [lia|]. now apply (sel_owned _ _ _ _ _ _ _ HL Hr). }
  destruct (uni_rec K ex_N ex_dims ex_X L HL (ro_ng HR) 1 ex_u 2 fx0 Hp0 Hrefl (or_introl eq_refl) S1 r c sd k dt H1 Hr Hs Hsd Hk) as [-> _].
  apply valid_to_cons; [exact ex_eos|exact Hp0].
Qed.

Lemma c20_example :
  let K := ex_K box_bcs Cartesian in let L := ex_L box_bcs Cartesian in
  let S := the_state K L (ex_G ex_u) in
  runs_on K ex_N ex_dims ex_X L /\ weightless K /\ no_pull_along K 1 /\ increasing 2 ex_N 2 ex_X /\ lawful_eos (k_eos K) /\
  starts_from K ex_dims L (ex_G ex_u) S /\
  periodic_dir K ex_N ex_X 0 /\ walled_dir K ex_N ex_X 1 /\
  on_wall K ex_dims L 1 0 (I3 1 0 0) (I3 3 2 0) /\
  forall ts pre t dt post, ts = pre ++ (t, dt) :: post -> admissible_faces K ex_dims L dt (run K L pre (init_state K L S)).
Proof.
  intros K L S. split; [apply ex_runs|]. split; [exists (fun _ => 0); auto|]. split; [reflexivity|].
  split; [apply ex_widths|]. split; [apply ex_eos|]. split; [apply the_state_ok|].
  split; [split; [reflexivity|split; [reflexivity|]]; intros i Hi; cbn [ex_X a_at]; rewrite !plus_IZR; ring|].
  split; [split; [|split; [|split]]; first [apply ex_walls; lia|apply ex_mirrored]|].
  split; [|intros ts pre t dt post; apply (ex_admissible ts)].
  split; [vm_compute; auto|]. intros k Hk Hne. destruct k as [|[|[|k]]]; try lia; vm_compute; split; congruence.
Qed.

(** The same box under gravity. *)
Definition heavy_K : config :=
  mkConfig Cartesian 2 2 (pg_eos (mkPG (5 / 3) 1)) LVanLeer HLLC None UOff (GUniform (fun _ => -1)) box_bcs [2; 3; 0; 1]%nat.
Lemma c20_refuted_example :
  exists K N dims X L g G S dt r c,
    runs_on K N dims X L /\ wall K 1 0 /\ mirrored_widths N (k_ng K) X 1 0 /\ k_geom K = Cartesian /\
    k_grav K = GUniform g /\ lawful_eos (k_eos K) /\ uniform_fields 1 (fun _ => 0) 2 (fun _ => 0) G /\
    starts_from K dims L G S /\ process (k_nd K) dims r /\ on_wall K dims L 1 0 r c /\
    f_rho (step_flux K L dt (init_state K L S) r c 1) <> 0.
Proof.
  set (G := mkG (fun _ => 1) (fun _ _ => 0) (fun _ => 2) (fun _ _ => 0)).
  set (L := ex_L box_bcs Cartesian).
  assert (HR : runs_on heavy_K ex_N ex_dims ex_X L).
  { destruct (ex_runs box_bcs Cartesian) as [[A B C D] E F H I]. split; [split; assumption|assumption..|exact I]. }
  assert (HG : uniform_fields 1 (fun _ => 0) 2 (fun _ => 0) G) by (intros x; repeat split).
  assert (Hp : process 2 ex_dims (I3 1 0 0)) by (intros k Hk; destruct k as [|[|[|k]]]; try lia; vm_compute; split; congruence).
  assert (Ho : on_wall heavy_K ex_dims L 1 0 (I3 1 0 0) (I3 3 2 0)).
  { split; [vm_compute; auto|]. intros k Hk Hne. destruct k as [|[|[|k]]]; try lia; vm_compute; split; congruence. }
  exists heavy_K, ex_N, ex_dims, ex_X, L, (fun _ => -1), G, (the_state heavy_K L G), 1, (I3 1 0 0), (I3 3 2 0).
  split; [exact HR|]. split; [split; cbn; auto|]. split; [apply ex_mirrored|]. split; [reflexivity|]. split; [reflexivity|].
  split; [exact ex_eos|]. split; [exact HG|]. split; [apply the_state_ok|]. split; [exact Hp|]. split; [exact Ho|].
  destruct (gravity_leaks heavy_K ex_N ex_dims ex_X L HR (fun _ => -1) G (the_state heavy_K L G) 1 2 (fun _ => 0) 1 1 0 (I3 1 0 0) (I3 3 2 0))
    as [_ ->]; try (assumption || reflexivity || lra || (cbn; lia) || exact ex_eos); [apply the_state_ok|].
  cbn [heavy_K k_eos k_nd pg_eos eos_evol]. rewrite pg_evol by (first [lra|split; cbn; lra]). cbn.
  replace (2 / (5 / 3 - 1)) with 3 by field. lra.
Qed.
