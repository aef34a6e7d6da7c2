(** * Statements and examples of PropAdvect.v. *)
From Coq Require Import ZifyBool ZifyNat Lra Psatz.
From Verif Require Import Base RBase ModelMesh ModelGeom ModelBoundary ModelHydro ModelScheme ModelStep
  SpecMesh SpecBoundary SpecHydro SpecScheme SpecStep SpecAdvect
  ProofBase ProofMesh ProofR ProofBoundary ProofBoundary2 ProofHydro ProofHydro2 ProofScheme ProofMirror ProofShift ProofReduce ProofStep ProofSteady
  ProofLayout ProofStepEx ProofCfl ProofPos2 ProofAdvect ProofAdvect2.
Local Open Scope R_scope.

Section Statements.
Variables (K : config) (N dims : idx) (X : nat -> arr1) (L : layout) (u0 : vec) (P0 : R).

Lemma advect_any G S ts : runs_on K N dims X L -> lawful_eos (k_eos K) -> energy_of_pressure (k_eos K) -> 0 < P0 -> plain_flow K u0 ->
  starts_from K dims L G S -> carried_fields u0 P0 G -> positive_run K dims L ts (init_state K L S) ->
  carried K dims L u0 P0 (run K L ts (init_state K L S)).
Proof.
  intros HR He Hev HP HW. exact (carried_from K N dims X L u0 P0 HR He Hev HP (pw_geom HW) (pw_pf HW) (pw_user HW) (pw_grav HW) (pw_wall HW) G S ts).
Qed.

Lemma first_all lo hi nu : runs_on K N dims X L -> lawful_eos (k_eos K) -> energy_of_pressure (k_eos K) -> 0 < P0 -> plain_flow K u0 ->
  increasing (k_nd K) N (k_ng K) X -> contact_solver (k_sol K) -> 0 < lo -> nu <= 1 -> k_lim K = LConstant ->
  forall G S, starts_from K dims L G S -> carried_fields u0 P0 G -> (forall c, lo <= g_rho G c <= hi) ->
  (forall ts, courant_steps K dims L u0 nu ts ->
     carried K dims L u0 P0 (run K L ts (init_state K L S)) /\ density_within K dims L lo hi (run K L ts (init_state K L S))) /\
  (forall n t, 0 < nu -> let S' := snd (run_cfl K L nu n t (init_state K L S)) in
     carried K dims L u0 P0 S' /\ density_within K dims L lo hi S').
Proof.
  intros HR He Hev HP HW Hi Hs Hlo Hnu Hlim G S H1 H2 H3.
  pose proof (first_step K N dims X L u0 P0 lo hi nu HR He Hev HP HW Hi Hs Hlo Hnu Hlim) as Hst. split.
  - intros ts Hts. exact (bounded_from K N dims X L u0 P0 lo hi nu HR He Hev HP HW Hst G S ts H1 H2 H3 Hts).
  - intros n t H0. exact (bounded_from_cfl K N dims X L u0 P0 lo hi nu HR He Hev HP HW Hi Hlo Hst G S n t H0 H1 H2 H3).
Qed.

Lemma limited_all lo hi nu h : runs_on K N dims X L -> lawful_eos (k_eos K) -> energy_of_pressure (k_eos K) -> 0 < P0 -> plain_flow K u0 ->
  increasing (k_nd K) N (k_ng K) X -> contact_solver (k_sol K) -> 0 < lo -> nu <= 1 ->
  k_nd K = 1%nat -> regular_axis N (k_ng K) X h -> safe_limiter (k_lim K) nu lo hi ->
  forall G S, starts_from K dims L G S -> carried_fields u0 P0 G -> (forall c, lo <= g_rho G c <= hi) ->
  (forall ts, courant_steps K dims L u0 nu ts ->
     carried K dims L u0 P0 (run K L ts (init_state K L S)) /\ density_within K dims L lo hi (run K L ts (init_state K L S))) /\
  (forall n t, 0 < nu -> let S' := snd (run_cfl K L nu n t (init_state K L S)) in
     carried K dims L u0 P0 S' /\ density_within K dims L lo hi S').
Proof.
  intros HR He Hev HP HW Hi Hs Hlo Hnu H1d Hreg Hsafe G S H1 H2 H3.
  pose proof (limited_step K N dims X L u0 P0 lo hi nu HR He Hev HP HW Hi Hs Hlo Hnu h H1d Hreg Hsafe) as Hst. split.
  - intros ts Hts. exact (bounded_from K N dims X L u0 P0 lo hi nu HR He Hev HP HW Hst G S ts H1 H2 H3 Hts).
  - intros n t H0. exact (bounded_from_cfl K N dims X L u0 P0 lo hi nu HR He Hev HP HW Hi Hlo Hst G S n t H0 H1 H2 H3).
Qed.
End Statements.

Lemma pg_energy_of_pressure g : 1 < pg_gamma g -> 0 < pg_mmw g -> energy_of_pressure (pg_eos g).
Proof.
  intros H1 H2 r r' P Hr Hr' _. cbn [pg_eos eos_evol]. unfold pg_evol_from_pres, pg_evol_from_temp, pg_temp_from_pres.
  assert (kb <> 0) by (unfold kb; apply Rmult_integral_contrapositive; split; [lra|apply Rinv_neq_0_compat, pow_nonzero; lra]).
  assert (mp <> 0) by (unfold mp; apply Rmult_integral_contrapositive; split; [lra|apply Rinv_neq_0_compat, pow_nonzero; lra]).
  field. repeat split; lra.
Qed.

(** ** The van Leer limiter *)
Lemma van_leer_negative e m c u0 P0 h dt old : regular_at m 0 (coord 0 c) h -> (forall d, (d < 3)%nat -> 0 < mdx m d (coord d c)) ->
  0 < dt -> 0 < u0 0%nat ->
  exists rho : field3, (forall x, 0 < rho x) /\
    q_rho (r_q (hydro_reconstruction (fun _ => true) Cartesian 1 e LVanLeer m (fun _ _ => 0) (dt / 2) rho (fun _ => u0) (fun _ => P0) (fun _ _ => 0) old) c 0%nat 0%nat) < 0.
Proof.
  intros (Hh & M1 & M2 & M3) Hw Hdt Hu.
  set (nu := u0 0%nat * dt / h). assert (Hn : 0 < nu) by (unfold nu; apply Rdiv_lt_0_compat; nra).
  set (eps := nu / (2 * (1 + nu))). assert (He : 0 < eps) by (unfold eps; apply Rdiv_lt_0_compat; lra).
  assert (Ee : 2 * (1 + nu) * eps = nu) by (unfold eps; field; lra).
  exists (fun x => if (coord 0 x <? coord 0 c)%Z then eps else if (coord 0 x =? coord 0 c)%Z then 1 else 1 + 4 / nu).
  assert (Hi : 0 < / nu) by now apply Rinv_0_lt_compat.
  split. { intros x. destruct (_ <? _)%Z; [exact He|]. destruct (_ =? _)%Z; [lra|]. unfold Rdiv. lra. }
  cbn [hydro_reconstruction r_q]. unfold kwrite, hancock_cons. cbn [q_rho vsum].
  rewrite (cart_rate 1 m (dt / 2) c ltac:(lia) Hw) by lia. rewrite M2.
  cbn [face_prim to_cons q_rho p_rho p_u flux_prim f_rho].
  rewrite !(faces_constant LVanLeer m (fun _ => u0 0%nat)) by (lia || reflexivity).
  rewrite !(face_value_eq LVanLeer m _ c 0%nat ltac:(lia)). rewrite M1, M2, M3.
  rewrite coord_lindex_same, coord_rindex_same by lia.
  rewrite (proj2 (Z.ltb_lt (coord 0 c - 1) (coord 0 c))) by lia.
  rewrite (Z.ltb_irrefl (coord 0 c)), Z.eqb_refl.
  rewrite (proj2 (Z.ltb_ge (coord 0 c + 1) (coord 0 c))) by lia. rewrite (proj2 (Z.eqb_neq (coord 0 c + 1) (coord 0 c))) by lia.
  replace ((h + h) / 2) with h by field.
  assert (EM : 4 / nu * nu = 4) by (field; lra). assert (HM : 0 < 4 / nu) by (unfold Rdiv; lra).
  set (M := 4 / nu) in *. clearbody M.
  assert (Hb1 : 1 / 2 < 1 - eps < 1) by (split; nra).
  assert (E2 : u0 0%nat * dt = nu * h) by (unfold nu; field; lra).
  assert (Ha : 0 < (1 + M - 1) / h) by (apply Rdiv_lt_0_compat; lra).
  assert (Hb : 0 < (1 - eps) / h) by (apply Rdiv_lt_0_compat; lra).
  cbn [slope]. rewrite van_leer_form by nra.
  assert (ES : 2 * ((1 + M - 1) / h) * ((1 - eps) / h) / ((1 + M - 1) / h + (1 - eps) / h) = 2 * M * (1 - eps) / (M + (1 - eps)) / h).
  { field. repeat split; lra. }
  rewrite ES. set (Q := 2 * M * (1 - eps) / (M + (1 - eps))).
  assert (EQ : Q * (M + (1 - eps)) = 2 * M * (1 - eps)) by (unfold Q; field; lra).
  match goal with |- ?t < 0 => replace t with (1 - Q / 2 - (u0 0%nat * dt) / h * Q / 2) by (field; lra) end.
  rewrite E2. replace (nu * h / h) with nu by (field; lra).
  assert (Hq : 0 < Q) by (unfold Q; apply Rdiv_lt_0_compat; nra).
  assert (HT : (1 + nu) * Q > 2); [|nra].
  clear - EQ EM HM Hb1 Hq Ee Hn He. clearbody nu eps Q.
  apply Rlt_gt, (Rmult_lt_reg_r (M + (1 - eps))); [lra|]. rewrite Rmult_assoc, EQ.
  assert (A : (1 + nu) * (1 - eps) = 1 + nu / 2) by lra.
  replace ((1 + nu) * (2 * M * (1 - eps))) with (2 * M * ((1 + nu) * (1 - eps))) by ring. rewrite A. nra.
Qed.

(** ** Examples *)
Definition adv_u : vec := fun d => match d with 0%nat => 3 | _ => - 2 end.
Definition adv_G (hi : R) : gfields :=
  mkG (fun c => if Z.even (ii c + jj c) then hi else 1) (fun _ => adv_u) (fun _ => 1) (fun _ _ => 1).
Definition adv_bcs : nat -> bcond := fun f => match f with 0%nat | 1%nat => Periodic | _ => NullGradient end.

(** 7 x 5 cells on 3 x 2 processes, first order. *)
Definition adv_K (s : solver) : config :=
  mkConfig Cartesian 2 2 (pg_eos (mkPG (5 / 3) 1)) LConstant s None UOff (GUniform (fun _ => 0)) adv_bcs [2; 3; 0; 1]%nat.
Definition adv_L s := the_layout (adv_K s) ex_N ex_dims ex_X.

Lemma adv_runs s : runs_on (adv_K s) ex_N ex_dims ex_X (adv_L s).
Proof.
  assert (H3 : forall d, (d < 3)%nat -> (1 <= coord d ex_N)%Z) by (dims3; vm_compute; congruence).
  assert (H4 : forall d, (d < 3)%nat -> (1 <= coord d (mpi_dims 2 ex_dims))%Z) by (dims3; vm_compute; congruence).
  split; cbn [adv_K k_nd k_ng k_order].
  - apply the_layout_ok; cbn [adv_K k_nd k_ng]; try lia; [exact H3|exact H4|exact ex_coords].
  - unfold adv_L, the_layout. cbn [l_dec adv_K k_nd k_ng]. apply decs_thick; try lia; [exact H3|exact H4|].
    intros d Hd; destruct d as [|[|d]]; [| |lia]; vm_compute; congruence.
  - lia.
  - intros f Hf. cbn in Hf. lia.
  - exact I.
Qed.

Lemma adv_eos_ok : lawful_eos (pg_eos (mkPG (5 / 3) 1)) /\ energy_of_pressure (pg_eos (mkPG (5 / 3) 1)).
Proof. split; [exact ex_eos|]. apply pg_energy_of_pressure; cbn; lra. Qed.

Lemma adv_plain s : plain_flow (adv_K s) adv_u.
Proof.
  split; try reflexivity; [exists (fun _ => 0); auto|]. intros f Hf. cbn [adv_K k_bcs k_nd] in *. destruct f as [|[|f]]; discriminate.
Qed.

Lemma adv_fields hi : 1 <= hi -> carried_fields adv_u 1 (adv_G hi) /\ (forall c, 1 <= g_rho (adv_G hi) c <= hi).
Proof.
  intros H. split.
  - intros c. cbn. split; [destruct (Z.even _); lra|]. split; [reflexivity|reflexivity].
  - intros c. cbn. destruct (Z.even _); lra.
Qed.

Lemma adv_widths s r c d : process 2 ex_dims r -> (d < 2)%nat -> width Cartesian (l_mesh (adv_L s) r) c d = 1.
Proof.
  intros Hr Hd. rewrite (width_mdx (adv_K s) ex_N ex_dims ex_X (adv_L s) (adv_runs s)) by lia.
  rewrite (local_width (adv_K s) ex_N ex_dims ex_X (adv_L s) (adv_runs s)) by (assumption || lia).
  cbn [ex_X a_at]. rewrite !plus_IZR. lra.
Qed.

Lemma adv_courant s nu : 1 <= nu -> courant_steps (adv_K s) ex_dims (adv_L s) adv_u nu [(0, 1 / 5); (1 / 5, 1 / 10)].
Proof.
  intros Hn t dt Hin. assert (E : dt = 1 / 5 \/ dt = 1 / 10) by (destruct Hin as [E|[E|[]]]; inversion E; auto).
  split; [lra|]. intros r c Hr Hc. cbn [adv_K k_nd k_geom vsum] in *. rewrite !adv_widths by (assumption || lia).
  cbn [adv_u]. rewrite (Rabs_pos_eq 3), (Rabs_left1 (- 2)) by lra. lra.
Qed.

Lemma adv_example s : contact_solver s ->
  let K := adv_K s in let L := adv_L s in
  runs_on K ex_N ex_dims ex_X L /\ lawful_eos (k_eos K) /\ energy_of_pressure (k_eos K) /\ plain_flow K adv_u /\
  increasing 2 ex_N 2 ex_X /\ k_lim K = LConstant /\
  starts_from K ex_dims L (adv_G 1000) (the_state K L (adv_G 1000)) /\ carried_fields adv_u 1 (adv_G 1000) /\
  (forall c, 1 <= g_rho (adv_G 1000) c <= 1000) /\
  courant_steps K ex_dims L adv_u 1 [(0, 1 / 5); (1 / 5, 1 / 10)] /\
  positive_run K ex_dims L [(0, 1 / 5); (1 / 5, 1 / 10)] (init_state K L (the_state K L (adv_G 1000))) /\
  g_rho (adv_G 1000) (I3 0 0 0) <> g_rho (adv_G 1000) (I3 1 0 0).
Proof.
  intros Hs K L. pose proof (adv_fields 1000 ltac:(lra)) as [F1 F2]. destruct adv_eos_ok as [E1 E2].
  pose proof (the_state_ok K ex_dims L (adv_G 1000)) as HS.
  split; [exact (adv_runs s)|]. split; [exact E1|]. split; [exact E2|]. split; [exact (adv_plain s)|].
  split; [exact (proj2 ex_widths)|]. split; [reflexivity|]. split; [exact HS|]. split; [exact F1|]. split; [exact F2|].
  split; [apply adv_courant; lra|]. split.
  - pose proof (first_step K ex_N ex_dims ex_X L adv_u 1 1 1000 1 (adv_runs s) E1 E2 ltac:(lra) (adv_plain s) (proj2 ex_widths) Hs ltac:(lra) ltac:(lra) eq_refl) as Hst.
    apply (bounded_positive K ex_N ex_dims ex_X L adv_u 1 1 1000 1 (adv_runs s) E1 E2 ltac:(lra) (adv_plain s) Hst); [|apply adv_courant; lra].
    apply (adv_init K ex_N ex_dims ex_X L adv_u 1 (adv_runs s) E1 E2 ltac:(lra) (pw_grav (adv_plain s)) (pw_wall (adv_plain s)) (fun x => 1 <= x <= 1000) (adv_G 1000)); assumption.
  - cbn. lra.
Qed.

(** 9 cells on 3 processes, limited slopes. *)
Definition line_N : idx := I3 9 1 1.
Definition line_dims : idx := I3 3 1 1.
Definition line_X : nat -> arr1 := fun d => match d with
  | 0%nat => mkArr1 14 (fun i => IZR i / 10)
  | _ => mkArr1 2 (fun i => IZR i)
  end.
Definition line_K (l : limiter) (s : solver) : config :=
  mkConfig Cartesian 1 2 (pg_eos (mkPG (5 / 3) 1)) l s None UOff (GUniform (fun _ => 0)) (fun _ => Periodic) [0; 1]%nat.
Definition line_L l s := the_layout (line_K l s) line_N line_dims line_X.

Lemma line_runs l s : runs_on (line_K l s) line_N line_dims line_X (line_L l s).
Proof.
  assert (H3 : forall d, (d < 3)%nat -> (1 <= coord d line_N)%Z) by (dims3; vm_compute; congruence).
  assert (H4 : forall d, (d < 3)%nat -> (1 <= coord d (mpi_dims 1 line_dims))%Z) by (dims3; vm_compute; congruence).
  split; cbn [line_K k_nd k_ng k_order].
  - apply the_layout_ok; cbn [line_K k_nd k_ng]; try lia; [exact H3|exact H4|]. intros d Hd. destruct d as [|[|[|d]]]; [reflexivity..|lia].
  - unfold line_L, the_layout. cbn [l_dec line_K k_nd k_ng]. apply decs_thick; try lia; [exact H3|exact H4|].
    intros d Hd; destruct d as [|d]; [|lia]; vm_compute; congruence.
  - lia.
  - intros f Hf. cbn in Hf. lia.
  - exact I.
Qed.

Lemma line_example l s : contact_solver s ->
  let K := line_K l s in let L := line_L l s in
  runs_on K line_N line_dims line_X L /\ lawful_eos (k_eos K) /\ energy_of_pressure (k_eos K) /\ plain_flow K adv_u /\
  increasing 1 line_N 2 line_X /\ regular_axis line_N 2 line_X (1 / 10) /\
  safe_limiter l (1 / 2) 1 (match l with LVanLeer => 29 / 10 | _ => 1000 end) /\
  (forall hi, 1 <= hi -> starts_from K line_dims L (adv_G hi) (the_state K L (adv_G hi)) /\ carried_fields adv_u 1 (adv_G hi) /\
     (forall c, 1 <= g_rho (adv_G hi) c <= hi)) /\
  courant_steps K line_dims L adv_u (1 / 2) [(0, 1 / 60); (1 / 60, 1 / 70)].
Proof.
  intros Hs K L. destruct adv_eos_ok as [E1 E2].
  split; [exact (line_runs l s)|]. split; [exact E1|]. split; [exact E2|]. split.
  { split; try reflexivity; [exists (fun _ => 0); auto|]. intros f Hf. cbn. discriminate. }
  split. { intros d i Hd _. destruct d as [|[|[|d]]]; cbn [line_X a_at]; [| | |lia]; rewrite plus_IZR; lra. }
  split. { split; [lra|]. intros i _. cbn [line_X a_at]. rewrite plus_IZR. lra. }
  split. { destruct l; cbn; lra. }
  split. { intros hi Hh. split; [apply the_state_ok|]. now apply adv_fields. }
  intros t dt Hin. assert (E : dt = 1 / 60 \/ dt = 1 / 70) by (destruct Hin as [E|[E|[]]]; inversion E; auto).
  split; [lra|]. intros r c Hr Hc. cbn [K line_K k_nd k_geom vsum] in *.
  rewrite (width_mdx K line_N line_dims line_X L (line_runs l s)) by lia.
  rewrite (local_width K line_N line_dims line_X L (line_runs l s)) by (assumption || lia).
  cbn [line_X a_at adv_u]. rewrite !plus_IZR. rewrite (Rabs_pos_eq 3) by lra.
  match goal with |- context [3 / ?w] => replace w with (1 / 10) by lra end. lra.
Qed.
