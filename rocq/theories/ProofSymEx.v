(** * Examples of PropSym.v, and the pressure fix in a mirror (C99). *)
From Coq Require Import FunctionalExtensionality ZifyBool ZifyNat.
From Verif Require Import Base RBase ModelMesh ModelGeom ModelBoundary ModelHydro ModelScheme ModelStep
  SpecMesh SpecGeom SpecBoundary SpecHydro SpecScheme SpecStep SpecSource SpecFill SpecSym
  ProofBase ProofMesh ProofR ProofBoundary ProofBoundary2 ProofHydro ProofHydro2 ProofScheme ProofSteady ProofMirror ProofShift ProofReduce ProofStep ProofStepEx ProofLayout ProofMPIGrid
  ProofFix ProofFill ProofSym ProofSym2 ProofSymMirror ProofSym3.
Local Open Scope R_scope.

(** ** Two axes exchanged *)
Definition swap (d : nat) : nat := match d with O => 1 | S O => 0 | d => d end%nat.
Lemma swap_swap d : swap (swap d) = d.
Proof. destruct d as [|[|d]]; reflexivity. Qed.
Lemma swap_perm : axis_perm 2 swap swap.
Proof. split; intros d; [apply swap_swap|apply swap_swap|destruct d as [|[|d]]; cbn; lia..]. Qed.

Definition sw_bcs (b : nat -> bcond) : nat -> bcond := fun f => b (match f with 0 => 2 | 1 => 3 | 2 => 0 | _ => 1 end)%nat.
Definition sw_N : idx := I3 5 7 1.
Definition sw_dims : idx := I3 1 3 1.
Definition sw_X : nat -> arr1 := fun d => ex_X (swap d).
Definition sw_L b := the_layout (ex_K (sw_bcs b) Cartesian) sw_N sw_dims sw_X.
Lemma sw_runs b : runs_on (ex_K (sw_bcs b) Cartesian) sw_N sw_dims sw_X (sw_L b).
Proof.
  assert (H3 : forall d, (d < 3)%nat -> (1 <= coord d sw_N)%Z) by (dims3; vm_compute; congruence).
  assert (H4 : forall d, (d < 3)%nat -> (1 <= coord d (mpi_dims 2 sw_dims))%Z) by (dims3; vm_compute; congruence).
  split; cbn [ex_K k_nd k_ng k_order].
  - apply the_layout_ok; cbn [ex_K k_nd k_ng]; try lia; [exact H3|exact H4|].
    intros d Hd. destruct d as [|[|[|d]]]; [reflexivity..|lia].
  - unfold sw_L, the_layout. cbn [l_dec ex_K k_nd k_ng]. apply decs_thick; try lia; [exact H3|exact H4|].
    intros d Hd; destruct d as [|[|d]]; [| |lia]; vm_compute; congruence.
  - lia.
  - intros f Hf. cbn in Hf. lia.
  - exact I.
Qed.
Lemma all_faces b : complete_order 2 b [2; 3; 0; 1]%nat.
Proof. split; [intros f Hf; cbn in Hf; lia|]. intros f Hf _. cbn. lia. Qed.
Lemma sw_related b : relabelled_run swap (ex_K b Cartesian) (ex_K (sw_bcs b) Cartesian).
Proof.
  split; try reflexivity; try apply all_faces.
  - exists (fun _ => 0), (fun _ => 0). split; [reflexivity|]. split; reflexivity.
  - intros d s Hd Hs. cbn [ex_K k_nd] in Hd. destruct d as [|[|d]]; [| |lia]; (destruct s as [|[|s]]; [reflexivity..|lia]).
Qed.
Lemma sw_mesh : relabelled_mesh swap ex_N sw_N ex_X sw_X.
Proof. split; [|reflexivity]. intros d Hd. destruct d as [|[|[|d]]]; [reflexivity..|lia]. Qed.
Definition sw_G (G : gfields) : gfields :=
  mkG (fun c => g_rho G (relabel_idx swap c)) (fun c d => g_u G (relabel_idx swap c) (swap d)) (fun c => g_P G (relabel_idx swap c))
    (fun c => g_fx G (relabel_idx swap c)).
Lemma sw_idx c : relabel_idx swap (relabel_idx swap c) = c.
Proof. destruct c. reflexivity. Qed.
Lemma sw_fields G : relabelled_fields swap G (sw_G G).
Proof. intros c. cbn [sw_G g_rho g_u g_P g_fx]. rewrite sw_idx. repeat split. Qed.

Lemma sym_example_axes b G :
  axis_perm 2 swap swap /\ relabelled_run swap (ex_K b Cartesian) (ex_K (sw_bcs b) Cartesian) /\
  relabelled_mesh swap ex_N sw_N ex_X sw_X /\ relabelled_fields swap G (sw_G G) /\
  runs_on (ex_K b Cartesian) ex_N ex_dims ex_X (ex_L b Cartesian) /\
  runs_on (ex_K (sw_bcs b) Cartesian) sw_N sw_dims sw_X (sw_L b).
Proof.
  split; [exact swap_perm|]. split; [apply sw_related|]. split; [exact sw_mesh|]. split; [apply sw_fields|]. split; [apply ex_runs|apply sw_runs].
Qed.

(** ** An implosion: walls on all sides of a square *)
Definition sq_K : config := ex_K (fun _ => Reflexive) Cartesian.
Definition sq_N : idx := I3 6 6 1.
Definition sq_X : nat -> arr1 := fun d => mkArr1 (match d with O | S O => 11 | _ => 2 end)%Z (fun i => IZR i).
Definition sq_dims : idx := I3 2 1 1.
Definition sq_L := the_layout sq_K sq_N sq_dims sq_X.
Definition sq_G : gfields :=
  mkG (fun c => if (ii c + jj c <? 4)%Z then 1 / 8 else 1) (fun _ _ => 0) (fun c => if (ii c + jj c <? 4)%Z then 1 / 10 else 1) (fun _ _ => 0).
Lemma sq_runs : runs_on sq_K sq_N sq_dims sq_X sq_L.
Proof.
  assert (H3 : forall d, (d < 3)%nat -> (1 <= coord d sq_N)%Z) by (dims3; vm_compute; congruence).
  assert (H4 : forall d, (d < 3)%nat -> (1 <= coord d (mpi_dims 2 sq_dims))%Z) by (dims3; vm_compute; congruence).
  split; unfold sq_K; cbn [ex_K k_nd k_ng k_order].
  - apply the_layout_ok; unfold sq_K; cbn [ex_K k_nd k_ng]; try lia; [exact H3|exact H4|].
    intros d Hd. destruct d as [|[|[|d]]]; [reflexivity..|lia].
  - unfold sq_L, the_layout, sq_K. cbn [l_dec ex_K k_nd k_ng]. apply decs_thick; try lia; [exact H3|exact H4|].
    intros d Hd; destruct d as [|[|d]]; [| |lia]; vm_compute; congruence.
  - lia.
  - intros f Hf. cbn in Hf. lia.
  - exact I.
Qed.
Lemma sym_example_square :
  axis_perm 2 swap swap /\ relabelled_run swap sq_K sq_K /\ relabelled_mesh swap sq_N sq_N sq_X sq_X /\ relabelled_fields swap sq_G sq_G /\
  runs_on sq_K sq_N sq_dims sq_X sq_L /\ starts_from sq_K sq_dims sq_L sq_G (the_state sq_K sq_L sq_G).
Proof.
  split; [exact swap_perm|]. split; [exact (sw_related (fun _ => Reflexive))|]. split; [|split; [|split; [exact sq_runs|apply the_state_ok]]].
  - split; intros d; [destruct d as [|[|[|d]]]; [reflexivity..|lia]|reflexivity].
  - intros c. cbn [sq_G g_rho g_u g_P g_fx]. assert (E : (ii (relabel_idx swap c) + jj (relabel_idx swap c))%Z = (ii c + jj c)%Z) by (destruct c; cbn; lia).
    rewrite E. repeat split.
Qed.

(** ** In a mirror *)
Definition mi_bcs (d : nat) (b : nat -> bcond) : nat -> bcond :=
  fun f => b (if Nat.eqb (f / 2) d then 2 * d + (1 - f mod 2) else f)%nat.
Lemma mi_related d b : (d < 2)%nat -> mirrored_run d (ex_K b Cartesian) (ex_K (mi_bcs d b) Cartesian).
Proof.
  intros Hd. split; try reflexivity; try apply all_faces.
  - exact Hd.
  - exists (fun _ => 0), (fun _ => 0). split; [reflexivity|]. split; [reflexivity|]. intros k. destruct (Nat.eqb k d); ring.
  - intros k s Hk Hs. cbn [ex_K k_nd] in Hk. cbn [ex_K k_bcs]. unfold mi_bcs.
    destruct d as [|[|d]]; [| |lia]; (destruct k as [|[|k]]; [| |lia]; (destruct s as [|[|s]]; [reflexivity..|lia])).
Qed.
Lemma mi_mesh d : mirrored_mesh 2 2 d ex_N ex_X ex_X.
Proof. intros k i Hk. cbn [ex_X a_at]. rewrite !plus_IZR. ring. Qed.
Lemma mi_fields d N u0 : mirrored_fields d N (ex_G u0) (ex_G (mirror_vec d u0)).
Proof. intros c. repeat split. Qed.

Lemma uniform_sane d cfl n t u0 : (forall f, (f < 4)%nat -> ex_bcs f = Reflexive -> u0 (f / 2)%nat = 0) ->
  (d < 2)%nat -> sane_run (ex_K ex_bcs Cartesian) ex_dims (ex_L ex_bcs Cartesian) cfl n t
    (init_state (ex_K ex_bcs Cartesian) (ex_L ex_bcs Cartesian) (the_state (ex_K ex_bcs Cartesian) (ex_L ex_bcs Cartesian) (ex_G u0))).
Proof.
  intros Hb Hd. set (K := ex_K ex_bcs Cartesian). set (L := ex_L ex_bcs Cartesian). set (fx0 := fun n : nat => match n with O => 1 / 4 | _ => 1 end).
  pose proof (ex_runs ex_bcs Cartesian) as HR. fold K in HR. fold L in HR.
  pose proof (ro_layout HR) as HL. assert (Hp : 0 < 1 /\ 0 < 2) by lra.
  assert (Hw : exists g, k_grav K = GUniform g /\ forall d, g d = 0) by (exists (fun _ => 0); split; reflexivity).
  assert (Hi : uni_state K ex_dims L 1 u0 2 fx0 (init_state K L (the_state K L (ex_G u0)))).
  { apply (uni_init K ex_N ex_dims ex_X L HL 1 u0 2 fx0 ex_eos Hp (ro_thick HR) (ro_faces HR) Hb Hw (ex_G u0)); try reflexivity. apply the_state_ok. }
  revert t Hi. generalize (init_state K L (the_state K L (ex_G u0))). induction n as [|n IH]; intros S t Hi; cbn [sane_run]; [exact I|].
  destruct (time_step K L S) as [h|]; [|exact I]. split.
  - intros r c sd k Hr Hc Hs Hk.
    destruct (uni_rec K ex_N ex_dims ex_X L HL (ro_ng HR) 1 u0 2 fx0 Hp Hb (or_introl eq_refl) S r c sd k (cfl * h) Hi Hr Hc Hs Hk) as [-> _].
    apply valid_to_cons; [exact ex_eos|exact Hp].
  - apply IH. apply (uni_step K ex_N ex_dims ex_X L HL (ro_ng HR) 1 u0 2 fx0 ex_eos Hp (ro_thick HR) (ro_faces HR) Hb I eq_refl Hw (or_introl eq_refl)). exact Hi.
Qed.

Lemma sym_example_mirror d cfl n t : (d < 2)%nat ->
  let u0 : vec := fun k => match k with O => 3 | _ => 0 end in
  let K := ex_K ex_bcs Cartesian in let K' := ex_K (mi_bcs d ex_bcs) Cartesian in
  lawful_eos (k_eos K) /\ mirrored_run d K K' /\ mirrored_mesh (k_nd K) (k_ng K) d ex_N ex_X ex_X /\
  mirrored_fields d ex_N (ex_G u0) (ex_G (mirror_vec d u0)) /\
  runs_on K ex_N ex_dims ex_X (ex_L ex_bcs Cartesian) /\ runs_on K' ex_N ex_dims ex_X (ex_L (mi_bcs d ex_bcs) Cartesian) /\
  starts_from K ex_dims (ex_L ex_bcs Cartesian) (ex_G u0) (the_state K (ex_L ex_bcs Cartesian) (ex_G u0)) /\
  sane_run K ex_dims (ex_L ex_bcs Cartesian) cfl n t (init_state K (ex_L ex_bcs Cartesian) (the_state K (ex_L ex_bcs Cartesian) (ex_G u0))).
Proof.
  intros Hd. cbv zeta. split; [exact ex_eos|]. split; [now apply mi_related|]. split; [apply mi_mesh|]. split; [apply mi_fields|].
  split; [apply ex_runs|]. split; [apply ex_runs|]. split; [apply the_state_ok|]. apply (uniform_sane d); [|exact Hd].
  intros f Hf. destruct f as [|[|[|[|f]]]]; cbn; intros; congruence || reflexivity || lia.
Qed.

(** ** The pressure fix *)
Lemma fix_mirror e l m h dt eps rate M : lawful_eos e -> (forall d, (d < 3)%nat -> 0 < h d) -> even_mesh m h ->
  forall rho0 P0 fx0, 0 < rho0 -> 0 < P0 -> forall old old' a_new a_new' c,
  eos_evol e rho0 P0 < eps / 10 * (rho0 * (rate * mxc m 1 (jj c)) ^ 2 / 2) -> 0 < eps -> 0 < dt -> 0 < rate ->
  let u s : field4 := fun c k => match k with O => s * rate * mxc m 1 (jj c) | _ => 0 end in
  let a s := fun c => gas 2 e rho0 (u s c) P0 fx0 in
  let new s o x := pressure_fix (fun _ => true) Cartesian 2 e m dt eps (a s) (half_step 2 e l m (fun _ _ => 0) dt (a s) (u s) (fun _ => P0) o) x in
  (forall c, mesh_refl 0 M m m c) /\
  (forall c, a (-1) (refl 0 M c) = negate_momentum 0 (a 1 c)) /\
  c_E (new 1 old a_new c) < c_E (a 1 c) < c_E (new (-1) old' a_new' (refl 0 M c)).
Proof.
  intros He Hh Hm rho0 P0 fx0 Hr HP old old' a_new a_new' c Hc Hs Hdt Hrate. cbv zeta.
  assert (Ej : forall x, jj (refl 0 M x) = jj x) by (intros x; destruct x; reflexivity).
  assert (E : forall s x, (fun (c : idx) (k : nat) => match k with 0%nat => s * rate * mxc m 1 (jj c) | _ => 0 end) x
     = (fun k => match k with 0%nat => s * rate * mxc m 1 (jj x) | _ => 0 end)) by reflexivity.
  split; [|split].
  - intros x k i Hk _. pose proof (Hm k i Hk) as A. pose proof (Hm k (if Nat.eqb k 0 then M - i else i)%Z Hk) as B. congruence.
  - intros x. apply cell_ext; cbn [gas negate_momentum c_rho c_rhou c_E c_fx]; try reflexivity.
    + intros k. rewrite Ej. destruct k as [|k]; cbn; ring.
    + rewrite Ej. cbn [vsum]. unfold Rdiv. ring.
  - assert (Hq : 0 < eos_evol e rho0 P0) by (apply (law_evol_pos _ He); assumption).
    assert (Hp : 0 < dt * (P0 + eos_evol e rho0 P0) * (rate * h 1%nat / h 0%nat)).
    { pose proof (Hh 0%nat ltac:(lia)). pose proof (Hh 1%nat ltac:(lia)). apply Rmult_lt_0_compat; [apply Rmult_lt_0_compat; lra|].
      apply Rdiv_lt_0_compat; [now apply Rmult_lt_0_compat|assumption]. }
    assert (C1 : eos_evol e rho0 P0 < eps / 10 * (rho0 * (1 * rate * mxc m 1 (jj c)) ^ 2 / 2)) by (rewrite Rmult_1_l; exact Hc).
    assert (C2 : eos_evol e rho0 P0 < eps / 10 * (rho0 * (-1 * rate * mxc m 1 (jj (refl 0 M c))) ^ 2 / 2)).
    { rewrite Ej. replace ((-1 * rate * mxc m 1 (jj c)) ^ 2) with ((rate * mxc m 1 (jj c)) ^ 2) by ring. exact Hc. }
    pose proof (shear_fixed e l m h dt eps (1 * rate) He Hh Hm rho0 P0 fx0 Hr HP old a_new c C1 Hs) as S1. cbv zeta in S1.
    pose proof (shear_fixed e l m h dt eps (-1 * rate) He Hh Hm rho0 P0 fx0 Hr HP old' a_new' (refl 0 M c) C2 Hs) as S2. cbv zeta in S2.
    rewrite S1, S2. cbn [gas c_E]. rewrite Ej. cbn [vsum].
    replace (dt * (P0 + eos_evol e rho0 P0) * (1 * rate * h 1%nat / h 0%nat)) with (dt * (P0 + eos_evol e rho0 P0) * (rate * h 1%nat / h 0%nat)) by (unfold Rdiv; ring).
    replace (dt * (P0 + eos_evol e rho0 P0) * (-1 * rate * h 1%nat / h 0%nat)) with (- (dt * (P0 + eos_evol e rho0 P0) * (rate * h 1%nat / h 0%nat))) by (unfold Rdiv; ring).
    set (D := dt * (P0 + eos_evol e rho0 P0) * (rate * h 1%nat / h 0%nat)) in *. split; [lra|].
    match goal with |- ?x < ?y - - D => replace y with x by (unfold Rdiv; ring) end. lra.
Qed.
