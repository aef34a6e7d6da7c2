(** * Memory safety (C28, C75): accesses stay inside the views *)
From Coq Require Import ZifyBool ZifyNat.
From Verif Require Import Base RBase ModelMesh ModelGeom SpecMesh ProofBase ProofMesh ModelMem SpecMem.
Local Open Scope string_scope.
Local Open Scope Z_scope.
Local Open Scope list_scope.

(** ** Sequences of accesses *)

Section Perform.
Variables (K : mconfig) (D : decomp).

Definition ins (a : access) : Prop := inside K D a = true.
Definition good (o : outcome (list access)) : Prop :=
  match o with Ok l => Forall ins l | Throw _ => True | UB _ => False end.
Definition fine (o : outcome (list access)) : Prop :=
  match o with Ok l => Forall ins l | _ => False end.

Lemma forallb_ins l : Forall ins l -> forallb (inside K D) l = true.
Proof. intros H. apply forallb_forall. apply Forall_forall. exact H. Qed.

Lemma perform_good p : Forall good p -> forall why, perform K D p <> UB why.
Proof.
  induction 1 as [|o p Ho Hp IH]; intros why; [discriminate|].
  destruct o as [l|w|w]; cbn in *; [|discriminate|contradiction].
  rewrite (forallb_ins l Ho). apply IH.
Qed.

Lemma perform_fine p q : Forall fine p -> perform K D (p ++ q) = perform K D q.
Proof.
  induction 1 as [|o p Ho Hp IH]; [reflexivity|].
  destruct o as [l|w|w]; cbn in *; try contradiction.
  rewrite (forallb_ins l Ho). exact IH.
Qed.

Lemma perform_fine_all p : Forall fine p -> perform K D p = Ok tt.
Proof. intros H. rewrite <- (app_nil_r p), (perform_fine p [] H). reflexivity. Qed.

Lemma perform_outside a l p : In a l -> inside K D a = false -> perform K D (Ok l :: p) = UB "access outside a view".
Proof.
  intros Hin Ha. cbn. destruct (forallb (inside K D) l) eqn:E; [|reflexivity].
  rewrite forallb_forall in E. rewrite (E a Hin) in Ha. discriminate.
Qed.

Lemma Forall_loop {A} (P : A -> Prop) n f : (forall d, (d < n)%nat -> Forall P (f d)) -> Forall P (loop n f).
Proof.
  intros H. unfold loop. apply Forall_flat_map. apply Forall_forall. intros d Hd. apply in_seq in Hd. apply H. lia.
Qed.
Lemma Forall_zloop {A} (P : A -> Prop) b e f : (forall i, b <= i < e -> Forall P (f i)) -> Forall P (zloop b e f).
Proof.
  intros H. unfold zloop. apply Forall_flat_map. apply Forall_forall. intros i Hi. apply in_zrange in Hi. auto.
Qed.
Lemma Forall_kernel {A} (P : A -> Prop) b e f : (forall c, in_box b e c -> Forall P (f c)) -> Forall P (kernel b e f).
Proof.
  intros H. unfold kernel. apply Forall_flat_map. apply Forall_forall. intros c Hc. apply in_box_cells in Hc. auto.
Qed.
Lemma Forall_app2 {A} (P : A -> Prop) l m : Forall P l -> Forall P m -> Forall P (l ++ m).
Proof. intros. apply Forall_app. auto. Qed.
End Perform.

(** ** The geometry of one process *)

(** What the decomposition tells about the sizes. *)
Record sized (K : mconfig) (D : decomp) : Prop := mkSized {
  z_nd : ndim_ok (m_nd K);
  z_wg : d_nwg D = iadd (d_nloc D) (iadd (nghost_of (m_nd K) (m_ng K)) (nghost_of (m_nd K) (m_ng K)));
  z_loc : 0 <= ii (d_nloc D) /\ 0 <= jj (d_nloc D) /\ 0 <= kk (d_nloc D);
  z_rng : rng_ng (d_range D) = m_ng K;
  z_gh : rng_nghost (d_range D) = nghost_of (m_nd K) (m_ng K);
  z_corner : corner_max (d_range D) = iadd (corner_min (d_range D)) (d_nloc D);
  z_min : 0 <= ii (corner_min (d_range D)) /\ 0 <= jj (corner_min (d_range D)) /\ 0 <= kk (corner_min (d_range D));
  z_max : ii (corner_min (d_range D)) + ii (d_nloc D) <= ii (m_nglob K)
          /\ jj (corner_min (d_range D)) + jj (d_nloc D) <= jj (m_nglob K)
          /\ kk (corner_min (d_range D)) + kk (d_nloc D) <= kk (m_nglob K) }.

Lemma decomposition_sized K : started K ->
  exists D, mpi_decomposition (m_nd K) (m_nglob K) (m_dims K) (m_ng K) (m_rank K) = Ok D /\ sized K D
    /\ d_nloc D = mk3 (fun d => decomp_nloc (coord d (m_nglob K)) (coord d (mpi_dims (m_nd K) (m_dims K))) (coord d (m_rank K))).
Proof.
  intros (Hd & Hn & Hr & _).
  assert (Hn0 : forall d, (d < 3)%nat -> 0 <= coord d (m_nglob K)) by (intros d H; specialize (Hn d H); lia).
  exists (decomp_of (m_nd K) (m_nglob K) (mpi_dims (m_nd K) (m_dims K)) (m_ng K) (m_rank K)).
  split; [apply mpi_decomposition_ok; assumption|]. split; [|reflexivity].
  assert (P : forall d, (d < 3)%nat ->
            0 <= decomp_nloc (coord d (m_nglob K)) (coord d (mpi_dims (m_nd K) (m_dims K))) (coord d (m_rank K))
            /\ 0 <= decomp_cmin (coord d (m_nglob K)) (coord d (mpi_dims (m_nd K) (m_dims K))) (coord d (m_rank K))
            /\ decomp_cmin (coord d (m_nglob K)) (coord d (mpi_dims (m_nd K) (m_dims K))) (coord d (m_rank K))
               + decomp_nloc (coord d (m_nglob K)) (coord d (mpi_dims (m_nd K) (m_dims K))) (coord d (m_rank K))
               <= coord d (m_nglob K)).
  { intros d H. specialize (Hn0 d H). specialize (Hr d H). split; [|split].
    - apply nloc_nonneg; lia.
    - apply cmin_nonneg; lia.
    - apply cmax_le; lia. }
  pose proof (P 0%nat ltac:(lia)) as P0. pose proof (P 1%nat ltac:(lia)) as P1. pose proof (P 2%nat ltac:(lia)) as P2.
  unfold decomp_of. split; cbn [d_nwg d_nloc d_range rng_ng rng_nghost corner_min corner_max ii jj kk mk3].
  - exact Hd.
  - unfold iadd, mk3. cbn [coord ii jj kk]. f_equal; lia.
  - tauto.
  - reflexivity.
  - reflexivity.
  - reflexivity.
  - tauto.
  - tauto.
Qed.

(** ** Kernels *)

Section Kernels.
Variables (K : mconfig) (D : decomp).
Hypothesis Z0 : sized K D.
Notation nd := (m_nd K).
Notation ng := (m_ng K).
Notation ins := (ins K D).
Notation good := (good K D).
Notation fine := (fine K D).

(** The cell is at most [n] layers outside the owned ones, in the simulated dimensions. *)
Definition near (n : Z) (c : idx) : Prop :=
  in_box (I3 (ng - n) (if Nat.leb 2 nd then ng - n else 0) (if Nat.leb 3 nd then ng - n else 0))
         (I3 (ng + ii (d_nloc D) + n)
             (if Nat.leb 2 nd then ng + jj (d_nloc D) + n else jj (d_nloc D))
             (if Nat.leb 3 nd then ng + kk (d_nloc D) + n else kk (d_nloc D))) c.

Lemma over_ok n body : n <= ng ->
  exists b e, over K D n body = Ok (kernel b e body) /\ forall c, in_box b e c <-> near n c.
Proof.
  intros H. unfold over. rewrite with_ghosts_ok by (rewrite (z_rng _ _ Z0); exact H). cbn [obind].
  eexists _, _. split; [reflexivity|]. intros c. unfold near, in_box, cell_begin, cell_end, mk3.
  cbn [rng_nghost rng_ngeff corner_max corner_min ii jj kk coord].
  rewrite (z_gh _ _ Z0), (z_corner _ _ Z0). unfold nghost_of, mk3, iadd. cbn [ii jj kk].
  pose proof (z_nd _ _ Z0) as Hd. unfold ndim_ok in Hd.
  destruct nd as [|[|[|[|]]]]; try lia; cbn [Nat.ltb Nat.leb]; lia.
Qed.

Lemma over_throws n body : ng < n -> over K D n body = Throw "NgEff > Ng".
Proof.
  intros H. unfold over, with_ghosts. rewrite (z_rng _ _ Z0). destruct (ng <? n) eqn:E; [reflexivity|lia].
Qed.

Lemma over_fine n body : n <= ng -> (forall c, near n c -> Forall ins (body c)) -> fine (over K D n body).
Proof.
  intros Hn H. destruct (over_ok n body Hn) as (b & e & -> & E). cbn. apply Forall_kernel.
  intros c Hc. apply H. apply E. exact Hc.
Qed.

Lemma over_good n body : (n <= ng -> forall c, near n c -> Forall ins (body c)) -> good (over K D n body).
Proof.
  intros H. destruct (Z_lt_le_dec ng n) as [L|L].
  - now rewrite over_throws.
  - pose proof (over_fine n body L (H L)) as F. destruct (over K D n body); cbn in *; tauto.
Qed.


(** Decomposing a list of accesses down to single ones. *)
Ltac each :=
  repeat match goal with
    | |- Forall _ nil => apply Forall_nil
    | |- Forall _ (_ :: _) => apply Forall_cons
    | |- Forall _ (_ ++ _) => apply Forall_app2
    | |- Forall _ (loop _ _) => apply Forall_loop; intros; cbv beta
    | |- Forall _ (zloop _ _ _) => apply Forall_zloop; intros; cbv beta
    | |- Forall _ (kernel _ _ _) => apply Forall_kernel; intros; cbv beta
    | |- Forall _ (let _ := _ in _) => cbv zeta
    end.

(** The sizes in each of the three dimensionalities, as linear facts. *)
Definition layout (g0 g1 g2 : Z) : Prop :=
  nghost_of nd ng = I3 g0 g1 g2
  /\ ii (d_nwg D) = ii (d_nloc D) + 2 * g0 /\ jj (d_nwg D) = jj (d_nloc D) + 2 * g1
  /\ kk (d_nwg D) = kk (d_nloc D) + 2 * g2
  /\ (forall n c, near n c <->
        (g0 - n <= ii c < g0 + ii (d_nloc D) + n)
        /\ (g1 - (if Nat.leb 2 nd then n else 0) <= jj c < g1 + jj (d_nloc D) + (if Nat.leb 2 nd then n else 0))
        /\ (g2 - (if Nat.leb 3 nd then n else 0) <= kk c < g2 + kk (d_nloc D) + (if Nat.leb 3 nd then n else 0))).

Lemma layouts :
  (nd = 1%nat /\ layout ng 0 0) \/ (nd = 2%nat /\ layout ng ng 0) \/ (nd = 3%nat /\ layout ng ng ng).
Proof.
  pose proof (z_nd _ _ Z0) as Hd. unfold ndim_ok in Hd. pose proof (z_wg _ _ Z0) as Hw.
  unfold layout, near, in_box. cbn [ii jj kk].
  destruct nd as [|[|[|[|]]]] eqn:En; try lia; [left|right; left|right; right]; (split; [reflexivity|]);
    unfold nghost_of, mk3, iadd in *; cbn [Nat.ltb Nat.leb ii jj kk] in *; rewrite Hw; cbn [ii jj kk];
    (split; [reflexivity|]); (split; [lia|]); (split; [lia|]); (split; [lia|]); intros; lia.
Qed.

Ltac three :=
  pose proof (z_loc _ _ Z0) as Hloc; pose proof (z_min _ _ Z0) as Hmin; pose proof (z_max _ _ Z0) as Hmax;
  destruct layouts as [[En HL]|[[En HL]|[En HL]]]; destruct HL as (Hgh & Hw0 & Hw1 & Hw2 & Hnear);
  repeat match goal with H : near _ _ |- _ => apply Hnear in H; rewrite En in H; cbn [Nat.leb] in H end.

(** A single access. *)
Ltac one :=
  unfold ProofMem.ins, inside, extents, ext3, at1, at3, at4, at5, at6, dimZ, fxZ, iadd, isub, lindex, rindex in *;
  cbn [fst snd app below coord set_coord ii jj kk kron Nat.eqb in_box w_rho w_rhou w_E w_fx old_state new_state] in *; 
  match goal with Hgh : nghost_of _ _ = _ |- _ => rewrite ?Hgh in * end;
  cbn [coord ii jj kk] in *; lia.

Lemma time_step_ins n c : n <= ng -> 0 <= ng -> near n c -> Forall ins (time_step_body K c).
Proof.
  intros Hn H0 Hc. unfold time_step_body, along. three; rewrite En; destruct (m_geom K); each; one.
Qed.

Ltac dim d := destruct d as [|[|[|d]]]; try lia.

Lemma gravity_ins c d : (d < nd)%nat -> 0 <= ii c < ii (d_nwg D) -> Forall ins (gravity_at K c d).
Proof.
  intros Hd Hc. unfold gravity_at. pose proof (z_nd _ _ Z0) as H. unfold ndim_ok in H.
  destruct (m_gravity K) eqn:Eg; [|destruct d|destruct d]; each; try apply Forall_nil;
    unfold ProofMem.ins, inside, extents, at1; cbn [fst snd below]; rewrite Eg; cbn [below]; lia.
Qed.

Lemma geometry_ins n c : n <= ng -> 0 <= ng -> near n c -> Forall ins (geometry_body K c).
Proof.
  intros Hn H0 Hc. unfold geometry_body, along. three; rewrite En; destruct (m_geom K); each; one.
Qed.

Lemma set_grid_lines_ins : 0 <= ng -> Forall ins (set_grid_lines D).
Proof.
  intros H0. unfold set_grid_lines. three; each; dim d; one.
Qed.

Lemma fill_x_glob_ins : Forall ins (fill_x_glob K).
Proof.
  unfold fill_x_glob. three; each; dim d; one.
Qed.

Lemma set_grid_fine : 0 <= ng -> Forall fine (set_grid_mem K D).
Proof.
  intros H0. unfold set_grid_mem. apply Forall_cons; [exact (set_grid_lines_ins H0)|].
  apply Forall_cons; [|apply Forall_nil]. unfold over_all. apply over_fine; [lia|].
  intros c Hc. eapply geometry_ins; try exact Hc; lia.
Qed.

Lemma make_gravity_fine : 0 <= ng -> (m_gravity K = InternalMass -> ii (mpi_dims nd (m_dims K)) = 1) ->
  Forall fine (make_gravity_mem K D).
Proof.
  intros H0 Hm. unfold make_gravity_mem. destruct (m_gravity K) eqn:Eg.
  - each. unfold ProofMem.fine. each. unfold ProofMem.ins, inside, extents, at1; cbn [fst snd below]; rewrite Eg; cbn [below]; lia.
  - each. unfold ProofMem.fine. three; each; try one;
    unfold ProofMem.ins, inside, extents, at1; cbn [fst snd below]; rewrite ?Eg; cbn [below]; lia.
  - specialize (Hm eq_refl). three; rewrite Hgh; cbn [ii jj kk];
    (apply Forall_cons; [rewrite Hm; apply Forall_nil|]);
    (apply Forall_cons; [destruct (0 <=? ii (d_nloc D) + ng) eqn:E; [apply Forall_nil|lia]|]);
    (apply Forall_cons; [unfold ProofMem.fine; each; one|]);
    (apply Forall_cons; [unfold ProofMem.fine; each; one|]);
    (apply Forall_cons; [unfold ProofMem.fine; each; one|]);
    (apply Forall_cons; [unfold ProofMem.fine; each; try one; destruct (i =? ng) eqn:E; each; one|]);
    (apply Forall_cons; [unfold ProofMem.fine; each; try one;
       unfold ProofMem.ins, inside, extents, at1; cbn [fst snd below]; rewrite ?Eg; cbn [below]; lia|apply Forall_nil]).
Qed.

(** Without the condition on the process grid, the program may refuse, nothing else. *)
Lemma make_gravity_good : 0 <= ng -> Forall good (make_gravity_mem K D).
Proof.
  intros H0. destruct (Z.eq_dec (ii (mpi_dims nd (m_dims K))) 1) as [E|E].
  - eapply Forall_impl; [|apply (make_gravity_fine H0); intros; exact E]. intros [l|w|w]; cbn; tauto.
  - destruct (m_gravity K) eqn:Eg.
    1, 2: eapply Forall_impl; [|apply (make_gravity_fine H0); congruence]; intros [l|w|w]; cbn; tauto.
    pose proof (make_gravity_fine H0) as _.
    assert (L : Forall good (tl (make_gravity_mem K D))).
    { unfold make_gravity_mem. rewrite Eg. cbn [tl]. three; rewrite Hgh; cbn [ii jj kk];
      (apply Forall_cons; [destruct (0 <=? ii (d_nloc D) + ng) eqn:E'; [apply Forall_nil|lia]|]);
      (apply Forall_cons; [unfold ProofMem.good; each; one|]);
      (apply Forall_cons; [unfold ProofMem.good; each; one|]);
      (apply Forall_cons; [unfold ProofMem.good; each; one|]);
      (apply Forall_cons; [unfold ProofMem.good; each; try one; destruct (i =? ng) eqn:E'; each; one|]);
      (apply Forall_cons; [unfold ProofMem.good; each; try one;
         unfold ProofMem.ins, inside, extents, at1; cbn [fst snd below]; rewrite ?Eg; cbn [below]; lia|apply Forall_nil]). }
    unfold make_gravity_mem in *. rewrite Eg in *. cbn [tl] in L. apply Forall_cons; [|exact L].
    destruct (_ =? 1); exact I || apply Forall_nil.
Qed.

Lemma each_u_ins n c : n <= ng -> 0 <= ng -> near n c -> Forall ins (each_u K c).
Proof. intros Hn H0 Hc. unfold each_u. three; each; one. Qed.

Lemma setup_ins far c : 0 <= ng -> near 0 c ->
  (needs_second_component (m_setup K) = true -> (2 <= nd)%nat) ->
  (needs_scalar (m_setup K) = true -> (1 <= m_nfx K)%nat) ->
  (m_setup K = Sedov1d -> 3 <= ii (d_nwg D)) ->

  Forall ins (setup_body K far c).
Proof.
  intros H0 Hc H2 Hf Hs. unfold setup_body.
  assert (Hu : Forall ins (each_u K c)) by (apply (each_u_ins 0); auto).
  assert (Hg : forall d, (d < 3)%nat -> Forall ins (gravity_at K c d)).
  { intros d Hd. unfold gravity_at. destruct (m_gravity K) eqn:Eg; [|destruct d|destruct d]; each; try apply Forall_nil.
    - unfold ProofMem.ins, inside, extents, at1; cbn [fst snd below]; rewrite Eg; cbn [below]; lia.
    - three; unfold ProofMem.ins, inside, extents, at1; cbn [fst snd below]; rewrite Eg; cbn [below]; lia.
    - three; unfold ProofMem.ins, inside, extents, at1; cbn [fst snd below]; rewrite Eg; cbn [below]; lia. }
  destruct (m_setup K) eqn:Es; cbn [needs_second_component needs_scalar] in *;
    try specialize (H2 eq_refl); try specialize (Hf eq_refl); try specialize (Hs eq_refl);
    each; try exact Hu; try (apply Hg; lia).
  all: try (three; one).
  all: try (destruct (far c); each; try exact Hu; three; one).
  all: unfold broadcast_body, along; each; try (three; one).
  apply Forall_flat_map, Forall_forall. intros d Hd. apply in_seq in Hd. each. three; one.
Qed.

(** *** Conversions *)
Lemma prim_to_cons_ins n c : n <= ng -> 0 <= ng -> near n c ->
  Forall ins (prim_to_cons_body K (at3 Vrho) (at4 Vu) (at3 VP) (at4 Vrhou) (at3 VE) c).
Proof. intros Hn H0 Hc. unfold prim_to_cons_body. three; each; one. Qed.

Lemma prim_to_cons_rec_ins n c s d : n <= ng -> 0 <= ng -> near n c -> (s < 2)%nat -> (d < nd)%nat ->
  Forall ins (prim_to_cons_body K (fun c => at5 Vrho_rec c s d) (fun c n => at6 Vu_rec c s d n)
                 (fun c => at5 VP_rec c s d) (fun c n => at6 Vrhou_rec c s d n) (fun c => at5 VE_rec c s d) c).
Proof. intros Hn H0 Hc Hs Hd. unfold prim_to_cons_body. three; each; one. Qed.

Lemma cons_to_prim_old_ins n c : n <= ng -> 0 <= ng -> near n c -> Forall ins (cons_to_prim_body K Vrho Vrhou VE c).
Proof. intros Hn H0 Hc. unfold cons_to_prim_body. three; each; one. Qed.
Lemma cons_to_prim_new_ins n c : n <= ng -> 0 <= ng -> near n c -> Forall ins (cons_to_prim_body K Vrho_new Vrhou_new VE_new c).
Proof. intros Hn H0 Hc. unfold cons_to_prim_body. three; each; one. Qed.
Lemma temperature_ins n c : n <= ng -> 0 <= ng -> near n c -> Forall ins (temperature_body c).
Proof. intros Hn H0 Hc. unfold temperature_body. three; each; one. Qed.
Lemma integrate_ins n c : n <= ng -> 0 <= ng -> near n c -> Forall ins (integrate_body c).
Proof. intros Hn H0 Hc. unfold integrate_body. three; each; one. Qed.
Lemma energy_ins n c : n <= ng -> 0 <= ng -> near n c -> Forall ins (energy_body K c).
Proof. intros Hn H0 Hc. unfold energy_body. three; each; one. Qed.

(** *** Boundary update *)
Definition of_state (q : quad) : Prop := q = old_state \/ q = new_state.
Definition arr (c : idx) : Prop :=
  0 <= ii c < ii (d_nwg D) /\ 0 <= jj c < jj (d_nwg D) /\ 0 <= kk c < kk (d_nwg D).

Lemma cell_ins q c : of_state q -> arr c -> Forall ins (cell_of K q c).
Proof.
  intros [->| ->] Hc; unfold arr in Hc; unfold cell_of; each;
    unfold ProofMem.ins, inside, extents, ext3, at3, at4, dimZ, fxZ; cbn [w_rho w_rhou w_E w_fx old_state new_state fst snd app below]; lia.
Qed.

Lemma slab_ins q d first : of_state q -> 0 <= ng -> (d < nd)%nat ->
  0 <= first -> first + ng <= coord d (d_nwg D) -> Forall ins (slab_copy K D q d first).
Proof.
  intros Hq H0 Hd Hf1 Hf2. unfold slab_copy. each.
  - apply cell_ins; [exact Hq|]. unfold arr, in_box in *. three; dim d; rewrite Hgh in *; cbn in *; lia.
  - unfold in_box in *. three; dim d; unfold ProofMem.ins, inside, extents, at4, isub, dimZ, fxZ; rewrite Hgh in *;
      cbn [set_coord ii jj kk coord fst snd below] in *; lia.
Qed.

Lemma sync_ins q d face : of_state q -> 0 <= ng -> (d < nd)%nat -> Forall ins (sync_mem K D q d face).
Proof.
  intros Hq H0 Hd. unfold sync_mem. cbv zeta.
  assert (G : coord d (nghost_of nd ng) = ng) by (three; dim d; rewrite Hgh; reflexivity).
  assert (N : 2 * ng <= coord d (d_nwg D)) by (three; dim d; cbn [coord]; lia).
  rewrite G. destruct face; each; apply slab_ins; auto; lia.
Qed.

Lemma bc_good q f : of_state q -> 0 <= ng -> (f < 2 * nd)%nat -> good (bc_mem K D q f).
Proof.
  intros Hq H0 Hf. unfold bc_mem. cbv zeta.
  set (d := Nat.div f 2). assert (Hd : (d < nd)%nat) by (apply Nat.div_lt_upper_bound; lia).
  clearbody d.
  assert (G : coord d (nghost_of nd ng) = ng) by (three; dim d; rewrite Hgh; reflexivity).
  assert (N : 2 * ng <= coord d (d_nwg D)) by (three; dim d; cbn [coord]; lia).
  rewrite G.
  set (begin := match Nat.modulo f 2 with O => 0 | _ => coord d (d_nwg D) - ng end).
  assert (Hb : forall c, in_box (set_coord d begin (I3 0 0 0)) (set_coord d (begin + ng) (d_nwg D)) c ->
            arr c /\ begin <= coord d c < begin + ng).
  { intros c Hc. unfold in_box, arr in *.
    assert (0 <= begin <= coord d (d_nwg D) - ng) by (unfold begin; destruct (Nat.modulo f 2); lia). clearbody begin.
    pose proof (z_nd _ _ Z0) as ND. unfold ndim_ok in ND. dim d; cbn [set_coord ii jj kk coord] in *; lia. }
  assert (Hset : forall c v, arr c -> 0 <= v < coord d (d_nwg D) -> arr (set_coord d v c)).
  { intros c v Hc Hv. unfold arr in *. pose proof (z_nd _ _ Z0) as ND. unfold ndim_ok in ND.
    dim d; cbn [set_coord ii jj kk coord] in *; lia. }
  destruct (m_bcs K f).
  - apply Forall_kernel. intros c Hc. destruct (Hb c Hc) as [A B]. each; apply cell_ins; auto. apply Hset; auto.
    unfold begin in *. destruct (Nat.modulo f 2); lia.
  - apply Forall_nil.
  - apply Forall_kernel. intros c Hc. destruct (Hb c Hc) as [A B]. each; try (apply cell_ins; auto).
    + apply Hset; auto. unfold begin in *. destruct (Nat.modulo f 2); lia.
    + unfold arr in A. destruct Hq as [-> | ->]; unfold ProofMem.ins, inside, extents, ext3, at4, dimZ;
        cbn [w_rhou old_state new_state fst snd app below]; lia.
  - assert (Hg : forall c, arr c -> Forall ins (gravity_at K c 0)).
    { intros c A. pose proof (z_nd _ _ Z0) as ND. unfold ndim_ok in ND. apply gravity_ins; [lia|]. unfold arr in A. lia. }
    destruct (m_setup K); try exact I; apply Forall_kernel; intros c Hc; destruct (Hb c Hc) as [A B];
      each; try (apply Hg; exact A); unfold arr in A;
      destruct Hq as [-> | ->]; unfold ProofMem.ins, inside, extents, ext3, at1, at3, at4, dimZ;
      cbn [w_rho w_rhou w_E old_state new_state fst snd app below coord]; lia.
Qed.

Definition user_fits : Prop := forall f, m_bcs K f = CUserDefined -> m_setup K = StratifiedAtm \/ m_setup K = EqHydroSphe.

Lemma bc_fine q f : of_state q -> 0 <= ng -> (f < 2 * nd)%nat -> user_fits -> fine (bc_mem K D q f).
Proof.
  intros Hq H0 Hf Hu. pose proof (bc_good q f Hq H0 Hf) as G. unfold bc_mem in *. cbv zeta in *.
  destruct (m_bcs K f) eqn:E; try exact G. destruct (Hu f E) as [Es|Es]; rewrite Es in *; exact G.
Qed.

Lemma bcs_good q : of_state q -> 0 <= ng -> Forall (fun f => (f < 2 * nd)%nat) (m_order K) -> Forall good (bcs_mem K D q).
Proof.
  intros Hq H0 Ho. unfold bcs_mem. apply Forall_cons.
  - cbn. each; apply sync_ins; auto.
  - apply Forall_flat_map. eapply Forall_impl; [|exact Ho]. intros f Hf. cbv beta.
    match goal with |- context [if ?b then _ else _] => destruct b end; [|apply Forall_nil]. apply Forall_cons; [|apply Forall_nil]. apply bc_good; auto.
Qed.
Lemma bcs_fine q : of_state q -> 0 <= ng -> Forall (fun f => (f < 2 * nd)%nat) (m_order K) -> user_fits -> Forall fine (bcs_mem K D q).
Proof.
  intros Hq H0 Ho Hu. unfold bcs_mem. apply Forall_cons.
  - cbn. each; apply sync_ins; auto.
  - apply Forall_flat_map. eapply Forall_impl; [|exact Ho]. intros f Hf. cbv beta.
    match goal with |- context [if ?b then _ else _] => destruct b end; [|apply Forall_nil]. apply Forall_cons; [|apply Forall_nil]. apply bc_fine; auto.
Qed.

(** *** One step *)

(** A cell and its neighbours in direction [d]. *)
Lemma neighbours n c d : n + 1 <= ng -> 0 <= n -> (d < nd)%nat -> near n c -> arr c /\ arr (lindex d c) /\ arr (rindex d c).
Proof.
  intros Hn Hn0 Hd Hc. unfold arr. three; dim d; unfold lindex, rindex, iadd, isub, kron; cbn [ii jj kk Nat.eqb]; lia.
Qed.

Lemma along_ins v c : arr c -> (forall d, extents K D (v d) = [coord d (d_nwg D)]) -> Forall ins (along v c).
Proof.
  intros A E. unfold arr in A. unfold along. each; unfold ProofMem.ins, inside, at1; cbn [fst snd]; rewrite E; cbn [coord below]; lia.
Qed.

Lemma face_body_ins n var rec c : n + 1 <= ng -> 0 <= n -> near n c ->
  (forall c, arr c -> ins (var c)) -> (forall c s d, arr c -> (s < 2)%nat -> (d < nd)%nat -> ins (rec c s d)) ->
  Forall ins (face_body K var rec c).
Proof.
  intros Hn Hn0 Hc Hv Hr. unfold face_body. apply Forall_loop. intros d Hd.
  destruct (neighbours n c d Hn Hn0 Hd Hc) as (A & L & R).
  each; auto; apply along_ins; auto.
Qed.

Lemma curvature_ins n c d : n <= ng -> 0 <= ng -> near n c -> Forall ins (curvature K c d).
Proof.
  intros Hn H0 Hc. unfold curvature. destruct (m_geom K); [apply Forall_nil|].
  destruct d as [|[|d]]; [| |apply Forall_nil]; three; rewrite En; cbn [Nat.leb Nat.eqb]; each; one.
Qed.

Ltac arr1 := unfold arr in *; unfold ProofMem.ins, inside, extents, ext3, at3, at4, at5, at6, dimZ, fxZ; cbn [fst snd app below];
  pose proof (z_nd _ _ Z0) as ND; unfold ndim_ok in ND; lia.

Lemma hancock_ins n c : n + 1 <= ng -> 0 <= n -> near n c -> Forall ins (hancock_body K c).
Proof.
  intros Hn Hn0 Hc.
  assert (A : arr c) by (apply (neighbours n c 0 Hn Hn0); [pose proof (z_nd _ _ Z0) as ND; unfold ndim_ok in ND; lia|exact Hc]).
  unfold hancock_body. each; try arr1.
  - destruct (neighbours n c d Hn Hn0 H Hc) as (_ & _ & R). arr1.
  - apply (curvature_ins n); auto; lia.
  - apply gravity_ins; auto. unfold arr in A. lia.
Qed.
Lemma hancock_scalar_ins n c : n <= ng -> 0 <= ng -> near n c -> Forall ins (hancock_scalar_body K c).
Proof. intros Hn H0 Hc. unfold hancock_scalar_body. three; each; one. Qed.

Lemma reconstruction_fine : 2 <= ng -> Forall fine (reconstruction_mem K D).
Proof.
  intros H2. unfold reconstruction_mem. each.
  - apply over_fine; [lia|]. intros c Hc. apply (face_body_ins 1); auto; try lia; intros; arr1.
  - apply Forall_map, Forall_forall. intros n Hn. apply in_seq in Hn.
    apply over_fine; [lia|]. intros c Hc. apply (face_body_ins 1); auto; try lia; intros; arr1.
  - apply over_fine; [lia|]. intros c Hc. apply (face_body_ins 1); auto; try lia; intros; arr1.
  - apply Forall_map, Forall_forall. intros n Hn. apply in_seq in Hn.
    apply over_fine; [lia|]. intros c Hc. apply (face_body_ins 1); auto; try lia; intros; arr1.
  - apply Forall_flat_map, Forall_forall. intros d Hd. apply in_seq in Hd. cbn [map]. each.
    + apply over_fine; [lia|]. intros c Hc. apply (prim_to_cons_rec_ins 1); auto; lia.
    + apply over_fine; [lia|]. intros c Hc. apply (prim_to_cons_rec_ins 1); auto; lia.
  - apply over_fine; [lia|]. intros c Hc. apply (hancock_ins 1); auto; lia.
  - apply over_fine; [lia|]. intros c Hc. apply (hancock_scalar_ins 1); auto; lia.
Qed.

Lemma face_states_ins c d : (d < nd)%nat -> arr c -> arr (lindex d c) -> arr (rindex d c) -> Forall ins (face_states K c d).
Proof. intros Hd A L R. unfold face_states. each; arr1. Qed.

Lemma godunov_ins B c : 1 <= ng -> near 0 c -> Forall ins (godunov_body K B c).
Proof.
  intros H1 Hc.
  assert (A : arr c) by (apply (neighbours 0 c 0); [lia|lia|pose proof (z_nd _ _ Z0) as ND; unfold ndim_ok in ND; lia|exact Hc]).
  unfold godunov_body. each; try arr1;
  destruct (neighbours 0 c d ltac:(lia) ltac:(lia) H Hc) as (_ & L & R).
  - apply face_states_ins; auto.
  - arr1.
  - apply (curvature_ins 0); auto; lia.
  - apply gravity_ins; auto. unfold arr in A. lia.
  - destruct (b_fluxL B c d); arr1.
  - destruct (b_fluxR B c d); arr1.
Qed.
Lemma godunov_scalar_ins c : 1 <= ng -> near 0 c -> Forall ins (godunov_scalar_body K c).
Proof. intros H1 Hc. unfold godunov_scalar_body. three; each; one. Qed.

Lemma fix_ins B c : 1 <= ng -> near 0 c -> Forall ins (fix_body K B c).
Proof.
  intros H1 Hc.
  assert (A : arr c) by (apply (neighbours 0 c 0); [lia|lia|pose proof (z_nd _ _ Z0) as ND; unfold ndim_ok in ND; lia|exact Hc]).
  unfold fix_body. each; try arr1. destruct (b_cold B c); [|apply Forall_nil].
  apply Forall_loop. intros d Hd. cbv zeta.
  destruct (neighbours 0 c d ltac:(lia) ltac:(lia) Hd Hc) as (_ & L & R).
  each; try arr1.
  - apply face_states_ins; auto.
  - destruct (b_us_p B c d d0); arr1.
  - destruct (b_us B c d d0); arr1.
Qed.

Lemma nickel_ins c : 0 <= ng -> (1 <= m_nfx K)%nat -> near 0 c -> Forall ins (nickel_body c).
Proof. intros H1 Hf Hc. unfold nickel_body. three; each; one. Qed.

Lemma copy_back_ins : Forall ins (copy_back K D).
Proof.
  unfold copy_back. apply Forall_kernel. intros c Hc.
  assert (A : arr c) by (unfold arr, in_box in *; cbn [ii jj kk] in Hc; lia).
  each; apply cell_ins; auto; [right|left]; reflexivity.
Qed.

Definition shift_fits (s : Z) : Prop :=
  s <= decomp_nloc (coord 0 (m_nglob K)) (coord 0 (mpi_dims nd (m_dims K))) (coord 0 (mpi_dims nd (m_dims K)) - 1).

Hypothesis Hown : ii (d_nloc D) = decomp_nloc (coord 0 (m_nglob K)) (coord 0 (mpi_dims nd (m_dims K))) (coord 0 (m_rank K)).

Lemma criterion_body s : 0 <= ng -> shift_fits s ->
  Forall ins (if ii (m_rank K) =? ii (mpi_dims nd (m_dims K)) - 1
            then kernel (I3 (ii (d_nloc D) - s) (jj (nghost_of nd ng)) (kk (nghost_of nd ng)))
                        (iadd (nghost_of nd ng) (d_nloc D)) (fun c => [at4 Vrhou_new c 0; at3 Vrho_new c])
            else []).
Proof.
  intros H0 Hs. destruct (_ =? _) eqn:E; [|apply Forall_nil]. apply Z.eqb_eq in E.
  unfold shift_fits in Hs. change (coord 0 (m_rank K)) with (ii (m_rank K)) in Hown.
  rewrite E in Hown. change (ii (mpi_dims nd (m_dims K))) with (coord 0 (mpi_dims nd (m_dims K))) in Hown.
  rewrite <- Hown in Hs. unfold in_box. three; rewrite Hgh; each; unfold in_box, iadd in H; cbn [ii jj kk] in H; one.
Qed.

Lemma criterion_fine s : 0 <= ng -> m_setup K = V1d -> shift_fits s -> Forall fine (criterion_mem K D s).
Proof.
  intros H0 Es Hs. unfold criterion_mem. rewrite Es. cbv zeta. apply Forall_cons; [|apply Forall_cons; [|apply Forall_nil]].
  - unfold shift_fits in Hs. destruct (_ <? s) eqn:E; [lia|apply Forall_nil].
  - apply criterion_body; auto.
Qed.

Lemma criterion_safe s p : 0 <= ng ->
  (forall why, perform K D p <> UB why) -> forall why, perform K D (criterion_mem K D s ++ p) <> UB why.
Proof.
  intros H0 Hp why. unfold criterion_mem. destruct (m_setup K) eqn:Es; cbn [app perform]; try discriminate.
  destruct (_ <? s) eqn:E; [discriminate|]. cbn [forallb].
  rewrite (forallb_ins _ _ _ (criterion_body s H0 ltac:(unfold shift_fits; lia))). apply Hp.
Qed.

Lemma shift_fine : 2 <= ng -> 1 <= ii (m_nglob K) -> Forall fine (shift_mem K D).
Proof.
  intros H2 Hn. unfold shift_mem. each.
  - unfold ProofMem.fine. apply Forall_kernel. intros c Hc. unfold in_box in Hc. cbn [ii jj kk] in Hc.
    each; apply cell_ins; try (right; reflexivity); try (left; reflexivity); unfold arr; cbn [ii jj kk]; lia.
  - unfold ProofMem.fine. three; each; one.
  - apply set_grid_fine. lia.
Qed.
End Kernels.

(** ** Whole runs *)

Definition safe (K : mconfig) (D : decomp) (p : program) : Prop := forall why, perform K D p <> UB why.

Lemma safe_app K D p q : Forall (good K D) p -> safe K D q -> safe K D (p ++ q).
Proof.
  intros Hp Hq. induction Hp as [|o p Ho Hp IH]; [exact Hq|].
  intros why. destruct o as [l|w|w]; cbn in *; [|discriminate|contradiction].
  rewrite (forallb_ins K D l Ho). apply IH.
Qed.
Lemma safe_nil K D : safe K D [].
Proof. intros why. discriminate. Qed.
Lemma fine_good K D p : Forall (fine K D) p -> Forall (good K D) p.
Proof. apply Forall_impl. intros [l|w|w]; cbn; tauto. Qed.
Lemma one_good K D o : good K D o -> Forall (good K D) [o].
Proof. intros H. apply Forall_cons; [exact H|apply Forall_nil]. Qed.
Lemma one_fine K D o : fine K D o -> Forall (fine K D) [o].
Proof. intros H. apply Forall_cons; [exact H|apply Forall_nil]. Qed.

Lemma sized_opened K D : sized K D -> sized (opened K) D.
Proof. intros H. destruct H. constructor; assumption. Qed.
Lemma perform_opened K D p : perform (opened K) D p = perform K D p.
Proof. reflexivity. Qed.

(** What is needed of a configuration, along the loop. *)
Record ready (K : mconfig) (D : decomp) : Prop := mkReady {
  r_sized : sized K D;
  r_own : ii (d_nloc D) = decomp_nloc (coord 0 (m_nglob K)) (coord 0 (mpi_dims (m_nd K) (m_dims K))) (coord 0 (m_rank K));
  r_glob : 1 <= ii (m_nglob K);
  r_order : Forall (fun f => (f < 2 * m_nd K)%nat) (m_order K);
  r_nickel : m_nickel K = true -> (1 <= m_nfx K)%nat }.

Lemma ready_opened K D : ready K D -> ready (opened K) D.
Proof. intros H. destruct H. constructor; try assumption. now apply sized_opened. Qed.

Definition welcome (K : mconfig) : Prop :=
  (m_gravity K = InternalMass -> ii (mpi_dims (m_nd K) (m_dims K)) = 1)
  /\ user_fits K
  /\ (forall s, m_shift K = Some s -> m_setup K = V1d /\ shift_fits K s).

Lemma welcome_opened K : welcome K -> welcome (opened K).
Proof.
  intros (Hg & Hu & Hs). split; [exact Hg|]. split; [|exact Hs].
  intros f Hf. cbn in *. destruct (Nat.eqb f 1); [discriminate|]. exact (Hu f Hf).
Qed.

(** *** No undefined behaviour *)

Section Safe.
Variables (K : mconfig) (D : decomp).
Hypothesis R : ready K D.
Let Z0 := r_sized _ _ R.

Lemma startup_safe far p : 2 <= m_ng K -> provided K -> safe K D p -> safe K D (startup_mem K D far ++ p).
Proof.
  intros H2 (P1 & P2 & _) Hp. unfold startup_mem. rewrite <- !app_assoc.
  assert (H0 : 0 <= m_ng K) by lia.
  pose proof (fine_good _ _ _ (set_grid_fine K D Z0 H0)) as G1.
  pose proof (make_gravity_good K D Z0 H0) as G2.
  apply safe_app. { apply one_good. unfold allocate. destruct (_ && _)%bool; [apply Forall_nil|exact I]. }
  assert (T : safe K D ([over K D 0 (prim_to_cons_body K (at3 Vrho) (at4 Vu) (at3 VP) (at4 Vrhou) (at3 VE))] ++
     bcs_mem K D old_state ++ make_gravity_mem K D ++
     [over_all K D (cons_to_prim_body K Vrho Vrhou VE)] ++ [over_all K D temperature_body; over K D 0 integrate_body] ++ p)).
  { apply safe_app. { apply one_good, over_good; [exact Z0|]. intros. apply (prim_to_cons_ins K D Z0 0); auto. }
    apply safe_app. { apply bcs_good; auto; [left; reflexivity|apply R]. }
    apply safe_app; [exact G2|].
    apply safe_app. { apply one_good, over_good; [exact Z0|]. intros. apply (cons_to_prim_old_ins K D Z0 (m_ng K)); auto. }
    apply safe_app; [|exact Hp].
    apply Forall_cons; [|apply one_good]; (apply over_good; [exact Z0|]); intros.
    - apply (temperature_ins K D Z0 (m_ng K)); auto.
    - apply (integrate_ins K D Z0 0); auto. }
  destruct (m_restart K) eqn:Er; rewrite <- ?app_assoc.
  - apply safe_app; [exact G1|]. apply safe_app; [exact G2|]. exact T.
  - apply safe_app; [apply one_good; exact (fill_x_glob_ins K D Z0)|].
    apply safe_app; [exact G1|]. apply safe_app; [exact G2|]. apply safe_app; [|exact T].
    apply one_good. unfold initialise. rewrite with_ghosts_ok by (rewrite (z_rng _ _ Z0); exact H0). cbn [obind].
    destruct (setup_refuses K); [exact I|]. apply over_good; [exact Z0|]. intros _ c Hc.
    apply setup_ins; auto.
    intros _. pose proof (z_wg _ _ Z0) as W. pose proof (z_loc _ _ Z0) as L. pose proof (z_nd _ _ Z0) as ND.
    rewrite W. unfold nghost_of, iadd, mk3, ndim_ok in *. cbn [ii].
    destruct (m_nd K); [lia|]. cbn [Nat.ltb Nat.leb]. lia.
Qed.

Lemma iteration_safe bo on B p : 2 <= m_ng K -> Forall (good K D) bo -> safe K D p ->
  safe K D (iteration_mem K D bo on B ++ p).
Proof.
  intros H2 Hbo Hp. unfold iteration_mem. rewrite <- !app_assoc.
  assert (H0 : 0 <= m_ng K) by lia.
  pose proof (make_gravity_good K D Z0 H0) as G2.
  pose proof (bcs_good K D Z0 new_state (or_intror eq_refl) H0 (r_order _ _ R)) as Gb.
  assert (Gc : Forall (good K D) [Ok (copy_back K D)]) by (apply one_good; exact (copy_back_ins K D)).
  apply safe_app.
  { apply Forall_cons; [|apply one_good]; (apply over_good; [exact Z0|]); intros.
    - apply (time_step_ins K D Z0 (m_ng K)); auto.
    - apply (energy_ins K D Z0 0); auto. }
  apply safe_app. { destruct (b_stop B); [apply one_good; exact I|apply Forall_nil]. }
  apply safe_app. { apply fine_good, reconstruction_fine; auto. }
  apply safe_app.
  { apply Forall_cons; [|apply one_good]; (apply over_good; [exact Z0|]); intros.
    - apply godunov_ins; auto; lia.
    - apply (godunov_scalar_ins K D Z0); auto; lia. }
  apply safe_app.
  { destruct (m_fix K); [|apply Forall_nil]. apply one_good. apply over_good; [exact Z0|]. intros. apply fix_ins; auto; lia. }
  apply safe_app.
  { destruct (m_nickel K) eqn:En; [|apply Forall_nil]. apply one_good. apply over_good; [exact Z0|]. intros.
    apply nickel_ins; auto. apply (r_nickel _ _ R). exact En. }
  apply safe_app; [exact Gb|].
  apply safe_app; [exact Gc|].
  assert (T : safe K D ([over_all K D (cons_to_prim_body K Vrho_new Vrhou_new VE_new)] ++
                make_gravity_mem K D ++ (if b_output B then [over_all K D temperature_body] else []) ++ p)).
  { apply safe_app. { apply one_good, over_good; [exact Z0|]. intros. apply (cons_to_prim_new_ins K D Z0 (m_ng K)); auto. }
    apply safe_app; [exact G2|]. apply safe_app; [|exact Hp].
    destruct (b_output B); [|apply Forall_nil]. apply one_good, over_good; [exact Z0|]. intros.
    apply (temperature_ins K D Z0 (m_ng K)); auto. }
  destruct (m_shift K) as [s|]; [|exact T]. destruct on; [|exact T]. rewrite <- app_assoc.
  intros why. apply criterion_safe; [exact Z0|apply R|exact H0|].
  fold (safe K D ((if b_shift B then [Ok [at1 (Vx_glob 0) (coord 0 (m_nglob K) + coord 0 (nghost_of (m_nd K) (m_ng K)) + 1)]]
       ++ (if b_rmax B then bo else shift_mem K D ++ bcs_mem K D new_state)
       ++ [Ok (copy_back K D)] ++ make_gravity_mem K D else []) ++
   [over_all K D (cons_to_prim_body K Vrho_new Vrhou_new VE_new)] ++
   make_gravity_mem K D ++ (if b_output B then [over_all K D temperature_body] else []) ++ p)).
  destruct (b_shift B); [|exact T]. rewrite <- !app_assoc.
  apply safe_app.
  { apply one_good. cbn. apply Forall_cons; [|apply Forall_nil]. unfold ins, inside, extents, at1. cbn [fst snd below coord].
    pose proof (z_nd _ _ Z0) as ND. pose proof (r_glob _ _ R). unfold ndim_ok in ND. unfold nghost_of, mk3. cbn [ii].
    destruct (m_nd K); [lia|]. cbn [Nat.ltb Nat.leb]. lia. }
  apply safe_app.
  { destruct (b_rmax B); [exact Hbo|]. apply Forall_app2; [|exact Gb]. apply fine_good, shift_fine; auto. apply R. }
  apply safe_app; [exact Gc|]. apply safe_app; [exact G2|]. exact T.
Qed.
End Safe.

Lemma loop_safe D Bs : forall K on p, ready K D -> 2 <= m_ng K -> safe K D p -> safe K D (loop_mem K D on Bs ++ p).
Proof.
  induction Bs as [|B Bs IH]; intros K on p R H2 Hp; [exact Hp|].
  cbn [loop_mem]. cbv zeta. rewrite <- app_assoc. apply iteration_safe; auto.
  - change (Forall (good (opened K) D) (bcs_mem (opened K) D new_state)).
    apply bcs_good; [apply sized_opened; apply R|right; reflexivity|cbn; lia|apply R].
  - destruct (negb _).
    + now apply IH.
    + change (safe (opened K) D (loop_mem (opened K) D (on && false) Bs ++ p)).
      apply IH; [now apply ready_opened|exact H2|exact Hp].
Qed.

Lemma decomposed K : started K -> provided K ->
  exists D, mpi_decomposition (m_nd K) (m_nglob K) (m_dims K) (m_ng K) (m_rank K) = Ok D /\ ready K D
    /\ d_nloc D = mk3 (fun d => decomp_nloc (coord d (m_nglob K)) (coord d (mpi_dims (m_nd K) (m_dims K))) (coord d (m_rank K))).
Proof.
  intros S P. destruct (decomposition_sized K S) as (D & E & Z0 & L). exists D. split; [exact E|]. split; [|exact L].
  destruct S as (_ & Hn & _ & Ho). constructor; auto.
  - rewrite L. reflexivity.
  - apply (Hn 0%nat). lia.
  - apply P.
Qed.

Lemma run_safe K far Bs : started K -> provided K -> 2 <= m_ng K -> forall why, run_mem K far Bs <> UB why.
Proof.
  intros S P H2. destruct (decomposed K S P) as (D & E & R & _). unfold run_mem. rewrite E. cbn [obind].
  change (safe K D (startup_mem K D far ++ loop_mem K D true Bs ++ [over K D 0 integrate_body])).
  apply startup_safe; auto. apply loop_safe; auto. rewrite <- (app_nil_r [_]). apply safe_app; [|apply safe_nil].
  apply one_good, over_good; [apply R|]. intros. apply (integrate_ins K D (r_sized _ _ R) 0); auto; lia.
Qed.

(** *** Completion *)

Section Fine.
Variables (K : mconfig) (D : decomp).
Hypothesis R : ready K D.
Let Z0 := r_sized _ _ R.
Hypothesis W : welcome K.

Lemma before_setup_fine : 0 <= m_ng K ->
  Forall (fine K D) ([allocate D] ++ [Ok (fill_x_glob K)] ++ set_grid_mem K D ++ make_gravity_mem K D)
  /\ Forall (fine K D) ([allocate D] ++ set_grid_mem K D ++ make_gravity_mem K D).
Proof.
  intros H0.
  pose proof (set_grid_fine K D Z0 H0) as G1. pose proof (make_gravity_fine K D Z0 H0 (proj1 W)) as G2.
  assert (G0 : Forall (fine K D) [allocate D]).
  { apply one_fine. unfold allocate. pose proof (z_wg _ _ Z0) as Hw. pose proof (z_loc _ _ Z0) as L.
    destruct (_ && _)%bool eqn:E; [apply Forall_nil|]. rewrite Hw in E. unfold nghost_of, iadd, mk3 in E. cbn [ii jj kk] in E.
    destruct (Nat.ltb 0 (m_nd K)), (Nat.ltb 1 (m_nd K)), (Nat.ltb 2 (m_nd K)); lia. }
  assert (Gf : Forall (fine K D) [Ok (fill_x_glob K)]) by (apply one_fine; exact (fill_x_glob_ins K D Z0)).
  split; repeat apply Forall_app2; assumption.
Qed.

Lemma after_setup_fine : 0 <= m_ng K ->
  Forall (fine K D) ([over K D 0 (prim_to_cons_body K (at3 Vrho) (at4 Vu) (at3 VP) (at4 Vrhou) (at3 VE))] ++
     bcs_mem K D old_state ++ make_gravity_mem K D ++
     [over_all K D (cons_to_prim_body K Vrho Vrhou VE)] ++ [over_all K D temperature_body; over K D 0 integrate_body]).
Proof.
  intros H0. pose proof (make_gravity_fine K D Z0 H0 (proj1 W)) as G2.
  apply Forall_app2. { apply one_fine, over_fine; [exact Z0|lia|]. intros. apply (prim_to_cons_ins K D Z0 0); auto. }
  apply Forall_app2. { apply bcs_fine; auto; [left; reflexivity|apply R|apply W]. }
  apply Forall_app2; [exact G2|].
  apply Forall_app2. { apply one_fine, over_fine; [exact Z0|lia|]. intros. apply (cons_to_prim_old_ins K D Z0 (m_ng K)); auto; lia. }
  apply Forall_cons; [|apply one_fine]; (apply over_fine; [exact Z0|lia|]); intros.
  - apply (temperature_ins K D Z0 (m_ng K)); auto; lia.
  - apply (integrate_ins K D Z0 0); auto; lia.
Qed.

Lemma startup_fine far : 0 <= m_ng K -> provided K -> (m_restart K = false -> setup_refuses K = None) ->
  (m_restart K = false -> m_setup K = Sedov1d -> 1 <= m_ng K \/ 3 <= ii (d_nloc D)) ->
  Forall (fine K D) (startup_mem K D far).
Proof.
  intros H0 (P1 & P2 & _) Hr Hs. unfold startup_mem.
  pose proof (before_setup_fine H0) as (B1 & B2). pose proof (after_setup_fine H0) as A.
  destruct (m_restart K) eqn:Er.
  - rewrite app_assoc. apply Forall_app2; [exact B2|exact A].
  - specialize (P1 eq_refl). specialize (P2 eq_refl). specialize (Hr eq_refl). specialize (Hs eq_refl).
    assert (I0 : Forall (fine K D) [initialise K D far]).
    { apply one_fine. unfold initialise. rewrite with_ghosts_ok by (rewrite (z_rng _ _ Z0); exact H0). cbn [obind].
      rewrite Hr. apply over_fine; [exact Z0|exact H0|]. intros c Hc. apply setup_ins; auto.
      intros Es. specialize (Hs Es). pose proof (z_loc _ _ Z0) as L.
      assert (E : ii (d_nwg D) = ii (d_nloc D) + 2 * m_ng K).
      { destruct (layouts K D Z0) as [[_ HL]|[[_ HL]|[_ HL]]]; destruct HL as (_ & -> & _); reflexivity. }
      assert (1 <= ii (d_nloc D)).
      { destruct (layouts K D Z0) as [[_ HL]|[[_ HL]|[_ HL]]]; destruct HL as (_ & _ & _ & _ & HN); apply HN in Hc; lia. }
      lia. }
    apply Forall_app in B1. destruct B1 as [B0 B1]. apply Forall_app2; [exact B0|]. apply Forall_app2; [|exact A].
    rewrite !app_assoc in *. apply Forall_app2; [exact B1|exact I0].
Qed.

Lemma iteration_fine bo on B : 2 <= m_ng K -> Forall (fine K D) bo -> undisturbed B ->
  Forall (fine K D) (iteration_mem K D bo on B).
Proof.
  intros H2 Hbo HB. unfold iteration_mem. unfold undisturbed in HB. rewrite HB. cbn [app].
  assert (H0 : 0 <= m_ng K) by lia.
  pose proof (make_gravity_fine K D Z0 H0 (proj1 W)) as G2.
  pose proof (bcs_fine K D Z0 new_state (or_intror eq_refl) H0 (r_order _ _ R) (proj1 (proj2 W))) as Gb.
  assert (Gc : Forall (fine K D) [Ok (copy_back K D)]) by (apply one_fine; exact (copy_back_ins K D)).
  apply Forall_cons. { apply over_fine; [exact Z0|lia|]. intros. apply (time_step_ins K D Z0 (m_ng K)); auto; lia. }
  apply Forall_cons. { apply over_fine; [exact Z0|lia|]. intros. apply (energy_ins K D Z0 0); auto; lia. }
  apply Forall_app2; [apply reconstruction_fine; auto|].
  apply Forall_cons. { apply over_fine; [exact Z0|lia|]. intros. apply godunov_ins; auto; lia. }
  apply Forall_cons. { apply over_fine; [exact Z0|lia|]. intros. apply (godunov_scalar_ins K D Z0); auto; lia. }
  apply Forall_app2.
  { destruct (m_fix K); [|apply Forall_nil]. apply one_fine, over_fine; [exact Z0|lia|]. intros. apply fix_ins; auto; lia. }
  apply Forall_app2.
  { destruct (m_nickel K) eqn:En; [|apply Forall_nil]. apply one_fine, over_fine; [exact Z0|lia|]. intros.
    apply nickel_ins; auto. apply (r_nickel _ _ R). exact En. }
  apply Forall_app2; [exact Gb|]. apply Forall_cons; [exact (copy_back_ins K D)|].
  apply Forall_app2.
  2:{ apply Forall_cons. { apply over_fine; [exact Z0|lia|]. intros. apply (cons_to_prim_new_ins K D Z0 (m_ng K)); auto; lia. }
      apply Forall_app2; [exact G2|]. destruct (b_output B); [|apply Forall_nil]. apply one_fine, over_fine; [exact Z0|lia|]. intros.
      apply (temperature_ins K D Z0 (m_ng K)); auto; lia. }
  destruct (m_shift K) as [s|] eqn:Es; [|apply Forall_nil]. destruct on; [|apply Forall_nil].
  destruct (proj2 (proj2 W) s Es) as [Hv Hs].
  apply Forall_app2; [apply criterion_fine; auto; apply R|].
  destruct (b_shift B); [|apply Forall_nil]. apply Forall_cons.
  { apply Forall_cons; [|apply Forall_nil]. unfold ins, inside, extents, at1. cbn [fst snd below coord].
    pose proof (z_nd _ _ Z0) as ND. pose proof (r_glob _ _ R). unfold ndim_ok in ND. unfold nghost_of, mk3. cbn [ii].
    destruct (m_nd K); [lia|]. cbn [Nat.ltb Nat.leb]. lia. }
  apply Forall_app2.
  { destruct (b_rmax B); [exact Hbo|]. apply Forall_app2; [|exact Gb]. apply shift_fine; auto. apply R. }
  apply Forall_cons; [exact (copy_back_ins K D)|exact G2].
Qed.
End Fine.

Lemma loop_fine D Bs : forall K on, ready K D -> welcome K -> 2 <= m_ng K -> Forall undisturbed Bs ->
  Forall (fine K D) (loop_mem K D on Bs).
Proof.
  induction Bs as [|B Bs IH]; intros K on R W H2 HB; [apply Forall_nil|].
  apply Forall_cons_iff in HB. destruct HB as [HB HBs].
  cbn [loop_mem]. cbv zeta. apply Forall_app2.
  - apply iteration_fine; auto.
    change (Forall (fine (opened K) D) (bcs_mem (opened K) D new_state)).
    apply bcs_fine; [apply sized_opened; apply R|right; reflexivity|cbn; lia|apply R|apply (welcome_opened K W)].
  - destruct (negb _).
    + now apply IH.
    + change (Forall (fine (opened K) D) (loop_mem (opened K) D (on && false) Bs)).
      apply IH; [now apply ready_opened|now apply welcome_opened|exact H2|exact HBs].
Qed.

Lemma accepted_welcome K : accepted K -> welcome K.
Proof. intros (A & B & C & E). split; [exact A|]. split; [exact C|]. exact E. Qed.

Lemma final_fine K D : ready K D -> 0 <= m_ng K -> Forall (fine K D) [over K D 0 integrate_body].
Proof.
  intros R H. apply one_fine, over_fine; [apply R|lia|]. intros. apply (integrate_ins K D (r_sized _ _ R) 0); auto; lia.
Qed.

Lemma run_completes K far Bs : started K -> provided K -> accepted K -> 2 <= m_ng K -> Forall undisturbed Bs ->
  run_mem K far Bs = Ok tt.
Proof.
  intros S P A H2 HB. destruct (decomposed K S P) as (D & E & R & _). unfold run_mem. rewrite E. cbn [obind].
  pose proof (accepted_welcome K A) as W.
  apply perform_fine_all. apply Forall_app2.
  - apply startup_fine; auto; [lia|apply A|]. intros; lia.
  - apply Forall_app2; [apply loop_fine; auto|apply final_fine; auto; lia].
Qed.

(** *** Too few ghost layers *)

(** The start-up and the first half of an iteration. *)
Lemma first_iteration K D far Bs B : ready K D -> welcome K -> Forall (fine K D) (startup_mem K D far) -> 0 <= m_ng K -> undisturbed B ->
  exists q, perform K D (startup_mem K D far ++ loop_mem K D true (B :: Bs) ++ [over K D 0 integrate_body])
          = perform K D (over K D 1 (face_body K (at3 Vrho) (at5 Vrho_rec)) :: q).
Proof.
  intros R W F H0 HB. pose proof (r_sized _ _ R) as Z0. rewrite perform_fine by exact F.
  cbn [loop_mem]. cbv zeta. unfold iteration_mem. unfold undisturbed in HB. rewrite HB. unfold reconstruction_mem.
  rewrite <- !app_assoc. rewrite perform_fine.
  - cbn [app]. eexists. reflexivity.
  - apply Forall_cons; [|apply one_fine]; (apply over_fine; [exact Z0|lia|]); intros.
    + apply (time_step_ins K D Z0 (m_ng K)); auto; lia.
    + apply (energy_ins K D Z0 0); auto; lia.
Qed.

Lemma run_without_ghosts K far B Bs : started K -> provided K -> accepted K -> m_ng K = 0 ->
  (m_restart K = true \/ m_setup K <> Sedov1d) -> undisturbed B ->
  run_mem K far (B :: Bs) = Throw "NgEff > Ng".
Proof.
  intros S P A H0 Hs HB. destruct (decomposed K S P) as (D & E & R & _). unfold run_mem. rewrite E. cbn [obind].
  pose proof (accepted_welcome K A) as W.
  destruct (first_iteration K D far Bs B R W) as (q & ->); auto; [|lia|].
  - apply startup_fine; auto; [lia|apply A|]. intros; destruct Hs; congruence.
  - rewrite over_throws; [reflexivity|apply R|lia].
Qed.

Lemma run_with_one_ghost K far B Bs : started K -> provided K -> accepted K -> m_ng K = 1 -> undisturbed B ->
  run_mem K far (B :: Bs) = UB "access outside a view".
Proof.
  intros S P A H0 HB. destruct (decomposed K S P) as (D & E & R & L). unfold run_mem. rewrite E. cbn [obind].
  pose proof (accepted_welcome K A) as W. pose proof (r_sized _ _ R) as Z0.
  destruct (first_iteration K D far Bs B R W) as (q & ->); auto; [|lia|].
  - apply startup_fine; auto; [lia|apply A|]. intros; lia.
  - destruct (over_ok K D Z0 1 (face_body K (at3 Vrho) (at5 Vrho_rec)) ltac:(lia)) as (b & e & -> & Hb).
    assert (HN : forall d, (d < 3)%nat -> (m_nd K <= d)%nat -> 1 <= coord d (d_nloc D)).
    { intros d Hd Hn. rewrite L. rewrite coord_mk3 by exact Hd. destruct S as (ND & Hg & Hr & _).
      specialize (Hg d Hd). unfold mpi_dims. rewrite coord_mk3 by exact Hd.
      destruct (Nat.ltb d (m_nd K)) eqn:El; [apply Nat.ltb_lt in El; lia|].
      specialize (Hr d Hd). unfold mpi_dims in Hr. rewrite coord_mk3, El in Hr by exact Hd.
      unfold decomp_nloc. replace (coord d (m_rank K)) with 0 by lia. rewrite Z.quot_1_r, Z.rem_1_r. cbn [Z.ltb Z.compare]. lia. }
    apply (perform_outside K D (at1 (Vdx 0) (-1))); [|reflexivity].
    unfold kernel. apply in_flat_map. exists (I3 0 0 0). split.
    + apply in_box_cells, Hb. pose proof (z_loc _ _ Z0) as Hl.
      destruct (layouts K D Z0) as [[En HL]|[[En HL]|[En HL]]]; destruct HL as (_ & _ & _ & _ & HNr);
        apply HNr; rewrite En; cbn [Nat.leb ii jj kk]; rewrite ?H0;
        pose proof (HN 1%nat ltac:(lia)) as N1; pose proof (HN 2%nat ltac:(lia)) as N2; cbn [coord] in N1, N2; lia.
    + unfold face_body, loop. apply in_flat_map. exists 0%nat. split.
      * apply in_seq. pose proof (z_nd _ _ Z0) as ND. unfold ndim_ok in ND. lia.
      * apply in_or_app. right. apply in_or_app. left. left. reflexivity.
Qed.

(** *** Missing components or scalars (C75) *)

(** A group of accesses of which one is outside, after some that are fine. *)
Lemma perform_bad K D p a l q : Forall (fine K D) p -> In a l -> inside K D a = false ->
  perform K D (p ++ Ok l :: q) = UB "access outside a view".
Proof. intros F I N. rewrite perform_fine by exact F. now apply (perform_outside K D a). Qed.

Lemma owned_cell K D : ready K D -> 0 <= m_ng K -> (forall d, (d < 3)%nat -> 1 <= coord d (d_nloc D)) ->
  near K D 0 (nghost_of (m_nd K) (m_ng K)).
Proof.
  intros R H0 HN. pose proof (HN 0%nat ltac:(lia)) as N0. pose proof (HN 1%nat ltac:(lia)) as N1. pose proof (HN 2%nat ltac:(lia)) as N2.
  cbn [coord] in *. destruct (layouts K D (r_sized _ _ R)) as [[En HL]|[[En HL]|[En HL]]]; destruct HL as (G & _ & _ & _ & HNr);
    apply HNr; rewrite G, En; cbn [Nat.leb ii jj kk]; lia.
Qed.

Lemma setup_outside K far c :
  m_restart K = false -> started K -> accepted K -> owns_cells K -> (m_nickel K = true -> (1 <= m_nfx K)%nat) -> 0 <= m_ng K ->
  (forall D, ready K D -> near K D 0 c -> exists a, In a (setup_body K far c) /\ inside K D a = false) ->
  (forall D, ready K D -> (forall d, (d < 3)%nat -> 1 <= coord d (d_nloc D)) -> near K D 0 c) ->
  forall Bs, run_mem K far Bs = UB "access outside a view".
Proof.
  intros Er S A O Hn H0 Hbad Hc Bs. destruct (decomposition_sized K S) as (D & E & Z0 & L).
  assert (R : ready K D).
  { destruct S as (_ & Hg & _ & Ho). constructor; auto; [rewrite L; reflexivity|apply (Hg 0%nat); lia]. }
  unfold run_mem. rewrite E. cbn [obind]. pose proof (accepted_welcome K A) as W.
  assert (HN : forall d, (d < 3)%nat -> 1 <= coord d (d_nloc D)).
  { intros d Hd. rewrite L, coord_mk3 by exact Hd. apply O. exact Hd. }
  unfold startup_mem. rewrite Er. pose proof (proj1 (before_setup_fine K D R W H0)) as B1.
  replace (([allocate D] ++ ([Ok (fill_x_glob K)] ++ set_grid_mem K D ++ make_gravity_mem K D ++ [initialise K D far]) ++
     [over K D 0 (prim_to_cons_body K (at3 Vrho) (at4 Vu) (at3 VP) (at4 Vrhou) (at3 VE))] ++
     bcs_mem K D old_state ++ make_gravity_mem K D ++
     [over_all K D (cons_to_prim_body K Vrho Vrhou VE)] ++ [over_all K D temperature_body; over K D 0 integrate_body]) ++
     loop_mem K D true Bs ++ [over K D 0 integrate_body])
    with (([allocate D] ++ [Ok (fill_x_glob K)] ++ set_grid_mem K D ++ make_gravity_mem K D) ++ initialise K D far ::
     ([over K D 0 (prim_to_cons_body K (at3 Vrho) (at4 Vu) (at3 VP) (at4 Vrhou) (at3 VE))] ++
     bcs_mem K D old_state ++ make_gravity_mem K D ++
     [over_all K D (cons_to_prim_body K Vrho Vrhou VE)] ++ [over_all K D temperature_body; over K D 0 integrate_body] ++
     loop_mem K D true Bs ++ [over K D 0 integrate_body])) by (rewrite <- !app_assoc; reflexivity).
  unfold initialise. rewrite with_ghosts_ok by (rewrite (z_rng _ _ Z0); exact H0). cbn [obind].
  destruct A as (_ & Ar & _). rewrite (Ar Er).
  destruct (over_ok K D Z0 0 (setup_body K far) H0) as (b & e & -> & Hb).
  destruct (Hbad D R (Hc D R HN)) as (a & Ha & Hout).
  apply (perform_bad K D _ a); auto.
  unfold kernel. apply in_flat_map. exists c. split; [|exact Ha]. apply in_box_cells, Hb. apply Hc; auto.
Qed.

Lemma missing_scalar K far Bs :
  m_restart K = false -> started K -> accepted K -> owns_cells K -> 0 <= m_ng K ->
  needs_scalar (m_setup K) = true -> m_nfx K = 0%nat -> m_nickel K = false ->
  run_mem K far Bs = UB "access outside a view".
Proof.
  intros Er S A O H0 Hs Hf Hn.
  apply (setup_outside K far (nghost_of (m_nd K) (m_ng K))); auto; [congruence| |].
  - intros D R _. exists (at4 Vfx (nghost_of (m_nd K) (m_ng K)) 0). split.
    + unfold setup_body. destruct (m_setup K); try discriminate Hs.
      * repeat (apply in_or_app; right). left. reflexivity.
      * do 3 right. left. reflexivity.
      * apply in_or_app; right. apply in_or_app; right. do 2 right. left. reflexivity.
    + unfold inside, extents, at4, fxZ. rewrite Hf. cbn [fst snd ext3 app below]. unfold ext3. cbn [app below].
      rewrite !Bool.andb_false_r. cbn. rewrite ?Bool.andb_false_r. reflexivity.
  - intros. apply owned_cell; auto.
Qed.

Lemma missing_component K far Bs :
  m_restart K = false -> started K -> accepted K -> owns_cells K -> 0 <= m_ng K ->
  needs_second_component (m_setup K) = true -> m_nd K = 1%nat -> (m_nickel K = true -> (1 <= m_nfx K)%nat) ->
  far (nghost_of (m_nd K) (m_ng K)) = false ->
  run_mem K far Bs = UB "access outside a view".
Proof.
  intros Er S A O H0 Hs Hd Hn Hf.
  apply (setup_outside K far (nghost_of (m_nd K) (m_ng K))); auto.
  - intros D R _. exists (at4 Vu (nghost_of (m_nd K) (m_ng K)) 1). split.
    + unfold setup_body. destruct (m_setup K); try discriminate Hs.
      * rewrite Hf. apply in_or_app; right. right. left. reflexivity.
      * do 4 right. left. reflexivity.
      * do 5 right. left. reflexivity.
    + unfold inside, extents, at4, dimZ, ext3. rewrite Hd. cbn [fst snd app below].
      change (Z.of_nat 1 <? Z.of_nat 1) with false. rewrite Bool.andb_false_r. cbn. rewrite !Bool.andb_false_r. reflexivity.
  - intros. apply owned_cell; auto.
Qed.

Lemma missing_nickel K far B Bs :
  started K -> accepted K -> owns_cells K -> 2 <= m_ng K ->
  (m_restart K = false -> needs_second_component (m_setup K) = true -> (2 <= m_nd K)%nat) ->
  (m_restart K = false -> needs_scalar (m_setup K) = false) ->
  m_nickel K = true -> m_nfx K = 0%nat -> undisturbed B ->
  run_mem K far (B :: Bs) = UB "access outside a view".
Proof.
  intros S A O H2 P1 P2 Hn Hf HB. destruct (decomposition_sized K S) as (D & E & Z0 & L).
  set (K' := mkMem (m_geom K) (m_nd K) (m_gravity K) (m_setup K) (m_nglob K) (m_ng K) (m_nfx K) (m_dims K) (m_rank K)
        (m_restart K) (m_fix K) false (m_bcs K) (m_order K) (m_shift K)).
  assert (R : ready K' D).
  { destruct S as (_ & Hg & _ & Ho). constructor; auto.
    - destruct Z0. constructor; assumption.
    - rewrite L; reflexivity.
    - apply (Hg 0%nat); lia.
    - discriminate. }
  assert (W : welcome K') by exact (accepted_welcome K A).
  unfold run_mem. rewrite E. cbn [obind].
  assert (HN : forall d, (d < 3)%nat -> 1 <= coord d (d_nloc D)).
  { intros d Hd. rewrite L, coord_mk3 by exact Hd. apply O. exact Hd. }
  assert (F : Forall (fine K D) (startup_mem K D far)).
  { change (Forall (fine K' D) (startup_mem K' D far)). apply startup_fine; auto.
    - cbn. lia.
    - split; [exact P1|]. split; [|discriminate]. cbn. intros Er Hs. rewrite (P2 Er) in Hs. discriminate.
    - apply A.
    - cbn. lia. }
  rewrite perform_fine by exact F. cbn [loop_mem]. cbv zeta. unfold iteration_mem. unfold undisturbed in HB. rewrite HB, Hn.
  rewrite <- !app_assoc.
  rewrite perform_fine.
  2:{ apply Forall_cons; [|apply one_fine]; (apply over_fine; [exact Z0|lia|]); intros.
      - apply (time_step_ins K D Z0 (m_ng K)); auto; lia.
      - apply (energy_ins K D Z0 0); auto; lia. }
  rewrite perform_fine by apply Forall_nil.
  rewrite perform_fine by (apply reconstruction_fine; auto).
  rewrite perform_fine.
  2:{ apply Forall_cons; [|apply one_fine]; (apply over_fine; [exact Z0|lia|]); intros.
      - apply godunov_ins; auto; lia.
      - apply (godunov_scalar_ins K D Z0); auto; lia. }
  rewrite perform_fine.
  2:{ destruct (m_fix K); [|apply Forall_nil]. apply one_fine, over_fine; [exact Z0|lia|]. intros. apply fix_ins; auto; lia. }
  destruct (over_ok K D Z0 0 nickel_body ltac:(lia)) as (b & e & -> & Hb).
  apply (perform_outside K D (at4 Vfx_new (nghost_of (m_nd K) (m_ng K)) 0)).
  - unfold kernel. apply in_flat_map. exists (nghost_of (m_nd K) (m_ng K)). split.
    + apply in_box_cells, Hb. apply (owned_cell K' D R); [cbn; lia|exact HN].
    + left. reflexivity.
  - unfold inside, extents, at4, fxZ, ext3. rewrite Hf. cbn [fst snd app below]. 
    rewrite !Bool.andb_false_r. cbn. rewrite ?Bool.andb_false_r. reflexivity.
Qed.
