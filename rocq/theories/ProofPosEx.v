(** * Statements and examples for C36. *)
From Coq Require Import Lra.
From Verif Require Import Base RBase ModelMesh ModelGeom ModelBoundary ModelHydro ModelScheme ModelStep ModelMain
  SpecGeom SpecBoundary SpecHydro SpecScheme SpecStep SpecMain SpecPos ProofBase ProofBoundary ProofBoundary2 ProofHydro ProofLayout ProofStepEx ProofMainEx ProofPos ProofPos2.
Local Open Scope R_scope.

Section Statements.
Context (K : config) (N dims : idx) (X : nat -> arr1) (L : layout) (q cfl : R).

Lemma positive_loop : runs_on K N dims X L -> lawful_eos (k_eos K) -> robust_eos (k_eos K) -> first_order K ->
  increasing (k_nd K) N (k_ng K) X -> graded (k_nd K) N (k_ng K) X q -> cfl_allowed K q cfl ->
  forall G S p clock n m v, starts_from K dims L G S -> (forall c, 0 < g_rho G c /\ 0 < g_P G c) -> p_t_ini p < p_t_end p ->
  loop (hydro K L cfl) p clock n (fresh p (init_state K L S)) = (m, v) ->
  physical K dims L (m_st m) /\ (forall f, In f (m_files m) -> physical K dims L (fl_data f)) /\
  v <> Failed "detected invalid volumic internal energy".
Proof.
  intros HR He Hrob HF Hi Hg Hc G S p clock n m v Hs HG Ht H.
  assert (H0 : sound_state K dims L (init_state K L S)) by exact (sound_init K N dims X L HR He HF G S Hs HG).
  assert (F : m_st (fresh p (init_state K L S)) = init_state K L S /\ m_t (fresh p (init_state K L S)) = p_t_ini p /\
              forall f, In f (m_files (fresh p (init_state K L S))) -> fl_data f = init_state K L S).
  { unfold fresh. destruct (_ || _)%bool; cbn.
    - split; [reflexivity|]. split; [reflexivity|]. intros f [<-|[]]. reflexivity.
    - split; [reflexivity|]. split; [reflexivity|]. intros f []. }
  destruct F as (F1 & F2 & F3).
  destruct (sound_loop K N dims X L q HR He Hrob HF Hi Hg cfl Hc p clock (fresh p (init_state K L S))) with (n := n) (m := m) (v := v) as (A & B & C).
  - rewrite F1. exact H0.
  - rewrite F2. exact Ht.
  - intros f Hf. rewrite (F3 f Hf). exact H0.
  - exact H.
  - split; [exact (sound_physical K dims L He _ A)|]. split; [|exact C]. intros f Hf. exact (sound_physical K dims L He _ (B f Hf)).
Qed.

Lemma positive_restart : runs_on K N dims X L -> lawful_eos (k_eos K) -> robust_eos (k_eos K) -> first_order K ->
  increasing (k_nd K) N (k_ng K) X -> graded (k_nd K) N (k_ng K) X q -> cfl_allowed K q cfl ->
  forall G S p clock n m v f, starts_from K dims L G S -> (forall c, 0 < g_rho G c /\ 0 < g_P G c) -> fl_t f < p_t_end p ->
  loop (hydro K L cfl) p clock n (restarted f (init_state K L S)) = (m, v) ->
  physical K dims L (m_st m) /\ (forall f, In f (m_files m) -> physical K dims L (fl_data f)) /\
  v <> Failed "detected invalid volumic internal energy".
Proof.
  intros HR He Hrob HF Hi Hg Hc G S p clock n m v f Hs HG Ht H.
  assert (H0 : sound_state K dims L (init_state K L S)) by exact (sound_init K N dims X L HR He HF G S Hs HG).
  destruct (sound_loop K N dims X L q HR He Hrob HF Hi Hg cfl Hc p clock (restarted f (init_state K L S))) with (n := n) (m := m) (v := v) as (A & B & C).
  - exact H0.
  - exact Ht.
  - intros g [].
  - exact H.
  - split; [exact (sound_physical K dims L He _ A)|]. split; [|exact C]. intros g Hf. exact (sound_physical K dims L He _ (B g Hf)).
Qed.

Lemma positive_run_cfl : runs_on K N dims X L -> lawful_eos (k_eos K) -> robust_eos (k_eos K) -> first_order K ->
  increasing (k_nd K) N (k_ng K) X -> graded (k_nd K) N (k_ng K) X q -> cfl_allowed K q cfl ->
  forall G S t n, starts_from K dims L G S -> (forall c, 0 < g_rho G c /\ 0 < g_P G c) ->
  physical K dims L (snd (run_cfl K L cfl n t (init_state K L S))).
Proof.
  intros HR He Hrob HF Hi Hg Hc G S t n Hs HG. apply (sound_physical K dims L He).
  apply (sound_run_cfl K N dims X L q HR He Hrob HF Hi Hg cfl Hc). exact (sound_init K N dims X L HR He HF G S Hs HG).
Qed.
End Statements.

(** ** A blast: hot dense cells next to cold thin ones, at a high Mach number, on 3 x 2 processes *)
Definition pos_K (s : solver) : config :=
  mkConfig Cartesian 2 2 (pg_eos (mkPG (5 / 3) 1)) LConstant s None UOff (GUniform (fun _ => 0)) ex_bcs [2; 3; 0; 1]%nat.
Definition pos_L s := the_layout (pos_K s) ex_N ex_dims ex_X.
Definition pos_G : gfields :=
  mkG (fun c => if Z.even (ii c + jj c) then 1000 else 1 / 1000)
      (fun c d => if Z.even (ii c) then 100 else - 100)
      (fun c => if Z.even (jj c) then 1000000 else 1 / 1000000)
      (fun _ _ => 1).

Lemma pos_runs s : runs_on (pos_K s) ex_N ex_dims ex_X (pos_L s).
Proof.
  assert (H3 : forall d, (d < 3)%nat -> (1 <= coord d ex_N)%Z) by (dims3; vm_compute; congruence).
  assert (H4 : forall d, (d < 3)%nat -> (1 <= coord d (mpi_dims 2 ex_dims))%Z) by (dims3; vm_compute; congruence).
  split; cbn [pos_K k_nd k_ng k_order].
  - apply the_layout_ok; cbn [pos_K k_nd k_ng]; try lia; [exact H3|exact H4|exact ex_coords].
  - unfold pos_L, the_layout. cbn [l_dec pos_K k_nd k_ng]. apply decs_thick; try lia; [exact H3|exact H4|].
    intros d Hd; destruct d as [|[|d]]; [| |lia]; vm_compute; congruence.
  - lia.
  - intros f Hf. cbn in Hf. lia.
  - exact I.
Qed.

Lemma positive_example s : s = HLL \/ s = HLLC ->
  let K := pos_K s in let L := pos_L s in
  runs_on K ex_N ex_dims ex_X L /\ lawful_eos (k_eos K) /\ robust_eos (k_eos K) /\ first_order K /\
  increasing 2 ex_N 2 ex_X /\ graded 2 ex_N 2 ex_X 1 /\ cfl_allowed K 1 (1 / 4) /\
  starts_from K ex_dims L pos_G (the_state K L pos_G) /\ (forall c, 0 < g_rho pos_G c /\ 0 < g_P pos_G c) /\
  (exists c c' c'', g_rho pos_G c <> g_rho pos_G c' /\ g_u pos_G c 0%nat <> g_u pos_G c' 0%nat /\ g_P pos_G c <> g_P pos_G c'').
Proof.
  intros Hs K L. split; [exact (pos_runs s)|]. split; [exact ex_eos|].
  split; [apply perfect_gas_robust; cbn; lra|].
  split; [split; try reflexivity; exists (fun _ => 0); auto|].
  split; [exact (proj2 ex_widths)|].
  split. { intros d i Hd H1 H2. cbn [ex_X a_at]. rewrite !plus_IZR. lra. }
  split. { unfold cfl_allowed. cbn [K pos_K k_sol k_nd]. split; [lra|]. split; [lra|]. destruct Hs as [-> | ->]; cbn; lra. }
  split; [apply the_state_ok|].
  split. { intros c. cbn. destruct (Z.even (ii c + jj c)), (Z.even (jj c)); lra. }
  exists (I3 0 0 0), (I3 1 0 0), (I3 0 1 0). cbn. repeat split; lra.
Qed.

Lemma accepted_gas gam mmw g : make_perfect_gas gam mmw = Ok g -> lawful_eos (pg_eos g) /\ robust_eos (pg_eos g).
Proof.
  destruct g as [a b]. intros H. apply (proj1 (proj1 (make_perfect_gas_spec gam mmw) a b)) in H. destruct H as (_ & _ & Ha & Hb).
  split; [apply pg_lawful; split; assumption|now apply perfect_gas_robust].
Qed.
