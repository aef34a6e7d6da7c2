(** * Statements and examples of PropScheme.v. *)
From Coq Require Import FunctionalExtensionality.
From Verif Require Import Base RBase ModelMesh ModelGeom ModelBoundary ModelHydro ModelScheme SpecHydro SpecScheme
  ProofBase ProofR ProofHydro ProofHydro2 ProofScheme ProofAxes ProofMirror.
Local Open Scope R_scope.

Lemma clamp_strict x : 0 < clamp x 0 1 < 1 -> clamp x 0 1 = x.
Proof.
  unfold clamp. destruct (rltb x 0); [lra|]. destruct (rltb 1 x); [lra|reflexivity].
Qed.

Lemma god_scalar_balance_strict p g nd e s m grav dt a old r b en n :
  (nd <= 3)%nat -> box_ok b en -> (forall c, in_box b en c -> p c = true) ->
  (forall c, in_box b en c -> dv g nd m c <> 0) ->
  let new := godunov p g nd e s m grav dt a r old in
  let F c d := riemann s nd e (r_q r (lindex d c) 1%nat d) (r_q r c 0%nat d) d in
  (forall c, in_box b en c -> c_rho (new c) <> 0 /\ 0 < c_fx (new c) n < 1) ->
  total (dv g nd m) (fun c => c_fx (new c) n * c_rho (new c)) b en
  - total (dv g nd m) (fun c => c_fx (a c) n * c_rho (a c)) b en
  = dt * inflow nd (ds g nd m)
      (fun c d => (if rltb (f_rho (F c d)) 0 then r_fx r c 0%nat d n else r_fx r (lindex d c) 1%nat d n)
                  * f_rho (F c d)) b en.
Proof.
  intros Hnd Hb Hp Hv new F H. apply god_scalar_balance; try assumption.
  intros c Hc. destruct (H c Hc) as [H1 H2]. split; [exact H1|].
  unfold new in H2. rewrite (god_in p g nd e s m grav dt a old r b en Hp c Hc) in H2 |- *. cbn in H2 |- *.
  rewrite <- (clamp_strict _ H2). lra.
Qed.

Lemma step_reflected nd e : lawful_eos e -> (nd <= 3)%nat ->
  forall d M l s m m' dth dt p1 p1' p2 p2' rho rho' u u' P P' fx fx' grav grav' a a' rold rold' old old',
  (d < nd)%nat ->
  (forall c, mesh_refl d M m m' c) ->
  (forall c, p1 c = true -> p1' (refl d M c) = true) -> (forall c, p2' (refl d M c) = p2 c) ->
  (forall c c', p2 c = true -> in_stencil nd c c' -> p1 c' = true) ->
  (forall c, rho' (refl d M c) = rho c) -> (forall c, P' (refl d M c) = P c) ->
  (forall c k, u' (refl d M c) k = sg d k (u c k)) -> (forall c n, fx' (refl d M c) n = fx c n) ->
  (forall c k, grav' (refl d M c) k = sg d k (grav c k)) ->
  (forall c, a' (refl d M c) = negate_momentum d (a c)) ->
  (forall c, old' (refl d M c) = negate_momentum d (old c)) ->
  let r := hydro_reconstruction p1 Cartesian nd e l m grav dth rho u P fx rold in
  let r' := hydro_reconstruction p1' Cartesian nd e l m' grav' dth rho' u' P' fx' rold' in
  (forall c sd k, p1 c = true -> (sd < 2)%nat -> (k < nd)%nat -> valid_cons nd (r_q r c sd k)) ->
  forall c,
    godunov p2' Cartesian nd e s m' grav' dt a' r' old' (refl d M c)
    = negate_momentum d (godunov p2 Cartesian nd e s m grav dt a r old c).
Proof.
  intros He Hnd d M l s m m' dth dt p1 p1' p2 p2' rho rho' u u' P P' fx fx' grav grav' a a' rold rold' old old'
    Hd Hm Hp1 Hp2 Hst Hrho HP Hu Hfx Hg Ha Ho r r' Hval c.
  unfold godunov, kwrite. rewrite Hp2. destruct (p2 c) eqn:Ec; [|apply Ho].
  apply god_cell_refl; try assumption; auto.
  - intros c' sd k Hc' Hs Hk. apply recon_refl; auto; try lia. now apply (Hst c). apply Hp1. now apply (Hst c).
  - intros c' sd k n Hc' Hs Hk. apply recon_refl; auto; try lia. now apply (Hst c). apply Hp1. now apply (Hst c).
  - intros c' sd k Hc' Hs Hk. apply Hval; auto. now apply (Hst c).
Qed.

Lemma c21_example :
  let m : mesh := fun d i => IZR i in
  let b := I3 2 2 0 in let en := I3 5 4 1 in
  box_ok b en /\ (forall c, in_box b en c -> dv Cartesian 2 m c <> 0) /\
  box_cells b en <> [] /\ lower_side b en 0 <> upper_side b en 0.
Proof.
  cbv zeta. split; [|split; [|split]].
  - intros d Hd. destruct d as [|[|[|d]]]; cbn; lia.
  - intros c _. cbn. unfold cart_dv, mdx. rewrite !plus_IZR. lra.
  - cbn. discriminate.
  - cbn. discriminate.
Qed.

Lemma c33_example :
  let m : mesh := fun d i => IZR i in
  let q := mkCell 2 (fun _ => 0) 1 (fun _ => 0) in
  let r := mkRec (fun _ _ _ => cons_of q) (fun _ _ _ _ => 0) in
  c_rhou (godunov (fun _ => true) Cartesian 1 (pg_eos (mkPG 2 1)) HLL m (fun _ _ => 3) 1 (fun _ => q) r (fun _ => q) (I3 0 0 0)) 0%nat = 6.
Proof.
  cbv zeta.
  assert (L : lawful_eos (pg_eos (mkPG 2 1))) by (apply pg_lawful; cbn; split; cbn; lra).
  destruct (godunov_gravity (fun _ => true) Cartesian 1 (pg_eos (mkPG 2 1)) HLL (fun d i => IZR i) (fun _ _ => 3) 1
    (fun _ => mkCell 2 (fun _ => 0) 1 (fun _ => 0))
    (mkRec (fun _ _ _ => cons_of (mkCell 2 (fun _ => 0) 1 (fun _ => 0))) (fun _ _ _ _ => 0))
    (fun _ => mkCell 2 (fun _ => 0) 1 (fun _ => 0)) (I3 0 0 0) eq_refl) as (_ & H & _).
  rewrite H. unfold godunov, kwrite.
  destruct (godunov_rest Cartesian 1 (pg_eos (mkPG 2 1)) HLL (fun d i => IZR i) (fun _ _ => 0) 1
    (fun _ => mkCell 2 (fun _ => 0) 1 (fun _ => 0))
    (mkRec (fun _ _ _ => cons_of (mkCell 2 (fun _ => 0) 1 (fun _ => 0))) (fun _ _ _ _ => 0)) (I3 0 0 0) L) as (_ & Hz & _);
    try reflexivity; try lia.
  - split; cbn; [lra|]. unfold internal, kinetic. cbn. lra.
  - intros d _. repeat split.
  - rewrite Hz. cbn. lra.
Qed.

Lemma c58_example :
  let tau := fun d => match d with 0 => 1 | 1 => 2 | 2 => 0 | n => n end%nat in
  let sigma := fun d => match d with 0 => 2 | 1 => 0 | 2 => 1 | n => n end%nat in
  axis_perm 3 sigma tau /\ relabel_idx tau (I3 4 5 6) = I3 5 6 4 /\
  (forall f : idx -> R, forall c, (fun c' => f (relabel_idx sigma c')) (relabel_idx tau c) = f c).
Proof.
  cbv zeta. split; [constructor|split].
  - intros [|[|[|d]]]; reflexivity.
  - intros [|[|[|d]]]; reflexivity.
  - intros [|[|[|d]]]; lia.
  - intros [|[|[|d]]]; lia.
  - reflexivity.
  - intros f [i j k]. reflexivity.
Qed.

Lemma c63_example :
  let m : mesh := fun d i => IZR i in
  (forall c, mesh_refl 0 5 m m c) /\ refl 0 5 (I3 2 7 0) = I3 3 7 0 /\
  (forall f : idx -> R, forall c, (fun c' => f (refl 0 5 c')) (refl 0 5 c) = f c).
Proof.
  cbv zeta. split; [|split].
  - intros c k i _ _. unfold mdx. rewrite !plus_IZR. lra.
  - reflexivity.
  - intros f c. cbv beta. rewrite refl_refl by lia. reflexivity.
Qed.
