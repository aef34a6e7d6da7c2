(** * Proofs about output and restart files. *)
From Coq Require Import Ascii Reals ZifyBool.
From Verif Require Import Base RBase ModelMesh ModelGeom ModelBoundary ModelHydro ModelScheme ModelStep ModelUtil ModelIni ModelMain
  ModelIO ModelSetup ModelParam ModelH5 SpecMesh SpecGeom SpecBoundary SpecIO SpecStep SpecH5 ProofBase ProofMesh ProofBoundary ProofUtil ProofIO ProofMain2 ProofSteady.
Local Open Scope string_scope.
Local Open Scope Z_scope.
Local Open Scope list_scope.

(** ** Views and their memory *)
Lemma rm3_parts n c : in_array n c -> rm3 n c mod ii n = ii c /\ rm3 n c / ii n mod jj n = jj c /\ rm3 n c / ii n / jj n = kk c.
Proof.
  intros H. pose proof (H 0%nat ltac:(lia)) as H0. pose proof (H 1%nat ltac:(lia)) as H1. cbn [coord] in H0, H1. unfold rm3.
  assert (E : ((kk c * jj n + jj c) * ii n + ii c) / ii n = kk c * jj n + jj c).
  { rewrite Z.div_add_l by lia. rewrite Z.div_small by lia. lia. }
  rewrite E. split; [|split].
  - rewrite Z.add_comm, Z.mod_add by lia. apply Z.mod_small. lia.
  - rewrite Z.add_comm, Z.mod_add by lia. apply Z.mod_small. lia.
  - rewrite Z.div_add_l by lia. rewrite Z.div_small by lia. lia.
Qed.
Lemma memory3_at n a c : in_array n c -> memory3 n a (ModelIO.at3 n c) = a c.
Proof.
  intros H. unfold memory3. rewrite at3_rm. destruct (rm3_parts n c H) as (A & B & C). rewrite A, B, C.
  pose proof (H 2%nat ltac:(lia)) as H2. cbn [coord] in H2. rewrite Z.mod_small by lia. now destruct c.
Qed.
Lemma memory4_at n a c m v : in_array n c -> memory4 n a (ModelIO.at4 n c m (Z.of_nat v)) = a c v.
Proof.
  intros H. unfold memory4. rewrite at4_rm.
  pose proof (H 0%nat ltac:(lia)) as H0. pose proof (H 1%nat ltac:(lia)) as H1. pose proof (H 2%nat ltac:(lia)) as H2. cbn [coord] in H0, H1, H2.
  destruct (rm3_parts n c H) as (A & B & C).
  replace (rm3 n c + ii n * jj n * kk n * Z.of_nat v) with (rm3 n c + (jj n * kk n * Z.of_nat v) * ii n) by ring.
  rewrite Z.mod_add, A by lia. rewrite Z.div_add by lia.
  replace (jj n * kk n * Z.of_nat v) with ((kk n * Z.of_nat v) * jj n) by ring. rewrite Z.mod_add, B by lia. rewrite Z.div_add, C by lia.
  replace (kk c + kk n * Z.of_nat v) with (kk c + Z.of_nat v * kk n) by ring. rewrite Z.mod_add, Z.mod_small by lia.
  rewrite Z.div_add, Z.div_small by lia. cbn [Z.add]. rewrite Nat2Z.id. now destruct c.
Qed.

(** ** Names *)
Lemma find_app {A : Type} (l l' : list (string * A)) n :
  ModelH5.find (l ++ l') n = match ModelH5.find l n with Some x => Some x | None => ModelH5.find l' n end.
Proof. unfold ModelH5.find. induction l as [|[k x] l IH]; cbn; [reflexivity|]. destruct (String.eqb k n); [reflexivity|exact IH]. Qed.
Lemma find_absent {A : Type} (l : list (string * A)) n : ~ In n (map fst l) -> ModelH5.find l n = None.
Proof.
  unfold ModelH5.find. induction l as [|[k x] l IH]; cbn; [reflexivity|]. intros H. destruct (String.eqb_spec k n) as [->|]; [tauto|]. apply IH. tauto.
Qed.
Lemma find_named {A B : Type} (name : A -> string) (g : A -> outcome B) l xs :
  omap (fun a => obind (g a) (fun x => Ok (name a, x))) l = Ok xs -> NoDup (map name l) ->
  map fst xs = map name l /\ forall a, In a l -> exists x, g a = Ok x /\ ModelH5.find xs (name a) = Some x.
Proof.
  intros H D. apply omap_ok in H. induction H as [|a p l xs Ha H IH]; [split; [reflexivity|intros a []]|].
  destruct (g a) as [x|w|w] eqn:Eg; cbn in Ha; try discriminate. injection Ha as <-. cbn in D. inversion D as [|? ? D1 D2]; subst.
  destruct (IH D2) as [E F]. split; [cbn; now rewrite E|]. intros b [<-|Hb].
  - exists x. split; [exact Eg|]. unfold ModelH5.find. cbn. now rewrite String.eqb_refl.
  - destruct (F b Hb) as (y & Ey & Fy). exists y. split; [exact Ey|]. unfold ModelH5.find in *. cbn. destruct (String.eqb_spec (name a) (name b)) as [E'|]; [|exact Fy].
    exfalso. apply D1. rewrite E'. now apply in_map.
Qed.
Lemma scalar_inj a b : scalar_name a = scalar_name b -> a = b.
Proof.
  unfold scalar_name. intros H. apply append_inj_l in H.
  pose proof (padded_inj (Z.of_nat a) (Z.of_nat b) 0 0 ltac:(lia) ltac:(lia) H). lia.
Qed.
Lemma scalar_digit n : (n < 10)%nat -> scalar_name n = ("fx" ++ nth n digits10 "")%string.
Proof. intros H. do 10 (destruct n as [|n]; [reflexivity|]). lia. Qed.
Lemma velocity_nth d : (d < 3)%nat -> velocity_name d = nth d ["ux0"; "ux1"; "ux2"] "".
Proof. intros H. do 3 (destruct d as [|d]; [reflexivity|]). lia. Qed.
Lemma velocity_inj a b : (a < 3)%nat -> (b < 3)%nat -> velocity_name a = velocity_name b -> a = b.
Proof. intros Ha Hb. do 3 (destruct a as [|a]; [do 3 (destruct b as [|b]; [cbn; intros; congruence|]); lia|]). lia. Qed.
Lemma velocity_char d : exists s, velocity_name d = String "u" s.
Proof. destruct d as [|[|d]]; eexists; reflexivity. Qed.

Lemma omap_ext_in {A B : Type} (f g : A -> outcome B) l : (forall a, In a l -> f a = g a) -> omap f l = omap g l.
Proof.
  induction l as [|a l IH]; intros H; [reflexivity|]. cbn [omap]. rewrite (H a (or_introl eq_refl)), IH; [reflexivity|].
  intros b Hb. apply H. now right.
Qed.

(** ** Writing *)
Section Write.
Variables (K : ModelStep.config) (N dims : idx) (X : nat -> arr1) (L : layout) (nfx : Z).
Hypothesis HL : laid_out K N dims X L.
Notation nd := (k_nd K).
Notation ng := (k_ng K).
Let D := lo_dec HL.

Lemma owned_array r c : process nd dims r -> owned nd ng (d_nloc (l_dec L r)) c -> in_array (d_nwg (l_dec L r)) c.
Proof.
  intros Hr Hc d Hd. specialize (Hc d Hd). destruct (block_facts nd N dims ng (l_dec L) D r d Hr Hd) as (_ & _ & _ & E & _ & G). rewrite E. lia.
Qed.
Lemma distributed3 (a : idx -> idx -> R) F : holds_owned nd dims ng (l_dec L) F a ->
  exists x, distributed nd N L (fun r => mem3 nd ng (l_dec L r)) (fun r => memory3 (d_nwg (l_dec L r)) (a r)) = Ok x /\
    ds_dims x = [kk N; jj N; ii N] /\ forall g, global_cell N g -> ds_at x (at_file N g) = F g.
Proof.
  intros H. unfold distributed.
  destruct (write_field nd N dims ng (l_dec L) D (ranks (l_dims L)) F (fun r => memory3 (d_nwg (l_dec L r)) (a r)) (fun _ => 0%R)) as (x & E & A).
  - apply NoDup_box_cells.
  - intros r. exact (in_ranks' K N dims X L HL r).
  - intros r Hr c Hc. rewrite memory3_at by (now apply owned_array). now apply H.
  - rewrite E. cbn [obind]. eexists. split; [reflexivity|]. split; [reflexivity|exact A].
Qed.
Lemma distributed4 (a : idx -> idx -> nat -> R) n v F : (Z.of_nat v < n) -> holds_owned nd dims ng (l_dec L) F (fun r c => a r c v) ->
  exists x, distributed nd N L (fun r => mem4 nd ng (l_dec L r) n (Z.of_nat v)) (fun r => memory4 (d_nwg (l_dec L r)) (a r)) = Ok x /\
    ds_dims x = [kk N; jj N; ii N] /\ forall g, global_cell N g -> ds_at x (at_file N g) = F g.
Proof.
  intros Hv H. unfold distributed.
  destruct (write_component nd N dims ng (l_dec L) D (ranks (l_dims L)) n (Z.of_nat v) F (fun r => memory4 (d_nwg (l_dec L r)) (a r)) (fun _ => 0%R)) as (x & E & A).
  - lia.
  - apply NoDup_box_cells.
  - intros r. exact (in_ranks' K N dims X L HL r).
  - intros r Hr c Hc. rewrite memory4_at by (now apply owned_array). now apply H.
  - rewrite E. cbn [obind]. eexists. split; [reflexivity|]. split; [reflexivity|exact A].
Qed.
(** Some global field is always there. *)
Lemma written3 (a : idx -> idx -> R) : exists x, distributed nd N L (fun r => mem3 nd ng (l_dec L r)) (fun r => memory3 (d_nwg (l_dec L r)) (a r)) = Ok x.
Proof. destruct (gather K N dims X L HL a) as (F & HF). destruct (distributed3 a F HF) as (x & E & _). now exists x. Qed.
Lemma written4 (a : idx -> idx -> nat -> R) n v : Z.of_nat v < n ->
  exists x, distributed nd N L (fun r => mem4 nd ng (l_dec L r) n (Z.of_nat v)) (fun r => memory4 (d_nwg (l_dec L r)) (a r)) = Ok x.
Proof. intros Hv. destruct (gather K N dims X L HL (fun r c => a r c v)) as (F & HF). destruct (distributed4 a n v F Hv HF) as (x & E & _). now exists x. Qed.

Lemma field_of h name x F : h_real h name = Some x -> ds_dims x = [kk N; jj N; ii N] ->
  (forall g, global_cell N g -> ds_at x (at_file N g) = F g) -> field_in h name N F.
Proof. intros A B C. exists x. split; [exact A|]. split; [exact B|]. intros g Hg. specialize (C g Hg). rewrite at_file_rm in C. exact C. Qed.

Lemma nd_ok : (1 <= nd <= 3)%nat.
Proof. exact (dcp_nd D). Qed.

Lemma write_ok gamma T (f : file (idx -> pstate)) G : (Z.to_nat nfx <= 10)%nat -> holds_fields nd ng (Z.to_nat nfx) dims L G (fl_data f) ->
  exists h, write_pdi nd ng nfx N L X gamma T f = Ok h /\
    holds_run nd (Z.to_nat nfx) N X (fl_oid f) (fl_iid f) (fl_tid f) (fl_iter f) (fl_t f) G h.
Proof.
  intros Hx [Hrho HP Hu Hfx]. pose proof nd_ok as Hnd. unfold write_pdi. cbv zeta.
  match goal with |- context [omap ?g (seq 0 nd)] => destruct (omap_all g (seq 0 nd)) as (us & Eus) end.
  { intros d Hd. apply in_seq in Hd. destruct (written4 (fun r => s_u (fl_data f r)) (Z.of_nat nd) d ltac:(lia)) as (x & E). rewrite E. eexists. reflexivity. }
  rewrite Eus. cbn [obind].
  destruct (distributed3 _ _ Hrho) as (rho & Er & Dr & Ar). rewrite Er. cbn [obind].
  destruct (distributed3 _ _ HP) as (P & EP & DP & AP). rewrite EP. cbn [obind].
  destruct (written3 (fun r c => c_E (s_cell (fl_data f r) c))) as (E & EE). rewrite EE. cbn [obind].
  destruct (written3 T) as (T' & ET). rewrite ET. cbn [obind].
  rewrite (omap_ext_in _ (fun n => obind (distributed nd N L (fun r => mem4 nd ng (l_dec L r) nfx (Z.of_nat n))
      (fun r => memory4 (d_nwg (l_dec L r)) (fun c => c_fx (s_cell (fl_data f r) c)))) (fun x => Ok (scalar_name n, x))) (seq 0 (Z.to_nat nfx))).
  2:{ intros n Hn. apply in_seq in Hn. replace (n <? declared_scalars)%nat with true by (unfold declared_scalars; lia). reflexivity. }
  match goal with |- context [omap ?g (seq 0 (Z.to_nat nfx))] => destruct (omap_all g (seq 0 (Z.to_nat nfx))) as (fxs & Efx) end.
  { intros n Hn. apply in_seq in Hn.
    destruct (written4 (fun r c => c_fx (s_cell (fl_data f r) c)) nfx n ltac:(lia)) as (x & Ex). rewrite Ex. eexists. reflexivity. }
  rewrite Efx. cbn [obind]. eexists. split; [reflexivity|].
  destruct (find_named velocity_name _ _ _ Eus) as [Nu Fu].
  { apply NoDup_map_in; [|apply seq_NoDup]. intros a b Ha Hb. apply in_seq in Ha, Hb. apply velocity_inj; lia. }
  destruct (find_named scalar_name _ _ _ Efx) as [Nf Ff].
  { apply NoDup_map_in; [|apply seq_NoDup]. intros a b _ _. apply scalar_inj. }
  assert (Au : forall n, (forall s, n <> String "u" s) -> ModelH5.find us n = None).
  { intros n H. apply find_absent. rewrite Nu. intros I. apply in_map_iff in I. destruct I as (d & <- & _). destruct (velocity_char d) as (s & Es). now apply (H s). }
  assert (Af : forall n, (forall s, n <> String "f" s) -> ModelH5.find fxs n = None).
  { intros n H. apply find_absent. rewrite Nf. intros I. apply in_map_iff in I. destruct I as (d & <- & _). now apply (H (String "x" (decimal (Z.of_nat d)))). }
  set (h := mkH5 _ _).
  assert (Hh : forall n, h_real h n = match ModelH5.find (replicated nd ng N X (fl_t f) gamma) n with Some x => Some x | None =>
     match ModelH5.find us n with Some x => Some x | None => match ModelH5.find [("rho", rho); ("P", P); ("E", E); ("T", T')] n with Some x => Some x | None =>
       ModelH5.find fxs n end end end).
  { intros n. unfold h. cbn [h_real]. now rewrite !find_app. }
  assert (Hn : forall n, ~ In n (map fst (replicated nd ng N X (fl_t f) gamma)) -> h_real h n =
     match ModelH5.find us n with Some x => Some x | None => match ModelH5.find [("rho", rho); ("P", P); ("E", E); ("T", T')] n with Some x => Some x | None =>
       ModelH5.find fxs n end end).
  { intros n I. now rewrite Hh, (find_absent _ _ I). }
  assert (Hi : h_int h "output_id" = Some (fl_oid f) /\ h_int h "iter_output_id" = Some (fl_iid f) /\
    h_int h "time_output_id" = Some (fl_tid f) /\ h_int h "iter" = Some (fl_iter f)) by (repeat split; reflexivity).
  clearbody h. destruct Hi as (I1 & I2 & I3 & I4).
  assert (Nr : map fst (replicated nd ng N X (fl_t f) gamma) = ["current_time"; "gamma"; "x0"; "x0_ng"; "x1"; "x1_ng"; "x2"; "x2_ng"]) by reflexivity.
  rewrite Nr in Hn.
  split; auto.
  - eexists. rewrite Hh. split; [reflexivity|]. split; reflexivity.
  - eexists. rewrite Hh. split; [reflexivity|]. split; reflexivity.
  - eexists. rewrite Hh. split; [reflexivity|]. split; reflexivity.
  - eexists. rewrite Hh. split; [reflexivity|]. split; reflexivity.
  - apply (field_of h "rho" rho); auto. rewrite Hn by (cbn; intuition discriminate). rewrite Au by discriminate. reflexivity.
  - apply (field_of h "P" P); auto. rewrite Hn by (cbn; intuition discriminate). rewrite Au by discriminate. reflexivity.
  - intros d Hd. rewrite <- velocity_nth by lia. destruct (Fu d) as (x & Ex & Fx); [apply in_seq; lia|].
    destruct (distributed4 (fun r => s_u (fl_data f r)) (Z.of_nat nd) d _ ltac:(lia) (Hu d Hd)) as (x' & Ex' & Dx & Ax).
    rewrite Ex' in Ex. injection Ex as <-. apply (field_of h _ x'); auto.
    rewrite Hn by (destruct d as [|[|d]]; cbn; intuition discriminate). now rewrite Fx.
  - intros n Hn'. rewrite <- scalar_digit by lia. destruct (Ff n) as (x & Ex & Fx); [apply in_seq; lia|].
    destruct (distributed4 (fun r c => c_fx (s_cell (fl_data f r) c)) nfx n _ ltac:(lia) (Hfx n Hn')) as (x' & Ex' & Dx & Ax).
    rewrite Ex' in Ex. injection Ex as <-. apply (field_of h _ x'); auto.
    rewrite Hn by (unfold scalar_name; cbn; intuition discriminate). rewrite Au by discriminate. cbn [ModelH5.find List.find fst].
    unfold scalar_name in Fx |- *. cbn [append String.eqb Ascii.eqb Bool.eqb]. exact Fx.
  - intros n H1. change (h_real h (scalar_name n) = None).
    rewrite Hn by (unfold scalar_name; cbn; intuition discriminate). rewrite Au by discriminate.
    replace (ModelH5.find [("rho", rho); ("P", P); ("E", E); ("T", T')] (scalar_name n)) with (@None dataset) by reflexivity.
    apply find_absent. rewrite Nf. intros I. apply in_map_iff in I. destruct I as (m & Em & Im). apply scalar_inj in Em. subst m. apply in_seq in Im. lia.
Qed.
End Write.

Lemma write_too_many K N dims X L nfx gamma T f : laid_out K N dims X L -> (10 < Z.to_nat nfx)%nat ->
  exists w, write_pdi (k_nd K) (k_ng K) nfx N L X gamma T f = Throw w.
Proof.
  intros HL Hx. unfold write_pdi. cbv zeta.
  match goal with |- context [omap ?g (seq 0 (k_nd K))] => destruct (omap_all g (seq 0 (k_nd K))) as (us & Eus) end.
  { intros d Hd. apply in_seq in Hd. destruct (written4 K N dims X L HL (fun r => s_u (fl_data f r)) (Z.of_nat (k_nd K)) d ltac:(lia)) as (x & E). rewrite E. eexists. reflexivity. }
  rewrite Eus. cbn [obind].
  destruct (written3 K N dims X L HL (fun r c => c_rho (s_cell (fl_data f r) c))) as (rho & Er). rewrite Er. cbn [obind].
  destruct (written3 K N dims X L HL (fun r => s_P (fl_data f r))) as (P & EP). rewrite EP. cbn [obind].
  destruct (written3 K N dims X L HL (fun r c => c_E (s_cell (fl_data f r) c))) as (E & EE). rewrite EE. cbn [obind].
  destruct (written3 K N dims X L HL T) as (T' & ET). rewrite ET. cbn [obind].
  match goal with |- context [omap ?g (seq 0 (Z.to_nat nfx))] => destruct (omap_bad g (seq 0 (Z.to_nat nfx)) 10%nat "PDI: dataset selection of an undeclared dataset") as (w & Ew) end.
  - apply in_seq. lia.
  - reflexivity.
  - intros n Hn. apply in_seq in Hn. destruct (n <? declared_scalars)%nat; [|right; eexists; reflexivity]. left.
    destruct (written4 K N dims X L HL (fun r c => c_fx (s_cell (fl_data f r) c)) nfx n ltac:(lia)) as (x & Ex). rewrite Ex. eexists. reflexivity.
  - exists w. now rewrite Ew.
Qed.

(** ** Reading *)
Lemma add_sub' a b : iadd a (isub b a) = b.
Proof. unfold iadd, isub. destruct b; cbn. f_equal; lia. Qed.
Lemma axis_ok nd N h nfx X oid iid tid iter t G d : holds_run nd nfx N X oid iid tid iter t G h -> (d < 3)%nat -> axis_in h (axis_name d) (X d).
Proof. intros H Hd. destruct d as [|[|[|d]]]; [exact (hr_x0 _ _ _ _ _ _ _ _ _ _ _ H)|exact (hr_x1 _ _ _ _ _ _ _ _ _ _ _ H)|exact (hr_x2 _ _ _ _ _ _ _ _ _ _ _ H)|lia]. Qed.

Section Read.
Variables (nd : nat) (N' dims : idx) (ng : Z) (dec : idx -> decomp) (N : idx) (h : h5).
Hypothesis D : decomposed nd N' dims ng dec.
Notation vr := (process nd dims).
Notation cmn r := (corner_min (d_range (dec r))).
Notation nlc r := (d_nloc (dec r)).
Hypothesis Hle : forall d, (d < 3)%nat -> coord d N' <= coord d N.

Lemma in_file r o : vr r -> In o (box3 (nlc r)) -> global_cell N (iadd (cmn r) o).
Proof. intros Hr Ho d Hd. pose proof (in_dataset nd N' dims ng dec D r o Hr Ho d Hd). specialize (Hle d Hd). lia. Qed.

Lemma fetch_ok name F mem P r old : field_in h name N F -> vr r -> positions mem = map P (box3 (nlc r)) ->
  fits (sl_dims mem) (sl_start mem) (sl_size mem) = true -> (forall a b, In a (box3 (nlc r)) -> In b (box3 (nlc r)) -> P a = P b -> a = b) ->
  exists m, fetch h (dec r) name mem old = Ok m /\ (forall o, In o (box3 (nlc r)) -> m (P o) = F (iadd (cmn r) o)) /\
    (forall x, (forall o, In o (box3 (nlc r)) -> x <> P o) -> m x = old x).
Proof.
  intros (x & Ex & Dx & Ax) Hr HP HF Inj. unfold fetch. rewrite Ex. cbn [need obind]. unfold part. rewrite Dx.
  assert (Ft : fits [kk N; jj N; ii N] [kk (cmn r); jj (cmn r); ii (cmn r)] [kk (nlc r); jj (nlc r); ii (nlc r)] = true).
  { pose proof (block_facts nd N' dims ng dec D r 0 Hr ltac:(lia)). pose proof (block_facts nd N' dims ng dec D r 1 Hr ltac:(lia)). pose proof (block_facts nd N' dims ng dec D r 2 Hr ltac:(lia)).
    pose proof (Hle 0 ltac:(lia)). pose proof (Hle 1 ltac:(lia)). pose proof (Hle 2 ltac:(lia)). cbn [coord] in *. cbn [fits]. lia. }
  rewrite (transfer_ok (mkSlab [kk N; jj N; ii N] [kk (cmn r); jj (cmn r); ii (cmn r)] [kk (nlc r); jj (nlc r); ii (nlc r)]) mem (ds_at x) old (box3 (nlc r)) (fun o => rm3 N (iadd (cmn r) o)) P Ft HF (sel3_positions N (cmn r) (nlc r)) HP).
  eexists. split; [reflexivity|]. split.
  - intros o Ho. rewrite (scatter_in _ _ _ (rm3 N (iadd (cmn r) o)) (P o)).
    + unfold rm3. apply Ax. now apply in_file.
    + rewrite map_map. cbn [snd]. apply NoDup_map_in; [exact Inj|apply NoDup_box3].
    + apply in_map_iff. now exists o.
  - intros y Hy. apply scatter_out. rewrite map_map. cbn [snd]. intros I. apply in_map_iff in I. destruct I as (o & E' & Ho). now apply (Hy o).
Qed.

Lemma fetch3 name F r old : field_in h name N F -> vr r ->
  exists m, fetch h (dec r) name (mem3 nd ng (dec r)) old = Ok m /\
    forall c, owned nd ng (nlc r) c -> m (ModelIO.at3 (d_nwg (dec r)) c) = F (global_index nd ng (cmn r) c).
Proof.
  intros HF Hr. destruct (fetch_ok name F (mem3 nd ng (dec r)) (P3 nd ng dec r) r old HF Hr) as (m & E & A & _).
  - apply mem3_positions.
  - now apply (mem3_fits nd N' dims ng dec D).
  - intros a b. now apply (P3_inj nd N' dims ng dec D).
  - exists m. split; [exact E|]. intros c Hc. apply (owned_offset nd dims ng dec) in Hc. specialize (A _ Hc). unfold P3 in A. rewrite add_sub' in A.
    rewrite at3_rm, A, <- (global_of_offset nd dims ng dec). now rewrite add_sub'.
Qed.
Lemma fetch4 name F n v r old : 0 <= v < n -> field_in h name N F -> vr r ->
  exists m, fetch h (dec r) name (mem4 nd ng (dec r) n v) old = Ok m /\
    (forall c, owned nd ng (nlc r) c -> m (ModelIO.at4 (d_nwg (dec r)) c n v) = F (global_index nd ng (cmn r) c)) /\
    (forall c w, owned nd ng (nlc r) c -> 0 <= w < n -> w <> v -> m (ModelIO.at4 (d_nwg (dec r)) c n w) = old (ModelIO.at4 (d_nwg (dec r)) c n w)).
Proof.
  intros Hv HF Hr. destruct (fetch_ok name F (mem4 nd ng (dec r) n v) (P4 nd ng dec v r) r old HF Hr) as (m & E & A & B).
  - apply mem4_positions.
  - now apply (mem4_fits nd N' dims ng dec D).
  - intros a b Ha Hb E. apply (P3_inj nd N' dims ng dec D r a b Hr Ha Hb). unfold P4 in E. unfold P3. lia.
  - exists m. split; [exact E|]. split.
    + intros c Hc. apply (owned_offset nd dims ng dec) in Hc. specialize (A _ Hc). unfold P4 in A. rewrite add_sub' in A.
      rewrite at4_rm, A, <- (global_of_offset nd dims ng dec). now rewrite add_sub'.
    + intros c w Hc Hw Hwv. rewrite !at4_rm. apply B. intros o Ho E'. unfold P4 in E'. apply (owned_offset nd dims ng dec) in Hc.
      pose proof (local_in_array nd N' dims ng dec D r _ Hr Hc) as Ac. rewrite add_sub' in Ac.
      pose proof (rm3_range (d_nwg (dec r)) c Ac). pose proof (rm3_range _ _ (local_in_array nd N' dims ng dec D r o Hr Ho)).
      set (vol := ii (d_nwg (dec r)) * jj (d_nwg (dec r)) * kk (d_nwg (dec r))) in *.
      assert (Ev : kk (d_nwg (dec r)) * jj (d_nwg (dec r)) * ii (d_nwg (dec r)) = vol) by (unfold vol; ring).
      rewrite Ev in *. nia.
Qed.
Lemma fetch_all_ok name (F : nat -> idx -> R) n r : (forall v, (v < n)%nat -> field_in h (name v) N (F v)) -> vr r ->
  exists m, fetch_all h nd ng (dec r) name n = Ok m /\
    forall v c, (v < n)%nat -> owned nd ng (nlc r) c -> m (ModelIO.at4 (d_nwg (dec r)) c (Z.of_nat n) (Z.of_nat v)) = F v (global_index nd ng (cmn r) c).
Proof.
  intros HF Hr. unfold fetch_all.
  assert (G : forall k s, (s + k <= n)%nat -> forall m0, (forall v c, (v < s)%nat -> owned nd ng (nlc r) c -> m0 (ModelIO.at4 (d_nwg (dec r)) c (Z.of_nat n) (Z.of_nat v)) = F v (global_index nd ng (cmn r) c)) ->
    exists m, fold_left (fun m v => obind m (fetch h (dec r) (name v) (mem4 nd ng (dec r) (Z.of_nat n) (Z.of_nat v)))) (seq s k) (Ok m0) = Ok m /\
      forall v c, (v < s + k)%nat -> owned nd ng (nlc r) c -> m (ModelIO.at4 (d_nwg (dec r)) c (Z.of_nat n) (Z.of_nat v)) = F v (global_index nd ng (cmn r) c)).
  { induction k as [|k IH]; intros s Hs m0 H0.
    - exists m0. split; [reflexivity|]. intros v c Hv. apply H0. lia.
    - cbn [seq fold_left obind]. destruct (fetch4 (name s) (F s) (Z.of_nat n) (Z.of_nat s) r m0 ltac:(lia) (HF s ltac:(lia)) Hr) as (m1 & E1 & A1 & B1).
      rewrite E1. destruct (IH (Datatypes.S s) ltac:(lia) m1) as (m & E & A).
      + intros v c Hv Hc. destruct (Nat.eq_dec v s) as [->|Hne]; [now apply A1|]. rewrite B1 by (auto; lia). apply H0; [lia|exact Hc].
      + exists m. split; [exact E|]. intros v c Hv. apply A. lia. }
  destruct (G n 0%nat ltac:(lia) (fun _ => 0%R)) as (m & E & A); [intros; lia|]. exists m. split; [exact E|]. intros v c Hv. apply A. lia.
Qed.

Variables (nfx : nat) (X : nat -> arr1) (oid iid tid iter : Z) (t : R) (G : gfields) (nfx' : Z).
Hypothesis H : holds_run nd nfx N X oid iid tid iter t G h.
Hypothesis Hext : forall d, (d < 3)%nat -> a_ext (X d) = coord d N' + 2 * ghosts nd ng d + 1.
Hypothesis Hnfx : 0 <= nfx' /\ (Z.to_nat nfx' <= nfx)%nat /\ (Z.to_nat nfx' <= 10)%nat.

Lemma check_ok d : (d < 3)%nat -> exists x, check_extent_dset h (axis_name d) (coord d N' + 2 * coord d (nghost_of nd ng) + 1) = Ok x /\
  mkArr1 (coord d N' + 2 * coord d (nghost_of nd ng) + 1) (ds_at x) = X d.
Proof.
  intros Hd. destruct (axis_ok _ _ _ _ _ _ _ _ _ _ _ d H Hd) as (x & Ex & Dx & Ax). exists x. unfold check_extent_dset. rewrite Ex. cbn [need obind]. rewrite Dx, (Hext d Hd), coord_nghost by exact Hd.
  rewrite Z.eqb_refl. split; [reflexivity|]. rewrite Ax, <- (Hext d Hd). now destruct (X d).
Qed.

Lemma read_ok r : vr r -> exists d, read_pdi nd ng nfx' N' (dec r) h = Ok d /\ restored nd ng (Z.to_nat nfx') X oid iid tid iter t G (dec r) d.
Proof.
  intros Hr. pose proof (dcp_nd D) as Hnd. unfold read_pdi. cbv zeta.
  destruct (check_ok 0 ltac:(lia)) as (x0 & E0 & A0). destruct (check_ok 1 ltac:(lia)) as (x1 & E1 & A1). destruct (check_ok 2 ltac:(lia)) as (x2 & E2 & A2).
  cbn [axis_name] in E0, E1, E2. rewrite E0, E1, E2. cbn [obind].
  rewrite (hr_oid _ _ _ _ _ _ _ _ _ _ _ H), (hr_iid _ _ _ _ _ _ _ _ _ _ _ H), (hr_tid _ _ _ _ _ _ _ _ _ _ _ H), (hr_iter _ _ _ _ _ _ _ _ _ _ _ H). cbn [need obind].
  destruct (hr_t _ _ _ _ _ _ _ _ _ _ _ H) as (xt & Et & Dt & At). unfold scalar. rewrite Et. cbn [need obind]. rewrite Dt. cbn [obind].
  destruct (fetch3 "rho" (g_rho G) r (fun _ => 0%R) (hr_rho _ _ _ _ _ _ _ _ _ _ _ H) Hr) as (rho & Er & Ar). rewrite Er. cbn [obind].
  destruct (fetch_all_ok velocity_name (fun v g => g_u G g v) nd r) as (u & Eu & Au); [|exact Hr|].
  { intros v Hv. rewrite velocity_nth by lia. exact (hr_u _ _ _ _ _ _ _ _ _ _ _ H v Hv). }
  rewrite Eu. cbn [obind].
  destruct (fetch3 "P" (g_P G) r (fun _ => 0%R) (hr_P _ _ _ _ _ _ _ _ _ _ _ H) Hr) as (P & EP & AP). rewrite EP. cbn [obind].
  destruct (fetch_all_ok scalar_name (fun v g => g_fx G g v) (Z.to_nat nfx') r) as (fx & Ef & Af); [|exact Hr|].
  { intros v Hv. rewrite scalar_digit by lia. apply (hr_fx _ _ _ _ _ _ _ _ _ _ _ H v). lia. }
  rewrite Ef. cbn [obind]. eexists. split; [reflexivity|]. split; cbn [rs_oid rs_iid rs_tid rs_iter rs_t rs_x rs_rho rs_u rs_P rs_fx]; auto.
  - intros k Hk. destruct k as [|[|[|k]]]; [exact A0|exact A1|exact A2|lia].
  - intros n Hn c Hc. specialize (Af n c Hn Hc). rewrite Z2Nat.id in Af by lia. exact Af.
Qed.
End Read.

(** Refusals. *)
Section Refuse.
Variables (nd : nat) (N' dims : idx) (ng : Z) (dec : idx -> decomp) (N : idx) (h : h5).
Hypothesis D : decomposed nd N' dims ng dec.
Notation vr := (process nd dims).
Notation cmn r := (corner_min (d_range (dec r))).
Notation nlc r := (d_nloc (dec r)).
Variables (nfx : nat) (X : nat -> arr1) (oid iid tid iter : Z) (t : R) (G : gfields) (nfx' : Z).
Hypothesis H : holds_run nd nfx N X oid iid tid iter t G h.

Lemma accepted_needs r d : vr r -> read_pdi nd ng nfx' N' (dec r) h = Ok d ->
  (forall k, (k < 3)%nat -> a_ext (X k) = coord k N' + 2 * ghosts nd ng k + 1) /\
  (forall k, (k < 3)%nat -> coord k (cmn r) + coord k (nlc r) <= coord k N) /\ (Z.to_nat nfx' <= nfx)%nat.
Proof.
  intros Hr E. unfold read_pdi in E. cbv zeta in E.
  assert (C : forall k x, (k < 3)%nat -> check_extent_dset h (axis_name k) (coord k N' + 2 * coord k (nghost_of nd ng) + 1) = Ok x -> a_ext (X k) = coord k N' + 2 * ghosts nd ng k + 1).
  { intros k x Hk. unfold check_extent_dset. destruct (axis_ok _ _ _ _ _ _ _ _ _ _ _ k H Hk) as (y & Ey & Dy & _). rewrite Ey. cbn [need obind]. rewrite Dy, coord_nghost by exact Hk.
    destruct (Z.eqb_spec (a_ext (X k)) (coord k N' + 2 * ghosts nd ng k + 1)); [auto|discriminate]. }
  destruct (check_extent_dset h "x0" _) as [x0|w|w] eqn:E0; cbn [obind] in E; try discriminate.
  destruct (check_extent_dset h "x1" _) as [x1|w|w] eqn:E1; cbn [obind] in E; try discriminate.
  destruct (check_extent_dset h "x2" _) as [x2|w|w] eqn:E2; cbn [obind] in E; try discriminate.
  split; [intros [|[|[|k]]] Hk; [exact (C 0%nat _ Hk E0)|exact (C 1%nat _ Hk E1)|exact (C 2%nat _ Hk E2)|lia]|].
  destruct (need (h_int h "output_id")); cbn [obind] in E; try discriminate.
  destruct (need (h_int h "iter_output_id")); cbn [obind] in E; try discriminate.
  destruct (need (h_int h "time_output_id")); cbn [obind] in E; try discriminate.
  destruct (need (h_int h "iter")); cbn [obind] in E; try discriminate.
  destruct (scalar _); cbn [obind] in E; try discriminate.
  destruct (fetch h (dec r) "rho" _ _) as [rho|w|w] eqn:Er; cbn [obind] in E; try discriminate.
  destruct (fetch_all h nd ng (dec r) velocity_name nd); cbn [obind] in E; try discriminate.
  destruct (fetch h (dec r) "P" _ _); cbn [obind] in E; try discriminate.
  destruct (fetch_all h nd ng (dec r) scalar_name (Z.to_nat nfx')) as [fx|w|w] eqn:Ef; cbn [obind] in E; try discriminate.
  split.
  - unfold fetch in Er. destruct (hr_rho _ _ _ _ _ _ _ _ _ _ _ H) as (x & Ex & Dx & _). rewrite Ex in Er. cbn [need obind] in Er. unfold part in Er. rewrite Dx in Er.
    unfold transfer in Er. cbn [sl_dims sl_start sl_size] in Er.
    destruct (fits [kk N; jj N; ii N] [kk (cmn r); jj (cmn r); ii (cmn r)] [kk (nlc r); jj (nlc r); ii (nlc r)]) eqn:Ft; [|discriminate].
    cbn [fits] in Ft. intros [|[|[|k]]] Hk; cbn [coord]; lia.
  - destruct (le_lt_dec (Z.to_nat nfx') nfx) as [|Hlt]; [assumption|exfalso]. unfold fetch_all in Ef.
    pose proof (hr_no_fx _ _ _ _ _ _ _ _ _ _ _ H nfx (le_n _)) as Hno.
    replace (seq 0 (Z.to_nat nfx')) with (seq 0 (nfx + (1 + (Z.to_nat nfx' - nfx - 1)))) in Ef by (f_equal; lia).
    rewrite seq_app, fold_left_app in Ef. cbn [seq Nat.add] in Ef. cbn [fold_left] in Ef.
    set (m0 := fold_left _ (seq 0 nfx) _) in Ef.
    assert (B : forall l (m : outcome (Z -> R)), (forall x, m <> Ok x) -> forall x, fold_left (fun m v => obind m (fetch h (dec r) (scalar_name v) (mem4 nd ng (dec r) (Z.of_nat (Z.to_nat nfx')) (Z.of_nat v)))) l m <> Ok x).
    { induction l as [|v0 l IH]; intros m Hm; [exact Hm|]. cbn [fold_left]. apply IH. intros x. destruct m as [y|y|y]; [now destruct (Hm y)|discriminate..]. }
    apply (B _ _) in Ef; [exact Ef|]. intros x. destruct m0 as [y|y|y]; cbn [obind]; try discriminate. unfold fetch, scalar_name. rewrite Hno. discriminate.
Qed.
End Refuse.

Lemma accepted_iff nd ng N X dims' N' ng' nfx nfx' dec' oid iid tid iter t G h :
  global_coords nd N ng X -> decomposed nd N' dims' ng' dec' -> 0 <= nfx' <= 10 ->
  holds_run nd nfx N X oid iid tid iter t G h ->
  ((forall r, process nd dims' r -> exists d, read_pdi nd ng' nfx' N' (dec' r) h = Ok d) <->
   (forall d, (d < 3)%nat -> coord d N + 2 * ghosts nd ng d = coord d N' + 2 * ghosts nd ng' d) /\
   (forall d, (d < 3)%nat -> coord d N' <= coord d N) /\ (Z.to_nat nfx' <= nfx)%nat).
Proof.
  intros HX D' Hn H.
  assert (HX' : forall d, (d < 3)%nat -> a_ext (X d) = coord d N + 2 * ghosts nd ng d + 1) by (intros d Hd; exact (HX d Hd)). clear HX.
  split.
  - intros A. split; [|split].
    + intros d Hd. assert (P0 : process nd dims' rank0) by (intros k Hk; pose proof (dcp_dims D' Hk); destruct k as [|[|[|k]]]; cbn in *; lia).
      destruct (A rank0 P0) as (x & E). destruct (accepted_needs nd N' dims' ng' dec' N h nfx X oid iid tid iter t G nfx' H rank0 x P0 E) as (B & _).
      specialize (B d Hd). rewrite (HX' d Hd) in B. lia.
    + intros d Hd. set (g := isub N' (I3 1 1 1)).
      assert (Cg : forall k, coord k g = coord k N' - 1) by (intros [|[|k]]; reflexivity).
      assert (Gg : global_cell N' g) by (intros k Hk; pose proof (dcp_n D' Hk); rewrite Cg; lia).
      destruct (every_cell_written nd N' dims' ng' dec' D' (box_cells (I3 0 0 0) (mpi_dims nd dims')) g) as (r & o & _ & Vr & Ho & Eg); [|exact Gg|].
      { intros r Vr. apply in_box_cells. pose proof (Vr 0%nat ltac:(lia)). pose proof (Vr 1%nat ltac:(lia)). pose proof (Vr 2%nat ltac:(lia)). unfold in_box. cbn [coord ii jj kk] in *. lia. }
      destruct (A r Vr) as (x & E). destruct (accepted_needs nd N' dims' ng' dec' N h nfx X oid iid tid iter t G nfx' H r x Vr E) as (_ & B & _).
      specialize (B d Hd). apply box3_in with (d := d) in Ho; [|exact Hd]. apply (f_equal (coord d)) in Eg. rewrite coord_iadd, Cg in Eg. lia.
    + assert (P0 : process nd dims' rank0) by (intros k Hk; pose proof (dcp_dims D' Hk); destruct k as [|[|[|k]]]; cbn in *; lia).
      destruct (A rank0 P0) as (x & E). now destruct (accepted_needs nd N' dims' ng' dec' N h nfx X oid iid tid iter t G nfx' H rank0 x P0 E) as (_ & _ & B).
  - intros (A & B & C) r Hr. destruct (read_ok nd N' dims' ng' dec' N h D' B nfx X oid iid tid iter t G nfx' H) with (r := r) as (d & E & _); auto.
    + intros k Hk. rewrite (HX' k Hk), (A k Hk). lia.
    + repeat split; lia.
    + now exists d.
Qed.
