(** * Concrete run for C71. *)
From Coq Require Import Lra.
From Verif Require Import Base RBase ModelMesh ModelGeom ModelMain ModelIO SpecMain SpecIO ProofMainEx ProofXdmf.
Local Open Scope string_scope.
Local Open Scope Z_scope.
Local Open Scope list_scope.

Lemma restart_drops_example : exists (D : dynamics nat) p p' clock n m v f s' m' v' x t,
  loop D p clock n (fresh p 0%nat) = (m, v) /\ last_file m f /\ loop D p' clock 1 (restarted f s') = (m', v') /\
  xdmf (fun _ => "0") (I3 4 1 1) "run" (var_names 1 0) (m_oid m') (m_record m') = Ok x /\ xml_document t x /\ m_files m' <> [] /\
  forall g d r name, In g (m_files m) -> In (d, r) (items t) -> r <> (get_output_filename "run" (fl_oid g) ++ ":/" ++ name)%string.
Proof.
  set (p := mkParams 0 100 1 1 0 0). set (p' := mkParams 0 100 2 1 0 0).
  assert (A : exists m f, loop unit_dyn p never 1 (fresh p 0%nat) = (m, Finished) /\ last_file m f /\ fl_oid f = 1 /\ fl_iter f = 1 /\ fl_iid f = 1 /\ fl_t f = (0 + 1)%R /\ fl_tid f = -1).
  { unfold p. fresh_go. go. eexists _, _. split; [reflexivity|]. split; [eexists [_]; reflexivity|]. cbn. auto. }
  destruct A as (m & f & E & Lf & F1 & F2 & F3 & F4 & F5).
  assert (B : exists m', loop unit_dyn p' never 1 (restarted f 1%nat) = (m', Finished) /\ m_files m' <> []).
  { destruct f as [o i t it tt dd]. cbn in F1, F2, F3, F4, F5. subst. unfold p'. go. eexists. split; [reflexivity|]. discriminate. }
  destruct B as (m' & E' & Ne).
  destruct (restart_index unit_dyn p' never f 1%nat 1 m' Finished (fun _ => "0") (I3 4 1 1) "run" 1 0 E' (or_intror eq_refl)) as (x & X & Y).
  { split; [reflexivity|]. right. reflexivity. }
  { intros g _. reflexivity. }
  exists unit_dyn, p, p', never, 1%nat, m, Finished, f, 1%nat, m', Finished, x. eexists. split; [exact E|]. split; [exact Lf|]. split; [exact E'|]. split; [exact X|].
  split; [exact Y|]. split; [exact Ne|]. intros g d r name Ig Ir.
  exact (restart_drops unit_dyn unit_dyn p p' never never 0%nat 1%nat 1 1 m m' Finished Finished f (fun _ => "0") (I3 4 1 1) "run" 1 0 g d r name E Lf E'
    ltac:(lia) ltac:(lia) Ig Ir).
Qed.
