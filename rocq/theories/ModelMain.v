(** * The main time loop: output schedules, end of run, output numbering and restart (src/main.cpp). *)
From Coq Require Import Ascii Decimal DecimalString.
From Verif Require Import Base RBase ModelMesh ModelGeom ModelBoundary ModelHydro ModelScheme ModelStep.
Set Implicit Arguments.
Local Open Scope string_scope.
Local Open Scope Z_scope.

(** Values of a C++ [int]. *)
Definition int_max : Z := 2147483647.
Definition int32 (z : Z) : bool := (- int_max - 1 <=? z) && (z <=? int_max).

(** src/utils/param.cpp:40-49: the parameters the loop reads ([time_job] is in the clock oracle below). *)
Record params : Type := mkParams {
  p_t_ini : R; p_t_end : R; p_max_iter : Z; p_iter_freq : Z; p_time_freq : R; p_time_first : R }.

(** What the loop does to the arrays, as functions of the content [S] of all arrays: the CFL time step
    (main.cpp:356), the test of the least internal energy (lines 397-403), one update from [t] over [dt]
    (lines 427-528). *)
Record dynamics (S : Type) : Type := mkDyn { y_dt : S -> R; y_bad : S -> bool; y_step : R -> R -> S -> S }.

(** One call of [write_pdi] (io.cpp:185-324): the scalars it stores and the arrays of that moment. *)
Record file (S : Type) : Type := mkFile {
  fl_oid : Z; fl_iid : Z; fl_tid : Z; fl_iter : Z; fl_t : R; fl_data : S }.

(** Local variables of [hclpp::main] (main.cpp:207-214), arrays, and the files written so far, oldest first. *)
Record mstate (S : Type) : Type := mkM {
  m_oid : Z; m_iid : Z; m_tid : Z; m_iter : Z; m_t : R;
  m_record : list (Z * R);    (* outputs_record *)
  m_st : S;
  m_files : list (file S) }.

(** How a loop iteration ends. *)
Inductive verdict : Type :=
| Going                       (* should_exit is false: next iteration *)
| Finished                    (* should_exit is true: the loop is left *)
| Failed (what : string)      (* exception: caught in ::main, EXIT_FAILURE (main.cpp:594-604) *)
| Undefined (why : string).

Section Loop.
Context {S : Type} (D : dynamics S) (p : params).
(** Has the process used up [time_job] hours when it starts iteration [iter]+1 (main.cpp:387-390)?  Any answer. *)
Context (clock : Z -> bool).

(** main.cpp:358-364: [make_output] and the new [iter_output_id]; [iter_ini] is 0 (line 211). *)
Definition iter_schedule (m : mstate S) : outcome (bool * Z) :=
  if 0 <? p_iter_freq p then
    let next := (m_iid m + 1) * p_iter_freq p in
    if negb (int32 next) then UB "signed overflow: next iteration output"
    else if next <=? m_iter m + 1 then Ok (true, m_iid m + 1) else Ok (false, m_iid m)
  else Ok (false, m_iid m).

(** main.cpp:365-375: [make_output], the new [time_output_id] and [dt]. *)
Definition time_schedule (m : mstate S) (dt : R) : outcome (bool * Z * R) :=
  if rltb 0 (p_time_freq p) then
    let next := (p_time_first p + IZR (m_tid m + 1) * p_time_freq p)%R in
    if rleb next (m_t m + dt) then
      if rleb (next - m_t m) 0 then Throw "Error: the time step is negative"
      else Ok (true, m_tid m + 1, (next - m_t m)%R)
    else Ok (false, m_tid m, dt)
  else Ok (false, m_tid m, dt).

(** main.cpp:377-381: [should_exit] (and [make_output]) and [dt]. *)
Definition clip_to_end (t dt : R) : bool * R :=
  if rleb (p_t_end p) (t + dt) then (true, (p_t_end p - t)%R) else (false, dt).

(** temperature(...) and write_pdi(...) with the current counters. *)
Definition file_of (m : mstate S) : file S :=
  mkFile (m_oid m) (m_iid m) (m_tid m) (m_iter m) (m_t m) (m_st m).
Definition write (m : mstate S) : mstate S :=
  mkM (m_oid m) (m_iid m) (m_tid m) (m_iter m) (m_t m) (m_record m) (m_st m) (m_files m ++ [file_of m]).
(** [++output_id] *)
Definition next_id (m : mstate S) : mstate S :=
  mkM (m_oid m + 1) (m_iid m) (m_tid m) (m_iter m) (m_t m) (m_record m) (m_st m) (m_files m).
(** main.cpp:317-322, 533-540: record, [++output_id], write.  (The XML writer: ModelXml.) *)
Definition output (m : mstate S) : mstate S :=
  let m' := next_id m in
  write (mkM (m_oid m') (m_iid m') (m_tid m') (m_iter m') (m_t m') (m_record m' ++ [(m_iter m', m_t m')])
             (m_st m') (m_files m')).

(** One iteration, main.cpp:354-561. *)
Definition body (m : mstate S) : mstate S * verdict :=
  if negb (int32 (m_iter m + 1)) then (m, Undefined "signed overflow: iter + 1") else
  match iter_schedule m with
  | Throw w => (m, Failed w)
  | UB w => (m, Undefined w)
  | Ok (out1, iid) =>
      match time_schedule m (y_dt D (m_st m)) with
      | Throw w => (m, Failed w)
      | UB w => (m, Undefined w)
      | Ok (out2, tid, dt2) =>
          let (stop1, dt) := clip_to_end (m_t m) dt2 in
          let stop := stop1 || (p_max_iter p <=? m_iter m + 1) || clock (m_iter m) in
          let m1 := mkM (m_oid m) iid tid (m_iter m) (m_t m) (m_record m) (m_st m) (m_files m) in
          if y_bad D (m_st m) then
            (write (next_id m1), Failed "detected invalid volumic internal energy")
          else
            let m2 := mkM (m_oid m1) iid tid (m_iter m + 1) (m_t m + dt)%R (m_record m1)
                          (y_step D (m_t m) dt (m_st m)) (m_files m1) in
            (if out1 || out2 || stop then output m2 else m2, if stop then Finished else Going)
      end
  end.

(** [while (!should_exit)], at most [n] iterations; [should_exit] is false at the start (main.cpp:214). *)
Fixpoint loop (n : nat) (m : mstate S) : mstate S * verdict :=
  match n with
  | O => (m, Going)
  | Datatypes.S n' =>
      match body m with
      | (m', Going) => loop n' m'
      | r => r
      end
  end.

(** main.cpp:207-214, 315-344: before the first iteration of a fresh run; [s] are the arrays after line 311. *)
Definition fresh (s : S) : mstate S :=
  let m := mkM (-1) (-1) (-1) 0 (p_t_ini p) [] s [] in
  if (0 <? p_iter_freq p) || rltb 0 (p_time_freq p)
  then output (mkM (-1) 0 (-1) 0 (p_t_ini p) [] s [])
  else m.

(** main.cpp:223-237, read_pdi: before the first iteration of a restarted run; [s] are the arrays after
    line 311.  (Files of the earlier run are not in the list.) *)
Definition restarted (f : file S) (s : S) : mstate S :=
  mkM (fl_oid f) (fl_iid f) (fl_tid f) (fl_iter f) (fl_t f) [] s [].

End Loop.

(** io.cpp:62-74: std::setw(8) with fill '0' of an unsigned decimal number. *)
Definition decimal (n : Z) : string := NilEmpty.string_of_uint (N.to_uint (Z.to_N n)).
Fixpoint zeros (k : nat) (s : string) : string :=
  match k with O => s | Datatypes.S k' => String "0"%char (zeros k' s) end.
Definition get_output_filename (prefix : string) (num : Z) : string :=
  prefix ++ "_" ++ zeros (8 - String.length (decimal num)) (decimal num) ++ ".h5".

(** The loop of the hydrodynamics code, without grid shift.  (The reduction in [time_step] runs over at least
    one cell, so the value given for an empty one is never used.) *)
Definition hydro (K : config) (L : layout) (cfl : R) : dynamics (idx -> pstate) :=
  mkDyn (fun s => match time_step K L s with Some h => (cfl * h)%R | None => 0%R end)
        (fun s => match minimum_internal_energy K L s with Some e => rltb e 0 | None => false end)
        (full_step K L).
