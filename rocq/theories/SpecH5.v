(** * Specification of output and restart files. *)
From Coq Require Import Ascii Reals.
From Verif Require Import Base RBase ModelMesh ModelGeom ModelBoundary ModelHydro ModelScheme ModelStep ModelIni ModelMain ModelIO ModelParam ModelH5
  SpecMesh SpecBoundary SpecStep SpecMain.
Local Open Scope string_scope.
Local Open Scope Z_scope.
Local Open Scope list_scope.

(** ** The components that exist

    In a run of dimension [nd] with [nfx] scalars the vectors have components 0 .. nd-1 and the scalars 0 .. nfx-1. *)
Definition upto (n : nat) (v v' : vec) : Prop := forall d, (d < n)%nat -> v d = v' d.
Definition same_cell (nd nfx : nat) (x x' : cell) : Prop :=
  c_rho x = c_rho x' /\ upto nd (c_rhou x) (c_rhou x') /\ c_E x = c_E x' /\ upto nfx (c_fx x) (c_fx x').
(** All arrays of one process. *)
Definition same_components (nd nfx : nat) (s s' : pstate) : Prop :=
  (forall c, same_cell nd nfx (s_cell s c) (s_cell s' c)) /\ (forall c, upto nd (s_u s c) (s_u s' c)) /\
  (forall c, s_P s c = s_P s' c) /\
  (forall c f d, (q_rho (r_q (s_rec s) c f d) = q_rho (r_q (s_rec s') c f d) /\ upto nd (q_m (r_q (s_rec s) c f d)) (q_m (r_q (s_rec s') c f d)) /\
     q_E (r_q (s_rec s) c f d) = q_E (r_q (s_rec s') c f d)) /\ upto nfx (r_fx (s_rec s) c f d) (r_fx (s_rec s') c f d)) /\
  (forall c, same_cell nd nfx (s_new s c) (s_new s' c)) /\ (forall c d, s_grav s c d = s_grav s' c d).

(** ** What an output file holds *)

(** A dataset over the whole mesh of [N] cells, indexed [k][j][i], with the values of the field [F]. *)
Definition field_in (h : h5) (name : string) (N : idx) (F : idx -> R) : Prop :=
  exists x, h_real h name = Some x /\ ds_dims x = [kk N; jj N; ii N] /\
    forall g, global_cell N g -> ds_at x ((kk g * jj N + jj g) * ii N + ii g) = F g.
Definition number_in (h : h5) (name : string) (v : R) : Prop :=
  exists x, h_real h name = Some x /\ ds_dims x = [] /\ ds_at x 0 = v.
Definition axis_in (h : h5) (name : string) (X : arr1) : Prop :=
  exists x, h_real h name = Some x /\ ds_dims x = [a_ext X] /\ ds_at x = a_at X.
Definition digits10 : list string := ["0"; "1"; "2"; "3"; "4"; "5"; "6"; "7"; "8"; "9"].

(** The counters, the time, the coordinates with ghosts and the fields that a run reads back; the velocities are ux0, ux1,
    ux2, the scalars fx0 ... fx9, as far as they exist in the run. *)
Record holds_run (nd nfx : nat) (N : idx) (X : nat -> arr1) (oid iid tid iter : Z) (t : R) (G : gfields) (h : h5) : Prop := {
  hr_oid : h_int h "output_id" = Some oid; hr_iid : h_int h "iter_output_id" = Some iid;
  hr_tid : h_int h "time_output_id" = Some tid; hr_iter : h_int h "iter" = Some iter; hr_t : number_in h "current_time" t;
  hr_x0 : axis_in h "x0" (X 0%nat); hr_x1 : axis_in h "x1" (X 1%nat); hr_x2 : axis_in h "x2" (X 2%nat);
  hr_rho : field_in h "rho" N (g_rho G); hr_P : field_in h "P" N (g_P G);
  hr_u : forall d, (d < nd)%nat -> field_in h (nth d ["ux0"; "ux1"; "ux2"] "") N (fun g => g_u G g d);
  hr_fx : forall n, (n < nfx)%nat -> field_in h ("fx" ++ nth n digits10 "") N (fun g => g_fx G g n);
  hr_no_fx : forall n, (nfx <= n)%nat -> h_real h ("fx" ++ decimal (Z.of_nat n)) = None }.

(** The arrays [S] of a run on the process grid [dims]: on the owned cells of every process they are the global fields [G],
    as far as their components exist. *)
Record holds_fields (nd : nat) (ng : Z) (nfx : nat) (dims : idx) (L : layout) (G : gfields) (S : idx -> pstate) : Prop := {
  hf_rho : holds_owned nd dims ng (l_dec L) (g_rho G) (fun r c => c_rho (s_cell (S r) c));
  hf_P : holds_owned nd dims ng (l_dec L) (g_P G) (fun r => s_P (S r));
  hf_u : forall d, (d < nd)%nat -> holds_owned nd dims ng (l_dec L) (fun g => g_u G g d) (fun r c => s_u (S r) c d);
  hf_fx : forall n, (n < nfx)%nat -> holds_owned nd dims ng (l_dec L) (fun g => g_fx G g n) (fun r c => c_fx (s_cell (S r) c) n) }.

(** What process [r] has after reading. *)
Record restored (nd : nat) (ng : Z) (nfx : nat) (X : nat -> arr1) (oid iid tid iter : Z) (t : R) (G : gfields) (dec : decomp) (d : restart_data)
  : Prop := {
  re_oid : rs_oid d = oid; re_iid : rs_iid d = iid; re_tid : rs_tid d = tid; re_iter : rs_iter d = iter; re_t : rs_t d = t;
  re_x : forall k, (k < 3)%nat -> rs_x d k = X k;
  re_rho : forall c, owned nd ng (d_nloc dec) c -> rs_rho d c = g_rho G (global_index nd ng (corner_min (d_range dec)) c);
  re_P : forall c, owned nd ng (d_nloc dec) c -> rs_P d c = g_P G (global_index nd ng (corner_min (d_range dec)) c);
  re_u : forall k, (k < nd)%nat -> forall c, owned nd ng (d_nloc dec) c -> rs_u d c k = g_u G (global_index nd ng (corner_min (d_range dec)) c) k;
  re_fx : forall n, (n < nfx)%nat -> forall c, owned nd ng (d_nloc dec) c -> rs_fx d c n = g_fx G (global_index nd ng (corner_min (d_range dec)) c) n }.

(** ** C93 *)

(** The parameters [q] of a run that resumes from the file [path] the run with parameters [p]: bounds, type of the grid,
    outputs and initial conditions may differ. *)
Record resumes (p q : param) (path : string) : Prop := {
  rq_restart : pm_restart q = true; rq_file : pm_restart_file q = path;
  rq_cells : pm_nx0 q = pm_nx0 p /\ pm_nx1 q = pm_nx1 p /\ pm_nx2 q = pm_nx2 p; rq_ng : pm_ng q = pm_ng p; rq_nfx : pm_nfx q = pm_nfx p;
  rq_gravity : pm_gx0 q = pm_gx0 p /\ pm_gx1 q = pm_gx1 p /\ pm_gx2 q = pm_gx2 p /\ pm_M q = pm_M p;
  rq_fix : pm_pressure_fix q = pm_pressure_fix p /\ pm_eps_pf q = pm_eps_pf p;
  rq_order : pm_priority q = ""; rq_fixed : pm_shift_grid q <> "UserDefined" }.

(** The arrays [s'] on the process grid [dims'] hold the same values as [s] on [dims], in all components that exist. *)
Definition same_values (K : ModelStep.config) (nfx : nat) (N : idx) (X : nat -> arr1) (dims : idx) (L : layout) (dims' : idx) (L' : layout)
  (s s' : idx -> pstate) : Prop :=
  exists st, same_arrays K N X dims L dims' L' s st /\
    forall r, process (k_nd K) dims' r -> same_components (k_nd K) nfx (st r) (s' r).
