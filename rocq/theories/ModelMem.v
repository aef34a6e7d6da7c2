(** * Memory accesses of a whole run

    Every element of every Kokkos view that one process touches, from the first kernel to the last step, in program
    order.  The values are not modelled here (they are in the other files): branches that depend on values are taken
    as an arbitrary oracle dictates.  An access outside the extents of its view is undefined behaviour (Kokkos checks
    bounds only in debug builds; the assertions of the code are debug-only, too).
    Not included: reading and writing of files (ModelIO.v) and the raw pointers handed to MPI. *)
From Verif Require Import Base RBase ModelMesh ModelGeom.
Local Open Scope string_scope.
Local Open Scope Z_scope.
Local Open Scope list_scope.

(** The views of src/main.cpp:187-219, of the Grid (src/mesh/grid.cpp:58-73), of the gravity field
    (src/gravity/gravity.cpp), of the exchange buffers (boundary_distribute.cpp:122-131), of the Hancock step
    (extrapolation_reconstruction.hpp:85) and of the v1d setup (src/setups/v1d/setup.hpp:71-74). *)
Inductive view : Set :=
| Vrho | Vrhou | VE | Vfx | Vu | VP | VT
| Vrho_rec | Vrhou_rec | VE_rec | Vfx_rec | Vu_rec | VP_rec | Vfx_rec_old
| Vrho_new | Vrhou_new | VE_new | Vfx_new
| Vx (d : nat) | Vcenter (d : nat) | Vdx (d : nat) | Vds | Vdv | Vx_glob (d : nat)
| Vg | Vrho_mean | Vdv_total | Vmass_r
| Vbuf (d : nat)
| Vprofile | Vprofile_fx.

(** CMake option Heracles++_GRAVITY *)
Inductive gravity : Set := Uniform | PointMass | InternalMass.
(** src/setups *)
Inductive setup : Set :=
| AdvectionGap | AdvectionSinus | EqHydroSphe | GreshoVortex | HeatNickel | ImplosionTest | KelvinHelmholtz
| RayleighTaylor | RayleighTaylor3d | Sedov1d | Sedov2d | Sedov3d | ShockTube | ShockWall | StratifiedAtm | V1d.
(** The conditions of boundary_factory.hpp, and BoundarySetup of the setup. *)
Inductive condition : Set := CNullGradient | CPeriodic | CReflexive | CUserDefined.

(** Build options and parameters that decide what is touched.  [m_nglob], [m_dims], [m_rank]: cells of the mesh,
    process grid, this process. *)
Record mconfig : Type := mkMem {
  m_geom : geom; m_nd : nat; m_gravity : gravity; m_setup : setup;
  m_nglob : idx; m_ng : Z; m_nfx : nat; m_dims : idx; m_rank : idx;
  m_restart : bool; m_fix : bool; m_nickel : bool;
  m_bcs : nat -> condition; m_order : list nat;
  m_shift : option Z                     (* cell_shift, when the grid may move *) }.

(** The branches that depend on values, in one iteration. *)
Record branches : Type := mkBranches {
  b_stop : option string;                (* an exception of the loop itself *)
  b_fluxL : idx -> nat -> bool; b_fluxR : idx -> nat -> bool;   (* FluxL.rho < 0, FluxR.rho < 0 *)
  b_cold : idx -> bool;                  (* evol < eps * ekin *)
  b_us_p : idx -> nat -> nat -> bool; b_us : idx -> nat -> nat -> bool;  (* us_p > 0, us < 0 *)
  b_shift : bool;                        (* vmax >= vmax_shift *)
  b_rmax : bool;                         (* x_h(...) >= rmax_shift *)
  b_output : bool }.

(** One access: the view and the indices. *)
Definition access : Type := (view * list Z)%type.

(** Loops *)
Definition loop {A : Type} (n : nat) (f : nat -> list A) : list A := flat_map f (seq 0 n).
Definition zloop {A : Type} (b e : Z) (f : Z -> list A) : list A := flat_map f (zrange b e).
Definition kernel {A : Type} (b e : idx) (f : idx -> list A) : list A := flat_map f (box_cells b e).

Definition at1 (v : view) (i : Z) : access := (v, [i]).
Definition at3 (v : view) (c : idx) : access := (v, [ii c; jj c; kk c]).
Definition at4 (v : view) (c : idx) (n : nat) : access := (v, [ii c; jj c; kk c; Z.of_nat n]).
Definition at5 (v : view) (c : idx) (s d : nat) : access := (v, [ii c; jj c; kk c; Z.of_nat s; Z.of_nat d]).
Definition at6 (v : view) (c : idx) (s d n : nat) : access :=
  (v, [ii c; jj c; kk c; Z.of_nat s; Z.of_nat d; Z.of_nat n]).
(** [x0(i)], [x1(j)], [x2(k)]-like reads at a cell. *)
Definition along (v : nat -> view) (c : idx) : list access :=
  [at1 (v 0%nat) (ii c); at1 (v 1%nat) (jj c); at1 (v 2%nat) (kk c)].

(** main.cpp:493: the outer condition of the first direction is replaced for good. *)
Definition opened (K : mconfig) : mconfig :=
  mkMem (m_geom K) (m_nd K) (m_gravity K) (m_setup K) (m_nglob K) (m_ng K) (m_nfx K) (m_dims K) (m_rank K)
        (m_restart K) (m_fix K) (m_nickel K) (fun f => if Nat.eqb f 1 then CNullGradient else m_bcs K f) (m_order K)
        (m_shift K).

Section OneProcess.
Variable K : mconfig.
Variable D : decomp.                     (* what Grid::mpi_decomposition computed *)
Let nd := m_nd K.
Let nfx := m_nfx K.
Let nloc := d_nloc D.
Let nwg := d_nwg D.
Let gh := nghost_of nd (m_ng K).
Let O3 := I3 0 0 0.

(** ** Extents *)
Definition ext3 : list Z := [ii nwg; jj nwg; kk nwg].
Definition dimZ : Z := Z.of_nat nd.
Definition fxZ : Z := Z.of_nat nfx.
Definition extents (v : view) : list Z :=
  match v with
  | Vrho | VE | VP | VT | Vrho_new | VE_new | Vdv => ext3
  | Vrhou | Vu | Vrhou_new => ext3 ++ [dimZ]
  | Vfx | Vfx_new => ext3 ++ [fxZ]
  | Vrho_rec | VE_rec | VP_rec => ext3 ++ [2; dimZ]
  | Vrhou_rec | Vu_rec => ext3 ++ [2; dimZ; dimZ]
  | Vfx_rec | Vfx_rec_old => ext3 ++ [2; dimZ; fxZ]
  | Vds => ext3 ++ [3]
  | Vx d => [coord d nwg + 1]
  | Vcenter d | Vdx d => [coord d nwg]
  | Vx_glob d => [coord d (m_nglob K) + 2 * coord d gh + 1]
  | Vg => match m_gravity K with Uniform => [3] | _ => [ii nwg] end
  | Vrho_mean | Vdv_total => [ii nloc + ii gh]
  | Vmass_r => [ii nwg]
  | Vbuf d => let e := set_coord d (coord d gh) nwg in [ii e; jj e; kk e; dimZ + 2 + fxZ]
  | Vprofile => [ii nloc]
  | Vprofile_fx => [ii nloc; fxZ]
  end.

(** The index is inside the extents. *)
Fixpoint below (i e : list Z) : bool :=
  match i, e with
  | [], [] => true
  | x :: i', n :: e' => ((0 <=? x) && (x <? n) && below i' e')%bool
  | _, _ => false
  end.
Definition inside (a : access) : bool := below (snd a) (extents (fst a)).

(** Performing a sequence of accesses, each group preceded by what may throw. *)
Definition program : Type := list (outcome (list access)).
Fixpoint perform (p : program) : outcome unit :=
  match p with
  | [] => Ok tt
  | Ok l :: p' => if forallb inside l then perform p' else UB "access outside a view"
  | Throw w :: _ => Throw w
  | UB w :: _ => UB w
  end.

(** A kernel over [grid.range.with_ghosts(n)]. *)
Definition over (n : Z) (body : idx -> list access) : outcome (list access) :=
  obind (with_ghosts (d_range D) n) (fun r => Ok (kernel (cell_begin nd r) (cell_end nd r) body)).
Definition over_all (body : idx -> list access) : outcome (list access) := over (m_ng K) body.

(** Creation of the views of src/main.cpp and of the Grid: a negative extent becomes a huge [size_t] and the
    allocation fails. *)
Definition allocate : outcome (list access) :=
  if ((0 <=? ii nwg) && (0 <=? jj nwg) && (0 <=? kk nwg))%bool then Ok [] else Throw "allocation failure".

(** ** Mesh and gravity *)

(** src/mesh/grid_type.cpp:23-30 in the three directions *)
Definition fill_x_glob : list access :=
  loop 3 (fun d => zloop 0 (coord d (m_nglob K) + 2 * coord d gh + 1) (fun i => [at1 (Vx_glob d) i])).

(** src/mesh/grid.cpp:134-155, 31-44 *)
Definition set_grid_lines : list access :=
  loop 3 (fun d => zloop 0 (coord d nwg + 1)
    (fun i => [at1 (Vx_glob d) (coord d (corner_min (d_range D)) + i); at1 (Vx d) i]))
  ++ loop 3 (fun d => zloop 0 (coord d nwg)
    (fun i => [at1 (Vx d) (i + 1); at1 (Vx d) i; at1 (Vdx d) i; at1 (Vcenter d) i])).

(** src/mesh/geometry.cpp:32-126 *)
Definition geometry_body (c : idx) : list access :=
  match m_geom K with
  | Cartesian => loop 3 (fun d => along Vdx c ++ [at4 Vds c d]) ++ [at3 Vdv c] ++ along Vdx c
  | Spherical =>
      let i := ii c in
      let j := jj c in
      match nd with
      | 1%nat => [at4 Vds c 0; at1 (Vx 0) i; at3 Vdv c; at1 (Vx 0) (i + 1)]
      | 2%nat => [at1 (Vx 1) j; at1 (Vx 1) (j + 1); at4 Vds c 0; at1 (Vx 0) i; at4 Vds c 1; at1 (Vx 0) (i + 1); at3 Vdv c]
      | 3%nat => [at1 (Vx 1) j; at1 (Vx 1) (j + 1); at4 Vds c 0; at1 (Vx 0) i; at1 (Vdx 2) (kk c); at4 Vds c 1;
                  at1 (Vx 0) (i + 1); at4 Vds c 2; at1 (Vdx 0) i; at1 (Vdx 1) j; at3 Vdv c]
      | _ => []
      end
  end.
Definition set_grid_mem : program := [Ok set_grid_lines; over_all geometry_body].

(** src/gravity/gravity.cpp:29-57, 59-128.  The sizes of the work arrays are allocated first. *)
Definition make_gravity_mem : program :=
  match m_gravity K with
  | Uniform => [Ok (loop 3 (fun d => [at1 Vg (Z.of_nat d)]))]
  | PointMass => [Ok (zloop 0 (ii nwg) (fun i => [at1 (Vcenter 0) i; at1 Vg i]))]
  | InternalMass =>
      [ (if ii (mpi_dims nd (m_dims K)) =? 1 then Ok []
         else Throw "The function make_internal_mass_gravity does not handle more than 1 MPI process in the first dimension");
        (if 0 <=? ii nloc + ii gh then Ok [] else Throw "allocation failure");
        Ok (zloop 0 (ii nloc + ii gh) (fun i =>
              zloop 0 (jj nloc) (fun j => zloop 0 (kk nloc) (fun k =>
                [at3 Vrho (I3 (i + ii gh) (j + jj gh) (k + kk gh)); at3 Vdv (I3 (i + ii gh) (j + jj gh) (k + kk gh))]))
              ++ [at1 Vrho_mean i; at1 Vdv_total i]));
        Ok (zloop 0 (ii nloc + ii gh) (fun i => [at1 Vrho_mean i; at1 Vdv_total i]));
        Ok (zloop 0 (ii gh) (fun i => [at1 Vmass_r i]));
        Ok (zloop (ii gh) (ii nloc + 2 * ii gh) (fun i =>
              [at1 (Vx 0) i; at1 (Vcenter 0) i; at1 Vrho_mean (i - ii gh)]
              ++ (if i =? ii gh then [] else [at1 (Vcenter 0) (i - 1); at1 Vrho_mean (i - ii gh - 1)])
              ++ [at1 Vmass_r i]));
        Ok (zloop 0 (ii nwg) (fun i => [at1 Vg i; at1 Vmass_r i; at1 (Vcenter 0) i])) ]
  end.

(** gravity(i, j, k, dir), src/gravity/gravity.hpp:38-42, 66-73, 97-104 *)
Definition gravity_at (c : idx) (d : nat) : list access :=
  match m_gravity K with
  | Uniform => [at1 Vg (Z.of_nat d)]
  | _ => match d with O => [at1 Vg (ii c)] | _ => [] end
  end.

(** ** Initial conditions, src/setups/*/setup.hpp [InitializationSetup::execute] *)

Definition each_u (c : idx) : list access := loop nd (fun d => [at4 Vu c d]).
(** src/broadcast.cpp:30-41 *)
Definition broadcast_body (read : Z -> access) (write : idx -> access) (c : idx) : list access :=
  [write c; read (ii c - ii gh)].

(** [far] tells whether the cell is in the outer region of the vortex (gresho_vortex/setup.hpp:82-99), or carries
    the blast energy (sedov3d/setup.hpp:85). *)
Definition setup_body (far : idx -> bool) (c : idx) : list access :=
  match m_setup K with
  | AdvectionGap | AdvectionSinus | ShockTube => [at1 (Vcenter 0) (ii c); at3 Vrho c] ++ each_u c ++ [at3 VP c]
  | ImplosionTest => [at1 (Vcenter 0) (ii c); at1 (Vcenter 1) (jj c); at3 Vrho c; at3 VP c] ++ each_u c
  | ShockWall => [at3 Vrho c; at3 VP c] ++ each_u c
  | EqHydroSphe => [at3 Vrho c; at1 (Vcenter 0) (ii c)] ++ each_u c ++ [at3 VP c]
  | StratifiedAtm => gravity_at c 0 ++ [at3 Vrho c; at1 (Vcenter 0) (ii c)] ++ each_u c ++ [at3 VP c]
  | HeatNickel => [at3 Vrho c; at3 VP c] ++ each_u c ++ [at4 Vfx c 0]
  | GreshoVortex => [at1 (Vcenter 0) (ii c); at1 (Vcenter 1) (jj c); at3 Vrho c]
                    ++ (if far c then each_u c else [at4 Vu c 0; at4 Vu c 1]) ++ [at3 VP c]
  | KelvinHelmholtz => [at1 (Vcenter 0) (ii c); at1 (Vcenter 1) (jj c); at3 Vrho c; at4 Vu c 0; at4 Vu c 1; at3 VP c]
  | RayleighTaylor => [at1 (Vcenter 0) (ii c); at1 (Vcenter 1) (jj c); at3 Vrho c; at4 Vfx c 0; at4 Vu c 0; at4 Vu c 1;
                       at3 VP c] ++ gravity_at c 1
  | RayleighTaylor3d => gravity_at c 2 ++ along Vx c ++ [at3 Vrho c; at3 VP c; at4 Vfx c 0] ++ each_u c
  | Sedov1d => [at3 Vdv (I3 2 0 0); at3 Vrho c] ++ each_u c ++ [at3 VP c]
  | Sedov2d => [at1 (Vx 0) (ii c); at1 (Vx 1) (jj c); at3 Vrho c] ++ each_u c ++ [at3 Vdv c; at3 VP c]
  | Sedov3d => [at3 Vrho c] ++ each_u c ++ [at1 (Vx 0) (ii c)] ++ (if far c then [at3 Vdv c] else []) ++ [at3 VP c]
  | V1d => broadcast_body (at1 Vprofile) (at3 Vrho) c
           ++ broadcast_body (at1 Vprofile) (fun c => at4 Vu c 0) c
           ++ flat_map (fun d => [at4 Vu c d]) (seq 1 (nd - 1))
           ++ broadcast_body (at1 Vprofile) (at3 VP) c
           ++ loop nfx (fun f => broadcast_body (fun i => (Vprofile_fx, [i; Z.of_nat f])) (fun c => at4 Vfx c f) c)
  end.

(** sedov2d/setup.hpp:70-72, sedov3d/setup.hpp:67-69 *)
Definition setup_refuses : option string :=
  match m_setup K, m_geom K with
  | Sedov2d, Spherical => Some "No Sedov 2D in spherical geometry implemented"
  | Sedov3d, Cartesian => Some "No Sedov 3D in Cartesian implemented"
  | _, _ => None
  end.

Definition initialise (far : idx -> bool) : outcome (list access) :=
  obind (with_ghosts (d_range D) 0) (fun _ =>
  match setup_refuses with Some w => Throw w | None => over 0 (setup_body far) end).

(** ** Conversions and diagnostics *)

(** src/hydro/array_conversion.hpp:30-55 *)
Definition prim_to_cons_body (rho : idx -> access) (u : idx -> nat -> access) (P : idx -> access)
  (rhou : idx -> nat -> access) (E : idx -> access) (c : idx) : list access :=
  [rho c] ++ loop nd (fun d => [u c d]) ++ [P c] ++ loop nd (fun d => [rhou c d]) ++ [E c].
(** lines 83-115 *)
Definition cons_to_prim_body (rho : view) (rhou E : view) (c : idx) : list access :=
  [at3 rho c] ++ loop nd (fun d => [at4 rhou c d]) ++ [at3 E c] ++ loop nd (fun d => [at4 Vu c d]) ++ [at3 VP c].
(** src/analysis/temperature.hpp:17-24 *)
Definition temperature_body (c : idx) : list access := [at3 VT c; at3 Vrho c; at3 VP c].
(** src/analysis/integration.cpp:25-29 *)
Definition integrate_body (c : idx) : list access := [at3 Vrho c; at3 Vdv c].
(** src/analysis/internal_energy.cpp:23-38 *)
Definition energy_body (c : idx) : list access := [at3 Vrho c] ++ loop nd (fun d => [at4 Vrhou c d]) ++ [at3 VE c].
(** src/hydro/time_step.hpp:46-66 *)
Definition time_step_body (c : idx) : list access :=
  [at3 Vrho c; at3 VP c] ++ along Vdx c
  ++ match m_geom K with
     | Cartesian => []
     | Spherical => match nd with
                    | 2%nat => [at1 (Vcenter 0) (ii c)]
                    | 3%nat => [at1 (Vcenter 0) (ii c); at1 (Vcenter 1) (jj c)]
                    | _ => []
                    end
     end
  ++ loop nd (fun d => [at4 Vu c d]).

(** ** Boundary update *)

(** The four arrays handed to [bcs(...)]. *)
Record quad : Type := mkQuad { w_rho : view; w_rhou : view; w_E : view; w_fx : view }.
Definition old_state : quad := mkQuad Vrho Vrhou VE Vfx.
Definition new_state : quad := mkQuad Vrho_new Vrhou_new VE_new Vfx_new.

(** All components of one cell. *)
Definition cell_of (q : quad) (c : idx) : list access :=
  [at3 (w_rho q) c] ++ loop nd (fun n => [at4 (w_rhou q) c n]) ++ [at3 (w_E q) c] ++ loop nfx (fun f => [at4 (w_fx q) c f]).

(** src/boundary_distribute.cpp:75-120 [ghost_sync]: copies of a slab of all views to the buffer and back. *)
Definition slab_copy (q : quad) (d : nat) (first : Z) : list access :=
  let b := set_coord d first O3 in
  let e := set_coord d (first + coord d gh) nwg in
  kernel b e (fun c => cell_of q c ++ loop (nd + 2 + nfx) (fun v => [at4 (Vbuf d) (isub c b) v])).
Definition sync_mem (q : quad) (d face : nat) : list access :=
  let n := coord d nwg in
  let g := coord d gh in
  slab_copy q d (match face with O => g | _ => n - 2 * g end)
  ++ slab_copy q d (match face with O => n - g | _ => 0 end).

(** src/boundary.cpp:33-69, 71-108; stratified_atm/setup.hpp:113-158; eq_hydro_sphe/setup.hpp:104-149;
    src/default_boundary_setup.hpp *)
Definition bc_mem (q : quad) (f : nat) : outcome (list access) :=
  let d := Nat.div f 2 in
  let face := Nat.modulo f 2 in
  let n := coord d nwg in
  let g := coord d gh in
  let begin := match face with O => 0 | _ => n - g end in
  let b := set_coord d begin O3 in
  let e := set_coord d (begin + g) nwg in
  match m_bcs K f with
  | CNullGradient =>
      let offset := match face with O => begin + g | _ => begin - 1 end in
      Ok (kernel b e (fun c => cell_of q c ++ cell_of q (set_coord d offset c)))
  | CReflexive =>
      let mirror := match face with O => 2 * g - 1 | _ => 2 * (n - g) - 1 end in
      Ok (kernel b e (fun c => cell_of q c ++ cell_of q (set_coord d (mirror - coord d c) c) ++ [at4 (w_rhou q) c d]))
  | CPeriodic => Ok []
  | CUserDefined =>
      match m_setup K with
      | StratifiedAtm => Ok (kernel b e (fun c =>
          gravity_at c 0 ++ [at3 (w_rho q) c; at1 (Vcenter 0) (ii c)]
          ++ loop nd (fun n => [at4 (w_rhou q) c n]) ++ [at3 (w_E q) c]))
      | EqHydroSphe => Ok (kernel b e (fun c =>
          [at3 (w_rho q) c; at1 (Vcenter 0) (ii c)]
          ++ loop nd (fun n => [at4 (w_rhou q) c n]) ++ [at3 (w_E q) c]))
      | _ => Throw "Boundary setup not implemented"
      end
  end.

(** src/boundary_distribute.hpp:42-76 *)
Definition bcs_mem (q : quad) : program :=
  Ok (loop nd (fun d => sync_mem q d 0 ++ sync_mem q d 1))
  :: flat_map (fun f => if (let b := d_border D (Nat.div f 2) in match Nat.modulo f 2 with O => fst b | _ => snd b end)
                        then [bc_mem q f] else []) (m_order K).

(** ** One step *)

(** src/hydro/limited_linear_reconstruction.hpp:44-63 *)
Definition face_body (var : idx -> access) (var_rec : idx -> nat -> nat -> access) (c : idx) : list access :=
  loop nd (fun d =>
    along Vdx c ++ along Vdx (lindex d c) ++ along Vdx (rindex d c)
    ++ [var (rindex d c); var c; var (lindex d c); var_rec c 0%nat d; var_rec c 1%nat d]).

(** The curvature sources read x0(i), x0(i + 1), x1(j), x1(j + 1): extrapolation_reconstruction.hpp:159-301,
    godunov_scheme.hpp:155-241. *)
Definition curvature (c : idx) (d : nat) : list access :=
  match m_geom K with
  | Cartesian => []
  | Spherical =>
      match d with
      | O => if Nat.leb 2 nd then [at1 (Vx 0) (ii c); at1 (Vx 0) (ii c + 1)] else []
      | S O => if Nat.eqb nd 3 then [at1 (Vx 1) (jj c); at1 (Vx 1) (jj c + 1)] else []
      | _ => []
      end
  end.

(** src/hydro/extrapolation_reconstruction.hpp:88-331 *)
Definition hancock_body (c : idx) : list access :=
  loop nd (fun d =>
    [at5 Vrho_rec c 0 d; at5 Vrho_rec c 1 d]
    ++ loop nd (fun n => [at6 Vrhou_rec c 0 d n; at6 Vrhou_rec c 1 d n])
    ++ loop nfx (fun f => [at6 Vfx_rec c 0 d f; at6 Vfx_rec c 1 d f]))
  ++ loop nd (fun d =>
    let p := rindex d c in
    loop nd (fun n => [at6 Vu_rec c 0 d n; at6 Vu_rec c 1 d n])
    ++ [at5 VP_rec c 0 d; at5 VP_rec c 1 d; at3 Vdv c; at4 Vds c d; at4 Vds p d]
    ++ loop nd (fun pos => [at5 Vrho_rec c 0 pos; at5 Vrho_rec c 1 pos; at5 VE_rec c 0 pos; at5 VE_rec c 1 pos]
                           ++ loop nd (fun n => [at6 Vrhou_rec c 0 pos n; at6 Vrhou_rec c 1 pos n]))
    ++ curvature c d ++ gravity_at c d
    ++ loop nfx (fun f => loop nd (fun pos => [at6 Vfx_rec_old c 0 d f; at6 Vfx_rec_old c 1 d f;
                                               at6 Vfx_rec c 0 pos f; at6 Vfx_rec c 1 pos f]))).
(** lines 333-345 *)
Definition hancock_scalar_body (c : idx) : list access :=
  loop nd (fun d => loop nfx (fun f => [at6 Vfx_rec c 0 d f; at5 Vrho_rec c 0 d; at6 Vfx_rec c 1 d f; at5 Vrho_rec c 1 d])).

(** src/hydro/hydro_reconstruction.hpp:81-122, called with [with_ghosts(1)] (main.cpp:427-439) *)
Definition reconstruction_mem : program :=
  [over 1 (face_body (at3 Vrho) (at5 Vrho_rec))]
  ++ map (fun n => over 1 (face_body (fun c => at4 Vu c n) (fun c s d => at6 Vu_rec c s d n))) (seq 0 nd)
  ++ [over 1 (face_body (at3 VP) (at5 VP_rec))]
  ++ map (fun f => over 1 (face_body (fun c => at4 Vfx c f) (fun c s d => at6 Vfx_rec c s d f))) (seq 0 nfx)
  ++ flat_map (fun d => map (fun s =>
       over 1 (prim_to_cons_body (fun c => at5 Vrho_rec c s d) (fun c n => at6 Vu_rec c s d n)
                 (fun c => at5 VP_rec c s d) (fun c n => at6 Vrhou_rec c s d n) (fun c => at5 VE_rec c s d)))
       [0%nat; 1%nat]) (seq 0 nd)
  ++ [over 1 hancock_body; over 1 hancock_scalar_body].

(** The four states at the faces of direction [d]: godunov_scheme.hpp:126-153, pressure_fix.hpp:90-127 *)
Definition face_states (c : idx) (d : nat) : list access :=
  let m := lindex d c in
  let p := rindex d c in
  [at5 Vrho_rec m 1 d; at5 VE_rec m 1 d; at5 Vrho_rec c 0 d; at5 VE_rec c 0 d; at5 Vrho_rec c 1 d; at5 VE_rec c 1 d;
   at5 Vrho_rec p 0 d; at5 VE_rec p 0 d]
  ++ loop nd (fun n => [at6 Vrhou_rec m 1 d n; at6 Vrhou_rec c 0 d n; at6 Vrhou_rec c 1 d n; at6 Vrhou_rec p 0 d n]).

(** src/hydro/godunov_scheme.hpp:107-280 *)
Definition godunov_body (B : branches) (c : idx) : list access :=
  [at3 Vrho_new c; at3 Vrho c; at3 VE_new c; at3 VE c]
  ++ loop nd (fun d => [at4 Vrhou_new c d; at4 Vrhou c d])
  ++ loop nfx (fun f => [at4 Vfx_new c f; at4 Vfx c f; at3 Vrho c])
  ++ loop nd (fun d =>
    let m := lindex d c in
    let p := rindex d c in
    face_states c d
    ++ [at3 Vdv c; at4 Vds c d; at4 Vds p d] ++ loop nd (fun n => [at4 Vrhou_new c n])
    ++ curvature c d ++ gravity_at c d ++ [at4 Vrhou c d]
    ++ loop nfx (fun f => [at6 Vfx_rec (if b_fluxL B c d then c else m) (if b_fluxL B c d then 0 else 1)%nat d f;
                           at6 Vfx_rec (if b_fluxR B c d then p else c) (if b_fluxR B c d then 0 else 1)%nat d f;
                           at4 Vfx_new c f])).
(** lines 282-289 *)
Definition godunov_scalar_body (c : idx) : list access := loop nfx (fun f => [at4 Vfx_new c f; at3 Vrho_new c]).

(** src/hydro/pressure_fix.hpp:44-171 *)
Definition fix_body (B : branches) (c : idx) : list access :=
  [at3 Vrho c; at3 VE c; at3 Vrho_new c; at3 VE_new c] ++ loop nd (fun n => [at4 Vrhou c n; at4 Vrhou_new c n])
  ++ (if b_cold B c then
        loop nd (fun d =>
          let m := lindex d c in
          let p := rindex d c in
          loop nd (fun pos =>
            face_states c d
            ++ [at3 Vrho p; at3 VE p; at3 Vrho m; at3 VE m] ++ loop nd (fun n => [at4 Vrhou p n; at4 Vrhou m n])
            ++ [at4 Vds p pos; at4 Vds c pos; at3 Vdv c;
                (if b_us_p B c d pos then at3 VE c else at3 VE p); (if b_us B c d pos then at3 VE c else at3 VE m);
                at3 VE_new c]))
      else []).

(** src/user_step/user_step.cpp:40-72 *)
Definition nickel_body (c : idx) : list access := [at4 Vfx_new c 0; at3 Vrho_new c; at3 VE_new c].

(** deep_copy of the new arrays, main.cpp:481-484 *)
Definition copy_back : list access := kernel O3 nwg (fun c => cell_of new_state c ++ cell_of old_state c).

(** src/setups/v1d/setup.hpp:184-217; other setups have no criterion of their own (default_shift_criterion.hpp) *)
Definition criterion_mem (cell_shift : Z) : program :=
  match m_setup K with
  | V1d =>
      let last := decomp_nloc (coord 0 (m_nglob K)) (coord 0 (mpi_dims nd (m_dims K))) (coord 0 (mpi_dims nd (m_dims K)) - 1) in
      [ (if last <? cell_shift then Throw "The shift criterion is greater than the size of the last MPI process" else Ok []);
        Ok (if ii (m_rank K) =? ii (mpi_dims nd (m_dims K)) - 1
            then kernel (I3 (ii nloc - cell_shift) (jj gh) (kk gh)) (iadd gh nloc) (fun c => [at4 Vrhou_new c 0; at3 Vrho_new c])
            else []) ]
  | _ => [Throw "User shift criterion not implemented"]
  end.

(** src/moving_grid/moving_grid.cpp:15-69 *)
Definition shift_mem : program :=
  [ Ok (kernel O3 (I3 (ii nwg - 1) (jj nwg) (kk nwg))
         (fun c => cell_of new_state c ++ cell_of old_state (I3 (ii c + 1) (jj c) (kk c))));
    Ok (let n := coord 0 (m_nglob K) + 2 * coord 0 gh + 1 in
        zloop 0 (n - 1) (fun i => [at1 (Vx_glob 0) i; at1 (Vx_glob 0) (i + 1)])
        ++ [at1 (Vx_glob 0) (n - 2); at1 (Vx_glob 0) (n - 3); at1 (Vx_glob 0) (n - 4); at1 (Vx_glob 0) (n - 1)]) ]
  ++ set_grid_mem.

(** One iteration, main.cpp:354-562; [on]: the grid may still move; [bcs_opened]: the boundary update with
    the outer condition replaced. *)
Definition iteration_mem (bcs_opened : program) (on : bool) (B : branches) : program :=
  [over_all time_step_body; over 0 energy_body]
  ++ match b_stop B with Some w => [Throw w] | None => [] end
  ++ reconstruction_mem
  ++ [over 0 (godunov_body B); over 0 godunov_scalar_body]
  ++ (if m_fix K then [over 0 (fix_body B)] else [])
  ++ (if m_nickel K then [over 0 nickel_body] else [])
  ++ bcs_mem new_state
  ++ [Ok copy_back]
  ++ match m_shift K with
     | Some cell_shift =>
         if on then
           criterion_mem cell_shift
           ++ (if b_shift B then
                 [Ok [at1 (Vx_glob 0) (coord 0 (m_nglob K) + coord 0 gh + 1)]]
                 ++ (if b_rmax B then bcs_opened else shift_mem ++ bcs_mem new_state)
                 ++ [Ok copy_back] ++ make_gravity_mem
               else [])
         else []
     | None => []
     end
  ++ [over_all (cons_to_prim_body Vrho_new Vrhou_new VE_new)]
  ++ make_gravity_mem
  ++ (if b_output B then [over_all temperature_body] else []).

(** main.cpp:223-346: everything before the loop.  (The temperature is computed only if a first output is written;
    the x0 coordinates of a v1d run come from a file.) *)
Definition startup_mem (far : idx -> bool) : program :=
  [allocate]
  ++ (if m_restart K then set_grid_mem ++ make_gravity_mem
      else [Ok fill_x_glob] ++ set_grid_mem ++ make_gravity_mem ++ [initialise far])
  ++ [over 0 (prim_to_cons_body (at3 Vrho) (at4 Vu) (at3 VP) (at4 Vrhou) (at3 VE))]
  ++ bcs_mem old_state
  ++ make_gravity_mem
  ++ [over_all (cons_to_prim_body Vrho Vrhou VE)]
  ++ [over_all temperature_body; over 0 integrate_body].

End OneProcess.

(** The loop: [Bs] are the branches of the successive iterations. *)
Fixpoint loop_mem (K : mconfig) (D : decomp) (on : bool) (Bs : list branches) : program :=
  match Bs with
  | [] => []
  | B :: Bs' =>
      let stays := negb (match m_shift K with Some _ => on && b_shift B && b_rmax B | None => false end)%bool in
      iteration_mem K D (bcs_mem (opened K) D new_state) on B
      ++ loop_mem (if stays then K else opened K) D (on && stays) Bs'
  end.

(** The whole run of one process; the final integral is main.cpp:568. *)
Definition run_mem (K : mconfig) (far : idx -> bool) (Bs : list branches) : outcome unit :=
  obind (mpi_decomposition (m_nd K) (m_nglob K) (m_dims K) (m_ng K) (m_rank K)) (fun D =>
  perform K D (startup_mem K D far ++ loop_mem K D true Bs ++ [over K D 0 integrate_body])).
