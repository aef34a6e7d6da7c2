(** * Vocabulary of the memory-safety properties (C28, C75) *)
From Verif Require Import Base ModelMesh ModelGeom SpecMesh ModelMem.
Local Open Scope Z_scope.

(** A run that can be started: 1 to 3 dimensions, at least one cell in each direction, a process of the process grid,
    faces of the simulated dimensions. *)
Definition started (K : mconfig) : Prop :=
  ndim_ok (m_nd K)
  /\ (forall d, (d < 3)%nat -> 1 <= coord d (m_nglob K))
  /\ valid_rank (mpi_dims (m_nd K) (m_dims K)) (m_rank K)
  /\ Forall (fun f => (f < 2 * m_nd K)%nat) (m_order K).

(** The setup initialises the second velocity component / the first passive scalar. *)
Definition needs_second_component (s : setup) : bool :=
  match s with GreshoVortex | KelvinHelmholtz | RayleighTaylor => true | _ => false end.
Definition needs_scalar (s : setup) : bool :=
  match s with HeatNickel | RayleighTaylor | RayleighTaylor3d => true | _ => false end.

(** The velocity components and scalars that the setup and the heating step touch exist. *)
Definition provided (K : mconfig) : Prop :=
  (m_restart K = false -> needs_second_component (m_setup K) = true -> (2 <= m_nd K)%nat)
  /\ (m_restart K = false -> needs_scalar (m_setup K) = true -> (1 <= m_nfx K)%nat)
  /\ (m_nickel K = true -> (1 <= m_nfx K)%nat).

(** Nothing in the choice of options makes the program refuse the run. *)
Definition accepted (K : mconfig) : Prop :=
  (m_gravity K = InternalMass -> coord 0 (mpi_dims (m_nd K) (m_dims K)) = 1)
  /\ (m_restart K = false -> setup_refuses K = None)
  /\ (forall f, m_bcs K f = CUserDefined -> m_setup K = StratifiedAtm \/ m_setup K = EqHydroSphe)
  /\ (forall s, m_shift K = Some s -> m_setup K = V1d
        /\ s <= decomp_nloc (coord 0 (m_nglob K)) (coord 0 (mpi_dims (m_nd K) (m_dims K)))
                            (coord 0 (mpi_dims (m_nd K) (m_dims K)) - 1)).

(** The loop throws nothing of its own. *)
Definition undisturbed (B : branches) : Prop := b_stop B = None.

(** The process owns a cell. *)
Definition owns_cells (K : mconfig) : Prop :=
  forall d, (d < 3)%nat ->
    1 <= decomp_nloc (coord d (m_nglob K)) (coord d (mpi_dims (m_nd K) (m_dims K))) (coord d (m_rank K)).
