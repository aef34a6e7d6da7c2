# Formal model of HERACLES++ in Rocq (Coq 8.16.1)

The C++ code in `/repo` is read as text; nothing is executed. `rocq/theories` holds

* `Model*.v` — small, total Gallina functions transcribing the C++ function by function; every
  definition cites the file and lines it models and states its simplifications. No proofs.
* `Spec*.v` — short, model-independent vocabulary the properties are stated in (where needed).
* `Proof*.v` — lemmas.
* `Prop*.v` — only property theorems (`exact lemma`), each followed by `Print Assumptions`, and
  the non-vacuity `Example`s.

## Modelling conventions

* **Indices and sizes** are unbounded `Z` (the code uses `int`). Overflow is modelled only where the
  property is about it (`int_cast`, DualView's `unsigned int` flags).
* **`double` arithmetic** is exact real arithmetic (`R`) in most of the numerical model. Consequences: claims of
  exact conservation/identity are claims about the formulas, not about rounding. Where rounding or NaN is
  the point (C45, C46, C68) a separate model uses Flocq's IEEE binary64 or an explicit NaN value.
* **Rounding** (C86-C88): `ModelArith.v` transcribes the numerical kernels a second time, operation by operation in the
  order of the C++ text, over an arbitrary arithmetic (a record of operations). `real_arith` gives back the exact model
  (C86_agrees_with_the_exact_model); `b64` (`ModelArith64.v`) is IEEE binary64, round to nearest even, with arbitrary
  sin, cos, exp. Numbers are carried by `R` used as a set of codes: the code of a double is an integer computed from
  its bits such that negation (a sign flip in the boundary kernels) is the opposite code. Assumptions: the compiler
  evaluates every expression as written, alike in every cell (no contraction, no value-dependent
  reassociation); the identity element of `Kokkos::Max` (-infinity-like) is left out, it only matters for NaN;
  multiplications by the unit factors 1.0 are left out (exact). Internal-mass gravity is not transcribed (its sums are not
  reproducible in general).
* **Division by zero**: Coq's `x / 0` is total (0). Theorems carry the hypotheses (positive density, positive
  volume, `wsR - wsL <> 0` proved from positive sound speeds ...) that make each denominator
  non-zero, so that they do not rest on `x/0`; results that only say that the same expressions are evaluated on the same
  arguments (C35, C86) need none. The exceptions are C105 and the rounded instance of C106, which quantify
  over all fields: for runs that do divide by zero they speak about the convention `x / 0 = 0`, not about the infinities
  and NaN the program would compute.
* **Kokkos views** are total functions of indices plus, where memory safety is the point, an extent;
  an access outside the extent is the distinct outcome `UB`.
* **Kokkos parallel_for** bodies write only their own cell; they are modelled as pointwise array
  definitions. `parallel_reduce` is modelled as a fold in an arbitrary order.
* **MPI**: the set of ranks is a 3D process grid; `MPI_Sendrecv_replace` on a periodic Cartesian
  communicator is a simultaneous update of every rank's array; `MPI_Allreduce` is a fold over ranks in
  arbitrary order; `MPI_Bcast` from rank 0 gives all ranks the same value. `ModelMPI.v` drops this simplification:
  there every rank is a program of its own that advances one MPI call at a time, and C84 proves that every
  interleaving ends as the simultaneous updates do. `MPI_Dims_create` and rank reordering are not modelled:
  theorems quantify over every process grid.
* **Exceptions** are the outcome `Throw`; undefined behaviour is the outcome `UB`.
* `ndim` in {1,2,3} (compile-time constant in C++) is a parameter of the model.

## Trusted base

Coq 8.16.1 kernel; the faithfulness of the transcription; the conventions above; stdlib axioms reported by
`Print Assumptions` (for `R`: `ClassicalDedekindReals.sig_forall_dec`,
`ClassicalDedekindReals.sig_not_dec`, `FunctionalExtensionality.functional_extensionality_dep`; possibly
`Classical_Prop.classic` through the real-analysis and Flocq files). No axiom is added by this development.

Not modelled: Kokkos/MPI/PDI/HDF5 internals, printing, wall-clock (an arbitrary oracle), floating-point
rounding outside C46, C68, C86-C88, GPU memory spaces except through DualView's protocol, build-time configuration.

## Wrong programs

`seeded/LOG.jsonl` holds one line per wrong program tried: a definition of the model is edited in a scratch copy, all files
that depend on it are rebuilt (or, where `rebuilt_only` is given, those that the named `Prop` files need), lemmas whose
proofs break are admitted one by one, and `failed` lists the property theorems that break or whose `Print Assumptions` then
show an admitted lemma. A broken proof is evidence that the theorem depends on the edited text, not by itself a proof that
the statement is false of the mutant. `proofs_timed_out` names lemmas counted as broken because their proof did not end in
time, `not_built` files that could not be rebuilt (their theorems are not counted), `expected_but_passed` properties that
were expected to break and did not. An earlier version of the script counted every theorem of a file that timed out or
did not compile as failed; the 22 entries this affected were removed and rerun.

## Plan per property

| id | modelled | proof plan |
|----|----------|-----------|
| C01 | `MPI_Decomp` arithmetic in `Z` | division/modulo facts; existence and uniqueness of the owner of every cell |
| C02 | `Range`, `with_ghosts`, `cell_range` | case analysis, `lia` |
| C03 | `set_grid`, cell size/centre over slices | slice arithmetic, uses C01 |
| C04 | `compute_regular_mesh_1d` over `R` | field arithmetic |
| C05 | `Cartesian`/`Spherical` kernels over `R` | factorisation identities, telescoping sums; refutation for the azimuthal area |
| C06 | all ranks' arrays, `ghost_sync` for every direction | invariant "correct on the box extended in the already exchanged directions" |
| C07 | same | refuted by a concrete thin decomposition |
| C08 | `null_gradient_condition`, `reflexive_condition` | index arithmetic |
| C09 | `generate_order` on parsed tokens | refuted by a 3-cycle; positive result for involutive orders |
| C10 | BC lookup over the parsed INI map | case analysis |
| C11 | C06 + boundary kernels, serial vs distributed | induction over the list of applied faces |
| C12 | `PerfectGas` | field arithmetic, sqrt |
| C13 | `euler_equations`, `array_conversion` | field arithmetic |
| C14, C15 | limiters, linear reconstruction | real inequalities |
| C16–C19 | three Riemann solvers over vectors of any dimension | case analysis on wave speeds, field |
| C20 | mirror states + solver | symmetry lemma |
| C21–C25 | Hancock + Godunov on arrays, sources | telescoping sums; pointwise algebra; induction over steps |
| C26, C27 | `time_step`, `integrate`, `minimum_internal_energy` as folds | order-independence of max/min/sum over partitions |
| C28, C75 | trace of all view accesses of a run, value-dependent branches by oracle (`UB` outcome) | index arithmetic; refutations for one ghost layer and missing variables |
| C76, C77 | uniform velocity and pressure with any density, whole runs | fluxes affine in the mass flux; convex combinations, Harten's form of the limited update; van Leer refuted |
| C78 | initialisation kernels of all setups (`ModelSetup.v`), process grid | same coordinates and gravity in every process; concrete layouts refute sedov1d (spherical, 2D) and sedov3d |
| C79, C81 | profiles as functions of the position | derivatives of exponentials, powers and logarithms, gluing at the joints; uniqueness of derivatives for refutations and for "exactly when" |
| C80 | user-defined boundary kernels | algebra on the written state; with a wind refuted for all parameters |
| C82 | `initial_energy` over all processes | sum over process blocks = sum over the mesh; n x n cells give n^2 E1 |
| C83 | kernels, then whole runs | positivity of each formula (tanh, ln, exp); composition with C36 and C77 |
| C29–C31 | `pressure_fix` | case analysis; refutations by explicit states |
| C32, C33 | gravity models, source update | algebra, prefix-sum induction |
| C34 | user steps | algebra |
| C35 | full step on a process grid vs one process | stencil-locality of the kernels + C11 + C27, induction over steps |
| C36 | whole runs of the time loop, HLL and HLLC with Constant reconstruction | admissible states as an intersection of half-spaces; each half-space kept by the update, convexity; invariant of the loop |
| C37–C41 | main loop as a transition system driven by an arbitrary oracle of CFL steps | invariants, induction over steps |
| C42–C44 | write/read of the restart state, loop | commutation of restart with the step; refutations |
| C45 | Kokkos `min` fold over values with NaN | refutation |
| C46 | binary64 (Flocq) | refutation by witness; exactness under Sterbenz' condition |
| C47 | DualView flag protocol | invariant relating flags and freshness; wrap-around refutation |
| C48–C50 | inih parser and INIReader on byte lists | round-trip by induction |
| C51, C52 | factories, `int_cast` | case analysis |
| C53 | XmlWriter token stream | balanced-tag induction |
| C54 | moving grid | slice arithmetic, induction |
| C55, C73, C74 | rad_gas: Newton solves, conversions, sound speed | convexity of the quartic; rates of linear and quadratic phase; thermodynamic derivatives |
| C56, C57 | `broadcast`, v1d criterion | index arithmetic; refutation of the window claim |
| C58 | axis permutation of the Godunov update | sum permutation |
| C59 | hyperslab selections of the PDI config | C01 + slice arithmetic |
| C60 | wave-speed estimates of the solvers | real inequalities |
| C61 | radial momentum sources | discrete angular-momentum identity |
| C62 | polar source term | comparison with the centrifugal term |
| C63 | full update under reflection | symmetry of limiter, solver and update |
| C64 | reconstruction and update of uniform gas under gravity | algebra |
| C65–C67 | main loop entered from a restart file | as C37–C44 |
| C68 | clock in binary64 (Flocq) | monotonicity of rounding; witness |
| C69, C70 | option switches, debug assertions of `broadcast` | case analysis; witnesses |
| C71, C72 | record and text of the XDMF index | tree grammar of XML; witnesses |
| C43, C54, C57 | moving grid, its restart, the v1d criterion | slices + restart relation; witnesses |
| C48, C49, C50 | parameter files: inih parser, INIReader getters | byte-level parser; grammar of lines; witnesses |
| C84 | the program of one process as a tree of MPI calls; interleaving semantics with the weakest and the strictest waiting rule | lock-step phases: every reachable state lies between two consecutive phases |
| C85 | same, with exceptions | all branches that throw depend on data all processes share; refuted for missing user boundaries |
| C86 | numerical kernels over an arbitrary arithmetic; binary64 instance | locality of the kernels for any operations; the maximum of a strict total order does not depend on the reduction |
| C87 | same, restart | exact when the conversions are; refuted by a uniform flow in binary64 computed inside Coq |
| C88 | same | differences of equal numbers are 0, multiples of 0 are negligible; refuted for scalars |
| C89 | parameter file to run, `ModelParam.v` | the grammar of C48 gives the entries, a table of options gives the values; refuted for options that do not exist |
| C90 | same, checks of start-up | what acceptance implies; refuted for sizes, bounds, times and CFL number |
| C91 | whole program: `program` in `ModelParam.v` composes start-up, layout, setup and loop | the file gives the hypotheses of C22, C35, C36, C83; lockstep of two process grids; invariant of everything the loop leaves behind |
| C92 | `io/io.cpp`, `io/config.yaml.cpp` as bytes of datasets in `ModelH5.v` | selection of the owned cells, place of each in the global dataset; read is the inverse on any decomposition; refuted beyond ten scalars |
| C93 | same, checks of `read_pdi` | acceptance characterised; refuted through different numbers of ghosts |
| C94 | `restart_program` in `ModelH5.v`: start-up, `read_pdi`, loop | the file restores the owned cells, the first boundary fill the ghosts; lockstep of the resumed and the uninterrupted run (C71, C91); cells in directions that do not exist are ignored |
| C95 | `launch` in `ModelLaunch.v`: start-up and loop of one process in program order, with the communicator constructors, the gravity of the empty arrays and the broadcast of the amplitudes as collective calls | lockstep (C78) extended to start-up: every check before the first difference between processes depends on data all have read, the extents are refused by all or none; embedding of the loop without grid shift (C91) into the loop of C78 |
| C96 | `v1d_program` and `v1d_launch` in `ModelProfile.v`: start-up, options and grid of v1d, checks and partial reads of the profiles, moving grid, loop; the same for one process | the part a process reads is that of its cells (C56 on the decomposition); hypotheses of C35 and C78 with a moving grid; lockstep of the processes from the parameter file on; case split on the datasets that do not fit; witnesses |
| C97 | the scheme over an arbitrary arithmetic (`ModelArith.v`) and binary64 (`ModelArith64.v`) | laws of sign-symmetric arithmetics (`SpecMirror.v`: opposite arguments give opposite results, comparisons and minima commute, up to the sign of zero), proved for binary64 by case analysis on doubles; every kernel maps mirror images to mirror images; HLLC and the limiters by evaluation of witnesses |
| C98 | boundary update and runs (`ModelBoundary.v`, `ModelStep.v`) | closed form of the ghost cells (`SpecFill.v`: per direction the continuation of an index and whether it is turned), by induction over the exchanged directions and over the list of faces: what a cell holds after a step is the field continued in the directions already treated; order independence is a corollary, runs by the simulation between two layouts of the same run |
| C99 | the same, with the scheme of `ModelScheme.v` | `SpecSym.v`: renamings of the axes and mirrors acting on runs, meshes and fields; simulation between a run and its image, every kernel commuting with the action (lemmas of C14 and C30, extended to time step, pressure fix, boundary conditions and decomposition); the relations between the meshes are asked of all indices, also outside the arrays, where the model reads an arbitrary but fixed value; the pressure fix in a mirror by a shear flow |
| C100 | `ModelUser.v`: the main loop of `ModelMain.v` with faces that use BoundarySetup (`user_condition` of `ModelSetup.v`) | slices of a single process commute with the user-defined kernels (`touched`, `own_step_slice`), then the lockstep of C42; the last face beyond which a cell lies decides; invariant over the faces treated so far for the start at rest |
| C101 | `ModelUserRun.v`: `program` of `ModelParam.v` for parameter files with faces "UserDefined"; the exception of BoundarySetup of the other setups | start-up described by the entries of the file (C89), then C100; equality with `program` when no face is "UserDefined"; `inputs/stratified_atm.ini` as shipped meets the hypotheses |
| C102 | none new: `own_full_step` of `ModelUser.v` with `LConstant`, `HLL` and uniform gravity | all cells hold the profile (C100); half step and HLL flux of the moved profile in closed form; the neighbours of a cell have e^(+-k) times its density; limits and Taylor bounds of sinh and cosh |
| C103 | none new: `run` of `ModelStep.v` and `loop (hydro ...)` of `ModelMain.v` | the set of uniform states is closed under a step (all flux differences vanish); CFL step at least cfl / (A + B tau); the loss telescopes against kappa ln(1 + B tau / A); a step starts only while the energy is not negative, so there are finitely many |
| C104 | none new: `hllc`, `splitting` of `ModelHydro.v`, `loop (hydro ...)` of `ModelMain.v` | the new state is linear in the step along each of the functionals of C36, so one value of the functional refutes an interval of Courant numbers; for the densities under "Low Mach" the face velocity is below the mean of the two characteristic speeds |
| C105 | none new: everything from `ModelGeom.v` to `ModelMain.v` | every formula is homogeneous, division by zero included (x / 0 = 0 on both sides), and comparisons survive positive factors, so the scaled program state is equal, cell by cell and ghost cells included, to the state of the scaled program |
| C106 | none new: `ModelArith.v` (operation by operation, any arithmetic) | shifts are pulled out of each operation in the order of the C++ text; every addition, minimum and comparison then meets equal exponents, decided by linear arithmetic on the dimensions; the sum of Kronecker factors times cell widths needs 0 times x to be unaffected by shifts |
| C107 | none new: `ModelStep.v` twice, with `k_nd` and with more dimensions | relations on primitive, conserved, flux and reconstructed states carried through each kernel (face areas and volumes gain the same factor; fluxes through the two additional faces cancel, in spherical geometry with the angular source terms), then ghost cells as periodic or constant continuation, one process, then any process grid by C35; the pressure fix on uneven widths by direct computation |
| C108 | `ModelSmall.v`: `is_valid`, `print_info`, `equal_extents`, `clear_synchronization_state`, and the block iterator of `tests/partitioner.cpp` | direct; blocks by induction on the iteration, cells of a range by C02; uniform ball by telescoping the scan; the literal values of the tests are the examples beside the theorems |
| C109 | (as C76) | the invariant of C76 with velocity zero; pressure fluxes and geometric sources balance by the lemma of C24; the pressure fix is not triggered without motion; face densities at rest are the extrapolated ones, between neighbouring cells for Minmod everywhere and for van Leer and van Albada on even axes, hence positive; contact solvers let no mass through; refuted for HLL by the flux through a contact, and for van Leer on uneven meshes by a face density below zero |

## Coverage by source file

| source (`/repo/src`) | model |
|---|---|
| `mesh/range.cpp`, `mesh/grid.cpp`, `mesh/grid_type.cpp`, `mesh/grid_factory.cpp` | `ModelMesh.v` (ranges, decomposition), `ModelGeom.v` (coordinates), `ModelUtil.v` (factories) |
| `mesh/geometry.cpp`, `mesh/geometry_factory.cpp` | `ModelGeom.v`, `ModelUtil.v` |
| `boundary.*`, `boundary_distribute.*`, `boundary_factory.hpp`, `default_boundary_setup.hpp` | `ModelBoundary.v`, `ModelSetup.v` (user-defined conditions), `ModelUser.v`, `ModelUserRun.v` (runs with them), `ModelMPI.v` (messages, missing conditions) |
| `hydro/*` | `ModelHydro.v`, `ModelScheme.v` (kernels), `ModelStep.v` (order of kernels in a step), `ModelFloat.v` (rounding of the time step), `ModelMem.v` (every view access), `ModelArith.v` and `ModelArith64.v` (operation by operation, binary64) |
| `gravity/*`, `user_step/*`, `analysis/*` | `ModelScheme.v`, `ModelStep.v` |
| `thermodynamics/perfect_gas.*`, `units/units.hpp` | `ModelHydro.v` |
| `thermodynamics/rad_gas.*` | `ModelRad.v` |
| `moving_grid/*`, `shift_criterion_interface.*`, `default_shift_criterion.hpp` | `ModelMove.v` |
| `main.cpp` | `ModelParam.v` (start-up: options, checks, choice of operators), `ModelMain.v` (loop, outputs, restart), `ModelMove.v`, `ModelMPI.v` (program of one process), `ModelLaunch.v` (start-up and program of one process) |
| `io/io.cpp`, `io/config.yaml.cpp`, `io/io_hdf5.hpp`, `broadcast.cpp` | `ModelIO.v`, `ModelH5.v` (datasets, checks, restart), `ModelUtil.v` |
| `dual_view/dual_view.hpp` | `ModelUtil.v` |
| `utils/param.*`, `utils/int_cast.hpp`, `utils/kronecker.hpp`; `vendor/inih` | `ModelParam.v`, `ModelIni.v`, `ModelUtil.v` |
| `utils/print_info.hpp`, `utils/kokkos_shortcut.hpp` (`equal_extents`), `is_valid` of the gases | `ModelSmall.v` |
| `setups/*/setup.hpp`, `default_grid_setup.hpp`, `default_setup.hpp` | `ModelSetup.v`, `ModelProfile.v` (v1d: options, file of profiles, run) |
| not modelled | `main.cpp` screen output, `git_version`, `mpi_scope_guard.cpp` (beyond "a process that has thrown makes no further call"), `initialization_interface.*` (dispatch only), the PDI/HDF5/Kokkos/MPI libraries, CMake, `benchmarks/`; `tests/` except the block iterator of `tests/partitioner.cpp` (the values asserted there appear as examples, C108) |

## Findings about the code

Each is a theorem (`_refuted`, or part of the property's theorem) unless marked "observation".

* **C05** the azimuthal (phi) face area of 3D spherical cells is an approximation.
* **C07** subdomains thinner than the ghost layer are accepted and get wrong ghosts.
* **C09** the boundary order applied is the inverse permutation of the listed one; the default order is the
  reverse of the documented one; a face listed twice leaves an indeterminate entry.
* **C10** an explicitly empty face-specific key is rejected even when the general key is set.
* **C15** VanLeer and VanAlbada reconstructions can overshoot on stretched meshes.
* **C19** HLL diffuses stationary contacts (HLLC and Low-Mach keep them).
* **C20** reflexive walls leak under gravity normal to them: the predictor adds the gravity source to both face
  states, so gas at rest has mass flux rho g dt/2 through the wall in its first step (and whatever face-normal
  velocity gravity gives in the half step later on).
* **C26** (observation) the time step is taken over all ghosts; in spherical geometry ghosts beyond the origin
  or the axis have negative widths (harmless: the maximum over owned cells prevails), and a ghost cell
  centred exactly on r = 0 makes the rate infinite and the time step zero.
* **C30** the pressure fix rebuilds the total energy with the kinetic energy of the *old* state while the momentum
  is already updated: the change of kinetic energy during the step is taken out of the internal energy. Cold
  gas accelerated by gravity ends up with negative internal energy although the scheme without fix keeps it
  positive.
* **C31** the divergences of the pressure fix pair every velocity component with every face direction: in two or
  three dimensions a pure shear on an even mesh and a uniform flow on a stretched mesh get a spurious heating.
* **C34** (observation) `Heat_nickel` reads scalar 0 without checking that a scalar exists (`nfx = 0` would read
  out of bounds).
* **C40** a first output time at or before the start time (for instance `time_first_output = 0` for a run that
  starts at 0) aborts every run in its first iteration with "the time step is negative".
* **C44** if the last CFL step reaches beyond both `t_end` and the next scheduled output time, the time output
  counter is advanced although the step is cut at `t_end`: a restart with a later `t_end` never writes that output.
* **C45** NaN energies are never detected: `Kokkos::min` and the `Min` reducer ignore NaN operands, so the test
  `isnan(min_internal_energy)` can never be true. If all cells are NaN the minimum is DBL_MAX, the time step is
  1/(-DBL_MAX) < 0, and the run goes on until `max_iter`.
* **C46** the final time `t + (t_end - t)` can differ from `t_end` by one unit in the last place (t = 2^-53,
  t_end = 1 + 2^-52); it is exact if the last step starts at 0 or in the second half of the run.
* **C47** the modification flags of `DualView` are 32-bit counters that are incremented at every write access and reset only by a
  transfer: after 2^32 write accesses on one side without an access to the other the flags wrap to "in sync" and
  the other side reads stale data. Impossible when both sides share memory.
* **C61** the curvature source of the full step uses the cell's own face states instead of the fluxes of the
  Riemann solver: angular momentum is not conserved where they differ (it is in the half step).
* **C62** the centrifugal source of the polar momentum multiplies by cot(theta_c)/2 face areas that already carry the cotangent: it is
  mean(cot) cot(theta_c)/2 instead of mean(cot). The transport terms have a relative error
  ((r+ - r-)/(r+ + r-))^2.
* **C64** uniform gas in free fall loses rho |g|^2 dt^2/2 of internal energy per step (energy source evaluated with
  the old momentum).
* **C65** a restart from a file whose time is not before `t_end` still makes one step, with zero or negative `dt`,
  and writes one more file.
* **C67** restart with a smaller `time_output_frequency` aborts at once with "the time step is negative"; with a
  smaller iteration frequency every iteration is written until the stored counter has caught up.
* **C68** a positive step below half a unit in the last place leaves the time unchanged (the run then continues until
  `max_iter`).
* **C69** every value of `pressure_fix` other than `On` and every value of `shift_grid` other than `UserDefined`
  silently means "off" (for instance `on`).
* **C70** the debug assertion in `broadcast` has a misplaced parenthesis (a
  sum of the extent and a truth value, line 33): non-empty profiles of a wrong length pass unnoticed and are read out of bounds.
* **C71** the XDMF index is rewritten from an empty record after a restart: it then lists only the outputs written
  since the restart. (The file written when a negative energy is detected is not listed either.)
* **C72** the XDMF writer escapes nothing: a prefix with `&` or `<` gives an ill-formed index.
* **C43** when the grid reaches `rmax_shift` the code replaces the outer boundary condition by a null-gradient one and
  stops shifting; neither is written to the output. A restart from a later file uses the boundary condition of the
  parameter file again (until the criterion fires and the same branch is taken again).
* **C57** the v1d shift criterion forgets the ghost offset: it inspects the last `cell_shift + Nghost` cells (for
  `cell_shift > Nx - Nghost` even inner ghost cells). And `vmax = 0` is a floor only on processes that
  are not in the last column (`Kokkos::Max` overwrites it there): with a non-positive threshold the decision depends on
  the process grid.
* **C54** (observation) the test against `rmax_shift` reads interface `Nx + Nghost + 1`, one cell beyond the outer boundary.
* **C49** `GetInteger`/`GetReal` use `std::stoi`/`std::stod` without looking at the position: text after the number is ignored. `Nx0_glob = 1e3` means 1 cell, `0x10` means 0 although the comment in `INIReader.cpp` promises hexadecimal, `gamma = 1,5` means 1.
* **C50** An indented setting is a continuation of the previous value (`t_end = 1` / `  cfl = 2` sets `t_end` to two lines and leaves `cfl` at its default, without an error). Lines of more than 199 bytes are split silently, so the tail of a long comment can become a setting. `#` starts a comment at the beginning of a line only: the shipped input files that write `Nx0_glob = 20 # ...` work only because of C49.
* **C73** Radiating gas: Newton's method is started from the *larger* of the gas-only and radiation-only temperatures. The true root lies below both, and far above it each step removes only a quarter of the error, so 100 iterations do not suffice when the radiation holds 10^14 times the energy of the gas (for instance 10^-13 kg/m^3 at 10^7 K): the temperature comes out at least 30 times too hot and the energy computed from a pressure 700000 times too large. The smaller guess would converge at once. The "No convergence" message cannot appear, because it asks for `itr == max_itr` while `itr` ends at `max_itr - 1`.
* **C28** `Nghost = 1` is accepted (the check of range.cpp:45-48 is commented out) and the first reconstruction reads
  `dx0(-1)` and `rho(-1, …)`: undefined behaviour in every run, of every setup. `Nghost = 0` is rejected, but only in the first
  iteration, by `with_ghosts`.
* **C75** With the default `nfx = 0`, the setups heat_nickel, rayleigh_taylor and rayleigh_taylor3d and the user step
  `Heat_nickel` write `fx(…, 0)` outside the array; in one dimension gresho_vortex, kelvin_helmholtz and rayleigh_taylor write
  `u(…, 1)`. Only debug assertions would notice (the user step has none).
* **C77** van Leer limiter: for every Courant number there are positive densities in uniform flow (a small one, a medium one
  and a much larger one in a row) whose half-step value on the upstream face is negative; the Riemann solver then takes the
  square root of a negative number. Densities within a factor 3, or the minmod limiter, exclude it.
* **C78** sedov1d uses the volume of each process's own first cell for the background energy (spherical geometry: the initial
  pressure depends on the number of processes), and heats cell `i == 2` of rank 0 only (in two dimensions the rows of the other
  processes stay cold). sedov3d compares local, ghosted indices with half the global number of cells: with several processes
  the hot cell moves, is missing or appears several times.
* **C79** stratified_atm takes the absolute value of the gravity: for g > 0 (towards +x) the atmosphere is upside down. The
  pressure of the two-dimensional rayleigh_taylor uses the density of the upper fluid everywhere: the lower fluid is not in
  equilibrium.
* **C80** The user-defined boundary conditions of stratified_atm and eq_hydro_sphe write the momentum `rho0 * u0` instead of
  `rho * u0` and a total energy without kinetic energy; with a wind the ghost cells have a wrong, possibly negative, internal
  energy.
* **C81** The vortex is steady only for rho0 = 1 and u0 = 0; the default of the code is u0 = 1 (a jump of the velocity at
  r = 0.4), and the pressure ignores rho0.
* **C82** sedov2d gives E1 to every cell whose lower corner (not centre) is closer than 0.025 to the origin: the blast energy
  grows like the square of the resolution. sedov1d finds the hot cell by the index 2: with `Nghost = 3` it is a ghost cell and
  there is no blast. sedov3d needs a face at exactly r = 1; otherwise there is no blast.
* **C83** rayleigh_taylor: the scalar formula lacks its `fx1 +` term (with fx0 = fx1 the scalar is 0); the linear pressure is
  negative in tall domains.
* **C85** A boundary condition `UserDefined` in a setup that defines none throws only in the processes at that border
  (`default_boundary_setup.hpp:33`); the others wait for ever in the next collective call, and the failed process itself in
  `MPI_Finalize`. The same holds for `int_cast` of a buffer size that overflows on some processes only.
* **C86** (observation) A NaN in one cell makes the global time step depend on the order of the reduction (`Kokkos::Max` and
  `MPI_MAX` compare with `<`): it may vanish from the maximum, and the run goes on.
* **C87** Restart is not bitwise: the file holds the pressure, the energy is recomputed from it, and the conversion
  energy -> pressure -> energy through the temperature (`perfect_gas.hpp:46-83`) loses the last bit. With gamma = 5/3, rho = 3,
  u = (3, 0.5), P = 12 each restart lowers the pressure by one unit in the last place.
* **C88** A uniform scalar is stored as fx but updated as rho fx: fx = 0.1 in a uniform flow of density 3 becomes
  0.10000000000000002 after the first step.
* **C89** Options that do not exist are ignored without a message. The shipped `inputs/shock_tube1d_sph.ini` contains
  `[Run] timeout = 0.2`: whatever is written there, the run ends at the default t_end. (`inputs/rayleigh_taylor3d.ini`
  contains `[Gravity] type`, which is decided at build time.) An option with an empty value takes the default if it is a
  number, but is the empty text, which the factories reject, if it is a name.
* **C90** Start-up checks gamma, mu, the names of the operators, negative extents and the priority of the boundaries. It
  accepts zero cells (also: a missing resolution), no ghost cells, x0max < x0min, t_end < t_ini, a negative CFL number
  (the time then runs backwards until max_iter or the job time) and a negative number of iterations. An extent next to
  2^31 overflows `int` in the computation of the size with ghosts, which is undefined behaviour.
* **C92** `config.yaml.cpp` declares the datasets fx0 ... fx9 only: a run with eleven or more passive scalars is accepted at
  start-up and fails when it writes its first output.
* **C93** `read_pdi` compares only the extents of x0, x1, x2, which include the ghosts; the comparison of the fields is
  commented out. A file of n+2 cells written with ng ghosts is accepted by a run with n cells and ng+1 ghosts: the coordinates
  are then those of the file, the fields are read from its first n cells, i.e. displaced by one cell. (The ratio gamma is
  stored in the file but never compared with that of the run.)
* **C96** The setup v1d checks the extents of `/fx_1d` also when there are no passive scalars, although it is not read then: a
  profile file without it, sufficient for the run, is refused (with the default nfx = 0 an empty dataset of extents 0 x n has
  to be added). Only extents are checked: shells of no thickness and negative densities are executed. The message for
  a dataset `/fx_1d` of a wrong rank is "Expecting a 1d dataset" although two extents are expected.
* **C97** HLLC lets round-off through a wall: between the mirror images of density 1, momentum 2 and energy 100 (gamma = 1.4) the
  flux of mass is 2^-51, not 0, because `SL` and `SR` enter the star state through differently rounded expressions; HLL and LowMach
  are tight to the last bit. The limiters, written with the ratio `diffR / diffL`, are not symmetric in binary64 (VanLeer at
  (2, 3), Minmod at (2, 5), VanAlbada at (3, 5)), so a symmetric flow loses its symmetry in the last bits with second order.
* **C99** With the pressure fix in several dimensions a run and its mirror image differ: `pressure_fix.hpp:85,139-142` sums the
  differences of every velocity component over the faces of every direction (the defect of C31), and the mixed terms change
  sign in a mirror. A cold shear flow u = (rate y, 0) is cooled, its mirror image is heated.
* **C102** The scheme is not well-balanced: from the hydrostatic profile of stratified_atm at rest, one (short) step of the
  first-order scheme with HLL makes every cell heavier and move upwards, at the rates c (cosh k - 1) / h and g (sinh k / k - 1),
  k the cell width in scale heights (`hydro_reconstruction.hpp:85-129`, `godunov_scheme.hpp:110-302`: gravity is added
  cell by cell, the pressure difference comes from the Riemann problems). The error vanishes with k, as bounded in
  `C102_rates_vanish_with_the_cell_width`; a run drifts on coarse meshes.
* **C103** A uniform gas in free fall does not run to the end: the gravity source takes rho |g|^2 dt^2 / 2 of internal
  energy per step (C64), the CFL steps shrink only like 1/t, so the losses add up like a logarithm of the time and the
  run is given up with "detected invalid volumic internal energy" (`C103_falls_to_the_end_refuted`, in at most
  `lifetime` + one step).  The lifetime grows exponentially with the number of cells per scale height, so it matters for
  coarse meshes and cold gas: with rho = P = width = 1, g = 10 and cfl = 0.5 the gas lasts less than one unit of time.
* **C104** "Low Mach" (`Splitting`, riemann_solver.hpp:143-181) is not positive at any Courant number: its pressure at a face is the
  mean of the two pressures as soon as the face velocity vanishes (theta = 0), so a cold cell at rest beside a hot one that moves
  towards it is pushed by half the pressure difference without receiving energy; its internal energy is negative after one step and
  the program ends with "detected invalid volumic internal energy" (`C104_low_mach_refuted`).  HLLC is not positive at Courant
  numbers between 3/4 and 1, where HLL is (`C104_hllc_refuted`; its star pressure is negative at one of the faces); at half the
  Courant number it is (C36).  The parameter reader accepts every `cfl` with every solver.
* **C107** With the pressure fix on a mesh whose cells have unequal widths along an axis, a flow across that axis is heated or
  cooled where nothing varies: `pressure_fix.hpp:85,139-142` pairs the velocity along x with the faces of the direction y, whose
  x-areas differ by the growth of the cells, so that a cold uniform wind changes its energy by
  dt (e + P) u (dy(j+1) - dy(j)) / (dx dy(j)) per step in two dimensions and keeps it in one (`C107_pressure_fix_refuted`).
* **C109** With HLL a gas at rest does not keep its layers: in one dimension every cell next to a cell of another density
  changes its own in the first step, however short (`C109_hll_refuted`).  And the van Leer slope combines one-sided differences
  divided by the true distances, but extrapolates over half the own width: wherever a cell is followed by a narrower one, some
  positive densities give a negative density at the common face, also in a gas at rest (`C109_narrower_cell_refuted`); the
  sound speed of a perfect gas there is then the square root of a negative number.  Minmod is safe on every mesh.
* (observations) Parameters read but never used: rayleigh_taylor `A`, sedov2d `P0`, rayleigh_taylor3d `P0`; sedov2d and
  rayleigh_taylor3d use face instead of centre coordinates; rayleigh_taylor3d draws its modes from `std::random_device`
  (runs are not reproducible).

## Status per property

| id | title | status | note |
|----|----|----|----|
| C01 | Domain decomposition is an exact balanced partition | proved | For every process grid; int as unbounded Z; MPI_Dims_create not modelled (any grid). |
| C02 | Cell ranges enumerate exactly the requested cells | proved | Range constructor, with_ghosts, no_ghosts, all_ghosts and the MDRange cell enumeration. |
| C03 | Every process sees the same physical mesh | proved | Slices of the global coordinates, for every process grid; grids read from file are arbitrary arrays. |
| C04 | Regular mesh: equal, positive, exactly covering cells | proved | Over R. |
| C05 | Cell volumes and face areas are the exact geometric ones | proved | Over R; exact integrals with Coquelicot's RInt. The azimuthal (phi-face) area of 3D spherical cells is proved to be only approximate, as the property says; the balance of the pressure source is C24. |
| C06 | Ghost exchange reproduces the periodic global field | proved | Every decomposition with nloc >= ng; MPI_Sendrecv_replace as simultaneous update. |
| C07 | Ghost exchange with thin subdomains | partial | refuted: nothing rejects subdomains thinner than the ghost layers and their ghosts are wrong (witness 3 cells, 3 processes, 2 ghosts); the positive statement for thick subdomains is C06. |
| C08 | Physical boundary conditions fill exactly the ghost layer they own | proved |  |
| C09 | Boundary priority parameter orders the faces | partial | refuted: the intended order is obtained exactly for self-inverse listings; the default order is the reverse of the documented one; duplicated faces are accepted and leave an indeterminate entry. Rejection of unknown/missing tokens is proved. |
| C10 | Boundary condition names resolve most-specific-first | proved | 'none is given' includes an explicitly empty most-specific key, as C10_rejected_iff_not_given spells out. |
| C11 | Boundary update does not depend on the process grid | proved | Any order of faces, any mix of conditions; subdomains at least as thick as the ghost layer. |
| C12 | Equation of state is self-consistent | proved | Over R; construction modelled with NaN and infinities. |
| C13 | Conservative and primitive variables round-trip | proved | For every lawful equation of state (perfect gas is one: C12_perfect_gas_is_lawful), positive density and pressure/internal energy; array conversions for every range predicate. |
| C14 | Slope limiters are symmetric, sign-preserving and bounded | proved |  |
| C15 | Face reconstruction preserves constants, linear data and monotonicity | proved | Monotonicity outside regular meshes holds for Minmod only; VanLeer overshoot on a stretched mesh is proved. |
| C16 | Riemann solvers are consistent with the physical flux | proved | For every equation of state satisfying lawful_eos. |
| C17 | Riemann solvers upwind supersonic flow | proved | HLLC for strictly supersonic states, HLL also for sonic ones. |
| C18 | Riemann solvers are mirror symmetric | proved | All three solvers, no exception. |
| C19 | HLLC keeps contact discontinuities exactly | proved |  |
| C20 | Reflecting walls are impermeable | partial | refuted: uniform gravity normal to the wall drives the mass flux rho g dt/2 through it (proved for every such run at rest). Impermeability proved for every run, solver, limiter and process grid when gravity has no component normal to the wall, the mesh is Cartesian and the two ghost widths mirror the cells (regular meshes); conservation in boxes mixing walls and periodic directions proved. Ghost widths that do not mirror (stretched meshes) are excluded by hypothesis. |
| C21 | Finite-volume update is conservative | proved | For arbitrary reconstructed states, every box, every geometry; momentum in Cartesian geometry. |
| C22 | Periodic runs conserve mass, momentum and energy exactly for any number of steps | proved | Cartesian, any process grid, any field, any number of steps and dt; widths periodic in the ghosts (as regular meshes give). Mass and momentum also with pressure fix or user step on. |
| C23 | Uniform flow is preserved | proved | Whole runs on any process grid; walls parallel to the flow; the pressure fix must not be triggered by the state. |
| C24 | Spherical geometry keeps a uniform gas at rest | proved | Any geometry, whole runs on any process grid. |
| C25 | Passive scalars stay in [0,1] and uniform scalars stay uniform | proved | Bounds in every cell after every step; uniformity as long as no density met is zero; conservation of scalar mass where nothing is clamped. |
| C26 | Time step respects the CFL condition | proved | All cells including ghosts; ghost widths may be negative but not zero (a ghost cell centred on r = 0 would give an infinite rate). |
| C27 | Global reductions do not depend on the decomposition | proved | Any process grid and any order and association of the reductions, over R. |
| C28 | Stencils never leave the allocated arrays | partial | refuted: one ghost layer is accepted and every run then reads outside the arrays in its first reconstruction; no ghost layer is rejected in the first iteration. Proved: with two or more, no access of a whole run (start, any number of iterations, any branches, moving grid, all setups, gravities, boundary conditions, process grids) leaves its view, and the run completes unless refused. Not covered: buffers of MPI and file output. |
| C29 | Pressure fix only rewrites energy, only in kinetically dominated cells | proved | Whole step with and without the fix, any state, process grid, solver. |
| C30 | Pressure fix yields an energy consistent with the updated momentum | partial | refuted: the fix uses the old kinetic energy with the new momentum; exact formula for what it leaves proved, with a state whose internal energy turns negative. |
| C31 | Pressure fix sees no compression in incompressible shear | partial | refuted in 2D/3D (shear on even meshes, uniform flow on stretched ones); proved: uniform flow in 1D or on even meshes is left alone. |
| C32 | Gravity models return the documented acceleration | proved | Uniform, point mass, internal mass (inside any run on any accepted process grid); refusal of radial splitting; mass of the gas on whole-sphere meshes. |
| C33 | Gravity source does work consistently | proved | Update and half step. |
| C34 | User steps change only what they should | proved | Effect inside a whole step; positivity, decay, total released energy of the nickel rate. |
| C35 | Simulation results do not depend on the MPI process grid | proved | Whole runs, all solvers, limiters, boundary mixes, gravity models, pressure fix and user step, ghosts included; time steps given or chosen by CFL. Grid shift and output are outside the step. |
| C36 | First-order HLL keeps density and internal energy positive | proved | Proved for whole runs of the time loop, fresh or restarted (any number of iterations, output schedule, end time, process grid, boundary conditions; ghost cells and output files included), and more than asked: HLL with cfl <= 1/(ndim q) on meshes whose neighbouring widths are in a ratio at most q, HLLC with half of that. Needs of the equation of state that P^2 < 2 rho c^2 e (shown for every perfect gas the program accepts). |
| C37 | Time advances monotonically and stops at t_end | proved | Any dynamics, any wall-clock behaviour; exact arithmetic (see C46 for doubles). |
| C38 | The run always terminates, within max_iter steps | proved | Any dynamics and clock; the loop is left after 1..max(1, max_iter - iter) iterations, by exit or exception. |
| C39 | Iteration outputs appear exactly at multiples of the frequency | proved | Also with time outputs: every multiple of the frequency is written. |
| C40 | Scheduled output times are hit exactly, once each, in order | partial | refuted: a first output time not after the start aborts every run; proved for first output times after the start. |
| C41 | Output files are numbered consecutively and never overwrite each other | proved | Ids of a run (also the emergency output) and of its continuation are 0,1,2,...; file names are injective in the id. |
| C42 | Restarting from an output continues the run identically | proved | Restart on any process grid; after an output of the uninterrupted run (ids equal) or after an interruption (ids shifted by at most one). Exact arithmetic, no grid shift; stored states must be physically admissible. |
| C43 | Restart keeps the grid-shift and boundary state | partial | refuted: the deactivation of the shift and the replaced outer boundary condition are not in the file; the restarted run has the boundary condition of the parameter file again. Proved: restart equivalence (coordinates, boundary conditions, arrays, files; any process grids) from files written before the deactivation, or if the outer boundary is a null-gradient one from the start. |
| C44 | Restart loses no scheduled output | partial | refuted: a last step beyond both t_end and the next output time loses that output; proved when t_end is scheduled or was not reached. |
| C45 | Corrupt states stop the run | partial | refuted for NaN (never detected); proved for negative energies: whole loop in exact arithmetic on any process grid, and the reduction in binary64 for any schedule of threads and processes. |
| C46 | Final time equals t_end in double arithmetic | partial | refuted in general (one ulp short); proved exact from 0 or the second half of the run, and within one ulp otherwise. |
| C47 | DualView always returns the latest data | partial | DualView (arbitrary histories of accesses and stores in either space). Proved for histories with fewer than 2^32 write accesses between transfers, and for all histories when the two memories coincide; refuted beyond: the 32-bit flags wrap. |
| C48 | INI files: every key is found with exactly the value written | proved | vendor/inih ini.c and INIReader.cpp modelled byte by byte. Proved for every file whose lines fit the 200-byte buffer and contain no NUL: with any layout (blanks, comments, continuation lines, either separator, last newline missing) the reader returns exactly the written entries, case-insensitively, duplicates joined by newlines, defaults otherwise; and every well-formed configuration, rendered, is read back. Names are looked up without '='; section names of at most 49 bytes; no byte order mark. |
| C49 | INI reader: numeric and boolean conversion | partial | refuted: text after a number is ignored without report ("1e3" is the integer 1, "0x10" is 0, "1,5" is the real 1). Proved: booleans accept exactly the documented spellings; which strings integers accept, exactly; decimal literals give the nearest double, overflow throws. Hexadecimal, inf and nan spellings of reals are modelled but only used by exclusion. |
| C50 | INI comments, blank lines and whitespace are inert | partial | refuted: indentation turns a setting into a continuation of the previous value; lines longer than the buffer are silently split; '#' is no inline comment. Proved: empty and comment lines can be inserted at any line boundary of any file, trailing blanks on any line, layouts with the same meaning are equivalent, and the first malformed line is reported. |
| C51 | Option names select exactly the documented implementation or are rejected | proved | All names accepted by the factories (limiters, solvers, boundary conditions, grid types, user step) and the whole operator construction of main; a restart does not look at the grid type name, so it is not required to be valid there. |
| C52 | int_cast is exact or throws | proved | int_cast between any two integer types of any width and signedness. |
| C53 | XDMF index is well-formed and lists every output | proved | The text the writer prints is proved to represent the expected tree of elements, for output prefixes without markup characters (see C72) and printed numbers without quotes; every reference names a dataset of the file with its extents (at most ten passive scalars, as many as the file description declares). |
| C54 | Grid shift moves every cell by exactly one, consistently on all processes | proved | Exact arithmetic. A step with a grid shift: coordinates, all owned cells, every process grid, any number of shifts; the shift criterion is any function of the global fields (and v1d's with positive threshold). |
| C55 | Radiative gas temperature solve converges to the unique root | proved | Real arithmetic (the exponent 1/4 as a real power). Unique root, identification of the result with Newton's method from the larger of the two guesses, one-sidedness, decrease by a quarter and quadratic rate of every step, bound on the result, tight bound when radiation <= 10^10 gas; the constructor's validation. |
| C56 | Initial 1D profiles are broadcast to every cell of the range | proved | broadcast of constants and profiles, and the profile setup on every process grid. |
| C57 | Shift criterion inspects the requested outer cells | partial | refuted: (1) the window begins at Nx - cell_shift without the ghost offset and so covers cell_shift + Nghost cells; (2) the floor 0 only exists when the first direction is distributed, so a non-positive threshold decides differently on one process. Proved: exact firing condition for positive thresholds, no fast cell among the last cell_shift ones is missed, refusal condition, same decision on all process grids. |
| C58 | A Cartesian step treats all axes alike | proved | Reconstruction, half step and update. |
| C59 | Output files hold the global owned field exactly once | proved | Row-major hyperslab transfers of the PDI description between left-layout arrays with ghosts and datasets, all fields and vector components, any order of the processes; HDF5 itself is modelled by the selection semantics. |
| C60 | Riemann solvers obey the jump conditions of their wave models | proved |  |
| C61 | Radial and polar source terms conserve angular momentum | partial | refuted for the full step (spurious torque given exactly, witness with HLL); proved for the half step. |
| C62 | Geometric source terms agree with the continuous equations | partial | refuted for the polar centrifugal term (wrong by cot(theta)/2); radial momentum exact; exact error of the other terms proved. |
| C63 | A Cartesian step is reflection symmetric | proved | Under admissible reconstructed states (needed by the HLLC denominators). |
| C64 | Uniform gas in free fall keeps its internal energy | partial | refuted: internal energy decreases by rho/g/^2 dt^2/2 per step; density and acceleration exact. |
| C65 | Restarting a finished run does nothing | partial | refuted: one step with non-positive dt and an extra file; proved that restarts before t_end never go back. |
| C66 | Iteration and output counters do not overflow | proved | Condition iter_freq + max(1,max_iter) <= INT_MAX; example shows overflow without it. |
| C67 | Output intervals may be changed at a restart | partial | refuted for smaller intervals (abort; an output per iteration until caught up); proved when the stored counter fits the new schedule. |
| C68 | Time advances monotonically in double arithmetic | partial | refuted strictness (stall); proved monotone, below t_end until the last step, at most one ulp beyond. |
| C69 | Switches reject unknown values | partial | refuted: any value but On / UserDefined silently means off. Proved: the switches are on exactly for these values. |
| C70 | A debug build detects a profile whose length does not fit the mesh | partial | refuted: the assertion adds the truth value of a comparison to the extent; a profile of wrong length passes and is read out of bounds. Proved: it detects exactly empty profiles. |
| C71 | The XDMF index survives a restart | partial | refuted: the record is empty after a restart and the file is truncated. Proved: the index lists exactly the outputs since the restart. |
| C72 | The XDMF index is well-formed for every output prefix | partial | refuted: nothing is escaped (witness: a prefix with an ampersand). Proved for prefixes without <, > and & that do not start with a blank. |
| C73 | Energy, pressure and temperature of a radiating gas are consistent, or the failure is reported | partial | refuted: in radiation-dominated states (>= 10^14 times the gas) the recovered temperature is at least 30 times too hot and no message can be printed. Proved positively: temperature to energy/pressure is the physical sum, round trips err upwards only, and come back within the tolerance when radiation <= 10^10 gas. Real arithmetic. |
| C74 | The sound speed of a radiating gas is the isentropic one | proved | At the temperature found by the solver (never below the exact one, see C55). Real arithmetic. |
| C75 | Setups only write variables that exist | partial | refuted: with the default nfx = 0, or in 1d, several setups and the heating step write outside the arrays in every run; proved: when the variables exist, initialisation is inside. |
| C76 | Uniform velocity and pressure stay uniform whatever the density | proved | Whole runs, all solvers and limiters, any Cartesian mesh, dimension and process grid; perfect gas (internal energy a function of pressure alone), no sources, no pressure fix, walls only along the flow; densities met are assumed positive, which C36 and C77 prove for whole classes of runs. |
| C77 | Advected densities stay within their initial bounds | partial | refuted: van Leer reconstruction yields negative half-step face densities at every Courant number. Proved: bounds for first order in any dimension, and in one dimension on regular meshes for minmod, van Albada (Courant number at most 1/2 or densities within a factor 3) and van Leer (factor 3). Multi-dimensional second order and HLL not covered. |
| C78 | The initial state does not depend on the process grid | partial | proved for all setups but two (v1d: see C56, C57), with composition to whole runs (C35), and for sedov1d on a regular line; refuted: sedov1d in spherical geometry and in 2D, sedov3d |
| C79 | Atmospheres start in hydrostatic equilibrium | partial | proved for stratified_atm with g<0, eq_hydro_sphe, both layers of rayleigh_taylor3d; refuted: g>0, and rayleigh_taylor 2D (balanced exactly when the densities are equal) |
| C80 | User-defined boundary conditions continue the initial atmosphere | partial | proved for a gas at rest; refuted with a wind: energy, momentum, negative internal energy |
| C81 | The Gresho vortex starts as a steady rotation | partial | exact characterisation: steady iff rho0=1 and u0=0; refuted for the code's default u0=1 |
| C82 | A blast setup deposits its blast energy whatever the mesh | partial | sedov1d on a regular line deposits E1/2 whatever the mesh; sedov2d energy computed in closed form, refuted: grows as n^2; sedov1d with 3 ghost layers and sedov3d without a face at r=1: no blast |
| C83 | Setups start from, and runs keep, physical states | partial | proved for all setups (heights limited in the Rayleigh-Taylor setups) with composition to whole runs (C36, C77); refuted: the scalar of rayleigh_taylor, its pressure in tall domains; the radiating gas enters through the hypothesis sound_thermo |
| C84 | Any speed of the processes gives the same result, without deadlock | proved | Each process is a tree of MPI calls (ModelMPI.v) seeing only its own data; any interleaving; waiting rules from 'returns as soon as its data are there' to 'all partners have arrived'. Proved for every launched run (grid objects as constructed, message sizes within int), including error paths: no reachable deadlock, bounded number of steps, every execution completable, calls match, results equal the simultaneous-update semantics used by the other theorems, and equal on any two process grids. Reductions are exact (real numbers), so no rounding differences between reduction orders. |
| C85 | An error stops all processes | partial | refuted: a UserDefined boundary condition in a setup without one throws only in processes at that border; whenever some process does not touch the border, a state in which processes wait for ever is reachable. Proved: with boundary conditions that exist all processes return the same verdict or all throw the same exception, in every schedule. |
| C86 | Results are the same to the last bit on every process grid | partial | Proved for every arithmetic (every record of operations, nothing assumed about rounding): any process grid and any reduction order give the bits of the single-process run when no inverse time step is NaN (-0 cannot be told from 0 by <, so it is excluded too; it cannot arise as a sum of absolute values plus sound speeds). Instance binary64; bridge to the exact model; literals correctly rounded. With given time steps no condition is needed. refuted: with a NaN among the values the maximum depends on the order. Not covered: internal-mass gravity. |
| C87 | A restarted run reproduces the uninterrupted one to the last bit | partial | refuted: in binary64 with the perfect gas the conversion P -> E -> P is not the identity, so a restart changes pressure and energy (uniform flow; any process grids; any number of steps before). Proved: for every arithmetic, a restart on any other process grid is bitwise exact when the conversions are exact on the cells of the file. |
| C88 | A uniform flow stays uniform to the last bit | partial | Proved for every arithmetic in which x-x=0 and multiples of 0 are negligible (binary64 is one) and while no number overflows: density, momentum, energy, velocity and pressure keep all bits, the scalars evolve by fx -> clamp(fx*rho/rho). refuted for the scalars: 0.1 in a flow of density 3 changes at the first step. |
| C89 | The run is the one the parameter file describes | partial | proved for all files in the grammar of C48: the run is the one of the entries of the file, through a table of options independent of the order of reading; two files that agree on the options in the table start the same run or fail alike. refuted: an option that does not exist is not reported; inputs/shock_tube1d_sph.ini contains one. The setup v1d is not in the table. |
| C90 | Meaningless values are rejected at start-up | partial | proved: every accepted file has gamma > 1, mu > 0, extents >= 0, operators from the tables. refuted: zero cells, no ghosts, exchanged bounds, end before beginning, negative CFL number and iteration count are accepted; a negative CFL number makes the time decrease for the whole run; an extent of about 2^31 is a signed overflow. |
| C91 | From the bytes of the parameter file to the results | proved | For new runs on the regular grid, default boundary order, without moving grid and operators from the setup header. Grid independence, totals and positivity exclude the two blast setups that look at ranks (C78); positivity: perfect gas, first order, no gravity. |
| C92 | An output file holds the run and can be read back on any process grid | partial | Exact contents of the file on any process grid and reading it back on any other proved; refuted beyond ten passive scalars (only fx0..fx9 are declared). Trusted: PDI/Decl'HDF5 executes the declarations of config.yaml.cpp as documented; attributes about the build left out. |
| C93 | A restart file is accepted only by a run on the mesh it was written for | partial | refuted: with different Nghost a file of another mesh is accepted and its fields are displaced. Proved: exact condition of acceptance; with the same Nghost only the same mesh is accepted. |
| C94 | A restart through the files continues the run | proved | Perfect gas, fixed grid, exact reals, at most ten scalars. Valid densities and energies in the output are a hypothesis (conclusion of C91 for first-order gases, for which the theorem is also stated without it). Bitwise restart is refuted in C87. |
| C95 | Launched processes execute the parameter file, or all refuse it | proved | proved for new runs on the regular grid without UserDefined operators (the runs of C91); MPI_Cart_create and MPI_Cart_sub are modelled as barriers; a process on which int overflows at start-up (undefined behaviour) is excluded in the second theorem; a restart is not composed here (C92-C94) |
| C96 | A run from profiles in a file starts from them on every ray, on any process grid | partial | Proved: coordinates, initial fields, processes in any schedule, any process grid, refusal by all processes of exactly the files whose datasets are missing or have other extents. refuted: profiles of the scalars are demanded also when there are none; meaningless contents (shells without thickness, negative density) are executed. Not composed: restarts of v1d from its own outputs. |
| C97 | Mirror symmetry and tight walls to the last bit | partial | Proved in every sign-symmetric arithmetic, an instance of which is binary64 with a perfect gas: one first-order step with HLL or low-Mach fluxes maps mirror images to mirror images up to the sign of zeros (density, momentum and energy; passive scalars are not covered), equal inverse time steps, self-opposite fluxes at a plane of symmetry, and zero (or NaN) fluxes of mass, tangential momentum and energy through walls. Refuted: HLLC leaks mass by round-off through a wall; the three limiters are not symmetric in binary64, so the property fails with second order. |
| C98 | Ghost cells hold the continuation of the fields, whatever the order of the faces | proved | closed form of the ghost cells after the boundary update (all processes, edges and corners, arbitrary old ghost values), independence of the order of the faces, for one update and for whole runs (any geometry, gravity, pair of process grids); conditions UserDefined are not included |
| C99 | Runs respect the symmetries of the grid | partial | renamed axes: whole runs incl. pressure fix, user step, uniform gravity, all conditions, own time steps; corollary: symmetric about a diagonal stays symmetric. Mirror image: partial, whole runs without the pressure fix and as long as the reconstructed states are physical (positive density and pressure; needed because the model divides by zero otherwise). Refuted: with the pressure fix in two dimensions a shear is cooled and its mirror image heated. Cartesian geometry; moving grids not included |
| C100 | Runs with the boundary conditions of the setup | proved | whole main loop with user-defined faces; the restart theorem is for gravity that only depends on the mesh (uniform, point mass); the two statements on the profile are for a perfect gas at rest (for moving gas see C80); the order of faces, the other conditions and the process grid are arbitrary |
| C101 | A parameter file with user-defined faces runs with the conditions of the setup | proved | own_program composes start-up from the parameter file (C89) with the loop of C100; new runs on the regular grid, default order of the faces, no moving grid, no user step from the setup header; exact arithmetic; restarts with user-defined faces are C100 |
| C102 | A hydrostatic atmosphere stays at rest | partial | refuted: after every sufficiently short step every cell of the atmosphere is heavier and moves upwards. Proved: the state after one step of any (subsonic) duration in closed form in every owned cell on any process grid, the rates for short steps, and bounds on them that vanish with the cell width. Only the first-order scheme with HLL on even Cartesian cells. |
| C103 | A uniform gas in free fall runs to the end | partial | refuted: every run whose end time lies beyond a finite lifetime (given explicitly) is given up with negative internal energy. Proved: density and velocity are exact and the internal energy is known exactly after any steps, in all cells on any process grid; a logarithmic cooling law for the program's own steps; no step starts after the lifetime; bound on the number of steps. |
| C104 | Every Riemann solver keeps density and internal energy positive | partial | refuted: with Low Mach at every Courant number, and with HLLC at every Courant number between 3/4 and 1, a run of three cells of positive density and pressure ends with the error of an invalid internal energy in its second iteration, while the same run with HLL never does; proved instead: under Low Mach an iteration from positive states keeps all densities positive up to cfl = 1/(2 ndim q), for every gas with P <= rho c^2 (perfect gases); HLL and HLLC at half the number are in C36 |
| C105 | Runs do not depend on the choice of units | proved | proved for whole fresh and restarted runs (verdict, iterations, ids, times, files, all arrays) and for perfect gases of any molecular weight and radiating gases; hypotheses state where constants of nature enter: self-gravity needs D l^2 = V^2, radiation needs the unit of pressure, nickel heating the units of length and velocity |
| C106 | Changing the units by powers of two changes no bit of the significands | proved | Both directions: the shifted run is a run in the new units, and every run in the new units is one. The range of the exponents is not bounded in the rounded instance; C106_binary64_range shows that in binary64 a change of units by 2^-600 loses the kinetic energy to underflow, so for binary64 the statement covers runs without overflow and underflow. Internal-mass gravity (not transcribed operation by operation) and nickel heating (whose times are in days) are excluded. |
| C107 | A flow that varies along fewer axes than the run has dimensions is the same flow | partial | refuted with the pressure fix on meshes uneven along an additional axis (C107_pressure_fix_refuted, the energies after one step in closed form). Proved (C107_same_flow_partial): whole runs with given time steps, any nd <= nd', ghost cells included, any process grids, without the fix on any mesh or with it on widths even along the additional axes; in spherical geometry without the fix and with HLLC or Low Mach (HLL needs positive wave speeds there, not assumed); gravity of the internal mass is left out. C107_shorter_steps: the run with more dimensions chooses a strictly shorter time step from the same physical state, stated on one process (any other grid by C27). |
| C108 | What the unit tests check for one value holds for all values | proved | is_valid is called by no source file. The radial gravity test says the function does not work in 1D and 2D; the theorem covers them: it is the grid set up by the test that has no cells there. Real arithmetic for the gravity part; the value of a parameter line is its text (formatting of numbers by the stream is outside the model). The DualView part excludes flags at the end of the 32-bit range, where C47 is refuted. |
| C109 | A layered gas at rest keeps its layers | partial | refuted: with HLL (one dimension, Cartesian, first order: every cell beside a jump of density changes in the first step) and with van Leer slopes where a cell is followed by a narrower one (a negative face density); proved for HLLC and Low Mach in both geometries, with or without pressure fix, with first order and Minmod on every mesh and with van Leer and van Albada on meshes of equal widths along each direction, for all runs, in exact real arithmetic |

## Assumptions per theorem (`Print Assumptions`)

All are axioms of the standard library: `sfd` = ClassicalDedekindReals.sig_forall_dec, `snd` = ClassicalDedekindReals.sig_not_dec, `fed` = FunctionalExtensionality.functional_extensionality_dep, `cl` = Classical_Prop.classic.

* **cl, fed, sfd**: C67_smaller_iteration_interval_refuted
* **cl, fed, sfd, snd**: C05_spherical_exact_integrals, C05_azimuthal_area_is_approximate, C34_nickel_rate, C62_uniform_state_partial, C62_polar_centrifugal_force_refuted, C45_nan_goes_unnoticed_refuted, C46_ends_exactly_from_the_second_half, C46_within_one_ulp, C46_may_end_before_t_end_refuted, C68_clock_in_doubles, C68_time_may_stall_refuted, C49_reals_partial, C49_trailing_text_refuted, C55_unique_root_and_newton_iterates, C55_each_step_reduces_the_error, C55_result_bounds, C73_round_trip_refuted, C73_radiation_dominated_refuted, C73_round_trips_err_upwards, C74_sound_speed_is_isentropic, C78_start_does_not_depend_on_the_grid, C78_whole_runs, C78_sedov1d_on_a_regular_line, C78_sedov1d_spherical_refuted, C78_sedov1d_plane_refuted, C78_sedov3d_refuted, C79_stratified_atmosphere_is_hydrostatic, C79_spherical_atmosphere_is_hydrostatic, C79_rayleigh_taylor3d_layers_are_hydrostatic, C79_gases, C79_upward_gravity_refuted, C79_rayleigh_taylor_refuted, C80_ghosts_continue_the_atmosphere, C80_wind_energy_refuted, C80_wind_momentum_refuted, C80_fast_wind_refuted, C81_vortex_is_steady_iff, C81_default_velocity_refuted, C82_sedov1d_energy, C82_sedov2d_energy, C82_sedov2d_resolution_refuted, C82_sedov1d_ghosts_refuted, C82_sedov3d_no_blast_refuted, C82_refused_geometries, C83_positive_start, C83_bounds, C83_runs_from_setups_stay_physical, C83_advection_tests, C83_uniform_scalar_refuted, C83_tall_domain_refuted, C86_binary64, C86_nan_refuted, C86_literals, C87_restart_refuted, C88_binary64, C88_scalars_refuted, C89_the_run_is_the_one_described, C89_other_options_are_ignored, C89_unknown_options_refuted, C90_accepted_files, C90_meaningless_values_refuted, C90_overflow_refuted, C91_the_file_is_executed, C91_any_process_grid, C91_totals_are_conserved, C91_results_are_physical, C94_restart_from_an_output, C94_any_output_of_a_first_order_gas, C94_restart_after_the_time_limit, C95_launched_processes_execute_the_file, C95_refused_by_all_processes, C96_processes_execute_the_profiles, C96_any_process_grid, C96_refused_by_all_processes, C96_profiles_of_no_scalars_refuted, C96_meaningful_profiles_refuted, C97_binary64, C97_walls_hold, C97_walls_leak_refuted, C97_limiters_refuted, C100_any_process_grid, C100_restart_continues_the_run, C100_ghost_cells_hold_the_profile, C100_starts_in_the_profile, C101_the_file_is_executed, C101_missing_conditions_are_refused, C101_without_own_faces, C101_any_process_grid, C101_first_output_is_the_profile, C101_ghost_cells_keep_the_profile, C102_one_step, C102_atmosphere_stays_at_rest_refuted, C102_spurious_rates, C102_rates_vanish_with_the_cell_width, C103_cooling_law, C103_no_step_after_the_lifetime, C103_falls_to_the_end_refuted, C105_radiating_gas, C106_rounded_arithmetic, C106_binary64_range
* **fed**: C88_surviving_scalars
* **fed, sfd**: C04_regular_mesh, C04_sizes_and_centres, C12_construction_accepts_exactly, C12_conversions_are_inverse, C12_increasing_and_positive, C13_round_trips, C13_components, C13_internal_energy, C13_arrays_prim_cons_prim, C13_arrays_cons_prim_cons, C14_symmetric_odd_homogeneous, C14_zero_at_extrema, C14_sign_and_bound, C14_bound_in_magnitude, C14_values, C15_faces_average_to_the_cell, C15_constants_preserved, C15_linear_exact, C15_monotone_on_regular_meshes, C15_minmod_monotone_on_any_mesh, C15_van_leer_overshoots_on_stretched_mesh, C15_kernel_range, C16_solvers_consistent, C16_flux_routines, C17_hll_upwinds, C17_hllc_upwinds, C18_mirror_symmetric, C19_hllc_keeps_contacts, C19_hllc_stationary_contact, C19_hll_diffuses_contacts, C60_hll_two_waves, C60_hllc_three_waves, C60_low_mach_acoustic_relations, C60_solver_selected, C37_time_advances_to_the_end, C38_terminates_with_an_output, C39_iteration_outputs, C40_scheduled_times, C40_first_output_at_the_start_refuted, C41_consecutive_ids_and_distinct_names, C41_also_after_a_restart, C44_no_scheduled_output_is_lost, C44_scheduled_output_skipped_refuted, C65_step_after_the_end_refuted, C65_restart_before_the_end, C66_counters_do_not_overflow, C67_restart_with_a_consistent_schedule, C67_smaller_time_interval_refuted, C53_lists_every_output, C71_outputs_since_the_restart_partial, C71_earlier_outputs_dropped_refuted, C54_coordinates_move_by_one, C54_coordinates_after_many_shifts, C54_geometric_meshes_are_kept, C54_v1d_decides_alike, C57_fires_iff_the_window_is_fast_partial, C57_never_misses_a_fast_cell, C57_refuses_windows_beyond_the_last_process, C57_same_on_all_process_grids, C55_construction_accepts_exactly, C83_perfect_gas, C86_any_arithmetic, C86_given_time_steps, C87_exact_conversions, C88_uniform_flow, C97_first_order_step, C97_same_time_step, C97_plane_of_symmetry, C98_closed_form, C98_order_does_not_matter, C106_whole_runs, C106_no_other_runs, C106_start_and_step, C108_valid_states, C109_narrower_cell_refuted
* **fed, sfd, snd**: C03_processes_agree_on_shared_cells, C05_cartesian_products, C05_positive, C05_volumes_add_up, C12_ideal_gas_law, C12_perfect_gas_is_lawful, C21_mass_balance, C21_energy_balance, C21_momentum_balance, C25_scalar_mass_balance, C33_gravity_in_the_update, C33_gravity_in_the_half_step, C33_update_writes_only_its_range, C58_axes_alike, C63_reflection_symmetric, C35_any_process_grid, C35_with_cfl_time_steps, C27_reductions_do_not_depend_on_the_grid, C22_periodic_runs_conserve, C23_uniform_flow_preserved, C24_uniform_gas_at_rest_stays, C25_scalars_in_bounds, C25_uniform_scalar_stays_uniform, C26_time_step, C26_scales_inversely, C20_walls_are_impermeable, C20_closed_box_conserves, C20_gravity_through_the_wall_refuted, C29_only_energy_of_cold_cells, C30_energy_after_the_fix_partial, C30_fix_takes_the_work_of_gravity_refuted, C30_negative_internal_energy_refuted, C31_uniform_flow_on_even_mesh, C31_shear_is_heated_refuted, C31_uniform_flow_on_stretched_mesh_refuted, C32_uniform, C32_point_mass, C32_internal_mass, C32_mass_of_the_gas, C32_enclosed_mass_increases, C32_radial_splitting_refused, C34_effect_of_the_user_step, C61_half_step, C61_full_step_partial, C61_angular_momentum_created_refuted, C64_free_fall, C64_free_fall_cools_refuted, C26_every_step_of_a_run, C42_restart_continues_the_run, C42_restart_of_an_interrupted_run, C45_negative_energy_stops_the_run, C54_a_shift_moves_every_cell_by_one, C54_other_steps, C54_independent_of_the_process_grid, C57_window_reaches_too_far_refuted, C57_floor_depends_on_the_process_grid_refuted, C43_restart_before_deactivation_partial, C43_wall_comes_back_after_restart_refuted, C36_run_stays_physical, C36_restarted_run, C36_longest_steps, C36_perfect_gas, C76_contacts_keep_velocity_and_pressure, C76_perfect_gas, C77_first_order_bounds, C77_limited_bounds, C77_van_leer_negative_density_refuted, C83_powers_are_defined, C84_no_deadlock, C84_executions_end, C84_calls_match, C84_result_of_any_schedule, C84_any_schedule_on_any_process_grid, C85_errors_are_unanimous, C85_missing_boundary_deadlocks, C85_missing_boundary_refuted, C86_agrees_with_the_exact_model, C90_backwards_refuted, C93_other_mesh_refuted, C98_runs_do_not_depend_on_the_order, C99_axes_renamed, C99_symmetric_runs_stay_symmetric, C99_mirror_image_partial, C99_pressure_fix_in_a_mirror_refuted, C103_state_after_any_steps, C104_hllc_refuted, C104_low_mach_refuted, C104_low_mach_density, C104_perfect_gas, C105_whole_runs, C105_restarted_runs, C105_reductions, C105_perfect_gas, C107_same_flow_partial, C107_shorter_steps, C107_pressure_fix_refuted, C108_uniform_ball, C109_layers_stay, C109_hll_refuted
* **none (closed under the global context)**: C01_every_cell_has_one_owner, C01_blocks_consecutive_balanced_and_flagged, C02_range_construction, C02_with_ghosts_throws_iff, C02_range_enumerates_exactly, C02_no_ghosts_and_all_ghosts, C03_local_coordinates_are_a_slice, C06_ghost_exchange_is_periodic_extension, C06_ghost_exchange_keeps_owned_cells, C07_thin_subdomains_refuted, C09_order_iff_self_inverse_partial, C09_face_names, C09_priority_order_refuted, C09_default_order_refuted, C09_unknown_or_missing_tokens_rejected, C09_duplicates_rejected_refuted, C09_shipped_priority_strings_throw, C10_most_specific_name_wins, C10_rejected_iff_not_given, C10_unknown_condition_rejected, C41_names_determine_ids, C45_check_sees_every_negative_value, C47_reads_see_latest_partial, C47_shared_memory, C47_stale_after_wrap_refuted, C51_names, C51_configuration, C69_switches_partial, C69_unknown_switch_accepted_refuted, C52_int_cast, C56_broadcast, C56_broadcast_constant, C56_profile_setup_runs, C70_length_check_partial, C59_written_field, C59_written_component, C59_written_once, C59_read_field, C59_read_component, C59_other_process_grid, C53_well_formed, C53_references_exist, C72_plain_prefixes_partial, C48_values_as_written, C48_rendered, C49_booleans, C49_integers_partial, C50_inert_lines_partial, C50_trailing_blanks_partial, C50_layout_partial, C50_first_bad_line_partial, C50_indentation_refuted, C50_long_lines_refuted, C50_hash_refuted, C28_accesses_stay_inside, C28_runs_complete, C28_one_ghost_layer_reads_outside_refuted, C28_no_ghost_layer_is_rejected, C75_setups_write_what_exists, C75_missing_scalar_is_written_refuted, C75_missing_component_is_written_refuted, C75_heating_without_scalar_refuted, C108_parameter_lines, C108_equal_sizes, C108_blocks_visit_once, C108_empty_blocks, C108_dual_view_states
* **sfd**: C08_null_gradient_copies_nearest_layer, C08_reflexive_mirrors, C08_only_its_ghost_layers, C08_idempotent, C08_no_race, C11_boundary_update_independent_of_process_grid, C56_profile_setup, C70_wrong_length_unnoticed_refuted, C72_markup_in_prefix_refuted, C92_the_file_holds_the_run, C92_read_on_any_process_grid, C92_eleven_scalars_refuted, C93_accepted_iff, C93_same_ghosts_same_mesh, C93_displaced_fields_refuted, C106_perfect_gas
