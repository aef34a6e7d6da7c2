{"id": "C01", "title": "Domain decomposition is an exact balanced partition", "statement": "Splitting N global cells of one dimension over p MPI processes gives every process a contiguous block; the blocks are disjoint, cover exactly 0..N-1, differ in size by at most one cell, are ordered by cartesian rank, and the first/last process (and only they) are flagged as touching the left/right domain border.", "quantifier": "every number of cells N>=0, every number of processes p>=1, every process coordinate; combined over the three dimensions, every process grid", "why_tests_cant": "Tests run a handful of (N,p) pairs; off-by-one errors in the remainder handling show only for particular N mod p.", "anchors": ["src/mesh/grid.cpp: Grid::MPI_Decomp", "src/mesh/grid.hpp: Grid::range, Grid::is_border, Grid::Nx_local_ng"]}
{"id": "C02", "title": "Cell ranges enumerate exactly the requested cells", "statement": "Range::no_ghosts enumerates exactly the owned cells of the local array, with_ghosts(g) exactly the owned cells plus g layers in every simulated dimension (and none in the others), all_ghosts exactly every cell of the allocated array; constructing a range throws exactly when a corner is negative or reversed, and with_ghosts(g) throws exactly when g exceeds the allocated ghost layers.", "quantifier": "every pair of corners, every ghost count, every g, ndim in {1,2,3}", "why_tests_cant": "The enumeration is over all sizes and ghost widths; a single mis-sized loop bound is invisible unless the exact size is tested.", "anchors": ["src/mesh/range.cpp: Range, with_ghosts, no_ghosts, all_ghosts, cell_range", "tests/range.cpp"]}
{"id": "C03", "title": "Every process sees the same physical mesh", "statement": "The coordinates a process holds are exactly the slice of the global coordinate array that belongs to its cells and ghosts; all slices are inside the global array; two processes that hold the same global cell agree on its interfaces, size and centre.", "quantifier": "every N, p, ghost width, process and local index", "why_tests_cant": "Out-of-range or shifted slices only occur for specific decompositions; tests use one process.", "anchors": ["src/mesh/grid.cpp: Grid::set_grid, compute_cell_size, compute_cell_center", "src/main.cpp: x0_glob"]}
{"id": "C04", "title": "Regular mesh: equal, positive, exactly covering cells", "statement": "The 'Regular' mesh places interior interfaces so that the first is xmin and the last xmax, every cell (ghosts included) has the same size (xmax-xmin)/N, and interfaces increase strictly when xmax>xmin.", "quantifier": "every xmin<xmax, N>=1, ghost width", "why_tests_cant": "Holds for all parameters; a test can only check a few arrays.", "anchors": ["src/mesh/grid_type.cpp: Regular::execute, compute_regular_mesh_1d", "src/mesh/grid_factory.cpp: factory_grid_type"]}
{"id": "C05", "title": "Cell volumes and face areas are the exact geometric ones", "statement": "For Cartesian cells volume and face areas are products of edge lengths; for spherical shells/wedges the volume and the radial and polar face areas are the exact integrals, are positive for positive radii and polar angles in (0,pi), the volumes of a stack of cells add up to the volume of the stack, and for spherical cells area differences balance the geometric pressure term. The azimuthal face area of a 3D spherical cell is only approximate.", "quantifier": "every mesh with increasing coordinates, each ndim, each geometry", "why_tests_cant": "Identities over real coordinates, not samples; the approximation in the azimuthal area vanishes on the cells tests look at.", "anchors": ["src/mesh/geometry.cpp: Cartesian, Spherical"]}
{"id": "C06", "title": "Ghost exchange reproduces the periodic global field", "statement": "After the ghost exchange every cell of every process's padded array, edges and corners included, holds the value of the globally owned cell obtained by wrapping its global index periodically, and owned cells are unchanged, provided every process owns at least as many cells as there are ghost layers in each simulated dimension.", "quantifier": "every process grid, every global size, ghost width, ndim in {1,2,3}, every field content", "why_tests_cant": "Corner ghosts depend on the order of directional exchanges and on transverse extents; needs many ranks and 3D.", "anchors": ["src/boundary_distribute.cpp: DistributedBoundaryCondition::ghost_sync", "src/boundary_distribute.hpp: operator()"]}
{"id": "C07", "title": "Ghost exchange with thin subdomains", "statement": "Whatever process grid the user or MPI picks, the ghost exchange gives correct ghosts (or the run is rejected).", "quantifier": "every N, p and ghost width, including subdomains thinner than the ghost layer", "why_tests_cant": "Needs an MPI run with more processes than N/Nghost; nothing in the code rejects it.", "anchors": ["src/mesh/grid.cpp: MPI_Decomp", "src/boundary_distribute.cpp: ghost_sync"]}
{"id": "C08", "title": "Physical boundary conditions fill exactly the ghost layer they own", "statement": "NullGradient copies the nearest owned layer into each ghost layer of its face; Reflexive mirrors the owned cells with the normal momentum negated and everything else copied; Periodic leaves the wrapped values; none of them changes an owned cell or a ghost of another face, and applying one twice equals applying it once.", "quantifier": "every array extent, ghost width, face, ndim, field content", "why_tests_cant": "Index mirror arithmetic must be right for every extent and ghost width.", "anchors": ["src/boundary.cpp: null_gradient_condition, reflexive_condition", "src/boundary.hpp: PeriodicCondition"]}
{"id": "C09", "title": "Boundary priority parameter orders the faces", "statement": "With the 'priority' parameter set to a permutation of face names, the boundary conditions are applied so that the first listed face has the highest priority (is applied last and wins the shared corners); without it the documented default X, Y, Z (highest first) is used; malformed lists are rejected.", "quantifier": "every priority string", "why_tests_cant": "Only non-involutive permutations in 2D/3D expose the difference and only in corner ghosts.", "anchors": ["src/boundary_distribute.cpp: generate_order", "src/boundary_distribute.hpp: m_bc_order"]}
{"id": "C10", "title": "Boundary condition names resolve most-specific-first", "statement": "The condition used on a face is the one given for that face, else for that direction, else the global one; the run is rejected exactly when none is given (or is an unknown name).", "quantifier": "every configuration (presence/absence of every key), ndim", "why_tests_cant": "2^9 presence combinations in 3D times values.", "anchors": ["src/main.cpp: lines 174-185", "src/boundary_factory.hpp: factory_boundary_construction"]}
{"id": "C11", "title": "Boundary update does not depend on the process grid", "statement": "Exchanging ghosts and applying the physical conditions on a distributed field gives, on every process, exactly the slice of what a single-process run computes.", "quantifier": "every process grid with subdomains at least as wide as the ghost layer, every mix of conditions and application order, any field", "why_tests_cant": "Requires comparing MPI runs over all decompositions.", "anchors": ["src/boundary_distribute.hpp: operator()", "src/boundary.cpp"]}
{"id": "C12", "title": "Equation of state is self-consistent", "statement": "For a perfect gas, pressure/internal energy/temperature conversions are mutual inverses, strictly increasing and positive, the squared speed of sound is gamma P/rho, and construction accepts exactly gamma>1, mu>0 (finite).", "quantifier": "every density, pressure, temperature >0, every gamma>1, mu>0", "why_tests_cant": "Identities over reals.", "anchors": ["src/thermodynamics/perfect_gas.hpp", "src/thermodynamics/perfect_gas.cpp"]}
{"id": "C13", "title": "Conservative and primitive variables round-trip", "statement": "Converting a primitive state to conservative variables and back (and conversely) returns the state; internal energy is what remains after removing kinetic energy; the array conversions do this on exactly the cells of the given range and touch nothing else.", "quantifier": "every state with rho>0, every ndim, every range", "why_tests_cant": "All states, all ranges.", "anchors": ["src/hydro/euler_equations.hpp: to_cons, to_prim, compute_evol", "src/hydro/array_conversion.hpp"]}
{"id": "C14", "title": "Slope limiters are symmetric, sign-preserving and bounded", "statement": "Each limiter is symmetric in its two arguments, odd, homogeneous, returns zero on opposite signs, otherwise a slope with the common sign between zero and twice the smaller one, and returns the common value when both agree (except the zero limiter); Minmod never exceeds the smaller slope in magnitude.", "quantifier": "every pair of real slopes", "why_tests_cant": "Continuum of inputs, the sign/zero branch boundaries in particular.", "anchors": ["src/hydro/slope_limiters.hpp: Constant, VanLeer, Minmod, VanAlbada"]}
{"id": "C15", "title": "Face reconstruction preserves constants, linear data and monotonicity", "statement": "Reconstructed face values average to the cell value; constant fields are reproduced; linear fields are reproduced exactly by the second-order limiters on any mesh; face values never leave the range spanned by the cell and its two neighbours (regular meshes for all limiters; any mesh for Minmod).", "quantifier": "every cell, every field, every mesh spacing", "why_tests_cant": "Quantifies over real fields and mesh spacings.", "anchors": ["src/hydro/limited_linear_reconstruction.hpp", "src/hydro/face_reconstruction.cpp"]}
{"id": "C16", "title": "Riemann solvers are consistent with the physical flux", "statement": "For HLL, HLLC and Low Mach, the numerical flux between two identical states equals the physical Euler flux of that state.", "quantifier": "every state with positive density and pressure, every direction, ndim", "why_tests_cant": "Continuum of states.", "anchors": ["src/hydro/riemann_solver.hpp: HLL, HLLC, Splitting", "tests/riemann_solvers.cpp"]}
{"id": "C17", "title": "Riemann solvers upwind supersonic flow", "statement": "If both states move to the right faster than every acoustic wave, HLL and HLLC return the left physical flux, and symmetrically.", "quantifier": "every pair of supersonic states", "why_tests_cant": "Continuum of states; division-by-speed branches.", "anchors": ["src/hydro/riemann_solver.hpp"]}
{"id": "C18", "title": "Riemann solvers are mirror symmetric", "statement": "Swapping the two states and reversing the normal direction flips the sign of mass, energy and tangential momentum flux and leaves normal momentum flux unchanged, for every one of HLL, HLLC and Low Mach, including the exactly stationary contact.", "quantifier": "every pair of admissible states", "why_tests_cant": "The symmetric tie cases are measure zero, tests miss them.", "anchors": ["src/hydro/riemann_solver.hpp"]}
{"id": "C19", "title": "HLLC keeps contact discontinuities exactly", "statement": "For two states with equal normal velocity and pressure but arbitrary densities and tangential velocities, HLLC returns the exact upwind flux; for zero velocity the mass and energy fluxes vanish. HLL does not have this property.", "quantifier": "every such pair", "why_tests_cant": "Continuum of states; exactness, not tolerance.", "anchors": ["src/hydro/riemann_solver.hpp: HLLC, HLL"]}
{"id": "C20", "title": "Reflecting walls are impermeable", "statement": "At a reflexive boundary the numerical mass, energy and passive-scalar fluxes through the wall are exactly zero.", "quantifier": "every owned-cell state next to the wall, each Riemann solver and limiter, first half-step included", "why_tests_cant": "Continuum of states; interplay of boundary, reconstruction and solver.", "anchors": ["src/boundary.cpp: reflexive_condition", "src/hydro/riemann_solver.hpp", "src/hydro/godunov_scheme.hpp"]}
{"id": "C21", "title": "Finite-volume update is conservative", "statement": "On a Cartesian or spherical mesh without sources, the change of the total mass (and of energy, and of momentum in Cartesian geometry) of a box of cells over a step is exactly minus dt times the fluxes through the box's outer faces: interior fluxes cancel pairwise.", "quantifier": "every mesh, every field, every Riemann solver, ndim, dt, box", "why_tests_cant": "Summation over arbitrary meshes, independent of the solver used.", "anchors": ["src/hydro/godunov_scheme.hpp: RiemannBasedGodunovScheme::execute"]}
{"id": "C22", "title": "Periodic runs conserve mass, momentum and energy exactly for any number of steps", "statement": "With periodic boundaries, no gravity, no user step and no pressure fix, total mass, momentum (Cartesian) and energy after any number of time steps equal the initial ones (in exact arithmetic).", "quantifier": "every initial field, mesh, limiter, solver, sequence of dt, number of steps", "why_tests_cant": "Any number of steps; tests look at tolerance after a few.", "anchors": ["src/main.cpp: main time loop", "src/hydro/godunov_scheme.hpp", "src/boundary_distribute.hpp"]}
{"id": "C23", "title": "Uniform flow is preserved", "statement": "On a Cartesian mesh without gravity a uniform state (density, velocity, pressure, passive scalars) is reproduced exactly by a full step: reconstruction, half-step extrapolation, Godunov update, boundary update.", "quantifier": "every admissible uniform state, mesh spacing, dt, limiter, solver, ndim, number of steps", "why_tests_cant": "All states and steps; exactness.", "anchors": ["src/hydro/hydro_reconstruction.hpp", "src/hydro/extrapolation_reconstruction.hpp", "src/hydro/godunov_scheme.hpp"]}
{"id": "C24", "title": "Spherical geometry keeps a uniform gas at rest", "statement": "In spherical geometry a gas at rest with uniform density and pressure stays exactly at rest: geometric source terms balance the pressure fluxes.", "quantifier": "every mesh with r>0, every pressure, density, ndim, dt", "why_tests_cant": "An identity between areas, volumes and source formulas for all cells.", "anchors": ["src/hydro/godunov_scheme.hpp", "src/hydro/source_terms.hpp", "src/mesh/geometry.cpp"]}
{"id": "C25", "title": "Passive scalars stay in [0,1] and uniform scalars stay uniform", "statement": "After every step each passive scalar of every owned cell is in [0,1]; a scalar that is uniform stays uniform whatever the flow does; scalar transport uses the same mass flux as the density update (total scalar mass is conserved where no clamping occurs).", "quantifier": "every flow, solver, limiter, dt, number of scalars", "why_tests_cant": "All flows; consistency between two separately coded fluxes.", "anchors": ["src/hydro/godunov_scheme.hpp: lines 263-299", "src/hydro/extrapolation_reconstruction.hpp"]}
{"id": "C26", "title": "Time step respects the CFL condition", "statement": "The returned time step times the sum over dimensions of (|velocity|+sound speed)/cell width is at most one in every cell, with equality in some cell; it is positive; it scales inversely with velocities.", "quantifier": "every field and mesh, ndim, geometry", "why_tests_cant": "For-all over cells and fields.", "anchors": ["src/hydro/time_step.hpp: time_step"]}
{"id": "C27", "title": "Global reductions do not depend on the decomposition", "statement": "The time step, the minimum internal energy and the integrated mass computed with any process grid equal those of one process, whatever the reduction order.", "quantifier": "every process grid, field, reduction order", "why_tests_cant": "All decompositions and orders.", "anchors": ["src/hydro/time_step.hpp", "src/analysis/integration.cpp", "src/analysis/internal_energy.cpp"]}
{"id": "C28", "title": "Stencils never leave the allocated arrays", "statement": "Every array access of reconstruction, half-step extrapolation, Godunov update, pressure fix, boundary update and time step is inside the allocated extents when the user asks for at least two ghost layers; asking for fewer is rejected.", "quantifier": "every mesh size, ghost count, ndim, range cell", "why_tests_cant": "Out-of-bounds reads are undefined behaviour and silent in release builds.", "anchors": ["src/hydro/limited_linear_reconstruction.hpp", "src/hydro/godunov_scheme.hpp", "src/mesh/range.cpp: lines 45-48 (disabled check)", "src/main.cpp: with_ghosts(1)"]}
{"id": "C29", "title": "Pressure fix only rewrites energy, only in kinetically dominated cells", "statement": "Enabling the pressure fix changes nothing but the total energy, and only in cells whose internal energy is below eps times the kinetic energy.", "quantifier": "every field, eps, dt, ndim", "why_tests_cant": "For-all fields.", "anchors": ["src/hydro/pressure_fix.hpp: pressure_fix", "src/main.cpp: lines 459-475"]}
{"id": "C30", "title": "Pressure fix yields an energy consistent with the updated momentum", "statement": "The energy written by the pressure fix minus the kinetic energy of the updated state is the blended internal energy.", "quantifier": "every field in which the fix triggers", "why_tests_cant": "Only visible in cells where the fix triggers and momentum changes.", "anchors": ["src/hydro/pressure_fix.hpp: lines 150-170"]}
{"id": "C31", "title": "Pressure fix sees no compression in incompressible shear", "statement": "In a velocity field with zero divergence and uniform pressure (e.g. pure shear) the pressure-fix internal energy source vanishes.", "quantifier": "every divergence-free flow, ndim", "why_tests_cant": "Needs 2D/3D shear at low internal energy.", "anchors": ["src/hydro/pressure_fix.hpp: divU loops"]}
{"id": "C32", "title": "Gravity models return the documented acceleration", "statement": "Uniform gravity returns the configured vector; point-mass gravity is radial, attractive, inverse-square and scales with the mass; internal-mass gravity uses the mass enclosed (central mass plus the shells below), is non-decreasing in enclosed mass for positive density and refuses radial domain splitting.", "quantifier": "every mesh, density, parameters", "why_tests_cant": "For-all meshes and densities.", "anchors": ["src/gravity/gravity.cpp", "src/gravity/gravity.hpp"]}
{"id": "C33", "title": "Gravity source does work consistently", "statement": "The Godunov gravity update changes momentum by dt rho g and energy by dt rho u.g and leaves mass unchanged; adding it commutes with the flux update; zero gravity is neutral.", "quantifier": "every state, g, dt", "why_tests_cant": "For-all states.", "anchors": ["src/hydro/godunov_scheme.hpp: lines 258-261", "src/hydro/source_terms.hpp"]}
{"id": "C34", "title": "User steps change only what they should", "statement": "The 'Off' user step is the identity; Heat_nickel never decreases energy, changes only the energy of owned cells, proportionally to nickel fraction, density and dt, and decays with time.", "quantifier": "every field, t>=0, dt>=0", "why_tests_cant": "For-all fields/times.", "anchors": ["src/user_step/user_step.cpp"]}
{"id": "C35", "title": "Simulation results do not depend on the MPI process grid", "statement": "In exact arithmetic, any number of full time steps on any process grid with wide enough subdomains gives on every process exactly the slice of the single-process result.", "quantifier": "every process grid, initial field, number of steps, solver, limiter, boundary mix", "why_tests_cant": "Would need comparing unboundedly many MPI runs.", "anchors": ["src/main.cpp: main time loop", "src/boundary_distribute.*", "src/hydro/*"]}
{"id": "C36", "title": "First-order HLL keeps density and internal energy positive", "statement": "With Constant reconstruction, HLL, a uniform Cartesian mesh and no sources, if every cell has positive density and pressure and cfl<=1/(2 ndim), then after the step every owned cell has positive density and positive internal energy, so the 'invalid internal energy' abort never fires.", "quantifier": "every admissible field, mesh size, ndim", "why_tests_cant": "For-all fields including near-vacuum states.", "anchors": ["src/hydro/riemann_solver.hpp: HLL", "src/hydro/time_step.hpp", "src/main.cpp: lines 397-425"]}
{"id": "C37", "title": "Time advances monotonically and stops at t_end", "statement": "Starting before t_end, time strictly increases, never exceeds t_end, and when the run ends by time the final time is exactly t_end (exact arithmetic).", "quantifier": "every sequence of CFL steps, parameters", "why_tests_cant": "All sequences of time steps.", "anchors": ["src/main.cpp: lines 354-395, 530-531"]}
{"id": "C38", "title": "The run always terminates, within max_iter steps", "statement": "The main loop executes at least one and at most max(1, max_iter - initial iteration) steps before exiting or failing, whatever the dynamics do, and always writes an output at a normal exit.", "quantifier": "every dynamics, parameters", "why_tests_cant": "Liveness over all dynamics.", "anchors": ["src/main.cpp: lines 382-385"]}
{"id": "C39", "title": "Iteration outputs appear exactly at multiples of the frequency", "statement": "With only iteration output enabled, a run writes outputs exactly at iterations 0, f, 2f, ... and at the final one.", "quantifier": "every frequency, number of iterations, dynamics", "why_tests_cant": "All histories.", "anchors": ["src/main.cpp: lines 315-344, 358-364, 533-560"]}
{"id": "C40", "title": "Scheduled output times are hit exactly, once each, in order", "statement": "With time output enabled, the run never steps over a scheduled output time: each scheduled time up to the current time has been output at exactly that time and the negative-time-step error is unreachable in a fresh run.", "quantifier": "every sequence of CFL steps, first output time, frequency", "why_tests_cant": "All histories of time steps.", "anchors": ["src/main.cpp: lines 365-375"]}
{"id": "C41", "title": "Output files are numbered consecutively and never overwrite each other", "statement": "Outputs of a run (and of a restarted continuation) carry consecutive ids, and distinct ids give distinct file names.", "quantifier": "every history, restart point, id", "why_tests_cant": "All histories; ids beyond the pad width.", "anchors": ["src/main.cpp: output_id", "src/io/io.cpp: get_output_filename"]}
{"id": "C42", "title": "Restarting from an output continues the run identically", "statement": "Stopping at an output and restarting from the written file continues with the same times, states, outputs and output numbers as the uninterrupted run (exact arithmetic, no grid shift).", "quantifier": "every restart point, number of steps, boundary mix, solver", "why_tests_cant": "Every crash/restart point.", "anchors": ["src/main.cpp: lines 223-249, 305-311", "src/io/io.cpp: write_pdi, read_pdi", "src/io/config.yaml.cpp"]}
{"id": "C43", "title": "Restart keeps the grid-shift and boundary state", "statement": "Restarting from an output written after the grid shift has been deactivated continues with the same right boundary condition as the uninterrupted run.", "quantifier": "every run with grid shift", "why_tests_cant": "Needs a long run crossing rmax_shift and then a restart.", "anchors": ["src/main.cpp: lines 487-524"]}
{"id": "C44", "title": "Restart loses no scheduled output", "statement": "Stopping at t_end and restarting with a later t_end produces every scheduled output time.", "quantifier": "every schedule and t_end", "why_tests_cant": "Needs the coincidence of a CFL step overlapping both t_end and the next scheduled time.", "anchors": ["src/main.cpp: lines 365-381"]}
{"id": "C45", "title": "Corrupt states stop the run", "statement": "If any owned cell's internal energy is NaN or negative the run stops with an error before computing another step.", "quantifier": "every field, including NaN at any position, every reduction order", "why_tests_cant": "NaN at every position and reduction order.", "anchors": ["src/main.cpp: lines 397-425", "src/analysis/internal_energy.cpp"]}
{"id": "C46", "title": "Final time equals t_end in double arithmetic", "statement": "When the run ends by time, the double-precision final time equals t_end bit for bit.", "quantifier": "every pair of doubles t, t_end", "why_tests_cant": "2^128 pairs; rounding corner cases.", "anchors": ["src/main.cpp: lines 377-381, 530"]}
{"id": "C47", "title": "DualView always returns the latest data", "statement": "Whatever sequence of host/device reads and writes is performed, a read access in either space sees the last written data.", "quantifier": "every access history", "why_tests_cant": "Histories are unbounded (flag counters).", "anchors": ["src/dual_view/dual_view.hpp", "tests/dual_view.cpp"]}
{"id": "C48", "title": "INI files: every key is found with exactly the value written", "statement": "Rendering any list of sections with well-formed names/values and parsing it returns for every (section,key), case-insensitively, the value written (duplicates joined by newlines), the default for absent keys, and no error.", "quantifier": "every well-formed configuration", "why_tests_cant": "All configurations.", "anchors": ["vendor/inih/src/ini.c: ini_parse_stream", "vendor/inih/src/INIReader.cpp"]}
{"id": "C49", "title": "INI reader: numeric and boolean conversion", "statement": "GetBoolean accepts exactly the documented spellings; GetInteger parses exactly decimal integers; invalid values are reported (by exception) and never silently replaced; missing or empty values give the default.", "quantifier": "every value string", "why_tests_cant": "All strings.", "anchors": ["vendor/inih/src/INIReader.cpp: GetBoolean, GetInteger, GetReal", "src/utils/param.cpp"]}
{"id": "C50", "title": "INI comments, blank lines and whitespace are inert", "statement": "Inserting blank lines, full-line comments, inline comments preceded by whitespace, or surrounding whitespace changes no value; lines that are too long or malformed are reported with the first bad line number.", "quantifier": "every file and insertion point", "why_tests_cant": "All files/positions.", "anchors": ["vendor/inih/src/ini.c"]}
{"id": "C51", "title": "Option names select exactly the documented implementation or are rejected", "statement": "Factories accept exactly the listed names for reconstruction, Riemann solver, boundary, grid and user step and throw on any other string.", "quantifier": "every string", "why_tests_cant": "All strings.", "anchors": ["src/hydro/face_reconstruction.cpp", "src/hydro/godunov_scheme.hpp", "src/boundary_factory.hpp", "src/user_step/user_step.cpp", "src/mesh/grid_factory.cpp"]}
{"id": "C52", "title": "int_cast is exact or throws", "statement": "int_cast<To>(x) returns a value equal to x or throws; it throws exactly when x is not representable.", "quantifier": "every pair of integer types (width, signedness) and value", "why_tests_cant": "All values and types.", "anchors": ["src/utils/int_cast.hpp"]}
{"id": "C53", "title": "XDMF index is well-formed and lists every output", "statement": "The XDMF file is a balanced document with one grid per recorded output, referring to existing file names in order, and indentation never over/underflows.", "quantifier": "every record list and variable list", "why_tests_cant": "All lists.", "anchors": ["src/io/io.cpp: XmlWriter, IndentFn"]}
{"id": "C54", "title": "Grid shift moves every cell by exactly one, consistently on all processes", "statement": "A grid shift replaces each owned cell by its right neighbour (the last by the boundary ghost), shifts all coordinates by one, extends the mesh with the same stretching ratio, keeps coordinates strictly increasing, maps uniform/geometric meshes to themselves, and gives the same result for every process grid.", "quantifier": "every mesh, field, process grid, number of shifts", "why_tests_cant": "All meshes/fields.", "anchors": ["src/moving_grid/moving_grid.cpp: shift_grid, shift_array"]}
{"id": "C55", "title": "Radiative gas temperature solve converges to the unique root", "statement": "For gas plus radiation, the temperature returned for given density and internal energy (or pressure) is never below the exact root, each Newton step reduces the error, and the result after the iteration cap is within a stated bound.", "quantifier": "every density, energy >0", "why_tests_cant": "Continuum of inputs.", "anchors": ["src/thermodynamics/rad_gas.hpp"]}
{"id": "C56", "title": "Initial 1D profiles are broadcast to every cell of the range", "statement": "broadcast copies the i-th entry of a 1D profile to every cell (i,j,k) of the range and to no other cell.", "quantifier": "every range, profile", "why_tests_cant": "All sizes.", "anchors": ["src/broadcast.cpp"]}
{"id": "C57", "title": "Shift criterion inspects the requested outer cells", "statement": "The user shift criterion of v1d looks at exactly the last cell_shift owned radial cells and fires iff their largest radial velocity (or 0) reaches the threshold; it refuses a window larger than the last process's block.", "quantifier": "every mesh size, window, ghost width, field", "why_tests_cant": "Off-by-ghost window errors appear only for data in particular cells.", "anchors": ["src/setups/v1d/setup.hpp: UserShiftCriterion"]}
{"id": "C58", "title": "A Cartesian step treats all axes alike", "statement": "Relabelling the axes of a multi-dimensional Cartesian problem relabels the result of the Godunov update accordingly; no direction is privileged.", "quantifier": "every field, mesh, permutation of axes, solver, dt", "why_tests_cant": "For-all fields.", "anchors": ["src/hydro/godunov_scheme.hpp", "src/hydro/extrapolation_reconstruction.hpp"]}
{"id": "C59", "title": "Output files hold the global owned field exactly once", "statement": "The distributed write puts every owned cell of every process at its global position: the file regions of different processes are disjoint and cover the dataset; reading back with any other process grid restores the same global field.", "quantifier": "every process grid for writing and reading, every field", "why_tests_cant": "All pairs of decompositions.", "anchors": ["src/io/config.yaml.cpp: write_distributed_data, read_file", "src/io/io.cpp"]}
{"id": "C60", "title": "Riemann solvers obey the jump conditions of their wave models", "statement": "HLL: one intermediate state satisfies the jump conditions across both outer acoustic waves and the flux is that of the region containing the interface. HLLC: two positive-density star states with common normal velocity and pressure and unchanged tangential velocities satisfy them. Low Mach: the flux is pure advection of the upwind state with an interface velocity and pressure obeying the acoustic Riemann relations (pressure correction scaled by the Mach number below one).", "quantifier": "every pair of admissible states, every equation of state with P < rho c^2", "why_tests_cant": "Continuum of states; exact algebraic relations.", "anchors": ["src/hydro/riemann_solver.hpp"]}
{"id": "C61", "title": "Radial and polar source terms conserve angular momentum", "statement": "In spherical geometry the source term of the azimuthal (and polar) momentum caused by the radial sweep is exactly the one for which r times that momentum is transported conservatively (and r sin(theta) for the polar sweep).", "quantifier": "every mesh with r>=0, face state", "why_tests_cant": "Continuum of states and meshes.", "anchors": ["src/hydro/source_terms.hpp"]}
{"id": "C62", "title": "Geometric source terms agree with the continuous equations", "statement": "In spherical geometry every geometric source term divided by dt equals the cell average of the continuous source (pressure and centrifugal terms) for a uniform state.", "quantifier": "every mesh with r>0 and 0<theta<pi, uniform state", "why_tests_cant": "Continuum of states and meshes.", "anchors": ["src/hydro/source_terms.hpp", "src/hydro/godunov_scheme.hpp"]}
{"id": "C63", "title": "A Cartesian step is reflection symmetric", "statement": "Reflecting a Cartesian problem about a plane normal to an axis (cells exchanged, normal velocity and gravity reversed) reflects the result of the step: left and right are treated alike.", "quantifier": "every field, mesh, plane, solver, limiter, dt", "why_tests_cant": "For-all fields.", "anchors": ["src/hydro/godunov_scheme.hpp", "src/hydro/hydro_reconstruction.hpp", "src/hydro/extrapolation_reconstruction.hpp"]}
{"id": "C64", "title": "Uniform gas in free fall keeps its internal energy", "statement": "A uniform gas in a uniform gravity field is accelerated exactly and, gravity doing only mechanical work, keeps its density and internal energy.", "quantifier": "every uniform state, gravity vector, mesh, limiter, solver, dt", "why_tests_cant": "Continuum of states.", "anchors": ["src/hydro/godunov_scheme.hpp", "src/hydro/extrapolation_reconstruction.hpp"]}
{"id": "C65", "title": "Restarting a finished run does nothing", "statement": "A restart from a file whose time has already reached t_end leaves the state unchanged and never moves time backwards.", "quantifier": "every file, parameters, dynamics", "why_tests_cant": "Depends on restart parameters and times; unit tests do not restart runs.", "anchors": ["src/main.cpp: time loop", "src/io/io.cpp: read_pdi"]}
{"id": "C66", "title": "Iteration and output counters do not overflow", "statement": "No run whose max_iter and iteration output frequency have a sum representable as int evaluates an overflowing signed expression.", "quantifier": "every dynamics, clock behaviour, number of iterations", "why_tests_cant": "Overflow occurs only after 2^31 iterations.", "anchors": ["src/main.cpp: time loop"]}
{"id": "C67", "title": "Output intervals may be changed at a restart", "statement": "After a restart with other output intervals, outputs appear at the times (iterations) of the new schedule.", "quantifier": "every file, new schedule", "why_tests_cant": "For-all restart points and schedules.", "anchors": ["src/main.cpp: time loop", "src/io/io.cpp: read_pdi"]}
{"id": "C68", "title": "Time advances monotonically in double arithmetic", "statement": "With positive time steps the double-precision time strictly increases, stays below t_end until the last step and does not exceed it by more than one unit in the last place.", "quantifier": "every triple of doubles t, t_end, dt", "why_tests_cant": "2^192 combinations of doubles.", "anchors": ["src/main.cpp: time loop"]}
{"id": "C69", "title": "Switches reject unknown values", "statement": "The switches pressure_fix and shift_grid have their documented values; any other value stops the program instead of silently selecting one of them.", "quantifier": "every string", "why_tests_cant": "Unbounded set of strings.", "anchors": ["src/main.cpp"]}
{"id": "C70", "title": "A debug build detects a profile whose length does not fit the mesh", "statement": "Broadcasting a one-dimensional profile whose length differs from the extent of the array along the first direction is caught by the assertions of a debug build.", "quantifier": "every profile length and array extents", "why_tests_cant": "For-all lengths; assertions are not tested.", "anchors": ["src/broadcast.cpp"]}
{"id": "C71", "title": "The XDMF index survives a restart", "statement": "After a restart the XDMF index still lists the outputs written before it.", "quantifier": "every run, restart and parameters", "why_tests_cant": "Unit tests do not restart runs.", "anchors": ["src/main.cpp: outputs_record", "src/io/io.cpp: XmlWriter"]}
{"id": "C72", "title": "The XDMF index is well-formed for every output prefix", "statement": "Whatever the output prefix given in the input file, the XDMF index is well-formed XML.", "quantifier": "every prefix", "why_tests_cant": "Unbounded set of strings.", "anchors": ["src/io/io.cpp: XmlWriter"]}
{"id": "C73", "title": "Energy, pressure and temperature of a radiating gas are consistent, or the failure is reported", "statement": "For gas plus radiation, converting a temperature to energy or pressure and back gives the temperature up to the solver's tolerance, and converting between energy and pressure gives values belonging to one temperature; when the iteration does not converge a message says so.", "quantifier": "every density, temperature >0", "why_tests_cant": "Continuum of inputs; the failure shows only in extreme but physical regimes.", "anchors": ["src/thermodynamics/rad_gas.hpp: compute_temp_from_evol, compute_temp_from_pres"]}
{"id": "C74", "title": "The sound speed of a radiating gas is the isentropic one", "statement": "The squared sound speed returned for gas plus radiation is the derivative of the total pressure with respect to density along a change of state without heat exchange, and lies between 4/3 and gamma times pressure over density.", "quantifier": "every density, pressure >0, every gamma>1, mu>0", "why_tests_cant": "An identity between derivatives over the reals.", "anchors": ["src/thermodynamics/rad_gas.hpp: compute_speed_of_sound"]}
{"id": "C75", "title": "Setups only write variables that exist", "statement": "Initialising a setup, and the nickel heating step, touch only velocity components and passive scalars that the run has; a run that lacks a variable its setup initialises is rejected before anything is written.", "quantifier": "every setup, ndim, number of scalars, mesh, process grid, restart or not", "why_tests_cant": "The failing writes are silent in release builds (the only checks are debug assertions); the shipped inputs all set the right options.", "anchors": ["src/setups/rayleigh_taylor/setup.hpp", "src/setups/heat_nickel/setup.hpp", "src/setups/kelvin_helmholtz/setup.hpp", "src/user_step/user_step.cpp: lines 40-72", "src/utils/param.cpp: nfx"]}
{"id": "C76", "title": "Uniform velocity and pressure stay uniform whatever the density", "statement": "A flow that starts with uniform velocity and pressure keeps them in every cell while an arbitrary density profile is carried along (contact discontinuities create no waves), for every solver and limiter.", "quantifier": "every density profile, velocity, pressure, Cartesian mesh, dimension, process grid, number and length of steps with positive densities", "why_tests_cant": "Continuum of density profiles; a test sees one profile and cannot tell rounding from spurious waves.", "anchors": ["src/hydro/riemann_solver.hpp", "src/hydro/godunov_scheme.hpp", "src/hydro/extrapolation_reconstruction.hpp"]}
{"id": "C77", "title": "Advected densities stay within their initial bounds", "statement": "In a flow of uniform velocity and pressure, densities carried by HLLC or the Low-Mach solver never leave the interval of the initial ones while the flow crosses at most one cell per step, and no negative density reaches the Riemann solver.", "quantifier": "every density profile, velocity, pressure, mesh, process grid, number of steps, limiter", "why_tests_cant": "For-all profiles and step counts; overshoots appear only for particular ratios of neighbouring densities.", "anchors": ["src/hydro/riemann_solver.hpp", "src/hydro/slope_limiters.hpp", "src/hydro/limited_linear_reconstruction.hpp", "src/hydro/extrapolation_reconstruction.hpp"]}
{"id": "C78", "title": "The initial state does not depend on the process grid", "statement": "Whatever the number and arrangement of the processes, a setup gives every cell of the mesh the same initial density, velocity, pressure and scalars; hence the whole run is the same.", "quantifier": "every setup and parameters, gas, mesh, dimension, process grid", "why_tests_cant": "For-all process grids; tests of setups run on one process.", "anchors": ["src/setups/*/setup.hpp: InitializationSetup::execute", "src/setups/sedov1d/setup.hpp: lines 64-101", "src/setups/sedov3d/setup.hpp: lines 66-92", "src/main.cpp: lines 259-264"]}
{"id": "C79", "title": "Atmospheres start in hydrostatic equilibrium", "statement": "In the setups that describe a gas at rest in a gravity field, the initial pressure gradient balances the weight: dP/dx = rho g.", "quantifier": "every position, parameters, gravity, equation of state", "why_tests_cant": "An identity between derivatives on a continuum of positions.", "anchors": ["src/setups/stratified_atm/setup.hpp", "src/setups/eq_hydro_sphe/setup.hpp", "src/setups/rayleigh_taylor/setup.hpp", "src/setups/rayleigh_taylor3d/setup.hpp"]}
{"id": "C80", "title": "User-defined boundary conditions continue the initial atmosphere", "statement": "The ghost cells written by the boundary conditions of the atmosphere setups hold the conservative state (density, momentum, total energy) of the initial profile at the position of the ghost cell.", "quantifier": "every ghost cell, face, parameters, gas, array contents", "why_tests_cant": "Continuum of parameters; the shipped inputs have no wind.", "anchors": ["src/setups/stratified_atm/setup.hpp: BoundarySetup::execute", "src/setups/eq_hydro_sphe/setup.hpp: BoundarySetup::execute"]}
{"id": "C81", "title": "The Gresho vortex starts as a steady rotation", "statement": "The initial state of gresho_vortex is a rotation with continuous velocity in which the pressure gradient balances the centrifugal force at every radius.", "quantifier": "every radius (the joints of the three pieces included), density, background velocity, Mach number", "why_tests_cant": "A differential identity on a continuum of radii.", "anchors": ["src/setups/gresho_vortex/setup.hpp: lines 70-101"]}
{"id": "C82", "title": "A blast setup deposits its blast energy whatever the mesh", "statement": "The internal energy deposited by the Sedov setups is the requested E1, independent of the resolution, of the number of ghost layers and of the number of processes.", "quantifier": "every mesh, process grid, parameters", "why_tests_cant": "For-all resolutions: a test checks one mesh.", "anchors": ["src/setups/sedov1d/setup.hpp", "src/setups/sedov2d/setup.hpp", "src/setups/sedov3d/setup.hpp"]}
{"id": "C83", "title": "Setups start from, and runs keep, physical states", "statement": "With positive parameters every setup starts with positive density and pressure within the bounds of its formulas; first-order runs from it keep density, internal energy and pressure positive up to the last output, and the advection tests keep uniform velocity, pressure and density bounds.", "quantifier": "every setup, parameters, position, mesh, process grid, number of steps", "why_tests_cant": "Continuum of parameters and positions, unbounded number of steps.", "anchors": ["src/setups/*/setup.hpp: InitializationSetup::execute", "src/main.cpp"]}
{"id": "C84", "title": "Any speed of the processes gives the same result, without deadlock", "statement": "The processes of a run, each executing its own calls at its own speed and waiting only where MPI makes it wait, never block each other, make calls that match, all terminate, and end with the arrays, outputs, counters and verdict that do not depend on the schedule nor on the process grid; the clock of process 0 alone decides when a run out of time stops.", "quantifier": "every schedule of the processes, with or without buffering of messages; every number of processes, mesh, boundary condition, gravity, option, number of iterations, initial state and clocks of the processes", "why_tests_cant": "The set of schedules is exponential in the length of the run and MPI implementations show only a few of them; a deadlock may need a particular number of processes.", "anchors": ["src/main.cpp: main", "src/boundary_distribute.cpp: lines 75-134", "src/hydro/time_step.hpp", "src/analysis/integration.cpp", "src/analysis/internal_energy.cpp", "src/gravity/gravity.hpp", "src/setups/v1d/setup.hpp: ShiftCriterion", "src/mesh/grid.cpp: lines 95-131"]}
{"id": "C85", "title": "An error stops all processes", "statement": "When a run ends with an error after its start, all processes end with that error: no process waits for ever for one that has thrown.", "quantifier": "every number of processes, schedule, configuration and point at which an error is detected", "why_tests_cant": "Needs several processes and the faulty configuration; a test that hangs is not a result.", "anchors": ["src/default_boundary_setup.hpp: lines 25-34", "src/mpi_scope_guard.cpp", "src/main.cpp: lines 340-411", "src/gravity/gravity.cpp: make_internal_mass_gravity", "src/setups/v1d/setup.hpp: ShiftCriterion"]}
{"id": "C86", "title": "Results are the same to the last bit on every process grid", "statement": "With the arithmetic of the machine (rounding included), a run on any process grid and with any order of the global reductions gives every cell exactly the bits of the run on one process.", "quantifier": "every arithmetic (hence every rounding mode and mathematical library), mesh, process grid, reduction order, solver, limiter, boundary condition, initial state, number of steps", "why_tests_cant": "Bitwise agreement must hold for all process grids and reduction orders; a test compares a few runs with a tolerance.", "anchors": ["src/hydro/*", "src/boundary_distribute.hpp", "src/hydro/time_step.hpp", "src/main.cpp: lines 340-530", "src/units/units.hpp"]}
{"id": "C87", "title": "A restarted run reproduces the uninterrupted one to the last bit", "statement": "Stopping a run after any number of steps, writing its state and restarting from the file, on the same or another process grid, continues exactly as the uninterrupted run.", "quantifier": "every arithmetic, equation of state, mesh, process grids of the two runs, numbers of steps before and after", "why_tests_cant": "Differences of one unit in the last place are invisible in tests with tolerances, and grow in unstable flows.", "anchors": ["src/main.cpp: lines 259-311, 526-528", "src/hydro/array_conversion.hpp", "src/thermodynamics/perfect_gas.hpp: lines 46-83", "src/io/config.yaml.cpp"]}
{"id": "C88", "title": "A uniform flow stays uniform to the last bit", "statement": "In Cartesian geometry a uniform flow without gravity keeps every bit of density, momentum, energy, velocity, pressure and scalars for any number of steps: rounding errors create no perturbation.", "quantifier": "every solver, limiter, mesh spacing, process grid, velocity, number of steps", "why_tests_cant": "Rounding depends on the values: a test checks one state.", "anchors": ["src/hydro/godunov_scheme.hpp", "src/hydro/extrapolation_reconstruction.hpp", "src/hydro/limited_linear_reconstruction.hpp", "src/hydro/riemann_solver.hpp"]}
{"id": "C89", "title": "The run is the one the parameter file describes", "statement": "Whatever the layout of the file, a run uses for every option the value written for it in the file, converted to the nearest double or exact integer, and the documented default where it is not mentioned; the operators chosen are those named; an option that does not exist is reported.", "quantifier": "every parameter file without malformed lines, every build (dimension, geometry, gas, gravity, setup), process grid and process", "why_tests_cant": "The files are unbounded and the options about sixty; a test reads one file, and a silently ignored option looks like a successful run.", "anchors": ["src/utils/param.cpp: lines 14-73", "src/utils/param.hpp", "src/main.cpp: lines 115-305", "src/setups/*/setup.hpp: ParamSetup", "src/default_boundary_setup.hpp", "inputs/shock_tube1d_sph.ini", "vendor/inih/src/INIReader.cpp"]}
{"id": "C90", "title": "Meaningless values are rejected at start-up", "statement": "A run starts only with a meaningful configuration: a gas with gamma > 1 and positive molecular weight, at least one cell in each direction and extents that the index arithmetic can hold, ordered mesh bounds, ghost cells, an end after the beginning, a positive CFL number, and operators that exist; otherwise start-up throws.", "quantifier": "every parameter file, build, process grid and process", "why_tests_cant": "Nobody tests all wrong values, and a wrong value often gives a run that looks plausible or never ends.", "anchors": ["src/utils/param.cpp", "src/mesh/range.cpp: lines 23-50", "src/mesh/grid.cpp: lines 44-78", "src/thermodynamics/perfect_gas.hpp", "src/thermodynamics/rad_gas.hpp", "src/main.cpp: lines 115-305, 340-400"]}
{"id": "C91", "title": "From the bytes of the parameter file to the results", "statement": "The bytes of a parameter file determine the whole program: on every process grid that leaves each process enough cells, every process starts the run that the entries describe (regular mesh between the given bounds, operators, gas, gravity, initial conditions, schedule of outputs) and the loop computes results that do not depend on the process grid; a Cartesian file with periodic boundaries and no gravity conserves total mass, momentum and energy in all outputs; a first-order file with a small enough CFL number gives positive densities, pressures and internal energies in all outputs.", "quantifier": "every parameter file, however laid out, every build, process grid, setup with any parameters, number of iterations and wall clock", "why_tests_cant": "An end-to-end test runs one file and looks at a few outputs; the statement quantifies over all files, process grids and stopping times.", "anchors": ["src/main.cpp: main", "src/utils/param.cpp", "vendor/inih/src/INIReader.cpp", "src/mesh/grid_type.cpp", "src/mesh/grid.cpp", "src/setups/*/setup.hpp", "src/hydro/*", "src/boundary_distribute.hpp"]}
{"id": "C92", "title": "An output file holds the run and can be read back on any process grid", "statement": "An output file holds, under their names, the ids, the iteration, the time, the coordinates with ghosts, and density, velocities, pressure and all passive scalars of the owned cells of all processes, each at its place in the mesh and nothing of the ghost cells, whatever the process grid; read on any other process grid it gives every process exactly the values of its owned cells.", "quantifier": "every mesh, number of dimensions, ghosts, pair of process grids, number of scalars, contents of the arrays", "why_tests_cant": "The offsets and extents of the parallel write depend on rank, dimension and remainder of the decomposition; a transposition or a shift shows only for particular shapes, and only if someone looks at the file.", "anchors": ["src/io/io.cpp: write_pdi, read_pdi", "src/io/config.yaml.cpp", "src/io/io_hdf5.hpp"]}
{"id": "C93", "title": "A restart file is accepted only by a run on the mesh it was written for", "statement": "A run that restarts from a file reads it successfully exactly when the file was written on the same mesh with at least the scalars of the run; a file of another mesh is rejected by an exception, not read into the wrong cells.", "quantifier": "every pair of meshes, numbers of ghosts and of scalars, process grids, contents of the file", "why_tests_cant": "Nobody tests restarting with all wrong resolutions; a file that is accepted with displaced fields looks like a successful restart.", "anchors": ["src/io/io.cpp: read_pdi", "src/io/io_hdf5.hpp: check_extent_dset", "src/io/config.yaml.cpp", "src/main.cpp: lines 222-239"]}
{"id": "C94", "title": "A restart through the files continues the run", "statement": "End to end, from the bytes of two parameter files and of an output: a program that restarts from an output of another one, on any process grid, whatever bounds, type of grid and initial conditions its own parameter file mentions, has the verdicts, times, iterations, output ids, arrays and further outputs of the uninterrupted run; a program ended by its time limit and resumed does too, except that the later ids are one higher if the uninterrupted run had no output there.", "quantifier": "every pair of parameter files that agree on the physics, build for a perfect gas, pair of process grids, iteration of the output, number of further iterations", "why_tests_cant": "A restart test compares one pair of runs of one setup; the mistakes (an id or time off by one, a ghost cell not refilled, a scalar not restored, the mesh rebuilt from the new bounds) depend on the setup, the schedule and the process grids.", "anchors": ["src/main.cpp: main", "src/io/io.cpp", "src/io/config.yaml.cpp", "src/utils/param.cpp", "src/hydro/array_conversion.hpp", "src/mesh/grid.cpp"]}
{"id": "C95", "title": "Launched processes execute the parameter file, or all refuse it", "statement": "From the opening of the parameter file to the end of the loop, the processes of a job, each at its own speed with its own clock and its own random numbers, never block each other and make calls that match; with a file that describes a run every process ends with its part of the run described, decided by the random numbers and the clock of process 0; with a file that start-up refuses, all processes end by the same exception and none is left waiting.", "quantifier": "every parameter file (any bytes, or none), build, process grid, schedule of the processes with or without buffering of messages, draws and clocks of the processes, number of iterations", "why_tests_cant": "A process that refuses alone, or a collective call made by some processes only, shows as a hang on particular process grids and files; the schedules cannot be enumerated.", "anchors": ["src/main.cpp: lines 115-305, 305-568", "src/mesh/grid.cpp: lines 44-145", "src/gravity/gravity.hpp: make_internal_mass_gravity", "src/setups/rayleigh_taylor3d/setup.hpp: lines 66-110", "src/mpi_scope_guard.cpp"]}
{"id": "C96", "title": "A run from profiles in a file starts from them on every ray, on any process grid", "statement": "With the setup v1d, from the bytes of the parameter file and the datasets of the profile file: if the profile file has the extents the parameter file asks for, the radial coordinates are those of the file and every ray starts with its density, radial velocity, pressure and scalars and without transverse velocity; the processes, in any schedule, execute that run (with the grid moved by the criterion of the setup) and end alike on any process grid; otherwise all processes end by the same exception. A file is sufficient if it has what the run reads, and a file with meaningless contents is refused.", "quantifier": "every parameter file that describes a run of v1d, profile file (any datasets, or none), build, geometry, pair of process grids, schedule and clocks of the processes, number of iterations", "why_tests_cant": "The setup is exercised by no test with more than one process; which part of a profile a process reads depends on the remainder of the decomposition, and the moving grid depends on the last processes only.", "anchors": ["src/setups/v1d/setup.hpp", "src/io/config.yaml.cpp: lines 45-48, 239-264", "src/io/io_hdf5.hpp: check_extent_dset", "src/broadcast.cpp", "src/main.cpp: main", "src/moving_grid/*"]}
{"id": "C97", "title": "Mirror symmetry and tight walls to the last bit", "statement": "In floating point as in real arithmetic, one step takes mirror images to mirror images, with the same time step, and nothing (no mass, no momentum along the wall, no energy) goes through a wall, that is, between two states that are mirror images of each other.", "quantifier": "every Cartesian mesh with opposite cells of equal computed widths, number of dimensions, direction, gravity, perfect gas, Riemann solver, limiter, and all fields in binary64 with no vanishing denominator", "why_tests_cant": "Symmetry is lost by round-off first, in the last bit and only for some values; instabilities amplify it later, and tests compare with tolerances.", "anchors": ["src/hydro/riemann_solver.hpp", "src/hydro/slope_limiters.hpp", "src/hydro/limited_linear_reconstruction.hpp", "src/hydro/extrapolation_reconstruction.hpp", "src/hydro/godunov_scheme.hpp", "src/hydro/time_step.hpp"]}
{"id": "C98", "title": "Ghost cells hold the continuation of the fields, whatever the order of the faces", "statement": "After the boundary update every cell of every process's array, including those behind edges and corners of the domain, holds the global field continued in all directions at once (wrapped, extended or reflected according to the condition at each end, the momentum turned in each direction in which the cell lies behind a wall), whatever the ghost cells held before; therefore neither the order in which the faces are treated nor the process grid changes any value of a run.", "quantifier": "every mesh, number of dimensions and of ghosts, process grid that leaves each process as many cells as ghosts, combination of periodic, null-gradient and reflexive conditions, pair of orders that treat each non-periodic face, number of iterations", "why_tests_cant": "Corner cells depend on the order of messages and faces; a wrong corner is seen only by multidimensional schemes with particular combinations of conditions and shows as a small asymmetry.", "anchors": ["src/boundary_distribute.hpp", "src/boundary.hpp", "src/boundary_factory.hpp", "src/boundary_distribute.cpp", "src/main.cpp: lines 190-221, 389-470"]}
{"id": "C99", "title": "Runs respect the symmetries of the grid", "statement": "On a Cartesian mesh the program knows neither the names nor the orientation of the axes: a run with renamed axes has the same times and the renamed fields, so what starts symmetric about a diagonal stays so; a run of the mirror image of mesh, boundaries, gravity and fields has the same times and the mirror image of the fields.", "quantifier": "every mesh, number of dimensions, renaming of the axes, direction of the mirror, pair of process grids, Riemann solver, limiter, boundary conditions, equation of state, user step, fields, number of iterations", "why_tests_cant": "Loops over dimensions and neighbours are written with index offsets; a slip in one direction acts in some configurations only, and symmetric test problems hide it or average it out.", "anchors": ["src/hydro/godunov_scheme.hpp", "src/hydro/extrapolation_reconstruction.hpp", "src/hydro/face_reconstruction.hpp", "src/hydro/limited_linear_reconstruction.hpp", "src/hydro/riemann_solver.hpp", "src/hydro/pressure_fix.hpp", "src/boundary.hpp", "src/boundary_distribute.hpp", "src/hydro/time_step.hpp", "src/main.cpp: lines 389-470"]}
{"id": "C100", "title": "Runs with the boundary conditions of the setup", "statement": "In a run whose faces (some or all) use the boundary class of the setup: results, times, ids and files do not depend on the process grid; a restart from the last file continues the run; the ghost cells of these faces hold the profile of the setup at their own position after every iteration, whatever the interior; and an atmosphere at rest starts with the profile in all cells, edges and corners included.", "quantifier": "every setup that depends on the position only, set of user-defined faces, conditions on the other faces, order of the faces, process grids, solver, limiter, number of iterations", "why_tests_cant": "An atmosphere in balance hides errors in the ghost layers of a test; the order of the faces and the process grid only matter at edges and corners.", "anchors": ["src/main.cpp: lines 266-311, 427-528", "src/boundary_distribute.hpp: lines 42-76", "src/setups/stratified_atm/setup.hpp: lines 115-160", "src/setups/eq_hydro_sphe/setup.hpp: lines 108-152"]}
{"id": "C101", "title": "A parameter file with user-defined faces runs with the conditions of the setup", "statement": "A parameter file (any layout) that describes a run in which faces are \"UserDefined\" is executed as the time loop with BoundarySetup of the setup on exactly those faces and the named conditions on the others; operators, coordinates and results (verdict, ids, times, arrays, files) are the same on every process grid; if the setup has no BoundarySetup the program ends by an exception on every process grid; without such faces the program is that of C91. For stratified_atm and eq_hydro_sphe with u0 = 0 and a perfect gas, the first output is the profile at rest in every cell, and at every later output the ghost cells beyond a user-defined face still hold it.", "quantifier": "all parameter files with the entries of a run, all builds (dimension, geometry, gas, gravity, setup), all process grids, all numbers of iterations, all cells", "why_tests_cant": "the two inputs that use it (stratified_atm.ini, eq_hydro_sphe.ini) are run with one process count each, and nothing compares them with runs on other process grids or looks at the ghost cells", "anchors": ["src/main.cpp:115-185", "src/main.cpp:266-311", "src/default_boundary_setup.hpp:19-35", "src/boundary_distribute.hpp:42-76", "src/setups/stratified_atm/setup.hpp:100-161", "src/setups/eq_hydro_sphe/setup.hpp:93-152", "inputs/stratified_atm.ini"]}
{"id": "C102", "title": "A hydrostatic atmosphere stays at rest", "statement": "A run of stratified_atm, started in its hydrostatic profile at rest with the conditions of the setup on both faces of the first direction, keeps it: one step of the scheme leaves density and momentum as they are, or changes them by an amount that vanishes with the cell width.", "quantifier": "every process grid, mesh of even Cartesian cells, number of dimensions, perfect gas, density, temperature and gravity of the setup, conditions on the other faces and order, duration of the step; the first-order scheme with HLL", "why_tests_cant": "The disturbance is a truncation error: a test with a tolerance passes on a fine mesh and fails on a coarse one; only the exact formula separates it from an error in the program.", "anchors": ["src/hydro/hydro_reconstruction.hpp: lines 85-129", "src/hydro/extrapolation_reconstruction.hpp", "src/hydro/riemann_solver.hpp: lines 21-64", "src/hydro/godunov_scheme.hpp: lines 110-302", "src/setups/stratified_atm/setup.hpp", "src/main.cpp: lines 427-528"]}
{"id": "C103", "title": "A uniform gas in free fall runs to the end", "statement": "A uniform gas under uniform gravity falls as a whole: after any steps every cell has the density of the start, the velocity of free fall and the internal energy of the start, and the program runs until the end time.", "quantifier": "every Cartesian mesh, process grid, number of dimensions, limiter, Riemann solver, perfect gas, gravity, initial velocity, boundary conditions without a wall across the fall, sequence of steps; for the program's own steps every Courant number, end time and clock without intermediate outputs in time", "why_tests_cant": "Free fall is the simplest exact solution with gravity, but no test lets it run: the loss per step is of second order and only kills long runs.", "anchors": ["src/hydro/godunov_scheme.hpp", "src/hydro/time_step.hpp", "src/gravity/gravity.hpp", "src/main.cpp:354-561"]}
{"id": "C104", "title": "Every Riemann solver keeps density and internal energy positive", "statement": "Started from positive densities and pressures, the first-order scheme keeps them positive with each of the three Riemann solvers of the program at the Courant numbers at which HLL does (C36), so that choosing another solver never makes a run end with the error of an invalid internal energy.", "quantifier": "every Courant number up to one (in one dimension), each of HLLC and Low Mach, every end time and clock, fields of positive density and pressure; for the densities under Low Mach every mesh, process grid, number of dimensions, boundary conditions, output schedule and number of iterations", "why_tests_cant": "Input files run smooth or symmetric problems at Courant number 0.4; the states that break a solver are particular neighbours (a thin gas behind a cold fast one, a cold gas at rest before a hot one that moves) which random or standard tests do not contain.", "anchors": ["src/hydro/riemann_solver.hpp: lines 67-134", "src/hydro/riemann_solver.hpp: lines 143-181", "src/hydro/time_step.hpp", "src/main.cpp: lines 354-403", "src/hydro/godunov_scheme.hpp: lines 305-321"]}
{"id": "C105", "title": "Runs do not depend on the choice of units", "statement": "A run described in other units of length, density and velocity (coordinates, fields, gravity, end time and output times converted) goes through the same iterations, takes the converted time steps, ends in the same way, and writes the same files with the same numbers in the new units; no threshold or constant of the scheme carries a hidden dimension. The exceptions are stated: the gravitational constant ties the density unit to the others under self-gravity, radiation fixes the unit of pressure, and nickel heating fixes the units of length and velocity.", "quantifier": "every positive units of length, density and velocity (and factor of the unused directions), both geometries, 1 to 3 dimensions, every mesh, process grid, limiter, Riemann solver, pressure fix, gravity model, gas with the same law in both units, boundary conditions and order, fields (physical or not; those that divide by zero under the convention x / 0 = 0 of the model), Courant number, output schedule, clock, number of iterations, fresh and restarted runs", "why_tests_cant": "A factor of the wrong dimension is invisible in the test problems, whose lengths, densities and speeds are all of order one; it changes results only in runs with stellar units, for which there is no reference.", "anchors": ["src/hydro/riemann_solver.hpp", "src/hydro/euler_equations.hpp", "src/hydro/slope_limiters.hpp: lines 18-86", "src/hydro/source_terms.hpp", "src/hydro/pressure_fix.hpp", "src/hydro/time_step.hpp", "src/mesh/geometry.cpp", "src/gravity/gravity.cpp", "src/units/units.hpp", "src/main.cpp: lines 354-561"]}
{"id": "C106", "title": "Changing the units by powers of two changes no bit of the significands", "statement": "In an arithmetic of radix 2 that rounds every operation, a run whose units of density, velocity and length are multiplied by powers of two is the run in the old units with the exponents of all numbers shifted: same significands in every cell, same reductions, same time steps; and there are no other runs in the new units. No constant, threshold, or order of operations of the scheme breaks this.", "quantifier": "every arithmetic whose operations respect a shift of the exponents (in particular radix 2 with any precision, any rounding, any sin, cos and exp, without overflow and underflow), every integer exponents of the three units, both geometries, 1 to 3 dimensions, every mesh, process grid, limiter, Riemann solver, pressure fix, uniform or point-mass gravity, boundary conditions, state, Courant number, order of the reductions, number of iterations", "why_tests_cant": "Rounding errors hide a factor of the wrong dimension or an absolute threshold below any tolerance; equality to the last bit after a change of units is a test without tolerance, but each execution covers one mesh and one choice of exponents.", "anchors": ["src/hydro/riemann_solver.hpp", "src/hydro/euler_equations.hpp", "src/hydro/slope_limiters.hpp: lines 18-86", "src/hydro/source_terms.hpp", "src/hydro/pressure_fix.hpp", "src/hydro/time_step.hpp: lines 35-82", "src/mesh/geometry.cpp: lines 32-126", "src/gravity/gravity.cpp: lines 29-54", "src/main.cpp: lines 427-530"]}
{"id": "C107", "title": "A flow that varies along fewer axes than the run has dimensions is the same flow", "statement": "A gas that varies along the first axes only, and does not move along the others, evolves under the same time steps exactly as in the build with that many dimensions: same densities, momenta, energies, scalars in all cells, whatever the conditions on the additional faces; only the time step that the program chooses is shorter with more dimensions.", "quantifier": "every numbers of dimensions nd <= nd', both geometries, mesh, process grids of the two runs, limiter, Riemann solver, pressure fix, uniform gravity along the first axes or a point mass, boundary conditions on the additional faces and orders, fields, sequence of time steps", "why_tests_cant": "The number of dimensions is a compile-time constant: no test binary contains both runs, and comparisons between builds are made with tolerances and on one mesh.", "anchors": ["src/hydro/godunov_scheme.hpp: lines 110-302", "src/hydro/hydro_reconstruction.hpp: lines 85-129", "src/hydro/extrapolation_reconstruction.hpp", "src/hydro/source_terms.hpp", "src/hydro/pressure_fix.hpp: lines 69-170", "src/hydro/time_step.hpp: lines 35-82", "src/mesh/geometry.cpp: lines 32-126", "src/boundary.hpp", "src/main.cpp: lines 427-530"]}
{"id": "C108", "title": "What the unit tests check for one value holds for all values", "statement": "The facts that the project's unit tests assert for single values hold in general: a state is valid exactly when density and pressure are finite and positive; a parameter line holds name, dots and value, nothing is cut and short ones have equal length and can be read back; sizes compare equal exactly when they agree in the directions asked for, whichever array comes first; a range cut into blocks is visited cell by cell exactly once; the internal-mass field of a gas of uniform density is that of the central mass and a hollow uniform ball; a DualView needs a transfer exactly after a write on the other side.", "quantifier": "all densities and pressures including infinities and NaN; all names and values; all numbers of arrays, ranks and directions; all sizes, positive block sizes, dimensions and ghost widths; all layouts, dimensions, geometries, meshes with positive volumes, masses, densities and cells; all DualView states before the counters wrap", "why_tests_cant": "The tests try one value of each (one line, two arrays, one 9x7x3 range, one 15^3 spherical mesh that is skipped in one and two dimensions).", "anchors": ["src/thermodynamics/perfect_gas.hpp: lines 85-89", "src/thermodynamics/rad_gas.hpp: lines 144-148", "src/utils/print_info.hpp: lines 14-20", "src/utils/kokkos_shortcut.hpp: lines 60-86", "src/mesh/range.cpp: lines 23-141", "src/gravity/gravity.cpp: lines 56-126", "src/dual_view/dual_view.hpp: lines 135-293", "tests/partitioner.cpp", "tests/gravity.cpp"]}
{"id": "C109", "title": "A layered gas at rest keeps its layers", "statement": "A gas at rest under one pressure stays exactly as it is, whatever the densities of its layers: no cell changes its density or its scalars and no velocity appears, however long the run and however long its steps.", "quantifier": "every arrangement of positive densities in 1 to 3 dimensions, both geometries, mesh, pressure fix on or off, process grid, boundary conditions including walls, limiter, gas whose energy follows from the pressure, lengths and number of steps (given, or chosen with any Courant number); HLLC and Low Mach; refuted for HLL, and for van Leer slopes where a cell is followed by a narrower one", "why_tests_cant": "Tests of contacts compare with a tolerance after a few steps on one mesh; a solver that mixes the layers slowly, or a limiter that fails only on stretched meshes, passes them.", "anchors": ["src/hydro/riemann_solver.hpp", "src/hydro/godunov_scheme.hpp: lines 110-302", "src/hydro/extrapolation_reconstruction.hpp", "src/hydro/limited_linear_reconstruction.hpp", "src/hydro/slope_limiters.hpp: lines 18-86", "src/hydro/source_terms.hpp", "src/hydro/pressure_fix.hpp", "src/main.cpp: lines 427-530"]}
