{"id": "C01", "title": "Grid element access touches exactly one cell", "statement": "Grid::set/inc/dec/m_a/d_a at logical coordinates (x, y), including the ghost coordinates -overlay..size+overlay-1 reached through unsigned wrap-around, changes exactly the addressed cell, leaves every other cell (interior and ghost) as it was, and operator() then reads back the written value; coordinates outside that range are an out-of-bounds access.", "quantifier": "every grid size and overlay width, every cell content of any element type, every pair of coordinates", "why_tests_cant": "the set of sizes, coordinates and contents is unbounded; tests sample one 10x10 grid and do not look at the ghost ring", "anchors": ["include/algo/grid.hpp: Grid::set, Grid::inc, Grid::dec, Grid::m_a, Grid::d_a, Grid::operator()"]}
{"id": "C02", "title": "Stitching two neighbour grids makes the shared strip identical and equal to the sum", "statement": "After a.overlay_y(b) (resp. overlay_x), for two grids of equal size: in every interior row (column), each of the 2*overlay shared columns (rows) holds in both grids the same value, namely the sum of the two values before the call; every cell outside the shared strips is unchanged in both grids. Grids of different size are rejected and nothing is modified.", "quantifier": "every pair of grids of every size, every overlay width, every element type and addition (hence also non-associative floating point)", "why_tests_cant": "tests use one 10x10 grid filled with constants, which cannot distinguish columns, rows, or order of additions", "anchors": ["include/algo/grid.hpp: Grid::overlay_x, Grid::overlay_y"]}
{"id": "C03", "title": "Corner stitching is correct for every grid shape", "statement": "a.overlay_xy(b) makes the overlay x overlay outer corner block of a and the mirrored block of b hold their sum in both grids and never touches memory outside either grid.", "quantifier": "every grid size (square or not) and overlay width", "why_tests_cant": "the unit test only uses a square grid, where mixing up the two axes is invisible", "anchors": ["include/algo/grid.hpp: Grid::overlay_xy"]}
{"id": "C04", "title": "Resetting a grid really clears every cell", "statement": "Assigning a scalar to a grid followed by overlay_set with the same scalar leaves every cell of the allocated storage, ghost ring and corners included, equal to that scalar; assignment alone touches the interior only and overlay_set alone touches the ghost ring only.", "quantifier": "every size with every overlay width, every previous content", "why_tests_cant": "requires looking at all cells for all sizes", "anchors": ["include/algo/grid.hpp: Grid::operator=, Grid::overlay_set", "src/domain.cpp: Domain::reset_current"]}
{"id": "C05", "title": "The decomposition covers every cell exactly once", "statement": "The sub-domains created from a global geometry tile it: every global cell (r, z) belongs to exactly one domain, and the domain borders of neighbours coincide.", "quantifier": "every number of cells and every number of domains in each direction (divisible or not)", "why_tests_cant": "infinitely many cell/domain count pairs, integer division rounding", "anchors": ["src/SMB.cpp: SMB::SMB"]}
{"id": "C06", "title": "All domains have the same shape", "statement": "Every two domains of one run have the same number of cells in each direction, so that their grids can be stitched without the fatal size-mismatch exit; this holds for exactly those configurations where the domain counts divide the cell counts.", "quantifier": "every accepted configuration of cell and domain counts", "why_tests_cant": "tests use the shipped divisible configuration only", "anchors": ["src/SMB.cpp: SMB::SMB", "src/cfg.cpp: Cfg::method_limitations_check", "include/algo/grid.hpp: overlay_x, overlay_y"]}
{"id": "C07", "title": "A particle leaving its domain is delivered to the domain that owns its new cell", "statement": "When a particle's cell lies outside its domain but inside the simulation area, the collector moves it to the domain whose cell range contains that cell, whatever distance it travelled.", "quantifier": "every particle position, every domain, every decomposition whose domain counts divide the cell counts", "why_tests_cant": "unbounded positions and decompositions; boundary cells are rarely sampled", "anchors": ["src/SMB.cpp: SMB::particles_runaway_collector"]}
{"id": "C08", "title": "Particles are neither lost nor duplicated by domain migration", "statement": "After the collector ran, the multiset of particles of every species over all domains equals the previous one minus exactly the particles whose cell lies outside the simulation area, and every remaining particle is in exactly one domain, provided species identifiers are pairwise different.", "quantifier": "every distribution of particles over domains and species, every decomposition with divisible counts, repeated for any number of steps", "why_tests_cant": "needs all particle configurations and histories", "anchors": ["src/SMB.cpp: SMB::particles_runaway_collector"]}
{"id": "C09", "title": "Species identifiers distinguish species", "statement": "Two differently named species or beams accepted by the configuration get different identifiers, so a migrating particle is pushed to exactly one species.", "quantifier": "every pair of accepted species/beam names", "why_tests_cant": "the space of names is infinite and the identifier has 16 bits", "anchors": ["src/algo/common.cpp: hash_from_string", "src/cfg.cpp: Cfg::init_particles, Cfg::init_beam", "src/SMB.cpp: SMB::particles_runaway_collector"]}
{"id": "C10", "title": "Result of a parallel stitching phase does not depend on the thread schedule", "statement": "Within one colour of the 2x2 colouring used by current/field overlays, the iterations touch pairwise disjoint domains, hence executing them in any order (any interleaving of their atomic grid updates) gives the same grids.", "quantifier": "every number of domains, every permutation / interleaving of the parallel loop", "why_tests_cant": "schedules cannot be enumerated by running the program", "anchors": ["src/SMB.cpp: SMB::current_overlay, SMB::field_h_overlay, SMB::field_e_overlay"]}
{"id": "C11", "title": "Stitching a row of domains gives every domain the global sum", "statement": "For a one-dimensional decomposition into domains at least as wide as the shared strip (twice the overlay), after one stitching pass every shared column holds, in both domains that own it, the sum of the deposits of both domains, and interior columns are unchanged.", "quantifier": "every number of domains, every domain width >= 2*overlay, every deposit", "why_tests_cant": "number of domains and contents unbounded; parity of the sweep matters", "anchors": ["src/SMB.cpp: SMB::current_overlay", "include/algo/grid.hpp: overlay_x, overlay_y"]}
{"id": "C12", "title": "Stitching a two-dimensional decomposition loses no deposit", "statement": "After one stitching pass of a 2-D decomposition, deposits made in any ghost cell of any domain (corner ghosts included) arrive in the domain that owns the cell.", "quantifier": "every 2-D decomposition, every ghost cell", "why_tests_cant": "corner cells are only hit by rare particles", "anchors": ["src/SMB.cpp: SMB::current_overlay"]}
{"id": "C13", "title": "Border exchange between MPI ranks is consistent", "statement": "After the exchange between two neighbouring ranks, each of the four shared columns holds in both ranks the sum of the two values before the exchange, for all rows including ghost rows and all three components; other columns are unchanged.", "quantifier": "every grid size (overlay 2), every content, every number of radial domains", "why_tests_cant": "needs a multi-rank machine and all contents", "anchors": ["src/SMB.cpp: SMB::current_overlay, SMB::field_e_overlay, SMB::field_h_overlay (ENABLE_MPI)", "include/SMB.hpp: MPICommOverlay"]}
{"id": "C14", "title": "Ranks never deadlock in the border exchange", "statement": "For every number of ranks the blocking sends and receives of the border exchange complete, whatever buffering the MPI library offers.", "quantifier": "every number of ranks, every schedule, both buffered and rendezvous delivery", "why_tests_cant": "depends on library buffering and schedule; small test messages are always buffered", "anchors": ["src/SMB.cpp: current_overlay, field_h_overlay, field_e_overlay, particles_runaway_collector (ENABLE_MPI)"]}
{"id": "C15", "title": "The grid is completely distributed over MPI ranks", "statement": "The per-rank geometries together cover every longitudinal cell of the configured grid exactly once.", "quantifier": "every number of cells and every number of ranks", "why_tests_cant": "only divisible set-ups are ever run", "anchors": ["src/PiCoPiC.cpp: main (ENABLE_MPI geometry split)"]}
{"id": "C16", "title": "Rectangular probe tiles assemble to exactly the requested rectangle", "statement": "For a rectangular probe, the tiles written by the domains are pairwise disjoint, lie inside the dataset, and cover every cell of the requested half-open rectangle; each cell is written with the value of the domain that owns it at the matching offset.", "quantifier": "every rectangle inside the grid and every decomposition", "why_tests_cant": "all rectangles times all decompositions", "anchors": ["src/outController.cpp: OutController::OutController", "src/outWriter.cpp: OutWriter::operator()", "src/outEngine/outEngineHDF5.cpp: write_rec"]}
{"id": "C17", "title": "Every probe accepted by the configuration can be written", "statement": "No writer is created for an empty tile: writing a rectangular probe never evaluates data[0] of an empty array.", "quantifier": "every accepted rectangle and decomposition", "why_tests_cant": "only happens when an edge of the probe coincides with a domain border", "anchors": ["src/outController.cpp: OutController::OutController", "src/outEngine/outEngineHDF5.cpp: write_rec"]}
{"id": "C18", "title": "Frames are written at the scheduled steps, in order, within the dataset", "statement": "With step number n counted exactly, a probe with schedule s writes frame n/s at exactly the steps with s | n; the dataset has been extended to hold frame n/s before it is written; frames are written consecutively from 0 with no gap or overwrite.", "quantifier": "every schedule 1..65535 and every number of steps", "why_tests_cant": "unbounded number of steps", "anchors": ["src/outController.cpp: OutController::init_datasets", "src/outWriter.cpp: OutWriter::operator()", "src/outEngine/outEngineHDF5.cpp: extend_dataset"]}
{"id": "C19", "title": "Step counting is robust to rounding of the accumulated time", "statement": "The step number recomputed at every step from the accumulated double-precision time equals the number of executed steps, so that no frame is skipped or written twice.", "quantifier": "every time step value and number of steps, IEEE-754 double arithmetic", "why_tests_cant": "depends on exact rounding for each step length", "anchors": ["src/PiCoPiC.cpp: main loop", "src/outController.cpp: init_datasets", "src/outWriter.cpp: operator()"]}
{"id": "C20", "title": "Dataset extension and writers agree on the schedule", "statement": "The schedule used when extending a dataset and the schedule used by the writers of the same probe are equal, for every accepted schedule.", "quantifier": "every accepted schedule value", "why_tests_cant": "needs schedules above 65535 steps", "anchors": ["include/cfg.hpp: probe.schedule", "include/outWriter.hpp: OutWriter::schedule"]}
{"id": "C21", "title": "Probe coordinates survive the hand-over to the writers", "statement": "The cell coordinates of a probe stored by a writer are those of the configuration.", "quantifier": "every accepted coordinate", "why_tests_cant": "needs grids larger than 32767 cells", "anchors": ["include/outWriter.hpp: OutWriter::position", "src/outController.cpp: OutController::OutController"]}
{"id": "C22", "title": "Pause and resume by signals never uses a released data file", "statement": "For every sequence of SIGUSR1/SIGUSR2/terminating signals arriving between or during output steps, the data file is released at most once per acquisition and the output never uses a released file.", "quantifier": "every sequence of signals and simulation steps", "why_tests_cant": "asynchronous histories cannot be enumerated", "anchors": ["src/PiCoPiC.cpp: signal_handler, main"]}
{"id": "C23", "title": "Paused means paused", "statement": "Between a SIGUSR1 that pauses and the next SIGUSR2 no simulation step is performed; repeated signals of the same kind have no effect; after resume stepping continues at the same step number.", "quantifier": "every signal/step history", "why_tests_cant": "asynchronous histories", "anchors": ["src/PiCoPiC.cpp: signal_handler, main"]}
{"id": "C24", "title": "Splitting a string and joining it back is lossless", "statement": "splitstr(s, d) returns the delimiter-free pieces of s in order: joining them with d gives s back, and no piece contains d.", "quantifier": "every string and delimiter", "why_tests_cant": "infinitely many strings, empty pieces and trailing delimiters", "anchors": ["src/algo/common.cpp: splitstr"]}
{"id": "C25", "title": "Creating a directory creates all its parents and only those", "statement": "make_directory(path) succeeds exactly when all prefixes of the path exist or can be created, creates the missing prefixes from the root down, and changes nothing else.", "quantifier": "every path and every initial directory tree", "why_tests_cant": "all trees and paths", "anchors": ["src/algo/common.cpp: make_directory"]}
{"id": "C26", "title": "nearest_divide returns a divisor-aligned bound", "statement": "nearest_divide(n, d) terminates and returns the documented multiple of d next to n.", "quantifier": "every n and every d", "why_tests_cant": "infinitely many pairs, d = 0", "anchors": ["src/algo/common.cpp: nearest_divide"]}
{"id": "C27", "title": "Option lookup returns the value following the option", "statement": "get_cmd_option returns the argument right after the first occurrence of the option, and never reads beyond the argument vector; cmd_option_exists is true exactly when the option occurs.", "quantifier": "every argument vector", "why_tests_cant": "infinitely many argument vectors", "anchors": ["src/algo/common.cpp: get_cmd_option, cmd_option_exists", "src/PiCoPiC.cpp: parse_argv"]}
{"id": "C28", "title": "Macro-particle budget is respected", "statement": "The numbers of macro-particles assigned to species and beams are non-negative, proportional up to rounding, and their sum never exceeds the configured macro_amount and misses it by less than the number of species.", "quantifier": "every number of species/beams and every (positive) density/size", "why_tests_cant": "all configurations", "anchors": ["src/cfg.cpp: Cfg::weight_macro_amount"]}
{"id": "C29", "title": "Initial plasma has the configured density", "statement": "The weights given to the initial macro-particles of a species sum to the number of real particles in the filled volume, and each weight is positive.", "quantifier": "every placement of macro-particles, every rectangle", "why_tests_cant": "needs exact arithmetic over all placements", "anchors": ["src/specieP.cpp: SpecieP::set_weight"]}
{"id": "C30", "title": "Reflection keeps particles inside the walls and preserves their speed", "statement": "After reflect() every particle of a domain with walls is inside the half-cell margin from each wall it could cross, with the same speed; particles away from the walls are untouched; the reflection loop terminates.", "quantifier": "every particle position/velocity and every domain geometry with margins smaller than the domain", "why_tests_cant": "all real positions incl. boundaries and multiple bounces", "anchors": ["src/specieP.cpp: SpecieP::reflect"]}
{"id": "C31", "title": "Beam reflection at the axis", "statement": "BeamP::reflect mirrors exactly the particles closer than half a cell to the axis, preserves speed, leaves all others alone and is idempotent on particles not further than a half cell beyond the axis.", "quantifier": "every beam particle position and velocity", "why_tests_cant": "all real positions", "anchors": ["src/beamP.cpp: BeamP::reflect"]}
{"id": "C32", "title": "Returning to the r-z half plane preserves radius and speed", "statement": "back_position_to_rz followed by back_velocity_to_rz puts the particle at azimuth 0 with radius equal to its distance from the axis, keeps v_z, and preserves v_r^2 + v_phi^2 (hence kinetic energy).", "quantifier": "every position off the axis and every velocity", "why_tests_cant": "all real vectors", "anchors": ["src/specieP.cpp: SpecieP::back_position_to_rz, SpecieP::back_velocity_to_rz"]}
{"id": "C33", "title": "The azimuthal rotation is the right rotation", "statement": "The velocity after the return to the half plane is the old velocity expressed in the rotated frame: radial component = (r*v_r + phi*v_phi)/R for the displaced position (r, phi), for displacements in any direction.", "quantifier": "every displaced position, also with negative cartesian x", "why_tests_cant": "needs particles that cross the axis", "anchors": ["src/specieP.cpp: back_position_to_rz, back_velocity_to_rz", "include/specieP.hpp: P_COS"]}
{"id": "C34", "title": "Charge weighting to the grid conserves the deposited quantity", "statement": "weight_cylindrical distributes a particle's weight to at most four nodes with non-negative shares; the shares multiplied by the node volumes used add up to exactly the particle weight.", "quantifier": "every particle position inside the domain, every cell size", "why_tests_cant": "real-valued identity over three branches", "anchors": ["include/algo/weighter.hpp: weight_cylindrical"]}
{"id": "C35", "title": "Node volumes are the same for every particle", "statement": "The density a node receives is divided by one and the same node volume, whichever particle (cell) deposits there, so the density map integrates to the number of particles.", "quantifier": "every pair of particles depositing on a common node", "why_tests_cant": "needs two particles in neighbouring cells and exact volumes", "anchors": ["include/algo/weighter.hpp: weight_cylindrical", "include/geometry.hpp: CELL_VOLUME"]}
{"id": "C36", "title": "The field solver preserves the discrete magnetic divergence", "statement": "calc_field_h leaves the discrete divergence of the updated magnetic field unchanged in every cell all of whose faces are updated; a field that starts divergence-free stays so for any number of steps.", "quantifier": "every electric field, every grid size, every number of steps", "why_tests_cant": "unbounded histories, exact cancellation", "anchors": ["src/maxwellSolver/maxwellSolverYee.cpp: MaxwellSolverYee::calc_field_h"]}
{"id": "C37", "title": "Perfectly conducting walls stay perfectly conducting", "statement": "In every domain adjacent to a wall the tangential electric field on the wall cells that the solver treats as boundary remains exactly zero for ever.", "quantifier": "every current, every number of steps, every set of walls", "why_tests_cant": "unbounded histories", "anchors": ["src/maxwellSolver/maxwellSolverYee.cpp: constructor, calc_field_e"]}
{"id": "C38", "title": "Empty space stays empty", "statement": "With zero fields and zero current every field stays exactly zero for any number of steps, and fields created at one place spread by at most one cell per half step.", "quantifier": "every grid size and number of steps", "why_tests_cant": "unbounded histories", "anchors": ["src/maxwellSolver/maxwellSolverYee.cpp: calc_field_h, calc_field_e"]}
{"id": "C39", "title": "Absorbing layers only damp", "statement": "For every cell the multiplier of the old electric field in the update is in (-1, 1] for non-negative conductivity and equals 1 outside the absorbing layers; the layer conductivities configured by set_pml are non-negative and zero outside the layers.", "quantifier": "every layer size, every conductivity", "why_tests_cant": "all geometries", "anchors": ["src/maxwellSolver/maxwellSolverYee.cpp: set_pml, calc_field_e"]}
{"id": "C40", "title": "External field profiles are selected by their names", "statement": "An external field configured with profile name X (none, const_r, const_phi, const_z) applies exactly the field of that name and nothing else.", "quantifier": "every profile name and parameter list", "why_tests_cant": "the selection is by string comparison for infinitely many names; no test exercises it", "anchors": ["src/maxwellSolver/externalFields.cpp"]}
{"id": "C41", "title": "Field interpolation delivers components to their own axis", "statement": "get_field_e/get_field_h compute each component of the interpolated field from that component of the grid only; a field that is zero in two components is interpolated to a vector that is zero in those components.", "quantifier": "every grid content and every position", "why_tests_cant": "a swapped index is invisible unless the components are inspected separately", "anchors": ["include/maxwellSolver.hpp: MaxwellSolver::get_field_e, get_field_h"]}
{"id": "C42", "title": "ZigZag deposits the total current", "statement": "The values deposited by the ZigZag scheme for one particle add up to charge*weight*displacement/(dt*volume) radially and longitudinally and charge*weight*v_phi/volume azimuthally.", "quantifier": "every pair of old/new positions and velocity", "why_tests_cant": "real-valued identities over all positions", "anchors": ["src/current/currentZigZag.cpp: CurrentZigZag::current_distribution", "include/current/currentZigZag.hpp: RELAY_POINT"]}
{"id": "C43", "title": "The ZigZag relay point lies in both cells", "statement": "For a move that crosses at most one cell border the relay point lies in the closed old cell and the closed new cell, hence both legs of the path stay inside one cell.", "quantifier": "every cell size and every pair of positions", "why_tests_cant": "real-valued case analysis", "anchors": ["include/current/currentZigZag.hpp: RELAY_POINT"]}
{"id": "C44", "title": "Every moving particle deposits current", "statement": "In the default (Villasenor-Buneman) scheme each particle that moved within the domain deposits a current; a displacement too large for the scheme is reported.", "quantifier": "every displacement", "why_tests_cant": "rare large displacements", "anchors": ["src/current/currentVB.cpp: CurrentVB::rz_current_distribution"]}
{"id": "C45", "title": "The Boris magnetic rotation conserves energy", "statement": "With no electric field the Boris pushers leave |v| unchanged for every magnetic field and time step, and v parallel to B is unchanged.", "quantifier": "every velocity, field and step", "why_tests_cant": "exact real identity", "anchors": ["src/pusher/pusherBoris.cpp: PusherBoris::operator()"]}
{"id": "C46", "title": "No pusher produces a superluminal particle", "statement": "For every velocity below the speed of light and every field the relativistic Boris, Vay and Higuera-Cary pushers produce a velocity strictly below the speed of light.", "quantifier": "every velocity, field, charge, mass and step", "why_tests_cant": "extreme fields cannot be enumerated", "anchors": ["src/pusher/pusherBoris.cpp", "src/pusher/pusherVay.cpp", "src/pusher/pusherHC.cpp", "src/phys/rel.cpp: lorenz_factor_inv"]}
{"id": "C47", "title": "The Higuera-Cary magnetic rotation conserves energy", "statement": "With no electric field the Higuera-Cary pusher leaves |u| unchanged.", "quantifier": "every velocity, field and step", "why_tests_cant": "the shipped default pusher hides it", "anchors": ["src/pusher/pusherHC.cpp: PusherHC::operator()"]}
{"id": "C48", "title": "Momentum and velocity conversions are inverse", "statement": "Multiplying a velocity by lorenz_factor(v^2) and the result by lorenz_factor_inv(u^2) returns the velocity; energy from velocity and energy from momentum agree in the relativistic regime.", "quantifier": "every velocity below the speed of light", "why_tests_cant": "real identities", "anchors": ["src/phys/rel.cpp"]}
{"id": "C49", "title": "Every particle of a cell takes part in same-species collisions", "statement": "For every number n >= 2 of particles in a cell the same-species pairing pairs every particle at least once, never with itself, with indices inside the list; for even n exactly once.", "quantifier": "every n", "why_tests_cant": "all n, even and odd", "anchors": ["src/collisions/collisionsTA77S.cpp: collide", "src/collisions/collisionsSK98.cpp: collide", "src/collisions/collisionsP12.cpp: collide"]}
{"id": "C50", "title": "Every particle of a cell takes part in electron-ion collisions", "statement": "For every pair of list lengths the electron-ion pairing uses indices inside the lists and pairs every particle of the longer list exactly once.", "quantifier": "every pair of lengths, single-precision arithmetic as in the code", "why_tests_cant": "depends on rounding for each pair of lengths", "anchors": ["src/collisions/collisionsTA77S.cpp: collide (case 2b)"]}
{"id": "C51", "title": "Every cell that can collide does collide", "statement": "Cells with at least one ion and one electron are processed whatever the content of other cells.", "quantifier": "every distribution of particles over cells", "why_tests_cant": "needs an empty cell before a populated one", "anchors": ["src/collisions/collisionsTA77S.cpp: collide", "src/collisions/collisionsSK98.cpp: collide", "src/collisions/collisionsP12.cpp: collide"]}
{"id": "C52", "title": "The TA77S correction restores momentum and energy of each species in a cell", "statement": "After correct_velocities the total momentum and kinetic energy of each species in a cell equal those before the collisions, whatever the collisions did, when the thermal energy is non-zero before and after.", "quantifier": "every list of particles, weights, velocities before and after", "why_tests_cant": "exact real identity over lists of any length", "anchors": ["src/collisions/collisionsTA77S.cpp: correct_velocities", "src/collisions.cpp: collect_weighted_params_tot_grid"]}
{"id": "C53", "title": "A single TA77S scattering conserves relative speed", "statement": "The scattered relative velocity has the same length as before, i.e. the scattering is a rotation.", "quantifier": "every relative velocity and every pair of angles", "why_tests_cant": "exact identity; masked by the later correction", "anchors": ["src/collisions/collisionsTA77S.cpp: collide_single"]}
{"id": "C54", "title": "SK98 scattering conserves total momentum and energy of the pair", "statement": "For equally weighted particles the pair's total momentum and total relativistic energy are the same after collide_single.", "quantifier": "every pair of velocities below the speed of light, masses, random draws", "why_tests_cant": "exact real identity through two Lorentz boosts", "anchors": ["src/collisions/collisionsSK98.cpp: collide_single"]}
{"id": "C55", "title": "Like particles scatter", "statement": "Two particles of the same mass with different velocities can be scattered by the relativistic collision operators.", "quantifier": "every pair of velocities", "why_tests_cant": "statistically invisible in a mixed plasma", "anchors": ["src/collisions/collisionsSK98.cpp: collide_single", "src/collisions/collisionsP12.cpp: collide_single"]}
{"id": "C56", "title": "A collision never stops a particle by accident", "statement": "P12 collide_single either leaves a particle's velocity unchanged or sets it to the scattered velocity.", "quantifier": "every pair of weights and random draws", "why_tests_cant": "needs a particular order of weights and random number", "anchors": ["src/collisions/collisionsP12.cpp: collide_single"]}
{"id": "C57", "title": "Beam bunches are injected in their time windows only", "statement": "A domain on the axis injects particles exactly at times inside the windows [start + k*(length+distance)/velocity, + length/velocity) for k < bunches_amount, each window at most once.", "quantifier": "every time history and bunch configuration", "why_tests_cant": "unbounded histories", "anchors": ["src/beamP.cpp: BeamP::inject"]}
{"id": "C58", "title": "All domains of a beam inject all bunches", "statement": "Every domain touched by the beam cross-section injects every bunch.", "quantifier": "every radial decomposition", "why_tests_cant": "needs a beam wider than one domain and several bunches", "anchors": ["src/beamP.cpp: BeamP::inject"]}
{"id": "C59", "title": "The main loop performs the configured number of steps in the fixed order", "statement": "With exact time arithmetic the loop performs floor(end/step)+1 steps, each consisting of injection, field update, particle push, current deposit, output and time increment in this order, and then stops.", "quantifier": "every end time and positive step", "why_tests_cant": "unbounded number of steps", "anchors": ["src/PiCoPiC.cpp: main", "src/cfg.cpp: Cfg::init_time"]}
{"id": "C60", "title": "Accepted probes can be parsed", "statement": "Every probe shape documented (rec, col, row, dot) is read from the configuration without undefined behaviour and gets the coordinates given there; coordinates outside the grid are rejected.", "quantifier": "every probe description", "why_tests_cant": "undefined behaviour is not observable by a passing test", "anchors": ["src/cfg.cpp: Cfg::init_probes"]}
{"id": "C61", "title": "Stitching the fields refreshes the ghost cells and nothing else", "statement": "After the ghost cells of all domains were zeroed (overlay_set) and one stitching pass ran, every interior cell still holds its value, and every ghost cell along an inner border (corner blocks excepted) holds the value of the neighbour domain's interior cell at the same place.", "quantifier": "every number of domains, every square domain of at least twice the overlay, every content, every order of the stitching calls", "why_tests_cant": "must hold for every content and every decomposition; an accumulating exchange that doubles values is invisible on zero fields", "anchors": ["src/SMB.cpp: SMB::field_h_overlay, SMB::field_e_overlay", "src/maxwellSolver/maxwellSolverYee.cpp: calc_field_h, calc_field_e", "include/algo/grid.hpp: overlay_set, overlay_x, overlay_y, overlay_xy"]}
{"id": "C62", "title": "A bunch gets the macro-particles assigned to it", "statement": "A domain injects, over the whole window of one bunch, the number of macro-particles assigned to it (bunch_macro_amount, at most one more or less), so that the injected charge is the configured one.", "quantifier": "every beam, every domain touching it, every time step and bunch duration", "why_tests_cant": "the loop bound is a double compared with an integer counter; the error shows only in total counts over a whole bunch for unfavourable steps", "anchors": ["src/beamP.cpp: BeamP::BeamP, BeamP::inject"]}
{"id": "C63", "title": "The radial shares of a bunch add up to the bunch", "statement": "The numbers of macro-particles assigned to the domains on top of each other add up to the number of macro-particles of the bunch, for a beam not wider than the domain column.", "quantifier": "every number of domains, every domain height, every beam radius up to the outer wall", "why_tests_cant": "the border case of a radius inside, on or above a domain border depends on two comparisons; a test covers one radius", "anchors": ["src/beamP.cpp: BeamP::BeamP"]}
{"id": "C64", "title": "Injected beam particles know their cell", "statement": "The cell numbers stored with an injected particle are those of its position.", "quantifier": "every beam, every domain, every pair of random numbers", "why_tests_cant": "the random numbers are continuous; for equal steps and small radii both numbers may agree by chance", "anchors": ["src/beamP.cpp: BeamP::inject"]}
{"id": "C65", "title": "The divided field solver computes the undivided one", "statement": "For every division of the area into square domains of at least four cells, every number of steps and every sequence of currents, the fields in every cell (ghost cells beside domain borders included) are those of a single domain covering the whole area; so the divergence and wall laws hold across domain borders.", "quantifier": "every number of domains, every domain size, every number of steps, every current, every conductivity and dielectric constant", "why_tests_cant": "needs comparing all decompositions of all sizes for all runs", "anchors": ["src/SMB.cpp: SMB::solve_maxvell", "src/SMB.cpp: SMB::field_e_overlay", "src/SMB.cpp: SMB::field_h_overlay", "src/maxwellSolver/maxwellSolverYee.cpp"]}
{"id": "C66", "title": "A uniform field is interpolated to itself", "statement": "If a component of the field has the same value in all cells, get_field_e/get_field_h deliver that value at every position of a domain.", "quantifier": "every cell size, every position, every value", "why_tests_cant": "an interpolation that is a few percent short looks plausible in a test far from the axis", "anchors": ["include/maxwellSolver.hpp: MaxwellSolver::get_field_e, get_field_h", "include/geometry.hpp: CELL_VOLUME"]}
{"id": "C67", "title": "The Villasenor-Buneman scheme conserves charge", "statement": "For one particle and one step the deposited radial and longitudinal currents satisfy the discrete continuity equation: out of every node cell flows, times dt, the charge share (overlap of the particle's ring of one cell size with the node cell, as a volume fraction) the node had at the old position minus the share at the new one.", "quantifier": "every cell size, every time step, every pair of positions off the axis at most one cell apart in each direction", "why_tests_cant": "the formulas have a dozen branches over real positions; a missing branch shows only as slow accumulation of spurious charge", "anchors": ["src/current/currentVB.cpp: CurrentVB::simple_current_distribution, strict_motion_distribution, rz_current_distribution", "include/current/currentVB.hpp"]}
{"id": "C68", "title": "The azimuthal current is charge times velocity", "statement": "In the Villasenor-Buneman scheme the azimuthal current deposited for one particle, summed with the volumes of the nodes, is charge*v_phi, with one volume per node that does not depend on which particle deposits.", "quantifier": "every cell size, every position off the axis", "why_tests_cant": "an error of a few percent in some rows of cells is invisible in a run", "anchors": ["src/current/currentVB.cpp: CurrentVB::azimuthal_current_distribution", "include/geometry.hpp: CELL_VOLUME"]}
{"id": "C69", "title": "The current grid holds the sum of all deposits", "statement": "After current_distribution every cell of the grid, ghost cells included, holds what it held before (ghost cells: zero) plus the sum of the deposits of all particles of the domain; every access is inside the grid.", "quantifier": "every domain, every list of particles in it, every content of the grid", "why_tests_cant": "a deposit that is overwritten or erased needs two particles in one cell, or one beside a border", "anchors": ["src/current/currentVB.cpp: CurrentVB::current_distribution", "src/current/currentZigZag.cpp: CurrentZigZag::current_distribution", "include/algo/grid.hpp: overlay_set"]}
{"id": "C70", "title": "ZigZag splits the current by the relative position in the cell", "statement": "For a move inside one cell the ZigZag scheme gives the upper longitudinal neighbour the share (distance of the middle of the path from the lower cell border)/(cell size) of the radial current.", "quantifier": "every cell size and every position", "why_tests_cant": "right for cells of size one only; tests usually use unit cells", "anchors": ["src/current/currentZigZag.cpp: CurrentZigZag::current_distribution"]}
{"id": "C71", "title": "The Boris pushers solve the time-centred equation of motion", "statement": "With u- the momentum after the first half of the electric acceleration and u+ before the second, (u+ - u-) = (u+ + u-) x B*q*dt*mu0/(2*m*gamma), gamma being that of u- (1 in the classic pusher).", "quantifier": "every velocity below the speed of light, field, charge, mass and step", "why_tests_cant": "sign errors in one of the nine terms are visible only for fields and velocities off the axes", "anchors": ["src/pusher/pusherBoris.cpp: PusherBoris::operator()"]}
{"id": "C72", "title": "Without magnetic field every pusher adds q*E*dt/m to the momentum", "statement": "For B = 0 the momentum per mass after a step is that before plus q*E*dt/m (the velocity in the classic pusher).", "quantifier": "every velocity below the speed of light, field, charge, mass and step; all four pushers", "why_tests_cant": "needs the exact inverse relation of momentum and velocity for all speeds", "anchors": ["src/pusher/pusherBoris.cpp", "src/pusher/pusherVay.cpp", "src/pusher/pusherHC.cpp"]}
{"id": "C73", "title": "The Vay pusher conserves energy in a magnetic field", "statement": "With no electric field the Vay pusher leaves |v| unchanged.", "quantifier": "every velocity, field and step", "why_tests_cant": "a missing factor 1/c^2 hides in slow drifts of the energy", "anchors": ["src/pusher/pusherVay.cpp: PusherVay::operator()"]}
{"id": "C74", "title": "The adaptive Boris pusher is defined for every particle", "statement": "The adaptive Boris pusher reads no variable without a value.", "quantifier": "every velocity and field", "why_tests_cant": "an uninitialised flag is usually zero or one by chance of the stack content", "anchors": ["src/pusher/pusherBoris.cpp: use_rel"]}
{"id": "C75", "title": "The four-momentum lies on the mass shell", "statement": "momentum_0^2 - momentum^2 = (m c)^2; a zero mass or a speed above that of light is reported as a fatal error.", "quantifier": "every mass and every velocity", "why_tests_cant": "real-valued identity over all velocities", "anchors": ["src/phys/rel.cpp: momentum_0, momentum"]}
{"id": "C76", "title": "Rounding does not make a particle superluminal", "statement": "In double precision the velocity computed from a momentum passes the check beta <= 1 of lorenz_factor in the next step.", "quantifier": "every momentum, every rounding with relative error 2^-53", "why_tests_cant": "fails for about one value in twenty of extreme momenta only", "anchors": ["src/phys/rel.cpp: lorenz_factor, lorenz_factor_inv", "src/pusher/pusherBoris.cpp", "src/pusher/pusherVay.cpp", "src/pusher/pusherHC.cpp"]}
{"id": "C77", "title": "The collision cell has the volume of its ring", "statement": "The volume used for the density of a collision cell is that of the ring between the radii of the cell, pi*((r+dr)^2-r^2)*dz, r counted in the whole area.", "quantifier": "every cell size, every row and every domain shift", "why_tests_cant": "a factor two off the axis only rescales the collision frequency", "anchors": ["include/geometry.hpp: CELL_VOLUME", "src/collisions.cpp: Collisions::get_el_density, get_ion_density"]}
{"id": "C78", "title": "A TA77S scattering conserves the momentum of the pair", "statement": "For equal weights, m_a*v_a + m_b*v_b is the same after collide_single.", "quantifier": "every pair of velocities, masses and angles", "why_tests_cant": "hidden by the correction of the velocities of the whole cell", "anchors": ["src/collisions/collisionsTA77S.cpp: collide_single"]}
{"id": "C79", "title": "TA77S turns the relative velocity of like particles", "statement": "For two particles of equal mass and weight the scattering changes their relative velocity by the rotation by the drawn angles.", "quantifier": "every pair of velocities and angles", "why_tests_cant": "like-particle collisions show only in the relaxation of anisotropy", "anchors": ["src/collisions/collisionsTA77S.cpp: collide_single"]}
{"id": "C80", "title": "An electron and an ion scatter whichever macro-particle is heavier", "statement": "For a pair of different masses the relativistic collision operators scatter, whichever of the two macro-particles has the larger weight.", "quantifier": "every pair of velocities, weights and draws", "why_tests_cant": "a run shows only a lower collision rate", "anchors": ["src/collisions/collisionsSK98.cpp: collide_single", "src/collisions/collisionsP12.cpp: collide_single"]}
{"id": "C81", "title": "P12 scattering conserves total momentum and energy of the pair", "statement": "If both particles are deflected, total momentum and total relativistic energy of the pair are the same after collide_single, and the new velocities are below the speed of light.", "quantifier": "every pair of velocities below the speed of light, masses, densities, draws", "why_tests_cant": "exact real identity through two Lorentz boosts", "anchors": ["src/collisions/collisionsP12.cpp: collide_single"]}
{"id": "C82", "title": "The P12 scattering angle exists", "statement": "The cosine of the scattering angle computed by P12 is between -1 and 1.", "quantifier": "every s12 and every uniform draw", "why_tests_cant": "fails for draws below exp(-2/s12) only, one in 5e8 and rarer", "anchors": ["src/collisions/collisionsP12.cpp: collide_single"]}
{"id": "C83", "title": "Collisions of macro-particles conserve momentum", "statement": "The momentum weighted with the macro-particle weights is conserved by a relativistic collision.", "quantifier": "every pair of weights and velocities", "why_tests_cant": "needs different weights and a sum over a pair; a run shows slow heating", "anchors": ["src/collisions/collisionsSK98.cpp: collide_single", "src/collisions/collisionsP12.cpp: collide_single"]}
{"id": "C84", "title": "Random placement stays inside the walls", "statement": "Every initial macro-particle of the random placement lies at least half a cell away from all walls of the simulation area.", "quantifier": "every decomposition of the area, every draw of the generator (zero included), constant and linear density", "why_tests_cant": "the draws next to 0 and 1 are the critical ones and are practically never drawn", "anchors": ["src/specieP.cpp: rectangular_random_placement"]}
{"id": "C85", "title": "Initial macro-particles belong to their domain", "statement": "The cell of every macro-particle of the random placement is one of the domain that placed it.", "quantifier": "every domain, every draw", "why_tests_cant": "a wrong owner is silently handed over before the first step or shifts the density by half a cell", "anchors": ["src/specieP.cpp: rectangular_random_placement", "src/specieP.cpp: fullyfill_spatial_distribution"]}
{"id": "C86", "title": "The flat sequence is equidistributed", "statement": "The draws of the flat placement are in [0,1), pairwise different, and each block of p^k consecutive particles puts exactly one into each strip of width p^-k, for less than 2^31 macro-particles.", "quantifier": "every base p >= 2, every k, every block below 2^31", "why_tests_cant": "equidistribution is a statement about all blocks and all depths", "anchors": ["src/math/rand.cpp: random_reverse", "src/specieP.cpp: rectangular_random_placement"]}
{"id": "C87", "title": "Regular placement places the requested amount", "statement": "The regular placement ends, places the requested number of macro-particles, all inside the walls.", "quantifier": "every domain, every number of macro-particles", "why_tests_cant": "needs the exact count of two loops over double for arbitrary sizes", "anchors": ["src/specieP.cpp: rectangular_regular_placement"]}
{"id": "C88", "title": "Centered placement fills all cells evenly", "statement": "The centered placement gives all cells off the outer walls the same number of macro-particles, other cells none, and places the requested number.", "quantifier": "every domain, every number of macro-particles, every cell", "why_tests_cant": "a count for every cell and every amount; examples divide evenly", "anchors": ["src/specieP.cpp: rectangular_centered_placement"]}
{"id": "C89", "title": "Density profile does not depend on the decomposition", "statement": "The densities at the borders of the domains follow the configured linear profile of the whole area, so that the domains together hold the configured number of particles, also when the area is divided among processes.", "quantifier": "every profile, every cut of the area, every number of processes", "why_tests_cant": "only visible by comparing runs with different numbers of processes and a non-constant density", "anchors": ["src/SMB.cpp: SMB"]}
{"id": "C90", "title": "Shares of the domains add up", "statement": "The numbers of macro-particles of the domains add up to at most the configured number, and less than one per domain is dropped.", "quantifier": "every number of macro-particles below 2^31, every number of domains", "why_tests_cant": "rounding for all divisors", "anchors": ["src/SMB.cpp: SMB"]}
{"id": "C91", "title": "Initial velocities are below the velocity of light", "statement": "No velocity distribution gives a macro-particle a velocity of c or more.", "quantifier": "every mass and temperature, every draw", "why_tests_cant": "the violation needs hot plasma and rare draws", "anchors": ["src/specieP.cpp: thermal_velocity_distribution", "src/specieP.cpp: rectangular_velocity_distribution", "src/specieP.cpp: eigen_velocity_distribution"]}
{"id": "C92", "title": "The initial velocity carries the sampled energy", "statement": "The velocity computed for a sampled energy has this kinetic energy, and grows with it.", "quantifier": "every energy and mass", "why_tests_cant": "a jump at a single energy and a missing rest mass show only as a distorted spectrum", "anchors": ["src/specieP.cpp: thermal_velocity_distribution"]}
{"id": "C93", "title": "A closed box keeps its particles", "statement": "Moving, reflecting and re-homing all particles of a closed box loses none: every particle is inside the box and in the domain that owns its cell, and the charge of every species is unchanged.", "quantifier": "every decomposition, every number of particles, every time step", "why_tests_cant": "a lost particle needs a coordinate that is exactly zero or a step longer than a domain", "anchors": ["src/SMB.cpp: advance_particles", "src/specieP.cpp: reflect", "src/specieP.cpp: back_position_to_rz", "src/specieP.cpp: back_velocity_to_rz"]}
{"id": "C94", "title": "The outer wall acts as a mirror", "statement": "A particle that hits the outer cylinder keeps its azimuthal velocity and gets the opposite radial velocity, both taken in the frame of its new position.", "quantifier": "every particle that crosses the wall once, every time step", "why_tests_cant": "needs a particle with azimuthal motion and an exact comparison of directions after a rotation", "anchors": ["src/specieP.cpp: reflect", "src/specieP.cpp: back_velocity_to_rz"]}
{"id": "C95", "title": "Momentum map is the mean relativistic momentum", "statement": "The momentum map holds in every cell the mean of the relativistic momenta of the particles, weighted with their shares in the cell, and zero in empty cells; a faster particle never shows less momentum than a slower one.", "quantifier": "every list of particles, every cell", "why_tests_cant": "a missing Lorentz factor shows only for fast particles, and tests have no reference for the weighting", "anchors": ["src/specieP.cpp: calc_momentum", "src/specieP.cpp: calc_momentum_w", "src/specieP.cpp: calc_density"]}
{"id": "C96", "title": "Temperatures are not negative", "statement": "The temperature map is non-negative and determined by the particles; particles that all move alike have temperature zero.", "quantifier": "every list of particles, every sequence of diagnostics", "why_tests_cant": "depends on which other diagnostics are switched on, and on the content of fresh memory", "anchors": ["src/specieP.cpp: calc_temperature", "src/specieP.cpp: calc_momentum_abs_w"]}
{"id": "C97", "title": "Energy map is the mean kinetic energy", "statement": "The energy map shows in every cell the mean kinetic energy of the particles.", "quantifier": "every list of particles, every cell", "why_tests_cant": "the error depends on the spread of the velocities in a cell and on the speed", "anchors": ["src/specieP.cpp: calc_energy", "src/specieP.cpp: calc_momentum_abs_w", "src/phys/rel.cpp: energy_m"]}
{"id": "C98", "title": "Configuration check enforces the limits of the method", "statement": "A configuration that passes the check has a usable number of domains, moves no particle by more than a cell per step, resolves the plasma oscillation, and satisfies the stability limit of the field solver.", "quantifier": "every configuration", "why_tests_cant": "accepting a bad configuration looks like a normal start of the program", "anchors": ["src/cfg.cpp: method_limitations_check", "src/cfg.cpp: init_geometry"]}
{"id": "C99", "title": "Configuration check uses the Debye length of the plasma", "statement": "The sizes are compared with the Debye length computed from the densities and temperatures of all electrons and ions, and messages appear exactly when they are beyond it.", "quantifier": "every list of species, all densities and temperatures", "why_tests_cant": "exchanged arguments agree for the usual neutral configurations", "anchors": ["src/cfg.cpp: method_limitations_check", "src/phys/plasma.cpp: debye_length"]}
{"id": "C100", "title": "Configured masses and charges are used", "statement": "The mass and the charge of a species are those of the configuration.", "quantifier": "every mass and charge", "why_tests_cant": "test configurations use whole numbers", "anchors": ["src/cfg.cpp: init_particles", "include/cfg.hpp", "src/specieP.cpp: SpecieP"]}
{"id": "C101", "title": "Particles migrate between ranks without loss", "statement": "When several processes run, every macro-particle that is inside the simulation area after a step is afterwards held by exactly one process, in the domain that contains its cell and in its own species; particles outside the area are dropped; the exchange itself is always defined.", "quantifier": "every number of processes and domains, every population, every order of the messages", "why_tests_cant": "needs several processes and particles that cross their borders; a double or lost particle does not show in smooth maps", "anchors": ["src/SMB.cpp: particles_runaway_collector", "src/PiCoPiC.cpp: main"]}
{"id": "C102", "title": "The exchange of migrating particles cannot come to a standstill", "statement": "The exchange of the migrating particles between the processes terminates on all processes, whatever the number of migrating particles and however many messages the MPI library buffers.", "quantifier": "every number of processes, queue lengths and buffer capacity, every schedule", "why_tests_cant": "small runs are always buffered by the library; the standstill needs many particles crossing in both directions", "anchors": ["src/SMB.cpp: particles_runaway_collector"]}
{"id": "C103", "title": "Weights follow the volume of the ring of a particle", "statement": "The weight of a placed macro-particle is proportional to the volume of the ring of one cell width around its radius; therefore all weights of a domain are proportional to the radii of the particles.", "quantifier": "every domain, every number of macro-particles and all random draws", "why_tests_cant": "a wrong volume factor changes single weights, not their sum", "anchors": ["src/specieP.cpp: set_weight", "src/specieP.cpp: rectangular_random_placement"]}
{"id": "C104", "title": "Absorbing layers do not depend on the division into domains", "statement": "The conductivity of the absorbing layers in a cell of a domain is the one the cell has in the undivided area, and a domain gets a layer exactly if one of its cells belongs to it.", "quantifier": "every division, all layer sizes and conductivities", "why_tests_cant": "the tests build single domains", "anchors": ["src/SMB.cpp: SMB", "src/maxwellSolver/maxwellSolverYee.cpp: set_pml", "include/geometry.hpp"]}
{"id": "C105", "title": "Absorbing layers have the configured thickness", "statement": "The conductivity is positive exactly in the configured number of cells next to the left, the right and the outer wall.", "quantifier": "every area and all layer sizes", "why_tests_cant": "the default sizes are powers of two; a layer that is too thin only reflects a little more", "anchors": ["src/cfg.cpp: init_geometry", "src/maxwellSolver/maxwellSolverYee.cpp: set_pml", "include/geometry.hpp", "src/SMB.cpp: SMB"]}
{"id": "C106", "title": "Number of real particles does not depend on the division", "statement": "The weights of all domains together represent the configured density integrated over the filled region, whatever the number of domains, macro-particles and their positions.", "quantifier": "every evenly divided area, all densities and positions", "why_tests_cant": "needs the sum over all domains and several divisions", "anchors": ["src/SMB.cpp: SMB", "src/specieP.cpp: set_weight"]}
{"id": "C107", "title": "Density profile with several processes", "statement": "With several processes the density at every position is the configured linear profile.", "quantifier": "every number of processes, all densities and cells", "why_tests_cant": "tests run one process; uniform densities hide the effect", "anchors": ["src/SMB.cpp: SMB", "src/PiCoPiC.cpp: main"]}
{"id": "C108", "title": "Interpolation follows the field along z", "statement": "For a field component that is linear in z at its places on the staggered grid, the interpolated value is the one of the same field without the z dependence times the linear function at the position of the particle.", "quantifier": "every domain, all positions inside it and all such fields", "why_tests_cant": "exchanged weights of the two neighbouring cells are invisible for uniform fields", "anchors": ["include/maxwellSolver.hpp: get_field_e", "include/maxwellSolver.hpp: get_field_h"]}
{"id": "C109", "title": "Interpolation does not amplify fields", "statement": "No component of the interpolated field exceeds the maximum of this component on the grid.", "quantifier": "every domain, all positions inside it and all fields", "why_tests_cant": "needs all fields and positions", "anchors": ["include/maxwellSolver.hpp: get_field_e", "include/maxwellSolver.hpp: get_field_h"]}
{"id": "C110", "title": "Sampling tables are read inside their bounds", "statement": "Drawing the energy of a particle of the thermal distribution never reads outside the two tables of 1000 numbers, whatever the random draw.", "quantifier": "every temperature and every draw", "why_tests_cant": "the offending draw is hit with tiny probability", "anchors": ["src/math/maxwellJuettner.cpp: maxwellJuettner"]}
{"id": "C111", "title": "A larger draw gives a larger energy", "statement": "The sampled energy is a non-decreasing function of the random number (inverse of a distribution function), for temperatures on both sides of the switch between the classical and the relativistic tables.", "quantifier": "every temperature, all pairs of draws", "why_tests_cant": "the tables and the branch switches have to be compared for all draws", "anchors": ["src/math/maxwellJuettner.cpp: maxwellJuettner", "include/constant.hpp: THREE_OVER_4"]}
{"id": "C112", "title": "Small draws follow the Maxwell-Boltzmann distribution", "statement": "For small draws U the sampled energy x (in units of the temperature) is the one below which the fraction U of the particles lies: 4/(3 sqrt(pi)) x^(3/2) = U.", "quantifier": "every temperature, every draw of the power-law branch", "why_tests_cant": "a wrong factor changes only the rarest particles", "anchors": ["src/math/maxwellJuettner.cpp: maxwellJuettner", "include/constant.hpp: THREE_OVER_4"]}
{"id": "C113", "title": "Every sampled energy is a number", "statement": "The rejection loop of the relativistic sampling stores a real number, never NaN.", "quantifier": "every temperature, all sequences of draws", "why_tests_cant": "NaN appears with a probability of about 10^-12 per draw and then spreads through the fields", "anchors": ["src/math/maxwellJuettner.cpp: maxwellJuettner"]}
{"id": "C114", "title": "Density maps contain all particles", "statement": "After the preparation of a density probe each cell of the density map holds everything that the domains stored for that physical cell: the particles of the domain itself and the ghost deposits of all its neighbours.", "quantifier": "every number of domain rows and columns, rectangular domains, all contents", "why_tests_cant": "deposits of a neighbour are a small part of a border cell and corner cells are few", "anchors": ["src/outController.cpp: init_datasets", "include/grid.hpp: overlay_x, overlay_y"]}
{"id": "C115", "title": "Output of a probe does not depend on other probes", "statement": "What is written for a probe of a particle quantity is the same whatever other probes are configured for the same species and in whatever order.", "quantifier": "every list of probes of a species", "why_tests_cant": "needs the combination of two probes and a comparison with the run of one of them", "anchors": ["src/outController.cpp", "src/specieP.cpp: calc_temperature, calc_energy, calc_momentum"]}
{"id": "C116", "title": "Mean values at domain borders cover all particles", "statement": "The temperature, energy and momentum written for a cell at a border of domains is the mean over all particles that touch that cell, not only over those of one domain.", "quantifier": "every grid of domains, all particle contents", "why_tests_cant": "the seam is visible only where the particles on both sides differ", "anchors": ["src/outController.cpp", "src/specieP.cpp: calc_temperature, calc_energy, calc_momentum"]}
{"id": "C117", "title": "The fields keep their energy in a closed cavity", "statement": "In a domain with four walls every step changes the energy of the fields (the conserved quadratic form of the leapfrog scheme, with the volumes of the rings) exactly by minus the time step times the work of the currents plus the losses in the absorbing layers. Without currents and layers the energy stays the same for any number of steps; with layers it never grows.", "quantifier": "every size of the domain, all permittivities, conductivities, currents, fields, any number of steps", "why_tests_cant": "a wrong weight at the axis or at a wall makes a slow drift that hides in the rounding", "anchors": ["src/maxwellSolver/maxwellSolverYee.cpp: calc_field_e, calc_field_h", "src/SMB.cpp"]}
{"id": "C118", "title": "The fields stay bounded for every accepted time step", "statement": "If the check of the configuration accepts the time step without a message, the fields of a closed cavity without currents stay below a bound for ever.", "quantifier": "every accepted configuration, any number of steps", "why_tests_cant": "the growth near the limit is slow and starts from rounding errors", "anchors": ["src/maxwellSolver/maxwellSolverYee.cpp: calc_field_e, calc_field_h", "src/cfg.cpp: method_limitations_check", "include/constant.hpp: EPSILON0, MAGN_CONST, LIGHT_VEL"]}
{"id": "C119", "title": "The solver changes the electric flux by the current only", "statement": "In a domain with four walls a step of the electric field changes the flux of eps E out of the ring around a node by minus the time step times the current out of that ring, whatever the magnetic field is: the scheme makes no charge by itself.", "quantifier": "every size of the domain, all fields and currents, all nodes inside the walls outside the absorbing layers", "why_tests_cant": "needs the divergence of the fields, which no test calculates; the error sits at single nodes", "anchors": ["src/maxwellSolver/maxwellSolverYee.cpp: calc_field_e"]}
{"id": "C120", "title": "Gauss's law holds for ever with particles", "statement": "If the flux of eps E out of the ring around a node is the charge of the particles in it at the start, it is so after any number of steps, when the currents are made by the Villasenor-Buneman scheme from the moves of the particles.", "quantifier": "every size of the domain, any number of particles and steps, every sequence of moves inside the domain", "why_tests_cant": "errors of the charge accumulate over many steps and look like physical space charge", "anchors": ["src/current/currentVB.cpp", "src/maxwellSolver/maxwellSolverYee.cpp: calc_field_e", "src/domain.cpp: reset_current"]}
{"id": "C121", "title": "The current does not depend on the division into domains", "statement": "After solve_current every cell of every domain holds the current that the same cell of one undivided domain would hold with the same particles: what a domain deposits in its ghost cells reaches the neighbour that owns the cell, once, and nothing is lost.", "quantifier": "every number of domains in both directions and every size of them, both deposition schemes, all sets of particles that ended in their domains and came from at most the next cells", "why_tests_cant": "the current near domain borders is the sum over up to four domains; a lost corner term is one cell of a large grid", "anchors": ["src/SMB.cpp: solve_current, current_overlay", "src/domain.cpp: reset_current, weight_current", "src/current/currentZigZag.cpp", "src/current/currentVB.cpp"]}
{"id": "C122", "title": "Fields and currents of a run do not depend on the division", "statement": "Over any number of rounds of solve_maxvell and solve_current the fields and currents of the domains are those of one undivided area with the same particles.", "quantifier": "every number of rounds, domains and particles", "why_tests_cant": "needs two runs with different divisions compared cell by cell over many rounds", "anchors": ["src/PiCoPiC.cpp: main loop", "src/SMB.cpp: solve_maxvell, solve_current"]}
{"id": "C123", "title": "Gauss's law in a divided area", "statement": "If the flux of eps E out of the ring around a node, read from the domains that own the cells, is the charge of the particles in it at the start, it is so after any number of rounds of solve_current and solve_maxvell, also at the nodes along the borders of the domains and with particles that change the domain.", "quantifier": "every division, any number of rounds and particles, every sequence of moves of the kind of C120", "why_tests_cant": "errors at domain borders accumulate slowly and look like space charge", "anchors": ["src/SMB.cpp: solve_current, solve_maxvell", "src/current/currentVB.cpp"]}
{"id": "C124", "title": "Mirror walls in any division", "statement": "A step of a particle (mover, back_position, reflect) in the domain it is in is: the free flight, then a mirror half a cell inside each of the four outer walls, whatever the division into domains; two divisions of the same area give the same particle.", "quantifier": "every division, domain, particle, velocity and time step for which the move is shorter than the domain by more than one and a half cells", "why_tests_cant": "the reflection uses local positions in domains with and without walls; a wrong border only shows for particles that jump at the right place", "anchors": ["src/specieP.cpp: reflect, mover_cylindrical, back_position_to_rz"]}
{"id": "C125", "title": "Particles and fields together, in any division", "statement": "A round of the main loop (fields, pusher with interpolated fields, movement, exchange of particles, currents) in the divided area does what it does in the undivided one: the same fields and currents cell by cell, the same particles of each species, each in the domain its cell belongs to; so any number of rounds do.", "quantifier": "every division into square domains of at least 4 cells, pusher, number of species and particles, number of rounds", "why_tests_cant": "no test compares runs with different divisions; the differences are small at first and grow chaotically", "anchors": ["src/SMB.cpp: solve_maxvell, advance_particles, particles_runaway_collector, solve_current", "src/PiCoPiC.cpp: main"]}
{"id": "C126", "title": "The ghost cells after the exchange", "statement": "After a step of the field solver every ghost cell of a domain, corner blocks included, holds the value of the cell of the neighbour it stands for, so that a particle feels the same interpolated field in every division.", "quantifier": "every division into square domains of at least 4 cells, every state of the fields", "why_tests_cant": "the corner blocks are read only by particles within half a cell of a crossing of two borders", "anchors": ["src/SMB.cpp: field_e_overlay, field_h_overlay", "include/algo/grid.hpp: overlay_xy", "include/maxwellSolver.hpp: get_field_e, get_field_h"]}
{"id": "C127", "title": "Every particle takes part in the collisions of its cell, once", "statement": "In a round of collisions the list of an inner cell holds exactly the particles that are in the cell, each once and in one list only; the round stays inside of the grids and lists as long as no particle is more than two cells away from the domain, and what earlier rounds left in the lists has no influence on the particles.", "quantifier": "every number of cells, species and particles, all positions, every shuffle, all three collision operators, every state left by earlier rounds", "why_tests_cant": "lists with stale or missing pointers give plausible collision rates", "anchors": ["src/collisions.cpp: clear, sort_to_cells, random_sort, constructor", "src/collisions/collisionsTA77S.cpp: collide, operator()", "src/collisions/collisionsSK98.cpp", "src/collisions/collisionsP12.cpp"]}
{"id": "C128", "title": "A round of TA77S collisions conserves momentum and energy of the domain", "statement": "After clear, sort_to_cells, random_sort, collide and correct_velocities the total momentum and the total kinetic energy of all particles of all species of the domain are what they were; positions, cells and weights do not change, and particles outside of the domain are not touched.", "quantifier": "every number of cells, species and particles, all random draws and shuffles", "why_tests_cant": "statistical tests see a drift only after many rounds", "anchors": ["src/collisions/collisionsTA77S.cpp: collide, correct_velocities, operator()", "src/collisions.cpp"]}
{"id": "C130", "title": "The scattering angles are drawn with the variance of Coulomb collisions", "statement": "All three collision operators draw the scattering angle with the variance given by the frequency of Coulomb collisions of the pair (reduced mass and relative speed, squares of both charges, density, Coulomb logarithm), and it does not matter which particle comes first.", "quantifier": "all masses, charges, weights, velocities, densities and draws", "why_tests_cant": "a wrong factor changes relaxation rates that no test compares with theory", "anchors": ["src/phys/plasma.cpp: collision_freqency, coulomb_logarithm", "src/collisions/collisionsTA77S.cpp: collide_single", "src/collisions/collisionsSK98.cpp: collide_single", "src/collisions/collisionsP12.cpp: collide_single"]}
{"id": "C129", "title": "A round of SK98 or P12 collisions conserves momentum and energy of the domain", "statement": "After a round of collisions with the relativistic operators the total relativistic momentum and energy of all particles of all species of the domain are what they were, and no particle is faster than light.", "quantifier": "every number of cells, species and particles, all random draws and shuffles", "why_tests_cant": "tests look at single pairs; a round works on pairs whose velocities earlier pairs have changed", "anchors": ["src/collisions/collisionsSK98.cpp: collide, operator()", "src/collisions/collisionsP12.cpp: collide, operator()", "src/collisions.cpp"]}
{"id": "C131", "title": "Columns, rows and dots hold the values of their cells", "statement": "A column, row or dot probe writes to its frame the value of every cell of the column or row (of the dot), each taken from the domain the cell belongs to, at the place of the cell, and nothing else.", "quantifier": "every size and division of the area, every column, row and dot, every frame, all contents of the grids", "why_tests_cant": "tests of the output use rectangles in one domain only", "anchors": ["src/outController.cpp: init_datasets", "src/outWriter.cpp: operator()", "src/outEngine/outEngineHDF5.cpp: write_vec, write_dot"]}
{"id": "C132", "title": "Every probe gets its dataset", "statement": "When the controller of the output is constructed, the file gets one dataset for each probe of the configuration, in order, whatever the probes are.", "quantifier": "every list of probes with known components, every species and extent", "why_tests_cant": "the example configuration has one probe per component and shape", "anchors": ["src/outController.cpp: constructor", "src/outEngine/outEngineHDF5.cpp: create_dataset", "src/cfg.cpp: init_probes"]}
{"id": "C133", "title": "A probe writes the quantity it names", "statement": "The writer of a probe reads the grid of the component that the probe names: the component of the field or current, or the map of the quantity for the species of that name in the domain.", "quantifier": "every component name, species name and list of species", "why_tests_cant": "a swapped name gives a plausible picture of another quantity", "anchors": ["src/outController.cpp: constructor"]}
{"id": "C134", "title": "The parallel loops over the domains are free of data races", "statement": "Two threads that execute different iterations of one parallel loop of the collector or of the initial distribution never access the same object at the same time, unless both only read it.", "quantifier": "every area, division, number of species and particles, all positions, every assignment of iterations to threads", "why_tests_cant": "races show up as rare lost particles or broken vectors on machines with many cores only", "anchors": ["src/SMB.cpp: particles_runaway_collector, distribute", "src/specieP.cpp: thermal_velocity_distribution", "src/math/rand.cpp: gen"]}
{"id": "C135", "title": "The fields of a run with several MPI processes", "statement": "Divided over W processes with R x C domains each, the field solver computes in every domain, step by step and whatever the schedule of the messages, the fields of the undivided area and of the run with one process, also in the ghost cells at the borders between the processes, so that a particle feels the same fields on however many processes the run is divided.", "quantifier": "all numbers of processes and domains, sizes, materials, currents, initial fields, numbers of steps and message schedules", "why_tests_cant": "the number of processes and of steps is unbounded; a test on one machine runs one process and never executes the exchange", "anchors": ["src/SMB.cpp:784-1252", "src/PiCoPiC.cpp:209-230"]}
{"id": "C136", "title": "The P12 scattering cosine has Nanbu's distribution", "statement": "For every value s of the collision parameter the cosine of the scattering angle, as a function of the uniform draw, follows Nanbu's distribution (density proportional to exp(A cos), A from the fit or 3 exp(-s); exponential for small s, isotropic for s of 6 and more), and its mean over the draws is exp(-s) up to one hundredth.", "quantifier": "all s > 0, all draws", "why_tests_cant": "a test samples finitely many s and draws, and a wrong coefficient of the fit shifts the distribution by less than the noise of a sample", "anchors": ["src/collisions/collisionsP12.cpp:207-231"]}
{"id": "C137", "title": "Output of a run with several processes", "statement": "Each probe of a run divided over W processes is written by the processes together, in whatever order their writes reach the file, with exactly the frame of the run with one process: every cell of a rectangle, column, row or dot with the value of the process and domain that own it, and maps of particles with the contributions of all particles.", "quantifier": "all numbers of processes and domains, sizes, probes inside the area, orders of the writes", "why_tests_cant": "the processes write one file without a fixed order; a test on one machine runs one process", "anchors": ["src/outController.cpp:35-510", "src/outWriter.cpp:47-131", "src/PiCoPiC.cpp:209-281"]}
{"id": "C138", "title": "The progress line shows the elapsed time", "statement": "For every elapsed time the text of the progress line denotes that time, in days, hours, minutes and seconds below their limits, and is written inside the memory allocated for it.", "quantifier": "all elapsed times below 2^31 seconds", "why_tests_cant": "one byte too many in a heap block does not fail a test, and the boundaries of a day are not waited for", "anchors": ["src/algo/common.cpp:62-103", "src/msg.cpp:50-69"]}
{"id": "C139", "title": "sq_rt returns the square root", "statement": "Compiled with AVX, sq_rt(x) returns the square root of x for every x >= 0, wherever the compiler places its local array.", "quantifier": "all x >= 0, all addresses a double may have", "why_tests_cant": "the alignment of a local array depends on compiler, options and inlining", "anchors": ["src/algo/common.cpp:31-51"]}
{"id": "C140", "title": "Waves in vacuum travel with the velocity of light", "statement": "In vacuum the field solver moves electromagnetic waves along z with the velocity of light that the pushers and the check of the time step use, up to the numerical dispersion, so that no particle overtakes its own field.", "quantifier": "all wave lengths, wave forms, domain sizes, numbers of steps, time steps within the limit", "why_tests_cant": "a deviation of the velocity by two per mille is below the tolerance of field comparisons; it appears after thousands of steps", "anchors": ["src/maxwellSolver/maxwellSolverYee.cpp:111-257", "include/constant.hpp:38-49", "include/maxwellSolver.hpp:63"]}
{"id": "C141", "title": "A run covers the configured interval of time", "statement": "The steps of a run are those at the times from the configured start to the configured end.", "quantifier": "all starts, ends and steps", "why_tests_cant": "every example configuration has the start 0", "anchors": ["src/cfg.cpp:430-439", "src/PiCoPiC.cpp:299-347"]}
{"id": "C142", "title": "The plasma starts with the configured temperature", "statement": "The mean kinetic energy of the particles of a species, over all the draws of the generator, is at the start 3/2 times the configured temperature, for each of the three velocity distributions.", "quantifier": "all masses, all temperatures for which the velocities are not relativistic, all draws", "why_tests_cant": "a plasma that is too cold by a fifth or a half looks plausible; the source itself remarks that the factor 1/sqrt(2) was found by trial", "anchors": ["src/specieP.cpp: thermal_velocity_distribution, rectangular_velocity_distribution, eigen_velocity_distribution", "src/math/maxwellJuettner.cpp:330-398"]}
{"id": "C143", "title": "An injected bunch has the configured density", "statement": "The number of real particles expected in a ring of an injected bunch is the configured density times the volume of the ring, for every ring inside the beam, and there are none outside the beam.", "quantifier": "every beam, every height and number of domains, every ring", "why_tests_cant": "the positions are random; a beam that is hollow at the axis and half a cell too wide looks like noise in a density map", "anchors": ["src/beamP.cpp: BeamP::BeamP, BeamP::inject"]}
{"id": "C144", "title": "Injected beam particles start inside the beam, in their domain, in the first cell", "statement": "A macro-particle injected by a domain starts inside the radius of the beam, inside that domain, and in the first cell at the left wall.", "quantifier": "every beam, every domain of a column, every pair of random numbers", "why_tests_cant": "only the largest random numbers give the wrong places", "anchors": ["src/beamP.cpp: BeamP::inject"]}
{"id": "C145", "title": "Beam particles collide in their own cell from the start", "statement": "In the step of its injection a beam particle takes part in the collisions of the cell it is in, and sorting the particles to the cells is defined.", "quantifier": "every beam, domain and division, all positions", "why_tests_cant": "the collisions of one step hardly change a beam; a write beyond the lists may hit unused memory", "anchors": ["src/beamP.cpp: BeamP::inject", "src/collisions.cpp: sort_to_cells", "src/SMB.cpp: advance_particles"]}
{"id": "C146", "title": "The vector operations do not depend on the number of SIMD lanes", "statement": "The operators and methods of vector3d compute component by component what they are named after, whatever the number of SIMD lanes the loops marked with omp simd are run with, leave everything else unchanged, and the scalar product is the sum of the three products.", "quantifier": "all vectors and numbers, aliased or not, every number of lanes", "why_tests_cant": "a test runs on one machine with one compiler; it sees one number of lanes", "anchors": ["include/math/vector3d.hpp"]}
{"id": "C147", "title": "Every particle object is used only while it exists and is released when its particle leaves", "statement": "Every pointer in the vectors of the species has an object of its own which exists; no object is used after its deletion or deleted twice; the object of a particle that leaves the area is deleted, so that the number of objects is the number of particles.", "quantifier": "every allocator, every sequence of injections, moves, collections, exchanges with the neighbours and destruction, every division of the area and set of species", "why_tests_cant": "use after free goes unnoticed until the allocator reuses the memory; a leak shows only in long runs", "anchors": ["src/SMB.cpp: particles_runaway_collector", "src/specieP.cpp: SpecieP", "src/beamP.cpp: BeamP::inject"]}
{"id": "C148", "title": "A plasma at rest without fields stays at rest", "statement": "If there are no fields and no currents and all particles are at rest, then every round of the main loop is defined, leaves the fields and currents zero and every particle of every species where it is, for ever.", "quantifier": "every division of the area, every number of species and particles, every number of rounds, both current schemes, all pushers (refuted for the adaptive one)", "why_tests_cant": "a test runs a few steps; spurious fields or drifts of the order of one deposit grow slowly", "anchors": ["src/PiCoPiC.cpp: main loop", "src/SMB.cpp", "src/current/*.cpp", "src/pusher/*.cpp", "src/maxwellSolver/maxwellSolverYee.cpp"]}
{"id": "C149", "title": "The fields at the start of a run obey Gauss's law", "statement": "At the start of a run the flux of the electric field out of the cell around each node inside the walls is the charge of the particles in that cell.", "quantifier": "every initial set of particles, every node inside the walls; the later development for a plasma at rest", "why_tests_cant": "the missing static field has no effect on conservation of charge or energy, and looks like the quiet start of a plasma", "anchors": ["include/maxwellSolver.hpp:51-69", "src/specieP.cpp: rectangular_spatial_distribution", "src/SMB.cpp: distribute"]}
{"id": "C150", "title": "A round on several MPI processes does what the undivided area does", "statement": "If the ranks hold the fields, the currents and the particles of the undivided area, then after a round of the main loop (fields, particles, exchange of particles between ranks, currents) they hold what the undivided area holds after its round: the same field and current in every cell, the same particles, each once, on the rank and in the domain of its cell.", "quantifier": "every number of ranks, every division of a rank, every number of species and particles, every schedule of the messages, every number of rounds (refuted at corners and next to the border between ranks)", "why_tests_cant": "needs an MPI installation and a run on several processes that is compared with a serial one cell by cell; the order of the messages differs from run to run", "anchors": ["src/PiCoPiC.cpp:326-336", "src/SMB.cpp: solve_maxvell, advance_particles, solve_current, particles_runaway_collector", "src/SMB.cpp: send_current_field_overlay, recv_field_overlay"]}
{"id": "C151", "title": "The field equations are linear", "statement": "If the initial fields and the currents of every step of one run are a times those of a second run plus b times those of a third one, then so are the fields in every cell after any number of steps. Two runs that differ only in a box of cells differ after n steps at most n cells around the box.", "quantifier": "every geometry and set of walls, every permittivity and conductivity, every a and b, every currents, every number of steps, every box", "why_tests_cant": "a test adds a few fields; the formulas at the axis, at the walls and in the layers each have to be linear, with no forgotten constant", "anchors": ["src/maxwellSolver/maxwellSolverYee.cpp:111-159", "src/maxwellSolver/maxwellSolverYee.cpp:161-256"]}
{"id": "C152", "title": "The two polarisations of the fields are independent", "statement": "E_r, E_z and H_phi after any number of steps depend only on E_r, E_z and H_phi at the start and on j_r and j_z; E_phi, H_r and H_z depend only on E_phi, H_r and H_z and on j_phi. A polarisation that is absent at the start and has no current stays absent.", "quantifier": "every geometry and set of walls, every permittivity and conductivity, every currents, every number of steps", "why_tests_cant": "a wrong component in one of the formulas shows only for fields and currents with all components", "anchors": ["src/maxwellSolver/maxwellSolverYee.cpp:111-159", "src/maxwellSolver/maxwellSolverYee.cpp:161-256"]}
{"id": "C153", "title": "The field solver loses no information", "statement": "Two runs with the same currents that end with the same electric field and the same magnetic field of half a step later have begun with the same fields, if no cell has a conductivity of exactly twice the permittivity over the time step (then the electric field of the cell is lost).", "quantifier": "every geometry and set of walls, every permittivity and conductivity but the ones named, every currents, every number of steps", "why_tests_cant": "says that no update of a cell is left out or done twice with the first result overwritten, for all fields", "anchors": ["src/maxwellSolver/maxwellSolverYee.cpp:111-159", "src/maxwellSolver/maxwellSolverYee.cpp:161-256"]}
{"id": "C154", "title": "The Debye length of the collisions is that of the temperatures of the cell", "statement": "The pairs of a cell collide with the Debye length of the densities and temperatures of its electrons and ions, where the temperature is two thirds of the mean kinetic energy in the frame of their mean velocity.", "quantifier": "every list of particles with positive weights, every velocities, masses and densities; all three collision operators", "why_tests_cant": "the length enters by a logarithm, so a wrong factor or a drift that counts as heat changes a collision rate by a few percent", "anchors": ["src/collisions.cpp:148-161", "src/collisions.cpp:172-222", "src/phys/plasma.cpp: debye_length", "src/collisions/collisionsTA77S.cpp:222-245"]}
{"id": "C155", "title": "What is read from the configuration file", "statement": "The configuration is accepted exactly if each of the required names is there with a value of its type, the names of species and of beams are all different, the probes lie in the grid, and the numbers of macro particles and the check of the method do not fail; then every setting is the value under its name, and every probe of a quantity of particles names its species.", "quantifier": "every JSON value, every set of options of the build (layers, external fields, single thread), any number of species, beams and probes", "why_tests_cant": "covers each name left out, misspelt or of another type, in every combination; a setting taken from a neighbouring name changes results without an error", "anchors": ["src/cfg.cpp:22-156", "src/cfg.cpp:162-475", "include/cfg.hpp:44-118"]}
{"id": "C156", "title": "The recorded configuration gives the same run again", "statement": "The configuration that is recorded with the results has every value of the configuration file, unchanged, apart from the options of the build; read again, by the same or any other build, it gives the settings that the file gives.", "quantifier": "every accepted configuration, every pair of builds, every place in the file", "why_tests_cant": "reading through operator[] inserts values into the configuration that is recorded; tests compare single settings of one file", "anchors": ["src/cfg.cpp:60-121", "src/cfg.cpp:218-219", "src/cfg.cpp:720-723", "src/outEngine/outEngineHDF5.cpp:268-290"]}
{"id": "C157", "title": "Every accepted configuration gets its metadata written", "statement": "For every configuration that is accepted the file of the results gets its thirteen attributes: the configuration, name, version, flags and dependencies of the program, the options of the build, and the comment.", "quantifier": "every accepted configuration and build", "why_tests_cant": "the comment is read only here, after the configuration was accepted; a file without it is not among the examples", "anchors": ["src/outEngine/outEngineHDF5.cpp:268-389", "src/outController.cpp:35-44", "src/PiCoPiC.cpp:281-284"]}
{"id": "C158", "title": "A run of the main loop obeys Gauss's law", "statement": "In a round of the main loop every particle gets the velocity that the pusher makes of the fields at its place, flies with it for one time step and remembers where it was; none is lost or made. In a run of such rounds with the currents of the Villasenor-Buneman scheme the flux of eps E out of the ring around a node differs from the charge of the particles for which it stands by what it differed at the start, also in an area that is divided into domains.", "quantifier": "every pusher, every number of particles, species, rounds and domains, every fields, every node inside the walls", "why_tests_cant": "the charge, the velocities and the old positions pass through four stages and three memory layouts; a mistake in one of them shows as a slow drift of the fields", "anchors": ["src/PiCoPiC.cpp:326-336", "src/SMB.cpp:1231-1304", "src/pusher/pusherBoris.cpp:44-151", "src/specieP.cpp:642-650", "src/current/currentVB.cpp"]}
{"id": "C159", "title": "What a whole round does to the particles, with beams and collisions", "statement": "After a round of the main loop every particle that a species had, and every particle that its beam brought in this round, is there with its weight and remembers where it was, or has left the area; each beam brings in what its schedule says. Without collisions every particle is pushed by the sum of the fields of the solver and the external fields at its place and flies with that velocity. Over a run the weights balance: those at the start and those brought in are those at the end and those that left.", "quantifier": "every pusher, every fields and external fields, any collisions that change velocities only, any beams and draws, every number of species, particles, domains and rounds", "why_tests_cant": "beam, push, collisions, movement, exchange between the domains and removal are separate functions; a particle lost or counted twice between them is one of millions", "anchors": ["src/PiCoPiC.cpp:325-336", "src/SMB.cpp:1231-1322", "src/domain.cpp: push_particles", "src/domain.cpp:180-186", "src/beamP.cpp:74-177", "src/pusher/pusherBoris.cpp:44-151"]}
{"id": "C160", "title": "Gauss's law while particles come and go", "statement": "In a round with beams, collisions and external fields the flux of eps E out of the ring around a node equals the charge that belongs to it, also when particles are injected and others leave.", "quantifier": "every pusher, every fields, any collisions that change velocities only, any beams and draws, every number of species, particles and rounds, every node inside the walls", "why_tests_cant": "the deposition only sees particles that are in the area before and after; what is missing stays in the field for ever and is small for each particle", "anchors": ["src/PiCoPiC.cpp:325-336", "src/SMB.cpp:1231-1322", "src/current/currentVB.cpp", "src/beamP.cpp:74-143"]}
{"id": "C161", "title": "The collisions of a round, and what changes the energy of the particles", "statement": "The collisions of a round leave every particle in its domain and species, with its place and weight, and give it the velocity that its own pair made of it; with SK98 and P12 the particles of a domain have the same momentum and energy as before. The flight, with its mirrors and the turn back to the plane, keeps the energy, so that only the push changes it in a round.", "quantifier": "every number of species and particles, every pusher, fields, draws and shuffles; any cells stored in the particles", "why_tests_cant": "the velocities pass through pointers from the lists of species to the lists of cells and back; a velocity written to a neighbour would keep all sums of a test with one cell", "anchors": ["src/SMB.cpp:1280-1304", "src/domain.cpp:199-204", "src/collisions.cpp:22-121", "src/collisions/collisionsSK98.cpp", "src/collisions/collisionsP12.cpp", "src/specieP.cpp:482-641", "src/beamP.cpp:159-177"]}
{"id": "C162", "title": "No particle of a run is as fast as light", "statement": "With a relativistic pusher, beams slower than light and no collisions or those of SK98 or P12, all particles are slower than light after any number of rounds if they were at the start, and so the pusher always gets a real Lorentz factor.", "quantifier": "every fields, draws, shuffles, weights and positive masses, every number of species, particles, domains and rounds in which no particle lands on the axis exactly", "why_tests_cant": "one collision or turn of the velocity that adds a little speed makes the square root of a negative number much later, in another particle's push", "anchors": ["src/pusher/pusherBoris.cpp", "src/pusher/pusherVay.cpp", "src/pusher/pusherHC.cpp", "src/collisions/collisionsSK98.cpp", "src/collisions/collisionsP12.cpp", "src/collisions/collisionsTA77S.cpp", "src/SMB.cpp:1280-1304", "src/specieP.cpp:482-641", "src/beamP.cpp:74-177"]}
{"id": "C163", "title": "A particle on which no force acts", "statement": "Without fields and away from the walls a particle flies along a straight line at constant velocity, with constant angular momentum about the axis.", "quantifier": "every place, velocity, time step and number of steps", "why_tests_cant": "the error of one turn to the plane is of the order of the step; in a plasma the fields hide it", "anchors": ["src/specieP.cpp:482-492", "src/specieP.cpp:608-641"]}
{"id": "C164", "title": "Gauss's law in a divided area while particles come and go", "statement": "In an area of several domains the flux of eps E out of the ring around a node, read from the domains that hold its faces, changes in step with the charge that the particles of all domains have at it, whichever domain they are in and move to.", "quantifier": "every division into domains of equal size, every pusher, fields, draws, any collisions that change velocities only, every number of species, particles and rounds, every node inside the walls", "why_tests_cant": "a current that is lost or counted twice at a seam between domains changes the field by a small amount that never goes away", "anchors": ["src/PiCoPiC.cpp:325-336", "src/SMB.cpp:260-760", "src/SMB.cpp:1231-1322", "src/current/currentVB.cpp", "src/beamP.cpp:74-143"]}
{"id": "C165", "title": "What the reading library shows is what the run wrote", "statement": "For every rectangular probe of a configuration, the library in lib/python/picopic finds the dataset of the probe under the name of its values and its rectangle (and no other), and shows in frame f, for every cell of the rectangle, the value that the domain that owns the cell had at step f times the schedule; likewise for ranges of frames with a given end, for rows, columns and dots of a rectangle, and for dots. Other numbers of frames are refused, negative ones count from the last frame.", "quantifier": "every probe accepted by the configuration reader whose border is on no border of domains in r, every schedule up to 65535, every number of steps, domains and cells, all values", "why_tests_cant": "writer and reader are in two languages and build the path and the index independently; a test with a square rectangle at the origin does not see exchanged coordinates", "anchors": ["lib/python/picopic/reader.py:51-70", "lib/python/picopic/h5_reader.py:79-177", "lib/python/picopic/reader.py:253-305", "src/cfg.cpp:222-297", "src/outWriter.cpp:49-99", "src/outEngine/outEngineHDF5.cpp:52-221", "src/outController.cpp:80-141"]}
{"id": "C166", "title": "Times, radii and longitudes of what is read", "statement": "The time shown for a frame is the time of the run at which it was written; the frame for a time is the one nearest to it, the row (column) for a radius (longitude) the one whose lower border is nearest; both are inverse to the conversion back.", "quantifier": "all times, steps, schedules, radii, sizes and numbers of cells", "why_tests_cant": "rounding the wrong way shifts what is shown by one frame or one cell only", "anchors": ["lib/python/picopic/meta_reader.py:144-185", "src/PiCoPiC.cpp:318-336", "src/outController.cpp:320-351"]}
{"id": "C167", "title": "The configuration that is shown is that of the run", "statement": "The sizes, times, species, beams, compression, probes, and (for builds that use them) domains and absorbing layers that MetaReader shows for the metadata of a run are those that the run used.", "quantifier": "every configuration that the program accepts and MetaReader can read, every build", "why_tests_cant": "the same names are written twice, in C++ and in Python; an exchanged pair of names goes unnoticed when the values are equal", "anchors": ["lib/python/picopic/meta_reader.py:24-141", "src/cfg.cpp:162-475", "src/outEngine/outEngineHDF5.cpp:268-389"]}
{"id": "C168", "title": "Columns, rows and all frames of a probe can be read", "statement": "The library reads a column probe, a row probe, any range of their frames, and all frames of a probe if no end is given.", "quantifier": "every place of the column or row, every file and range", "why_tests_cant": "there are no tests of the library; column and row 0 work", "anchors": ["lib/python/picopic/h5_reader.py:72-76", "lib/python/picopic/h5_reader.py:99-130", "lib/python/picopic/reader.py:225-305", "src/cfg.cpp:257-297"]}
{"id": "C169", "title": "The row for a radius is the cell that contains it", "statement": "get_row_by_radius (get_col_by_longitude) gives the row (column) of the cell that contains the radius, and this row is in the data of the area.", "quantifier": "all radii in the area, all sizes and numbers of cells", "why_tests_cant": "for radii on the borders of cells, as used in tests, the nearest border and the cell agree", "anchors": ["lib/python/picopic/meta_reader.py:172-185", "lib/python/picopic/h5_reader.py:155-157"]}
{"id": "C170", "title": "The results of a run can be opened", "statement": "The library can open the results of every run that started.", "quantifier": "every configuration that the program accepts, every build", "why_tests_cant": "the example configurations have all the keys", "anchors": ["lib/python/picopic/meta_reader.py:63-141", "lib/python/picopic/h5_reader.py:39-51", "src/cfg.cpp:22-156"]}
{"id": "C171", "title": "Opposite charges give opposite fields", "statement": "If all charges change their sign, and so do the fields at the start and the external ones, the particles of the run are the same after any number of rounds, and all fields and currents are the opposite ones; if one run stops, so does the other. The collisions depend on the squares of the charges only.", "quantifier": "every round count, every division into domains, all five pushers, both deposition schemes, every beam", "why_tests_cant": "needs two complete runs of every configuration", "anchors": ["src/SMB.cpp:1280-1330", "src/pusher/pusherBoris.cpp:44-130", "src/maxwellSolver/maxwellSolverYee.cpp", "src/current/currentZigZag.cpp", "src/current/currentVB.cpp", "src/collisions/collisionsSK98.cpp", "src/collisions/collisionsP12.cpp"]}
{"id": "C172", "title": "Fields are proportional to the charges", "statement": "If all charges are multiplied by L and all masses by L^2, and the fields at the start and the external ones by L, then the particles of the run are the same after any number of rounds, and all fields and currents are multiplied by L. Without charges and fields at the start there are never any fields.", "quantifier": "every L other than 0, every round count, every division into domains, all five pushers, both deposition schemes, every beam", "why_tests_cant": "needs two complete runs of every configuration", "anchors": ["src/SMB.cpp:1280-1330", "src/pusher/pusherBoris.cpp:44-130", "src/maxwellSolver/maxwellSolverYee.cpp", "src/current/currentZigZag.cpp", "src/current/currentVB.cpp"]}
{"id": "C173", "title": "A push can be undone", "statement": "A particle that was pushed, turned around and pushed again in the opposite magnetic field has its first velocity, turned around.", "quantifier": "all fields, velocities, charges and masses; any number of pushes", "why_tests_cant": "reversibility is a statement about all velocities; single cases agree for wrong pushers as well", "anchors": ["src/pusher/pusherBoris.cpp:44-130", "src/pusher/pusherVay.cpp", "src/pusher/pusherHC.cpp"]}
{"id": "C174", "title": "Without azimuthal motion there never is any", "statement": "If no particle moves in the azimuthal direction, and there are neither an azimuthal electric field or current nor magnetic fields in the plane, then it is so after any number of rounds.", "quantifier": "every round count, every division into domains, all five pushers, both deposition schemes, every beam; collisions that keep the particles in the plane", "why_tests_cant": "zeros of whole fields over whole runs; the tests have no such fields at all", "anchors": ["src/SMB.cpp:1280-1330", "src/pusher/pusherBoris.cpp:44-130", "src/maxwellSolver/maxwellSolverYee.cpp", "src/specieP.cpp:482-641", "src/beamP.cpp:102-177"]}
{"id": "C175", "title": "The mirror image", "statement": "Reversing the azimuth (azimuthal positions, velocities, electric field and current, and the magnetic field in the plane) commutes with every part of a round: the solver, the deposition, the fields at the particles, the pusher and the flight.", "quantifier": "all states, every division into domains, all pushers, both deposition schemes", "why_tests_cant": "needs mirrored runs of every configuration", "anchors": ["src/maxwellSolver/maxwellSolverYee.cpp", "include/maxwellSolver.hpp:101-330", "src/pusher/pusherHC.cpp", "src/specieP.cpp:482-641"]}
{"id": "C176", "title": "A run takes place", "statement": "From a state with particles between the mirrors, slower than light and in their domains, with c*dt at most half a cell, a round always takes place: no index leaves its grid, no reflection goes on for ever, no pusher stops. No particle is lost in it. Unless a particle is then exactly on a line between two domains, the same holds for the next round; in an undivided area it holds for every number of rounds.", "quantifier": "every fields, every particle count and placing, every division into domains of at least four cells, external fields, the relativistic pushers, both deposition schemes, every collisions that are defined and keep velocities below c; no beams", "why_tests_cant": "the absence of undefined behaviour over all runs; a test is one run", "anchors": ["src/SMB.cpp:1231-1330", "src/specieP.cpp:482-667", "include/maxwellSolver.hpp:101-330", "src/domain.cpp:180-200"]}
{"id": "C177", "title": "The metadata tool shows the numbers of the program", "statement": "tools/parse_metadata.py --phys-info, for a run from time 0 whose electrons and ions have the names 'electrons' and 'ions' (in any case) and positive densities and temperatures, with a first beam of non-zero velocity, shows: the plasma frequency the check of the configuration uses, up to 0.3 % (its constants are rounded); the Debye length of src/phys/plasma.cpp for these species; the wake length as velocity over frequency; the durations, lengths and spacing of bunches that the injection (beamP.cpp) keeps; the numbers of particles of a bunch and of the beam; the passage time from the first injection; and a number of steps that is less than one below the passes of the main loop. Without such names it ends with UnboundLocalError (its messages appear for zero densities only), without beams with IndexError. The check's own Debye length (cfg.cpp:655, temperatures swapped) is the same for equal densities and another one otherwise; a start time other than 0 is subtracted by the tool and ignored by the program.", "quantifier": "for all lists of species, all beams and all areas and times", "why_tests_cant": "The tool is run by hand on finished runs; no test compares its numbers with those of the simulator, and the sample has equal densities and start 0.", "anchors": ["tools/parse_metadata.py:18-95", "src/phys/plasma.cpp:24-40", "src/cfg.cpp:600-660", "src/cfg.cpp:430-439", "src/beamP.cpp:71-127"]}
{"id": "C178", "title": "A run with beams takes place", "statement": "As C176, with any number of beams slower than light that go to the right and, with half a cell to spare, fit into the domains at the axis: the injected particles start in the cells of the domain that injects them, a round takes place, and no particle is lost that is not of a beam. Particles of beams may leave the area at the ends and at the outside; the collector removes them before the currents and the next round would read fields outside of the grids for them. Unless a particle that is not of a beam is then exactly on a line between two domains, the same holds for the next round; in an undivided area, or with beams only, it holds for every number of rounds. A beam that fits without half a cell to spare starts particles outside of its domain.", "quantifier": "every fields, every particle count and placing, every set of beams and random numbers from [0, 1), every division into domains of at least four cells, external fields, the relativistic pushers, both deposition schemes, every collisions that are defined and keep velocities below c", "why_tests_cant": "the absence of undefined behaviour over all runs with all beams and all random numbers; a test is one run", "anchors": ["src/SMB.cpp:1231-1330", "src/specieP.cpp:482-667", "src/beamP.cpp:54-157", "src/beamP.cpp:159-177", "src/domain.cpp:180-200", "include/maxwellSolver.hpp:101-330"]}
{"id": "C179", "title": "Into how many macro-particles the real particles are divided does not matter", "statement": "Without collisions, or with collisions that treat them alike, and with the ZigZag scheme: if in the place of each macro-particle there are others of the same place and velocity that together are as many real particles, in whatever order, then after any number of rounds the fields, the currents, the time and the bunches are the same at every node and the particles are again such. The other scheme (Villasenor-Buneman) does not have this property: a particle that moves along the axis clears the radial current of its cell, so that it matters which particles come before it.", "quantifier": "every state, every division of the particles, every order of them, every pusher, external field, beam and number of rounds", "why_tests_cant": "a comparison of two runs that are related by an arbitrary division of the particles; with floating-point numbers a test finds differences of rounding and cannot tell them from the others", "anchors": ["src/SMB.cpp:1231-1330", "src/current/currentZigZag.cpp:24-130", "src/current/currentVB.cpp:523-610", "src/specieP.cpp:482-667", "include/specieP.hpp:40-120"]}
{"id": "C180", "title": "The sampling of energies stays in its tables and follows its distribution", "statement": "maxwellJuettner: for temperatures below 0.1 every draw from [0, 1) but exp(-e^2) yields an energy between 0 and 20.7 temperatures; draws from exp(-e^2) to exp(-e^-19) are looked up in the first table, whose entries belong to equal steps of the double logarithm, with interpolation of the logarithm, and the energy rises with the draw; smaller draws yield 4/3 sqrt(pi) u^(2/3) temperatures (the constant THREE_OVER_4 is 4/3). For temperatures from 0.1 to 1000 every draw a double can be proposes a positive Lorentz factor from the second table that rises with the draw; the loop ends with the first proposal whose next draw is below its velocity (or that is below 1) and never reads outside of the table. Beyond that: the draw exp(-e^2) reads the element behind the table; at this draw the energy falls by a third instead of rising, as the factor is 4/3 for 3/4 and is not under the exponent; the largest draws yield one temperature instead of the largest energies; at a temperature of 10000 there are draws for which the energy is a NaN, which the loop accepts, as the draw and not its logarithm is raised to a power there.", "quantifier": "every temperature in these ranges, every draw, every sequence of draws", "why_tests_cant": "the bad draws are a few in 10^9 or fewer, and a NaN among millions of particles shows up long after the start; tests of the sampling would compare histograms", "anchors": ["src/math/maxwellJuettner.cpp:330-400", "src/math/maxwellJuettner.cpp:36-327", "include/constant.hpp:34", "src/specieP.cpp:346-382", "src/math/rand.cpp:27-31"]}
{"id": "C181", "title": "Particles of a thermal species start slower than light", "statement": "For temperatures up to 1000 eV, electrons and heavier particles: whatever is drawn, the sampled energy is above -1 eV and at most 243 temperatures, and if it is not negative the velocity at the start is below that of light.", "quantifier": "every temperature from 0 to 1000 eV, every mass from that of the electron, every sequence of draws that doubles can be, except the one for which the table is left (C180)", "why_tests_cant": "the energy has no bound that one could see in the code; it follows from the tables and from the largest double below 1", "anchors": ["src/math/maxwellJuettner.cpp:330-400", "src/specieP.cpp:346-382", "src/phys/rel.cpp:47-56"]}
