# Formal model of PiCoPiC: design

Sources: `/repo` (C++), read as text, never built or run.  Model and proofs: Coq 8.16.1 in `rocq/theories`
(logical name `Verif`).  Build: `cd rocq && coq_makefile -f _CoqProject -o Makefile && make -j4`.

## Layout

* `*Model.v`  - transcription of the code, function by function; each definition cites file and lines.
* `*Spec.v` or a "specification" section - small definitions the theorems are stated with; they do not
  call the model's helpers.
* `*Proofs.v` - lemmas.
* `Thm*.v`    - only the property theorems (`exact lemma`), a concrete non-vacuity `Example` beside each,
  and `Print Assumptions`.

## Conventions of the model

* Undefined behaviour (out-of-bounds access, null `std::string`, use of an uninitialised or released object,
  division by zero in integer code) is a separate outcome `UB`; the fatal exit of the logger
  (`LOG_S(FATAL)`) is the outcome `Fatal`.
* `unsigned`/`size_t`/`short` arithmetic is in `Z` with the wrap written explicitly where the property
  depends on it; otherwise unbounded with the bound as hypothesis.
* `Grid<T>` code is modelled for an arbitrary element type and arbitrary operations on it, so theorems about
  it hold for IEEE doubles too.
* Physics formulas are modelled over the stdlib reals `R` (exact arithmetic).  Statements over `R` say nothing
  about rounding.  Where a property is *about* rounding the model uses the stdlib's `SpecFloat` (IEEE-754
  binary64/binary32 semantics computed inside Coq, no axioms).
* OpenMP loops are modelled as an arbitrary order / interleaving of iterations; MPI as a transition system.
* Random numbers are universally quantified.

## Plan per property

| id | model | proof |
|----|-------|-------|
| C01-C04 | `Grid<T>` as sizes + total map of cells with bounds check | functional extensional equations for each loop (induction over loop counters) |
| C03 | `overlay_xy` with the index expressions as written | true for square grids; counterexample for non-square |
| C05-C07 | the integer arithmetic of `SMB::SMB` and of the collector | `lia`/`nia` division lemmas, counterexample when not divisible |
| C08 | collector over lists of particles per domain and species | permutation invariant, induction over the loops and over steps |
| C09 | `hash_from_string` with 16-bit wrap | counterexample by `vm_compute` (two names with the same id), and duplication consequence |
| C10 | iterations as state transformers with footprint | disjoint footprints commute; permutation theorem |
| C11-C12 | sweep over a line / a 2x2 block of grids | induction over domains; counterexample for the anti-diagonal corner |
| C13 | pack / unpack of four columns | functional equations |
| C14 | ranks as programs of blocking sends/receives, two delivery disciplines | progress measure (buffered); reachable stuck state (rendezvous) |
| C15 | integer split | exact iff divisible |
| C16-C17 | per-domain intersection arithmetic | `lia`; counterexample for border-touching probes |
| C18-C21 | schedule arithmetic, dataset length state machine | induction over steps; SpecFloat counterexample for C19; wrap counterexamples for C20, C21 |
| C22-C23 | signal handler as state machine over histories | invariant; counterexample histories |
| C24-C27 | list/ascii models of the helpers | induction over strings / paths / argument lists |
| C28 | floor arithmetic over `R`/`Q` | sum of floors |
| C29-C35 | real-valued formulas | `field`/`nra`/induction over particle lists |
| C36-C39 | Yee update over `R` on index functions | algebraic cancellation, induction over steps |
| C40-C41 | string-driven selection, interpolation formula | exhaustive case analysis; counterexample |
| C42-C44 | deposit formulas over `R` | `field`, case analysis |
| C45-C48 | pusher formulas over `R` | `field`/`nra` |
| C49-C51 | index arithmetic of the pairing loops; binary32 via SpecFloat for C50 | induction; counterexamples |
| C52-C56 | collision formulas over `R` | list induction, Lorentz algebra |
| C57-C59 | injection and main loop state machines | induction over steps |
| C60 | probe parsing as outcome-valued function | case analysis; UB witness |
| C61 | stitching pass after zeroing of the ghost cells | schedule independence, then cell-by-cell effect |
| C65 | field solver on all domains, with the stitching passes | simulation relation with one big domain, induction over steps |
| C66 | interpolation weights | closed form of the sum of the weights, bounds |
| C67 | Villasenor-Buneman deposits | discrete continuity equation with logarithms, case analysis over the legs |
| C68-C70 | deposits and the grid they land in; the middle of the path | list induction, `field` |
| C71-C76 | pushers, rounding of the conversion | `field`, quadratic equation for Vay's gamma, relative-error calculus, SpecFloat witness |
| C49-C50 | pair lists | induction over the pairing loops, rounding of the quotient |
| C51-C53, C77-C79 | collision cells, TA77S | counterexamples, `nra`, rotation identities |
| C95-C97 | density, momentum, energy and temperature maps | weighted means, triangle inequality, history of calls |
| C98-C100 | configuration check | case analysis, witnesses with real parameters |
| C101-C102 | particles migrating between MPI ranks | counting invariant of the collector with queues; wait-for chain between neighbours |
| C103, C106-C107 | weights and densities of all domains | proportional weights, telescoping sums over domains, witnesses with two processes |
| C108-C109 | interpolation weights | linear in z, non-negative weights with a sum below one |
| C104-C105 | absorbing layers of a divided area | closed form of the conductivities; SpecFloat for the rounded number of cells |
| C110-C113 | ThmMj.v | sampling of the thermal energies: both tables as data, monotonicity by computation on the tables, bounds of exp and ln by the mean value theorem |
| C114-C116 | ThmMap.v | preparation of the particle maps for output: stitching by `overlay_x`/`overlay_y` on rectangular grids, interplay of probes, mean values at borders |
| C117-C118 | SumUtil.v, CavityProofs.v, ThmEnergy.v | energy of the fields in a closed cavity: balance of every step (summation by parts), bound of the curl, stability limit, growth beyond it |
| C119-C120 | ThmGauss.v | Gauss's law: flux of the electric field against current and charge, one step and any number of steps with particles |
| C121-C122 | ThmDivide.v | currents and fields of any number of domains against one undivided area |
| C123 | ThmGaussSmb.v | Gauss's law in a divided area |
| C124 | ThmFlight.v | the step of a particle in any division is free flight and mirrors |
| C125 | ThmRound.v | whole rounds of the main loop, divided against undivided |
| C126 | ThmCorner.v | ghost cells after the exchange, corner blocks |
| C127, C128 | ThmPhase.v | a round of collisions of a domain: lists of the cells, conservation |
| C129 | ThmPhase2.v | a round of SK98 or P12 collisions: conservation for equal weights, refutations |
| C130 | ThmColl4.v | variance of the scattering angles of the three operators |
| C131-C133 | ThmProbe.v | column, row and dot probes; datasets of the probes; values of the writers |
| C134 | ThmRace.v | data races of the collector and of the initial distribution |
| C135 | FieldMpi.v, ThmFieldMpi.v | fields of a run with several processes: the lemma of C65 with the exchange of C13 in between; induction over the steps; field_h is not exchanged between processes |
| C136 | ThmColl5.v | distribution and mean of the P12 cosine: inverse distribution functions, antiderivatives, fixed-point bounds of exponentials |
| C137 | ThmOutMpi.v | the files of a run with several processes: which rank writes which row and column of a dataset; rectangles agree with one process, columns, rows and maps do not |
| C138-C139 | ThmMsg.v | the text of the elapsed time and the buffer it is written to; the square root of the AVX build |
| C140-C141 | ThmWave.v | the time at which the run starts and ends; the velocity of waves: the one-cell shift of plane waves and the phase velocity from the constants |
| C142 | ExpFix.v, ThmTemp.v, ThmTemp2.v, ThmTemp3.v | mean kinetic energy at the start: lower and upper sums over the pieces of the tables, exponentials bounded by fixed-point squaring, antiderivatives for the directions |
| C143-C144 | ThmBeam2.v | the injected beams: their density over the radius, where their particles start |
| C145 | ThmBeam3.v | the cell that a fresh particle of a beam collides in |
| C109, C122 | ThmRunRef.v | counterexamples at a corner of domains |
| C121, C123 | ThmGaussRef.v | exact Villasenor-Buneman current of a divided area; a counterexample to Gauss's law |
| C125 | ThmRoundRef.v | a counterexample to the round at a corner of domains |
| C146 | ThmVec.v | vector3d.hpp with vector instructions that work on several elements at a time |
| C147 | ThmMem.v | the memory of the particles: every object is held by exactly one list, objects of removed particles are never freed |
| C148 | ThmRest.v | a cold plasma in empty space stays at rest for ever |
| C149 | ThmGauss0.v | whether the initial charges and the initial field satisfy the law of Gauss |
| C150 | MpiCurrent.v, MpiRoundModel.v, MpiRoundProofs.v, ThmMpiRound.v, ThmMpiRoundEx.v | a round on several processes: fields (C135), particles (C124, C125), exchange of particles (C70) and of currents (C13) put together; the current a rank ends with, cell by cell, and what is lost at the corners |
| C151-C153 | ThmLinear.v | the cell-by-cell effect of a field step (C36-C38) is linear in fields and currents, does not mix the polarisations, and can be inverted where the factor of the old field is not zero |
| C154 | ThmCellTemp.v | the temperature and the Debye length with which the pairs of a cell collide |
| C155-C157 | CfgJsonModel.v, CfgJsonProofs.v, ThmCfgJson.v | readers are characterised by a predicate on the JSON value (Pure), composed for the whole constructor, and compared with a table of names and types; the recorded value as a function of the file |
| C158-C161 | ThmRoundGauss.v, ThmFull.v, ThmBeamGauss.v, ThmNewFields.v, ThmCollRound.v | the whole round: one_round of RoundModel with C119/C120 and the collector, divided area through C125; accounts of particles by Permutation, the error of Gauss's law as a running balance; the velocities through pointers and back |
| C162-C163 | ThmSpeed.v, ThmFree.v | invariant of a run over push, collisions, flight, injection and collector; the same phase lemma for operators that keep a predicate on velocities; free flight against uniform motion in Cartesian coordinates, induction over the steps by convexity |
| C164 | ThmDivGauss.v | round of several domains as a relation on the glued fields; balance of the law of Gauss by the continuity of the deposition over all domains, induction over the rounds |
| C165-C170 | ReaderModel.v, ReaderProofs.v, ThmReader.v | Python results (value or exception), numpy arrays with broadcasting, HDF5 paths as names; the dataset of a probe over the steps (induction) composed with the reader; nearest-integer rounding; MetaReader on the recorded JSON, via C155 and C156 |
| C171-C175 | ScaleProofs.v, ThmScale.v, ThmReverse.v, ThmPlanar.v | two numbers for the two polarisations: solver, stitching, deposition and interpolation are homogeneous (relation between the outcomes of two programs); rounds related step by step; the numbers -1 (opposite charges), L, (1, 0) (plane motion) and (1, -1) (mirror image); pushers by algebra |
| C158 | ThmRoundGauss2.v | a round in which a particle comes from the axis side into a domain: the witness against Gauss's law without the hypotheses (computed) |
| C176 | ThmTakesPlace.v | totality of the round: an invariant (between the walls, off the lines where a particle is in no domain, slower than light) gives Ok for the injection, push, collector, currents and fields, and the invariant again; induction over rounds |
| C166, C167 | ThmReader2.v | rounding in the middle; MetaReader on probes that are rows, columns, dots |
| C177 | PhysInfoModel.v, ThmPhysInfo.v | the last species of a name (independent of both loops); formulas compared with CheckModel and BeamModel |
| C178 | ThmTakesBeams.v | As C176 with beams: `living'` allows particles of beams to have left the area at the ends; the injected particles start in the cells (`beams_fit`), the collector drops those outside before anything is read for them |
| C179 | ThmSplit.v | `refines` relates a list of macro-particles to a finer one in any order; every part of the round with the ZigZag scheme carries the relation on (the deposition adds amounts that are proportional to the weight, the others do not read it), the VB scheme does not |
| C180 | ThmMJ.v | The tables are sorted (checked by computation on the decimal literals), so the piecewise linear interpolation rises; bounds on exp and ln give the ranges of the index; the faults are exact witnesses |
| C181 | ThmMJ2.v | The largest double below 1 bounds the index of the second table, hence the energy; then C91 |
| C93-C94 | a whole particle step in a closed box | composition of mover, reflection loop and collector |
| C84-C92 | initial placement and velocities | radical inverse as digits, counting loops over reals, exact bounds |
| C54-C56, C80-C83 | SK98, P12 | Lorentz boosts as real identities, mass shell, Cauchy-Schwarz |
| C62-C64 | bunch counts, radial shares, cells of injected particles | counting steps in a window, telescoping sum |

Where the faithful model violates a property as stated, the theorem `..._refuted` exhibits the witness, and the
part that does hold is proved separately (`..._partial`, or under a precondition written into the property).

## What is modelled

| model file | code | left out / simplified |
|---|---|---|
| `GridModel` | `include/algo/grid.hpp`, `grid3d.hpp` | `Grid3D` as three independent grids |
| `DecompModel` | `SMB.cpp` 49-100 domain borders, 236-243 destination index, `cfg.cpp` 573-590 | other geometry checks |
| `CollectorModel`, `CollectorHist` | `SMB.cpp` 179-350 serial collector, species ids, history of several steps | data race of the OpenMP build, MPI transfer of particles |
| `HashModel` | `common.cpp` 219-226, species/beam ids | - |
| `OverlayModel`, `Interleave`, `OverlayConc` | `SMB.cpp` stitching passes (current, H, E), OpenMP colours | memory model below the level of single assignments |
| `MpiModel` | `SMB.cpp` MPI exchange of the four shared columns, `PiCoPiC.cpp` 211-234 | MPI library: blocking send with a bounded number of stored messages per ordered pair |
| `OutModel` | `outController.cpp` placing of rectangular writers, `outWriter.cpp` rectangles, `outEngineHDF5.cpp` write_rec / create / extend | HDF5 itself (a dataset is a partial map of frames), plain-text engine |
| `TimeModel` | accumulation of the time, recomputation of the step number | binary64 through `SpecFloat`, or reals with an arbitrary rounding |
| `SigModel` | `PiCoPiC.cpp` signal handler, main loop, release and reopening of the data file | a handler interrupted by another signal; HDF5 errors on reopening |
| `UtilModel` | `src/algo/common.cpp` splitstr, make_directory, nearest_divide, options; `parse_argv_get_config` | file system: tree of directories and files with one permission bit |
| `RndUtil` | truncation of doubles to integers, relative-error calculus | NaN and infinities |
| `CfgModel` | `cfg.cpp` weighting of macro-particle amounts, probes; main loop condition of `PiCoPiC.cpp` | JSON library, other configuration keys |
| `ParticleModel` | `specieP.cpp` set_weight, reflect, back_position/velocity_to_rz; `beamP.cpp` reflect; `weighter.hpp` | exact real arithmetic; random numbers are parameters |
| `BeamModel` | `beamP.cpp` constructor shares, inject; `domain.cpp` manage_beam | exact real arithmetic |
| `YeeModel` | `maxwellSolverYee.cpp` calc_field_e, calc_field_h, set_pml; `SMB.cpp` 82-92 | exact real arithmetic; the conductivity ramp is only used through its sign |
| `YeeSmb` | `SMB.cpp` solve_maxvell for all domains | square domains of equal size; external fields; MPI |
| `ExtModel` | `externalFields.cpp`, `maxwellSolver.hpp` get_field_e / get_field_h | exact real arithmetic; division by zero is an error outcome |
| `CurrentModel` | `currentZigZag.cpp/.hpp`, `currentVB.cpp/.hpp` | exact real arithmetic; the deposits of a particle are a list of increments/assignments, `LOG_S(ERROR)` is `None`; `rz_current_distribution`'s comparison `==` of reals is exact |
| `PushModel` | `rel.cpp`, `vector3d.hpp`, `pusherBoris.cpp`, `pusherVay.cpp`, `pusherHC.cpp` | exact real arithmetic (conversion of momentum to velocity also with rounding and in binary64); fields given; NaN and infinities |
| `CollModel` | `collisionsTA77S.cpp`, `collisionsSK98.cpp`, `collisionsP12.cpp` collide (pairing), `collisions.cpp` random order | quotients in 24-bit precision by exact integer rounding; the shuffle is any order |
| `CollOpModel` | `collisions.cpp` sums, densities, correct_velocities, cell loop; collide_single of the three operators; `plasma.cpp` | exact real arithmetic; NaN only as the outcome SetNaN; the debug averages of P12 |
| `InitModel` | `specieP.cpp` placements and velocity distributions; `rand.cpp` random_reverse; `SMB.cpp` shares and densities of the domains | exact real arithmetic; draws and sampled energies are parameters; the sampling of maxwellJuettner.cpp is in MJModel |
| `StepModel` | `SMB.cpp` advance_particles after the push, followed by the collector of `CollectorModel` | exact real arithmetic; the velocity update itself is in `PushModel` |
| `MomentModel` | `specieP.cpp` calc_density, calc_momentum(_w, _abs_w), calc_energy, calc_temperature | exact real arithmetic; a map is the function of cells left by a pass; stitching is in `OverlayModel` |
| `CheckModel` | `cfg.cpp` init_particles, domain numbers of init_geometry, method_limitations_check; `plasma.cpp` debye_length, plasma_frequency | exact real arithmetic; log messages as a list |
| MigrModel.v | src/SMB.cpp:194-561 with ENABLE_MPI | domains visited serially; the number of receives is taken from the neighbour's queue (it is the first message, the count); particle attributes abstract |
| PmlModel.v | src/cfg.cpp:396-412, include/geometry.hpp:64-71, src/SMB.cpp:82-103 | sizes in binary64 (SpecFloat); conductivities over R (YeeModel) |
| DensModel.v | src/SMB.cpp:129-141, src/PiCoPiC.cpp:213-234 | reals; number of macro-particles per domain arbitrary |
| MjTable.v, MjModel.v | src/math/maxwellJuettner.cpp:36-398, include/constant.hpp:32-34 | tables as decimal literals (times 10^21), exact reals, explicit NaN/infinity cases of log and pow; draws are parameters |
| MapModel.v | src/outController.cpp:377-510 | the calculations of the maps per domain are parameters (modelled in MomentModel.v); one species that exists in every domain |
| SmbCurrent.v | src/SMB.cpp:1266-1278, src/domain.cpp:134-138, 176-179 | current of all domains: reset, deposition of each domain, stitching by addition; the loop over the domains is serial |
| RoundModel.v | main loop of PiCoPiC.cpp: solve_maxvell, advance_particles, particles_runaway_collector, solve_current, for particles and fields together | no collisions, beams, external fields, boundary (SMB.cpp:1231-1305); the reflection loop is a relation (it ends) |
| CollPhaseModel.v | collisions.cpp: constructor, clear, sort_to_cells, random_sort, collect_weighted_params_tot_grid; collide, correct_velocities, operator() of the three operators | particles in a heap, lists hold pointers; draws and shuffle are parameters; a NaN ends the round (None); calc_temperature and the debugging means of P12 left out |
| outController.cpp 35-310, 498-508; outWriter.cpp 47-99; outEngineHDF5.cpp 79-165 (columns, rows, dots, creation of groups) | ProbeModel.v | HDF5 file as lists of groups and datasets; trusted: createGroup creates missing parents and throws for an existing group, selections outside of the dataset throw, an existing dataset is kept; the group of the metadata is left out |
| SMB.cpp 194-345, 1324-1334 (accesses of the threads) | RaceModel.v | accesses to vectors of particles, counters and the generator; the iteration of a row is traced from the state at the start of the loop, as if the other threads had not yet begun |
| `FieldMpiModel` | `SMB.cpp` 784-1252 `solve_maxvell` with the MPI parts of `field_e_overlay` and `field_h_overlay`, `PiCoPiC.cpp` 209-230 geometry of a rank | buffers and requests of MPI (an exchange is a relation between the grids before and after it) |
| `OutMpiModel` | `outController.cpp` 35-510 as run by every rank with its slab (`PiCoPiC.cpp` 209-281) | the order of the writes of the ranks, MPI-IO |
| `MsgModel` | `common.cpp` 31-51, 62-103 | times above 2^31 s, locale |
| `ConstModel` | `constant.hpp` 38-49, `cfg.cpp` 430-439, the loop of `PiCoPiC.cpp` | rounding |
| `VecModel` | `vector3d.hpp` | the floats are real numbers; each operation of a vectorised loop is done for all lanes at once, in the order of the statements |
| `MemModel` | `SMB.cpp:194-561`, `specieP.cpp:72-77`, `specieP.cpp:155`, `beamP.cpp:102` | addresses are numbers, the allocator is any function that returns an unused one; only the fields that the collector reads |
| `MpiCurrent`, `MpiRoundModel` | `SMB.cpp` `solve_current` with the MPI part of `current_overlay`, `PiCoPiC.cpp` 326-336 the round of a rank | buffers and requests of MPI (an exchange delivers what the neighbour sends, in any order of the ranks); collisions, beams, probes and the external fields are not part of the round |
| CfgJsonModel.v | cfg.cpp:22-475, 720-723, outEngineHDF5.cpp:268-389 | whole constructor of Cfg on JSON values: operator[] inserts null, get<T> throws (ends the program); budget and check from CfgModel, CheckModel with exact numbers; the parser of picojson, the order of the names and serialize() are not modelled; attributes of HDF5 as a list |
| FullModel.v, CollRoundModel.v | PiCoPiC.cpp:325-336 with beams (SMB.cpp:1308-1322), collisions (SMB.cpp:1290-1293) and external fields (pusherBoris.cpp:60-66) | exact real arithmetic; time of round n is n*dt; Domain::collide calls a member that does not exist, its operator() is taken |
| lib/python/picopic/reader.py:51-126, 225-305; h5_reader.py:72-177; meta_reader.py:62-151, 172-185; src/outEngine/outEngineHDF5.cpp:118-146, 203-221 (data of the frames) | ReaderModel.v | yes; not: cache (tinycache.py), plots (plot_builder.py), verbose messages, paths of files, get_clim_estimation |
| tools/parse_metadata.py:18-95 | PhysInfoModel.v | yes, for numbers; not: formatting, opening of the file, option parser, printing of the metadata (120-200) |
| maxwellJuettner.cpp; constant.hpp:34 | MJModel.v | exact real arithmetic; tables as integers times 10^-21; NaN as None, reading outside of a table as UB; the draws are a sequence; the loop has fuel |

## Trusted base

* The Coq 8.16.1 kernel (and `vm_compute`).
* Axioms: those listed by `Print Assumptions` under each theorem in the `Thm*.v` files.  Only the stdlib's
  axioms for the classical reals appear (`ClassicalDedekindReals.sig_forall_dec`,
  `ClassicalDedekindReals.sig_not_dec`, `FunctionalExtensionality.functional_extensionality_dep`,
  and, through the logarithm and the square root of the stdlib, `Classical_Prop.classic`) and only for
  statements over `R`; no axiom is added by this development.
* The faithfulness of the transcription: checked by reading only, the code is not executed.
