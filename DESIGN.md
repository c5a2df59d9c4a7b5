# Formal model of nrupprecht/GFlow in Rocq (Coq 8.16.1)

Source: `/repo/GFlowSim/src` (all citations in the model are relative to `/repo`,
i.e. `GFlowSim/src/...`). Nothing in `/repo` was built or run.

## Layout

`rocq/theories/`

* `Model_*.v`  executable Gallina definitions, each citing file:lines; no proofs.
* `Spec_*.v`   small independent specifications used in theorem statements
  (only where a statement needs vocabulary beyond the standard library).
* `Proofs_*.v` lemmas.
* `Properties_*.v` only `Theorem ... Proof. exact lemma. Qed.` + `Print Assumptions`
  + `Example`s showing that hypotheses are satisfiable.

## Conventions

* Undefined behaviour (out-of-bounds access, dangling pointer, division by zero on
  integers) is an explicit outcome (`None` or a constructor `UB`), never a default value.
* C++ `int` indices are `nat`/`Z` without overflow (simplification: no overflow).
* `real` (float) is `Q` (exact rationals; geometry, cells, time) or `R` (where square roots
  or transcendental functions occur). Simplification: rounding, NaN and infinities are not
  modelled unless the property is about them (C11 uses an explicit NaN flag).
* Names ending in `_partial` prove part of a property; names ending in `_refuted` prove that
  the faithful model violates the English claim (a finding), with a concrete witness.

## Per property plan

| id | what is modelled | how it is proved |
|----|------------------|------------------|
| C01 | store state machine (capacity, size, number, slots) | invariant by induction on operations; bulk add refuted |
| C02 | id map as finite map updated as in code | invariant by induction on operations |
| C03 | next id counter | invariant: all ids ever issued < next id |
| C04 | remove list (ascending set), compaction loop with fuel | loop invariant, permutation of survivors |
| C05 | markForRemoval | algebraic laws |
| C06 | Hoare quicksort with explicit bounds checks | loop invariants, permutation, sortedness |
| C07 | pack/unpack on lists of words | round-trip law |
| C08 | ghost pack/unpack | round-trip law |
| C09 | creator correction over list of processors | refutation of full claim; homogeneous case proved |
| C10 | name->handle maps | invariant by induction |
| C11 | removeBadParticles | exact characterisation |
| C12-C17 | vectors over Q, per-axis functions | arithmetic |
| C18 | getAddressCM / tuple_to_linear in any dimension | induction on dimension |
| C19 | get_cell_index / correct_index | arithmetic |
| C20-C21 | cells as function of position, half stencil, wrap | combinatorics + arithmetic |
| C22 | max motion bound and list criterion | triangle inequality; defaults refuted |
| C23 | the verlet list containers | refinement to list of pairs |
| C24 | ForceMaster grid | invariant by induction |
| C25 | removeOverlapping | characterisation |
| C26-C29 | forces over R | algebra |
| C30-C32 | integrator over R / Q | algebra, induction on steps; loop coverage over nat |
| C33-C35 | time step decision, run loop, registration lists | case analysis, induction |
| C36-C39 | KD-tree decomposition as binary tree | structural induction |
| C40 | other/evaluation.cpp: the operator-by-operator tree builder on a list of characters | grammar + mutual induction with the parser state as invariant; termination by a measure; refuted by computation |
| C41 | utility/fileparse.cpp on a stream (rest, eof flag) | relation "text stands for tree" + induction; termination by length |
| C42-C43 | utility/treeparser.cpp (multimap, focus, iteration), ArgParse.hpp | invariants over all histories; stable sorting |
| C44-C47 | groups, modifiers, demon | list induction, algebra |
| C48-C51 | data objects and timers | state-machine invariants |
| C52 | when MPI reads the announced number (send_single) | all interleavings; refuted without copying |
| C53-C54 | ghost selection and ghost rounds | geometry over Q; message schedules |
| C55-C58 | energies, virials, bonds | algebra over R |
| C59-C61 | angular momentum, time step agreement, adaptive time step settings | algebra, induction on steps |
| C62-C63 | termination over several processors, recording over runs | induction on steps; refuted cases |
| C64 | clusters | invariant of the stack search: marked slots are connected to the head, the neighbours of finished slots are marked; composed with the range query of C20 |
| C65-C67 | recordings | parser inverts printer, by induction on the lists of names, numbers and frames; blocks of equal width; lookup of first occurrence |
| C68-C70, C73 | one particle, step function | induction on the steps with the invariant velocity = given, force = 0; polynomial arithmetic |
| C71-C72 | columns and times | lattice invariant over the list of times; recursion with enough rounds; floor and ceiling |
| C74-C77 | measurements | loops as sums over filtered lists; concatenation over processors; permutation invariance |
| C78-C80 | ray tracing | distance along a unit ray as a square plus a constant; induction over arbitrary trees with filtered sphere lists; orthogonal projection |
| C81-C83, C85 | filling | invariants over the filling loops with arbitrary random streams; fuel = number of attempts |
| C84 | temperature | algebra of sums of squares |
| C86, C87 | walls, spheres | chord <= arc, Minkowski, induction over the dimension |
| C88-C90 | polymers, lines, boxes | induction over the sorted marks; floor and ceiling bounds |
| C91-C95 | configuration files | induction over the lines of the file; lookups by name are those of C42 |
| C96, C97 | relaxation | the fields of the simulation before, during and after the run, for each processor; induction over the velocities given |
| C98-C100 | thermostats | induction over components (loops) and steps (decay of the velocity) |
| C101 | own pairs on a processor | a grid with halo cells is a plain grid of an extended region with empty halo cells: both searches are equal, then as C20, C21 |
| C102, C103 | ghost pairs | a ghost in a halo cell finds own cells within the sweep (per axis, then for the tuple); induction over ghosts; images: per axis, then over axes |
| C104 | rebuilding together | invariant: all processors count alike; induction over the steps |
| C105 | same cells | folds of the reductions |
| C106 | layout of the file | lengths of the blocks, offsets |
| C107 | round trip | decoding of every packed row (depths 1, 4, 8, 16, 24, 32), rows by induction |
| C108 | depth rule | invariant of the pixel over the list of draws |
| C109 | circles | disc within the loop bounds; wrapping once is reduction modulo the size |
| C110 | sub-palettes | coordinate change of setPixel |
| C111 | lines | induction over the columns |
| C112 | reference counts | invariant: count = number of palettes (at least, with assignments) |
| C113 | createImage | first draw at depth 0 over black, disc of C109 |
| C114 | findPlaces, get_values, setColorOption | position in the concatenated data; case analysis of the options |
| C115 | scales, colours | invariant of the fold; floor and ceiling bounds |
| C116 | three ways of resetting | recording lemmas of C35 for each run |
| C117 | loops over the members | sums; cross products about the centre of mass |
| C118 | direction of bonds, averages | fold invariant; Cauchy-Schwarz |
| C119 | two closest, projection, bins | invariant of the two least; quadratic minimum; inductive relation for the samples |
| C120 | bins by truncation | floor bounds, fold invariant |
| C121 | ordered map | sorted insertion |
| C122 | printToCSV | cutting at commas and newlines; uniqueness of the reading |
| C123 | printAsTime | floor arithmetic; decimal digits of the standard library |
| C124 | frame rate and recordings | induction over the steps, both bounds |
| C125 | loop over the pairs | sums; antisymmetry of the nearest image |
| C126 | loop over the pairs when turned on | loop invariants |
| C127 | the loops over frames and cells, on top of the binning of C50 | induction over frames; the cells as a partition |
| C128 | driver 56-91 as a program of collective calls | programs that match call by call end well in every schedule (invariant, progress, measure) |
| C129 | driver: mpi_and after each stage | same |
| C130 | loops of writeSummary, writeParticleData | sums, induction over the places |
| C131 | construct_lists, sweep | invariants of the search (C20-C22), lists (C23), table (C24), additivity and symmetry of the forces (C26): sums over visits = sums over all pairs |
| C132 | total_potential | same |
| C133 | loops of the integrator | loop invariants over places, any width of vectors |
| C134 | hooke of Model_Forces | algebra of plane vectors, case analysis of the limit |
| C135 | same | algebra |
| C136 | run of the handler, lists and positions included | invariant over steps: lists are those of a search m steps ago, m-1 steps take at most max_update_delay; then C131 |
| C137 | same | same invariant |
| C138 | the run of Model_Steps | invariant: within the steps until the next search nothing goes too far, and the stored delay ends before anything could; then every step keeps it |
| C139 | same | C138 gives at most half the skin of motion, then C131 |
| C140 | half kick, drift, wrapping, forces of the lists, half kick, for any lists | the forces of a pair do not depend on which of the two comes first or on the wrapping flag when the pair is not across a border; pairs out of range give nothing; sum over lists = sum over partners; induction over the steps |
| C141 | C140 and the ideal scheme | the force of a pair depends on relative position and velocity, masses and radii only; sums over renumbered partners are permutations; induction over steps |
| C142 | same | same, with displacement a and velocity u carried along |
| C143 | loops of post_step, gathering | sums over the places that are in use |
| C144 | same, with the loops of repulsePositions | each increment of the boundary force is the size of the increment of the force |
| C145 | post_step with the clustering of C64, over all recordings of a run | C64, induction over recordings; counting by classes |
| C146 | post_step | field arithmetic over the means of C74 |
| C147 | parallel_run against the ideal motion of C140 | the force on a particle is a sum over own particles and ghosts, which is the sum over all; images along periodic axes; induction over the steps |
| C148 | recordings over any history of stores | induction over the recordings: the group of a processor is the list of ids filtered by life on that processor at each recording; refutation by running the exchange of Model_Topology |
| C149 | stripe_pre, add_striped and the operations of Model_Store; a log of who entered at which height | the log is an invariant: what a living particle after a step is (itself, with its data, or new) |
| C150 | which local ids the bonds use, and when they are refreshed | invariant of histories: the flag is set or the local ids of living particles are right; calls that leave the flag clear do not move particles (C44) |

## What is modelled, per file of /repo/GFlowSim/src

| area (theories) | code modelled | simplifications, not modelled |
|---|---|---|
| Store, Buffer | base/simdata.{hpp,cpp,tpp}, base/particle-data.hpp: adding, removing, reserving, sorting, id map, ghosts' storage, registration of data, pack/unpack, removeBadParticles, creator correction | int without overflow; float is exact or NaN; timers; allocation failure |
| Geometry | utility/bounds.hpp, vectormath, gflow.cpp wrapping, displacement, reflecting and repulsing boundaries | exact rationals |
| Cells, Verlet | domains/domain.cpp, base/domainbase.cpp, base/interactionhandler.cpp: grid set-up, addressing, binning, stencil, traversePairs, getAllWithin, removeOverlapping, remake decision | one processor's grid (MPI build); traverseGhostPairs and constructFor not modelled; distances compared as squares |
| Topology, Messages, Ghosts, SendSize, Period, Gather | parallel/kdtreetopology.{cpp,tpp}, parallel/mpi-communication.hpp, base/topology.cpp | MPI assumed: messages between two processors with one tag arrive in order; every wait completes at the latest when the messages were received, any subset may complete earlier; all processors take the same remake decision and use the same time step (as the code's collective calls ensure) |
| Handlers | interactions/generic-handlers.hpp, base/interaction.cpp, base/forcemaster.cpp | particle ids as integers |
| Forces, Bonded | interactions/generic-forces.hpp, bonded/*.cpp | exact reals; a NaN is the outcome None |
| Integrators, TimeStep | integrators/*.tpp, base/integrator.cpp; scalar, SSE and AVX loop bounds | exact reals; positions are not wrapped during a step; Langevin noise not modelled |
| Run, Registry | gflow.cpp (run, terminate, add*), base/dataobject.cpp, base/datamaster.cpp | times are exact rationals; file output not modelled |
| Group, GroupMeasure, GroupBodies | other/group.{hpp,cpp}, modifiers/force-remover.cpp, modifiers/torque-remover.cpp, body/wallslidebody.cpp, body/rigidbody_2d.cpp, bonded/twogroupharmonic.cpp | group ids on the store of Model_Store; measurements over exact reals, a NaN or a read outside of a vector is the outcome None; members of a sliding wall are not wrapped during a step |
| Demon | modifiers/demon.{hpp,cpp} | start of a run, the check before the forces (counting, rules, checkpoint, way back, opening and closing the door, the four recorded series and the two currents), settings; rationals; not: animation object, wall interaction, handler rebuild, summary at the end |
| Series | dataobjects/dataobjecttypes/data-base/multigraphdata.{hpp,cpp}, dataobjecttypes/graphobject.cpp, multigraphobjects/oscillation-data.cpp | columns of a recorded series: creation, reset, adding, setting, reading, averages, pairs, file lines, gathering; pairs of a graph object; the end of the oscillation record. Not: text of files, names |
| Bins | dataobjects/graphobjects/{kineticenergybin,group-correlation,center-correlation}.cpp, multigraphobjects/{twowallbinforce,twopolymerbinforce}.cpp, compute/binning2d.cpp, dataobjecttypes/volumeplotobject2d.cpp | the bin of a sample, the loops over samples, what is written; how samples (distances) are obtained is not modelled here |
| Timer | utility/timer.{hpp,cpp}, other/timedobject.cpp, base/datamaster.cpp 37-53, 287 | all calls, with the clock reading as an argument; the run timer |
| Clusters | dataobjects/clustering.cpp 9-90, dataobjects/percolationsnapshot.cpp 20-46 | the stack search with the neighbour query as an argument (composed with Model_Cells in C64_touching_partial); the files written are not modelled |
| Eval, FileParse, TreeParser | other/evaluation.cpp, utility/fileparse.cpp, utility/treeparser.cpp, utility/ArgParse.hpp | reading a number from a text is an arbitrary function; multimap::find returns the first of equal keys (libstdc++); the log text |
| Recording, saving, loading | compute/store_data.cpp, compute/load_data.{hpp,cpp}, dataobjects/positiondata.cpp 17-27, particle-store-data.cpp 21-25, visualization.cpp 356-440, 478-493 | whole files character by character; printing and reading of a floating point number are parameters; drawing is not modelled |
| Modifiers | modifiers/constant*.cpp, linear/quadraticvelocitydamping.cpp, windtunnel.cpp, stream-tunnel.cpp, temperaturemodifier.cpp 14-49, twowallmodifier.cpp 35-56, gflow.cpp 165-236 (one step) | one particle with a list of modifiers, arbitrary forces in every step; exact rationals; random numbers are parameters |
| Measurements | dataobjects/graphobjects/{kineticenergydata,total-energy-data,rotational-energy-data,average-speed-data,average-omega-data,pressuredata}.cpp, multigraphobjects/{number-data,phi-data,average-position-data,average-velocity-data,cavity-statistics}.cpp, kineticenergytypesdata.cpp | one recording, on any number of processors; potentials, virials, magnitudes and sphere volumes are parameters; exact rationals, division by zero is None |
| Ray tracing | visualization/raytracestructs.cpp, raykdtree.cpp, raytrace.cpp (initialize, render: rays; trace; createKDTree: filling an arbitrary tree) | exact reals, three dimensions; the tree structure is arbitrary (createKDTree_help and its sort not modelled); bitmap not modelled |
| Regions, filling | other/region.cpp, creators/fillareacreator.cpp (207-311), creators/particletemplate.cpp, randomengines.hpp, parse-constructor.cpp getRandomEngine | exact rationals; random numbers are arbitrary streams; parsing of the headings not modelled; which template is chosen is arbitrary |
| Walls, circles, temperature | creators/wallcreator.cpp 45-71, creators/circle-creator.cpp 56-81, fillareacreator.cpp 313-319 | exact reals; NaN as None; the Demon modifier of walls is modelled elsewhere |
| Polymers, lines, boxes | creators/polymercreator.cpp (arrangement, single polymer, lines, bond objects), creators/boxcreator.cpp 66-107 | exact rationals; the direction of a polymer is given normalised; relaxation (hs_relax) not modelled |
| Configuration | creators/fileparsecreator.cpp (createSimulation, createFromOptions 184-341, createParticle, choose_integrator, choose_bc, makeRandomForces), parse-constructor.cpp parse_region and getInteraction, interaction-choice.cpp, driver.cpp 396-410 | the file is the tree of Model_FileParse; conversions of texts to numbers are any functions; numbers are exact rationals; undefined behaviour is an outcome of its own; gravity, seed, areas and modifiers of areas not modelled |
| Relaxation | base/creator.cpp 38-133 and 163-172, gflow.cpp initialize and run | objects are numbers; what the run does to particles and modifiers is any function; times are those of Model_Run |
| Thermostats | langevintypeintegrator.cpp, langevinintegrator.cpp, overdampedlangevin.cpp, nose-hoover-velocity-verlet.tpp (no SIMD) | exact reals; random numbers are any function of step and component |
| Search with ghosts | domains/domain.cpp 201-235, base/domainbase.cpp 80-94, base/interactionhandler.cpp 461-466; grid and own pairs as in Model_Cells | exact rationals; storing of pairs as in Model_Handlers |
| Joint decisions | base/interactionhandler.cpp 43-110, 278-335, base/domainbase.cpp 14-26, parallel/mpi-communication.hpp 88-163 | reductions over all processors; None if some take part and others do not; forces are in use |
| Picture files | EasyBMP/EasyBMP.cpp 36-43, 116-422, 424-1268, 1561-1742 | bytes of the file; little endian machine; no I/O errors |
| Palettes | visualization/palette.cpp 15-83, 178-273, 324-364, 420-533, reference counts 64-176 | drawing calls are lists of Image::set calls; exact arithmetic; no graphs |
| Pictures of particles | visualization/visualization.cpp 77-81, 147-200, 291-346, 357-510, 542-558 | exact arithmetic; two dimensions; not the colours by angle and logarithm |
| Several runs | pre_integrate of the classes in dataobjects/ | the three ways of resetting; recordings as times |
| Data of groups | dataobjects/graphobjects/grouptorque.cpp, persistence-length.cpp, dataobjects/multigraphobjects/groupangular.cpp, twopolymerbinforce.cpp | exact reals; groups of Model_GroupMeasure |
| Histograms, parameters | dataobjects/twogroupstatistics.cpp, parameters.cpp | exact rationals; files as lists of lines |
| Tables, times, videos | utility/database.*, utility/utility.hpp printAsTime, applications/driver.cpp 371-388 | texts as lists of characters; printing of reals a parameter |
| Demon wall | interactions/demon_wall.* | exact reals; random numbers as a list; search for free places a parameter |
| Fields of mean velocities | compute/field_properties.*, vistools.cpp (names of files) | exact rationals; var_v_field not modelled; ave_v_field as its square |
| Collective calls of MPI; driver: arguments, ends of main | parallel/mpi-communication.hpp, applications/driver.cpp, base/datamaster.cpp (calls of writeSummary) | asynchronous small steps of processors; buffers as lists |
| Summary of a run | base/datamaster.cpp | exact rationals; file layout not modelled |
| From the search to the forces | base/interactionhandler.cpp construct, base/forcemaster.cpp, interactions/generic-handlers.hpp, base/interaction.cpp | composition of the models of the search, of the table and lists of pairs, and of the forces; positions rational, forces real |
| Rotation in two dimensions | integrators/angularvelocityverlet2d.cpp, gflow.cpp (order of integrators) | exact reals; SIMD vectors as blocks of places |
| The handler during a run | base/interactionhandler.cpp pre_integrate, pre_forces, construct, check_needs_remake; simdata.cpp update; gflow.cpp run (order) | motion of each step arbitrary; extrapolated delay kept as a square; joins Model_Cells, Model_Handlers, Model_Sweep |
| Whole steps with forces (gflow.cpp run, velocity-verlet.tpp, forcemaster.cpp interact) | Model_Trajectory: kick, drift, wrap, forces of the lists of the step, kick | modifiers, other integrators, several processors, floating point |
| Records | dataobjects/averagedata.cpp 12-37, graphobjects/boundaryforcedata.cpp, graphobjects/bonded-energy-data.cpp, percolationdata.cpp 5-21, multigraphobjects/lineentropicforce.cpp | exact rationals; writing of the files not modelled; clustering as in Clusters, forces of the walls as in Geometry |
| Parallel | gflow.cpp 159-232 on all processors, base/forcemaster.cpp 39-60, interactions/generic-handlers.hpp 66-152 with ghosts, generic-forces.hpp 694-771 with a ghost | exact reals; exchange of particles, ghosts and lists given by a function of the particles on all processors, about which the theorem states what it needs; masses and radii by particle number |
| NetForce | dataobjects/multigraphobjects/groupnetforce.cpp, other/group.cpp 176-186 on the stores of Model_Store, with update_local_ids of Model_Group and gatherData of Model_Series, on P processors | exact rationals; the stores at the recordings are given (any history); the flag locals_changed is the flag of the store |
| Stripe | modifiers/stripe-x.cpp, modifiers/stream-tunnel.cpp 136, 146-147, on the stores of Model_Store | at least two dimensions; the entry is registered |
| Bonds | bonded/bond.cpp, harmonicbond.cpp, harmonic-chain.cpp, the pairs of harmonicbond_{2d,3d}.cpp, on the stores of Model_Store | the equilibrium distance is the pair of positions it is measured between; the forces are in Model_Forces |

Not modelled at all: visualization/*, test/*, alldataobjects other than those named above, creators other than what is named above, random numbers,
file output, wall-clock time.

## Trusted base

* Coq 8.16.1's kernel (with `vm_compute`), and the hand translation from C++ to Gallina: each definition cites the lines it models and says
  where it simplifies.
* Axioms: only the standard library's. `ASSUMPTIONS.md` (generated by `tools/gen_assumptions.py`) lists what `Print Assumptions` gives for every
  theorem of the manifest: theorems over `nat`, `Z`, `Q`, lists are closed under the global context; theorems over `R` use
  `ClassicalDedekindReals.sig_forall_dec`, `ClassicalDedekindReals.sig_not_dec`, `FunctionalExtensionality.functional_extensionality_dep`, and three
  of them `Classical_Prop.classic`.
* Not modelled: floating-point rounding, MPI transport itself (only the contract above), file I/O, random numbers, timing, memory allocation
  failure, the bit-level semantics of SIMD intrinsics.

## Tests of the theorems

`seeded/LOG.jsonl`: each line is one edit of a model definition in a scratch copy, the claim it makes false, the lemmas and theorems that failed to
build, and the theorems tightened when an edit survived.
