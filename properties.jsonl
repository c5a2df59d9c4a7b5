{"id": "C01", "title": "Particle storage bounds", "statement": "After any history of public particle-store calls (add one, add many, mark for removal, perform removals, sort, shift ids, clear forces) the reported numbers satisfy number() <= size() <= capacity(), and no call writes a particle record outside the allocated arrays.", "quantifier": "every finite sequence of store operations from an empty store, every count argument, every particle payload", "why_tests_cant": "Growth depends on the whole history of sizes and capacities; a test exercises one interleaving of additions and removals.", "anchors": [{"file": "GFlowSim/src/base/simdata.tpp", "symbol": "SimData::addParticle"}, {"file": "GFlowSim/src/base/particle-data.hpp", "symbol": "particle_data::resize"}, {"file": "GFlowSim/src/base/simdata.hpp", "symbol": "SimData::addParticle"}]}
{"id": "C02", "title": "Global id lookup is exact", "statement": "For every global id g and every reachable store, getLocalID(g) returns l >= 0 exactly when the particle stored at l (l < size()) is alive and has global id g, and returns -1 exactly when no alive particle has id g.", "quantifier": "every reachable store, every global id", "why_tests_cant": "The id map is updated by five different operations; only an invariant over every history rules out a stale entry.", "anchors": [{"file": "GFlowSim/src/base/simdata.cpp", "symbol": "SimData::getLocalID"}, {"file": "GFlowSim/src/base/simdata.cpp", "symbol": "SimData::markForRemoval"}, {"file": "GFlowSim/src/base/simdata.cpp", "symbol": "SimData::swap_particle"}]}
{"id": "C03", "title": "Global ids are never reused", "statement": "On one processor, every particle ever added gets a global id different from that of every particle added before, including those already removed.", "quantifier": "every history of additions and removals", "why_tests_cant": "Uniqueness against all earlier ids cannot be sampled.", "anchors": [{"file": "GFlowSim/src/base/simdata.tpp", "symbol": "SimData::addParticle"}, {"file": "GFlowSim/src/base/simdata.hpp", "symbol": "SimData::addParticle"}]}
{"id": "C04", "title": "Removal removes exactly the marked particles", "statement": "Performing removals after any set of markForRemoval calls leaves exactly the unmarked particles, each with unchanged data, stored contiguously at 0..number()-1, and size()==number().", "quantifier": "every store and every set of marked particles", "why_tests_cant": "The compaction swaps particles from the end; correctness depends on the relative position of every hole.", "anchors": [{"file": "GFlowSim/src/base/simdata.cpp", "symbol": "SimData::doParticleRemoval"}, {"file": "GFlowSim/src/base/simdata.cpp", "symbol": "SimData::swap_particle"}]}
{"id": "C05", "title": "Marking for removal is idempotent and local", "statement": "Marking a particle twice is the same as marking it once; marking invalid or dead entries has no effect; marking one particle changes no other particle's data and reduces number() by exactly one per newly marked particle.", "quantifier": "every store, every multiset and order of marks", "why_tests_cant": "Quantifies over all orders of marks.", "anchors": [{"file": "GFlowSim/src/base/simdata.cpp", "symbol": "SimData::markForRemoval"}]}
{"id": "C06", "title": "Sorting particles preserves the system", "statement": "Sorting particles along an axis permutes the stored particles, terminates, never accesses outside 0..number()-1, leaves the positions non-decreasing along that axis and keeps global-id lookup exact.", "quantifier": "every store, every axis, every (also duplicated) coordinate values", "why_tests_cant": "Quicksort partition bugs only show on particular value patterns.", "anchors": [{"file": "GFlowSim/src/base/simdata.cpp", "symbol": "SimData::sortParticles"}, {"file": "GFlowSim/src/base/simdata.cpp", "symbol": "SimData::quick_sort"}, {"file": "GFlowSim/src/base/simdata.cpp", "symbol": "SimData::quick_sort_partition"}]}
{"id": "C07", "title": "Particle migration buffers round-trip", "statement": "Packing any list of particles to a buffer and unpacking it on another processor with the same registered data reproduces every vector, scalar and integer field of every packed particle, in order, and the sender can drop exactly those particles.", "quantifier": "every list of local ids, every number of registered vector/scalar/integer entries, every dimension, every bit pattern", "why_tests_cant": "Layout offsets depend on three independent widths.", "anchors": [{"file": "GFlowSim/src/base/simdata.cpp", "symbol": "SimData::pack_buffer"}, {"file": "GFlowSim/src/base/simdata.tpp", "symbol": "SimData::unpack_buffer"}]}
{"id": "C08", "title": "Ghost update buffers round-trip", "statement": "Sending ghost data and receiving it writes, for every ghost in order, exactly the data of the corresponding owned particle, shifted by the minimum image, and touches no other particle.", "quantifier": "every ghost list, every layout of ghost data, every relative position", "why_tests_cant": "All layouts and all ghost counts.", "anchors": [{"file": "GFlowSim/src/base/simdata.cpp", "symbol": "SimData::pack_ghost_buffer"}, {"file": "GFlowSim/src/base/simdata.cpp", "symbol": "SimData::unpack_ghost_buffer"}]}
{"id": "C09", "title": "Global ids are unique across processors", "statement": "After the creator's id correction, and after any later additions on any processor, no two particles in the whole system share a global id.", "quantifier": "every number of processors, every number of particles per processor, every later addition history", "why_tests_cant": "Needs every distribution of particles over processors.", "anchors": [{"file": "GFlowSim/src/base/creator.cpp", "symbol": "Creator::correct_global_ids"}, {"file": "GFlowSim/src/base/simdata.cpp", "symbol": "SimData::shift_global_ids"}, {"file": "GFlowSim/src/base/simdata.tpp", "symbol": "SimData::addParticle"}]}
{"id": "C10", "title": "Per-particle data registration", "statement": "Requesting a named data entry returns the same handle each time, distinct names get distinct handles, a query returns the handle or -1, and no request disturbs earlier handles.", "quantifier": "every sequence of requests and names", "why_tests_cant": "All request orders.", "anchors": [{"file": "GFlowSim/src/base/simdata.cpp", "symbol": "SimData::requestScalarData"}, {"file": "GFlowSim/src/base/simdata.cpp", "symbol": "SimData::requestVectorData"}, {"file": "GFlowSim/src/base/simdata.cpp", "symbol": "SimData::requestIntegerData"}, {"file": "GFlowSim/src/base/simdata.cpp", "symbol": "SimData::getScalarData"}]}
{"id": "C11", "title": "Bad-particle removal", "statement": "removeBadParticles marks exactly the particles whose position, velocity or force has a NaN component, and reports whether there was one.", "quantifier": "every store and data", "why_tests_cant": "All placements of bad values.", "anchors": [{"file": "GFlowSim/src/base/simdata.cpp", "symbol": "SimData::removeBadParticles"}]}
{"id": "C12", "title": "Minimum image displacement", "statement": "For points inside the box, the displacement returned is x-y up to a whole number of box widths in periodic directions (exactly x-y in others), is at most half a box long in each periodic direction, and is no longer than any other periodic image.", "quantifier": "every dimension, box, boundary condition choice and pair of points in the box", "why_tests_cant": "Continuum of inputs and edge cases at half the box.", "anchors": [{"file": "GFlowSim/src/gflow.cpp", "symbol": "GFlow::getDisplacement"}, {"file": "GFlowSim/src/gflow.cpp", "symbol": "GFlow::minimumImage"}]}
{"id": "C13", "title": "Distance is symmetric", "statement": "getDistance / minimum-image distance does not depend on argument order and equals the length of getDisplacement.", "quantifier": "every dimension, box, boundary flags, points", "why_tests_cant": "Continuum of inputs.", "anchors": [{"file": "GFlowSim/src/gflow.cpp", "symbol": "GFlow::getDistance"}, {"file": "GFlowSim/src/gflow.cpp", "symbol": "GFlow::getDisplacement"}]}
{"id": "C14", "title": "Wrapping keeps particles in the box", "statement": "After wrapPositions every coordinate in a periodic direction is inside the simulation bounds and differs from the old one by a whole number of widths; coordinates in other directions, and all velocities, are untouched; wrapping twice is the same as wrapping once.", "quantifier": "every box, position and boundary flags", "why_tests_cant": "Far-away and exactly-on-boundary values.", "anchors": [{"file": "GFlowSim/src/gflow.cpp", "symbol": "GFlow::wrapPositions"}]}
{"id": "C15", "title": "Reflection keeps particles in the box", "statement": "After reflectPositions every coordinate in a reflecting direction is inside the bounds and the speed is unchanged; a particle already inside is untouched.", "quantifier": "every box, position, velocity", "why_tests_cant": "Depends on how far the particle overshot.", "anchors": [{"file": "GFlowSim/src/gflow.cpp", "symbol": "GFlow::reflectPositions"}]}
{"id": "C16", "title": "Bounds are half-open boxes", "statement": "contains/intersection/center/widths of Bounds agree with half-open boxes: a point is in the intersection of two overlapping bounds iff it is in both; volume and widths are consistent.", "quantifier": "every dimension, every pair of bounds and point", "why_tests_cant": "Continuum of inputs.", "anchors": [{"file": "GFlowSim/src/utility/bounds.cpp", "symbol": "Bounds::intersection"}, {"file": "GFlowSim/src/utility/bounds.cpp", "symbol": "Bounds::contains"}]}
{"id": "C17", "title": "Soft walls push back", "statement": "Repulsive boundary forces act only on particles outside the bounds, always point inwards and grow linearly with the overshoot; attractive ones always point to the centre; the reported boundary energy and force are non-negative.", "quantifier": "every position, bounds and strengths >= 0", "why_tests_cant": "Sign errors at each side of each axis.", "anchors": [{"file": "GFlowSim/src/gflow.cpp", "symbol": "GFlow::repulsePositions"}, {"file": "GFlowSim/src/gflow.cpp", "symbol": "GFlow::attractPositions"}]}
{"id": "C18", "title": "Cell addressing is a bijection", "statement": "Linear cell index and per-axis cell tuple determine each other: every tuple inside the grid has a distinct index below the cell count, and both conversions invert each other.", "quantifier": "every dimension and grid size", "why_tests_cant": "All dimensions and sizes.", "anchors": [{"file": "GFlowSim/src/base/domainbase.cpp", "symbol": "DomainBase::linear_to_tuple"}, {"file": "GFlowSim/src/base/domainbase.cpp", "symbol": "DomainBase::tuple_to_linear"}]}
{"id": "C19", "title": "Every particle falls in a valid cell", "statement": "For every position (inside or outside the bounds) the cell found for it is a valid cell of the grid, and for positions in the bounds it is the cell whose box contains the position.", "quantifier": "every position, bounds, grid", "why_tests_cant": "Boundary values.", "anchors": [{"file": "GFlowSim/src/domains/domain.cpp", "symbol": "Domain::get_cell_index"}, {"file": "GFlowSim/src/domains/domain.cpp", "symbol": "Domain::correct_index"}]}
{"id": "C20", "title": "Neighbour search misses no pair", "statement": "After (re)construction of the interaction lists every pair of live particles, whose types interact and whose distance is less than the sum of their interaction radii plus skin, appears in the interaction of their types.", "quantifier": "every particle configuration, box, boundary conditions, number of cells", "why_tests_cant": "A missed pair depends on cell layout and anisotropy; tests try a few boxes.", "anchors": [{"file": "GFlowSim/src/domains/domain.cpp", "symbol": "Domain::traversePairs"}, {"file": "GFlowSim/src/domains/domain.cpp", "symbol": "Domain::constructFor"}, {"file": "GFlowSim/src/base/interactionhandler.cpp", "symbol": "InteractionHandler::calculate_max_small_sigma"}]}
{"id": "C21", "title": "Neighbour search lists no pair twice", "statement": "No pair of particles is visited more than once during list construction, in any boundary condition, so no pairwise force is doubled.", "quantifier": "every grid size and boundary flags", "why_tests_cant": "Wrap-around coincidences on small grids.", "anchors": [{"file": "GFlowSim/src/domains/domain.cpp", "symbol": "Domain::traversePairs"}, {"file": "GFlowSim/src/domains/domain.cpp", "symbol": "Domain::create_cells"}]}
{"id": "C22", "title": "Skin safety", "statement": "Between two list reconstructions no interacting pair closer than its cutoff is missing from the list.", "quantifier": "every motion history between reconstructions", "why_tests_cant": "All motions.", "anchors": [{"file": "GFlowSim/src/base/interactionhandler.cpp", "symbol": "InteractionHandler::check_needs_remake"}, {"file": "GFlowSim/src/base/interactionhandler.cpp", "symbol": "InteractionHandler::pre_forces"}, {"file": "GFlowSim/src/base/interactionhandler.cpp", "symbol": "InteractionHandler::find_max_motion"}]}
{"id": "C23", "title": "Pair lists enumerate exactly what was added", "statement": "Every neighbour-list container visits exactly the pairs added since the last clear, in a consistent order, each once, split by list (normal / wrapped), and all containers are interchangeable.", "quantifier": "every sequence of additions and closes", "why_tests_cant": "The flattened verlet list encodes heads implicitly; all sequences of heads.", "anchors": [{"file": "GFlowSim/src/interactions/generic-handlers.hpp", "symbol": "VerletList"}, {"file": "GFlowSim/src/interactions/generic-handlers.hpp", "symbol": "VerletListPairs"}, {"file": "GFlowSim/src/interactions/generic-handlers.hpp", "symbol": "VerletListVecPairs"}]}
{"id": "C24", "title": "Type interaction table", "statement": "The interaction reported for a pair of types is the last one set for the unordered pair; a type is reported as interacting exactly if some partner exists; each type's maximal cutoff is the maximum over its interactions; each registered interaction is listed once.", "quantifier": "every history of interaction-table updates", "why_tests_cant": "All histories.", "anchors": [{"file": "GFlowSim/src/base/forcemaster.cpp", "symbol": "ForceMaster::setInteraction"}, {"file": "GFlowSim/src/base/forcemaster.cpp", "symbol": "ForceMaster::doesInteract"}, {"file": "GFlowSim/src/base/forcemaster.cpp", "symbol": "ForceMaster::initialize_does_interact"}, {"file": "GFlowSim/src/base/forcemaster.cpp", "symbol": "ForceMaster::typesInteract"}]}
{"id": "C25", "title": "Overlap removal", "statement": "removeOverlapping(f) marks only particles that overlap another by more than fraction f, and after it no pair of remaining particles, visited by the search, overlaps by more than f.", "quantifier": "every configuration", "why_tests_cant": "Chains of overlapping particles in every order.", "anchors": [{"file": "GFlowSim/src/base/interactionhandler.cpp", "symbol": "InteractionHandler::removeOverlapping"}, {"file": "GFlowSim/src/gflow.cpp", "symbol": "GFlow::removeOverlapping"}]}
{"id": "C26", "title": "Pair forces obey Newton's third law", "statement": "Every pairwise force adds opposite forces to the two particles and nothing to others, so each interaction sweep leaves the total force unchanged.", "quantifier": "every pair list, every configuration, every parameter", "why_tests_cant": "All configurations and pair lists.", "anchors": [{"file": "GFlowSim/src/interactions/generic-forces.hpp", "symbol": "HardSphere"}, {"file": "GFlowSim/src/interactions/generic-forces.hpp", "symbol": "LennardJones"}, {"file": "GFlowSim/src/interactions/generic-forces.hpp", "symbol": "Hooke"}, {"file": "GFlowSim/src/interactions/generic-forces.hpp", "symbol": "Hertz"}]}
{"id": "C27", "title": "Contact forces are repulsive and local", "statement": "Hard-sphere type forces vanish unless particles overlap, and then push the particles apart along the line between them; dissipative versions never attract.", "quantifier": "every configuration and parameter values >= 0", "why_tests_cant": "Sign conditions over the continuum.", "anchors": [{"file": "GFlowSim/src/interactions/generic-forces.hpp", "symbol": "HardSphere"}, {"file": "GFlowSim/src/interactions/generic-forces.hpp", "symbol": "HardSphereDs"}, {"file": "GFlowSim/src/interactions/generic-forces.hpp", "symbol": "Hertz"}]}
{"id": "C28", "title": "Cut-off potentials are shifted to zero", "statement": "The energy reported by truncated potentials tends to zero at the cutoff distance, and no force acts beyond it.", "quantifier": "every radius, strength and cutoff", "why_tests_cant": "Continuum of parameters.", "anchors": [{"file": "GFlowSim/src/interactions/generic-forces.hpp", "symbol": "LennardJones"}, {"file": "GFlowSim/src/interactions/generic-forces.hpp", "symbol": "Coulomb"}]}
{"id": "C29", "title": "Bonded forces conserve momentum", "statement": "Every bonded interaction (harmonic bonds, chains, angle chains) adds forces summing to zero over the bonded particles, and pulls both ends of a stretched bond.", "quantifier": "every configuration and chain length", "why_tests_cant": "Continuum / chain length.", "anchors": [{"file": "GFlowSim/src/bonded/harmonicbond_2d.cpp", "symbol": "HarmonicBond_2d::interact"}, {"file": "GFlowSim/src/bonded/harmonicbond_3d.cpp", "symbol": "HarmonicBond_3d::interact"}, {"file": "GFlowSim/src/bonded/angle_harmonic_chain_2d.cpp", "symbol": "AngleHarmonicChain_2d::interact"}, {"file": "GFlowSim/src/bonded/angle_harmonic_chain_3d.cpp", "symbol": "AngleHarmonicChain_3d::interact"}, {"file": "GFlowSim/src/bonded/harmonic-chain.cpp", "symbol": "HarmonicChain::interact"}]}
{"id": "C30", "title": "Velocity-Verlet is time reversible", "statement": "Running n velocity-Verlet steps, reversing velocities and running n steps again returns every particle to its starting position with reversed velocity (exact arithmetic).", "quantifier": "every step count, time step, force field depending on positions only", "why_tests_cant": "Unbounded step count.", "anchors": [{"file": "GFlowSim/src/integrators/velocity-verlet.tpp", "symbol": "VelocityVerlet::pre_forces"}, {"file": "GFlowSim/src/integrators/velocity-verlet.tpp", "symbol": "VelocityVerlet::post_forces"}]}
{"id": "C31", "title": "Vectorised loops treat every component once", "statement": "The vectorised integrator and clearing loops apply the scalar update to every component of every particle exactly once and to nothing beyond the arrays.", "quantifier": "every number of particles, dimension and vector width", "why_tests_cant": "Remainder handling for all lengths.", "anchors": [{"file": "GFlowSim/src/integrators/velocity-verlet.tpp", "symbol": "VelocityVerlet::update_positions"}, {"file": "GFlowSim/src/utility/simd_types.hpp", "symbol": "simd_data_size"}]}
{"id": "C32", "title": "Momentum conservation", "statement": "With pairwise forces only and finite masses, the total momentum is unchanged by any number of velocity-Verlet steps.", "quantifier": "every number of steps and configurations", "why_tests_cant": "Unbounded histories.", "anchors": [{"file": "GFlowSim/src/integrators/velocity-verlet.tpp", "symbol": "VelocityVerlet::update_velocities"}, {"file": "GFlowSim/src/interactions/generic-forces.hpp", "symbol": "HardSphere"}]}
{"id": "C33", "title": "Adaptive time step stays in range", "statement": "The time step used is always between the minimum and maximum time step, does not jump upwards faster than the configured rate, and a stopped system is detected as such.", "quantifier": "every history of velocities and accelerations", "why_tests_cant": "All histories.", "anchors": [{"file": "GFlowSim/src/base/integrator.cpp", "symbol": "Integrator::pre_step"}, {"file": "GFlowSim/src/base/integrator.cpp", "symbol": "Integrator::setDT"}]}
{"id": "C34", "title": "run(t) simulates for time t", "statement": "run(t) ends with elapsed time at least t (unless terminated or empty) and overshooting by less than one time step; repeated runs add up; the step counter counts the steps done.", "quantifier": "every requested time, time-step sequence", "why_tests_cant": "Unbounded loops.", "anchors": [{"file": "GFlowSim/src/gflow.cpp", "symbol": "GFlow::run"}, {"file": "GFlowSim/src/gflow.cpp", "symbol": "GFlow::requestTime"}]}
{"id": "C35", "title": "Registered objects are tracked once and removed on request", "statement": "Modifiers, interactions, bodies, data objects are each registered at most once, null objects are ignored, and finished modifiers (and only those) are dropped after a step with the order of the others preserved.", "quantifier": "every registration and flag history", "why_tests_cant": "All histories.", "anchors": [{"file": "GFlowSim/src/gflow.cpp", "symbol": "GFlow::addInteraction"}, {"file": "GFlowSim/src/gflow.cpp", "symbol": "GFlow::addModifier"}, {"file": "GFlowSim/src/gflow.cpp", "symbol": "GFlow::handleModifiers"}, {"file": "GFlowSim/src/base/datamaster.cpp", "symbol": "DataMaster::addDataObject"}]}
{"id": "C36", "title": "Processor domains partition space", "statement": "Recursive bisection gives each processor exactly one region; the regions are disjoint and cover the simulation bounds; the owner reported for a point is the processor whose region contains it.", "quantifier": "every number of processors, bounds, point", "why_tests_cant": "All processor counts.", "anchors": [{"file": "GFlowSim/src/parallel/kdtreetopology.cpp", "symbol": "KDTreeTopology::computeTopology"}, {"file": "GFlowSim/src/parallel/kdtreetopology.cpp", "symbol": "KDTreeTopology::compute_decomp"}, {"file": "GFlowSim/src/parallel/kdtreetopology.cpp", "symbol": "KDTreeTopology::domain_ownership"}]}
{"id": "C37", "title": "Neighbour processors agree", "statement": "If processor a considers b a neighbour then b considers a a neighbour, so every send has a matching receive.", "quantifier": "every decomposition", "why_tests_cant": "All decompositions.", "anchors": [{"file": "GFlowSim/src/parallel/kdtreetopology.cpp", "symbol": "KDTreeTopology::find_neighbors"}]}
{"id": "C38", "title": "Particle exchange loses nothing", "statement": "Exchanging particles between processors neither loses nor duplicates a particle; every particle that left its region to a neighbour's is owned by that neighbour afterwards.", "quantifier": "every number of processors, every distribution of particles", "why_tests_cant": "All distributions.", "anchors": [{"file": "GFlowSim/src/parallel/kdtreetopology.cpp", "symbol": "KDTreeTopology::exchange_particles"}, {"file": "GFlowSim/src/base/simdata.tpp", "symbol": "SimData::unpack_buffer"}]}
{"id": "C39", "title": "Ghost particles are counted right", "statement": "After ghost creation the number of ghosts equals the number of particles received, owned particles are untouched, and removing ghosts restores the owned state.", "quantifier": "every exchange", "why_tests_cant": "All histories.", "anchors": [{"file": "GFlowSim/src/parallel/kdtreetopology.cpp", "symbol": "KDTreeTopology::create_ghost_particles"}, {"file": "GFlowSim/src/base/simdata.cpp", "symbol": "SimData::removeGhostParticles"}]}
{"id": "C40", "title": "Expression evaluation", "statement": "Evaluating an arithmetic expression in a configuration file gives the value of the expression under the usual precedence and left associativity, with variables replaced.", "quantifier": "every well formed expression and variable table", "why_tests_cant": "Infinitely many expressions.", "anchors": [{"file": "GFlowSim/src/other/evaluation.cpp", "symbol": "Eval::evaluate"}, {"file": "GFlowSim/src/other/evaluation.cpp", "symbol": "Eval::parseStringToEvaluate"}]}
{"id": "C41", "title": "Configuration file parsing", "statement": "Parsing the text printed for a tree of headings, parameters and bodies recovers the tree; comments and whitespace do not matter; the parser always terminates.", "quantifier": "every tree, comment placement", "why_tests_cant": "Infinitely many inputs.", "anchors": [{"file": "GFlowSim/src/utility/fileparse.cpp", "symbol": "FileParse::parseFile"}, {"file": "GFlowSim/src/utility/fileparse.cpp", "symbol": "FileParse::getBody"}, {"file": "GFlowSim/src/utility/fileparse.cpp", "symbol": "FileParse::getHeading"}]}
{"id": "C42", "title": "Tree parser traversal", "statement": "Iterating over a heading visits every child with that name exactly once in file order and leaves the focus where it was; argument access never goes outside the data; validation fails exactly if a necessary heading is missing or an unknown heading is present.", "quantifier": "every tree and focus level", "why_tests_cant": "All trees.", "anchors": [{"file": "GFlowSim/src/utility/treeparser.cpp", "symbol": "TreeParser::begin"}, {"file": "GFlowSim/src/utility/treeparser.cpp", "symbol": "TreeParser::next"}, {"file": "GFlowSim/src/utility/treeparser.cpp", "symbol": "TreeParser::end"}, {"file": "GFlowSim/src/utility/treeparser.cpp", "symbol": "TreeParser::check"}]}
{"id": "C43", "title": "Command line options", "statement": "Each -name or -name=value argument is recorded; lookup returns the value given last (or the default when absent); an option never looked up is reported as an error, and only such options.", "quantifier": "every argument vector and query sequence", "why_tests_cant": "All command lines.", "anchors": [{"file": "GFlowSim/src/utility/ArgParse.hpp", "symbol": "ArgParse::parse"}, {"file": "GFlowSim/src/utility/ArgParse.hpp", "symbol": "ArgParse::check"}]}
{"id": "C44", "title": "Groups follow their particles", "statement": "After updating, a group holds exactly its members that are still alive, in the original order, with correct local ids, whatever removals and sorts happened.", "quantifier": "every group and store history", "why_tests_cant": "All histories.", "anchors": [{"file": "GFlowSim/src/other/group.cpp", "symbol": "Group::update_local_ids"}, {"file": "GFlowSim/src/other/group.cpp", "symbol": "Group::add"}]}
{"id": "C45", "title": "Group measurements", "statement": "Group mass, centre of mass, momentum and net force are the sums / weighted means over the members; distance to a point is the minimum over members; velocity and force updates act on members only.", "quantifier": "every group and configuration", "why_tests_cant": "All configurations.", "anchors": [{"file": "GFlowSim/src/other/group.cpp", "symbol": "Group::findCenterOfMass"}, {"file": "GFlowSim/src/other/group.cpp", "symbol": "Group::distance"}, {"file": "GFlowSim/src/other/group.cpp", "symbol": "Group::addVelocity"}]}
{"id": "C46", "title": "Force removal modifiers and constrained bodies", "statement": "The force remover leaves no net force along its projection on the group; a sliding wall body moves rigidly along its axis with the mean acceleration.", "quantifier": "every group, masses, forces", "why_tests_cant": "All configurations.", "anchors": [{"file": "GFlowSim/src/modifiers/force-remover.cpp", "symbol": "ForceRemover::post_forces"}, {"file": "GFlowSim/src/body/wallslidebody.cpp", "symbol": "WallSlideBody::correct"}]}
{"id": "C47", "title": "Maxwell demon bookkeeping", "statement": "Particle counts on the two sides always add up; reverting restores the checkpointed positions and velocities exactly; the door opens only when the demon's rule allows.", "quantifier": "every sequence of checks", "why_tests_cant": "All histories.", "anchors": [{"file": "GFlowSim/src/modifiers/demon.cpp", "symbol": "Demon::post_integrate"}, {"file": "GFlowSim/src/modifiers/demon.cpp", "symbol": "Demon::revert_to_last_checkpoint"}]}
{"id": "C48", "title": "Recording schedule", "statement": "A data object records only while the simulation is in its recording mode, never before the start-record time, and successive recordings are at least the requested delay apart.", "quantifier": "every time-step sequence and delay", "why_tests_cant": "All schedules.", "anchors": [{"file": "GFlowSim/src/base/dataobject.cpp", "symbol": "DataObject::_check"}]}
{"id": "C49", "title": "Recorded series stay aligned", "statement": "All columns of multi-graph data always have equal length and entry i of each column belongs to the same recording; the reported number of points is that length; averaging/gathering keep order.", "quantifier": "every sequence of recordings", "why_tests_cant": "All histories.", "anchors": [{"file": "GFlowSim/src/dataobjects/dataobjecttypes/data-base/multigraphdata.cpp", "symbol": "MultiGraphData::addEntry"}, {"file": "GFlowSim/src/dataobjects/dataobjecttypes/data-base/multigraphdata.hpp", "symbol": "MultiGraphData::size"}]}
{"id": "C50", "title": "Histograms account for every sample", "statement": "Binning a data series puts every in-range value in exactly one bin whose interval contains it, drops out-of-range ones, and never writes outside the bins.", "quantifier": "every data set and bin count", "why_tests_cant": "Edge values.", "anchors": [{"file": "GFlowSim/src/dataobjects/dataobjecttypes/graphobject.cpp", "symbol": "GraphObject::makeBins"}, {"file": "GFlowSim/src/dataobjects/graphobjects/kineticenergybin.cpp", "symbol": "KineticEnergyBin::post_integrate"}, {"file": "GFlowSim/src/dataobjects/multigraphobjects/twowallbinforce.cpp", "symbol": "TwoWallBinForce::post_forces"}, {"file": "GFlowSim/src/dataobjects/graphobjects/group-correlation.cpp", "symbol": "GroupCorrelation::post_step"}, {"file": "GFlowSim/src/dataobjects/graphobjects/center-correlation.cpp", "symbol": "CenterCorrelation::post_step"}, {"file": "GFlowSim/src/compute/binning2d.cpp", "symbol": "Binning2d::bin_data"}, {"file": "GFlowSim/src/dataobjects/dataobjecttypes/volumeplotobject2d.cpp", "symbol": "VolumePlotObject2D::setBins"}]}
{"id": "C51", "title": "Timers add up", "statement": "Total timer time is the sum of the intervals between matching start and stop calls; unmatched calls do not change it.", "quantifier": "every sequence of calls and clock readings", "why_tests_cant": "All call orders.", "anchors": [{"file": "GFlowSim/src/utility/timer.hpp", "symbol": "Timer"}, {"file": "GFlowSim/src/utility/timer.cpp", "symbol": "Timer::stop"}, {"file": "GFlowSim/src/other/timedobject.cpp", "symbol": "TimedObject::stop_timer"}, {"file": "GFlowSim/src/base/datamaster.cpp", "symbol": "DataMaster::markTimer"}]}
{"id": "C52", "title": "Announced sizes are the sizes sent", "statement": "The number of particles a processor is told to expect from a neighbour is the number of particles the neighbour sends it, whenever MPI transports the message.", "quantifier": "every sequence of sizes and every moment of transport", "why_tests_cant": "All interleavings of the calls with MPI's progress.", "anchors": [{"file": "GFlowSim/src/parallel/mpi-communication.hpp", "symbol": "MPIObject::send_single"}, {"file": "GFlowSim/src/parallel/kdtreetopology.tpp", "symbol": "KDTreeTopology::send_particle_data"}]}
{"id": "C53", "title": "Ghosts are sent exactly where they are needed", "statement": "A particle gets a ghost on another processor exactly if some periodic image of it is closer than its cutoff to that processor's region.", "quantifier": "every decomposition, box, particle position and cutoff", "why_tests_cant": "All positions and decompositions.", "anchors": [{"file": "GFlowSim/src/parallel/kdtreetopology.cpp", "symbol": "KDTreeTopology::create_ghost_particles"}, {"file": "GFlowSim/src/parallel/kdtreetopology.cpp", "symbol": "KDTreeTopology::domain_overlaps"}]}
{"id": "C54", "title": "Gathering data keeps rank order", "statement": "Gathering position data on the first processor gives its own data followed by the data of the others in the order of their ranks, for any amounts of data, without deadlock.", "quantifier": "every number of processors, every amount of data, every schedule", "why_tests_cant": "All schedules.", "anchors": [{"file": "GFlowSim/src/parallel/mpi-communication.hpp", "symbol": "MPIObject::mpi_reduce0_position_data"}]}
{"id": "C55", "title": "Forces are minus the derivative of the reported energy", "statement": "For a conservative pair interaction, the force along the line between the particles is minus the derivative, with respect to the distance, of the energy the interaction reports for the pair.", "quantifier": "every pair of radii, distance below the cutoff and parameters", "why_tests_cant": "All real distances.", "anchors": [{"file": "GFlowSim/src/interactions/generic-forces.hpp", "symbol": "HardSphere"}, {"file": "GFlowSim/src/interactions/generic-forces.hpp", "symbol": "LennardJones"}, {"file": "GFlowSim/src/interactions/generic-forces.hpp", "symbol": "Coulomb"}, {"file": "GFlowSim/src/interactions/generic-forces.hpp", "symbol": "Buckingham"}]}
{"id": "C56", "title": "The energy does not depend on the number of processors", "statement": "The total potential energy reported for a pair is the same whether its particles live on the same processor or on two processors.", "quantifier": "every pair, distribution and interaction", "why_tests_cant": "All distributions and positions.", "anchors": [{"file": "GFlowSim/src/base/interaction.hpp", "symbol": "Interaction::interact"}, {"file": "GFlowSim/src/interactions/generic-forces.hpp", "symbol": "HardSphere"}]}
{"id": "C57", "title": "The virial is the sum of displacement times force", "statement": "Each pair adds to the virial the scalar product of the displacement between its particles and the force between them.", "quantifier": "every pair, interaction and position", "why_tests_cant": "All real positions and velocities.", "anchors": [{"file": "GFlowSim/src/interactions/generic-forces.hpp", "symbol": "HardSphereDs"}, {"file": "GFlowSim/src/interactions/generic-forces.hpp", "symbol": "Hooke"}]}
{"id": "C58", "title": "Harmonic bonds obey Hooke's law", "statement": "A harmonic bond of spring constant K and rest length l exerts on its two particles, at distance r, opposite forces of magnitude K*|r-l| towards the rest length.", "quantifier": "every constant, length, dimension and pair of positions", "why_tests_cant": "All real positions.", "anchors": [{"file": "GFlowSim/src/bonded/harmonicbond.cpp", "symbol": "HarmonicBond::interact"}, {"file": "GFlowSim/src/bonded/harmonicbond_2d.cpp", "symbol": "HarmonicBond_2d::interact"}, {"file": "GFlowSim/src/bonded/harmonicbond_3d.cpp", "symbol": "HarmonicBond_3d::interact"}]}
{"id": "C59", "title": "Angular momentum is conserved", "statement": "With velocity-Verlet steps, central pair forces and no periodic images, the total angular momentum (in each coordinate plane) is the same after any number of steps, with any time steps.", "quantifier": "every number of particles, dimension, masses, positions, velocities, list of pairs and time steps", "why_tests_cant": "All real states and numbers of steps.", "anchors": [{"file": "GFlowSim/src/integrators/velocity-verlet.tpp", "symbol": "VelocityVerlet::pre_forces"}, {"file": "GFlowSim/src/integrators/velocity-verlet.tpp", "symbol": "VelocityVerlet::post_forces"}]}
{"id": "C60", "title": "All processors use the same time step", "statement": "With an adaptive time step, all processors use the same time step in every step, and none waits forever for the others to agree on it, whatever velocities and accelerations each of them sees.", "quantifier": "every number of processors, number of steps and velocities", "why_tests_cant": "All histories on all processors.", "anchors": [{"file": "GFlowSim/src/base/integrator.cpp", "symbol": "Integrator::pre_step"}, {"file": "GFlowSim/src/parallel/mpi-communication.hpp", "symbol": "MPIObject::mpi_min"}, {"file": "GFlowSim/src/integrators/overdamped-integrator.tpp", "symbol": "OverdampedIntegrator::calculate_time_step"}]}
{"id": "C61", "title": "A fixed time step is used as set", "statement": "After setAdjustDT(false) and setDT(t), every step of every run has length t.", "quantifier": "every integrator, t and run", "why_tests_cant": "All histories.", "anchors": [{"file": "GFlowSim/src/base/integrator.cpp", "symbol": "Integrator::setDT"}, {"file": "GFlowSim/src/base/integrator.cpp", "symbol": "Integrator::setAdjustDT"}, {"file": "GFlowSim/src/integrators/overdamped-integrator.tpp", "symbol": "OverdampedIntegrator::pre_integrate"}]}
{"id": "C62", "title": "All processors stop together", "statement": "In a run on several processors, all processors stop after the same step, once the requested time is reached or an object on any of them asks to stop, and none waits forever for another.", "quantifier": "every number of processors, time steps, remakes and requests to stop", "why_tests_cant": "All histories on all processors.", "anchors": [{"file": "GFlowSim/src/gflow.cpp", "symbol": "GFlow::run"}, {"file": "GFlowSim/src/gflow.cpp", "symbol": "GFlow::terminate"}, {"file": "GFlowSim/src/gflow.cpp", "symbol": "GFlow::syncRunning"}]}
{"id": "C63", "title": "Checkpoints are written regularly", "statement": "With checkpoints switched on, a checkpoint is written at the first step of a run at which the checkpoint delay has passed since the last one, and not earlier.", "quantifier": "every sequence of runs and steps", "why_tests_cant": "All histories.", "anchors": [{"file": "GFlowSim/src/base/datamaster.cpp", "symbol": "DataMaster::post_step"}]}
{"id": "C64", "title": "Clusters are the connected groups of particles", "statement": "findClusters() puts two particles into the same cluster if and only if a chain of particles, each near the one before (and of its type, if only equal types are asked for), leads from one to the other; the sizes and the largest size are those of these groups, and the percolation snapshot lists exactly the members of each.", "quantifier": "every set of particles, neighbour relation and sequence of calls", "why_tests_cant": "All particle configurations.", "anchors": [{"file": "GFlowSim/src/dataobjects/clustering.cpp", "symbol": "Clustering::findClusters"}, {"file": "GFlowSim/src/dataobjects/percolationsnapshot.cpp", "symbol": "PercolationSnapshot::post_integrate"}]}
{"id": "C65", "title": "Saved files read back", "statement": "A file of recorded frames that is written and then loaded gives back the dimensions, width, number of types, bounds, names and all numbers of all frames, as far as a number can be told from its printed text.", "quantifier": "every header, every number and size of frames, every text a number may be printed as", "why_tests_cant": "All contents.", "anchors": [{"file": "GFlowSim/src/compute/store_data.cpp", "symbol": "StoreData::write"}, {"file": "GFlowSim/src/compute/store_data.cpp", "symbol": "StoreData::writeHeader"}, {"file": "GFlowSim/src/compute/load_data.cpp", "symbol": "LoadData::load"}, {"file": "GFlowSim/src/compute/load_data.hpp", "symbol": "LoadData::getNextNumber"}]}
{"id": "C66", "title": "Recorded frames hold the requested quantities of every particle", "statement": "A recorded frame has one row for each particle inside the recording region that the selection function accepts, in the order of the store, and the row holds the requested vectors, magnitudes, scalars and integers that the simulation has, and the processor.", "quantifier": "every store, set of requested names, region and selection", "why_tests_cant": "All states.", "anchors": [{"file": "GFlowSim/src/compute/store_data.cpp", "symbol": "StoreData::initialize"}, {"file": "GFlowSim/src/compute/store_data.cpp", "symbol": "StoreData::store"}, {"file": "GFlowSim/src/dataobjects/positiondata.cpp", "symbol": "PositionData::pre_integrate"}, {"file": "GFlowSim/src/dataobjects/positiondata.cpp", "symbol": "PositionData::post_step"}]}
{"id": "C67", "title": "Readers of a recording find the quantities", "statement": "When a recording is loaded to make pictures, the position, radius and the quantity used for colouring that are taken for a particle are the ones the simulation had when the frame was recorded.", "quantifier": "every store, set of requested names, frame and choice of colouring", "why_tests_cant": "All states and files.", "anchors": [{"file": "GFlowSim/src/visualization/visualization.cpp", "symbol": "Visualization::findPlaces"}, {"file": "GFlowSim/src/visualization/visualization.cpp", "symbol": "Visualization::get_values"}, {"file": "GFlowSim/src/compute/load_data.cpp", "symbol": "LoadData::getEntries"}]}
{"id": "C68", "title": "Driven particles move as told", "statement": "A particle with a constant velocity moves uniformly with that velocity whatever the forces on it, one with a distance stops after it, and one with a constant acceleration and no other force follows the parabola; immovable particles are not accelerated. This holds for as long as the particle exists.", "quantifier": "every particle, velocity, acceleration, sequence of time steps and forces, other modifiers", "why_tests_cant": "All runs.", "anchors": [{"file": "GFlowSim/src/modifiers/constantvelocity.cpp", "symbol": "ConstantVelocity::post_forces"}, {"file": "GFlowSim/src/modifiers/constantvelocitydistance.cpp", "symbol": "ConstantVelocityDistance::post_forces"}, {"file": "GFlowSim/src/modifiers/constantacceleration.cpp", "symbol": "ConstantAcceleration::post_forces"}, {"file": "GFlowSim/src/gflow.cpp", "symbol": "GFlow::run"}]}
{"id": "C69", "title": "Damping slows particles down", "statement": "A particle on which nothing but a damping modifier acts never becomes faster; linear damping with constant d decreases the velocity at the rate d v / m.", "quantifier": "every particle, constant and sequence of time steps", "why_tests_cant": "All runs.", "anchors": [{"file": "GFlowSim/src/modifiers/linearvelocitydamping.cpp", "symbol": "LinearVelocityDamping::pre_forces"}, {"file": "GFlowSim/src/modifiers/quadraticvelocitydamping.cpp", "symbol": "QuadraticVelocityDamping::pre_forces"}]}
{"id": "C70", "title": "Tunnels drive only the particles at their ends", "statement": "A wind or stream tunnel sets the velocity of the particles within a tenth of the box from its ends to the tunnel velocity (plus a term proportional to the force) and has no effect on the others; walls stay where they are.", "quantifier": "every box, velocity, particle, force and time step", "why_tests_cant": "All states.", "anchors": [{"file": "GFlowSim/src/modifiers/windtunnel.cpp", "symbol": "WindTunnel::post_forces"}, {"file": "GFlowSim/src/modifiers/stream-tunnel.cpp", "symbol": "StreamTunnel::post_forces"}]}
{"id": "C71", "title": "The stream of new particles is regular", "statement": "The columns of particles that a stream tunnel creates are the points of one lattice that moves with the tunnel: no gap, no repetition, none outside the box and none too late, whatever the time steps; the rows of a column are shared by the processors without gap or repetition, and the spacing suits the particles.", "quantifier": "every spacing, velocity, sequence of times, division into processors", "why_tests_cant": "All schedules.", "anchors": [{"file": "GFlowSim/src/modifiers/stream-tunnel.cpp", "symbol": "StreamTunnel::pre_forces"}, {"file": "GFlowSim/src/modifiers/stream-tunnel.cpp", "symbol": "StreamTunnel::recursive_fill"}, {"file": "GFlowSim/src/modifiers/stream-tunnel.cpp", "symbol": "StreamTunnel::pre_integrate"}]}
{"id": "C72", "title": "The thermostat acts at its interval", "statement": "A thermostat adds its random force and drag at the first step at which its update delay has passed since it last did, in every run, and never if the temperature is not positive.", "quantifier": "every delay, temperature and sequence of times", "why_tests_cant": "All schedules.", "anchors": [{"file": "GFlowSim/src/modifiers/temperaturemodifier.cpp", "symbol": "TemperatureModifier::post_forces"}]}
{"id": "C73", "title": "Two walls are kept within their distances", "statement": "Two walls that are further apart than the maximal distance are pulled together, closer than the minimal distance pushed apart, in between left alone; the forces on the two walls are opposite.", "quantifier": "every distance, limits and walls", "why_tests_cant": "All states.", "anchors": [{"file": "GFlowSim/src/modifiers/twowallmodifier.cpp", "symbol": "TwoWallModifier::post_forces"}, {"file": "GFlowSim/src/other/group.cpp", "symbol": "Group::addAcceleration"}]}
{"id": "C74", "title": "Recorded energies and means are those of the particles", "statement": "The recorded kinetic, rotational and total energies are the sums over all particles with finite mass on all processors (plus the potential energies), the recorded means divide by their number (or mass); how the particles are divided among processors and ordered does not matter.", "quantifier": "every state of the stores, division into processors and potential energies", "why_tests_cant": "All states and divisions.", "anchors": [{"file": "GFlowSim/src/dataobjects/graphobjects/kineticenergydata.cpp", "symbol": "KineticEnergyData::calculate_kinetic"}, {"file": "GFlowSim/src/dataobjects/graphobjects/total-energy-data.cpp", "symbol": "TotalEnergyData::post_step"}, {"file": "GFlowSim/src/dataobjects/graphobjects/rotational-energy-data.cpp", "symbol": "RotationalEnergyData::post_step"}, {"file": "GFlowSim/src/dataobjects/graphobjects/average-speed-data.cpp", "symbol": "AverageSpeedData::post_step"}, {"file": "GFlowSim/src/dataobjects/graphobjects/average-omega-data.cpp", "symbol": "AverageOmegaData::post_step"}]}
{"id": "C75", "title": "Recorded numbers count every particle once", "statement": "The recorded numbers of particles by type, their volume fraction and their energies by type count every particle of every processor exactly once and no removed particle.", "quantifier": "every state of the stores, number of types and division into processors", "why_tests_cant": "All states.", "anchors": [{"file": "GFlowSim/src/dataobjects/multigraphobjects/number-data.cpp", "symbol": "NumberData::post_step"}, {"file": "GFlowSim/src/dataobjects/multigraphobjects/phi-data.cpp", "symbol": "PhiData::post_step"}, {"file": "GFlowSim/src/dataobjects/kineticenergytypesdata.cpp", "symbol": "KineticEnergyTypesData::post_step"}]}
{"id": "C76", "title": "Temperature and pressure", "statement": "The temperature T satisfies the equipartition law for the movable particles, and the recorded pressure is p V / (N k T) = 1 + W / (d N k T), with W the virial, on any number of processors.", "quantifier": "every state of the stores, box, dimension, virials and division into processors", "why_tests_cant": "All states.", "anchors": [{"file": "GFlowSim/src/dataobjects/graphobjects/kineticenergydata.cpp", "symbol": "KineticEnergyData::calculate_temperature"}, {"file": "GFlowSim/src/dataobjects/graphobjects/pressuredata.cpp", "symbol": "PressureData::calculate_pressure"}]}
{"id": "C77", "title": "Averages over a region", "statement": "The recorded average position and velocity are the means over the movable particles in the middle of the box on all processors; the cavity statistics are the number and mean position of the slow particles in the region.", "quantifier": "every state of the stores, box, region and division into processors", "why_tests_cant": "All states.", "anchors": [{"file": "GFlowSim/src/dataobjects/multigraphobjects/average-position-data.cpp", "symbol": "AveragePositionData::post_step"}, {"file": "GFlowSim/src/dataobjects/multigraphobjects/average-velocity-data.cpp", "symbol": "AverageVelocityData::post_step"}, {"file": "GFlowSim/src/dataobjects/multigraphobjects/cavity-statistics.cpp", "symbol": "CavityStatistics::post_step"}]}
{"id": "C78", "title": "Rays meet spheres and the box where geometry says", "statement": "For any ray of unit direction, the entry and exit distances reported for a sphere are exactly the distances at which the ray is in the sphere, the distances reported for the scene's box are exactly those at which it is in the box, and nothing is reported only if the ray misses it.", "quantifier": "every ray, sphere, box and minimal distance", "why_tests_cant": "All rays, spheres and boxes (real numbers).", "anchors": [{"file": "GFlowSim/src/visualization/raytracestructs.cpp", "symbol": "Sphere::intersect"}, {"file": "GFlowSim/src/visualization/raykdtree.cpp", "symbol": "RayKDTree::getRayIntersectionParameters"}]}
{"id": "C79", "title": "Pictures show the nearest sphere", "statement": "A pixel shows a sphere that its ray meets, background only if its ray meets no sphere in the box, and among the spheres met in the box the nearest one, however the space was divided for the search.", "quantifier": "every set of spheres, division tree, box and ray", "why_tests_cant": "All scenes and trees.", "anchors": [{"file": "GFlowSim/src/visualization/raykdtree.cpp", "symbol": "RayKDTreeNode::traverse"}, {"file": "GFlowSim/src/visualization/raykdtree.cpp", "symbol": "RayKDTreeNode::insert"}, {"file": "GFlowSim/src/visualization/raytrace.cpp", "symbol": "RayTrace::createKDTree"}]}
{"id": "C80", "title": "Cameras, pixels and colours", "statement": "The camera's directions are made perpendicular unit vectors that keep the chosen direction and the side that is up; each pixel has its own ray, at the pixel's place on the screen; shaded colours lie between the base illumination and the sphere's own colour.", "quantifier": "every orientation, up vector, resolution, pixel, colour and light direction", "why_tests_cant": "All vectors and colours.", "anchors": [{"file": "GFlowSim/src/visualization/raytrace.cpp", "symbol": "RayTrace::initialize"}, {"file": "GFlowSim/src/visualization/raytrace.cpp", "symbol": "RayTrace::render"}, {"file": "GFlowSim/src/visualization/raytrace.cpp", "symbol": "RayTrace::trace"}]}
{"id": "C81", "title": "Regions contain what is picked from them", "statement": "A position picked from a region lies in the region: rectangles are sampled evenly, balls by rejection from their bounding box; picking ends when a draw falls in the ball; membership tests agree with geometry.", "quantifier": "every region, dimension and sequence of random numbers", "why_tests_cant": "All random sequences.", "anchors": [{"file": "GFlowSim/src/other/region.cpp", "symbol": "RectangularRegion::pick_position"}, {"file": "GFlowSim/src/other/region.cpp", "symbol": "SphericalRegion::pick_position"}, {"file": "GFlowSim/src/other/region.cpp", "symbol": "SphericalRegion::contains"}, {"file": "GFlowSim/src/other/region.cpp", "symbol": "SphericalRegion::get_bounding_box"}]}
{"id": "C82", "title": "Filling a region to a density", "statement": "Filling a region to a volume fraction or number density adds particles only in the region and outside excluded regions, with consecutive ids and a fixer each, reaches the density and not more than one particle above it, and ends; on several processors each adds only within its own bounds.", "quantifier": "every region, density, size distribution, exclusion, processor bounds and sequence of random numbers", "why_tests_cant": "All random sequences and regions.", "anchors": [{"file": "GFlowSim/src/creators/fillareacreator.cpp", "symbol": "FillAreaCreator::createArea"}]}
{"id": "C83", "title": "Filling a region with a number of particles", "statement": "Filling a region by number adds exactly the number of particles asked for of each template, in the region, outside of excluded regions, with consecutive ids and a fixer each.", "quantifier": "every region, list of templates and numbers, and sequence of random numbers", "why_tests_cant": "All random sequences and numbers.", "anchors": [{"file": "GFlowSim/src/creators/fillareacreator.cpp", "symbol": "FillAreaCreator::createArea"}]}
{"id": "C84", "title": "Initial temperature of new particles", "statement": "Particles created with a temperature have exactly that temperature: their kinetic energy is dims/2 kB T per particle, and rescaling keeps directions.", "quantifier": "every set of velocities, masses, temperature and dimension", "why_tests_cant": "All velocities (real numbers).", "anchors": [{"file": "GFlowSim/src/creators/fillareacreator.cpp", "symbol": "FillAreaCreator::createArea"}]}
{"id": "C85", "title": "Particle templates give the masses, sizes and types described", "statement": "Inverse masses match the mass or density asked for, sizes lie between the bounds given, discrete values come with the probabilities listed, equiprobable types have equal chances.", "quantifier": "every template description and random number", "why_tests_cant": "All descriptions and random numbers.", "anchors": [{"file": "GFlowSim/src/creators/particletemplate.cpp", "symbol": "ParticleTemplate::createParticle"}, {"file": "GFlowSim/src/creators/helperclasses/parse-constructor.cpp", "symbol": "ParseConstructor::getRandomEngine"}, {"file": "GFlowSim/src/utility/randomengines.hpp", "symbol": "ProportionalRandomEngine::generate"}]}
{"id": "C86", "title": "Walls of particles", "statement": "A wall between two points consists of equal spheres on the segment, within its ends, that do not overlap, with gaps smaller than a sphere, at a spacing not larger than the one asked for.", "quantifier": "every pair of points, radius and spacing", "why_tests_cant": "All points and radii (real numbers).", "anchors": [{"file": "GFlowSim/src/creators/wallcreator.cpp", "symbol": "WallCreator::createArea"}]}
{"id": "C87", "title": "Circles and spheres of particles", "statement": "The particles of a circle or (hyper)sphere lie exactly on it, no point of it is far from a particle, in the plane neighbours touch or overlap for scales from 1 on, and several processors together place each particle once.", "quantifier": "every centre, radius, particle size, scale and number of dimensions from 2 on", "why_tests_cant": "All dimensions and radii (real numbers).", "anchors": [{"file": "GFlowSim/src/creators/circle-creator.cpp", "symbol": "CircleCreator::recursive_circle"}]}
{"id": "C88", "title": "Polymers", "statement": "A random polymer has the number of primary particles its packing asks for, neighbours at a fixed distance, primaries that never overlap, the length asked for, consecutive ids, and bonds between all neighbours.", "quantifier": "every radius, length, packing, box and sequence of random numbers", "why_tests_cant": "All random sequences and lengths.", "anchors": [{"file": "GFlowSim/src/creators/polymercreator.cpp", "symbol": "PolymerCreator::createPolymerArrangement"}, {"file": "GFlowSim/src/creators/polymercreator.cpp", "symbol": "PolymerCreator::createSinglePolymer"}, {"file": "GFlowSim/src/creators/polymercreator.cpp", "symbol": "PolymerCreator::make_bond_objects"}]}
{"id": "C89", "title": "Lines of particles", "statement": "A random or ordered line holds as many particles as fit in its packing; they do not overlap and lie within the length; ordered lines are evenly spaced.", "quantifier": "every length, packing, spacing and sequence of random numbers", "why_tests_cant": "All random sequences and lengths.", "anchors": [{"file": "GFlowSim/src/creators/polymercreator.cpp", "symbol": "PolymerCreator::createRandomLine"}, {"file": "GFlowSim/src/creators/polymercreator.cpp", "symbol": "PolymerCreator::createOrderedLine"}]}
{"id": "C90", "title": "Boxes of particles", "statement": "The box creator fills its box to the volume fraction asked for, with all particles in the box.", "quantifier": "every width, height, packing, particle volume, dimension and sequence of random numbers", "why_tests_cant": "All boxes and random sequences.", "anchors": [{"file": "GFlowSim/src/creators/boxcreator.cpp", "symbol": "BoxCreator::createSimulation"}]}
{"id": "C91", "title": "Variables of a configuration file", "statement": "Each Var line declares a variable, each Value line a computed one, in the order of the file; the first declaration of a name counts, the command line overrides the value in the file, preset variables override both; a use of a variable means its value.", "quantifier": "every configuration file, command line and set of preset variables", "why_tests_cant": "All files and command lines.", "anchors": [{"file": "GFlowSim/src/creators/fileparsecreator.cpp", "symbol": "FileParseCreator::createSimulation"}, {"file": "GFlowSim/src/creators/fileparsecreator.cpp", "symbol": "FileParseCreator::setVariable"}, {"file": "GFlowSim/src/utility/ArgParse.hpp", "symbol": "ArgParse::get"}]}
{"id": "C92", "title": "The box of a configuration file", "statement": "The dimension, bounds and boundary conditions of the simulation are those of the lines Dimensions, Bounds and Boundary: a box, an interval per dimension, or the bounding box of a ball; one boundary condition for all or one per dimension; anything else is refused.", "quantifier": "every configuration file", "why_tests_cant": "All files.", "anchors": [{"file": "GFlowSim/src/creators/fileparsecreator.cpp", "symbol": "FileParseCreator::createFromOptions"}, {"file": "GFlowSim/src/creators/helperclasses/parse-constructor.cpp", "symbol": "ParseConstructor::parse_region"}, {"file": "GFlowSim/src/creators/fileparsecreator.cpp", "symbol": "FileParseCreator::choose_bc"}]}
{"id": "C93", "title": "The interactions of a configuration file", "statement": "The table of a Force-grid heading gives each pair of types, in either order, the interaction its line names, with the parameters of the line; a single name holds for all pairs; Random draws one of three per pair; bad lines are refused.", "quantifier": "every configuration file and sequence of random numbers", "why_tests_cant": "All tables.", "anchors": [{"file": "GFlowSim/src/creators/fileparsecreator.cpp", "symbol": "FileParseCreator::createFromOptions"}, {"file": "GFlowSim/src/creators/fileparsecreator.cpp", "symbol": "FileParseCreator::makeRandomForces"}, {"file": "GFlowSim/src/interactions/interaction-choice.cpp", "symbol": "InteractionChoice::choose"}, {"file": "GFlowSim/src/creators/helperclasses/parse-constructor.cpp", "symbol": "ParseConstructor::getInteraction"}]}
{"id": "C94", "title": "Single particles of a configuration file", "statement": "A Particle heading creates one particle with the position, velocity, radius, mass and type of its lines, and the modifiers it lists; a heading without position, velocity or radius is refused.", "quantifier": "every Particle heading", "why_tests_cant": "All headings.", "anchors": [{"file": "GFlowSim/src/creators/fileparsecreator.cpp", "symbol": "FileParseCreator::createParticle"}]}
{"id": "C95", "title": "The integrator of a configuration file", "statement": "The integrator is the one named with the settings given; what is not given has its default; unknown names are refused.", "quantifier": "every configuration file", "why_tests_cant": "All files.", "anchors": [{"file": "GFlowSim/src/creators/fileparsecreator.cpp", "symbol": "FileParseCreator::choose_integrator"}, {"file": "GFlowSim/src/applications/driver.cpp", "symbol": "main"}]}
{"id": "C96", "title": "Relaxing a new simulation", "statement": "Relaxing a simulation moves its particles only: afterwards the simulation has its own integrator and forces again, no simulated time has passed, no forces are left on the particles, nothing was recorded, and a later run is as without relaxation.", "quantifier": "every simulation, on any number of processors, and whatever the relaxation does to the particles", "why_tests_cant": "All simulations and relaxations.", "anchors": [{"file": "GFlowSim/src/base/creator.cpp", "symbol": "Creator::hs_relax"}, {"file": "GFlowSim/src/base/creator.cpp", "symbol": "Creator::relax"}, {"file": "GFlowSim/src/gflow.cpp", "symbol": "GFlow::run"}, {"file": "GFlowSim/src/gflow.cpp", "symbol": "GFlow::initialize"}]}
{"id": "C97", "title": "Velocities after relaxing", "statement": "After relaxation each particle that was created with a velocity has this velocity again; nothing else changes.", "quantifier": "every store of particles and list of velocities by id", "why_tests_cant": "All stores.", "anchors": [{"file": "GFlowSim/src/base/creator.cpp", "symbol": "Creator::fix_particle_velocities"}]}
{"id": "C98", "title": "Langevin dynamics", "statement": "Each step is velocity Verlet with the forces, a drag of 6 pi viscosity radius velocity, and a random force, of the size the temperature sets; without temperature a free particle slows down.", "quantifier": "every system of particles, time step, temperature, viscosity and sequence of random numbers", "why_tests_cant": "All steps and runs; random.", "anchors": [{"file": "GFlowSim/src/integrators/langevinintegrator.cpp", "symbol": "LangevinIntegrator::pre_forces"}, {"file": "GFlowSim/src/integrators/langevinintegrator.cpp", "symbol": "LangevinIntegrator::post_forces"}, {"file": "GFlowSim/src/integrators/langevintypeintegrator.cpp", "symbol": "LangevinTypeIntegrator"}]}
{"id": "C99", "title": "Overdamped Langevin dynamics", "statement": "Each step moves each particle with a velocity proportional to the force on it, random force included, and inversely proportional to the viscosity.", "quantifier": "every system of particles, time step, temperature, viscosity and sequence of random numbers", "why_tests_cant": "All steps; random.", "anchors": [{"file": "GFlowSim/src/integrators/overdampedlangevin.cpp", "symbol": "OverdampedLangevinIntegrator::post_forces"}]}
{"id": "C100", "title": "Nose-Hoover thermostat", "statement": "Each half step kicks the velocities with the force and the friction of the thermostat, and changes the friction by the difference of the kinetic energy from the one of the temperature; the temperature is the one set, or that of the particles after the waiting time.", "quantifier": "every system of particles, time step and state of the thermostat", "why_tests_cant": "All half steps.", "anchors": [{"file": "GFlowSim/src/integrators/nose-hoover-velocity-verlet.tpp", "symbol": "NoseHooverVelocityVerlet::update_velocities"}]}
{"id": "C101", "title": "Neighbour pairs of a processor", "statement": "On one of several processors the neighbour search pairs, once each, all own particles that are within interaction range of each other in the simulation box; dead or non-interacting particles are not paired, and no particle with itself.", "quantifier": "every decomposition into regions, boundary condition, cell size and placement of the processor's particles, also beyond open borders", "why_tests_cant": "All regions, borders and placements.", "anchors": [{"file": "GFlowSim/src/domains/domain.cpp", "symbol": "Domain::traversePairs"}, {"file": "GFlowSim/src/domains/domain.cpp", "symbol": "Domain::calculate_domain_cell_dimensions"}, {"file": "GFlowSim/src/base/domainbase.cpp", "symbol": "DomainBase::get_cell_index"}, {"file": "GFlowSim/src/base/interactionhandler.cpp", "symbol": "InteractionHandler::assign_border_types"}]}
{"id": "C102", "title": "Pairs of ghosts and own particles", "statement": "Each ghost is paired, once, with each own particle within interaction range, with no dead or non-interacting ones, and the pair is given to the interaction of the two particles' types.", "quantifier": "every decomposition, ghosts anywhere outside the region, any own particles", "why_tests_cant": "All regions and placements of ghosts.", "anchors": [{"file": "GFlowSim/src/domains/domain.cpp", "symbol": "Domain::traverseGhostPairs"}, {"file": "GFlowSim/src/base/domainbase.cpp", "symbol": "DomainBase::get_halo_cell_index"}, {"file": "GFlowSim/src/base/interactionhandler.cpp", "symbol": "InteractionHandler::pair_interaction"}]}
{"id": "C103", "title": "Pairs across processors", "statement": "Two particles on different processors that are within interaction range in the simulation box interact on both: each has a ghost on the other's processor, at the image nearest to the region, which the neighbour search pairs with the other.", "quantifier": "every decomposition, boundary condition and pair of particles on different processors", "why_tests_cant": "All decompositions and pairs of positions.", "anchors": [{"file": "GFlowSim/src/parallel/kdtreetopology.cpp", "symbol": "KDTreeTopology::create_ghost_particles"}, {"file": "GFlowSim/src/domains/domain.cpp", "symbol": "Domain::traverseGhostPairs"}, {"file": "GFlowSim/src/base/simdata.cpp", "symbol": "SimData::pack_buffer_relative"}]}
{"id": "C104", "title": "All processors rebuild together", "statement": "In every step either all processors rebuild their neighbour lists and exchange particles, or none does: when one of them needs it (checked in every step), after the number of steps set, or (decision type 2) after the smallest number of steps after which one of them needed it the last time (one more than before if none did).", "quantifier": "every number of processors and every sequence of steps, whatever each processor finds in each of them", "why_tests_cant": "All histories on all processors.", "anchors": [{"file": "GFlowSim/src/base/interactionhandler.cpp", "symbol": "InteractionHandler::pre_forces"}, {"file": "GFlowSim/src/parallel/mpi-communication.hpp", "symbol": "mpi_or"}, {"file": "GFlowSim/src/parallel/mpi-communication.hpp", "symbol": "mpi_min"}]}
{"id": "C105", "title": "All processors have the same cells", "statement": "All processors use the same largest radius of a small particle, the same skin depth and the same cell size: the largest of the radii that they find, and the mean of the skin depths they choose (or the one set).", "quantifier": "every number of processors and distribution of particles", "why_tests_cant": "All distributions.", "anchors": [{"file": "GFlowSim/src/base/interactionhandler.cpp", "symbol": "InteractionHandler::calculate_max_small_sigma"}, {"file": "GFlowSim/src/base/interactionhandler.cpp", "symbol": "InteractionHandler::calculate_skin_depth"}, {"file": "GFlowSim/src/base/domainbase.cpp", "symbol": "DomainBase::initialize"}]}
{"id": "C106", "title": "Picture files have the standard layout", "statement": "A picture is written as a bitmap file: signature BM, the true file size, the offset of the pixels, a 40 byte header with width, height, one plane, the depth, the compression and the size of the pixel data, the colour table (depths below 16), then the rows from bottom to top, each as blue, green, red (depth 24) and filled with zeros up to a multiple of four bytes.", "quantifier": "every picture of every size and depth", "why_tests_cant": "All pictures.", "anchors": [{"file": "GFlowSim/src/EasyBMP/EasyBMP.cpp", "symbol": "BMP::WriteToFile"}, {"file": "GFlowSim/src/visualization/palette.cpp", "symbol": "Palette::writeToFile"}]}
{"id": "C107", "title": "Pictures read back", "statement": "A picture written to a file and read has the same size and the same pixels: exactly for depth 32, the colour for depth 24, the upper five bits of every colour for depth 16, the nearest colour of its table for depths 1, 4 and 8. Files with another signature are refused; damaged files are reported.", "quantifier": "every picture, and every file", "why_tests_cant": "All pictures and files.", "anchors": [{"file": "GFlowSim/src/EasyBMP/EasyBMP.cpp", "symbol": "BMP::WriteToFile"}, {"file": "GFlowSim/src/EasyBMP/EasyBMP.cpp", "symbol": "BMP::ReadFromFile"}, {"file": "GFlowSim/src/EasyBMP/EasyBMP.cpp", "symbol": "BMP::FindClosestColor"}]}
{"id": "C108", "title": "A pixel shows what was drawn nearest", "statement": "Every pixel of a picture file shows the colour of the least depth that was drawn there, the first one drawn among equal depths, and black where nothing was drawn. Nothing is ever drawn outside of the picture. Covering a palette draws exactly its pixels.", "quantifier": "every picture and every sequence of drawing calls on its palettes", "why_tests_cant": "All drawing histories.", "anchors": [{"file": "GFlowSim/src/visualization/palette.cpp", "symbol": "Image::set"}, {"file": "GFlowSim/src/visualization/palette.cpp", "symbol": "Image::setBMP"}, {"file": "GFlowSim/src/visualization/palette.cpp", "symbol": "Palette::setPixel"}, {"file": "GFlowSim/src/visualization/palette.cpp", "symbol": "Palette::coverPalette"}]}
{"id": "C109", "title": "Circles are discs of pixels, wrapped at the edges", "statement": "A circle is drawn at its depth on exactly the pixels of its palette within its radius of the pixel of its centre, also across the edges if wrapping is on, in the colour that belongs to the place in the circle.", "quantifier": "every palette, centre, radius, colour function and depth", "why_tests_cant": "All sizes and places.", "anchors": [{"file": "GFlowSim/src/visualization/palette.cpp", "symbol": "Palette::drawCircle"}]}
{"id": "C110", "title": "Sub-palettes are the asked part of a palette", "statement": "The sub-palette from column mx to Mx and row my to My consists of these pixels of its palette; the centred sub-palette leaves the same border on all sides; the largest centred one with a given ratio of the sides lies inside the palette, fills one direction and has the ratio to within a pixel.", "quantifier": "every palette and every range, border and ratio", "why_tests_cant": "All sizes.", "anchors": [{"file": "GFlowSim/src/visualization/palette.cpp", "symbol": "Palette::getSubPalette"}, {"file": "GFlowSim/src/visualization/palette.cpp", "symbol": "Palette::getSubPaletteCentered"}, {"file": "GFlowSim/src/visualization/palette.cpp", "symbol": "Palette::getMaxCenteredSubPalette"}]}
{"id": "C111", "title": "Lines follow the straight line between their ends", "statement": "A line is the same from both ends, has in every column (row, if it is steep) from end to end the two pixels next to the straight line and no others, each the fainter the farther away it is, mixed with what was there before.", "quantifier": "every two end points and colour", "why_tests_cant": "All lines.", "anchors": [{"file": "GFlowSim/src/visualization/palette.cpp", "symbol": "Palette::drawLine_WuAlgorithm"}]}
{"id": "C112", "title": "A picture lives as long as its palettes", "statement": "A palette never loses its picture, and the picture is released exactly once, when the last palette that refers to it is gone.", "quantifier": "every sequence of constructions, copies, sub-palettes, assignments and destructions", "why_tests_cant": "All object histories.", "anchors": [{"file": "GFlowSim/src/visualization/palette.cpp", "symbol": "Palette::~Palette"}, {"file": "GFlowSim/src/visualization/palette.cpp", "symbol": "Palette::Palette"}, {"file": "GFlowSim/src/visualization/palette.cpp", "symbol": "Palette::operator="}]}
{"id": "C113", "title": "Pictures show the particles where they are", "statement": "A picture of a two dimensional system has the asked resolution along the longer side; every pixel shows the first particle (in the order of the data) whose disc covers it, darker towards the rim, across the edges if wrapping is on, and is black otherwise. The particles are drawn in a region inside of the border with the proportions of the system.", "quantifier": "every system, resolution and list of particles", "why_tests_cant": "All pictures.", "anchors": [{"file": "GFlowSim/src/visualization/visualization.cpp", "symbol": "Visualization::createImage"}]}
{"id": "C114", "title": "Pictures use the data with the right name", "statement": "Position, radius and the value that determines the colour of a particle are the entries of its data with the right names, for every set of stored data; a picture is refused if positions or radii were not stored. A predefined colour option uses the preferred data that was stored, and the same option always colours the same way.", "quantifier": "every set of stored names, every data, every sequence of options", "why_tests_cant": "All data sets.", "anchors": [{"file": "GFlowSim/src/visualization/visualization.cpp", "symbol": "Visualization::findPlaces"}, {"file": "GFlowSim/src/visualization/visualization.cpp", "symbol": "Visualization::get_values"}, {"file": "GFlowSim/src/visualization/visualization.cpp", "symbol": "Visualization::do_checks"}, {"file": "GFlowSim/src/visualization/visualization.cpp", "symbol": "Visualization::setColorOption"}]}
{"id": "C115", "title": "Colours tell the values", "statement": "The scales are the least, largest and average value of the data. Colours by value go from blue (least) to red (largest) monotonically; stripes divide the range in equal parts, one for each colour; colours by number are equal for equal numbers and different for small different ones.", "quantifier": "every list of values and of colours", "why_tests_cant": "All values.", "anchors": [{"file": "GFlowSim/src/visualization/visualization.cpp", "symbol": "Visualization::determine_color"}, {"file": "GFlowSim/src/visualization/visualization.cpp", "symbol": "Visualization::findScalarScaleFactors"}, {"file": "GFlowSim/src/visualization/visualization.cpp", "symbol": "Visualization::getColor"}]}
{"id": "C116", "title": "Every run is recorded from its start", "statement": "When the same simulation is run several times, each run is recorded by each data object as if it were the first: recordings from the start of recording on, at least the delay apart, and none missing; the data holds the recordings of the last run.", "quantifier": "every number of runs, every sequence of step times, every delay", "why_tests_cant": "All histories of runs.", "anchors": [{"file": "GFlowSim/src/base/dataobject.cpp", "symbol": "DataObject::pre_integrate"}, {"file": "GFlowSim/src/dataobjects/dataobjecttypes/graphobject.cpp", "symbol": "GraphObject::pre_integrate"}, {"file": "GFlowSim/src/dataobjects/graphobjects/persistence-length.cpp", "symbol": "PersistenceLength::pre_integrate"}, {"file": "GFlowSim/src/dataobjects/graphobjects/pressuredata.cpp", "symbol": "PressureData::pre_integrate"}, {"file": "GFlowSim/src/dataobjects/graphobjects/total-energy-data.cpp", "symbol": "TotalEnergyData::pre_integrate"}, {"file": "GFlowSim/src/dataobjects/twogroupstatistics.cpp", "symbol": "TwoGroupStatistics::pre_integrate"}]}
{"id": "C117", "title": "Rotation of a group", "statement": "The recorded moment of inertia, angular momentum and torque of a group in two dimensions are those of its members about their centre of mass; a group in rigid rotation has an angular momentum of angular velocity times moment of inertia, and forces towards the centre and common accelerations do not contribute to the torque.", "quantifier": "every world, every group", "why_tests_cant": "All groups.", "anchors": [{"file": "GFlowSim/src/dataobjects/multigraphobjects/groupangular.cpp", "symbol": "GroupAngular::calculate_angular_quantities"}, {"file": "GFlowSim/src/dataobjects/graphobjects/grouptorque.cpp", "symbol": "GroupTorque::calculate_torque"}]}
{"id": "C118", "title": "Persistence length of a chain", "statement": "After a run entry k of the persistence length data of a chain is the number of bonds k and the average over the recordings of the cosine of the angle between the first bond and the bond k further on.", "quantifier": "every chain, every sequence of recordings", "why_tests_cant": "All chains and runs.", "anchors": [{"file": "GFlowSim/src/dataobjects/graphobjects/persistence-length.cpp", "symbol": "PersistenceLength::post_step"}, {"file": "GFlowSim/src/dataobjects/graphobjects/persistence-length.cpp", "symbol": "PersistenceLength::post_integrate"}]}
{"id": "C119", "title": "Forces between polymers by distance", "statement": "The forces on the particles of a polymer are recorded, along the direction to the closest point of the line between the two closest particles of the other polymer, in the bin of the distance to it; each distance is in one bin, and a line of the result is the middle of the bin and the mean of its samples per diameter.", "quantifier": "every world, every two polymers, every bin", "why_tests_cant": "All positions.", "anchors": [{"file": "GFlowSim/src/dataobjects/multigraphobjects/twopolymerbinforce.cpp", "symbol": "TwoPolymerBinForce::find_forces"}, {"file": "GFlowSim/src/dataobjects/multigraphobjects/twopolymerbinforce.cpp", "symbol": "TwoPolymerBinForce::post_integrate"}]}
{"id": "C120", "title": "Histograms of two groups", "statement": "An entry of the histograms of two groups is the number of recordings with distance and relative velocity (force) in its bin, for the bins of equal width between the limits; the file labels each entry with its bin.", "quantifier": "every sequence of recordings, every limits and numbers of bins", "why_tests_cant": "All sequences.", "anchors": [{"file": "GFlowSim/src/dataobjects/twogroupstatistics.cpp", "symbol": "TwoGroupStatistics::post_step"}, {"file": "GFlowSim/src/dataobjects/twogroupstatistics.cpp", "symbol": "TwoGroupStatistics::writeToFile"}]}
{"id": "C121", "title": "Recorded parameters", "statement": "A recorded parameter is found with its value, the last one recorded for the name; the variable is untouched if there is none. The file has each name once, in alphabetical order.", "quantifier": "every sequence of records", "why_tests_cant": "All sequences.", "anchors": [{"file": "GFlowSim/src/dataobjects/parameters.cpp", "symbol": "Parameters::addRecord"}, {"file": "GFlowSim/src/dataobjects/parameters.cpp", "symbol": "Parameters::find"}, {"file": "GFlowSim/src/dataobjects/parameters.cpp", "symbol": "Parameters::writeToFile"}]}
{"id": "C122", "title": "Tables of run statistics", "statement": "A table written as CSV has a line with the names and a line for each row; all lines have the same number of fields, in the order the columns were added; a column with percentages has a second field with the value over the total, times 100; a value that is missing is an empty field.", "quantifier": "every table whose names have neither commas nor newlines", "why_tests_cant": "All tables.", "anchors": [{"file": "GFlowSim/src/utility/database.cpp", "symbol": "DataBase::printToCSV"}, {"file": "GFlowSim/src/utility/database.hpp", "symbol": "Entry::print"}, {"file": "GFlowSim/src/utility/database.cpp", "symbol": "DataBase::addColumn"}]}
{"id": "C123", "title": "Printed times", "statement": "A time of a minute or more is printed as minutes:seconds, and from an hour on as hours:minutes:seconds; the numbers give back the time to the second.", "quantifier": "every time of at least 60 seconds", "why_tests_cant": "All times.", "anchors": [{"file": "GFlowSim/src/utility/utility.hpp", "symbol": "printAsTime"}]}
{"id": "C124", "title": "The length of a video", "statement": "With the option videoLength, positions are recorded so that, at 20 frames per second, the video of the recorded time has that length: the number of recordings is at most 20 times the length plus one, and, for small steps, not much less.", "quantifier": "every duration, start of recording, length and sequence of steps", "why_tests_cant": "All durations and step times.", "anchors": [{"file": "GFlowSim/src/applications/driver.cpp", "symbol": "main"}, {"file": "GFlowSim/src/base/dataobject.cpp", "symbol": "DataObject::setFPS"}, {"file": "GFlowSim/src/base/dataobject.cpp", "symbol": "DataObject::_check"}]}
{"id": "C125", "title": "The wall of the demon pushes", "statement": "A closed demon wall pushes particle and wall apart whenever they overlap, with opposite forces proportional to the overlap, whichever of the two is listed first.", "quantifier": "every particle set in two dimensions, every list of pairs", "why_tests_cant": "All positions and lists.", "anchors": [{"file": "GFlowSim/src/interactions/demon_wall.cpp", "symbol": "DemonWall::interact"}]}
{"id": "C126", "title": "Closing the demon wall", "statement": "When the wall is closed, particles that overlap it are moved to a free place on their own side of the partition; no forces act in that step, all other particles stay as they are, afterwards no wall overlaps a movable particle, and the wall is an ordinary one from the next step on.", "quantifier": "every particle set, list of pairs and sequence of random numbers", "why_tests_cant": "All positions and random numbers.", "anchors": [{"file": "GFlowSim/src/interactions/demon_wall.cpp", "symbol": "DemonWall::interact"}, {"file": "GFlowSim/src/interactions/demon_wall.cpp", "symbol": "DemonWall::turnOn"}]}
{"id": "C127", "title": "Fields of mean velocities", "statement": "The field option of vistools writes one file for each recorded frame; the file lists the lower corners of cells that cover the bounds, 0.15 to 0.3 wide, with the mean velocity of the particles of that frame in the cell, and the numbers of particles of the cells add up to the number of particles inside the bounds.", "quantifier": "every recording, bounds and number of frames", "why_tests_cant": "All positions, velocities, bounds and numbers of particles.", "anchors": [{"file": "GFlowSim/src/compute/field_properties.cpp", "symbol": "FieldProperties::create_field"}, {"file": "GFlowSim/src/compute/field_properties.cpp", "symbol": "FieldProperties::load_and_create"}, {"file": "GFlowSim/src/compute/binning2d.cpp", "symbol": "Binning2d::bin_data"}, {"file": "GFlowSim/src/applications/vistools.cpp", "symbol": "main"}]}
{"id": "C128", "title": "Command line arguments on several processors", "statement": "However the processors are scheduled and whatever arguments the others were started with, every processor runs the driver with the arguments given to processor 0, and none waits for ever.", "quantifier": "every number of processors, argument list, contents of fresh memory and schedule", "why_tests_cant": "All interleavings of the processors.", "anchors": [{"file": "GFlowSim/src/applications/driver.cpp", "symbol": "main"}, {"file": "GFlowSim/src/parallel/mpi-communication.hpp", "symbol": "mpi_broadcast"}]}
{"id": "C129", "title": "All processors end together", "statement": "The driver returns the same code on all processors and no processor waits for ever, whichever processor meets an illegal option, cannot create the simulation or fails in the run.", "quantifier": "every number of processors, combination of failures and schedule", "why_tests_cant": "All interleavings of the processors and all failures.", "anchors": [{"file": "GFlowSim/src/applications/driver.cpp", "symbol": "main"}, {"file": "GFlowSim/src/parallel/mpi-communication.hpp", "symbol": "mpi_and"}, {"file": "GFlowSim/src/base/datamaster.cpp", "symbol": "DataMaster::writeSummary"}]}
{"id": "C130", "title": "The summary of a run", "statement": "The summary reports the number of particles, the number of each type and the packing fraction of all particles of the simulation, and mean, smallest and largest radius, mass, density, speed and kinetic energy of the particles that can move.", "quantifier": "every set of particles and number of processors", "why_tests_cant": "All particle sets.", "anchors": [{"file": "GFlowSim/src/base/datamaster.cpp", "symbol": "DataMaster::writeSummary"}, {"file": "GFlowSim/src/base/datamaster.cpp", "symbol": "DataMaster::writeParticleData"}]}
{"id": "C131", "title": "The forces of a step are those of all pairs", "statement": "However long ago the pairs were searched, as long as the check asks for no new search, the interactions give each particle exactly the sum of the forces that every other particle exerts on it at its nearest image; no pair is forgotten, counted twice or taken at another image, and cells, skin depth and old lists do not matter.", "quantifier": "every set of particles, box, table of interactions, earlier contents of the lists, and motion since the search", "why_tests_cant": "All configurations and histories.", "anchors": [{"file": "GFlowSim/src/base/interactionhandler.cpp", "symbol": "InteractionHandler::construct"}, {"file": "GFlowSim/src/base/forcemaster.cpp", "symbol": "ForceMaster::interact"}, {"file": "GFlowSim/src/interactions/generic-handlers.hpp", "symbol": "VerletListPairs"}]}
{"id": "C132", "title": "The reported potential energy is that of all pairs", "statement": "When a data object asked for the potential energy, the energies the interactions report after a step add up to the sum of the energies of all pairs of particles within range at their nearest images.", "quantifier": "every set of particles, box, table of interactions, earlier contents of the lists, and motion since the search", "why_tests_cant": "All configurations and histories.", "anchors": [{"file": "GFlowSim/src/base/forcemaster.cpp", "symbol": "ForceMaster::getTotalPotentialEnergy"}, {"file": "GFlowSim/src/base/interaction.cpp", "symbol": "Interaction::interact"}, {"file": "GFlowSim/src/interactions/generic-handlers.hpp", "symbol": "VerletListPairs"}]}
{"id": "C133", "title": "Rotation of particles", "statement": "With a Hooke interaction in two dimensions every particle is a disk whose angular velocity changes at the rate torque over moment of inertia, half of each step with the torque before and half with the new one; the spin angular momentum changes by the time step times the mean total torque.", "quantifier": "every set of particles, torques, time step and width of the SIMD instructions", "why_tests_cant": "All states and sizes.", "anchors": [{"file": "GFlowSim/src/integrators/angularvelocityverlet2d.cpp", "symbol": "AngularVelocityVerlet2d::update_velocity"}, {"file": "GFlowSim/src/interactions/generic-forces.hpp", "symbol": "HookeGeneric"}, {"file": "GFlowSim/src/gflow.cpp", "symbol": "GFlow::addIntegrator"}]}
{"id": "C134", "title": "Friction of contacts", "statement": "A Hooke contact in two dimensions adds to the normal force a friction: opposite forces along the touching surfaces with their moments as torques, at most mu times the normal force, never pushing the surfaces in the direction in which they slide, and none if they do not slide; no other particle is affected.", "quantifier": "every pair of positions, velocities, angular velocities, masses, radii and parameters", "why_tests_cant": "All real states.", "anchors": [{"file": "GFlowSim/src/interactions/generic-forces.hpp", "symbol": "HookeGeneric::force"}]}
{"id": "C135", "title": "Friction and angular momentum", "statement": "Friction between two particles leaves the sum of their orbital and spin angular momenta unchanged.", "quantifier": "every pair of positions, velocities, angular velocities, masses, radii and parameters", "why_tests_cant": "All real states.", "anchors": [{"file": "GFlowSim/src/interactions/generic-forces.hpp", "symbol": "HookeGeneric::force"}]}
{"id": "C136", "title": "The forces of every step of a run", "statement": "At every step of a run every particle is where its motion took it, up to whole widths of a periodic box, and the force on it is the sum of the forces that each other particle exerts on it; no interacting pair is forgotten between two neighbour searches.", "quantifier": "every motion of the particles in every step, every number of steps, every tolerance of the motion and every table of interactions", "why_tests_cant": "All histories of motion: which pairs are in the lists depends on when the last search was and on how long the handler decided to wait.", "anchors": [{"file": "GFlowSim/src/base/interactionhandler.cpp", "symbol": "InteractionHandler::pre_forces"}, {"file": "GFlowSim/src/base/interactionhandler.cpp", "symbol": "InteractionHandler::construct"}, {"file": "GFlowSim/src/base/interactionhandler.cpp", "symbol": "InteractionHandler::check_needs_remake"}, {"file": "GFlowSim/src/gflow.cpp", "symbol": "GFlow::run"}]}
{"id": "C137", "title": "Neighbour lists are never older than asked", "statement": "The neighbour lists used in any step were made by a search at most the maximal update delay ago, whatever the particles do.", "quantifier": "every motion of the particles, every number of steps and every maximal delay of at least one time step", "why_tests_cant": "All histories of motion and schedules of searches.", "anchors": [{"file": "GFlowSim/src/base/interactionhandler.cpp", "symbol": "InteractionHandler::pre_forces"}, {"file": "GFlowSim/src/base/interactionhandler.hpp", "symbol": "InteractionHandler::setMaxUpdateDelay"}]}
{"id": "C138", "title": "No neighbour search comes too late for steady motion", "statement": "When the particles do not speed up and the time step is constant, every step uses pairs found by a search since which no particle has moved farther than the tolerated half of the skin depth times tolerance and motion factor; learning how long it can wait, the handler never waits too long.", "quantifier": "every motion that does not speed up (constant velocities among them), every number of steps, tolerance and motion factor", "why_tests_cant": "All histories of motion and numbers of steps: the waiting time is learned during the run, from what earlier checks saw.", "anchors": [{"file": "GFlowSim/src/base/interactionhandler.cpp", "symbol": "InteractionHandler::pre_forces"}, {"file": "GFlowSim/src/base/interactionhandler.cpp", "symbol": "InteractionHandler::check_needs_remake"}, {"file": "GFlowSim/src/base/interactionhandler.hpp", "symbol": "InteractionHandler::setUpdateDelaySteps"}]}
{"id": "C139", "title": "Forces of steady motion", "statement": "When the particles do not speed up and the time step is constant, at every step of a run the force on each particle is the sum of the forces that each other particle exerts on it; no pair that has come into contact is missing.", "quantifier": "every motion that does not speed up, every number of steps and every table of interactions", "why_tests_cant": "All histories of motion: a pair is missed only when two particles meet at the wrong moment between two searches.", "anchors": [{"file": "GFlowSim/src/base/interactionhandler.cpp", "symbol": "InteractionHandler::pre_forces"}, {"file": "GFlowSim/src/base/interactionhandler.cpp", "symbol": "InteractionHandler::check_needs_remake"}, {"file": "GFlowSim/src/base/interactionhandler.hpp", "symbol": "DEFAULT_MOTION_FACTOR"}]}
{"id": "C140", "title": "The trajectory does not depend on how the pairs were found", "statement": "As long as the lists of pairs contain every pair in range once and none but pairs of their interaction, a run goes through exactly the states of the velocity-Verlet scheme with the forces of all pairs at their nearest images. Two runs that differ only in how the pairs were found (skin depth, cells, times of the searches, order of the pairs) or in the instruction set go through the same states.", "quantifier": "every number of steps, every system of particles and interactions, every two correct families of lists", "why_tests_cant": "All numbers of steps and all lists of pairs: the lists depend on the history of the run, and an error in one step changes all later ones.", "anchors": [{"file": "GFlowSim/src/gflow.cpp", "symbol": "GFlow::run"}, {"file": "GFlowSim/src/integrators/velocity-verlet.tpp", "symbol": "VelocityVerlet::pre_forces"}, {"file": "GFlowSim/src/base/forcemaster.cpp", "symbol": "ForceMaster::interact"}, {"file": "GFlowSim/src/base/interactionhandler.cpp", "symbol": "InteractionHandler::pre_forces"}]}
{"id": "C141", "title": "The motion does not depend on the numbering of the particles", "statement": "Two simulations of the same particles stored under different numbers (as after sorting or refilling free places) move the particles in the same way, for any number of steps.", "quantifier": "every renumbering, every number of steps, every system of particles and interactions, any correct lists of pairs in each", "why_tests_cant": "All permutations and all numbers of steps.", "anchors": [{"file": "GFlowSim/src/base/simdata.cpp", "symbol": "SimData::sortParticles"}, {"file": "GFlowSim/src/gflow.cpp", "symbol": "GFlow::run"}, {"file": "GFlowSim/src/base/forcemaster.cpp", "symbol": "ForceMaster::interact"}, {"file": "GFlowSim/src/integrators/velocity-verlet.tpp", "symbol": "VelocityVerlet::pre_forces"}]}
{"id": "C142", "title": "The motion does not depend on the place or speed of the observer", "statement": "When all particles are moved by the same displacement and given the same additional velocity, a simulation without wrapped positions moves them in the same way, displaced further by the added velocity times the elapsed time, with the same forces.", "quantifier": "every displacement and velocity, every number of steps and time steps, every system of particles and interactions", "why_tests_cant": "All displacements, velocities and numbers of steps.", "anchors": [{"file": "GFlowSim/src/gflow.cpp", "symbol": "GFlow::run"}, {"file": "GFlowSim/src/interactions/generic-forces.hpp", "symbol": "HardSphereDsGeneric"}, {"file": "GFlowSim/src/integrators/velocity-verlet.tpp", "symbol": "VelocityVerlet::pre_forces"}]}
{"id": "C143", "title": "Recorded averages of positions, speeds and forces", "statement": "An entry of the averages holds the means, over all particles there are, of the distance from the origin, the speed and the size of the force.", "quantifier": "every number of particles, removed ones in between, and every distribution over processors", "why_tests_cant": "All contents of the store, with any pattern of removed particles, and all divisions among processors.", "anchors": [{"file": "GFlowSim/src/dataobjects/averagedata.cpp", "symbol": "AverageData::post_step"}]}
{"id": "C144", "title": "Recorded wall forces and bond energies", "statement": "The recorded boundary force is the total size of the forces that the soft walls gave to the particles of all processors, its average is the mean of the records, and the recorded bond energy is the sum of the energies of all bonded interactions, or that divided by the number of particles.", "quantifier": "every number of particles, processors, bonds and records", "why_tests_cant": "All positions and velocities relative to the walls, all numbers of processors and records.", "anchors": [{"file": "GFlowSim/src/dataobjects/graphobjects/boundaryforcedata.cpp", "symbol": "BoundaryForceData::post_step"}, {"file": "GFlowSim/src/dataobjects/graphobjects/boundaryforcedata.cpp", "symbol": "BoundaryForceData::getAverage"}, {"file": "GFlowSim/src/dataobjects/graphobjects/bonded-energy-data.cpp", "symbol": "BondedEnergyData::post_step"}, {"file": "GFlowSim/src/gflow.cpp", "symbol": "GFlow::repulsePositions"}]}
{"id": "C145", "title": "Recorded cluster sizes", "statement": "Each recording lists the sizes of the groups of particles that touch (within the skin that was asked for) at that moment; the sizes add up to the number of particles.", "quantifier": "every number of recordings and every arrangement of particles", "why_tests_cant": "All arrangements and histories of recordings with the same object.", "anchors": [{"file": "GFlowSim/src/dataobjects/percolationdata.cpp", "symbol": "PercolationData::post_step"}, {"file": "GFlowSim/src/dataobjects/percolationdata.cpp", "symbol": "PercolationData::PercolationData"}, {"file": "GFlowSim/src/dataobjects/clustering.cpp", "symbol": "Clustering::findClusters"}]}
{"id": "C146", "title": "The recorded entropic force on a line", "statement": "The recorded value is the net force on the line divided by density, kB times temperature and length of the line, where density and temperature are those of the particles between the lines.", "quantifier": "every system, dimension, line and number of processors", "why_tests_cant": "All contents of the store and all divisions among processors.", "anchors": [{"file": "GFlowSim/src/dataobjects/multigraphobjects/lineentropicforce.cpp", "symbol": "LineEntropicForce::post_step"}, {"file": "GFlowSim/src/dataobjects/multigraphobjects/lineentropicforce.cpp", "symbol": "LineEntropicForce::setGroup"}]}
{"id": "C147", "title": "The motion does not depend on the number of processors", "statement": "A simulation on several processors, each moving its own particles under the forces of its own particles and of its copies of the others' particles, gives every particle the position, velocity and force that the same simulation on one processor gives it, after any number of steps and exchanges of particles.", "quantifier": "every number of particles, processors and steps, every division of the particles among the processors, every exchange between steps, every order of the lists", "why_tests_cant": "All divisions of all systems, all histories of exchanges.", "anchors": [{"file": "GFlowSim/src/base/forcemaster.cpp", "symbol": "ForceMaster::interact"}, {"file": "GFlowSim/src/base/forcemaster.cpp", "symbol": "ForceMaster::interact_ghosts"}, {"file": "GFlowSim/src/interactions/generic-handlers.hpp", "symbol": "VerletList::interact_ghosts"}, {"file": "GFlowSim/src/interactions/generic-handlers.hpp", "symbol": "VerletList::dolist"}, {"file": "GFlowSim/src/gflow.cpp", "symbol": "GFlow::run"}, {"file": "GFlowSim/src/integrators/velocity-verlet.tpp", "symbol": "VelocityVerlet::pre_forces"}]}
{"id": "C148", "title": "The recorded force on a group", "statement": "The recorded net force on a group of particles is, at each recording, the sum of the forces on all members that are alive, whatever happens to the particles between the recordings and however many processors there are.", "quantifier": "every number of processors and recordings, every group, every change of the particles between recordings (removal, re-ordering, exchange)", "why_tests_cant": "All histories of the particle stores of all processors.", "anchors": [{"file": "GFlowSim/src/dataobjects/multigraphobjects/groupnetforce.cpp", "symbol": "GroupNetForce::post_step"}, {"file": "GFlowSim/src/other/group.cpp", "symbol": "Group::findNetForce"}, {"file": "GFlowSim/src/other/group.cpp", "symbol": "Group::update_local_ids"}, {"file": "GFlowSim/src/dataobjects/dataobjecttypes/data-base/multigraphdata.cpp", "symbol": "MultiGraphData::gatherData"}, {"file": "GFlowSim/src/creators/circle-creator.cpp", "symbol": "CircleCreator::recursive_circle"}]}
{"id": "C149", "title": "What is kept with a particle stays with it", "statement": "The type and the extra data of a particle stay with it however particles are added, removed and sorted, and the stripe of a particle is the height at which it was when the run began or at which the tunnel put it there.", "quantifier": "every history of operations on the particles, steps of the modifiers, new runs", "why_tests_cant": "All histories of the particle store.", "anchors": [{"file": "GFlowSim/src/modifiers/stripe-x.cpp", "symbol": "StripeX::pre_integrate"}, {"file": "GFlowSim/src/modifiers/stripe-x.cpp", "symbol": "StripeX::post_forces"}, {"file": "GFlowSim/src/modifiers/stream-tunnel.cpp", "symbol": "StreamTunnel::recursive_fill"}, {"file": "GFlowSim/src/base/simdata.cpp", "symbol": "SimData::requestScalarData"}]}
{"id": "C150", "title": "Bonds keep joining the particles they were made between", "statement": "However particles are added, removed and sorted, every bond and every link of a chain acts on the two particles it was made between, where they are now, with the distance at which it was made, for as long as both live.", "quantifier": "every history of bonds and chains being made, operations on the particles and steps of the run loop", "why_tests_cant": "All histories of the particle store.", "anchors": [{"file": "GFlowSim/src/bonded/bond.cpp", "symbol": "Bond::updateLocalIDs"}, {"file": "GFlowSim/src/bonded/harmonicbond.cpp", "symbol": "HarmonicBond::addBond"}, {"file": "GFlowSim/src/bonded/harmonicbond.cpp", "symbol": "HarmonicBond::interact"}, {"file": "GFlowSim/src/bonded/harmonic-chain.cpp", "symbol": "HarmonicChain::addAtom"}, {"file": "GFlowSim/src/bonded/harmonic-chain.cpp", "symbol": "HarmonicChain::updateLocalIDs"}]}
