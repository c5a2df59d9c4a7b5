#!/usr/bin/env python3
"""Regenerates /verif/properties.jsonl (one JSON object per line)."""
import json, os
S = "GFlowSim/src/"
P = []
def p(title, statement, quantifier, why, anchors):
    P.append(dict(id="C%02d" % (len(P)+1), title=title, statement=statement,
                  quantifier=quantifier, why_tests_cant=why,
                  anchors=[dict(file=S+f, symbol=s) for f, s in anchors]))

# ---------------------------------------------------------------- particle store
p("Particle storage bounds",
  "After any history of public particle-store calls (add one, add many, mark for removal, perform removals, sort, shift ids, clear forces) the reported numbers satisfy number() <= size() <= capacity(), and no call writes a particle record outside the allocated arrays.",
  "every finite sequence of store operations from an empty store, every count argument, every particle payload",
  "Growth depends on the whole history of sizes and capacities; a test exercises one interleaving of additions and removals.",
  [("base/simdata.tpp","SimData::addParticle"),("base/particle-data.hpp","particle_data::resize"),("base/simdata.hpp","SimData::addParticle")])
p("Global id lookup is exact",
  "For every global id g and every reachable store, getLocalID(g) returns l >= 0 exactly when the particle stored at l (l < size()) is alive and has global id g, and returns -1 exactly when no alive particle has id g.",
  "every reachable store, every global id",
  "The id map is updated by five different operations; only an invariant over every history rules out a stale entry.",
  [("base/simdata.cpp","SimData::getLocalID"),("base/simdata.cpp","SimData::markForRemoval"),("base/simdata.cpp","SimData::swap_particle")])
p("Global ids are never reused",
  "On one processor, every particle ever added gets a global id different from that of every particle added before, including those already removed.",
  "every history of additions and removals",
  "Uniqueness against all earlier ids cannot be sampled.",
  [("base/simdata.tpp","SimData::addParticle"),("base/simdata.hpp","SimData::addParticle")])
p("Removal removes exactly the marked particles",
  "Performing removals after any set of markForRemoval calls leaves exactly the unmarked particles, each with unchanged data, stored contiguously at 0..number()-1, and size()==number().",
  "every store and every set of marked particles",
  "The compaction swaps particles from the end; correctness depends on the relative position of every hole.",
  [("base/simdata.cpp","SimData::doParticleRemoval"),("base/simdata.cpp","SimData::swap_particle")])
p("Marking for removal is idempotent and local",
  "Marking a particle twice is the same as marking it once; marking invalid or dead entries has no effect; marking one particle changes no other particle's data and reduces number() by exactly one per newly marked particle.",
  "every store, every multiset and order of marks",
  "Quantifies over all orders of marks.",
  [("base/simdata.cpp","SimData::markForRemoval")])
p("Sorting particles preserves the system",
  "Sorting particles along an axis permutes the stored particles, terminates, never accesses outside 0..number()-1, leaves the positions non-decreasing along that axis and keeps global-id lookup exact.",
  "every store, every axis, every (also duplicated) coordinate values",
  "Quicksort partition bugs only show on particular value patterns.",
  [("base/simdata.cpp","SimData::sortParticles"),("base/simdata.cpp","SimData::quick_sort"),("base/simdata.cpp","SimData::quick_sort_partition")])
p("Particle migration buffers round-trip",
  "Packing any list of particles to a buffer and unpacking it on another processor with the same registered data reproduces every vector, scalar and integer field of every packed particle, in order, and the sender can drop exactly those particles.",
  "every list of local ids, every number of registered vector/scalar/integer entries, every dimension, every bit pattern",
  "Layout offsets depend on three independent widths.",
  [("base/simdata.cpp","SimData::pack_buffer"),("base/simdata.tpp","SimData::unpack_buffer")])
p("Ghost update buffers round-trip",
  "Sending ghost data and receiving it writes, for every ghost in order, exactly the data of the corresponding owned particle, shifted by the minimum image, and touches no other particle.",
  "every ghost list, every layout of ghost data, every relative position",
  "All layouts and all ghost counts.",
  [("base/simdata.cpp","SimData::pack_ghost_buffer"),("base/simdata.cpp","SimData::unpack_ghost_buffer")])
p("Global ids are unique across processors",
  "After the creator's id correction, and after any later additions on any processor, no two particles in the whole system share a global id.",
  "every number of processors, every number of particles per processor, every later addition history",
  "Needs every distribution of particles over processors.",
  [("base/creator.cpp","Creator::correct_global_ids"),("base/simdata.cpp","SimData::shift_global_ids"),("base/simdata.tpp","SimData::addParticle")])
p("Per-particle data registration",
  "Requesting a named data entry returns the same handle each time, distinct names get distinct handles, a query returns the handle or -1, and no request disturbs earlier handles.",
  "every sequence of requests and names",
  "All request orders.",
  [("base/simdata.cpp","SimData::requestScalarData"),("base/simdata.cpp","SimData::requestVectorData"),("base/simdata.cpp","SimData::requestIntegerData"),("base/simdata.cpp","SimData::getScalarData")])
p("Bad-particle removal",
  "removeBadParticles marks exactly the particles whose position, velocity or force has a NaN component, and reports whether there was one.",
  "every store and data",
  "All placements of bad values.",
  [("base/simdata.cpp","SimData::removeBadParticles")])
# ---------------------------------------------------------------- geometry
p("Minimum image displacement",
  "For points inside the box, the displacement returned is x-y up to a whole number of box widths in periodic directions (exactly x-y in others), is at most half a box long in each periodic direction, and is no longer than any other periodic image.",
  "every dimension, box, boundary condition choice and pair of points in the box",
  "Continuum of inputs and edge cases at half the box.",
  [("gflow.cpp","GFlow::getDisplacement"),("gflow.cpp","GFlow::minimumImage")])
p("Distance is symmetric",
  "getDistance / minimum-image distance does not depend on argument order and equals the length of getDisplacement.",
  "every dimension, box, boundary flags, points",
  "Continuum of inputs.",
  [("gflow.cpp","GFlow::getDistance"),("gflow.cpp","GFlow::getDisplacement")])
p("Wrapping keeps particles in the box",
  "After wrapPositions every coordinate in a periodic direction is inside the simulation bounds and differs from the old one by a whole number of widths; coordinates in other directions, and all velocities, are untouched; wrapping twice is the same as wrapping once.",
  "every box, position and boundary flags",
  "Far-away and exactly-on-boundary values.",
  [("gflow.cpp","GFlow::wrapPositions")])
p("Reflection keeps particles in the box",
  "After reflectPositions every coordinate in a reflecting direction is inside the bounds and the speed is unchanged; a particle already inside is untouched.",
  "every box, position, velocity",
  "Depends on how far the particle overshot.",
  [("gflow.cpp","GFlow::reflectPositions")])
p("Bounds are half-open boxes",
  "contains/intersection/center/widths of Bounds agree with half-open boxes: a point is in the intersection of two overlapping bounds iff it is in both; volume and widths are consistent.",
  "every dimension, every pair of bounds and point",
  "Continuum of inputs.",
  [("utility/bounds.cpp","Bounds::intersection"),("utility/bounds.cpp","Bounds::contains")])
p("Soft walls push back",
  "Repulsive boundary forces act only on particles outside the bounds, always point inwards and grow linearly with the overshoot; attractive ones always point to the centre; the reported boundary energy and force are non-negative.",
  "every position, bounds and strengths >= 0",
  "Sign errors at each side of each axis.",
  [("gflow.cpp","GFlow::repulsePositions"),("gflow.cpp","GFlow::attractPositions")])
# ---------------------------------------------------------------- domain
p("Cell addressing is a bijection",
  "Linear cell index and per-axis cell tuple determine each other: every tuple inside the grid has a distinct index below the cell count, and both conversions invert each other.",
  "every dimension and grid size",
  "All dimensions and sizes.",
  [("base/domainbase.cpp","DomainBase::linear_to_tuple"),("base/domainbase.cpp","DomainBase::tuple_to_linear")])
p("Every particle falls in a valid cell",
  "For every position (inside or outside the bounds) the cell found for it is a valid cell of the grid, and for positions in the bounds it is the cell whose box contains the position.",
  "every position, bounds, grid",
  "Boundary values.",
  [("domains/domain.cpp","Domain::get_cell_index"),("domains/domain.cpp","Domain::correct_index")])
p("Neighbour search misses no pair",
  "After (re)construction of the interaction lists every pair of live particles, whose types interact and whose distance is less than the sum of their interaction radii plus skin, appears in the interaction of their types.",
  "every particle configuration, box, boundary conditions, number of cells",
  "A missed pair depends on cell layout and anisotropy; tests try a few boxes.",
  [("domains/domain.cpp","Domain::traversePairs"),("domains/domain.cpp","Domain::constructFor"),("base/interactionhandler.cpp","InteractionHandler::calculate_max_small_sigma")])
p("Neighbour search lists no pair twice",
  "No pair of particles is visited more than once during list construction, in any boundary condition, so no pairwise force is doubled.",
  "every grid size and boundary flags",
  "Wrap-around coincidences on small grids.",
  [("domains/domain.cpp","Domain::traversePairs"),("domains/domain.cpp","Domain::create_cells")])
p("Skin safety",
  "Between two list reconstructions no interacting pair closer than its cutoff is missing from the list.",
  "every motion history between reconstructions",
  "All motions.",
  [("base/interactionhandler.cpp","InteractionHandler::check_needs_remake"),("base/interactionhandler.cpp","InteractionHandler::pre_forces"),("base/interactionhandler.cpp","InteractionHandler::find_max_motion")])
p("Pair lists enumerate exactly what was added",
  "Every neighbour-list container visits exactly the pairs added since the last clear, in a consistent order, each once, split by list (normal / wrapped), and all containers are interchangeable.",
  "every sequence of additions and closes",
  "The flattened verlet list encodes heads implicitly; all sequences of heads.",
  [("interactions/generic-handlers.hpp","VerletList"),("interactions/generic-handlers.hpp","VerletListPairs"),("interactions/generic-handlers.hpp","VerletListVecPairs")])
p("Type interaction table",
  "The interaction reported for a pair of types is the last one set for the unordered pair; a type is reported as interacting exactly if some partner exists; each type's maximal cutoff is the maximum over its interactions; each registered interaction is listed once.",
  "every history of interaction-table updates",
  "All histories.",
  [("base/forcemaster.cpp","ForceMaster::setInteraction"),("base/forcemaster.cpp","ForceMaster::doesInteract"),("base/forcemaster.cpp","ForceMaster::initialize_does_interact"),("base/forcemaster.cpp","ForceMaster::typesInteract")])
p("Overlap removal",
  "removeOverlapping(f) marks only particles that overlap another by more than fraction f, and after it no pair of remaining particles, visited by the search, overlaps by more than f.",
  "every configuration",
  "Chains of overlapping particles in every order.",
  [("base/interactionhandler.cpp","InteractionHandler::removeOverlapping"),("gflow.cpp","GFlow::removeOverlapping")])
# ---------------------------------------------------------------- forces
p("Pair forces obey Newton's third law",
  "Every pairwise force adds opposite forces to the two particles and nothing to others, so each interaction sweep leaves the total force unchanged.",
  "every pair list, every configuration, every parameter",
  "All configurations and pair lists.",
  [("interactions/generic-forces.hpp","HardSphere"),("interactions/generic-forces.hpp","LennardJones"),("interactions/generic-forces.hpp","Hooke"),("interactions/generic-forces.hpp","Hertz")])
p("Contact forces are repulsive and local",
  "Hard-sphere type forces vanish unless particles overlap, and then push the particles apart along the line between them; dissipative versions never attract.",
  "every configuration and parameter values >= 0",
  "Sign conditions over the continuum.",
  [("interactions/generic-forces.hpp","HardSphere"),("interactions/generic-forces.hpp","HardSphereDs"),("interactions/generic-forces.hpp","Hertz")])
p("Cut-off potentials are shifted to zero",
  "The energy reported by truncated potentials tends to zero at the cutoff distance, and no force acts beyond it.",
  "every radius, strength and cutoff",
  "Continuum of parameters.",
  [("interactions/generic-forces.hpp","LennardJones"),("interactions/generic-forces.hpp","Coulomb")])
p("Bonded forces conserve momentum",
  "Every bonded interaction (harmonic bonds, chains, angle chains) adds forces summing to zero over the bonded particles, and pulls both ends of a stretched bond.",
  "every configuration and chain length",
  "Continuum / chain length.",
  [("bonded/harmonicbond_2d.cpp","HarmonicBond_2d::interact"),("bonded/harmonicbond_3d.cpp","HarmonicBond_3d::interact"),("bonded/angle_harmonic_chain_2d.cpp","AngleHarmonicChain_2d::interact"),("bonded/angle_harmonic_chain_3d.cpp","AngleHarmonicChain_3d::interact"),("bonded/harmonic-chain.cpp","HarmonicChain::interact")])
# ---------------------------------------------------------------- integrators / run
p("Velocity-Verlet is time reversible",
  "Running n velocity-Verlet steps, reversing velocities and running n steps again returns every particle to its starting position with reversed velocity (exact arithmetic).",
  "every step count, time step, force field depending on positions only",
  "Unbounded step count.",
  [("integrators/velocity-verlet.tpp","VelocityVerlet::pre_forces"),("integrators/velocity-verlet.tpp","VelocityVerlet::post_forces")])
p("Vectorised loops treat every component once",
  "The vectorised integrator and clearing loops apply the scalar update to every component of every particle exactly once and to nothing beyond the arrays.",
  "every number of particles, dimension and vector width",
  "Remainder handling for all lengths.",
  [("integrators/velocity-verlet.tpp","VelocityVerlet::update_positions"),("utility/simd_types.hpp","simd_data_size")])
p("Momentum conservation",
  "With pairwise forces only and finite masses, the total momentum is unchanged by any number of velocity-Verlet steps.",
  "every number of steps and configurations",
  "Unbounded histories.",
  [("integrators/velocity-verlet.tpp","VelocityVerlet::update_velocities"),("interactions/generic-forces.hpp","HardSphere")])
p("Adaptive time step stays in range",
  "The time step used is always between the minimum and maximum time step, does not jump upwards faster than the configured rate, and a stopped system is detected as such.",
  "every history of velocities and accelerations",
  "All histories.",
  [("base/integrator.cpp","Integrator::pre_step"),("base/integrator.cpp","Integrator::setDT")])
p("run(t) simulates for time t",
  "run(t) ends with elapsed time at least t (unless terminated or empty) and overshooting by less than one time step; repeated runs add up; the step counter counts the steps done.",
  "every requested time, time-step sequence",
  "Unbounded loops.",
  [("gflow.cpp","GFlow::run"),("gflow.cpp","GFlow::requestTime")])
p("Registered objects are tracked once and removed on request",
  "Modifiers, interactions, bodies, data objects are each registered at most once, null objects are ignored, and finished modifiers (and only those) are dropped after a step with the order of the others preserved.",
  "every registration and flag history",
  "All histories.",
  [("gflow.cpp","GFlow::addInteraction"),("gflow.cpp","GFlow::addModifier"),("gflow.cpp","GFlow::handleModifiers"),("base/datamaster.cpp","DataMaster::addDataObject")])
# ---------------------------------------------------------------- parallel
p("Processor domains partition space",
  "Recursive bisection gives each processor exactly one region; the regions are disjoint and cover the simulation bounds; the owner reported for a point is the processor whose region contains it.",
  "every number of processors, bounds, point",
  "All processor counts.",
  [("parallel/kdtreetopology.cpp","KDTreeTopology::computeTopology"),("parallel/kdtreetopology.cpp","KDTreeTopology::compute_decomp"),("parallel/kdtreetopology.cpp","KDTreeTopology::domain_ownership")])
p("Neighbour processors agree",
  "If processor a considers b a neighbour then b considers a a neighbour, so every send has a matching receive.",
  "every decomposition",
  "All decompositions.",
  [("parallel/kdtreetopology.cpp","KDTreeTopology::find_neighbors")])
p("Particle exchange loses nothing",
  "Exchanging particles between processors neither loses nor duplicates a particle; every particle that left its region to a neighbour's is owned by that neighbour afterwards.",
  "every number of processors, every distribution of particles",
  "All distributions.",
  [("parallel/kdtreetopology.cpp","KDTreeTopology::exchange_particles"),("base/simdata.tpp","SimData::unpack_buffer")])
p("Ghost particles are counted right",
  "After ghost creation the number of ghosts equals the number of particles received, owned particles are untouched, and removing ghosts restores the owned state.",
  "every exchange",
  "All histories.",
  [("parallel/kdtreetopology.cpp","KDTreeTopology::create_ghost_particles"),("base/simdata.cpp","SimData::removeGhostParticles")])
# ---------------------------------------------------------------- parsers
p("Expression evaluation",
  "Evaluating an arithmetic expression in a configuration file gives the value of the expression under the usual precedence and left associativity, with variables replaced.",
  "every well formed expression and variable table",
  "Infinitely many expressions.",
  [("other/evaluation.cpp","Eval::evaluate"),("other/evaluation.cpp","Eval::parseStringToEvaluate")])
p("Configuration file parsing",
  "Parsing the text printed for a tree of headings, parameters and bodies recovers the tree; comments and whitespace do not matter; the parser always terminates.",
  "every tree, comment placement",
  "Infinitely many inputs.",
  [("utility/fileparse.cpp","FileParse::parseFile"),("utility/fileparse.cpp","FileParse::getBody"),("utility/fileparse.cpp","FileParse::getHeading")])
p("Tree parser traversal",
  "Iterating over a heading visits every child with that name exactly once in file order and leaves the focus where it was; argument access never goes outside the data; validation fails exactly if a necessary heading is missing or an unknown heading is present.",
  "every tree and focus level",
  "All trees.",
  [("utility/treeparser.cpp","TreeParser::begin"),("utility/treeparser.cpp","TreeParser::next"),("utility/treeparser.cpp","TreeParser::end"),("utility/treeparser.cpp","TreeParser::check")])
p("Command line options",
  "Each -name or -name=value argument is recorded; lookup returns the value given last (or the default when absent); an option never looked up is reported as an error, and only such options.",
  "every argument vector and query sequence",
  "All command lines.",
  [("utility/ArgParse.hpp","ArgParse::parse"),("utility/ArgParse.hpp","ArgParse::check")])
# ---------------------------------------------------------------- groups etc.
p("Groups follow their particles",
  "After updating, a group holds exactly its members that are still alive, in the original order, with correct local ids, whatever removals and sorts happened.",
  "every group and store history",
  "All histories.",
  [("other/group.cpp","Group::update_local_ids"),("other/group.cpp","Group::add")])
p("Group measurements",
  "Group mass, centre of mass, momentum and net force are the sums / weighted means over the members; distance to a point is the minimum over members; velocity and force updates act on members only.",
  "every group and configuration",
  "All configurations.",
  [("other/group.cpp","Group::findCenterOfMass"),("other/group.cpp","Group::distance"),("other/group.cpp","Group::addVelocity")])
p("Force removal modifiers and constrained bodies",
  "The force remover leaves no net force along its projection on the group; a sliding wall body moves rigidly along its axis with the mean acceleration.",
  "every group, masses, forces",
  "All configurations.",
  [("modifiers/force-remover.cpp","ForceRemover::post_forces"),("body/wallslidebody.cpp","WallSlideBody::correct")])
p("Maxwell demon bookkeeping",
  "Particle counts on the two sides always add up; reverting restores the checkpointed positions and velocities exactly; the door opens only when the demon's rule allows.",
  "every sequence of checks",
  "All histories.",
  [("modifiers/demon.cpp","Demon::post_integrate"),("modifiers/demon.cpp","Demon::revert_to_last_checkpoint")])
p("Recording schedule",
  "A data object records only while the simulation is in its recording mode, never before the start-record time, and successive recordings are at least the requested delay apart.",
  "every time-step sequence and delay",
  "All schedules.",
  [("base/dataobject.cpp","DataObject::_check")])
p("Recorded series stay aligned",
  "All columns of multi-graph data always have equal length and entry i of each column belongs to the same recording; the reported number of points is that length; averaging/gathering keep order.",
  "every sequence of recordings",
  "All histories.",
  [("dataobjects/dataobjecttypes/data-base/multigraphdata.cpp","MultiGraphData::addEntry"),("dataobjects/dataobjecttypes/data-base/multigraphdata.hpp","MultiGraphData::size")])
p("Histograms account for every sample",
  "Binning a data series puts every in-range value in exactly one bin whose interval contains it, drops out-of-range ones, and never writes outside the bins.",
  "every data set and bin count",
  "Edge values.",
  [("dataobjects/dataobjecttypes/graphobject.cpp","GraphObject::makeBins"),("dataobjects/graphobjects/kineticenergybin.cpp","KineticEnergyBin::post_integrate"),("dataobjects/multigraphobjects/twowallbinforce.cpp","TwoWallBinForce::post_forces"),("dataobjects/graphobjects/group-correlation.cpp","GroupCorrelation::post_step"),("dataobjects/graphobjects/center-correlation.cpp","CenterCorrelation::post_step"),("compute/binning2d.cpp","Binning2d::bin_data"),("dataobjects/dataobjecttypes/volumeplotobject2d.cpp","VolumePlotObject2D::setBins")])
p("Timers add up",
  "Total timer time is the sum of the intervals between matching start and stop calls; unmatched calls do not change it.",
  "every sequence of calls and clock readings",
  "All call orders.",
  [("utility/timer.hpp","Timer"),("utility/timer.cpp","Timer::stop"),("other/timedobject.cpp","TimedObject::stop_timer"),("base/datamaster.cpp","DataMaster::markTimer")])
p("Announced sizes are the sizes sent",
  "The number of particles a processor is told to expect from a neighbour is the number of particles the neighbour sends it, whenever MPI transports the message.",
  "every sequence of sizes and every moment of transport",
  "All interleavings of the calls with MPI's progress.",
  [("parallel/mpi-communication.hpp","MPIObject::send_single"),("parallel/kdtreetopology.tpp","KDTreeTopology::send_particle_data")])
p("Ghosts are sent exactly where they are needed",
  "A particle gets a ghost on another processor exactly if some periodic image of it is closer than its cutoff to that processor's region.",
  "every decomposition, box, particle position and cutoff",
  "All positions and decompositions.",
  [("parallel/kdtreetopology.cpp","KDTreeTopology::create_ghost_particles"),("parallel/kdtreetopology.cpp","KDTreeTopology::domain_overlaps")])
p("Gathering data keeps rank order",
  "Gathering position data on the first processor gives its own data followed by the data of the others in the order of their ranks, for any amounts of data, without deadlock.",
  "every number of processors, every amount of data, every schedule",
  "All schedules.",
  [("parallel/mpi-communication.hpp","MPIObject::mpi_reduce0_position_data")])
p("Forces are minus the derivative of the reported energy",
  "For a conservative pair interaction, the force along the line between the particles is minus the derivative, with respect to the distance, of the energy the interaction reports for the pair.",
  "every pair of radii, distance below the cutoff and parameters",
  "All real distances.",
  [("interactions/generic-forces.hpp","HardSphere"),("interactions/generic-forces.hpp","LennardJones"),("interactions/generic-forces.hpp","Coulomb"),("interactions/generic-forces.hpp","Buckingham")])
p("The energy does not depend on the number of processors",
  "The total potential energy reported for a pair is the same whether its particles live on the same processor or on two processors.",
  "every pair, distribution and interaction",
  "All distributions and positions.",
  [("base/interaction.hpp","Interaction::interact"),("interactions/generic-forces.hpp","HardSphere")])
p("The virial is the sum of displacement times force",
  "Each pair adds to the virial the scalar product of the displacement between its particles and the force between them.",
  "every pair, interaction and position",
  "All real positions and velocities.",
  [("interactions/generic-forces.hpp","HardSphereDs"),("interactions/generic-forces.hpp","Hooke")])
p("Harmonic bonds obey Hooke's law",
  "A harmonic bond of spring constant K and rest length l exerts on its two particles, at distance r, opposite forces of magnitude K*|r-l| towards the rest length.",
  "every constant, length, dimension and pair of positions",
  "All real positions.",
  [("bonded/harmonicbond.cpp","HarmonicBond::interact"),("bonded/harmonicbond_2d.cpp","HarmonicBond_2d::interact"),("bonded/harmonicbond_3d.cpp","HarmonicBond_3d::interact")])
p("Angular momentum is conserved",
  "With velocity-Verlet steps, central pair forces and no periodic images, the total angular momentum (in each coordinate plane) is the same after any number of steps, with any time steps.",
  "every number of particles, dimension, masses, positions, velocities, list of pairs and time steps",
  "All real states and numbers of steps.",
  [("integrators/velocity-verlet.tpp","VelocityVerlet::pre_forces"),("integrators/velocity-verlet.tpp","VelocityVerlet::post_forces")])
p("All processors use the same time step",
  "With an adaptive time step, all processors use the same time step in every step, and none waits forever for the others to agree on it, whatever velocities and accelerations each of them sees.",
  "every number of processors, number of steps and velocities",
  "All histories on all processors.",
  [("base/integrator.cpp","Integrator::pre_step"),("parallel/mpi-communication.hpp","MPIObject::mpi_min"),("integrators/overdamped-integrator.tpp","OverdampedIntegrator::calculate_time_step")])
p("A fixed time step is used as set",
  "After setAdjustDT(false) and setDT(t), every step of every run has length t.",
  "every integrator, t and run",
  "All histories.",
  [("base/integrator.cpp","Integrator::setDT"),("base/integrator.cpp","Integrator::setAdjustDT"),("integrators/overdamped-integrator.tpp","OverdampedIntegrator::pre_integrate")])
p("All processors stop together",
  "In a run on several processors, all processors stop after the same step, once the requested time is reached or an object on any of them asks to stop, and none waits forever for another.",
  "every number of processors, time steps, remakes and requests to stop",
  "All histories on all processors.",
  [("gflow.cpp","GFlow::run"),("gflow.cpp","GFlow::terminate"),("gflow.cpp","GFlow::syncRunning")])
p("Checkpoints are written regularly",
  "With checkpoints switched on, a checkpoint is written at the first step of a run at which the checkpoint delay has passed since the last one, and not earlier.",
  "every sequence of runs and steps",
  "All histories.",
  [("base/datamaster.cpp","DataMaster::post_step")])
p("Clusters are the connected groups of particles",
  "findClusters() puts two particles into the same cluster if and only if a chain of particles, each near the one before (and of its type, if only equal types are asked for), leads from one to the other; the sizes and the largest size are those of these groups, and the percolation snapshot lists exactly the members of each.",
  "every set of particles, neighbour relation and sequence of calls",
  "All particle configurations.",
  [("dataobjects/clustering.cpp","Clustering::findClusters"),("dataobjects/percolationsnapshot.cpp","PercolationSnapshot::post_integrate")])
p("Saved files read back",
  "A file of recorded frames that is written and then loaded gives back the dimensions, width, number of types, bounds, names and all numbers of all frames, as far as a number can be told from its printed text.",
  "every header, every number and size of frames, every text a number may be printed as",
  "All contents.",
  [("compute/store_data.cpp","StoreData::write"),("compute/store_data.cpp","StoreData::writeHeader"),("compute/load_data.cpp","LoadData::load"),("compute/load_data.hpp","LoadData::getNextNumber")])
p("Recorded frames hold the requested quantities of every particle",
  "A recorded frame has one row for each particle inside the recording region that the selection function accepts, in the order of the store, and the row holds the requested vectors, magnitudes, scalars and integers that the simulation has, and the processor.",
  "every store, set of requested names, region and selection",
  "All states.",
  [("compute/store_data.cpp","StoreData::initialize"),("compute/store_data.cpp","StoreData::store"),("dataobjects/positiondata.cpp","PositionData::pre_integrate"),("dataobjects/positiondata.cpp","PositionData::post_step")])
p("Readers of a recording find the quantities",
  "When a recording is loaded to make pictures, the position, radius and the quantity used for colouring that are taken for a particle are the ones the simulation had when the frame was recorded.",
  "every store, set of requested names, frame and choice of colouring",
  "All states and files.",
  [("visualization/visualization.cpp","Visualization::findPlaces"),("visualization/visualization.cpp","Visualization::get_values"),("compute/load_data.cpp","LoadData::getEntries")])
p("Driven particles move as told",
  "A particle with a constant velocity moves uniformly with that velocity whatever the forces on it, one with a distance stops after it, and one with a constant acceleration and no other force follows the parabola; immovable particles are not accelerated. This holds for as long as the particle exists.",
  "every particle, velocity, acceleration, sequence of time steps and forces, other modifiers",
  "All runs.",
  [("modifiers/constantvelocity.cpp","ConstantVelocity::post_forces"),("modifiers/constantvelocitydistance.cpp","ConstantVelocityDistance::post_forces"),("modifiers/constantacceleration.cpp","ConstantAcceleration::post_forces"),("gflow.cpp","GFlow::run")])
p("Damping slows particles down",
  "A particle on which nothing but a damping modifier acts never becomes faster; linear damping with constant d decreases the velocity at the rate d v / m.",
  "every particle, constant and sequence of time steps",
  "All runs.",
  [("modifiers/linearvelocitydamping.cpp","LinearVelocityDamping::pre_forces"),("modifiers/quadraticvelocitydamping.cpp","QuadraticVelocityDamping::pre_forces")])
p("Tunnels drive only the particles at their ends",
  "A wind or stream tunnel sets the velocity of the particles within a tenth of the box from its ends to the tunnel velocity (plus a term proportional to the force) and has no effect on the others; walls stay where they are.",
  "every box, velocity, particle, force and time step",
  "All states.",
  [("modifiers/windtunnel.cpp","WindTunnel::post_forces"),("modifiers/stream-tunnel.cpp","StreamTunnel::post_forces")])
p("The stream of new particles is regular",
  "The columns of particles that a stream tunnel creates are the points of one lattice that moves with the tunnel: no gap, no repetition, none outside the box and none too late, whatever the time steps; the rows of a column are shared by the processors without gap or repetition, and the spacing suits the particles.",
  "every spacing, velocity, sequence of times, division into processors",
  "All schedules.",
  [("modifiers/stream-tunnel.cpp","StreamTunnel::pre_forces"),("modifiers/stream-tunnel.cpp","StreamTunnel::recursive_fill"),("modifiers/stream-tunnel.cpp","StreamTunnel::pre_integrate")])
p("The thermostat acts at its interval",
  "A thermostat adds its random force and drag at the first step at which its update delay has passed since it last did, in every run, and never if the temperature is not positive.",
  "every delay, temperature and sequence of times",
  "All schedules.",
  [("modifiers/temperaturemodifier.cpp","TemperatureModifier::post_forces")])
p("Two walls are kept within their distances",
  "Two walls that are further apart than the maximal distance are pulled together, closer than the minimal distance pushed apart, in between left alone; the forces on the two walls are opposite.",
  "every distance, limits and walls",
  "All states.",
  [("modifiers/twowallmodifier.cpp","TwoWallModifier::post_forces"),("other/group.cpp","Group::addAcceleration")])
p("Recorded energies and means are those of the particles",
  "The recorded kinetic, rotational and total energies are the sums over all particles with finite mass on all processors (plus the potential energies), the recorded means divide by their number (or mass); how the particles are divided among processors and ordered does not matter.",
  "every state of the stores, division into processors and potential energies",
  "All states and divisions.",
  [("dataobjects/graphobjects/kineticenergydata.cpp","KineticEnergyData::calculate_kinetic"),("dataobjects/graphobjects/total-energy-data.cpp","TotalEnergyData::post_step"),("dataobjects/graphobjects/rotational-energy-data.cpp","RotationalEnergyData::post_step"),("dataobjects/graphobjects/average-speed-data.cpp","AverageSpeedData::post_step"),("dataobjects/graphobjects/average-omega-data.cpp","AverageOmegaData::post_step")])
p("Recorded numbers count every particle once",
  "The recorded numbers of particles by type, their volume fraction and their energies by type count every particle of every processor exactly once and no removed particle.",
  "every state of the stores, number of types and division into processors",
  "All states.",
  [("dataobjects/multigraphobjects/number-data.cpp","NumberData::post_step"),("dataobjects/multigraphobjects/phi-data.cpp","PhiData::post_step"),("dataobjects/kineticenergytypesdata.cpp","KineticEnergyTypesData::post_step")])
p("Temperature and pressure",
  "The temperature T satisfies the equipartition law for the movable particles, and the recorded pressure is p V / (N k T) = 1 + W / (d N k T), with W the virial, on any number of processors.",
  "every state of the stores, box, dimension, virials and division into processors",
  "All states.",
  [("dataobjects/graphobjects/kineticenergydata.cpp","KineticEnergyData::calculate_temperature"),("dataobjects/graphobjects/pressuredata.cpp","PressureData::calculate_pressure")])
p("Averages over a region",
  "The recorded average position and velocity are the means over the movable particles in the middle of the box on all processors; the cavity statistics are the number and mean position of the slow particles in the region.",
  "every state of the stores, box, region and division into processors",
  "All states.",
  [("dataobjects/multigraphobjects/average-position-data.cpp","AveragePositionData::post_step"),("dataobjects/multigraphobjects/average-velocity-data.cpp","AverageVelocityData::post_step"),("dataobjects/multigraphobjects/cavity-statistics.cpp","CavityStatistics::post_step")])
p("Rays meet spheres and the box where geometry says",
  "For any ray of unit direction, the entry and exit distances reported for a sphere are exactly the distances at which the ray is in the sphere, the distances reported for the scene's box are exactly those at which it is in the box, and nothing is reported only if the ray misses it.",
  "every ray, sphere, box and minimal distance",
  "All rays, spheres and boxes (real numbers).",
  [("visualization/raytracestructs.cpp","Sphere::intersect"),("visualization/raykdtree.cpp","RayKDTree::getRayIntersectionParameters")])
p("Pictures show the nearest sphere",
  "A pixel shows a sphere that its ray meets, background only if its ray meets no sphere in the box, and among the spheres met in the box the nearest one, however the space was divided for the search.",
  "every set of spheres, division tree, box and ray",
  "All scenes and trees.",
  [("visualization/raykdtree.cpp","RayKDTreeNode::traverse"),("visualization/raykdtree.cpp","RayKDTreeNode::insert"),("visualization/raytrace.cpp","RayTrace::createKDTree")])
p("Cameras, pixels and colours",
  "The camera's directions are made perpendicular unit vectors that keep the chosen direction and the side that is up; each pixel has its own ray, at the pixel's place on the screen; shaded colours lie between the base illumination and the sphere's own colour.",
  "every orientation, up vector, resolution, pixel, colour and light direction",
  "All vectors and colours.",
  [("visualization/raytrace.cpp","RayTrace::initialize"),("visualization/raytrace.cpp","RayTrace::render"),("visualization/raytrace.cpp","RayTrace::trace")])
p("Regions contain what is picked from them",
  "A position picked from a region lies in the region: rectangles are sampled evenly, balls by rejection from their bounding box; picking ends when a draw falls in the ball; membership tests agree with geometry.",
  "every region, dimension and sequence of random numbers",
  "All random sequences.",
  [("other/region.cpp","RectangularRegion::pick_position"),("other/region.cpp","SphericalRegion::pick_position"),("other/region.cpp","SphericalRegion::contains"),("other/region.cpp","SphericalRegion::get_bounding_box")])
p("Filling a region to a density",
  "Filling a region to a volume fraction or number density adds particles only in the region and outside excluded regions, with consecutive ids and a fixer each, reaches the density and not more than one particle above it, and ends; on several processors each adds only within its own bounds.",
  "every region, density, size distribution, exclusion, processor bounds and sequence of random numbers",
  "All random sequences and regions.",
  [("creators/fillareacreator.cpp","FillAreaCreator::createArea")])
p("Filling a region with a number of particles",
  "Filling a region by number adds exactly the number of particles asked for of each template, in the region, outside of excluded regions, with consecutive ids and a fixer each.",
  "every region, list of templates and numbers, and sequence of random numbers",
  "All random sequences and numbers.",
  [("creators/fillareacreator.cpp","FillAreaCreator::createArea")])
p("Initial temperature of new particles",
  "Particles created with a temperature have exactly that temperature: their kinetic energy is dims/2 kB T per particle, and rescaling keeps directions.",
  "every set of velocities, masses, temperature and dimension",
  "All velocities (real numbers).",
  [("creators/fillareacreator.cpp","FillAreaCreator::createArea")])
p("Particle templates give the masses, sizes and types described",
  "Inverse masses match the mass or density asked for, sizes lie between the bounds given, discrete values come with the probabilities listed, equiprobable types have equal chances.",
  "every template description and random number",
  "All descriptions and random numbers.",
  [("creators/particletemplate.cpp","ParticleTemplate::createParticle"),("creators/helperclasses/parse-constructor.cpp","ParseConstructor::getRandomEngine"),("utility/randomengines.hpp","ProportionalRandomEngine::generate")])
p("Walls of particles",
  "A wall between two points consists of equal spheres on the segment, within its ends, that do not overlap, with gaps smaller than a sphere, at a spacing not larger than the one asked for.",
  "every pair of points, radius and spacing",
  "All points and radii (real numbers).",
  [("creators/wallcreator.cpp","WallCreator::createArea")])
p("Circles and spheres of particles",
  "The particles of a circle or (hyper)sphere lie exactly on it, no point of it is far from a particle, in the plane neighbours touch or overlap for scales from 1 on, and several processors together place each particle once.",
  "every centre, radius, particle size, scale and number of dimensions from 2 on",
  "All dimensions and radii (real numbers).",
  [("creators/circle-creator.cpp","CircleCreator::recursive_circle")])
p("Polymers",
  "A random polymer has the number of primary particles its packing asks for, neighbours at a fixed distance, primaries that never overlap, the length asked for, consecutive ids, and bonds between all neighbours.",
  "every radius, length, packing, box and sequence of random numbers",
  "All random sequences and lengths.",
  [("creators/polymercreator.cpp","PolymerCreator::createPolymerArrangement"),("creators/polymercreator.cpp","PolymerCreator::createSinglePolymer"),("creators/polymercreator.cpp","PolymerCreator::make_bond_objects")])
p("Lines of particles",
  "A random or ordered line holds as many particles as fit in its packing; they do not overlap and lie within the length; ordered lines are evenly spaced.",
  "every length, packing, spacing and sequence of random numbers",
  "All random sequences and lengths.",
  [("creators/polymercreator.cpp","PolymerCreator::createRandomLine"),("creators/polymercreator.cpp","PolymerCreator::createOrderedLine")])
p("Boxes of particles",
  "The box creator fills its box to the volume fraction asked for, with all particles in the box.",
  "every width, height, packing, particle volume, dimension and sequence of random numbers",
  "All boxes and random sequences.",
  [("creators/boxcreator.cpp","BoxCreator::createSimulation")])
p("Variables of a configuration file",
  "Each Var line declares a variable, each Value line a computed one, in the order of the file; the first declaration of a name counts, the command line overrides the value in the file, preset variables override both; a use of a variable means its value.",
  "every configuration file, command line and set of preset variables",
  "All files and command lines.",
  [("creators/fileparsecreator.cpp","FileParseCreator::createSimulation"),("creators/fileparsecreator.cpp","FileParseCreator::setVariable"),("utility/ArgParse.hpp","ArgParse::get")])
p("The box of a configuration file",
  "The dimension, bounds and boundary conditions of the simulation are those of the lines Dimensions, Bounds and Boundary: a box, an interval per dimension, or the bounding box of a ball; one boundary condition for all or one per dimension; anything else is refused.",
  "every configuration file",
  "All files.",
  [("creators/fileparsecreator.cpp","FileParseCreator::createFromOptions"),("creators/helperclasses/parse-constructor.cpp","ParseConstructor::parse_region"),("creators/fileparsecreator.cpp","FileParseCreator::choose_bc")])
p("The interactions of a configuration file",
  "The table of a Force-grid heading gives each pair of types, in either order, the interaction its line names, with the parameters of the line; a single name holds for all pairs; Random draws one of three per pair; bad lines are refused.",
  "every configuration file and sequence of random numbers",
  "All tables.",
  [("creators/fileparsecreator.cpp","FileParseCreator::createFromOptions"),("creators/fileparsecreator.cpp","FileParseCreator::makeRandomForces"),("interactions/interaction-choice.cpp","InteractionChoice::choose"),("creators/helperclasses/parse-constructor.cpp","ParseConstructor::getInteraction")])
p("Single particles of a configuration file",
  "A Particle heading creates one particle with the position, velocity, radius, mass and type of its lines, and the modifiers it lists; a heading without position, velocity or radius is refused.",
  "every Particle heading",
  "All headings.",
  [("creators/fileparsecreator.cpp","FileParseCreator::createParticle")])
p("The integrator of a configuration file",
  "The integrator is the one named with the settings given; what is not given has its default; unknown names are refused.",
  "every configuration file",
  "All files.",
  [("creators/fileparsecreator.cpp","FileParseCreator::choose_integrator"),("applications/driver.cpp","main")])
p("Relaxing a new simulation",
  "Relaxing a simulation moves its particles only: afterwards the simulation has its own integrator and forces again, no simulated time has passed, no forces are left on the particles, nothing was recorded, and a later run is as without relaxation.",
  "every simulation, on any number of processors, and whatever the relaxation does to the particles",
  "All simulations and relaxations.",
  [("base/creator.cpp","Creator::hs_relax"),("base/creator.cpp","Creator::relax"),("gflow.cpp","GFlow::run"),("gflow.cpp","GFlow::initialize")])
p("Velocities after relaxing",
  "After relaxation each particle that was created with a velocity has this velocity again; nothing else changes.",
  "every store of particles and list of velocities by id",
  "All stores.",
  [("base/creator.cpp","Creator::fix_particle_velocities")])
p("Langevin dynamics",
  "Each step is velocity Verlet with the forces, a drag of 6 pi viscosity radius velocity, and a random force, of the size the temperature sets; without temperature a free particle slows down.",
  "every system of particles, time step, temperature, viscosity and sequence of random numbers",
  "All steps and runs; random.",
  [("integrators/langevinintegrator.cpp","LangevinIntegrator::pre_forces"),("integrators/langevinintegrator.cpp","LangevinIntegrator::post_forces"),("integrators/langevintypeintegrator.cpp","LangevinTypeIntegrator")])
p("Overdamped Langevin dynamics",
  "Each step moves each particle with a velocity proportional to the force on it, random force included, and inversely proportional to the viscosity.",
  "every system of particles, time step, temperature, viscosity and sequence of random numbers",
  "All steps; random.",
  [("integrators/overdampedlangevin.cpp","OverdampedLangevinIntegrator::post_forces")])
p("Nose-Hoover thermostat",
  "Each half step kicks the velocities with the force and the friction of the thermostat, and changes the friction by the difference of the kinetic energy from the one of the temperature; the temperature is the one set, or that of the particles after the waiting time.",
  "every system of particles, time step and state of the thermostat",
  "All half steps.",
  [("integrators/nose-hoover-velocity-verlet.tpp","NoseHooverVelocityVerlet::update_velocities")])
p("Neighbour pairs of a processor",
  "On one of several processors the neighbour search pairs, once each, all own particles that are within interaction range of each other in the simulation box; dead or non-interacting particles are not paired, and no particle with itself.",
  "every decomposition into regions, boundary condition, cell size and placement of the processor's particles, also beyond open borders",
  "All regions, borders and placements.",
  [("domains/domain.cpp","Domain::traversePairs"),("domains/domain.cpp","Domain::calculate_domain_cell_dimensions"),("base/domainbase.cpp","DomainBase::get_cell_index"),("base/interactionhandler.cpp","InteractionHandler::assign_border_types")])
p("Pairs of ghosts and own particles",
  "Each ghost is paired, once, with each own particle within interaction range, with no dead or non-interacting ones, and the pair is given to the interaction of the two particles' types.",
  "every decomposition, ghosts anywhere outside the region, any own particles",
  "All regions and placements of ghosts.",
  [("domains/domain.cpp","Domain::traverseGhostPairs"),("base/domainbase.cpp","DomainBase::get_halo_cell_index"),("base/interactionhandler.cpp","InteractionHandler::pair_interaction")])
p("Pairs across processors",
  "Two particles on different processors that are within interaction range in the simulation box interact on both: each has a ghost on the other's processor, at the image nearest to the region, which the neighbour search pairs with the other.",
  "every decomposition, boundary condition and pair of particles on different processors",
  "All decompositions and pairs of positions.",
  [("parallel/kdtreetopology.cpp","KDTreeTopology::create_ghost_particles"),("domains/domain.cpp","Domain::traverseGhostPairs"),("base/simdata.cpp","SimData::pack_buffer_relative")])
p("All processors rebuild together",
  "In every step either all processors rebuild their neighbour lists and exchange particles, or none does: when one of them needs it (checked in every step), after the number of steps set, or (decision type 2) after the smallest number of steps after which one of them needed it the last time (one more than before if none did).",
  "every number of processors and every sequence of steps, whatever each processor finds in each of them",
  "All histories on all processors.",
  [("base/interactionhandler.cpp","InteractionHandler::pre_forces"),("parallel/mpi-communication.hpp","mpi_or"),("parallel/mpi-communication.hpp","mpi_min")])
p("All processors have the same cells",
  "All processors use the same largest radius of a small particle, the same skin depth and the same cell size: the largest of the radii that they find, and the mean of the skin depths they choose (or the one set).",
  "every number of processors and distribution of particles",
  "All distributions.",
  [("base/interactionhandler.cpp","InteractionHandler::calculate_max_small_sigma"),("base/interactionhandler.cpp","InteractionHandler::calculate_skin_depth"),("base/domainbase.cpp","DomainBase::initialize")])
p("Picture files have the standard layout",
  "A picture is written as a bitmap file: signature BM, the true file size, the offset of the pixels, a 40 byte header with width, height, one plane, the depth, the compression and the size of the pixel data, the colour table (depths below 16), then the rows from bottom to top, each as blue, green, red (depth 24) and filled with zeros up to a multiple of four bytes.",
  "every picture of every size and depth",
  "All pictures.",
  [("EasyBMP/EasyBMP.cpp","BMP::WriteToFile"),("visualization/palette.cpp","Palette::writeToFile")])
p("Pictures read back",
  "A picture written to a file and read has the same size and the same pixels: exactly for depth 32, the colour for depth 24, the upper five bits of every colour for depth 16, the nearest colour of its table for depths 1, 4 and 8. Files with another signature are refused; damaged files are reported.",
  "every picture, and every file",
  "All pictures and files.",
  [("EasyBMP/EasyBMP.cpp","BMP::WriteToFile"),("EasyBMP/EasyBMP.cpp","BMP::ReadFromFile"),("EasyBMP/EasyBMP.cpp","BMP::FindClosestColor")])
p("A pixel shows what was drawn nearest",
  "Every pixel of a picture file shows the colour of the least depth that was drawn there, the first one drawn among equal depths, and black where nothing was drawn. Nothing is ever drawn outside of the picture. Covering a palette draws exactly its pixels.",
  "every picture and every sequence of drawing calls on its palettes",
  "All drawing histories.",
  [("visualization/palette.cpp","Image::set"),("visualization/palette.cpp","Image::setBMP"),("visualization/palette.cpp","Palette::setPixel"),("visualization/palette.cpp","Palette::coverPalette")])
p("Circles are discs of pixels, wrapped at the edges",
  "A circle is drawn at its depth on exactly the pixels of its palette within its radius of the pixel of its centre, also across the edges if wrapping is on, in the colour that belongs to the place in the circle.",
  "every palette, centre, radius, colour function and depth",
  "All sizes and places.",
  [("visualization/palette.cpp","Palette::drawCircle")])
p("Sub-palettes are the asked part of a palette",
  "The sub-palette from column mx to Mx and row my to My consists of these pixels of its palette; the centred sub-palette leaves the same border on all sides; the largest centred one with a given ratio of the sides lies inside the palette, fills one direction and has the ratio to within a pixel.",
  "every palette and every range, border and ratio",
  "All sizes.",
  [("visualization/palette.cpp","Palette::getSubPalette"),("visualization/palette.cpp","Palette::getSubPaletteCentered"),("visualization/palette.cpp","Palette::getMaxCenteredSubPalette")])
p("Lines follow the straight line between their ends",
  "A line is the same from both ends, has in every column (row, if it is steep) from end to end the two pixels next to the straight line and no others, each the fainter the farther away it is, mixed with what was there before.",
  "every two end points and colour",
  "All lines.",
  [("visualization/palette.cpp","Palette::drawLine_WuAlgorithm")])
p("A picture lives as long as its palettes",
  "A palette never loses its picture, and the picture is released exactly once, when the last palette that refers to it is gone.",
  "every sequence of constructions, copies, sub-palettes, assignments and destructions",
  "All object histories.",
  [("visualization/palette.cpp","Palette::~Palette"),("visualization/palette.cpp","Palette::Palette"),("visualization/palette.cpp","Palette::operator=")])
p("Pictures show the particles where they are",
  "A picture of a two dimensional system has the asked resolution along the longer side; every pixel shows the first particle (in the order of the data) whose disc covers it, darker towards the rim, across the edges if wrapping is on, and is black otherwise. The particles are drawn in a region inside of the border with the proportions of the system.",
  "every system, resolution and list of particles",
  "All pictures.",
  [("visualization/visualization.cpp","Visualization::createImage")])
p("Pictures use the data with the right name",
  "Position, radius and the value that determines the colour of a particle are the entries of its data with the right names, for every set of stored data; a picture is refused if positions or radii were not stored. A predefined colour option uses the preferred data that was stored, and the same option always colours the same way.",
  "every set of stored names, every data, every sequence of options",
  "All data sets.",
  [("visualization/visualization.cpp","Visualization::findPlaces"),("visualization/visualization.cpp","Visualization::get_values"),("visualization/visualization.cpp","Visualization::do_checks"),("visualization/visualization.cpp","Visualization::setColorOption")])
p("Colours tell the values",
  "The scales are the least, largest and average value of the data. Colours by value go from blue (least) to red (largest) monotonically; stripes divide the range in equal parts, one for each colour; colours by number are equal for equal numbers and different for small different ones.",
  "every list of values and of colours",
  "All values.",
  [("visualization/visualization.cpp","Visualization::determine_color"),("visualization/visualization.cpp","Visualization::findScalarScaleFactors"),("visualization/visualization.cpp","Visualization::getColor")])
p("Every run is recorded from its start",
  "When the same simulation is run several times, each run is recorded by each data object as if it were the first: recordings from the start of recording on, at least the delay apart, and none missing; the data holds the recordings of the last run.",
  "every number of runs, every sequence of step times, every delay",
  "All histories of runs.",
  [("base/dataobject.cpp","DataObject::pre_integrate"),("dataobjects/dataobjecttypes/graphobject.cpp","GraphObject::pre_integrate"),("dataobjects/graphobjects/persistence-length.cpp","PersistenceLength::pre_integrate"),("dataobjects/graphobjects/pressuredata.cpp","PressureData::pre_integrate"),("dataobjects/graphobjects/total-energy-data.cpp","TotalEnergyData::pre_integrate"),("dataobjects/twogroupstatistics.cpp","TwoGroupStatistics::pre_integrate")])
p("Rotation of a group",
  "The recorded moment of inertia, angular momentum and torque of a group in two dimensions are those of its members about their centre of mass; a group in rigid rotation has an angular momentum of angular velocity times moment of inertia, and forces towards the centre and common accelerations do not contribute to the torque.",
  "every world, every group",
  "All groups.",
  [("dataobjects/multigraphobjects/groupangular.cpp","GroupAngular::calculate_angular_quantities"),("dataobjects/graphobjects/grouptorque.cpp","GroupTorque::calculate_torque")])
p("Persistence length of a chain",
  "After a run entry k of the persistence length data of a chain is the number of bonds k and the average over the recordings of the cosine of the angle between the first bond and the bond k further on.",
  "every chain, every sequence of recordings",
  "All chains and runs.",
  [("dataobjects/graphobjects/persistence-length.cpp","PersistenceLength::post_step"),("dataobjects/graphobjects/persistence-length.cpp","PersistenceLength::post_integrate")])
p("Forces between polymers by distance",
  "The forces on the particles of a polymer are recorded, along the direction to the closest point of the line between the two closest particles of the other polymer, in the bin of the distance to it; each distance is in one bin, and a line of the result is the middle of the bin and the mean of its samples per diameter.",
  "every world, every two polymers, every bin",
  "All positions.",
  [("dataobjects/multigraphobjects/twopolymerbinforce.cpp","TwoPolymerBinForce::find_forces"),("dataobjects/multigraphobjects/twopolymerbinforce.cpp","TwoPolymerBinForce::post_integrate")])
p("Histograms of two groups",
  "An entry of the histograms of two groups is the number of recordings with distance and relative velocity (force) in its bin, for the bins of equal width between the limits; the file labels each entry with its bin.",
  "every sequence of recordings, every limits and numbers of bins",
  "All sequences.",
  [("dataobjects/twogroupstatistics.cpp","TwoGroupStatistics::post_step"),("dataobjects/twogroupstatistics.cpp","TwoGroupStatistics::writeToFile")])
p("Recorded parameters",
  "A recorded parameter is found with its value, the last one recorded for the name; the variable is untouched if there is none. The file has each name once, in alphabetical order.",
  "every sequence of records",
  "All sequences.",
  [("dataobjects/parameters.cpp","Parameters::addRecord"),("dataobjects/parameters.cpp","Parameters::find"),("dataobjects/parameters.cpp","Parameters::writeToFile")])
p("Tables of run statistics",
  "A table written as CSV has a line with the names and a line for each row; all lines have the same number of fields, in the order the columns were added; a column with percentages has a second field with the value over the total, times 100; a value that is missing is an empty field.",
  "every table whose names have neither commas nor newlines",
  "All tables.",
  [("utility/database.cpp","DataBase::printToCSV"),("utility/database.hpp","Entry::print"),("utility/database.cpp","DataBase::addColumn")])
p("Printed times",
  "A time of a minute or more is printed as minutes:seconds, and from an hour on as hours:minutes:seconds; the numbers give back the time to the second.",
  "every time of at least 60 seconds",
  "All times.",
  [("utility/utility.hpp","printAsTime")])
p("The length of a video",
  "With the option videoLength, positions are recorded so that, at 20 frames per second, the video of the recorded time has that length: the number of recordings is at most 20 times the length plus one, and, for small steps, not much less.",
  "every duration, start of recording, length and sequence of steps",
  "All durations and step times.",
  [("applications/driver.cpp","main"),("base/dataobject.cpp","DataObject::setFPS"),("base/dataobject.cpp","DataObject::_check")])
p("The wall of the demon pushes",
  "A closed demon wall pushes particle and wall apart whenever they overlap, with opposite forces proportional to the overlap, whichever of the two is listed first.",
  "every particle set in two dimensions, every list of pairs",
  "All positions and lists.",
  [("interactions/demon_wall.cpp","DemonWall::interact")])
p("Closing the demon wall",
  "When the wall is closed, particles that overlap it are moved to a free place on their own side of the partition; no forces act in that step, all other particles stay as they are, afterwards no wall overlaps a movable particle, and the wall is an ordinary one from the next step on.",
  "every particle set, list of pairs and sequence of random numbers",
  "All positions and random numbers.",
  [("interactions/demon_wall.cpp","DemonWall::interact"),("interactions/demon_wall.cpp","DemonWall::turnOn")])
p("Fields of mean velocities",
  "The field option of vistools writes one file for each recorded frame; the file lists the lower corners of cells that cover the bounds, 0.15 to 0.3 wide, with the mean velocity of the particles of that frame in the cell, and the numbers of particles of the cells add up to the number of particles inside the bounds.",
  "every recording, bounds and number of frames",
  "All positions, velocities, bounds and numbers of particles.",
  [("compute/field_properties.cpp","FieldProperties::create_field"),("compute/field_properties.cpp","FieldProperties::load_and_create"),("compute/binning2d.cpp","Binning2d::bin_data"),("applications/vistools.cpp","main")])
p("Command line arguments on several processors",
  "However the processors are scheduled and whatever arguments the others were started with, every processor runs the driver with the arguments given to processor 0, and none waits for ever.",
  "every number of processors, argument list, contents of fresh memory and schedule",
  "All interleavings of the processors.",
  [("applications/driver.cpp","main"),("parallel/mpi-communication.hpp","mpi_broadcast")])
p("All processors end together",
  "The driver returns the same code on all processors and no processor waits for ever, whichever processor meets an illegal option, cannot create the simulation or fails in the run.",
  "every number of processors, combination of failures and schedule",
  "All interleavings of the processors and all failures.",
  [("applications/driver.cpp","main"),("parallel/mpi-communication.hpp","mpi_and"),("base/datamaster.cpp","DataMaster::writeSummary")])
p("The summary of a run",
  "The summary reports the number of particles, the number of each type and the packing fraction of all particles of the simulation, and mean, smallest and largest radius, mass, density, speed and kinetic energy of the particles that can move.",
  "every set of particles and number of processors",
  "All particle sets.",
  [("base/datamaster.cpp","DataMaster::writeSummary"),("base/datamaster.cpp","DataMaster::writeParticleData")])
p("The forces of a step are those of all pairs",
  "However long ago the pairs were searched, as long as the check asks for no new search, the interactions give each particle exactly the sum of the forces that every other particle exerts on it at its nearest image; no pair is forgotten, counted twice or taken at another image, and cells, skin depth and old lists do not matter.",
  "every set of particles, box, table of interactions, earlier contents of the lists, and motion since the search",
  "All configurations and histories.",
  [("base/interactionhandler.cpp","InteractionHandler::construct"),("base/forcemaster.cpp","ForceMaster::interact"),("interactions/generic-handlers.hpp","VerletListPairs")])
p("The reported potential energy is that of all pairs",
  "When a data object asked for the potential energy, the energies the interactions report after a step add up to the sum of the energies of all pairs of particles within range at their nearest images.",
  "every set of particles, box, table of interactions, earlier contents of the lists, and motion since the search",
  "All configurations and histories.",
  [("base/forcemaster.cpp","ForceMaster::getTotalPotentialEnergy"),("base/interaction.cpp","Interaction::interact"),("interactions/generic-handlers.hpp","VerletListPairs")])
p("Rotation of particles",
  "With a Hooke interaction in two dimensions every particle is a disk whose angular velocity changes at the rate torque over moment of inertia, half of each step with the torque before and half with the new one; the spin angular momentum changes by the time step times the mean total torque.",
  "every set of particles, torques, time step and width of the SIMD instructions",
  "All states and sizes.",
  [("integrators/angularvelocityverlet2d.cpp","AngularVelocityVerlet2d::update_velocity"),("interactions/generic-forces.hpp","HookeGeneric"),("gflow.cpp","GFlow::addIntegrator")])
p("Friction of contacts",
  "A Hooke contact in two dimensions adds to the normal force a friction: opposite forces along the touching surfaces with their moments as torques, at most mu times the normal force, never pushing the surfaces in the direction in which they slide, and none if they do not slide; no other particle is affected.",
  "every pair of positions, velocities, angular velocities, masses, radii and parameters",
  "All real states.",
  [("interactions/generic-forces.hpp","HookeGeneric::force")])
p("Friction and angular momentum",
  "Friction between two particles leaves the sum of their orbital and spin angular momenta unchanged.",
  "every pair of positions, velocities, angular velocities, masses, radii and parameters",
  "All real states.",
  [("interactions/generic-forces.hpp","HookeGeneric::force")])
p("The forces of every step of a run",
  "At every step of a run every particle is where its motion took it, up to whole widths of a periodic box, and the force on it is the sum of the forces that each other particle exerts on it; no interacting pair is forgotten between two neighbour searches.",
  "every motion of the particles in every step, every number of steps, every tolerance of the motion and every table of interactions",
  "All histories of motion: which pairs are in the lists depends on when the last search was and on how long the handler decided to wait.",
  [("base/interactionhandler.cpp","InteractionHandler::pre_forces"),("base/interactionhandler.cpp","InteractionHandler::construct"),("base/interactionhandler.cpp","InteractionHandler::check_needs_remake"),("gflow.cpp","GFlow::run")])
p("Neighbour lists are never older than asked",
  "The neighbour lists used in any step were made by a search at most the maximal update delay ago, whatever the particles do.",
  "every motion of the particles, every number of steps and every maximal delay of at least one time step",
  "All histories of motion and schedules of searches.",
  [("base/interactionhandler.cpp","InteractionHandler::pre_forces"),("base/interactionhandler.hpp","InteractionHandler::setMaxUpdateDelay")])
p("No neighbour search comes too late for steady motion",
  "When the particles do not speed up and the time step is constant, every step uses pairs found by a search since which no particle has moved farther than the tolerated half of the skin depth times tolerance and motion factor; learning how long it can wait, the handler never waits too long.",
  "every motion that does not speed up (constant velocities among them), every number of steps, tolerance and motion factor",
  "All histories of motion and numbers of steps: the waiting time is learned during the run, from what earlier checks saw.",
  [("base/interactionhandler.cpp","InteractionHandler::pre_forces"),("base/interactionhandler.cpp","InteractionHandler::check_needs_remake"),("base/interactionhandler.hpp","InteractionHandler::setUpdateDelaySteps")])
p("Forces of steady motion",
  "When the particles do not speed up and the time step is constant, at every step of a run the force on each particle is the sum of the forces that each other particle exerts on it; no pair that has come into contact is missing.",
  "every motion that does not speed up, every number of steps and every table of interactions",
  "All histories of motion: a pair is missed only when two particles meet at the wrong moment between two searches.",
  [("base/interactionhandler.cpp","InteractionHandler::pre_forces"),("base/interactionhandler.cpp","InteractionHandler::check_needs_remake"),("base/interactionhandler.hpp","DEFAULT_MOTION_FACTOR")])
p("The trajectory does not depend on how the pairs were found",
  "As long as the lists of pairs contain every pair in range once and none but pairs of their interaction, a run goes through exactly the states of the velocity-Verlet scheme with the forces of all pairs at their nearest images. Two runs that differ only in how the pairs were found (skin depth, cells, times of the searches, order of the pairs) or in the instruction set go through the same states.",
  "every number of steps, every system of particles and interactions, every two correct families of lists",
  "All numbers of steps and all lists of pairs: the lists depend on the history of the run, and an error in one step changes all later ones.",
  [("gflow.cpp","GFlow::run"),("integrators/velocity-verlet.tpp","VelocityVerlet::pre_forces"),("base/forcemaster.cpp","ForceMaster::interact"),("base/interactionhandler.cpp","InteractionHandler::pre_forces")])
p("The motion does not depend on the numbering of the particles",
  "Two simulations of the same particles stored under different numbers (as after sorting or refilling free places) move the particles in the same way, for any number of steps.",
  "every renumbering, every number of steps, every system of particles and interactions, any correct lists of pairs in each",
  "All permutations and all numbers of steps.",
  [("base/simdata.cpp","SimData::sortParticles"),("gflow.cpp","GFlow::run"),("base/forcemaster.cpp","ForceMaster::interact"),("integrators/velocity-verlet.tpp","VelocityVerlet::pre_forces")])
p("The motion does not depend on the place or speed of the observer",
  "When all particles are moved by the same displacement and given the same additional velocity, a simulation without wrapped positions moves them in the same way, displaced further by the added velocity times the elapsed time, with the same forces.",
  "every displacement and velocity, every number of steps and time steps, every system of particles and interactions",
  "All displacements, velocities and numbers of steps.",
  [("gflow.cpp","GFlow::run"),("interactions/generic-forces.hpp","HardSphereDsGeneric"),("integrators/velocity-verlet.tpp","VelocityVerlet::pre_forces")])
p("Recorded averages of positions, speeds and forces",
  "An entry of the averages holds the means, over all particles there are, of the distance from the origin, the speed and the size of the force.",
  "every number of particles, removed ones in between, and every distribution over processors",
  "All contents of the store, with any pattern of removed particles, and all divisions among processors.",
  [("dataobjects/averagedata.cpp","AverageData::post_step")])
p("Recorded wall forces and bond energies",
  "The recorded boundary force is the total size of the forces that the soft walls gave to the particles of all processors, its average is the mean of the records, and the recorded bond energy is the sum of the energies of all bonded interactions, or that divided by the number of particles.",
  "every number of particles, processors, bonds and records",
  "All positions and velocities relative to the walls, all numbers of processors and records.",
  [("dataobjects/graphobjects/boundaryforcedata.cpp","BoundaryForceData::post_step"),("dataobjects/graphobjects/boundaryforcedata.cpp","BoundaryForceData::getAverage"),("dataobjects/graphobjects/bonded-energy-data.cpp","BondedEnergyData::post_step"),("gflow.cpp","GFlow::repulsePositions")])
p("Recorded cluster sizes",
  "Each recording lists the sizes of the groups of particles that touch (within the skin that was asked for) at that moment; the sizes add up to the number of particles.",
  "every number of recordings and every arrangement of particles",
  "All arrangements and histories of recordings with the same object.",
  [("dataobjects/percolationdata.cpp","PercolationData::post_step"),("dataobjects/percolationdata.cpp","PercolationData::PercolationData"),("dataobjects/clustering.cpp","Clustering::findClusters")])
p("The recorded entropic force on a line",
  "The recorded value is the net force on the line divided by density, kB times temperature and length of the line, where density and temperature are those of the particles between the lines.",
  "every system, dimension, line and number of processors",
  "All contents of the store and all divisions among processors.",
  [("dataobjects/multigraphobjects/lineentropicforce.cpp","LineEntropicForce::post_step"),("dataobjects/multigraphobjects/lineentropicforce.cpp","LineEntropicForce::setGroup")])
p("The motion does not depend on the number of processors",
  "A simulation on several processors, each moving its own particles under the forces of its own particles and of its copies of the others' particles, gives every particle the position, velocity and force that the same simulation on one processor gives it, after any number of steps and exchanges of particles.",
  "every number of particles, processors and steps, every division of the particles among the processors, every exchange between steps, every order of the lists",
  "All divisions of all systems, all histories of exchanges.",
  [("base/forcemaster.cpp","ForceMaster::interact"),("base/forcemaster.cpp","ForceMaster::interact_ghosts"),("interactions/generic-handlers.hpp","VerletList::interact_ghosts"),("interactions/generic-handlers.hpp","VerletList::dolist"),("gflow.cpp","GFlow::run"),("integrators/velocity-verlet.tpp","VelocityVerlet::pre_forces")])
p("The recorded force on a group",
  "The recorded net force on a group of particles is, at each recording, the sum of the forces on all members that are alive, whatever happens to the particles between the recordings and however many processors there are.",
  "every number of processors and recordings, every group, every change of the particles between recordings (removal, re-ordering, exchange)",
  "All histories of the particle stores of all processors.",
  [("dataobjects/multigraphobjects/groupnetforce.cpp","GroupNetForce::post_step"),("other/group.cpp","Group::findNetForce"),("other/group.cpp","Group::update_local_ids"),("dataobjects/dataobjecttypes/data-base/multigraphdata.cpp","MultiGraphData::gatherData"),("creators/circle-creator.cpp","CircleCreator::recursive_circle")])
p("What is kept with a particle stays with it",
  "The type and the extra data of a particle stay with it however particles are added, removed and sorted, and the stripe of a particle is the height at which it was when the run began or at which the tunnel put it there.",
  "every history of operations on the particles, steps of the modifiers, new runs",
  "All histories of the particle store.",
  [("modifiers/stripe-x.cpp","StripeX::pre_integrate"),("modifiers/stripe-x.cpp","StripeX::post_forces"),("modifiers/stream-tunnel.cpp","StreamTunnel::recursive_fill"),("base/simdata.cpp","SimData::requestScalarData")])
p("Bonds keep joining the particles they were made between",
  "However particles are added, removed and sorted, every bond and every link of a chain acts on the two particles it was made between, where they are now, with the distance at which it was made, for as long as both live.",
  "every history of bonds and chains being made, operations on the particles and steps of the run loop",
  "All histories of the particle store.",
  [("bonded/bond.cpp","Bond::updateLocalIDs"),("bonded/harmonicbond.cpp","HarmonicBond::addBond"),("bonded/harmonicbond.cpp","HarmonicBond::interact"),("bonded/harmonic-chain.cpp","HarmonicChain::addAtom"),("bonded/harmonic-chain.cpp","HarmonicChain::updateLocalIDs")])
if __name__ == "__main__":
    out = os.path.join(os.path.dirname(os.path.abspath(__file__)), "..", "properties.jsonl")
    with open(out, "w") as f:
        for x in P: f.write(json.dumps(x) + "\n")
    print(len(P))
