STATUS = {}
NOTES = {}
def claim(c, status, note):
    STATUS[c] = status; NOTES[c] = note
claim('C12', 'proved', 'For points in the closed box, all dimensions, all boundary flags. The _refuted theorem shows the limit of the claim (points outside the box).')
claim('C13', 'proved', '')
claim('C14', 'partial', 'Containment, congruence and frame conditions are proved in full (C14_wrap); idempotence is false at the upper border (C14_idempotent_refuted), proved for the half-open case (C14_wrap_halfopen_idempotent_partial).')
claim('C15', 'partial', 'Proved for particles at most one box width outside; false for particles further out and for particles moving inwards (refutations).')
claim('C16', 'partial', 'contains / intersection / centre / distance proved; the widths claim is false: max_width ignores the second axis in 2D (C16_max_width_2d_refuted).')
claim('C17', 'partial', 'Direction, linearity, non-negative totals proved; the reported energy is not the integral of the force (C17_energy_matches_force_refuted).')
claim('C18', 'proved', 'Column-major and row-major addressing, any number of dimensions.')
claim('C19', 'proved', 'Single-processor grid as set up by the code, any dimension, any position.')
claim('C20', 'partial', 'Completeness for one processor (MPI build), cutoff factors <= 1, cell size inside the range in which the stencil filter is harmless, large particles away from non-periodic borders. Each restriction is necessary: the refutations are concrete missed pairs. Missing: ghost pairs across processors.')
claim('C21', 'partial', 'No duplicates / no self pairs under the same restrictions and no two mutually visible large particles; refutations show each restriction is necessary.')
claim('C22', 'partial', 'Proved for tolerance*factor <= 1 and no particle moving ten skin depths between checks (and under the C20 conditions). The default constants violate this, and update type 2 (default) delays the remake: see refutations.')
claim('C25', 'partial', 'Proved for movable first particles and the distances the search passes; refuted for immovable first particles and across periodic borders.')
claim('C01', 'partial', 'Proved for histories of calls that respect the preconditions in Spec_Store.allowed (each stated in observable numbers); single adds are always safe; a bulk add is safe iff it exceeds the capacity by at most 32, so the unrestricted claim is refuted (C01_bulk_add_refuted). Missing: the claim for larger bulk adds and removal of every particle, which are false of the code.')
claim('C02', 'partial', 'Proved for all histories with normally assigned ids, and for shifts by k >= 0; refuted after shift+add and after reserve().')
claim('C03', 'proved', 'All allowed histories on one processor. The creator correction (a different call, C09) breaks it: C03_after_correction_refuted.')
claim('C04', 'partial', 'Proved whenever at least one particle survives; removing all particles reads Type(-1) (refuted).')
claim('C05', 'partial', 'Proved for ids 0 <= id < capacity, any order and repetition; an id >= capacity is an out-of-bounds read (refuted).')
claim('C06', 'partial', 'sortParticles(Vec) sorts along x, permutes, keeps the lookup; sortParticles() permutes safely but the order claim is refuted. Other axes are not implemented by the code.')
claim('C09', 'partial', 'Proved when particles are created by default adds without removal before the correction; refuted for particles added with data (what creators use) and for removals before the correction.')
claim('C11', 'partial', 'Position and velocity NaNs: exact. NaN forces are not detected, an already marked particle is reported, and removing all particles is out of bounds (refuted).')
claim('C07', 'partial', 'Every layout, list of ids and pair of reachable stores, with the current width and (when removing) distinct ids; a stale width writes out of bounds and a repeated id corrupts the copy (refutations).')
claim('C08', 'partial', 'Every layout and list in up to four dimensions, positions in the box, "Om" registered if sent; five dimensions and a missing "Om" are refuted.')
claim('C10', 'partial', 'Requests: full. Mixed with addScalarData of an existing name two names share a handle, and IntegerData(name) uses the scalar table (refutations).')
claim('C36', 'proved', 'Any number of processors and any non-empty box; the single-processor case is a separate theorem (computeTopology leaves it with the whole box).')
claim('C37', 'partial', 'Proved for the topology computed once: symmetric neighbours, no deadlock and no message left under every schedule and any MPI buffering. A second computeTopology duplicates neighbours (C37_recomputed_refuted).')
claim('C38', 'partial', 'Any number of processors and particles, every schedule, as long as each processor keeps a particle (or nothing leaves and nothing is pending removal). Refuted: all particles of a processor leave; the owner is not a neighbour.')
claim('C39', 'partial', 'Ghosts after creation and any number of moves and updates, every schedule; removal of ghosts. The number of ghosts is counted twice (C39_number_refuted).')
claim('C52', 'partial', 'Correct if MPI copies the value before the stack slot is reused; refuted otherwise (the request is neither kept nor waited for).')
claim('C53', 'partial', 'Exact for neighbours, up to four dimensions, positions in the box; a region within the cutoff that is not adjacent gets no ghost, more than four dimensions overflow (refutations).')
claim('C54', 'proved', 'Every schedule, any MPI buffering.')
claim('C23', 'partial', 'VecPairs and Pairs: every history. VerletList: any history followed by clear, additions, close; interchangeable for any force function. Refuted: VerletList with additions after a close or without close; VerletListVector writes outside its vectors at the first addition.')
claim('C24', 'partial', 'Every sequence of settings: last setting wins, symmetric, interacting types, setAll, listed once. The maximal cutoff bounds every interaction ever set (not only those in force), and typesInteract accepts the type ntypes: refutations.')
claim('C26', 'proved', 'Every pair force, any dimension, any list of pairs, wrapped or not; central direction for all but Hooke; the sweep is defined unless particles coincide.')
claim('C27', 'partial', 'Hard spheres, dissipative hard spheres and Hertz: locality, repulsion, dissipation. False for Hooke forces, which apply no normal force (refutations).')
claim('C28', 'partial', 'No force beyond the cutoff: all. Energy vanishing at the cutoff: Lennard-Jones however built and hard spheres; Coulomb only for radii adding up to 1; Coulomb otherwise and Buckingham are refuted.')
claim('C29', 'partial', 'Harmonic bonds (generic, 2d, 3d) and angle chains: total force unchanged; stretched bonds pull. Straight chains, chains of two atoms and 3d chains exert no spring force (refutations).')
claim('C55', 'partial', 'Hard spheres and Lennard-Jones; false for Coulomb and Buckingham (refutations).')
claim('C56', 'partial', 'False of the code: a pair split over two processors is counted twice (C56_energy_doubled_refuted); nothing is missing from the model.')
claim('C57', 'partial', 'All pair forces but Hooke, which reports a virial for a force it does not apply (refutation).')
claim('C58', 'partial', 'Generic and 3d bonds; the 2d bond exerts twice the force (refutation).')
claim('C30', 'partial', 'Any dimension, masses, forces of the positions and number of steps, once one step has been made (scalar and SSE builds, exact real arithmetic); with periodic boundaries up to whole widths, for any wrapping and forces that are the same for the same places (C30_reversible_wrapped_partial). The first step of a fresh simulation is not reversible: it starts from zero forces (refutation).')
claim('C31', 'partial', 'Positions, velocities, overdamped, clearing, angles: all sizes. Spins without SIMD, Nose-Hoover left-overs, AVX builds: refutations.')
claim('C32', 'proved', 'Velocity-Verlet with any pair forces, time steps and numbers of steps (scalar and SSE builds), exact real arithmetic.')
claim('C33', 'partial', 'Range, pace and the velocity used: every history. Particles at rest, a maximum lowered during a run, radius 0: refutations.')
claim('C59', 'proved', 'Central forces, no wrapped pairs (scalar and SSE builds), exact real arithmetic.')
claim('C60', 'partial', 'Every number of processors and steps, if velocities only are used (the default). Accelerations and the overdamped integrator deadlock (refutations).')
claim('C61', 'partial', 'The base integrator: any history; the overdamped integrator ignores the setting (refutations).')
claim('C34', 'partial', 'One processor: which step is the last, for every sequence of time steps and terminate() calls; runs add up for every history. The overshoot is always at least one step and less than two; runs without particles do not use up the request and do not restart the elapsed time (refutations).')
claim('C35', 'partial', 'Every history: interactions, bonded interactions, bodies once, in order; modifiers removed exactly on request. Modifiers, integrators and data objects can be registered twice, the data master takes null pointers (refutations).')
claim('C48', 'proved', 'Every sequence of steps of a run; also that no recording is missed.')
claim('C62', 'partial', 'Every number of processors (all with particles), time steps, calls and remakes that recur. A processor without particles deadlocks the others, and the overshoot has no bound (refutations).')
claim('C63', 'partial', 'First run: every sequence of steps. False for later runs (refutation).')
claim('C40', 'partial', 'Every expression with the usual grammar and any spaces, provided no subtracted product is followed by another + or - in the same sum; evaluation always ends. 1-2*3+4, negative factors, trailing spaces, empty texts are wrong (refutations).')
claim('C41', 'partial', 'Every file of headings, parameters and nested bodies with spaces, newlines, line and block comments; parsing always ends. Tabs, comments ending in two stars, closing braces on a parameter line are refuted.')
claim('C42', 'partial', 'Every tree, history and loop body. Unknown headings are only warned about; most argument accessors read outside of the data for large indices; begin() on an empty body and next() without begin() misbehave (refutations).')
claim('C43', 'proved', 'Every list of arguments and sequence of lookups of non-empty names; conversions of texts to values are not modelled.')
claim('C44', 'partial', 'Every group and every history of the store, once update_local_ids is called. The flag that tells users of the group to update is not set by removals alone, ids read before the first update and for groups made from the store are wrong (refutations).')
claim('C45', 'partial', 'Mass, net force, velocity and force updates: all groups. Velocity and centre of mass: finite masses; centre of mass: members in the box and less than half a width apart along periodic axes. The distance is that of the last member, the closest object is the farthest one, an empty chain reads out of bounds, immovable members give NaN (refutations).')
claim('C46', 'partial', 'Force remover: finite masses, current mass, unit projection. Torque remover: two dimensions. Sliding walls: every number of steps and any forces, no wrapping of positions. Rigid bodies turn the wrong way and about the wrong point; a stale mass leaves force; immovable or single members give NaN; recorded wall length too small; a spring between groups never acts when made by its constructor, and is not balanced when its groups are set (refutations).')
claim('C47', 'partial', 'Counts, rules and records: every particle set and history. Undoing a window: every state in which no slot was added, removed or reordered since the checkpoint. Reordering, removed but still marked particles, a second run with the door open and lost door particles are refuted.')
claim('C49', 'partial', 'Every sequence of recordings with at least one column, and gathering from any number of processes. The reported size is the number of columns, averages over no samples are NaN, the oscillation data do not average (refutations).')
claim('C50', 'partial', 'Ticks, forces by distance, centre correlation: every sample. Kinetic energy and group correlation: no sample exactly on the upper end. Two dimensional binning: no point below the lower bounds. Volume plots: at least as many bins along x as along y, reported with the y number of bins along both axes. The excluded cases are refuted.')
claim('C51', 'proved', 'Every history of calls on a timer and of the run timer, with bounds for clocks that do not go back. Time while timing is switched off can be counted, and writing results twice counts the time in between (the _refuted theorems show these consequences).')
claim('C64', 'partial', 'Every store without unused slots and every symmetric neighbour relation, which the range query gives for equal radii (C64_touching_partial). Unequal radii, removed particles and the largest size over several calls are refuted.')
claim('C65', 'partial', 'Every header with at least one vector and one scalar or magnitude, plain names, every text of digits . - + e E. Empty lists of names, NaN and loading twice with one object are refuted. Rounding by the printer is a parameter.')
claim('C66', 'partial', 'First run of the recorder: every store, names, region and selection. A second run writes outside of the data, initialize() overwrites the region, clearing keeps magnitudes (refutations).')
claim('C67', 'partial', 'Record, save, load and look up, end to end, provided no scalar is named like a magnitude. Missing radii are not noticed (refutation).')
claim('C68', 'partial', 'All runs after the first step. The first step, damping, later modifiers, start of a run, bad axis, change of processor: refutations.')
claim('C69', 'partial', 'Linear: d dt / m at most 4; rate is half of d v / m (refuted). Quadratic: only components that are not negative (negative ones grow: refuted).')
claim('C70', 'partial', 'One step exactly; uniform motion in the zone without forces. Walls are carried along (refuted). Removal past the end is not modelled.')
claim('C71', 'partial', 'One run, every sequence of times; rows on processors that reach beyond half a spacing. Second run, thin processors, spacing of the constructor: refutations. Random displacements not modelled.')
claim('C72', 'partial', 'First run. In a second run it is off for as long as the first took (refuted).')
claim('C73', 'partial', 'Every distance with min <= max. Net force is zero only for walls of equal numbers and masses (refuted otherwise).')
claim('C74', 'partial', 'All states and divisions. Kinetic energy: no removed particles in the store; its mean: no walls. Rotational energy counts twice in the total; means of nothing are not numbers (refutations).')
claim('C75', 'partial', 'Numbers and volume fraction: all. Energies by type: one processor (others are ignored: refuted).')
claim('C76', 'partial', 'One processor without ghosts and removed particles, positive temperature. Processors, ghosts, rest: refutations.')
claim('C77', 'partial', 'All regions that contain a particle; an empty region gives no number (refuted).')
claim('C78', 'partial', 'Spheres seen from outside; boxes within distance 10000 (rays not parallel to a face: any distance). Refutations: camera in a sphere, far boxes.')
claim('C79', 'partial', 'Soundness: all. Nothing hidden: camera outside the spheres, distances below 10000. Nearest: if no sphere crosses a splitting plane (in particular at most 50 spheres, one leaf); otherwise refuted.')
claim('C80', 'partial', 'Up vector not parallel to the orientation (otherwise refuted). Pixels and colours: all.')
claim('C81', 'partial', 'Rectangles with min < max, balls of non-zero radius; a ball of radius zero picks the origin (refuted).')
claim('C82', 'partial', 'Soundness: all. Density reached: no excluded regions. Ends: spheres of positive volume (refuted for radius zero). Processors: rectangles (balls refuted).')
claim('C83', 'partial', 'One template: exact. Several: the total is the largest number (refutations: numbers per template, no template, excluded regions after 51 attempts, several processors).')
claim('C84', 'partial', 'Even numbers of movable particles, none excluded; exact value otherwise (refutations: odd numbers, one particle, immovable or excluded particles).')
claim('C85', 'partial', 'Masses, proportional sizes, equiprobable types: all. Discrete probabilities: refuted (the value is read as its own probability).')
claim('C86', 'partial', 'Default spacing, ends at least a diameter apart: within the ends, no overlap, gaps at most 2r/n (n = 1 leaves up to half the segment open: refuted). Other spacings: exact spacing; refutations.')
claim('C87', 'proved', 'All dimensions from 2 on; positions relative to real arithmetic; bounds test of a processor is arbitrary.')
claim('C88', 'partial', 'Primaries: all. No overlap: links not larger than primaries. Length: radius ratio an integer. Bonds: 2 and 3 dimensions (4 refuted).')
claim('C89', 'proved', 'Heights along the line before wrapping.')
claim('C90', 'partial', 'Number: height = width. Inside: height at least the width. Otherwise refuted.')
claim('C91', 'partial', 'Declarations: all. Uses: plain texts (refutations: a variable holding a product is not an expression within one, small values print in scientific notation, which reads as a subtraction; a declaration without a name is undefined).')
claim('C92', 'partial', 'Dimensions and bounds: all. Boundary per dimension: lines with equal headings, else they are taken in the order of their headings (refuted).')
claim('C93', 'partial', 'Table: one line per interaction name counts for the parameters, lines in the order of the file when headings are equal (refutations: parameters of later lines with the same name are ignored; lines are read sorted by heading). One for all, random: all.')
claim('C94', 'partial', 'Enough coordinates, a radius, no CV-D modifier (refuted otherwise: CV-D never reads its distance; short positions and empty radii are undefined).')
claim('C95', 'partial', 'Settings: all; run by the driver, the time step adjustment and first time step of the file do not count (refuted).')
claim('C96', 'partial', 'Processors with particles. Hard spheres: all. With the forces of the simulation: the objects keep pointers to the deleted integrator, and the forces of the last step stay, until the next run (refuted). An empty simulation stays in initialisation mode, so a later run does not record (refuted).')
claim('C97', 'proved', 'All stores that look up ids correctly (C02). Single Particle headings, walls and circles give no such velocity, so theirs is what relaxation left.')
claim('C98', 'partial', 'Steps, noise, settings: all. Slowing down: small time steps (refuted else). A second run has no noise until it is as long as the first (refuted).')
claim('C99', 'partial', 'Steps: all, but the velocity is proportional to the viscosity (refuted).')
claim('C100', 'partial', 'Movable particles on one processor; the scalar build. The first friction after the waiting time is computed with the temperature -1, immovable particles give undefined numbers, each processor has its own temperature (refuted). A temperature cannot be set.')
claim('C101', 'partial', 'Under the conditions of C20 and C21 on the cells, and if a split periodic axis is longer than the region and the range together. The refutations of C20 and C21 apply (one processor is a special case).')
claim('C102', 'partial', 'Ranges up to the cell size, cell sizes outside the ranges in which the stencil filter drops neighbours, and cells 1/1000 wider than the range (refuted else). Types: one type for all particles and no more ghosts than own particles; else the types are looked up with the id of the ghost among the own particles (refuted).')
claim('C103', 'partial', 'If the range is at most the ghost cutoff of the particle, and under the conditions of C102. The cutoff only takes the radius of the particle sent into account: a small particle next to a large one across a border has no ghost (refuted).')
claim('C104', 'partial', 'If every processor has particles, and (decision types 1 and 2) none is asked to rebuild alone. A processor without particles does not take part; one that removed particles rebuilds alone (refuted).')
claim('C105', 'partial', 'If every processor has an interacting particle; one that has none does not take part (refuted). The skin depth a processor chooses is an input of the model.')
claim('C106', 'partial', 'Exactly if the width times the depth is below 2^31 and the file below 2^32 bytes; larger pictures are not refused (refuted).')
claim('C107', 'partial', 'All pictures that can be written; other signatures refused. A file that ends early is read without an error, and a wrong offset of the pixels makes the reader write outside of its table (both refuted).')
claim('C108', 'proved', 'All sequences of calls. Covering a part again at the same depth changes nothing (shown by C108_cover_again), as the rule for equal depths says.')
claim('C109', 'partial', 'For centres in the palette and radii up to its size, all depths of pixels that are not wrapped. Wrapped pixels are drawn at depth 0, larger circles are drawn outside of the palette, and a new sub-palette has no space bounds (refuted).')
claim('C110', 'partial', 'Ranges within the palette: columns as asked, rows counted from the other side (as asked only for ranges symmetric to the middle); ratios up to the integer part of the own ratio or from the own ratio on. Otherwise refuted.')
claim('C111', 'partial', 'Which pixels and how faint: all lines. The faint pixels are not mixed with what was there (refuted).')
claim('C112', 'partial', 'No palette ever loses its picture; released exactly at the end without assignments. An assignment leaks the picture (refuted).')
claim('C113', 'partial', 'The pixels: all pictures whose region lies in the picture, particles in the system. The region: systems at least as high as wide; for wider ones the region can reach over the border, and flat ones have no picture at all (refuted).')
claim('C114', 'partial', 'Values by name, positions checked, the preferred data of an option: all data sets. Missing radii are not noticed, and the way of colouring of an earlier option stays (refuted).')
claim('C115', 'partial', 'Least and largest value, colours by value, stripes and numbers: all lists. The averages are 0 from two particles on, and there is no colour if all values are equal (refuted). Colours by direction and logarithm are not modelled.')
claim('C116', 'partial', 'Data objects whose pre_integrate calls that of DataObject: all histories of runs with delay at most 10. Others: the first run only; a second run not longer than the recorded part of the first is not recorded at all (refuted).')
claim('C117', 'partial', 'All groups of finite mass in two dimensions. The constructors that are given a group use the uninitialised member gflow (their parameter has no name): not modelled.')
claim('C118', 'partial', 'All chains of at least three members with bonds of positive length, at least one recording. Without recordings the numbers of bonds are wrong (refuted).')
claim('C119', 'partial', 'All positions within 10000 of each other; beyond that the distance is wrong (refuted). The factor for the forces (temperature, density) is a parameter of the model.')
claim('C120', 'partial', 'Counts: values not just below the least one; those are counted in the first bin (refuted). Labels: the middle for distances of the velocity file, lower edges otherwise; forces have labels that are off by up to a bin (refuted).')
claim('C121', 'partial', 'All sequences, with the value recorded first; a later value is dropped (refuted).')
claim('C122', 'proved', 'All tables. How a stream prints a number is a parameter (without commas and newlines).')
claim('C123', 'proved', 'All times of at least 60 s, as exact rationals. Below that the stream prints the number.')
claim('C124', 'partial', 'All runs with a delay of at most 10. For a longer delay (short videos of long runs) the beginning is not recorded (refuted).')
claim('C125', 'partial', 'All pairs in the list of pairs that do not cross a border. Pairs across periodic borders are kept in another list, which is not looked at (refuted).')
claim('C126', 'proved', 'All random numbers for which the search for places ends. The search for a free place is a parameter: that it finds everything near is a hypothesis of C126_separated only.')
claim('C127', 'partial', 'Two dimensions, velocities stored after the positions, no particle below the bounds (cf. C50_grid_below_refuted). In three dimensions the third coordinate is taken for a velocity; the mean speed of a cell (not written to a file) is not a mean; without the option snapshot the field is looked for in a file that does not exist (refuted).')
claim('C128', 'proved', 'Asynchronous semantics of MPI collectives: each processor goes on as soon as it has what it needs. Arguments without the characters 0 (as from C strings).')
claim('C129', 'partial', 'Failures of the parser and of the creation of the simulation (without calls of MPI of their own), and success. If run() fails, processor 0 writes the data alone, and if the file of the summary cannot be opened processor 0 leaves out reductions: MPI is used wrongly in some schedule (refuted).')
claim('C130', 'partial', 'Numbers: no removed particles, no ghosts; means: particles of processor 0 only; extremes: the first particle can move. Otherwise memory outside of vectors is used or immovable particles are reported; the smallest and largest kinetic energies are twice the real ones (refuted).')
claim('C131', 'partial', 'One processor; the conditions of C20-C22 (cutoffs at most the contact distance, box of at least four cells per periodic axis, tolerance times factor at most 1, large particles of different sizes) and ranges of large particles below half the box: large particles farther apart act at the wrong image (refuted).')
claim('C132', 'partial', 'As C131; interactions whose force has an energy. Not asked for: 0 is reported.')
claim('C133', 'partial', 'One Hooke interaction, compiled with SIMD instructions. Without (as the Makefile does on common machines) particles at odd places never change their angular velocity; with several Hooke interactions the torques act as many times (refuted).')
claim('C134', 'proved', 'Relative to the same contact without friction (the normal force is the subject of C26). Two particles of the same processor; ghosts keep old angular velocities.')
claim('C135', 'partial', 'The error is the friction force times the overlap of the particles; since they always overlap when they interact, angular momentum is not conserved (refuted).')
claim('C136', 'partial', 'One processor; no large particles; periodic and open axes; no particle moves farther than half the skin within max_update_delay; nobody else requests a search; the time step does not grow. Each of the last three conditions is needed (refuted).')
claim('C137', 'partial', 'Nobody else requests a search (each request makes the next wait longer) and the time step does not grow (both refuted).')
claim('C138', 'proved', 'One processor; no large particles; periodic and open axes; nobody else requests a search; no particle moves farther than tolerated in a single step or within the initial delay of 1e-4.')
claim('C139', 'partial', 'Proved when mv_ratio_tolerance * motion_factor <= 1. With the values of the code (0.95 * 1.2) two particles that fly towards each other overlap without a force (refuted).')
claim('C140', 'proved', 'Exact real arithmetic; one processor; no modifiers; wrapping is any function of the positions that keeps their number. That the neighbour search builds such lists is C131, C136 and C139.')
claim('C141', 'proved', 'Exact real arithmetic (in floating point the order of summation changes the last digits); one processor; no modifiers.')
claim('C142', 'proved', 'Exact real arithmetic; no position is wrapped during the run.')
claim('C143', 'partial', 'Proved for one processor with at least one particle. On several processors only the particles of the first count, and without particles the entries are not numbers (refuted).')
claim('C144', 'partial', 'Proved, except that the mean bond energy counts the places of removed particles (refuted; proved when none was removed).')
claim('C145', 'partial', 'Proved for skin 0, at least one particle, no places of removed particles and particles that see each other mutually. The skin that is asked for is ignored, and an empty store repeats the previous record (refuted).')
claim('C146', 'partial', 'Proved for one processor without ghosts and removed particles. On several processors density and temperature are those of the first one, and a line listed downwards has a negative length (refuted).')
claim('C147', 'partial', 'Proved for whole runs, under the condition that in each step the ghosts and lists are right (all particles in range are ghosts, at an image of their place; C91-C103 say when this is so), that the range is at most half the width of the box, and for all forces but Hooke. For Hooke the force on a particle differs between one and two processors (refuted). Torques, bonds and modifiers are not in this model.')
claim('C148', 'partial', 'What is recorded is proved exactly (C148_recorded): the forces on the members that were alive on the processor that added them at every recording so far. This is the total force on the living members as long as no member moves to another processor; a member that does is dropped from the group for good (C148_moved_refuted).')
claim('C149', 'partial', 'Proved for all histories except those with a correction of the ids after the run has begun (OpShift; it is made before runs begin, C09) and those that C04 and C11 refute (removal of all particles).')
claim('C150', 'partial', 'All histories in which nothing is reordered after the forces of a step (late sort: refuted), for bonds whose particles both live. When a bonded particle is removed the bonds access place -1 or pull towards a removed particle; a chain begun between steps takes the id of its first atom for its place (refutations).')
