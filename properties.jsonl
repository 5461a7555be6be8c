{"id": "C01", "title": "Tree keys behave as paths", "statement": "A tree key is a path of child numbers below the root. Appending a child and removing it gives back the key; the removed digit is the appended one; the depth counts the digits; removing d digits at once equals removing one digit d times; truncating to a depth yields the ancestor at that depth; two different paths of admissible length never have the same key.", "quantifier": "every key of every admissible depth (0..max_depth), every child number, dimensions 1, 2 and 3", "why_tests_cant": "There are 2^63 keys; unit tests sample a handful and cannot show injectivity.", "anchors": ["include/tree_topology/filling_curve.h: filling_curve::push, pop, pop_value, last_value, pop(int), parent, depth, truncate, conflict_depth, root, min, max"]}
{"id": "C02", "title": "Morton keys order space by nested cells", "statement": "The Morton key of a point at full depth is the interleaving of the bits of its integer cell coordinates below a leading one: two points have the same ancestor key at depth d exactly when they lie in the same cell of the 2^d-per-axis grid over the range.", "quantifier": "every pair of cell coordinates and every depth, dimensions 1, 2, 3", "why_tests_cant": "The statement relates all pairs of points at all depths; finite samples cannot exclude a collision or a bit in the wrong place.", "anchors": ["include/tree_topology/filling_curve.h: morton_curve_u constructors"]}
{"id": "C03", "title": "Morton key decodes to a point of its own cell", "statement": "Converting a full-depth Morton key back to cell coordinates and encoding again gives the same key, and encoding cell coordinates and decoding gives the same cell coordinates.", "quantifier": "every full-depth key and every tuple of cell coordinates in the admissible range, dimensions 1, 2, 3", "why_tests_cant": "Round trip over a 2^63 space.", "anchors": ["include/tree_topology/filling_curve.h: morton_curve_u::coordinates, constructors"]}
{"id": "C04", "title": "A key built at a smaller depth is the ancestor of the full key", "statement": "Constructing a key for a point at depth d gives the depth-d ancestor of the key constructed at full depth, for both curves.", "quantifier": "every point, every depth from 0 to max depth, dimensions 1, 2, 3", "why_tests_cant": "Tests use the full depth only; the claim is over all depths and points.", "anchors": ["include/tree_topology/filling_curve.h: morton_curve_u(range,p,depth), hilbert_curve_u(range,p,depth)"]}
{"id": "C05", "title": "Hilbert keys in two dimensions enumerate the grid along adjacent cells", "statement": "The two-dimensional Hilbert key is a bijection between the cells of the 2^L by 2^L grid and the 4^L keys, and cells with consecutive keys share an edge.", "quantifier": "every grid level L and every cell or key", "why_tests_cant": "Bijectivity and adjacency are statements about all 4^L keys for all L.", "anchors": ["include/tree_topology/filling_curve.h: hilbert_curve_u constructor, rotation2d"]}
{"id": "C06", "title": "Hilbert key converts back to its cell", "statement": "Converting a full-depth Hilbert key back to coordinates yields a point whose key is the same key.", "quantifier": "every full-depth key, dimensions 2 and 3", "why_tests_cant": "Round trip over all keys.", "anchors": ["include/tree_topology/filling_curve.h: hilbert_curve_u::coordinates, rotation3d, unrotation3d"]}
{"id": "C07", "title": "Hilbert keys separate distinct cells in every dimension", "statement": "Two points in different cells of the finest grid get different Hilbert keys, in dimension 1, 2 and 3.", "quantifier": "every pair of distinct cells of the finest grid", "why_tests_cant": "A collision could involve any two of 2^63 cells.", "anchors": ["include/tree_topology/filling_curve.h: hilbert_curve_u constructor, rotation3d"]}
{"id": "C08", "title": "Cell flags do not interfere", "statement": "In a tree cell the child set, the locality mark, the requested mark and the expected-children counter are independent: each setter changes only its own field and each getter returns what was last set.", "quantifier": "every sequence of setter calls with admissible arguments, dimensions 1, 2, 3", "why_tests_cant": "The fields share one packed word; all histories of setters matter.", "anchors": ["include/tree_topology/tree_types.h: hcell::add_child, get_child, set_shared, is_shared, set_requested, unset_requested, requested, set_nchildren_to_receive, nchildren_to_receive, nchildren, has_child"]}
{"id": "C09", "title": "The tree built from sorted particles is the canonical tree of their keys", "statement": "On one process, after build_tree on particles with strictly increasing keys, the tree contains exactly the cells demanded by the keys: a cell with one particle below it and whose parent is the root or has several is a leaf holding that particle; a cell with several particles below is an internal cell whose child marks are exactly its existing children; every internal cell has been finished once, after its children.", "quantifier": "every non-empty strictly increasing sequence of full-depth keys, dimensions 1, 2, 3", "why_tests_cant": "The construction is a stateful single pass whose correctness depends on the whole history of keys.", "anchors": ["include/tree_topology/tree_topology.h: build_tree, finish_, daughters_, cofm_children_"]}
{"id": "C10", "title": "Every particle is reachable exactly once from the root of the built tree", "statement": "A traversal from the root of the built tree visits every particle exactly once and visits nothing else as a leaf.", "quantifier": "every non-empty strictly increasing sequence of full-depth keys", "why_tests_cant": "All key sets, unbounded number of particles.", "anchors": ["include/tree_topology/tree_topology.h: build_tree, traversal, daughters_"]}
{"id": "C11", "title": "Node summaries describe everything below the node", "statement": "For every node, the mass is the sum of the particle masses below it, the centre is their mass-weighted mean, the particle count is exact, the bounding box contains each particle widened by half its radius, the node radius bounds the distance from the centre to each particle, and the overlap radius bounds that distance plus the particle's radius.", "quantifier": "every tree shape, every particle data with positive masses", "why_tests_cant": "Universally quantified over trees and real data; the summaries are composed bottom-up.", "anchors": ["include/physics/default_physics.h: compute_cofm", "include/tree_topology/tree_topology.h: cofm_children_, finish_"]}
{"id": "C12", "title": "Radius search returns exactly the particles in range", "statement": "find_in_radius(center, r) returns each particle whose distance to the centre is at most max(r, its own radius), exactly once, and nothing else.", "quantifier": "every tree with summaries computed by the code, every centre and radius", "why_tests_cant": "Pruning correctness depends on the geometry of every configuration.", "anchors": ["include/tree_topology/tree_topology.h: find_in_radius, traversal", "include/tree_topology/tree_geometry.h: within_distance2", "include/physics/default_physics.h: compute_cofm"]}
{"id": "C13", "title": "SPH neighbour lists contain every particle inside the kernel support", "statement": "During the SPH traversal every local particle is processed exactly once, and the neighbour list handed to the physics function contains every particle closer than the mean of the two smoothing lengths, contains only particles closer than the larger of the two smoothing lengths, and contains none twice.", "quantifier": "every tree with summaries computed by the code, every target cell, any smoothing lengths", "why_tests_cant": "The box and sphere culling must be conservative for all geometries.", "anchors": ["include/tree_topology/tree_topology.h: traversal_sph", "include/tree_topology/tree_geometry.h: intersects_box_box, intersects_sphere_box, within_distance2", "include/physics/default_physics.h: compute_cofm"]}
{"id": "C14", "title": "SPH neighbour lists contain every particle within the larger radius", "statement": "During the SPH traversal the neighbour list of a particle contains every particle closer than the larger of the two smoothing lengths (the criterion applied to leaves and by the radius search).", "quantifier": "every particle configuration with arbitrary, unequal smoothing lengths", "why_tests_cant": "Needs a configuration with unequal radii across a cell boundary; tests use uniform radii.", "anchors": ["include/tree_topology/tree_topology.h: traversal_sph", "include/physics/default_physics.h: compute_cofm"]}
{"id": "C15", "title": "Gravity traversal accounts for each pair once", "statement": "In the FMM traversal on one process, for each ordered pair of particles (target, source) the source's effect reaches the target through exactly one interaction: one direct particle-particle entry, one node-on-particle, one particle-on-node or one node-on-node interaction.", "quantifier": "every tree, every multipole acceptance parameter, every geometry in which two coincident zero-extent cells do not occur", "why_tests_cant": "Missing or double counting can happen for any tree shape and acceptance pattern.", "anchors": ["include/tree_topology/tree_topology.h: traversal_fmm", "include/tree_topology/tree_geometry.h: mac"]}
{"id": "C16", "title": "All ranks learn all top-level branches", "statement": "After the branch exchange at the end of build_tree every process knows the top-level branches of every other process.", "quantifier": "every number of processes", "why_tests_cant": "The exchange pattern differs for each process count; tests run on a few counts.", "anchors": ["include/tree_topology/tree_topology.h: share_nodes_, find_nodes_, load_shared_node_, load_shared_entity_"]}
{"id": "C17", "title": "Traversal communication ends without losing messages", "statement": "When a process leaves the communication phase of a traversal, every process has finished its work and every request and reply addressed to it has been handled; a DONE notification is never lost or counted for a later traversal; if no process is finished some step is always possible.", "quantifier": "every number of processes, every interleaving and message delay permitted by MPI's non-overtaking rule, any number of consecutive traversals", "why_tests_cant": "Schedules are unbounded; tests see a few interleavings.", "anchors": ["include/tree_topology/tree_topology.h: check_comms_, wait_comms_, request_, recv_requests_, init_comms_, traversal_sph (DONE_COMMS phase)"]}
{"id": "C18", "title": "A partly received remote cell is never treated as complete", "statement": "While the children of a requested remote cell are still arriving, the traversal treats the cell as not yet available; once it treats it as available all its children are present.", "quantifier": "every order of request/reply processing permitted by MPI non-overtaking, any number of children of either kind", "why_tests_cant": "Depends on delivery order between two reply messages.", "anchors": ["include/tree_topology/tree_topology.h: recv_requests_, recv_node_replies_, recv_entity_replies_", "include/tree_topology/tree_types.h: is_empty_node"]}
{"id": "C19", "title": "Reported tree depth is the depth of the deepest leaf", "statement": "After build_tree, max_depth() is the depth of the deepest leaf.", "quantifier": "every set of particle keys", "why_tests_cant": "A universally quantified relation between the reported number and the structure.", "anchors": ["include/tree_topology/tree_topology.h: max_depth, build_tree"]}
{"id": "C20", "title": "Sorting particles uses a valid ordering", "statement": "The ordering used to sort particles is a strict weak ordering (irreflexive, asymmetric, transitive, with transitive incomparability), as the standard sort requires.", "quantifier": "all triples of particles, including particles with equal keys", "why_tests_cant": "std::sort misbehaves only for some inputs and implementations; a test may pass by luck.", "anchors": ["include/tree_topology/tree_types.h: entity::operator<", "mpisph/psort.h", "mpisph/tree_colorer.h: mpi_qsort"]}
{"id": "C21", "title": "Parallel sort permutes and orders globally", "statement": "The parallel sort redistributes the elements so that the concatenation over ranks is a sorted permutation of the input and each rank ends with the number of elements it asked for.", "quantifier": "every number of ranks, every distribution and content including duplicates, any splitters the selection phase returns subject to its stated contract", "why_tests_cant": "All inputs and rank counts.", "anchors": ["mpisph/psort.h: psort, Split::split"]}
{"id": "C22", "title": "Particle redistribution by sampled splitters loses nothing", "statement": "Redistribution by key ranges sends every particle to exactly one rank, keeps the multiset of particles, and after it all keys on a lower rank precede those on a higher rank.", "quantifier": "every number of ranks, every particle content, every splitter sequence", "why_tests_cant": "All inputs; boundary keys equal to a splitter and the maximal key matter.", "anchors": ["mpisph/tree_colorer.h: mpi_qsort, generate_splitters_samples"]}
{"id": "C23", "title": "The computed range contains every particle", "statement": "The global range computed from the particles contains every particle of every rank, widened by its radius, and is the same on all ranks.", "quantifier": "every non-empty distribution of particles over ranks", "why_tests_cant": "All particle configurations and distributions.", "anchors": ["mpisph/bodies_system.h: mpi_compute_range", "mpisph/tree_colorer.h: mpi_compute_range"]}
{"id": "C24", "title": "Exchange buffers are disjoint and complete", "statement": "In the all-to-all and all-gather helpers every element sent to a rank arrives once, in sender order, at a position computed from the counts, and no two senders' segments overlap.", "quantifier": "every number of ranks and every matrix of counts (including zeros)", "why_tests_cant": "All count matrices.", "anchors": ["mpisph/utils.h: mpi_alltoallv, mpi_allgatherv, mpi_alltoallv_p2p"]}
{"id": "C25", "title": "Periodic images appear where neighbours need them", "statement": "Periodic boundary handling creates, for every particle within the boundary layer of a periodic face, the image displaced by the box length on that axis (and the corner combinations), and no image of a particle away from all faces; the original particles are unchanged.", "quantifier": "every particle set, every box and choice of periodic axes", "why_tests_cant": "All particle positions and axis combinations.", "anchors": ["include/physics/boundary.h: pboundary_generate, add_corner_*"]}
{"id": "C26", "title": "Removing periodic images restores the particle set", "statement": "Cleaning the periodic images after a step leaves exactly the real particles, in their original order.", "quantifier": "every particle sequence and image set", "why_tests_cant": "All sequences of image/real markers.", "anchors": ["include/physics/boundary.h: pboundary_clean"]}
{"id": "C27", "title": "Initial data are split without gaps", "statement": "When N particles are read by P ranks, the ranks read disjoint consecutive blocks covering 0..N-1, whose sizes differ by at most one.", "quantifier": "every N and P", "why_tests_cant": "All N and P.", "anchors": ["mpisph/io.h: inputDataHDF5, H5P_setNumParticles"]}
{"id": "C28", "title": "Generated particle ids are unique", "statement": "When the input file has no ids, the ids generated by the ranks are pairwise distinct.", "quantifier": "every number of particles and ranks", "why_tests_cant": "Fails only when N is not divisible by the rank count.", "anchors": ["mpisph/io.h: H5P_bodiesReadDataset (id generation)"]}
{"id": "C29", "title": "Snapshot file names round trip", "statement": "The step number recovered from a snapshot file name is the one it was written with, and a file of another prefix is not recognised as a snapshot of this prefix.", "quantifier": "every prefix and every step number", "why_tests_cant": "All strings and step numbers.", "anchors": ["mpisph/io.h: isPrefixSnapshot, outputDataHDF5 (file name)"]}
{"id": "C30", "title": "Restart finds the snapshot of the requested iteration", "statement": "Searching snapshots for an iteration returns a step whose recorded iteration is the requested one, and reports failure when there is none.", "quantifier": "every directory content and every requested iteration", "why_tests_cant": "All directory contents.", "anchors": ["mpisph/io.h: findIterationSnapshot"]}
{"id": "C31", "title": "Output followed by restart restores the particle state for any rank count", "statement": "Writing the particles with one number of ranks and reading them with another returns the same global sequence of particles for every persisted field. The file also has the writing rank of every particle, and zeros for the components that do not exist.", "quantifier": "every particle sequence, every pair of rank counts and distributions", "why_tests_cant": "All distributions.", "anchors": ["mpisph/io.h: outputDataHDF5, inputDataHDF5, H5P_writeDataset, H5P_readDataset"]}
{"id": "C32", "title": "Smoothing kernels are non-negative with compact support", "statement": "Each finite-support smoothing kernel is non-negative and vanishes at and beyond the support radius, and its gradient vanishes there too.", "quantifier": "every distance and smoothing length, dimensions 1-3", "why_tests_cant": "Continuum of real arguments.", "anchors": ["include/physics/kernels.h: cubic_spline, quintic_spline, wendland_c2/c4/c6"]}
{"id": "C33", "title": "Kernel gradients are the derivatives of the kernels", "statement": "For each kernel the coded radial derivative is the derivative of the coded kernel with respect to distance.", "quantifier": "every distance and smoothing length, dimensions 1-3", "why_tests_cant": "Derivative identity over the reals.", "anchors": ["include/physics/kernels.h: *_kernel, gradient_*"]}
{"id": "C34", "title": "Kernels are normalised", "statement": "The integral of each finite-support kernel over space is one in each dimension. The decimal constants of the Gaussian and super-Gaussian kernels make their integral over the ball of radius h one to within 1e-11. The fitted constants of the sinc kernel make it one to within 5e-5 for every whole index from 3 to 12.", "quantifier": "every smoothing length h>0, dimensions 1, 2, 3", "why_tests_cant": "An integral identity; numerical tests only approximate it.", "anchors": ["include/physics/kernels.h: kernel normalisation constants and kernels"]}
{"id": "C35", "title": "Pressure and viscous forces conserve momentum", "statement": "For neighbour lists that contain all pairs inside the kernel support, the sum over particles of mass times hydrodynamic acceleration is zero.", "quantifier": "every particle set, every pairwise symmetric viscosity, every kernel with an antisymmetric gradient vanishing outside its support", "why_tests_cant": "All particle configurations; floating-point tests only see approximate cancellation.", "anchors": ["include/physics/default_physics.h: compute_acceleration", "include/physics/viscosity.h: artificial_viscosity"]}
{"id": "C36", "title": "Internal and kinetic energy exchange balances", "statement": "The sum over particles of mass times (internal-energy rate plus velocity dot hydrodynamic acceleration) is zero; likewise the sum of mass times the total-energy rate is zero.", "quantifier": "every particle set, symmetric viscosity, antisymmetric gradient", "why_tests_cant": "All particle configurations.", "anchors": ["include/physics/default_physics.h: compute_dudt, compute_dedt, compute_acceleration"]}
{"id": "C37", "title": "Direct gravity conserves momentum and self-force is zero", "statement": "The direct particle-particle gravity gives equal and opposite forces for each pair and no force of a particle on itself; the potential is symmetric.", "quantifier": "every particle set", "why_tests_cant": "All particle configurations.", "anchors": ["include/physics/fmm.h: gravitation_p2p, fmm_p2p"]}
{"id": "C38", "title": "Far-field gravity is the first-order expansion of the point-mass field", "statement": "The cell-cell interaction adds the potential and acceleration of the source's point mass at the sink's centre, the acceleration being minus the gradient of the potential; a particle of the sink receives the first-order Taylor polynomial of the potential about the centre and minus the gradient of that polynomial; over a cell centred at its centre of mass the first-order terms cancel, and mutual cell interactions exchange opposite forces.", "quantifier": "every pair of separated cells and displacement", "why_tests_cant": "Analytic identity over reals.", "anchors": ["include/physics/fmm.h: gravitation_fc, interaction_c2p, taylor_c2p"]}
{"id": "C39", "title": "The leapfrog step is time reversible", "statement": "Applying kick-drift-kick with step dt and then with step -dt returns positions and velocities to their initial values for any position-dependent acceleration.", "quantifier": "every state, step and acceleration field", "why_tests_cant": "All states; tests only check drift.", "anchors": ["include/physics/integration.h: leapfrog_kick_v, leapfrog_drift"]}
{"id": "C40", "title": "Adaptive time step respects the stability bound", "statement": "The time step chosen never exceeds the stability limit computed from the particles.", "quantifier": "every sequence of limits and every output interval setting", "why_tests_cant": "All histories of limits; depends on saved state between calls.", "anchors": ["include/physics/default_physics.h: set_adaptive_timestep"]}
{"id": "C41", "title": "Simulation time increases and hits the output times", "statement": "Time advances strictly at every step and each scheduled output time is reached exactly. The first output is at the first multiple of the output interval that is not before the initial iteration or time.", "quantifier": "every sequence of stability limits and every combination of output intervals", "why_tests_cant": "All histories; failure needs a specific sequence.", "anchors": ["include/physics/default_physics.h: set_adaptive_timestep, advance_time"]}
{"id": "C42", "title": "External forces derive from their potentials", "statement": "Each external acceleration is minus the gradient of the corresponding external potential. The force of a density profile balances the pressure gradient of that profile, and the airfoil is described in the shifted and rotated frame.", "quantifier": "every position and parameter value where the potential is defined", "why_tests_cant": "Continuum of positions and parameters.", "anchors": ["include/physics/eforce.h: acceleration_*/potential_*"]}
{"id": "C43", "title": "Equations of state are consistent", "statement": "Pressure, sound speed and internal energy given by each equation of state satisfy c^2 = dP/drho along the adiabat used (ideal, polytropic), and the adiabat recovered from a pressure reproduces that pressure; the piecewise polytrope is continuous at its threshold. The two constants of the white dwarf equation of state are those of the degenerate electron gas with the CODATA constants to one part in ten million.", "quantifier": "every positive density, energy and parameter set", "why_tests_cant": "Continuum of states.", "anchors": ["include/physics/eos/eos.h"]}
{"id": "C44", "title": "Artificial viscosity is symmetric and dissipative", "statement": "The viscous term is the same for a pair taken in either order, is zero for receding particles and non-negative for approaching ones.", "quantifier": "every pair of particle states with positive density and coefficients", "why_tests_cant": "Continuum of states.", "anchors": ["include/physics/viscosity.h: mu, artificial_viscosity"]}
{"id": "C45", "title": "Viscosity switch stays within bounds", "statement": "The adaptive viscosity coefficient remains between zero and its maximum, the limiter stays between zero and one, and the coefficient never decays below its local target value. The mean of the signs of the divergences in the limiter lies between -1 and 1, and is 1 where all neighbours expand.", "quantifier": "every particle state and step", "why_tests_cant": "Continuum of states and arbitrary histories.", "anchors": ["include/physics/viscosity.h: compute_xi, compute_alpha"]}
{"id": "C46", "title": "Spherical density profiles integrate to unit mass", "statement": "For each analytic profile the enclosed-mass function is the integral of the density, equals one at the unit radius, the coded density derivative is the derivative, and the density vanishes outside the unit sphere.", "quantifier": "every radius, dimensions 1-3", "why_tests_cant": "Analytic identity over reals.", "anchors": ["include/physics/density_profiles.h"]}
{"id": "C47", "title": "Profile interpolation reproduces tabulated data", "statement": "Interpolating a tabulated profile at a tabulated point returns the tabulated value, cubic data are reproduced exactly between points, the located interval contains the argument, and the table is never indexed out of bounds.", "quantifier": "every strictly increasing table with at least four points and every argument", "why_tests_cant": "All tables and arguments.", "anchors": ["include/physics/density_profiles.h: get_interval_index, cubic_interp"]}
{"id": "C48", "title": "Particle lattices count what they generate", "statement": "The lattice generator in counting mode returns exactly the number of particles written in generating mode, and writes them consecutively from the given start index.", "quantifier": "every domain, spacing, lattice type, dimension and start index", "why_tests_cant": "All parameters.", "anchors": ["include/lattice.h: count, generate, generator_lattice_*"]}
{"id": "C49", "title": "Lattice particles keep their spacing", "statement": "Any two particles of a generated lattice are at least the requested separation apart.", "quantifier": "every lattice type, dimension and lattice size", "why_tests_cant": "All pairs of an unbounded lattice.", "anchors": ["include/lattice.h: generator_lattice_1d/2d/3d"]}
{"id": "C50", "title": "Icosahedral sphere particle counts", "statement": "The closed-form particle number of an icosahedral sphere is the sum of its shell numbers, and each shell's construction yields the number of points stated for it.", "quantifier": "every number of shells", "why_tests_cant": "All shell numbers.", "anchors": ["include/lattice.h: npart_icosahedral_shell, npart_icosahedral_sphere, generator_icosahedral"]}
{"id": "C51", "title": "Symmetric tensor storage", "statement": "The storage index of a symmetric tensor is invariant under permutation of the subscripts, distinct component classes use distinct storage cells and every cell is used; named access and subscript access agree.", "quantifier": "all ranks and dimensions offered, all subscripts", "why_tests_cant": "Exhaustive over an index family, including all permutations.", "anchors": ["include/tensor.h: symindx2, symindx3, symindx4, multiindex, remap tables"]}
{"id": "C52", "title": "In-place tensor arithmetic is correct under aliasing", "statement": "The compound assignments compute the element-wise sum or difference also when both operands are the same object.", "quantifier": "every tensor value, aliased or not", "why_tests_cant": "Aliasing is rarely tested.", "anchors": ["include/tensor.h: operator+=, operator-="]}
{"id": "C53", "title": "Velocity divergence is Galilean invariant", "statement": "The computed velocity divergence does not change when a constant velocity is added to all particles.", "quantifier": "every particle configuration and velocity offset", "why_tests_cant": "All configurations.", "anchors": ["include/physics/default_physics.h: compute_divv"]}
{"id": "C54", "title": "Conservation check detects violations", "statement": "The conservation check returns failure when some recorded row deviates from the first row by more than the tolerance.", "quantifier": "every recorded file content", "why_tests_cant": "All file contents.", "anchors": ["include/physics/analysis.h: check_conservation, scalar_output"]}
{"id": "C55", "title": "Parameter lines are parsed faithfully", "statement": "For a parameter line 'name = value' with arbitrary blanks and a trailing comment the parameter gets the given value; comment and blank lines change nothing; the result does not depend on the order of lines for distinct parameters.", "quantifier": "every line and file content", "why_tests_cant": "All strings.", "anchors": ["include/params.h: read_params, trim, set_param"]}
{"id": "C56", "title": "Hash table behaves as a map", "statement": "The custom hash table returns for each key the value first stored under it and reports absence for keys never stored, whatever collisions occur. Every bucket index lies inside the vector of buckets, and only keys that agree in their last 22 bits share a bucket.", "quantifier": "every sequence of insertions and lookups", "why_tests_cant": "All histories including bucket collisions.", "anchors": ["include/tree_topology/hashtable.h"]}
{"id": "C57", "title": "Geometric predicates are exact", "statement": "The box, sphere and point predicates hold exactly when the corresponding sets intersect or contain the point. within() accepts exactly the ball widened by its tolerance.", "quantifier": "all points, radii and boxes, dimensions 1-3", "why_tests_cant": "Continuum of arguments.", "anchors": ["include/tree_topology/tree_geometry.h: within_distance2, within_box, intersects_box_box, intersects_sphere_sphere, intersects_sphere_box, mac"]}
{"id": "C58", "title": "Radial relaxation helpers are consistent", "statement": "Converting a position to spherical coordinates and back gives the position, and removing the radial part of an acceleration leaves a vector orthogonal to the position. The angles lie in (-pi, pi] and [0, pi].", "quantifier": "every non-zero position, dimensions 1-3", "why_tests_cant": "Continuum.", "anchors": ["include/physics/wvt.h: cartesian_to_spherical, spherical_to_cartesian, remove_radial_acc"]}
{"id": "C59", "title": "Global diagnostics do not depend on the distribution", "statement": "Total mass, momentum, energy and angular momentum reported are the sums over all real particles regardless of how they are distributed over ranks.", "quantifier": "every particle set and distribution", "why_tests_cant": "All distributions.", "anchors": ["include/physics/analysis.h: compute_total_mass, compute_total_momentum, compute_total_energy, compute_total_ang_mom", "mpisph/utils.h: reduce_sum"]}
{"id": "C60", "title": "Load balance after each iteration setup", "statement": "After the particles are redistributed each rank holds the same number of particles up to one.", "quantifier": "every initial distribution and rank count", "why_tests_cant": "All distributions.", "anchors": ["mpisph/bodies_system.h: update_iteration"]}
{"id": "C61", "title": "Remote data fetched during traversal equal the owner's data", "statement": "At the end of the traversal phase, every cell that a process uses to compute neighbours carries the same summary, child set and particle data as at the owner, so distributed neighbour lists equal those of a single-process run over all particles.", "quantifier": "every distribution of particles over a power-of-two number of ranks and every message schedule", "why_tests_cant": "All distributions and schedules.", "anchors": ["include/tree_topology/tree_topology.h: share_nodes_, cofm_update_, recv_requests_, recv_node_replies_, recv_entity_replies_, traversal_sph"]}
{"id": "C62", "title": "Consecutive Hilbert keys in three dimensions are neighbouring cells", "statement": "In three dimensions two cells of the finest grid whose Hilbert keys differ by one share a face.", "quantifier": "every pair of consecutive keys", "why_tests_cant": "The claim is over all 8^21 consecutive pairs.", "anchors": ["include/tree_topology/filling_curve.h: hilbert_curve_u constructor, rotation3d"]}
{"id": "C63", "title": "The box of an ancestor key contains the point", "statement": "For a Morton key, range() of the depth-d ancestor of a point's key is a box that contains the point and has 1/2^d of the extent of the domain along every axis.", "quantifier": "every point of every non-degenerate range, every depth, dimensions 1, 2, 3", "why_tests_cant": "Containment must hold for all points and depths, including cell boundaries.", "anchors": ["include/tree_topology/filling_curve.h: morton_curve_u::range"]}
{"id": "C64", "title": "Tree construction accepts particles sharing a key", "statement": "build_tree completes without undefined behaviour for every sorted sequence of full-depth keys, including sequences in which two particles have equal keys.", "quantifier": "every non-decreasing sequence of full-depth keys", "why_tests_cant": "Needs two particles in the same finest cell; the failure is undefined behaviour (a shift by a wrapped depth) that need not show up as a crash.", "anchors": ["include/tree_topology/tree_topology.h: build_tree"]}
{"id": "C65", "title": "Hydrodynamic forces conserve angular momentum", "statement": "For neighbour lists that contain all pairs inside the kernel support, every component of the total torque of the computed accelerations equals that of the external accelerations.", "quantifier": "every particle set, every kernel of the library, both viscosities", "why_tests_cant": "All particle configurations; floating-point tests only see approximate cancellation.", "anchors": ["include/physics/default_physics.h: compute_acceleration", "include/physics/kernels.h: kernel gradients"]}
{"id": "C66", "title": "Pressure repels and viscosity heats", "statement": "For the monotone kernels the kernel gradient points to the neighbour, so non-negative pressures and viscosity never attract, and the viscous part of the internal-energy rate is never negative when the viscosity uses the same velocity.", "quantifier": "every pair and neighbour list with positive densities and smoothing lengths", "why_tests_cant": "Continuum of states.", "anchors": ["include/physics/default_physics.h: compute_acceleration, compute_dudt", "include/physics/kernels.h", "include/physics/viscosity.h"]}
{"id": "C67", "title": "Computed density is positive", "statement": "The density of a particle that is in its own neighbour list is positive, so the assertion in compute_density cannot fail.", "quantifier": "every neighbour list of positive masses and smoothing lengths, every kernel", "why_tests_cant": "All configurations and kernels; the super-Gaussian kernel violates it only for uneven masses.", "anchors": ["include/physics/default_physics.h: compute_density"]}
{"id": "C68", "title": "Gravity traversal conserves momentum", "statement": "When no two nodes of the tree have the same radius, the sum of mass times acceleration computed by the gravity traversal is zero in every component; with nodes of equal radius it need not be, because both ordered pairs then split their second member.", "quantifier": "every particle set with distinct positions and keys, every acceptance parameter", "why_tests_cant": "Momentum errors hide in the approximation error for any particular input; the tie case needs exactly equal radii.", "anchors": ["include/tree_topology/tree_topology.h: traversal_fmm", "include/physics/fmm.h"]}
{"id": "C69", "title": "Error bound of the gravity traversal", "statement": "The acceleration of each particle computed by the gravity traversal with acceptance parameter theta differs from the direct sum over all other particles by at most theta(4+5theta+2theta^2) times the sum of the magnitudes of the pair attractions.", "quantifier": "every particle set with distinct positions and keys, every theta >= 0, every tree depth", "why_tests_cant": "An upper bound over all configurations cannot be sampled.", "anchors": ["include/tree_topology/tree_topology.h: traversal_fmm", "include/tree_topology/tree_geometry.h: mac", "include/physics/fmm.h"]}
{"id": "C70", "title": "White-dwarf sound speed is that of the pressure", "statement": "In the cold white-dwarf equation of state the sound speed the code stores satisfies c^2 = dP/drho for the pressure the code stores.", "quantifier": "every positive density and electron fraction", "why_tests_cant": "An identity between two formulas over a continuum of densities; no test compares the sound speed with the derivative of the pressure.", "anchors": ["include/physics/eos/eos.h: compute_pressure_wd, compute_soundspeed_wd"]}
{"id": "C71", "title": "Relaxation drag only slows particles", "statement": "The relaxation drag acceleration never does positive work, and one explicit step with it shortens the velocity without turning it as long as dt (beta + gamma v^2) <= 1.", "quantifier": "every velocity and every non-negative pair of coefficients", "why_tests_cant": "An inequality over a continuum of velocities and coefficients.", "anchors": ["include/physics/eforce.h: acceleration_drag"]}
{"id": "C72", "title": "Periodic images get fresh ids and the id check accepts valid input", "statement": "After the images are generated every image on every rank has an id that no other particle has (the ids from the number of real particles upwards, each once), and the closing id-sum assertion holds exactly when the real ids add up to 0+...+(n-1).", "quantifier": "every distribution of particles, every box, axis choice and layer width", "why_tests_cant": "All distributions and id assignments; the assertion compares a global sum.", "anchors": ["include/physics/boundary.h: pboundary_generate L225-248"]}
{"id": "C73", "title": "Clearing old output removes exactly the stale snapshots", "statement": "Before a run, the snapshot files of the output prefix with a step after the starting step are removed, and no other file is.", "quantifier": "every directory content, prefix, starting step and working directory", "why_tests_cant": "All directory contents and all combinations of output and working directory.", "anchors": ["mpisph/io.h: H5P_removePrefix L588-628"]}
{"id": "C74", "title": "WVT rescaled smoothing lengths fill wvt_ngb sphere volumes regardless of distribution", "statement": "After compute_smoothinglength_wvt the balls of radius h of all particles have the volume of wvt_ngb spheres of the given radius in total, every length is scaled by the same factor, and the lengths do not depend on which rank holds which particle.", "quantifier": "every distribution of particles over ranks, every dimension 1 to 3, all positive lengths", "why_tests_cant": "All particle sets and distributions; the normalisation is a global reduction.", "anchors": ["include/physics/wvt.h: compute_smoothinglength_wvt L359-396"]}
{"id": "C75", "title": "A WVT relaxation step keeps particles inside the sphere", "statement": "wvt_displacement leaves a particle that started inside the sphere inside it, on whichever branch (free move, reflected, frozen) it takes.", "quantifier": "every position, acceleration, radius and boundary choice, dimension 1 to 3", "why_tests_cant": "All positions and displacements, including those that cross the boundary several times.", "anchors": ["include/physics/wvt.h: wvt_displacement L505-573"]}
{"id": "C76", "title": "Every particle of a rank gets one neighbour list that covers all ranks", "statement": "On any number 2^m of ranks and for every order of the messages, once a rank has been given lists for all cells it chose, every particle it owns has been given exactly one list; every particle in the list is within the larger of the two radii, and every particle not in it, on whichever rank, is further away than the mean of the two radii. Choosing the cells and every attempt for one of them end without a missing cell.", "quantifier": "every distribution of particles with distinct full keys over 2^m ranks, every interleaving of requests, replies and DONE messages, every state in which an attempt is made", "why_tests_cant": "All distributions and all interleavings of messages; a particle skipped or served twice on one rank only shows as a slightly wrong density.", "anchors": ["include/tree_topology/tree_topology.h: traversal_sph L213-442, share_nodes_ L1549-1744, load_shared_entity_ L1835-1845"]}
{"id": "C77", "title": "A whole run of the driver conserves what it should and does not stop", "statement": "Over any number of iterations of the main driver after relaxation, with neighbour lists from the tree: every particle keeps its id and mass and has positive density and smoothing length; without external forces the total momentum and angular momentum never change and the centre of mass moves uniformly with the clock; with the thermokinetic formulation the sum of mass times total energy always equals the kinetic, internal and potential energy of the start; with internal energies, constant viscosity and a non-negative kernel the run never stops on an assertion.", "quantifier": "every initial state with positive masses and smoothing lengths, every number of particles and of iterations, every sequence of time steps, every kernel, equation of state and smoothing-length mode, one to three dimensions, any number of pressure updates", "why_tests_cant": "Conservation over runs of unbounded length with any time steps and any particle arrangement; a test run compares a few digits after a few hundred steps.", "anchors": ["app/drivers/hydro/main_driver.cc: mpi_init_task L93-283", "app/drivers/newtonian/main_driver.cc: mpi_init_task L102-286", "include/physics/default_physics.h L126-598, L702-849, L883-903", "include/physics/integration.h L52-110"]}
{"id": "C78", "title": "Lattice generators fill exactly the domain", "statement": "Over the reals, for every spacing and every box, the one-, two- and three-dimensional lattice generators (rectangular, triangular, hexagonal close-packed and the layered 'fcc' lattice) write exactly the nodes of their lattice, counted from the lower corner, that lie in the box domain (moved down by the tolerance) and, for a spherical domain, in the largest ball around its centre: no node is skipped and none outside is written. A box more than a million times longer in x than in y stays empty, because the tolerance is taken from the x extent for all axes.", "quantifier": "forall lattice types, domain types, boxes, spacings", "why_tests_cant": "Tests generate a few lattices and count points; the claim is about every box and spacing, including thin ones.", "anchors": ["include/lattice.h"]}
{"id": "C79", "title": "The result of a run does not depend on ranks or on the order of processing", "statement": "With the copies of remote particles fetched when the tree search asks for them and refreshed only where the driver resets them, and with particles processed in any order, a run of the driver with given time steps ends with the same particles on any number of ranks and any assignment of particles to ranks, up to the signal speeds; every sequential run can be realised on every distribution; momentum, angular momentum, uniform motion of the centre of mass and (thermokinetic) energy are conserved on several ranks. This holds for the constant artificial viscosity. The signal speeds, which enter the adaptive time step, depend on the order of processing, and with the Cullen viscosity the particles depend on the distribution.", "quantifier": "every number of ranks, of particles and of iterations, every assignment of particles to ranks (changing at each update), every interleaving of fetching and processing, every complete neighbour list, all time steps, initial states with positive masses and smoothing lengths", "why_tests_cant": "Data races and stale copies show up only for particular interleavings and distributions; a test sees a handful of them and compares with tolerances.", "anchors": ["mpisph/bodies_system.h L152-229, L273-336", "include/topology/tree_topology.h: traversal_sph L213-442, reset_ghosts L154-157", "app/drivers/hydro/main_driver.cc L93-283", "include/physics/default_physics.h L236-267"]}
{"id": "C80", "title": "During relaxation only the drag changes the momentum, by a known factor", "statement": "An iteration during the relaxation phase is a leapfrog step (half kick, drift, half kick) in which the total force and the total torque are exactly those of the relaxation drag: the short-range repulsion between particles, like the hydrodynamic forces, conserves momentum and angular momentum when its radius is at most one. With linear drag the total momentum and angular momentum are multiplied by the same factor, which depends only on the drag coefficient and the time steps, on any number of ranks; the factor is between 0 and 1 if every time step times the coefficient is at most 1. Nothing in the code bounds that product, and for longer steps the drag speeds the particles up. The energy rates of these iterations contain the drag with the sign of a loss: with the total-energy formulation it is the only one, with the internal-energy formulation the internal energy itself falls at the rate at which the drag takes kinetic energy.", "quantifier": "every number of particles, ranks and iterations, every assignment of particles to ranks and order of processing, all time steps, all drag and repulsion parameters with repulsion radius at most 1, all equations of state, kernels of the model and smoothing-length modes", "why_tests_cant": "Relaxation is tested by looking at the final distribution; a non-conserving repulsion or an amplifying drag shows up only as slow drift for particular parameters.", "anchors": ["include/physics/default_physics.h: add_drag_acceleration L702-709, add_short_range_repulsion L723-753", "include/physics/eforce.h L441-451", "app/drivers/hydro/main_driver.cc L127-138, L207-214"]}
{"id": "C81", "title": "The time step of a particle", "statement": "The time step computed for a particle is positive; during it the particle travels less than the CFL factor times the particle separation, its acceleration displaces it by less than the square of the factor times the separation (dt^2 |a| < cfl^2 dx) and sound and viscous signals cross less than the factor times the separation. Without the thermokinetic formulation a step always exists and meets one of the three limits exactly (up to 10^-24 in the divisor). With it the internal energy is positive, free flight for the step raises the potential energy by less than half the internal energy, the step is the first of the base step and its divisions by four with that property, and it exists if the potential energy grows at most linearly with a rate below an explicit bound. The loop that shortens the step can give up at a steep wall, and the step does not guarantee that the internal energy stays positive: a particle at rest next to a wall gets a step with which the next iteration stops on the assertion in recover_internal_energy.", "quantifier": "every particle with positive smoothing length, every velocity, acceleration, signal speed, potential, positive CFL factor and non-negative viscosity; the counterexamples use the code's square-well potential and the default CFL factor", "why_tests_cant": "Tests run a few problems with one CFL factor; a step that is slightly too long shows up as noise, and the assertion fails only for particles with little internal energy near a wall.", "anchors": ["include/physics/default_physics.h: compute_dt L602-695, recover_internal_energy L126-146", "include/physics/eforce.h (square well)"]}
{"id": "C82", "title": "The initial data of the Sod shock tube", "statement": "The generator for the Sod tests writes three boxes of lattice nodes along x, each node once, numbered from 0: the middle third with the first state of the test and the two outer parts with the second, with the pressure given by the equation of state, and smoothing lengths that belong to mass and density. With equal masses all particles have the mass of the volume per node times their density, and the boundary boxes end at a node distance when x is periodic; width and height are adjusted to a common multiple of the two lattice periods within the allowed mismatch, or left as they are. With equal separation every box has its density as total mass, which is the density times the volume in one dimension for a tube of length 3; for other lengths it is not. No array is overrun.", "quantifier": "all six tests, dimensions 1 to 3, the rectangular, HCP and FCC lattices, all tube sizes, periodic or not, numbers of particles from 4 (up to a million along a periodic x)", "why_tests_cant": "The tests run one resolution of the one-dimensional tube with equal masses; the matching of two lattices depends on resolution, dimension and mismatch, and wrong masses only show up as a shifted shock.", "anchors": ["app/id_generators/sodtube/main.cc L58-160, L179-593", "include/lattice.h"]}
{"id": "C83", "title": "The wind tunnel generator writes its lattice", "statement": "The wind tunnel generator is meant to write all nodes of a lattice in the box. It writes the first nx*floor(nx*width/length) (in 3D times floor(nx*height/length)) of them, with the stream velocity, the pressure of the equation of state and the mass density/number. This number is not the number of nodes: in a square tunnel with a rectangular lattice it is always larger than the arrays, so the program reads past their end, and in a narrow tunnel it can be zero although there are nodes. The smoothing length is four node distances in 2D and three in 3D.", "quantifier": "all parameters, lattices and dimensions 2 and 3; the overrun for every resolution of the square tunnel", "why_tests_cant": "There is no test of this generator; the overrun reads heap memory and usually does not crash.", "anchors": ["app/id_generators/wtunnel/main.cc L61-235"]}
{"id": "C84", "title": "The initial data of collapse and implosion", "statement": "The generators for the collapse and the implosion write all lattice nodes in the box or ball, each once, at rest, with the given density, equal masses whose sum is the density times the exact volume, smoothing lengths that belong to mass and density, and pressures that satisfy the equation of state; inside four fifths of the radius the pressure is the given one. In the outer rim of the implosion the energy is linear from 1 to 10000 if the radius is 1; for other radii it is not, since the code adds the radius where the energy is meant. For boxes the programs always run to their end.", "quantifier": "all boxes and balls, resolutions, densities, pressures, adiabatic indices, lattices, in 2 (implosion) and 3 dimensions", "why_tests_cant": "The generators are not tested, and the default radius is 1, where the wrong formula gives the right value.", "anchors": ["app/id_generators/implosion/main.cc L62-258", "app/id_generators/collapse/main.cc L55-245"]}
{"id": "C85", "title": "The initial data of the Kelvin-Helmholtz instability", "statement": "The generator for the Kelvin-Helmholtz test writes three layers of lattice nodes, numbered from 0: a dense middle layer and lighter layers below and above with the opposite flow. Each layer is a lattice of whole periods scaled along the axes so that x is exactly periodic with the given length (and z with the given height in 3D), the lowest particle is at minus half the width, and none is above half the width; the layers do not overlap. All particles have the same mass, which in each layer is the density times the volume of the scaled cell. Pressure is uniform, energy follows the equation of state, smoothing lengths belong to mass and density, and vy is the sine perturbation in the stripes 0.225<|y|<0.25 and zero elsewhere. The program stays within its arrays and ends. The stripes are meant to be at the boundary of the layers, but they are not: the middle layer is a third of the width, so in the unit square no middle particle is perturbed, and neither are the outer ones next to it.", "quantifier": "all boxes with at least 6 separations in the width, 1 to 8000 particles along x, all density ratios from 1, lattices and dimensions 2 and 3", "why_tests_cant": "There is no test of this generator. Wrong scalings give slightly wrong densities that a run smooths out, and the misplaced perturbation still leads to growth.", "anchors": ["app/id_generators/KH/main.cc L60-378", "include/lattice.h"]}
{"id": "C86", "title": "The initial data of the Rayleigh-Taylor instability", "statement": "The generator for the Rayleigh-Taylor test writes a light fluid below y=0 and a heavy one above, each as the lattice nodes of its box, numbered from 0; particles get the density of the box they come from. All masses are equal and are density times cell volume in both boxes; length and height are as given or, when periodic, a common multiple of both lattice periods within the allowed mismatch. The pressure is in hydrostatic equilibrium: a continuous function of y, 2.5 at the top, with derivative minus g times the density. The perturbation points downwards, is at most 2 (in 3D 4) amplitudes, and vanishes outside of the stripe. The program ends and stays within its arrays. With periodic z the height should stay near the given one; it does not, since the search starts from the length.", "quantifier": "all boxes, density ratios from 1 with nx times ratio up to 2000, all gravities, lattices, dimensions 2 and 3, periodic or not", "why_tests_cant": "There is no test of this generator; a particle in the wrong fluid or a kink in the pressure looks like noise, and the wrong height only shows for boxes that are not square.", "anchors": ["app/id_generators/RT/main.cc L45-345"]}
{"id": "C87", "title": "The initial data of the fluid test", "statement": "The generator for the fluid test writes the lattice nodes in the lower left part of the tank, numbered from 0, at rest, with equal masses that add up to the density times the volume of that part, energies from the equation of state, smoothing lengths that belong to mass and density, and the hydrostatic pressure 2.5 - rho g y. It writes at least one particle, ends and stays within its array.", "quantifier": "all boxes that are not flatter than a millionth of their length, all resolutions, densities, gravities, lattices, dimensions 2 and 3", "why_tests_cant": "There is no test of this generator.", "anchors": ["app/id_generators/fluid/main.cc L50-204"]}
{"id": "C88", "title": "The initial data of the Sedov blast wave", "statement": "The generator for the Sedov blast wave writes the lattice points of a box, disc or ball, numbered from 0 and at rest, with equal masses that add up to the mass of the domain (in a ball with any normalised density profile, that of the densities given to the particles). Densities follow the profile with rho_initial at the centre, smoothing lengths belong to mass and density, pressures follow the equation of state and are polytropic outside of the blast zone. The blast energy is shared by mass among the particles inside the zone, so the total energy is that of the surroundings plus the blast energy, also with perturbed positions; a domain four spacings wide and a zone of two spacings are enough for that. The program ends when the profile is positive at the lattice points. It fails in these cases: a blast zone without a lattice point loses the blast energy; bodies that are read with other masses than those of the lattice share another energy; a line given as a ball gets the mass of the box; a disc with the parabolic profile gets twice its mass; with the parabolic profile on a line the first particle has infinite smoothing length.", "quantifier": "all boxes, discs and balls, all resolutions, density profiles, lattices of types 0 to 2, dimensions 1 to 3, blast energies and radii, all perturbations, all bodies read", "why_tests_cant": "There is no test of this generator. The total energy of the blast decides the position of the shock, but a run with a wrong one still looks like a blast wave.", "anchors": ["app/id_generators/sedov/main.cc L68-331", "include/physics/density_profiles.h", "include/lattice.h"]}
{"id": "C89", "title": "The initial data of the Noh problem", "statement": "The generator for the Noh problem writes the lattice points of a box, disc or ball, numbered from 0, with equal masses that add up to the mass of the domain, moving towards the origin with the given speed; a particle in the origin is at rest, so the kinetic energy is half the mass off the centre times the speed squared. Energies and pressures are polytropic; for the constant profile the stored density belongs to mass, smoothing length, energy and pressure. Bodies that are read keep their numbers, masses, densities and smoothing lengths. The program ends when the profile is positive at the lattice points. It fails in these cases: with a perturbation the speed is the given one times the ratio of the new and the old distance; with another profile the stored density is not the one energy and pressure belong to; the total momentum is not zero, since the lattice has one end of the box and not the other.", "quantifier": "all boxes, discs and balls, all resolutions, density profiles, lattices of types 0 to 2, dimensions 1 to 3, infall speeds, perturbations, bodies read (in 3D)", "why_tests_cant": "There is no test of this generator.", "anchors": ["app/id_generators/noh/main.cc L47-310"]}
{"id": "C90", "title": "Keys and the range in double precision", "statement": "With the rounding of binary64 at every operation, a coordinate inside the range always gets a cell number, at most the last one; cell numbers are in the order of the coordinates (so componentwise larger points never get a smaller Morton key), the ends of the range are in the first and last cell, and the cell is the exact position up to one cell and 2^-51 of the range, so coordinates further apart than a cell and 2^-50 of the range are in different cells. The range computed from the rounded ends of the particles' neighbourhoods contains every particle, so that each gets a key of full depth when no side of the range is empty. The box range() gives for a key is never turned inside out and the box of a child is inside that of its parent. It is false that the cell is the one the coordinate is in, or that the box of an ancestor of its key contains the particle; and a side of the range can be empty although every radius is positive, and then there is no key.", "quantifier": "all doubles whose differences do not overflow, all dimensions 1 to 3, all depths, all distributions of particles over ranks", "why_tests_cant": "The tests of keys use a few points; where rounding moves a point across a cell boundary is a set of tiny measure.", "anchors": ["include/tree_topology/filling_curve.h L262-277", "include/tree_topology/filling_curve.h L503-525", "include/tree_topology/filling_curve.h L553-586", "mpisph/bodies_system.h L231-268"]}
{"id": "C91", "title": "The neighbour search in double precision", "statement": "With binary64 rounding of the centres of mass, radii, boxes and of every test, the SPH traversal of the tree built from any sorted distinct keys visits each particle once as a target, lists no neighbour twice, lists only particles closer than the larger of the two radii plus 2^(m-40), and lists every particle closer than half the sum of the radii minus 2^(m-40), where 2^m bounds coordinates and radii; the search around a point returns exactly the particles closer than the larger radius up to the same slack. What is stored for the cells stays within 2^(m+16), masses within 2^453, for up to 2^52 particles. The test of a pair is symmetric, and on a line it misses no pair. In a plane it is false that a pair at the distance of half the sum of their radii is listed.", "quantifier": "all sets of particles with double coordinates and radii up to 2^m for -400 <= m <= 400 and masses from 2^-500 to 2^400, all dimensions 1 to 3", "why_tests_cant": "The pairs the rounding adds or drops are those within 1e-12 of the limit; the tests compare with random particles.", "anchors": ["include/physics/default_physics.h L57-119", "include/tree_topology/tree_geometry.h L60-351", "include/tree_topology/tree_topology.h L275-379", "include/tree_topology/tree_topology.h L795-830", "include/space_vector.h L46-58"]}
{"id": "C92", "title": "Printed statistics", "statement": "diagnostic.dat gets one line for each call whose iteration is a multiple of a positive out_diagnostic_every, after one header, and is left alone when no call is due. On every line the least and the mean number of neighbours and the least, largest and mean smoothing length are those of all particles of all processes. On one process the largest and mean speed are those of all particles when some particle moves. False of the code: that the largest number of neighbours is that of the iteration (the maximum is never reset), that the speeds are those of all processes (they are those of process 0, the sum divided by the total number), that a state at rest has largest speed 0, that the least distance is one between particles (never set), that a second run keeps the earlier lines, and that a process may be without particles.", "quantifier": "all numbers of processes, all sequences of calls, all particles", "why_tests_cant": "No test reads diagnostic.dat or runs the statistics on more than one process.", "anchors": ["include/diagnostic.h L17-160", "include/physics/wvt.h L196", "include/physics/wvt.h L279"]}
{"id": "C93", "title": "Main loops and output times", "statement": "The iterations a driver does are consecutive from initial_iteration, there is at least one, and the loop ends exactly when the next iteration exceeds a positive final_iteration or the next time a positive final_time; with a positive final_iteration and no final_time the last one is the larger of initial and final iteration; with a final_time and a fixed positive step the loop ends and only the first iteration can be later. Output by iteration happens exactly at the multiples of a positive frequency. The relaxation driver ends, its last iteration is written with the density set to the profile, and no earlier one is reset. False of the code: that the loop ends for every parameters (with the defaults it does not), that outputs by time keep their interval when the step is fixed (every iteration writes), and that the relaxation driver always writes its last iteration (not when started after its end).", "quantifier": "all parameters, all sequences of times, all outcomes of the convergence check", "why_tests_cant": "The tests run a few iterations of fixed parameter files and do not look at which files are written.", "anchors": ["include/physics/default_physics.h L853-873", "include/physics/analysis.h L218-275", "include/physics/analysis.h L298-310", "include/physics/analysis.h L408-428", "app/drivers/hydro/main_driver.cc L98-279", "app/drivers/newtonian/main_driver.cc L103-298", "app/drivers/wvt/main_driver.cc L122-233"]}
{"id": "C94", "title": "The clock in double precision", "statement": "With a fixed step the clock after k rounded additions differs from t0 + k dt by at most k 2^(m-53), where 2^m bounds the time, without overflow; the same recurrence gives the output times. A step of at least one ulp moves the clock, and a run with a final time ends when the step is at least two ulps of that time. The iterations done are those whose exact time does not exceed final_time, up to that error. False: that a run with a positive step and a final time ends (the clock stalls when the step is below half an ulp), and that the iteration whose exact time is final_time is done.", "quantifier": "all doubles t0, dt, final_time and all numbers of steps up to 2^53", "why_tests_cant": "The tests use a few steps and times for which the sums are nearly exact.", "anchors": ["include/physics/default_physics.h L776-823", "include/physics/default_physics.h L853-873"]}
{"id": "C95", "title": "Smoothing lengths", "statement": "compute_smoothinglength gives every particle of positive mass and density a positive radius such that density times (radius / (sph_eta kernel_width))^dimension is its mass; radii are ordered as mass / density. compute_average_smoothinglength gives every particle of every process the mean of all those radii, which is positive, lies between the least and the largest, does not depend on the distribution over processes (some of which may have no particles) and is the radius itself when all particles are alike. False: that it is defined for a particle without density.", "quantifier": "all dimensions 1 to 3, all sph_eta and kernel_width, all particles and distributions", "why_tests_cant": "The tests do not call these functions.", "anchors": ["include/physics/default_physics.h L825-849", "include/physics/default_physics.h L875-903"]}
{"id": "C96", "title": "Points and vectors", "statement": "distance is a translation invariant metric; magnitude squared is dot, with Cauchy-Schwarz and the triangle inequality; the midpoint is at half the distance from both; the centroid of a non-empty set balances the offsets, lies in every box holding the points and does not depend on their order; in 3D cross is orthogonal to both, antisymmetric and equal to normal; cross_magnitude squared plus dot squared is the product of the squared magnitudes in 1D, 2D and 3D; in 2D normal is the difference turned left by a right angle. Construction from a list fills or copies. False: that cross_magnitude is the magnitude of cross in 2D (cross is zero), that normal of two points in 3D depends on their difference only, and that the centroid of no points is defined.", "quantifier": "all vectors, all dimensions (1 to 3 for the cross product)", "why_tests_cant": "They use a few vectors.", "anchors": ["include/space_vector.h L34-222", "include/tensor.h L432-468"]}
{"id": "C97", "title": "Checks for NaN and negative values", "statement": "In a build with assertions the run goes on after an iteration exactly when the checked fields of every particle are numbers and no density, pressure or evolved internal energy is negative; then density and pressure are non-negative numbers or plus infinity. False: that a particle with a NaN stops the run in the default build (Release, where assert has no effect), that the state that fails is not written (the snapshot precedes the check), and that a NaN radius or an infinite density is noticed.", "quantifier": "all particles, all dimensions, with and without evolution of the internal energy", "why_tests_cant": "No test feeds a NaN to the driver.", "anchors": ["include/physics/default_physics.h L905-979", "app/drivers/hydro/main_driver.cc L259-265", "app/drivers/newtonian/main_driver.cc L278-284", "cmake/ProcessOptions.cmake L31"]}
{"id": "C98", "title": "Forces in double precision", "statement": "In double precision the viscosity of a pair is the same number for both particles; two particles of equal mass accelerate each other by exactly opposite amounts; a particle does not accelerate itself or one in the same place; for any masses the two changes of momentum cancel up to 7 units of rounding and underflow; with mutual lists of at most L neighbours the total change of momentum is at most 2 L + 4 units of rounding of the sum of the sizes of all pair forces, and underflow. False: that the two changes cancel exactly for different masses.", "quantifier": "all kernels, both viscosities, all parameters, dimensions, particles and mutual lists of neighbours with L 2^-53 at most 1/2; no overflow", "why_tests_cant": "Rounding depends on all the bits of all the fields.", "anchors": ["include/physics/default_physics.h L337-409", "include/physics/viscosity.h L77-157", "include/physics/kernels.h", "include/space_vector.h L106-132"]}
{"id": "C99", "title": "Gravity on several processes", "statement": "In the gravity traversal on several processes, whatever messages arrive between its passes over the queue and however often pairs of cells have to wait: once the queue of a process is empty and its final loops are done, every particle of the process has felt every particle of every process, itself included, exactly once, and no particle of another process has felt anything; no pass and no final loop fails; and if no source in the queue is an unfetched node during more than twice as many passes as the tree has levels, the queue is empty.", "quantifier": "all distributions of particles with distinct keys over 2^m processes, all positive masses and distinct positions, all opening angles, all interleavings of passes and messages", "why_tests_cant": "The number of passes, the cells held by each process and the moments at which they arrive depend on timing.", "anchors": ["include/tree_topology/tree_topology.h L449-795", "include/tree_topology/tree_types.h L233-247", "include/tree_topology/tree_topology.h L588-619"]}
{"id": "C100", "title": "Gravity field on several processes", "statement": "The accelerations and potentials a process computes in the gravity traversal on several processes, whatever messages arrive between its passes: for each of its particles they are the sum over all other particles of all processes, each once, of the attraction between replacement positions that are the true ones or satisfy the acceptance criterion (the potential expanded to first order); particles of other processes get nothing; with acceptance parameter theta >= 0 the acceleration differs from the direct sum by at most theta(4+5theta+2theta^2) times the sum of the magnitudes of the attractions; with a parameter that accepts nothing it is the direct sum; and the summaries of the nodes a process holds never change while messages arrive.", "quantifier": "all distributions of particles with distinct keys over 2^m processes, all positive masses and distinct positions, all opening angles, all interleavings of passes and messages", "why_tests_cant": "A test compares with the direct sum for one distribution and one order of messages; the bound is for all of them and does not grow with the number of processes.", "anchors": ["include/tree_topology/tree_topology.h L449-795", "include/tree_topology/tree_topology.h L1019-1033", "include/physics/fmm.h L28-161"]}
{"id": "C101", "title": "Gravity does not depend on the processes", "statement": "The acceleration and potential of a particle after the gravity traversal are the same for every number of processes, every distribution of the particles over them, every rank that holds the particle and every order in which messages arrive between the passes (computed with real numbers). When no two nodes of the tree have the same radius, the forces all processes have computed on their own particles add up to zero.", "quantifier": "all particles with distinct keys, all pairs of distributions over 2^m and 2^m' processes, all positive masses and distinct positions, all opening angles, all interleavings of passes and messages on each process", "why_tests_cant": "A test compares a few runs on a few process counts up to round-off; which pairs of cells are accepted could depend on timing or on the distribution only for rare arrangements.", "anchors": ["include/tree_topology/tree_topology.h L449-795", "include/tree_topology/tree_topology.h L540-664", "include/physics/fmm.h L28-161"]}
{"id": "C102", "title": "The traversals over several processes can always be completed", "statement": "From every state that the processes can reach in a gravity traversal or in a neighbour search, with any messages on the way, any requests open and any number of passes or attempts made, there is a continuation in which the queue of every process becomes empty (or every chosen cell gets its neighbour lists) and all processes come to the barrier. For a process in its loop it is enough that the others start and answer and that it asks only for nodes that are the source of a pair in its queue.", "quantifier": "all particles with distinct keys on 2^m processes, all positive masses, all opening angles, all reachable states, all numbers of passes made before", "why_tests_cant": "A state from which a process waits forever needs a particular order of requests, replies and DONE messages; a run shows one order, and a hang that appears once in thousands of runs is not seen.", "anchors": ["include/tree_topology/tree_topology.h L449-795", "include/tree_topology/tree_topology.h L540-664", "include/tree_topology/tree_topology.h L213-442", "include/tree_topology/tree_topology.h L1140-1290"]}
{"id": "C103", "title": "Every execution of a traversal ends, and no process waits in vain", "statement": "However the processes are scheduled, whatever they ask for and in whatever order messages are read, a traversal of n processes over a tree with m nodes takes at most n(n+4)+4nm steps until all processes are at the barrier, and an execution over any number of traversals comes to the barrier again and again. A node that a process has asked for and still sees as empty is named in a message on its way from or to that process, and the receiver of that message is listening or has yet to start.", "quantifier": "all trees, all numbers of processes, all reachable states, all infinite executions", "why_tests_cant": "Endless exchanges (a node asked for again and again, a reply that triggers another request) and lost wake-ups depend on the schedule; a test run that ends says nothing about the other schedules.", "anchors": ["include/tree_topology/tree_topology.h L1140-1290", "include/tree_topology/tree_topology.h L230-447", "include/tree_topology/tree_topology.h L449-795"]}
{"id": "C104", "title": "Gravity on any number of processes is the gravity of the one-process traversal", "statement": "For particles with positive masses, distinct positions and keys spread in order over any power of two of processes, every complete run of the gravity traversal, whatever the order in which messages arrive, gives each particle of a process exactly the acceleration and the potential which the traversal run on one process, on the tree of all particles, computes for that particle. On one process the traversal makes the same calls in the same order as that traversal.", "quantifier": "all particle sets, all numbers of processes, all opening criteria, all orders of messages", "why_tests_cant": "A test compares a few process counts on one machine with a tolerance that hides a cell opened differently; equality for every distribution and schedule cannot be sampled.", "anchors": ["include/tree_topology/tree_topology.h L449-795", "mpisph/bodies_system.h L286", "include/physics/fmm.h"]}
{"id": "C105", "title": "Continuity equation: velocity gradient and divergence", "statement": "When all particles move with their velocities and smoothing lengths are kept, the density sum of a particle changes at the rate -rho tr(grad v), with the velocity gradient that the viscosity switch computes, up to an error proportional to the number added to distances in the kernel gradient. The stored velocity divergence is the trace of that gradient, so that subtracting it leaves the traceless shear. (The second part is false: the stored divergence is the logarithmic rate of the density of the particle moving through neighbours at rest; for a particle approaching another at rest it is positive where the trace is negative.)", "quantifier": "all particles and neighbour lists, spline and Wendland kernels, dimensions 1 to 3", "why_tests_cant": "An identity between a derivative in time and a sum over neighbours for a continuum of configurations; no test compares the two.", "anchors": ["include/physics/default_physics.h L193-229", "include/physics/default_physics.h L273-300", "include/physics/viscosity.h L193-266"]}
{"id": "C106", "title": "The driver with gravity on several processes", "statement": "Every run of the Newtonian driver on any number of processes, with gravity computed by the traversal of the tree shared by the processes, is a run of the passes on the undistributed particles with the gravity of the one-process traversal, up to the signal speeds; runs on different numbers of processes that start from the same particles therefore end with the same particles. Conversely every such run can be made on every number of processes that is a power of two and not larger than the number of particles. Gravity is computed whenever the keys of the particles are different, it depends on positions, masses and smoothing lengths only, and there is one result.", "quantifier": "all numbers of processes (powers of two), assignments of the particles, orders of processing and of messages, numbers of iterations, time steps, opening angles, dimensions 1 to 3", "why_tests_cant": "The claim is about all schedules and all numbers of processes at once and about any number of iterations; a test compares a few runs with rounding noise.", "anchors": ["app/drivers/newtonian/main_driver.cc L93-283", "mpisph/bodies_system.h L152-229", "mpisph/bodies_system.h L282-290", "include/tree_topology/tree_topology.h L449-795"]}
{"id": "C107", "title": "Energies and pressures over an iteration", "statement": "In every iteration of the driver after the first the evolved energy (internal, or total in the thermokinetic formulation) is advanced by the trapezoidal rule with the rates of the two ends, and the pressure and the sound speed that the particles leave the iteration with are the equation of state at their new density and their new internal energy.", "quantifier": "all particle states, time steps, numbers of pressure updates, equations of state, neighbour lists, gravity on or off, relaxation on or off, evolved or fixed energy, any iteration of any run", "why_tests_cant": "The consistency of pressure and energy is a relation between fields written by different passes, for all states; a mistake in the prediction changes the order of accuracy and not the look of the result.", "anchors": ["include/physics/default_physics.h L126-186", "include/physics/integration.h L80-98", "app/drivers/hydro/main_driver.cc L102-254"]}
{"id": "C108", "title": "Self-test of the tree", "statement": "The driver that tests the tree never stops with its assertion: in every pass every particle finds a particle of its own id in its neighbour list, the average number of neighbours it prints is at least one and at most the number of all particles, and the number of passes is 5000 whatever was counted in them.", "quantifier": "all particle sets with positive masses and non-negative smoothing lengths, all numbers of processes, all courses of the communication, all ids; in double precision, on one process, all sets of doubles with smoothing lengths of at least 2^-40 of the size of the domain", "why_tests_cant": "The driver is itself a test, run on one data set; that its assertion holds for all particle sets, distributions and message orders needs a proof about the traversal.", "anchors": ["app/drivers/tree/main_driver.cc L76-152", "include/tree_topology/tree_topology.h L213-442"]}
{"id": "C109", "title": "Density in double precision", "statement": "As computed, with every operation rounded to double, the density of a particle that is in its own neighbour list is positive, so the assertion after the sum does not fail; no term is negative and no term exceeds the sum; further neighbours never lower it; a neighbour at a rounded distance of at least the rounded mean smoothing length adds exactly 0; two particles of equal mass add bitwise the same term to each other; the particle's own mass does not enter; the sum of N terms is exact up to a factor between (1 - 2^-53)^N and (1 + 2^-53)^N, so the order in which neighbours are found matters no more than that; each kernel is within 1e-10 of its value at the centre of the exact kernel, also where branches meet and on both sides of the edge of the support; and the value of the Wendland kernels at the centre is sigma / h^n up to 5e-14 of it.", "quantifier": "all particles and neighbour lists of doubles with smoothing lengths between 2^-300 and 2^300 and masses of at least 2^-90, one to three dimensions, cubic spline and the three Wendland kernels, all constants from 1 to 8, all pow functions within a factor of two", "why_tests_cant": "Cancellation near the edge of the support and underflow of products occur for rare values only; a test on one particle set does not meet them.", "anchors": ["include/physics/default_physics.h L193-229", "include/physics/kernels.h L106-122, L282-312, L375-409, L478-512"]}
{"id": "C110", "title": "Ideal gas in double precision", "statement": "As computed, with every operation rounded to double, pressure and sound speed of the ideal gas are not negative and no root of a negative number is taken, whatever underflows; a larger adiabatic index, density or energy never lowers them; where nothing underflows the pressure is (gamma - 1) rho u up to 4e-14 of it, the sound speed is the root of gamma (gamma - 1) u up to 5e-14 of it, and the square of the sound speed times the density is gamma times the pressure up to 2e-13 of it.", "quantifier": "all indices of at least 1, all non-negative densities and energies; accuracy for indices of at least 1 + 2^-40, densities and energies of at least 2^-400", "why_tests_cant": "Signs and order under underflow and near gamma = 1 are reached by rare values only; an error bound is a statement on all of them.", "anchors": ["include/physics/eos/eos.h L166-183"]}
{"id": "C111", "title": "Time step in double precision", "statement": "As computed, with every operation rounded to double, the time step of a particle is positive, at least 2^-334; in one step a particle at its velocity, and a signal at the signal speed with its viscous factor, go no further than the fraction cfl of the separation h / (eta width), and acceleration times the square of the step is at most cfl^2 of it, all up to 2e-13 of the bound; it is no shorter than cfl times the shortest of the three times, up to 2e-13 of it; a particle that is faster, more accelerated, has the larger signal speed or the smaller radius never gets the longer step.", "quantifier": "all particles with radii between 2^-100 and 2^100 and velocities, accelerations and signal speeds of at most 2^100, any number of dimensions; all parameters of moderate size (cfl 2^-20 to 1, eta 2^-10 to 2^10, width 1 to 8, alpha up to 2^50)", "why_tests_cant": "The bound has to hold for every particle of every run; products that underflow and denominators near 1e-24 are met by rare values only.", "anchors": ["include/physics/default_physics.h L602-627"]}
