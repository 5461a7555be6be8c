{
"C04": "False of the code for Morton keys (C04_morton_depth_refuted: the sentinel bit stays at the full-depth position); proved for Hilbert keys.",
"C05": "All levels d <= 31 of the code's grid; C07_hilbert2_nested_cells gives injectivity.",
"C06": "Proved in dimension 2; false of the code in dimension 3 (C06_hilbert3_refuted).",
"C07": "Proved in dimensions 2 and 3; false of the code in dimension 1 (lowest bit dropped).",
"C09": "C09_rank_part states the same for a process with neighbours. An empty process among several is not covered (it creates cells without particles).",
"C100": "Over the reals, for distinct positions and keys, under C99's hypothesis that the queue of the process has become empty. The calls are executed with the nodes the process holds in the end; C100_nodes shows that these are the nodes it held when it made them.",
"C101": "In real arithmetic. C101_momentum supposes that no two nodes have the same radius; with equal radii C68_fmm_momentum_ties_refuted is a counterexample.",
"C102": "Existence of a completing continuation from every reachable state; fairness of the scheduler is not modelled. Tables as the tree construction leaves them (C73).",
"C103": "Steps are the communication steps of the model (start, request, receipt of one message, end of the loop, leaving, waiting); the passes of a rank over its own queue in between are C99 and C102. Requests are only possible for empty nodes not yet marked as requested, as in the code.",
"C105": "C105_continuity and C105_divergence proved for the spline and Wendland kernels; that the stored divergence is the trace of the velocity gradient is refuted (C105_traceless_refuted).",
"C106": "Real arithmetic; the Cullen viscosity (refuted in C79) is excluded and the signal speeds are not compared. Two particles with one key, which the tree does not hold, are outside the theorem.",
"C107": "Proved for the evolved and the fixed internal energy. In the thermokinetic formulation the total energy follows the trapezoidal rule, but the pressure is that of the new internal energy less dt/2 v.a, and the stored internal energy is half a step old (C107_total); the claim is false there: C107_thermokinetic_refuted.",
"C12": "On one process, for the tree built by build_tree from any distinct full-depth keys; radius >= 0.",
"C13": "On one process, for the tree built by build_tree from any distinct full-depth keys.",
"C14": "False of the code: C14_within_larger_radius_refuted (129 particles in 1D); C13 is what holds.",
"C16": "True exactly for power-of-two process counts (C16_exactly, for any way of merging branches); for every other count rank 2^k-1 never learns of ranks >= 2^k, because the exchange for a ghost rank appends the sent buffers instead of the received ones (tree_topology.h L1731-1734) and because that rank has no partner in the last round. Every exchange is matched by the partner (C16_matched).",
"C17": "Proved for traversal_sph (requests that are waited for) over any interleaving and any number of traversals; refuted for traversal_fmm, whose REQUEST_SUBTREE (tree_topology.h L588-606) is not waited for: all ranks can reach the barrier with replies still on the way (C17_subtree_refuted).",
"C18": "Proved for requests by key; refuted for REQUEST_SUBTREE of traversal_fmm: a node received in the share phase has nchildren_to_receive 0, so after the node reply and before the entity reply it counts as available with children missing (C18_subtree_refuted).",
"C19": "False of the code: the reported value is max_depth-1 for every input (C19_max_depth_constant), whatever the tree.",
"C20": "The lambda that every sort call passes is a strict weak ordering; entity::operator< (<=) is not, and is refuted. No sort call in the modelled code relies on operator<.",
"C21": "Proved for every request equal to the local sizes (the only one the code makes) when empty ranks come last. Refuted: an empty rank before a non-empty one stops the run; medians are read behind the arrays (the result does not depend on what is read). Any other request fails the first assertion (C21_other_request).",
"C22": "Proved for particles whose keys lie strictly between the smallest and largest key, at least one sample and byte counts below 2^31; sample positions computed exactly, not in doubles. Refuted at the ends: a particle with the largest key runs off the splitter array, samples with the smallest key fail the assertion. bodies_system.h calls psort (C21) instead.",
"C23": "Over the reals. Proved when every rank has a particle; refuted for an empty rank (back() of an empty vector). The nested parallel region of tree_colorer.h is modelled with nested parallelism off.",
"C24": "Proved for counts whose byte totals per rank fit in int; refuted above that (2^28 elements of 16 bytes to one rank: the byte count wraps to 0). The nested-vector overload waits on a request it never started for its own rank when it has data for itself; its only caller sends nothing to itself.",
"C25": "PARTIAL: complete and sound for layers up to half the box in 1-3 dimensions; refuted for wider layers (one image per axis only), for particles more than a box length outside, and for the box arrays, which are written past their end in one and two dimensions. abs is taken as the absolute value of a real.",
"C26": "holds when no particle was a wall before; refuted for real wall particles (deleted) and for a rank that holds only images (assertion)",
"C28": "the ids are unique exactly when the rank count divides n (or n <= 1); refuted otherwise",
"C29": "round trip for steps below 100000, refuted from 100000 on; soundness for prefixes without .h5part, refuted otherwise; a short name reads in front of the string",
"C30": "found when present (both file layouts); with no match the multi-file search returns the step of the last entry instead of a failure (refuted)",
"C31": "all fields that are read come back for any rank counts; alpha is written but not read (refuted), and a step already in the file is not overwritten (refuted). HDF5 and MPI-IO are modelled by their effect on arrays.",
"C33": "Proved for spline, Wendland, Gaussian and sinc kernels; false in the sinc kernel's small-argument branch: C33_sinc_small_refuted.",
"C34": "Polynomial kernels exactly, Gaussian and super-Gaussian to 1e-11 (C34_gaussians); false for the quintic spline in 3D (integral 360/359): C34_quintic_3d_refuted. Radial integrals. The fitted normalisation of the sinc kernel for whole indices 3 to 12 to 5e-5 (C34_sinc).",
"C35": "All kernels and both viscosities; C35_tree_lists instantiates the hypothesis with the lists of the tree traversal.",
"C36": "Also per particle: the total-energy rate is the internal-energy rate plus the work of all forces.",
"C38": "The code keeps zeroth order in the force and first order in the potential; that is what is stated and proved.",
"C39": "Accelerations as a function of the positions (no velocity-dependent viscosity).",
"C40": "Proved without output by time; false with it (C40_stability_refuted: any factor), with the bound that does hold in C40_bound_partial.",
"C41": "False: C41_clock_refuted (an output time is skipped and the clock then runs backwards) and C41_constant_limit_refuted; C41_single_output_partial is the case that holds.",
"C42": "Proved for the walls, the spherical wall, uniform gravity, the orbit (3D), the airfoil off its edges, the density support for constant, parabolic and mesa profiles outside the core x<=1e-12, and the sum of any selection. Refuted at the airfoil tip, where the potential jumps. The selector reads a dangling pointer for every 'walls:' item (refuted separately).",
"C45": "Bounds proved; false that the coefficient stays above its target (C45_below_target_refuted) and undefined for a particle with no neighbour but itself (C45_isolated_refuted).",
"C46": "Proved inside the support for constant, parabolic and mesa profiles. Refuted outside: the constant profile keeps its value and the parabolic profile is negative for r>1; the mesa density is cut at r=0.9999 while its enclosed mass keeps growing up to r=1.",
"C47": "Proved for strictly increasing tables with at least four points and arguments not below the first point. Refuted below the table (reads index -2) and above it (extrapolates; the comment promises zero).",
"C48": "Arithmetic is abstract, so rounding is included; the positions of the icosahedral lattice are an arbitrary function; random draws are an arbitrary stream.",
"C49": "Line, square, triangular, cubic and hexagonal close-packed lattices: proved for every box. Cubic close packing (lattice_type 2): refuted from five layers on, because the layer counter zl=(zl+1)*(zl<3) runs through four values while the stacking has period three; proved for up to four layers and with sqrt(2/3) of the spacing in general. Exact arithmetic (reals).",
"C50": "Counts, sums, tables and vertex geometry proved; npart_icosahedral_sphere overflows int for 600 shells and more (C50_overflow_refuted), C50_defined shows it does not below.",
"C52": "False when both operands are the same object: C52_alias_refuted (a += a leaves a unchanged); proved for distinct objects and for the binary operators.",
"C53": "False of the code (it uses the particle's own velocity instead of the relative one): C53_galilean_refuted; C53_change_partial gives the exact change.",
"C54": "Refuted: scalar_output starts the file with a '#' header, at which every read fails, so the check succeeds for every run; without the header the columns do not match, and the momentum checks compare array addresses. C54_intended_partial: exact for mass and energy in a file of the layout it reads.",
"C55": "Proved for texts of the documented form. Refuted beyond it: '#' inside quotes, carriage returns, fractions for integer parameters (initial_time is int64_t), other spellings of true, a missing closing quote, two declared parameters that cannot be set, texts of 511 characters or more overrun their array.",
"C57": "Exact for boxes, distance test and in 3D; in 1D/2D the sphere tests accept gaps up to the tolerance (refuted as exact, proved up to the tolerance); the 2D/3D box test excludes the lower faces.",
"C58": "Round trip, orthogonality and mirror proved in 2d and 3d; in 1d the conversion keeps only the absolute value (refuted), and remove_radial_acc returns twice the tangential part (refuted).",
"C59": "double modelled by the reals: independence of the distribution holds up to rounding only in the program.",
"C60": "Refuted: the sort is asked for the current local sizes, so it keeps every rank's count (C60_sizes_unchanged).",
"C61": "Proved: the share rounds give every rank cells with the content, children and owner of the tree one process builds, for every distribution over 2^m ranks (C61_share); in every state of the traversals that follow this stays so and nodes not seen as empty are complete (C61_cells, C61_fetched); the neighbour search of a rank for given targets gives the lists of the single tree or waits (C61_search). The last clause is false: the lists depend on the groups of targets, which differ between ranks (C61_lists_refuted).",
"C62": "False of the code: the 3D curve is a bijection but consecutive keys need not be neighbours.",
"C64": "False of the code.",
"C66": "Polynomial, Gaussian and sinc kernels (indices 1 to 12); the super-Gaussian is not monotone.",
"C67": "Polynomial, Gaussian and sinc kernels; false for the super-Gaussian.",
"C68": "C68_fmm_momentum needs pairwise different node radii; C68_fmm_momentum_ties_refuted gives four particles on a line (two nodes of radius 3/4, MAC 1/2) whose computed forces do not sum to zero: with radius1 > radius2 false both ordered pairs split their second member.",
"C70": "Proved that the stored sound speed is that of the electron gas with electron rest-mass inertia only; refuted against the mass density (ions carry no inertia).",
"C72": "image ids proved for particles that are not walls; the assertion fails for the ids 1..n that io.h generates",
"C73": "exact when the output directory is the working directory; otherwise remove() acts on the working directory (refuted)",
"C75": "Proved in 2d and 3d for accelerations up to 1e8 radii; refuted beyond that (the shortening stops at mu=1e-10), and in 1d the reflection moves a particle to the other end.",
"C76": "Proved for the attempts of traversal_sph on every rank after build_tree with its share rounds, in every state of the traversals (C76_calls, C76_runs). That the requests are answered and a state without empty nodes is reached is not claimed here.",
"C77": "Runs start after relaxation (initial_iteration >= relaxation_steps); periodic boundaries off; gravity enters C77_motion through any field without net force and torque; passes read the state they started from (cached copies of remote particles are not part of this theorem).",
"C78": "C78_nodes: the set of points written is the set of lattice nodes within the domain (real arithmetic). C78_thin_refuted: in_domain_2d/3d use the tolerance of the x axis for every axis, so a box 2000000 x 1 gets no particle at all.",
"C79": "Proved for the constant artificial viscosity. C79_vsig_refuted: the signal speed of a particle uses the sound speed of neighbours from this or the last pass, depending on the order (default_physics.h L236-267 runs inside the pass that also writes the sound speeds); it enters compute_dt. C79_cullen_refuted: with the Cullen viscosity the viscosity coefficients use copies made before the sound speeds were computed, so the result depends on the distribution.",
"C80": "C80_slows_refuted: nothing bounds the product of the drag coefficient and the time step; with a product of 8 one iteration multiplies the total momentum by 9, so the drag does not slow particles down in general. Two distinct particles at the same position give 0/0 = NaN in the repulsion of the code; in the real-number model such a pair contributes nothing.",
"C81": "C81_bounds, C81_energy and C81_converges hold. C81_defined_refuted: the loop of twenty divisions by four gives up at a wall steep enough. C81_suffices_refuted: the step leaves out the kinetic energy the kick adds; one iteration later the assertion in recover_internal_energy fails.",
"C82": "Proved for equal masses in all dimensions; with equal separation the mass of the boxes is the density, not density times volume: proved right for a 1D tube of length 3, refuted for length 6.",
"C83": "Refuted: the number of particles written is not the number of nodes (overrun in square tunnels, loss in narrow ones); what is written is described exactly.",
"C84": "Proved except for the energies in the rim of the implosion, which are right for radius 1 and refuted otherwise.",
"C85": "C85_interface_refuted: the stripes of the perturbation are not at the boundary of the layers. The tolerance of the lattice limits the resolution to 8000 along x in C85_layers.",
"C86": "C86_height_refuted: with periodic z the height is taken from the length of the box (L159).",
"C88": "Proved for the particles, energy and mass; five of the cases fail (C88_*_refuted). The documentation of sedov_blast_radius in params.h says it is in units of the particle separation; the code takes it as a length, and so does the model.",
"C89": "Proved without perturbation and for the constant profile; speed under perturbation, stored density of other profiles and zero momentum fail (C89_*_refuted). Bodies read are treated in three dimensions.",
"C90": "Proved in double precision: existence, order, closeness, separation, range and nesting of boxes. Refuted: the cell need not be the one the coordinate is in, nor the box of the key contain it (C90_wrong_box_refuted); a positive radius can vanish in the rounding, and then there is no key (C90_absorbed_radius_refuted).",
"C91": "Refuted part: a pair in the plane whose distance is exactly half the sum of the radii (and the larger radius) is not found although C13 says it is without rounding. The slack of the theorems is 2^(m-40), far more than the few ulps of the test itself, because the errors of up to 64 levels of summaries are bounded together. Overflow is excluded by the bounds on the particles and C91_finite, not by None.",
"C92": "Proved for the counts, least and mean neighbours, smoothing lengths, the unset columns, and speeds on one process. Refuted: N_max is never reset; the speeds are reduced on process 0 only and the average is divided by the total; V_max starts at DBL_MIN so a state at rest shows a positive maximum; min_dist, average_dist_in_h and N_ghosts are never assigned; the file is truncated by the next run; a process without particles reads bodies[0]. The neighbour counts themselves are set only by wvt.h L196 and L279.",
"C93": "Proved for the iterations done, the end of the loop, output by iteration and the relaxation driver. Refuted: with the default limits (both 0) the loop does not end; without adaptive_timestep nothing advances the output times, so with output by time every iteration writes; the relaxation driver started after its end writes nothing.",
"C94": "Proved: the error of the clock, progress, the end of the loop. C94_final_time_partial is what remains of the exact count. Refuted: the clock stalls when the step is below half an ulp of the time; the iteration at final_time may be missed.",
"C95": "Proved for positive mass and density. Refuted: with density 0 the code divides by zero.",
"C96": "Refuted: cross() in two dimensions is the zero vector while cross_magnitude() is the area; normal() in three dimensions is the cross product of the position vectors, not a function of the difference; centroid() of no points is 0/0.",
"C97": "Refuted: assert is disabled in the default build type; the snapshot is written before the checks; radius, sound speed and other fields are not checked; infinities pass.",
"C98": "Proved without a bound on the number of particles. Refuted: with masses 1 and 3 the two products round differently. Overflow is not modelled.",
"C99": "For distinct positions and keys. The order of arrival is arbitrary. That a requested node arrives after finitely many steps is C17's matter, so the end of the passes is under the hypothesis that no source is an unfetched node. This is about which interactions are made, as C15 is on one process; C100 is about their values. The interaction of a particle with itself is counted."
}
