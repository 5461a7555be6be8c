{
 "C01": "keys as N with shifts; algebra of push/pop/depth, injectivity by induction on digit lists.",
 "C02": "constructor loop as coded over N bits; testbit characterisation, then prefix equality <-> equality of coordinates shifted.",
 "C03": "coordinates loop; round trip from the testbit characterisation.",
 "C04": "constructor with depth argument; expected refuted for Morton, proved for Hilbert.",
 "C05": "the 2D loop as coded, reduced to a recursive digit automaton; bijection and adjacency by induction on the level.",
 "C06": "coordinates loop; 2D by induction, 3D refuted by a computed witness.",
 "C07": "injectivity by induction on levels (2D, 3D); 1D refuted by a computed witness.",
 "C08": "packed word over N with land/lor/shift; field lemmas.",
 "C09": "htable as a finite map, the loop as coded with fuel; invariant over processed keys relating the map to a closed-form specification.",
 "C10": "corollary of C09, traversal over the map.",
 "C11": "inductive trees over R, compute_cofm as coded; induction over trees.",
 "C12": "traversal with pruning = filter over all leaves, from C11 and the triangle inequality.",
 "C13": "BFS with culling as coded; completeness from C11, soundness from the leaf test, no duplicates from the structure.",
 "C14": "counterexample with unequal radii.",
 "C15": "pair queue on inductive trees, multiplicity count for each ordered pair by induction.",
 "C16": "exchange schedule on knowledge sets over a hypercube with ghost ranks; power-of-two counts by induction on rounds, all others refuted.",
 "C17": "transition system with FIFO channels; inductive invariant + progress; CommsLoad_props states what receiving one entity does to every cell.",
 "C18": "FIFO replies; invariant expected > present until complete.",
 "C19": "counterexample by computation.",
 "C20": "refuted; total preorder facts kept.",
 "C21": "data exchange given right ends satisfying the split contract; the split phase is modelled as coded, with the median loop.",
 "C22": "bucket loop as coded.",
 "C23": "reduction over ranks.",
 "C24": "displacements by prefix sums.",
 "C25": "generation loop over positions in Q/R.",
 "C26": "clean loop.",
 "C27": "block arithmetic.",
 "C28": "id arithmetic, refuted for non-divisible; proved for divisible.",
 "C29": "string functions.",
 "C30": "search loop.",
 "C31": "datasets as flat arrays, write/read by hyperslabs.",
 "C32": "kernel formulas as coded over R; case analysis on the pieces.",
 "C33": "derivatives of the coded formulas (derivable_pt_lim / is_derive), piece by piece.",
 "C34": "fundamental theorem of calculus; for the Gaussians alternating Taylor bounds of exp and its integral (Numbers_lemmas.v) evaluated in rational arithmetic, pi from Machin's formula of the standard library. For the sinc kernel (KernelSinc_props.v): the sine enclosed by its Taylor sums (sin_bound of the standard library), the powers of the sum computed with integers in units of 1e-13 with a proven bound on the rounding, the three branches of the code for small arguments included; whole indices only, as documented in the code (3 to 12).",
 "C35": "particle sums as coded over any complete neighbour lists; double sums and antisymmetry of the pair terms; instantiated with the lists of the tree.",
 "C36": "same double sums; symmetry of the pair terms.",
 "C37": "direct sums as coded.",
 "C38": "is_derive of the coded potential.",
 "C39": "kick-drift-kick as coded; algebra over functions of positions.",
 "C40": "set_adaptive_timestep as coded over R/Q with the output times; invariant of the two branches, counterexample by computation.",
 "C41": "the same clock over sequences of iterations.",
 "C42": "potentials and accelerations as coded; derivatives.",
 "C43": "formulas as coded; algebra; the constants against pi from Machin's formula.",
 "C44": "formulas as coded.",
 "C45": "switch as coded; bounds by interval arithmetic on exp.",
 "C46": "integrals of the coded profiles by antiderivatives.",
 "C47": "search loop and interpolation formula as coded, indices checked.",
 "C48": "generators as loops with fuel over an abstract arithmetic; one trace lemma for both modes.",
 "C49": "instantiation with R; integer quadratic forms.",
 "C50": "integer arithmetic with overflow, sums over shells, tables by computation.",
 "C51": "index maps as coded; exhaustive over the fixed dimensions, lifted.",
 "C52": "in-place loops over a store.",
 "C53": "sums as coded.",
 "C54": "token stream semantics of the reader and the text the writer produces.",
 "C55": "line reader as coded over strings, table of all declared parameters with kinds, keywords and defaults.",
 "C56": "probing loop as coded; refinement to a finite map.",
 "C57": "predicates as coded over R.",
 "C58": "conversions as coded.",
 "C59": "reductions over lists of ranks.",
 "C60": "the sizes requested by the sort call.",
 "C61": "share rounds of build_tree between ranks as coded and their composition with the request protocol; invariant: every rank's cells are parts of the single-process tree.",
 "C62": "the 3D automaton; a computed pair of consecutive keys.",
 "C63": "the range computed for a key prefix as coded; interval arithmetic on the nested cells of C02/C07.",
 "C64": "build_tree on two equal keys; the loop leaves its domain.",
 "C65": "cross-product version of the C35 sums.",
 "C66": "sign of the radial gradient of each kernel; pairwise terms.",
 "C67": "self contribution of each kernel.",
 "C68": "pair queue of traversal_fmm as coded; counting each unordered pair in both directions.",
 "C69": "remainder of the expansion bounded by the opening criterion, summed over the accepted pairs.",
 "C70": "white-dwarf formulas as coded; derivative of the pressure.",
 "C71": "drag formula as coded.",
 "C72": "id assignment of images and the id check as coded.",
 "C73": "directory listing and remove() as functions on a map of path names.",
 "C74": "volume sums over ranks.",
 "C75": "displacement and reflection as coded, with the shortening loop on fuel.",
 "C76": "traversal_sph attempt per rank as coded on the distributed tree; invariant of the breadth-first search.",
 "C77": "the loop of the driver as a list of operations on all particles; an invariant per operation, composed over any number of iterations; neighbour lists from the tree.",
 "C78": "trace of the generator loops; membership characterised for each lattice.",
 "C79": "passes as interleavings of fetch and apply events on a distributed state; each pass reads only fields that are fresh (relation per pass on what may be stale), so a distributed run refines the sequential one; counterexamples for the signal speeds and the Cullen viscosity.",
 "C80": "on the driver model of C77/C79 with the relaxation operations switched on: the repulsion is a sum over pairs that is antisymmetric because neighbour lists are complete within the smoothing length and the repulsion radius is at most one; the drag contributes the stated force, so total momentum follows a recursion over the time steps, solved for equal steps; counterexample with beta*dt = 8.",
 "C81": "Dt_model: compute_dt with its loop of twenty divisions as option; the bounds follow from the minima; the energy loop by induction over the divisions; convergence from continuity of the potential; counterexamples on the driver model: a square-well wall of slope 10^15, and a particle at rest beside a wall whose next iteration has no successor state.",
 "C82": "IdGen_model: sodtube as an option-valued function to the list of written particles (None: array overrun, failed assertion, lattice loop without fuel); IdGen_lemmas connects count and generate to the nodes of C78; the theorem describes the three parts of the list by the nodes in the boxes; the adjusted sizes by an invariant of the search loop; counterexample of length 6.",
 "C83": "IdGen_model: wtunnel, writing more elements than allocated is None; the written list is a prefix of the lattice; for the square tunnel the nodes embed into a product of two intervals of length nx-1, fewer than nx*nx.",
 "C84": "IdGen_model: im_run with the rim of the implosion as a parameter; nodes by C78, total mass as number of particles times the mass, with the volume stated independently; termination by C48; counterexample of radius 1/2.",
 "C85": "IdFlow_model: kh as an option-valued function (None: failed assertion, division by zero, index past the arrays, loop without fuel). IdFlow_lemmas: the first point of a lattice is its corner, nodes of a box lie in rows; so the scaling factor read from the first particle of the bottom block is known, and each block is the image of its nodes under an explicit scaling. Counterexample: unit square, 60 particles, ratio 4.",
 "C86": "IdFlow_model: rt. Rows of the bottom block are whole row distances below 0, so the test with its tolerance selects exactly that block; hydrostatic equilibrium by exhibiting the function and its derivative (derivable_pt_lim); the adjusted sizes by induction over the search loop. Counterexample: a column of height 1 and length 4 gets height 3.",
 "C87": "IdFlow_model: fluid; nodes by C78, total mass as number of particles times the mass, hydrostatic equilibrium as in C86.",
 "C88": "IdBlast_model: sedov as an option-valued function (None: failed assertion, division by zero, pow of a number that is not positive, loop without fuel); the random numbers are a table. The bodies are the lattice points by C78; sums over the mapped list; a lattice point near the origin by going to the first node above it along each axis; mass of a ball by the derivative of the enclosed mass. Counterexamples in 1D and 2D. data/sedov_nx20.par in 2D as an example.",
 "C89": "IdBlast_model: noh; positions and masses as in C88, the velocity by norms of scaled vectors. Counterexamples on a line.",
 "C90": "FCell_model: the code on reals of Flocq's binary64 format, each operation followed by rounding to nearest even, None on overflow, zero scale or a cast out of range. Monotonicity of rounding; a difference of two doubles has a relative error and is not rounded to zero; scaling by a power of two is exact; the Morton key by its top differing bit. Counterexamples by the neighbours of 1.",
 "C91": "GSearch_model: the traversals of Search_model with the tests as a parameter (Search_model is the instance with exact tests, by computation); the proofs of C12 and C13 redone for any tests that keep close pairs. FSearch_model: the tests and compute_cofm with rounding. A summary invariant by induction on the tree: the rounded centre of mass stays among the particles, radius and reach are at most a few ulps short per level and there are at most 64 levels. The counterexample is a Pythagorean triple whose rounded squares do not add up.",
 "C92": "Diag_model: the statistics with their global variables as a state passed from call to call, the reductions over the processes as folds, the file as a list of lines. Invariants of the state over the calls; the least and largest values are characterised by bounds that are attained, not by the folds. Counterexamples with one or two particles.",
 "C93": "Loop_model: the loops with fuel and an arbitrary sequence of times; the executed iterations as a list. Induction on the fuel; that fuel suffices is part of the theorems. The due conditions are stated with divisibility.",
 "C94": "FClock_model: the addition rounded as in C90, iterated; the loop is that of C93. Induction on the steps with half an ulp of error each; progress from the relative error of one addition. Counterexamples with ties at 1 + 2^-53 and 1 + 3 2^-53.",
 "C95": "Hlen_model: the two functions on a list of processes, MPI_Allreduce as a sum, division by zero as None. The relation and the mean are stated with powers and sums of their own.",
 "C96": "SVec_model: the functions of space_vector.h one by one on coordinate functions. Algebra, with Cauchy-Schwarz from Vec.v.",
 "C97": "Check_model: doubles as a real, an infinity or NaN; the macros as a list of fields, assert with and without NDEBUG, the order of output and checks. By cases.",
 "C98": "FForce_model: compute_acceleration, mu, the viscosities and the two forms of kernel gradient with every operation rounded; the numbers that depend on the distance and h only are arbitrary functions. Rounding is odd, so the parts shared by a pair are equal or opposite; relative errors of two products; recursive summation; sums over mutual lists exchanged as in Sph_props.",
 "C99": "DFmm_model: one pass over the queue in the table a rank holds (as in Dist_model), the pairs left for the next pass, the final loops. In every reachable state of Comms_model a rank owns exactly the cells above its own particles (DFmm_owner); each pair covers a rectangle of particle pairs and a step splits it without loss (DFmm_pairs); the final loops cover the rest (DFmm_end).",
 "C100": "DFmm_exec: any list of the calls of the passes followed by calls of the final loops, in which one way leads from each particle to a particle, computes the sum over the ways. DFmm_more: the calls of the passes satisfy the acceptance criterion, no particle meets itself in them, and the summaries are those of C04. C100_field combines them with C99; the error bound is C69's per pair.",
 "C101": "DSame_lemmas: for each pair of particles the sequence of pairs of cells of the whole tree through which the traversal passes is a function of the particles alone (pstep); every pair in a queue and every call is on the sequence of all particle pairs it covers, and calls are where it ends, so that C100's replacement positions are determined. Without equal radii the sequence of (j,i) is that of (i,j) swapped, so that the forces cancel. Equal radii: C68 has a counterexample on one process.",
 "C102": "Await_lemmas: an empty node of a working rank is asked for if it has not been; while it is empty it is in a message from or to the rank (invariant of C17), every rank such a message goes to is listening or has yet to start (it has no DONE of the working rank), and each start or receipt lowers the measure of C17_ends, so that the node is filled; nodes with children keep them. DFinish_props: passes one by one, each when the sources of the queue are filled, end by C99_runs; rank after rank; then C17_progress to the barrier. For the search all nodes of the rank are filled (finitely many) and C76_runs applies. That some continuation exists is proved, not that every schedule takes it (for the messages alone see C103).",
 "C103": "Bound_props: the measure of C17 plus four for every node a rank has yet to ask for; a request adds a message of weight three but takes a node from that list (what is in the waiting list is marked requested, and marked nodes cannot be asked for), all other steps lower the measure and keep the list. Infinite executions: the invariant holds with some tree at every state, whose keys are below 2^64. Waiting: invariant of C17 (an empty, requested node is in a message) and the counting of DONE messages (a rank that has no DONE of the waiting rank listens).",
 "C104": "DOne_lemmas: two tables that both hold the canonical tree (C09), whose summaries agree on the particles of the tree, have the same cells with the same words, entities and summaries; a simulation then shows that every pass, walk and call list of the distributed traversal (DFmm_model) on a rank that owns all cells equals that of traversal_fmm (Fmm_model). DOne_props: the table of a single rank is such a table; with C101_same every run on several ranks has the accelerations of the one-rank run, which are those of traversal_fmm, so that C15, C68 and C69 carry over.",
 "C105": "Continuity_props: the kernel gradient is the derivative of the kernel times x/(|x|+TINY) (C33); the derivative of the norm along a line and linearity give the rate of every pair exactly as (1 + TINY/r) v.gradW, so the error of the sum is TINY times the sum of the terms over r. The counterexample is computed with the Wendland C2 kernel in one dimension. Floating-point error is not part of it.",
 "C106": "DProgram_props: C104 (the forces of a rank are those of the one-process traversal) inside the semantics of the driver of C79, whose gravity relation is instantiated by the traversal. The key is any function of the position in the range of the particles; the Morton key in double precision is one (C106_range_key). A run can be completed by C102, which gives the converse, and the first iteration is shown to run. As in C79 the Cullen viscosity is excluded and the signal speeds are left out of the comparison. Later iterations run as long as keys stay different.",
 "C107": "Energy_props, on the passes of Driver_model: the fields each pass keeps, then the phases of an iteration. C107_internal (internal energy evolved), C107_fixed (energy not evolved), C107_total (total energy evolved), C107_run (every state of a run after the first iteration), C107_first (after the first iteration the pressure is that of half a time step ahead). False for the total energy: the velocity is already that of the end of the step when recompute_pressure_soundspeed_thermokinetic subtracts dt/2 times velocity times acceleration from the energy, so the pressure is that of an internal energy too small by this amount (C107_thermokinetic_refuted: two iterations of the driver on one particle in a constant field).",
 "C108": "the function called on each list and the loop are modelled; the lists are those of C76 and C91, where a particle left out of a list is further than the mean of the two smoothing lengths, so a particle, at distance 0 of itself, is in its own list; the loop by induction on the passes.",
 "C109": "the four kernels and compute_density with a rounding after every operation (binary64 with gradual underflow, no overflow); signs by monotonicity of rounding, the lower bound by powers of two, the sum by induction; accuracy by propagating absolute errors of values between 0 and 80 scaled by the value at the centre. The constants and pow are parameters. For the spline the branches differ by the cube of the distance to the point where they meet. The value of the spline at the centre is not stated, because it divides by pow.",
 "C110": "both functions with a rounding after every operation (binary64 with gradual underflow, no overflow; the root rounded once); signs and order by monotonicity of rounding, accuracy by composing relative errors, the law c^2 rho = gamma P from the two.",
 "C111": "compute_dt up to L627 with a rounding after every operation (binary64 with gradual underflow, no overflow); the bounds by composing relative errors, where a product that underflows is below the 1e-24 added to it; the order by monotonicity of rounding. The norms in the statement are those computed. The shortening for positive internal energy is in C81, Dt_model, over the reals."
}