# Design

Formal model of laristra/flecsph (source in /repo, read as text only) in Coq 8.16.1.
First the conventions, then the trusted base with the modelled and unmodelled parts of the code, then for each property of properties.jsonl how it is modelled and proved, the theorems with their axioms, and the result. The property section is generated by `tools/gen_design.py`.

## Conventions

- `X_model.v` contains definitions of the code, each with a comment citing file and lines in /repo, and says where it simplifies. `X_spec.v`, `X_lemmas.v`, `X_proofs.v` and similar contain lemmas. `X_props.v` contains the theorems named after the properties, concrete cases as `Example`, and for small topics also the lemmas.
- A property that is false of the model has a theorem `..._refuted` of the form `exists ...`; a property proved in part has theorems `..._partial`. Both make its status "partial".
- Machine integers are `N`/`Z`/`nat` without wrap-around unless a property is about the wrap (C24, C50, C55: int, byte counts, parsed numbers), and then the wrap or the overflow is a distinct outcome.
- Floating-point numbers are modelled by the real numbers (stdlib `R`), by `Q`, or by an abstract arithmetic (`Lattice_model.v`, so that its counting theorems hold for doubles too). Rounding is modelled with Flocq's binary64 format where a property says so (C90, C91, C94, C98). NaN appears as `None` where a property depends on it (in C97 as a value).
- Undefined behaviour, failed assertions and exhausted loop fuel are `None`; a theorem that a result exists excludes them.
- MPI collectives are functions on lists indexed by rank. Point-to-point messages are FIFO channels with any interleaving of the ranks (`Comms_model.v`). One-sided timing, message size limits and buffering are not modelled.
- OpenMP regions are modelled by their sequential effect where they are reductions or independent loops; the passes over particles are also given with any interleaving (`Pass_model.v`).

## Trusted base

- The Coq 8.16.1 kernel (no native compilation; `vm_compute` is used).
- Axioms, all from the standard library, no others. `Print Assumptions` of each theorem lists one of these sets (written after the theorem below):
  - [0] none ("Closed under the global context")
  - [R1] `ClassicalDedekindReals.sig_forall_dec`
  - [R2] R1 and `FunctionalExtensionality.functional_extensionality_dep`
  - [R3] R2 and `ClassicalDedekindReals.sig_not_dec`
  - [R4] R3 and `Classical_Prop.classic`
- The reading of the source: the correspondence between /repo and the model rests on the citations.

### Parts of /repo that are modelled

| Source | Model |
|---|---|
| include/tree_topology/filling_curve.h | Key_model, Morton_model, Hilbert_model, FCell_model (in double precision) |
| include/tree_topology/tree_types.h (hcell, cofm, entity) | HCell_model, Cofm_model |
| include/tree_topology/hashtable.h | HashTable_model |
| include/tree_topology/tree_topology.h: build_tree, insertion, cofm update | BuildTree_model |
| ... find_in_radius, traversal_sph on one process | Search_model, GSearch_model (any tests), FSearch_model (in double precision) |
| ... traversal_fmm and include/physics/fmm.h, node.h | Fmm_model, Gravity_model |
| ... traversal_fmm on a distributed tree | DFmm_model |
| ... branch exchange of share_edge | Hypercube_model |
| ... share rounds of build_tree between ranks | Share_model |
| ... requests, replies, end of a traversal | Comms_model |
| ... traversal_sph on a distributed tree | Dist_model |
| include/tree_topology/tree_geometry.h | Geometry_model |
| include/tensor.h | Tensor_model (Vec: the vectors used by the physics models) |
| mpisph/psort.h, mpisph/tree_colorer.h (sorts), mpisph/utils.h (exchanges) | PSort_model, QSort_model, Exchange_model, Range_model |
| mpisph/bodies_system.h | Range_model, PSort_model, Driver_model, Pass_model |
| mpisph/io.h | IO_model, Snapshot_model |
| include/physics/body.h, kernels.h, viscosity.h, default_physics.h | Kernel_model, Sph_model, Timestep_model, Driver_model, Dt_model, Hlen_model, Check_model, FClock_model, FForce_model, FDens_model, FStep_model (in double precision) |
| include/physics/eos/eos.h (ideal, polytropic, white dwarf, piecewise polytropic) | Eos_model; ideal gas also in double precision, FEos_model |
| include/physics/eforce.h, density_profiles.h, wvt.h, boundary.h, analysis.h, integration.h | EForce_model, Profile_model, Wvt_model, Boundary_model, Analysis_model, Leapfrog_model |
| include/params.h | Params_model, ParamsDecl_model |
| include/lattice.h | Lattice_model |
| app/id_generators: sodtube, wtunnel, implosion, collapse, KH, RT, fluid, sedov, noh | IdGen_model, IdFlow_model, IdBlast_model |
| app/drivers/hydro/main_driver.cc, app/drivers/newtonian/main_driver.cc | Driver_model, Pass_model, Loop_model |
| app/drivers/wvt/main_driver.cc (its loop) | Loop_model |
| app/drivers/tree/main_driver.cc | TreeDriver_model |
| include/diagnostic.h | Diag_model |
| include/space_vector.h | Vec, SVec_model |

### Parts that are not modelled

- include/log.h (logging), command line handling in the main.cc files, unit tests.
- include/tree_topology/tree_utils.h (drawing the tree) and mpisph/tree_colorer.h mpi_branches_exchange variants that no driver calls.
- HDF5, the file system and MPI-IO themselves: their effect on arrays and on a map of path names is assumed.
- The FleCSI runtime and its task registration.
- The generators in app/id_generators not listed above, the attributes and screen output of those that are, their icosahedral and random lattices; app/tools, except for what a property names.
- Rounding errors except in C90, C91, C94, C98, C109, C110, C111 and part of C108, timing, memory consumption.

## Properties

### C01 Tree keys behave as paths (proved)

- How: keys as N with shifts; algebra of push/pop/depth, injectivity by induction on digit lists.
- Files: Key_props.v; models: Key_model
- Theorems [axioms]: C01_push_pop [0], C01_depth_pops_truncate [0], C01_injective [0], C01_surjective [0], C01_order [0], C01_min_max [0], C01_null [0]

### C02 Morton keys order space by nested cells (proved)

- How: constructor loop as coded over N bits; testbit characterisation, then prefix equality <-> equality of coordinates shifted.
- Files: Morton_props.v; models: Key_model, Morton_model
- Theorems [axioms]: C02_encodable [0], C02_morton_nested_cells [0]

### C03 Morton key decodes to a point of its own cell (proved)

- How: coordinates loop; round trip from the testbit characterisation.
- Files: Morton_props.v; models: Key_model, Morton_model
- Theorems [axioms]: C03_decode_encode [0], C03_encode_decode [0]

### C04 A key built at a smaller depth is the ancestor of the full key (partial)

- How: constructor with depth argument; expected refuted for Morton, proved for Hilbert.
- Files: Hilbert_props.v, Morton_props.v; models: Hilbert_model, Key_model, Morton_model
- Theorems [axioms]: C04_hilbert_depth_partial [0], C04_morton_depth_refuted [0]
- Result: False of the code for Morton keys (C04_morton_depth_refuted: the sentinel bit stays at the full-depth position); proved for Hilbert keys.

### C05 Hilbert keys in two dimensions enumerate the grid along adjacent cells (proved)

- How: the 2D loop as coded, reduced to a recursive digit automaton; bijection and adjacency by induction on the level.
- Files: Hilbert_props.v; models: Hilbert_model, Key_model, Morton_model
- Theorems [axioms]: C05_hilbert2_onto [0], C05_hilbert2_range [0], C05_hilbert2_adjacent [0]
- Result: All levels d <= 31 of the code's grid; C07_hilbert2_nested_cells gives injectivity.

### C06 Hilbert key converts back to its cell (partial)

- How: coordinates loop; 2D by induction, 3D refuted by a computed witness.
- Files: Hilbert_props.v; models: Hilbert_model, Key_model, Morton_model
- Theorems [axioms]: C06_hilbert2_round_trip_partial [0], C06_hilbert3_refuted [0]
- Result: Proved in dimension 2; false of the code in dimension 3 (C06_hilbert3_refuted).

### C07 Hilbert keys separate distinct cells in every dimension (partial)

- How: injectivity by induction on levels (2D, 3D); 1D refuted by a computed witness.
- Files: Hilbert_props.v; models: Hilbert_model, Key_model, Morton_model
- Theorems [axioms]: C07_hilbert2_nested_cells [0], C07_hilbert2_injective [0], C07_hilbert3_nested_cells [0], C07_hilbert3_injective [0], C07_hilbert3_onto [0], C07_hilbert1_refuted [0], C07_hilbert1_partial [0]
- Result: Proved in dimensions 2 and 3; false of the code in dimension 1 (lowest bit dropped).

### C08 Cell flags do not interfere (proved)

- How: packed word over N with land/lor/shift; field lemmas.
- Files: HCell_props.v; models: HCell_model
- Theorems [axioms]: C08_cell_flags [0], C08_empty_node [0]

### C09 The tree built from sorted particles is the canonical tree of their keys (proved)

- How: htable as a finite map, the loop as coded with fuel; invariant over processed keys relating the map to a closed-form specification.
- Files: BuildTree_props.v; models: BuildTree_model, HCell_model, Key_model
- Theorems [axioms]: C09_build_tree_canonical [0], C09_cells_exactly [0], C09_rank_part [0]
- Result: C09_rank_part states the same for a process with neighbours. An empty process among several is not covered (it creates cells without particles).

### C10 Every particle is reachable exactly once from the root of the built tree (proved)

- How: corollary of C09, traversal over the map.
- Files: BuildTree_props.v; models: BuildTree_model, HCell_model, Key_model
- Theorems [axioms]: C10_traversal_visits_once [0]

### C11 Node summaries describe everything below the node (proved)

- How: inductive trees over R, compute_cofm as coded; induction over trees.
- Files: Cofm_props.v; models: BuildTree_model, Cofm_model, Key_model
- Theorems [axioms]: C11_any_tree [R3], C11_built_nodes [R3]

### C12 Radius search returns exactly the particles in range (proved)

- How: traversal with pruning = filter over all leaves, from C11 and the triangle inequality.
- Files: Search_props.v; models: BuildTree_model, Cofm_model, Geometry_model, HCell_model, Key_model, Search_model
- Theorems [axioms]: C12_radius_search_exact [R3]
- Result: On one process, for the tree built by build_tree from any distinct full-depth keys; radius >= 0.

### C13 SPH neighbour lists contain every particle inside the kernel support (proved)

- How: BFS with culling as coded; completeness from C11, soundness from the leaf test, no duplicates from the structure.
- Files: Search_props.v; models: BuildTree_model, Cofm_model, Geometry_model, HCell_model, Key_model, Search_model
- Theorems [axioms]: C13_sph_neighbours [R3]
- Result: On one process, for the tree built by build_tree from any distinct full-depth keys.

### C14 SPH neighbour lists contain every particle within the larger radius (partial)

- How: counterexample with unequal radii.
- Files: Search_props.v; models: BuildTree_model, Cofm_model, Geometry_model, HCell_model, Key_model, Search_model
- Theorems [axioms]: C14_within_larger_radius_refuted [R3]
- Result: False of the code: C14_within_larger_radius_refuted (129 particles in 1D); C13 is what holds.

### C15 Gravity traversal accounts for each pair once (proved)

- How: pair queue on inductive trees, multiplicity count for each ordered pair by induction.
- Files: Fmm_props.v; models: BuildTree_model, Cofm_model, Fmm_model, Geometry_model, Gravity_model, HCell_model, Key_model, Search_model
- Theorems [axioms]: C15_each_pair_once [R3], C15_field [R3], C15_direct [R3]

### C16 All ranks learn all top-level branches (partial)

- How: exchange schedule on knowledge sets over a hypercube with ghost ranks; power-of-two counts by induction on rounds, all others refuted.
- Files: Hypercube_props.v; models: Hypercube_model
- Theorems [axioms]: C16_matched [0], C16_power_of_two [0], C16_exactly [0], C16_refuted [0]
- Result: True exactly for power-of-two process counts (C16_exactly, for any way of merging branches); for every other count rank 2^k-1 never learns of ranks >= 2^k, because the exchange for a ghost rank appends the sent buffers instead of the received ones (tree_topology.h L1731-1734) and because that rank has no partner in the last round. Every exchange is matched by the partner (C16_matched).

### C17 Traversal communication ends without losing messages (partial)

- How: transition system with FIFO channels; inductive invariant + progress; CommsLoad_props states what receiving one entity does to every cell.
- Files: CommsLoad_props.v, Comms_props.v; models: BuildTree_model, Comms_model, HCell_model, Key_model
- Theorems [axioms]: C17_loaded [0], C17_quiet [0], C17_done_counted [0], C17_barrier [0], C17_no_fault [0], C17_progress [0], C17_ends [0], C17_subtree_refuted [0]
- Result: Proved for traversal_sph (requests that are waited for) over any interleaving and any number of traversals; refuted for traversal_fmm, whose REQUEST_SUBTREE (tree_topology.h L588-606) is not waited for: all ranks can reach the barrier with replies still on the way (C17_subtree_refuted).

### C18 A partly received remote cell is never treated as complete (partial)

- How: FIFO replies; invariant expected > present until complete.
- Files: Comms_props.v; models: BuildTree_model, Comms_model, HCell_model, Key_model
- Theorems [axioms]: C18_complete [0], C18_waiting [0], C18_subtree_refuted [0]
- Result: Proved for requests by key; refuted for REQUEST_SUBTREE of traversal_fmm: a node received in the share phase has nchildren_to_receive 0, so after the node reply and before the entity reply it counts as available with children missing (C18_subtree_refuted).

### C19 Reported tree depth is the depth of the deepest leaf (partial)

- How: counterexample by computation.
- Files: BuildTree_props.v; models: BuildTree_model, HCell_model, Key_model
- Theorems [axioms]: C19_max_depth_constant [0], C19_max_depth_refuted [0]
- Result: False of the code: the reported value is max_depth-1 for every input (C19_max_depth_constant), whatever the tree.

### C20 Sorting particles uses a valid ordering (partial)

- How: refuted; total preorder facts kept.
- Files: PSort_props.v; models: BuildTree_model, Exchange_model, PSort_model
- Theorems [axioms]: C20_body_comp [0], C20_body_comp_total [0], C20_entity_less_refuted [0]
- Result: The lambda that every sort call passes is a strict weak ordering; entity::operator< (<=) is not, and is refuted. No sort call in the modelled code relies on operator<.

### C21 Parallel sort permutes and orders globally (partial)

- How: data exchange given right ends satisfying the split contract; the split phase is modelled as coded, with the median loop.
- Files: PSort_props.v; models: BuildTree_model, Exchange_model, PSort_model
- Theorems [axioms]: C21_psort [0], C21_other_request [0], C21_empty_rank_refuted [0], C21_first_empty_refuted [0], C21_reads_inside_refuted [0]
- Result: Proved for every request equal to the local sizes (the only one the code makes) when empty ranks come last. Refuted: an empty rank before a non-empty one stops the run; medians are read behind the arrays (the result does not depend on what is read). Any other request fails the first assertion (C21_other_request).

### C22 Particle redistribution by sampled splitters loses nothing (partial)

- How: bucket loop as coded.
- Files: QSort_props.v; models: BuildTree_model, Exchange_model, Key_model, PSort_model, QSort_model
- Theorems [axioms]: C22_qsort [0], C22_max_key_refuted [0], C22_min_key_refuted [0]
- Result: Proved for particles whose keys lie strictly between the smallest and largest key, at least one sample and byte counts below 2^31; sample positions computed exactly, not in doubles. Refuted at the ends: a particle with the largest key runs off the splitter array, samples with the smallest key fail the assertion. bodies_system.h calls psort (C21) instead.

### C23 The computed range contains every particle (partial)

- How: reduction over ranks.
- Files: Range_props.v; models: BuildTree_model, Range_model
- Theorems [axioms]: C23_range [R2], C23_tight [R2], C23_same_on_all_ranks [R2], C23_threads [R2], C23_empty_rank_refuted [R2]
- Result: Over the reals. Proved when every rank has a particle; refuted for an empty rank (back() of an empty vector). The nested parallel region of tree_colorer.h is modelled with nested parallelism off.

### C24 Exchange buffers are disjoint and complete (partial)

- How: displacements by prefix sums.
- Files: Exchange_props.v; models: BuildTree_model, Exchange_model
- Theorems [axioms]: C24_alltoallv [0], C24_segments_partition [0], C24_p2p_no_deadlock [0], C24_p2p_progress [0], C24_p2p_result [0], C24_allgatherv [0], C24_large_refuted [0], C24_nested_wait_refuted [0], C24_nested_wait_others [0]
- Result: Proved for counts whose byte totals per rank fit in int; refuted above that (2^28 elements of 16 bytes to one rank: the byte count wraps to 0). The nested-vector overload waits on a request it never started for its own rank when it has data for itself; its only caller sends nothing to itself.

### C25 Periodic images appear where neighbours need them (partial)

- How: generation loop over positions in Q/R.
- Files: Boundary_props.v; models: Boundary_model, BuildTree_model, Range_model
- Theorems [axioms]: C25_originals [R2], C25_images_sound [R2], C25_no_image [R2], C25_images_complete [R2], C25_wide_layer_refuted [R2], C25_box_write_refuted [0], C25_box_write_3d [0], C25_far_refuted [R2]
- Result: complete and sound for layers up to half the box in 1-3 dimensions; refuted for wider layers (one image per axis only), for particles more than a box length outside, and for the box arrays, which are written past their end in one and two dimensions. abs is taken as the absolute value of a real.

### C26 Removing periodic images restores the particle set (partial)

- How: clean loop.
- Files: Boundary_props.v; models: Boundary_model, BuildTree_model, Range_model
- Theorems [axioms]: C26_clean_generate [R2], C26_clean_keeps [0], C26_real_wall_refuted [R1], C26_only_images_refuted [R1]
- Result: holds when no particle was a wall before; refuted for real wall particles (deleted) and for a rank that holds only images (assertion)

### C27 Initial data are split without gaps (proved)

- How: block arithmetic.
- Files: IO_props.v; models: BuildTree_model, IO_model
- Theorems [axioms]: C27_split [0], C27_cover [0]

### C28 Generated particle ids are unique (partial)

- How: id arithmetic, refuted for non-divisible; proved for divisible.
- Files: IO_props.v; models: BuildTree_model, IO_model
- Theorems [axioms]: C28_unique_iff [0], C28_even [0], C28_uneven_refuted [0], C28_assertion [0]
- Result: the ids are unique exactly when the rank count divides n (or n <= 1); refuted otherwise

### C29 Snapshot file names round trip (partial)

- How: string functions.
- Files: Snapshot_props.v; models: BuildTree_model, IO_model, Snapshot_model
- Theorems [axioms]: C29_roundtrip [0], C29_large_step [0], C29_large_step_refuted [0], C29_other_prefix [0], C29_sound [0], C29_sound_refuted [0], C29_short_name_refuted [0], C29_defined [0]
- Result: round trip for steps below 100000, refuted from 100000 on; soundness for prefixes without .h5part, refuted otherwise; a short name reads in front of the string

### C30 Restart finds the snapshot of the requested iteration (partial)

- How: search loop.
- Files: IO_props.v, Snapshot_props.v; models: BuildTree_model, IO_model, Snapshot_model
- Theorems [axioms]: C30_single_file [0], C30_single_file_complete [0], C30_found [0], C30_none [0], C30_no_match [0], C30_no_match_refuted [0]
- Result: found when present (both file layouts); with no match the multi-file search returns the step of the last entry instead of a failure (refuted)

### C31 Output followed by restart restores the particle state for any rank count (partial)

- How: datasets as flat arrays, write/read by hyperslabs.
- Files: IO_props.v; models: BuildTree_model, IO_model
- Theorems [axioms]: C31_roundtrip [0], C31_alpha_refuted [0], C31_existing_step_refuted [0], C31_written [0]
- Result: all fields that are read come back for any rank counts; alpha is written but not read (refuted), and a step already in the file is not overwritten (refuted). HDF5 and MPI-IO are modelled by their effect on arrays.

### C32 Smoothing kernels are non-negative with compact support (proved)

- How: kernel formulas as coded over R; case analysis on the pieces.
- Files: Kernel_props.v; models: Geometry_model, Kernel_model
- Theorems [axioms]: C32_spline_and_wendland [R4], C32_gaussian_and_sinc [R4]

### C33 Kernel gradients are the derivatives of the kernels (partial)

- How: derivatives of the coded formulas (derivable_pt_lim / is_derive), piece by piece.
- Files: Kernel_props.v; models: Geometry_model, Kernel_model
- Theorems [axioms]: C33_spline_and_wendland [R4], C33_gaussians [R4], C33_sinc [R4], C33_sinc_small_refuted [R4], C33_antisymmetric [R4]
- Result: Proved for spline, Wendland, Gaussian and sinc kernels; false in the sinc kernel's small-argument branch: C33_sinc_small_refuted.

### C34 Kernels are normalised (partial)

- How: fundamental theorem of calculus; for the Gaussians alternating Taylor bounds of exp and its integral (Numbers_lemmas.v) evaluated in rational arithmetic, pi from Machin's formula of the standard library. For the sinc kernel (KernelSinc_props.v): the sine enclosed by its Taylor sums (sin_bound of the standard library), the powers of the sum computed with integers in units of 1e-13 with a proven bound on the rounding, the three branches of the code for small arguments included; whole indices only, as documented in the code (3 to 12).
- Files: KernelGauss_props.v, KernelSinc_props.v, Kernel_props.v; models: Geometry_model, Kernel_model
- Theorems [axioms]: C34_gaussians [R4], C34_gaussian_ball [R4], C34_sinc [R4], C34_normalised [R4], C34_quintic_3d_refuted [R4]
- Result: Polynomial kernels exactly, Gaussian and super-Gaussian to 1e-11 (C34_gaussians); false for the quintic spline in 3D (integral 360/359): C34_quintic_3d_refuted. Radial integrals. The fitted normalisation of the sinc kernel for whole indices 3 to 12 to 5e-5 (C34_sinc).

### C35 Pressure and viscous forces conserve momentum (proved)

- How: particle sums as coded over any complete neighbour lists; double sums and antisymmetry of the pair terms; instantiated with the lists of the tree.
- Files: SphTree_props.v, Sph_props.v; models: BuildTree_model, Cofm_model, Geometry_model, HCell_model, Kernel_model, Key_model, Search_model, Sph_model
- Theorems [axioms]: C35_tree_lists [R4], C35_momentum [R4], C35_pairwise [R4]
- Result: All kernels and both viscosities; C35_tree_lists instantiates the hypothesis with the lists of the tree traversal.

### C36 Internal and kinetic energy exchange balances (proved)

- How: same double sums; symmetry of the pair terms.
- Files: Sph_props.v; models: Geometry_model, Kernel_model, Sph_model
- Theorems [axioms]: C36_total_energy_rate [R4], C36_energy_balance [R4], C36_relaxation [R1]
- Result: Also per particle: the total-energy rate is the internal-energy rate plus the work of all forces.

### C37 Direct gravity conserves momentum and self-force is zero (proved)

- How: direct sums as coded.
- Files: Gravity_props.v; models: Gravity_model
- Theorems [axioms]: C37_newton [R3], C37_pairwise [R3], C37_momentum [R3], C37_two_groups [R3]

### C38 Far-field gravity is the first-order expansion of the point-mass field (proved)

- How: is_derive of the coded potential.
- Files: Gravity_props.v; models: Gravity_model
- Theorems [axioms]: C38_gradient [R4], C38_taylor [R4], C38_cell_total [R2], C38_cells_momentum [R3]
- Result: The code keeps zeroth order in the force and first order in the potential; that is what is stated and proved.

### C39 The leapfrog step is time reversible (proved)

- How: kick-drift-kick as coded; algebra over functions of positions.
- Files: Leapfrog_props.v; models: Leapfrog_model
- Theorems [axioms]: C39_reversible [R2], C39_uniform [R2], C39_momentum [R2], C39_energies [R2]
- Result: Accelerations as a function of the positions (no velocity-dependent viscosity).

### C40 Adaptive time step respects the stability bound (partial)

- How: set_adaptive_timestep as coded over R/Q with the output times; invariant of the two branches, counterexample by computation.
- Files: Timestep_props.v; models: Timestep_model
- Theorems [axioms]: C40_without_outputs [0], C40_stability_refuted [0], C40_bound_partial [0]
- Result: Proved without output by time; false with it (C40_stability_refuted: any factor), with the bound that does hold in C40_bound_partial.

### C41 Simulation time increases and hits the output times (partial)

- How: the same clock over sequences of iterations.
- Files: Timestep_props.v; models: Timestep_model
- Theorems [axioms]: C41_first_output [0], C41_clock_refuted [0], C41_constant_limit_refuted [0], C41_single_output_partial [0]
- Result: False: C41_clock_refuted (an output time is skipped and the clock then runs backwards) and C41_constant_limit_refuted; C41_single_output_partial is the case that holds.

### C42 External forces derive from their potentials (partial)

- How: potentials and accelerations as coded; derivatives.
- Files: EForce_props.v; models: EForce_model, Geometry_model, Gravity_model, Profile_model
- Theorems [axioms]: C42_walls [R4], C42_spherical_wall [R4], C42_hydrostatic [R4], C42_support_constant [R4], C42_support_parabolic [R4], C42_support_mesa [R4], C42_gravity [R4], C42_orbit [R4], C42_airfoil_frame [R3], C42_airfoil_inside [R4], C42_airfoil_outside [R4], C42_airfoil_edge_refuted [R4], C42_total [R4], C42_total_simple [R4], C42_select_walls_refuted [0]
- Result: Proved for the walls, the spherical wall, uniform gravity, the orbit (3D), the airfoil off its edges, the density support for constant, parabolic and mesa profiles outside the core x<=1e-12, and the sum of any selection. Refuted at the airfoil tip, where the potential jumps. The selector reads a dangling pointer for every 'walls:' item (refuted separately).

### C43 Equations of state are consistent (proved)

- How: formulas as coded; algebra; the constants against pi from Machin's formula.
- Files: Constants_props.v, Eos_props.v; models: Eos_model
- Theorems [axioms]: C43_wd_constants [R4], C43_adiabat_reproduces_pressure [R4], C43_polytropic_soundspeed [R4], C43_polytropic_energy [R4], C43_ideal_soundspeed [R4], C43_ppt_adiabat [R4], C43_ppt_soundspeed [R4], C43_ppt_continuous [R4], C43_wd_energy [R4]

### C44 Artificial viscosity is symmetric and dissipative (proved)

- How: formulas as coded.
- Files: Sph_props.v; models: Geometry_model, Kernel_model, Sph_model
- Theorems [axioms]: C44_viscosity [R2]

### C45 Viscosity switch stays within bounds (partial)

- How: switch as coded; bounds by interval arithmetic on exp.
- Files: Continuity_props.v, Sph_props.v; models: Geometry_model, Kernel_model, Sph_model
- Theorems [axioms]: C45_sign_mean [R4], C45_bounds [R4], C45_defined [R4], C45_isolated_refuted [R4], C45_below_target_refuted [R4]
- Result: Bounds proved; false that the coefficient stays above its target (C45_below_target_refuted) and undefined for a particle with no neighbour but itself (C45_isolated_refuted).

### C46 Spherical density profiles integrate to unit mass (partial)

- How: integrals of the coded profiles by antiderivatives.
- Files: Profile_props.v; models: Geometry_model, Profile_model
- Theorems [axioms]: C46_constant_density [R4], C46_parabolic_density [R4], C46_mesa_density [R4], C46_mesa_total_mass [R3], C46_mesa_outside [R3], C46_outside_refuted [R3], C46_mesa_rim_refuted [R4]
- Result: Proved inside the support for constant, parabolic and mesa profiles. Refuted outside: the constant profile keeps its value and the parabolic profile is negative for r>1; the mesa density is cut at r=0.9999 while its enclosed mass keeps growing up to r=1.

### C47 Profile interpolation reproduces tabulated data (partial)

- How: search loop and interpolation formula as coded, indices checked.
- Files: Interp_props.v; models: BuildTree_model, Geometry_model, Profile_model
- Theorems [axioms]: C47_interval [R2], C47_no_bad_access [R2], C47_tabulated_points [R2], C47_reproduces_cubics [R2], C47_below_table_refuted [R2], C47_above_table_refuted [R2]
- Result: Proved for strictly increasing tables with at least four points and arguments not below the first point. Refuted below the table (reads index -2) and above it (extrapolates; the comment promises zero).

### C48 Particle lattices count what they generate (proved)

- How: generators as loops with fuel over an abstract arithmetic; one trace lemma for both modes.
- Files: Lattice_props.v; models: BuildTree_model, Lattice_model, Range_model
- Theorems [axioms]: C48_lattices [0], C48_icosahedral [0], C48_random [0], C48_ends [R3]
- Result: Arithmetic is abstract, so rounding is included; the positions of the icosahedral lattice are an arbitrary function; random draws are an arbitrary stream.

### C49 Lattice particles keep their spacing (partial)

- How: instantiation with R; integer quadratic forms.
- Files: Lattice_props.v; models: BuildTree_model, Lattice_model, Range_model
- Theorems [axioms]: C49_1d [R3], C49_2d [R3], C49_3d [R3], C49_fcc_four_layers_partial [R3], C49_fcc_any_partial [R3], C49_fcc_refuted [R3]
- Result: Line, square, triangular, cubic and hexagonal close-packed lattices: proved for every box. Cubic close packing (lattice_type 2): refuted from five layers on, because the layer counter zl=(zl+1)*(zl<3) runs through four values while the stacking has period three; proved for up to four layers and with sqrt(2/3) of the spacing in general. Exact arithmetic (reals).

### C50 Icosahedral sphere particle counts (partial)

- How: integer arithmetic with overflow, sums over shells, tables by computation.
- Files: Icosa_props.v; models: BuildTree_model, Lattice_model, Range_model
- Theorems [axioms]: C50_shell [0], C50_distinct [0], C50_sphere [0], C50_generated [0], C50_at_most [0], C50_overflow_refuted [0], C50_defined [0], C50_tables [0], C50_regular [R3]
- Result: Counts, sums, tables and vertex geometry proved; npart_icosahedral_sphere overflows int for 600 shells and more (C50_overflow_refuted), C50_defined shows it does not below.

### C51 Symmetric tensor storage (proved)

- How: index maps as coded; exhaustive over the fixed dimensions, lifted.
- Files: Tensor_props.v; models: Tensor_model
- Theorems [axioms]: C51_cells_are_classes [0], C51_cells_all_used [0], C51_generic [0], C51_named_access [0]

### C52 In-place tensor arithmetic is correct under aliasing (partial)

- How: in-place loops over a store.
- Files: Tensor_props.v; models: Tensor_model
- Theorems [axioms]: C52_distinct_objects [0], C52_alias_refuted [0], C52_alias_no_effect [0], C52_binary_operators [0], C52_scalar [0], C52_comparison [0]
- Result: False when both operands are the same object: C52_alias_refuted (a += a leaves a unchanged); proved for distinct objects and for the binary operators.

### C53 Velocity divergence is Galilean invariant (partial)

- How: sums as coded.
- Files: Sph_props.v; models: Geometry_model, Kernel_model, Sph_model
- Theorems [axioms]: C53_change_partial [R4], C53_galilean_refuted [R4]
- Result: False of the code (it uses the particle's own velocity instead of the relative one): C53_galilean_refuted; C53_change_partial gives the exact change.

### C54 Conservation check detects violations (partial)

- How: token stream semantics of the reader and the text the writer produces.
- Files: Analysis_props.v; models: Analysis_model, BuildTree_model, Range_model, Wvt_model
- Theorems [axioms]: C54_header [R2], C54_never_fails [R2], C54_refuted [R2], C54_momentum [R2], C54_intended_partial [R2], C54_columns_refuted [R2], C54_row [R1], C54_written [0]
- Result: Refuted: scalar_output starts the file with a '#' header, at which every read fails, so the check succeeds for every run; without the header the columns do not match, and the momentum checks compare array addresses. C54_intended_partial: exact for mass and energy in a file of the layout it reads.

### C55 Parameter lines are parsed faithfully (partial)

- How: line reader as coded over strings, table of all declared parameters with kinds, keywords and defaults.
- Files: ParamsDecl_props.v, Params_props.v; models: ParamsDecl_model, Params_model, Snapshot_model
- Theorems [axioms]: C55_declared [R2], C55_keywords [R2], C55_unset [R2], C55_line [R2], C55_nothing [R2], C55_file [R2], C55_order [R2], C55_hash_in_quotes_refuted [R2], C55_carriage_return_refuted [R2], C55_fraction_refuted [R2], C55_spelling_refuted [R2], C55_open_quote_refuted [R2], C55_unreadable_refuted [R2], C55_errors [R2], C55_long_text_refuted [R2]
- Result: Proved for texts of the documented form. Refuted beyond it: '#' inside quotes, carriage returns, fractions for integer parameters (initial_time is int64_t), other spellings of true, a missing closing quote, two declared parameters that cannot be set, texts of 511 characters or more overrun their array.

### C56 Hash table behaves as a map (proved)

- How: probing loop as coded; refinement to a finite map.
- Files: HashTable_props.v; models: HashTable_model
- Theorems [axioms]: C56_hashtable_is_map [0], C56_index [0]

### C57 Geometric predicates are exact (partial)

- How: predicates as coded over R.
- Files: Geometry_props.v; models: Geometry_model
- Theorems [axioms]: C57_box_box [R2], C57_within_distance2 [R3], C57_within [R3], C57_within_square [R3], C57_within_box [R2], C57_sphere_sphere [R3], C57_sphere_box [R3], C57_mac [R3], C57_sphere_sphere_refuted [R3], C57_sphere_box_refuted [R3], C57_within_box_refuted [R2]
- Result: Exact for boxes, distance test and in 3D; in 1D/2D the sphere tests accept gaps up to the tolerance (refuted as exact, proved up to the tolerance); the 2D/3D box test excludes the lower faces.

### C58 Radial relaxation helpers are consistent (partial)

- How: conversions as coded.
- Files: Wvt_props.v; models: BuildTree_model, Range_model, Wvt_model
- Theorems [axioms]: C58_angles [R4], C58_roundtrip [R4], C58_one_dimension [R4], C58_one_dimension_refuted [R4], C58_orthogonal [R3], C58_tangential [R3], C58_tangential_refuted [R3], C58_mirror [R4], C58_mirror_refuted [R4]
- Result: Round trip, orthogonality and mirror proved in 2d and 3d; in 1d the conversion keeps only the absolute value (refuted), and remove_radial_acc returns twice the tangential part (refuted).

### C59 Global diagnostics do not depend on the distribution (proved)

- How: reductions over lists of ranks.
- Files: Analysis_props.v; models: Analysis_model, BuildTree_model, Range_model, Wvt_model
- Theorems [axioms]: C59_totals [R3], C59_angular [R2], C59_distribution [R2], C59_pairs [R3]
- Result: double modelled by the reals: independence of the distribution holds up to rounding only in the program.

### C60 Load balance after each iteration setup (partial)

- How: the sizes requested by the sort call.
- Files: PSort_props.v; models: BuildTree_model, Exchange_model, PSort_model
- Theorems [axioms]: C60_sizes_unchanged [0], C60_balance_refuted [0]
- Result: Refuted: the sort is asked for the current local sizes, so it keeps every rank's count (C60_sizes_unchanged).

### C61 Remote data fetched during traversal equal the owner's data (partial)

- How: share rounds of build_tree between ranks as coded and their composition with the request protocol; invariant: every rank's cells are parts of the single-process tree.
- Files: Comms_props.v, Dist_props.v, Share_props.v; models: BuildTree_model, Cofm_model, Comms_model, Dist_model, Geometry_model, HCell_model, Key_model, Share_model
- Theorems [axioms]: C61_fetched [0], C61_search [R3], C61_lists_refuted [R3], C61_share [0], C61_cells [0]
- Result: Proved: the share rounds give every rank cells with the content, children and owner of the tree one process builds, for every distribution over 2^m ranks (C61_share); in every state of the traversals that follow this stays so and nodes not seen as empty are complete (C61_cells, C61_fetched); the neighbour search of a rank for given targets gives the lists of the single tree or waits (C61_search). The last clause is false: the lists depend on the groups of targets, which differ between ranks (C61_lists_refuted).

### C62 Consecutive Hilbert keys in three dimensions are neighbouring cells (partial)

- How: the 3D automaton; a computed pair of consecutive keys.
- Files: Hilbert_props.v; models: Hilbert_model, Key_model, Morton_model
- Theorems [axioms]: C62_hilbert3_adjacent_refuted [0]
- Result: False of the code: the 3D curve is a bijection but consecutive keys need not be neighbours.

### C63 The box of an ancestor key contains the point (proved)

- How: the range computed for a key prefix as coded; interval arithmetic on the nested cells of C02/C07.
- Files: Morton_props.v; models: Key_model, Morton_model
- Theorems [axioms]: C63_range_contains [0]

### C64 Tree construction accepts particles sharing a key (partial)

- How: build_tree on two equal keys; the loop leaves its domain.
- Files: BuildTree_props.v; models: BuildTree_model, HCell_model, Key_model
- Theorems [axioms]: C64_equal_keys_refuted [0]
- Result: False of the code.

### C65 Hydrodynamic forces conserve angular momentum (proved)

- How: cross-product version of the C35 sums.
- Files: SphMore_props.v; models: Geometry_model, Kernel_model, Sph_model
- Theorems [axioms]: C65_angular_momentum [R4]

### C66 Pressure repels and viscosity heats (proved)

- How: sign of the radial gradient of each kernel; pairwise terms.
- Files: SphMore_props.v; models: Geometry_model, Kernel_model, Sph_model
- Theorems [axioms]: C66_repulsive [R4], C66_viscous_heating [R4]
- Result: Polynomial, Gaussian and sinc kernels (indices 1 to 12); the super-Gaussian is not monotone.

### C67 Computed density is positive (partial)

- How: self contribution of each kernel.
- Files: SphMore_props.v; models: Geometry_model, Kernel_model, Sph_model
- Theorems [axioms]: C67_density_positive [R4], C67_super_gaussian_refuted [R4]
- Result: Polynomial, Gaussian and sinc kernels; false for the super-Gaussian.

### C68 Gravity traversal conserves momentum (partial)

- How: pair queue of traversal_fmm as coded; counting each unordered pair in both directions.
- Files: FmmMomentum_props.v; models: BuildTree_model, Cofm_model, Fmm_model, Geometry_model, Gravity_model, HCell_model, Key_model, Search_model
- Theorems [axioms]: C68_fmm_momentum [R3], C68_fmm_momentum_ties_refuted [R3]
- Result: C68_fmm_momentum needs pairwise different node radii; C68_fmm_momentum_ties_refuted gives four particles on a line (two nodes of radius 3/4, MAC 1/2) whose computed forces do not sum to zero: with radius1 > radius2 false both ordered pairs split their second member.

### C69 Error bound of the gravity traversal (proved)

- How: remainder of the expansion bounded by the opening criterion, summed over the accepted pairs.
- Files: FmmError_props.v; models: BuildTree_model, Cofm_model, Fmm_model, Geometry_model, Gravity_model, HCell_model, Key_model
- Theorems [axioms]: C69_fmm_error [R3]

### C70 White-dwarf sound speed is that of the pressure (partial)

- How: white-dwarf formulas as coded; derivative of the pressure.
- Files: Eos_props.v; models: Eos_model
- Theorems [axioms]: C70_wd_soundspeed_electrons [R4], C70_wd_soundspeed_refuted [R4]
- Result: Proved that the stored sound speed is that of the electron gas with electron rest-mass inertia only; refuted against the mass density (ions carry no inertia).

### C71 Relaxation drag only slows particles (proved)

- How: drag formula as coded.
- Files: EForce_props.v; models: EForce_model, Geometry_model, Gravity_model, Profile_model
- Theorems [axioms]: C71_drag_dissipates [R2], C71_drag_step [R2]

### C72 Periodic images get fresh ids and the id check accepts valid input (partial)

- How: id assignment of images and the id check as coded.
- Files: Boundary_props.v; models: Boundary_model, BuildTree_model, Range_model
- Theorems [axioms]: C72_image_ids [R2], C72_assertion [R2], C72_ids_from_one_refuted [R2]
- Result: image ids proved for particles that are not walls; the assertion fails for the ids 1..n that io.h generates

### C73 Clearing old output removes exactly the stale snapshots (partial)

- How: directory listing and remove() as functions on a map of path names.
- Files: Snapshot_props.v; models: BuildTree_model, IO_model, Snapshot_model
- Theorems [axioms]: C73_removed [0], C73_removed_snapshots [0], C73_other_directory_kept [0], C73_other_directory_refuted [0]
- Result: exact when the output directory is the working directory; otherwise remove() acts on the working directory (refuted)

### C74 WVT rescaled smoothing lengths fill wvt_ngb sphere volumes regardless of distribution (proved)

- How: volume sums over ranks.
- Files: Wvt_props.v; models: BuildTree_model, Range_model, Wvt_model
- Theorems [axioms]: C74_volume [R4], C74_distribution [R4]

### C75 A WVT relaxation step keeps particles inside the sphere (partial)

- How: displacement and reflection as coded, with the shortening loop on fuel.
- Files: Wvt_props.v; models: BuildTree_model, Range_model, Wvt_model
- Theorems [axioms]: C75_inside [R4], C75_ends [R4], C75_one_dimension_refuted [R4], C75_far_refuted [R4], C75_cool_down [R2]
- Result: Proved in 2d and 3d for accelerations up to 1e8 radii; refuted beyond that (the shortening stops at mu=1e-10), and in 1d the reflection moves a particle to the other end.

### C76 Every particle of a rank gets one neighbour list that covers all ranks (proved)

- How: traversal_sph attempt per rank as coded on the distributed tree; invariant of the breadth-first search.
- Files: Dist_all_props.v; models: BuildTree_model, Cofm_model, Comms_model, Dist_model, Geometry_model, HCell_model, Key_model, Share_model
- Theorems [axioms]: C76_calls [R3], C76_runs [R3]
- Result: Proved for the attempts of traversal_sph on every rank after build_tree with its share rounds, in every state of the traversals (C76_calls, C76_runs). That the requests are answered and a state without empty nodes is reached is not claimed here.

### C77 A whole run of the driver conserves what it should and does not stop (proved)

- How: the loop of the driver as a list of operations on all particles; an invariant per operation, composed over any number of iterations; neighbour lists from the tree.
- Files: Driver_props.v; models: BuildTree_model, Cofm_model, Driver_model, EForce_model, Geometry_model, Kernel_model, Key_model, Search_model, Sph_model
- Theorems [axioms]: C77_particles [R4], C77_motion [R4], C77_energy [R4], C77_never_stops [R4]
- Result: Runs start after relaxation (initial_iteration >= relaxation_steps); periodic boundaries off; gravity enters C77_motion through any field without net force and torque; passes read the state they started from (cached copies of remote particles are not part of this theorem).

### C78 Lattice generators fill exactly the domain (partial)

- How: trace of the generator loops; membership characterised for each lattice.
- Files: LatticeBox_props.v; models: BuildTree_model, Lattice_model, Range_model
- Theorems [axioms]: C78_nodes [R3], C78_corner [R3], C78_thin_refuted [R3]
- Result: C78_nodes: the set of points written is the set of lattice nodes within the domain (real arithmetic). C78_thin_refuted: in_domain_2d/3d use the tolerance of the x axis for every axis, so a box 2000000 x 1 gets no particle at all.

### C79 The result of a run does not depend on ranks or on the order of processing (partial)

- How: passes as interleavings of fetch and apply events on a distributed state; each pass reads only fields that are fresh (relation per pass on what may be stale), so a distributed run refines the sequential one; counterexamples for the signal speeds and the Cullen viscosity.
- Files: Pass_props.v; models: Driver_model, EForce_model, Geometry_model, Kernel_model, Pass_model, Sph_model
- Theorems [axioms]: C79_tree_lists [R3], C79_sequential [R4], C79_realised [R4], C79_same [R4], C79_conserved [R4], C79_vsig_refuted [R4], C79_cullen_refuted [R4], C79_runs [R4]
- Result: Proved for the constant artificial viscosity. C79_vsig_refuted: the signal speed of a particle uses the sound speed of neighbours from this or the last pass, depending on the order (default_physics.h L236-267 runs inside the pass that also writes the sound speeds); it enters compute_dt. C79_cullen_refuted: with the Cullen viscosity the viscosity coefficients use copies made before the sound speeds were computed, so the result depends on the distribution.

### C80 During relaxation only the drag changes the momentum, by a known factor (partial)

- How: on the driver model of C77/C79 with the relaxation operations switched on: the repulsion is a sum over pairs that is antisymmetric because neighbour lists are complete within the smoothing length and the repulsion radius is at most one; the drag contributes the stated force, so total momentum follows a recursion over the time steps, solved for equal steps; counterexample with beta*dt = 8.
- Files: Relax_props.v; models: Driver_model, EForce_model, Geometry_model, Kernel_model, Pass_model, Sph_model
- Theorems [axioms]: C80_iteration [R4], C80_energy_rates [R4], C80_damped [R4], C80_damped_ranks [R4], C80_factor [R2], C80_equal_steps [R2], C80_slows_refuted [R4]
- Result: C80_slows_refuted: nothing bounds the product of the drag coefficient and the time step; with a product of 8 one iteration multiplies the total momentum by 9, so the drag does not slow particles down in general. Two distinct particles at the same position give 0/0 = NaN in the repulsion of the code; in the real-number model such a pair contributes nothing.

### C81 The time step of a particle (partial)

- How: Dt_model: compute_dt with its loop of twenty divisions as option; the bounds follow from the minima; the energy loop by induction over the divisions; convergence from continuity of the potential; counterexamples on the driver model: a square-well wall of slope 10^15, and a particle at rest beside a wall whose next iteration has no successor state.
- Files: Dt_props.v; models: Driver_model, Dt_model, EForce_model, Geometry_model, Kernel_model, Key_model, Sph_model
- Theorems [axioms]: C81_bounds [R3], C81_defined [R3], C81_energy [R3], C81_attained [R3], C81_converges [R3], C81_defined_refuted [R4], C81_suffices_refuted [R4]
- Result: C81_bounds, C81_energy and C81_converges hold. C81_defined_refuted: the loop of twenty divisions by four gives up at a wall steep enough. C81_suffices_refuted: the step leaves out the kinetic energy the kick adds; one iteration later the assertion in recover_internal_energy fails.

### C82 The initial data of the Sod shock tube (partial)

- How: IdGen_model: sodtube as an option-valued function to the list of written particles (None: array overrun, failed assertion, lattice loop without fuel); IdGen_lemmas connects count and generate to the nodes of C78; the theorem describes the three parts of the list by the nodes in the boxes; the adjusted sizes by an invariant of the search loop; counterexample of length 6.
- Files: IdSod_props.v; models: BuildTree_model, IdGen_model, Lattice_model, Range_model
- Theorems [axioms]: C82_tube [R4], C82_ends [R4], C82_separation_partial [R4], C82_separation_refuted [R4]
- Result: Proved for equal masses in all dimensions; with equal separation the mass of the boxes is the density, not density times volume: proved right for a 1D tube of length 3, refuted for length 6.

### C83 The wind tunnel generator writes its lattice (partial)

- How: IdGen_model: wtunnel, writing more elements than allocated is None; the written list is a prefix of the lattice; for the square tunnel the nodes embed into a product of two intervals of length nx-1, fewer than nx*nx.
- Files: IdGas_props.v; models: BuildTree_model, IdGen_model, Lattice_model, Range_model
- Theorems [axioms]: C83_tunnel_partial [R3], C83_square [R3], C83_overrun_refuted [R3], C83_lost_refuted [R3], C83_smoothing [R3]
- Result: Refuted: the number of particles written is not the number of nodes (overrun in square tunnels, loss in narrow ones); what is written is described exactly.

### C84 The initial data of collapse and implosion (partial)

- How: IdGen_model: im_run with the rim of the implosion as a parameter; nodes by C78, total mass as number of particles times the mass, with the volume stated independently; termination by C48; counterexample of radius 1/2.
- Files: IdGas_props.v; models: BuildTree_model, IdGen_model, Lattice_model, Range_model
- Theorems [axioms]: C84_collapse [R4], C84_implosion_partial [R4], C84_ends [R4], C84_rim_refuted [R4]
- Result: Proved except for the energies in the rim of the implosion, which are right for radius 1 and refuted otherwise.

### C85 The initial data of the Kelvin-Helmholtz instability (partial)

- How: IdFlow_model: kh as an option-valued function (None: failed assertion, division by zero, index past the arrays, loop without fuel). IdFlow_lemmas: the first point of a lattice is its corner, nodes of a box lie in rows; so the scaling factor read from the first particle of the bottom block is known, and each block is the image of its nodes under an explicit scaling. Counterexample: unit square, 60 particles, ratio 4.
- Files: IdKh_props.v; models: BuildTree_model, IdFlow_model, IdGen_model, Lattice_model, Range_model
- Theorems [axioms]: C85_layers [R4], C85_ends [R4], C85_interface_refuted [R4]
- Result: C85_interface_refuted: the stripes of the perturbation are not at the boundary of the layers. The tolerance of the lattice limits the resolution to 8000 along x in C85_layers.

### C86 The initial data of the Rayleigh-Taylor instability (partial)

- How: IdFlow_model: rt. Rows of the bottom block are whole row distances below 0, so the test with its tolerance selects exactly that block; hydrostatic equilibrium by exhibiting the function and its derivative (derivable_pt_lim); the adjusted sizes by induction over the search loop. Counterexample: a column of height 1 and length 4 gets height 3.
- Files: IdRt_props.v; models: BuildTree_model, IdFlow_model, IdGen_model, Lattice_model, Range_model
- Theorems [axioms]: C86_columns [R4], C86_ends [R4], C86_height_refuted [R4]
- Result: C86_height_refuted: with periodic z the height is taken from the length of the box (L159).

### C87 The initial data of the fluid test (proved)

- How: IdFlow_model: fluid; nodes by C78, total mass as number of particles times the mass, hydrostatic equilibrium as in C86.
- Files: IdFluid_props.v; models: BuildTree_model, IdFlow_model, IdGen_model, Lattice_model, Range_model
- Theorems [axioms]: C87_fluid [R4], C87_ends [R4]

### C88 The initial data of the Sedov blast wave (partial)

- How: IdBlast_model: sedov as an option-valued function (None: failed assertion, division by zero, pow of a number that is not positive, loop without fuel); the random numbers are a table. The bodies are the lattice points by C78; sums over the mapped list; a lattice point near the origin by going to the first node above it along each axis; mass of a ball by the derivative of the enclosed mass. Counterexamples in 1D and 2D. data/sedov_nx20.par in 2D as an example.
- Files: IdSedov_props.v; models: BuildTree_model, IdBlast_model, IdGen_model, Lattice_model, Profile_model, Range_model
- Theorems [axioms]: C88_particles [R4], C88_energy [R4], C88_zone [R4], C88_mass [R4], C88_ends [R4], C88_modify [R4], C88_empty_refuted [R4], C88_modify_refuted [R4], C88_line_refuted [R4], C88_surface_refuted [R4], C88_disc_refuted [R4]
- Result: Proved for the particles, energy and mass; five of the cases fail (C88_*_refuted). The documentation of sedov_blast_radius in params.h says it is in units of the particle separation; the code takes it as a length, and so does the model.

### C89 The initial data of the Noh problem (partial)

- How: IdBlast_model: noh; positions and masses as in C88, the velocity by norms of scaled vectors. Counterexamples on a line.
- Files: IdNoh_props.v; models: BuildTree_model, IdBlast_model, IdGen_model, Lattice_model, Profile_model, Range_model
- Theorems [axioms]: C89_particles [R4], C89_mass [R4], C89_kinetic [R4], C89_ends [R4], C89_perturbed [R4], C89_modify [R4], C89_momentum_refuted [R4], C89_density_refuted [R4], C89_perturbed_refuted [R4]
- Result: Proved without perturbation and for the constant profile; speed under perturbation, stored density of other profiles and zero momentum fail (C89_*_refuted). Bodies read are treated in three dimensions.

### C90 Keys and the range in double precision (partial)

- How: FCell_model: the code on reals of Flocq's binary64 format, each operation followed by rounding to nearest even, None on overflow, zero scale or a cast out of range. Monotonicity of rounding; a difference of two doubles has a relative error and is not rounded to zero; scaling by a power of two is exact; the Morton key by its top differing bit. Counterexamples by the neighbours of 1.
- Files: FCell_props.v; models: BuildTree_model, FCell_model, Key_model, Morton_model, Range_model
- Theorems [axioms]: C90_defined [R4], C90_monotone [R4], C90_ends [R4], C90_close [R4], C90_separated [R4], C90_wrong_box_refuted [R4], C90_box_nested [R4], C90_box_exists [R4], C90_range [R4], C90_keys [R4], C90_key_order [R4], C90_absorbed_radius_refuted [R4]
- Result: Proved in double precision: existence, order, closeness, separation, range and nesting of boxes. Refuted: the cell need not be the one the coordinate is in, nor the box of the key contain it (C90_wrong_box_refuted); a positive radius can vanish in the rounding, and then there is no key (C90_absorbed_radius_refuted).

### C91 The neighbour search in double precision (partial)

- How: GSearch_model: the traversals of Search_model with the tests as a parameter (Search_model is the instance with exact tests, by computation); the proofs of C12 and C13 redone for any tests that keep close pairs. FSearch_model: the tests and compute_cofm with rounding. A summary invariant by induction on the tree: the rounded centre of mass stays among the particles, radius and reach are at most a few ulps short per level and there are at most 64 levels. The counterexample is a Pythagorean triple whose rounded squares do not add up.
- Files: FSearch_props.v; models: BuildTree_model, Cofm_model, FCell_model, FSearch_model, GSearch_model, Geometry_model, HCell_model, Key_model, Search_model
- Theorems [axioms]: C91_sph_neighbours [R4], C91_radius_search [R4], C91_finite [R4], C91_line [R4], C91_symmetric [R4], C91_pair_missed_refuted [R4]
- Result: Refuted part: a pair in the plane whose distance is exactly half the sum of the radii (and the larger radius) is not found although C13 says it is without rounding. The slack of the theorems is 2^(m-40), far more than the few ulps of the test itself, because the errors of up to 64 levels of summaries are bounded together. Overflow is excluded by the bounds on the particles and C91_finite, not by None.

### C92 Printed statistics (partial)

- How: Diag_model: the statistics with their global variables as a state passed from call to call, the reductions over the processes as folds, the file as a list of lines. Invariants of the state over the calls; the least and largest values are characterised by bounds that are attained, not by the folds. Counterexamples with one or two particles.
- Files: Diag_props.v; models: BuildTree_model, Cofm_model, Diag_model
- Theorems [axioms]: C92_due [0], C92_lines [R3], C92_silent [R3], C92_neighbours [R3], C92_smoothing [R3], C92_unset [R3], C92_speed_partial [R3], C92_max_refuted [R3], C92_speed_refuted [R3], C92_rest_refuted [R3], C92_distance_refuted [R3], C92_history_refuted [R3], C92_empty_refuted [R3]
- Result: Proved for the counts, least and mean neighbours, smoothing lengths, the unset columns, and speeds on one process. Refuted: N_max is never reset; the speeds are reduced on process 0 only and the average is divided by the total; V_max starts at DBL_MIN so a state at rest shows a positive maximum; min_dist, average_dist_in_h and N_ghosts are never assigned; the file is truncated by the next run; a process without particles reads bodies[0]. The neighbour counts themselves are set only by wvt.h L196 and L279.

### C93 Main loops and output times (partial)

- How: Loop_model: the loops with fuel and an arbitrary sequence of times; the executed iterations as a list. Induction on the fuel; that fuel suffices is part of the theorems. The due conditions are stated with divisibility.
- Files: Loop_props.v; models: BuildTree_model, Loop_model, Range_model
- Theorems [axioms]: C93_iterations [R2], C93_last [R2], C93_final_time [R2], C93_ends_refuted [R2], C93_by_iteration [R2], C93_by_time [R2], C93_interval_refuted [R2], C93_wvt_last [0], C93_wvt_cool [0], C93_wvt_late_refuted [R1]
- Result: Proved for the iterations done, the end of the loop, output by iteration and the relaxation driver. Refuted: with the default limits (both 0) the loop does not end; without adaptive_timestep nothing advances the output times, so with output by time every iteration writes; the relaxation driver started after its end writes nothing.

### C94 The clock in double precision (partial)

- How: FClock_model: the addition rounded as in C90, iterated; the loop is that of C93. Induction on the steps with half an ulp of error each; progress from the relative error of one addition. Counterexamples with ties at 1 + 2^-53 and 1 + 3 2^-53.
- Files: FClock_props.v; models: BuildTree_model, FCell_model, FClock_model, FSearch_model, Loop_model, Range_model
- Theorems [axioms]: C94_clock [R4], C94_advances [R4], C94_ends [R4], C94_final_time_partial [R4], C94_stall_refuted [R4], C94_last_step_refuted [R4]
- Result: Proved: the error of the clock, progress, the end of the loop. C94_final_time_partial is what remains of the exact count. Refuted: the clock stalls when the step is below half an ulp of the time; the iteration at final_time may be missed.

### C95 Smoothing lengths (partial)

- How: Hlen_model: the two functions on a list of processes, MPI_Allreduce as a sum, division by zero as None. The relation and the mean are stated with powers and sums of their own.
- Files: Hlen_props.v; models: BuildTree_model, Hlen_model
- Theorems [axioms]: C95_relation [R4], C95_order [R4], C95_empty_refuted [R4], C95_average [R4], C95_distribution [R4], C95_uniform [R4]
- Result: Proved for positive mass and density. Refuted: with density 0 the code divides by zero.

### C96 Points and vectors (partial)

- How: SVec_model: the functions of space_vector.h one by one on coordinate functions. Algebra, with Cauchy-Schwarz from Vec.v.
- Files: SVec_props.v; models: BuildTree_model, SVec_model
- Theorems [axioms]: C96_distance [R3], C96_magnitude [R3], C96_midpoint [R3], C96_centroid [R2], C96_centroid_refuted [R2], C96_cross3 [R2], C96_parallelogram [R3], C96_cross2_refuted [R3], C96_normal2 [R3], C96_normal3_refuted [R2], C96_list [R1]
- Result: Refuted: cross() in two dimensions is the zero vector while cross_magnitude() is the area; normal() in three dimensions is the cross product of the position vectors, not a function of the difference; centroid() of no points is 0/0.

### C97 Checks for NaN and negative values (partial)

- How: Check_model: doubles as a real, an infinity or NaN; the macros as a list of fields, assert with and without NDEBUG, the order of output and checks. By cases.
- Files: Check_props.v; models: BuildTree_model, Check_model, Range_model
- Theorems [axioms]: C97_stops [R2], C97_then [R2], C97_release_refuted [R2], C97_written_refuted [R2], C97_fields_refuted [R2], C97_infinite_refuted [R2]
- Result: Refuted: assert is disabled in the default build type; the snapshot is written before the checks; radius, sound speed and other fields are not checked; infinities pass.

### C98 Forces in double precision (partial)

- How: FForce_model: compute_acceleration, mu, the viscosities and the two forms of kernel gradient with every operation rounded; the numbers that depend on the distance and h only are arbitrary functions. Rounding is odd, so the parts shared by a pair are equal or opposite; relative errors of two products; recursive summation; sums over mutual lists exchanged as in Sph_props.
- Files: FForce_props.v; models: BuildTree_model, FCell_model, FForce_model, FSearch_model, Range_model
- Theorems [axioms]: C98_viscosity [R4], C98_opposite [R4], C98_self [R4], C98_pair [R4], C98_momentum [R4], C98_exact_refuted [R4]
- Result: Proved without a bound on the number of particles. Refuted: with masses 1 and 3 the two products round differently. Overflow is not modelled.

### C99 Gravity on several processes (proved)

- How: DFmm_model: one pass over the queue in the table a rank holds (as in Dist_model), the pairs left for the next pass, the final loops. In every reachable state of Comms_model a rank owns exactly the cells above its own particles (DFmm_owner); each pair covers a rectangle of particle pairs and a step splits it without loss (DFmm_pairs); the final loops cover the rest (DFmm_end).
- Files: DFmm_props.v; models: BuildTree_model, Cofm_model, Comms_model, DFmm_model, Dist_model, Fmm_model, Geometry_model, Gravity_model, HCell_model, Key_model, Search_model, Share_model
- Theorems [axioms]: C99_each_pair_once [R3], C99_runs [R3]
- Result: For distinct positions and keys. The order of arrival is arbitrary. That a requested node arrives after finitely many steps is C17's matter, so the end of the passes is under the hypothesis that no source is an unfetched node. This is about which interactions are made, as C15 is on one process; C100 is about their values. The interaction of a particle with itself is counted.

### C100 Gravity field on several processes (proved)

- How: DFmm_exec: any list of the calls of the passes followed by calls of the final loops, in which one way leads from each particle to a particle, computes the sum over the ways. DFmm_more: the calls of the passes satisfy the acceptance criterion, no particle meets itself in them, and the summaries are those of C04. C100_field combines them with C99; the error bound is C69's per pair.
- Files: DField_props.v; models: BuildTree_model, Cofm_model, Comms_model, DFmm_model, Dist_model, Fmm_model, Geometry_model, Gravity_model, HCell_model, Key_model, Search_model, Share_model
- Theorems [axioms]: C100_nodes [R3], C100_field [R3], C100_error [R3], C100_direct [R3]
- Result: Over the reals, for distinct positions and keys, under C99's hypothesis that the queue of the process has become empty. The calls are executed with the nodes the process holds in the end; C100_nodes shows that these are the nodes it held when it made them.

### C101 Gravity does not depend on the processes (proved)

- How: DSame_lemmas: for each pair of particles the sequence of pairs of cells of the whole tree through which the traversal passes is a function of the particles alone (pstep); every pair in a queue and every call is on the sequence of all particle pairs it covers, and calls are where it ends, so that C100's replacement positions are determined. Without equal radii the sequence of (j,i) is that of (i,j) swapped, so that the forces cancel. Equal radii: C68 has a counterexample on one process.
- Files: DSame_props.v; models: BuildTree_model, Cofm_model, Comms_model, DFmm_model, Dist_model, Fmm_model, Geometry_model, Gravity_model, HCell_model, Key_model, Search_model, Share_model
- Theorems [axioms]: C101_same [R3], C101_momentum [R3]
- Result: In real arithmetic. C101_momentum supposes that no two nodes have the same radius; with equal radii C68_fmm_momentum_ties_refuted is a counterexample.

### C102 The traversals over several processes can always be completed (proved)

- How: Await_lemmas: an empty node of a working rank is asked for if it has not been; while it is empty it is in a message from or to the rank (invariant of C17), every rank such a message goes to is listening or has yet to start (it has no DONE of the working rank), and each start or receipt lowers the measure of C17_ends, so that the node is filled; nodes with children keep them. DFinish_props: passes one by one, each when the sources of the queue are filled, end by C99_runs; rank after rank; then C17_progress to the barrier. For the search all nodes of the rank are filled (finitely many) and C76_runs applies. That some continuation exists is proved, not that every schedule takes it (for the messages alone see C103).
- Files: DFinish_props.v; models: BuildTree_model, Cofm_model, Comms_model, DFmm_model, Dist_model, Fmm_model, Geometry_model, Gravity_model, HCell_model, Key_model, Search_model, Share_model
- Theorems [axioms]: C102_queue_empties [R3], C102_completes [R3], C102_search [R3], C102_search_completes [R3]
- Result: Existence of a completing continuation from every reachable state; fairness of the scheduler is not modelled. Tables as the tree construction leaves them (C73).

### C103 Every execution of a traversal ends, and no process waits in vain (proved)

- How: Bound_props: the measure of C17 plus four for every node a rank has yet to ask for; a request adds a message of weight three but takes a node from that list (what is in the waiting list is marked requested, and marked nodes cannot be asked for), all other steps lower the measure and keep the list. Infinite executions: the invariant holds with some tree at every state, whose keys are below 2^64. Waiting: invariant of C17 (an empty, requested node is in a message) and the counting of DONE messages (a rank that has no DONE of the waiting rank listens).
- Files: Bound_props.v; models: BuildTree_model, Comms_model, HCell_model, Key_model
- Theorems [axioms]: C103_bounded [0], C103_again [0], C103_not_in_vain [0]
- Result: Steps are the communication steps of the model (start, request, receipt of one message, end of the loop, leaving, waiting); the passes of a rank over its own queue in between are C99 and C102. Requests are only possible for empty nodes not yet marked as requested, as in the code.

### C104 Gravity on any number of processes is the gravity of the one-process traversal (proved)

- How: DOne_lemmas: two tables that both hold the canonical tree (C09), whose summaries agree on the particles of the tree, have the same cells with the same words, entities and summaries; a simulation then shows that every pass, walk and call list of the distributed traversal (DFmm_model) on a rank that owns all cells equals that of traversal_fmm (Fmm_model). DOne_props: the table of a single rank is such a table; with C101_same every run on several ranks has the accelerations of the one-rank run, which are those of traversal_fmm, so that C15, C68 and C69 carry over.
- Files: DOne_props.v; models: BuildTree_model, Cofm_model, Comms_model, DFmm_model, Dist_model, Fmm_model, Geometry_model, Gravity_model, HCell_model, Key_model, Search_model, Share_model
- Theorems [axioms]: C104_same_as_one [R3], C104_one_rank [R3]

### C105 Continuity equation: velocity gradient and divergence (partial)

- How: Continuity_props: the kernel gradient is the derivative of the kernel times x/(|x|+TINY) (C33); the derivative of the norm along a line and linearity give the rate of every pair exactly as (1 + TINY/r) v.gradW, so the error of the sum is TINY times the sum of the terms over r. The counterexample is computed with the Wendland C2 kernel in one dimension. Floating-point error is not part of it.
- Files: Continuity_props.v; models: Geometry_model, Kernel_model, Sph_model
- Theorems [axioms]: C105_continuity [R4], C105_divergence [R4], C105_shear [R4], C105_traceless_refuted [R4]
- Result: C105_continuity and C105_divergence proved for the spline and Wendland kernels; that the stored divergence is the trace of the velocity gradient is refuted (C105_traceless_refuted).

### C106 The driver with gravity on several processes (proved)

- How: DProgram_props: C104 (the forces of a rank are those of the one-process traversal) inside the semantics of the driver of C79, whose gravity relation is instantiated by the traversal. The key is any function of the position in the range of the particles; the Morton key in double precision is one (C106_range_key). A run can be completed by C102, which gives the converse, and the first iteration is shown to run. As in C79 the Cullen viscosity is excluded and the signal speeds are left out of the comparison. Later iterations run as long as keys stay different.
- Files: DProgram_props.v; models: BuildTree_model, Cofm_model, Comms_model, DFmm_model, Dist_model, Driver_model, FCell_model, Fmm_model, Geometry_model, Gravity_model, HCell_model, Kernel_model, Key_model, Pass_model, Range_model, Search_model, Share_model, Sph_model
- Theorems [axioms]: C106_gravity [R3], C106_realised [R3], C106_exists [R3], C106_function [R3], C106_sequential [R4], C106_same [R4], C106_any_ranks [R4], C106_first [R4], C106_range_key [R4]
- Result: Real arithmetic; the Cullen viscosity (refuted in C79) is excluded and the signal speeds are not compared. Two particles with one key, which the tree does not hold, are outside the theorem.

### C107 Energies and pressures over an iteration (partial)

- How: Energy_props, on the passes of Driver_model: the fields each pass keeps, then the phases of an iteration. C107_internal (internal energy evolved), C107_fixed (energy not evolved), C107_total (total energy evolved), C107_run (every state of a run after the first iteration), C107_first (after the first iteration the pressure is that of half a time step ahead). False for the total energy: the velocity is already that of the end of the step when recompute_pressure_soundspeed_thermokinetic subtracts dt/2 times velocity times acceleration from the energy, so the pressure is that of an internal energy too small by this amount (C107_thermokinetic_refuted: two iterations of the driver on one particle in a constant field).
- Files: Energy_props.v; models: BuildTree_model, Driver_model, EForce_model, Geometry_model, Kernel_model, Key_model, Sph_model
- Theorems [axioms]: C107_internal [R4], C107_fixed [R4], C107_total [R4], C107_run [R4], C107_first [R4], C107_thermokinetic_refuted [R4]
- Result: Proved for the evolved and the fixed internal energy. In the thermokinetic formulation the total energy follows the trapezoidal rule, but the pressure is that of the new internal energy less dt/2 v.a, and the stored internal energy is half a step old (C107_total); the claim is false there: C107_thermokinetic_refuted.

### C108 Self-test of the tree (proved)

- How: the function called on each list and the loop are modelled; the lists are those of C76 and C91, where a particle left out of a list is further than the mean of the two smoothing lengths, so a particle, at distance 0 of itself, is in its own list; the loop by induction on the passes.
- Files: TreeDriver_props.v; models: BuildTree_model, Cofm_model, Comms_model, Dist_model, FCell_model, FSearch_model, Geometry_model, HCell_model, Key_model, Share_model, TreeDriver_model
- Theorems [axioms]: C108_calls [0], C108_self_test [R3], C108_self_test_double [R4], C108_loop [0]

### C109 Density in double precision (proved)

- How: the four kernels and compute_density with a rounding after every operation (binary64 with gradual underflow, no overflow); signs by monotonicity of rounding, the lower bound by powers of two, the sum by induction; accuracy by propagating absolute errors of values between 0 and 80 scaled by the value at the centre. The constants and pow are parameters. For the spline the branches differ by the cube of the distance to the point where they meet. The value of the spline at the centre is not stated, because it divides by pow.
- Files: FDens_props.v; models: FCell_model, FDens_model, FForce_model, FSearch_model, Range_model
- Theorems [axioms]: C109_positive [R4], C109_monotone [R4], C109_symmetric [R4], C109_support [R4], C109_accuracy [R4], C109_centre [R4], C109_accuracy_cubic [R4], C109_own [R4], C109_sum [R4], C109_order [R4]

### C110 Ideal gas in double precision (proved)

- How: both functions with a rounding after every operation (binary64 with gradual underflow, no overflow; the root rounded once); signs and order by monotonicity of rounding, accuracy by composing relative errors, the law c^2 rho = gamma P from the two.
- Files: FEos_props.v; models: FCell_model, FDens_model, FEos_model, FForce_model
- Theorems [axioms]: C110_nonneg [R4], C110_monotone [R4], C110_pressure [R4], C110_soundspeed [R4], C110_consistent [R4]

### C111 Time step in double precision (proved)

- How: compute_dt up to L627 with a rounding after every operation (binary64 with gradual underflow, no overflow); the bounds by composing relative errors, where a product that underflows is below the 1e-24 added to it; the order by monotonicity of rounding. The norms in the statement are those computed. The shortening for positive internal energy is in C81, Dt_model, over the reals.
- Files: FStep_props.v; models: FCell_model, FDens_model, FForce_model, FStep_model, Range_model
- Theorems [axioms]: C111_positive [R4], C111_courant [R4], C111_monotone [R4], C111_lower [R4]

