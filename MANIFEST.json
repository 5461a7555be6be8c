{
 "claims": [
  {
   "property": "C01",
   "status": "proved",
   "theorems": [
    "C01_push_pop",
    "C01_depth_pops_truncate",
    "C01_injective",
    "C01_surjective",
    "C01_order",
    "C01_min_max",
    "C01_null"
   ],
   "note": ""
  },
  {
   "property": "C02",
   "status": "proved",
   "theorems": [
    "C02_encodable",
    "C02_morton_nested_cells"
   ],
   "note": ""
  },
  {
   "property": "C03",
   "status": "proved",
   "theorems": [
    "C03_decode_encode",
    "C03_encode_decode"
   ],
   "note": ""
  },
  {
   "property": "C04",
   "status": "partial",
   "theorems": [
    "C04_hilbert_depth_partial",
    "C04_morton_depth_refuted"
   ],
   "note": "False of the code for Morton keys (C04_morton_depth_refuted: the sentinel bit stays at the full-depth position); proved for Hilbert keys."
  },
  {
   "property": "C05",
   "status": "proved",
   "theorems": [
    "C05_hilbert2_onto",
    "C05_hilbert2_range",
    "C05_hilbert2_adjacent"
   ],
   "note": "All levels d <= 31 of the code's grid; C07_hilbert2_nested_cells gives injectivity."
  },
  {
   "property": "C06",
   "status": "partial",
   "theorems": [
    "C06_hilbert2_round_trip_partial",
    "C06_hilbert3_refuted"
   ],
   "note": "Proved in dimension 2; false of the code in dimension 3 (C06_hilbert3_refuted)."
  },
  {
   "property": "C07",
   "status": "partial",
   "theorems": [
    "C07_hilbert2_nested_cells",
    "C07_hilbert2_injective",
    "C07_hilbert3_nested_cells",
    "C07_hilbert3_injective",
    "C07_hilbert3_onto",
    "C07_hilbert1_refuted",
    "C07_hilbert1_partial"
   ],
   "note": "Proved in dimensions 2 and 3; false of the code in dimension 1 (lowest bit dropped)."
  },
  {
   "property": "C08",
   "status": "proved",
   "theorems": [
    "C08_cell_flags",
    "C08_empty_node"
   ],
   "note": ""
  },
  {
   "property": "C09",
   "status": "proved",
   "theorems": [
    "C09_build_tree_canonical",
    "C09_cells_exactly",
    "C09_rank_part"
   ],
   "note": "C09_rank_part states the same for a process with neighbours. An empty process among several is not covered (it creates cells without particles)."
  },
  {
   "property": "C10",
   "status": "proved",
   "theorems": [
    "C10_traversal_visits_once"
   ],
   "note": ""
  },
  {
   "property": "C11",
   "status": "proved",
   "theorems": [
    "C11_any_tree",
    "C11_built_nodes"
   ],
   "note": ""
  },
  {
   "property": "C12",
   "status": "proved",
   "theorems": [
    "C12_radius_search_exact"
   ],
   "note": "On one process, for the tree built by build_tree from any distinct full-depth keys; radius >= 0."
  },
  {
   "property": "C13",
   "status": "proved",
   "theorems": [
    "C13_sph_neighbours"
   ],
   "note": "On one process, for the tree built by build_tree from any distinct full-depth keys."
  },
  {
   "property": "C14",
   "status": "partial",
   "theorems": [
    "C14_within_larger_radius_refuted"
   ],
   "note": "False of the code: C14_within_larger_radius_refuted (129 particles in 1D); C13 is what holds."
  },
  {
   "property": "C15",
   "status": "proved",
   "theorems": [
    "C15_each_pair_once",
    "C15_field",
    "C15_direct"
   ],
   "note": ""
  },
  {
   "property": "C16",
   "status": "partial",
   "theorems": [
    "C16_matched",
    "C16_power_of_two",
    "C16_exactly",
    "C16_refuted"
   ],
   "note": "True exactly for power-of-two process counts (C16_exactly, for any way of merging branches); for every other count rank 2^k-1 never learns of ranks >= 2^k, because the exchange for a ghost rank appends the sent buffers instead of the received ones (tree_topology.h L1731-1734) and because that rank has no partner in the last round. Every exchange is matched by the partner (C16_matched)."
  },
  {
   "property": "C17",
   "status": "partial",
   "theorems": [
    "C17_loaded",
    "C17_quiet",
    "C17_done_counted",
    "C17_barrier",
    "C17_no_fault",
    "C17_progress",
    "C17_ends",
    "C17_subtree_refuted"
   ],
   "note": "Proved for traversal_sph (requests that are waited for) over any interleaving and any number of traversals; refuted for traversal_fmm, whose REQUEST_SUBTREE (tree_topology.h L588-606) is not waited for: all ranks can reach the barrier with replies still on the way (C17_subtree_refuted)."
  },
  {
   "property": "C18",
   "status": "partial",
   "theorems": [
    "C18_complete",
    "C18_waiting",
    "C18_subtree_refuted"
   ],
   "note": "Proved for requests by key; refuted for REQUEST_SUBTREE of traversal_fmm: a node received in the share phase has nchildren_to_receive 0, so after the node reply and before the entity reply it counts as available with children missing (C18_subtree_refuted)."
  },
  {
   "property": "C19",
   "status": "partial",
   "theorems": [
    "C19_max_depth_constant",
    "C19_max_depth_refuted"
   ],
   "note": "False of the code: the reported value is max_depth-1 for every input (C19_max_depth_constant), whatever the tree."
  },
  {
   "property": "C20",
   "status": "partial",
   "theorems": [
    "C20_body_comp",
    "C20_body_comp_total",
    "C20_entity_less_refuted"
   ],
   "note": "The lambda that every sort call passes is a strict weak ordering; entity::operator< (<=) is not, and is refuted. No sort call in the modelled code relies on operator<."
  },
  {
   "property": "C21",
   "status": "partial",
   "theorems": [
    "C21_psort",
    "C21_other_request",
    "C21_empty_rank_refuted",
    "C21_first_empty_refuted",
    "C21_reads_inside_refuted"
   ],
   "note": "Proved for every request equal to the local sizes (the only one the code makes) when empty ranks come last. Refuted: an empty rank before a non-empty one stops the run; medians are read behind the arrays (the result does not depend on what is read). Any other request fails the first assertion (C21_other_request)."
  },
  {
   "property": "C22",
   "status": "partial",
   "theorems": [
    "C22_qsort",
    "C22_max_key_refuted",
    "C22_min_key_refuted"
   ],
   "note": "Proved for particles whose keys lie strictly between the smallest and largest key, at least one sample and byte counts below 2^31; sample positions computed exactly, not in doubles. Refuted at the ends: a particle with the largest key runs off the splitter array, samples with the smallest key fail the assertion. bodies_system.h calls psort (C21) instead."
  },
  {
   "property": "C23",
   "status": "partial",
   "theorems": [
    "C23_range",
    "C23_tight",
    "C23_same_on_all_ranks",
    "C23_threads",
    "C23_empty_rank_refuted"
   ],
   "note": "Over the reals. Proved when every rank has a particle; refuted for an empty rank (back() of an empty vector). The nested parallel region of tree_colorer.h is modelled with nested parallelism off."
  },
  {
   "property": "C24",
   "status": "partial",
   "theorems": [
    "C24_alltoallv",
    "C24_segments_partition",
    "C24_p2p_no_deadlock",
    "C24_p2p_progress",
    "C24_p2p_result",
    "C24_allgatherv",
    "C24_large_refuted",
    "C24_nested_wait_refuted",
    "C24_nested_wait_others"
   ],
   "note": "Proved for counts whose byte totals per rank fit in int; refuted above that (2^28 elements of 16 bytes to one rank: the byte count wraps to 0). The nested-vector overload waits on a request it never started for its own rank when it has data for itself; its only caller sends nothing to itself."
  },
  {
   "property": "C25",
   "status": "partial",
   "theorems": [
    "C25_originals",
    "C25_images_sound",
    "C25_no_image",
    "C25_images_complete",
    "C25_wide_layer_refuted",
    "C25_box_write_refuted",
    "C25_box_write_3d",
    "C25_far_refuted"
   ],
   "note": "complete and sound for layers up to half the box in 1-3 dimensions; refuted for wider layers (one image per axis only), for particles more than a box length outside, and for the box arrays, which are written past their end in one and two dimensions. abs is taken as the absolute value of a real."
  },
  {
   "property": "C26",
   "status": "partial",
   "theorems": [
    "C26_clean_generate",
    "C26_clean_keeps",
    "C26_real_wall_refuted",
    "C26_only_images_refuted"
   ],
   "note": "holds when no particle was a wall before; refuted for real wall particles (deleted) and for a rank that holds only images (assertion)"
  },
  {
   "property": "C27",
   "status": "proved",
   "theorems": [
    "C27_split",
    "C27_cover"
   ],
   "note": ""
  },
  {
   "property": "C28",
   "status": "partial",
   "theorems": [
    "C28_unique_iff",
    "C28_even",
    "C28_uneven_refuted",
    "C28_assertion"
   ],
   "note": "the ids are unique exactly when the rank count divides n (or n <= 1); refuted otherwise"
  },
  {
   "property": "C29",
   "status": "partial",
   "theorems": [
    "C29_roundtrip",
    "C29_large_step",
    "C29_large_step_refuted",
    "C29_other_prefix",
    "C29_sound",
    "C29_sound_refuted",
    "C29_short_name_refuted",
    "C29_defined"
   ],
   "note": "round trip for steps below 100000, refuted from 100000 on; soundness for prefixes without .h5part, refuted otherwise; a short name reads in front of the string"
  },
  {
   "property": "C30",
   "status": "partial",
   "theorems": [
    "C30_single_file",
    "C30_single_file_complete",
    "C30_found",
    "C30_none",
    "C30_no_match",
    "C30_no_match_refuted"
   ],
   "note": "found when present (both file layouts); with no match the multi-file search returns the step of the last entry instead of a failure (refuted)"
  },
  {
   "property": "C31",
   "status": "partial",
   "theorems": [
    "C31_roundtrip",
    "C31_alpha_refuted",
    "C31_existing_step_refuted",
    "C31_written"
   ],
   "note": "all fields that are read come back for any rank counts; alpha is written but not read (refuted), and a step already in the file is not overwritten (refuted). HDF5 and MPI-IO are modelled by their effect on arrays."
  },
  {
   "property": "C32",
   "status": "proved",
   "theorems": [
    "C32_spline_and_wendland",
    "C32_gaussian_and_sinc"
   ],
   "note": ""
  },
  {
   "property": "C33",
   "status": "partial",
   "theorems": [
    "C33_spline_and_wendland",
    "C33_gaussians",
    "C33_sinc",
    "C33_sinc_small_refuted",
    "C33_antisymmetric"
   ],
   "note": "Proved for spline, Wendland, Gaussian and sinc kernels; false in the sinc kernel's small-argument branch: C33_sinc_small_refuted."
  },
  {
   "property": "C34",
   "status": "partial",
   "theorems": [
    "C34_gaussians",
    "C34_gaussian_ball",
    "C34_sinc",
    "C34_normalised",
    "C34_quintic_3d_refuted"
   ],
   "note": "Polynomial kernels exactly, Gaussian and super-Gaussian to 1e-11 (C34_gaussians); false for the quintic spline in 3D (integral 360/359): C34_quintic_3d_refuted. Radial integrals. The fitted normalisation of the sinc kernel for whole indices 3 to 12 to 5e-5 (C34_sinc)."
  },
  {
   "property": "C35",
   "status": "proved",
   "theorems": [
    "C35_tree_lists",
    "C35_momentum",
    "C35_pairwise"
   ],
   "note": "All kernels and both viscosities; C35_tree_lists instantiates the hypothesis with the lists of the tree traversal."
  },
  {
   "property": "C36",
   "status": "proved",
   "theorems": [
    "C36_total_energy_rate",
    "C36_energy_balance",
    "C36_relaxation"
   ],
   "note": "Also per particle: the total-energy rate is the internal-energy rate plus the work of all forces."
  },
  {
   "property": "C37",
   "status": "proved",
   "theorems": [
    "C37_newton",
    "C37_pairwise",
    "C37_momentum",
    "C37_two_groups"
   ],
   "note": ""
  },
  {
   "property": "C38",
   "status": "proved",
   "theorems": [
    "C38_gradient",
    "C38_taylor",
    "C38_cell_total",
    "C38_cells_momentum"
   ],
   "note": "The code keeps zeroth order in the force and first order in the potential; that is what is stated and proved."
  },
  {
   "property": "C39",
   "status": "proved",
   "theorems": [
    "C39_reversible",
    "C39_uniform",
    "C39_momentum",
    "C39_energies"
   ],
   "note": "Accelerations as a function of the positions (no velocity-dependent viscosity)."
  },
  {
   "property": "C40",
   "status": "partial",
   "theorems": [
    "C40_without_outputs",
    "C40_stability_refuted",
    "C40_bound_partial"
   ],
   "note": "Proved without output by time; false with it (C40_stability_refuted: any factor), with the bound that does hold in C40_bound_partial."
  },
  {
   "property": "C41",
   "status": "partial",
   "theorems": [
    "C41_first_output",
    "C41_clock_refuted",
    "C41_constant_limit_refuted",
    "C41_single_output_partial"
   ],
   "note": "False: C41_clock_refuted (an output time is skipped and the clock then runs backwards) and C41_constant_limit_refuted; C41_single_output_partial is the case that holds."
  },
  {
   "property": "C42",
   "status": "partial",
   "theorems": [
    "C42_walls",
    "C42_spherical_wall",
    "C42_hydrostatic",
    "C42_support_constant",
    "C42_support_parabolic",
    "C42_support_mesa",
    "C42_gravity",
    "C42_orbit",
    "C42_airfoil_frame",
    "C42_airfoil_inside",
    "C42_airfoil_outside",
    "C42_airfoil_edge_refuted",
    "C42_total",
    "C42_total_simple",
    "C42_select_walls_refuted"
   ],
   "note": "Proved for the walls, the spherical wall, uniform gravity, the orbit (3D), the airfoil off its edges, the density support for constant, parabolic and mesa profiles outside the core x<=1e-12, and the sum of any selection. Refuted at the airfoil tip, where the potential jumps. The selector reads a dangling pointer for every 'walls:' item (refuted separately)."
  },
  {
   "property": "C43",
   "status": "proved",
   "theorems": [
    "C43_wd_constants",
    "C43_adiabat_reproduces_pressure",
    "C43_polytropic_soundspeed",
    "C43_polytropic_energy",
    "C43_ideal_soundspeed",
    "C43_ppt_adiabat",
    "C43_ppt_soundspeed",
    "C43_ppt_continuous",
    "C43_wd_energy"
   ],
   "note": ""
  },
  {
   "property": "C44",
   "status": "proved",
   "theorems": [
    "C44_viscosity"
   ],
   "note": ""
  },
  {
   "property": "C45",
   "status": "partial",
   "theorems": [
    "C45_sign_mean",
    "C45_bounds",
    "C45_defined",
    "C45_isolated_refuted",
    "C45_below_target_refuted"
   ],
   "note": "Bounds proved; false that the coefficient stays above its target (C45_below_target_refuted) and undefined for a particle with no neighbour but itself (C45_isolated_refuted)."
  },
  {
   "property": "C46",
   "status": "partial",
   "theorems": [
    "C46_constant_density",
    "C46_parabolic_density",
    "C46_mesa_density",
    "C46_mesa_total_mass",
    "C46_mesa_outside",
    "C46_outside_refuted",
    "C46_mesa_rim_refuted"
   ],
   "note": "Proved inside the support for constant, parabolic and mesa profiles. Refuted outside: the constant profile keeps its value and the parabolic profile is negative for r>1; the mesa density is cut at r=0.9999 while its enclosed mass keeps growing up to r=1."
  },
  {
   "property": "C47",
   "status": "partial",
   "theorems": [
    "C47_interval",
    "C47_no_bad_access",
    "C47_tabulated_points",
    "C47_reproduces_cubics",
    "C47_below_table_refuted",
    "C47_above_table_refuted"
   ],
   "note": "Proved for strictly increasing tables with at least four points and arguments not below the first point. Refuted below the table (reads index -2) and above it (extrapolates; the comment promises zero)."
  },
  {
   "property": "C48",
   "status": "proved",
   "theorems": [
    "C48_lattices",
    "C48_icosahedral",
    "C48_random",
    "C48_ends"
   ],
   "note": "Arithmetic is abstract, so rounding is included; the positions of the icosahedral lattice are an arbitrary function; random draws are an arbitrary stream."
  },
  {
   "property": "C49",
   "status": "partial",
   "theorems": [
    "C49_1d",
    "C49_2d",
    "C49_3d",
    "C49_fcc_four_layers_partial",
    "C49_fcc_any_partial",
    "C49_fcc_refuted"
   ],
   "note": "Line, square, triangular, cubic and hexagonal close-packed lattices: proved for every box. Cubic close packing (lattice_type 2): refuted from five layers on, because the layer counter zl=(zl+1)*(zl<3) runs through four values while the stacking has period three; proved for up to four layers and with sqrt(2/3) of the spacing in general. Exact arithmetic (reals)."
  },
  {
   "property": "C50",
   "status": "partial",
   "theorems": [
    "C50_shell",
    "C50_distinct",
    "C50_sphere",
    "C50_generated",
    "C50_at_most",
    "C50_overflow_refuted",
    "C50_defined",
    "C50_tables",
    "C50_regular"
   ],
   "note": "Counts, sums, tables and vertex geometry proved; npart_icosahedral_sphere overflows int for 600 shells and more (C50_overflow_refuted), C50_defined shows it does not below."
  },
  {
   "property": "C51",
   "status": "proved",
   "theorems": [
    "C51_cells_are_classes",
    "C51_cells_all_used",
    "C51_generic",
    "C51_named_access"
   ],
   "note": ""
  },
  {
   "property": "C52",
   "status": "partial",
   "theorems": [
    "C52_distinct_objects",
    "C52_alias_refuted",
    "C52_alias_no_effect",
    "C52_binary_operators",
    "C52_scalar",
    "C52_comparison"
   ],
   "note": "False when both operands are the same object: C52_alias_refuted (a += a leaves a unchanged); proved for distinct objects and for the binary operators."
  },
  {
   "property": "C53",
   "status": "partial",
   "theorems": [
    "C53_change_partial",
    "C53_galilean_refuted"
   ],
   "note": "False of the code (it uses the particle's own velocity instead of the relative one): C53_galilean_refuted; C53_change_partial gives the exact change."
  },
  {
   "property": "C54",
   "status": "partial",
   "theorems": [
    "C54_header",
    "C54_never_fails",
    "C54_refuted",
    "C54_momentum",
    "C54_intended_partial",
    "C54_columns_refuted",
    "C54_row",
    "C54_written"
   ],
   "note": "Refuted: scalar_output starts the file with a '#' header, at which every read fails, so the check succeeds for every run; without the header the columns do not match, and the momentum checks compare array addresses. C54_intended_partial: exact for mass and energy in a file of the layout it reads."
  },
  {
   "property": "C55",
   "status": "partial",
   "theorems": [
    "C55_declared",
    "C55_keywords",
    "C55_unset",
    "C55_line",
    "C55_nothing",
    "C55_file",
    "C55_order",
    "C55_hash_in_quotes_refuted",
    "C55_carriage_return_refuted",
    "C55_fraction_refuted",
    "C55_spelling_refuted",
    "C55_open_quote_refuted",
    "C55_unreadable_refuted",
    "C55_errors",
    "C55_long_text_refuted"
   ],
   "note": "Proved for texts of the documented form. Refuted beyond it: '#' inside quotes, carriage returns, fractions for integer parameters (initial_time is int64_t), other spellings of true, a missing closing quote, two declared parameters that cannot be set, texts of 511 characters or more overrun their array."
  },
  {
   "property": "C56",
   "status": "proved",
   "theorems": [
    "C56_hashtable_is_map",
    "C56_index"
   ],
   "note": ""
  },
  {
   "property": "C57",
   "status": "partial",
   "theorems": [
    "C57_box_box",
    "C57_within_distance2",
    "C57_within",
    "C57_within_square",
    "C57_within_box",
    "C57_sphere_sphere",
    "C57_sphere_box",
    "C57_mac",
    "C57_sphere_sphere_refuted",
    "C57_sphere_box_refuted",
    "C57_within_box_refuted"
   ],
   "note": "Exact for boxes, distance test and in 3D; in 1D/2D the sphere tests accept gaps up to the tolerance (refuted as exact, proved up to the tolerance); the 2D/3D box test excludes the lower faces."
  },
  {
   "property": "C58",
   "status": "partial",
   "theorems": [
    "C58_angles",
    "C58_roundtrip",
    "C58_one_dimension",
    "C58_one_dimension_refuted",
    "C58_orthogonal",
    "C58_tangential",
    "C58_tangential_refuted",
    "C58_mirror",
    "C58_mirror_refuted"
   ],
   "note": "Round trip, orthogonality and mirror proved in 2d and 3d; in 1d the conversion keeps only the absolute value (refuted), and remove_radial_acc returns twice the tangential part (refuted)."
  },
  {
   "property": "C59",
   "status": "proved",
   "theorems": [
    "C59_totals",
    "C59_angular",
    "C59_distribution",
    "C59_pairs"
   ],
   "note": "double modelled by the reals: independence of the distribution holds up to rounding only in the program."
  },
  {
   "property": "C60",
   "status": "partial",
   "theorems": [
    "C60_sizes_unchanged",
    "C60_balance_refuted"
   ],
   "note": "Refuted: the sort is asked for the current local sizes, so it keeps every rank's count (C60_sizes_unchanged)."
  },
  {
   "property": "C61",
   "status": "partial",
   "theorems": [
    "C61_fetched",
    "C61_search",
    "C61_lists_refuted",
    "C61_share",
    "C61_cells"
   ],
   "note": "Proved: the share rounds give every rank cells with the content, children and owner of the tree one process builds, for every distribution over 2^m ranks (C61_share); in every state of the traversals that follow this stays so and nodes not seen as empty are complete (C61_cells, C61_fetched); the neighbour search of a rank for given targets gives the lists of the single tree or waits (C61_search). The last clause is false: the lists depend on the groups of targets, which differ between ranks (C61_lists_refuted)."
  },
  {
   "property": "C62",
   "status": "partial",
   "theorems": [
    "C62_hilbert3_adjacent_refuted"
   ],
   "note": "False of the code: the 3D curve is a bijection but consecutive keys need not be neighbours."
  },
  {
   "property": "C63",
   "status": "proved",
   "theorems": [
    "C63_range_contains"
   ],
   "note": ""
  },
  {
   "property": "C64",
   "status": "partial",
   "theorems": [
    "C64_equal_keys_refuted"
   ],
   "note": "False of the code."
  },
  {
   "property": "C65",
   "status": "proved",
   "theorems": [
    "C65_angular_momentum"
   ],
   "note": ""
  },
  {
   "property": "C66",
   "status": "proved",
   "theorems": [
    "C66_repulsive",
    "C66_viscous_heating"
   ],
   "note": "Polynomial, Gaussian and sinc kernels (indices 1 to 12); the super-Gaussian is not monotone."
  },
  {
   "property": "C67",
   "status": "partial",
   "theorems": [
    "C67_density_positive",
    "C67_super_gaussian_refuted"
   ],
   "note": "Polynomial, Gaussian and sinc kernels; false for the super-Gaussian."
  },
  {
   "property": "C68",
   "status": "partial",
   "theorems": [
    "C68_fmm_momentum",
    "C68_fmm_momentum_ties_refuted"
   ],
   "note": "C68_fmm_momentum needs pairwise different node radii; C68_fmm_momentum_ties_refuted gives four particles on a line (two nodes of radius 3/4, MAC 1/2) whose computed forces do not sum to zero: with radius1 > radius2 false both ordered pairs split their second member."
  },
  {
   "property": "C69",
   "status": "proved",
   "theorems": [
    "C69_fmm_error"
   ],
   "note": ""
  },
  {
   "property": "C70",
   "status": "partial",
   "theorems": [
    "C70_wd_soundspeed_electrons",
    "C70_wd_soundspeed_refuted"
   ],
   "note": "Proved that the stored sound speed is that of the electron gas with electron rest-mass inertia only; refuted against the mass density (ions carry no inertia)."
  },
  {
   "property": "C71",
   "status": "proved",
   "theorems": [
    "C71_drag_dissipates",
    "C71_drag_step"
   ],
   "note": ""
  },
  {
   "property": "C72",
   "status": "partial",
   "theorems": [
    "C72_image_ids",
    "C72_assertion",
    "C72_ids_from_one_refuted"
   ],
   "note": "image ids proved for particles that are not walls; the assertion fails for the ids 1..n that io.h generates"
  },
  {
   "property": "C73",
   "status": "partial",
   "theorems": [
    "C73_removed",
    "C73_removed_snapshots",
    "C73_other_directory_kept",
    "C73_other_directory_refuted"
   ],
   "note": "exact when the output directory is the working directory; otherwise remove() acts on the working directory (refuted)"
  },
  {
   "property": "C74",
   "status": "proved",
   "theorems": [
    "C74_volume",
    "C74_distribution"
   ],
   "note": ""
  },
  {
   "property": "C75",
   "status": "partial",
   "theorems": [
    "C75_inside",
    "C75_ends",
    "C75_one_dimension_refuted",
    "C75_far_refuted",
    "C75_cool_down"
   ],
   "note": "Proved in 2d and 3d for accelerations up to 1e8 radii; refuted beyond that (the shortening stops at mu=1e-10), and in 1d the reflection moves a particle to the other end."
  },
  {
   "property": "C76",
   "status": "proved",
   "theorems": [
    "C76_calls",
    "C76_runs"
   ],
   "note": "Proved for the attempts of traversal_sph on every rank after build_tree with its share rounds, in every state of the traversals (C76_calls, C76_runs). That the requests are answered and a state without empty nodes is reached is not claimed here."
  },
  {
   "property": "C77",
   "status": "proved",
   "theorems": [
    "C77_particles",
    "C77_motion",
    "C77_energy",
    "C77_never_stops"
   ],
   "note": "Runs start after relaxation (initial_iteration >= relaxation_steps); periodic boundaries off; gravity enters C77_motion through any field without net force and torque; passes read the state they started from (cached copies of remote particles are not part of this theorem)."
  },
  {
   "property": "C78",
   "status": "partial",
   "theorems": [
    "C78_nodes",
    "C78_corner",
    "C78_thin_refuted"
   ],
   "note": "C78_nodes: the set of points written is the set of lattice nodes within the domain (real arithmetic). C78_thin_refuted: in_domain_2d/3d use the tolerance of the x axis for every axis, so a box 2000000 x 1 gets no particle at all."
  },
  {
   "property": "C79",
   "status": "partial",
   "theorems": [
    "C79_tree_lists",
    "C79_sequential",
    "C79_realised",
    "C79_same",
    "C79_conserved",
    "C79_vsig_refuted",
    "C79_cullen_refuted",
    "C79_runs"
   ],
   "note": "Proved for the constant artificial viscosity. C79_vsig_refuted: the signal speed of a particle uses the sound speed of neighbours from this or the last pass, depending on the order (default_physics.h L236-267 runs inside the pass that also writes the sound speeds); it enters compute_dt. C79_cullen_refuted: with the Cullen viscosity the viscosity coefficients use copies made before the sound speeds were computed, so the result depends on the distribution."
  },
  {
   "property": "C80",
   "status": "partial",
   "theorems": [
    "C80_iteration",
    "C80_energy_rates",
    "C80_damped",
    "C80_damped_ranks",
    "C80_factor",
    "C80_equal_steps",
    "C80_slows_refuted"
   ],
   "note": "C80_slows_refuted: nothing bounds the product of the drag coefficient and the time step; with a product of 8 one iteration multiplies the total momentum by 9, so the drag does not slow particles down in general. Two distinct particles at the same position give 0/0 = NaN in the repulsion of the code; in the real-number model such a pair contributes nothing."
  },
  {
   "property": "C81",
   "status": "partial",
   "theorems": [
    "C81_bounds",
    "C81_defined",
    "C81_energy",
    "C81_attained",
    "C81_converges",
    "C81_defined_refuted",
    "C81_suffices_refuted"
   ],
   "note": "C81_bounds, C81_energy and C81_converges hold. C81_defined_refuted: the loop of twenty divisions by four gives up at a wall steep enough. C81_suffices_refuted: the step leaves out the kinetic energy the kick adds; one iteration later the assertion in recover_internal_energy fails."
  },
  {
   "property": "C82",
   "status": "partial",
   "theorems": [
    "C82_tube",
    "C82_ends",
    "C82_separation_partial",
    "C82_separation_refuted"
   ],
   "note": "Proved for equal masses in all dimensions; with equal separation the mass of the boxes is the density, not density times volume: proved right for a 1D tube of length 3, refuted for length 6."
  },
  {
   "property": "C83",
   "status": "partial",
   "theorems": [
    "C83_tunnel_partial",
    "C83_square",
    "C83_overrun_refuted",
    "C83_lost_refuted",
    "C83_smoothing"
   ],
   "note": "Refuted: the number of particles written is not the number of nodes (overrun in square tunnels, loss in narrow ones); what is written is described exactly."
  },
  {
   "property": "C84",
   "status": "partial",
   "theorems": [
    "C84_collapse",
    "C84_implosion_partial",
    "C84_ends",
    "C84_rim_refuted"
   ],
   "note": "Proved except for the energies in the rim of the implosion, which are right for radius 1 and refuted otherwise."
  },
  {
   "property": "C85",
   "status": "partial",
   "theorems": [
    "C85_layers",
    "C85_ends",
    "C85_interface_refuted"
   ],
   "note": "C85_interface_refuted: the stripes of the perturbation are not at the boundary of the layers. The tolerance of the lattice limits the resolution to 8000 along x in C85_layers."
  },
  {
   "property": "C86",
   "status": "partial",
   "theorems": [
    "C86_columns",
    "C86_ends",
    "C86_height_refuted"
   ],
   "note": "C86_height_refuted: with periodic z the height is taken from the length of the box (L159)."
  },
  {
   "property": "C87",
   "status": "proved",
   "theorems": [
    "C87_fluid",
    "C87_ends"
   ],
   "note": ""
  },
  {
   "property": "C88",
   "status": "partial",
   "theorems": [
    "C88_particles",
    "C88_energy",
    "C88_zone",
    "C88_mass",
    "C88_ends",
    "C88_modify",
    "C88_empty_refuted",
    "C88_modify_refuted",
    "C88_line_refuted",
    "C88_surface_refuted",
    "C88_disc_refuted"
   ],
   "note": "Proved for the particles, energy and mass; five of the cases fail (C88_*_refuted). The documentation of sedov_blast_radius in params.h says it is in units of the particle separation; the code takes it as a length, and so does the model."
  },
  {
   "property": "C89",
   "status": "partial",
   "theorems": [
    "C89_particles",
    "C89_mass",
    "C89_kinetic",
    "C89_ends",
    "C89_perturbed",
    "C89_modify",
    "C89_momentum_refuted",
    "C89_density_refuted",
    "C89_perturbed_refuted"
   ],
   "note": "Proved without perturbation and for the constant profile; speed under perturbation, stored density of other profiles and zero momentum fail (C89_*_refuted). Bodies read are treated in three dimensions."
  },
  {
   "property": "C90",
   "status": "partial",
   "theorems": [
    "C90_defined",
    "C90_monotone",
    "C90_ends",
    "C90_close",
    "C90_separated",
    "C90_wrong_box_refuted",
    "C90_box_nested",
    "C90_box_exists",
    "C90_range",
    "C90_keys",
    "C90_key_order",
    "C90_absorbed_radius_refuted"
   ],
   "note": "Proved in double precision: existence, order, closeness, separation, range and nesting of boxes. Refuted: the cell need not be the one the coordinate is in, nor the box of the key contain it (C90_wrong_box_refuted); a positive radius can vanish in the rounding, and then there is no key (C90_absorbed_radius_refuted)."
  },
  {
   "property": "C91",
   "status": "partial",
   "theorems": [
    "C91_sph_neighbours",
    "C91_radius_search",
    "C91_finite",
    "C91_line",
    "C91_symmetric",
    "C91_pair_missed_refuted"
   ],
   "note": "Refuted part: a pair in the plane whose distance is exactly half the sum of the radii (and the larger radius) is not found although C13 says it is without rounding. The slack of the theorems is 2^(m-40), far more than the few ulps of the test itself, because the errors of up to 64 levels of summaries are bounded together. Overflow is excluded by the bounds on the particles and C91_finite, not by None."
  },
  {
   "property": "C92",
   "status": "partial",
   "theorems": [
    "C92_due",
    "C92_lines",
    "C92_silent",
    "C92_neighbours",
    "C92_smoothing",
    "C92_unset",
    "C92_speed_partial",
    "C92_max_refuted",
    "C92_speed_refuted",
    "C92_rest_refuted",
    "C92_distance_refuted",
    "C92_history_refuted",
    "C92_empty_refuted"
   ],
   "note": "Proved for the counts, least and mean neighbours, smoothing lengths, the unset columns, and speeds on one process. Refuted: N_max is never reset; the speeds are reduced on process 0 only and the average is divided by the total; V_max starts at DBL_MIN so a state at rest shows a positive maximum; min_dist, average_dist_in_h and N_ghosts are never assigned; the file is truncated by the next run; a process without particles reads bodies[0]. The neighbour counts themselves are set only by wvt.h L196 and L279."
  },
  {
   "property": "C93",
   "status": "partial",
   "theorems": [
    "C93_iterations",
    "C93_last",
    "C93_final_time",
    "C93_ends_refuted",
    "C93_by_iteration",
    "C93_by_time",
    "C93_interval_refuted",
    "C93_wvt_last",
    "C93_wvt_cool",
    "C93_wvt_late_refuted"
   ],
   "note": "Proved for the iterations done, the end of the loop, output by iteration and the relaxation driver. Refuted: with the default limits (both 0) the loop does not end; without adaptive_timestep nothing advances the output times, so with output by time every iteration writes; the relaxation driver started after its end writes nothing."
  },
  {
   "property": "C94",
   "status": "partial",
   "theorems": [
    "C94_clock",
    "C94_advances",
    "C94_ends",
    "C94_final_time_partial",
    "C94_stall_refuted",
    "C94_last_step_refuted"
   ],
   "note": "Proved: the error of the clock, progress, the end of the loop. C94_final_time_partial is what remains of the exact count. Refuted: the clock stalls when the step is below half an ulp of the time; the iteration at final_time may be missed."
  },
  {
   "property": "C95",
   "status": "partial",
   "theorems": [
    "C95_relation",
    "C95_order",
    "C95_empty_refuted",
    "C95_average",
    "C95_distribution",
    "C95_uniform"
   ],
   "note": "Proved for positive mass and density. Refuted: with density 0 the code divides by zero."
  },
  {
   "property": "C96",
   "status": "partial",
   "theorems": [
    "C96_distance",
    "C96_magnitude",
    "C96_midpoint",
    "C96_centroid",
    "C96_centroid_refuted",
    "C96_cross3",
    "C96_parallelogram",
    "C96_cross2_refuted",
    "C96_normal2",
    "C96_normal3_refuted",
    "C96_list"
   ],
   "note": "Refuted: cross() in two dimensions is the zero vector while cross_magnitude() is the area; normal() in three dimensions is the cross product of the position vectors, not a function of the difference; centroid() of no points is 0/0."
  },
  {
   "property": "C97",
   "status": "partial",
   "theorems": [
    "C97_stops",
    "C97_then",
    "C97_release_refuted",
    "C97_written_refuted",
    "C97_fields_refuted",
    "C97_infinite_refuted"
   ],
   "note": "Refuted: assert is disabled in the default build type; the snapshot is written before the checks; radius, sound speed and other fields are not checked; infinities pass."
  },
  {
   "property": "C98",
   "status": "partial",
   "theorems": [
    "C98_viscosity",
    "C98_opposite",
    "C98_self",
    "C98_pair",
    "C98_momentum",
    "C98_exact_refuted"
   ],
   "note": "Proved without a bound on the number of particles. Refuted: with masses 1 and 3 the two products round differently. Overflow is not modelled."
  },
  {
   "property": "C99",
   "status": "proved",
   "theorems": [
    "C99_each_pair_once",
    "C99_runs"
   ],
   "note": "For distinct positions and keys. The order of arrival is arbitrary. That a requested node arrives after finitely many steps is C17's matter, so the end of the passes is under the hypothesis that no source is an unfetched node. This is about which interactions are made, as C15 is on one process; C100 is about their values. The interaction of a particle with itself is counted."
  },
  {
   "property": "C100",
   "status": "proved",
   "theorems": [
    "C100_nodes",
    "C100_field",
    "C100_error",
    "C100_direct"
   ],
   "note": "Over the reals, for distinct positions and keys, under C99's hypothesis that the queue of the process has become empty. The calls are executed with the nodes the process holds in the end; C100_nodes shows that these are the nodes it held when it made them."
  },
  {
   "property": "C101",
   "status": "proved",
   "theorems": [
    "C101_same",
    "C101_momentum"
   ],
   "note": "In real arithmetic. C101_momentum supposes that no two nodes have the same radius; with equal radii C68_fmm_momentum_ties_refuted is a counterexample."
  },
  {
   "property": "C102",
   "status": "proved",
   "theorems": [
    "C102_queue_empties",
    "C102_completes",
    "C102_search",
    "C102_search_completes"
   ],
   "note": "Existence of a completing continuation from every reachable state; fairness of the scheduler is not modelled. Tables as the tree construction leaves them (C73)."
  },
  {
   "property": "C103",
   "status": "proved",
   "theorems": [
    "C103_bounded",
    "C103_again",
    "C103_not_in_vain"
   ],
   "note": "Steps are the communication steps of the model (start, request, receipt of one message, end of the loop, leaving, waiting); the passes of a rank over its own queue in between are C99 and C102. Requests are only possible for empty nodes not yet marked as requested, as in the code."
  },
  {
   "property": "C104",
   "status": "proved",
   "theorems": [
    "C104_same_as_one",
    "C104_one_rank"
   ],
   "note": ""
  },
  {
   "property": "C105",
   "status": "partial",
   "theorems": [
    "C105_continuity",
    "C105_divergence",
    "C105_shear",
    "C105_traceless_refuted"
   ],
   "note": "C105_continuity and C105_divergence proved for the spline and Wendland kernels; that the stored divergence is the trace of the velocity gradient is refuted (C105_traceless_refuted)."
  },
  {
   "property": "C106",
   "status": "proved",
   "theorems": [
    "C106_gravity",
    "C106_realised",
    "C106_exists",
    "C106_function",
    "C106_sequential",
    "C106_same",
    "C106_any_ranks",
    "C106_first",
    "C106_range_key"
   ],
   "note": "Real arithmetic; the Cullen viscosity (refuted in C79) is excluded and the signal speeds are not compared. Two particles with one key, which the tree does not hold, are outside the theorem."
  },
  {
   "property": "C107",
   "status": "partial",
   "theorems": [
    "C107_internal",
    "C107_fixed",
    "C107_total",
    "C107_run",
    "C107_first",
    "C107_thermokinetic_refuted"
   ],
   "note": "Proved for the evolved and the fixed internal energy. In the thermokinetic formulation the total energy follows the trapezoidal rule, but the pressure is that of the new internal energy less dt/2 v.a, and the stored internal energy is half a step old (C107_total); the claim is false there: C107_thermokinetic_refuted."
  },
  {
   "property": "C108",
   "status": "proved",
   "theorems": [
    "C108_calls",
    "C108_self_test",
    "C108_self_test_double",
    "C108_loop"
   ],
   "note": ""
  },
  {
   "property": "C109",
   "status": "proved",
   "theorems": [
    "C109_positive",
    "C109_monotone",
    "C109_symmetric",
    "C109_support",
    "C109_accuracy",
    "C109_centre",
    "C109_accuracy_cubic",
    "C109_own",
    "C109_sum",
    "C109_order"
   ],
   "note": ""
  },
  {
   "property": "C110",
   "status": "proved",
   "theorems": [
    "C110_nonneg",
    "C110_monotone",
    "C110_pressure",
    "C110_soundspeed",
    "C110_consistent"
   ],
   "note": ""
  },
  {
   "property": "C111",
   "status": "proved",
   "theorems": [
    "C111_positive",
    "C111_courant",
    "C111_monotone",
    "C111_lower"
   ],
   "note": ""
  }
 ]
}