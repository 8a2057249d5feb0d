{
 "claims": [
  {
   "property": "C01",
   "status": "proved",
   "theorems": [
    "C01_kdtree_knn_exact"
   ],
   "note": "IEEE double, axis-aligned splits, any evaluation order of the squared norm, any conforming nth_element; max_leaf_size >= 3"
  },
  {
   "property": "C02",
   "status": "proved",
   "theorems": [
    "C02_kdtree_nearest_is_first_of_knn"
   ],
   "note": ""
  },
  {
   "property": "C03",
   "status": "proved",
   "theorems": [
    "C03_kdtree_epsilon"
   ],
   "note": ""
  },
  {
   "property": "C04",
   "status": "proved",
   "theorems": [
    "C04_knn_result_keeps_k_best",
    "C04_knn_result_keeps_k_best_Z",
    "C04_bad_k_aborts",
    "C04_nan_distance_breaks_order_refuted"
   ],
   "note": "NaN distances excluded; refutation shows why"
  },
  {
   "property": "C05",
   "status": "proved",
   "theorems": [
    "C05_kdtree_build_covers",
    "C05_leaf_size_0_refuted",
    "C05_leaf_size_1_refuted",
    "C05_leaf_size_2_refuted",
    "C05_zero_scan_count_refuted",
    "C05_empty_cloud_search_refuted"
   ],
   "note": "holds for max_leaf_size >= 3; smaller sizes refuted by witness"
  },
  {
   "property": "C06",
   "status": "proved",
   "theorems": [
    "C06_parallel_build_schedule_independent",
    "C06_parallel_build_completes"
   ],
   "note": "All interleavings of the OpenMP/TBB builders' steps, any thread count; C06_schedules_differ shows a concrete >512 point build where two schedules number nodes differently. Data-race freedom is stated as disjoint footprints of simultaneously enabled steps. The atomic counter and the task wait are modelled as atomic steps (trusted OpenMP/TBB semantics)."
  },
  {
   "property": "C07",
   "status": "proved",
   "theorems": [
    "C07_normal_projection_exact",
    "C07_normal_projection_double_refuted"
   ],
   "note": "exact reals; refuted in doubles by witness"
  },
  {
   "property": "C08",
   "status": "proved",
   "theorems": [
    "C08_fast_floor_is_floor",
    "C08_fast_floor_out_of_range"
   ],
   "note": ""
  },
  {
   "property": "C09",
   "status": "proved",
   "theorems": [
    "C09_voxelgrid_centroids",
    "C09_voxelgrid_exact_means",
    "C09_voxelgrid_order_irrelevant",
    "C09_voxelgrid_idempotent",
    "C09_idempotent_in_doubles_refuted"
   ],
   "note": "Sampling twice is a no-op over the reals only: in doubles a sample can round into a neighbouring cell and a second pass then merges it (refuted with leaf size 0.1 and three points at 0.7). IEEE double: one output per occupied cell with an explicit rounding bound on each centroid coordinate and w exactly 1 (coordinates up to 2^900, up to 2^53 points). Exact means, order independence and idempotence over exact reals."
  },
  {
   "property": "C10",
   "status": "proved",
   "theorems": [
    "C10_out_of_range_ignored",
    "C10_all_out_of_range_refuted",
    "C10_tiny_leaf_refuted"
   ],
   "note": "Holds when some point is in range; refuted in general form when none is, and for leaf sizes up to 2^-20."
  },
  {
   "property": "C11",
   "status": "proved",
   "theorems": [
    "C11_voxel_keys",
    "C11_voxel_keys_strict_ub"
   ],
   "note": "All doubles with x86 conversion; by the C++ standard for coordinates that fit an int, UB otherwise."
  },
  {
   "property": "C12",
   "status": "proved",
   "theorems": [
    "C12_parallel_voxelgrid",
    "C12_stray_point_refuted"
   ],
   "note": "Any splitting, any interleaving of the collection. The unconditional claim about out-of-range points is refuted; C12_stray_point_case is a 1025-point OpenMP instance."
  },
  {
   "property": "C13",
   "status": "proved",
   "theorems": [
    "C13_collection"
   ],
   "note": ""
  },
  {
   "property": "C14",
   "status": "proved",
   "theorems": [
    "C14_quick_sort_omp",
    "C14_quick_sort_omp_completes",
    "C14_huge_array_refuted"
   ],
   "note": "All task orders, bounded number of tasks, disjoint ranges, sorted permutation at the end; for more than 2454267031 elements the int pivot offsets overflow (refuted)."
  },
  {
   "property": "C15",
   "status": "proved",
   "theorems": [
    "C15_merge_sort_omp",
    "C15_merge_sort_omp_completes"
   ],
   "note": "All task orders; std::sort and std::inplace_merge by contract."
  },
  {
   "property": "C16",
   "status": "proved",
   "theorems": [
    "C16_radix_sort_tbb",
    "C16_radix_sort_deterministic",
    "C16_huge_array_refuted"
   ],
   "note": "All interleavings of the loop iterations of the three parallel loops; beyond 2^31-1 elements the int loop counter overflows (refuted)."
  },
  {
   "property": "C17",
   "status": "proved",
   "theorems": [
    "C17_random_sampling"
   ],
   "note": "std::sample by contract."
  },
  {
   "property": "C18",
   "status": "proved",
   "theorems": [
    "C18_voxelmap_consistent",
    "C18_points_in_their_voxel",
    "C18_gaussian_mean_in_its_voxel",
    "C18_inserts_complete",
    "C18_zero_clear_cycle_refuted"
   ],
   "note": "Any history of inserts, search-offset changes and LRU parameter changes, any contents. Points in their voxel: IEEE double for point voxels, exact reals for Gaussian means. lru_clear_cycle = 0 is refuted (remainder by zero)."
  },
  {
   "property": "C19",
   "status": "proved",
   "theorems": [
    "C19_lru_policy",
    "C19_recent_voxels_kept",
    "C19_stale_voxels_removed",
    "C19_removed_only_when_stale",
    "C19_huge_horizon_refuted"
   ],
   "note": "Counter plus horizon below 2^64; a horizon of SIZE_MAX wraps and is refuted."
  },
  {
   "property": "C20",
   "status": "proved",
   "theorems": [
    "C20_container_capacity_and_spacing",
    "C20_voxels_of_the_map",
    "C20_voxel_contents_from_history"
   ],
   "note": ""
  },
  {
   "property": "C21",
   "status": "proved",
   "theorems": [
    "C21_gaussian_voxel_is_batch_mean",
    "C21_batching_does_not_matter"
   ],
   "note": "Exact reals."
  },
  {
   "property": "C22",
   "status": "proved",
   "theorems": [
    "C22_results_resolve",
    "C22_C23_point_voxels_f64",
    "C22_searches_are_total",
    "C22_packed_index_splits",
    "C22_oversized_voxel_refuted",
    "C22_search_at_int_max_refuted"
   ],
   "note": "For at most 2^32 voxels and points per voxel; beyond that, and at the ends of the int range, refuted."
  },
  {
   "property": "C23",
   "status": "proved",
   "theorems": [
    "C23_knn_exact_over_searched_voxels",
    "C23_modes_1_and_7_distinct",
    "C23_mode27_repeats_neighbours_refuted",
    "C22_C23_point_voxels_f64"
   ],
   "note": "Exact for 1 and 7 offsets; the 27-offset mode repeats neighbours (refuted in general form)."
  },
  {
   "property": "C24",
   "status": "proved",
   "theorems": [
    "C24_point_voxels",
    "C24_gaussian_voxels",
    "C24_point_voxels_f64"
   ],
   "note": "Exact reals; the double variant needs a per-axis margin of 2^-19 of a voxel."
  },
  {
   "property": "C25",
   "status": "proved",
   "theorems": [
    "C25_serial",
    "C25_omp",
    "C25_omp_error",
    "C25_tbb",
    "C25_reductions_agree",
    "C25_registration",
    "C25_omp_zero_threads_refuted",
    "C25_f64_bitwise_refuted"
   ],
   "note": "Exact arithmetic, every schedule, at least one thread. num_threads = 0 reads Hs[0] out of range (refuted), and bitwise equality in double precision is refuted."
  },
  {
   "property": "C26",
   "status": "proved",
   "theorems": [
    "C26_lm_never_worse",
    "C26_serial_f64",
    "C26_serial_huber_f64",
    "C26_serial_robust_real",
    "C26_general_factor_refuted"
   ],
   "note": "Every accepted or rejected trial, any solver and increment; IEEE doubles for the serial reduction. A general factor that adds error is refuted by a concrete run."
  },
  {
   "property": "C27",
   "status": "proved",
   "theorems": [
    "C27_lm",
    "C27_gauss_newton",
    "C27_always_returns",
    "C27_iteration_count_refuted"
   ],
   "note": "Any linearize, error, solver, increment and number system. The reported iteration number is one less than the number of linearisations, so 0 and 1 iterations are indistinguishable (refuted)."
  },
  {
   "property": "C28",
   "status": "proved",
   "theorems": [
    "C28_linearize_matches_error",
    "C28_robust_f64",
    "C28_robust_real"
   ],
   "note": "Bitwise in double precision, including robust factors with an accepted correspondence."
  },
  {
   "property": "C29",
   "status": "proved",
   "theorems": [
    "C29_factor",
    "C29_gauss_newton",
    "C29_whole_problem"
   ],
   "note": "Exact reals; source points with fourth component one; GICP with block covariances, positive definite in the target."
  },
  {
   "property": "C30",
   "status": "proved",
   "theorems": [
    "C30_unique",
    "C30_descent",
    "C30_solver_exists",
    "C30_lm_steps",
    "C30_gn_steps"
   ],
   "note": "Exact reals; the linear solver assumed correct on symmetric positive definite systems, which block elimination is shown to be."
  },
  {
   "property": "C31",
   "status": "proved",
   "theorems": [
    "C31_motion_well_defined",
    "C31_exponential",
    "C31_pure_translation",
    "C31_close_to_exponential",
    "C31_nearly_rigid",
    "C31_composed_rotation",
    "C31_composed",
    "C31_small_translation_refuted"
   ],
   "note": "Exact reals. The exponential is specified as the constant-twist motion at time one, shown to exist and be unique. The small-angle translation is not the exponential in first order (refuted, but within 2e-10 |t|)."
  },
  {
   "property": "C32",
   "status": "proved",
   "theorems": [
    "C32_weights",
    "C32_estimated"
   ],
   "note": "Exact reals."
  },
  {
   "property": "C33",
   "status": "proved",
   "theorems": [
    "C33_estimated_values",
    "C33_total"
   ],
   "note": "Exact reals, with the eigen-solver assumed correct on the neighbours' covariance matrix (an instance is given). Success is proved in any number system."
  },
  {
   "property": "C34",
   "status": "proved",
   "theorems": [
    "C34_parallel_estimation"
   ],
   "note": "Any number system; also no two pending writes touch the same memory."
  },
  {
   "property": "C35",
   "status": "proved",
   "theorems": [
    "C35_huber_weight",
    "C35_cauchy_weight",
    "C35_huber_error",
    "C35_cauchy_error",
    "C35_huber_in_doubles",
    "C35_cauchy_in_doubles",
    "C35_error_in_doubles",
    "C35_positive_in_doubles_refuted",
    "C35_infinite_error_refuted"
   ],
   "note": "Exact reals, and IEEE doubles with infinite residuals: weights are finite, in [0,1] and non-increasing, the robust error of a finite error does not exceed it. In doubles the weight can be zero, and an infinite error becomes NaN (both refuted)."
  },
  {
   "property": "C36",
   "status": "proved",
   "theorems": [
    "C36_rejected_never_contribute",
    "C36_num_inliers_lm",
    "C36_num_inliers_gn"
   ],
   "note": "Any number system; the distance is the one the search reports."
  },
  {
   "property": "C37",
   "status": "proved",
   "theorems": [
    "C37_plane_error",
    "C37_plane_distance_refuted"
   ],
   "note": "The equality is refuted by a witness; the positive part is the axis-aligned case and the factor-three bound."
  },
  {
   "property": "C38",
   "status": "proved",
   "theorems": [
    "C38_disciplined_histories",
    "C38_kept_data_is_of_the_current_cloud",
    "C38_no_missing_tree",
    "C38_refused_first_cloud_refuted",
    "C38_new_resolution_refuted",
    "C38_new_covariances_refuted",
    "C38_new_neighbour_count_refuted",
    "C38_changed_cloud_refuted"
   ],
   "note": "Tree building, estimation, map building and registration are parameters. The equality with a cache-free object is proved for disciplined histories; the four ways to leave the discipline are refuted in general form."
  },
  {
   "property": "C39",
   "status": "proved",
   "theorems": [
    "C39_threads_and_neighbours",
    "C39_resolution_kept_positive",
    "C39_resolution_refuted"
   ],
   "note": "The voxel resolution check is refuted: it tests the stored value."
  },
  {
   "property": "C40",
   "status": "proved",
   "theorems": [
    "C40_projective_search_best_in_window",
    "C40_distinct_neighbours",
    "C40_equirectangular_search_total",
    "C40_distinct_neighbours_refuted",
    "C40_nearest_of_cloud_refuted",
    "C40_seam_point_found_refuted"
   ],
   "note": "At most 2^32-1 points. The search theorem holds for any number system, projection, image, window and border modes; totality of the library's own projection is proved in IEEE doubles with asin and atan2 by contract. Distinctness fails for images narrower than the window; occluded points and points at longitude +pi are never found."
  },
  {
   "property": "C41",
   "status": "proved",
   "theorems": [
    "C41_round_trip",
    "C41_any_file",
    "C41_failures"
   ],
   "note": "Every byte string and point list. A file is a byte list; a float is its four bytes."
  },
  {
   "property": "C42",
   "status": "proved",
   "theorems": [
    "C42_four_properties",
    "C42_three_properties",
    "C42_three_properties_with_more_data_refuted",
    "C42_many_properties_refuted",
    "C42_truncated_file_refuted",
    "C42_other_elements_refuted",
    "C42_no_properties_refuted",
    "C42_header_always_ends",
    "C42_other_types_rejected"
   ],
   "note": "Every well-formed header. Proved for four properties, and for three with nothing after the vertices; the other cases are refuted in general form."
  },
  {
   "property": "C43",
   "status": "proved",
   "theorems": [
    "C43_point_types_honoured",
    "C43_voxelmap_honoured_but_distance",
    "C43_vectors_honoured",
    "C43_thread_count",
    "C43_voxelmap_thread_count",
    "C43_invalid_type",
    "C43_vgicp_distance_refuted",
    "C43_vgicp_with_tree_refuted",
    "C43_downsampling_threads_refuted"
   ],
   "note": "Any number system, schedule, clouds and search structure; independence of the thread count in exact reals. Refuted: VGICP ignores the distance setting, VGICP with a kd-tree drops the initial pose, downsampling ignores the thread count."
  },
  {
   "property": "C44",
   "status": "proved",
   "theorems": [
    "C44_penalty_only",
    "C44_restricted_motion",
    "C44_undamped_bound_refuted"
   ],
   "note": "Exact reals."
  },
  {
   "property": "C45",
   "status": "proved",
   "theorems": [
    "C45_schedule_independent",
    "C45_same_as_sequential",
    "C45_no_races",
    "C45_second_run_refuted"
   ],
   "note": "Every schedule of the graph's bodies; preprocessing and registration are parameters. The first run is proved; a later run in the same process is refuted in general form (static last_frame)."
  },
  {
   "property": "C46",
   "status": "proved",
   "theorems": [
    "C46_positions_are_not_points_refuted",
    "C46_second_position_reads_out_of_range_refuted",
    "C46_point_indices_enumerate"
   ],
   "note": "The property is refuted; the packed indices do enumerate the stored points."
  },
  {
   "property": "C47",
   "status": "proved",
   "theorems": [
    "C47_axis",
    "C47_normal",
    "C47_largest_variance",
    "C47_largest_variance_direction",
    "C47_zero_count_refuted",
    "C47_documented_limit_refuted"
   ],
   "note": "Sampling for any number system; the largest-variance parts over the exact reals, the eigen-solver under its contract. max_scan_count zero divides by zero; the documented limit is exceeded (up to twice as many samples are read)."
  },
  {
   "property": "C48",
   "status": "proved",
   "theorems": [
    "C48_lm_error_of_returned_pose",
    "C48_gn_error_of_previous_pose",
    "C48_gn_error_refuted"
   ],
   "note": ""
  },
  {
   "property": "C49",
   "status": "proved",
   "theorems": [
    "C49_attributes_from_history",
    "C49_reads",
    "C49_has_means_nonempty",
    "C49_constructor",
    "C49_has_attributes_refuted"
   ],
   "note": "The history part is proved; has_* as evidence that an attribute was computed is refuted."
  },
  {
   "property": "C50",
   "status": "proved",
   "theorems": [
    "C50_without_copies",
    "C50_insert_in_any_program",
    "C50_maps_stay_consistent",
    "C50_copy_independent_refuted"
   ],
   "note": "Any contents and number system. Independence of copies is refuted in general form; without copies the maps behave as if held by value, and with copies every map stays consistent."
  },
  {
   "property": "C51",
   "status": "proved",
   "theorems": [
    "C51_huber",
    "C51_cauchy",
    "C51_whole_problem_refuted",
    "C51_robust_hessian"
   ],
   "note": "Exact reals, away from Huber's kink. The per-factor factor is proved in general; the whole-problem descent claim is refuted by two correspondences on a line."
  },
  {
   "property": "C52",
   "status": "proved",
   "theorems": [
    "C52_register_total",
    "C52_empty_target_refuted",
    "C52_vgicp_nan_pose_refuted"
   ],
   "note": "IEEE doubles, end to end over the models of downsampling, kd-tree (normals and covariances come from the exact ten nearest points), estimation, voxel map, factors, reductions and optimizer; sorting, nth_element, the solver, the eigen-solver and the exponential map are parameters (the first two by contract). VGICP on x86 conversions; an empty target and, by the standard, a NaN pose are refuted in general form."
  },
  {
   "property": "C53",
   "status": "proved",
   "theorems": [
    "C53_batch_nearest",
    "C53_batch_knn",
    "C53_batch_overflow_refuted",
    "C53_zero_neighbours_refuted"
   ],
   "note": "IEEE doubles, every build and search schedule. The int overflow of the row offset and the process end for k = 0 are refuted in general form."
  },
  {
   "property": "C54",
   "status": "proved",
   "theorems": [
    "C54_array_is_cloud",
    "C54_same_answers",
    "C54_weights_refuted"
   ],
   "note": "Equality of outcomes holds for every value including NaN; equal answers of trees for finite points. Other weights are refuted by two points."
  },
  {
   "property": "C55",
   "status": "proved",
   "theorems": [
    "C55_arrays",
    "C55_refused",
    "C55_clouds",
    "C55_voxelmap",
    "C55_vgicp_distance_refuted",
    "C55_foreign_tree_refuted"
   ],
   "note": "IEEE doubles; environment as in C52. VGICP and voxel maps on x86 conversions. The distance of VGICP on arrays and trees of another cloud are refuted in general form."
  },
  {
   "property": "C56",
   "status": "proved",
   "theorems": [
    "C56_estimation",
    "C56_preprocess",
    "C56_empty_preprocess_refuted",
    "C56_views",
    "C56_empty_views_refuted"
   ],
   "note": "IEEE doubles, every schedule. preprocess_points is proved for clouds whose points are all in the voxel grid; empty objects are refuted in general form."
  },
  {
   "property": "C57",
   "status": "proved",
   "theorems": [
    "C57_gicp_tracks",
    "C57_vgicp_tracks",
    "C57_gicp_model_tracks",
    "C57_vgicp_model_tracks",
    "C57_causal",
    "C57_model_distance_refuted",
    "C57_vgicp_threads_refuted",
    "C57_empty_frame_refuted"
   ],
   "note": "IEEE doubles, every schedule of estimation, any schedule of the reductions. The voxel-map classes on x86 conversions and for at most 2^32 points in all. The refutations are in general form."
  },
  {
   "property": "C58",
   "status": "proved",
   "theorems": [
    "C58_gauss_newton",
    "C58_levenberg_marquardt",
    "C58_robust",
    "C58_kdtree",
    "C58_plane_refuted"
   ],
   "note": "Exact real arithmetic; ties between nearest points at visited poses excluded. Any solver and exponential map. Voxel-map targets are outside: their grid is fixed to the frame. PlaneICP is refuted by one pair of points."
  },
  {
   "property": "C59",
   "status": "proved",
   "theorems": [
    "C59_icp_never_worse",
    "C59_icp_descends",
    "C59_kdtree",
    "C59_gicp_refuted"
   ],
   "note": "Exact real arithmetic, any solver, exponential map and stopping rule. GICP is refuted for every exact search and every correct solver."
  },
  {
   "property": "C60",
   "status": "proved",
   "theorems": [
    "C60_levenberg_marquardt",
    "C60_gauss_newton",
    "C60_robust",
    "C60_itself",
    "C60_zero_error_is_alignment",
    "C60_kept_in_doubles",
    "C60_itself_in_doubles",
    "C60_exponential"
   ],
   "note": "Exact real arithmetic: the solver by its contract on positive definite systems, the exponential map is the library's; positive damping and at least one iteration are asked for. In doubles (convenience interface, kd-tree, any OpenMP schedule): solver by the contract that zero gives zero, exponential map by the contract that zero gives the identity (C60_exponential: the library's does); coordinates up to 2^20, GICP weights up to 2^40, fewer than 2^32 points."
  },
  {
   "property": "C61",
   "status": "proved",
   "theorems": [
    "C61_mean_std",
    "C61_last",
    "C61_equal_values_refuted",
    "C61_median_refuted",
    "C61_storage_refuted"
   ],
   "note": "Mean and deviation in exact real arithmetic. Refuted as stated: 0.1 recorded three times has deviation NaN in doubles, the median calls nth_element with swapped arguments (undefined for every non-empty log), and the log is kept even when not asked for."
  },
  {
   "property": "C62",
   "status": "proved",
   "theorems": [
    "C62_options",
    "C62_unknown_option",
    "C62_missing_value_refuted",
    "C62_distance_refuted",
    "C62_stated_defaults_refuted",
    "C62_registry",
    "C62_registration_order"
   ],
   "note": "Number conversion is a parameter. Refuted as stated: a trailing option reads behind the arguments, the correspondence distance has no option, and the usage text states another default voxel resolution."
  },
  {
   "property": "C63",
   "status": "proved",
   "theorems": [
    "C63_frames",
    "C63_listing_order",
    "C63_numbers",
    "C63_convert",
    "C63_stored_scans",
    "C63_numbered",
    "C63_unpadded_refuted"
   ],
   "note": "std::sort by its contract. Names without leading zeros are not read in numeric order (refuted part)."
  },
  {
   "property": "C64",
   "status": "proved",
   "theorems": [
    "C64_history",
    "C64_write_back",
    "C64_convert",
    "C64_error",
    "C64_covariances",
    "C64_attributes_refuted"
   ],
   "note": "All doubles, with rounding to nearest. Positive definiteness for a margin of 1e-6 and entries up to 2, which estimated covariances have. Refuted as stated: every non-empty PCL cloud claims to have normals and covariances."
  },
  {
   "property": "C65",
   "status": "proved",
   "theorems": [
    "C65_history",
    "C65_same_as_library",
    "C65_rejected",
    "C65_max_distance",
    "C65_index_refuted",
    "C65_reported_lm",
    "C65_reported_gn",
    "C65_reported_refuted"
   ],
   "note": "The reported H and b are the loop's sums at the pose of the last linearisation, not at the returned pose (refuted at the returned pose in double precision). A negative limit acts as its absolute value. An index outside the cloud is undefined behaviour instead of an exception (refuted). Registration with the null general factor and the serial reduction."
  },
  {
   "property": "C66",
   "status": "proved",
   "theorems": [
    "C66_trajectory",
    "C66_points",
    "C66_refused_frames",
    "C66_refused_refuted",
    "C66_refused_start_refuted"
   ],
   "note": "Built on the RegistrationPCL model of C38. Frames not accepted (empty ones) are not passed over: the frame before the last is registered again in their place, and as first or second frame they are undefined behaviour (refuted part)."
  },
  {
   "property": "C67",
   "status": "proved",
   "theorems": [
    "C67_estimated",
    "C67_turned_normals",
    "C67_flipped_normals",
    "C67_same_neighbours",
    "C67_kdtree",
    "C67_registration",
    "C67_normals_refuted"
   ],
   "note": "Over the real numbers, by metamorphic argument from C33 and C58. Normals are not simply moved under a shift: when the origin changes sides they turn over (refuted part, with the general condition)."
  },
  {
   "property": "C68",
   "status": "proved",
   "theorems": [
    "C68_gauss_newton",
    "C68_levenberg_marquardt",
    "C68_robust",
    "C68_kdtree",
    "C68_rounding_refuted"
   ],
   "note": "Over the real numbers; in double precision the order shows in the last bit of the error (refuted part)."
  },
  {
   "property": "C69",
   "status": "proved",
   "theorems": [
    "C69_gauss_newton",
    "C69_damped_gauss_newton",
    "C69_levenberg_marquardt",
    "C69_exact_with_damping_refuted",
    "C69_kdtree",
    "C69_beyond_half_refuted"
   ],
   "note": "Over the real numbers. The undamped theorem needs the correspondences to fix the pose (three source points off a line, or normals that see every motion). The damped theorems are for ICP with the source centroid at the origin. With damping the true pose itself is never reached, and beyond half the spacing the claim is false (refuted parts)."
  },
  {
   "property": "C70",
   "status": "proved",
   "theorems": [
    "C70_gauss_newton",
    "C70_levenberg_marquardt",
    "C70_robust",
    "C70_even_restriction",
    "C70_restricted_axis_refuted",
    "C70_origin_refuted"
   ],
   "note": "Over the real numbers. The refuted parts show that a restriction of one axis and a moved origin do change the result."
  },
  {
   "property": "C71",
   "status": "proved",
   "theorems": [
    "C71_kdtree_match",
    "C71_guess_returned",
    "C71_voxelmap_ignores",
    "C71_raw_points_dropped",
    "C71_parallel_downsampling_refuted",
    "C71_ignored_refuted"
   ],
   "note": "Doubles. The refuted parts: a NaN source point is not ignored with a kd-tree target, and parallel downsampling can emit one. The voxel map and downsampling parts are for x86 conversions of NaN to int; by the standard they are undefined. Gauss-Newton is left out because the factorisation of a NaN matrix is Eigen's."
  },
  {
   "property": "C72",
   "status": "proved",
   "theorems": [
    "C72_gauss_newton",
    "C72_levenberg_marquardt",
    "C72_robust",
    "C72_huber",
    "C72_cauchy",
    "C72_distance_rejector",
    "C72_restricted_rotation",
    "C72_restricted_translation",
    "C72_searches",
    "C72_kdtree",
    "C72_estimated",
    "C72_same_neighbours",
    "C72_damping_refuted"
   ],
   "note": "Over the reals. The library damps by default (1e-3 for Levenberg-Marquardt, 1e-6 for Gauss-Newton); C72_damping_refuted shows that then the unit matters, for every damping."
  },
  {
   "property": "C73",
   "status": "proved",
   "theorems": [
    "C73_covariance",
    "C73_normals",
    "C73_anywhere_refuted"
   ],
   "note": "IEEE doubles, every operation rounded separately (no fused multiply-add). The eigen-solver enters by a contract with an accuracy parameter, on the lower triangle it reads. Independence of the position, true over the reals, is refuted."
  },
  {
   "property": "C74",
   "status": "proved",
   "theorems": [
    "C74_increment",
    "C74_gauss_newton",
    "C74_levenberg_marquardt",
    "C74_align",
    "C74_growth",
    "C74_trajectory"
   ],
   "note": "IEEE doubles, every operation rounded separately, sums in the order of the model; the constants have slack but are stated for this order. std::sin and std::cos by a contract (finite, within 2^-52). The increments the run applied are assumed finite and at most 2^100 per axis; what a NaN increment does is C71."
  },
  {
   "property": "C75",
   "status": "proved",
   "theorems": [
    "C75_centroids",
    "C75_settled",
    "C75_twice",
    "C75_order"
   ],
   "note": "IEEE doubles. The inverse of the leaf size is any finite positive double. Results are compared as numbers: a zero may change its sign. Serial sampling only: the parallel ones may average a voxel in parts (C12)."
  },
  {
   "property": "C76",
   "status": "proved",
   "theorems": [
    "C76_prediction",
    "C76_lm_steps",
    "C76_gn_steps",
    "C76_lm_restricted",
    "C76_gn_restricted",
    "C76_attained"
   ],
   "note": "Exact reals; the covariances of a GICP problem are positive definite blocks as the estimators make them. The serial reduction; the parallel ones agree over the reals (C25). This completes C44, where a bound by the gradient alone is refuted."
  },
  {
   "property": "C77",
   "status": "proved",
   "theorems": [
    "C77_search",
    "C77_nearest",
    "C77_own_normals",
    "C77_source_normals_refuted",
    "C77_traits",
    "C77_rejector_refuted",
    "C77_general_factor",
    "C77_roll_pitch"
   ],
   "note": "Refuted for the source normals (undefined behaviour in general form: 5 to 10 target points and fewer source points) and for the feature test; proved for the rest. priority_queue is a quantified parameter with its contract; the bound on roll and pitch is over the reals."
  },
  {
   "property": "C78",
   "status": "proved",
   "theorems": [
    "C78_same_summands",
    "C78_rounding",
    "C78_registration",
    "C78_error"
   ],
   "note": "Strengthens C25 (exact arithmetic) to doubles, where bitwise agreement is refuted (C25_f64_bitwise_refuted). The schedules are those of the model of C25."
  },
  {
   "property": "C79",
   "status": "proved",
   "theorems": [
    "C79_normal_splitting",
    "C79_nearest"
   ],
   "note": "The eigensolver's direction is a parameter with the contract that its length is at most 1 + tau. C79_case is the cloud of C07_normal_projection_double_refuted, where a nearer point really is missed."
  },
  {
   "property": "C80",
   "status": "proved",
   "theorems": [
    "C80_scan_to_scan",
    "C80_empty_frame_refuted",
    "C80_scan_to_model",
    "C80_gap_refuted"
   ],
   "note": "numpy's matrix product and inverse are parameters; the scan-to-model theorems are for conversions to int that do not fail (X86). The refutations are general: any frames before, any frames after."
  },
  {
   "property": "C81",
   "status": "proved",
   "theorems": [
    "C81_statistics",
    "C81_batching",
    "C81_batching_refuted"
   ],
   "note": "Assumes round-to-nearest doubles and an exact conversion of counts up to 2^53, which an instance meets. The transformation of points by the pose is applied as computed; its own error is not part of this property."
  },
  {
   "property": "C82",
   "status": "proved",
   "theorems": [
    "C82_translation",
    "C82_every_angle",
    "C82_digits_refuted"
   ],
   "note": "Assumes round-to-nearest doubles. Sine and cosine are parameters with an error bound, or correctly rounded; an instance meets both. The true exponential is the solution at time one of the differential equation of a constant twist."
  },
  {
   "property": "C83",
   "status": "proved",
   "theorems": [
    "C83_wider",
    "C83_unlimited",
    "C83_sign"
   ],
   "note": "Serial reduction, doubles rounded to nearest. The property compares one linearisation at the same pose, not the ends of two runs, which may take different steps."
  },
  {
   "property": "C84",
   "status": "proved",
   "theorems": [
    "C84_distances",
    "C84_no_ties",
    "C84_ties_refuted"
   ],
   "note": "Doubles, axis-aligned splits, no early termination (epsilon zero), the same squared-norm summation order in both searches. Index equality under ties is refuted by a five-point cloud."
  }
 ]
}