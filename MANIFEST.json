{
 "claims": [
  {
   "property": "C01",
   "status": "proved",
   "theorems": [
    "C01_range_n",
    "C01_range_up",
    "C01_range_down",
    "C01_range_u64_refuted",
    "C01_range_overflow"
   ],
   "note": "Proved for bounds below 2^63; the range above is refuted with witnesses."
  },
  {
   "property": "C02",
   "status": "proved",
   "theorems": [
    "C02_unsigned_index",
    "C02_signed_index",
    "C02_signed_index_safe",
    "C02_narrow_index_refuted",
    "C02_narrow_index_diverges"
   ],
   "note": "Exact agreement for n <= 2^(w-1); memory safety unconditional; narrow-type failures as theorems."
  },
  {
   "property": "C03",
   "status": "proved",
   "theorems": [
    "C03_row_major",
    "C03_no_collision",
    "C03_every_element",
    "C03_out_of_range_stops"
   ],
   "note": ""
  },
  {
   "property": "C04",
   "status": "proved",
   "theorems": [
    "C04_flat_then_mult",
    "C04_mult_then_flat",
    "C04_flat_out_of_range",
    "C04_mult_wraps",
    "C04_mult_out_of_range_refuted",
    "C04_mult_zero_dim"
   ],
   "note": "Includes the silent wrap-around of mult_ids."
  },
  {
   "property": "C05",
   "status": "proved",
   "theorems": [
    "C05_walk",
    "C05_each_once",
    "C05_back_to_zero"
   ],
   "note": ""
  },
  {
   "property": "C06",
   "status": "proved",
   "theorems": [
    "C06_fresh",
    "C06_size_is_product",
    "C06_move_assign_refuted",
    "C06_overflow_refuted",
    "C06_reform_overflow_refuted",
    "C06_remove_repeated_refuted"
   ],
   "note": "Invariant over all programs of safe operations; the three exceptions are theorems ending in _refuted."
  },
  {
   "property": "C07",
   "status": "proved",
   "theorems": [
    "C07_push_scalar",
    "C07_push_slice",
    "C07_push_accepts",
    "C07_push_stops",
    "C07_push_first",
    "C07_push_empty_slice_refuted"
   ],
   "note": ""
  },
  {
   "property": "C08",
   "status": "proved",
   "theorems": [
    "C08_index_index",
    "C08_view_view",
    "C08_view_vec",
    "C08_vec_view",
    "C08_view_scalar",
    "C08_stored_distinct",
    "C08_size_mismatch",
    "C08_const_vec_refuted",
    "C08_const_view_refuted",
    "C08_range_of_view_refuted"
   ],
   "note": "All views obtained by subscripts; const views and ranges of views as theorems ending in _refuted."
  },
  {
   "property": "C09",
   "status": "proved",
   "theorems": [
    "C09_view_view",
    "C09_view_vec",
    "C09_vec_view",
    "C09_vec_vec",
    "C09_view_scalar",
    "C09_vec_scalar",
    "C09_combined_distinct",
    "C09_vec_scalar_refuted"
   ],
   "note": "All operators and overlap patterns; the vector op= own element case is the theorem C09_vec_scalar_refuted."
  },
  {
   "property": "C10",
   "status": "proved",
   "theorems": [
    "C10_full",
    "C10_up_to",
    "C10_from",
    "C10_between",
    "C10_out_of_bounds",
    "C10_reversed_throws"
   ],
   "note": "Flat range subscripts; reversed ranges throw std::length_error."
  },
  {
   "property": "C11",
   "status": "proved",
   "theorems": [
    "C11_where",
    "C11_where_increasing",
    "C11_where_first",
    "C11_where_last",
    "C11_complement",
    "C11_complement_reject",
    "C11_partition",
    "C11_complement_repeated_refuted"
   ],
   "note": "Complement with repeated ids is the theorem C11_complement_repeated_refuted."
  },
  {
   "property": "C12",
   "status": "proved",
   "theorems": [
    "C12_unique_ids",
    "C12_unique_ids_sorted",
    "C12_unique_ids_with",
    "C12_unique_values",
    "C12_unique_values_sorted",
    "C12_nan_refuted"
   ],
   "note": "Any weak order; NaN behaviour as a theorem."
  },
  {
   "property": "C13",
   "status": "proved",
   "theorems": [
    "C13_pairs_equal",
    "C13_left_once",
    "C13_exact",
    "C13_small_first",
    "C13_large_first_refuted",
    "C13_size_dependent_refuted",
    "C13_nan_refuted"
   ],
   "note": "Exact for duplicate-free inputs; dependence on argument sizes and NaN as theorems."
  },
  {
   "property": "C14",
   "status": "proved",
   "theorems": [
    "C14_intersection_sorted",
    "C14_union_sorted",
    "C14_intersection",
    "C14_union",
    "C14_as_sets"
   ],
   "note": "With multiplicities."
  },
  {
   "property": "C15",
   "status": "proved",
   "theorems": [
    "C15_lower_bound",
    "C15_upper_bound",
    "C15_bounds",
    "C15_bounds_interval",
    "C15_equal_range",
    "C15_equal_range_doc_refuted",
    "C15_int_argument",
    "C15_int_argument_refuted"
   ],
   "note": "equal_range documentation mismatch and truncated negative arguments as theorems."
  },
  {
   "property": "C16",
   "status": "proved",
   "theorems": [
    "C16_astar_find",
    "C16_empty_map",
    "C16_start_lost_refuted"
   ],
   "note": ""
  },
  {
   "property": "C17",
   "status": "proved",
   "theorems": [
    "C17_sort_stable",
    "C17_stable_unique",
    "C17_inplace_sort",
    "C17_agree",
    "C17_float_order",
    "C17_nan_last",
    "C17_greater_order"
   ],
   "note": "Stable sort, any weak order, NaN last."
  },
  {
   "property": "C18",
   "status": "proved",
   "theorems": [
    "C18_is_sorted_strict",
    "C18_after_sort_refuted",
    "C18_empty_refuted"
   ],
   "note": "is_sorted tests strict order; empty vector is undefined behaviour."
  },
  {
   "property": "C19",
   "status": "proved",
   "theorems": [
    "C19_reverse",
    "C19_shift",
    "C19_shift_inverse",
    "C19_shift_empty_refuted",
    "C19_transpose",
    "C19_transpose_involutive"
   ],
   "note": "Shift of an empty vector is undefined behaviour."
  },
  {
   "property": "C20",
   "status": "proved",
   "theorems": [
    "C20_removes_rows",
    "C20_past_the_end_stops",
    "C20_row_check_refuted",
    "C20_repeated"
   ],
   "note": "Exact result for distinct row indices; the wrong bound check is the theorem C20_row_check_refuted."
  },
  {
   "property": "C21",
   "status": "proved",
   "theorems": [
    "C21_append1",
    "C21_prepend1",
    "C21_append1_accepts",
    "C21_self_append_refuted",
    "C21_append_dim",
    "C21_prepend_dim",
    "C21_empty",
    "C21_shape_check_refuted"
   ],
   "note": "Any dimension and rank; missing shape check and self-append as theorems."
  },
  {
   "property": "C22",
   "status": "proved",
   "theorems": [
    "C22_reduce",
    "C22_reduce_defined",
    "C22_slices_partition",
    "C22_partial_total",
    "C22_bad_dimension",
    "C22_total",
    "C22_mean",
    "C22_count",
    "C22_weighted_sums",
    "C22_weighted_shape",
    "C22_empty_slices_abort"
   ],
   "note": "Any rank, dimension, shape and slice function; also total, mean, count and weighted sums in exact arithmetic."
  },
  {
   "property": "C23",
   "status": "proved",
   "theorems": [
    "C23_order_stat_unique",
    "C23_median_plain",
    "C23_median",
    "C23_median_nan",
    "C23_percentile",
    "C23_percentile_one_refuted",
    "C23_empty",
    "C23_weighted_percentile",
    "C23_weighted_percentile_no_weight",
    "C23_weighted_median_differs_refuted"
   ],
   "note": "NaNs ignored; the NaN answer of percentile(v,u>=1) is the theorem C23_percentile_one_refuted; weighted_percentile included."
  },
  {
   "property": "C24",
   "status": "proved",
   "theorems": [
    "C24_min",
    "C24_max",
    "C24_minmax",
    "C24_min_plain",
    "C24_values_and_ids",
    "C24_minmax_tie_refuted",
    "C24_empty",
    "C24_min_pairs",
    "C24_min_pairs_shape",
    "C24_min_pairs_nan_refuted",
    "C24_min_conversion_refuted"
   ],
   "note": "Tie-breaking, NaN and element-wise min/max; anomalies end in _refuted."
  },
  {
   "property": "C25",
   "status": "proved",
   "theorems": [
    "C25_trapezoids",
    "C25_linear_data",
    "C25_split",
    "C25_combination",
    "C25_cumul",
    "C25_cumul_last",
    "C25_empty_refuted",
    "C25_bounds",
    "C25_area_adds_up",
    "C25_area_of_all",
    "C25_area_linear_data",
    "C25_bounds_end_refuted",
    "C25_reversed_bounds_refuted",
    "C25_hinted",
    "C25_hinted_end_refuted",
    "C25_bad_hint_refuted",
    "C25_binned",
    "C25_binned_bounds_refuted"
   ],
   "note": "Exact rational arithmetic. Empty input, bounds at the last node, reversed bounds, bad hints and binned bounds are reported by theorems ending in _refuted."
  },
  {
   "property": "C26",
   "status": "proved",
   "theorems": [
    "C26_histogram",
    "C26_contiguous",
    "C26_make_bins",
    "C26_from_edges",
    "C26_from_centers",
    "C26_too_few_nodes",
    "C26_weighted",
    "C26_callback",
    "C26_callback_overlap_refuted",
    "C26_callback_stops_refuted",
    "C26_histogram2d",
    "C26_checks",
    "C26_in_bin",
    "C26_in_bin_open",
    "C26_in_bin_open_single_refuted"
   ],
   "note": "For every behaviour of std::partition. Values are rationals or NaN. The version with a function on overlapping bins and in_bin_open with one bin are reported by theorems ending in _refuted."
  },
  {
   "property": "C27",
   "status": "proved",
   "theorems": [
    "C27_cumul",
    "C27_cumul_reverse",
    "C27_cumul_reverse_short",
    "C27_cumul_reverse_refuted"
   ],
   "note": "cumul proved; cumul_reverse is shown to return y[i]+y[i+1] and C27_cumul_reverse_refuted refutes the suffix sum."
  },
  {
   "property": "C28",
   "status": "proved",
   "theorems": [
    "C28_split",
    "C28_cut_at_unique",
    "C28_round_trip",
    "C28_split_collapse",
    "C28_collapse",
    "C28_empty_separator_diverges",
    "C28_split_collapse_refuted"
   ],
   "note": "Characters are any bytes. Also the converse for separators that occur only at the joints; an empty separator never terminates."
  },
  {
   "property": "C29",
   "status": "proved",
   "theorems": [
    "C29_replace",
    "C29_identity",
    "C29_split_collapse",
    "C29_empty_pattern_diverges"
   ],
   "note": "An empty pattern never terminates."
  },
  {
   "property": "C30",
   "status": "proved",
   "theorems": [
    "C30_trim",
    "C30_idempotent",
    "C30_unchanged"
   ],
   "note": ""
  },
  {
   "property": "C31",
   "status": "proved",
   "theorems": [
    "C31_align_left",
    "C31_align_right",
    "C31_align_center"
   ],
   "note": ""
  },
  {
   "property": "C32",
   "status": "proved",
   "theorems": [
    "C32_distance",
    "C32_zero",
    "C32_symmetric",
    "C32_triangle"
   ],
   "note": ""
  },
  {
   "property": "C33",
   "status": "proved",
   "theorems": [
    "C33_cut",
    "C33_cut_exact",
    "C33_cut_refuted",
    "C33_cut_zero",
    "C33_get_word",
    "C33_get_word_from_end",
    "C33_get_word_refuted"
   ],
   "note": "The lost remainder of cut and the lost word of get_word on one-word strings are theorems ending in _refuted. The float division of cut is exact below 2^24 characters."
  },
  {
   "property": "C34",
   "status": "proved",
   "theorems": [
    "C34_sha1",
    "C34_padding",
    "C34_length",
    "C34_hash",
    "C34_boundaries_refuted"
   ],
   "note": "Up to 2^29 bytes, above which bytelength << 3 is undefined. hash(args) digests an ambiguous concatenation: C34_boundaries_refuted."
  },
  {
   "property": "C35",
   "status": "proved",
   "theorems": [
    "C35_no_slash",
    "C35_split",
    "C35_trailing_slash",
    "C35_root",
    "C35_trailing_slash_refuted",
    "C35_cases",
    "C35_extension",
    "C35_extension_refuted",
    "C35_directorize",
    "C35_directorize_idempotent",
    "C35_is_absolute",
    "C35_mkdir"
   ],
   "note": "Also is_absolute_path and the sequence of directories created by mkdir. Base name of 'dir/' and extension found in a directory name end in _refuted."
  },
  {
   "property": "C36",
   "status": "proved",
   "theorems": [
    "C36_linearizable",
    "C36_fifo",
    "C36_no_data_race",
    "C36_wait_free"
   ],
   "note": "Small-step machine with sequentially consistent interleaving; the plain accesses are shown not to race. size()/empty() by the consumer."
  },
  {
   "property": "C37",
   "status": "proved",
   "theorems": [
    "C37_memory_safe",
    "C37_destructor",
    "C37_clear"
   ],
   "note": "Dead-node accesses are UB in the model and never happen; any dead address may be reused by the allocator."
  },
  {
   "property": "C38",
   "status": "proved",
   "theorems": [
    "C38_in_order",
    "C38_wait_complete",
    "C38_wait_returns",
    "C38_push_never_blocks"
   ],
   "note": "The job queue is an atomic FIFO here (justified by C36). Jobs are opaque."
  },
  {
   "property": "C39",
   "status": "proved",
   "theorems": [
    "C39_safe",
    "C39_no_worker_ub",
    "C39_in_order",
    "C39_round_robin",
    "C39_drain_join",
    "C39_consume_all_returns",
    "C39_join_returns",
    "C39_join_refuted",
    "C39_consume_after_join_refuted",
    "C39_restart_refuted"
   ],
   "note": "Queues atomic (C36). Refuted: join() alone loses items; consume_all() after join() and start() on a running pool never return; no worker: UB."
  },
  {
   "property": "C40",
   "status": "proved",
   "theorems": [
    "C40_each_once",
    "C40_terminates",
    "C40_two_chunks",
    "C40_serial",
    "C40_one_worker_refuted",
    "C40_first_index_refuted"
   ],
   "note": "Refuted for one chunk (one worker) and for a first index > 0; proved for [0,e) with at least two chunks."
  },
  {
   "property": "C41",
   "status": "proved",
   "theorems": [
    "C41_point",
    "C41_vector",
    "C41_vector_is_point",
    "C41_function",
    "C41_nodes",
    "C41_between",
    "C41_linear",
    "C41_with_errors",
    "C41_errors_size_refuted",
    "C41_repeated_node_refuted",
    "C41_sizes",
    "C41_point_sizes"
   ],
   "note": "Exact rational arithmetic, a division by zero is a non-finite value. Repeated nodes and error vectors of another size are reported by theorems ending in _refuted."
  },
  {
   "property": "C42",
   "status": "proved",
   "theorems": [
    "C42_build",
    "C42_strict",
    "C42_accepts_points",
    "C42_membership",
    "C42_vector",
    "C42_dims",
    "C42_polygon",
    "C42_empty_UB",
    "C42_collinear_line",
    "C42_single_refuted",
    "C42_collinear_refuted",
    "C42_aligned_start_refuted",
    "C42_integer_polygon_refused",
    "C42_no_check_refused"
   ],
   "note": ""
  },
  {
   "property": "C43",
   "status": "proved",
   "theorems": [
    "C43_lu_solve",
    "C43_lu_invert",
    "C43_lu_invert_no_pivot_refuted",
    "C43_lu_success",
    "C43_lu_total",
    "C43_determinant",
    "C43_invert",
    "C43_solve",
    "C43_dims",
    "C43_solve_dims"
   ],
   "note": ""
  },
  {
   "property": "C44",
   "status": "proved",
   "theorems": [
    "C44_decompose",
    "C44_decompose_lower",
    "C44_use",
    "C44_lower",
    "C44_dims",
    "C44_solve_dims",
    "C44_symmetrize"
   ],
   "note": ""
  },
  {
   "property": "C45",
   "status": "proved",
   "theorems": [
    "C45_nearest",
    "C45_unique",
    "C45_mirror",
    "C45_no_mirror",
    "C45_threads",
    "C45_thread_ties_refuted",
    "C45_more_threads_than_sources",
    "C45_missing_angular_refuted",
    "C45_empty"
   ],
   "note": ""
  },
  {
   "property": "C46",
   "status": "proved",
   "theorems": [
    "C46_clean_best",
    "C46_mutual_nearest",
    "C46_unmatched_abort",
    "C46_no_mirror_abort"
   ],
   "note": ""
  },
  {
   "property": "C47",
   "status": "proved",
   "theorems": [
    "C47_labels",
    "C47_output",
    "C47_area_refuted",
    "C47_first_id",
    "C47_min_area",
    "C47_min_area_refuted"
   ],
   "note": ""
  },
  {
   "property": "C48",
   "status": "proved",
   "theorems": [
    "C48_mask_inflate"
   ],
   "note": ""
  },
  {
   "property": "C49",
   "status": "proved",
   "theorems": [
    "C49_subregion",
    "C49_index_lists",
    "C49_region_size",
    "C49_inverted_region_refuted",
    "C49_enlarge",
    "C49_shrink",
    "C49_shrink_enlarge",
    "C49_shrink_enlarge_refuted",
    "C49_recenter"
   ],
   "note": ""
  },
  {
   "property": "C50",
   "status": "proved",
   "theorems": [
    "C50_translate",
    "C50_translate_general",
    "C50_large_shift_refuted",
    "C50_shift",
    "C50_empty_UB",
    "C50_flip_x",
    "C50_flip_y",
    "C50_recenter"
   ],
   "note": ""
  },
  {
   "property": "C51",
   "status": "proved",
   "theorems": [
    "C51_convolve",
    "C51_even_kernel",
    "C51_large_kernel_UB"
   ],
   "note": ""
  },
  {
   "property": "C52",
   "status": "proved",
   "theorems": [
    "C52_rectangular",
    "C52_ragged_stops",
    "C52_empty_first_refuted"
   ],
   "note": ""
  },
  {
   "property": "C53",
   "status": "proved",
   "theorems": [
    "C53_cartesian",
    "C53_safe",
    "C53_outside_stops",
    "C53_reversed_refuted"
   ],
   "note": "Safety holds for all subscripts; the reversed-range anomaly is a theorem."
  },
  {
   "property": "C54",
   "status": "proved",
   "theorems": [
    "C54_is_any_of"
   ],
   "note": ""
  },
  {
   "property": "C55",
   "status": "proved",
   "theorems": [
    "C55_split_any_of",
    "C55_words_unique"
   ],
   "note": ""
  },
  {
   "property": "C56",
   "status": "proved",
   "theorems": [
    "C56_begins_with",
    "C56_ends_with",
    "C56_erase_begin",
    "C56_erase_end",
    "C56_counts"
   ],
   "note": ""
  },
  {
   "property": "C57",
   "status": "proved",
   "theorems": [
    "C57_replace_block",
    "C57_empty_marks_diverge"
   ],
   "note": "replace_blocks (vector version) not modelled."
  },
  {
   "property": "C58",
   "status": "proved",
   "theorems": [
    "C58_wrap",
    "C58_wide_indent_refuted",
    "C58_ellipsis_refuted"
   ],
   "note": "Anomalies of wide indents and of the ellipsis are theorems ending in _refuted."
  },
  {
   "property": "C59",
   "status": "proved",
   "theorems": [
    "C59_boxcar",
    "C59_large_window_UB"
   ],
   "note": ""
  },
  {
   "property": "C60",
   "status": "proved",
   "theorems": [
    "C60_foreach_segment",
    "C60_seed_twice",
    "C60_once_refuted"
   ],
   "note": ""
  },
  {
   "property": "C61",
   "status": "proved",
   "theorems": [
    "C61_mat_mat",
    "C61_mat_vec",
    "C61_vec_mat",
    "C61_dims",
    "C61_diagonal",
    "C61_diagonal_dims",
    "C61_as_diagonal",
    "C61_identity",
    "C61_transformations"
   ],
   "note": ""
  },
  {
   "property": "C62",
   "status": "proved",
   "theorems": [
    "C62_nearest",
    "C62_mirror",
    "C62_same_as_brute",
    "C62_far_corner_refuted",
    "C62_twice_refuted",
    "C62_aligned_UB",
    "C62_self_no_reverse",
    "C62_sqrt_up"
   ],
   "note": ""
  },
  {
   "property": "C63",
   "status": "proved",
   "theorems": [
    "C63_vec_vec",
    "C63_vec_scalar",
    "C63_scalar_vec",
    "C63_temp_vec",
    "C63_vec_temp",
    "C63_temp_vec_types",
    "C63_vec_temp_types",
    "C63_temp_temp",
    "C63_temp_scalar",
    "C63_scalar_temp",
    "C63_temp_view_refuted",
    "C63_temp_scalar_refuted",
    "C63_compare",
    "C63_compare_scalar",
    "C63_scalar_compare",
    "C63_logical",
    "C63_logical_scalar",
    "C63_logical_temp",
    "C63_unary",
    "C63_not_temp",
    "C63_total",
    "C63_int_div",
    "C63_print"
   ],
   "note": ""
  },
  {
   "property": "C64",
   "status": "proved",
   "theorems": [
    "C64_vectorize",
    "C64_vectorize2",
    "C64_vectorize2_scalar",
    "C64_vectorize_temp",
    "C64_vectorize2_temp",
    "C64_vectorize2_temp_scalar",
    "C64_lambda_first",
    "C64_lambda_first_moved_refuted",
    "C64_lambda",
    "C64_lambda_void",
    "C64_lambda_scalar",
    "C64_same_dims",
    "C64_same_dims_refuted",
    "C64_same_size_refuted"
   ],
   "note": ""
  },
  {
   "property": "C65",
   "status": "proved",
   "theorems": [
    "C65_uniform",
    "C65_unique",
    "C65_value_unique",
    "C65_uniform_node",
    "C65_uniform_line",
    "C65_uniform_far_UB",
    "C65_nonuniform",
    "C65_nonuniform_node",
    "C65_equal_spacing",
    "C65_nonuniform_refuted",
    "C65_kink",
    "C65_sizes",
    "C65_sizes_uniform",
    "C65_vec",
    "C65_vec_uniform",
    "C65_bicubic",
    "C65_bicubic_node",
    "C65_bicubic_exact",
    "C65_bicubic_default",
    "C65_bicubic_single_UB"
   ],
   "note": "Natural spline and uniqueness for nodes 0, 1, 2, ... and equally spaced nodes; the kinks on other nodes are theorems (wrong divisor in the code). Exact rationals."
  },
  {
   "property": "C66",
   "status": "proved",
   "theorems": [
    "C66_bilinear",
    "C66_pixels",
    "C66_bilinear_pixel",
    "C66_bilinear_exact",
    "C66_bilinear_between",
    "C66_single_line_UB",
    "C66_single_column_UB",
    "C66_strict",
    "C66_strict_last_refuted",
    "C66_grid",
    "C66_grid_exact",
    "C66_grid_sizes",
    "C66_grid_vec",
    "C66_grid_vec_dims",
    "C66_rebin"
   ],
   "note": "Exact rationals; out-of-bounds accesses for single lines and columns are theorems."
  },
  {
   "property": "C67",
   "status": "proved",
   "theorems": [
    "C67_rgen_evenly",
    "C67_rgen_ends",
    "C67_rgen_one",
    "C67_rgen_none",
    "C67_rgen_unsigned_decreasing_refuted",
    "C67_step_refused",
    "C67_step_point",
    "C67_step_range",
    "C67_step_ends",
    "C67_step_type_dependent_refuted",
    "C67_clamp",
    "C67_clamp_within",
    "C67_clamp_mixed_refuted",
    "C67_sign"
   ],
   "note": "Doubles as exact rationals; rgen_log is not modelled."
  },
  {
   "property": "C68",
   "status": "proved",
   "theorems": [
    "C68_visits",
    "C68_visits_once",
    "C68_lines_cover",
    "C68_outside_refused",
    "C68_distance",
    "C68_iterator_laws",
    "C68_column_end_refuted",
    "C68_row_end_legal"
   ],
   "note": "Iterators as integer positions; positions not allowed for std::vector are a finding."
  },
  {
   "property": "C69",
   "status": "proved",
   "theorems": [
    "C69_sum",
    "C69_affine",
    "C69_linear",
    "C69_refused",
    "C69_positive_refuted"
   ],
   "note": "Exact rationals."
  },
  {
   "property": "C70",
   "status": "proved",
   "theorems": [
    "C70_used_lines",
    "C70_fields_unique",
    "C70_fields_exist",
    "C70_read_table",
    "C70_bad_row_aborts",
    "C70_layout_vector",
    "C70_layout_columns",
    "C70_scalar_rows_aborts",
    "C70_never_undefined",
    "C70_columns_overflow_UB",
    "C70_skip_first_too_large_refused_by_exception",
    "C70_empty_first_field_refuted",
    "C70_empty_pattern_refuted"
   ],
   "note": "Parsers are arbitrary partial functions; files that cannot be opened are not modelled."
  },
  {
   "property": "C71",
   "status": "proved",
   "theorems": [
    "C71_write_table",
    "C71_aligned",
    "C71_roundtrip",
    "C71_roundtrip_vectors",
    "C71_csv_roundtrip",
    "C71_csv_roundtrip_vectors",
    "C71_header_mismatch_aborts",
    "C71_size_mismatch_uncaught",
    "C71_empty_column_UB",
    "C71_columns_too_many_UB",
    "C71_columns_too_few_refuted"
   ],
   "note": "Cells are strings (after to_string)."
  },
  {
   "property": "C72",
   "status": "proved",
   "theorems": [
    "C72_linfit",
    "C72_linfit_exact",
    "C72_linfit_pack",
    "C72_linfit_pack_rows",
    "C72_linfit_pack_mismatch_refused",
    "C72_linfit_sizes_refused",
    "C72_linfit_dims_refuted"
   ],
   "note": "Exact arithmetic in a real closed field; y is a vec; errors are not 0; NO_LAPACK."
  },
  {
   "property": "C73",
   "status": "proved",
   "theorems": [
    "C73_batch_new",
    "C73_batch_update",
    "C73_batch_fit",
    "C73_batch_fit_nochi2",
    "C73_pack_batch",
    "C73_update_range_refused",
    "C73_update_short_UB",
    "C73_update_chi2_first_UB",
    "C73_pack_batch_short_UB",
    "C73_batch_scalar_error_refused"
   ],
   "note": "Exact arithmetic; the errors are a vec; at least one point."
  },
  {
   "property": "C74",
   "status": "proved",
   "theorems": [
    "C74_linfit_nn",
    "C74_linfit_nn_optimal",
    "C74_linfit_nn_pack",
    "C74_linfit_nn_success_refuted",
    "C74_linfit_nn_nan_refuted",
    "C74_linfit_nn_negative_refuted"
   ],
   "note": "Exact arithmetic. The rate of convergence is not stated."
  },
  {
   "property": "C75",
   "status": "proved",
   "theorems": [
    "C75_read_args",
    "C75_unrecognized",
    "C75_invalid",
    "C75_not_modified_refuted",
    "C75_blocked_refuted",
    "C75_too_few_names_throws",
    "C75_name_text_refuted"
   ],
   "note": "The conversion of one value is a parameter (C77 for integers)."
  },
  {
   "property": "C76",
   "status": "proved",
   "theorems": [
    "C76_write_args",
    "C76_too_few_names_throws",
    "C76_round_trip",
    "C76_text_round_trip_refuted",
    "C76_write_named_refuted",
    "C76_serialize",
    "C76_serialize_blank_refuted",
    "C76_make_cmd",
    "C76_make_cmd_refuted"
   ],
   "note": "The shell is a model of word splitting with double quotes, for texts without special characters."
  },
  {
   "property": "C77",
   "status": "proved",
   "theorems": [
    "C77_from_string_signed",
    "C77_from_string_unsigned",
    "C77_negative_refuted",
    "C77_blank",
    "C77_out_of_range",
    "C77_failure_modifies_refuted",
    "C77_to_string",
    "C77_round_trip",
    "C77_from_string_vec",
    "C77_from_string_view",
    "C77_special",
    "C77_special_blank_refuted",
    "C77_int_argument"
   ],
   "note": "std::istream extraction of integers in the C locale, base 10, is part of the model. Floating point numbers are in C82."
  },
  {
   "property": "C78",
   "status": "proved",
   "theorems": [
    "C78_split",
    "C78_pop",
    "C78_total",
    "C78_header",
    "C78_header_unique",
    "C78_bake",
    "C78_dot_refuted",
    "C78_literal_UB",
    "C78_empty_refuted",
    "C78_no_column_UB"
   ],
   "note": "Format tags around a vec<2> are not modelled."
  },
  {
   "property": "C79",
   "status": "proved",
   "theorems": [
    "C79_time_str",
    "C79_time_str_small",
    "C79_zero_UB",
    "C79_thousand_refuted",
    "C79_seconds_str",
    "C79_seconds_range_UB"
   ],
   "note": "Exact rational number of seconds; the rounding of floating point operations is not modelled."
  },
  {
   "property": "C80",
   "status": "proved",
   "theorems": [
    "C80_list_files",
    "C80_list_directories",
    "C80_no_directory",
    "C80_session",
    "C80_close_UB"
   ],
   "note": "opendir, readdir, closedir, stat and fnmatch are modelled or parameters; the directory does not change while it is read."
  },
  {
   "property": "C81",
   "status": "proved",
   "theorems": [
    "C81_mkdir",
    "C81_mkdir_fails",
    "C81_file_refuted"
   ],
   "note": "A model of the file system without symbolic links; paths without \"..\"."
  },
  {
   "property": "C82",
   "status": "proved",
   "theorems": [
    "C82_from_string",
    "C82_special",
    "C82_to_string",
    "C82_to_string_plain",
    "C82_round_trip",
    "C82_digits_refuted"
   ],
   "note": "The stream operators of libstdc++ for double in the C locale are part of the model; the rounding of the number read to the closest double is not modelled."
  },
  {
   "property": "C83",
   "status": "proved",
   "theorems": [
    "C83_accepts",
    "C83_sex2deg",
    "C83_sign_refuted",
    "C83_deg2sex",
    "C83_round_trip",
    "C83_lost_sign_refuted",
    "C83_sixty_refuted",
    "C83_tiny_refuted",
    "C83_range_UB",
    "C83_vec"
   ],
   "note": "Exact arithmetic instead of double."
  },
  {
   "property": "C84",
   "status": "proved",
   "theorems": [
    "C84_distance",
    "C84_sign",
    "C84_constructed",
    "C84_vec",
    "C84_vec_dims",
    "C84_caches",
    "C84_single_point_refuted",
    "C84_integer_hull_refuted",
    "C84_aligned_refuted",
    "C84_stale_vectors_refuted",
    "C84_checked_sizes"
   ],
   "note": "Arithmetic of an arbitrary real closed field. The result is characterised as the minimum of the distance over all border points. Findings: infinite distance for a hull reduced to a point; distance 0 everywhere for integer hulls with a face that is not parallel to an axis; points aligned with a flat hull count as inside; stale vectors when mark_as_dirty() is not called."
  },
  {
   "property": "C85",
   "status": "proved",
   "theorems": [
    "C85_centre",
    "C85_offset",
    "C85_cutout",
    "C85_window",
    "C85_qstack",
    "C85_sources",
    "C85_overlay",
    "C85_weights",
    "C85_half_pixel_aborts",
    "C85_last_column_refuted",
    "C85_weights_covered_refuted",
    "C85_weights_sections_refuted",
    "C85_weights_sections_lost_refuted",
    "C85_other_size_aborts"
   ],
   "note": "Positions (ad2xy, wcslib) and the pixels of the files (cfitsio) are data of the model. Findings: positions half way between two pixels near the left or bottom edge abort; the last column and row are treated as outside; with weights and sections, the cubes may belong to different sources and the offsets are lost."
  },
  {
   "property": "C86",
   "status": "proved",
   "theorems": [
    "C86_pool",
    "C86_first",
    "C86_add",
    "C86_target",
    "C86_merge",
    "C86_merge_scalar",
    "C86_merge_rows",
    "C86_merge_guard",
    "C86_rows_guard",
    "C86_plain",
    "C86_flux_guard",
    "C86_merge_flux",
    "C86_empty_selection_refuted",
    "C86_plain_first_undefined",
    "C86_empty_pool_aborts",
    "C86_stale_match_refuted",
    "C86_notes_refuted",
    "C86_late_flux_aborts"
   ],
   "note": "The cross match itself is a parameter (see C45 and C62). Findings: an empty selection selects everything; ngal is uninitialised; an empty pool makes the next catalogue abort; saved cross matches are reused whenever the sizes agree; notes of another length are accepted; merge_flux aborts after sources were added."
  },
  {
   "property": "C87",
   "status": "proved",
   "theorems": [
    "C87_same",
    "C87_floor",
    "C87_sizes",
    "C87_idle_aborts"
   ],
   "note": "Linear mode, exact arithmetic as in C62; threads work on separate results merged after joining, so they are modelled one after the other; floor(n/float(thread)) is a parameter. The abort with idle threads is proved as a finding."
  },
  {
   "property": "C88",
   "status": "proved",
   "theorems": [
    "C88_fit",
    "C88_best_renorm",
    "C88_best_plain",
    "C88_sim",
    "C88_sizes_abort",
    "C88_plain_flux_refuted"
   ],
   "note": "The branch without upper limits (278-339); exact rational arithmetic; the fluxes of the templates in the bands and the random numbers are inputs. The fluxes returned without renorm are a finding."
  },
  {
   "property": "C89",
   "status": "proved",
   "theorems": [
    "C89_inversion",
    "C89_fit",
    "C89_best",
    "C89_singular_refuted",
    "C89_limits_constraint_refuted",
    "C89_limits_flux_refuted",
    "C89_sim_deviate_refuted",
    "C89_no_lapack_refuted",
    "C89_no_library_UB"
   ],
   "note": "The branch without upper limits (453-541) is proved with exact rational arithmetic for any inversion routine meeting its contract (the contract is shown to be satisfiable); of the branch with upper limits (389-452) only the loop, the returned fluxes and the simulated deviates are modelled, mpfit being a parameter. Six findings."
  },
  {
   "property": "C90",
   "status": "proved",
   "theorems": [
    "C90_mask",
    "C90_mask_negative",
    "C90_mask_edge_refuted",
    "C90_mask_empty_UB",
    "C90_mask_far_UB",
    "C90_symmetric",
    "C90_middle_refuted",
    "C90_circle",
    "C90_small_circle_refuted",
    "C90_box",
    "C90_flat_box_refuted",
    "C90_far_box_UB",
    "C90_profile_first",
    "C90_profile_constant",
    "C90_profile_refuted",
    "C90_profile_none_abort"
   ],
   "note": "Exact arithmetic; for boxes, lengths are integers of an arbitrary unit and the cosine and sine rationals with ca*ca+sa*sa = k*k. in_convex_hull is the model of C42. Nine findings."
  },
  {
   "property": "C91",
   "status": "proved",
   "theorems": [
    "C91_region",
    "C91_unreadable",
    "C91_comment",
    "C91_global",
    "C91_system",
    "C91_file",
    "C91_wcs_round_trip",
    "C91_physical_round_trip_refuted",
    "C91_other_axes_refuted",
    "C91_write_converted",
    "C91_conversions",
    "C91_reset_refuted",
    "C91_text_refuted",
    "C91_options_lost_refuted",
    "C91_write_guard",
    "C91_physical_only"
   ],
   "note": "Numbers written are assumed to be read again with the same value (12 digits are printed) and to contain none of the separators of the format. sex2deg (see SexModel.v) is a parameter. Warnings are not modelled. Five findings."
  },
  {
   "property": "C92",
   "status": "proved",
   "theorems": [
    "C92_result",
    "C92_shift_UB",
    "C92_jump_UB",
    "C92_total",
    "C92_cubic",
    "C92_three_zeros",
    "C92_exact_refuted",
    "C92_empty",
    "C92_reversed",
    "C92_multiple",
    "C92_clip",
    "C92_clip_half",
    "C92_clip_nan",
    "C92_clip_empty_abort",
    "C92_clip_equal_refuted"
   ],
   "note": "Exact arithmetic; the function to integrate is any function of rational numbers that returns finite values. Findings: no limit on the number of rounds, so that a jump of the function leads to undefined behaviour with the default tolerance; a premature stop returns 0 for a positive polynomial; sigma_clip discards all other values when more than half are equal."
  },
  {
   "property": "C93",
   "status": "proved",
   "theorems": [
    "C93_total",
    "C93_segments",
    "C93_distance",
    "C93_aligned",
    "C93_labels",
    "C93_empty",
    "C93_distance_refuted",
    "C93_label_refuted"
   ],
   "note": "Findings: the distance is not always the distance to the nearest pixel, and the label of a pixel can be the one of another segment than the one whose pixel is in imap, though it is farther. Squared distances are integers, exact in the doubles of the source for maps below 2^26 pixels on a side."
  },
  {
   "property": "C94",
   "status": "proved",
   "theorems": [
    "C94_segments",
    "C94_peaks",
    "C94_separation",
    "C94_threshold",
    "C94_connected",
    "C94_highest",
    "C94_account",
    "C94_barycentre",
    "C94_lowest",
    "C94_area_refuted",
    "C94_barycentre_refuted",
    "C94_single_refuted",
    "C94_island_refuted",
    "C94_highest_refuted",
    "C94_reuse_abort",
    "C94_empty_UB",
    "C94_first_id"
   ],
   "note": "Findings: the peak is counted twice in area, flux and barycentre (C94_account, C94_area_refuted, C94_barycentre_refuted); the lowest pixel of the image is never segmented; bright pixels within reach of a peak but not connected to it lose their label; after a merge the peak need not be the brightest pixel; an output used twice stops the program because out.id is not emptied; an empty image reads index npos. Pixel values are exact rationals, so rounding of the sums is not covered; the message of lines 1241-1243 is not modelled."
  },
  {
   "property": "C95",
   "status": "proved",
   "theorems": [
    "C95_overlap",
    "C95_area_unique",
    "C95_area",
    "C95_area_refuted",
    "C95_pixel",
    "C95_tiling",
    "C95_regrid",
    "C95_linear",
    "C95_mean",
    "C95_uniform",
    "C95_holes",
    "C95_flux",
    "C95_translation",
    "C95_rotation_refuted",
    "C95_border_refuted",
    "C95_aligned_refuted",
    "C95_coincident_refuted",
    "C95_linear_drop_refuted",
    "C95_skewed_refuted",
    "C95_far_UB",
    "C95_dims"
   ],
   "note": "Findings: a projection larger than the image, or across its border, gives its whole area to one pixel when the part on the image is in one pixel; aligned first corners or coincident corners lose the pixel; the linearised area ignores pixfrac and the angle between the axes; a rotation below 0.001 counts as a translation; polyon_area is wrong for polygons that are not convex; coordinates beyond 2^63 are undefined. Coordinates are exact rationals, areas are integrals of sections of the plane with rational bounds; WCSLIB is a parameter."
  },
  {
   "property": "C96",
   "status": "proved",
   "theorems": [
    "C96_regrid",
    "C96_linear",
    "C96_place",
    "C96_on_pixel",
    "C96_between",
    "C96_translation",
    "C96_translation_refuted",
    "C96_translation_UB",
    "C96_translation_wide_refuted",
    "C96_first_refuted",
    "C96_axes_UB",
    "C96_axes_refuted",
    "C96_small_UB"
   ],
   "note": "Findings: with linearize, a translation by whole pixels goes in the wrong direction, reads outside of a source smaller than the destination and mixes the lines of a wider one; the nearest method never uses the first line and column; astrometries with different axes write outside the result; sources that are empty (linear) or of a single line (cubic) are read out of bounds. Coordinates are exact; WCSLIB is a parameter."
  },
  {
   "property": "C97",
   "status": "proved",
   "theorems": [
    "C97_translate",
    "C97_translate_whole",
    "C97_identity_refuted",
    "C97_scale",
    "C97_scale_bicubic",
    "C97_scale_zero_UB",
    "C97_rotate",
    "C97_rotate_bicubic",
    "C97_rotate_single_UB",
    "C97_quarter",
    "C97_middle",
    "C97_middle_refuted",
    "C97_between",
    "C97_translate_bicubic",
    "C97_bispline_zero",
    "C97_default_refuted",
    "C97_spread_undefined",
    "C97_thin"
   ],
   "note": "Findings: no movement is an identity, the last line and column are always lost (even by translate(v,0,0), scale(v,1), rotate(v,0)); the middle pixel is lost in images of 2 lines or columns; a factor of 0 is undefined behaviour; rotate_bicubic of a single line reads out of bounds; translate_bicubic ignores its default value, and one pixel that is not finite makes its whole result not finite. Positions are exact; cosine and sine are parameters."
  },
  {
   "property": "C98",
   "status": "proved",
   "theorems": [
    "C98_cutout",
    "C98_mosaic",
    "C98_distortion",
    "C98_default_refuted",
    "C98_uncovered_header_refuted",
    "C98_no_scale_UB",
    "C98_no_images_abort",
    "C98_far_UB"
   ],
   "note": "Findings: a finite default value (0) hides the pixels of later images; the header of a source that is not covered has NAXIS 0 x 0 although the image returned is (2 hs + 1)^2, and keeps what the caller's header held; no pixel size, or 0, and sources projected beyond 2^63 are undefined behaviour; asking for a header without images fails. Positions are exact; the projection of each image is a function parameter; reading FITS files is abstracted to reading pixels."
  },
  {
   "property": "C99",
   "status": "proved",
   "theorems": [
    "C99_getkey",
    "C99_getkey_string",
    "C99_setkey",
    "C99_set_get",
    "C99_set_other",
    "C99_set_size",
    "C99_too_long",
    "C99_end_refuted",
    "C99_slash_refuted",
    "C99_slash_comment_refuted",
    "C99_quotes_refuted",
    "C99_unaligned_refuted",
    "C99_blank_key_refuted",
    "C99_ampersand_refuted"
   ],
   "note": "Findings: the letters END anywhere in the last card are taken for the END card, and the new card is then inserted in the middle of it; a slash within quotes cuts the string, and its rest becomes the comment of the next value; quotes at the end are all removed; headers that are not a multiple of 80 characters are corrupted silently; keys with blanks at the ends are added but never found; a long value can lose its last characters to an ampersand. Values are texts: to_string and from_string are separate (C77)."
  },
  {
   "property": "C100",
   "status": "proved",
   "theorems": [
    "C100_parse",
    "C100_serialize",
    "C100_roundtrip",
    "C100_continue",
    "C100_filter",
    "C100_filter_get",
    "C100_comment_refuted",
    "C100_quotes_refuted",
    "C100_first_continue_UB",
    "C100_empty_continue_UB",
    "C100_continue_blank_refuted",
    "C100_long_refuted",
    "C100_double_refuted",
    "C100_prefix_refuted"
   ],
   "note": "For all lists of cards: parsing is one-to-one with an independent reading relation (C100_parse), the layout of written cards (C100_serialize), the round trip for normal keywords (C100_roundtrip), continued strings (C100_continue), the cards kept by filter_wcs (C100_filter) and the values found after it (C100_filter_get). Findings: COMMENT text with = or / is split (C100_comment_refuted), doubled quotes (C100_quotes_refuted), CONTINUE first (C100_first_continue_UB), empty continued strings (C100_empty_continue_UB), lost blanks (C100_continue_blank_refuted), long strings cut on writing (C100_long_refuted), RADECSYS and SECPIX doubled (C100_double_refuted), names compared by prefix (C100_prefix_refuted)."
  },
  {
   "property": "C101",
   "status": "proved",
   "theorems": [
    "C101_sed2flux",
    "C101_flat",
    "C101_linear",
    "C101_bounds",
    "C101_uncovered",
    "C101_rows",
    "C101_end_refuted",
    "C101_before_UB",
    "C101_single_refuted",
    "C101_luminosity",
    "C101_luminosity_uncovered",
    "C101_luminosity_refuted",
    "C101_lir_end_refuted"
   ],
   "note": "Exact rationals instead of doubles; the filter and the spectrum strictly increasing in wavelength. sed_convert is a ratio of two of these fluxes with a unit conversion and is not modelled."
  },
  {
   "property": "C102",
   "status": "proved",
   "theorems": [
    "C102_range",
    "C102_same",
    "C102_direction",
    "C102_normal",
    "C102_vector",
    "C102_vector_dims",
    "C102_nan",
    "C102_far_refuted",
    "C102_unique_refuted",
    "C102_inf_diverges"
   ],
   "note": "Exact rationals with infinities and NaN; with doubles the loops on the right ascension also never end when it is so large that 360 is rounded away."
  },
  {
   "property": "C103",
   "status": "proved",
   "theorems": [
    "C103_flux",
    "C103_lsun_roundtrip",
    "C103_ujy_roundtrip",
    "C103_mag_roundtrip",
    "C103_flux_roundtrip",
    "C103_absolute",
    "C103_lsunmag_roundtrip",
    "C103_cgs_roundtrip",
    "C103_cgs",
    "C103_cgs_refuted"
   ],
   "note": "Exact rationals; dpi, log10 and e10 are parameters. mag2lsun as written has a template parameter that cannot be deduced; it is modelled for a call that names it."
  },
  {
   "property": "C104",
   "status": "proved",
   "theorems": [
    "C104_rejection",
    "C104_limit",
    "C104_box",
    "C104_circle",
    "C104_power_base",
    "C104_power",
    "C104_level",
    "C104_last_refuted",
    "C104_option_refuted",
    "C104_zero_levels_refuted",
    "C104_short_range_abort"
   ],
   "note": "Generators are arbitrary state machines, numbers exact rationals; the point of the circle for two random numbers is a parameter. Findings: the last position drawn is not looked at, the option max_iter is ignored by the rejection sampling of randpos_power_circle, levels = 0 makes more positions than levels = 1, ranges shorter than two stop the program."
  },
  {
   "property": "C105",
   "status": "proved",
   "theorems": [
    "C105_range",
    "C105_exact",
    "C105_even",
    "C105_negative_refuted",
    "C105_round_refuted",
    "C105_overflow",
    "C105_whole_range_refuted",
    "C105_coin",
    "C105_coins",
    "C105_zero_refuted"
   ],
   "note": "With any monotone rounding the values are in mi..ma+1; the rest in exact arithmetic and for mi >= 0. Findings: negative bounds give 0 twice as often and mi never, rounding to double can give ma+1, overflow for the largest ma, always 0 for the whole range of uint_t, a coin of probability 0 can be true. Not modelled: the distributions of the standard library (scalar randomi, random_pdf, shuffle)."
  },
  {
   "property": "C106",
   "status": "proved",
   "theorems": [
    "C106_database",
    "C106_map",
    "C106_id",
    "C106_ids",
    "C106_get",
    "C106_filters",
    "C106_file",
    "C106_range",
    "C106_blanks_refuted",
    "C106_colon_refuted",
    "C106_path_refuted",
    "C106_empty_UB",
    "C106_scale_refuted",
    "C106_bounds_refuted"
   ],
   "note": "Reading the table of a filter and the conversion of texts to numbers are parameters. Findings: blanks around = are kept in names and paths, names or paths with a colon cannot be used, a file without data is read out of bounds, the wavelength of a filter from a file assumes an integral of 1, exchanged bounds give a negative response."
  },
  {
   "property": "C107",
   "status": "proved",
   "theorems": [
    "C107_fit",
    "C107_fit_exact",
    "C107_fit_centre",
    "C107_fit_uniform",
    "C107_subtract_exact",
    "C107_subtract",
    "C107_subtract_centre",
    "C107_fit_psf_shape_abort",
    "C107_fit_error_shape_abort",
    "C107_subtract_transposed_refuted",
    "C107_subtract_even_abort"
   ],
   "note": "Exact arithmetic. Findings: psffit stops the program for any PSF that is not a square with an odd number of pixels, srcsub subtracts a PSF of one row along a column and stops with an even PSF, a flat PSF gives NaN."
  },
  {
   "property": "C108",
   "status": "proved",
   "theorems": [
    "C108_estimator",
    "C108_dims_abort",
    "C108_no_correlation_refuted",
    "C108_pairs_above_zero",
    "C108_self_pairs_refuted"
   ],
   "note": "angdist is a parameter; counts and arithmetic are exact. Findings: sources count as pairs with themselves in a bin that starts at 0; without correlation the estimate is -2/(nr-1) as DR is not scaled by (nr-1)/n."
  },
  {
   "property": "C109",
   "status": "proved",
   "theorems": [
    "C109_small",
    "C109_large",
    "C109_increasing",
    "C109_same_redshift_refuted",
    "C109_no_positive_abort",
    "C109_cosmo",
    "C109_cosmo_planck_refuted"
   ],
   "note": "The function of one positive redshift and rgen_log are parameters; exact arithmetic. Findings: many redshifts that are all the same give NaN, many that are not positive stop the program, NaN gives 0, and the Planck cosmology is only known as plank."
  },
  {
   "property": "C110",
   "status": "proved",
   "theorems": [
    "C110_write_read",
    "C110_read_as",
    "C110_refused",
    "C110_types",
    "C110_others",
    "C110_wrong_rows",
    "C110_missing",
    "C110_remove",
    "C110_remove_absent",
    "C110_update",
    "C110_scalar",
    "C110_allocate",
    "C110_create",
    "C110_reopen",
    "C110_duplicate_refuted",
    "C110_one_column_refuted",
    "C110_one_row_refuted",
    "C110_empty_rows_abort",
    "C110_update_only_refuted",
    "C110_scalar_of_rows_refuted",
    "C110_row_string_refuted",
    "C110_blanks_refuted",
    "C110_signs_refuted"
   ],
   "note": "cfitsio is a store with stated semantics. Numbers are integers exact in the types involved; ASCII tables, null values and reflected structures are not modelled."
  },
  {
   "property": "C111",
   "status": "proved",
   "theorems": [
    "C111_write",
    "C111_read",
    "C111_info",
    "C111_read_block",
    "C111_read_element",
    "C111_places",
    "C111_update_block",
    "C111_update_element",
    "C111_wrong_count",
    "C111_bounds",
    "C111_rows_abort",
    "C111_bool_abort",
    "C111_char_abort",
    "C111_empty_abort",
    "C111_overrun_refuted",
    "C111_wrong_dims",
    "C111_boolean"
   ],
   "note": "Numeric columns; the update theorem is for values of the type of the column, and excludes char (see C111_char_abort)."
  },
  {
   "property": "C112",
   "status": "proved",
   "theorems": [
    "C112_roundtrip",
    "C112_pixel",
    "C112_pixel_outside",
    "C112_subset",
    "C112_whole",
    "C112_subset_outside",
    "C112_start_UB",
    "C112_wrapped_UB",
    "C112_update",
    "C112_update_dims",
    "C112_update_types_refuted",
    "C112_mismatch",
    "C112_once",
    "C112_unsigned_refuted"
   ],
   "note": "cfitsio is modelled as a store of pixels, under the assumptions listed at the head of FimgModel.v; integers exact in all the types only."
  },
  {
   "property": "C113",
   "status": "proved",
   "theorems": [
    "C113_make",
    "C113_texts",
    "C113_ill_formed",
    "C113_again",
    "C113_naxes_refuted",
    "C113_half_refuted",
    "C113_matrix_refuted"
   ],
   "note": "The conversions of numbers to and from text are parameters, of which only is assumed that a number fits on a card, without blanks at its ends and without a slash."
  },
  {
   "property": "C114",
   "status": "proved",
   "theorems": [
    "C114_reach",
    "C114_missing",
    "C114_create",
    "C114_create_refuted",
    "C114_write",
    "C114_many",
    "C114_remove",
    "C114_no_axis",
    "C114_table_refuted"
   ],
   "note": "cfitsio is assumed to insert after the current HDU, to fail when moving past the last HDU, and to delete as documented; the axiom-free proof is about the calls made by vif."
  },
  {
   "property": "C115",
   "status": "proved",
   "theorems": [
    "C115_write",
    "C115_lookup",
    "C115_replace_refuted",
    "C115_copy_refuted",
    "C115_copy",
    "C115_end_refuted"
   ],
   "note": "cfitsio is assumed to append records, and to give all the cards followed by END."
  },
  {
   "property": "C116",
   "status": "proved",
   "theorems": [
    "C116_axes",
    "C116_ad2xy",
    "C116_xy2ad",
    "C116_roundtrip",
    "C116_shapes",
    "C116_no_dec_UB",
    "C116_no_ra_UB",
    "C116_pixel_size",
    "C116_mirror_refuted",
    "C116_move",
    "C116_dirty_refuted"
   ],
   "note": "WCSLIB is a parameter (any functions on points); rationals in canonical form for the numbers; what is printed, and the failed test conversion of the constructor, are not modelled."
  },
  {
   "property": "C117",
   "status": "proved",
   "theorems": [
    "C117_x2w",
    "C117_w2x",
    "C117_roundtrip",
    "C117_build",
    "C117_stops",
    "C117_default_refuted",
    "C117_turned_refuted"
   ],
   "note": "dpi is a parameter different from 0; WCSLIB is a parameter."
  },
  {
   "property": "C118",
   "status": "proved",
   "theorems": [
    "C118_match",
    "C118_vector",
    "C118_search",
    "C118_extract",
    "C118_replace",
    "C118_unique",
    "C118_constant",
    "C118_groups",
    "C118_empty_diverges",
    "C118_extract_empty_diverges",
    "C118_extract_no_groups",
    "C118_absent_throws",
    "C118_groups_refuted",
    "C118_anchor_refuted"
   ],
   "note": "regcomp is not modelled: patterns are syntax trees with anchors at the ends, or regexec is a parameter with its contract (positions inside the text); texts hold no null character."
  },
  {
   "property": "C119",
   "status": "proved",
   "theorems": [
    "C119_patterns",
    "C119_cure",
    "C119_text",
    "C119_unchanged",
    "C119_others",
    "C119_sip_refuted",
    "C119_comment_refuted",
    "C119_continue_UB"
   ],
   "note": "Over HdrModel and RegModel; the patterns are syntax trees; warnings are not modelled."
  },
  {
   "property": "C120",
   "status": "proved",
   "theorems": [
    "C120_distance",
    "C120_domain",
    "C120_degrees",
    "C120_symmetric",
    "C120_zero",
    "C120_triangle",
    "C120_vectors",
    "C120_vectors_checked",
    "C120_point",
    "C120_point_checked",
    "C120_less",
    "C120_less_refuted",
    "C120_move",
    "C120_move_meridian",
    "C120_move_pole",
    "C120_move_vec",
    "C120_rotation",
    "C120_isometry",
    "C120_vernal",
    "C120_vernal_refuted",
    "C120_qdist",
    "C120_qdist_refuted",
    "C120_qdist_checked",
    "C120_area",
    "C120_area_checked",
    "C120_area_refuted"
   ],
   "note": "Over the real numbers of the standard library (axioms listed in DESIGN.md section 5); rounding is not modelled; atan2 is defined from acos; the hull is the list of its points."
  },
  {
   "property": "C121",
   "status": "proved",
   "theorems": [
    "C121_sections",
    "C121_every_text",
    "C121_sections_here",
    "C121_no_section",
    "C121_sections_refuted",
    "C121_header",
    "C121_header_plain",
    "C121_header_missing",
    "C121_band",
    "C121_band_refuted",
    "C121_band_note",
    "C121_band_note_checked",
    "C121_band_cat",
    "C121_band_cat_abort"
   ],
   "note": "Reading one FITS header is a parameter; patterns are syntax trees (C118); of the messages only the accesses to arrays are modelled."
  },
  {
   "property": "C122",
   "status": "proved",
   "theorems": [
    "C122_fields",
    "C122_unknown",
    "C122_few",
    "C122_gaussian",
    "C122_gaussring",
    "C122_point",
    "C122_text_refuted",
    "C122_empty_argument_UB",
    "C122_file",
    "C122_file_whole",
    "C122_file_missing",
    "C122_border_refuted",
    "C122_symmetry_refuted",
    "C122_far_refuted"
   ],
   "note": "Exact rationals; exp, sqrt, the reading of numbers and of the file are parameters; the theorems about files suppose finite pixels."
  },
  {
   "property": "C123",
   "status": "proved",
   "theorems": [
    "C123_line",
    "C123_run",
    "C123_print",
    "C123_tick",
    "C123_tick_end_UB",
    "C123_tick_end_refuted",
    "C123_last_UB",
    "C123_zero_UB"
   ],
   "note": "Exact rational times; the text of a duration is a parameter (time_str is C79); std::size_t modulo 2^64."
  },
  {
   "property": "C124",
   "status": "proved",
   "theorems": [
    "C124_draw",
    "C124_fair",
    "C124_bootstrap",
    "C124_short_cube_aborts",
    "C124_no_sources_abort",
    "C124_mean",
    "C124_weighted_mean",
    "C124_mean_bootstrap",
    "C124_weighted_bootstrap",
    "C124_median_bootstrap",
    "C124_median_empty_aborts",
    "C124_no_pixels_refuted"
   ],
   "note": "Exact rational values; the random numbers are a given sequence from 0 to the largest double below 1; at most 2^53 sources; the rounding is any that keeps integers, is idempotent and has a relative error of at most 2^-53."
  },
  {
   "property": "C125",
   "status": "proved",
   "theorems": [
    "C125_float",
    "C125_exact",
    "C125_nan_refuted",
    "C125_small_refuted",
    "C125_vectors",
    "C125_dims_abort",
    "C125_empty_refuted",
    "C125_counts"
   ],
   "note": "Both operands of one type; the difference of floats is rounded by an arbitrary function; messages are not modelled."
  },
  {
   "property": "C126",
   "status": "proved",
   "theorems": [
    "C126_demangled",
    "C126_plain",
    "C126_template",
    "C126_operator_refuted",
    "C126_void_refuted",
    "C126_digit_refuted",
    "C126_filename",
    "C126_filename_refuted",
    "C126_long_long_refuted"
   ],
   "note": "The local functions of replacement, cutting and trimming are those of StrModel, whose code is the same."
  },
  {
   "property": "C127",
   "status": "proved",
   "theorems": [
    "C127_convert",
    "C127_observed",
    "C127_normalisation",
    "C127_distance",
    "C127_uncovered",
    "C127_before_UB",
    "C127_sizes"
   ],
   "note": "Exact rationals; pi is any nonzero number. A distance of zero is not modelled."
  },
  {
   "property": "C128",
   "status": "proved",
   "theorems": [
    "C128_has",
    "C128_read",
    "C128_read_one",
    "C128_absent_refuted",
    "C128_absent",
    "C128_value",
    "C128_write",
    "C128_add",
    "C128_remove",
    "C128_others",
    "C128_twice_refuted",
    "C128_roundtrip",
    "C128_quotes_refuted",
    "C128_ends_refuted",
    "C128_long_refuted",
    "C128_true_string_refuted",
    "C128_primary",
    "C128_extension",
    "C128_no_hdu"
   ],
   "note": "cfitsio is a list of cards as stated in KwModel.v; conversions from text are a parameter; names of at most 8 upper case characters."
  },
  {
   "property": "C129",
   "status": "proved",
   "theorems": [
    "C129_pick",
    "C129_infinite",
    "C129_first_refuted",
    "C129_edge_abort",
    "C129_nan_UB",
    "C129_missing"
   ],
   "note": "Coordinates are exact rationals, infinite or NaN; the half size is not negative. The main theorem needs that no source is in the half pixel where the program ends (C129_edge_abort)."
  },
  {
   "property": "C130",
   "status": "proved",
   "theorems": [
    "C130_result",
    "C130_success",
    "C130_no_success",
    "C130_exception_refuted",
    "C130_exception_start",
    "C130_zero_refuted",
    "C130_function",
    "C130_short_UB"
   ],
   "note": "The minimizer of GSL is a parameter; exceptions are assumed to cross it."
  }
 ]
}