{
 "claims": [
  {
   "property": "C01",
   "status": "proved",
   "theorems": [
    "c01_convolve_is_linear_convolution",
    "c01_convolve_one_is_linear_convolution"
   ],
   "note": ""
  },
  {
   "property": "C02",
   "status": "proved",
   "theorems": [
    "c02_convolve_segmentation_invariant",
    "c02_stream_is_linear_convolution"
   ],
   "note": ""
  },
  {
   "property": "C03",
   "status": "proved",
   "theorems": [
    "c03_convolve_memory_safe",
    "c03_convolve_sizes_necessary"
   ],
   "note": ""
  },
  {
   "property": "C04",
   "status": "proved",
   "theorems": [
    "c04_filter_segmentation_invariant"
   ],
   "note": ""
  },
  {
   "property": "C05",
   "status": "partial",
   "theorems": [
    "c05_filter_uses_requested_response_partial",
    "c05_all_calls",
    "c05_function_switch_refuted",
    "c05_argument_size_refuted",
    "c05_stale_function_refuted",
    "c05_stale_size_refuted"
   ],
   "note": "Refuted in full: the state never records a changed function or argument size, for all functions and arguments (c05_stale_function_refuted, c05_stale_size_refuted). Proved for one function and argument size with changing arguments. c05_all_calls: what every sequence of calls computes."
  },
  {
   "property": "C06",
   "status": "partial",
   "theorems": [
    "c06_filter_ownership_partial",
    "c06_first_call_partial",
    "c06_failed_change_refuted",
    "c06_failing_response_refuted",
    "c06_allocation_failure_leak_refuted"
   ],
   "note": "Refuted on the failure paths: double free after every failing change, leaks. Proved when no allocation and no response function fails, and for first calls with every outcome of the allocations."
  },
  {
   "property": "C07",
   "status": "partial",
   "theorems": [
    "c07_lp_hp",
    "c07_gain_symmetry",
    "c07_length",
    "c07_band_reject",
    "c07_band_pass",
    "c07_dispatch",
    "c07_zero_sum_undefined",
    "c07_long_transition_refuted",
    "c07_cutoff_range",
    "c07_band_range"
   ],
   "note": "Real numbers in place of doubles. Complete for all cutoffs from zero to half the rate and transitions below 4: the sum before scaling is at least one (c07_cutoff_range). Transitions of 4 or more give a kernel of one sample that is 0/0 (refuted)."
  },
  {
   "property": "C08",
   "status": "proved",
   "theorems": [
    "c08_inversion",
    "c08_inversion_response",
    "c08_symmetric_response",
    "c08_reversal",
    "c08_reversal_any_length"
   ],
   "note": "Real numbers in place of doubles. The alternating sign property holds for the odd lengths the kernel functions give."
  },
  {
   "property": "C09",
   "status": "partial",
   "theorems": [
    "c09_moving_average_partial",
    "c09_computed",
    "c09_end_refuted"
   ],
   "note": "Without a next block the end is continued with the negated start of the block (refuted there). Everything else proved."
  },
  {
   "property": "C10",
   "status": "proved",
   "theorems": [
    "c10_list_sorted_stable"
   ],
   "note": ""
  },
  {
   "property": "C11",
   "status": "proved",
   "theorems": [
    "c11_links_consistent",
    "c11_reverse_involutive"
   ],
   "note": ""
  },
  {
   "property": "C12",
   "status": "proved",
   "theorems": [
    "c12_rendering_is_pointwise",
    "c12_partition_invariant"
   ],
   "note": ""
  },
  {
   "property": "C13",
   "status": "proved",
   "theorems": [
    "c13_event_life_cycle",
    "c13_freed_exactly_once"
   ],
   "note": ""
  },
  {
   "property": "C14",
   "status": "proved",
   "theorems": [
    "c14_parallel_equals_sequential",
    "c14_parallel_progress",
    "c14_parallel_events"
   ],
   "note": "Success paths; on a failing future the code frees blocks that other workers may still use, see DESIGN.md."
  },
  {
   "property": "C15",
   "status": "proved",
   "theorems": [
    "c15_block_generate_tiles",
    "c15_empty_range"
   ],
   "note": "The empty range divides by zero, as stated."
  },
  {
   "property": "C16",
   "status": "partial",
   "theorems": [
    "c16_registry_partial",
    "c16_registered_is_freed",
    "c16_second_free",
    "c16_ensure_zero_refuted"
   ],
   "note": "Proved for every sequence of calls and every outcome of allocations as long as no space for zero elements is ensured. Refuted otherwise: an addition after ensuring zero elements is undefined, for every address and handler."
  },
  {
   "property": "C17",
   "status": "proved",
   "theorems": [
    "c17_group_add_covers_events",
    "c17_group_append_back_to_back"
   ],
   "note": ""
  },
  {
   "property": "C18",
   "status": "proved",
   "theorems": [
    "c18_nested_groups_render_leaves",
    "c18_group_equals_shifted_events"
   ],
   "note": ""
  },
  {
   "property": "C19",
   "status": "partial",
   "theorems": [
    "c19_in_bounds",
    "c19_partition",
    "c19_samples_partial",
    "c19_wave_event_plays_partial",
    "c19_wave_events_rendered_partial",
    "c19_large_modulation_refuted"
   ],
   "note": "Bounds and partition invariance for arbitrary modulation. The sample formula is refuted for modulation values whose sum with the phase exceeds 32 bit and proved for others."
  },
  {
   "property": "C20",
   "status": "proved",
   "theorems": [
    "c20_channels_inherit",
    "c20_inherited_unique",
    "c20_idempotent",
    "c20_too_many_channels"
   ],
   "note": ""
  },
  {
   "property": "C21",
   "status": "proved",
   "theorems": [
    "c21_scalar_operations",
    "c21_pairwise_operations",
    "c21_pairwise_division",
    "c21_copy",
    "c21_times_subtract_saturates"
   ],
   "note": ""
  },
  {
   "property": "C22",
   "status": "partial",
   "theorems": [
    "c22_reverse_shifted_partial",
    "c22_reverse_refuted",
    "c22_reverse_out_of_bounds_refuted"
   ],
   "note": "Refuted: element i is written to out[count - i], one element behind, and out[count] is written. Proved: what it does write."
  },
  {
   "property": "C23",
   "status": "partial",
   "theorems": [
    "c23_or_xor",
    "c23_and_partial",
    "c23_and_refuted"
   ],
   "note": "or and xor proved. and is refuted: it compares a[i] twice and never b[i]; proved when b reaches the limit wherever a does."
  },
  {
   "property": "C24",
   "status": "proved",
   "theorems": [
    "c24_cusum_is_running_sums",
    "c24_differences",
    "c24_inverse"
   ],
   "note": "The inverse laws are stated for exact arithmetic."
  },
  {
   "property": "C25",
   "status": "proved",
   "theorems": [
    "c25_increment_adds_one",
    "c25_sequences_consecutive",
    "c25_sequences_enumerate"
   ],
   "note": ""
  },
  {
   "property": "C26",
   "status": "partial",
   "theorems": [
    "c26_permutations_zero_partial",
    "c26_permutations_refuted"
   ],
   "note": "Refuted: the arguments of both copies are exchanged, so the caller's set is overwritten and every row is zero. Proved: number of rows and that all are zero."
  },
  {
   "property": "C27",
   "status": "partial",
   "theorems": [
    "c27_compositions_partial",
    "c27_compositions_33_refuted"
   ],
   "note": "Proved for sums below 33, refuted for 33: the size of the result wraps to zero."
  },
  {
   "property": "C28",
   "status": "partial",
   "theorems": [
    "c28_bits_to_times",
    "c28_bits_in_place_refuted",
    "c28_gt_indices",
    "c28_select",
    "c28_select_in_place_refuted",
    "c28_random_binary",
    "c28_select_random"
   ],
   "note": "Proved with separate arrays (gt_indices also in place). The documented in-place use of bits_to_times and select is refuted."
  },
  {
   "property": "C29",
   "status": "proved",
   "theorems": [
    "c29_remove",
    "c29_insert_space",
    "c29_insert_then_remove",
    "c29_subdivide"
   ],
   "note": ""
  },
  {
   "property": "C30",
   "status": "partial",
   "theorems": [
    "c30_extract_copies_partial",
    "c30_extract_refuted"
   ],
   "note": "Refuted: the range test is a disjunction, so nothing is filtered when min <= max."
  },
  {
   "property": "C31",
   "status": "proved",
   "theorems": [
    "c31_shuffle_permutes",
    "c31_shuffle_unbiased",
    "c31_shuffle_with_generator"
   ],
   "note": "Unbiased: every permutation comes from exactly one sequence of bounded draws."
  },
  {
   "property": "C32",
   "status": "proved",
   "theorems": [
    "c32_random_discrete",
    "c32_weights",
    "c32_random_discrete_array"
   ],
   "note": ""
  },
  {
   "property": "C33",
   "status": "partial",
   "theorems": [
    "c33_times_scale_sum_partial",
    "c33_times_scale_sum_refuted",
    "c33_times_scale_sum_separate_refuted",
    "c33_times_scale_y_partial",
    "c33_times_scale_y_refuted",
    "c33_samples_scale_y_partial",
    "c33_samples_scale_y_refuted",
    "c33_samples_scale_sum",
    "c33_unity_gain_partial",
    "c33_unity_gain_refuted",
    "c33_set_gain_partial",
    "c33_set_gain_refuted",
    "c33_set_gain_no_change"
   ],
   "note": "Refuted in general for all but sp_samples_scale_sum, see DESIGN.md. Proved: the exact effect of each function and the cases in which the target is met."
  },
  {
   "property": "C34",
   "status": "partial",
   "theorems": [
    "c34_times_limit",
    "c34_samples_limit",
    "c34_samples_limit_abs",
    "c34_negative_limit_refuted"
   ],
   "note": "Proved for all three functions; for sp_samples_limit_abs with limit >= 0. A negative limit is refuted."
  },
  {
   "property": "C35",
   "status": "proved",
   "theorems": [
    "c35_u64_from_array",
    "c35_injective",
    "c35_bound"
   ],
   "note": ""
  },
  {
   "property": "C36",
   "status": "proved",
   "theorems": [
    "c36_interleave",
    "c36_deinterleave",
    "c36_inverse",
    "c36_inverse_2"
   ],
   "note": ""
  },
  {
   "property": "C37",
   "status": "proved",
   "theorems": [
    "c37_state_update_bijective",
    "c37_never_zero",
    "c37_seed_not_zero"
   ],
   "note": ""
  },
  {
   "property": "C38",
   "status": "proved",
   "theorems": [
    "c38_bounded_first_accepted",
    "c38_bounded_below_range",
    "c38_uniform",
    "c38_ends",
    "c38_u32_below_range"
   ],
   "note": ""
  },
  {
   "property": "C39",
   "status": "proved",
   "theorems": [
    "c39_floats_exact",
    "c39_floats_in_range",
    "c39_floats_uniform",
    "c39_noise_exact"
   ],
   "note": "For ranges other than 1 and 2 the rounding of the product with the range is left out."
  },
  {
   "property": "C40",
   "status": "proved",
   "theorems": [
    "c40_array_split",
    "c40_array_is_stream"
   ],
   "note": ""
  },
  {
   "property": "C41",
   "status": "partial",
   "theorems": [
    "c41_reads_outside_refuted",
    "c41_sorts_partial",
    "c41_returns_sorted_partial",
    "c41_orders"
   ],
   "note": "Refuted: elements next to the range are read. Proved: termination and sorting for every order when the memory around the range stops the scans, and that a call that returns has sorted and changed nothing else."
  },
  {
   "property": "C42",
   "status": "partial",
   "theorems": [
    "c42_odd_refuted",
    "c42_odd_samples_refuted",
    "c42_single_refuted",
    "c42_wrap_refuted",
    "c42_samples_partial",
    "c42_times_partial",
    "c42_odd_partial"
   ],
   "note": "Refuted for odd sizes (element before the middle), size one (outside of the array) and large times (sum wraps). Proved for even sizes."
  },
  {
   "property": "C43",
   "status": "partial",
   "theorems": [
    "c43_times_range",
    "c43_samples_range",
    "c43_samples_mean",
    "c43_samples_center",
    "c43_times_mean_refuted",
    "c43_times_center_refuted",
    "c43_times_mean_partial",
    "c43_times_center_partial"
   ],
   "note": "Refuted: mean of times wraps, center of times counts the first element twice. The rest is proved, exact arithmetic."
  },
  {
   "property": "C44",
   "status": "proved",
   "theorems": [
    "c44_unique_all_max",
    "c44_endless",
    "c44_unique_max",
    "c44_repetition_all_max"
   ],
   "note": ""
  },
  {
   "property": "C45",
   "status": "proved",
   "theorems": [
    "c45_wav_file",
    "c45_open_failure",
    "c45_write_failure"
   ],
   "note": "For every sequence of writes. Empty writes report a write error (included in c45_write_failure). Errors when closing are not reported by the code."
  },
  {
   "property": "C46",
   "status": "partial",
   "theorems": [
    "c46_round_trip_partial",
    "c46_other_chunks_partial",
    "c46_open_read_terminates",
    "c46_channel_count_refuted",
    "c46_channel_count_unchanged",
    "c46_status_refuted",
    "c46_missing_file_refuted",
    "c46_trailing_chunk_refuted"
   ],
   "note": "The frames are delivered for every partition. Refuted: sp_file_read returns no status, the channel count is not set by opening, missing files are not detected, chunks behind the data are read as samples."
  },
  {
   "property": "C47",
   "status": "partial",
   "theorems": [
    "c47_render_block",
    "c47_render_file",
    "c47_file_equals_block_partial",
    "c47_start_refuted"
   ],
   "note": "Refuted for start other than 0: the file always has the first end - start frames. Proved for start 0 and every block size."
  },
  {
   "property": "C48",
   "status": "proved",
   "theorems": [
    "c48_fft"
   ],
   "note": "Real numbers in place of doubles. Every length, every outcome of allocations."
  },
  {
   "property": "C49",
   "status": "proved",
   "theorems": [
    "c49_inverse",
    "c49_round_trip",
    "c49_convolution",
    "c49_real_convolution"
   ],
   "note": "Real numbers in place of doubles."
  },
  {
   "property": "C50",
   "status": "proved",
   "theorems": [
    "c50_reverse_bits",
    "c50_involution",
    "c50_permutation"
   ],
   "note": ""
  },
  {
   "property": "C51",
   "status": "partial",
   "theorems": [
    "c51_lines_partial",
    "c51_integer_points",
    "c51_fraction_refuted"
   ],
   "note": "Exact rational numbers in place of doubles. Proved for integer positions. For fractional positions every position is written, but lines are shifted by the fraction (refuted)."
  },
  {
   "property": "C52",
   "status": "partial",
   "theorems": [
    "c52_windows_partial",
    "c52_consecutive_partial",
    "c52_overlap_refuted",
    "c52_nested_refuted",
    "c52_fraction_refuted"
   ],
   "note": "Proved for moves, lines and constants at integer positions and windows that do not begin inside the previous one. Refuted for overlapping windows, paths in paths, and fractional positions; windows that begin inside curves are in C80."
  },
  {
   "property": "C53",
   "status": "proved",
   "theorems": [
    "c53_fifo",
    "c53_order",
    "c53_other_nodes"
   ],
   "note": ""
  },
  {
   "property": "C54",
   "status": "proved",
   "theorems": [
    "c54_fifo",
    "c54_at_most_once",
    "c54_exactly_once",
    "c54_progress",
    "c54_terminates",
    "c54_all_done",
    "c54_finish",
    "c54_undefined",
    "c54_defined"
   ],
   "note": "Interleaving model with any number of workers and enqueuing threads, spurious wake-ups and failing malloc in finish. Sequentially consistent memory, pthread calls do not fail. finish returning 1 (malloc failed) leaves threads running, as the code does."
  },
  {
   "property": "C55",
   "status": "partial",
   "theorems": [
    "c55_touch",
    "c55_all_finished",
    "c55_init_twice",
    "c55_deinit_refuted",
    "c55_reinit_refuted"
   ],
   "note": "Proved for every schedule of the thread pool, futures used again only when finished, sequentially consistent memory. Refuted for deinit (destroys mutex and condition variable twice for every thread count but zero) and for init after deinit (no threads are created)."
  },
  {
   "property": "C56",
   "status": "partial",
   "theorems": [
    "c56_expt",
    "c56_factorial",
    "c56_counts",
    "c56_permutations_max_partial",
    "c56_permutations_max_refuted"
   ],
   "note": "sp_permutations_max is refuted (divides by n-k instead of (n-k)!, by zero for n = k), the rest is proved."
  },
  {
   "property": "C57",
   "status": "proved",
   "theorems": [
    "c57_phase_bounded",
    "c57_phase_accumulates",
    "c57_phase_float",
    "c57_wave_phase"
   ],
   "note": ""
  },
  {
   "property": "C58",
   "status": "partial",
   "theorems": [
    "c58_triangle",
    "c58_triangle_periodic",
    "c58_square",
    "c58_square_wrap_refuted",
    "c58_pan",
    "c58_pan_monotone",
    "c58_pan_third_channel_refuted"
   ],
   "note": "Exact rationals. sp_square is refuted for t >= 2^31 (2*t wraps) and sp_pan_to_amp for channels above the second; proved otherwise."
  },
  {
   "property": "C59",
   "status": "partial",
   "theorems": [
    "c59_failure_refuted",
    "c59_caller_refuted",
    "c59_group_partial",
    "c59_string_partial"
   ],
   "note": "Refuted: the id for memory errors is 0, which is the id for success. What holds: the status group, and everything for any other id."
  },
  {
   "property": "C60",
   "status": "partial",
   "theorems": [
    "c60_harmonize_upwards_partial",
    "c60_harmonize_nearest_refuted"
   ],
   "note": "Refuted: the multiple is the next one above, not the nearest. Proved: what it computes."
  },
  {
   "property": "C61",
   "status": "proved",
   "theorems": [
    "c61_sum_exact"
   ],
   "note": "Exact arithmetic."
  },
  {
   "property": "C62",
   "status": "partial",
   "theorems": [
    "c62_new",
    "c62_too_many_channels",
    "c62_new_failure_partial",
    "c62_new_failure_refuted",
    "c62_free",
    "c62_free_empty_refuted",
    "c62_with_offset",
    "c62_zero",
    "c62_copy"
   ],
   "note": "Refuted for failing allocations (id 0, see C59) and for freeing blocks of size 0. Proved otherwise."
  },
  {
   "property": "C63",
   "status": "proved",
   "theorems": [
    "c63_map_event",
    "c63_isolated_map_event",
    "c63_isolated_input",
    "c63_failure",
    "c63_free"
   ],
   "note": ""
  },
  {
   "property": "C64",
   "status": "proved",
   "theorems": [
    "c64_modulo_match"
   ],
   "note": ""
  },
  {
   "property": "C65",
   "status": "partial",
   "theorems": [
    "c65_strings",
    "c65_trailing_slash_refuted",
    "c65_trailing_slash_kept_partial"
   ],
   "note": "append, clone and join proved. ensure_trailing_slash is refuted: it writes the terminator to the first byte."
  },
  {
   "property": "C66",
   "status": "proved",
   "theorems": [
    "c66_mask",
    "c66_blend",
    "c66_samples_blend",
    "c66_scale"
   ],
   "note": ""
  },
  {
   "property": "C67",
   "status": "partial",
   "theorems": [
    "c05_filter_uses_requested_response_partial",
    "c05_all_calls",
    "c67_shrinking_response_truncates_tail_refuted"
   ],
   "note": "Refuted in full: a response that shrinks by more than a segment loses the tail. Proved when every tail fits (tails_fit). c05_all_calls: which samples every sequence of responses gives."
  },
  {
   "property": "C68",
   "status": "partial",
   "theorems": [
    "c68_failed_add_changes_nothing_partial",
    "c68_failed_append_moves_end_refuted"
   ],
   "note": "Refuted for sp_group_append: the end moves before the failing list addition. Proved for sp_group_add."
  },
  {
   "property": "C69",
   "status": "partial",
   "theorems": [
    "c69_prepare_empty_list_refuted",
    "c11_reverse_involutive"
   ],
   "note": "Refuted: the empty list yields an uninitialised pointer. For non-empty lists see c11_reverse_involutive."
  },
  {
   "property": "C70",
   "status": "partial",
   "theorems": [
    "c70_samples_shuffle_refuted",
    "c70_samples_shuffle_words_partial"
   ],
   "note": "Refuted: the swap function is the one for 32 bit times. Proved: the 32 bit words are permuted."
  },
  {
   "property": "C71",
   "status": "partial",
   "theorems": [
    "c71_seamless_right_partial",
    "c71_seamless_right_linear_refuted",
    "c71_seamless_left_out_of_bounds_refuted"
   ],
   "note": "Refuted: integer division removes the fade, and the left version reads behind the array. Proved: what the right version writes."
  },
  {
   "property": "C72",
   "status": "partial",
   "theorems": [
    "c72_round_to_multiple_refuted",
    "c72_round_to_multiple_is_identity_partial",
    "c72_zero_refuted"
   ],
   "note": "Refuted: in exact arithmetic the result is a for positive a and base for zero."
  },
  {
   "property": "C73",
   "status": "partial",
   "theorems": [
    "c73_wave_amplitude_refuted",
    "c57_wave_phase"
   ],
   "note": "Refuted without amod: amp is applied twice. With amod see c57_wave_phase."
  },
  {
   "property": "C74",
   "status": "partial",
   "theorems": [
    "c74_sine_period_even_partial",
    "c74_sine_period_odd_refuted"
   ],
   "note": "Proved for even sizes over the reals, refuted for odd ones."
  },
  {
   "property": "C75",
   "status": "partial",
   "theorems": [
    "c75_discrete_unique_partial",
    "c75_discrete_unique_no_end_refuted",
    "c75_discrete_unique_front_unset_refuted"
   ],
   "note": "Refuted: no end when fewer than size outcomes have positive probability, and the output does not start at index 0. Proved: what a call that ends has written."
  },
  {
   "property": "C76",
   "status": "proved",
   "theorems": [
    "c76_samples_to_times",
    "c76_round_trip",
    "c76_multiplications",
    "c76_units",
    "c76_divisions"
   ],
   "note": ""
  },
  {
   "property": "C77",
   "status": "partial",
   "theorems": [
    "c77_normal_random_partial",
    "c77_normal_random_refuted"
   ],
   "note": "Refuted when 32 * max does not fit into 32 bits, proved otherwise."
  },
  {
   "property": "C78",
   "status": "proved",
   "theorems": [
    "c78_deviation",
    "c78_skewness",
    "c78_kurtosis",
    "c78_inharmonicity",
    "c78_inharmonicity_bounds"
   ],
   "note": "Exact arithmetic; the final square roots are left out."
  },
  {
   "property": "C79",
   "status": "partial",
   "theorems": [
    "c79_positive_refuted",
    "c79_positive_partial",
    "c79_scale_to_times_partial",
    "c79_equal_refuted"
   ],
   "note": "Refuted for positive samples and for equal samples. Proved for arrays with a sample that is not positive and different samples."
  },
  {
   "property": "C80",
   "status": "partial",
   "theorems": [
    "c80_curves_partial",
    "c80_control_point",
    "c80_window_refuted",
    "c80_steep_refuted",
    "c80_fraction_refuted",
    "c80_horizontal_refuted"
   ],
   "note": "Whole curves at integer positions that rise or are not steeper than 45 degree. Others are refuted."
  },
  {
   "property": "C81",
   "status": "partial",
   "theorems": [
    "c81_steady_noise",
    "c81_modulated_noise",
    "c81_modulated_multiples_partial",
    "c81_modulated_division_refuted"
   ],
   "note": "Proved for steady filter settings and, with changing settings, for calls that are multiples of the resolution. Refuted for other divisions with changing settings."
  },
  {
   "property": "C82",
   "status": "partial",
   "theorems": [
    "c82_buffers_partial",
    "c82_large_call_refuted",
    "c82_transition_refuted"
   ],
   "note": "Refuted for calls of more than four seconds and for a transition of one hertz."
  },
  {
   "property": "C83",
   "status": "partial",
   "theorems": [
    "c83_defaults_partial",
    "c83_frequency_refuted"
   ],
   "note": "Refuted for the frequency, which is not taken from the first channel."
  },
  {
   "property": "C84",
   "status": "proved",
   "theorems": [
    "c84_min",
    "c84_max",
    "c84_equal",
    "c84_contains",
    "c84_sum"
   ],
   "note": "Orders without not-a-number elements."
  },
  {
   "property": "C85",
   "status": "proved",
   "theorems": [
    "c85_swap",
    "c85_range",
    "c85_additions",
    "c85_times_additions"
   ],
   "note": ""
  },
  {
   "property": "C86",
   "status": "partial",
   "theorems": [
    "c86_time_bounded_partial",
    "c86_time_end_refuted",
    "c86_time_one_refuted",
    "c86_sample_bounded"
   ],
   "note": "Samples as claimed. Times can equal the end of the range, and a distribution of one number has no defined result (both refuted)."
  },
  {
   "property": "C87",
   "status": "partial",
   "theorems": [
    "c87_lp_hp_stream",
    "c87_lp_hp_range",
    "c87_lp_hp_settings_partial",
    "c87_bp_br_settings_partial",
    "c87_switch_refuted"
   ],
   "note": "Real numbers in place of doubles, every byte encoding of settings. Proved for each filter function on its own state as long as tails fit (see C67). Refuted for one state used with both functions."
  },
  {
   "property": "C88",
   "status": "partial",
   "theorems": [
    "c88_deharmonize_partial",
    "c88_nearer_further_refuted"
   ],
   "note": "Bounds as claimed. Refuted that nearer numbers move further: only the distance to the next multiple above is considered."
  },
  {
   "property": "C89",
   "status": "partial",
   "theorems": [
    "c89_path_times",
    "c89_envelope_zero_partial",
    "c89_envelope_scaled_partial",
    "c89_status_refuted",
    "c89_general_refuted",
    "c89_positions_partial"
   ],
   "note": "The written values are as claimed for sp_path_times and the versions with three to five points. Refuted: the status of these versions is indeterminate, and sp_envelope_zero and sp_envelope_scaled never have a defined result."
  },
  {
   "property": "C90",
   "status": "partial",
   "theorems": [
    "c90_initialize_partial",
    "c90_cycle_partial",
    "c90_sine_partial",
    "c90_memory_refuted",
    "c90_deinitialize_refuted"
   ],
   "note": "Even rates below 2^32/100, all failures of parts. Refuted: with the id 0 that memory errors have in the code a failing allocation is not noticed, and sp_deinitialize after a failed sp_initialize frees twice. Odd rates: C74."
  },
  {
   "property": "C91",
   "status": "proved",
   "theorems": [
    "c91_register_frees",
    "c91_each_once",
    "c91_register_overrun"
   ],
   "note": ""
  },
  {
   "property": "C92",
   "status": "proved",
   "theorems": [
    "c92_nearly_equal",
    "c92_arrays_nearly_equal"
   ],
   "note": "Rational numbers."
  },
  {
   "property": "C93",
   "status": "partial",
   "theorems": [
    "c93_directory_result",
    "c93_directory_defined_partial",
    "c93_directory_created_partial",
    "c93_relative_refuted",
    "c93_race_refuted"
   ],
   "note": "Proved for paths that begin with a slash or ./, for every interference. Refuted: relative paths of which no part exists free a constant string, and a path that another process creates in between gives the result 0."
  },
  {
   "property": "C94",
   "status": "partial",
   "theorems": [
    "c94_no_failure",
    "c94_memory_partial",
    "c94_open_refuted",
    "c94_header_refuted",
    "c94_write_leak_refuted"
   ],
   "note": "Every failure of events and writes. Refuted: a file that cannot be opened or whose header cannot be written is used anyway, and the event list is not released after a failed write."
  },
  {
   "property": "C95",
   "status": "proved",
   "theorems": [
    "c95_render_file",
    "c95_render_plot"
   ],
   "note": "Law-free samples for files, real numbers for plots. The printed messages are not modelled."
  },
  {
   "property": "C96",
   "status": "partial",
   "theorems": [
    "c96_plots_partial",
    "c96_paths_differ_partial",
    "c96_decimal",
    "c96_paths_refuted",
    "c96_open_refuted"
   ],
   "note": "Proved for the first 10^9 plots. Refuted: later ten plots at a time share a file, and a file that cannot be opened is undefined behaviour. The formatting of samples is a parameter."
  },
  {
   "property": "C97",
   "status": "partial",
   "theorems": [
    "c97_spectrum_partial",
    "c97_leak_refuted"
   ],
   "note": "Real numbers. The content is as claimed when allocations succeed. Refuted: memory is not released after failures."
  },
  {
   "property": "C98",
   "status": "partial",
   "theorems": [
    "c98_cubic_partial",
    "c98_window_refuted"
   ],
   "note": "Rational numbers, integer end points and ordered control points, one window over the complete curve. Refuted: windows that end inside of a curve write outside of the array."
  },
  {
   "property": "C99",
   "status": "partial",
   "theorems": [
    "c99_released_partial",
    "c99_noise_refuted",
    "c99_unprepared_refuted",
    "c99_copies_refuted"
   ],
   "note": "Proved for every nesting of plain events, groups and maps that has been generated. Refuted: noise events never release their buffers and filter states, groups that have not been prepared do not release their events, copies of an event in a list are freed twice."
  },
  {
   "property": "C100",
   "status": "partial",
   "theorems": [
    "c100_failure_partial",
    "c100_failure_refuted"
   ],
   "note": "Proved for lists of plain events whose prepare functions allocate nothing before they fail. Refuted, for every number of allocations: otherwise memory leaks or the register is used after it has been freed."
  },
  {
   "property": "C101",
   "status": "partial",
   "theorems": [
    "c101_parallel_groups_return_partial",
    "c101_parallel_groups_return_refuted"
   ],
   "note": "Exact: if there are fewer inner groups with events (at any depth) than threads the call returns under every fair schedule; for every pool and every nesting with at least as many there is a schedule after which it can never return."
  },
  {
   "property": "C102",
   "status": "partial",
   "theorems": [
    "c102_status",
    "c102_failures_partial",
    "c102_failures_refuted",
    "c102_failures_exact"
   ],
   "note": "The status is proved for all executions without undefined behaviour. No use after release holds exactly if memory fails before the first future exists or if only the last event fails; in all other cases there is a schedule in which a thread uses released memory."
  },
  {
   "property": "C103",
   "status": "partial",
   "theorems": [
    "c103_noise_partial",
    "c103_any_schedule_partial",
    "c103_noise_refuted",
    "c103_order_refuted"
   ],
   "note": "Proved for any schedule: every event gets one of the states of the sequential group and keeps it. Proved for preparations that do not overlap: in list order they give the sequential numbers, in any other order a permutation of them. Refuted for every number of events: all events can get the same numbers, and the order decides which event gets which."
  },
  {
   "property": "C104",
   "status": "partial",
   "theorems": [
    "c104_wave_partial",
    "c104_wave_mono_refuted",
    "c104_wave_amplitudes_needed",
    "c104_noise_partial",
    "c104_noise_rate_refuted"
   ],
   "note": "Proved for outputs with at least two channels and, for noise, rates from 25 to 131071. Refuted: every default wave event on an output with one channel writes to a channel that does not exist, and for every rate from 131072 on the band of default noise is too narrow (192000: 30464 instead of 96000 hertz), from 819200 on the conversion is undefined."
  },
  {
   "property": "C105",
   "status": "partial",
   "theorems": [
    "c105_names_partial",
    "c105_descriptions_partial",
    "c105_refuted"
   ],
   "note": "Exact for all groups and ids. Refuted: failures of the allocation helpers have an indeterminate description, two failures have no name, two kinds share a name and two a description."
  },
  {
   "property": "C106",
   "status": "partial",
   "theorems": [
    "c106_ends_partial",
    "c106_nested_refuted",
    "c106_repeated_partial",
    "c106_set_again_partial",
    "c106_arc_refuted",
    "c106_released_partial",
    "c106_twice_refuted"
   ],
   "note": "Ends proved for all segments but paths in paths, which count as empty. Repeated use proved for moves, lines and constants (the same path again for all but arcs); refuted for arcs (another control point, for all points and curvatures) and for paths in paths (use of released memory)."
  },
  {
   "property": "C107",
   "status": "partial",
   "theorems": [
    "c107_nonnegative_partial",
    "c107_general_partial",
    "c107_refuted"
   ],
   "note": "In IEEE double arithmetic. For values that are not negative the error is one rounding plus a term of second order; for all values it is at most 12 n u times the sum of magnitudes. Refuted: values are compared instead of magnitudes, so the compensation is lost for negative values (2^k - 2^k + 1 gives 0 for all k from 54 to 953)."
  },
  {
   "property": "C108",
   "status": "partial",
   "theorems": [
    "c108_rounding_partial",
    "c108_rounding_refuted",
    "c108_rounding_limit",
    "c108_times",
    "c108_units",
    "c108_factor_partial",
    "c108_factor_refuted",
    "c108_wavelength_partial",
    "c108_wavelength_refuted",
    "c108_duration_partial",
    "c108_duration_refuted",
    "c108_radians_refuted"
   ],
   "note": "In IEEE double arithmetic. Rounding is proved for all doubles but one (the greatest below one half, which becomes 1), times and units for all. Refuted: hertz to factor to hertz can lose one hertz (27 at 96000), wavelengths of all frequencies between half the rate and the rate are the same, n/d seconds are short unless d divides the rate, and radians to hertz is wrong by the factor pi^2."
  },
  {
   "property": "C109",
   "status": "partial",
   "theorems": [
    "c109_exact",
    "c109_bounded_partial",
    "c109_bounded_refuted"
   ],
   "note": "In IEEE double arithmetic. Exact for the numbers from 0 to 1 and -1 to 1 and for every range above 2^-1022. Refuted: for every smaller positive range the range itself is a possible result."
  },
  {
   "property": "C110",
   "status": "proved",
   "theorems": [
    "c110_line",
    "c110_windows"
   ],
   "note": "In IEEE double arithmetic, for all windows of all lines with integer positions below 2^32."
  },
  {
   "property": "C111",
   "status": "proved",
   "theorems": [
    "c111_stream",
    "c111_one",
    "c111_level"
   ],
   "note": "In IEEE double arithmetic; the model of C01 and C02 applied to binary64 numbers."
  },
  {
   "property": "C112",
   "status": "partial",
   "theorems": [
    "c112_nearest_partial",
    "c112_error_partial",
    "c112_unit_range",
    "c112_exact",
    "c112_again",
    "c112_order",
    "c112_large_refuted",
    "c112_file_partial"
   ],
   "note": "Refuted for finite samples from 2^128 - 2^103: they become infinite without an error (c112_large_refuted). The file theorem is partial as c46_round_trip_partial is."
  },
  {
   "property": "C113",
   "status": "proved",
   "theorems": [
    "c113_error",
    "c113_window_lost"
   ],
   "note": "In IEEE double arithmetic. The error bound is proved for all inputs; it is relative to the largest magnitude of the whole input. The stated loss of closeness to the mean of the window is proved for every loud power of two followed by equal small samples."
  },
  {
   "property": "C114",
   "status": "proved",
   "theorems": [
    "c114_again",
    "c114_later"
   ],
   "note": "Same model as C54, in which finish can be called any number of times. c114_later: nothing is executed after the threads have ended. The exact number of tasks that stay in the queue is in c114_again."
  },
  {
   "property": "C115",
   "status": "proved",
   "theorems": [
    "c115_fft",
    "c115_fft_power_of_two",
    "c115_inverse",
    "c115_inverse_power_of_two",
    "c115_round_trip"
   ],
   "note": "In IEEE double arithmetic without contraction into fused operations. The cosine and sine of the C library are parameters, assumed to be within d of the real functions for arguments between -8 and 8, with d at most 10^-6. c115_instance constructs such functions."
  },
  {
   "property": "C116",
   "status": "proved",
   "theorems": [
    "c116_numbers_uniform",
    "c116_fractions_uniform",
    "c116_u32_uniform",
    "c116_state_determined",
    "c116_seeds",
    "c116_sp_seeds",
    "c116_state_words"
   ],
   "note": "The example beside the theorems contains the published test vectors of the generators."
  },
  {
   "property": "C117",
   "status": "partial",
   "theorems": [
    "c117_array_partial",
    "c117_large_refuted",
    "c117_resize_zero_refuted",
    "c117_data_last_partial",
    "c117_data_last_refuted",
    "c117_declare_stack_refuted"
   ],
   "note": "Proved for sizes above zero whose bytes fit into 64 bits. Refuted: larger sizes wrap (for every element size above one byte), resizing to zero (frees the memory when realloc returns 0, as in the GNU C library), array3_data_last uses the capacity, array3_declare_stack does not set the number of elements."
  },
  {
   "property": "C118",
   "status": "proved",
   "theorems": [
    "c118_kernel",
    "c118_length",
    "c118_sine_table"
   ],
   "note": "In IEEE double arithmetic without contraction into fused operations. Cosine and sine of the C library are parameters with the stated accuracy, d at most 10^-6. c118_instance constructs such functions."
  },
  {
   "property": "C119",
   "status": "proved",
   "theorems": [
    "c119_band_reject",
    "c119_band_pass",
    "c119_band_outside",
    "c119_lp_hp_stream",
    "c119_bp_br_stream"
   ],
   "note": "In IEEE double arithmetic without contraction into fused operations. Allocations succeed. Cosine and sine of the C library are parameters with the stated accuracy, d at most 10^-6; m is at most 2^900. c119_instance meets all assumptions with two kernels and a stream of two inputs."
  },
  {
   "property": "C120",
   "status": "proved",
   "theorems": [
    "c120_range",
    "c120_mean",
    "c120_deviation",
    "c120_scale",
    "c120_scale_equal"
   ],
   "note": "In IEEE double arithmetic without contraction into fused operations, with a correctly rounded sqrt as IEEE 754 requires. Sums of magnitudes are at most 2^1000, samples for the deviation at most 2^480; ranges for the scaling are in 2^-900 .. 2^990. The bounds have an additional term of 2^-1022 (mean) and 2^-262 (deviation) for underflow."
  },
  {
   "property": "C121",
   "status": "partial",
   "theorems": [
    "c121_released_partial",
    "c121_room_partial",
    "c121_registration_refuted"
   ],
   "note": "At most one array is lost, and none if no registration fails. Missing because it is false: if the register of the event has to grow (for the first array and at 4, 8, 16, ... arrays) and there is no memory then the array just allocated is lost, for every such number of arrays."
  },
  {
   "property": "C122",
   "status": "proved",
   "theorems": [
    "c122_mix",
    "c122_frequency"
   ],
   "note": "In IEEE double arithmetic without contraction into fused operations. Previous samples are at most 2^900 and n u at most 1/2. Modulation values are small enough for sums with the phase to be 32 bit numbers (as in C19) and the table has an even size. c122_instance mixes two tones of one event."
  },
  {
   "property": "C123",
   "status": "proved",
   "theorems": [
    "c123_tone"
   ],
   "note": "Composes C19, C20, C47, C46, C112 and C122. In IEEE double arithmetic without contraction into fused operations. Rendering starts at time 0 (see C47), the event has at most 1000 channel configurations, the file is smaller than 4 GiB and the caller sets the channel count of the file before it is opened for reading (see C46). Allocations and writes succeed. c123_instance renders two tones and reads them back."
  },
  {
   "property": "C124",
   "status": "partial",
   "theorems": [
    "c124_independent_partial",
    "c124_nested_refuted"
   ],
   "note": "Proved for arrays without paths in paths. Missing because it is false: copies share the inner path of a spline_path_path segment, so that spline_path_free on two copies of the same array frees it twice, for every such array."
  },
  {
   "property": "C125",
   "status": "proved",
   "theorems": [
    "c125_differences",
    "c125_divisions",
    "c125_blend",
    "c125_blend_outside",
    "c125_scale_sum",
    "c125_gain",
    "c125_gain_kept",
    "c125_gain_silent",
    "c125_unity_gain"
   ],
   "note": "In IEEE double arithmetic without contraction into fused operations. Samples are below 2^32 in absolute value for the gain, as the peak is converted to sp_time_t."
  },
  {
   "property": "C126",
   "status": "proved",
   "theorems": [
    "c126_triangle",
    "c126_triangle_peak",
    "c126_pan",
    "c126_harmonize",
    "c126_times_blend",
    "c126_times_mask",
    "c126_times_scale"
   ],
   "note": "In IEEE double arithmetic without contraction into fused operations."
  },
  {
   "property": "C127",
   "status": "partial",
   "theorems": [
    "c127_new_partial",
    "c127_duplicate_partial",
    "c127_constant_partial",
    "c127_separate",
    "c127_failure_partial",
    "c127_failure_refuted"
   ],
   "note": "Proved if memory is available, and for every id of memory errors but 0. Missing because it is false: the id is 0, so that without memory sp_times_duplicate, sp_samples_duplicate and sp_times_constant always use a pointer that has no value, and sp_times_new and sp_samples_new always report success."
  }
 ]
}