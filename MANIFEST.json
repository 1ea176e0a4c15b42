{
 "claims": [
  {
   "property": "C01",
   "status": "proved",
   "theorems": [
    "theta_content",
    "theta_compact_wf"
   ],
   "note": "Update sketch over all histories of Update/Trim/Reset; hashes are inputs."
  },
  {
   "property": "C02",
   "status": "proved",
   "theorems": [
    "theta_meaningful",
    "theta_monotone"
   ],
   "note": ""
  },
  {
   "property": "C03",
   "status": "proved",
   "theorems": [
    "theta_update_outcome",
    "theta_probe_visits_all"
   ],
   "note": ""
  },
  {
   "property": "C04",
   "status": "proved",
   "theorems": [
    "theta_trim"
   ],
   "note": ""
  },
  {
   "property": "C05",
   "status": "proved",
   "theorems": [
    "quick_select_selects"
   ],
   "note": ""
  },
  {
   "property": "C06",
   "status": "proved",
   "theorems": [
    "theta_duplicate_noop",
    "theta_screened_noop"
   ],
   "note": ""
  },
  {
   "property": "C07",
   "status": "proved",
   "theorems": [
    "theta_union_correct",
    "theta_union_spec_meaning",
    "theta_union_order_independent",
    "theta_union_result_wf",
    "theta_empty_union_theta_refuted"
   ],
   "note": "The refuted theorem records that an untouched union with p<1 returns an empty sketch with theta below the maximum."
  },
  {
   "property": "C08",
   "status": "proved",
   "theorems": [
    "theta_intersection_correct",
    "theta_intersection_no_result"
   ],
   "note": ""
  },
  {
   "property": "C09",
   "status": "proved",
   "theorems": [
    "theta_a_not_b_correct",
    "theta_a_not_empty"
   ],
   "note": ""
  },
  {
   "property": "C10",
   "status": "proved",
   "theorems": [
    "theta_uncompressed_round_trip"
   ],
   "note": "Round trip for every storable sketch (wf_sketch, fewer than 2^32 entries); exact size. Finding: max_serialized_size_refuted."
  },
  {
   "property": "C11",
   "status": "proved",
   "theorems": [
    "theta_compressed_round_trip",
    "theta_compressed_not_larger"
   ],
   "note": "Round trip, exact size, never larger than uncompressed."
  },
  {
   "property": "C12",
   "status": "proved",
   "theorems": [
    "pack_block8_layout",
    "unpack_pack_block8",
    "block8_width",
    "pack_bits_layout",
    "unpack_pack_bits",
    "block8_is_pack_bits"
   ],
   "note": "All 63 unrolled pack and unpack functions, extracted statement by statement from bit_packing.go, checked against the bit layout by a verified symbolic checker; every value, every offset."
  },
  {
   "property": "C13",
   "status": "proved",
   "theorems": [
    "bloom_no_false_negatives",
    "bloom_queryAndUpdate_sees_inserted",
    "bloom_queryAndUpdate_is_query_then_update",
    "bloom_never_panics",
    "bloom_fresh_negative",
    "bloom_query_exact",
    "bloom_65535_hashes_refuted"
   ],
   "note": "Holds for 1..65534 hash functions; the refuted theorem shows that 65535, which the constructor accepts, makes Update loop forever."
  },
  {
   "property": "C14",
   "status": "proved",
   "theorems": [
    "bloom_union_bits",
    "bloom_intersect_bits",
    "bloom_invert_bits"
   ],
   "note": ""
  },
  {
   "property": "C15",
   "status": "proved",
   "theorems": [
    "bloom_bits_used_exact",
    "bloom_decoder_trusts_count_refuted"
   ],
   "note": "Holds for every filter built through the API and its own serialized form; a foreign image with a wrong count is believed (refuted theorem)."
  },
  {
   "property": "C16",
   "status": "proved",
   "theorems": [
    "bloom_serde_roundtrip",
    "bloom_zero_length_image_refuted"
   ],
   "note": ""
  },
  {
   "property": "C17",
   "status": "proved",
   "theorems": [
    "countmin_never_underestimates",
    "countmin_exact_without_collision",
    "countmin_never_panics",
    "countmin_lower_bound_refuted",
    "countmin_zero_hashes_refuted",
    "countmin_size_check_overflow_refuted"
   ],
   "note": "For non-negative weights with total below 2^63 and parameters whose product does not overflow int32; refuted theorems record the cases outside."
  },
  {
   "property": "C18",
   "status": "proved",
   "theorems": [
    "countmin_state_is_function_of_stream",
    "countmin_merge_is_concatenation",
    "countmin_incompatible_merge_rejected"
   ],
   "note": ""
  },
  {
   "property": "C19",
   "status": "proved",
   "theorems": [
    "countmin_serde_roundtrip",
    "countmin_seed_hash_ignored_refuted",
    "countmin_overlong_image_refuted"
   ],
   "note": ""
  },
  {
   "property": "C20",
   "status": "proved",
   "theorems": [
    "freq_bounds",
    "freq_exact"
   ],
   "note": "Both sketch types. Histories where a purged-to-empty sketch is merged from or serialized are excluded by the hypothesis \"honest\"; freq_emptied_merge_refuted shows the exclusion is needed."
  },
  {
   "property": "C21",
   "status": "proved",
   "theorems": [
    "freq_map_refines"
   ],
   "note": ""
  },
  {
   "property": "C22",
   "status": "proved",
   "theorems": [
    "freq_frequent_items",
    "freq_nfp_strict_refuted"
   ],
   "note": "Strict > of the documentation is >= in the code (refuted theorem)."
  },
  {
   "property": "C23",
   "status": "proved",
   "theorems": [
    "freq_weight",
    "freq_error_accounting",
    "freq_apriori_error"
   ],
   "note": ""
  },
  {
   "property": "C24",
   "status": "proved",
   "theorems": [
    "hll_sketch_exact",
    "hll_order_and_type_free",
    "hll_types_same_estimate",
    "hll_copy_as",
    "hll4_update_error_refuted"
   ],
   "note": "All lgK 4..21. HLL_6 and HLL_8 accept every sequence; HLL_4 if at most 3/8 of its slots have rank 15 or more (hll4_update_error_refuted: otherwise it can return an error). The kxq sums are exact integers, the estimator formulas are parameters."
  },
  {
   "property": "C25",
   "status": "proved",
   "theorems": [
    "hll_sketch_exact",
    "hll_order_and_type_free"
   ],
   "note": "sketch_of states mode, count and exact content of list and set."
  },
  {
   "property": "C26",
   "status": "proved",
   "theorems": [
    "hll6_get_put",
    "hll6_slots_inside"
   ],
   "note": ""
  },
  {
   "property": "C27",
   "status": "proved",
   "theorems": [
    "hll_union_same_lgK",
    "hll_union_exact",
    "sketch_of_agree",
    "hll_union_smaller_lgK_refuted",
    "hll_union_larger_lgK_error_refuted",
    "hll_union_stale_estimate_refuted",
    "hll_union_reset_refuted"
   ],
   "note": "Any sequence of items, sketches and results. For mixed lgK the conditions are in compatible; the refuted theorems show what happens outside them."
  },
  {
   "property": "C28",
   "status": "proved",
   "theorems": [
    "kll_weight_conserved"
   ],
   "note": "For 2 <= m <= k and N < 2^60 (the model has unbounded N; the float arithmetic of the normalised rank is not modelled)."
  },
  {
   "property": "C29",
   "status": "proved",
   "theorems": [
    "kll_never_panics",
    "kll_structure",
    "kll_any_m_never_panics_refuted",
    "kll_m_one_never_panics_refuted",
    "kll_large_k_capacity_refuted"
   ],
   "note": "For 2 <= m <= k (the constructor does not check m: refuted theorems); the capacity equation for k < 32768 (refuted from there on)."
  },
  {
   "property": "C30",
   "status": "proved",
   "theorems": [
    "kll_min_max_exact",
    "kll_retained_from_stream"
   ],
   "note": ""
  },
  {
   "property": "C31",
   "status": "proved",
   "theorems": [
    "kll_exact_mode",
    "kll_exact_up_to_k"
   ],
   "note": ""
  },
  {
   "property": "C32",
   "status": "proved",
   "theorems": [
    "kll_rank_error",
    "kll_compaction_levels"
   ],
   "note": ""
  },
  {
   "property": "C33",
   "status": "proved",
   "theorems": [
    "kll_view_sorted",
    "kll_rank_is_weight",
    "kll_rank_monotone",
    "kll_quantile_correct"
   ],
   "note": "Ranks are natural numbers (weights); the conversion between normalised and natural ranks is floating point and not modelled."
  },
  {
   "property": "C34",
   "status": "proved",
   "theorems": [
    "find_with_inequality_correct",
    "is_answer_unique"
   ],
   "note": ""
  },
  {
   "property": "C35",
   "status": "proved",
   "theorems": [
    "req_new_ok",
    "req_never_fails",
    "req_merge_mode",
    "req_weight_conserved",
    "req_compactors",
    "req_compaction"
   ],
   "note": "Random bits arbitrary; slices.Sort assumed to sort; the float32 section size enters through two stated facts (even numbers up to 1024 are exact, division by sqrt 2 takes off at most half), met by a fixed-point instance. Fewer than 2^47 items."
  },
  {
   "property": "C36",
   "status": "proved",
   "theorems": [
    "reservoir_size",
    "reservoir_members",
    "reservoir_whole_stream",
    "reservoir_k_constant"
   ],
   "note": ""
  },
  {
   "property": "C37",
   "status": "proved",
   "theorems": [
    "reservoir_uniform",
    "reservoir_uniform_sets",
    "reservoir_natural",
    "reservoir_draws_run",
    "reservoir_draws_number"
   ],
   "note": "math/rand is assumed uniform: the theorem counts over all outcomes of its bounded draws."
  },
  {
   "property": "C38",
   "status": "proved",
   "theorems": [
    "union_result",
    "union_exact",
    "union_max_k_one_refuted",
    "union_reset_fresh_refuted",
    "union_raw_size_refuted"
   ],
   "note": "The floating point decisions of the weighted merge are arbitrary booleans. Refuted theorems: maxK = 1 and Reset of an untouched union panic; UpdateFromRaw accepts inconsistent counts."
  },
  {
   "property": "C39",
   "status": "proved",
   "theorems": [
    "varopt_update_never_fails",
    "varopt_refuses",
    "varopt_size",
    "varopt_whole_stream",
    "varopt_total",
    "varopt_members",
    "varopt_heavy",
    "varopt_threshold",
    "varopt_estimate",
    "varopt_k",
    "varopt_k_constant",
    "varopt_update_result",
    "varopt_update_after_union_refuted",
    "varopt_total_weight_refuted"
   ],
   "note": "Weights are exact rationals, random draws arbitrary. Findings: a sketch returned by a union can refuse every update (refuted theorem); TotalSketchWeight is wrong while n <= k (refuted theorem)."
  },
  {
   "property": "C40",
   "status": "proved",
   "theorems": [
    "tdigest_never_fails",
    "tdigest_accounts",
    "tdigest_min_max_exact",
    "tdigest_tails_exact",
    "tdigest_foreign_merge_min_refuted"
   ],
   "note": "Exact rational arithmetic, math.Log arbitrary. Finding: Merge loses the minimum of a decoded sketch whose first centroid stands for several values (refuted theorem)."
  },
  {
   "property": "C41",
   "status": "proved",
   "theorems": [
    "tdigest_rank_range",
    "tdigest_rank_monotone",
    "tdigest_quantile_range",
    "tdigest_queries_stable",
    "tdigest_cdf_monotone",
    "tdigest_pmf_distribution",
    "tdigest_quantile_monotone_refuted",
    "tdigest_foreign_quantile_in_range_refuted",
    "tdigest_foreign_quantile_finite_refuted"
   ],
   "note": "Findings: Quantile is not monotone, its interpolation weights are swapped; for sketches written by others it can exceed the maximum or be NaN (refuted theorems)."
  },
  {
   "property": "C42",
   "status": "proved",
   "theorems": [
    "tuple_content",
    "tuple_keys_are_theta",
    "tuple_update_outcome",
    "tuple_compact",
    "tuple_from_theta"
   ],
   "note": "Summaries have value semantics."
  },
  {
   "property": "C43",
   "status": "proved",
   "theorems": [
    "tuple_union_correct",
    "tuple_intersection_correct",
    "tuple_a_not_theta_b_correct",
    "tuple_a_not_b_correct",
    "tuple_union_mutates_input_refuted"
   ],
   "note": "Value semantics (applyFunc); with an in-place Policy the input sketch is changed by later updates of the union (refuted theorem)."
  },
  {
   "property": "C44",
   "status": "proved",
   "theorems": [
    "pair_table_is_a_set",
    "pair_table_overflow_refuted"
   ],
   "note": "For every operation history within the room of the table; the bound is sharp (refuted theorem: one more pair panics)."
  },
  {
   "property": "C45",
   "status": "proved",
   "theorems": [
    "cpc_represents_coupons",
    "cpc_represents_small",
    "cpc_duplicate",
    "cpc_order_independent",
    "spec_col_meaning",
    "cpc_represents_all_histories_refuted",
    "cpc_offset_limit_refuted"
   ],
   "note": "HIP registers are abstract; hashes are arbitrary 128-bit values. Histories that overflow the pair table or reach 59.375*K coupons fail (refuted theorems)."
  },
  {
   "property": "C46",
   "status": "proved",
   "theorems": [
    "cpc_union_matrix",
    "cpc_union_result",
    "cpc_union_seed"
   ],
   "note": "Sources are sketches satisfying the proved sketch invariant (build_inv shows every built sketch does)."
  },
  {
   "property": "C47",
   "status": "proved",
   "theorems": [
    "cpc_round_trip",
    "cpc_round_trip_state",
    "cpc_round_trip_union",
    "cpc_serialize_total",
    "cpc_serialize_small",
    "cpc_seed_checked",
    "cpc_serialize_fails_refuted",
    "cpc_wrong_seed_accepted_refuted",
    "cpc_truncated_panics_refuted"
   ],
   "note": "Float bits of the HIP registers and the seed hash are parameters; below the table limits of C44. Findings (refuted theorems): serializing can fail on a valid sketch because the fallback sort sorts only part of the array; NewCpcSketchFromSlice does not check the seed; truncated bytes panic."
  },
  {
   "property": "C48",
   "status": "proved",
   "theorems": [
    "string_size_is_readable",
    "long_round_trip",
    "float_round_trip",
    "string_round_trip",
    "long_one",
    "float_one",
    "string_one",
    "string_one_empty_refuted",
    "fixed_deser_short_refuted"
   ],
   "note": "Floats as bit patterns. SerializeOneToSlice of the empty string writes nothing (refuted theorem)."
  },
  {
   "property": "C49",
   "status": "proved",
   "theorems": [
    "longs_slice_round_trip",
    "longs_slice_is_serde",
    "longs_slice_layout",
    "items_slice_round_trip",
    "items_slice_is_serde",
    "strings_slice_round_trip",
    "longs_string_round_trip",
    "longs_string_same",
    "freq_serde",
    "freq_emptied_merge_refuted",
    "freq_emptied_serde_refuted",
    "freq_items_empty_capacity_refuted",
    "longs_string_negative_refuted",
    "longs_slice_short_preamble_refuted",
    "items_slice_short_preamble_refuted"
   ],
   "note": "Byte and string level. Findings (refuted theorems): a sketch emptied by a purge loses its past in bytes and in merges; negative keys cannot be read back from a string; an 8-byte slice with a clear empty flag panics."
  },
  {
   "property": "C50",
   "status": "proved",
   "theorems": [
    "freq_never_errors",
    "freq_items_lg0_refuted",
    "freq_lgcur_refuted"
   ],
   "note": "Refuted theorems show the parameter conditions are needed."
  },
  {
   "property": "C51",
   "status": "proved",
   "theorems": [
    "reservoir_round_trip",
    "from_slice_short_refuted",
    "decoded_zero_refuses_update_refuted",
    "round_trip_large_k_refuted"
   ],
   "note": "Serial version 2 (what ToSlice writes)."
  },
  {
   "property": "C52",
   "status": "proved",
   "theorems": [
    "reservoir_update_never_fails",
    "union_never_fails"
   ],
   "note": ""
  },
  {
   "property": "C53",
   "status": "proved",
   "theorems": [
    "tuple_filter"
   ],
   "note": ""
  },
  {
   "property": "C54",
   "status": "proved",
   "theorems": [
    "theta_truncated_refused",
    "theta_wrong_seed_refused"
   ],
   "note": "Refused means: never returns a sketch. Finding: on some damaged inputs the decoder panics instead of returning an error (theta_decode_panics_refuted)."
  },
  {
   "property": "C55",
   "status": "proved",
   "theorems": [
    "wrapped_equals_decoded",
    "wrapped_encoding"
   ],
   "note": "Finding: on bytes Decode refuses, iteration of the wrapped sketch can panic (wrapped_panics_refuted)."
  },
  {
   "property": "C56",
   "status": "proved",
   "theorems": [
    "req_min_max_exact",
    "req_min_max_tainted",
    "req_min_after_merge_into_new_refuted"
   ],
   "note": "NewSketch leaves min and max at 0 while Reset sets NaN, so merging into a new sketch mixes 0 in (refuted theorem)."
  },
  {
   "property": "C57",
   "status": "proved",
   "theorems": [
    "req_rank_is_weight",
    "req_rank_monotone",
    "req_rank_error",
    "req_rank_exact_end",
    "req_exact_mode",
    "req_exact_below_6k",
    "req_exact_claim",
    "req_exact_claim_edge_refuted",
    "req_exact_claim_smaller_k_refuted",
    "req_rank_after_merge_into_new_refuted"
   ],
   "note": "Ranks are numerators over N. isExactRank is off by one at the edge of its range, and wrong after merging a sketch of smaller k (refuted theorems)."
  },
  {
   "property": "C58",
   "status": "proved",
   "theorems": [
    "req_quantile_correct"
   ],
   "note": "The conversion of a normalised rank to a natural rank (floating point) is not modelled."
  },
  {
   "property": "C59",
   "status": "proved",
   "theorems": [
    "varopt_union_never_fails",
    "varopt_union_size",
    "varopt_total",
    "varopt_members",
    "varopt_heavy",
    "varopt_encode_result_refuted"
   ],
   "note": "The theorems on sketch hold of union results too. Finding: a union result may not be encodable (refuted theorem)."
  },
  {
   "property": "C60",
   "status": "proved",
   "theorems": [
    "varopt_unbiased",
    "varopt_unbiased_from",
    "varopt_expected_unique",
    "mean_unique",
    "integral_unique",
    "integral_mono"
   ],
   "note": "Expectation of a step function of a uniform draw of (0,1) and a uniform index, defined in VarOptMean.v and proved unique."
  },
  {
   "property": "C61",
   "status": "proved",
   "theorems": [
    "varopt_round_trip",
    "varopt_union_round_trip",
    "varopt_reloaded_updates_refuted"
   ],
   "note": "Weights that are float64 values, item serializer and float bits are parameters. Finding: a decoded sketch that has dropped items refuses every update (refuted theorem)."
  },
  {
   "property": "C62",
   "status": "proved",
   "theorems": [
    "tdigest_roundtrip",
    "tdigest_made_roundtrip",
    "tdigest_decode_total",
    "tdigest_decoders_agree",
    "tdigest_decode_total_refuted",
    "tdigest_decode_panics_refuted",
    "tdigest_stream_checks_max_refuted"
   ],
   "note": "Float bits are parameters, assumed to give back the values stored. The compatibility format of the stream decoder is not modelled. Findings: DecodeDouble panics on 28 bytes 0,0,0,2,...; the stream decoder accepts a NaN maximum (refuted theorems)."
  },
  {
   "property": "C63",
   "status": "proved",
   "theorems": [
    "tdigest_small_lossless",
    "tdigest_small_rank_exact",
    "tdigest_small_quantile_exact"
   ],
   "note": "Of math.Log only ln x <= 0 for 0 < x <= 1 is assumed."
  },
  {
   "property": "C64",
   "status": "proved",
   "theorems": [
    "hll_images_are_invisible",
    "hll_image_bytes",
    "hll_shipped_answers",
    "hll_shipped_bounds",
    "hll_union_result_image",
    "hll_from_slice_retains_slice_refuted",
    "hll_truncated_image_panics_refuted",
    "hll_list_count_panics_refuted",
    "hll_bad_lgK_accepted_refuted"
   ],
   "note": "For sketches built by updates, and for union results (hll_union_result_image) except HLL_8 results in array mode, which are copies of the gadget and are not covered. Float64bits/Float64frombits of the HIP accumulator are parameters with two stated laws in the first two theorems and the IEEE patterns in hll_shipped_answers, hll_shipped_bounds and hll_union_result_image, which rest on the axioms of the standard library reals; for the two sums the encoding is defined. Findings (refuted theorems): the sketch read from a slice keeps and modifies that slice, against its documentation; truncated images and over-long lists panic; a resolution outside 4..21 is accepted."
  },
  {
   "property": "C65",
   "status": "proved",
   "theorems": [
    "kll_images_are_invisible",
    "kll_image_bytes",
    "kll_long_images",
    "kll_double_images",
    "kll_float_images",
    "kll_string_images",
    "kll_empty_string_image_refuted",
    "kll_any_m_image_refuted",
    "kll_reset_image_refuted",
    "kll_truncated_image_refuted",
    "kll_corrupt_levels_refuted"
   ],
   "note": "Findings (refuted theorems): a strings sketch that has seen the empty string loses data in its image; the constructor accepts m that the reader refuses; a reset sketch changes its reported rank error when shipped; truncated images panic; the level array of an image is not checked."
  },
  {
   "property": "C66",
   "status": "proved",
   "theorems": [
    "kll_weights_unbiased",
    "kll_ranks_unbiased"
   ],
   "note": "The sum over all 2^F outcomes of the F coin flips equals 2^F times the true count; F and the compaction log are shown not to depend on the outcomes. rand.Intn(2) is the coin; its fairness and independence are what \"equally likely outcomes\" assumes."
  },
  {
   "property": "C67",
   "status": "proved",
   "theorems": [
    "tuple_image",
    "tuple_round_trip",
    "tuple_image_injective",
    "tuple_truncated_refused",
    "tuple_header_checked",
    "tuple_wrong_seed_refused",
    "tuple_legacy_image",
    "tuple_encode_error",
    "tuple_decode_no_panic",
    "tuple_stored_content",
    "tuple_decode_unchecked_rows_refuted",
    "aon_image_bytes",
    "aon_round_trip",
    "aon_truncated_refused",
    "aon_wrong_seed_refused",
    "aon_decode_no_panic",
    "aon_wrong_seed_no_entries_refuted",
    "numbers_codec",
    "strings_summary_codec",
    "strings_too_many_refused",
    "strings_read_no_panic",
    "strings_total_is_length",
    "string_keys_collide_refuted"
   ],
   "note": "The io.Writer is taken to accept every write; memory is not modelled (a 16 byte image can ask for 2^32-1 entries). Findings: Decode accepts rows that are repeated or out of order, an array-of-numbers image without entries is accepted under any seed, and GenerateHashKeyFromStrings maps [\"a,b\"] and [\"a\",\"b\"] to the same key (refuted theorems)."
  },
  {
   "property": "C68",
   "status": "proved",
   "theorems": [
    "aon_content",
    "aon_short_vector",
    "aon_long_vector",
    "aon_wrong_number_of_values",
    "aon_union_correct",
    "aon_intersection_correct",
    "aon_a_not_b_correct",
    "aon_union_of_streams",
    "aon_a_not_b_mixes_sizes_refuted",
    "aon_panic_leaves_nonempty_refuted"
   ],
   "note": "Summaries are values here. Findings: A-not-B does not compare the numbers of values, and a vector that is too short panics after the sketch was marked non-empty (refuted theorems)."
  },
  {
   "property": "C69",
   "status": "proved",
   "theorems": [
    "policy_union_correct",
    "policy_union_spares_input",
    "policy_union_of_copies",
    "policy_union_result_copy_stable",
    "policy_intersection_correct",
    "policy_intersection_result_stable",
    "policy_update_sketch_correct",
    "policy_union_of_streams",
    "union_same_sketch_thrice_refuted",
    "union_result_changes_later_refuted",
    "union_follows_update_sketch_refuted",
    "intersection_mutates_first_input_refuted",
    "from_theta_shares_one_summary_refuted"
   ],
   "note": "Summaries are addresses into a heap. Findings (refuted): a sketch passed three times to a policy union counts four times; a union Result and the first input of a union or intersection change with later Updates; updating a sketch after passing it to a union changes the union; a tuple sketch made from a theta sketch has one summary object for all keys. Hence the hypothesis that inputs do not share objects."
  },
  {
   "property": "C70",
   "status": "proved",
   "theorems": [
    "theta_jaccard_ratio",
    "theta_jaccard_exact",
    "theta_equal_correct",
    "theta_jaccard_empty",
    "theta_jaccard_self",
    "theta_jaccard_symmetric",
    "theta_similar_exact",
    "theta_jaccard_wrong_seed",
    "theta_jaccard_huge_disjoint_fails",
    "theta_jaccard_total_refuted",
    "tuple_jaccard_as_theta",
    "tuple_equal_as_theta",
    "tuple_jaccard_quiet_policy",
    "tuple_comparison_changes_input_refuted"
   ],
   "note": "Quotients are exact rationals; the curves of the binomial confidence bounds are parameters. Findings: two disjoint sketches in exact mode with more than 2^26 hashes together make Jaccard return an error; comparing tuple sketches (even IsExactlyEqual) applies the policy to the summaries of the first sketch in place, so asking changes the data."
  },
  {
   "property": "C71",
   "status": "proved",
   "theorems": [
    "murmur3_bytes_reference",
    "murmur3_int64_reference",
    "murmur3_string_reference",
    "murmur3_int32_reference",
    "murmur3_int32_total",
    "murmur3_int32_even_positions",
    "murmur3_one_block_separates",
    "murmur3_short_keys_injective",
    "murmur3_int64_injective",
    "murmur3_int32_injective",
    "murmur3_int32_int64_differ",
    "murmur3_int32_slices_apart_refuted"
   ],
   "note": "The specification is the published algorithm with its constants, checked on a published vector. Finding: an int32 slice is hashed without its elements at odd positions (refuted theorem), so CpcSketch.UpdateInt32Slice counts [1,2] and [1,3] once."
  },
  {
   "property": "C72",
   "status": "proved",
   "theorems": [
    "theta_typed_update",
    "theta_same_key",
    "theta_typed_content",
    "tuple_same_key",
    "tuple_typed_update",
    "integer_keys_64",
    "integer_keys_32",
    "float64_keys",
    "float32_keys",
    "widen32_value",
    "width_is_part_of_the_key",
    "same_number_once_refuted",
    "unsigned_number_once_refuted",
    "same_text_once_refuted",
    "cpc_typed_update",
    "cpc_same_key",
    "cpc_float_keys",
    "cpc_int32_slice_even",
    "cpc_int32_slices_apart_refuted",
    "hll_typed_coupon",
    "hll_same_key"
   ],
   "note": "The external library behind CPC and HLL byte keys (twmb/murmur3) is taken to be the published hash. Findings (refuted): UpdateInt32(5) and UpdateInt64(5), UpdateUint32(5) and UpdateInt32(5), UpdateString and UpdateBytes of the same text each count twice."
  },
  {
   "property": "C73",
   "status": "proved",
   "theorems": [
    "hash_long_is_xxh64",
    "xxh64_words_injective",
    "bloom_typed_hashes",
    "bloom_same_key",
    "bloom_ignored",
    "bloom_typed_no_false_negatives",
    "bloom_integer_keys",
    "bloom_text_keys",
    "bloom_float_keys",
    "bloom_integers_hash_apart",
    "bloom_float_arrays_by_value_refuted",
    "bloom_empty_text_as_slice_refuted"
   ],
   "note": "The external library cespare/xxhash is taken to be the published XXH64, defined in the model and checked on four published values. Findings (refuted): arrays of floats are hashed by their bits, so [0.0] is not found as [-0.0]; the empty string is ignored while the empty byte slice is an item."
  },
  {
   "property": "C74",
   "status": "proved",
   "theorems": [
    "theta_is_a_fraction",
    "exact_mode_is_exact",
    "estimate_order",
    "estimate_value",
    "bounds_in_order",
    "bounds_outcomes",
    "starting_theta_range",
    "theta_sketch_estimates",
    "subset_bounds_in_order",
    "upper_bound_covers_refuted",
    "tiny_probability_refuted"
   ],
   "note": "IEEE binary64 arithmetic; math.Log and math.Pow are parameters with hypotheses log_like and pow_like. The loops of the exact binomial tails are proved to end (within 15000 steps). Rests on the axioms of the standard library reals. Findings (refuted): with a sampling probability below about 2^-54 the upper bound of a sketch without entries is 0, and below 2^-63 the estimate is NaN."
  },
  {
   "property": "C75",
   "status": "proved",
   "theorems": [
    "natural_rank_recovered",
    "natural_rank_recovered_beyond_refuted",
    "natural_rank_close",
    "kll_empty_refuses",
    "kll_norm_rank",
    "kll_norm_rank_monotone",
    "kll_norm_rank_inclusive_larger",
    "kll_quantile64",
    "kll_quantile64_refuses",
    "kll_quantile64_monotone",
    "kll_quantile_of_rank",
    "kll_ranks_each",
    "kll_quantiles_each",
    "kll_cdf",
    "kll_pmf",
    "kll_partition",
    "kll_partition_refuses_zero",
    "partition_boundaries_change_ranks_refuted"
   ],
   "note": "IEEE binary64 arithmetic; rests on the axioms of the standard library reals. Partition boundaries are proved for at least two retained items or one item in all. Findings (refuted): GetPartitionBoundaries writes into the cached sorted view, so later ranks and quantiles change; beyond ten million items a natural rank need not survive normalisation; a NaN rank passes the range check (kll_quantile64_refuses gives Unspecified, the conversion of NaN to an integer)."
  },
  {
   "property": "C76",
   "status": "proved",
   "theorems": [
    "margin_constants",
    "rank_bounds_order",
    "rank_bounds_accurate_side",
    "compute_rse_ok",
    "rank_bounds_negative_deviations_refuted",
    "req_empty_refuses",
    "req_norm_rank",
    "req_norm_rank_monotone",
    "req_norm_rank_inclusive_larger",
    "req_ranks_each",
    "req_quantiles_each",
    "req_quantile64_ok",
    "req_quantile64_refuses",
    "req_quantile64_monotone",
    "req_quantile_of_rank",
    "req_cdf_ok",
    "req_pmf_ok",
    "req_rank_bounds",
    "req_rank_bounds_exact",
    "req_quantile_bounds",
    "req_quantile_bounds_end_refused"
   ],
   "note": "IEEE binary64 arithmetic; rests on the axioms of the standard library reals. Findings: QuantileLowerBound(0) with high rank accuracy and QuantileUpperBound(1) with low rank accuracy always return an error once the sketch estimates and has more than 3k items, because the rank bound leaves [0,1] (req_quantile_bounds_end_refused); the number of standard deviations is not checked, so a negative one turns the bounds around (refuted theorem); a NaN rank passes the check of Quantile."
  },
  {
   "property": "C77",
   "status": "proved",
   "theorems": [
    "hll_bounds_enclose",
    "hll_coupon_estimate",
    "hll_hip_estimate",
    "hll_estimate_grows",
    "hll_bounds_widen",
    "hll_bad_std_devs",
    "hll_kxq_exact",
    "hll_rebuild_exact",
    "hll_rebuild_infinite_refuted",
    "hll_composite_estimate",
    "hll_union_estimate",
    "hll_union_lower_above_estimate_refuted"
   ],
   "note": "IEEE binary64 arithmetic; math.Log is a parameter with hypothesis log_ok (which a correctly rounded logarithm meets, rounded_log_ok). Rests on the axioms of the standard library reals. Findings (refuted): on the result of a union the lower bound can lie above the estimate (it is raised to the number of occupied slots, the composite estimate is not); the sums recomputed by a union lose registers above 31, 16 slots of rank 60 give the estimate +Inf (needs hashes with 59 leading zeros)."
  },
  {
   "property": "C78",
   "status": "proved",
   "theorems": [
    "cpc_hip_estimate",
    "cpc_estimate_grows",
    "cpc_bounds_enclose",
    "cpc_bounds_value",
    "cpc_bounds_widen",
    "cpc_union_bounds",
    "cpc_icon_inverts",
    "cpc_union_estimate_inverts",
    "cpc_kappa_unchecked_refuted"
   ],
   "note": "IEEE binary64 arithmetic; math.Log and math.Pow are parameters with hypotheses log_ok and pow_ok (met by correctly rounded functions: rounded_log_ok, rounded_pow_ok). Rests on the axioms of the standard library reals. Histories with a hash of d or more leading zeros, lgK + d > 53, are outside the theorems. Finding (refuted): kappa is not checked. Monotonicity of the ICON estimate in the number of coupons is not claimed."
  },
  {
   "property": "C79",
   "status": "proved",
   "theorems": [
    "cpc_wrapper_reads",
    "cpc_wrapper_stream",
    "cpc_wrapper_union",
    "cpc_read_back_answers",
    "cpc_wrapper_empty_refuted",
    "cpc_wrapper_empty_union_refuted"
   ],
   "note": "float64 accumulators with their IEEE bit patterns; the seed hash is a parameter below 2^16. Finding (refuted): the wrapper drops the error of getHiFieldOffset, so the view of an empty sketch answers from the bytes of the preamble (a negative estimate for a fresh sketch, 68157698 coupons for the empty result of a union of lgK 4). GetFamily is a constant and not modelled."
  },
  {
   "property": "C80",
   "status": "proved",
   "theorems": [
    "bloom_suggested_bits",
    "bloom_suggested_hashes",
    "bloom_suggested_hashes_from_size",
    "bloom_by_accuracy",
    "bloom_by_accuracy_refuses",
    "bloom_by_accuracy_nan_refuted",
    "bloom_bits_overflow_refuted",
    "bloom_hashes_overflow_refuted"
   ],
   "note": "math.Log is a parameter with a relative error of at most 2^-50 between 0 and 1 (rounded_log_near: the correctly rounded logarithm is one). math.Ln2 is shown to be within 2^-54 of ln 2. Findings (refuted theorems): a target of NaN is not refused by the range test; a number of bits from 2^64 and a number of hash functions from 2^16 are converted out of range, which Go leaves to the implementation."
  },
  {
   "property": "C81",
   "status": "proved",
   "theorems": [
    "countmin_upper_bound",
    "countmin_upper_bound_uint64",
    "countmin_suggested_buckets",
    "countmin_suggested_rows",
    "countmin_suggestions_refuse",
    "countmin_upper_bound_wraps_refuted",
    "countmin_full_confidence_refuted",
    "countmin_zero_confidence_refuted",
    "countmin_suggestions_unspecified_refuted"
   ],
   "note": "math.Exp(1) is a parameter within 2^-50 of e (f_e_near: the nearest float64 is one), math.Log a parameter with a relative error of at most 2^-50 from 1 to 2^53 (rounded_log_near1). Findings (refuted theorems): GetUpperBound wraps for totals near 2^63; SuggestNumHashes(1) converts an infinity to int8 before the cap at 127 applies; SuggestNumHashes(0) is 0; NaN passes both range tests; a relative error below e / 2^31 overflows int32."
  },
  {
   "property": "C82",
   "status": "proved",
   "theorems": [
    "kll_rank_error_value",
    "kll_rank_error_new",
    "kll_rank_error_update",
    "kll_rank_error_merge",
    "kll_rank_error_larger_k",
    "kll_reset_keeps_rank_error_refuted"
   ],
   "note": "math.Pow is a parameter with a relative error of at most 2^-50 for bases from 8 to 2^16 and exponents between 0 and 1 (rounded_pow_near: the correctly rounded power is one). ex_history: a sketch taking in an estimating one. Finding (refuted theorem): Reset keeps the smallest k of earlier merges, so an emptied sketch reports a larger error than a new one. That the fit covers the actual rank errors is an empirical statement and not part of the property."
  }
 ]
}