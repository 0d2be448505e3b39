{
 "claims": [
  {
   "property": "C01",
   "status": "proved",
   "theorems": [
    "C01_for_each_visits_all_in_order",
    "C01_for_each_visits_all_with_prologue"
   ],
   "note": "All lengths, widths, unroll factors, element sizes, stateful callables; also with prologue when the range reaches the aligned address."
  },
  {
   "property": "C02",
   "status": "partial",
   "theorems": [
    "C02_for_each_write_back",
    "C02_for_each_write_back_stateful",
    "C02_for_each_by_value_changes_nothing",
    "C02_for_each_write_back_plain",
    "C02_for_each_write_back_iff",
    "C02_for_each_write_back_refuted"
   ],
   "note": "Lane-wise and arbitrary stateful callables; by-value callables change nothing. Proved whenever the range reaches the aligned address its policy asks for (always without a prologue: C02_for_each_write_back_plain). The unrestricted claim is false of the code (C02_for_each_write_back_refuted: elements outside changed, elements inside updated twice); C02_for_each_write_back_iff decides every case."
  },
  {
   "property": "C03",
   "status": "partial",
   "theorems": [
    "C03_for_each_prologue_stays_inside",
    "C03_for_each_auto_prologue_stays_inside",
    "C03_prefer_aligned_refuted",
    "C03_auto_prologue_huge_vector_refuted",
    "C03_for_each_inside_iff",
    "C03_transform_reduce_prefer_aligned_refuted",
    "C03_transform_prefer_aligned_refuted",
    "C03_transform_inside_iff"
   ],
   "note": "Proved for for_each, transform and transform_reduce when the range reaches the aligned address (always with auto_prologue and vectors up to 4000 bytes). The unrestricted claim is false: the refuted theorems. C03_for_each_inside_iff, C03_transform_inside_iff and C08_transform_reduce_inside_iff decide every case."
  },
  {
   "property": "C04",
   "status": "proved",
   "theorems": [
    "C04_for_each_aligned_accesses",
    "C04_underaligned_elements_refuted",
    "C04_transform_reduce_aligned_loads",
    "C04_transform_aligned_stores"
   ],
   "note": "for_each (loads), transform (stores) and transform_reduce (loads), for every range, also when the prologue leaves it; naturally aligned elements. Without natural alignment: C04_underaligned_elements_refuted."
  },
  {
   "property": "C05",
   "status": "partial",
   "theorems": [
    "C05_count_if_consteval",
    "C05_count_if_consteval_every_input",
    "C05_count_if_consteval_refuted",
    "C05_count_if_consteval_width_two",
    "C05_for_each_consteval_same",
    "C05_for_each_consteval_refuted",
    "C05_for_each_consteval_width_two",
    "C05_for_each_consteval_width_two_by_value"
   ],
   "note": "for_each and count_if: proved except for width 2 with a non-empty even length, where the claim is false (C05_for_each_consteval_refuted, C05_count_if_consteval_refuted) and the width_two theorems state what happens instead."
  },
  {
   "property": "C06",
   "status": "partial",
   "theorems": [
    "C06_transform_runtime",
    "C06_transform_plain",
    "C06_transform_short_output_refuted",
    "C06_transform_consteval",
    "C06_transformed_determines_memory"
   ],
   "note": "Run time and constant evaluation, any number of inputs, output equal to or before an input. Proved whenever the output reaches the aligned address its policy asks for (always without a prologue: C06_transform_plain). The unrestricted claim is false of the code: C06_transform_short_output_refuted; C03_transform_inside_iff decides every case."
  },
  {
   "property": "C07",
   "status": "proved",
   "theorems": [
    "C07_transform_reduce_generalised_sum",
    "C07_transform_reduce_is_fold",
    "C07_transform_reduce_consteval",
    "C07_reduce_generalised_sum",
    "C07_reduce_sums",
    "C07_inner_product"
   ],
   "note": "All lengths, widths, unroll factors, numbers of inputs, arbitrary (also non-associative) operations; constant evaluation; the reduce and inner-product overloads."
  },
  {
   "property": "C08",
   "status": "partial",
   "theorems": [
    "C08_transform_reduce_prologue_partial",
    "C08_prologue_consumes_range_refuted",
    "C08_transform_reduce_inside_iff"
   ],
   "note": "Proved whenever the prologue leaves part of the range. If the prologue consumes the whole range the claim is false (C08_prologue_consumes_range_refuted). C08_transform_reduce_inside_iff decides every case."
  },
  {
   "property": "C09",
   "status": "proved",
   "theorems": [
    "C09_count_if_counts",
    "C09_count_if_every_input"
   ],
   "note": "All lengths, widths, unroll factors and policies that reach the aligned address; result exact unless it exceeds the 32-bit counter lane (int overflow is UB in the model)."
  },
  {
   "property": "C10",
   "status": "proved",
   "theorems": [
    "C10_count_if_mismatch_traps_first",
    "C10_count_if_matching_same",
    "C10_for_each_mismatch_traps_first",
    "C10_for_each_matching_uniform_chunks",
    "C10_for_each_matching_same",
    "C10_for_each_uniform_calls",
    "C10_transform_reduce_mismatch_traps_first",
    "C10_transform_reduce_matching_uniform_chunks",
    "C10_transform_reduce_matching_same",
    "C10_transform_mismatch_traps_first",
    "C10_transform_matching_uniform_chunks",
    "C10_transform_matching_same"
   ],
   "note": "for_each, transform, transform_reduce and count_if: mismatch traps before any access; with a matching size the calls and results are identical to those without the modifier, whatever the callable. What the handler does is the subject of C67 (in the default configuration it is unreachable(), i.e. undefined behaviour)."
  },
  {
   "property": "C11",
   "status": "proved",
   "theorems": [
    "C11_for_each_chunk_shapes",
    "C11_for_each_chunk_shapes_always"
   ],
   "note": "At run time, for every range and policy, also when the prologue leaves the range (C11_for_each_chunk_shapes_always)."
  },
  {
   "property": "C12",
   "status": "proved",
   "theorems": [
    "C12_chain_accepted_iff_legal",
    "C12_chain_carries_requests",
    "C12_chain_consistent",
    "C12_chain_order_irrelevant"
   ],
   "note": "Accepted exactly if legal; result carries exactly the requests; order irrelevant."
  },
  {
   "property": "C13",
   "status": "partial",
   "theorems": [
    "C13_binary_partial",
    "C13_unary",
    "C13_mul_refuted",
    "C13_mul_guard_is_exact"
   ],
   "note": "Proved for all operators except * on types exactly half as wide as int, where it is refuted (uint16_t*uint16_t overflows int)."
  },
  {
   "property": "C14",
   "status": "proved",
   "theorems": [
    "C14_binary",
    "C14_shift_int",
    "C14_negate",
    "C14_complement",
    "C14_not",
    "C14_compare",
    "C14_compound",
    "C14_compound_alias",
    "C14_increment",
    "C14_decrement",
    "C14_postfix",
    "C14_scalar_abi",
    "C14_conversion"
   ],
   "note": "Fallback simd; scalar C++ integer semantics (promotion, overflow, shifts C++17/20) is part of the model."
  },
  {
   "property": "C15",
   "status": "proved",
   "theorems": [
    "C15_mask_load",
    "C15_mask_copy_to_defined",
    "C15_mask_copy_to",
    "C15_copy_to",
    "C15_copy_to_defined_only_if",
    "C15_copy_from",
    "C15_copy_from_frame",
    "C15_load_constructor",
    "C15_round_trip",
    "C15_generator_subscript",
    "C15_subscript_generator",
    "C15_subscript_range",
    "C15_subscript_set",
    "C15_broadcast"
   ],
   "note": "loads and stores access exactly the size() consecutive elements, round trips, generator and subscript inverse."
  },
  {
   "property": "C16",
   "status": "proved",
   "theorems": [
    "C16_assign",
    "C16_compound",
    "C16_increment_decrement",
    "C16_const_forms",
    "C16_self_masked",
    "C16_bool_where"
   ],
   "note": "assignment, compound operators, increment/decrement, const and bool forms; unselected lanes cannot cause undefined behaviour."
  },
  {
   "property": "C17",
   "status": "proved",
   "theorems": [
    "C17_masked_load",
    "C17_masked_load_frame",
    "C17_masked_store",
    "C17_masked_store_defined_only_if",
    "C17_mask_masked_load",
    "C17_mask_masked_load_frame"
   ],
   "note": "masked loads and stores access selected elements only; modelled for fixed_size (the scalar simd_mask masked-load constructor is ill-formed, simd.h:665-669)."
  },
  {
   "property": "C18",
   "status": "proved",
   "theorems": [
    "C18_all_of",
    "C18_any_of",
    "C18_none_of",
    "C18_some_of",
    "C18_popcount",
    "C18_find_first_set",
    "C18_find_last_set",
    "C18_find_set_empty",
    "C18_all_of_none_of_not",
    "C18_popcount_all_of",
    "C18_popcount_any_of",
    "C18_popcount_not",
    "C18_scalar_abi",
    "C18_exact_bool",
    "C18_mask_operators",
    "C18_mask_not"
   ],
   "note": "Fallback simd_mask as a list of lanes; loops, preconditions and the scalar/bool overloads as written."
  },
  {
   "property": "C19",
   "status": "proved",
   "theorems": [
    "C19_split_parts",
    "C19_concat",
    "C19_concat_split",
    "C19_split_concat",
    "C19_split_array",
    "C19_split_array_ill_formed",
    "C19_concat_array",
    "C19_split_same"
   ],
   "note": "split/concat of simd and mask, all pack and array forms."
  },
  {
   "property": "C20",
   "status": "proved",
   "theorems": [
    "C20_reduce",
    "C20_reduce_is_fold",
    "C20_masked_reduce",
    "C20_selected_lanes",
    "C20_masked_reduce_none",
    "C20_default_identity"
   ],
   "note": "any number of lanes; masked forms and the five implied identity elements for integer types."
  },
  {
   "property": "C21",
   "status": "partial",
   "theorems": [
    "C21_hmin",
    "C21_hmax",
    "C21_orders",
    "C21_hmin_nan",
    "C21_hmax_nan",
    "C21_considered",
    "C21_hmin_nan_refuted",
    "C21_hmax_nan_refuted",
    "C21_hmin_where_int",
    "C21_hmax_where_int",
    "C21_hmin_where_float_partial",
    "C21_hmax_where_float_partial",
    "C21_hmin_where_float_refuted",
    "C21_hmax_where_float_refuted",
    "C21_hmin_where_float_iff",
    "C21_hmax_where_float_iff",
    "C21_hmin_where_infinity",
    "C21_hmax_where_infinity",
    "C21_hmin_where_int_infinity_refuted"
   ],
   "note": "full claim is false: hmin(where)/hmax(where) start from max()/lowest() and return that when every selected lane is NaN or infinite in the wrong direction (refuted theorems); C21_hmin_where_float_iff and C21_hmax_where_float_iff decide every content, NaN included. hmin(v)/hmax(v): the minimum without NaN (C21_hmin); with NaN, C21_hmin_nan and C21_hmax_nan give the result for every content, which can miss a smaller lane (refuted theorems)."
  },
  {
   "property": "C22",
   "status": "partial",
   "theorems": [
    "C22_ts_rule_partial",
    "C22_ts_rule_refuted",
    "C22_value_preserving_partial",
    "C22_float16_refuted",
    "C22_float_to_int_rejected",
    "C22_int_complete",
    "C22_accepted_iff",
    "C22_broadcast_partial",
    "C22_conversion_constructor",
    "C22_simd_cast"
   ],
   "note": "full claim is false for std::float16_t to int (refuted theorem); C22_accepted_iff decides every pair of types: accepted exactly if every value is kept, or if the source is a floating-point format whose maximum exponent is below the digits of the signed integer target. C22_ts_rule_partial decides the implicit conversions between fixed_size simds on the usual platforms against the TS's rule. Format descriptors are IEEE style (emin = 1 - emax)."
  },
  {
   "property": "C23",
   "status": "partial",
   "theorems": [
    "C23_permute_obeys_index",
    "C23_permute_rejects_bad_index",
    "C23_paths_agree",
    "C23_scalar_is_one_lane",
    "C23_avx2_resize_refuted"
   ],
   "note": "All index functions, sizes and contents, on the generic and the shuffle-builtin path, plus the scalar overload; unpadded vectors. Missing: even rotations of 8 floats on AVX2 (no_avx2), decided in C24 by C24_rotate_avx2_accepted and C24_rotate_avx2_correct_iff; C23_avx2_resize_refuted: there a rotation with a different output size does not compile."
  },
  {
   "property": "C24",
   "status": "partial",
   "theorems": [
    "C24_rotate_partial",
    "C24_rotate_compose_partial",
    "C24_rotate_inverse_partial",
    "C24_rotate_negative_refuted",
    "C24_rotate_avx2_large_refuted",
    "C24_rotate_avx2_negative_refuted",
    "C24_rotate_correct_iff",
    "C24_rotate_avx2_accepted",
    "C24_rotate_avx2_correct_iff"
   ],
   "note": "Proved for every offset >= 0 and for every offset if size is a power of two (generic, shuffle), and for even offsets 0..8 on the AVX2 path. Refuted: negative offsets with other sizes, AVX2 even offsets beyond 8 and negative ones. C24_rotate_correct_iff and C24_rotate_avx2_correct_iff say exactly which offsets are right."
  },
  {
   "property": "C25",
   "status": "proved",
   "theorems": [
    "C25_swap_neighbors",
    "C25_swap_neighbors_involution",
    "C25_swap_neighbors_rejects",
    "C25_reverse",
    "C25_reverse_involution",
    "C25_duplicate_even",
    "C25_duplicate_even_idempotent",
    "C25_duplicate_odd",
    "C25_duplicate_odd_idempotent",
    "C25_duplicate_odd_rejects",
    "C25_broadcast"
   ],
   "note": "Lane formulas, in-bounds, involution/idempotence, and rejection of unsuitable sizes."
  },
  {
   "property": "C26",
   "status": "partial",
   "theorems": [
    "C26_shift",
    "C26_shift_in_partial",
    "C26_shift_in_is_shift_partial",
    "C26_shift_in_negative_refuted",
    "C26_shift_in_every_offset"
   ],
   "note": "shift proved for all offsets; shift_in proved for offsets >= 0 and refuted for negative offsets (wraps around instead of inserting zero); C26_shift_in_every_offset states the result for every offset."
  },
  {
   "property": "C27",
   "status": "proved",
   "theorems": [
    "C27_cw_value"
   ],
   "note": "All literals of [lex.icon] (own grammar and positional value), all type widths."
  },
  {
   "property": "C28",
   "status": "partial",
   "theorems": [
    "C28_cw_accepts_partial",
    "C28_cw_accepted_iff",
    "C28_cw_rejects_large",
    "C28_zero_refuted",
    "C28_upper_binary_refuted"
   ],
   "note": "Accepted exactly if the value fits, the prefix is not 0B, and zero is spelled as the single digit 0 (C28_cw_accepted_iff); the full claim is refuted for 0x0/00/0b0 and for 0B."
  },
  {
   "property": "C29",
   "status": "proved",
   "theorems": [
    "C29_cw_smallest_type"
   ],
   "note": "For every accepted literal and all type widths."
  },
  {
   "property": "C30",
   "status": "proved",
   "theorems": [
    "C30_struct_size",
    "C30_struct_size_members"
   ],
   "note": "Any contiguous acceptance predicate and any sizeof; also bounds every probe, no probe repeated."
  },
  {
   "property": "C31",
   "status": "partial",
   "theorems": [
    "C31_load_is_array_partial",
    "C31_load_members_partial",
    "C31_tuple_load_is_array",
    "C31_load_unordered_structs",
    "C31_lane_order_refuted"
   ],
   "note": "All paths (generic, two members, three members, three floats x 4 lanes, simd_tuple) proved; false for three floats x 8 lanes, where lanes are loaded in the order 0,3,6,1,4,7,2,5 (refuted; each lane still is a whole struct)."
  },
  {
   "property": "C32",
   "status": "partial",
   "theorems": [
    "C32_store_is_array",
    "C32_tuple_store_is_array",
    "C32_round_trip_partial",
    "C32_tuple_round_trip",
    "C32_round_trip_refuted"
   ],
   "note": "Stores proved on every path for every N; load-store identity proved except on the three floats x 8 lanes path, where it permutes the structs in memory (refuted)."
  },
  {
   "property": "C33",
   "status": "partial",
   "theorems": [
    "C33_flat_member_count",
    "C33_flat_element_partial",
    "C33_flat_get_partial",
    "C33_flat_get_flat_partial",
    "C33_flat_get_refuted",
    "C33_flat_get_rejects_refuted",
    "C33_flat_element_wrapper_refuted",
    "C33_flat_element_iff",
    "C33_accessible_get",
    "C33_flat_get_iff",
    "C33_fuel_irrelevant"
   ],
   "note": "flat_member_count proved; flat_element and flat_get proved where they exist and for aggregates of scalars; flat_get on nested aggregates is wrong or ill-formed beyond the first member (refuted)."
  },
  {
   "property": "C34",
   "status": "proved",
   "theorems": [
    "C34_version_operators",
    "C34_version_total_order",
    "C34_version_decode",
    "C34_version_number_order"
   ],
   "note": "With and without operator<=>; decode/encode of the version number."
  },
  {
   "property": "C35",
   "status": "proved",
   "theorems": [
    "C35_to_bitset",
    "C35_to_simd_mask",
    "C35_mask_round_trip",
    "C35_bitset_round_trip"
   ],
   "note": "fallback branch (libstdc++'s __to_bitset/__from_bitset not modelled)."
  },
  {
   "property": "C36",
   "status": "partial",
   "theorems": [
    "C36_simd_bit_cast_bytes",
    "C36_simd_bit_cast_same_object",
    "C36_simd_bit_cast_defined",
    "C36_simd_bit_cast_round_trip",
    "C36_float_operators_partial",
    "C36_padding_refuted",
    "C36_undefined_iff",
    "C36_cast_to_mask"
   ],
   "note": "bit_cast fully proved (bytes, positions, definedness, round trip). Bit operators proved for all element sizes, lane counts, byte orders and bit patterns without padding bytes; with padding (x87 long double) the cast to the integer type is undefined (C36_padding_refuted, exactly then: C36_undefined_iff)."
  },
  {
   "property": "C37",
   "status": "proved",
   "theorems": [
    "C37_resize",
    "C37_grow_shrink"
   ],
   "note": "both functions."
  },
  {
   "property": "C38",
   "status": "partial",
   "theorems": [
    "C38_static_simd_cast",
    "C38_static_simd_cast_to_partial",
    "C38_static_simd_cast_to_refuted",
    "C38_static_simd_cast_to_larger",
    "C38_static_simd_cast_to_iff",
    "C38_static_mask_cast",
    "C38_to_fixed_size",
    "C38_to_native_partial",
    "C38_to_native_refuted",
    "C38_to_native_broadcasts"
   ],
   "note": "full claim is false: static_simd_cast<V> with another size drops lanes or fails a precondition (exactly: C38_static_simd_cast_to_iff), to_native/to_compatible broadcast for element types up to 8 bytes (refuted theorems, C38_to_native_broadcasts); proved for equal sizes, masks, to_fixed_size and large element types."
  },
  {
   "property": "C39",
   "status": "proved",
   "theorems": [
    "C39_lanes",
    "C39_ordered",
    "C39_clamp_lanes",
    "C39_clamp_ordered",
    "C39_clamp_defined_only_if"
   ],
   "note": "abstract strict total order; clamp undefined when hi<lo."
  },
  {
   "property": "C40",
   "status": "proved",
   "theorems": [
    "C40_iota",
    "C40_iota_int"
   ],
   "note": "simd, std::array, T[N], scalar."
  },
  {
   "property": "C41",
   "status": "proved",
   "theorems": [
    "C41_bit_ceil",
    "C41_bit_ceil_every_argument",
    "C41_bit_ceil_loop"
   ],
   "note": "Both functions; C41_bit_ceil_every_argument and C41_bit_ceil_loop also say what happens where the power of two does not fit (0, endless loop)."
  },
  {
   "property": "C42",
   "status": "proved",
   "theorems": [
    "C42_simdize_size",
    "C42_default_simdize_size"
   ],
   "note": "Members are modelled as a tree; empty aggregates (ill-formed in the code) are excluded by populated."
  },
  {
   "property": "C43",
   "status": "proved",
   "theorems": [
    "C43_one_argument",
    "C43_two_arguments",
    "C43_three_arguments",
    "C43_two_arguments_undefined",
    "C43_three_arguments_undefined",
    "C43_output_one_argument",
    "C43_output_two_arguments",
    "C43_output_one_argument_undefined",
    "C43_output_two_arguments_undefined",
    "C43_modf_in_place",
    "C43_abs_integer",
    "C43_abs_nonnegative_refuted"
   ],
   "note": "scalar functions are parameters; abs on integers is characterised exactly, including the lowest value (C43_abs_nonnegative_refuted shows the result can be negative)"
  },
  {
   "property": "C44",
   "status": "proved",
   "theorems": [
    "C44_struct_get",
    "C44_to_tuple",
    "C44_to_pair",
    "C44_too_many"
   ],
   "note": "the set of accepted initialiser counts is a parameter, assumed to be an interval ending at the number of members"
  },
  {
   "property": "C45",
   "status": "partial",
   "theorems": [
    "C45_simdize_has_width_partial",
    "C45_simdize_default_width_partial",
    "C45_simdize_unchanged_partial",
    "C45_simdize_wellformed_iff",
    "C45_nested_default_refuted"
   ],
   "note": "The last clause (well-formed whenever all scalars have the width) is false of the code: C45_nested_default_refuted; C45_simdize_wellformed_iff gives the exact condition, the other theorems hold under it."
  },
  {
   "property": "C46",
   "status": "partial",
   "theorems": [
    "C46_native_fills_register_partial",
    "C46_native_avx_refuted",
    "C46_native_avx_float",
    "C46_large_elements_scalar",
    "C46_compatible_fills_register",
    "C46_deduce_lanes",
    "C46_rebind_keeps_lanes",
    "C46_resize_lanes",
    "C46_rebind_resize_commute",
    "C46_resize_again"
   ],
   "note": "native<T> is proved except for floating point with AVX but not AVX2, where it is false of the code (C46_native_avx_refuted, exact value in C46_native_avx_float)."
  },
  {
   "property": "C47",
   "status": "partial",
   "theorems": [
    "C47_concept_is_trait",
    "C47_vectorizable_partial",
    "C47_vectorizable_refuted",
    "C47_vectorizable_exact",
    "C47_abi_tag",
    "C47_simd_and_mask",
    "C47_concepts_partial",
    "C47_concepts_error_iff",
    "C47_concepts_refuted",
    "C47_loadstore",
    "C47_flag_type_refuted"
   ],
   "note": "False of the code for cv-qualified arithmetic types (C47_vectorizable_refuted, exact extent in C47_vectorizable_exact), for flag types (C47_flag_type_refuted) and for the concepts of fixed_size<N> with N <= 0, which are an error (C47_concepts_refuted, exactly then: C47_concepts_error_iff); everything else proved."
  },
  {
   "property": "C48",
   "status": "partial",
   "theorems": [
    "C48_construct_lanes",
    "C48_broadcast",
    "C48_construct_iff",
    "C48_subscript",
    "C48_convert_back",
    "C48_load_partial",
    "C48_load_nested_refuted",
    "C48_load_nested"
   ],
   "note": "Loads are proved for aggregates of scalars; for nested aggregates the code is ill-formed (C48_load_nested_refuted, C48_load_nested). Everything else proved for every nesting."
  },
  {
   "property": "C49",
   "status": "partial",
   "theorems": [
    "C49_binary_wraps_partial",
    "C49_single_candidate_partial",
    "C49_binary_value",
    "C49_ambiguous_iff",
    "C49_explicit_type_refuted",
    "C49_undefined_refuted"
   ],
   "note": "Proved where the left operand is no wrapper or wraps its own value; false otherwise (C49_explicit_type_refuted, exact in C49_ambiguous_iff), and undefined operations are not rejected (C49_undefined_refuted)."
  },
  {
   "property": "C50",
   "status": "partial",
   "theorems": [
    "C50_struct_visits_in_order_partial",
    "C50_struct_update_in_place_partial",
    "C50_struct_visits_all",
    "C50_struct_updates_all",
    "C50_three_floats_shuffled",
    "C50_update_in_place_refuted"
   ],
   "note": "Proved for every struct, width and policy except objects of 8 lanes of three floats, where the claim is false (C50_update_in_place_refuted); for those C50_three_floats_shuffled states the resulting order and C50_struct_visits_all / C50_struct_updates_all hold in general."
  },
  {
   "property": "C51",
   "status": "partial",
   "theorems": [
    "C51_constant_arguments_wrap",
    "C51_runtime_argument_plain",
    "C51_result_is_value_partial",
    "C51_result_is_value_refuted",
    "C51_call_ill_formed_iff",
    "C51_subscript_ill_formed_iff",
    "C51_callable_refuted",
    "C51_call_itself_iff",
    "C51_unary_wraps_partial",
    "C51_unary_exact",
    "C51_unary_refuted"
   ],
   "note": "Proved: constant arguments wrap, run-time arguments do not, results agree with the wrapped object's for objects that do not distinguish constants from values, exact conditions for ill-formedness and for giving the value itself, unary operators for wrappers whose two arguments agree. False in general: see the refuted theorems."
  },
  {
   "property": "C52",
   "status": "partial",
   "theorems": [
    "C52_transform_structs_partial",
    "C52_transform_structs_any_order",
    "C52_transform_structs_refuted"
   ],
   "note": "Proved for every struct, width and policy except when an input of three floats is loaded in objects of 8 lanes, where the claim is false (C52_transform_structs_refuted); C52_transform_structs_any_order covers all cases: the unordered inputs are read in a rearranged order, which is stated exactly for 8 lanes without prologue."
  },
  {
   "property": "C53",
   "status": "partial",
   "theorems": [
    "C53_zip_transform_partial",
    "C53_empty_zip_refuted",
    "C53_empty_zip_iff"
   ],
   "note": "Proved for every non-empty view. False of an empty one, whose begin iterators are dereferenced (C53_empty_zip_refuted); C53_empty_zip_iff decides that case exactly."
  },
  {
   "property": "C54",
   "status": "partial",
   "theorems": [
    "C54_transform_reduce_structs_partial",
    "C54_transform_reduce_structs_consteval",
    "C54_transform_reduce_one_range",
    "C54_transform_reduce_structs_any_order",
    "C54_chunks_cover",
    "C54_chunks_disjoint",
    "C54_order_few",
    "C54_order_eight",
    "C54_transform_reduce_structs_refuted"
   ],
   "note": "At run time proved when the order is the same in all ranges (C54_transform_reduce_structs_partial), for a single range without that hypothesis (C54_transform_reduce_one_range), and in constant evaluation without exception (C54_transform_reduce_structs_consteval). False of the code: three-float structs mixed with other ranges at 8 lanes (C54_transform_reduce_structs_refuted). What the code computes for every mix of ranges, and the order in which the operation is applied, is C54_transform_reduce_structs_any_order: the unordered ranges are read in the order described by C54_order_few and C54_order_eight."
  },
  {
   "property": "C55",
   "status": "proved",
   "theorems": [
    "C55_count_if_structs",
    "C55_count_if_structs_consteval_width_two"
   ],
   "note": "Run time and constant evaluation decided for every range, including counts beyond INT_MAX; the exception (two lanes, constant evaluation, even size) is decided by its own theorem."
  },
  {
   "property": "C56",
   "status": "partial",
   "theorems": [
    "C56_reduction_exact_bool_partial",
    "C56_where_exact_bool_partial",
    "C56_exact_bool_refuted",
    "C56_reduction_accepts_iff",
    "C56_where_accepts_iff",
    "C56_where_result"
   ],
   "note": "False for pointers, which pass for bool (refuted theorem); every type and call is decided by the _iff theorems."
  },
  {
   "property": "C57",
   "status": "partial",
   "theorems": [
    "C57_struct_get_partial",
    "C57_struct_get_refuted",
    "C57_struct_get_iff",
    "C57_struct_get_qualifiers_kept",
    "C57_struct_get_well_formed_iff",
    "C57_to_tuple_ref",
    "C57_to_tuple",
    "C57_to_tuple_volatile",
    "C57_struct_element_iff",
    "C57_struct_element_partial",
    "C57_copy_cvref",
    "C57_as_tuple",
    "C57_as_tuple_volatile"
   ],
   "note": "False for aggregates with a single member (refuted theorem): const is added for rvalues and for reference or mutable members of const objects; C57_struct_get_iff decides every argument. to_tuple_ref, to_tuple, copy_cvref and as_tuple proved without exception (volatile stated separately)."
  },
  {
   "property": "C58",
   "status": "partial",
   "theorems": [
    "C58_bindings_partial",
    "C58_bindings_refuted",
    "C58_bindings_iff",
    "C58_bindings_types"
   ],
   "note": "False for auto and for auto&& with rvalues, which are ill-formed unless all members are declared const (refuted theorem); C58_bindings_iff decides every declaration."
  },
  {
   "property": "C59",
   "status": "partial",
   "theorems": [
    "C59_overload_partial",
    "C59_overload_refuted",
    "C59_overload_iff",
    "C59_array_clash",
    "C59_iterators",
    "C59_selected_takes",
    "C59_never_ambiguous",
    "C59_iterator_bodies",
    "C59_range_bodies",
    "C59_common_range_iff",
    "C59_common_range_refuted"
   ],
   "note": "False for built-in arrays of one element type and for ranges that are not common (C59_overload_refuted, C59_common_range_refuted); everything else proved, with exact conditions."
  },
  {
   "property": "C60",
   "status": "partial",
   "theorems": [
    "C60_layout_partial",
    "C60_sound_partial",
    "C60_layout_iff",
    "C60_not_simdizable",
    "C60_layout_refuted",
    "C60_one_element_refuted",
    "C60_sound_refuted"
   ],
   "note": "False for nested structs, one-element arrays, several types with values, and templates that grow with their argument (refuted theorems); exact condition in C60_layout_iff for structs with as many scalars."
  },
  {
   "property": "C61",
   "status": "partial",
   "theorems": [
    "C61_transform",
    "C61_transform_broadcast",
    "C61_documented_partial",
    "C61_documented_refuted",
    "C61_transform_reduce_iff",
    "C61_policy_partial",
    "C61_policy_refuted",
    "C61_value_iff",
    "C61_reduce_op_value",
    "C61_reduce_iff",
    "C61_drop_in_refuted",
    "C61_sum",
    "C61_inner_product_iff",
    "C61_width_one"
   ],
   "note": "transform exactly as documented (and broadcasting besides); documented reductions refuted for simd-only reduce_op, proved given that reduce_op also takes elements; exact conditions for reductions, reduce and inner product; drop-in claim refuted for init of another type; policy independence for callables returning simds, refuted for single values"
  },
  {
   "property": "C62",
   "status": "partial",
   "theorems": [
    "C62_structs",
    "C62_closed",
    "C62_scalar_same_rules",
    "C62_base_element",
    "C62_base_base",
    "C62_element_right_partial",
    "C62_element_left_partial",
    "C62_value_is_first_member",
    "C62_simd_is_first_member",
    "C62_value_refuted",
    "C62_simd_ambiguous",
    "C62_rejected",
    "C62_rejected_refuted"
   ],
   "note": "Proved for operands that are structs (simdized, base, broadcast), well-formedness included. With values and simds proved if the struct has no operator between structs; otherwise false (C62_value_refuted, C62_simd_ambiguous, C62_rejected_refuted) with the exact results stated."
  },
  {
   "property": "C63",
   "status": "partial",
   "theorems": [
    "C63_members_iff",
    "C63_found",
    "C63_usual_partial",
    "C63_member_refuted",
    "C63_rules",
    "C63_converting_base_refuted",
    "C63_base_in_member_refuted",
    "C63_many_bases",
    "C63_derived_iff",
    "C63_derived_refuted",
    "C63_derived_empty_base_iff",
    "C63_array_iff",
    "C63_tuple_like"
   ],
   "note": "Exact for aggregates with any number of empty bases, for classes whose members are all in one base class and for arrays; the claim itself is false for members of type T& or of element-less classes, for two or more members in a base class, and for converting or repeated empty bases. Hypothesis: the members do not mention T or its bases, and there are at most 8 * sizeof of them."
  },
  {
   "property": "C64",
   "status": "proved",
   "theorems": [
    "C64_for_each",
    "C64_for_each_map",
    "C64_for_each_nothrow",
    "C64_for_each_strong_refuted",
    "C64_transform",
    "C64_transform_nothrow",
    "C64_transform_lost_refuted"
   ],
   "note": "for_each and transform exactly, for every callable that keeps its lanes and every position of the throw; equal to the runs of C01/C06 if nothing throws. No strong guarantee (C64_for_each_strong_refuted), and unrolled transforms lose finished results (C64_transform_lost_refuted); neither is claimed."
  },
  {
   "property": "C65",
   "status": "partial",
   "theorems": [
    "C65_for_each_whole_iff",
    "C65_for_each_iff",
    "C65_refuted",
    "C65_for_each_consteval_whole_iff",
    "C65_for_each_consteval_iff",
    "C65_consteval_refuted",
    "C65_transform_iff",
    "C65_transform_consteval_iff",
    "C65_transform_others",
    "C65_reduce_whole_iff",
    "C65_reduce_iff",
    "C65_reduce_aligned_iff",
    "C65_reduce_any_iff",
    "C65_reduce_others",
    "C65_reduce_consteval",
    "C65_reduce_refuted",
    "C65_for_each_recorded",
    "C65_transform_recorded",
    "C65_reduce_recorded"
   ],
   "note": "The full claim is false of the code. Proved instead: exactly when each algorithm stays within an array around its range (iff theorems, run time and constant evaluation, every policy), that the output and the further inputs never are left, and that transform_reduce in constant evaluation never leaves a range. Where the prologue leaves the range or uses it up, C03 and C08 apply."
  },
  {
   "property": "C66",
   "status": "proved",
   "theorems": [
    "C66_for_each_schedule",
    "C66_for_each_schedule_reaching",
    "C66_prologue_length_unique",
    "C66_prologue_below_width",
    "C66_optimize_for_size",
    "C66_consteval_schedule",
    "C66_consteval_as_plain",
    "C66_unroll_groups",
    "C66_auto_prologue_free",
    "C66_transform_schedule",
    "C66_transform_schedule_reaching",
    "C66_transform_consteval"
   ],
   "note": "All clauses at run time and in constant evaluation, for for_each on the trace of simd objects and for transform on its steps. Width 2 with a non-empty even range in constant evaluation is excluded as in C01 (there for_each is wrong, see C01 and its refutation)."
  },
  {
   "property": "C67",
   "status": "partial",
   "theorems": [
    "C67_satisfied_is_silent",
    "C67_action_iff",
    "C67_default_refuted",
    "C67_diagnosis_iff",
    "C67_known_action_iff",
    "C67_known_not_printed_refuted",
    "C67_header_iff",
    "C67_consteval",
    "C67_negative_off",
    "C67_subscript_message",
    "C67_empty_mask_message",
    "C67_matching_message_refuted",
    "C67_mismatch_effect"
   ],
   "note": "The claim is false of the code in the cases listed as findings; C67_action_iff, C67_diagnosis_iff, C67_known_action_iff and C67_header_iff give the exact conditions under which each column of the documented table holds, C67_matching_message_refuted and C67_mismatch_effect the one check whose message is undefined. All other clauses are proved without restriction except that the file name contains no percent sign."
  },
  {
   "property": "C68",
   "status": "partial",
   "theorems": [
    "C68_converts",
    "C68_failure",
    "C68_const_copy_refuted",
    "C68_accepts_iff",
    "C68_fewer_lanes_refuted",
    "C68_more_lanes_refuted",
    "C68_mask_to_simd",
    "C68_direct_mask",
    "C68_plain_conversions_kept",
    "C68_contexts_agree",
    "C68_generic",
    "C68_needed_simd",
    "C68_needed_scalar"
   ],
   "note": "C68_converts, C68_failure, C68_plain_conversions_kept, C68_contexts_agree and C68_generic prove the positive clauses for all types and contexts except copy-initialisation from a const cvt of a scalar that converts anyway, which C68_const_copy_refuted shows not to compile. The last clause is false of the code (C68_fewer_lanes_refuted, C68_more_lanes_refuted, C68_mask_to_simd); C68_accepts_iff gives the exact set of conversions that compile."
  },
  {
   "property": "C69",
   "status": "proved",
   "theorems": [
    "C69_grouping",
    "C69_grouping_reduce",
    "C69_prologue_length_exists",
    "C69_grouping_plain",
    "C69_reproducible",
    "C69_columns",
    "C69_one_lane",
    "C69_consteval_same_refuted",
    "C69_same_at_every_address_refuted",
    "C69_same_for_every_unroll_refuted"
   ],
   "note": "C69_grouping and C69_grouping_reduce give the exact expression for arbitrary operations; C69_reproducible and C69_grouping_plain the independence from addresses, types, targets and other policies; C69_columns and C69_one_lane read the expression for simple cases. The three refuted theorems show that the remaining dependencies are real."
  },
  {
   "property": "C70",
   "status": "partial",
   "theorems": [
    "C70_unary_iff",
    "C70_unary_accepted_iff",
    "C70_scalar_modification_rejected",
    "C70_address_of_scalar_refuted",
    "C70_address_of_class",
    "C70_two_objects_refuted",
    "C70_deref_address",
    "C70_compound_iff",
    "C70_compound_builtin",
    "C70_compound_variable_iff",
    "C70_assign_iff",
    "C70_assign_same_refuted",
    "C70_assign_builtin_rejected",
    "C70_arrow",
    "C70_arrow_rejected_iff",
    "C70_arrow_const_refuted"
   ],
   "note": "The full claim is false of the code in the cases of the refuted theorems (address of scalars, assignment of the same type, proxies and constness of ->). C70_unary_iff, C70_unary_accepted_iff, C70_compound_iff, C70_assign_iff and C70_arrow_rejected_iff say exactly what happens."
  },
  {
   "property": "C71",
   "status": "partial",
   "theorems": [
    "C71_transform_enough_iff",
    "C71_transform_reduce_enough_iff",
    "C71_for_each_enough_iff",
    "C71_count_if_enough_iff",
    "C71_wider_refuted",
    "C71_matching_refuted",
    "C71_for_each_iff",
    "C71_count_if_iff",
    "C71_transform_iff",
    "C71_transform_reduce_iff",
    "C71_optimize_size",
    "C71_for_each_announced",
    "C71_calls_supported",
    "C71_transform_announced",
    "C71_transform_calls_supported",
    "C71_transform_reduce_calls_supported",
    "C71_count_if_calls_supported"
   ],
   "note": "The full claim is false of the code: C71_wider_refuted, C71_matching_refuted. C71_for_each_enough_iff, C71_count_if_enough_iff, C71_transform_enough_iff and C71_transform_reduce_enough_iff say for which policies it holds, the other iff theorems which calls have to be possible. The announced and calls_supported theorems connect this with the calls made at run time by all four algorithms and every policy."
  },
  {
   "property": "C72",
   "status": "partial",
   "theorems": [
    "C72_documented_partial",
    "C72_concept_iff",
    "C72_concept_refuted",
    "C72_error_refuted",
    "C72_for_each_iff",
    "C72_count_if",
    "C72_for_each_fallback_iff",
    "C72_nested_refuted",
    "C72_transform_iff",
    "C72_transform_reduce_iff",
    "C72_struct_sum_refuted"
   ],
   "note": "The full claim is false of the code: C72_concept_refuted, C72_error_refuted, C72_nested_refuted, C72_struct_sum_refuted. C72_documented_partial is the direction that holds; C72_concept_iff, C72_for_each_iff, C72_count_if, C72_for_each_fallback_iff, C72_transform_iff and C72_transform_reduce_iff are the exact conditions."
  },
  {
   "property": "C73",
   "status": "proved",
   "theorems": [
    "C73_transform",
    "C73_places",
    "C73_in_order",
    "C73_consteval",
    "C73_order_unobservable",
    "C73_ascending_refuted"
   ],
   "note": "C73_ascending_refuted shows that the restriction to callables whose answers do not depend on their state is needed with unroll_by."
  },
  {
   "property": "C74",
   "status": "proved",
   "theorems": [
    "C74_transform_reduce",
    "C74_values_unique",
    "C74_consteval",
    "C74_policy_independent_refuted",
    "C74_count_if",
    "C74_count_if_consteval"
   ],
   "note": "C74_policy_independent_refuted shows that the chunks matter."
  },
  {
   "property": "C75",
   "status": "partial",
   "theorems": [
    "C75_members_error_iff",
    "C75_size_iff",
    "C75_typed_iff",
    "C75_sized_iff",
    "C75_sized_mask_iff",
    "C75_error_iff",
    "C75_alignment",
    "C75_alignment_iff",
    "C75_alignment_refuted"
   ],
   "note": "The concepts are proved. memory_alignment has the right value wherever the TS asks for one (C75_alignment) but exists for more types (C75_alignment_refuted, exact extent in C75_alignment_iff)."
  },
  {
   "property": "C76",
   "status": "proved",
   "theorems": [
    "C76_for_each_same",
    "C76_count_if_same",
    "C76_transform_same",
    "C76_transform_reduce_same",
    "C76_for_each_inside",
    "C76_transform_inside",
    "C76_transform_reduce_inside",
    "C76_count_if_inside"
   ],
   "note": "Elements of struct type are in C50, C52 and C54, whose alignment rule is the same."
  },
  {
   "property": "C77",
   "status": "proved",
   "theorems": [
    "C77_for_each_is_transform_in_place",
    "C77_for_each_fuse",
    "C77_transform_fuse",
    "C77_for_each_split",
    "C77_transform_reduce_split",
    "C77_count_if_split",
    "C77_transform_then_reduce",
    "C77_reduce_permuted",
    "C77_count_if_is_sum",
    "C77_count_if_negated"
   ],
   "note": "The claim is restricted to calls that are right by themselves; where they are not is the subject of C03, C05 and C08."
  },
  {
   "property": "C78",
   "status": "proved",
   "theorems": [
    "C78_as_int_iff",
    "C78_as_int_exists_iff",
    "C78_as_unsigned",
    "C78_as_unsigned_bits",
    "C78_unroll_iff"
   ],
   "note": "BitModel.as_unsigned is the case of LP64 with __int128."
  },
  {
   "property": "C79",
   "status": "proved",
   "theorems": [
    "C79_depth",
    "C79_depth_reduce",
    "C79_depth_reached",
    "C79_depth_consteval",
    "C79_accuracy",
    "C79_accuracy_reduce",
    "C79_accuracy_consteval"
   ],
   "note": "Ranges that the prologue takes up entirely are the subject of C08 (undefined)."
  },
  {
   "property": "C80",
   "status": "proved",
   "theorems": [
    "C80_float_addition",
    "C80_float_reduce",
    "C80_float_transform_reduce",
    "C80_float_consteval"
   ],
   "note": "Uses the axioms of the standard library's real numbers (through Flocq)."
  },
  {
   "property": "C81",
   "status": "proved",
   "theorems": [
    "C81_for_each_fewest",
    "C81_for_each_consteval_fewest",
    "C81_for_each_price",
    "C81_any_width_refuted",
    "C81_for_each_calls",
    "C81_for_each_narrow",
    "C81_transform_fewest",
    "C81_transform_price"
   ],
   "note": "Least number for powers of two, price of a prologue, bounds on invocations and on elements in narrower objects for every width. C81_any_width_refuted: for other widths the number is not always the least."
  },
  {
   "property": "C82",
   "status": "proved",
   "theorems": [
    "C82_calls",
    "C82_every_element_once",
    "C82_no_more_than_elements",
    "C82_fewest_transforms",
    "C82_consteval",
    "C82_empty",
    "C82_mismatch",
    "C82_value",
    "C82_order_unobservable",
    "C82_order_refuted",
    "C82_state"
   ],
   "note": "C82_calls: arguments and order of the calls of transform_op, number of calls of reduce_op and of lanes they combine, for operations with state; bound by the number of elements, least number of transforms, constant evaluation, empty range, mismatch and value separately. The case d = n (nothing left after the prologue) is undefined behaviour: C08. All for either order of evaluation in reduce(simd, op); C82_order_unobservable, and C82_order_refuted for operations with state."
  },
  {
   "property": "C83",
   "status": "partial",
   "theorems": [
    "C83_modify",
    "C83_read",
    "C83_sound",
    "C83_in_order",
    "C83_each_once",
    "C83_compiles",
    "C83_read_compiles",
    "C83_satisfiable",
    "C83_vector_register_partial",
    "C83_vector_register_lib_partial",
    "C83_vector_register_simd",
    "C83_vector_register_refuted"
   ],
   "note": "all clauses but the last: values, knowledge, needed scalars, one operand each, compiles, satisfiable. The last one is false for simd of less than 16 bytes: C83_vector_register_refuted, exactly when: C83_vector_register_simd, C83_vector_register_lib_partial, C83_vector_register_partial."
  },
  {
   "property": "C84",
   "status": "proved",
   "theorems": [
    "C84_calls",
    "C84_prefix",
    "C84_nothrow",
    "C84_state"
   ],
   "note": "C84_prefix: the same calls up to the one that throws, without any precondition; C84_calls: with the preconditions of C82, never undefined, and which calls; C84_nothrow: no difference without exceptions."
  },
  {
   "property": "C85",
   "status": "partial",
   "theorems": [
    "C85_transform_frozen",
    "C85_transform_calls",
    "C85_order_unobservable",
    "C85_zip_calls",
    "C85_overloads_agree_refuted",
    "C85_transform_reduce_frozen"
   ],
   "note": "C85_transform_frozen, C85_transform_reduce_frozen: frozen, without preconditions; C85_transform_calls, C85_zip_calls: which calls on which object; C85_order_unobservable. The last sentence of the statement is false of the code: C85_overloads_agree_refuted."
  }
 ]
}