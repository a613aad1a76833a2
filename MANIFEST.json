{
 "claims": [
  {
   "property": "C01",
   "status": "proved",
   "theorems": [
    "C01_ind_not_involutive",
    "C01_ind_bool_spec",
    "C01_ind_not_overflow",
    "C01_steps",
    "C01_steps_overflow"
   ],
   "note": ""
  },
  {
   "property": "C02",
   "status": "proved",
   "theorems": [
    "C02_alloc_least_power_of_two",
    "C02_alloc_wraps",
    "C02_resize_beyond_limit"
   ],
   "note": "Capacity computation of Heap::allocSize; above 2^30 it wraps (the loop works on unsigned shifts as modelled)."
  },
  {
   "property": "C03",
   "status": "proved",
   "theorems": [
    "C03_growth_amortised",
    "C03_growth_amortised_string"
   ],
   "note": ""
  },
  {
   "property": "C04",
   "status": "proved",
   "theorems": [
    "C04_resize_keeps_prefix",
    "C04_resize_keeps_entries"
   ],
   "note": ""
  },
  {
   "property": "C05",
   "status": "proved",
   "theorems": [
    "C05_held_arrays_are_allocated",
    "C05_also_after_exceptions",
    "C05_allocated_arrays_are_counted"
   ],
   "note": ""
  },
  {
   "property": "C06",
   "status": "proved",
   "theorems": [
    "C06_counts_are_exact",
    "C06_all_released",
    "C06_unshift_leaks",
    "C06_self_assignment_leaks",
    "C06_cycle_leaks"
   ],
   "note": ""
  },
  {
   "property": "C07",
   "status": "proved",
   "theorems": [
    "C07_no_use_after_free",
    "C07_sole_owner_refuted",
    "C07_sole_owner_array_refuted",
    "C07_sole_owner_key_refuted",
    "C07_own_element_refuted"
   ],
   "note": ""
  },
  {
   "property": "C08",
   "status": "proved",
   "theorems": [
    "C08_assignment_shares",
    "C08_declaration_shares",
    "C08_operations_are_shared",
    "C08_declared_operations_are_shared",
    "C08_write_is_shared",
    "C08_push_is_shared",
    "C08_copy_is_another_array",
    "C08_copy_separates"
   ],
   "note": ""
  },
  {
   "property": "C09",
   "status": "proved",
   "theorems": [
    "C09_index_makes_a_reference",
    "C09_reference_reads_the_current_element",
    "C09_write_through_reference"
   ],
   "note": ""
  },
  {
   "property": "C10",
   "status": "proved",
   "theorems": [
    "C10_size_within_capacity",
    "C10_constant_is_terminated",
    "C10_operation_terminates",
    "C10_stays_terminated",
    "C10_write_through_popped_breaks"
   ],
   "note": ""
  },
  {
   "property": "C11",
   "status": "proved",
   "theorems": [
    "C11_element_assignment"
   ],
   "note": ""
  },
  {
   "property": "C12",
   "status": "proved",
   "theorems": [
    "C12_push_appends",
    "C12_push_scalar_on_undefined",
    "C12_push_array_on_undefined",
    "C12_push_on_other_scalar_throws"
   ],
   "note": ""
  },
  {
   "property": "C13",
   "status": "proved",
   "theorems": [
    "C13_pop_takes_last",
    "C13_pop_of_string_gives_nul",
    "C13_popped_is_a_reference",
    "C13_popped_reads_the_next_push"
   ],
   "note": ""
  },
  {
   "property": "C14",
   "status": "proved",
   "theorems": [
    "C14_insert_into_vars",
    "C14_insert_into_dense",
    "C14_append_to_vars",
    "C14_append_to_dense",
    "C14_insert_beyond_the_end_throws"
   ],
   "note": ""
  },
  {
   "property": "C15",
   "status": "proved",
   "theorems": [
    "C15_self_append_overruns",
    "C15_self_append_overwrites"
   ],
   "note": ""
  },
  {
   "property": "C16",
   "status": "proved",
   "theorems": [
    "C16_remove_keeps_the_others",
    "C16_remove_returns_a_copy_of_an_array",
    "C16_remove_returns_the_next"
   ],
   "note": ""
  },
  {
   "property": "C17",
   "status": "proved",
   "theorems": [
    "C17_remove_shifts_only_values",
    "C17_key_gets_the_next_value"
   ],
   "note": ""
  },
  {
   "property": "C18",
   "status": "proved",
   "theorems": [
    "C18_shift_takes_first",
    "C18_unshift_puts_first",
    "C18_unshift_then_shift"
   ],
   "note": ""
  },
  {
   "property": "C19",
   "status": "proved",
   "theorems": [
    "C19_strict_total_order",
    "C19_equal_congruent",
    "C19_nan_refuted",
    "C19_embedded_nul_refuted"
   ],
   "note": ""
  },
  {
   "property": "C20",
   "status": "proved",
   "theorems": [
    "C20_lt_means_smaller_somewhere",
    "C20_not_asymmetric",
    "C20_not_transitive",
    "C20_length_one"
   ],
   "note": ""
  },
  {
   "property": "C21",
   "status": "proved",
   "theorems": [
    "C21_equality_structural",
    "C21_equivalence",
    "C21_types_and_keys_ignored"
   ],
   "note": ""
  },
  {
   "property": "C22",
   "status": "proved",
   "theorems": [
    "C22_compare_nil"
   ],
   "note": ""
  },
  {
   "property": "C23",
   "status": "proved",
   "theorems": [
    "C23_binary_total",
    "C23_binary_lower_bound",
    "C23_binary_sorted_keys"
   ],
   "note": ""
  },
  {
   "property": "C24",
   "status": "proved",
   "theorems": [
    "C24_finite_map"
   ],
   "note": ""
  },
  {
   "property": "C25",
   "status": "proved",
   "theorems": [
    "C25_order_independent"
   ],
   "note": ""
  },
  {
   "property": "C26",
   "status": "proved",
   "theorems": [
    "C26_missing_key",
    "C26_present_key",
    "C26_nil_key"
   ],
   "note": ""
  },
  {
   "property": "C27",
   "status": "proved",
   "theorems": [
    "C27_nested_at_reads_outer",
    "C27_refuted"
   ],
   "note": ""
  },
  {
   "property": "C28",
   "status": "proved",
   "theorems": [
    "C28_sort",
    "C28_sort_keys"
   ],
   "note": ""
  },
  {
   "property": "C29",
   "status": "proved",
   "theorems": [
    "C29_index_first_match",
    "C29_index_map"
   ],
   "note": ""
  },
  {
   "property": "C30",
   "status": "proved",
   "theorems": [
    "C30_split_join",
    "C30_join_glue",
    "C30_split_limit"
   ],
   "note": "Strings as char lists; pieces are fresh strings; limit theorem covers every n >= 1."
  },
  {
   "property": "C31",
   "status": "proved",
   "theorems": [
    "C31_split_empty_never_returns",
    "C31_split_empty_limited"
   ],
   "note": ""
  },
  {
   "property": "C32",
   "status": "proved",
   "theorems": [
    "C32_wsplit_words",
    "C32_wsplit_limit",
    "C32_wsplit_limit_one"
   ],
   "note": ""
  },
  {
   "property": "C33",
   "status": "proved",
   "theorems": [
    "C33_strip_exact",
    "C33_strip_cases",
    "C33_strip_outofplace_refuted"
   ],
   "note": "In-place strip proved; blank non-empty string proved to be undefined behaviour; the out-of-place form is refuted (writes freed storage)."
  },
  {
   "property": "C34",
   "status": "proved",
   "theorems": [
    "C34_case"
   ],
   "note": ""
  },
  {
   "property": "C35",
   "status": "proved",
   "theorems": [
    "C35_len_code_points",
    "C35_len_total"
   ],
   "note": "All byte strings, all code point lists."
  },
  {
   "property": "C36",
   "status": "proved",
   "theorems": [
    "C36_getline_line",
    "C36_getline_unterminated",
    "C36_getline_eof",
    "C36_read_all"
   ],
   "note": ""
  },
  {
   "property": "C37",
   "status": "proved",
   "theorems": [
    "C37_write_read"
   ],
   "note": ""
  },
  {
   "property": "C38",
   "status": "proved",
   "theorems": [
    "C38_behaves_as_tape",
    "C38_fifo",
    "C38_put_back",
    "C38_ff_reads_as_eof",
    "C38_writes_append",
    "C38_seek",
    "C38_seek_to_end",
    "C38_seek_negative",
    "C38_seek_wraps",
    "C38_no_relative_seek",
    "C38_seek_for_writing",
    "C38_bits_kept",
    "C38_bits_set"
   ],
   "note": ""
  },
  {
   "property": "C39",
   "status": "proved",
   "theorems": [
    "C39_reading_finishes",
    "C39_without_arrays",
    "C39_value_or_exception_refuted"
   ],
   "note": "parse is total with the stated fuel for every text; the two exceptional conversions are witnessed by C39_value_or_exception_refuted."
  },
  {
   "property": "C40",
   "status": "proved",
   "theorems": [
    "C40_round_trip",
    "C40_round_trip_in_context",
    "C40_numeric_head_refuted",
    "C40_int_becomes_long",
    "C40_empty_array_becomes_nil"
   ],
   "note": "fmtf (ostream << double) is an arbitrary function; doubles are outside the round-trip class. The C++ recursion depth is not bounded in the model."
  },
  {
   "property": "C41",
   "status": "proved",
   "theorems": [
    "C41_not_escaped"
   ],
   "note": ""
  },
  {
   "property": "C42",
   "status": "proved",
   "theorems": [
    "C42_integers_exact",
    "C42_written_as_decimal",
    "C42_fractions_truncated",
    "C42_words",
    "C42_other_words"
   ],
   "note": ""
  },
  {
   "property": "C43",
   "status": "proved",
   "theorems": [
    "C43_dense_arrays_do_not_read_back"
   ],
   "note": ""
  },
  {
   "property": "C44",
   "status": "proved",
   "theorems": [
    "C44_read",
    "C44_terminated_file",
    "C44_lookup",
    "C44_reject",
    "C44_blank_line"
   ],
   "note": "Via the fold over lines; text with NUL bytes excluded."
  },
  {
   "property": "C45",
   "status": "proved",
   "theorems": [
    "C45_last_wins",
    "C45_default"
   ],
   "note": "Ops: file, section, set, get; keys clean strings, arbitrary values for set."
  },
  {
   "property": "C46",
   "status": "proved",
   "theorems": [
    "C46_escape",
    "C46_injective"
   ],
   "note": ""
  },
  {
   "property": "C47",
   "status": "proved",
   "theorems": [
    "C47_reads_document",
    "C47_unclosed_rejected",
    "C47_end_tag"
   ],
   "note": ""
  },
  {
   "property": "C48",
   "status": "proved",
   "theorems": [
    "C48_view_indexing",
    "C48_out_of_range"
   ],
   "note": "Element type arbitrary. Cells are checked against size(), not capacity."
  },
  {
   "property": "C49",
   "status": "proved",
   "theorems": [
    "C49_view_inside",
    "C49_fitting_accepted",
    "C49_too_large_throws",
    "C49_set_offset",
    "C49_negative_offset_refuted",
    "C49_negative_shape_refuted"
   ],
   "note": "The accepted negative offsets and dimensions are stated as _refuted theorems."
  },
  {
   "property": "C50",
   "status": "proved",
   "theorems": [
    "C50_view_of_view",
    "C50_subview",
    "C50_inner_may_exceed_outer"
   ],
   "note": ""
  },
  {
   "property": "C51",
   "status": "proved",
   "theorems": [
    "C51_views_ignore_data",
    "C51_different_descriptors"
   ],
   "note": ""
  },
  {
   "property": "C52",
   "status": "proved",
   "theorems": [
    "C52_elementwise_new",
    "C52_elementwise_inplace",
    "C52_unsupported"
   ],
   "note": ""
  },
  {
   "property": "C53",
   "status": "proved",
   "theorems": [
    "C53_add_sub_broadcast",
    "C53_mul_broadcast",
    "C53_set_broadcast",
    "C53_scalar",
    "C53_mul_new"
   ],
   "note": "BLAS calls are modelled as loops over consecutive cells; element types equal."
  },
  {
   "property": "C54",
   "status": "proved",
   "theorems": [
    "C54_transpose_new",
    "C54_dimension_one_throws"
   ],
   "note": "Storage order and element type arbitrary."
  },
  {
   "property": "C55",
   "status": "proved",
   "theorems": [
    "C55_transpose_in_place",
    "C55_same_as_out_of_place"
   ],
   "note": ""
  },
  {
   "property": "C56",
   "status": "proved",
   "theorems": [
    "C56_poly"
   ],
   "note": "Over any commutative ring given by ring_theory; floating point rounding is not covered."
  },
  {
   "property": "C57",
   "status": "proved",
   "theorems": [
    "C57_sum",
    "C57_sum_of_empty"
   ],
   "note": "Left fold with an arbitrary addition, so it covers floating point as well."
  },
  {
   "property": "C58",
   "status": "proved",
   "theorems": [
    "C58_irange",
    "C58_range",
    "C58_no_progress",
    "C58_mixed_types",
    "C58_irange_long",
    "C58_range_long",
    "C58_no_progress_long",
    "C58_float",
    "C58_float_no_progress",
    "C58_from_zero"
   ],
   "note": ""
  },
  {
   "property": "C59",
   "status": "proved",
   "theorems": [
    "C59_truncated_object_accepted",
    "C59_same_as_complete"
   ],
   "note": ""
  },
  {
   "property": "C60",
   "status": "proved",
   "theorems": [
    "C60_singleton_number_array_collapses"
   ],
   "note": ""
  },
  {
   "property": "C61",
   "status": "proved",
   "theorems": [
    "C61_write_not_readable",
    "C61_read_write_read"
   ],
   "note": "A negative property of the code as written."
  },
  {
   "property": "C62",
   "status": "proved",
   "theorems": [
    "C62_one_element_rhs"
   ],
   "note": ""
  },
  {
   "property": "C63",
   "status": "proved",
   "theorems": [
    "C63_sum_of_arrays_asserts"
   ],
   "note": ""
  },
  {
   "property": "C64",
   "status": "proved",
   "theorems": [
    "C64_longer_right_operand"
   ],
   "note": ""
  },
  {
   "property": "C65",
   "status": "proved",
   "theorems": [
    "C65_swap_vectors",
    "C65_swap_matrices"
   ],
   "note": ""
  },
  {
   "property": "C66",
   "status": "proved",
   "theorems": [
    "C66_dot_vector",
    "C66_dot_one_element_diverges"
   ],
   "note": "Right operand a vector; the gemm branch (matrix on the right) is not modelled."
  },
  {
   "property": "C67",
   "status": "proved",
   "theorems": [
    "C67_concatenate"
   ],
   "note": ""
  },
  {
   "property": "C68",
   "status": "proved",
   "theorems": [
    "C68_feed"
   ],
   "note": ""
  },
  {
   "property": "C69",
   "status": "proved",
   "theorems": [
    "C69_writer_grammar",
    "C69_not_element"
   ],
   "note": ""
  },
  {
   "property": "C70",
   "status": "proved",
   "theorems": [
    "C70_numbers_lost",
    "C70_bare_data"
   ],
   "note": ""
  },
  {
   "property": "C71",
   "status": "proved",
   "theorems": [
    "C71_array_of_scalar",
    "C71_array_of_undefined",
    "C71_array_of_array",
    "C71_resize_of_scalar",
    "C71_small_resize_of_scalar",
    "C71_push_on_scalar",
    "C71_unshift_on_scalar"
   ],
   "note": ""
  },
  {
   "property": "C72",
   "status": "proved",
   "theorems": [
    "C72_resize_of_undefined",
    "C72_presize_keeps",
    "C72_presize_cuts_a_string",
    "C72_presize_of_undefined",
    "C72_presize_of_scalar"
   ],
   "note": "A string presized below its size loses character n: C72_presize_cuts_a_string."
  },
  {
   "property": "C73",
   "status": "proved",
   "theorems": [
    "C73_remove_beyond_the_end_throws",
    "C73_remove_negative_asserts",
    "C73_pop_of_undefined_throws",
    "C73_pop_of_empty_asserts",
    "C73_pop_of_scalar_keeps_it",
    "C73_shift_of_empty"
   ],
   "note": "States what the code does, including the two calls that are undefined or assert."
  },
  {
   "property": "C74",
   "status": "proved",
   "theorems": [
    "C74_subscript_by_key",
    "C74_reference_to_the_value",
    "C74_reference_to_a_new_entry"
   ],
   "note": "Maps whose cells hold no views or references; keys are numbers or strings (not an element of the map itself)."
  },
  {
   "property": "C75",
   "status": "proved",
   "theorems": [
    "C75_assignment_by_key",
    "C75_values_after_assignment"
   ],
   "note": "As C74; the value is an operand that is not an entry of the same map, or a string constant."
  },
  {
   "property": "C76",
   "status": "proved",
   "theorems": [
    "C76_subscript_makes_a_map",
    "C76_assignment_makes_a_map"
   ],
   "note": "As C75."
  },
  {
   "property": "C77",
   "status": "proved",
   "theorems": [
    "C77_reading_by_key",
    "C77_reading_a_key_that_is_there"
   ],
   "note": "As C74; the variable assigned to holds no reference and no view."
  },
  {
   "property": "C78",
   "status": "proved",
   "theorems": [
    "C78_undefined_key",
    "C78_key_of_an_array"
   ],
   "note": "An undefined key is not read from an array of numbers."
  },
  {
   "property": "C79",
   "status": "proved",
   "theorems": [
    "C79_assigning_an_own_entry_refuted",
    "C79_changing_a_key_refuted"
   ],
   "note": "Refutations: the two expected statements are false of the code."
  },
  {
   "property": "C80",
   "status": "proved",
   "theorems": [
    "C80_document"
   ],
   "note": "Messages on std::cout are not modelled; numbers of records are not bounded to int."
  },
  {
   "property": "C81",
   "status": "proved",
   "theorems": [
    "C81_any_file",
    "C81_empty"
   ],
   "note": "Contents without NUL bytes."
  },
  {
   "property": "C82",
   "status": "proved",
   "theorems": [
    "C82_cut_short",
    "C82_undefined",
    "C82_record",
    "C82_record_undefined"
   ],
   "note": "A defect: unknown tags should be skipped."
  },
  {
   "property": "C83",
   "status": "proved",
   "theorems": [
    "C83_marriage_swallows"
   ],
   "note": "A defect: the opposite would be expected."
  },
  {
   "property": "C84",
   "status": "proved",
   "theorems": [
    "C84_family_first"
   ],
   "note": "A defect: the standard allows any order of records."
  },
  {
   "property": "C85",
   "status": "proved",
   "theorems": [
    "C85_unopened"
   ],
   "note": "The unbounded buffer is taken as unbounded; in practice memory ends."
  },
  {
   "property": "C86",
   "status": "proved",
   "theorems": [
    "C86_product",
    "C86_mismatch",
    "C86_dimensions"
   ],
   "note": "Arbitrary zero, addition and multiplication, so floating point is covered, provided gemm sums from left to right."
  },
  {
   "property": "C87",
   "status": "proved",
   "theorems": [
    "C87_stack",
    "C87_overrun",
    "C87_mismatch"
   ],
   "note": "The defect is stated: the theorem describes what the program does for every P, R and K."
  },
  {
   "property": "C88",
   "status": "proved",
   "theorems": [
    "C88_asum",
    "C88_iamax"
   ],
   "note": "Any strict weak order of magnitudes (floating point without NaN)."
  },
  {
   "property": "C89",
   "status": "proved",
   "theorems": [
    "C89_sort",
    "C89_not_in_place"
   ],
   "note": "std::sort's contract is a hypothesis, met in the Example by insertion sort."
  },
  {
   "property": "C90",
   "status": "proved",
   "theorems": [
    "C90_parse"
   ],
   "note": "getopt is modelled from the manual of glibc, with permutation of the words, POSIXLY_CORRECT unset and optind = 1."
  },
  {
   "property": "C91",
   "status": "proved",
   "theorems": [
    "C91_repeated_flag"
   ],
   "note": "This is a defect: the program cannot accept -v -v."
  },
  {
   "property": "C92",
   "status": "proved",
   "theorems": [
    "C92_mistake",
    "C92_lines",
    "C92_total"
   ],
   "note": "The number in the thrown text and getopt's own message on standard error are left out; descriptions must have no NUL."
  },
  {
   "property": "C93",
   "status": "proved",
   "theorems": [
    "C93_dir",
    "C93_dir_other",
    "C93_rdir",
    "C93_rdir_other"
   ],
   "note": "std::filesystem is modelled for POSIX paths; there are no links and nothing changes during the listing."
  },
  {
   "property": "C94",
   "status": "proved",
   "theorems": [
    "C94_tree",
    "C94_order",
    "C94_other"
   ],
   "note": "A file and an empty directory cannot be told apart. Links to directories are followed by tree, so that a cycle of links would not end; the model has none."
  },
  {
   "property": "C95",
   "status": "proved",
   "theorems": [
    "C95_transform",
    "C95_into"
   ],
   "note": "kiss_fft is an arbitrary function from rows of the size it reads to rows of the size it writes."
  },
  {
   "property": "C96",
   "status": "proved",
   "theorems": [
    "C96_reads_on",
    "C96_overrun",
    "C96_odd",
    "C96_in_place",
    "C96_types",
    "C96_construct"
   ],
   "note": "kiss_fftr_alloc returns a null pointer for odd sizes; kiss uses it without a check."
  },
  {
   "property": "C97",
   "status": "proved",
   "theorems": [
    "C97_read",
    "C97_read_channels",
    "C97_read_empty",
    "C97_read_missing"
   ],
   "note": "libsndfile is taken to read as many frames as are left; by its documentation the buffer is too small for the number of frames asked for when there is more than one channel, so this is the mildest reading."
  },
  {
   "property": "C98",
   "status": "proved",
   "theorems": [
    "C98_write",
    "C98_write_row",
    "C98_write_channels",
    "C98_round_trip"
   ],
   "note": "Storing in 16 bits is an arbitrary function on samples. The rate attribute is taken to be an int."
  },
  {
   "property": "C99",
   "status": "proved",
   "theorems": [
    "C99_vector",
    "C99_matrix",
    "C99_tensor"
   ],
   "note": "Elements are printed by an arbitrary function."
  },
  {
   "property": "C100",
   "status": "proved",
   "theorems": [
    "C100_plot",
    "C100_stops",
    "C100_bare_string"
   ],
   "note": "Writing to the pipe is taken to succeed. The empty line after a matrix comes from puts of a text that already ends its last line."
  },
  {
   "property": "C101",
   "status": "proved",
   "theorems": [
    "C101_number",
    "C101_only",
    "C101_overflow",
    "C101_by_zero",
    "C101_too_large"
   ],
   "note": ""
  },
  {
   "property": "C102",
   "status": "proved",
   "theorems": [
    "C102_text",
    "C102_no_number",
    "C102_nil"
   ],
   "note": ""
  },
  {
   "property": "C103",
   "status": "proved",
   "theorems": [
    "C103_in_place",
    "C103_only"
   ],
   "note": ""
  },
  {
   "property": "C104",
   "status": "proved",
   "theorems": [
    "C104_dense",
    "C104_vars",
    "C104_map",
    "C104_nested"
   ],
   "note": "Finding: a + 1 on an array of vars or a map writes a number over the pointer of an undefined element."
  },
  {
   "property": "C105",
   "status": "proved",
   "theorems": [
    "C105_half_way",
    "C105_undefined"
   ],
   "note": ""
  },
  {
   "property": "C106",
   "status": "proved",
   "theorems": [
    "C106_own"
   ],
   "note": "Finding: [1,2,3] += its first element gives [2,4,5]."
  },
  {
   "property": "C107",
   "status": "proved",
   "theorems": [
    "C107_types",
    "C107_not_floats",
    "C107_empty",
    "C107_letter"
   ],
   "note": "Finding: adding two strings fails an assertion or throws."
  },
  {
   "property": "C108",
   "status": "proved",
   "theorems": [
    "C108_int",
    "C108_long",
    "C108_char",
    "C108_floats"
   ],
   "note": ""
  },
  {
   "property": "C109",
   "status": "proved",
   "theorems": [
    "C109_number",
    "C109_integers",
    "C109_in_place",
    "C109_new",
    "C109_new_map",
    "C109_new_nested"
   ],
   "note": ""
  },
  {
   "property": "C110",
   "status": "proved",
   "theorems": [
    "C110_in_place",
    "C110_declared",
    "C110_assigned",
    "C110_undefined_throws"
   ],
   "note": ""
  },
  {
   "property": "C111",
   "status": "proved",
   "theorems": [
    "C111_element",
    "C111_key",
    "C111_missing_key_is_added"
   ],
   "note": ""
  },
  {
   "property": "C112",
   "status": "proved",
   "theorems": [
    "C112_find",
    "C112_undefined_throws",
    "C112_array_throws",
    "C112_element_refuted"
   ],
   "note": "C112_element_refuted: a[0].at(k), where a[0] is a map, gives a reference into a at the position of the key in the map, because var::at does not dereference its receiver before making the reference."
  },
  {
   "property": "C113",
   "status": "proved",
   "theorems": [
    "C113_key_at",
    "C113_range_throws",
    "C113_array_throws"
   ],
   "note": ""
  },
  {
   "property": "C114",
   "status": "proved",
   "theorems": [
    "C114_empty",
    "C114_one_number",
    "C114_numbers",
    "C114_first_array",
    "C114_mixed_throws"
   ],
   "note": ""
  },
  {
   "property": "C115",
   "status": "proved",
   "theorems": [
    "C115_filled",
    "C115_small_size",
    "C115_array_throws"
   ],
   "note": ""
  },
  {
   "property": "C116",
   "status": "proved",
   "theorems": [
    "C116_comma",
    "C116_adds"
   ],
   "note": "The numbers after the first are constants or other variables."
  },
  {
   "property": "C117",
   "status": "proved",
   "theorems": [
    "C117_matrix",
    "C117_results_are_roots",
    "C117_roots_are_results",
    "C117_eigenvalues",
    "C117_linear_throws"
   ],
   "note": "Exact arithmetic; the eigenvalue routine is an arbitrary function, constrained by the hypotheses of the theorems that need it."
  },
  {
   "property": "C118",
   "status": "proved",
   "theorems": [
    "C118_gemm",
    "C118_product",
    "C118_empty_stops",
    "C118_band_stops",
    "C118_tbmv",
    "C118_sbmv",
    "C118_axpy",
    "C118_scal",
    "C118_dot",
    "C118_ring",
    "C118_sign_of_zero_refuted"
   ],
   "note": "BLAS is written from its reference implementation."
  },
  {
   "property": "C119",
   "status": "proved",
   "theorems": [
    "C119_graph",
    "C119_vertex",
    "C119_ends",
    "C119_negative",
    "C119_file",
    "C119_lines"
   ],
   "note": "boost's adjacency_list and write_graphviz are written from their sources."
  },
  {
   "property": "C120",
   "status": "proved",
   "theorems": [
    "C120_fine",
    "C120_lives",
    "C120_owner",
    "C120_end",
    "C120_copy_refuted"
   ],
   "note": "Copies of module objects are excluded from the positive theorems and refuted on their own."
  },
  {
   "property": "C121",
   "status": "proved",
   "theorems": [
    "C121_elements",
    "C121_variables",
    "C121_descriptor",
    "C121_type_is_kept",
    "C121_read"
   ],
   "note": "Proved for all programs by an invariant over every method (MemDense). It also removes from C12, C71-C74, C78, C112, C114 and C115 the hypotheses that a number is of a number type and that a reference reads a number of its array's type."
  },
  {
   "property": "C122",
   "status": "proved",
   "theorems": [
    "C122_transfer",
    "C122_failure"
   ],
   "note": "Proved on the memory model; libcurl is arbitrary."
  },
  {
   "property": "C123",
   "status": "proved",
   "theorems": [
    "C123_curve",
    "C123_vectors",
    "C123_plot_again",
    "C123_unchecked",
    "C123_scalars",
    "C123_axes"
   ],
   "note": "Proved over arrays and views of GeoModel; Qwt is taken to copy the samples."
  },
  {
   "property": "C124",
   "status": "proved",
   "theorems": [
    "C124_new",
    "C124_in_place",
    "C124_transposes"
   ],
   "note": "Equality of the outcomes of both models; the factor of one is taken to change no number."
  },
  {
   "property": "C125",
   "status": "proved",
   "theorems": [
    "C125_transform",
    "C125_same",
    "C125_reports",
    "C125_refuses"
   ],
   "note": "The transforms of the library are arbitrary functions on rows and its reports arbitrary."
  },
  {
   "property": "C126",
   "status": "proved",
   "theorems": [
    "C126_never_returns",
    "C126_less_never_returns",
    "C126_different",
    "C126_elements",
    "C126_undefined",
    "C126_other_arrays"
   ],
   "note": ""
  },
  {
   "property": "C127",
   "status": "proved",
   "theorems": [
    "C127_copied",
    "C127_imaginary_lost",
    "C127_real_part",
    "C127_number",
    "C127_cdouble_variable",
    "C127_detour"
   ],
   "note": ""
  },
  {
   "property": "C128",
   "status": "proved",
   "theorems": [
    "C128_assigns_first",
    "C128_first_of_result",
    "C128_not_elementwise",
    "C128_cdouble_on_the_right",
    "C128_cfloat_number",
    "C128_cfloat_arrays"
   ],
   "note": ""
  },
  {
   "property": "C129",
   "status": "proved",
   "theorems": [
    "C129_first_only",
    "C129_first_only_real",
    "C129_floor",
    "C129_elementwise",
    "C129_real_elementwise"
   ],
   "note": ""
  },
  {
   "property": "C130",
   "status": "proved",
   "theorems": [
    "C130_copy_throws",
    "C130_copy",
    "C130_of_size"
   ],
   "note": ""
  },
  {
   "property": "C131",
   "status": "proved",
   "theorems": [
    "C131_in_place",
    "C131_undefined_element",
    "C131_undefined_value",
    "C131_undefined",
    "C131_blank_element",
    "C131_number",
    "C131_number_element",
    "C131_char",
    "C131_char_lower",
    "C131_char_strip",
    "C131_new_char",
    "C131_char_element",
    "C131_new_array",
    "C131_new_map",
    "C131_new_nested",
    "C131_new_undefined",
    "C131_new_strip_refuted"
   ],
   "note": "The contents of a string shared by several elements are not followed here (values, not storage)."
  },
  {
   "property": "C132",
   "status": "proved",
   "theorems": [
    "C132_string",
    "C132_before_nul",
    "C132_char",
    "C132_elements"
   ],
   "note": "The regular expression engine is an arbitrary function."
  },
  {
   "property": "C133",
   "status": "proved",
   "theorems": [
    "C133_sum",
    "C133_sum_cdouble",
    "C133_sum_number",
    "C133_sum_none",
    "C133_asum",
    "C133_asum_complex",
    "C133_asum_none",
    "C133_iamax",
    "C133_iamax_none"
   ],
   "note": "Arithmetic of numbers is arbitrary; arrays of one dimension that are not views."
  },
  {
   "property": "C134",
   "status": "proved",
   "theorems": [
    "C134_elements",
    "C134_numbers",
    "C134_cdouble",
    "C134_none"
   ],
   "note": "Arithmetic of numbers is arbitrary; arrays of one dimension that are not views."
  },
  {
   "property": "C135",
   "status": "proved",
   "theorems": [
    "C135_assign_to_view",
    "C135_overlap",
    "C135_other_types",
    "C135_empty",
    "C135_otherwise"
   ],
   "note": "One dimension with one element is outside: the code reads the pointer of the array as a number there. The elements read must have been given a value."
  },
  {
   "property": "C136",
   "status": "proved",
   "theorems": [
    "C136_number",
    "C136_own_element",
    "C136_own_factor",
    "C136_rows",
    "C136_paired",
    "C136_same_storage",
    "C136_past_the_end",
    "C136_factor_types",
    "C136_undefined",
    "C136_dimensions",
    "C136_types",
    "C136_array_types",
    "C136_empty"
   ],
   "note": "Left out: arrays of vars on the left, dividing by an array, and arithmetic giving a new array. The theorems give the new contents where every single operation has a result; C136_empty, C136_past_the_end are undefined behaviour, the others of that kind throw."
  },
  {
   "property": "C137",
   "status": "proved",
   "theorems": [
    "C137_view_of_array",
    "C137_too_large",
    "C137_no_dimension",
    "C137_of_number"
   ],
   "note": "Views of arrays of vars are not modelled."
  },
  {
   "property": "C138",
   "status": "proved",
   "theorems": [
    "C138_offset",
    "C138_too_far",
    "C138_advance",
    "C138_advance_too_far",
    "C138_not_a_view"
   ],
   "note": "Negative offsets are accepted by the code and left out."
  },
  {
   "property": "C139",
   "status": "proved",
   "theorems": [
    "C139_of_number",
    "C139_of_array",
    "C139_negative"
   ],
   "note": "Elements of arrays as the type, and views as the type, are left out of the theorems."
  },
  {
   "property": "C140",
   "status": "proved",
   "theorems": [
    "C140_filled"
   ],
   "note": "Arrays and elements as the value are left out of the theorem."
  },
  {
   "property": "C141",
   "status": "proved",
   "theorems": [
    "C141_text",
    "C141_nameless",
    "C141_odd",
    "C141_forms"
   ],
   "note": "malloc is assumed to succeed; what backtrace and backtrace_symbols give is the input."
  },
  {
   "property": "C142",
   "status": "proved",
   "theorems": [
    "C142_nested_subscript",
    "C142_nested_assignment",
    "C142_nested_values",
    "C142_nested_reading",
    "C142_assignment_makes_the_inner_map",
    "C142_subscript_makes_the_inner_map"
   ],
   "note": "Two levels: the outer map is in a variable. The inner key may be an operand or a string constant, not an element of the map that changes. A new inner map is not assigned the outer map itself."
  },
  {
   "property": "C143",
   "status": "proved",
   "theorems": [
    "C143_push",
    "C143_element_assignment",
    "C143_element_reading",
    "C143_push_on_undefined",
    "C143_order_refuted"
   ],
   "note": "push, assignment to and reading of an element of an array under a key, push on an undefined entry; C143_order_refuted: a push on a string that is its own key leaves the keys out of order"
  },
  {
   "property": "C144",
   "status": "proved",
   "theorems": [
    "C144_names",
    "C144_typeStr",
    "C144_atypeStr_array",
    "C144_atypeStr_number",
    "C144_atypeStr_undefined"
   ],
   "note": "the varstream that atypeStr puts the text together in is left out; values of type cfloat and cdouble are not in the memory model, their names are in C144_names"
  },
  {
   "property": "C145",
   "status": "proved",
   "theorems": [
    "C145_broadcast",
    "C145_new",
    "C145_types",
    "C145_dimension",
    "C145_no_vector",
    "C145_array_after_number",
    "C145_array_after_numbers",
    "C145_empty"
   ],
   "note": "func.cpp 301-411; the element types are given as codes, the user's vector() is an arbitrary function that reads the parts it is given and writes the output's"
  },
  {
   "property": "C146",
   "status": "proved",
   "theorems": [
    "C146_real",
    "C146_pair",
    "C146_schur",
    "C146_no_vectors",
    "C146_lapack_convention_refuted"
   ],
   "note": "clapack.cpp 235-293; LAPACK's documented behaviour is a hypothesis on the routine called (is_geev, is_gees), met by concrete witnesses; exact arithmetic; C146_lapack_convention_refuted shows that pairs are conjugated"
  },
  {
   "property": "C147",
   "status": "proved",
   "theorems": [
    "C147_cfloat",
    "C147_longer",
    "C147_cdouble",
    "C147_types",
    "C147_one_number",
    "C147_exchanged",
    "C147_itself"
   ],
   "note": "math.cpp 637-747, clapack.cpp 124-138; one-dimensional arrays in the memory of CplxModel; the operations on float are arbitrary"
  },
  {
   "property": "C148",
   "status": "proved",
   "theorems": [
    "C148_decimal",
    "C148_whole",
    "C148_bare_exponent",
    "C148_no_number"
   ],
   "note": "Nearest is the standard library's SpecFloat rounding (SFdiv and binary_normalize) of the exact decimal; the stream extraction itself (num_get) is modelled, being libstdc++ code."
  }
 ]
}