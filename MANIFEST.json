{
 "claims": [
  {
   "property": "C01",
   "status": "proved",
   "theorems": [
    "C01_add_sub_mul_machine"
   ],
   "note": "wrapped and bit-vector encodings, all widths, all operand representatives"
  },
  {
   "property": "C02",
   "status": "proved",
   "theorems": [
    "C02_icmp_machine"
   ],
   "note": "all ten predicates, both exact encodings"
  },
  {
   "property": "C03",
   "status": "proved",
   "theorems": [
    "C03_div_rem_machine",
    "C03_sdiv_wrapped_exact_iff",
    "C03_sdiv_wrapped_refuted"
   ],
   "note": "udiv/urem/srem exact; sdiv exact for bit-vectors, and for wrapped integers exactly when the dividend is non-negative or the division is exact (iff proved, counterexample given)"
  },
  {
   "property": "C04",
   "status": "proved",
   "theorems": [
    "C04_casts_machine"
   ],
   "note": "trunc/zext/sext for every pair of supported widths"
  },
  {
   "property": "C05",
   "status": "proved",
   "theorems": [
    "C05_literals_exact",
    "C05_wide_literal_refuted"
   ],
   "note": "all constants up to 64 bits; wider constants unless LLVM assertions are off (counterexample given)"
  },
  {
   "property": "C06",
   "status": "proved",
   "theorems": [
    "C06_values_unique",
    "C06_bitvector_programs",
    "C06_wrapped_programs",
    "C06_translation_total",
    "C06_machine_interp_allowed",
    "C06_wrapped_i1_refuted"
   ],
   "note": "bit-vector: every program; wrapped: under the stated conditions, each shown necessary by a counterexample"
  },
  {
   "property": "C07",
   "status": "proved",
   "theorems": [
    "C07_unbounded_programs",
    "C07_overflow_refuted",
    "C07_sub_minus_one_refuted",
    "C07_select_minus_one_refuted",
    "C07_sext_i1_refuted",
    "C07_sdiv_refuted"
   ],
   "note": "exact under the stated no-overflow conditions; a counterexample for each condition dropped"
  },
  {
   "property": "C08",
   "status": "proved",
   "theorems": [
    "C08_bitreverse",
    "C08_bswap",
    "C08_ctlz",
    "C08_cttz",
    "C08_zero_undef",
    "C08_specs_deterministic",
    "C08_ctpop_bitvector",
    "C08_ctpop_integers",
    "C08_popcount_mod",
    "C08_ctpop_i1_refuted"
   ],
   "note": "bswap, bitreverse, ctlz, cttz for all widths; ctpop in all encodings for 1<w<=64; counterexample at width 1"
  },
  {
   "property": "C09",
   "status": "proved",
   "theorems": [
    "C09_value_and_flag",
    "C09_boogie_exact",
    "C09_boogie_default_signed",
    "C09_undeclared_width_refuted"
   ],
   "note": "value and flag for all operands and widths at LLVM level; emitted Boogie code in the precise encodings when the doubled width is declared (counterexample otherwise) and signed in the default encoding"
  },
  {
   "property": "C10",
   "status": "proved",
   "theorems": [
    "C10_pass_behaviour",
    "C10_reported_iff",
    "C10_unchecked_never_reported"
   ],
   "note": "straight-line SSA sequences of any length; the blocking assumption exists only for sanitizer handlers"
  },
  {
   "property": "C11",
   "status": "proved",
   "theorems": [
    "C11_shl_preserved",
    "C11_mask_preserved",
    "C11_rest_untouched",
    "C11_ashr_preserved_iff",
    "C11_lshr_preserved_iff",
    "C11_ashr_emitted_exact_iff",
    "C11_lshr_emitted_exact_iff",
    "C11_shr_emitted_defined",
    "C11_shl_emitted_exact_iff",
    "C11_mask_emitted_exact",
    "C11_lshr_refuted",
    "C11_ashr_refuted"
   ],
   "note": "exact iff-conditions on the machine and in the emitted program; counterexamples for both right shifts"
  },
  {
   "property": "C12",
   "status": "proved",
   "theorems": [
    "C12_and8",
    "C12_and16",
    "C12_and32_always_zero",
    "C12_and64_always_zero",
    "C12_and32_refuted",
    "C12_or32_bits",
    "C12_or32_exact_iff",
    "C12_or16_or8_or64_bits",
    "C12_or32_refuted",
    "C12_unbounded_always_zero"
   ],
   "note": "and8/and16 exact; exact characterisation (with counterexamples) of and32/and64/or*; default encoding characterised"
  },
  {
   "property": "C13",
   "status": "proved",
   "theorems": [
    "C13_every_execution_is_translated",
    "C13_no_other_executions",
    "C13_same_executions",
    "C13_bitvector_expressions_agree",
    "C13_bitvector_every_execution",
    "C13_bitvector_no_other",
    "C13_without_normalization_refuted",
    "C13_same_arms_refuted",
    "C13_invoke_phis_refuted"
   ],
   "note": "all functions of the stated shape, all executions, both directions; instance with bit-vector integer expressions; counterexample for each condition dropped"
  },
  {
   "property": "C14",
   "status": "proved",
   "theorems": [
    "C14_behaviour_kept",
    "C14_no_new_behaviour",
    "C14_undefined_behaviour_same",
    "C14_result_is_normalized",
    "C14_pass_then_translation"
   ],
   "note": "all SSA functions and loop forests; both directions of behaviour and undefined behaviour; composition with the translation"
  },
  {
   "property": "C15",
   "status": "proved",
   "theorems": [
    "C15_switch_jumps_to_default",
    "C15_agrees_iff_default",
    "C15_case_lost_refuted"
   ],
   "note": "exact condition; counterexample for a selected case"
  },
  {
   "property": "C16",
   "status": "proved",
   "theorems": [
    "C16_leaving_a_loop_is_checked",
    "C16_nothing_else_changes",
    "C16_no_check_without_leaving",
    "C16_inner_loop_refuted"
   ],
   "note": "all functions and loop forests; counterexample for inner loops"
  },
  {
   "property": "C17",
   "status": "proved",
   "theorems": [
    "C17_store_bytes",
    "C17_load_bytes",
    "C17_store_then_load",
    "C17_pointer_bytes",
    "C17_pointer_range",
    "C17_typed_regions",
    "C17_singleton_regions",
    "C17_ragged_width_refuted"
   ],
   "note": "proved for the property as stated; counterexamples outside it are theorems ending in _refuted"
  },
  {
   "property": "C18",
   "status": "proved",
   "theorems": [
    "C18_disjoint",
    "C18_external_arrays_refuted",
    "C18_large_global_refuted",
    "C18_external_pointers"
   ],
   "note": ""
  },
  {
   "property": "C19",
   "status": "proved",
   "theorems": [
    "C19_memcpy",
    "C19_memset",
    "C19_memcpy_feasible",
    "C19_memset_feasible",
    "C19_length_argument",
    "C19_4GiB_refuted",
    "C19_memset_words_refuted"
   ],
   "note": ""
  },
  {
   "property": "C20",
   "status": "proved",
   "theorems": [
    "C20_same_region",
    "C20_regions_disjoint",
    "C20_stable",
    "C20_unknown_length_refuted"
   ],
   "note": ""
  },
  {
   "property": "C21",
   "status": "proved",
   "theorems": [
    "C21_type_safe"
   ],
   "note": ""
  },
  {
   "property": "C22",
   "status": "proved",
   "theorems": [
    "C22_flat_memory",
    "C22_every_memory",
    "C22_regions",
    "C22_regions_integer",
    "C22_mixed_sizes_refuted",
    "C22_no_inference_refuted"
   ],
   "note": ""
  },
  {
   "property": "C23",
   "status": "proved",
   "theorems": [
    "C23_gep_address",
    "C23_gep_exact_integer",
    "C23_narrow_negative_index",
    "C23_narrow_negative_index_refuted",
    "C23_store_size_refuted"
   ],
   "note": "proved for the property as stated; counterexamples outside it are theorems ending in _refuted"
  },
  {
   "property": "C24",
   "status": "proved",
   "theorems": [
    "C24_operators",
    "C24_no_reuse",
    "C24_reuse",
    "C24_feasible",
    "C24_reuse_null_free_refuted"
   ],
   "note": ""
  },
  {
   "property": "C25",
   "status": "proved",
   "theorems": [
    "C25_exact",
    "C25_no_false_alarm",
    "C25_null_free_refuted",
    "C25_huge_length_refuted"
   ],
   "note": ""
  },
  {
   "property": "C26",
   "status": "proved",
   "theorems": [
    "C26_exact",
    "C26_always_rejected",
    "C26_stack_refuted"
   ],
   "note": ""
  },
  {
   "property": "C27",
   "status": "proved",
   "theorems": [
    "C27_leak_check",
    "C27_counter",
    "C27_stack_free_refuted"
   ],
   "note": ""
  },
  {
   "property": "C28",
   "status": "proved",
   "theorems": [
    "C28_exact",
    "C28_transparent",
    "C28_atomics_refuted"
   ],
   "note": ""
  },
  {
   "property": "C29",
   "status": "proved",
   "theorems": [
    "C29_static_init",
    "C29_called_first",
    "C29_huge_array_refuted"
   ],
   "note": ""
  },
  {
   "property": "C30",
   "status": "proved",
   "theorems": [
    "C30_load",
    "C30_store",
    "C30_constant"
   ],
   "note": ""
  },
  {
   "property": "C31",
   "status": "proved",
   "theorems": [
    "C31_literal",
    "C31_long_double_refuted",
    "C31_long_infinity_refuted",
    "C31_uninterpreted_refuted"
   ],
   "note": ""
  },
  {
   "property": "C32",
   "status": "proved",
   "theorems": [
    "C32_fcmp"
   ],
   "note": ""
  },
  {
   "property": "C33",
   "status": "proved",
   "theorems": [
    "C33_clash",
    "C33_c_names",
    "C33_distinct",
    "C33_stable",
    "C33_labels",
    "C33_legal",
    "C33_escape_refuted",
    "C33_keyword_refuted",
    "C33_shadow_refuted",
    "C33_dollar_refuted",
    "C33_illegal_refuted"
   ],
   "note": ""
  },
  {
   "property": "C34",
   "status": "proved",
   "theorems": [
    "C34_substitution",
    "C34_any_reading",
    "C34_names",
    "C34_at_refuted",
    "C34_letter_refuted"
   ],
   "note": ""
  },
  {
   "property": "C35",
   "status": "proved",
   "theorems": [
    "C35_translated",
    "C35_accepted",
    "C35_calls_typed",
    "C35_arithmetic",
    "C35_compare",
    "C35_shuffle",
    "C35_extract",
    "C35_insert",
    "C35_constant",
    "C35_constant_index",
    "C35_one_lane",
    "C35_round_trip",
    "C35_consistent",
    "C35_comparison_refuted",
    "C35_bitvector_index_refuted",
    "C35_bitcast_to_integer_refuted",
    "C35_casts_bitvector_refuted",
    "C35_casts_integer_refuted",
    "C35_wrapped_index_refuted"
   ],
   "note": ""
  },
  {
   "property": "C36",
   "status": "proved",
   "theorems": [
    "C36_step",
    "C36_pass",
    "C36_large_index_refuted"
   ],
   "note": ""
  },
  {
   "property": "C37",
   "status": "proved",
   "theorems": [
    "C37_call",
    "C37_only_targets",
    "C37_other_type_refuted",
    "C37_variadic_refuted",
    "C37_cast_pointer_refuted"
   ],
   "note": ""
  },
  {
   "property": "C38",
   "status": "proved",
   "theorems": [
    "C38_merge",
    "C38_chains",
    "C38_narrow_refuted"
   ],
   "note": ""
  },
  {
   "property": "C39",
   "status": "proved",
   "theorems": [
    "C39_strlen",
    "C39_strcpy",
    "C39_strcat",
    "C39_strncpy",
    "C39_strncat",
    "C39_strncat_refuted",
    "C39_memcmp",
    "C39_strcmp",
    "C39_strcmp_refuted",
    "C39_strncmp",
    "C39_strncmp_refuted",
    "C39_strchr",
    "C39_strrchr",
    "C39_strchr_refuted",
    "C39_strspn",
    "C39_strcspn",
    "C39_strpbrk",
    "C39_strstr",
    "C39_strstr_refuted",
    "C39_strtok",
    "C39_strtok_end",
    "C39_strtok_refuted"
   ],
   "note": ""
  },
  {
   "property": "C40",
   "status": "proved",
   "theorems": [
    "C40_exclusion",
    "C40_checked",
    "C40_progress",
    "C40_codes",
    "C40_reinit_refuted",
    "C40_unchecked_refuted"
   ],
   "note": ""
  },
  {
   "property": "C41",
   "status": "proved",
   "theorems": [
    "C41_join",
    "C41_once",
    "C41_value",
    "C41_join_returns",
    "C41_start_possible",
    "C41_create",
    "C41_create_returns",
    "C41_return_value_refuted",
    "C41_exit_continues_refuted",
    "C41_main_exit_refuted",
    "C41_handle_refuted"
   ],
   "note": ""
  },
  {
   "property": "C42",
   "status": "proved",
   "theorems": [
    "C42_functions",
    "C42_sound",
    "C42_complete"
   ],
   "note": ""
  },
  {
   "property": "C43",
   "status": "proved",
   "theorems": [
    "C43_rmw",
    "C43_cmpxchg",
    "C43_flag_refuted",
    "C43_not_atomic_refuted",
    "C43_wrapped_cmpxchg_refuted",
    "C43_unbounded_umax_refuted"
   ],
   "note": ""
  },
  {
   "property": "C44",
   "status": "proved",
   "theorems": [
    "C44_verdict",
    "C44_corral_category",
    "C44_boogie_category",
    "C44_time_limit",
    "C44_inconclusive_refuted",
    "C44_brace_refuted"
   ],
   "note": ""
  },
  {
   "property": "C45",
   "status": "proved",
   "theorems": [
    "C45_other_lines",
    "C45_memory",
    "C45_selection",
    "C45_mixed_refuted"
   ],
   "note": ""
  },
  {
   "property": "C46",
   "status": "proved",
   "theorems": [
    "C46_exit_codes",
    "C46_distinct",
    "C46_errors"
   ],
   "note": ""
  },
  {
   "property": "C47",
   "status": "proved",
   "theorems": [
    "C47_reachable_kept",
    "C47_closed"
   ],
   "note": ""
  },
  {
   "property": "C48",
   "status": "proved",
   "theorems": [
    "C48_values",
    "C48_assignment",
    "C48_other_notes",
    "C48_notes",
    "C48_failing_place",
    "C48_merge",
    "C48_equality_refuted",
    "C48_done_refuted",
    "C48_threads_refuted",
    "C48_underflow_refuted",
    "C48_overflow_refuted"
   ],
   "note": ""
  },
  {
   "property": "C49",
   "status": "proved",
   "theorems": [
    "C49_ptrtoint",
    "C49_inttoptr",
    "C49_functions",
    "C49_round_trip"
   ],
   "note": "proved for the property as stated; counterexamples outside it are theorems ending in _refuted"
  },
  {
   "property": "C50",
   "status": "proved",
   "theorems": [
    "C50_bit_vector_pointers",
    "C50_integer_pointers",
    "C50_unsigned_refuted",
    "C50_wrapped_equality_refuted"
   ],
   "note": "proved for the property as stated; counterexamples outside it are theorems ending in _refuted"
  },
  {
   "property": "C51",
   "status": "proved",
   "theorems": [
    "C51_store_built",
    "C51_base_dropped_refuted",
    "C51_twice_refuted"
   ],
   "note": ""
  },
  {
   "property": "C52",
   "status": "proved",
   "theorems": [
    "C52_frem",
    "C52_frem_refuted"
   ],
   "note": ""
  },
  {
   "property": "C53",
   "status": "proved",
   "theorems": [
    "C53_program",
    "C53_reads_once",
    "C53_distinct",
    "C53_expression",
    "C53_statement",
    "C53_names",
    "C53_rounding_mode_refuted",
    "C53_comment_refuted",
    "C53_quote_refuted",
    "C53_variable_attribute_refuted"
   ],
   "note": ""
  },
  {
   "property": "C54",
   "status": "proved",
   "theorems": [
    "C54_integral",
    "C54_lround",
    "C54_selection",
    "C54_copysign",
    "C54_fmod",
    "C54_modf",
    "C54_fdim",
    "C54_classes",
    "C54_signbit",
    "C54_rounding_mode",
    "C54_fdim_zero_refuted",
    "C54_integer_mode_refuted"
   ],
   "note": ""
  },
  {
   "property": "C55",
   "status": "proved",
   "theorems": [
    "C55_arithmetic",
    "C55_conversion",
    "C55_of_integer",
    "C55_to_integer",
    "C55_intrinsics",
    "C55_from_fp16",
    "C55_remainder",
    "C55_frem_refuted",
    "C55_sqrt_fma_refuted",
    "C55_fp80_refuted",
    "C55_integers_refuted"
   ],
   "note": ""
  },
  {
   "property": "C56",
   "status": "proved",
   "theorems": [
    "C56_verifier_code",
    "C56_confined",
    "C56_path_cost",
    "C56_untimed",
    "C56_entry_twice_refuted",
    "C56_effects_refuted",
    "C56_cycle_refuted"
   ],
   "note": ""
  },
  {
   "property": "C57",
   "status": "proved",
   "theorems": [
    "C57_refinement",
    "C57_lists",
    "C57_allocation",
    "C57_bad_free",
    "C57_growth_refuted",
    "C57_growth_leak_refuted",
    "C57_capacity_zero_refuted",
    "C57_box_refuted",
    "C57_drop_order_refuted",
    "C57_alloc_zeroed_refuted",
    "C57_realloc_refuted"
   ],
   "note": ""
  },
  {
   "property": "C58",
   "status": "proved",
   "theorems": [
    "C58_defined",
    "C58_behaviour",
    "C58_panics",
    "C58_returns",
    "C58_marker",
    "C58_invoke_refuted",
    "C58_pointer_refuted",
    "C58_smack_name_refuted"
   ],
   "note": ""
  },
  {
   "property": "C59",
   "status": "proved",
   "theorems": [
    "C59_calls",
    "C59_invokes",
    "C59_checked",
    "C59_annotations",
    "C59_vararg_invoke_refuted",
    "C59_cast_refuted",
    "C59_collision_refuted",
    "C59_return_value_refuted"
   ],
   "note": ""
  },
  {
   "property": "C60",
   "status": "proved",
   "theorems": [
    "C60_executions",
    "C60_initial",
    "C60_typed",
    "C60_throw_refuted",
    "C60_call_refuted",
    "C60_catch_refuted",
    "C60_initial_refuted",
    "C60_phi_refuted",
    "C60_type_refuted"
   ],
   "note": ""
  },
  {
   "property": "C61",
   "status": "proved",
   "theorems": [
    "C61_calloc",
    "C61_calloc_covers",
    "C61_realloc",
    "C61_realloc_covers",
    "C61_realloc_invalid",
    "C61_strto",
    "C61_strto_covers",
    "C61_getenv",
    "C61_exit",
    "C61_calloc_overflow_refuted",
    "C61_calloc_zero_refuted",
    "C61_realloc_contents_refuted",
    "C61_realloc_null_refuted",
    "C61_endptr_refuted",
    "C61_getenv_refuted"
   ],
   "note": ""
  },
  {
   "property": "C62",
   "status": "proved",
   "theorems": [
    "C62_expressions",
    "C62_modular",
    "C62_invariant",
    "C62_accepts",
    "C62_effects_refuted",
    "C62_assertions_refuted",
    "C62_fails_refuted",
    "C62_header_refuted"
   ],
   "note": ""
  },
  {
   "property": "C63",
   "status": "proved",
   "theorems": [
    "C63_values",
    "C63_missing",
    "C63_replay",
    "C63_success",
    "C63_bitvector_refuted",
    "C63_long_refuted",
    "C63_unrecorded_refuted",
    "C63_library_refuted",
    "C63_recursion_refuted",
    "C63_print_refuted",
    "C63_lines_refuted",
    "C63_backslash_refuted",
    "C63_quotes_refuted"
   ],
   "note": ""
  },
  {
   "property": "C64",
   "status": "proved",
   "theorems": [
    "C64_no_missed_failures",
    "C64_no_false_alarms",
    "C64_same_verdict",
    "C64_same_results",
    "C64_undefined_behaviour_refuted"
   ],
   "note": ""
  },
  {
   "property": "C65",
   "status": "proved",
   "theorems": [
    "C65_no_missed_failures",
    "C65_no_false_alarms",
    "C65_same_verdict",
    "C65_same_verdict_machine",
    "C65_memory_described",
    "C65_overflow_refuted",
    "C65_unsigned_refuted"
   ],
   "note": ""
  },
  {
   "property": "C66",
   "status": "proved",
   "theorems": [
    "C66_warned_iff",
    "C66_following_advice",
    "C66_bitwise_exact_iff",
    "C66_overapproximate",
    "C66_i1_exact",
    "C66_bit_intrinsics",
    "C66_integer_silence_refuted",
    "C66_frem_refuted",
    "C66_info_only",
    "C66_info_refuted",
    "C66_operand_asm"
   ],
   "note": ""
  },
  {
   "property": "C67",
   "status": "proved",
   "theorems": [
    "C67_no_missed_failures",
    "C67_no_false_alarms",
    "C67_same_verdict",
    "C67_splitting",
    "C67_memory_described",
    "C67_mixing_refuted"
   ],
   "note": ""
  },
  {
   "property": "C68",
   "status": "proved",
   "theorems": [
    "C68_no_missed_failures",
    "C68_no_false_alarms",
    "C68_same_verdict",
    "C68_splitting",
    "C68_memory_described",
    "C68_mixing_refuted"
   ],
   "note": ""
  },
  {
   "property": "C69",
   "status": "proved",
   "theorems": [
    "C69_no_missed_violations",
    "C69_no_false_alarms",
    "C69_same_verdict",
    "C69_blocks_disjoint",
    "C69_other_addresses_refuted",
    "C69_dangling_stack_refuted"
   ],
   "note": ""
  },
  {
   "property": "C70",
   "status": "proved",
   "theorems": [
    "C70_no_missed_overflows",
    "C70_no_false_alarms",
    "C70_same_verdict",
    "C70_same_results",
    "C70_unreported",
    "C70_pass_order",
    "C70_unreported_handler_refuted"
   ],
   "note": ""
  },
  {
   "property": "C71",
   "status": "proved",
   "theorems": [
    "C71_no_missed_overflows",
    "C71_no_false_alarms",
    "C71_same_verdict",
    "C71_same_results",
    "C71_unsigned_refuted",
    "C71_unsigned_alarm_refuted"
   ],
   "note": ""
  },
  {
   "property": "C72",
   "status": "proved",
   "theorems": [
    "C72_always_a_path",
    "C72_inputs",
    "C72_values",
    "C72_no_violation_refuted",
    "C72_negative_input_refuted",
    "C72_call_name_refuted"
   ],
   "note": ""
  },
  {
   "property": "C73",
   "status": "proved",
   "theorems": [
    "C73_verdict",
    "C73_exit",
    "C73_property",
    "C73_injection",
    "C73_timeout_verified_refuted",
    "C73_timeout_exception_refuted",
    "C73_memory_safety_refuted",
    "C73_result_refuted"
   ],
   "note": ""
  },
  {
   "property": "C74",
   "status": "proved",
   "theorems": [
    "C74_behaviour",
    "C74_entry",
    "C74_static_elsewhere_refuted",
    "C74_weak_refuted",
    "C74_captured_refuted"
   ],
   "note": ""
  },
  {
   "property": "C75",
   "status": "proved",
   "theorems": [
    "C75_program",
    "C75_text",
    "C75_entry",
    "C75_operator_refuted",
    "C75_attributes_refuted",
    "C75_command_line_refuted"
   ],
   "note": ""
  },
  {
   "property": "C76",
   "status": "proved",
   "theorems": [
    "C76_program",
    "C76_alike",
    "C76_models",
    "C76_language_refuted",
    "C76_clang_options_refuted"
   ],
   "note": ""
  },
  {
   "property": "C77",
   "status": "proved",
   "theorems": [
    "C77_runs",
    "C77_boogie",
    "C77_corral",
    "C77_symbooglix",
    "C77_read",
    "C77_modular_refuted",
    "C77_options_refuted"
   ],
   "note": ""
  },
  {
   "property": "C78",
   "status": "proved",
   "theorems": [
    "C78_clean",
    "C78_keeps",
    "C78_debug",
    "C78_code",
    "C78_calm",
    "C78_ends",
    "C78_term",
    "C78_killed",
    "C78_zero_refuted",
    "C78_one_refuted",
    "C78_left_refuted",
    "C78_fortran_refuted"
   ],
   "note": ""
  },
  {
   "property": "C79",
   "status": "proved",
   "theorems": [
    "C79_accepted",
    "C79_sound",
    "C79_exact",
    "C79_singleton_refuted",
    "C79_mixed_refuted",
    "C79_forgets_refuted"
   ],
   "note": ""
  },
  {
   "property": "C80",
   "status": "proved",
   "theorems": [
    "C80_optimization",
    "C80_command",
    "C80_linked",
    "C80_boogie",
    "C80_append_refuted",
    "C80_optimization_refuted",
    "C80_output_refuted",
    "C80_all_refuted"
   ],
   "note": ""
  },
  {
   "property": "C81",
   "status": "proved",
   "theorems": [
    "C81_files",
    "C81_others",
    "C81_order",
    "C81_binary_refuted"
   ],
   "note": ""
  },
  {
   "property": "C82",
   "status": "proved",
   "theorems": [
    "C82_settings",
    "C82_preprocessed",
    "C82_command",
    "C82_bound_refuted",
    "C82_options_refuted"
   ],
   "note": ""
  }
 ]
}