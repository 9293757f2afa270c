{
 "claims": [
  {
   "property": "C01",
   "status": "proved",
   "theorems": [
    "C01_legendre_terminates",
    "C01_fuel_never_exhausted"
   ],
   "note": ""
  },
  {
   "property": "C02",
   "status": "proved",
   "theorems": [
    "C02_legendre_is_the_symbol"
   ],
   "note": ""
  },
  {
   "property": "C03",
   "status": "proved",
   "theorems": [
    "C03_sloth_inverse",
    "C03_sloth_surjective",
    "C03_rounds",
    "C03_cycle"
   ],
   "note": ""
  },
  {
   "property": "C04",
   "status": "proved",
   "theorems": [
    "C04_sloth_at_zero",
    "C04_zero_collides",
    "C04_vde_collides",
    "C04_vde_at_zero"
   ],
   "note": "Exact contract at residue 0, including the failing round trip."
  },
  {
   "property": "C05",
   "status": "proved",
   "theorems": [
    "C05_vde_round_trip",
    "C05_vde_round_trip_bytes"
   ],
   "note": ""
  },
  {
   "property": "C06",
   "status": "proved",
   "theorems": [
    "C06_same_forward",
    "C06_same_inverse",
    "C06_chunked_round_trip"
   ],
   "note": ""
  },
  {
   "property": "C07",
   "status": "proved",
   "theorems": [
    "C07_fast_modpow"
   ],
   "note": ""
  },
  {
   "property": "C08",
   "status": "partial",
   "theorems": [
    "C08_moduli_partial"
   ],
   "note": "Shapes and sizes for all six moduli; primality certified in Coq for P_64, P_128, P_256 and P_512; missing: primality of P_1024 and P_2048."
  },
  {
   "property": "C09",
   "status": "proved",
   "theorems": [
    "C09_modadd_modsub",
    "C09_modadd_panics_exactly"
   ],
   "note": ""
  },
  {
   "property": "C10",
   "status": "proved",
   "theorems": [
    "C10_to_units_returns_exactly",
    "C10_com_to",
    "C10_to_com"
   ],
   "note": ""
  },
  {
   "property": "C11",
   "status": "proved",
   "theorems": [
    "C11_xor_bytes",
    "C11_xor_laws"
   ],
   "note": ""
  },
  {
   "property": "C12",
   "status": "proved",
   "theorems": [
    "C12_read_file"
   ],
   "note": ""
  },
  {
   "property": "C13",
   "status": "proved",
   "theorems": [
    "C13_gen_posdata",
    "C13_settings",
    "C13_sizes"
   ],
   "note": ""
  },
  {
   "property": "C14",
   "status": "proved",
   "theorems": [
    "C14_long_mode_1",
    "C14_long_mode_2",
    "C14_long_mode_3",
    "C14_distances_backward",
    "C14_overflow_debug",
    "C14_overflow_release"
   ],
   "note": ""
  },
  {
   "property": "C15",
   "status": "proved",
   "theorems": [
    "C15_short_mode_1",
    "C15_short_mode_1_terminates",
    "C15_odd_neighbours",
    "C15_short_mode_1_props"
   ],
   "note": ""
  },
  {
   "property": "C16",
   "status": "proved",
   "theorems": [
    "C16_debug_panics",
    "C16_debug_one",
    "C16_release"
   ],
   "note": "Exact panic condition (debug) and exact result (release)."
  },
  {
   "property": "C17",
   "status": "proved",
   "theorems": [
    "C17_long_random_props",
    "C17_long_random_returns"
   ],
   "note": ""
  },
  {
   "property": "C18",
   "status": "proved",
   "theorems": [
    "C18_short_random_props",
    "C18_short_random_returns",
    "C18_short_random_returns_exactly",
    "C18_six_panic"
   ],
   "note": ""
  },
  {
   "property": "C19",
   "status": "proved",
   "theorems": [
    "C19_reach",
    "C19_unreachable"
   ],
   "note": ""
  },
  {
   "property": "C20",
   "status": "proved",
   "theorems": [
    "C20_small",
    "C20_medium"
   ],
   "note": ""
  },
  {
   "property": "C21",
   "status": "proved",
   "theorems": [
    "C21_compress_pad",
    "C21_compress_pad_identity",
    "C21_padded_units"
   ],
   "note": ""
  },
  {
   "property": "C22",
   "status": "proved",
   "theorems": [
    "C22_seal_total"
   ],
   "note": ""
  },
  {
   "property": "C23",
   "status": "proved",
   "theorems": [
    "C23_unseal_seal",
    "C23_shipped"
   ],
   "note": ""
  },
  {
   "property": "C24",
   "status": "proved",
   "theorems": [
    "C24_unseal_seal_plain",
    "C24_round_trip_refuted"
   ],
   "note": "Positive part for prefix lists; C24_round_trip_refuted is the counterexample for mode_l = 1."
  },
  {
   "property": "C25",
   "status": "proved",
   "theorems": [
    "C25_one_round_exact",
    "C25_padded_no_zero",
    "C25_round_trip_refuted"
   ],
   "note": "Exact characterisation for one round; C25_round_trip_refuted is the counterexample."
  },
  {
   "property": "C26",
   "status": "proved",
   "theorems": [
    "C26_seal_causal"
   ],
   "note": ""
  },
  {
   "property": "C27",
   "status": "proved",
   "theorems": [
    "C27_seal_interrupted"
   ],
   "note": ""
  },
  {
   "property": "C28",
   "status": "proved",
   "theorems": [
    "C28_unseal_interrupted",
    "C28_splice_ends",
    "C28_rerun_refuted"
   ],
   "note": "Resuming is exact; C28_rerun_refuted shows that starting over corrupts data."
  },
  {
   "property": "C29",
   "status": "proved",
   "theorems": [
    "C29_seal_injective"
   ],
   "note": ""
  },
  {
   "property": "C30",
   "status": "proved",
   "theorems": [
    "C30_challenges"
   ],
   "note": ""
  },
  {
   "property": "C31",
   "status": "proved",
   "theorems": [
    "C31_returns_iff",
    "C31_diverges",
    "C31_empty_range"
   ],
   "note": ""
  },
  {
   "property": "C32",
   "status": "proved",
   "theorems": [
    "C32_aligned",
    "C32_unaligned",
    "C32_all_blocks_refuted",
    "C32_zero_size"
   ],
   "note": ""
  },
  {
   "property": "C33",
   "status": "proved",
   "theorems": [
    "C33_batch_unseal",
    "C33_range",
    "C33_parallel"
   ],
   "note": ""
  },
  {
   "property": "C34",
   "status": "proved",
   "theorems": [
    "C34_batch_verify"
   ],
   "note": ""
  },
  {
   "property": "C35",
   "status": "proved",
   "theorems": [
    "C35_unseal_and_verify",
    "C35_any_rule"
   ],
   "note": ""
  },
  {
   "property": "C36",
   "status": "proved",
   "theorems": [
    "C36_parallel_eq_sequential",
    "C36_any_rule",
    "C36_no_deadlock",
    "C36_terminates"
   ],
   "note": ""
  },
  {
   "property": "C37",
   "status": "proved",
   "theorems": [
    "C37_blockwise",
    "C37_any_rule",
    "C37_sequential_panics",
    "C37_panics_iff",
    "C37_panic_reported_refuted"
   ],
   "note": ""
  },
  {
   "property": "C38",
   "status": "proved",
   "theorems": [
    "C38_batch_unseal_total"
   ],
   "note": ""
  },
  {
   "property": "C39",
   "status": "proved",
   "theorems": [
    "C39_too_few_blocks",
    "C39_mode_1_exact",
    "C39_verifier_rows",
    "C39_verifier_table",
    "C39_seal_returns_refuted"
   ],
   "note": ""
  },
  {
   "property": "C40",
   "status": "proved",
   "theorems": [
    "C40_load_save",
    "C40_stale_tail"
   ],
   "note": ""
  },
  {
   "property": "C41",
   "status": "proved",
   "theorems": [
    "C41_key",
    "C41_iv",
    "C41_total",
    "C41_fits_refuted"
   ],
   "note": ""
  },
  {
   "property": "C42",
   "status": "proved",
   "theorems": [
    "C42_pipeline",
    "C42_shipped",
    "C42_one_round",
    "C42_seal_and_unseal",
    "C42_single_blocks",
    "C42_merkle_tree_proof"
   ],
   "note": ""
  },
  {
   "property": "C43",
   "status": "proved",
   "theorems": [
    "C43_response_binds",
    "C43_other_shape_refuted"
   ],
   "note": ""
  },
  {
   "property": "C44",
   "status": "proved",
   "theorems": [
    "C44_blocks_not_tied",
    "C44_reachable"
   ],
   "note": ""
  },
  {
   "property": "C45",
   "status": "proved",
   "theorems": [
    "C45_first_leaf_unread",
    "C45_leaves",
    "C45_last_leaf",
    "C45_rest_bound",
    "C45_root_binds_file_refuted",
    "C45_final_check_refuted"
   ],
   "note": ""
  },
  {
   "property": "C46",
   "status": "proved",
   "theorems": [
    "C46_proofs_verify",
    "C46_root",
    "C46_no_leaves"
   ],
   "note": ""
  },
  {
   "property": "C47",
   "status": "proved",
   "theorems": [
    "C47_binding",
    "C47_leaf_count_refuted"
   ],
   "note": ""
  },
  {
   "property": "C48",
   "status": "proved",
   "theorems": [
    "C48_bytes_bits_bytes",
    "C48_bits_bytes_bits",
    "C48_order"
   ],
   "note": ""
  },
  {
   "property": "C49",
   "status": "proved",
   "theorems": [
    "C49_int_bits_int",
    "C49_bits_int_bits",
    "C49_bit_i",
    "C49_long_panics",
    "C49_long_wraps",
    "C49_zero_width"
   ],
   "note": ""
  },
  {
   "property": "C50",
   "status": "proved",
   "theorems": [
    "C50_prepare",
    "C50_exact_bits",
    "C50_large_n_panics"
   ],
   "note": ""
  },
  {
   "property": "C51",
   "status": "proved",
   "theorems": [
    "C51_inverse_table"
   ],
   "note": ""
  },
  {
   "property": "C52",
   "status": "proved",
   "theorems": [
    "C52_answers"
   ],
   "note": ""
  },
  {
   "property": "C53",
   "status": "proved",
   "theorems": [
    "C53_too_short",
    "C53_false_answer_refuted"
   ],
   "note": ""
  },
  {
   "property": "C54",
   "status": "proved",
   "theorems": [
    "C54_any_file"
   ],
   "note": ""
  },
  {
   "property": "C55",
   "status": "proved",
   "theorems": [
    "C55_mimc3",
    "C55_mimc5",
    "C55_panic_iff",
    "C55_bijection"
   ],
   "note": ""
  },
  {
   "property": "C56",
   "status": "proved",
   "theorems": [
    "C56_mimc5",
    "C56_mimc3",
    "C56_wrong_constants"
   ],
   "note": ""
  },
  {
   "property": "C57",
   "status": "proved",
   "theorems": [
    "C57_mimc5_complete",
    "C57_mimc7_complete",
    "C57_mimc5_any_output",
    "C57_mimc7_any_output",
    "C57_no_inputs"
   ],
   "note": ""
  },
  {
   "property": "C58",
   "status": "proved",
   "theorems": [
    "C58_honest",
    "C58_all_assignments",
    "C58_any_output",
    "C58_bad_bit",
    "C58_wrong_size"
   ],
   "note": ""
  },
  {
   "property": "C59",
   "status": "proved",
   "theorems": [
    "C59_honest",
    "C59_all_assignments",
    "C59_any_pair",
    "C59_full_width",
    "C59_other_widths",
    "C59_zero_panics",
    "C59_bad_bit"
   ],
   "note": ""
  },
  {
   "property": "C60",
   "status": "proved",
   "theorems": [
    "C60_complete",
    "C60_wrong_yn",
    "C60_missing_yn",
    "C60_no_responses"
   ],
   "note": ""
  },
  {
   "property": "C61",
   "status": "proved",
   "theorems": [
    "C61_every_statement",
    "C61_any_x",
    "C61_no_space_needed",
    "C61_soundness_refuted"
   ],
   "note": ""
  },
  {
   "property": "C62",
   "status": "proved",
   "theorems": [
    "C62_order",
    "C62_positions"
   ],
   "note": ""
  },
  {
   "property": "C63",
   "status": "proved",
   "theorems": [
    "C63_shape",
    "C63_different_numbers",
    "C63_wrong_constants"
   ],
   "note": ""
  },
  {
   "property": "C64",
   "status": "proved",
   "theorems": [
    "C64_contract",
    "C64_invalid_accepted_refuted",
    "C64_arity"
   ],
   "note": ""
  },
  {
   "property": "C65",
   "status": "proved",
   "theorems": [
    "C65_range",
    "C65_every_list",
    "C65_wide_panics"
   ],
   "note": ""
  },
  {
   "property": "C66",
   "status": "proved",
   "theorems": [
    "C66_fmod_zero",
    "C66_fmod_panics",
    "C66_remainder_refuted"
   ],
   "note": ""
  },
  {
   "property": "C67",
   "status": "proved",
   "theorems": [
    "C67_unseal_total"
   ],
   "note": ""
  },
  {
   "property": "C68",
   "status": "proved",
   "theorems": [
    "C68_run",
    "C68_file"
   ],
   "note": ""
  },
  {
   "property": "C69",
   "status": "proved",
   "theorems": [
    "C69_no_constraints",
    "C69_values",
    "C69_panics",
    "C69_every_statement"
   ],
   "note": ""
  },
  {
   "property": "C70",
   "status": "proved",
   "theorems": [
    "C70_seal_equations"
   ],
   "note": ""
  },
  {
   "property": "C71",
   "status": "proved",
   "theorems": [
    "C71_unseal_equations"
   ],
   "note": ""
  },
  {
   "property": "C72",
   "status": "proved",
   "theorems": [
    "C72_response",
    "C72_range_response"
   ],
   "note": ""
  },
  {
   "property": "C73",
   "status": "proved",
   "theorems": [
    "C73_reply_equations"
   ],
   "note": ""
  },
  {
   "property": "C74",
   "status": "proved",
   "theorems": [
    "C74_forged_accepted"
   ],
   "note": ""
  },
  {
   "property": "C75",
   "status": "proved",
   "theorems": [
    "C75_determined",
    "C75_stored_only",
    "C75_not_determined_refuted"
   ],
   "note": ""
  },
  {
   "property": "C76",
   "status": "proved",
   "theorems": [
    "C76_compare",
    "C76_truncated_refuted"
   ],
   "note": ""
  },
  {
   "property": "C77",
   "status": "proved",
   "theorems": [
    "C77_verdict",
    "C77_primes_accepted",
    "C77_exact_below",
    "C77_error_bound",
    "C77_composite_refuted"
   ],
   "note": ""
  },
  {
   "property": "C78",
   "status": "proved",
   "theorems": [
    "C78_modulus",
    "C78_terminates"
   ],
   "note": ""
  },
  {
   "property": "C79",
   "status": "proved",
   "theorems": [
    "C79_modpow",
    "C79_overflow",
    "C79_wrong_refuted"
   ],
   "note": ""
  },
  {
   "property": "C80",
   "status": "proved",
   "theorems": [
    "C80_single",
    "C80_leaves",
    "C80_forgets",
    "C80_missing",
    "C80_shipped",
    "C80_unseal_single_refuted",
    "C80_stale_leaves_refuted"
   ],
   "note": ""
  },
  {
   "property": "C81",
   "status": "proved",
   "theorems": [
    "C81_restores",
    "C81_challenge",
    "C81_all_blocks",
    "C81_single",
    "C81_run",
    "C81_shipped"
   ],
   "note": ""
  },
  {
   "property": "C82",
   "status": "proved",
   "theorems": [
    "C82_first_damage",
    "C82_sealed_reduced",
    "C82_caught",
    "C82_replica",
    "C82_pad_bytes_unchecked",
    "C82_accepted_is_honest_refuted"
   ],
   "note": ""
  },
  {
   "property": "C83",
   "status": "proved",
   "theorems": [
    "C83_uniform",
    "C83_share",
    "C83_enough",
    "C83_more",
    "C83_unfinished",
    "C83_ends",
    "C83_always_enough_refuted"
   ],
   "note": ""
  },
  {
   "property": "C84",
   "status": "proved",
   "theorems": [
    "C84_accepted",
    "C84_bound",
    "C84_run",
    "C84_half",
    "C84_shipped"
   ],
   "note": ""
  },
  {
   "property": "C85",
   "status": "proved",
   "theorems": [
    "C85_hash5",
    "C85_hash7",
    "C85_panics",
    "C85_permutation",
    "C85_multi",
    "C85_extension",
    "C85_binding_refuted",
    "C85_delay_preimages"
   ],
   "note": ""
  },
  {
   "property": "C86",
   "status": "proved",
   "theorems": [
    "C86_single",
    "C86_shift",
    "C86_reuse",
    "C86_few_missing"
   ],
   "note": ""
  },
  {
   "property": "C87",
   "status": "proved",
   "theorems": [
    "C87_local",
    "C87_few",
    "C87_restored",
    "C87_damage",
    "C87_earlier",
    "C87_challenge",
    "C87_iv",
    "C87_iv_one_round"
   ],
   "note": ""
  },
  {
   "property": "C88",
   "status": "proved",
   "theorems": [
    "C88_ends",
    "C88_new_file",
    "C88_overwrite",
    "C88_loss",
    "C88_crash_safe_refuted"
   ],
   "note": ""
  },
  {
   "property": "C89",
   "status": "proved",
   "theorems": [
    "C89_decides",
    "C89_any_leaves",
    "C89_passes",
    "C89_first_block_free",
    "C89_driver"
   ],
   "note": ""
  },
  {
   "property": "C90",
   "status": "proved",
   "theorems": [
    "C90_states",
    "C90_driver"
   ],
   "note": ""
  },
  {
   "property": "C91",
   "status": "proved",
   "theorems": [
    "C91_killed_sealing",
    "C91_killed_unsealing",
    "C91_again",
    "C91_idempotent_refuted"
   ],
   "note": ""
  },
  {
   "property": "C92",
   "status": "proved",
   "theorems": [
    "C92_uniform",
    "C92_file",
    "C92_space",
    "C92_bound",
    "C92_small_space",
    "C92_run",
    "C92_half"
   ],
   "note": ""
  },
  {
   "property": "C93",
   "status": "proved",
   "theorems": [
    "C93_block",
    "C93_safe_blocks",
    "C93_one_round",
    "C93_lost",
    "C93_challenges",
    "C93_pipeline",
    "C93_ends_well"
   ],
   "note": ""
  },
  {
   "property": "C94",
   "status": "proved",
   "theorems": [
    "C94_reads",
    "C94_surplus",
    "C94_unique",
    "C94_size",
    "C94_response",
    "C94_no_index",
    "C94_empty_challenge"
   ],
   "note": ""
  },
  {
   "property": "C95",
   "status": "proved",
   "theorems": [
    "C95_block",
    "C95_resume",
    "C95_prefix",
    "C95_first_change",
    "C95_evaluations"
   ],
   "note": ""
  },
  {
   "property": "C96",
   "status": "proved",
   "theorems": [
    "C96_filled",
    "C96_shipped",
    "C96_loss"
   ],
   "note": ""
  },
  {
   "property": "C97",
   "status": "proved",
   "theorems": [
    "C97_complete",
    "C97_copies",
    "C97_seal",
    "C97_seal_own",
    "C97_restored",
    "C97_unseal",
    "C97_whole",
    "C97_noticed_refuted"
   ],
   "note": ""
  },
  {
   "property": "C98",
   "status": "proved",
   "theorems": [
    "C98_seal",
    "C98_unseal",
    "C98_copies",
    "C98_response",
    "C98_verify",
    "C98_tree",
    "C98_wraps",
    "C98_outside_refuted",
    "C98_range",
    "C98_range_wraps",
    "C98_shipped"
   ],
   "note": ""
  },
  {
   "property": "C99",
   "status": "proved",
   "theorems": [
    "C99_prepare",
    "C99_prepare_again",
    "C99_over",
    "C99_states",
    "C99_answers",
    "C99_whole",
    "C99_again",
    "C99_torn_refuted",
    "C99_unprepared_refuted",
    "C99_stale",
    "C99_other_key_refuted"
   ],
   "note": ""
  },
  {
   "property": "C100",
   "status": "proved",
   "theorems": [
    "C100_complete",
    "C100_response",
    "C100_range",
    "C100_verify",
    "C100_fused",
    "C100_tree",
    "C100_tree_proof",
    "C100_challenge",
    "C100_verifier_short",
    "C100_schedule",
    "C100_noticed_refuted",
    "C100_tree_refuted"
   ],
   "note": ""
  },
  {
   "property": "C101",
   "status": "proved",
   "theorems": [
    "C101_seal",
    "C101_unseal",
    "C101_killed",
    "C101_readers",
    "C101_verifier",
    "C101_length",
    "C101_short",
    "C101_unseal_total",
    "C101_round_trip",
    "C101_origin",
    "C101_restored",
    "C101_spot",
    "C101_noticed_refuted"
   ],
   "note": ""
  },
  {
   "property": "C102",
   "status": "proved",
   "theorems": [
    "C102_unseal",
    "C102_restored",
    "C102_copies",
    "C102_challenge",
    "C102_one_round",
    "C102_seal",
    "C102_iv_needed_refuted"
   ],
   "note": ""
  },
  {
   "property": "C103",
   "status": "proved",
   "theorems": [
    "C103_result",
    "C103_apart",
    "C103_frame",
    "C103_missing",
    "C103_sealed_is_origin",
    "C103_unsealed_is_sealed",
    "C103_pub_is_origin",
    "C103_pub_is_sealed",
    "C103_succeeds",
    "C103_unsealed_over",
    "C103_check_self",
    "C103_copies",
    "C103_check",
    "C103_load",
    "C103_copy_self",
    "C103_seal",
    "C103_any_paths_refuted"
   ],
   "note": ""
  },
  {
   "property": "C104",
   "status": "proved",
   "theorems": [
    "C104_unsaved",
    "C104_saved",
    "C104_zero_length",
    "C104_saving_observes_refuted",
    "C104_history",
    "C104_stat_fields",
    "C104_head_fields",
    "C104_stat_identifies_refuted",
    "C104_reported_refuted",
    "C104_pipeline",
    "C104_progress",
    "C104_passed",
    "C104_readable",
    "C104_times_table",
    "C104_stat_table",
    "C104_head_table",
    "C104_space_sample",
    "C104_space_text",
    "C104_space_run"
   ],
   "note": ""
  },
  {
   "property": "C105",
   "status": "proved",
   "theorems": [
    "C105_answer",
    "C105_range",
    "C105_challenge",
    "C105_response",
    "C105_decides",
    "C105_any_moment_refuted"
   ],
   "note": ""
  },
  {
   "property": "C106",
   "status": "proved",
   "theorems": [
    "C106_same",
    "C106_delay",
    "C106_modpow",
    "C106_modpow_exact",
    "C106_root_cost",
    "C106_legendre",
    "C106_legendre_calls",
    "C106_seal",
    "C106_unseal",
    "C106_check",
    "C106_check_threads",
    "C106_bounded_refuted",
    "C106_undo",
    "C106_undo_blocks"
   ],
   "note": ""
  },
  {
   "property": "C107",
   "status": "proved",
   "theorems": [
    "C107_pad",
    "C107_compress",
    "C107_refused",
    "C107_save",
    "C107_seal",
    "C107_unseal",
    "C107_run",
    "C107_needs",
    "C107_again",
    "C107_like_killed",
    "C107_early_refuted"
   ],
   "note": ""
  },
  {
   "property": "C108",
   "status": "proved",
   "theorems": [
    "C108_alone",
    "C108_ends",
    "C108_any",
    "C108_part",
    "C108_apart",
    "C108_contents",
    "C108_pub_shared",
    "C108_pub_mixtures",
    "C108_shared_refuted"
   ],
   "note": ""
  },
  {
   "property": "C109",
   "status": "proved",
   "theorems": [
    "C109_masks",
    "C109_image",
    "C109_reseal",
    "C109_one_round",
    "C109_repetitive",
    "C109_layers",
    "C109_padded",
    "C109_any_file_refuted",
    "C109_order_refuted"
   ],
   "note": ""
  },
  {
   "property": "C110",
   "status": "proved",
   "theorems": [
    "C110_prepare",
    "C110_mark",
    "C110_counts",
    "C110_answer",
    "C110_room"
   ],
   "note": ""
  },
  {
   "property": "C111",
   "status": "proved",
   "theorems": [
    "C111_thrifty",
    "C111_nothing",
    "C111_search_count",
    "C111_counted"
   ],
   "note": ""
  },
  {
   "property": "C112",
   "status": "proved",
   "theorems": [
    "C112_alone",
    "C112_side",
    "C112_unmapped",
    "C112_whole",
    "C112_again",
    "C112_askers",
    "C112_lost_refuted",
    "C112_torn_refuted"
   ],
   "note": ""
  },
  {
   "property": "C113",
   "status": "proved",
   "theorems": [
    "C113_reseal",
    "C113_lost",
    "C113_answers",
    "C113_bare",
    "C113_any_order_refuted"
   ],
   "note": ""
  },
  {
   "property": "C114",
   "status": "proved",
   "theorems": [
    "C114_collect",
    "C114_gather",
    "C114_whole",
    "C114_chance",
    "C114_unanswered_refuted"
   ],
   "note": ""
  },
  {
   "property": "C115",
   "status": "proved",
   "theorems": [
    "C115_bare",
    "C115_sequential",
    "C115_judge",
    "C115_challenge",
    "C115_accepts",
    "C115_collect"
   ],
   "note": ""
  },
  {
   "property": "C116",
   "status": "proved",
   "theorems": [
    "C116_sequential",
    "C116_parallel",
    "C116_verdict",
    "C116_replay",
    "C116_other_tree"
   ],
   "note": ""
  },
  {
   "property": "C117",
   "status": "proved",
   "theorems": [
    "C117_from",
    "C117_kept",
    "C117_update",
    "C117_boundary_refuted",
    "C117_later_refuted"
   ],
   "note": ""
  },
  {
   "property": "C118",
   "status": "proved",
   "theorems": [
    "C118_blockwise",
    "C118_local",
    "C118_update",
    "C118_sealed_again_refuted"
   ],
   "note": ""
  },
  {
   "property": "C119",
   "status": "proved",
   "theorems": [
    "C119_demand",
    "C119_each",
    "C119_must_seal_refuted",
    "C119_shipped"
   ],
   "note": ""
  },
  {
   "property": "C120",
   "status": "proved",
   "theorems": [
    "C120_alone",
    "C120_side",
    "C120_whole",
    "C120_wiped",
    "C120_spoiled",
    "C120_stray_refuted"
   ],
   "note": ""
  },
  {
   "property": "C121",
   "status": "proved",
   "theorems": [
    "C121_side",
    "C121_nested",
    "C121_serial_refuted",
    "C121_order_refuted"
   ],
   "note": ""
  },
  {
   "property": "C122",
   "status": "proved",
   "theorems": [
    "C122_all",
    "C122_rare",
    "C122_lost",
    "C122_some",
    "C122_hit",
    "C122_shipped"
   ],
   "note": ""
  },
  {
   "property": "C123",
   "status": "proved",
   "theorems": [
    "C123_storage",
    "C123_pipeline",
    "C123_space",
    "C123_circuit",
    "C123_same",
    "C123_space_same",
    "C123_mode_2",
    "C123_converse_refuted"
   ],
   "note": ""
  },
  {
   "property": "C124",
   "status": "proved",
   "theorems": [
    "C124_fixed",
    "C124_differ",
    "C124_back",
    "C124_exactly",
    "C124_few",
    "C124_hardly",
    "C124_name",
    "C124_noticed_refuted"
   ],
   "note": "C124_back for any number of sealing rounds; the converse C124_exactly and the counts are stated for one round of sealing, as in the property."
  },
  {
   "property": "C125",
   "status": "proved",
   "theorems": [
    "C125_fewer",
    "C125_undo",
    "C125_none",
    "C125_two_goes_refuted"
   ],
   "note": "C125_two_goes_refuted is the counterexample for unsealing in two goes."
  },
  {
   "property": "C126",
   "status": "proved",
   "theorems": [
    "C126_rare",
    "C126_all",
    "C126_changes_refuted"
   ],
   "note": "Stated, as in the property, for one round of sealing; C126_changes_refuted shows that such files exist."
  },
  {
   "property": "C127",
   "status": "proved",
   "theorems": [
    "C127_exactly",
    "C127_same",
    "C127_collision",
    "C127_distinct_refuted"
   ],
   "note": "Stated, as in the property, for one round of sealing; nothing is proved here for more rounds."
  }
 ]
}