{
 "claims": [
  {
   "property": "C01",
   "status": "proved",
   "theorems": [
    "C01_compact_constants",
    "C01_compact_exists"
   ],
   "note": "every field, table and state; existence of the compact tables included"
  },
  {
   "property": "C02",
   "status": "proved",
   "theorems": [
    "C02_constant_length_hash"
   ],
   "note": ""
  },
  {
   "property": "C03",
   "status": "proved",
   "theorems": [
    "C03_iden3_hash"
   ],
   "note": ""
  },
  {
   "property": "C04",
   "status": "proved",
   "theorems": [
    "C04_message_hash"
   ],
   "note": ""
  },
  {
   "property": "C05",
   "status": "proved",
   "theorems": [
    "C05_panics_only_on_empty"
   ],
   "note": ""
  },
  {
   "property": "C06",
   "status": "proved",
   "theorems": [
    "C06_two_word_apis_agree"
   ],
   "note": ""
  },
  {
   "property": "C07",
   "status": "proved",
   "theorems": [
    "C07_message_commitment"
   ],
   "note": ""
  },
  {
   "property": "C08",
   "status": "proved",
   "theorems": [
    "C08_bn254_bijection",
    "C08_permutation_bijection",
    "C08_pallas_bijection"
   ],
   "note": "The generic theorem takes coprimality of 5 and p-1 and any two-sided inverse of the matrix as hypotheses; both are proved for BN254 and Pallas."
  },
  {
   "property": "C09",
   "status": "proved",
   "theorems": [
    "C09_history_independent",
    "C09_history_values"
   ],
   "note": ""
  },
  {
   "property": "C10",
   "status": "proved",
   "theorems": [
    "C10_feature_independent"
   ],
   "note": ""
  },
  {
   "property": "C11",
   "status": "proved",
   "theorems": [
    "C11_absorb_squeeze"
   ],
   "note": ""
  },
  {
   "property": "C12",
   "status": "proved",
   "theorems": [
    "C12_grain_bits",
    "C12_grain_shrunk",
    "C12_sequence_exists",
    "C12_seed"
   ],
   "note": "refinement to every sequence satisfying the recurrence; such a sequence exists"
  },
  {
   "property": "C13",
   "status": "proved",
   "theorems": [
    "C13_bn254_tables_generated",
    "C13_pallas_tables_generated"
   ],
   "note": "finite domain: full tables compared by kernel computation"
  },
  {
   "property": "C14",
   "status": "proved",
   "theorems": [
    "C14_generated_inverse",
    "C14_generated_separable",
    "C14_generator_panic"
   ],
   "note": "inverse, separability of all minors, and the only panic (zero sum x_i+y_j)"
  },
  {
   "property": "C15",
   "status": "proved",
   "theorems": [
    "C15_cofactor_inverse",
    "C15_bn254_inverse",
    "C15_bn254_separable",
    "C15_pallas_inverse",
    "C15_pallas_separable"
   ],
   "note": ""
  },
  {
   "property": "C16",
   "status": "proved",
   "theorems": [
    "C16_septidon_sound"
   ],
   "note": "For any circuit using the chip (chip_used: calls of permute and permute_batch in any order, anything else in other columns) and any assignment; spec is the textbook permutation."
  },
  {
   "property": "C17",
   "status": "proved",
   "theorems": [
    "C17_septidon_complete"
   ],
   "note": "Honest witness of any chip_used circuit; also that permute never fails."
  },
  {
   "property": "C18",
   "status": "proved",
   "theorems": [
    "C18_septidon_unique"
   ],
   "note": "Uniqueness of all cells but two free helper cells per block (column 12, rows 0 and 4); the theorem also shows that those two really are free."
  },
  {
   "property": "C19",
   "status": "proved",
   "theorems": [
    "C19_septidon_scattered"
   ],
   "note": "Blocks at arbitrary disjoint rows: each one computes the permutation; an assignment that looks on each block like some satisfying one is satisfying."
  },
  {
   "property": "C20",
   "status": "proved",
   "theorems": [
    "C20_septidon_batch"
   ],
   "note": "Any thread count > 0 (rayon cannot report 0; the fallback 32 is one of them)."
  },
  {
   "property": "C21",
   "status": "proved",
   "theorems": [
    "C21_pow5_sound"
   ],
   "note": ""
  },
  {
   "property": "C22",
   "status": "proved",
   "theorems": [
    "C22_pow5_complete",
    "C22_configurable"
   ],
   "note": ""
  },
  {
   "property": "C23",
   "status": "proved",
   "theorems": [
    "C23_circuit_hash_sound"
   ],
   "note": "Hash::init and hash may be separated by any other regions; also the value as the textbook sponge."
  },
  {
   "property": "C24",
   "status": "proved",
   "theorems": [
    "C24_circuit_hash_complete"
   ],
   "note": "Needs a constants column (halo2 returns NotEnoughColumnsForConstants without one, a Panic in the model)."
  },
  {
   "property": "C25",
   "status": "proved",
   "theorems": [
    "C25_chips_interchangeable"
   ],
   "note": ""
  },
  {
   "property": "C26",
   "status": "proved",
   "theorems": [
    "C26_two_word_rows"
   ],
   "note": "Both builds, any host circuit, any witness; rows 1..calcs are the enabled rows."
  },
  {
   "property": "C27",
   "status": "proved",
   "theorems": [
    "C27_messages"
   ],
   "note": "Digest of every row of a message equals the sponge of its rows; hash_msg when later domains are 0."
  },
  {
   "property": "C28",
   "status": "proved",
   "theorems": [
    "C28_larger_range_refuted",
    "C28_control"
   ],
   "note": "Unique decode needs STEP <= step given to configure_sub and controls below the modulus; both hypotheses are in the statement. Without the first it is refuted with STEP = 63 and step 62, for both builds."
  },
  {
   "property": "C29",
   "status": "proved",
   "theorems": [
    "C29_first_row"
   ],
   "note": "Needs (calcs*step+STEP)*2^64 below the modulus (no wrap-around)."
  },
  {
   "property": "C30",
   "status": "proved",
   "theorems": [
    "C30_every_row_but_last",
    "C30_last_row",
    "C30_last_digest_free",
    "C30_last_row_refuted"
   ],
   "note": "Holds for all enabled rows but the last (C30_every_row_but_last); refuted for the last row with a witness for both builds."
  },
  {
   "property": "C31",
   "status": "proved",
   "theorems": [
    "C31_custom_row"
   ],
   "note": "Zero inputs and control are forced; digest and domain can be replaced by anything; head too when control on the last row of the circuit is 0."
  },
  {
   "property": "C32",
   "status": "proved",
   "theorems": [
    "C32_complete_exactly"
   ],
   "note": "If and only if; controls must not wrap around the modulus."
  },
  {
   "property": "C33",
   "status": "proved",
   "theorems": [
    "C33_serial_capacity",
    "C33_parallel_cut",
    "C33_parallel_refuted"
   ],
   "note": "Serial assignment panics; refuted for parallel assignment, which equals loading the table cut to calcs entries."
  },
  {
   "property": "C34",
   "status": "proved",
   "theorems": [
    "C34_parallel_serial"
   ],
   "note": "Same cells in the same order of writes; selectors as a set; panics together."
  },
  {
   "property": "C35",
   "status": "proved",
   "theorems": [
    "C35_key_of_table",
    "C35_key_of_chips"
   ],
   "note": "Table half for any two tables, modes and values; chip half for serial and batch calls with any values, known or not."
  },
  {
   "property": "C36",
   "status": "proved",
   "theorems": [
    "C36_builder_rows"
   ],
   "note": "Refinement to the list of rows for every sequence of builder calls."
  },
  {
   "property": "C37",
   "status": "proved",
   "theorems": [
    "C37_stream_inputs",
    "C37_sessions"
   ],
   "note": "Exact acceptance condition, controls, and termination condition."
  },
  {
   "property": "C38",
   "status": "proved",
   "theorems": [
    "C38_contents"
   ],
   "note": "For every sequence of builder calls whose streams are sized; both builds and modes."
  },
  {
   "property": "C39",
   "status": "proved",
   "theorems": [
    "C39_checks"
   ],
   "note": "Exact panic condition for tables that fit; also digest = check on final rows."
  },
  {
   "property": "C40",
   "status": "proved",
   "theorems": [
    "C40_row_budget",
    "C40_row_budget_refuted"
   ],
   "note": "Rows are exact (fits is characterised). The bound by hash_block_size holds unless poseidon-base has the feature short and poseidon-circuit does not; there it is refuted (9 rows counted, 38 taken)."
  },
  {
   "property": "C41",
   "status": "proved",
   "theorems": [
    "C41_grain_total"
   ],
   "note": ""
  },
  {
   "property": "C42",
   "status": "proved",
   "theorems": [
    "C42_circuit_sponge"
   ],
   "note": "Absorbing, finishing and squeezing are consecutive; any circuit before and after."
  },
  {
   "property": "C43",
   "status": "proved",
   "theorems": [
    "C43_domain_layout_refuted"
   ],
   "note": "Refuted with a width-3 chip over F_19 and domain ConstantLengthIden3<2>; the positive part (layout 0) is C42."
  },
  {
   "property": "C44",
   "status": "proved",
   "theorems": [
    "C44_serial_rows_kept",
    "C44_parallel_overwritten",
    "C44_parallel_refuted"
   ],
   "note": "Proved for serial assignment; refuted for parallel assignment, for every thread count."
  },
  {
   "property": "C45",
   "status": "proved",
   "theorems": [
    "C45_enabled_rows",
    "C45_lookup_two_words",
    "C45_zero_words_refuted"
   ],
   "note": "Holds for every enabled row when the words are not (0, 0); refuted for (0, 0) with a witness for every digest and domain and both builds. Needs controls below the modulus."
  },
  {
   "property": "C46",
   "status": "proved",
   "theorems": [
    "C46_lookup_message"
   ],
   "note": "The absence of sponge collisions among the messages of the table is a hypothesis (collision_free)."
  },
  {
   "property": "C47",
   "status": "proved",
   "theorems": [
    "C47_determined"
   ],
   "note": "Needs STEP <= step and controls below the modulus. The digest of the last row is free (C30)."
  },
  {
   "property": "C48",
   "status": "proved",
   "theorems": [
    "C48_generator",
    "C48_bounds_irrelevant",
    "C48_field_bits"
   ],
   "note": "Conditional on the generator returning a value: that the rejection loops end is probabilistic and not proved; C41 covers the bit loop."
  },
  {
   "property": "C49",
   "status": "proved",
   "theorems": [
    "C49_permute_unique",
    "C49_sponge_unique",
    "C49_hash_unique"
   ],
   "note": "Written cells are the advice assignments recorded by the layouter during the call; the host may add any regions."
  },
  {
   "property": "C50",
   "status": "proved",
   "theorems": [
    "C50_pow5_degree",
    "C50_septidon_degree",
    "C50_table_degree"
   ],
   "note": "Degrees as in halo2 Expression::degree before selectors are compressed; complex selectors keep degree 1."
  },
  {
   "property": "C51",
   "status": "proved",
   "theorems": [
    "C51_message_collision",
    "C51_default_collision",
    "C51_constant_length_collision",
    "C51_iden3_collision"
   ],
   "note": "Reduction of collisions to the permutation, not a bound on the probability of finding one. Instances are collisions over small or weak parameters."
  },
  {
   "property": "C52",
   "status": "proved",
   "theorems": [
    "C52_free_domain_refuted",
    "C52_any_digest",
    "C52_zero_domains"
   ],
   "note": "Refuted for BN254 in both builds with a witness for every pair of words and every digest; proved when continuing rows have domain 0, with table_collision and table_hits as the remaining cases."
  },
  {
   "property": "C53",
   "status": "proved",
   "theorems": [
    "C53_permute",
    "C53_add_input",
    "C53_sponge",
    "C53_constants_column",
    "C53_hash",
    "C53_chips",
    "C53_bn254_rows"
   ],
   "note": "Row counts as assigned by the floor planner model (upper bound over the chip's columns, lower bound on the state columns); rows fit when the counts do. The rows an unused selector or blinding takes are not counted."
  },
  {
   "property": "C54",
   "status": "proved",
   "theorems": [
    "C54_permute",
    "C54_sponge",
    "C54_hash_init",
    "C54_hash",
    "C54_same_circuit"
   ],
   "note": "A logical relation over the region and layouter monads; no hypothesis on the spec, the columns or the layout before the call. The hash table and the chips behind it are C35."
  },
  {
   "property": "C55",
   "status": "proved",
   "theorems": [
    "C55_branch_number",
    "C55_bn254_no_trail",
    "C55_pallas_no_trail",
    "C55_bn254_no_blind_sum",
    "C55_pallas_no_blind_sum",
    "C55_two_rounds",
    "C55_active_sboxes",
    "C55_bn254_active",
    "C55_pallas_active"
   ],
   "note": "Differential and linear trails over the partial rounds; the count of active S-boxes is a lower bound, not claimed to be attained. Trails longer than one period (invariant subspaces that avoid both conditions) are not a separate claim: both conditions hold for every three rounds."
  },
  {
   "property": "C56",
   "status": "proved",
   "theorems": [
    "C56_fewer_rounds",
    "C56_more_rounds",
    "C56_any_rounds_refuted"
   ],
   "note": "Refuted over F_19 with 58 partial rounds; no field of the repository has more than 57. The positive parts are proved for every field."
  },
  {
   "property": "C57",
   "status": "proved",
   "theorems": [
    "C57_spec_of_call",
    "C57_same_rounds",
    "C57_too_many_rounds",
    "C57_spec_of_call_refuted",
    "C57_determined_refuted"
   ],
   "note": "Refuted over F_19 (other constants; unconstrained row). An even number of rounds above that of the configuration puts two gates on one row and is not covered."
  },
  {
   "property": "C58",
   "status": "proved",
   "theorems": [
    "C58_api",
    "C58_chip",
    "C58_same_permutation_refuted"
   ],
   "note": "The agreement is refuted over F_19 with S-box x^7; for x^5 it is C21."
  },
  {
   "property": "C59",
   "status": "proved",
   "theorems": [
    "C59_sound",
    "C59_all_rows",
    "C59_inactive_rows",
    "C59_honest_rejected",
    "C59_degree",
    "C59_degree_5_refuted"
   ],
   "note": "The degree claim is refuted: the transition gate has degree 6 in both modes."
  },
  {
   "property": "C60",
   "status": "proved",
   "theorems": [
    "C60_encoding",
    "C60_collision",
    "C60_rows",
    "C60_digests",
    "C60_lookup",
    "C60_digest_determines"
   ],
   "note": "The layout of bytes is written from spec/hash-table.md (BytesUse.v); no code of the repository produces it. That the words looked up are really made of bytes is for the host circuit to check."
  },
  {
   "property": "C61",
   "status": "proved",
   "theorems": [
    "C61_path",
    "C61_one_leaf",
    "C61_complete"
   ],
   "note": "The tree is a use of the table, not code of the repository. Pairs of zero words are excluded because of C45_zero_words_refuted."
  },
  {
   "property": "C62",
   "status": "proved",
   "theorems": [
    "C62_bn254_rounds",
    "C62_pallas_rounds",
    "C62_bn254_full",
    "C62_pallas_full",
    "C62_bn254_partial",
    "C62_pallas_partial",
    "C62_bn254_three",
    "C62_pallas_three"
   ],
   "note": ""
  },
  {
   "property": "C63",
   "status": "proved",
   "theorems": [
    "C63_exactly",
    "C63_any_host",
    "C63_same_tables"
   ],
   "note": ""
  },
  {
   "property": "C64",
   "status": "proved",
   "theorems": [
    "C64_square_root",
    "C64_never_wrong",
    "C64_power"
   ],
   "note": "The function is private and unused in the crate. S, the root of unity and the exponent are parameters; the constants of Pallas and BN254 are shown to meet the hypotheses."
  },
  {
   "property": "C65",
   "status": "proved",
   "theorems": [
    "C65_sound",
    "C65_complete",
    "C65_binding",
    "C65_api_hash"
   ],
   "note": "The program of calls is specification vocabulary; the calls in it are the modelled Hash::init and Hash::hash."
  },
  {
   "property": "C66",
   "status": "proved",
   "theorems": [
    "C66_degree",
    "C66_bn254_degree",
    "C66_pallas_degree",
    "C66_preimages",
    "C66_message_preimages",
    "C66_digests"
   ],
   "note": "The degrees are along lines of states; the words of earlier blocks of a message are not covered (their degree exceeds the field)."
  },
  {
   "property": "C67",
   "status": "proved",
   "theorems": [
    "C67_sound",
    "C67_complete",
    "C67_load",
    "C67_contents"
   ],
   "note": "The tables must not share columns; the host between them is arbitrary."
  },
  {
   "property": "C68",
   "status": "proved",
   "theorems": [
    "C68_sbox",
    "C68_round",
    "C68_full_trail",
    "C68_partial_trail",
    "C68_differential",
    "C68_bn254_full_trail",
    "C68_bn254_partial_trail",
    "C68_bn254_differential",
    "C68_pallas_differential",
    "C68_hash_differential",
    "C68_message_differential"
   ],
   "note": "The bounds for single rounds are met by the F_19 instances; the bound 5^65 for the whole permutation counts along one word, not over all states."
  },
  {
   "property": "C69",
   "status": "proved",
   "theorems": [
    "C69_bn254_balance",
    "C69_pallas_balance",
    "C69_pairs",
    "C69_messages"
   ],
   "note": "Balance is exact because the permutation is a bijection; the other bounds come from the degree (C66). Messages of different lengths have different default capacities and are not counted together."
  },
  {
   "property": "C70",
   "status": "proved",
   "theorems": [
    "C70_cross_collision",
    "C70_separated",
    "C70_clash",
    "C70_domains_refuted"
   ],
   "note": "Refuted for the domains u and 2u, u = HASHABLE_DOMAIN_SPEC; C70_separated shows that there are no others."
  },
  {
   "property": "C71",
   "status": "proved",
   "theorems": [
    "C71_table_workers",
    "C71_batch_workers"
   ],
   "note": "The row discipline of assign_regions is halo2's (scroll's fork), modelled from its behaviour; that the parts make the same table as serial assignment is C34."
  },
  {
   "property": "C72",
   "status": "proved",
   "theorems": [
    "C72_once"
   ],
   "note": "The error comes from halo2's assign_table (a table column can be assigned once), modelled from its behaviour."
  },
  {
   "property": "C73",
   "status": "proved",
   "theorems": [
    "C73_lines",
    "C73_bn254_words",
    "C73_pallas_words",
    "C73_swapped",
    "C73_two_words",
    "C73_messages"
   ],
   "note": "A word moved between different blocks of a message, or together with others, is covered by the general form only as far as its hypotheses on lines reach."
  },
  {
   "property": "C74",
   "status": "proved",
   "theorems": [
    "C74_fixed_length_refuted",
    "C74_fixed_length",
    "C74_circuit_refuted",
    "C74_circuit"
   ],
   "note": "Refuted; C74_fixed_length and C74_circuit say how far the two are apart. That the gadget does compute the fixed-length hash is C23."
  },
  {
   "property": "C75",
   "status": "proved",
   "theorems": [
    "C75_load",
    "C75_accepted",
    "C75_standalone"
   ],
   "note": "The number of rows kept back for blinding is a parameter (n - u). Messages longer than their rows are covered by C32 and C37."
  },
  {
   "property": "C76",
   "status": "proved",
   "theorems": [
    "C76_exact",
    "C76_least",
    "C76_panics"
   ],
   "note": "The two row counts differ by T - 1. The circuit is that of the repository's tests, with the specification as a parameter."
  },
  {
   "property": "C77",
   "status": "proved",
   "theorems": [
    "C77_exact",
    "C77_merkle",
    "C77_least",
    "C77_panics"
   ],
   "note": "The circuit around the calls is a user's, not code of the repository; its regions are those of HashCircuit (C76) with the leaves in one column. The two row counts differ by T - 1 per hash."
  },
  {
   "property": "C78",
   "status": "proved",
   "theorems": [
    "C78_exact",
    "C78_inverse",
    "C78_rows",
    "C78_no_panic"
   ],
   "note": "PermuteCircuit of the tests with its fixed states turned into parameters; every state word is in the statement, not only the first."
  },
  {
   "property": "C79",
   "status": "proved",
   "theorems": [
    "C79_exact",
    "C79_bn254_inverse",
    "C79_rows"
   ],
   "note": "TestCircuit of the tests with its fixed state turned into parameters; all rows are checked, not only the first."
  },
  {
   "property": "C80",
   "status": "proved",
   "theorems": [
    "C80_expressions",
    "C80_values",
    "C80_or_zero_refuted",
    "C80_join",
    "C80_partly_known_refuted",
    "C80_cells"
   ],
   "note": "The two negative statements (or outside of bits, partly known states) are refuted over F_19."
  },
  {
   "property": "C81",
   "status": "proved",
   "theorems": [
    "C81_columns",
    "C81_lines"
   ],
   "note": "The contents are those of the honest prover; what any accepted proof can hold is C26-C31."
  },
  {
   "property": "C82",
   "status": "proved",
   "theorems": [
    "C82_adc",
    "C82_mac",
    "C82_sbb",
    "C82_borrow_refuted",
    "C82_mul",
    "C82_chains"
   ],
   "note": "The mod line of fields.rs is commented out, so this code is in no build today. C82_borrow_refuted: the comment of sbb read literally."
  }
 ]
}