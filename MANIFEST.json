{
 "claims": [
  {
   "property": "C01",
   "status": "proved",
   "theorems": [
    "C01_mul_is_product_mod_poly",
    "C01_field_laws",
    "C01_batch_pointwise"
   ],
   "note": "Python kernel proved to be multiplication in the field GF(2)[x]/(x^128+x^7+x^2+x+1)."
  },
  {
   "property": "C02",
   "status": "proved",
   "theorems": [
    "C02_kernels_agree_exactly_below_192",
    "C02_native_kernel_bilinear"
   ],
   "note": "Proved for all elements. Limits: C145."
  },
  {
   "property": "C03",
   "status": "proved",
   "theorems": [
    "C03_decode_inverts_solve",
    "C03_store_represents_every_pair"
   ],
   "note": "Proved for every seed, key list, value list and table size. Limits: C107."
  },
  {
   "property": "C04",
   "status": "proved",
   "theorems": [
    "C04_solve_terminates_and_fails_exactly_on_stopping_sets",
    "C04_duplicate_keys_rejected",
    "C04_empty_table_rejected"
   ],
   "note": "Proved: terminates, fails exactly on stopping sets, rejects duplicates and empty tables. Limits: C108."
  },
  {
   "property": "C05",
   "status": "partial",
   "theorems": [
    "C05_binned_decode_inverts_solve_partial",
    "C05_fallback_bin_decodes_correctly_refuted",
    "C05_batch_size_independent_decode_refuted"
   ],
   "note": "Proved when every bin peels. REFUTED: a bin that falls back to the generic solver is decoded with a different row layout (witness with the real AES round), and kernel selection depends on the batch size."
  },
  {
   "property": "C06",
   "status": "proved",
   "theorems": [
    "C06_row_is_xor_of_listed_blocks",
    "C06_encode_linear"
   ],
   "note": "Proved for all well-formed CSR matrices; Python and C++ kernels agree."
  },
  {
   "property": "C07",
   "status": "proved",
   "theorems": [
    "C07_receiver_gets_chosen_message",
    "C07_completes_for_generic_randomness"
   ],
   "note": "For every abelian group of finite order, encoder, SHA function and PRG. The receiver ends with exactly the chosen message whenever the run completes; it completes for all non-degenerate scalars."
  },
  {
   "property": "C08",
   "status": "proved",
   "theorems": [
    "C08_iknp_correlation",
    "C08_extension_delivers_chosen_message",
    "C08_extension_completes_iff_messages_fit"
   ],
   "note": "Correlation, delivery and an exact completion criterion (messages fit the pad)."
  },
  {
   "property": "C09",
   "status": "proved",
   "theorems": [
    "C09_gilboa_vole_correlation",
    "C09_gilboa_completes"
   ],
   "note": "Proved; the product is the one of C01, specified by polynomial arithmetic. Limits: C109."
  },
  {
   "property": "C10",
   "status": "proved",
   "theorems": [
    "C10_silent_expansion_correlated",
    "C10_silent_completes"
   ],
   "note": "Proved for every n, code and draw. Limits: C110."
  },
  {
   "property": "C11",
   "status": "partial",
   "theorems": [
    "C11_silver_correlated_only_without_noise_refuted",
    "C11_silver_ldpc_correlation_refuted",
    "C11_silver_ldpc_outputs_secret_refuted"
   ],
   "note": "Refuted: silver_vole correlated exactly at noise-free indices; silver_vole_ldpc's u and Delta are independent of v and w; and its seeds take four values only."
  },
  {
   "property": "C12",
   "status": "proved",
   "theorems": [
    "C12_common_items_are_marked",
    "C12_sender_tag_offset",
    "C12_uncommon_items_get_different_tags",
    "C12_completes_when_encodable"
   ],
   "note": "Completeness proved for every set, table size and draw; soundness before hashing. Limits: C111."
  },
  {
   "property": "C13",
   "status": "proved",
   "theorems": [
    "C13_cuckoo_table_sound"
   ],
   "note": "Every item list, table size > 0, seed and every choice of winner among concurrent scatter writers. Duplicate input items count as different items. Empty batches (jax gather from an empty array) are outside the model."
  },
  {
   "property": "C14",
   "status": "proved",
   "theorems": [
    "C14_sender_and_receiver_agree",
    "C14_agreement_iff_selected_bits_agree",
    "C14_one_answer_per_item"
   ],
   "note": "Proved. The second part shows that the code has no distance. Limits: C112."
  },
  {
   "property": "C15",
   "status": "proved",
   "theorems": [
    "C15_secure_switch",
    "C15_permutation_applied",
    "C15_permutation_completes"
   ],
   "note": "Every length (0 and 1 included, padded), every permutation, all data and all OT randomness; completion unless an OT draw is exceptional. Assumes sender <> receiver, one-dimensional data and lengths below 2^48 (exact float log2)."
  },
  {
   "property": "C16",
   "status": "proved",
   "theorems": [
    "C16_rotate_and_sum",
    "C16_strided_rotate_and_sum",
    "C16_rotations"
   ],
   "note": "Exact law for powers of two or zero padding, also for the strided variant."
  },
  {
   "property": "C17",
   "status": "proved",
   "theorems": [
    "C17_groupby_bfv_in_process",
    "C17_groupby_shuffle",
    "C17_groupby_shuffle_completes"
   ],
   "note": "Proved for all data, bins, group counts and randomness. Limits: C113."
  },
  {
   "property": "C18",
   "status": "partial",
   "theorems": [
    "C18_bits_inverse_refuted",
    "C18_bits_reverse_partial"
   ],
   "note": "Refuted: the helpers use opposite bit orders, so the composition reverses the bits of every byte; C18_bits_reverse_partial gives the exact law for all byte arrays."
  },
  {
   "property": "C19",
   "status": "proved",
   "theorems": [
    "C19_positions_in_range",
    "C19_two_positions_distinct"
   ],
   "note": "Proved for every draw. Limits: C146."
  },
  {
   "property": "C20",
   "status": "proved",
   "theorems": [
    "C20_json_roundtrip",
    "C20_json_roundtrip_plain",
    "C20_distinct_encodings",
    "C20_dumps_loads",
    "C20_hex_escapes"
   ],
   "note": "Full object language of serde.to_json/from_json (floats by bit pattern; dtype itemsizes and float/int key equality are parameters), and down to the bytes: dumps/loads and dumps_b64/loads_b64 with the JSON text printer and parser of JsonText.v (UTF-8, escapes, surrogate pairs, numbers), base64, and any gzip pair where decompress undoes compress."
  },
  {
   "property": "C21",
   "status": "proved",
   "theorems": [
    "C21_binary_roundtrip",
    "C21_truncation_rejected",
    "C21_trailing_bytes",
    "C21_short_trailing_rejected"
   ],
   "note": "Proved down to the bytes, JSON metadata text included. Limits: C114."
  },
  {
   "property": "C22",
   "status": "proved",
   "theorems": [
    "C22_type_roundtrip",
    "C22_decoded_types_are_valid",
    "C22_constructors_validate"
   ],
   "note": "Every wf type round trips, every decoded type satisfies the constructors' validation, and the constructors reject exactly the invalid arguments."
  },
  {
   "property": "C23",
   "status": "partial",
   "theorems": [
    "C23_equal_types_hash_equally_refuted",
    "C23_tables_collide_only"
   ],
   "note": "Refuted: two TableTypes whose schemas differ in column order are equal but hash differently; C180: column order is the only reason."
  },
  {
   "property": "C24",
   "status": "proved",
   "theorems": [
    "C24_names_uses_defs"
   ],
   "note": "Proved for every history. Limits: C115."
  },
  {
   "property": "C25",
   "status": "proved",
   "theorems": [
    "C25_graph_roundtrip",
    "C25_rebuild_exact"
   ],
   "note": "Proved for every such history. Limits: C116."
  },
  {
   "property": "C26",
   "status": "proved",
   "theorems": [
    "C26_roundtrip",
    "C26_substitution",
    "C26_positions"
   ],
   "note": "pytrees of None/list/tuple/dict with string keys; equality up to dict order; replacement of variables by computed results at list and tree level."
  },
  {
   "property": "C27",
   "status": "proved",
   "theorems": [
    "C27_captures_in_first_use_order",
    "C27_inputs_in_order",
    "C27_names_unique",
    "C27_execution_binds_inputs"
   ],
   "note": "all bodies with nested conditionals, loops, calls and closures; flat argument lists."
  },
  {
   "property": "C28",
   "status": "proved",
   "theorems": [
    "C28_freeing_never_changes_the_result",
    "C28_freed_exactly_when_dead"
   ],
   "note": "sync loop of evaluate_graph with the consumer counter; handlers are functions of their arguments"
  },
  {
   "property": "C29",
   "status": "proved",
   "theorems": [
    "C29_schedule_independent",
    "C29_always_terminates"
   ],
   "note": "all interleavings of worker completions with the main loop; handler exceptions deriving only from BaseException are outside the model"
  },
  {
   "property": "C30",
   "status": "proved",
   "theorems": [
    "C30_failures_are_raised",
    "C30_handlers_called_at_most_once"
   ],
   "note": "schedules with any set of failing handlers, including arity mismatches and missing implementations"
  },
  {
   "property": "C31",
   "status": "proved",
   "theorems": [
    "C31_barrier_completes",
    "C31_barrier_waits_for_everyone",
    "C31_broadcast",
    "C31_allgather",
    "C31_allreduce",
    "C31_participants",
    "C31_bad_participants_rejected"
   ],
   "note": "barrier/broadcast/allgather/and/or/xor: for every participant list, values and schedule; final state has an empty network and matched sequence numbers; barrier synchronisation (absent participant) proved separately; bad participant sets rejected before any send. Timeouts and shutdown not modelled."
  },
  {
   "property": "C32",
   "status": "proved",
   "theorems": [
    "C32_uniform_or_error_everywhere"
   ],
   "note": "every schedule ends with all participants returning the common boolean, or all raising."
  },
  {
   "property": "C33",
   "status": "proved",
   "theorems": [
    "C33_shuffle_without_swaps"
   ],
   "note": "Proved for all routings, party counts and schedules. Limits: C147."
  },
  {
   "property": "C34",
   "status": "proved",
   "theorems": [
    "C34_no_overflow",
    "C34_keys_never_reused"
   ],
   "note": "Proved for all programs and histories. Limits: C117."
  },
  {
   "property": "C35",
   "status": "proved",
   "theorems": [
    "C35_exactly_once",
    "C35_keys_independent"
   ],
   "note": "both transports, every history of atomic mailbox events."
  },
  {
   "property": "C36",
   "status": "proved",
   "theorems": [
    "C36_get_returns_last_put",
    "C36_listing",
    "C36_save_load"
   ],
   "note": "Proved for every history. Limits: C118."
  },
  {
   "property": "C37",
   "status": "proved",
   "theorems": [
    "C37_accepted_keys",
    "C37_plain_keys"
   ],
   "note": "Proved for all roots and keys. Limits: C148."
  },
  {
   "property": "C38",
   "status": "proved",
   "theorems": [
    "C38_confined"
   ],
   "note": "Proved for every program. Limits: C119."
  },
  {
   "property": "C39",
   "status": "proved",
   "theorems": [
    "C39_accepts_iff",
    "C39_union",
    "C39_values",
    "C39_dynamic_first"
   ],
   "note": "Acceptance iff, union and values for static party sets; first held value when an argument is dynamic (nothing is checked then). An empty union is typed dynamic."
  },
  {
   "property": "C40",
   "status": "proved",
   "theorems": [
    "C40_transfer",
    "C40_replicate",
    "C40_single_source",
    "C40_distribute",
    "C40_collect",
    "C40_allreplicate",
    "C40_permute",
    "C40_collect_distribute"
   ],
   "note": "All six collectives, rejection of multi-party sources, and collect after distribute."
  },
  {
   "property": "C41",
   "status": "proved",
   "theorems": [
    "C41_transpose",
    "C41_total"
   ],
   "note": "Dispatch over the workers and transposition, soundness and totality."
  },
  {
   "property": "C42",
   "status": "proved",
   "theorems": [
    "C42_accepts_iff",
    "C42_kinds_ignore_case",
    "C42_lookups",
    "C42_ranks",
    "C42_endpoints",
    "C42_round_trip",
    "C42_round_trip_iff",
    "C42_simple"
   ],
   "note": "Whole property; lookups by kind and rank included."
  },
  {
   "property": "C43",
   "status": "proved",
   "theorems": [
    "C43_device",
    "C43_key_error",
    "C43_order_independent"
   ],
   "note": "Full characterisation; note that an unknown device next to another one escapes as KeyError, and a single unknown device is returned."
  },
  {
   "property": "C44",
   "status": "proved",
   "theorems": [
    "C44_confined",
    "C44_seal",
    "C44_ppu",
    "C44_tee",
    "C44_seal_reveal"
   ],
   "note": "Confinement, contents of the wire and delivery for all supported device pairs. Secrecy of shares and ciphertexts themselves is an assumption on the SPU and crypto libraries."
  },
  {
   "property": "C45",
   "status": "partial",
   "theorems": [
    "C45_fetch_refuted"
   ],
   "note": "Refuted: fetch returns the first share of an SPU object. PPU and TEE objects: C181."
  },
  {
   "property": "C46",
   "status": "proved",
   "theorems": [
    "C46_endpoints"
   ],
   "note": "Proved for parties with distinct endpoints. Limits: C121."
  },
  {
   "property": "C47",
   "status": "proved",
   "theorems": [
    "C47_status",
    "C47_monotone",
    "C47_wait",
    "C47_test",
    "C47_wait_all",
    "C47_wait_any",
    "C47_cancel"
   ],
   "note": "Proved; the exact results for cancelled requests and TimeoutErrors are part of the statements. Limits: C122."
  },
  {
   "property": "C48",
   "status": "proved",
   "theorems": [
    "C48_truthful",
    "C48_finished"
   ],
   "note": "Proved over all interleavings. Limits: C149."
  },
  {
   "property": "C49",
   "status": "proved",
   "theorems": [
    "C49_exclusive",
    "C49_accepted_iff_idle",
    "C49_accepts_again"
   ],
   "note": "Proved over all interleavings, assuming that serializing the result (a list of URI strings) does not raise. Limits: C123."
  },
  {
   "property": "C50",
   "status": "partial",
   "theorems": [
    "C50_groups_partial",
    "C50_batch_reader_refuted"
   ],
   "note": "Refuted: merging source batches returns to_batches()[0], i.e. only the first batch of each group; exact shape of what is delivered proved. The part that holds: C182."
  },
  {
   "property": "C51",
   "status": "partial",
   "theorems": [
    "C51_silent_truncation_refuted",
    "C51_chunking_rejected_refuted",
    "C51_file_sources_refuted"
   ],
   "note": "Refuted three ways (silent truncation at chunk boundaries, equal tables in different chunks rejected, file sources lose all but the first block). The part that holds: C183."
  },
  {
   "property": "C52",
   "status": "proved",
   "theorems": [
    "C52_compile_consistent",
    "C52_compile_succeeds",
    "C52_pack_unpack_up_to_order",
    "C52_unpack_sound",
    "C52_validator_exact",
    "C52_digest_binds_graph"
   ],
   "note": "Proved with the indented UTF-8 JSON text of the artifact modelled. Limits: C124."
  },
  {
   "property": "C53",
   "status": "proved",
   "theorems": [
    "C53_name_independent",
    "C53_dict_order"
   ],
   "note": "Proved for all graphs, whatever the hash functions. Limits: C125."
  },
  {
   "property": "C54",
   "status": "partial",
   "theorems": [
    "C54_keygen_cache_refuted",
    "C54_second_party_readable_refuted"
   ],
   "note": "Refuted: keygen caches per (degree, modulus); exact characterisation proved."
  },
  {
   "property": "C55",
   "status": "proved",
   "theorems": [
    "C55_meaning",
    "C55_meaning_objects"
   ],
   "note": "Proved for every program. Limits: C150."
  },
  {
   "property": "C56",
   "status": "proved",
   "theorems": [
    "C56_other_failures"
   ],
   "note": "Proved for every state and call. Limits: C151."
  },
  {
   "property": "C57",
   "status": "proved",
   "theorems": [
    "C57_written_completely_or_removed",
    "C57_json_written"
   ],
   "note": "Proved. Limits: C126."
  },
  {
   "property": "C58",
   "status": "proved",
   "theorems": [
    "C58_sent_point_independent_of_choice"
   ],
   "note": "Distribution stated as a unique scalar with the same point for the other choice bit, in a cyclic group with exact generator order."
  },
  {
   "property": "C59",
   "status": "partial",
   "theorems": [
    "C59_silent_outputs_fresh_refuted"
   ],
   "note": "Refuted: outputs repeat with period 100000 in every run."
  },
  {
   "property": "C60",
   "status": "proved",
   "theorems": [
    "C60_common_items_are_marked",
    "C60_marked_iff_value_matches",
    "C60_table_decides_membership"
   ],
   "note": "Python kernels; native kernel covered by the exact characterisation (C60_marked_iff_value_matches)."
  },
  {
   "property": "C61",
   "status": "partial",
   "theorems": [
    "C61_galois_keys_decrypt_refuted",
    "C61_evaluation_keys_refuted"
   ],
   "note": "Refuted: evaluation keys are the secret context."
  },
  {
   "property": "C62",
   "status": "proved",
   "theorems": [
    "C62_receiver_learns_only_sums",
    "C62_helper_sees_no_data"
   ],
   "note": "Proved; OT transcripts are idealised to their outputs. Limits: C127."
  },
  {
   "property": "C63",
   "status": "partial",
   "theorems": [
    "C63_duplicate_source_refuted",
    "C63_cross_row_refuted",
    "C63_empty_refuted"
   ],
   "note": "Refuted for duplicates, cross-row sources and empty requests. Distinct pairs within a row: C184."
  },
  {
   "property": "C64",
   "status": "partial",
   "theorems": [
    "C64_bucket_spill_refuted",
    "C64_one_bucket_refuted"
   ],
   "note": "Refuted for other bucket counts. 2, 4, 8, ... zero padded buckets: C185."
  },
  {
   "property": "C65",
   "status": "partial",
   "theorems": [
    "C65_encrypted_histogram_refuted",
    "C65_what_is_summed_partial",
    "C65_arranged_partial"
   ],
   "note": "Refuted by an 8-slot run. C65_what_is_summed_partial says for every batch, node and power-of-two bucket count what the decrypted histogram holds instead (first entries of each bucket region of a block, whichever bucket they belong to); C65_arranged_partial: equal to the plaintext histogram when the batch is already laid out by bucket. Missing: the claim for ordinary batches, which is false of the code."
  },
  {
   "property": "C66",
   "status": "partial",
   "theorems": [
    "C66_irrelevant_slots_refuted"
   ],
   "note": "Refuted."
  },
  {
   "property": "C67",
   "status": "partial",
   "theorems": [
    "C67_unverified_refuted",
    "C67_stuck_refuted"
   ],
   "note": "Refuted: nothing is verified; different iteration counts and a stuck program."
  },
  {
   "property": "C68",
   "status": "partial",
   "theorems": [
    "C68_constant_condition_refuted"
   ],
   "note": "Refuted: a constant condition is accepted and ignored."
  },
  {
   "property": "C69",
   "status": "proved",
   "theorems": [
    "C69_iff"
   ],
   "note": "Proved for all member lists. Limits: C152."
  },
  {
   "property": "C70",
   "status": "partial",
   "theorems": [
    "C70_address_reuse_refuted"
   ],
   "note": "Refuted through id() reuse. While addresses are unique: C186."
  },
  {
   "property": "C71",
   "status": "proved",
   "theorems": [
    "C71_listed_parties_fit"
   ],
   "note": "Proved. Limits: C153."
  },
  {
   "property": "C72",
   "status": "proved",
   "theorems": [
    "C72_static_types_describe_values",
    "C72_element_types_agree"
   ],
   "note": "All five structural operations plus elementwise; values as index functions, shapes as lists; run_jax is excluded (JAX's own shape inference is trusted)."
  },
  {
   "property": "C73",
   "status": "proved",
   "theorems": [
    "C73_no_shape_errors",
    "C73_structural_programs_run"
   ],
   "note": "Proved for all programs. Limits: C128."
  },
  {
   "property": "C74",
   "status": "proved",
   "theorems": [
    "C74_pointwise",
    "C74_static"
   ],
   "note": "Proved. Limits: C129."
  },
  {
   "property": "C75",
   "status": "proved",
   "theorems": [
    "C75_constants_delivered"
   ],
   "note": "Proved for whole histories with the cache. Limits: C154."
  },
  {
   "property": "C76",
   "status": "proved",
   "theorems": [
    "C76_ec_value"
   ],
   "note": "Proved for all expressions over any group with the stated laws. Limits: C155."
  },
  {
   "property": "C77",
   "status": "proved",
   "theorems": [
    "C77_encrypt_decrypt",
    "C77_only_encryptions_accepted"
   ],
   "note": "Proved for all values and key forms relative to the AEAD laws. Limits: C130."
  },
  {
   "property": "C78",
   "status": "proved",
   "theorems": [
    "C78_hash_of_content",
    "C78_hash_batch_rows"
   ],
   "note": "Proved. Limits: C131."
  },
  {
   "property": "C79",
   "status": "proved",
   "theorems": [
    "C79_session_agrees",
    "C79_quote_roundtrip",
    "C79_hkdf_spellings"
   ],
   "note": "Proved relative to the laws of Diffie-Hellman and AEAD. Limits: C132."
  },
  {
   "property": "C80",
   "status": "proved",
   "theorems": [
    "C80_homomorphic_mod_n",
    "C80_operands_checked"
   ],
   "note": "Proved relative to the laws of the additively homomorphic library. Limits: C133."
  },
  {
   "property": "C81",
   "status": "partial",
   "theorems": [
    "C81_key_types",
    "C81_public_key_decrypts_refuted",
    "C81_mixed_keys_refuted",
    "C81_schemes_refuted"
   ],
   "note": "Type-level separation of public and private key proved; refuted: the public key object is the private key object and is carried by every ciphertext, ciphertexts of different keys are added silently, documented schemes other than paillier cannot be generated (LightPHE scheme names are a stated list)."
  },
  {
   "property": "C82",
   "status": "proved",
   "theorems": [
    "C82_call_with_captures_passed",
    "C82_closed_call"
   ],
   "note": "Proved for all functions that return objects. Limits: C156."
  },
  {
   "property": "C83",
   "status": "proved",
   "theorems": [
    "C83_eager_equals_compiled",
    "C83_values_agree"
   ],
   "note": "Proved for all such programs. Limits: C157."
  },
  {
   "property": "C84",
   "status": "proved",
   "theorems": [
    "C84_lift_deterministic",
    "C84_evaluation_values",
    "C84_graph_restored",
    "C84_lift_stable",
    "C84_results_of_one_operation_together",
    "C84_foreign_objects_refused"
   ],
   "note": "Proved for every history of lifts. Limits: C134."
  },
  {
   "property": "C85",
   "status": "proved",
   "theorems": [
    "C85_prediction_is_traversal",
    "C85_ensemble"
   ],
   "note": "All trees, depths, parties. Floats are exact rationals; the transport of the masks is C33/C40."
  },
  {
   "property": "C86",
   "status": "proved",
   "theorems": [
    "C86_active_party_alone_agrees"
   ],
   "note": "Proved for all data, bins and depths. Limits: C135."
  },
  {
   "property": "C87",
   "status": "partial",
   "theorems": [
    "C87_passive_party_counts_repeatedly_partial",
    "C87_splits_are_best_refuted",
    "C87_min_child_weight_refuted"
   ],
   "note": "Refuted for passive parties because decrypt_histogram_results already returns cumulative histograms and compute_best_split_from_hist accumulates again (exact characterisation proved); min_child_weight refuted. Active party: C187."
  },
  {
   "property": "C88",
   "status": "proved",
   "theorems": [
    "C88_subtracted_histograms_are_exact",
    "C88_split_ancestors_are_needed",
    "C88_quantisation",
    "C88_quantisation_error"
   ],
   "note": "Proved for all nodes whose ancestors are split nodes; the condition is shown necessary (nodes below a leaf are unreachable)."
  },
  {
   "property": "C89",
   "status": "proved",
   "theorems": [
    "C89_one_hot_accessors_agree",
    "C89_one_hot_function",
    "C89_one_hot_accepts"
   ],
   "note": "Proved, null rows and indices out of range included. Limits: C136."
  },
  {
   "property": "C90",
   "status": "proved",
   "theorems": [
    "C90_table_to_numpy"
   ],
   "note": "Proved for all such tables. Limits: C158."
  },
  {
   "property": "C91",
   "status": "proved",
   "theorems": [
    "C91_type_metadata_round_trip",
    "C91_equality"
   ],
   "note": "Proved. Limits: C137."
  },
  {
   "property": "C92",
   "status": "proved",
   "theorems": [
    "C92_single_thread_scoping",
    "C92_threads_restore_the_stack",
    "C92_one_thread_alone",
    "C92_set_root"
   ],
   "note": "Proved for every program and interleaving. Limits: C138."
  },
  {
   "property": "C93",
   "status": "proved",
   "theorems": [
    "C93_read_is_a_snapshot",
    "C93_write",
    "C93_only_written_files_change"
   ],
   "note": "Proved for all such histories. Limits: C159."
  },
  {
   "property": "C94",
   "status": "proved",
   "theorems": [
    "C94_tensor_table_tensor",
    "C94_table_tensor_table",
    "C94_table2tensor_sound",
    "C94_static_round_trip",
    "C94_accepted_names"
   ],
   "note": "Proved for all tables and tensors. Limits: C139."
  },
  {
   "property": "C95",
   "status": "proved",
   "theorems": [
    "C95_constant_column",
    "C95_constant_table"
   ],
   "note": "Proved for all dicts of lists. Limits: C160."
  },
  {
   "property": "C96",
   "status": "proved",
   "theorems": [
    "C96_queries_see_their_tables",
    "C96_fresh_names_succeed"
   ],
   "note": "Proved over all such histories. Limits: C161."
  },
  {
   "property": "C97",
   "status": "proved",
   "theorems": [
    "C97_default_formats",
    "C97_some_format_reads"
   ],
   "note": "Proved for all paths and options. Limits: C162."
  },
  {
   "property": "C98",
   "status": "proved",
   "theorems": [
    "C98_schema_sql",
    "C98_missing_column",
    "C98_kept_types"
   ],
   "note": "Proved for all schemas. Limits: C140."
  },
  {
   "property": "C99",
   "status": "proved",
   "theorems": [
    "C99_known_shapes",
    "C99_wrong_shape_refused",
    "C99_unknown_dimensions",
    "C99_symbolic_shapes"
   ],
   "note": "Proved relative to the laws of JAX export and refinement stated in JaxSpec. Limits: C163."
  },
  {
   "property": "C100",
   "status": "proved",
   "theorems": [
    "C100_caches_transparent",
    "C100_needs_its_directory"
   ],
   "note": "Proved for all histories of calls, failing reads and saves, crashes while saving, restarts and removed files."
  },
  {
   "property": "C101",
   "status": "proved",
   "theorems": [
    "C101_link_exact",
    "C101_connected_iff",
    "C101_same_order"
   ],
   "note": "Proved for all histories on one device. Limits: C164."
  },
  {
   "property": "C102",
   "status": "proved",
   "theorems": [
    "C102_round_trip_exact",
    "C102_same_options",
    "C102_options_used"
   ],
   "note": "Proved for all configurations. Limits: C141."
  },
  {
   "property": "C103",
   "status": "proved",
   "theorems": [
    "C103_truth",
    "C103_option_sources",
    "C103_flags",
    "C103_link_options",
    "C103_refuses"
   ],
   "note": "All configuration dictionaries of JSON values; SPULinkDesc objects inside the dict not modelled; strip/lower on ASCII."
  },
  {
   "property": "C104",
   "status": "proved",
   "theorems": [
    "C104_isolated_by_job_id",
    "C104_isolated_when_clean"
   ],
   "note": "Proved for all histories. Limits: C142."
  },
  {
   "property": "C105",
   "status": "proved",
   "theorems": [
    "C105_meet",
    "C105_run_accepts"
   ],
   "note": "Proved for all files, texts and options. Limits: C143."
  },
  {
   "property": "C106",
   "status": "proved",
   "theorems": [
    "C106_spu_addresses",
    "C106_distinct"
   ],
   "note": "Proved for all such files. Limits: C144."
  },
  {
   "property": "C107",
   "status": "partial",
   "theorems": [
    "C107_native_decode_inverts_solve_partial",
    "C107_native_decode_inverts_solve_refuted"
   ],
   "note": "Proved for key sets that peel; refuted without that condition, which the native kernel does not check. The Python kernels are C03."
  },
  {
   "property": "C108",
   "status": "partial",
   "theorems": [
    "C108_native_solve_reports_failure_refuted",
    "C108_native_opt_path_reports_failure_refuted"
   ],
   "note": "REFUTED: an unpeelable instance returns an all-zero store without an error, for every hash function; also at the operating point of solve_okvs_opt (pigeonhole over 64-bit keys)."
  },
  {
   "property": "C109",
   "status": "partial",
   "theorems": [
    "C109_native_kernel_correlation_partial",
    "C109_native_gilboa_correlation_refuted"
   ],
   "note": "Refuted, because the native product is not the field product (C02); the correlation relative to the product the native kernel computes is the partial theorem."
  },
  {
   "property": "C110",
   "status": "partial",
   "theorems": [
    "C110_native_silent_expansion_partial",
    "C110_native_silent_expansion_refuted"
   ],
   "note": "Refuted (the native product is not the field product); correlated relative to the native product (partial)."
  },
  {
   "property": "C111",
   "status": "partial",
   "theorems": [
    "C111_native_common_items_are_marked_partial",
    "C111_marked_iff_tags_equal_partial",
    "C111_native_unpeelable_items_lose_tags_refuted"
   ],
   "note": "With native kernels complete when the items peel (partial) and refuted otherwise: the encoder's silent failure shifts the tags of all common items. Absence of false positives is relative to collision freedom of the truncated hash (partial)."
  },
  {
   "property": "C112",
   "status": "partial",
   "theorems": [
    "C112_single_item_evaluation_refuted"
   ],
   "note": "Refuted: the single-item evaluation raises for every key and item."
  },
  {
   "property": "C113",
   "status": "partial",
   "theorems": [
    "C113_groupby_bfv_networked_partial",
    "C113_groupby_bfv_networked_refuted"
   ],
   "note": "Proved when every bin occurs in every chunk; refuted otherwise: the run raises whenever a bin is missing from a chunk (empty ciphertexts cannot be serialised)."
  },
  {
   "property": "C114",
   "status": "partial",
   "theorems": [
    "C114_truncation_valueerror_refuted"
   ],
   "note": "Refuted: a cut exactly between two segments raises IndexError (C21_truncation_rejected has the exact errors)."
  },
  {
   "property": "C115",
   "status": "partial",
   "theorems": [
    "C115_defined_before_use_partial",
    "C115_defined_before_use_refuted"
   ],
   "note": "Refuted for replace_input with a later value (accepted without a check); proved for all other histories."
  },
  {
   "property": "C116",
   "status": "partial",
   "theorems": [
    "C116_graph_roundtrip_with_gaps_refuted"
   ],
   "note": "Refuted: add_value leaves a gap in the numbering that reading does not reproduce."
  },
  {
   "property": "C117",
   "status": "partial",
   "theorems": [
    "C117_peers_agree_partial",
    "C117_async_contexts_disagree_refuted"
   ],
   "note": "Proved when both parties create their contexts in the same order; refuted for the asynchronous scheduler, whose context numbers follow the order in which operations become ready."
  },
  {
   "property": "C118",
   "status": "partial",
   "theorems": [
    "C118_map_partial",
    "C118_prefix_keys_refuted"
   ],
   "note": "Proved for keys of which none is a directory prefix of another; refuted otherwise: exists is true for a directory, and put below a file or on a directory fails."
  },
  {
   "property": "C119",
   "status": "partial",
   "theorems": [
    "C119_exact_partial",
    "C119_dynamic_argument_refuted"
   ],
   "note": "Proved for programs without dynamically typed values; refuted otherwise: one dynamic argument switches off the check for all the others."
  },
  {
   "property": "C120",
   "status": "partial",
   "theorems": [
    "C120_handbuilt_refuted"
   ],
   "note": "Refuted: ranks are not written, so nodes not listed in rank order are renumbered (exact condition: C42_round_trip_iff)."
  },
  {
   "property": "C121",
   "status": "partial",
   "theorems": [
    "C121_channel_partial",
    "C121_channel_refuted"
   ],
   "note": "Refuted: the cache key is world size and local rank only; proved when no two party lists of one length contain the rank at the same position."
  },
  {
   "property": "C122",
   "status": "partial",
   "theorems": [
    "C122_cancelled_refuted",
    "C122_timeout_error_refuted",
    "C122_monotone_refuted"
   ],
   "note": "Refuted on histories: test of a cancelled request returns (True, None); wait reports a TimeoutError of the operation as its own; the status goes from ERROR to CANCELLED when the operation raises CancelledError."
  },
  {
   "property": "C123",
   "status": "partial",
   "theorems": [
    "C123_id_reuse_refuted"
   ],
   "note": "Refuted: an id may be used again while the old job's thread is still storing its result."
  },
  {
   "property": "C124",
   "status": "partial",
   "theorems": [
    "C124_pack_unpack_partial",
    "C124_pack_unpack_identity_refuted",
    "C124_tampering_detected_refuted"
   ],
   "note": "Identity proved when dicts and table columns are in name order, refuted otherwise (columns are reordered); tampering is not detected when the digest or world size is dropped or metadata changed (refuted)."
  },
  {
   "property": "C125",
   "status": "partial",
   "theorems": [
    "C125_separates_partial",
    "C125_types_separate_partial",
    "C125_ss_schema_refuted",
    "C125_attributes_refuted",
    "C125_cached_key_refuted"
   ],
   "note": "Proved for graphs whose types print unambiguously and whose attributes are plain data, content hash assumed injective; refuted in general: SS schemas, opaque or mixed attributes, list versus tuple, and the key cached before outputs change."
  },
  {
   "property": "C126",
   "status": "partial",
   "theorems": [
    "C126_json_refuted",
    "C126_json_early_failure",
    "C126_empty_json_refuted"
   ],
   "note": "REFUTED: close() after the removal writes the rows read so far; a table without rows cannot be written. A failure before the first row leaves nothing."
  },
  {
   "property": "C127",
   "status": "partial",
   "theorems": [
    "C127_helper_gets_bins_refuted"
   ],
   "note": "Refuted: the helper is sent the bin of every sample."
  },
  {
   "property": "C128",
   "status": "partial",
   "theorems": [
    "C128_scatter_refuted"
   ],
   "note": "Refuted for scatter: the primitive is typed and has no implementation, so every program that uses it fails at run time."
  },
  {
   "property": "C129",
   "status": "partial",
   "theorems": [
    "C129_dynamic_shapes_refuted"
   ],
   "note": "Refuted: a longer second operand is silently truncated."
  },
  {
   "property": "C130",
   "status": "partial",
   "theorems": [
    "C130_target_type_refuted"
   ],
   "note": "Refuted: target_type is never compared with the value; every type is accepted for every value."
  },
  {
   "property": "C131",
   "status": "partial",
   "theorems": [
    "C131_object_tensors_refuted"
   ],
   "note": "Refuted: the buffer of such a tensor holds object addresses."
  },
  {
   "property": "C132",
   "status": "partial",
   "theorems": [
    "C132_reflection_refuted",
    "C132_suite_refuted",
    "C132_hkdf_algorithms_refuted"
   ],
   "note": "Refuted: reflected ciphertexts are accepted, kem_keygen ignores its suite, hkdf algorithms other than sha256 are accepted at trace time and fail at run time."
  },
  {
   "property": "C133",
   "status": "partial",
   "theorems": [
    "C133_additive_partial",
    "C133_negative_refuted",
    "C133_product_scaled_refuted",
    "C133_encoder_options_refuted",
    "C133_decoded_type_refuted",
    "C133_tensors_refuted"
   ],
   "note": "Sums with a scaled value in [0,2^53] decode to the real sum within 2^-f per input (exactly on the grid). Refuted: negative results raise at decode, products carry an extra factor 2^f, max_value and dtype are ignored, every function raises on non-empty tensors."
  },
  {
   "property": "C134",
   "status": "partial",
   "theorems": [
    "C134_one_execution_refuted",
    "C134_parameters_refuted"
   ],
   "note": "Refuted: different operations come from different executions; objects below parameters cannot be lifted."
  },
  {
   "property": "C135",
   "status": "partial",
   "theorems": [
    "C135_training_agrees_with_prediction_partial",
    "C135_training_agrees_with_prediction_refuted"
   ],
   "note": "Proved when no passive party wins with the threshold index that has no boundary; refuted with SecureBoost's defaults (training puts all samples left, prediction splits them)."
  },
  {
   "property": "C136",
   "status": "partial",
   "theorems": [
    "C136_sparse_accessors_agree_partial",
    "C136_sparse_accessors_agree_refuted",
    "C136_dense_rows_partial",
    "C136_dense_rows_refuted",
    "C136_registered_one_hot_refuted"
   ],
   "note": "Sparse: proved for rows without a repeated index (with one, item access gives the first value, conversions the last: refuted). Dense: null rows vanish from to_numpy (exact characterisation; refuted). The compute function registered under one_hot_* returns its input unchanged (refuted)."
  },
  {
   "property": "C137",
   "status": "partial",
   "theorems": [
    "C137_ipc_with_registration_partial",
    "C137_ipc_round_trip_refuted"
   ],
   "note": "Proved for the intended registration; the module's own registration (vector.py:594-615) passes arguments in the wrong order and swallows the exception, so every vector column comes back as its storage type (refuted)."
  },
  {
   "property": "C138",
   "status": "partial",
   "theorems": [
    "C138_threads_with_one_context_partial",
    "C138_threads_are_isolated_refuted"
   ],
   "note": "The stack is one module-level list, so threads in different contexts capture each other's operations (refuted); proved when all threads work in one context."
  },
  {
   "property": "C139",
   "status": "partial",
   "theorems": [
    "C139_accepted_tensor_converts_refuted",
    "C139_static_shape_refuted"
   ],
   "note": "Refuted: complex tensors are accepted when tracing but fail at run time, and the declared number of columns is not checked."
  },
  {
   "property": "C140",
   "status": "partial",
   "theorems": [
    "C140_declared_types_refuted"
   ],
   "note": "Refuted: f16 raises, date and time columns get another type, an empty name makes invalid SQL."
  },
  {
   "property": "C141",
   "status": "partial",
   "theorems": [
    "C141_empty_link_refuted",
    "C141_empty_text_refuted"
   ],
   "note": "Refuted for empty link descriptions (arrive as no description) and empty text options (lost)."
  },
  {
   "property": "C142",
   "status": "partial",
   "theorems": [
    "C142_stale_messages_refuted",
    "C142_concurrent_clients_refuted",
    "C142_simulator_stops_refuted"
   ],
   "note": "Refuted: the driver posts every request without a job id, so all use the message names of context anonymous: after a request that fails at one worker every later shuffle, reported successful, can deliver the value of the previous one; two clients at once can get each other's values; the in-memory simulator refuses every request after a failing one."
  },
  {
   "property": "C143",
   "status": "partial",
   "theorems": [
    "C143_override_refuted",
    "C143_http_host_refuted",
    "C143_objects_refuted"
   ],
   "note": "Refuted: run with a file ignores --endpoints while the workers obey it; a host such as httpd1:8100 gets no scheme in the workers; objects without options asks ports from 5000, up uses 8100."
  },
  {
   "property": "C144",
   "status": "partial",
   "theorems": [
    "C144_scheme_refuted",
    "C144_options_refuted",
    "C144_port_clash_refuted"
   ],
   "note": "Refuted: an endpoint with a scheme gives host http; --spu-endpoints has no effect and --endpoints leaves the SPU addresses of the file; the SPU port of one worker can be the HTTP port of another."
  },
  {
   "property": "C145",
   "status": "partial",
   "theorems": [
    "C145_native_kernel_agrees_refuted"
   ],
   "note": "REFUTED: the native kernel selects r1_lo*Q_hi (imm 0x10) instead of r1_hi*Q_lo, so bits >= 192 of the product are dropped."
  },
  {
   "property": "C146",
   "status": "partial",
   "theorems": [
    "C146_positions_distinct_refuted"
   ],
   "note": "Refuted for every weight of at least 3."
  },
  {
   "property": "C147",
   "status": "partial",
   "theorems": [
    "C147_swap_never_completes_refuted"
   ],
   "note": "Refuted: any routing containing a mutual exchange never completes, in any schedule (send and recv share one per-peer counter)."
  },
  {
   "property": "C148",
   "status": "partial",
   "theorems": [
    "C148_escape_refuted"
   ],
   "note": "REFUTED: the string prefix test accepts sibling directories whose name extends the root name, for every root."
  },
  {
   "property": "C149",
   "status": "partial",
   "theorems": [
    "C149_race_refuted",
    "C149_mixed_response_refuted",
    "C149_stale_result_refuted"
   ],
   "note": "Refuted: SUCCESS is stored before the result; responses mix the state of two moments; a reused id gets the old job's result."
  },
  {
   "property": "C150",
   "status": "partial",
   "theorems": [
    "C150_branch_constants_refuted",
    "C150_constant_condition_refuted"
   ],
   "note": "REFUTED: uniform_cond rebuilds its result with the then-branch's constants, and a constant loop condition makes the traced loop run zero times."
  },
  {
   "property": "C151",
   "status": "partial",
   "theorems": [
    "C151_failed_put_refuted"
   ],
   "note": "REFUTED: put opens the file for writing before pickling, so a failed pickle destroys the previous object."
  },
  {
   "property": "C152",
   "status": "partial",
   "theorems": [
    "C152_order_refuted"
   ],
   "note": "Refuted for members not listed in increasing order; such clusters are accepted."
  },
  {
   "property": "C153",
   "status": "partial",
   "theorems": [
    "C153_world_size_covers_refuted"
   ],
   "note": "Refuted for parties that only hold values (static shuffle)."
  },
  {
   "property": "C154",
   "status": "partial",
   "theorems": [
    "C154_byte_order_refuted",
    "C154_bfloat16_refuted",
    "C154_empty_refuted"
   ],
   "note": "Refuted: bytes of byte-swapped arrays are reversed, bfloat16 is delivered as float16, empty arrays are rejected."
  },
  {
   "property": "C155",
   "status": "partial",
   "theorems": [
    "C155_cancellation_refuted",
    "C155_infinity_bytes_refuted"
   ],
   "note": "Refuted: ec_add and ec_sub raise where two finite points cancel; the byte form of infinity comes back as no point."
  },
  {
   "property": "C156",
   "status": "partial",
   "theorems": [
    "C156_captures_lost_refuted",
    "C156_definition_has_no_inputs_refuted",
    "C156_other_context_refuted"
   ],
   "note": "Refuted: a capturing function can never be called with its own arguments, and a call from any other context raises."
  },
  {
   "property": "C157",
   "status": "partial",
   "theorems": [
    "C157_no_result_not_executed_refuted"
   ],
   "note": "Refuted: a statement without results is not executed at all when eager."
  },
  {
   "property": "C158",
   "status": "partial",
   "theorems": [
    "C158_table_to_numpy_refuted"
   ],
   "note": "Refuted: the conversion raises, or silently combines features of different rows."
  },
  {
   "property": "C159",
   "status": "partial",
   "theorems": [
    "C159_read_is_a_snapshot_refuted",
    "C159_only_written_files_change_refuted",
    "C159_no_overwrite_refuted",
    "C159_written_file_readable_refuted"
   ],
   "note": "Refuted: the local copy is .tmp/<name> in the shared working directory, lazily read and a symbolic link, so a second party's read replaces the first party's value, a write goes through the link into another party's store, an existing file is overwritten after it was read, and the file can end as a link to itself."
  },
  {
   "property": "C160",
   "status": "partial",
   "theorems": [
    "C160_constant_type_refuted",
    "C160_constant_boolean_refuted"
   ],
   "note": "Refuted for None in integer or boolean columns and for empty columns."
  },
  {
   "property": "C161",
   "status": "partial",
   "theorems": [
    "C161_case_variants_refuted",
    "C161_isolation_refuted",
    "C161_chaining_refuted",
    "C161_reading_is_harmless_refuted"
   ],
   "note": "Refuted: case variants change earlier lazy results, names of earlier queries stay readable, reusing an input name in a chain raises, reading a table changes whether a later query succeeds."
  },
  {
   "property": "C162",
   "status": "partial",
   "theorems": [
    "C162_default_formats_refuted",
    "C162_written_file_readable_refuted"
   ],
   "note": "Refuted: default write to .csv is Parquet and default read is CSV; json files without json extension cannot be read back."
  },
  {
   "property": "C163",
   "status": "partial",
   "theorems": [
    "C163_two_lengths_refuted",
    "C163_empty_column_refuted",
    "C163_conversion_refuted",
    "C163_complex_refuted",
    "C163_sixty_four_bits_refuted"
   ],
   "note": "Refuted: with JAX defaults (x64 off, the library never switches it on) 64-bit tensors are truncated silently; two unknown dimensions of different size, empty columns, complex columns and columns needing conversion are refused."
  },
  {
   "property": "C164",
   "status": "partial",
   "theorems": [
    "C164_concurrent_requests_refuted",
    "C164_failed_request_refuted",
    "C164_second_device_refuted",
    "C164_shared_names_refuted"
   ],
   "note": "Refuted: concurrent requests reaching two workers in different orders are wired crosswise; a request failing before the SPU at one worker disconnects all later ones; a second device over brpc cannot bind its port; Channels mode shares message names."
  },
  {
   "property": "C165",
   "status": "proved",
   "theorems": [
    "C165_rows",
    "C165_encoding_succeeds",
    "C165_structure_check",
    "C165_silver_vole_code",
    "C165_next_draw_can_finish"
   ],
   "note": "for every random source obeying randint, every linspace and every number of rounds within which the loop ends."
  },
  {
   "property": "C166",
   "status": "partial",
   "theorems": [
    "C166_dense_keeps_lowest_bits_partial",
    "C166_dense_encodes_refuted",
    "C166_dense_with_masks_partial"
   ],
   "note": "refuted: the dense encoder keeps only bit 0 of every limb; exact characterisation, and correctness with all-ones entries, proved."
  },
  {
   "property": "C167",
   "status": "proved",
   "theorems": [
    "C167_weight_bounded",
    "C167_single_errors_found",
    "C167_repeated_bits"
   ],
   "note": "greedy decoder over bit syndromes."
  },
  {
   "property": "C168",
   "status": "partial",
   "theorems": [
    "C168_single_error_explained_refuted",
    "C168_block_values_refuted"
   ],
   "note": "refuted, also for single errors and any noise weight; block values are never recovered."
  },
  {
   "property": "C169",
   "status": "proved",
   "theorems": [
    "C169_rows_are_streams"
   ],
   "note": "native library; AES is modelled concretely, not assumed."
  },
  {
   "property": "C170",
   "status": "partial",
   "theorems": [
    "C170_block_reveals_seed_refuted",
    "C170_known_block_reveals_all_refuted",
    "C170_is_aes_ctr_refuted",
    "C170_related_seeds_share_blocks_refuted"
   ],
   "note": "refuted: seed recovery from any one block, known-block attack on masked secrets, not AES-CTR, related seeds share blocks."
  },
  {
   "property": "C171",
   "status": "proved",
   "theorems": [
    "C171_mul",
    "C171_decode_okvs",
    "C171_ldpc_encode",
    "C171_ldpc_values",
    "C171_aes_expand",
    "C171_aes_values",
    "C171_aes_bytes"
   ],
   "note": "Native kernels as buffer readers with an explicit out-of-bounds outcome; kernel arithmetic as parameters."
  },
  {
   "property": "C172",
   "status": "partial",
   "theorems": [
    "C172_mul_reads_beyond_refuted",
    "C172_aes_reads_beyond_refuted",
    "C172_decode_reads_beyond_refuted",
    "C172_ldpc_reads_beyond_refuted",
    "C172_announced_shape_refuted"
   ],
   "note": "False of the code: no run-time or trace-time shape check protects the native kernels; the theorems give for each operation the accepted arguments that read out of bounds, and an aes_expand whose shape differs from the announced one."
  },
  {
   "property": "C173",
   "status": "proved",
   "theorems": [
    "C173_simulator_returns_results",
    "C173_simulator_reports_failure",
    "C173_simulator_sequence",
    "C173_http_answers",
    "C173_threads_are_reused"
   ],
   "note": "All schedules, any number of parties; request time-outs of the HTTP client are not modelled."
  },
  {
   "property": "C174",
   "status": "partial",
   "theorems": [
    "C174_two_evaluations_deadlock_refuted"
   ],
   "note": "False of the code: the pool has one thread per party, shared by all evaluations; deadlock proved for every world size >= 2."
  },
  {
   "property": "C175",
   "status": "partial",
   "theorems": [
    "C175_simulator_closed_refuted",
    "C175_http_hides_failure_refuted"
   ],
   "note": "False of the code: proved that the simulator is closed by the first failure and that the HTTP driver hides failures behind an earlier rank."
  },
  {
   "property": "C176",
   "status": "proved",
   "theorems": [
    "C176_attest_quote_gen",
    "C176_attest_bytes",
    "C176_only_public_keys"
   ],
   "note": "UTF-8 validity is a parameter."
  },
  {
   "property": "C177",
   "status": "partial",
   "theorems": [
    "C177_forged_quote_refuted",
    "C177_truncated_quote_refuted",
    "C177_curve_unchecked_refuted",
    "C177_trace_accepts_refuted"
   ],
   "note": "False of the code: proved for each missing check (the backend is a documented mock, but expected_curve and get_measurement are part of the dialect)."
  },
  {
   "property": "C178",
   "status": "proved",
   "theorems": [
    "C178_bits_shape",
    "C178_bits_uniform",
    "C178_tensor_uniform",
    "C178_tensor_shape",
    "C178_signed_tensor_uniform"
   ],
   "note": "Counting argument over all byte strings; integer types only; 64-bit types enabled in JAX."
  },
  {
   "property": "C179",
   "status": "partial",
   "theorems": [
    "C179_scalar_range_partial",
    "C179_scalar_almost_uniform_partial",
    "C179_scalar_not_uniform_refuted",
    "C179_scalar_zero_refuted"
   ],
   "note": "The bias is bounded (partial theorems) and its exact shape proved."
  },
  {
   "property": "C180",
   "status": "proved",
   "theorems": [
    "C180_types_hash_equally",
    "C180_types_compare"
   ],
   "note": "The part of C23 that holds."
  },
  {
   "property": "C181",
   "status": "proved",
   "theorems": [
    "C181_fetch_plain"
   ],
   "note": "The part of C45 that holds."
  },
  {
   "property": "C182",
   "status": "proved",
   "theorems": [
    "C182_native_batches",
    "C182_aligned_batches"
   ],
   "note": "The part of C50 that holds: no batch size, and batch sizes dividing all source batches but the last."
  },
  {
   "property": "C183",
   "status": "proved",
   "theorems": [
    "C183_never_misaligned",
    "C183_same_chunks_complete"
   ],
   "note": "The part of C51 that holds."
  },
  {
   "property": "C184",
   "status": "proved",
   "theorems": [
    "C184_sparse_aggregation"
   ],
   "note": "The part of C63 that holds."
  },
  {
   "property": "C185",
   "status": "proved",
   "theorems": [
    "C185_bucket_sums"
   ],
   "note": "The part of C64 that holds."
  },
  {
   "property": "C186",
   "status": "proved",
   "theorems": [
    "C186_session_context",
    "C186_handshakes"
   ],
   "note": "The part of C70 that holds; the hypothesis is that id(context) determines the context, which CPython guarantees only while the contexts live."
  },
  {
   "property": "C187",
   "status": "proved",
   "theorems": [
    "C187_active_party_splits_are_best"
   ],
   "note": "The part of C87 that holds (exact arithmetic)."
  },
  {
   "property": "C188",
   "status": "proved",
   "theorems": [
    "C188_disabled_is_silent"
   ],
   "note": "Formats are not modelled; handler lookup of Python logging from its documentation."
  },
  {
   "property": "C189",
   "status": "partial",
   "theorems": [
    "C189_every_record_once_refuted",
    "C189_repeated_calls_multiply_refuted",
    "C189_stream_false_refuted",
    "C189_failed_call_changes_refuted"
   ],
   "note": "Refuted: handlers pile up over calls without force, stream=False does not silence warnings, failed calls are not atomic. The part that holds: C190."
  },
  {
   "property": "C190",
   "status": "proved",
   "theorems": [
    "C190_fresh_setup_delivers_once",
    "C190_setup_raises",
    "C190_handlers_kept"
   ],
   "note": "The part of C189 that holds."
  },
  {
   "property": "C191",
   "status": "partial",
   "theorems": [
    "C191_hierarchy_refuted",
    "C191_hierarchy_exact_partial"
   ],
   "note": "Refuted: names beginning with mplang that are not below it are returned unchanged; exact set of such names proved."
  },
  {
   "property": "C192",
   "status": "proved",
   "theorems": [
    "C192_spu_program",
    "C192_exact"
   ],
   "note": "For every SPU library meeting spu_laws (SpuRunExample is an instance); members in increasing rank order (the reverse order is shown to fail in the example)."
  },
  {
   "property": "C193",
   "status": "partial",
   "theorems": [
    "C193_public_arguments_refuted"
   ],
   "note": "Refuted: np.array of the TensorValue is an object array and the runtime raises, for every tensor and function."
  },
  {
   "property": "C194",
   "status": "proved",
   "theorems": [
    "C194_key_arrives_iff",
    "C194_message_arrives",
    "C194_job_messages"
   ],
   "note": "Exact: a key survives iff it has no URL meaning."
  },
  {
   "property": "C195",
   "status": "partial",
   "theorems": [
    "C195_slash_refuted",
    "C195_hash_refuted",
    "C195_namesake_refuted"
   ],
   "note": "Refuted for every id containing a slash or a hash sign, and every job has a percent-escaped namesake whose messages reach it."
  },
  {
   "property": "C196",
   "status": "proved",
   "theorems": [
    "C196_boosting",
    "C196_more_estimators",
    "C196_prediction",
    "C196_newton_steps"
   ],
   "note": "Floats are exact rationals, encrypted histograms the plaintext ones (C79-C84 and C33 relate them); the Newton-step part is for the active party alone (with passive parties C135 has the condition)."
  },
  {
   "property": "C197",
   "status": "proved",
   "theorems": [
    "C197_merge_keeps_events",
    "C197_rank_of_names",
    "C197_processes",
    "C197_damage_is_local"
   ],
   "note": "All clauses proved for proper events (as the tracer writes them); floating-point pids are a parameter; the order of object keys is not part of the statement."
  },
  {
   "property": "C198",
   "status": "partial",
   "theorems": [
    "C198_every_party_claims_all_refuted",
    "C198_jobs_repeat_refuted",
    "C198_http_workers_collide_refuted",
    "C198_merged_again_refuted"
   ],
   "note": "Refuted: simulated parties share one tracer and each claims all events logged so far, later jobs repeat the events of earlier ones, HTTP traces carry no rank and collide modulo 10000, a second merge collapses the ranks."
  },
  {
   "property": "C199",
   "status": "proved",
   "theorems": [
    "C199_arguments",
    "C199_order_kept",
    "C199_constant",
    "C199_put",
    "C199_columns"
   ],
   "note": "jax tree_map written as flatten/unflatten of lists, tuples, string-keyed dicts and None; subclasses of dict and tuple (OrderedDict, namedtuple) are not modelled."
  },
  {
   "property": "C200",
   "status": "partial",
   "theorems": [
    "C200_always_sorted_partial",
    "C200_column_order_refuted",
    "C200_kwargs_order_refuted"
   ],
   "note": "The claim is false of the code: every Primitive.bind rebuilds dicts with jax.tree_util, whose dict leaves come in key order; the proved parts say what order results."
  },
  {
   "property": "C201",
   "status": "partial",
   "theorems": [
    "C201_objects_used_partial",
    "C201_fixed_inputs_partial",
    "C201_dropped_partial",
    "C201_concat_refuted"
   ],
   "note": "False of the code for list-rule operations: tracer.py:140 keeps TraceObjects only, so concat([x, array]) is x.  Partial theorems state exactly what holds and what is computed."
  },
  {
   "property": "C202",
   "status": "partial",
   "theorems": [
    "C202_dispatch_partial",
    "C202_backend_failures_partial",
    "C202_traceable_runs_refuted",
    "C202_checked_first_refuted"
   ],
   "note": "The tables of primitives and decorators are copied from the source (extracted with Python ast).  The claim is false of the code; the partial theorems are what holds for all registries and import failures."
  },
  {
   "property": "C203",
   "status": "partial",
   "theorems": [
    "C203_summary_partial",
    "C203_leaf_total_partial",
    "C203_leaf_double_counted_refuted"
   ],
   "note": "Profiling on throughout and one thread; durations are natural numbers; mean = total/count.  Leaf summary refuted."
  },
  {
   "property": "C204",
   "status": "proved",
   "theorems": [
    "C204_workers",
    "C204_disagreement",
    "C204_one_outcome",
    "C204_confined",
    "C204_loop_free_ends"
   ],
   "note": "whole programs over the message-passing model: every schedule is finite and ends with the meaning at every party (or NotUniform everywhere), unique outcome, confinement. Restrictions in the meaning relation: no mutual exchange in a routing (C147), parties agree on loop conditions (C205), loop bodies return as many values as the state (checked when tracing)."
  },
  {
   "property": "C205",
   "status": "partial",
   "theorems": [
    "C205_stale_message_refuted"
   ],
   "note": "Refuted: after a loop with different numbers of turns a later shuffle silently delivers a stale message. For loops on which the parties agree it holds (C204)."
  },
  {
   "property": "C206",
   "status": "proved",
   "theorems": [
    "C206_survivors_are_right",
    "C206_disagreement_stays"
   ],
   "note": "Faults are crashes at any point and lost messages; duplicated deliveries are not in the model (see C205 for stale messages)."
  },
  {
   "property": "C207",
   "status": "proved",
   "theorems": [
    "C207_static_types_describe",
    "C207_accepted_programs_run"
   ],
   "note": "Operations outside mplang (SQL, files, JAX) are arbitrary partial functions; write is excluded (C208)."
  },
  {
   "property": "C208",
   "status": "partial",
   "theorems": [
    "C208_query_type_refuted",
    "C208_row_count_refuted",
    "C208_write_type_refuted"
   ],
   "note": "Refuted: out_type of run_sql, row counts of declared schemas and the result of write are not checked. Limits of C207."
  },
  {
   "property": "C209",
   "status": "proved",
   "theorems": [
    "C209_device_programs",
    "C209_places_do_not_matter"
   ],
   "note": "One context and g_auto_trans on; pytrees are flat; cluster members of SPUs in rank order (C192 and C45 say what happens otherwise)."
  },
  {
   "property": "C210",
   "status": "partial",
   "theorems": [
    "C210_holders_partial",
    "C210_not_skipped_refuted",
    "C210_call_fails_refuted"
   ],
   "note": "Refuted for the parties that lack an argument: the handler evaluates the region unconditionally, so such a party outputs values when the argument is not used, and otherwise the call raises for everybody; proved for the parties that hold all arguments."
  },
  {
   "property": "C211",
   "status": "proved",
   "theorems": [
    "C211_secrets_stay_on_their_path",
    "C211_results_are_seen",
    "C211_arguments_are_seen"
   ],
   "note": "For every library, cipher and cluster; the messages inside an SPU runtime are not modelled."
  },
  {
   "property": "C212",
   "status": "proved",
   "theorems": [
    "C212_only_routed_values_arrive",
    "C212_groups"
   ],
   "note": "Conservative in the routings of branches not taken; a run that fails on a disagreeing predicate is the one thing other inputs can bring about."
  },
  {
   "property": "C213",
   "status": "proved",
   "theorems": [
    "C213_traced_programs_run",
    "C213_survivors_are_right",
    "C213_bystanders"
   ],
   "note": "PPUs and TEEs; SPU devices are covered by C209 (values) but not on the network. One context, g_auto_trans on."
  },
  {
   "property": "C214",
   "status": "partial",
   "theorems": [
    "C214_features_do_not_mix_partial",
    "C214_power_of_two",
    "C214_what_is_returned_partial",
    "C214_only_sums_leave",
    "C214_middle_refuted"
   ],
   "note": "Packing proved for every ring, node and feature list whose regions respect the slot rows and for every power-of-two bucket count; refuted for regions over the middle of the slots."
  },
  {
   "property": "C215",
   "status": "partial",
   "theorems": [
    "C215_by_options",
    "C215_generated_file",
    "C215_spu_port_forgotten_refuted",
    "C215_endpoints_option_refuted"
   ],
   "note": "Addresses of workers agree for every size and port, SPU addresses when the same SPU base port is given again; the parts about the SPU port in the file and about --endpoints are refuted."
  },
  {
   "property": "C216",
   "status": "partial",
   "theorems": [
    "C216_jobs_apart_partial",
    "C216_spu_apart_partial",
    "C216_plain_ids_apart",
    "C216_spawned_name_refuted",
    "C216_spu_name_refuted"
   ],
   "note": "Proved for all ids of which neither continues the other (or spu) with a dot or colon, in particular all different ids without these; refuted for ids that do."
  },
  {
   "property": "C217",
   "status": "partial",
   "theorems": [
    "C217_printed_graphs_read_uniquely",
    "C217_names_with_commas_refuted",
    "C217_typed_graphs_read_uniquely_partial",
    "C217_share_schemas_refuted"
   ],
   "note": "Proved with and without types, for names as the tracer makes them (no blanks, commas, brackets, equality signs, colons, line breaks) and types without shares. Refuted: a comma in a name; two share types that differ in their schema. Attributes are hidden (their texts are arbitrary reprs)."
  },
  {
   "property": "C218",
   "status": "partial",
   "theorems": [
    "C218_values_arrive_partial",
    "C218_keys_stay",
    "C218_relayed_unchanged",
    "C218_ciphertexts_unchanged_refuted"
   ],
   "note": "Proved for contexts, shares and quotes, and for the independence from keys; refuted for ciphertexts, whose context arrives with parameters only. TenSEAL and SEAL are taken to read back what they write; gzip is in C20."
  },
  {
   "property": "C219",
   "status": "partial",
   "theorems": [
    "C219_bytes",
    "C219_accepts",
    "C219_round_trip",
    "C219_type_refuted",
    "C219_total_refuted"
   ],
   "note": "Proved for integer and float types of whole bytes, given JAX view as described in the model; bool and complex left out. Refuted beside it: the type when the 64-bit mode is off, and that an equal number of bytes is enough."
  },
  {
   "property": "C220",
   "status": "partial",
   "theorems": [
    "C220_accuracy",
    "C220_all_right",
    "C220_length",
    "C220_column_refuted"
   ],
   "note": "Proved for vectors of labels, on rationals and an exact mean. Refuted beside it: a column of labels (shape (n, 1)) is accepted and answered with a figure that does not depend on which sample has which label."
  },
  {
   "property": "C221",
   "status": "proved",
   "theorems": [
    "C221_slice",
    "C221_axis_unique"
   ],
   "note": "Proved for every slice that runs at the backend. That the tracer accepts only positive strides on known axes is in C73."
  },
  {
   "property": "C222",
   "status": "proved",
   "theorems": [
    "C222_reshape",
    "C222_reshape_back",
    "C222_transpose",
    "C222_concat",
    "C222_cut_back",
    "C222_gather"
   ],
   "note": "Proved for all operations that run, on the elements as the backend arranges them (numpy, trusted as described in the model)."
  },
  {
   "property": "C223",
   "status": "partial",
   "theorems": [
    "C223_list",
    "C223_simple_accepted",
    "C223_simple_refuted",
    "C223_validated",
    "C223_morph_validated",
    "C223_validated_total_refuted",
    "C223_demorph"
   ],
   "note": "Proved for all pytrees and all objects. The docstring of is_treedef_list (all children are leaves) is refuted: lists of one-leaf containers pass. An accepted structure may still make var_demorph raise (refuted totality). Pytrees of custom node types are not modelled."
  }
 ]
}