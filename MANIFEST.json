{
 "claims": [
  {
   "property": "C01",
   "status": "proved",
   "theorems": [
    "C01_other_sessions_untouched",
    "C01_noninterference",
    "C01_C02_C03_example"
   ],
   "note": "Frame theorem for every call plus noninterference over histories: the calls on one session get the replies, and leave the session, they would have got with all other calls removed. A history in which some call panics ends the process and is not covered. Concurrent (unsynchronised) calls from several threads are not modelled; Go maps are not safe for that."
  },
  {
   "property": "C02",
   "status": "proved",
   "theorems": [
    "C02_unknown_key",
    "C01_C02_C03_example"
   ],
   "note": "Every exported call except the two constructors, any arguments."
  },
  {
   "property": "C03",
   "status": "proved",
   "theorems": [
    "C03_live_iff_last_new",
    "C03_remove_reports",
    "C03_new_is_fresh",
    "C01_C02_C03_example"
   ],
   "note": "Every history of exported calls from the empty registries that does not panic."
  },
  {
   "property": "C04",
   "status": "proved",
   "theorems": [
    "C04_sorted",
    "C04_new_party_id",
    "C04_order_irrelevant",
    "C04_api_order_irrelevant",
    "C04_example",
    "C04_extra_ids_refuted",
    "C04_exclude",
    "C04_find_by_key"
   ],
   "note": "Go sort.Sort is modelled by insertion sort; for distinct keys any correct sort gives this list. C04_extra_ids_refuted: only the first partyCount ids of a longer list are read."
  },
  {
   "property": "C05",
   "status": "proved",
   "theorems": [
    "C05_every_call_succeeds",
    "C05_no_deadlock",
    "C05_output",
    "C05_agree",
    "C05_shares_of_key",
    "C05_example",
    "C05_on_ed25519"
   ],
   "note": "For every curve satisfying curve_laws, every hash, party count, secrets and delivery order."
  },
  {
   "property": "C06",
   "status": "proved",
   "theorems": [
    "C06_openings_match",
    "C06_C08_example"
   ],
   "note": "For every party state, every stored message of any peer and every hash: round 3 succeeds only if each opening hashes to the commitment stored from round 1; C06_example meets the hypotheses."
  },
  {
   "property": "C07",
   "status": "proved",
   "theorems": [
    "C07_commitment_binding"
   ],
   "note": "Up to an explicit collision of the hash, which the theorem exhibits."
  },
  {
   "property": "C08",
   "status": "proved",
   "theorems": [
    "C08_challenge_binds",
    "C08_round4_checks",
    "C06_C08_example"
   ],
   "note": "Every state and history; C08_challenge_binds: the hashed challenge input determines the prover index, the public share, the commitment and (up to a hash collision) the session id and srid."
  },
  {
   "property": "C09",
   "status": "partial",
   "theorems": [
    "C09_same_srid_partial",
    "C09_same_commitments_same_openings",
    "C09_retry_undoes_srid",
    "C09_retry_not_idempotent_refuted"
   ],
   "note": "Agreement on the srid is proved; idempotence of a retried KeygenRound3Exec is false of the code and is refuted by C09_retry_not_idempotent_refuted (C09_retry_undoes_srid says what happens instead)."
  },
  {
   "property": "C10",
   "status": "partial",
   "theorems": [
    "C10_keygen_bad_base64_no_change",
    "C10_keygen_accept_frame",
    "C10_keygen_rejected_message_refuted",
    "C10_sign_round1_rejected_no_change_partial",
    "C10_sign_bad_base64_no_change",
    "C10_sign_accept_frame",
    "C10_sign_round2_rejected_refuted"
   ],
   "note": "Round 1 of signing: proved for every state and message. Keygen rounds and signing rounds 2 and 3 store the message before validating it, so the full claim is refuted by the _refuted theorems."
  },
  {
   "property": "C11",
   "status": "partial",
   "theorems": [
    "C11_keygen_accept_panics_iff",
    "C11_keygen_accept_panic_refuted",
    "C11_sign_accept_never_panics_partial"
   ],
   "note": "Signing Accept proved never to panic for every state reached by a history of calls, party index and message; the keygen Accept functions panic on an out-of-range index (refuted theorem)."
  },
  {
   "property": "C12",
   "status": "partial",
   "theorems": [
    "C12_keygen_finish_iff",
    "C12_keygen_finish_names_missing",
    "C12_keygen_finish_without_accepted_refuted",
    "C12_sign_finish_iff",
    "C12_sign_round1_slots_accepted_partial",
    "C12_sign_finish_without_accepted_refuted"
   ],
   "note": "Finish iff slots filled is proved; that every filled slot holds an ACCEPTED message is proved for signing round 1 and refuted for the other rounds."
  },
  {
   "property": "C13",
   "status": "partial",
   "theorems": [
    "C13_keygen_round4_after_failed_round3_refuted",
    "C13_sign_round3_after_failed_round2_refuted",
    "C13_off_curve_opening_partial",
    "C13_C14_example"
   ],
   "note": "C13_off_curve_opening_partial: after a round 3 that rejected a point off the curve, round 4 never outputs a key. The full claim is false: a share rejected for a wrong commitment goes into the key when the caller ignores the error (C13_keygen_round4_after_failed_round3_refuted), and signing round 3 goes through after a failed round 2 (C13_sign_round3_after_failed_round2_refuted)."
  },
  {
   "property": "C14",
   "status": "partial",
   "theorems": [
    "C14_root_key_never_random",
    "C14_empty_root_key_refuted",
    "C14_given_root_key_partial",
    "C13_C14_example"
   ],
   "note": "C14_given_root_key_partial: a given root key is used, for all inputs. The random half is false of the code: C14_root_key_never_random and C14_empty_root_key_refuted (an empty key is the number 0)."
  },
  {
   "property": "C15",
   "status": "proved",
   "theorems": [
    "C15_chain_codes"
   ],
   "note": "Every string and every party state; see C54_codes_in_output for the effect on the returned data."
  },
  {
   "property": "C16",
   "status": "partial",
   "theorems": [
    "C16_keygen_round3_twice_reveals_key",
    "C16_sign_two_partial_signatures_reveal_share",
    "C16_sign_nonce_reused_refuted",
    "C16_sign_repeated_round3_same_response_partial",
    "C16_same_response_example"
   ],
   "note": "C16_sign_repeated_round3_same_response_partial: a repeated round 3 gives the same response unless rounds 1, 2 or a round-2 message come in between. The full claim is false (C16_sign_nonce_reused_refuted); the two reveal theorems prove in general that two different responses give the secret."
  },
  {
   "property": "C17",
   "status": "proved",
   "theorems": [
    "C17_returned_signature_verifies",
    "C17_signature_json_reads_back",
    "C17_C20_example",
    "C17_on_ed25519"
   ],
   "note": "For every session made by a successful New, every history of calls and every curve satisfying the laws; Ed25519 validity is stated separately (ed25519_valid)."
  },
  {
   "property": "C18",
   "status": "proved",
   "theorems": [
    "C18_new_succeeds",
    "C18_every_call_succeeds",
    "C18_same_signature",
    "C18_no_deadlock",
    "C18_example",
    "C18_on_ed25519"
   ],
   "note": "All N parties using the same ids, message, path and refresh payload, key shares of one key, honest randomness (proof draws whose retry loop ends). Any interleaving, duplication and delay of calls and deliveries; Get calls at any time after the Exec. Theorems: New succeeds, every enabled call returns Ok, no reachable state is stuck, one valid signature for everybody. Curve arithmetic, hashes and randomness abstract."
  },
  {
   "property": "C19",
   "status": "partial",
   "theorems": [
    "C19_signed_bytes_are_given_partial",
    "C19_leading_zeros_confused_refuted",
    "C19_leading_zero_dropped_refuted"
   ],
   "note": "The bytes signed are the given bytes when the message does not start with a zero byte: proved. Leading zero bytes are dropped: refuted by example."
  },
  {
   "property": "C20",
   "status": "proved",
   "theorems": [
    "C20_round2_needs_range_proofs",
    "C20_round3_needs_nonce_proofs",
    "C20_same_ciphertext",
    "C17_C20_example"
   ],
   "note": "Every successful round 2/3 call implies that the range proofs / nonce proofs of all peers verify."
  },
  {
   "property": "C21",
   "status": "partial",
   "theorems": [
    "C21_each_signer_partial",
    "C21_full_set",
    "C21_unknown_id",
    "C21_example",
    "C21_strict_subset_refuted"
   ],
   "note": "Each signer gets the data saved for its id, unknown ids are an error, the full list is the identity: proved. 'Nothing else' and 'the source is not modified' are false for strict subsets: C21_strict_subset_refuted (the shared backing array is overwritten and a stale tail stays)."
  },
  {
   "property": "C22",
   "status": "proved",
   "theorems": [
    "C22_priv_pub_agree",
    "C22_same_offset",
    "C22_derived_sum",
    "C22_C23_example"
   ],
   "note": "Edwards-curve derivation (DeriveEddsaChild*); the secp256k1 derivation is C51."
  },
  {
   "property": "C23",
   "status": "partial",
   "theorems": [
    "C23_accepted_paths_partial",
    "C23_priv_no_panic",
    "C23_children_distinct",
    "C23_step_uses_hmac_data",
    "C23_index_truncated_refuted",
    "C23_empty_component_panics_refuted",
    "C23_hardened_pub_panics_refuted",
    "C23_pub_errors_are_panics",
    "C23_m_prefix_rejected",
    "C22_C23_example"
   ],
   "note": "What accepted paths are, and distinctness up to an HMAC collision, are proved. 'Every malformed path is an error' is false: C23_empty_component_panics_refuted, C23_hardened_pub_panics_refuted, C23_index_truncated_refuted."
  },
  {
   "property": "C24",
   "status": "proved",
   "theorems": [
    "C24_frame_injective",
    "C24_layout",
    "C24_tagged_layout",
    "C24_bytes_digest",
    "C24_ints_digest",
    "C24_tagged_digest",
    "C24_sign_not_hashed_refuted",
    "C24_example"
   ],
   "note": "Lengths and counts below 2^63 (all a Go process can hold). C24_sign_not_hashed_refuted shows the restriction to non-negative integers is needed."
  },
  {
   "property": "C25",
   "status": "proved",
   "theorems": [
    "C25_complete",
    "C25_response_unique",
    "C25_extract",
    "C25_extract_any_point",
    "C25_zk_complete",
    "C25_zkv_complete",
    "C25_refuses_off_curve",
    "C25_zk_accepted",
    "C25_zkv_accepted",
    "C25_zkv_extract",
    "C25_example"
   ],
   "note": "For group elements of the prime-order subgroup; C25_extract_any_point for arbitrary curve points (up to the cofactor). Curve laws are a hypothesis, met by a concrete curve."
  },
  {
   "property": "C26",
   "status": "proved",
   "theorems": [
    "C26_decrypt_encrypt",
    "C26_homo_add",
    "C26_homo_mult",
    "C26_range_errors",
    "C26_alice",
    "C26_example"
   ],
   "note": "Both Paillier implementations (crypto/paillier and crypto/alice/paillier)."
  },
  {
   "property": "C27",
   "status": "partial",
   "theorems": [
    "C27_complete",
    "C27_prover_total",
    "C27_accept_implies",
    "C27_two_answers",
    "C27_transcript_binding",
    "C27_C28_example",
    "C27_malformed_z1_panics_refuted",
    "C27_panics_only_on_unreadable_partial"
   ],
   "note": "Completeness, what acceptance implies and special soundness are proved. 'Malformed encodings are rejected rather than crash' is false: C27_malformed_z1_panics_refuted; C27_panics_only_on_unreadable_partial says exactly when it can crash."
  },
  {
   "property": "C28",
   "status": "proved",
   "theorems": [
    "C28_complete",
    "C28_prover_total",
    "C28_accept_implies",
    "C28_two_answers",
    "C27_C28_example",
    "C28_malformed_z1_panics_refuted",
    "C28_panics_only_on_unreadable"
   ],
   "note": "Also C28_malformed_z1_panics_refuted: an unreadable z1 crashes the verifier."
  },
  {
   "property": "C29",
   "status": "proved",
   "theorems": [
    "C29_secrets_exact",
    "C29_round_trip",
    "C29_round_trip_general",
    "C29_round_trip_full_refuted",
    "C29_secrets_injective",
    "C29_parse_sound",
    "C29_parse_total",
    "C29_parse_panics_refuted",
    "C29_parse_not_canonical_refuted",
    "C29_example"
   ],
   "note": "Round trip, injectivity, soundness of parsing, exact success condition. _refuted: a final empty part is lost; a length element outside int64 panics or is read modulo 2^64."
  },
  {
   "property": "C30",
   "status": "proved",
   "theorems": [
    "C30_complete",
    "C30_commit_total",
    "C30_verify_exact",
    "C30_decommit_iff_verify",
    "C30_binding",
    "C30_sign_not_bound_refuted",
    "C30_panics_refuted",
    "C30_example"
   ],
   "note": "Completeness, exact acceptance condition, DeCommit iff Verify, binding up to a hash collision (non-negative elements). _refuted: sign not bound; panics on nil/empty."
  },
  {
   "property": "C31",
   "status": "proved",
   "theorems": [
    "C31_verify_exact",
    "C31_complete",
    "C31_special_soundness",
    "C31_serialization",
    "C31_unmarshal_shape",
    "C31_unmarshal_not_canonical_refuted",
    "C31_nil_becomes_zero_refuted",
    "C31_nil_cases",
    "C31_example",
    "C31_always_verifies_refuted"
   ],
   "note": "Exact acceptance condition, completeness (with the exact side condition), special soundness, serialization. _refuted: unconditional completeness (randomness 0), canonical encoding, nil entries."
  },
  {
   "property": "C32",
   "status": "proved",
   "theorems": [
    "C32_round_trip",
    "C32_from_bytes_error",
    "C32_reserialize",
    "C32_challenges",
    "C32_verify",
    "C32_complete",
    "C32_even_modulus_refuted",
    "C32_nil",
    "C32_example"
   ],
   "note": "Serialization round trip and exact error condition; acceptance characterised exactly (iff); completeness for Blum moduli with W from the code sampler: accepted iff all 80 challenges are units. Refuted corner: an even modulus panics the verifier. Soundness (extraction) is not claimed."
  },
  {
   "property": "C33",
   "status": "proved",
   "theorems": [
    "C33_flatten_round_trip",
    "C33_unflatten_checked",
    "C33_unflatten_refuses",
    "C33_unflatten_unchecked_refuted",
    "C33_gob_round_trip",
    "C33_gob_on_curve",
    "C33_gob_loses_curve_refuted",
    "C33_json_round_trip",
    "C33_json_on_curve",
    "C33_gob_nil_refuted",
    "C33_example"
   ],
   "note": "Flatten, Gob and JSON round trips and on-curve checks, two-curve registry. _refuted: unchecked mode, Gob loses the curve, nil coordinate becomes 0."
  },
  {
   "property": "C34",
   "status": "proved",
   "theorems": [
    "C34_scalar_roundtrip",
    "C34_bytes_roundtrip",
    "C34_long_integers_truncated_refuted",
    "C34_point_encoding",
    "C34_point_encoding_injective",
    "C34_point_roundtrip",
    "C34_example"
   ],
   "note": "Point part under ed_laws (the external Edwards library: decompression inverts compression on canonical points); a concrete 88-point instance is C34_example. C34_long_integers_truncated_refuted shows the 2^256 limit is needed."
  },
  {
   "property": "C35",
   "status": "proved",
   "theorems": [
    "C35_roundtrip",
    "C35_type_preserved",
    "C35_injective",
    "C35_enc_proof_roundtrip",
    "C35_log_proof_roundtrip",
    "C35_sizes",
    "C35_example",
    "C35_utf8",
    "C35_bad_url_refused",
    "C35_unknown_fields",
    "C35_unknown_fields_example"
   ],
   "note": "All seven message types and the two range-proof sub-messages; protobuf Any/proto3 decoding modelled for these types."
  },
  {
   "property": "C36",
   "status": "proved",
   "theorems": [
    "C36_base64_roundtrip",
    "C36_hex_roundtrip",
    "C36_keygen_accept_stores",
    "C36_sign_accept_stores",
    "C36_example"
   ],
   "note": "Standard padded base64 and hex."
  },
  {
   "property": "C37",
   "status": "proved",
   "theorems": [
    "C37_keygen_order_irrelevant",
    "C37_keygen_redelivery",
    "C37_sign_order_irrelevant",
    "C37_sign_redelivery",
    "C37_example",
    "C37_same_sender_last_wins"
   ],
   "note": "Keygen rounds 1-3 and signing rounds 1-3; deliveries with distinct (round, sender), exact repetitions allowed. Two different messages of one sender: the last one stays (C37_same_sender_last_wins)."
  },
  {
   "property": "C38",
   "status": "proved",
   "theorems": [
    "C38_every_schedule",
    "C38_in_order",
    "C38_error_does_not_advance",
    "C38_no_round_only_stores",
    "C38_start_twice",
    "C38_update_returns",
    "C38_example",
    "C38_restart_after_finish_refuted",
    "C38_failed_start_sets_round_refuted",
    "C38_cycle_diverges_refuted"
   ],
   "note": "All interleavings of locked sections, over an arbitrary protocol. _refuted: Start after finishing runs again; a failed Start leaves the round set; a cyclic round chain never returns."
  },
  {
   "property": "C39",
   "status": "proved",
   "theorems": [
    "C39_bytes_to_bits",
    "C39_bytes_to_bits_length",
    "C39_bits_round_trip",
    "C39_bits_round_trip_back",
    "C39_bits_to_bytes_error",
    "C39_non_bits_refuted",
    "C39_reverse",
    "C39_reverse_involutive",
    "C39_xor",
    "C39_xor_comm",
    "C39_xor_involutive",
    "C39_binary_mul",
    "C39_scalar_mul",
    "C39_field_order",
    "C39_rank",
    "C39_rank_overflow_refuted",
    "C39_threshold",
    "C39_in_range",
    "C39_gcd",
    "C39_lcm",
    "C39_euler_product",
    "C39_example",
    "C39_euler_totient",
    "C39_euler_repeated_refuted",
    "C39_euler_example"
   ],
   "note": "Bit order, inverse laws, error cases, xor as bytewise xor with zero padding, gcd/lcm by their universal properties, EulerFunction = Euler totient of the product for distinct primes (totient counted independently; proof via mathcomp). Refuted corners recorded: non-bit inputs to BitsToBytes, uint32 overflow in EnsureRank, repeated primes in EulerFunction."
  },
  {
   "property": "C40",
   "status": "partial",
   "theorems": [
    "C40_fast_mod3",
    "C40_fast_mod3_negative_refuted",
    "C40_table_products_partial",
    "C40_table_second_product_refuted",
    "C40_table_primes",
    "C40_table_complete",
    "C40_table_gap_refuted",
    "C40_check_safe",
    "C40_sieve",
    "C40_pocklington",
    "C40_pocklington_exact",
    "C40_pocklington_composite_refuted",
    "C40_generate",
    "C40_generate_safe",
    "C40_generate_small_refuted",
    "C40_generate_ex",
    "C40_candidate",
    "C40_candidate_refuted",
    "C40_validate",
    "C40_validate_complete",
    "C40_validate_nil_refuted"
   ],
   "note": "Proved for every input: FastMod3 on non-negative integers, the sieve accepts exactly the m such that no table prime divides m or 2m+1 (for every constant that is a multiple of its row), Pocklington test exact for prime q, GenerateRandomSafePrime output properties for every byte stream, isPrimeCandidate and Validate exactly. Refuted parts (real defects of the tables): the constant of the second row is 91 times the product of its row; 313 and 547 are missing from the tables; sizes 3..10 bits are accepted but never yield a result; FastMod3 is wrong on negative numbers; a composite q can pass the Fermat test; isPrimeCandidate accepts product+3; Validate panics on a nil p. ProbablyPrime is an arbitrary predicate (hypothesis: sound)."
  },
  {
   "property": "C41",
   "status": "proved",
   "theorems": [
    "C41_uniform",
    "C41_int_range",
    "C41_int_bad_bound",
    "C41_int_onto",
    "C41_must_int_range",
    "C41_must_int_bad_bits",
    "C41_must_int_onto",
    "C41_must_int_one_bit_refuted",
    "C41_positive_int",
    "C41_positive_int_nil",
    "C41_positive_int_onto",
    "C41_positive_int_large_refuted",
    "C41_positive_int_zero_refuted",
    "C41_group_check",
    "C41_coprime_int",
    "C41_coprime_int_nil",
    "C41_coprime_int_onto",
    "C41_coprime_int_one_refuted",
    "C41_prime_int",
    "C41_prime_int_nil",
    "C41_prime_int_one_bit_refuted",
    "C41_qr",
    "C41_qr_panic",
    "C41_ntilde",
    "C41_ntilde_error",
    "C41_ntilde_square_refuted",
    "C41_random_bytes",
    "C41_random_bytes_full",
    "C41_random_bytes_bad",
    "C41_random_bytes_short_refuted",
    "C41_u_random_bytes",
    "C41_u_random_bytes_length",
    "C41_u_int",
    "C41_u_int_bad",
    "C41_u_int_onto",
    "C41_u_pos",
    "C41_u_pos_bad",
    "C41_u_pos_onto",
    "C41_u_coprime",
    "C41_u_coprime_bad",
    "C41_u_coprime_onto",
    "C41_u_abs",
    "C41_u_abs_onto",
    "C41_u_abs_bad",
    "C41_u_abs_range_refuted",
    "C41_u_reject",
    "C41_seed_range",
    "C41_seed_lower_bound_refuted",
    "C41_example",
    "C41_nonresidue",
    "C41_nonresidue_bad",
    "C41_nonresidue_even",
    "C41_nonresidue_square_refuted",
    "C41_nonresidue_example"
   ],
   "note": "Every sampler over every source: ranges, error/panic conditions, every value of the range reachable, and exact unbiasedness of the underlying draw; the quadratic non-residue sampler against the definition of the Jacobi symbol. Refuted corners: MustGetRandomInt(1) is constant, GetRandomPositiveInt can return 0 and panics above 5000 bits, GetRandomPositiveRelativelyPrimeInt(1), GetRandomPrimeInt(1) and the non-residue search for a square modulus never return, RandomAbsoluteRangeInt has range [1-n,n+1] not [-n,n], the seeded variant reaches -2^b, GetRandomBytes ignores short reads, GenerateNTildei accepts equal primes."
  },
  {
   "property": "C42",
   "status": "partial",
   "theorems": [
    "C42_verify",
    "C42_verify_total",
    "C42_short_response_refuted",
    "C42_complete",
    "C42_too_few",
    "C42_extract",
    "C42_tampered_response",
    "C42_trivial_modulus_refuted",
    "C42_pedersen_complete_partial",
    "C42_pedersen_nonunit_refuted",
    "C42_open",
    "C42_example"
   ],
   "note": "Proved: exact acceptance condition, completeness for honest parameters, extraction, tamper detection. Refuted parts: a proof with fewer responses than commitments panics the verifier; modulus 1 is accepted; tau that is not a unit makes honest proofs/openings fail (not checked by the generator)."
  },
  {
   "property": "C43",
   "status": "partial",
   "theorems": [
    "C43_each_party_its_record_partial",
    "C43_records_disjoint",
    "C43_short_payload_refuted",
    "C43_example"
   ],
   "note": "Slicing proved for payloads long enough; short payloads are not rejected (refuted)."
  },
  {
   "property": "C44",
   "status": "proved",
   "theorems": [
    "C44_add",
    "C44_sub",
    "C44_mul",
    "C44_div",
    "C44_exp_nonneg",
    "C44_exp_neg",
    "C44_inverse",
    "C44_total",
    "C44_zero_modulus",
    "C44_div_not_modular_refuted",
    "C44_example"
   ],
   "note": "Add/Sub/Mul/Exp/ModInverse exact for every non-zero modulus. _refuted: Div is the integer quotient, not modular division."
  },
  {
   "property": "C45",
   "status": "partial",
   "theorems": [
    "C45_base58",
    "C45_base58_canonical",
    "C45_pubkey",
    "C45_pubkey_inv",
    "C45_unreduced_refuted",
    "C45_roundtrip_partial",
    "C45_accepted",
    "C45_altered",
    "C45_own_keys_refuted",
    "C45_own_children_refuted",
    "C45_parsed_cannot_derive_refuted",
    "C45_other_curve_refuted",
    "C45_example"
   ],
   "note": "Proved: base58 is a bijection between byte strings and alphabet texts, compressed keys survive, BIP-32-shaped keys round trip, accepted texts are canonical (one text per key). Refuted parts: keys made by NewExtendKey (one-byte version) and their descendants never parse; parsed keys have no root key and cannot derive; other curves give a nil key without error; x >= P is accepted."
  },
  {
   "property": "C46",
   "status": "proved",
   "theorems": [
    "C46_ints_round_trip",
    "C46_bytes_round_trip",
    "C46_lossy_refuted",
    "C46_non_empty_multi",
    "C46_pad",
    "C46_pad_value",
    "C46_append",
    "C46_example"
   ],
   "note": "All helpers exact; _refuted: nil, negative numbers and leading zeros are lost."
  },
  {
   "property": "C47",
   "status": "partial",
   "theorems": [
    "C47_search_pass",
    "C47_search",
    "C47_search_ex",
    "C47_search_sieve_refuted",
    "C47_returned",
    "C47_no_send_after_close",
    "C47_error_never_blocks",
    "C47_returns_with_room_partial",
    "C47_zero_concurrency",
    "C47_returns_refuted",
    "C47_returned_safe_primes",
    "C47_returned_ex"
   ],
   "note": "Search: every sent pair passed validation, has the requested size, top two bits set, for every stream. Collector as a transition system over all interleavings: exactly numPrimes pairs, all sent by a pass; every goroutine has ended before the channels are closed; error sends never block; with room in the buffer for the pairs still on their way the return is inevitable; concurrency 0 ends only by cancellation. The claim that the call always returns is refuted: for every concurrency >= 1 and numPrimes >= 1 there is a schedule without error or cancellation that deadlocks between waitGroup.Wait and a goroutine blocked on the full buffer. Also refuted: the residue sieve does not describe the q that is kept (increments accumulate)."
  },
  {
   "property": "C48",
   "status": "proved",
   "theorems": [
    "C48_base",
    "C48_verify",
    "C48_attempt",
    "C48_new",
    "C48_new_exact",
    "C48_extract",
    "C48_trivial_base_refuted",
    "C48_trivial_base_ex",
    "C48_example"
   ],
   "note": "Proved: exact acceptance condition, every attempt of the honest prover verifies, only moduli >= 2048 bits, extraction. Beyond the statement, also shown: when the hashed base is 1 any in-range response is accepted for any N (C48_trivial_base_refuted)."
  },
  {
   "property": "C49",
   "status": "proved",
   "theorems": [
    "C49_generate",
    "C49_generate_usable",
    "C49_odd_size_refuted",
    "C49_generate_ex",
    "C49_alice_first",
    "C49_to_pubkey",
    "C49_alice",
    "C49_nth_root",
    "C49_bad_g_refuted",
    "C49_size"
   ],
   "note": "Proved: shape and usability of generated keys (both packages), exact acceptance of received keys, N-th root. Beyond the statement, also shown: an odd requested size is silently rounded down; a received generator of order 2 is accepted so two messages share ciphertexts."
  },
  {
   "property": "C50",
   "status": "partial",
   "theorems": [
    "C50_trial",
    "C50_challenges",
    "C50_verify",
    "C50_schedule_partial",
    "C50_complete",
    "C50_square_factor",
    "C50_totient_factor",
    "C50_hang_refuted",
    "C50_spin_refuted",
    "C50_nil_race_refuted",
    "C50_example",
    "C50_nil_race_ex"
   ],
   "note": "Proved: completeness, exact acceptance, challenge structure, subgroup soundness, schedule independence for proofs without nil entries. Refuted parts: Verify never returns for N = 1 or -1 (challenge loop spins for N <= 1); a nil entry makes the outcome depend on the schedule (false or panic)."
  },
  {
   "property": "C51",
   "status": "proved",
   "theorems": [
    "C51_step",
    "C51_priv_pub_agree",
    "C51_hierarchy",
    "C51_same_offset",
    "C51_resume",
    "C51_end_of_path",
    "C51_public_only_refuted",
    "C51_short_path_refuted",
    "C51_hardened_padding_refuted",
    "C51_example",
    "C51_step_secp256k1",
    "C51_secp256k1_example"
   ],
   "note": "Proved for every curve with the cyclic structure of secp256k1 (cyclic_laws; instance toy_cyclic_laws) and, with s256_laws, for the modelled btcec secp256k1 itself (C51_step_secp256k1). Beyond the statement, also shown: private derivation from a public-only key succeeds with a wrong secret; a path shorter than the depth panics; hardened children of derived keys hash an unpadded secret (not BIP-32)."
  },
  {
   "property": "C52",
   "status": "proved",
   "theorems": [
    "C52_parameters",
    "C52_curve_laws",
    "C52_encoding_laws",
    "C52_group_order",
    "C52_add",
    "C52_scalar_mult",
    "C52_base_mult",
    "C52_compression",
    "C52_example"
   ],
   "note": "For the mathematical curve of Ed25519 (constants checked against the published definition, C52_parameters). The Go code of decred/edwards and agl/ed25519 is not in /repo: that these libraries compute this mathematical curve (including reduction of coordinates to 32 little-endian bytes, top bit dropped, modulo p) is an assumption. C05_on_ed25519, C17_on_ed25519 and C18_on_ed25519 restate the main theorems with no curve hypothesis left."
  },
  {
   "property": "C53",
   "status": "partial",
   "theorems": [
    "C53_enc_challenge_binds",
    "C53_log_challenge_binds_partial",
    "C53_log_point_sign_refuted",
    "C53_example"
   ],
   "note": "Proved in full for the encrypted-nonce proof (C53_enc_challenge_binds). For the nonce-point proof the code hashes only the y coordinates of the nonce point and of its mask and only the modulus of the Pedersen parameters: C53_log_challenge_binds_partial proves what is bound, C53_log_point_sign_refuted shows that the proofs for X and -X on Ed25519 are byte for byte the same. Found by mutation: dropping the context from the hashed parts left every quantified theorem provable."
  },
  {
   "property": "C54",
   "status": "proved",
   "theorems": [
    "C54_codes_in_output",
    "C54_codes_reach_output",
    "C54_sign_sessions",
    "C54_keygen_then_sign",
    "C54_child_key",
    "C54_example",
    "C54_on_ed25519"
   ],
   "note": "C54_codes_in_output/C54_codes_reach_output: the codes of the last SaveChainCodes call before round 4 are the ones in the returned data. C54_sign_sessions/C54_keygen_then_sign: the returned data starts signing sessions; no deadlock, no error, one common signature, valid under the derived group key. C54_child_key: that key is the generated public key plus an offset computed from public data. Hypotheses: distinct party keys, root scalars below 2^256 (the width of the payload encoding), child keys exist, refresh record with usable moduli, and random draws in their ranges. C54_on_ed25519 instantiates the real curve; C54_example runs both protocols on an 88-point group."
  },
  {
   "property": "C55",
   "status": "proved",
   "theorems": [
    "C55_normalize",
    "C55_mul",
    "C55_square",
    "C55_add",
    "C55_negate",
    "C55_mul_int",
    "C55_add_int",
    "C55_tests",
    "C55_bytes",
    "C55_byte_slice",
    "C55_inverse",
    "C55_sqrt",
    "C55_example"
   ],
   "note": "field.go is transcribed statement by statement with the reductions modulo 2^32 and 2^64 kept; the theorems show that for operands within the magnitudes the reductions never change a value. The prime is certified (SecpPrimes.v)."
  },
  {
   "property": "C56",
   "status": "proved",
   "theorems": [
    "C56_primes",
    "C56_group",
    "C56_base_point",
    "C56_cyclic",
    "C56_order",
    "C56_reduce",
    "C56_endomorphism",
    "C56_example"
   ],
   "note": "The number of points is proved exactly (not assumed)."
  },
  {
   "property": "C57",
   "status": "proved",
   "theorems": [
    "C57_is_on_curve",
    "C57_is_on_curve_points",
    "C57_infinity_off_curve",
    "C57_unreduced_accepted",
    "C57_add",
    "C57_double",
    "C57_add_formula",
    "C57_scalar_mult",
    "C57_scalar_mult_unreduced",
    "C57_scalar_mult_infinity",
    "C57_scalar_base_mult",
    "C57_table",
    "C57_base_agrees",
    "C57_split",
    "C57_naf",
    "C57_homomorphism",
    "C57_order",
    "C57_example"
   ],
   "note": "Word-level field arithmetic included. ScalarBaseMult is proved for every correct table and for the table the generator program computes; that the text shipped in secp256k1.go is that table is tested (tools/check_table.py), not proved. Also shown: IsOnCurve accepts coordinates that are not reduced or are negative."
  },
  {
   "property": "C58",
   "status": "proved",
   "theorems": [
    "C58_strings",
    "C58_round_trip",
    "C58_injective",
    "C58_trailing",
    "C58_truncated",
    "C58_points_on_curve",
    "C58_missing_members_accepted",
    "C58_example",
    "C58_names",
    "C58_names_example",
    "C58_strings_example",
    "C58_numbers",
    "C58_numbers_example"
   ],
   "note": "Saved key data: round trip, injectivity, trailing and truncated texts, points on curve, string literals (escapes, surrogates, malformed UTF-8) and field names (case folding) exactly as independent grammars say; missing members are accepted (shown)."
  },
  {
   "property": "C59",
   "status": "proved",
   "theorems": [
    "C59_decompress",
    "C59_parse",
    "C59_accepted_on_curve",
    "C59_round_trip",
    "C59_is_compressed",
    "C59_prefix_five_refuted",
    "C59_unreduced_refuted",
    "C59_example"
   ],
   "note": "Exact acceptance of ParsePubKey, decompression, round trip of the three forms; non-canonical inputs shown (prefix 5, unreduced x)."
  },
  {
   "property": "C60",
   "status": "proved",
   "theorems": [
    "C60_verify",
    "C60_verify_total",
    "C60_malleable",
    "C60_sign_verifies",
    "C60_sign_fails",
    "C60_nonce_range",
    "C60_sign",
    "C60_recover",
    "C60_recover_total",
    "C60_recovered_verifies",
    "C60_compact",
    "C60_recover_compact",
    "C60_recover_infinity_refuted",
    "C60_example",
    "C60_digest",
    "C60_nonce_seed"
   ],
   "note": "Verify characterised without inverses; Sign, recovery, compact signatures; HMAC is an arbitrary function, the nonce search has fuel; malleability and recovery of infinity shown. crypto/ecdsa.Verify is modelled as the generic algorithm of the standard library."
  },
  {
   "property": "C61",
   "status": "proved",
   "theorems": [
    "C61_parse_total",
    "C61_parse_ber",
    "C61_parse_der",
    "C61_canonical_int",
    "C61_serialize",
    "C61_serialize_verifies",
    "C61_trailing_refuted",
    "C61_high_s_refuted",
    "C61_ber_lenient",
    "C61_example"
   ],
   "note": "Both parsers total on all bytes, exact acceptance, Serialize round trip; trailing bytes and high s accepted (shown)."
  },
  {
   "property": "C62",
   "status": "proved",
   "theorems": [
    "C62_agreement",
    "C62_secret_length",
    "C62_padding",
    "C62_padding_unchecked_refuted",
    "C62_decrypt",
    "C62_round_trip",
    "C62_tamper",
    "C62_example",
    "C62_layout"
   ],
   "note": "AES block functions, SHA-512 and HMAC are arbitrary functions of the right output lengths; secrecy itself is a computational claim and not stated."
  },
  {
   "property": "C63",
   "status": "proved",
   "theorems": [
    "C63_lookup",
    "C63_current",
    "C63_name",
    "C63_round_trip",
    "C63_marshal_total",
    "C63_read_on_curve",
    "C63_shared_type_refuted",
    "C63_empty_name_refuted",
    "C63_nil_panics_refuted",
    "C63_read_total",
    "C63_builtin",
    "C63_example"
   ],
   "note": "Go map as association list, iteration order any permutation; JSON strings without escapes. Three _refuted theorems record what breaks."
  },
  {
   "property": "C64",
   "status": "proved",
   "theorems": [
    "C64_verify",
    "C64_sign_of_y",
    "C64_sign_verifies",
    "C64_sign_fails",
    "C64_key_replaced_refuted",
    "C64_repeat",
    "C64_nonce_reuse_reveals",
    "C64_encoding",
    "C64_encoding_length",
    "C64_xonly",
    "C64_example"
   ],
   "note": "Group of secp256k1 proved (C56); decred field/scalar code is not in /repo, so its operations are taken as the group operations. TaggedHash and RFC6979 arbitrary. C64_key_replaced_refuted: Sign negates the caller's key in place."
  },
  {
   "property": "C65",
   "status": "proved",
   "theorems": [
    "C65_coefficient",
    "C65_aggregate",
    "C65_taproot",
    "C65_bip86",
    "C65_root",
    "C65_panic",
    "C65_order",
    "C65_partial_verify",
    "C65_sign_verifies",
    "C65_nonces",
    "C65_combined_iff",
    "C65_combined_valid",
    "C65_odd_key_refuted",
    "C65_infinity_refuted",
    "C65_honest",
    "C65_nonce_reuse_reveals",
    "C65_encoding",
    "C65_decode",
    "C65_decode_short_refuted",
    "C65_nonce_binds",
    "C65_gen_nonces",
    "C65_sort_exists",
    "C65_instance",
    "C65_example"
   ],
   "note": "The exact conditions are part of the statement: C65_combined_iff gives the defect sum, C65_odd_key_refuted and C65_infinity_refuted show that the conditions are needed, C65_panic and C65_decode_short_refuted the two code defects. C65_example instantiates C65_honest."
  },
  {
   "property": "C66",
   "status": "proved",
   "theorems": [
    "C66_sign_once",
    "C66_sign_early",
    "C66_public_after_sign_refuted",
    "C66_final",
    "C66_final_stable",
    "C66_combine_true",
    "C66_key_fixed",
    "C66_early",
    "C66_session_nonce",
    "C66_register",
    "C66_register_order",
    "C66_collect_first_refuted",
    "C66_all_without_sign_refuted",
    "C66_bad_share_refuted",
    "C66_single_signer_refuted",
    "C66_one_signer_panics_refuted",
    "C66_failed_registration_refuted",
    "C66_external_reuse_refuted",
    "C66_honest",
    "C66_example"
   ],
   "note": "The misbehaviours named at the end of the statement are the seven _refuted theorems. C66_example instantiates C66_honest."
  },
  {
   "property": "C67",
   "status": "proved",
   "theorems": [
    "C67_same_as_v1",
    "C67_parse_total",
    "C67_parse_ber",
    "C67_parse_der",
    "C67_example"
   ],
   "note": "The v2 parsers equal the v1 parsers on every byte string; exact acceptance and totality follow from C61."
  },
  {
   "property": "C68",
   "status": "partial",
   "theorems": [
    "C68_not_in_subgroup",
    "C68_shape",
    "C68_accept_iff",
    "C68_own_share_partial",
    "C68_nonce_cleared_partial",
    "C68_share_refuted",
    "C68_group_key",
    "C68_signature_iff",
    "C68_signing_refuted",
    "C68_on_ed25519_refuted",
    "C68_signing_on_ed25519_refuted",
    "C68_group_key_refuted",
    "C68_example"
   ],
   "note": "False of the code, refuted on any curve with the laws, on Ed25519 with the point (0,-1), and by a complete key generation on the toy curve. Proved: exactly which responses are accepted for a share x G + T (C68_accept_iff), that such a share is never in the subgroup unless T is neutral, the shape of the group key (C68_group_key), and exactly which honest signatures verify under the shifted key (C68_signature_iff). Positive parts: own shares are in the subgroup, nonce points are cleared by EightInvEight."
  },
  {
   "property": "C69",
   "status": "partial",
   "theorems": [
    "C69_answer_fixes_challenge",
    "C69_keygen_replay",
    "C69_signing_round2_refuted",
    "C69_signing_round3_refuted",
    "C69_replay_run_refuted",
    "C69_keygen_example"
   ],
   "note": "Key generation: an answer accepted for two challenges means equal challenges unless the share has order dividing 8, so a proof of another run is refused unless the challenge hashes agree mod n (C69_answer_fixes_challenge, C69_keygen_replay). Signing: false of the code, the ssid is a constant (local_party.go 241-263): for all pairs of sessions created from the same arguments except the message, with equal last accepted peer messages, round 2 and round 3 of the second accept what the first accepted (C69_signing_round2_refuted, C69_signing_round3_refuted); complete toy run in C69_replay_run_refuted. The final signature is still checked against the new message before it is returned (C17)."
  },
  {
   "property": "C70",
   "status": "partial",
   "theorems": [
    "C70_disciplined_is_sequential",
    "C70_program_order",
    "C70_one_session_each",
    "C70_overlap_dies_refuted",
    "C70_two_news_refuted",
    "C70_example"
   ],
   "note": "False of the code for New and Remove: the registries are plain Go maps without a lock, and while one goroutine inserts or deletes, any other that starts a call on that registry (another key) ends the process (C70_overlap_dies_refuted, C70_two_news_refuted). Proved: with one session per goroutine and round calls only, every schedule gives every goroutine the replies and the session of its calls run alone, and the process dies only if one of them alone would (C70_one_session_each); with New and Remove exclusive and no two goroutines inside one session, every schedule of all calls is a sequential history in the order of return (C70_disciplined_is_sequential); replies come in program order under any schedule (C70_program_order). Not modelled: two goroutines inside the same session."
  },
  {
   "property": "C71",
   "status": "partial",
   "theorems": [
    "C71_sent",
    "C71_round3_names",
    "C71_round3_honest_not_named",
    "C71_round4_names",
    "C71_round4_honest_not_named_partial",
    "C71_round4_honest_named_refuted",
    "C71_equivocation_refuted",
    "C71_example",
    "C71_final_names_nobody",
    "C71_final_blame_refuted"
   ],
   "note": "Proved: what an honest party sends (C71_sent, read off the round functions); who is named in rounds 3 and 4, and what that party sent (C71_round3_names, C71_round4_names); round 3 never names an honest party (C71_round3_honest_not_named). Round 4 does not name an honest party whose joint seed is the verifier's (C71_round4_honest_not_named_partial; missing: it is false without that hypothesis). Refuted: an honest party with another seed is named (C71_round4_honest_named_refuted), and a party that opens different commitments to different parties brings this about: a complete three-party run (C71_equivocation_refuted). The final signing round names nobody (C71_final_names_nobody), and its reply is the same whichever signer shifted its share (C71_final_blame_refuted)."
  }
 ]
}