PropApi.C01_other_sessions_untouched. Closed under the global context
PropApi.C01_noninterference. Closed under the global context
PropApi.C01_C02_C03_example. Closed under the global context
PropApi.C02_unknown_key. Closed under the global context
PropApi.C03_live_iff_last_new. Closed under the global context
PropApi.C03_remove_reports. Closed under the global context
PropApi.C03_new_is_fresh. Closed under the global context
PropBase.C04_sorted. Closed under the global context
PropBase.C04_new_party_id. Closed under the global context
PropBase.C04_order_irrelevant. Closed under the global context
PropBase.C04_api_order_irrelevant. Closed under the global context
PropBase.C04_example. Closed under the global context
PropBase.C04_extra_ids_refuted. Closed under the global context
PropBase.C04_exclude. Closed under the global context
PropBase.C04_find_by_key. Closed under the global context
PropKeygen.C05_every_call_succeeds. Closed under the global context
PropKeygen.C05_no_deadlock. Closed under the global context
PropKeygen.C05_output. Closed under the global context
PropKeygen.C05_agree. Closed under the global context
PropKeygen.C05_shares_of_key. Closed under the global context
PropKeygen.C05_example. Closed under the global context
PropEd25519.C05_on_ed25519. Closed under the global context
PropKeygenAdv.C06_openings_match. Closed under the global context
PropKeygenCalls.C06_C08_example. Closed under the global context
PropKeygenAdv.C07_commitment_binding. Closed under the global context
PropKeygenAdv.C08_challenge_binds. Closed under the global context
PropKeygenAdv.C08_round4_checks. Closed under the global context
PropKeygenCalls.C09_same_srid_partial. Closed under the global context
PropKeygenCalls.C09_same_commitments_same_openings. Closed under the global context
PropKeygenCalls.C09_retry_undoes_srid. Closed under the global context
PropKeygenCalls.C09_retry_not_idempotent_refuted. Closed under the global context
PropKeygenCalls.C10_keygen_bad_base64_no_change. Closed under the global context
PropKeygenCalls.C10_keygen_accept_frame. Closed under the global context
PropKeygenCalls.C10_keygen_rejected_message_refuted. Closed under the global context
PropSign.C10_sign_round1_rejected_no_change_partial. Closed under the global context
PropSign.C10_sign_bad_base64_no_change. Closed under the global context
PropSign.C10_sign_accept_frame. Closed under the global context
PropSignEx.C10_sign_round2_rejected_refuted. Closed under the global context
PropKeygenCalls.C11_keygen_accept_panics_iff. Closed under the global context
PropKeygenCalls.C11_keygen_accept_panic_refuted. Closed under the global context
PropSign.C11_sign_accept_never_panics_partial. Closed under the global context
PropKeygenCalls.C12_keygen_finish_iff. Closed under the global context
PropKeygenCalls.C12_keygen_finish_names_missing. Closed under the global context
PropKeygenCalls.C12_keygen_finish_without_accepted_refuted. Closed under the global context
PropSign.C12_sign_finish_iff. Closed under the global context
PropSign.C12_sign_round1_slots_accepted_partial. Closed under the global context
PropSignEx.C12_sign_finish_without_accepted_refuted. Closed under the global context
PropKeygenCalls.C13_keygen_round4_after_failed_round3_refuted. Closed under the global context
PropSignEx.C13_sign_round3_after_failed_round2_refuted. Closed under the global context
PropPartial.C13_off_curve_opening_partial. Closed under the global context
PropPartial.C13_C14_example. Closed under the global context
PropKeygenCalls.C14_root_key_never_random. Closed under the global context
PropKeygenCalls.C14_empty_root_key_refuted. Closed under the global context
PropPartial.C14_given_root_key_partial. Closed under the global context
PropKeygenCalls.C15_chain_codes. Closed under the global context
PropKeygenCalls.C16_keygen_round3_twice_reveals_key. Closed under the global context
PropSignEx.C16_sign_two_partial_signatures_reveal_share. Closed under the global context
PropSignEx.C16_sign_nonce_reused_refuted. Closed under the global context
PropPartial.C16_sign_repeated_round3_same_response_partial. Closed under the global context
PropPartial.C16_same_response_example. Closed under the global context
PropSign.C17_returned_signature_verifies. Closed under the global context
PropSign.C17_signature_json_reads_back. Closed under the global context
PropSignEx.C17_C20_example. Closed under the global context
PropEd25519.C17_on_ed25519. Closed under the global context
PropSignHonest.C18_new_succeeds. Closed under the global context
PropSignHonest.C18_every_call_succeeds. Closed under the global context
PropSignHonest.C18_same_signature. Closed under the global context
PropSignHonest.C18_no_deadlock. Closed under the global context
PropSignHonest.C18_example. Closed under the global context
PropEd25519.C18_on_ed25519. Closed under the global context
PropSign.C19_signed_bytes_are_given_partial. Closed under the global context
PropSign.C19_leading_zeros_confused_refuted. Closed under the global context
PropSignEx.C19_leading_zero_dropped_refuted. Closed under the global context
PropSign.C20_round2_needs_range_proofs. Closed under the global context
PropSign.C20_round3_needs_nonce_proofs. Closed under the global context
PropSign.C20_same_ciphertext. Closed under the global context
PropSubset.C21_each_signer_partial. Closed under the global context
PropSubset.C21_full_set. Closed under the global context
PropSubset.C21_unknown_id. Closed under the global context
PropSubset.C21_example. Closed under the global context
PropSubset.C21_strict_subset_refuted. Closed under the global context
PropCkd.C22_priv_pub_agree. Closed under the global context
PropCkd.C22_same_offset. Closed under the global context
PropCkd.C22_derived_sum. Closed under the global context
PropCkd.C22_C23_example. Closed under the global context
PropCkd.C23_accepted_paths_partial. Closed under the global context
PropCkd.C23_priv_no_panic. Closed under the global context
PropCkd.C23_children_distinct. Closed under the global context
PropCkd.C23_step_uses_hmac_data. Closed under the global context
PropCkd.C23_index_truncated_refuted. Closed under the global context
PropCkd.C23_empty_component_panics_refuted. Closed under the global context
PropCkd.C23_hardened_pub_panics_refuted. Closed under the global context
PropCkd.C23_pub_errors_are_panics. Closed under the global context
PropCkd.C23_m_prefix_rejected. Closed under the global context
PropBase.C24_frame_injective. Closed under the global context
PropBase.C24_layout. Closed under the global context
PropBase.C24_tagged_layout. Closed under the global context
PropBase.C24_bytes_digest. Closed under the global context
PropBase.C24_ints_digest. Closed under the global context
PropBase.C24_tagged_digest. Closed under the global context
PropBase.C24_sign_not_hashed_refuted. Closed under the global context
PropBase.C24_example. Closed under the global context
PropBase.C25_complete. Closed under the global context
PropBase.C25_response_unique. Closed under the global context
PropBase.C25_extract. Closed under the global context
PropBase.C25_extract_any_point. Closed under the global context
PropBase.C25_zk_complete. Closed under the global context
PropBase.C25_zkv_complete. Closed under the global context
PropBase.C25_refuses_off_curve. Closed under the global context
PropBase.C25_zk_accepted. Closed under the global context
PropBase.C25_zkv_accepted. Closed under the global context
PropBase.C25_zkv_extract. Closed under the global context
PropBase.C25_example. Closed under the global context
PropPaillier.C26_decrypt_encrypt. Closed under the global context
PropPaillier.C26_homo_add. Closed under the global context
PropPaillier.C26_homo_mult. Closed under the global context
PropPaillier.C26_range_errors. Closed under the global context
PropPaillier.C26_alice. Closed under the global context
PropPaillier.C26_example. Closed under the global context
PropRange.C27_complete. Closed under the global context
PropRange.C27_prover_total. Closed under the global context
PropRange.C27_accept_implies. Closed under the global context
PropRange.C27_two_answers. Closed under the global context
PropRange.C27_transcript_binding. Closed under the global context
PropRange.C27_C28_example. Closed under the global context
PropRange.C27_malformed_z1_panics_refuted. Closed under the global context
PropRange.C27_panics_only_on_unreadable_partial. Closed under the global context
PropRange.C28_complete. Closed under the global context
PropRange.C28_prover_total. Closed under the global context
PropRange.C28_accept_implies. Closed under the global context
PropRange.C28_two_answers. Closed under the global context
PropRange.C28_malformed_z1_panics_refuted. Closed under the global context
PropRange.C28_panics_only_on_unreadable. Closed under the global context
PropCommit.C29_secrets_exact. Closed under the global context
PropCommit.C29_round_trip. Closed under the global context
PropCommit.C29_round_trip_general. Closed under the global context
PropCommit.C29_round_trip_full_refuted. Closed under the global context
PropCommit.C29_secrets_injective. Closed under the global context
PropCommit.C29_parse_sound. Closed under the global context
PropCommit.C29_parse_total. Closed under the global context
PropCommit.C29_parse_panics_refuted. Closed under the global context
PropCommit.C29_parse_not_canonical_refuted. Closed under the global context
PropCommit.C29_example. Closed under the global context
PropCommit.C30_complete. Closed under the global context
PropCommit.C30_commit_total. Closed under the global context
PropCommit.C30_verify_exact. Closed under the global context
PropCommit.C30_decommit_iff_verify. Closed under the global context
PropCommit.C30_binding. Closed under the global context
PropCommit.C30_sign_not_bound_refuted. Closed under the global context
PropCommit.C30_panics_refuted. Closed under the global context
PropCommit.C30_example. Closed under the global context
PropDln.C31_verify_exact. Closed under the global context
PropDln.C31_complete. Closed under the global context
PropDln.C31_special_soundness. Closed under the global context
PropDln.C31_serialization. Closed under the global context
PropDln.C31_unmarshal_shape. Closed under the global context
PropDln.C31_unmarshal_not_canonical_refuted. Closed under the global context
PropDln.C31_nil_becomes_zero_refuted. Closed under the global context
PropDln.C31_nil_cases. Closed under the global context
PropDln.C31_example. Closed under the global context
PropDln.C31_always_verifies_refuted. Closed under the global context
PropMod.C32_round_trip. Closed under the global context
PropMod.C32_from_bytes_error. Closed under the global context
PropMod.C32_reserialize. Closed under the global context
PropMod.C32_challenges. Closed under the global context
PropMod.C32_verify. Closed under the global context
PropModHonest.C32_complete. Closed under the global context
PropModHonest.C32_even_modulus_refuted. Closed under the global context
PropModHonest.C32_nil. Closed under the global context
PropModHonest.C32_example. Closed under the global context
PointEnc.C33_flatten_round_trip. Closed under the global context
PointEnc.C33_unflatten_checked. Closed under the global context
PointEnc.C33_unflatten_refuses. Closed under the global context
PointEnc.C33_unflatten_unchecked_refuted. Closed under the global context
PointEnc.C33_gob_round_trip. Closed under the global context
PointEnc.C33_gob_on_curve. Closed under the global context
PointEnc.C33_gob_loses_curve_refuted. Closed under the global context
PointEnc.C33_json_round_trip. Closed under the global context
PointEnc.C33_json_on_curve. Closed under the global context
PointEnc.C33_gob_nil_refuted. Closed under the global context
PointEnc.C33_example. Closed under the global context
OnsignEnc.C34_scalar_roundtrip. Closed under the global context
OnsignEnc.C34_bytes_roundtrip. Closed under the global context
OnsignEnc.C34_long_integers_truncated_refuted. Closed under the global context
OnsignEnc.C34_point_encoding. Closed under the global context
OnsignEnc.C34_point_encoding_injective. Closed under the global context
OnsignEnc.C34_point_roundtrip. Closed under the global context
OnsignEnc.C34_example. Closed under the global context
PropBase.C35_roundtrip. Closed under the global context
PropBase.C35_type_preserved. Closed under the global context
PropBase.C35_injective. Closed under the global context
PropBase.C35_enc_proof_roundtrip. Closed under the global context
PropBase.C35_log_proof_roundtrip. Closed under the global context
PropBase.C35_sizes. Closed under the global context
PropBase.C35_example. Closed under the global context
PropPin.C35_utf8. Closed under the global context
PropPin.C35_bad_url_refused. Closed under the global context
PropPin.C35_unknown_fields. Closed under the global context
PropPin.C35_unknown_fields_example. Closed under the global context
PropBase.C36_base64_roundtrip. Closed under the global context
PropBase.C36_hex_roundtrip. Closed under the global context
PropBase.C36_keygen_accept_stores. Closed under the global context
PropBase.C36_sign_accept_stores. Closed under the global context
PropBase.C36_example. Closed under the global context
PropBase.C37_keygen_order_irrelevant. Closed under the global context
PropBase.C37_keygen_redelivery. Closed under the global context
PropBase.C37_sign_order_irrelevant. Closed under the global context
PropBase.C37_sign_redelivery. Closed under the global context
PropBase.C37_example. Closed under the global context
PropBase.C37_same_sender_last_wins. Closed under the global context
BaseParty.C38_every_schedule. Closed under the global context
BaseParty.C38_in_order. Closed under the global context
BaseParty.C38_error_does_not_advance. Closed under the global context
BaseParty.C38_no_round_only_stores. Closed under the global context
BaseParty.C38_start_twice. Closed under the global context
BaseParty.C38_update_returns. Closed under the global context
BaseParty.C38_example. Closed under the global context
BaseParty.C38_restart_after_finish_refuted. Closed under the global context
BaseParty.C38_failed_start_sets_round_refuted. Closed under the global context
BaseParty.C38_cycle_diverges_refuted. Closed under the global context
AliceUtils.C39_bytes_to_bits. Closed under the global context
AliceUtils.C39_bytes_to_bits_length. Closed under the global context
AliceUtils.C39_bits_round_trip. Closed under the global context
AliceUtils.C39_bits_round_trip_back. Closed under the global context
AliceUtils.C39_bits_to_bytes_error. Closed under the global context
AliceUtils.C39_non_bits_refuted. Closed under the global context
AliceUtils.C39_reverse. Closed under the global context
AliceUtils.C39_reverse_involutive. Closed under the global context
AliceUtils.C39_xor. Closed under the global context
AliceUtils.C39_xor_comm. Closed under the global context
AliceUtils.C39_xor_involutive. Closed under the global context
AliceUtils.C39_binary_mul. Closed under the global context
AliceUtils.C39_scalar_mul. Closed under the global context
AliceUtils.C39_field_order. Closed under the global context
AliceUtils.C39_rank. Closed under the global context
AliceUtils.C39_rank_overflow_refuted. Closed under the global context
AliceUtils.C39_threshold. Closed under the global context
AliceUtils.C39_in_range. Closed under the global context
AliceUtils.C39_gcd. Closed under the global context
AliceUtils.C39_lcm. Closed under the global context
AliceUtils.C39_euler_product. Closed under the global context
AliceUtils.C39_example. Closed under the global context
Totient.C39_euler_totient. Closed under the global context
Totient.C39_euler_repeated_refuted. Closed under the global context
Totient.C39_euler_example. Closed under the global context
PropPrimes.C40_fast_mod3. Closed under the global context
PropPrimes.C40_fast_mod3_negative_refuted. Closed under the global context
PropPrimes.C40_table_products_partial. Closed under the global context
PropPrimes.C40_table_second_product_refuted. Closed under the global context
PropPrimes.C40_table_primes. Closed under the global context
PropPrimes.C40_table_complete. Closed under the global context
PropPrimes.C40_table_gap_refuted. Closed under the global context
PropPrimes.C40_check_safe. Closed under the global context
PropPrimes.C40_sieve. Closed under the global context
PropPrimes.C40_pocklington. Closed under the global context
PropPrimes.C40_pocklington_exact. Closed under the global context
PropPrimes.C40_pocklington_composite_refuted. Closed under the global context
PropPrimes.C40_generate. Closed under the global context
PropPrimes.C40_generate_safe. Closed under the global context
PropPrimes.C40_generate_small_refuted. Closed under the global context
PropPrimes.C40_generate_ex. Closed under the global context
PropPrimes.C40_candidate. Closed under the global context
PropPrimes.C40_candidate_refuted. Closed under the global context
PropPrimes.C40_validate. Closed under the global context
PropPrimes.C40_validate_complete. Closed under the global context
PropPrimes.C40_validate_nil_refuted. Closed under the global context
PropRandom.C41_uniform. Closed under the global context
PropRandom.C41_int_range. Closed under the global context
PropRandom.C41_int_bad_bound. Closed under the global context
PropRandom.C41_int_onto. Closed under the global context
PropRandom.C41_must_int_range. Closed under the global context
PropRandom.C41_must_int_bad_bits. Closed under the global context
PropRandom.C41_must_int_onto. Closed under the global context
PropRandom.C41_must_int_one_bit_refuted. Closed under the global context
PropRandom.C41_positive_int. Closed under the global context
PropRandom.C41_positive_int_nil. Closed under the global context
PropRandom.C41_positive_int_onto. Closed under the global context
PropRandom.C41_positive_int_large_refuted. Closed under the global context
PropRandom.C41_positive_int_zero_refuted. Closed under the global context
PropRandom.C41_group_check. Closed under the global context
PropRandom.C41_coprime_int. Closed under the global context
PropRandom.C41_coprime_int_nil. Closed under the global context
PropRandom.C41_coprime_int_onto. Closed under the global context
PropRandom.C41_coprime_int_one_refuted. Closed under the global context
PropRandom.C41_prime_int. Closed under the global context
PropRandom.C41_prime_int_nil. Closed under the global context
PropRandom.C41_prime_int_one_bit_refuted. Closed under the global context
PropRandom.C41_qr. Closed under the global context
PropRandom.C41_qr_panic. Closed under the global context
PropRandom.C41_ntilde. Closed under the global context
PropRandom.C41_ntilde_error. Closed under the global context
PropRandom.C41_ntilde_square_refuted. Closed under the global context
PropRandom.C41_random_bytes. Closed under the global context
PropRandom.C41_random_bytes_full. Closed under the global context
PropRandom.C41_random_bytes_bad. Closed under the global context
PropRandom.C41_random_bytes_short_refuted. Closed under the global context
PropRandom.C41_u_random_bytes. Closed under the global context
PropRandom.C41_u_random_bytes_length. Closed under the global context
PropRandom.C41_u_int. Closed under the global context
PropRandom.C41_u_int_bad. Closed under the global context
PropRandom.C41_u_int_onto. Closed under the global context
PropRandom.C41_u_pos. Closed under the global context
PropRandom.C41_u_pos_bad. Closed under the global context
PropRandom.C41_u_pos_onto. Closed under the global context
PropRandom.C41_u_coprime. Closed under the global context
PropRandom.C41_u_coprime_bad. Closed under the global context
PropRandom.C41_u_coprime_onto. Closed under the global context
PropRandom.C41_u_abs. Closed under the global context
PropRandom.C41_u_abs_onto. Closed under the global context
PropRandom.C41_u_abs_bad. Closed under the global context
PropRandom.C41_u_abs_range_refuted. Closed under the global context
PropRandom.C41_u_reject. Closed under the global context
PropRandom.C41_seed_range. Closed under the global context
PropRandom.C41_seed_lower_bound_refuted. Closed under the global context
PropRandom.C41_example. Closed under the global context
Jacobi.C41_nonresidue. Closed under the global context
Jacobi.C41_nonresidue_bad. Closed under the global context
Jacobi.C41_nonresidue_even. Closed under the global context
Jacobi.C41_nonresidue_square_refuted. Closed under the global context
Jacobi.C41_nonresidue_example. Closed under the global context
PropRingPed.C42_verify. Closed under the global context
PropRingPed.C42_verify_total. Closed under the global context
PropRingPed.C42_short_response_refuted. Closed under the global context
PropRingPed.C42_complete. Closed under the global context
PropRingPed.C42_too_few. Closed under the global context
PropRingPed.C42_extract. Closed under the global context
PropRingPed.C42_tampered_response. Closed under the global context
PropRingPed.C42_trivial_modulus_refuted. Closed under the global context
PropRingPed.C42_pedersen_complete_partial. Closed under the global context
PropRingPed.C42_pedersen_nonunit_refuted. Closed under the global context
PropRingPed.C42_open. Closed under the global context
PropRingPed.C42_example. Closed under the global context
PropSignEx.C43_each_party_its_record_partial. Closed under the global context
PropSignEx.C43_records_disjoint. Closed under the global context
PropSignEx.C43_short_payload_refuted. Closed under the global context
PropSignEx.C43_example. Closed under the global context
IntMod.C44_add. Closed under the global context
IntMod.C44_sub. Closed under the global context
IntMod.C44_mul. Closed under the global context
IntMod.C44_div. Closed under the global context
IntMod.C44_exp_nonneg. Closed under the global context
IntMod.C44_exp_neg. Closed under the global context
IntMod.C44_inverse. Closed under the global context
IntMod.C44_total. Closed under the global context
IntMod.C44_zero_modulus. Closed under the global context
IntMod.C44_div_not_modular_refuted. Closed under the global context
IntMod.C44_example. Closed under the global context
PropBip32.C45_base58. Closed under the global context
PropBip32.C45_base58_canonical. Closed under the global context
PropBip32.C45_pubkey. Closed under the global context
PropBip32.C45_pubkey_inv. Closed under the global context
PropBip32.C45_unreduced_refuted. Closed under the global context
PropBip32.C45_roundtrip_partial. Closed under the global context
PropBip32.C45_accepted. Closed under the global context
PropBip32.C45_altered. Closed under the global context
PropBip32.C45_own_keys_refuted. Closed under the global context
PropBip32.C45_own_children_refuted. Closed under the global context
PropBip32.C45_parsed_cannot_derive_refuted. Closed under the global context
PropBip32.C45_other_curve_refuted. Closed under the global context
PropBip32.C45_example. Closed under the global context
IntMod.C46_ints_round_trip. Closed under the global context
IntMod.C46_bytes_round_trip. Closed under the global context
IntMod.C46_lossy_refuted. Closed under the global context
IntMod.C46_non_empty_multi. Closed under the global context
IntMod.C46_pad. Closed under the global context
IntMod.C46_pad_value. Closed under the global context
IntMod.C46_append. Closed under the global context
IntMod.C46_example. Closed under the global context
PropSafePrime.C47_search_pass. Closed under the global context
PropSafePrime.C47_search. Closed under the global context
PropSafePrime.C47_search_ex. Closed under the global context
PropSafePrime.C47_search_sieve_refuted. Closed under the global context
PropSafePrime.C47_returned. Closed under the global context
PropSafePrime.C47_no_send_after_close. Closed under the global context
PropSafePrime.C47_error_never_blocks. Closed under the global context
PropSafePrime.C47_returns_with_room_partial. Closed under the global context
PropSafePrime.C47_zero_concurrency. Closed under the global context
PropSafePrime.C47_returns_refuted. Closed under the global context
PropSafePrime.C47_returned_safe_primes. Closed under the global context
PropSafePrime.C47_returned_ex. Closed under the global context
PropFactor.C48_base. Closed under the global context
PropFactor.C48_verify. Closed under the global context
PropFactor.C48_attempt. Closed under the global context
PropFactor.C48_new. Closed under the global context
PropFactor.C48_new_exact. Closed under the global context
PropFactor.C48_extract. Closed under the global context
PropFactor.C48_trivial_base_refuted. Closed under the global context
PropFactor.C48_trivial_base_ex. Closed under the global context
PropFactor.C48_example. Closed under the global context
PropPaillierGen.C49_generate. Closed under the global context
PropPaillierGen.C49_generate_usable. Closed under the global context
PropPaillierGen.C49_odd_size_refuted. Closed under the global context
PropPaillierGen.C49_generate_ex. Closed under the global context
PropPaillierGen.C49_alice_first. Closed under the global context
PropPaillierGen.C49_to_pubkey. Closed under the global context
PropPaillierGen.C49_alice. Closed under the global context
PropPaillierGen.C49_nth_root. Closed under the global context
PropPaillierGen.C49_bad_g_refuted. Closed under the global context
PropPin.C49_size. Closed under the global context
PropGmr.C50_trial. Closed under the global context
PropGmr.C50_challenges. Closed under the global context
PropGmr.C50_verify. Closed under the global context
PropGmr.C50_schedule_partial. Closed under the global context
PropGmr.C50_complete. Closed under the global context
PropGmr.C50_square_factor. Closed under the global context
PropGmr.C50_totient_factor. Closed under the global context
PropGmr.C50_hang_refuted. Closed under the global context
PropGmr.C50_spin_refuted. Closed under the global context
PropGmr.C50_nil_race_refuted. Closed under the global context
PropGmr.C50_example. Closed under the global context
PropGmr.C50_nil_race_ex. Closed under the global context
PropBip32.C51_step. Closed under the global context
PropBip32.C51_priv_pub_agree. Closed under the global context
PropBip32.C51_hierarchy. Closed under the global context
PropBip32.C51_same_offset. Closed under the global context
PropBip32.C51_resume. Closed under the global context
PropBip32.C51_end_of_path. Closed under the global context
PropBip32.C51_public_only_refuted. Closed under the global context
PropBip32.C51_short_path_refuted. Closed under the global context
PropBip32.C51_hardened_padding_refuted. Closed under the global context
PropBip32.C51_example. Closed under the global context
PropSecpCurve.C51_step_secp256k1. Closed under the global context
PropSecpCurve.C51_secp256k1_example. Closed under the global context
Ed25519.C52_parameters. Closed under the global context
Ed25519.C52_curve_laws. Closed under the global context
Ed25519.C52_encoding_laws. Closed under the global context
PropEd25519.C52_group_order. Closed under the global context
PropEd25519.C52_add. Closed under the global context
PropEd25519.C52_scalar_mult. Closed under the global context
PropEd25519.C52_base_mult. Closed under the global context
PropEd25519.C52_compression. Closed under the global context
PropEd25519.C52_example. Closed under the global context
PropFiat.C53_enc_challenge_binds. Closed under the global context
PropFiat.C53_log_challenge_binds_partial. Closed under the global context
PropFiat.C53_log_point_sign_refuted. Closed under the global context
PropFiat.C53_example. Closed under the global context
PropEndToEnd.C54_codes_in_output. Closed under the global context
PropEndToEnd.C54_codes_reach_output. Closed under the global context
PropEndToEnd.C54_sign_sessions. Closed under the global context
PropEndToEnd.C54_keygen_then_sign. Closed under the global context
PropEndToEnd.C54_child_key. Closed under the global context
PropEndToEnd.C54_example. Closed under the global context
PropEndToEnd.C54_on_ed25519. Closed under the global context
PropSecpField.C55_normalize. Closed under the global context
PropSecpField.C55_mul. Closed under the global context
PropSecpField.C55_square. Closed under the global context
PropSecpField.C55_add. Closed under the global context
PropSecpField.C55_negate. Closed under the global context
PropSecpField.C55_mul_int. Closed under the global context
PropSecpField.C55_add_int. Closed under the global context
PropSecpField.C55_tests. Closed under the global context
PropSecpField.C55_bytes. Closed under the global context
PropSecpField.C55_byte_slice. Closed under the global context
PropSecpField.C55_inverse. Closed under the global context
PropSecpField.C55_sqrt. Closed under the global context
PropSecpField.C55_example. Closed under the global context
PropSecp.C56_primes. Closed under the global context
PropSecp.C56_group. Closed under the global context
PropSecp.C56_base_point. Closed under the global context
PropSecp.C56_cyclic. Closed under the global context
PropSecp.C56_order. Closed under the global context
PropSecp.C56_reduce. Closed under the global context
PropSecp.C56_endomorphism. Closed under the global context
PropSecp.C56_example. Closed under the global context
PropSecpCurve.C57_is_on_curve. Closed under the global context
PropSecpCurve.C57_is_on_curve_points. Closed under the global context
PropSecpCurve.C57_infinity_off_curve. Closed under the global context
PropSecpCurve.C57_unreduced_accepted. Closed under the global context
PropSecpCurve.C57_add. Closed under the global context
PropSecpCurve.C57_double. Closed under the global context
PropSecpCurve.C57_add_formula. Closed under the global context
PropSecpCurve.C57_scalar_mult. Closed under the global context
PropSecpCurve.C57_scalar_mult_unreduced. Closed under the global context
PropSecpCurve.C57_scalar_mult_infinity. Closed under the global context
PropSecpCurve.C57_scalar_base_mult. Closed under the global context
PropSecpCurve.C57_table. Closed under the global context
PropSecpCurve.C57_base_agrees. Closed under the global context
PropSecpCurve.C57_split. Closed under the global context
PropSecpCurve.C57_naf. Closed under the global context
PropSecpCurve.C57_homomorphism. Closed under the global context
PropSecpCurve.C57_order. Closed under the global context
PropSecpCurve.C57_example. Closed under the global context
JsonStr.C58_strings. Closed under the global context
PropSave.C58_round_trip. Closed under the global context
PropSave.C58_injective. Closed under the global context
PropSave.C58_trailing. Closed under the global context
PropSave.C58_truncated. Closed under the global context
PropSave.C58_points_on_curve. Closed under the global context
PropSave.C58_missing_members_accepted. Closed under the global context
PropSave.C58_example. Closed under the global context
PropSave.C58_names. Closed under the global context
PropSave.C58_names_example. Closed under the global context
PropSave.C58_strings_example. Closed under the global context
PropPin.C58_numbers. Closed under the global context
PropPin.C58_numbers_example. Closed under the global context
PropPubKey.C59_decompress. Closed under the global context
PropPubKey.C59_parse. Closed under the global context
PropPubKey.C59_accepted_on_curve. Closed under the global context
PropPubKey.C59_round_trip. Closed under the global context
PropPubKey.C59_is_compressed. Closed under the global context
PropPubKey.C59_prefix_five_refuted. Closed under the global context
PropPubKey.C59_unreduced_refuted. Closed under the global context
PropPubKey.C59_example. Closed under the global context
PropEcdsa.C60_verify. Closed under the global context
PropEcdsa.C60_verify_total. Closed under the global context
PropEcdsa.C60_malleable. Closed under the global context
PropEcdsa.C60_sign_verifies. Closed under the global context
PropEcdsa.C60_sign_fails. Closed under the global context
PropEcdsa.C60_nonce_range. Closed under the global context
PropEcdsa.C60_sign. Closed under the global context
PropEcdsa.C60_recover. Closed under the global context
PropEcdsa.C60_recover_total. Closed under the global context
PropEcdsa.C60_recovered_verifies. Closed under the global context
PropEcdsa.C60_compact. Closed under the global context
PropEcdsa.C60_recover_compact. Closed under the global context
PropEcdsa.C60_recover_infinity_refuted. Closed under the global context
PropEcdsa.C60_example. Closed under the global context
PropPin.C60_digest. Closed under the global context
PropPin.C60_nonce_seed. Closed under the global context
PropDer.C61_parse_total. Closed under the global context
PropDer.C61_parse_ber. Closed under the global context
PropDer.C61_parse_der. Closed under the global context
PropDer.C61_canonical_int. Closed under the global context
PropDer.C61_serialize. Closed under the global context
PropDer.C61_serialize_verifies. Closed under the global context
PropDer.C61_trailing_refuted. Closed under the global context
PropDer.C61_high_s_refuted. Closed under the global context
PropDer.C61_ber_lenient. Closed under the global context
PropDer.C61_example. Closed under the global context
PropCipher.C62_agreement. Closed under the global context
PropCipher.C62_secret_length. Closed under the global context
PropCipher.C62_padding. Closed under the global context
PropCipher.C62_padding_unchecked_refuted. Closed under the global context
PropCipher.C62_decrypt. Closed under the global context
PropCipher.C62_round_trip. Closed under the global context
PropCipher.C62_tamper. Closed under the global context
PropCipher.C62_example. Closed under the global context
PropPin.C62_layout. Closed under the global context
Registry.C63_lookup. Closed under the global context
Registry.C63_current. Closed under the global context
Registry.C63_name. Closed under the global context
Registry.C63_round_trip. Closed under the global context
Registry.C63_marshal_total. Closed under the global context
Registry.C63_read_on_curve. Closed under the global context
Registry.C63_shared_type_refuted. Closed under the global context
Registry.C63_empty_name_refuted. Closed under the global context
Registry.C63_nil_panics_refuted. Closed under the global context
Registry.C63_read_total. Closed under the global context
Registry.C63_builtin. Closed under the global context
Registry.C63_example. Closed under the global context
PropBip340.C64_verify. Closed under the global context
PropBip340.C64_sign_of_y. Closed under the global context
PropBip340.C64_sign_verifies. Closed under the global context
PropBip340.C64_sign_fails. Closed under the global context
PropBip340.C64_key_replaced_refuted. Closed under the global context
PropBip340.C64_repeat. Closed under the global context
PropBip340.C64_nonce_reuse_reveals. Closed under the global context
PropBip340.C64_encoding. Closed under the global context
PropBip340.C64_encoding_length. Closed under the global context
PropBip340.C64_xonly. Closed under the global context
PropBip340.C64_example. Closed under the global context
PropMusig.C65_coefficient. Closed under the global context
PropMusig.C65_aggregate. Closed under the global context
PropMusig.C65_taproot. Closed under the global context
PropMusig.C65_bip86. Closed under the global context
PropMusig.C65_root. Closed under the global context
PropMusig.C65_panic. Closed under the global context
PropMusig.C65_order. Closed under the global context
PropMusig.C65_partial_verify. Closed under the global context
PropMusig.C65_sign_verifies. Closed under the global context
PropMusig.C65_nonces. Closed under the global context
PropMusig.C65_combined_iff. Closed under the global context
PropMusig.C65_combined_valid. Closed under the global context
PropMusig.C65_odd_key_refuted. Closed under the global context
PropMusig.C65_infinity_refuted. Closed under the global context
PropMusig.C65_honest. Closed under the global context
PropMusig.C65_nonce_reuse_reveals. Closed under the global context
PropMusig.C65_encoding. Closed under the global context
PropMusig.C65_decode. Closed under the global context
PropMusig.C65_decode_short_refuted. Closed under the global context
PropMusig.C65_nonce_binds. Closed under the global context
PropMusig.C65_gen_nonces. Closed under the global context
PropMusig.C65_sort_exists. Closed under the global context
PropMusig.C65_instance. Closed under the global context
PropMusig.C65_example. Closed under the global context
PropMusigCtx.C66_sign_once. Closed under the global context
PropMusigCtx.C66_sign_early. Closed under the global context
PropMusigCtx.C66_public_after_sign_refuted. Closed under the global context
PropMusigCtx.C66_final. Closed under the global context
PropMusigCtx.C66_final_stable. Closed under the global context
PropMusigCtx.C66_combine_true. Closed under the global context
PropMusigCtx.C66_key_fixed. Closed under the global context
PropMusigCtx.C66_early. Closed under the global context
PropMusigCtx.C66_session_nonce. Closed under the global context
PropMusigCtx.C66_register. Closed under the global context
PropMusigCtx.C66_register_order. Closed under the global context
PropMusigCtx.C66_collect_first_refuted. Closed under the global context
PropMusigCtx.C66_all_without_sign_refuted. Closed under the global context
PropMusigCtx.C66_bad_share_refuted. Closed under the global context
PropMusigCtx.C66_single_signer_refuted. Closed under the global context
PropMusigCtx.C66_one_signer_panics_refuted. Closed under the global context
PropMusigCtx.C66_failed_registration_refuted. Closed under the global context
PropMusigCtx.C66_external_reuse_refuted. Closed under the global context
PropMusigCtx.C66_honest. Closed under the global context
PropMusigCtx.C66_example. Closed under the global context
Der2.C67_same_as_v1. Closed under the global context
Der2.C67_parse_total. Closed under the global context
Der2.C67_parse_ber. Closed under the global context
Der2.C67_parse_der. Closed under the global context
Der2.C67_example. Closed under the global context
PropSubgroup.C68_not_in_subgroup. Closed under the global context
PropSubgroup.C68_shape. Closed under the global context
PropSubgroup.C68_accept_iff. Closed under the global context
PropSubgroup.C68_own_share_partial. Closed under the global context
PropSubgroup.C68_nonce_cleared_partial. Closed under the global context
PropSubgroup.C68_share_refuted. Closed under the global context
PropSubgroup.C68_group_key. Closed under the global context
PropSubgroup.C68_signature_iff. Closed under the global context
PropSubgroup.C68_signing_refuted. Closed under the global context
PropSubgroup.C68_on_ed25519_refuted. Closed under the global context
PropSubgroup.C68_signing_on_ed25519_refuted. Closed under the global context
PropSubgroup.C68_group_key_refuted. Closed under the global context
PropSubgroup.C68_example. Closed under the global context
PropReplay.C69_answer_fixes_challenge. Closed under the global context
PropReplay.C69_keygen_replay. Closed under the global context
PropReplay.C69_signing_round2_refuted. Closed under the global context
PropReplay.C69_signing_round3_refuted. Closed under the global context
PropReplay.C69_replay_run_refuted. Closed under the global context
PropReplay.C69_keygen_example. Closed under the global context
PropConc.C70_disciplined_is_sequential. Closed under the global context
PropConc.C70_program_order. Closed under the global context
PropConc.C70_one_session_each. Closed under the global context
PropConc.C70_overlap_dies_refuted. Closed under the global context
PropConc.C70_two_news_refuted. Closed under the global context
PropConc.C70_example. Closed under the global context
PropBlame.C71_sent. Closed under the global context
PropBlame.C71_round3_names. Closed under the global context
PropBlame.C71_round3_honest_not_named. Closed under the global context
PropBlame.C71_round4_names. Closed under the global context
PropBlame.C71_round4_honest_not_named_partial. Closed under the global context
PropBlame.C71_round4_honest_named_refuted. Closed under the global context
PropBlame.C71_equivocation_refuted. Closed under the global context
PropBlame.C71_example. Closed under the global context
PropBlame.C71_final_names_nobody. Closed under the global context
PropBlame.C71_final_blame_refuted. Closed under the global context
