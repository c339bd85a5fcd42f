{
 "C05": {
  "status": "proved",
  "note": "For every curve satisfying curve_laws, every hash, party count, secrets and delivery order."
 },
 "C06": {
  "status": "proved",
  "note": "For every party state, every stored message of any peer and every hash: round 3 succeeds only if each opening hashes to the commitment stored from round 1; C06_example meets the hypotheses."
 },
 "C07": {
  "status": "proved",
  "note": "Up to an explicit collision of the hash, which the theorem exhibits."
 },
 "C08": {
  "status": "proved",
  "note": "Every state and history; C08_challenge_binds: the hashed challenge input determines the prover index, the public share, the commitment and (up to a hash collision) the session id and srid."
 },
 "C09": {
  "status": "partial",
  "note": "Agreement on the srid is proved; idempotence of a retried KeygenRound3Exec is false of the code and is refuted by C09_retry_not_idempotent_refuted (C09_retry_undoes_srid says what happens instead)."
 },
 "C14": {
  "status": "partial",
  "note": "C14_given_root_key_partial: a given root key is used, for all inputs. The random half is false of the code: C14_root_key_never_random and C14_empty_root_key_refuted (an empty key is the number 0)."
 },
 "C15": {
  "status": "proved",
  "note": "Every string and every party state; see C54_codes_in_output for the effect on the returned data."
 },
 "C26": {
  "status": "proved",
  "note": "Both Paillier implementations (crypto/paillier and crypto/alice/paillier)."
 },
 "C27": {
  "status": "partial",
  "note": "Completeness, what acceptance implies and special soundness are proved. 'Malformed encodings are rejected rather than crash' is false: C27_malformed_z1_panics_refuted; C27_panics_only_on_unreadable_partial says exactly when it can crash."
 },
 "C28": {
  "status": "proved",
  "note": "Also C28_malformed_z1_panics_refuted: an unreadable z1 crashes the verifier."
 },
 "C22": {
  "status": "proved",
  "note": "Edwards-curve derivation (DeriveEddsaChild*); the secp256k1 derivation is C51."
 },
 "C23": {
  "status": "partial",
  "note": "What accepted paths are, and distinctness up to an HMAC collision, are proved. 'Every malformed path is an error' is false: C23_empty_component_panics_refuted, C23_hardened_pub_panics_refuted, C23_index_truncated_refuted."
 },
 "C21": {
  "status": "partial",
  "note": "Each signer gets the data saved for its id, unknown ids are an error, the full list is the identity: proved. 'Nothing else' and 'the source is not modified' are false for strict subsets: C21_strict_subset_refuted (the shared backing array is overwritten and a stale tail stays)."
 },
 "C34": {
  "status": "proved",
  "note": "Point part under ed_laws (the external Edwards library: decompression inverts compression on canonical points); a concrete 88-point instance is C34_example. C34_long_integers_truncated_refuted shows the 2^256 limit is needed."
 },
 "C10": {
  "status": "partial",
  "note": "Round 1 of signing: proved for every state and message. Keygen rounds and signing rounds 2 and 3 store the message before validating it, so the full claim is refuted by the _refuted theorems."
 },
 "C11": {
  "status": "partial",
  "note": "Signing Accept proved never to panic for every state reached by a history of calls, party index and message; the keygen Accept functions panic on an out-of-range index (refuted theorem)."
 },
 "C12": {
  "status": "partial",
  "note": "Finish iff slots filled is proved; that every filled slot holds an ACCEPTED message is proved for signing round 1 and refuted for the other rounds."
 },
 "C13": {
  "status": "partial",
  "note": "C13_off_curve_opening_partial: after a round 3 that rejected a point off the curve, round 4 never outputs a key. The full claim is false: a share rejected for a wrong commitment goes into the key when the caller ignores the error (C13_keygen_round4_after_failed_round3_refuted), and signing round 3 goes through after a failed round 2 (C13_sign_round3_after_failed_round2_refuted)."
 },
 "C16": {
  "status": "partial",
  "note": "C16_sign_repeated_round3_same_response_partial: a repeated round 3 gives the same response unless rounds 1, 2 or a round-2 message come in between. The full claim is false (C16_sign_nonce_reused_refuted); the two reveal theorems prove in general that two different responses give the secret."
 },
 "C17": {
  "status": "proved",
  "note": "For every session made by a successful New, every history of calls and every curve satisfying the laws; Ed25519 validity is stated separately (ed25519_valid)."
 },
 "C19": {
  "status": "partial",
  "note": "The bytes signed are the given bytes when the message does not start with a zero byte: proved. Leading zero bytes are dropped: refuted by example."
 },
 "C20": {
  "status": "proved",
  "note": "Every successful round 2/3 call implies that the range proofs / nonce proofs of all peers verify."
 },
 "C43": {
  "status": "partial",
  "note": "Slicing proved for payloads long enough; short payloads are not rejected (refuted)."
 },
 "C18": {
  "status": "proved",
  "note": "All N parties using the same ids, message, path and refresh payload, key shares of one key, honest randomness (proof draws whose retry loop ends). Any interleaving, duplication and delay of calls and deliveries; Get calls at any time after the Exec. Theorems: New succeeds, every enabled call returns Ok, no reachable state is stuck, one valid signature for everybody. Curve arithmetic, hashes and randomness abstract."
 },
 "C01": {
  "status": "proved",
  "note": "Frame theorem for every call plus noninterference over histories: the calls on one session get the replies, and leave the session, they would have got with all other calls removed. A history in which some call panics ends the process and is not covered. Concurrent (unsynchronised) calls from several threads are not modelled; Go maps are not safe for that."
 },
 "C02": {
  "status": "proved",
  "note": "Every exported call except the two constructors, any arguments."
 },
 "C03": {
  "status": "proved",
  "note": "Every history of exported calls from the empty registries that does not panic."
 },
 "C04": {
  "status": "proved",
  "note": "Go sort.Sort is modelled by insertion sort; for distinct keys any correct sort gives this list. C04_extra_ids_refuted: only the first partyCount ids of a longer list are read."
 },
 "C24": {
  "status": "proved",
  "note": "Lengths and counts below 2^63 (all a Go process can hold). C24_sign_not_hashed_refuted shows the restriction to non-negative integers is needed."
 },
 "C25": {
  "status": "proved",
  "note": "For group elements of the prime-order subgroup; C25_extract_any_point for arbitrary curve points (up to the cofactor). Curve laws are a hypothesis, met by a concrete curve."
 },
 "C35": {
  "status": "proved",
  "note": "All seven message types and the two range-proof sub-messages; protobuf Any/proto3 decoding modelled for these types."
 },
 "C36": {
  "status": "proved",
  "note": "Standard padded base64 and hex."
 },
 "C37": {
  "status": "proved",
  "note": "Keygen rounds 1-3 and signing rounds 1-3; deliveries with distinct (round, sender), exact repetitions allowed. Two different messages of one sender: the last one stays (C37_same_sender_last_wins)."
 },
 "C29": {
  "status": "proved",
  "note": "Round trip, injectivity, soundness of parsing, exact success condition. _refuted: a final empty part is lost; a length element outside int64 panics or is read modulo 2^64."
 },
 "C30": {
  "status": "proved",
  "note": "Completeness, exact acceptance condition, DeCommit iff Verify, binding up to a hash collision (non-negative elements). _refuted: sign not bound; panics on nil/empty."
 },
 "C44": {
  "status": "proved",
  "note": "Add/Sub/Mul/Exp/ModInverse exact for every non-zero modulus. _refuted: Div is the integer quotient, not modular division."
 },
 "C46": {
  "status": "proved",
  "note": "All helpers exact; _refuted: nil, negative numbers and leading zeros are lost."
 },
 "C31": {
  "status": "proved",
  "note": "Exact acceptance condition, completeness (with the exact side condition), special soundness, serialization. _refuted: unconditional completeness (randomness 0), canonical encoding, nil entries."
 },
 "C33": {
  "status": "proved",
  "note": "Flatten, Gob and JSON round trips and on-curve checks, two-curve registry. _refuted: unchecked mode, Gob loses the curve, nil coordinate becomes 0."
 },
 "C38": {
  "status": "proved",
  "note": "All interleavings of locked sections, over an arbitrary protocol. _refuted: Start after finishing runs again; a failed Start leaves the round set; a cyclic round chain never returns."
 },
 "C39": {
  "status": "proved",
  "note": "Bit order, inverse laws, error cases, xor as bytewise xor with zero padding, gcd/lcm by their universal properties, EulerFunction = Euler totient of the product for distinct primes (totient counted independently; proof via mathcomp). Refuted corners recorded: non-bit inputs to BitsToBytes, uint32 overflow in EnsureRank, repeated primes in EulerFunction."
 },
 "C41": {
  "status": "proved",
  "note": "Every sampler over every source: ranges, error/panic conditions, every value of the range reachable, and exact unbiasedness of the underlying draw; the quadratic non-residue sampler against the definition of the Jacobi symbol. Refuted corners: MustGetRandomInt(1) is constant, GetRandomPositiveInt can return 0 and panics above 5000 bits, GetRandomPositiveRelativelyPrimeInt(1), GetRandomPrimeInt(1) and the non-residue search for a square modulus never return, RandomAbsoluteRangeInt has range [1-n,n+1] not [-n,n], the seeded variant reaches -2^b, GetRandomBytes ignores short reads, GenerateNTildei accepts equal primes."
 },
 "C32": {
  "status": "proved",
  "note": "Serialization round trip and exact error condition; acceptance characterised exactly (iff); completeness for Blum moduli with W from the code sampler: accepted iff all 80 challenges are units. Refuted corner: an even modulus panics the verifier. Soundness (extraction) is not claimed."
 },
 "C40": {
  "status": "partial",
  "note": "Proved for every input: FastMod3 on non-negative integers, the sieve accepts exactly the m such that no table prime divides m or 2m+1 (for every constant that is a multiple of its row), Pocklington test exact for prime q, GenerateRandomSafePrime output properties for every byte stream, isPrimeCandidate and Validate exactly. Refuted parts (real defects of the tables): the constant of the second row is 91 times the product of its row; 313 and 547 are missing from the tables; sizes 3..10 bits are accepted but never yield a result; FastMod3 is wrong on negative numbers; a composite q can pass the Fermat test; isPrimeCandidate accepts product+3; Validate panics on a nil p. ProbablyPrime is an arbitrary predicate (hypothesis: sound)."
 },
 "C47": {
  "status": "partial",
  "note": "Search: every sent pair passed validation, has the requested size, top two bits set, for every stream. Collector as a transition system over all interleavings: exactly numPrimes pairs, all sent by a pass; every goroutine has ended before the channels are closed; error sends never block; with room in the buffer for the pairs still on their way the return is inevitable; concurrency 0 ends only by cancellation. The claim that the call always returns is refuted: for every concurrency >= 1 and numPrimes >= 1 there is a schedule without error or cancellation that deadlocks between waitGroup.Wait and a goroutine blocked on the full buffer. Also refuted: the residue sieve does not describe the q that is kept (increments accumulate)."
 },
 "C42": {
  "status": "partial",
  "note": "Proved: exact acceptance condition, completeness for honest parameters, extraction, tamper detection. Refuted parts: a proof with fewer responses than commitments panics the verifier; modulus 1 is accepted; tau that is not a unit makes honest proofs/openings fail (not checked by the generator)."
 },
 "C48": {
  "status": "proved",
  "note": "Proved: exact acceptance condition, every attempt of the honest prover verifies, only moduli >= 2048 bits, extraction. Beyond the statement, also shown: when the hashed base is 1 any in-range response is accepted for any N (C48_trivial_base_refuted)."
 },
 "C49": {
  "status": "proved",
  "note": "Proved: shape and usability of generated keys (both packages), exact acceptance of received keys, N-th root. Beyond the statement, also shown: an odd requested size is silently rounded down; a received generator of order 2 is accepted so two messages share ciphertexts."
 },
 "C45": {
  "status": "partial",
  "note": "Proved: base58 is a bijection between byte strings and alphabet texts, compressed keys survive, BIP-32-shaped keys round trip, accepted texts are canonical (one text per key). Refuted parts: keys made by NewExtendKey (one-byte version) and their descendants never parse; parsed keys have no root key and cannot derive; other curves give a nil key without error; x >= P is accepted."
 },
 "C50": {
  "status": "partial",
  "note": "Proved: completeness, exact acceptance, challenge structure, subgroup soundness, schedule independence for proofs without nil entries. Refuted parts: Verify never returns for N = 1 or -1 (challenge loop spins for N <= 1); a nil entry makes the outcome depend on the schedule (false or panic)."
 },
 "C51": {
  "status": "proved",
  "note": "Proved for every curve with the cyclic structure of secp256k1 (cyclic_laws; instance toy_cyclic_laws) and, with s256_laws, for the modelled btcec secp256k1 itself (C51_step_secp256k1). Beyond the statement, also shown: private derivation from a public-only key succeeds with a wrong secret; a path shorter than the depth panics; hardened children of derived keys hash an unpadded secret (not BIP-32)."
 },
 "C52": {
  "status": "proved",
  "note": "For the mathematical curve of Ed25519 (constants checked against the published definition, C52_parameters). The Go code of decred/edwards and agl/ed25519 is not in /repo: that these libraries compute this mathematical curve (including reduction of coordinates to 32 little-endian bytes, top bit dropped, modulo p) is an assumption. C05_on_ed25519, C17_on_ed25519 and C18_on_ed25519 restate the main theorems with no curve hypothesis left."
 },
 "C53": {
  "status": "partial",
  "note": "Proved in full for the encrypted-nonce proof (C53_enc_challenge_binds). For the nonce-point proof the code hashes only the y coordinates of the nonce point and of its mask and only the modulus of the Pedersen parameters: C53_log_challenge_binds_partial proves what is bound, C53_log_point_sign_refuted shows that the proofs for X and -X on Ed25519 are byte for byte the same. Found by mutation: dropping the context from the hashed parts left every quantified theorem provable."
 },
 "C54": {
  "status": "proved",
  "note": "C54_codes_in_output/C54_codes_reach_output: the codes of the last SaveChainCodes call before round 4 are the ones in the returned data. C54_sign_sessions/C54_keygen_then_sign: the returned data starts signing sessions; no deadlock, no error, one common signature, valid under the derived group key. C54_child_key: that key is the generated public key plus an offset computed from public data. Hypotheses: distinct party keys, root scalars below 2^256 (the width of the payload encoding), child keys exist, refresh record with usable moduli, and random draws in their ranges. C54_on_ed25519 instantiates the real curve; C54_example runs both protocols on an 88-point group."
 },
 "C55": {
  "status": "proved",
  "note": "field.go is transcribed statement by statement with the reductions modulo 2^32 and 2^64 kept; the theorems show that for operands within the magnitudes the reductions never change a value. The prime is certified (SecpPrimes.v)."
 },
 "C56": {
  "status": "proved",
  "note": "The number of points is proved exactly (not assumed)."
 },
 "C57": {
  "status": "proved",
  "note": "Word-level field arithmetic included. ScalarBaseMult is proved for every correct table and for the table the generator program computes; that the text shipped in secp256k1.go is that table is tested (tools/check_table.py), not proved. Also shown: IsOnCurve accepts coordinates that are not reduced or are negative."
 },
 "C58": {
  "status": "proved",
  "note": "Saved key data: round trip, injectivity, trailing and truncated texts, points on curve, string literals (escapes, surrogates, malformed UTF-8) and field names (case folding) exactly as independent grammars say; missing members are accepted (shown)."
 },
 "C59": {
  "status": "proved",
  "note": "Exact acceptance of ParsePubKey, decompression, round trip of the three forms; non-canonical inputs shown (prefix 5, unreduced x)."
 },
 "C60": {
  "status": "proved",
  "note": "Verify characterised without inverses; Sign, recovery, compact signatures; HMAC is an arbitrary function, the nonce search has fuel; malleability and recovery of infinity shown. crypto/ecdsa.Verify is modelled as the generic algorithm of the standard library."
 },
 "C61": {
  "status": "proved",
  "note": "Both parsers total on all bytes, exact acceptance, Serialize round trip; trailing bytes and high s accepted (shown)."
 },
 "C62": {
  "status": "proved",
  "note": "AES block functions, SHA-512 and HMAC are arbitrary functions of the right output lengths; secrecy itself is a computational claim and not stated."
 },
 "C63": {
  "status": "proved",
  "note": "Go map as association list, iteration order any permutation; JSON strings without escapes. Three _refuted theorems record what breaks."
 },
 "C64": {
  "status": "proved",
  "note": "Group of secp256k1 proved (C56); decred field/scalar code is not in /repo, so its operations are taken as the group operations. TaggedHash and RFC6979 arbitrary. C64_key_replaced_refuted: Sign negates the caller's key in place."
 },
 "C65": {
  "status": "proved",
  "note": "The exact conditions are part of the statement: C65_combined_iff gives the defect sum, C65_odd_key_refuted and C65_infinity_refuted show that the conditions are needed, C65_panic and C65_decode_short_refuted the two code defects. C65_example instantiates C65_honest."
 },
 "C66": {
  "status": "proved",
  "note": "The misbehaviours named at the end of the statement are the seven _refuted theorems. C66_example instantiates C66_honest."
 },
 "C67": {
  "status": "proved",
  "note": "The v2 parsers equal the v1 parsers on every byte string; exact acceptance and totality follow from C61."
 },
 "C68": {
  "status": "partial",
  "note": "False of the code, refuted on any curve with the laws, on Ed25519 with the point (0,-1), and by a complete key generation on the toy curve. Proved: exactly which responses are accepted for a share x G + T (C68_accept_iff), that such a share is never in the subgroup unless T is neutral, the shape of the group key (C68_group_key), and exactly which honest signatures verify under the shifted key (C68_signature_iff). Positive parts: own shares are in the subgroup, nonce points are cleared by EightInvEight."
 },
 "C69": {
  "status": "partial",
  "note": "Key generation: an answer accepted for two challenges means equal challenges unless the share has order dividing 8, so a proof of another run is refused unless the challenge hashes agree mod n (C69_answer_fixes_challenge, C69_keygen_replay). Signing: false of the code, the ssid is a constant (local_party.go 241-263): for all pairs of sessions created from the same arguments except the message, with equal last accepted peer messages, round 2 and round 3 of the second accept what the first accepted (C69_signing_round2_refuted, C69_signing_round3_refuted); complete toy run in C69_replay_run_refuted. The final signature is still checked against the new message before it is returned (C17)."
 },
 "C70": {
  "status": "partial",
  "note": "False of the code for New and Remove: the registries are plain Go maps without a lock, and while one goroutine inserts or deletes, any other that starts a call on that registry (another key) ends the process (C70_overlap_dies_refuted, C70_two_news_refuted). Proved: with one session per goroutine and round calls only, every schedule gives every goroutine the replies and the session of its calls run alone, and the process dies only if one of them alone would (C70_one_session_each); with New and Remove exclusive and no two goroutines inside one session, every schedule of all calls is a sequential history in the order of return (C70_disciplined_is_sequential); replies come in program order under any schedule (C70_program_order). Not modelled: two goroutines inside the same session."
 },
 "C71": {
  "status": "partial",
  "note": "Proved: what an honest party sends (C71_sent, read off the round functions); who is named in rounds 3 and 4, and what that party sent (C71_round3_names, C71_round4_names); round 3 never names an honest party (C71_round3_honest_not_named). Round 4 does not name an honest party whose joint seed is the verifier's (C71_round4_honest_not_named_partial; missing: it is false without that hypothesis). Refuted: an honest party with another seed is named (C71_round4_honest_named_refuted), and a party that opens different commitments to different parties brings this about: a complete three-party run (C71_equivocation_refuted). The final signing round names nobody (C71_final_names_nobody), and its reply is the same whichever signer shifted its share (C71_final_blame_refuted)."
 }
}