{"id": "C01", "title": "Calls on one key never touch another session", "statement": "A keygen or signing call made with key k changes at most the session stored under k in its own (keygen or signing) registry; every other session, and the whole other registry, is exactly as before, and so is the result of any later call on it.", "quantifier": "every registry content, every API call with every argument, every key k' different from k", "why_tests_cant": "unit tests exercise a handful of keys; the claim is about all registries, all arguments and all later behaviour of the untouched sessions", "anchors": ["eddsa.go", "eddsacmp/keygen/local_party.go:Parties", "eddsacmp/onsign/local_party.go:SignParties"]}
{"id": "C02", "title": "Unknown key fails cleanly", "statement": "Any call naming a key with no live session returns Ok=false with a non-empty error (Remove returns false), and changes nothing.", "quantifier": "every registry, every API call other than the two constructors, every key without a session, every argument (including out-of-range indices and malformed messages)", "why_tests_cant": "the argument space (party index, wire bytes, histories before the call) is unbounded", "anchors": ["eddsa.go", "eddsacmp/keygen/round_1.go", "eddsacmp/onsign/round_1.go", "eddsacmp/onsign/round_2.go:OnSignRound2Finish"]}
{"id": "C03", "title": "A session is live exactly between creation and removal", "statement": "After any history of calls a key has a keygen (signing) session if and only if the last successful New or Remove for that key in that registry was a New; Remove reports whether a session was there.", "quantifier": "every finite history of API calls on every set of keys", "why_tests_cant": "quantifies over all call histories", "anchors": ["eddsa.go:NewKeygenLocalParty", "eddsa.go:RemoveKeygenParty", "eddsa.go:NewSignLocalParty", "eddsa.go:RemoveSignParty"]}
{"id": "C04", "title": "Party numbering does not depend on the order ids are listed", "statement": "The sorted party list is an ascending permutation of the given ids with Index equal to position (plus the start offset), and for distinct ids it is the same whatever order they were listed in, so all participants agree on who is party number i.", "quantifier": "every list of party ids, every permutation of it, every start offset", "why_tests_cant": "needs all permutations of all lists, including ids of any size", "anchors": ["tss/party_id.go:SortPartyIDs", "tss/party_id.go:Keys", "eddsacmp/keygen/local_party.go:NewLocalParty"]}
{"id": "C05", "title": "Honest key generation always succeeds and agrees", "statement": "If n parties with the same ids run the keygen calls honestly and every broadcast is delivered, then every call returns Ok, all parties end with the same list of public shares X_j = x_j*G, the same group key (sum of x_j)*G and the same sorted id list.", "quantifier": "every number of parties n>=1, every root private key, every random choice, every delivery order within a round", "why_tests_cant": "unbounded number of parties, secrets, randomness and delivery schedules", "anchors": ["eddsacmp/keygen/round_1.go:KeygenRound1Exec", "eddsacmp/keygen/round_2.go:KeygenRound2Exec", "eddsacmp/keygen/round_3.go:KeygenRound3Exec", "eddsacmp/keygen/round_4.go:KeygenRound4Exec"]}
{"id": "C06", "title": "Round 3 accepts a peer only if its opening matches the commitment fixed in round 2", "statement": "KeygenRound3Exec returns Ok only if, for every peer j, the stored round-2 message parses, its points are on the curve, its session id is ours and the hash of (session id, j, srid, X_j, A_j, u) equals the commitment that was stored for j when KeygenRound2Exec last ran.", "quantifier": "every party state, every content of the message slots", "why_tests_cant": "must hold for every malformed or adversarial message", "anchors": ["eddsacmp/keygen/round_3.go:KeygenRound3Exec", "eddsacmp/keygen/round_2.go:KeygenRound2Exec"]}
{"id": "C07", "title": "A party cannot change its public share after committing", "statement": "Two different (srid, X_j, A_j, u) openings can both pass the round-3 check against the same stored commitment only if they are an explicit collision of the underlying hash.", "quantifier": "every pair of openings, every hash function", "why_tests_cant": "a collision-resistance reduction is a statement about all byte strings", "anchors": ["eddsacmp/keygen/round_3.go:KeygenRound3Exec", "common/hash.go:SHA512_256"]}
{"id": "C08", "title": "Round 4 output is backed by valid proofs and is the sum of the shares", "statement": "KeygenRound4Exec returns Ok only if every peer's Schnorr response verifies against its stored public share and commitment under the transcript challenge, and then the saved group key is the sum of all stored public shares.", "quantifier": "every party state and every content of the message slots", "why_tests_cant": "all adversarial messages", "anchors": ["eddsacmp/keygen/round_4.go:KeygenRound4Exec", "crypto/schnorr/schnorr_proof.go"]}
{"id": "C09", "title": "All honest parties use the same challenge seed", "statement": "After round 3 every honest party holds the same srid, the xor of all contributions, independently of its own position; running KeygenRound3Exec a second time (a retry) should leave it unchanged.", "quantifier": "every number of parties, contributions, and any number of repeated calls", "why_tests_cant": "needs induction over parties and over retries", "anchors": ["eddsacmp/keygen/round_3.go:KeygenRound3Exec", "crypto/alice/utils/utils.go:Xor"]}
{"id": "C10", "title": "A rejected message leaves the session unchanged", "statement": "When an Accept call returns Ok=false, the session is exactly as it was before the call.", "quantifier": "every session state, every sender index, every message string", "why_tests_cant": "ranges over all malformed inputs and prior states", "anchors": ["eddsacmp/keygen/round_1.go:KeygenRound1Accept", "eddsacmp/keygen/round_2.go:KeygenRound2Accept", "eddsacmp/keygen/round_3.go:KeygenRound3Accept", "eddsacmp/onsign/round_1.go:OnSignRound1MsgAccept", "eddsacmp/onsign/round_2.go:OnSignRound2MsgAccept", "eddsacmp/onsign/round_3.go:OnSignRound3MsgAccept"]}
{"id": "C11", "title": "A malformed or misdirected message never crashes the process", "statement": "An Accept call with an in-range sender returns (Ok or not) for every message string; it never panics.", "quantifier": "every session, every in-range sender, every message string", "why_tests_cant": "ranges over all byte strings", "anchors": ["eddsacmp/keygen/round_1.go:KeygenRound1Accept", "eddsacmp/onsign/round_1.go:OnSignRound1MsgAccept", "tss/wire.go:ParseWireMsg"]}
{"id": "C12", "title": "Finish reports Ok exactly when all needed messages have arrived", "statement": "Round N Finish returns Ok iff every other party's (signing: every party's) slot for that round is filled; it names the first missing slot otherwise and never changes the session; and Ok should mean each slot holds a message that was accepted.", "quantifier": "every session state, every history of Accept calls", "why_tests_cant": "histories are unbounded", "anchors": ["eddsacmp/keygen/round_1.go:KeygenRound1Finish", "eddsacmp/onsign/round_1.go:OnSignRound1Finish", "eddsacmp/onsign/round_2.go:OnSignRound2Finish", "eddsacmp/onsign/round_3.go:OnSignRound3Finish"]}
{"id": "C13", "title": "A failed round blocks the protocol", "statement": "If KeygenRound3Exec rejected a peer's opening, KeygenRound4Exec does not later output a key containing that peer's share.", "quantifier": "every history of calls", "why_tests_cant": "needs all orders of calls", "anchors": ["eddsacmp/keygen/round_3.go:KeygenRound3Exec", "eddsacmp/keygen/round_4.go:KeygenRound4Exec"]}
{"id": "C14", "title": "An empty root key means a freshly generated one", "statement": "With an empty rootPrivKey the party's secret share is drawn at random in round 1; otherwise it is the given key.", "quantifier": "every root key string, every randomness", "why_tests_cant": "needs all randomness values", "anchors": ["eddsacmp/keygen/local_party.go:NewLocalParty", "eddsacmp/keygen/round_1.go:KeygenRound1Exec"]}
{"id": "C15", "title": "Chain codes are stored all-or-nothing", "statement": "SaveChainCodes succeeds iff the string has exactly one valid hex number per party separated by '|', and then stores exactly those numbers in order; otherwise nothing changes.", "quantifier": "every session, every chain-code string", "why_tests_cant": "ranges over all strings", "anchors": ["eddsacmp/keygen/local_party.go:SaveChainCodes"]}
{"id": "C16", "title": "Secret material is never reused across two responses", "statement": "A party never emits two different responses under one nonce: neither two Schnorr responses under one tau (keygen round 3) nor two partial signatures under one k (signing round 3), because two such responses reveal its secret share.", "quantifier": "every history of API calls", "why_tests_cant": "ranges over all call orders and peer messages", "anchors": ["eddsacmp/keygen/round_3.go:KeygenRound3Exec", "eddsacmp/onsign/round_3.go:OnsignRound3Exec", "crypto/schnorr/schnorr_proof.go:Prove"]}
{"id": "C17", "title": "A returned signature always verifies", "statement": "OnsignFinalExec returns Ok only with a 64-byte signature R||S, equal to the returned R and S fields, that passes Ed25519 verification for the group key held by the session and the message bytes returned with it.", "quantifier": "every session state and every content of the message slots", "why_tests_cant": "every adversarial set of partial signatures", "anchors": ["eddsacmp/onsign/round_final.go:OnsignFinalExec"]}
{"id": "C18", "title": "Honest signing always succeeds", "statement": "If all key holders sign honestly with the full signer set and every message is delivered, every call returns Ok and every party outputs the same signature, which verifies for the derived group key.", "quantifier": "every number of parties, secrets, nonces, randomness within range, delivery order", "why_tests_cant": "unbounded parties, secrets, randomness, schedules", "anchors": ["eddsacmp/onsign/round_1.go", "eddsacmp/onsign/round_2.go", "eddsacmp/onsign/round_3.go", "eddsacmp/onsign/round_final.go"]}
{"id": "C19", "title": "The bytes signed are the bytes given", "statement": "The signature is over exactly the bytes whose hex encoding was passed as msg, so different messages are never confused.", "quantifier": "every hex message string", "why_tests_cant": "ranges over all messages", "anchors": ["eddsacmp/onsign/local_party.go:NewLocalParty", "eddsacmp/onsign/round_3.go", "eddsacmp/onsign/round_final.go"]}
{"id": "C20", "title": "Nonce commitments are accepted only with valid proofs", "statement": "OnsignRound2Exec returns Ok only if every peer's encrypted-nonce range proof verifies against that peer's ciphertext and Paillier key, and OnsignRound3Exec returns a partial signature only if every peer's discrete-log proof verifies for the nonce point that is added into R.", "quantifier": "every session state and every content of the message slots", "why_tests_cant": "all adversarial messages", "anchors": ["eddsacmp/onsign/round_2.go:OnsignRound2Exec", "eddsacmp/onsign/round_3.go:OnsignRound3Exec"]}
{"id": "C21", "title": "Restricting save data to the signers keeps exactly the signers", "statement": "Building the save-data subset for a sorted signer list yields, for each signer, the id, public share, Paillier key and Pedersen key saved for that id, and nothing else; an unknown id is an error; for the full list the data is unchanged; the source data is not modified.", "quantifier": "every save data, every signer list", "why_tests_cant": "aliasing makes the result depend on lengths and order; all subsets must be covered", "anchors": ["eddsacmp/keygen/save_data.go:BuildLocalSaveDataSubset"]}
{"id": "C22", "title": "Private and public child derivation agree", "statement": "For every non-hardened path, the child public share derived from the public share equals the child private share (derived from the private share) times the base point, so the derived shares still sum to a key the group can sign for.", "quantifier": "every share, chain code, root key and path of any length", "why_tests_cant": "induction over path length, all keys", "anchors": ["crypto/ckd/child_key_derivation_eddsa.go:DeriveEddsaChildPrivKey", "crypto/ckd/child_key_derivation_eddsa.go:DeriveEddsaChildPubKey"]}
{"id": "C23", "title": "Wallet paths denote distinct child indices and bad paths are rejected", "statement": "A derivation path is accepted only if each '/'-separated component is a decimal number below 2^31, optionally hardened by a trailing apostrophe; everything else is rejected with an error rather than a crash; and two different accepted components never denote the same child.", "quantifier": "every path string", "why_tests_cant": "all strings", "anchors": ["crypto/ckd/child_key_derivation_eddsa.go", "eddsacmp/onsign/local_party.go:NewLocalParty"]}
{"id": "C24", "title": "Multi-part hashing is unambiguous", "statement": "Two different lists of byte strings given to the multi-part hash produce different hash inputs (so equal digests mean a hash collision); for the integer variant the same holds for lists of non-negative integers.", "quantifier": "every pair of lists of byte strings of any length", "why_tests_cant": "injectivity over all lists", "anchors": ["common/hash.go:SHA512_256", "common/hash.go:SHA512_256i", "common/hash.go:SHA512_256i_TAGGED"]}
{"id": "C25", "title": "Schnorr proofs: honest proofs verify and two answers reveal the secret", "statement": "An honestly made proof always verifies, and two accepting responses to different challenges for one commitment determine the discrete logarithm.", "quantifier": "every secret, nonce, challenge", "why_tests_cant": "algebraic identity over the whole group", "anchors": ["crypto/schnorr/schnorr_proof.go:Prove", "crypto/schnorr/schnorr_proof.go:Verify", "crypto/schnorr/schnorr_proof.go:NewZKProof", "crypto/schnorr/schnorr_proof.go:NewZKVProof"]}
{"id": "C26", "title": "Paillier decryption inverts encryption and the homomorphic operations are exact", "statement": "Decrypt(Encrypt(m)) = m for 0<=m<N, products of ciphertexts decrypt to sums and powers to products modulo N, and out-of-range inputs give errors.", "quantifier": "every well-formed key, message, randomness", "why_tests_cant": "number-theoretic identity over all primes and messages", "anchors": ["crypto/paillier/paillier.go", "crypto/alice/paillier/paillier.go"]}
{"id": "C27", "title": "Encrypted-nonce range proofs: completeness and what acceptance implies", "statement": "An honest range proof verifies whenever its response lies in the announced range, and a verifying proof satisfies the range bound and both verification equations; malformed encodings are rejected with an error rather than a crash.", "quantifier": "every witness, randomness, key, context, proof message", "why_tests_cant": "ranges over all proofs and keys", "anchors": ["crypto/encproof/proof.go", "crypto/config.go"]}
{"id": "C28", "title": "Discrete-log range proofs: completeness and what acceptance implies", "statement": "An honest log proof verifies whenever its response lies in the announced range, and a verifying proof satisfies the range bound and all three verification equations for exactly the claimed nonce point.", "quantifier": "every witness, randomness, key, context, proof message", "why_tests_cant": "ranges over all proofs and keys", "anchors": ["crypto/logproof/proof.go", "crypto/config.go"]}
{"id": "C29", "title": "Commitment part builder round-trips", "statement": "Parsing the flattened secrets returns exactly the parts that were added.", "quantifier": "every list of parts within the documented limits", "why_tests_cant": "all lists", "anchors": ["crypto/commitments/commitment_builder.go:Secrets", "crypto/commitments/commitment_builder.go:ParseSecrets"]}
{"id": "C30", "title": "Hash commitments open only to what was committed", "statement": "Verify accepts exactly the decommitment whose hash is the commitment; DeCommit returns the committed secrets iff Verify accepts.", "quantifier": "every commitment, decommitment", "why_tests_cant": "all integers lists", "anchors": ["crypto/commitments/commitment.go"]}
{"id": "C31", "title": "DLN proofs: completeness and serialization", "statement": "An honest proof that h2 = h1^x mod N verifies, and Serialize followed by UnmarshalDLNProof returns the same proof.", "quantifier": "every modulus, exponent, randomness", "why_tests_cant": "128-fold parallel repetition over all group elements", "anchors": ["crypto/dlnproof/proof.go"]}
{"id": "C32", "title": "Modulus proofs: serialization and checks", "statement": "Bytes followed by NewProofFromBytes returns the same proof; wrong part counts or empty parts are rejected; Verify accepts exactly the proofs that pass every listed check and both families of equations; the proof NewProof makes for a product of two primes congruent 3 mod 4 verifies whenever no challenge shares a factor with the modulus.", "quantifier": "every proof", "why_tests_cant": "all encodings", "anchors": ["crypto/modproof/proof.go"]}
{"id": "C33", "title": "Curve points survive encoding", "statement": "Flatten/UnFlatten and Gob encode/decode return the same points, and decoding accepts only points on the curve.", "quantifier": "every list of points, every byte string", "why_tests_cant": "all points and byte strings", "anchors": ["crypto/ecpoint.go"]}
{"id": "C34", "title": "Scalar and point byte conversions are lossless", "statement": "Converting an integer below 2^256 to the 32-byte little-endian form and back is the identity; the 32-byte point encoding determines the point.", "quantifier": "every integer, every curve point", "why_tests_cant": "all 2^256 values", "anchors": ["eddsacmp/onsign/utils.go"]}
{"id": "C35", "title": "Every protocol message survives the wire", "statement": "Parsing the wire bytes of any keygen or signing message returns that message with the same type and fields, and a message of one type never parses as another type.", "quantifier": "every message content of any size", "why_tests_cant": "all byte strings for all fields", "anchors": ["tss/message.go:WireBytes", "tss/wire.go:ParseWireMsg", "eddsacmp/keygen/message/eddsa-cmp-keygen.pb.go", "eddsacmp/onsign/message/eddsa-cmp-onsign.pb.go"]}
{"id": "C36", "title": "Messages handed over as base64/hex text arrive unchanged", "statement": "Passing an Exec result through the documented base64 (or hex) text encoding into Accept stores exactly the produced bytes.", "quantifier": "every byte string", "why_tests_cant": "all byte strings", "anchors": ["eddsa.go", "eddsacmp/keygen/round_1.go:KeygenRound1Accept"]}
{"id": "C37", "title": "Delivery order within a round is irrelevant", "statement": "Accept calls of one round from different senders commute: both orders give the same results and the same session; re-delivering the same message changes nothing.", "quantifier": "every session, every pair of senders and messages, every permutation of a delivery list", "why_tests_cant": "all schedules", "anchors": ["eddsacmp/keygen/round_1.go:KeygenRound1Accept", "eddsacmp/onsign/round_1.go:OnSignRound1MsgAccept"]}
{"id": "C38", "title": "The generic party state machine never skips or repeats a round", "statement": "BaseStart/BaseUpdate advance only when the current round can proceed, always to its next round, and finish exactly once; a nil-round party rejects updates by storing them only.", "quantifier": "every round implementation, every message sequence", "why_tests_cant": "all message sequences", "anchors": ["tss/party.go:BaseStart", "tss/party.go:BaseUpdate", "tss/round.go"]}
{"id": "C39", "title": "Bit, byte and xor helpers are exact", "statement": "BytesToBits/BitsToBytes are inverse, Xor is bytewise xor with zero padding, ReverseByte is an involution, InRange/Gcd/Lcm/EulerFunction compute their mathematical definitions.", "quantifier": "every input", "why_tests_cant": "all byte strings and integers", "anchors": ["crypto/alice/utils/utils.go"]}
{"id": "C40", "title": "Safe-prime screening is exact", "statement": "FastMod3 computes the residue mod 3 of any non-negative integer, the small-prime tables are exactly the products claimed, and a candidate p=2q+1 accepted by the Pocklington test with q prime is prime.", "quantifier": "every integer", "why_tests_cant": "all integers", "anchors": ["crypto/alice/utils/prime.go", "common/safe_prime.go"]}
{"id": "C41", "title": "Random sampling stays in range", "statement": "Each sampling helper returns a value in its documented range for every output of the random source, and rejects bad bounds.", "quantifier": "every random source output, every bound", "why_tests_cant": "all random streams", "anchors": ["common/random.go", "crypto/alice/utils/utils.go", "crypto/utils.go"]}
{"id": "C42", "title": "Ring-Pedersen parameter proofs: completeness", "statement": "An honestly produced parameter proof always verifies, for all rounds, and altered commitments or responses that break an equation are rejected.", "quantifier": "every key, randomness, number of repetitions", "why_tests_cant": "all keys and challenges", "anchors": ["crypto/alice/zkproof/paillier/ring_pedersenzkproof.go"]}
{"id": "C43", "title": "The refresh payload assigns each party its own keys", "statement": "Party i's Paillier modulus and Pedersen parameters are taken from its own 673-byte record after the 1376-byte header; records never overlap and short payloads are rejected with an error.", "quantifier": "every payload, every party count", "why_tests_cant": "all payload lengths", "anchors": ["eddsacmp/onsign/local_party.go:NewLocalParty"]}
{"id": "C44", "title": "Modular integer helpers stay canonical", "statement": "Add/Sub/Mul/Exp/inverse modulo m return the canonical residue in [0,m) equal to the mathematical result.", "quantifier": "every modulus and operands", "why_tests_cant": "all integers", "anchors": ["common/int.go"]}
{"id": "C45", "title": "Extended keys survive serialization", "statement": "Serializing an extended key and parsing the text gives the same key back; altered text fails the checksum.", "quantifier": "every extended key", "why_tests_cant": "all keys", "anchors": ["crypto/ckd/child_key_derivation.go", "crypto/ckd/child_key_derivation_eddsa.go"]}
{"id": "C46", "title": "Integer and byte-slice helpers are exact", "statement": "Converting a list of non-negative integers to byte slices and back is the identity, padding adds exactly the missing leading zero bytes and keeps the value, and the non-empty check accepts exactly the lists of the expected length without an empty entry.", "quantifier": "all lists of integers and byte strings, all lengths", "why_tests_cant": "The claims range over arbitrary lists and sizes.", "anchors": ["common/slice.go", "common/int.go:AppendBigIntToBytesSlice"]}
{"id": "C47", "title": "Concurrent safe-prime search returns what was asked for, or an error, and always comes back", "statement": "The concurrent search returns exactly the requested number of pairs, every one a prime q and safe prime 2q+1 of the requested size that passed validation; nothing is sent on a closed channel; an error or a cancelled context ends the call; once it has its result the call returns.", "quantifier": "every random stream, number of primes, number of goroutines, schedule and cancellation point", "why_tests_cant": "all interleavings of the search goroutines, the collector and cancellation", "anchors": ["common/safe_prime.go:GetRandomSafePrimesConcurrent", "common/safe_prime.go:runGenPrimeRoutine"]}
{"id": "C48", "title": "Integer-factorisation proofs verify for real factorisations and only for committed statements", "statement": "A proof of knowledge of the factorisation of N built from the distinct prime factors of N always verifies, is only produced for N of at least 2048 bits, and Verify accepts exactly when the response is in range, the base hashed from N is a unit and base^(y - N e) reproduces the commitment; two accepting answers to one commitment with different challenges reveal a multiple of the order of the base.", "quantifier": "every list of distinct primes, every commitment randomness, salt stream, hash function, and every received message", "why_tests_cant": "The acceptance condition and completeness hold for all moduli, randomness and hash outputs; tests try one key.", "anchors": ["crypto/alice/zkproof/integerfactorization.go:NewIntegerFactorizationProofMessage", "crypto/alice/zkproof/integerfactorization.go:Verify"]}
{"id": "C49", "title": "Generated Paillier keys are usable", "statement": "A key pair returned by key generation consists of two different (safe) primes of the requested half size that are far apart, the modulus has exactly twice that size, lambda divides every common multiple of P-1 and Q-1, and every message below N encrypts and decrypts back under it; a received public key is accepted only with a verifying factorisation proof and a generator that is a unit in range.", "quantifier": "every requested size, every sequence of candidate primes delivered by the search, every message and randomness, every received public-key message", "why_tests_cant": "Needs number theory over all primes and all search histories; tests generate one key with fixed sizes.", "anchors": ["crypto/paillier/paillier.go:GenerateKeyPair", "crypto/alice/paillier/paillier.go:NewPaillierUnSafe", "crypto/alice/paillier/message.go:ToPubkey", "crypto/alice/paillier/paillier.go:GetNthRoot"]}
{"id": "C50", "title": "Paillier modulus proofs (Gennaro-Micciancio-Rabin)", "statement": "The proof made with a generated Paillier key whose primes exceed 1000 always verifies; Verify accepts exactly when no prime up to 1000 divides N and each answer is an N-th root of its challenge; the challenges are units derived from the session value, the public key and N; an accepted N that is not coprime to its totient forces every challenge into a proper subgroup; the result does not depend on the scheduling of the two goroutines.", "quantifier": "every modulus, key, session value, public key, hash function, proof array and goroutine order", "why_tests_cant": "Quantifies over all moduli and hash outputs and both delivery orders; a test runs one key and one order.", "anchors": ["crypto/paillier/paillier.go:Proof", "crypto/paillier/paillier.go:Verify", "crypto/paillier/paillier.go:GenerateXs"]}
{"id": "C51", "title": "Derivation of secp256k1 extended keys", "statement": "For paths without hardened components private and public derivation of an extended key succeed together and give matching keys; the offset returned for a list of indices is exactly the difference between child and parent keys, private and public, and is the same for all keys with the same root key and chain code.", "quantifier": "every extended key, path, list of indices and HMAC function", "why_tests_cant": "Ranges over all paths, keys and HMAC outputs; the tests derive a few fixed vectors.", "anchors": ["crypto/ckd/child_key_derivation.go:DeriveChildKey", "crypto/ckd/child_key_derivation.go:DeriveChildPubKey", "crypto/ckd/child_key_derivation.go:DeriveChildKeyFromHierarchy", "crypto/ckd/child_key_derivation.go:DerivePrivateKeyForPath", "crypto/ckd/child_key_derivation.go:DerivePublicKeyForPath"]}
{"id": "C52", "title": "The curve the program uses is a group of the size it assumes", "statement": "tss.Edwards() as used through ECPoint: the curve -x^2+y^2=1+dx^2y^2 modulo 2^255-19 has exactly 8n points with n prime; Add is defined for every pair of points and follows the Edwards addition law; ScalarMult by any integer k is (k mod n)-fold addition and never nil for a curve point; j*G = k*G exactly when j = k modulo n; compression followed by decompression is the identity and everything that decompresses is on the curve.  Everything the key generation and signing theorems assume of the curve holds for it.", "quantifier": "all points, pairs and triples of points, all integers as scalars, all 32-byte strings", "why_tests_cant": "The group has about 2^255 elements; associativity, completeness and the group order cannot be sampled.", "anchors": ["tss/curve.go:Edwards", "crypto/ecpoint.go:Add", "crypto/ecpoint.go:ScalarMult", "crypto/ecpoint.go:ScalarBaseMult", "eddsacmp/onsign/utils.go"]}
{"id": "C53", "title": "Challenges of the range proofs bind statement and commitments", "statement": "The challenge of an accepted range proof (encproof, logproof) is a digest that determines the session context, the ciphertext, the moduli, the verifier's Pedersen parameters, the commitments and, for a nonce-point proof, the nonce point.", "quantifier": "all contexts, ciphertexts, moduli, parameters, commitments and messages, and every hash function", "why_tests_cant": "Whether two different transcripts can meet in one hash input is a question about all pairs of transcripts.", "anchors": ["crypto/encproof/proof.go:Verify", "crypto/logproof/proof.go:Verify", "crypto/logproof/proof.go:NewKnowExponentAndPaillierEncryption", "crypto/alice/utils/utils.go:HashProtos", "crypto/alice/paillier/affinegroupzkproof.go:GetE"]}
{"id": "C54", "title": "Keys that were generated can be used to sign", "statement": "If key generation is run to its end by honest parties and each saved the same list of chain codes, then the data each party got from round 4, handed back base64 encoded to NewSignLocalParty with the same parties, starts a signing session for every party; the session cannot deadlock, every call succeeds, and all parties return the same signature, valid for the message under the public key of the key generation moved by an offset computable from that public key, the chain codes and the path.", "quantifier": "every number of parties, party keys, roots, delivery order of both protocols, chain codes, message, path, refresh record and random draw", "why_tests_cant": "Composes two protocol runs over all schedules, secrets and paths; a test runs one.", "anchors": ["eddsa.go:NewSignLocalParty", "eddsa.go:SaveChainCodes", "eddsacmp/keygen/round_4.go", "eddsacmp/onsign/local_party.go:NewLocalParty", "eddsacmp/onsign/round_final.go"]}
{"id": "C55", "title": "Field arithmetic of secp256k1 is exact", "statement": "Every operation of the field type behind tss.S256() - Normalize, Add, Negate, AddInt, MulInt, Mul, Square, Inverse, Sqrt, SetBytes, Bytes, IsZero, IsOdd, Equals - computes the exact result modulo 2^256 - 2^32 - 977 for all operands within the documented magnitudes: no 32-bit word and no 64-bit accumulator overflows, the magnitude of the result is the documented one, Normalize yields one representation per residue, Inverse inverts every non-zero residue, Sqrt returns a root of every square, and Bytes undoes SetBytes.", "quantifier": "every value of every word within the magnitude (8 for products, 63 for sums), hence every pair of residues in every representation", "why_tests_cant": "A carry that is lost occurs for about one operand in 2^26 or rarer; random tests of 512-bit operand pairs do not reach the boundary words.", "anchors": ["package/github.com/btcsuite/btcd/btcec/v1/field.go:Normalize", "package/github.com/btcsuite/btcd/btcec/v1/field.go:Mul2", "package/github.com/btcsuite/btcd/btcec/v1/field.go:SquareVal", "package/github.com/btcsuite/btcd/btcec/v1/field.go:Inverse", "package/github.com/btcsuite/btcd/btcec/v1/field.go:SqrtVal", "package/github.com/btcsuite/btcd/btcec/v1/field.go:SetBytes"]}
{"id": "C56", "title": "secp256k1 is a group of the size the program assumes", "statement": "The parameters of tss.S256(): P and N are prime; the affine solutions of y^2 = x^3 + 7 modulo P together with infinity form a commutative group under chord and tangent with exactly N elements; every point is a multiple of G by exactly one scalar below N, so a pair of coordinates satisfying the equation is never in a small subgroup and scalars may be reduced modulo N; (beta x, y) is lambda times (x, y).", "quantifier": "all points, pairs and triples of points, all integers as scalars", "why_tests_cant": "The group has about 2^256 elements; associativity and the group order cannot be sampled.", "anchors": ["tss/curve.go:S256", "package/github.com/btcsuite/btcd/btcec/v1/btcec.go:initS256", "package/github.com/btcsuite/btcd/btcec/v1/btcec.go:moduloReduce"]}
{"id": "C57", "title": "The methods of the secp256k1 curve compute its group law", "statement": "IsOnCurve on 256-bit coordinates decides the curve equation modulo P (it does not check that coordinates are reduced, and reads negative or longer coordinates by absolute value and leading bytes); Add and Double return the group sum in every case, equal, opposite and infinite operands included; ScalarMult by any byte string returns that multiple of any point, infinity included; ScalarBaseMult with the generator's table returns the multiple of G, agrees with ScalarMult and never indexes outside the table; the scalar is split into halves that recombine modulo N and recoded into two byte strings whose difference is the scalar.", "quantifier": "all points in all representations, all byte strings of all lengths as scalars", "why_tests_cant": "Exceptional additions inside a scalar multiplication occur with probability about 2^-128 on random inputs, so no test reaches them.", "anchors": ["package/github.com/btcsuite/btcd/btcec/v1/btcec.go:IsOnCurve", "package/github.com/btcsuite/btcd/btcec/v1/btcec.go:Add", "package/github.com/btcsuite/btcd/btcec/v1/btcec.go:Double", "package/github.com/btcsuite/btcd/btcec/v1/btcec.go:ScalarMult", "package/github.com/btcsuite/btcd/btcec/v1/btcec.go:ScalarBaseMult", "package/github.com/btcsuite/btcd/btcec/v1/btcec.go:splitK", "package/github.com/btcsuite/btcd/btcec/v1/btcec.go:NAF", "package/github.com/btcsuite/btcd/btcec/v1/gensecp256k1.go:SerializedBytePoints"]}
{"id": "C58", "title": "Saved key data survive the disk, and damage is noticed", "statement": "The JSON text that key generation writes decodes to exactly the data written, different data give different texts, a text with anything but white space appended is rejected, every proper prefix of a text is rejected, and every point in data that decode, from whatever text, is on the curve. (Missing members are not noticed: {} and null decode to empty data.)", "quantifier": "all key data with points on the curve, all prefixes and suffixes, all byte strings", "why_tests_cant": "Truncation points, key values and texts are unbounded; the guarantee is about every file a crash can leave.", "anchors": ["eddsacmp/keygen/round_4.go", "eddsacmp/onsign/local_party.go:NewLocalParty", "eddsacmp/keygen/save_data.go:LocalPartySaveData", "crypto/ecpoint.go:MarshalJSON", "crypto/ecpoint.go:UnmarshalJSON"]}
{"id": "C59", "title": "Public key strings mean exactly one point", "statement": "ParsePubKey accepts exactly the 65-byte strings of a point of secp256k1 with first byte 4, 5, or 6/7 matching the parity of y, and the 33-byte strings with first byte 2/3 whose x modulo P has a point with that parity; what it returns satisfies the curve equation; SerializeUncompressed, SerializeCompressed and SerializeHybrid of every point have 65, 33 and 65 bytes and parse back to the same point; decompression finds the point iff there is one. (Not canonical: first byte 5 is read like 4, and a compressed x of P or more is accepted and returned unreduced.)", "quantifier": "all byte strings, all points, computed on the words of the field values", "why_tests_cant": "Acceptance is over 2^520 strings, and square roots are over the whole field.", "anchors": ["package/github.com/btcsuite/btcd/btcec/v1/pubkey.go:ParsePubKey", "package/github.com/btcsuite/btcd/btcec/v1/pubkey.go:decompressPoint", "package/github.com/btcsuite/btcd/btcec/v1/pubkey.go:SerializeCompressed", "package/github.com/btcsuite/btcd/btcec/v1/pubkey.go:SerializeHybrid", "package/github.com/btcsuite/btcd/btcec/v1/pubkey.go:IsCompressedPubKey"]}
{"id": "C60", "title": "ECDSA signatures verify, and only valid ones do", "statement": "Verify accepts (r, s) exactly if both are in [1, N-1] and some point R with x coordinate r modulo N satisfies s R = e G + r Q, and never panics; Sign returns only signatures valid for the public key of the same bytes, with s at most N/2 and a nonce in [1, N-1], and fails only if r or s would be 0; recovering a key from a signature yields exactly the keys with that equation, so the recovered key verifies the signature; SignCompact succeeds whenever Sign does and RecoverCompact gives back the signer's key and flag; RecoverCompact accepts only header bytes 27 to 34 and never panics. (Signatures are malleable: N - s verifies too; RecoverCompact can return the point at infinity.)", "quantifier": "all keys, messages, nonces, HMAC functions, signatures and 65-byte strings", "why_tests_cant": "The equation must hold for all 2^256 keys and nonces; the four recovery candidates differ only in cases of probability 2^-128.", "anchors": ["package/github.com/btcsuite/btcd/btcec/v1/signature.go:Verify", "package/github.com/btcsuite/btcd/btcec/v1/signature.go:signRFC6979", "package/github.com/btcsuite/btcd/btcec/v1/signature.go:nonceRFC6979", "package/github.com/btcsuite/btcd/btcec/v1/signature.go:recoverKeyFromSignature", "package/github.com/btcsuite/btcd/btcec/v1/signature.go:SignCompact", "package/github.com/btcsuite/btcd/btcec/v1/signature.go:RecoverCompact", "package/github.com/btcsuite/btcd/btcec/v1/privkey.go:PrivKeyFromBytes"]}
{"id": "C61", "title": "Signature strings are parsed without panic and without ambiguity", "statement": "ParseSignature and ParseDERSignature return on every byte string. ParseDERSignature accepts exactly the strings that begin with the canonical DER encoding of r, s in [1, N-1]; ParseSignature accepts exactly the strings that begin with a SEQUENCE of two one-byte-length INTEGERs read as unsigned with values in that range. Serialize writes 8 to 72 bytes which both parse to r and the smaller of s and N - s, and the parsed signature verifies iff the original did. (Trailing bytes are ignored and a high s is accepted, so an accepted string is not unique.)", "quantifier": "all byte strings, all r and s, all suffixes", "why_tests_cant": "Index arithmetic on attacker-chosen lengths; the wrap of the one-byte total length is reached by two values only.", "anchors": ["package/github.com/btcsuite/btcd/btcec/v1/signature.go:parseSig", "package/github.com/btcsuite/btcd/btcec/v1/signature.go:Serialize", "package/github.com/btcsuite/btcd/btcec/v1/signature.go:canonicalizeInt", "package/github.com/btcsuite/btcd/btcec/v1/signature.go:canonicalPadding"]}
{"id": "C62", "title": "Encrypted messages open for the key holder only as sent", "statement": "GenerateSharedSecret gives both sides the same bytes, at most 32 and without leading zeros. Decrypt of Encrypt returns the message, for every key, message, ephemeral key and IV, and the ciphertext has 118 + 16(len/16+1) bytes. Decrypt returns on every byte string and accepts only strings of the format whose point is on the curve and whose last 32 bytes are the MAC, under the derived key, of everything before; two accepted strings with the same ephemeral point and tag are equal or show a MAC collision. (The padding itself is not checked beyond its last byte.)", "quantifier": "all keys, messages, IVs, byte strings and all hash, MAC and block functions of the right lengths", "why_tests_cant": "All byte strings and all block functions; offsets are computed from attacker-chosen lengths.", "anchors": ["package/github.com/btcsuite/btcd/btcec/v1/ciphering.go:Encrypt", "package/github.com/btcsuite/btcd/btcec/v1/ciphering.go:Decrypt", "package/github.com/btcsuite/btcd/btcec/v1/ciphering.go:GenerateSharedSecret", "package/github.com/btcsuite/btcd/btcec/v1/ciphering.go:addPKCSPadding", "package/github.com/btcsuite/btcd/btcec/v1/ciphering.go:removePKCSPadding"]}
{"id": "C63", "title": "The curve registry means what was registered last", "statement": "After every history of RegisterCurve and SetCurve calls GetCurveByName returns what was registered last under the name (or the built-in), EC() the last curve set (or secp256k1) and never nil, SetCurve(nil) panics without effect. GetCurveName returns, in every map iteration order, a name under which a curve of the same dynamic type is registered, and fails exactly if there is none. A point written as JSON comes back as the same point if every curve registered with its type is its curve under a plain name that still means it when read; what is read is on the curve named. (Two curves of one dynamic type, the empty name and a nil curve break this.)", "quantifier": "all histories of calls before and between writing and reading, all iteration orders, all points and texts", "why_tests_cant": "Map iteration order is random and the history of calls is unbounded; a test sees one order of one history.", "anchors": ["tss/curve.go:RegisterCurve", "tss/curve.go:GetCurveByName", "tss/curve.go:GetCurveName", "tss/curve.go:SetCurve", "tss/curve.go:EC", "crypto/ecpoint.go:MarshalJSON", "crypto/ecpoint.go:UnmarshalJSON"]}
{"id": "C64", "title": "BIP-340 signatures verify, and only valid ones do", "statement": "schnorr.Verify accepts (r, s) for a 32-byte message and a 32-byte x-only key exactly if the key is the x coordinate of an even-y point A and some even-y point R with x coordinate r satisfies s G = R + e A for the tagged challenge hash e, which must be below N; the y of the key does not matter. Whatever Sign returns verifies, with and without FastSign; with given nonce data it fails only for a wrong message length, a zero nonce or a challenge hash of at least N; two signatures with one nonce and different challenges reveal the key. ParseSignature accepts exactly the 64-byte strings of r < P and s < N, ParsePubKey exactly the x coordinates of points. (Sign negates the caller's private key in place when its point has odd y; signing again gives the same signature.)", "quantifier": "all keys, messages, auxiliary data, nonce functions into [1, N-1], tagged hash functions and byte strings", "why_tests_cant": "The equation must hold for all 2^256 keys and nonces and every hash function.", "anchors": ["package/github.com/btcsuite/btcd/btcec/v2/schnorr/signature.go:Sign", "package/github.com/btcsuite/btcd/btcec/v2/schnorr/signature.go:schnorrSign", "package/github.com/btcsuite/btcd/btcec/v2/schnorr/signature.go:ParseSignature", "package/github.com/btcsuite/btcd/btcec/v2/schnorr/signature.go:Verify", "package/github.com/btcsuite/btcd/btcec/v2/schnorr/signature.go:schnorrVerify", "package/github.com/btcsuite/btcd/btcec/v2/schnorr/pubkey.go:ParsePubKey", "package/github.com/btcsuite/btcd/btcec/v2/curve.go:ParseJacobian", "package/github.com/btcsuite/btcd/btcec/v2/curve.go:JacobianToByteSlice"]}
{"id": "C65", "title": "MuSig2 partial signatures combine to a valid signature", "statement": "The combined key is the sum of the keys weighted by their hash coefficients (1 for the second distinct key), plus the tweaks or the taproot commitment to the root; with sorting it does not depend on the order of the keys. A partial signature is accepted exactly if s G equals the signer's nonce plus its weighted key times the challenge, and whatever Sign returns is accepted. If every partial signature of a session is accepted, the challenge hash is below N, the aggregated nonce and the combined key are points and the keys have even y, the combination is a valid BIP-340 signature of the combined key; with keys of odd y (never returned by ParsePubKey) or a nonce sum at infinity it may not be, exactly as characterised. An honest run therefore ends in a valid signature. Nonces bind randomness, key, message, auxiliary input and index; three signatures with one secret nonce reveal the key. Encoded scalars decode to themselves and values of N or more are refused, but a short string decodes to 0 without an error.", "quantifier": "all sets of signers, keys, tweaks, nonces, messages, tagged hash functions, sorting functions and byte strings", "why_tests_cant": "The equation must hold for every number of signers, every key and nonce and every combination of parities.", "anchors": ["package/github.com/btcsuite/btcd/btcec/v2/schnorr/musig2/keys.go:AggregateKeys", "package/github.com/btcsuite/btcd/btcec/v2/schnorr/musig2/keys.go:aggregationCoefficient", "package/github.com/btcsuite/btcd/btcec/v2/schnorr/musig2/keys.go:tweakKey", "package/github.com/btcsuite/btcd/btcec/v2/schnorr/musig2/keys.go:sortKeys", "package/github.com/btcsuite/btcd/btcec/v2/schnorr/musig2/keys.go:secondUniqueKeyIndex", "package/github.com/btcsuite/btcd/btcec/v2/schnorr/musig2/sign.go:Sign", "package/github.com/btcsuite/btcd/btcec/v2/schnorr/musig2/sign.go:verifyPartialSig", "package/github.com/btcsuite/btcd/btcec/v2/schnorr/musig2/sign.go:CombineSigs", "package/github.com/btcsuite/btcd/btcec/v2/schnorr/musig2/sign.go:Decode", "package/github.com/btcsuite/btcd/btcec/v2/schnorr/musig2/nonces.go:GenNonces", "package/github.com/btcsuite/btcd/btcec/v2/schnorr/musig2/nonces.go:AggregateNonces"]}
{"id": "C66", "title": "A MuSig2 session signs once and ends only in a valid signature", "statement": "For every sequence of calls on a Context and its Sessions, in any order: after a Sign that returned a signature or failed on its input every later Sign of the session is refused; a Sign before all nonces are known is refused without effect. FinalSig, once there, never changes, and is valid under the CombinedKey for the message of the session's one successful Sign; CombineSig answers true exactly when it has just produced it. Registering the last signer makes the combined key the aggregate of all keys (the same for every order if sorted); from the first session on the key and the signers are fixed. An early nonce goes to exactly one session; without one the nonce comes from the caller or from fresh randomness, the signing key and the combined key. If everyone is honest, every signer ends with a valid signature, whatever the order in which nonces and partial signatures arrive after the own ones. Not prevented: partial signatures registered before the own Sign, or one wrong one, leave a session that never ends; PublicNonce after Sign, CombineSig without Sign, and NewSession after a failed registration or for one signer panic; one signer can never sign; a nonce given by the caller can be used in several sessions.", "quantifier": "all contexts, all finite sequences of calls with all arguments, all numbers of signers and sessions, all hash and sorting functions", "why_tests_cant": "The order of calls is chosen by the network and the caller; a test runs the intended order.", "anchors": ["package/github.com/btcsuite/btcd/btcec/v2/schnorr/musig2/context.go:NewContext", "package/github.com/btcsuite/btcd/btcec/v2/schnorr/musig2/context.go:RegisterSigner", "package/github.com/btcsuite/btcd/btcec/v2/schnorr/musig2/context.go:combineSignerKeys", "package/github.com/btcsuite/btcd/btcec/v2/schnorr/musig2/context.go:NewSession", "package/github.com/btcsuite/btcd/btcec/v2/schnorr/musig2/context.go:PublicNonce", "package/github.com/btcsuite/btcd/btcec/v2/schnorr/musig2/context.go:RegisterPubNonce", "package/github.com/btcsuite/btcd/btcec/v2/schnorr/musig2/context.go:Sign", "package/github.com/btcsuite/btcd/btcec/v2/schnorr/musig2/context.go:CombineSig", "package/github.com/btcsuite/btcd/btcec/v2/schnorr/musig2/context.go:FinalSig", "package/github.com/btcsuite/btcd/btcec/v2/schnorr/musig2/context.go:CombinedKey", "package/github.com/btcsuite/btcd/btcec/v2/schnorr/musig2/context.go:EarlySessionNonce", "package/github.com/btcsuite/btcd/btcec/v2/schnorr/musig2/context.go:TaprootInternalKey"]}
{"id": "C67", "title": "The signature parsers of both curve library versions agree", "statement": "ParseSignature and ParseDERSignature of btcec/v2/ecdsa accept exactly the byte strings that those of btcec/v1 accept, with the same r and s, and neither ever panics: a signature accepted by code on one version cannot be read differently, or refused, by code on the other.", "quantifier": "every byte string and both modes (BER and DER)", "why_tests_cant": "The set of strings is infinite and the two parsers read the integers differently (arbitrary precision against fixed-width scalars with zero stripping); agreement on samples does not exclude a string on which they split.", "anchors": ["package/github.com/btcsuite/btcd/btcec/v2/ecdsa/signature.go:parseSig", "package/github.com/btcsuite/btcd/btcec/v1/signature.go:parseSig"]}
{"id": "C68", "title": "Accepted shares, and the group key, lie in the prime-order subgroup", "statement": "A public share that key generation accepts, and so the group key a completed key generation returns, is a multiple of the base point: no peer can shift the group key by a point of small order and thereby make signatures of honest signers invalid for part of all messages.", "quantifier": "every curve with a subgroup of prime order n and cofactor 8 (and Ed25519 itself), every share, nonce commitment, challenge, small-order point, number of parties and message", "why_tests_cant": "Which shares a verifier accepts depends on the challenge hash of one run; a test sees one challenge and the honest share, and the failing signatures depend on the hash of the message.", "anchors": ["eddsacmp/keygen/round_3.go:KeygenRound3Exec", "eddsacmp/keygen/round_4.go:KeygenRound4Exec", "eddsacmp/keygen/message/messages.go:UnmarshalPubXj", "crypto/schnorr/schnorr_proof.go:Verify", "crypto/ecpoint.go:NewECPoint", "crypto/ecpoint.go:EightInvEight", "eddsacmp/onsign/round_final.go:OnsignFinalExec"]}
{"id": "C69", "title": "Messages of one session are refused in another", "statement": "A message recorded in one session is of no use in another: key generation refuses the proof of another run, and a party of a new signing session, for another message, does not accept the round-1 and round-2 messages its peers sent in an earlier one.", "quantifier": "all pairs of sessions of a party (any keys, randomness, messages, histories of accepted and refused calls) and all recorded messages", "why_tests_cant": "What was recorded and when it is replayed is the choice of an attacker who sees every session; a test runs sessions one at a time.", "anchors": ["eddsacmp/onsign/local_party.go:getSSID", "eddsacmp/onsign/round_2.go:OnsignRound2Exec", "eddsacmp/onsign/round_3.go:OnsignRound3Exec", "eddsacmp/keygen/round_3.go:KeygenRound3Exec", "eddsacmp/keygen/round_4.go:KeygenRound4Exec", "crypto/schnorr/schnorr_proof.go:Verify"]}
{"id": "C70", "title": "Sessions can be driven from several goroutines", "statement": "Calls made at the same time from several goroutines, each on its own session, behave as if they had been made one after the other: every goroutine gets the replies it would get alone, the sessions end up as they would, and the process survives.", "quantifier": "all numbers of goroutines, all programs of calls, every schedule of the steps of all calls (lookup, work, insertion, deletion) and all registry contents", "why_tests_cant": "The interleaving is chosen by the Go scheduler; tests run the calls from one goroutine, and a race shows up on few of the schedules.", "anchors": ["eddsacmp/keygen/local_party.go:Parties", "eddsacmp/keygen/local_party.go:NewLocalParty", "eddsacmp/keygen/local_party.go:RemoveParty", "eddsacmp/onsign/local_party.go:SignParties", "eddsacmp/onsign/local_party.go:RemoveSignParty", "eddsacmp/keygen/round_1.go:KeygenRound1Exec", "eddsacmp/onsign/round_1.go:OnSignRound1Exec", "eddsa.go:NewKeygenLocalParty"]}
{"id": "C71", "title": "An error that names a party names one that misbehaved", "statement": "When a round fails and the reply names a party, that party sent something an honest party would not have sent; an honest party is never named, and a failing final signing round tells who is to blame.", "quantifier": "all keygen and signing sessions, all parties, all messages of the others (including different messages sent to different parties), all randomness and hash functions", "why_tests_cant": "What each party received is chosen by the others, per receiver; a test runs honest parties, or one wrong message to one party.", "anchors": ["eddsacmp/keygen/round_3.go:KeygenRound3Exec", "eddsacmp/keygen/round_4.go:KeygenRound4Exec", "eddsacmp/onsign/round_final.go:OnsignFinalExec"]}
