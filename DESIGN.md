# Formal model of felicityin/tss-app in Rocq (Coq 8.16.1)

`rocq/theories` (logical name `Verif`) holds the model and the proofs, `properties.jsonl` the English properties,
`MANIFEST.json` the theorem names for each property, `seeded/LOG.jsonl` the experiments with wrong programs.
`tools/` holds the scripts that generate `properties.jsonl` and `MANIFEST.json` and that run the experiments.

## 1. Modelling conventions

* **Bytes** are `Coq.Init.Byte.byte`, so every Go `[]byte` or `string` is a `list byte` with no side condition.
  `*big.Int` is `Z`; a pointer that may be nil is an `option`.
* **Outcome**: a Go function that can panic returns `Ret v` or `Panic` (`Base.v`); a panic is never confused with an error
  result.  The text of an error message is not modelled, its presence and the status flag are.
* **State**: the two global maps (`keygen.Parties`, `onsign.SignParties`) are maps from key strings to party records
  (`Api.v`).  One exported call is one atomic step.
* **Randomness** is an explicit argument of the step that draws it.  Theorems quantify over it; where success depends on it
  (retry loops, units), the condition is a named predicate on the draws (`rand_ok`).
* **External code** (hash functions, HMAC, curve libraries, probabilistic primality test) is a parameter that theorems
  quantify over.  What is assumed of it is a record of laws (`curve_laws`, `ed_laws`, `cyclic_laws`), a hypothesis of each
  theorem that needs it, with an instance that meets the laws.  For the curve of the program the laws are proved
  (`Ed25519.v`, C52), so `C05_on_ed25519`, `C17_on_ed25519`, `C18_on_ed25519`, `C54_on_ed25519` have no curve hypothesis.
* **Loops** are structural recursions over the same range; loops that need not end (retries, searches) are relations or
  take the finite stream of draws and may run out of it.
* **Goroutines**: where the code starts goroutines (safe-prime search, GMR verification, `BaseUpdate` lock), the model is a
  transition system with one step per channel operation or locked section, and theorems quantify over interleavings.
* **Slices that alias** are modelled with an explicit backing array where it matters (`Subset.v`).

Each model definition cites the Go file and lines it models and says what it simplifies.

## 2. Files, in build order

| file | models or proves |
|---|---|
| `Base`, `BigInt` | outcome, indexing, `big.Int` `Bytes`/`SetBytes`, fixed-width integers (onsign/utils.go, common/hash.go) |
| `HashFrame` | common/hash.go |
| `Text` | `strings.Split`, hex, base64, `SetString`, `Itoa`/`Atoi` as used by eddsa.go, local_party.go |
| `Wire`, `Messages` | tss/wire.go, tss/message.go, eddsacmp/*/message/*.pb.go and messages.go (wire format of the generated code) |
| `PartyID` | tss/party_id.go, tss/params.go, tss/peers.go |
| `Curve`, `Schnorr` | crypto/ecpoint.go over an abstract curve; crypto/schnorr, common/hash_utils.go |
| `JsonStr`, `Json`, `Save` | encoding/json as used for the saved data: string literals with escapes, surrogates and malformed UTF-8 against a grammar, keys by case folding; eddsacmp/keygen/save_data.go |
| `Keygen` | eddsacmp/keygen/local_party.go, round_1..4.go |
| `Xor`, `KeygenNet`, `KeygenHonest`, `KeygenWorld`, `PropKeygen` | network of honest key-generation parties (C05) |
| `ToyCurve` | an 8-element-cofactor toy group meeting the laws, only for examples |
| `KeygenAdv`, `KeygenHist`, `PropKeygenAdv`, `PropKeygenCalls` | one party against arbitrary peers and callers (C06–C16) |
| `NumTh`, `Euler`, `Carmichael` | number theory on `Z` |
| `Paillier`, `PropPaillier`; `PaillierGen`, `PropPaillierGen`; `Gmr`, `PropGmr` | crypto/paillier, crypto/alice/paillier (C26, C49, C50) |
| `RangeProofs`, `RangeThm`, `PropRange`, `PropFiat` | crypto/config.go, crypto/encproof, crypto/logproof, affinegroupzkproof.go `GetE` (C27, C28, C53) |
| `Ckd`, `PropCkd` | crypto/ckd/child_key_derivation_eddsa.go (C22, C23) |
| `Bip32`, `PropBip32` | crypto/ckd/child_key_derivation.go, btcec/v1/pubkey.go compressed form (C45, C51) |
| `Subset`, `PropSubset` | save_data.go `BuildLocalSaveDataSubset` with aliasing (C21) |
| `Onsign` | eddsacmp/onsign/local_party.go, round_1..3.go, round_final.go, utils.go |
| `OnsignEnc`, `OnsignHist`, `PropSign`, `SignEx`, `PropSignEx`, `PropPartial` | one signing party, arbitrary histories (C10–C13, C16, C17, C19, C20, C34, C43) |
| `SignHonest`, `SignExec`, `SignWorld`, `PropSignHonest` | network of honest signers (C18) |
| `Api`, `PropApi` | eddsa.go over the two registries (C01–C03) |
| `PropBase` | C04, C24, C25, C35, C36, C37 |
| `Commit`, `PropCommit` | crypto/commitments (C29, C30) |
| `IntMod` | common/int.go, common/slice.go (C44, C46) |
| `Dln`, `PropDln` | crypto/dlnproof (C31) |
| `PointEnc` | crypto/ecpoint.go encodings, tss/curve.go registry (C33) |
| `BaseParty` | tss/party.go over an abstract protocol, tss/round.go as its interface (C38) |
| `AliceUtils`, `Totient` | crypto/alice/utils/utils.go (C39) |
| `Random`, `Jacobi`, `PropRandom` | common/random.go, crypto/utils.go, samplers of alice/utils (C41) |
| `ModProof`, `PropMod`, `PropModHonest` | crypto/modproof (C32) |
| `Primes`, `PropPrimes`; `SafePrime`, `PropSafePrime` | alice/utils/prime.go, common/safe_prime.go (C40, C47) |
| `RingPed`, `PropRingPed` | crypto/alice/zkproof/paillier, alice/paillier/ringpedersen.go (C42) |
| `Factor`, `PropFactor` | crypto/alice/zkproof/integerfactorization.go (C48) |
| `Pocklington`, `FieldP`, `EdGroup`, `AbGroup`, `EdwardsP`, `Ed25519`, `PropEd25519` | the Ed25519 curve: primality certificates, group law, order, compression (C52) |
| `PropEndToEnd` | key generation followed by signing (C54) |
| `SecpField`, `SecpFieldThm`, `SecpNorm`, `SecpOps`, `SecpPrimes`, `PropSecpField` | btcec/v1/field.go, words and carries included (C55) |
| `AbZ`, `WGroup`, `WCurve`, `Secp256k1`, `PropSecp` | secp256k1 as a group: chord-and-tangent law, order, endomorphism (C56) |
| `SecpCurve`, `SecpJac`, `SecpMul`, `SecpZero`, `PropSecpCurve` | btcec/v1/btcec.go curve methods, gensecp256k1.go table (C57); derivation on the real curve (C51) |
| `PropSave` | saved key data: JSON text of `Save`/`Json` (C58) |
| `Ecdsa`, `PropPubKey`, `PropEcdsa`, `PropDer` | btcec/v1/pubkey.go (C59), privkey.go and signature.go: signing, verification, recovery (C60), encodings (C61) |
| `Cipher`, `PropCipher` | btcec/v1/ciphering.go: ECDH, Encrypt, Decrypt, padding (C62); CBC chaining written out, AES, SHA-512, HMAC arbitrary functions |
| `Registry` | tss/curve.go: registry and current curve as a state machine over call histories, map order as a permutation; JSON of points on top (C63) |
| `Bip340`, `PropBip340` | btcec/v2/curve.go ParseJacobian/JacobianToByteSlice, schnorr/pubkey.go, schnorr/signature.go over the proved group of Secp256k1; TaggedHash and RFC 6979 nonces are arbitrary functions (C64) |
| `Musig`, `PropMusig` | btcec/v2/schnorr/musig2 keys.go, nonces.go, sign.go over the same group; TaggedHash is an arbitrary function, sort.Sort an arbitrary sorted permutation, the random bytes of GenNonces an argument (C65). context.go: see `MusigCtx` |
| `MusigCtx`, `PropMusigCtx` | musig2/context.go: a world of one Context and any number of Sessions, one step per exported call, panics keep the state reached; other SignOptions than WithFastSign and WithSortedKeys, and nil signatures, are left out (C66) |
| `Der2` | btcec/v2/ecdsa/signature.go parseSig (C67); the rest of that file calls the external decred library |
| `PropSubgroup` | C68: small-order points in keygen round 3/4 and Final (uses Schnorr, Keygen, Onsign, Ed25519) |
| `PropReplay` | C69: replay between sessions of keygen and signing (uses Schnorr, Keygen, Onsign, OnsignHist, SignEx, PropSubgroup) |
| `Conc` | calls from several goroutines: the API split into lookup, work, insertion and deletion over shared maps with Go's conflict check |
| `PropConc` | C70: schedules of concurrent calls (uses Api, PropApi, Conc) |
| `PropPin` | C35, C58, C60, C62: formats and grammars pinned down (UTF-8, JSON numbers, unknown fields, digest and nonce seed, layout of an encrypted message) |
| `PropBlame` | C71: who is named when a run fails |

Statements are in `Prop*.v` (and in `IntMod`, `PointEnc`, `BaseParty`, `AliceUtils`, `Totient`, where the model is small),
each file starting with the specification its statements use.  `*_example*` theorems show that the hypotheses can be met;
`*_refuted` theorems are proved counterexamples to parts of a property that the code does not have; `*_partial` theorems
prove the part that holds of a property that fails in general.

## 3. Properties: what is modelled, how it is proved, what is missing

| id | model and proof | status |
|---|---|---|
| C01–C03 | `Api.step` over two maps; frame lemma per call, induction over histories against a set of live keys | proved |
| C04 | insertion sort for `sort.Sort`; any sorted permutation is equal for distinct keys | proved |
| C05 | transition system of N parties with message network, invariant over every schedule; progress by a measure | proved |
| C06–C08 | round 3 / round 4 loops by induction over peers, any state; framing injectivity turns two openings into a hash collision | proved |
| C09 | xor over peers is permutation invariant; a retried round 3 xors again | partial: idempotence refuted |
| C10–C12 | Accept and Finish functions over every state and history | partial: store-before-validate refutes the full claims |
| C13 | histories in which a round fails | partial: caller can continue after an error, refuted |
| C14 | constructor and round 1 | partial: an empty root key is the number 0, refuted |
| C15 | `SaveChainCodes`, iff | proved |
| C16 | extraction theorems plus witness histories | partial: repeated calls reuse a nonce, refuted |
| C17, C20 | every history of signing calls, invariants on the stored slots | proved |
| C18 | as C05, for signing, including the range proofs and proofs of nonces | proved |
| C19 | message path | partial: leading zero bytes lost, refuted |
| C21 | store with aliasing | partial: strict subsets keep a stale tail and overwrite the source, refuted |
| C22, C23 | path walk by induction; path parser against a specification | C23 partial: crashes and truncations refuted |
| C24 | parse from the end of the hash input | proved |
| C25 | group algebra from the laws | proved |
| C26 | Carmichael exponents modulo N^2 | proved |
| C27, C28 | exponent algebra; exact acceptance; extraction | C27 partial: malformed z1 crashes, refuted |
| C29, C30, C31, C32 | exact acceptance (iff), round trips, completeness, extraction (C31) | proved |
| C33–C36 | codec round trips and rejection | proved |
| C37 | commuting deliveries, induction over permutations | proved |
| C38 | invariant over interleavings of locked sections | proved |
| C39, C44, C46 | arithmetic; totient via mathcomp | proved |
| C40 | sieve tables reflected into divisibility | partial: table defects refuted |
| C41 | samplers over every byte stream; exact counting of draws | proved |
| C42 | exact acceptance, completeness, extraction | partial: crash on short proofs etc. refuted |
| C43 | payload slicing | partial: short payloads not rejected, refuted |
| C45, C51 | base58 bijection; derivation by induction over paths | C45 partial: keys made by NewExtendKey never parse, refuted |
| C47 | transition system of the collector and its goroutines | partial: a deadlocking schedule is exhibited |
| C48, C49, C50 | number theory; exact acceptance | C50 partial: N = 1 loops, nil entries race, refuted |
| C52 | Edwards group law over a prime field (`field`), Pocklington certificates, group order by counting | proved |
| C53 | injectivity of the hashed transcripts | partial: logproof hashes only y coordinates, refuted |
| C54 | composition of C05, C21, C22, C18 | proved |
| C55 | carry-chain invariants over uint32/uint64 words, exponent chains, Fermat | proved |
| C56 | associativity by `field` over a prime field, Pocklington certificates, order by counting points with an endomorphism | proved |
| C57 | refinement of Jacobian formulas on word-level field values to the group law; loop invariants over NAF digits and table windows | proved |
| C58 | parser/printer of JSON values: round trip, prefix-freeness of texts, string literals and field names against independent grammars, induction over the text | proved |
| C59 | word-level decompression refined to numbers (C55), exact acceptance of the parser by cases on the first byte | proved |
| C60 | Go's generic `crypto/ecdsa.Verify` and signature.go over the group of C56/C57; HMAC arbitrary, nonce search with fuel | proved |
| C61 | parser by successive reads with explicit panics; acceptance as an iff with an independent grammar | proved |
| C62 | read-by-read model of Decrypt with explicit panics; format and MAC equation read off every accepted string; round trip through the curve group and CBC inversion; `C62_padding_unchecked_refuted` | proved |
| C63 | fold over the history of calls; induction from the last call; name search over any permutation of the entries; `_refuted` theorems for shared types, empty name, nil curve | proved |
| C64 | Verify ⇔ the BIP-340 equation over the group; Sign ⇒ valid by the group laws; parsers characterised by iff; key negation in place as a second result | proved |
| C65 | key and nonce aggregation as sums over the group; partial verification as an equation; the combination is valid ⇔ an explicit defect sum vanishes (it does for even keys); honest run composed from Sign, verify, combine; nonce reuse by Cramer's rule | proved |
| C66 | invariant over all call sequences (induction on the history from its end); frozen-context relation; honest run by C65_honest; stuck and panicking runs as `_refuted` theorems | proved |
| C67 | equality of the two parsers by cases along their common reads; the acceptance theorems of C61 carry over | proved |
| C68 | decomposition of every accepted point into a base multiple and a small-order point; the acceptance equation splits into the two parts because n is prime to 8 | partial: false of the code (refuted on Ed25519 and by a complete toy run); exact acceptance condition, shape of the group key and which signatures fail are proved |
| C69 | keygen: two accepted challenges for one answer are equal modulo n (cancellation; 8X not neutral); signing: the session identifier is the constant "eddsacmp-onsign" after every first round-1 call (history induction), and the proofs of rounds 1 and 2 bind nothing else of the session | partial: proved for key generation; false of the code for signing: for all pairs of histories that agree on the recorded messages, rounds 2 and 3 of the second session accept what the first accepted, and a toy run signs on with no peer taking part |
| C70 | transition system of goroutines over the two registries (Go maps end the process when an access starts during a write); linearization by an invariant that relates it to the sequential histories of C01 | partial: false of the code for New and Remove (no lock; two constructors for different keys can end the process); for round calls with one session per goroutine every schedule is proved equivalent to the sequential runs, and for all calls under a stated discipline (New and Remove exclusive) |
| C71 | the replies of rounds 3 and 4 of keygen read off the model (who is named, and what that party sent), compared with what an honest party sends; runs in which an honest party is named | partial: false of the code (rounds 1 and 2 are not echoed, so a party that opens different commitments to different parties makes an honest one named; the final signing round names nobody, and its reply is the same whoever cheated); proved: round 3 never names an honest party, round 4 names one only if its seed differs from the verifier's |

Reductions replace computational assumptions: binding and uniqueness claims conclude with an explicit hash collision, and
soundness claims with the extracted witness.

## 4. What is not modelled

* Memory-model effects other than conflicting map accesses (data races inside one session, timing side channels), the quality of the operating
  system's random source, and computational hardness.
* Texts of errors and log lines: `common/logger.go`, `tss/error.go`.  `eddsacmp/*/rounds.go` (round structs that only embed
  parameters) and the interface declarations of `tss/round.go` have no behaviour of their own.
* Generated `*.pb.go` code is modelled by the proto3 wire format of the declared messages, not line by line; unknown fields
  (including groups) and field order are covered; unknown fields are dropped instead of kept for re-encoding (`Wire.v`).
* Go's standard library: `math/big` by its mathematical meaning, `encoding/json` by a grammar for the saved types, `sort` by
  a sorting function, SHA-256/SHA-512/BLAKE/HMAC as arbitrary functions (with an output length where it matters),
  `ProbablyPrime` as a predicate.
* External modules that are not in /repo: decred/edwards and agl/ed25519.  That they compute the mathematical curve of
  `Ed25519.v` is an assumption of the `_on_ed25519` theorems.
* Vendored `package/github.com/btcsuite/btcd/btcec`: v2 outside curve.go, schnorr and schnorr/musig2 (wrappers around decred's secp256k1/v4, which is not in /repo; nothing in the repository imports v2), and what of v1 is not listed in
  section 2.  The table of multiples shipped as text in `secp256k1.go` is not in the model: the theorems hold for every correct
  table and for the one the generator computes; `tools/check_table.py` is a test (not a proof) that the shipped text is correct.

## 5. Trusted base

* The Coq 8.16.1 kernel: `coqc` for the build, `coqchk` for the second check.  `vm_compute` is used in examples, sieve tables
  and primality certificates; `native_compute` is not.
* `Print Assumptions` says "Closed under the global context" for every theorem in `MANIFEST.json`: no axiom at all, neither
  our own nor of the standard library (output recorded in `assumptions.txt`, made with `tools/gen_assumptions.py`).  Libraries used: the Coq
  standard library and, in `Totient.v` only, mathcomp.
* The model itself: that each definition describes the Go lines it cites.  Each wrong-program experiment of
  `seeded/LOG.jsonl` checks that a changed definition makes some theorem fail, not that the definition matches the code.
