{"id": "C01", "title": "Sign-then-verify completeness, ZKB++ parameter sets", "statement": "For each of the nine ZKB++ parameter sets (Picnic L1/L3/L5 FS, UR and full), whenever picnic_sign returns 0 for a private key and a message, picnic_verify with the matching public key, the same message and the returned signature bytes returns 0.", "quantifier": "every private key (any 32-byte contents whose padding bits are zero), every plaintext block, every message of every length, every hash function behaviour, every content of uninitialised memory", "why_tests_cant": "Tests sign a handful of random keys; the claim ranges over all keys, messages and all challenge patterns the hash can produce (3^T of them), most of which no test ever hits.", "anchors": ["picnic.c:picnic_sign", "picnic.c:picnic_verify", "picnic_impl.c:sign_picnic1", "picnic_impl.c:verify", "picnic_impl.c:serializeSignature", "picnic_impl.c:deserializeSignature"]}
{"id": "C02", "title": "Sign-then-verify completeness, Picnic3 parameter sets", "statement": "For Picnic3_L1, Picnic3_L3 and Picnic3_L5, whenever picnic_sign returns 0, picnic_verify with the matching public key, the same message and the returned bytes returns 0.", "quantifier": "every private key with zero padding bits, every message, every hash function behaviour (hence every challenge set and every unopened party)", "why_tests_cant": "Which rounds are opened and which party is hidden is chosen by the hash: tests see a vanishing fraction of the C(T,u)*16^u challenge outcomes.", "anchors": ["picnic3_impl.c:sign_picnic3", "picnic3_impl.c:verify_picnic3", "picnic3_impl.c:serializeSignature2", "picnic3_impl.c:deserializeSignature2", "tree.c"]}
{"id": "C03", "title": "Signing fails on an inconsistent private key", "statement": "picnic_sign never produces a signature from a private key whose embedded public key is not the LowMC encryption of the plaintext under the secret: it returns -1. Conversely for a consistent key with a sufficiently large buffer it returns 0 (whenever challenge sampling ends).", "quantifier": "every private key structure, consistent or not, every message", "why_tests_cant": "The set of inconsistent keys is 2^128 and larger; a test can only try a few.", "anchors": ["picnic.c:picnic_sign", "picnic_impl.c:sign_picnic1", "picnic3_impl.c:sign_picnic3", "picnic3_impl.c:simulateOnline"]}
{"id": "C04", "title": "Buffer of picnic_signature_size bytes always suffices and the length returned never exceeds it", "statement": "With *signature_len >= picnic_signature_size(params), picnic_sign never fails for lack of space, and the length it returns is at most picnic_signature_size(params), which is at most PICNIC_MAX_SIGNATURE_SIZE. In particular the number of seed-tree and Merkle-tree nodes a Picnic3 signature must carry never exceeds the bound built into picnic_signature_size.", "quantifier": "every parameter set, every challenge the hash may produce (every u-subset of the T rounds), every key and message", "why_tests_cant": "The worst-case challenge sets for the tree openings have negligible probability, so no test will ever see the maximal signature.", "anchors": ["picnic.c:picnic_signature_size", "picnic.c:picnic_sign", "picnic.h:PICNIC_MAX_SIGNATURE_SIZE", "tree.c:getRevealedNodes", "tree.c:getRevealedMerkleNodes", "tree.c:revealSeedsSize", "tree.c:openMerkleTreeSize"]}
{"id": "C05", "title": "picnic_sign writes only inside the caller's buffer and only the bytes it reports", "statement": "On success picnic_sign has changed exactly the first *signature_len bytes of the buffer; on failure the buffer is unchanged; it never writes at or beyond the length passed in.", "quantifier": "every buffer size, every key, every message, every challenge", "why_tests_cant": "A memory-safety claim over all buffer sizes and all (variable) signature lengths.", "anchors": ["picnic.c:picnic_sign", "picnic_impl.c:serializeSignature", "picnic3_impl.c:serializeSignature2"]}
{"id": "C06", "title": "Public key write/read round trip", "statement": "Serialising a public key with zero padding bits and reading the bytes back yields the same parameter set and the same key bytes; picnic_write_public_key returns 1 + 2*stateSizeBytes and touches nothing beyond these bytes.", "quantifier": "every parameter set, every key, every buffer at least as large as required", "why_tests_cant": "All 2^256+ keys and all buffer sizes.", "anchors": ["picnic.c:picnic_write_public_key", "picnic.c:picnic_read_public_key"]}
{"id": "C07", "title": "Private key write/read round trip", "statement": "Serialising a private key with zero padding bits and reading it back yields the same parameter set, secret, and embedded public key; picnic_write_private_key returns 1 + 3*stateSizeBytes.", "quantifier": "every parameter set, every key, every buffer at least as large as required", "why_tests_cant": "All keys and all buffer sizes.", "anchors": ["picnic.c:picnic_write_private_key", "picnic.c:picnic_read_private_key"]}
{"id": "C08", "title": "Key encodings are canonical and readers reject malformed input", "statement": "If picnic_read_public_key / picnic_read_private_key accept a buffer then writing the key back reproduces exactly the bytes consumed. Both reject (nonzero return) unknown parameter bytes, buffers that are too short and nonzero padding bits, for every input, and never read past the end of the buffer.", "quantifier": "every byte string and every claimed length", "why_tests_cant": "Canonicity is a statement about every byte string.", "anchors": ["picnic.c:picnic_read_public_key", "picnic.c:picnic_read_private_key", "picnic_impl.c:arePaddingBitsZero"]}
{"id": "C09", "title": "picnic_keygen yields a usable key pair", "statement": "When picnic_keygen returns 0, picnic_validate_keypair accepts the pair, every padding bit and every byte past the block is zero, the private key embeds the public key, and both keys survive a write/read round trip. If the random source fails, keygen returns -1.", "quantifier": "every output of the random source, every parameter set", "why_tests_cant": "Tests draw a few random keys; padding behaviour matters for all 2^128..2^256 draws.", "anchors": ["picnic.c:picnic_keygen", "picnic_impl.c:zeroTrailingBits", "picnic.c:picnic_validate_keypair"]}
{"id": "C10", "title": "picnic_validate_keypair decides exactly the LowMC relation", "statement": "For valid parameter sets picnic_validate_keypair returns 0 iff both structures carry the same parameter set and the ciphertext equals the LowMC encryption of the plaintext under the secret.", "quantifier": "every pair of key structures", "why_tests_cant": "Accepting or rejecting wrongly on a single key is invisible to sampling.", "anchors": ["picnic.c:picnic_validate_keypair", "picnic_impl.c:LowMCEnc"]}
{"id": "C11", "title": "picnic_validate_keypair tolerates NULL arguments", "statement": "picnic_validate_keypair(sk, pk) returns a nonzero code when either pointer is NULL (the code has an explicit NULL check). [Expected to be false of the code: the public key pointer is dereferenced before the check.]", "quantifier": "every pair of possibly-NULL pointers", "why_tests_cant": "The compiler may do anything once NULL is dereferenced, so a passing test shows nothing.", "anchors": ["picnic.c:picnic_validate_keypair"]}
{"id": "C12", "title": "Bytes of a public key beyond the block do not matter", "statement": "picnic_read_public_key leaves the tail of the key structure (bytes past stateSizeBytes) unspecified. Signing, verification and key validation give the same answer whatever these bytes are.", "quantifier": "every pair of public keys agreeing on the first stateSizeBytes bytes of both fields, every message and signature", "why_tests_cant": "Depends on uninitialised memory; a test run exercises a single accidental content.", "anchors": ["picnic.c:picnic_read_public_key", "picnic_impl.c:LowMCEnc", "picnic_impl.c:mpc_LowMC_verify", "picnic3_impl.c:simulateOnline"]}
{"id": "C13", "title": "ZKB++ signature encoding round trip", "statement": "Reading back a serialised ZKB++ signature (FS, UR, full) gives the same challenge, salt and per-round proofs; the unused fields are the only ones that may differ.", "quantifier": "every signature structure with zero padding bits, every challenge pattern", "why_tests_cant": "3^T challenge patterns determine the layout of the variable-length encoding.", "anchors": ["picnic_impl.c:serializeSignature", "picnic_impl.c:deserializeSignature"]}
{"id": "C14", "title": "Picnic3 signature encoding round trip and exact length", "statement": "Reading back a serialised Picnic3 signature gives the same signature; conversely any byte string that the reader accepts has exactly the length determined by its challenge, and re-serialising reproduces it byte for byte.", "quantifier": "every byte string, every signature structure", "why_tests_cant": "The layout depends on the challenge derived from the first bytes; all challenge sets and all byte strings are covered.", "anchors": ["picnic3_impl.c:serializeSignature2", "picnic3_impl.c:deserializeSignature2"]}
{"id": "C15", "title": "picnic_verify never reads outside the signature buffer: FS, full and Picnic3 sets", "statement": "For the FS, full and Picnic3 parameter sets, picnic_verify on an arbitrary (attacker-chosen) byte string neither reads beyond the buffer, nor triggers any out-of-bounds access, nor aborts on an assertion; it returns 0 or -1 (or keeps sampling challenges).", "quantifier": "every byte string of every length, every message, every public key structure, every hash function behaviour", "why_tests_cant": "Attacker-controlled input space; fuzzing cannot steer through the hash.", "anchors": ["picnic.c:picnic_verify", "picnic_impl.c:deserializeSignature", "picnic_impl.c:verify", "picnic3_impl.c:deserializeSignature2", "picnic3_impl.c:verify_picnic3", "tree.c"]}
{"id": "C16", "title": "picnic_verify never reads outside the signature buffer: UR sets", "statement": "For the Unruh-transform parameter sets picnic_verify on an arbitrary byte string never reads beyond the signature buffer. [Expected to be false of the code: the expected-length computation in the reader omits the input share carried inside G for rounds with challenge 0.]", "quantifier": "every byte string of every length", "why_tests_cant": "The over-read happens only for lengths between two bounds, and usually stays inside heap slack, so tests pass.", "anchors": ["picnic_impl.c:deserializeSignature", "picnic_impl.c:computeInputShareSize"]}
{"id": "C17", "title": "ZKB++ signatures tolerate trailing bytes", "statement": "A ZKB++ signature has a unique byte encoding: appending bytes to an accepted signature makes it rejected. [Expected to be false of the code: the reader only checks a minimum length, so accepted signatures stay accepted with any suffix.]", "quantifier": "every accepted signature, every nonempty suffix", "why_tests_cant": "Universal claim about all accepted signatures and all suffixes.", "anchors": ["picnic_impl.c:deserializeSignature", "picnic.c:picnic_verify"]}
{"id": "C18", "title": "Picnic3 signature bytes bind the message and the public key", "statement": "If the same signature bytes are accepted by picnic_verify for two different (message, public key block) pairs under one Picnic3 parameter set, then two distinct inputs with equal hash value are explicitly obtained from the two verifications.", "quantifier": "every pair of messages and keys, every byte string, every hash function", "why_tests_cant": "Statement about the absence of ambiguous hash inputs (domain separation, missing lengths) over all messages.", "anchors": ["picnic3_impl.c:HCP", "picnic3_impl.c:verify_picnic3"]}
{"id": "C19", "title": "Seed tree: opening reveals exactly the non-hidden leaves", "statement": "Rebuilding a seed tree from the output of revealSeeds for a nonempty hide list recovers every non-hidden leaf with its original value, marks no hidden leaf as known, and needs exactly revealSeedsSize bytes; no revealed node is an ancestor of a hidden leaf.", "quantifier": "every number of leaves >= 2, every root seed and salt, every nonempty hide list (any size, order, repetitions)", "why_tests_cant": "2^n hide lists and incomplete trees of every size.", "anchors": ["tree.c:generateSeeds", "tree.c:getRevealedNodes", "tree.c:revealSeeds", "tree.c:reconstructSeeds", "tree.c:expandSeeds"]}
{"id": "C20", "title": "Merkle tree: opening is complete", "statement": "From the non-missing leaves and the bytes produced by openMerkleTree, verification recomputes the original root, for every set of missing leaves.", "quantifier": "every number of leaves >= 2, all leaf data, every missing list that leaves at least one leaf", "why_tests_cant": "2^n missing lists and incomplete trees of every size.", "anchors": ["tree.c:buildMerkleTree", "tree.c:openMerkleTree", "tree.c:addMerkleNodes", "tree.c:verifyMerkleTree"]}
{"id": "C21", "title": "Merkle tree: opening is binding", "statement": "If a Merkle opening verifies against a given root with a leaf value different from the committed one, a hash collision (two explicit distinct inputs with equal digests) is exhibited.", "quantifier": "every tree size, all leaf data, every opening, every hash function", "why_tests_cant": "Soundness claim over all forged openings.", "anchors": ["tree.c:verifyMerkleTree", "tree.c:computeParentHash", "tree.c:addMerkleNodes"]}
{"id": "C22", "title": "Challenge expansion is well formed", "statement": "The Picnic3 challenge derived from any hash value selects exactly u pairwise distinct round indices below T and u party indices below N; the ZKB++ challenge consists of T trits in {0,1,2} with zero padding bits and no dependence on uninitialised memory.", "quantifier": "every challenge hash value, every hash function", "why_tests_cant": "A duplicate or out-of-range index would appear only for rare digests.", "anchors": ["picnic3_impl.c:expandChallengeHash", "picnic3_impl.c:appendUnique", "picnic3_impl.c:bitsToChunks", "picnic_impl.c:H3", "picnic_impl.c:setChallenge", "picnic_impl.c:getChallenge"]}
{"id": "C23", "title": "Challenge sampling terminates", "statement": "Challenge derivation (H3 and expandChallengeHash) ends for every hash function. [Expected to be false in general: both loops are unbounded rejection loops; there is a hash behaviour on which they never end, and more fuel never changes a result once produced.]", "quantifier": "every hash function", "why_tests_cant": "Non-termination cannot be observed by finite tests.", "anchors": ["picnic_impl.c:H3", "picnic3_impl.c:expandChallengeHash"]}
{"id": "C24", "title": "matrix multiplication and S-box layer compute LowMC", "statement": "LowMCEnc computes the LowMC encryption defined mathematically over bit vectors (GF(2) matrix products, 3-bit S-boxes on the first 3m bits, round constants and round keys), for every key, plaintext and every choice of constants, independent of uninitialised memory and of input bits beyond the block size.", "quantifier": "every block size, number of rounds and S-boxes, all matrices, keys and plaintexts", "why_tests_cant": "2^(2n) input pairs.", "anchors": ["picnic_impl.c:LowMCEnc", "picnic_impl.c:matrix_mul", "picnic_impl.c:substitution", "picnic_impl.c:parity32"]}
{"id": "C25", "title": "LowMC encryption under a fixed key is injective", "statement": "If the linear-layer matrices are invertible, different plaintext blocks encrypt to different ciphertexts under the same key.", "quantifier": "every key, every pair of plaintexts", "why_tests_cant": "Quantifies over all pairs of blocks.", "anchors": ["picnic_impl.c:LowMCEnc", "picnic_impl.c:substitution"]}
{"id": "C26", "title": "ZKB++ multiparty evaluation is correct", "statement": "Running the three-party LowMC evaluation of the signer on any three input shares and random tapes gives output shares that XOR to the LowMC encryption of the plaintext under the XOR of the input shares.", "quantifier": "all shares, all tapes, all plaintexts, all constants", "why_tests_cant": "All randomness of the proof system.", "anchors": ["picnic_impl.c:mpc_LowMC", "picnic_impl.c:mpc_substitution", "picnic_impl.c:mpc_AND"]}
{"id": "C27", "title": "ZKB++ rounds are 3-special-sound", "statement": "If the verifier's recomputation accepts the openings for all three challenge values 0, 1, 2 of one round with the same three views and output shares, then the XOR of the three input shares is a LowMC key that maps the public plaintext to the public ciphertext.", "quantifier": "all views, tapes, shares and public keys", "why_tests_cant": "Soundness (forgery resistance) ranges over all cheating provers.", "anchors": ["picnic_impl.c:verifyProof", "picnic_impl.c:mpc_LowMC_verify", "picnic_impl.c:mpc_AND_verify"]}
{"id": "C28", "title": "Picnic3 online simulation is correct", "statement": "With preprocessing done by computeAuxTape, the masked online evaluation succeeds exactly when the LowMC encryption of the plaintext under the unmasked key equals the public ciphertext, for every choice of random tapes.", "quantifier": "all tapes, all keys, all plaintexts; constants with the documented inverse matrices", "why_tests_cant": "All randomness of the preprocessing phase.", "anchors": ["picnic3_impl.c:computeAuxTape", "picnic3_impl.c:simulateOnline", "picnic3_impl.c:aux_mpc_AND", "picnic3_impl.c:mpc_AND"]}
{"id": "C29", "title": "Unruh signatures have a fixed length", "statement": "For the UR parameter sets every signature produced has length exactly picnic_signature_size(params), independent of the challenge; for the FS sets it is shorter by stateSizeBytes for each round with challenge 0.", "quantifier": "every challenge pattern", "why_tests_cant": "3^T challenge patterns.", "anchors": ["picnic_impl.c:serializeSignature", "picnic.c:picnic_signature_size"]}
{"id": "C30", "title": "Parameter table is consistent", "statement": "get_param_set accepts exactly the twelve defined identifiers, returns an error for every other value, and every accepted set satisfies the size relations the rest of the code relies on (block bytes/words, AND bytes, tape sizes, scratch buffer sizes, digest lengths, key sizes within PICNIC_MAX_*).", "quantifier": "every 32-bit parameter identifier", "why_tests_cant": "The rejection part ranges over all integers.", "anchors": ["picnic.c:get_param_set", "picnic.c:is_valid_params", "picnic.h"]}
{"id": "C31", "title": "Unknown parameter sets are rejected by the whole API", "statement": "keygen, sign, verify, signature_size and all key readers/writers return their error value for every parameter identifier outside 1..12 and touch no output.", "quantifier": "every identifier", "why_tests_cant": "All integers outside the table.", "anchors": ["picnic.c:picnic_keygen", "picnic.c:picnic_sign", "picnic.c:picnic_verify", "picnic.c:picnic_signature_size"]}
{"id": "C32", "title": "ceil_log2, numBytes, parity and bit accessors are correct", "statement": "ceil_log2(x) is the least k with 2^k >= x for every 32-bit x > 0; numBytes is the ceiling of n/8; parity32 and parity16 give the XOR of all bits; getBit after setBit returns the written bit and leaves every other bit alone.", "quantifier": "every 32-bit word, every bit position, every buffer", "why_tests_cant": "2^32 words and all positions.", "anchors": ["picnic3_impl.c:ceil_log2", "picnic3_impl.c:nlz", "picnic_impl.c:numBytes", "picnic_impl.c:parity32", "picnic3_impl.c:parity16", "picnic_impl.c:getBit", "picnic_impl.c:setBit"]}
{"id": "C33", "title": "Incremental hashing equals one-shot hashing", "statement": "Absorbing data through any sequence of HashUpdate calls and squeezing through any sequence of HashSqueeze calls gives the SHAKE output of the concatenated data: results depend only on the concatenation, never on how it was chunked.", "quantifier": "every sequence of chunks and output lengths", "why_tests_cant": "Chunk boundaries relative to the sponge rate have unboundedly many cases.", "anchors": ["hash.c:HashInit", "hash.c:HashUpdate", "hash.c:HashFinal", "hash.c:HashSqueeze", "sha3/KeccakSponge.inc", "sha3/KeccakHash.c"]}
{"id": "C34", "title": "Signing and verification do not depend on uninitialised memory", "statement": "The results of picnic_sign, picnic_verify, keygen and validate are the same for every content of the buffers the code allocates without clearing (malloc'ed challenge and view buffers, stack temporaries).", "quantifier": "every content of every uninitialised buffer", "why_tests_cant": "A test run sees one accidental memory content.", "anchors": ["picnic_impl.c:matrix_mul", "picnic_impl.c:H3", "picnic3_impl.c:tapesToWord", "picnic3_impl.c:computeAuxTape", "picnic_types.c"]}
{"id": "C35", "title": "Tape and scratch buffers are large enough", "statement": "For every parameter set and every execution of signing, all accesses to tapes, views, communicated-bit buffers, scratch memory and tree nodes stay in bounds and no assertion fires.", "quantifier": "every execution of picnic_sign on every key structure and message", "why_tests_cant": "Out-of-bounds writes of a few bits are silently absorbed by allocator slack.", "anchors": ["picnic_impl.c:sign_picnic1", "picnic3_impl.c:sign_picnic3", "picnic_types.c:allocateViews", "picnic_types.c:allocateRandomTape"]}
{"id": "C36", "title": "Every validated key pair signs verifiably", "statement": "Whenever picnic_validate_keypair accepts a key pair and picnic_sign with this private key returns 0, picnic_verify accepts the signature. [Expected to be false of the code for the ZKB++ sets whose block size is not a multiple of 8: validation ignores the padding bits of the secret, signing copies them into a transmitted input share, and the verifier rejects input shares with nonzero padding bits.]", "quantifier": "every key pair that validates, every message, every hash function behaviour", "why_tests_cant": "Tests only use keys from picnic_keygen or the key readers, both of which clear or reject padding bits.", "anchors": ["picnic.c:picnic_validate_keypair", "picnic_impl.c:sign_picnic1", "picnic_impl.c:deserializeSignature"]}
{"id": "C37", "title": "Seed tree leaves are derived along their path", "statement": "The seed of every leaf of a generated tree is obtained from the root seed by hashing (prefix 1, seed, salt, repetition index, node number) once per level and taking the left or right half according to the path to the leaf.", "quantifier": "every number of leaves from 2 to 2^29, every root seed, salt, repetition index, every hash function", "why_tests_cant": "Trees of every size and shape; test vectors only see the sizes 16 and 250/419/601.", "anchors": ["tree.c:generateSeeds", "tree.c:expandSeeds", "tree.c:hashSeed"]}
{"id": "C38", "title": "ZKB++ signatures are the bytes the specification defines", "statement": "For the nine ZKB++ parameter sets and a consistent private key with zero padding bits, picnic_sign writes exactly the byte string defined by Section 6 of the Picnic specification v3.0 (seed derivation, tapes, three-party LowMC evaluation, commitments, G, challenge hash with rehashing, serialization), leaves the rest of the buffer alone and returns its length; with a buffer shorter than the largest signature it returns an error and changes nothing. Where the document and the code differ (order of salt and public key in the challenge hash, n instead of S in the seed derivation, byte-aligned tapes, bit order of the encoded challenge) the formal specification follows the code and says so.", "quantifier": "all nine parameter sets, every key, message, buffer, every hash function and every set of LowMC constants", "why_tests_cant": "Test vectors fix a few keys and messages; an error that changes signer and verifier together, or one that only shows for rare challenges, keys or padding, passes sign/verify tests.", "anchors": ["picnic.c:picnic_sign", "picnic_impl.c:sign_picnic1", "picnic_impl.c:H3", "picnic_impl.c:serializeSignature"]}
{"id": "C39", "title": "ZKB++ verification is the one the specification defines", "statement": "For the nine ZKB++ parameter sets picnic_verify accepts a byte string exactly when the verification procedure of Section 6 of the specification (parsing, recomputation of the two opened views per repetition, third output share from the public key, comparison of the recomputed challenge) accepts it. The only other outcome is the out-of-bounds read of C16, for Unruh sets and strings the specification does not parse.", "quantifier": "all nine parameter sets, every public key with zero ciphertext padding, message, signature string, every hash function and every set of LowMC constants", "why_tests_cant": "Acceptance of malformed or adversarial strings cannot be enumerated.", "anchors": ["picnic.c:picnic_verify", "picnic_impl.c:verify", "picnic_impl.c:verifyProof", "picnic_impl.c:deserializeSignature"]}
{"id": "C40", "title": "Parameter sets are those of the specification", "statement": "For each of the twelve parameter sets block size, S-box count, LowMC rounds, SHAKE variant, digest and seed length, repetitions, opened repetitions, parties, transform and derived byte sizes are those of Table 2 of the specification.", "quantifier": "all parameter set identifiers", "why_tests_cant": "A wrong repetition count or digest length keeps signing and verification consistent with each other.", "anchors": ["picnic.c:get_param_set"]}
{"id": "C41", "title": "Picnic3 signatures are those of the specification", "statement": "For the picnic3 parameter sets, with a valid key pair, picnic_sign writes exactly the byte string that Section 7 of the specification defines for the secret key, public key and message, returns its length, and fails without touching the buffer if it does not fit.", "quantifier": "all three picnic3 parameter sets, all hash outputs, LowMC constants with correct inverses, valid keys with zero padding bits, messages, buffers and lengths", "why_tests_cant": "Known-answer tests cover a few keys and messages; the tree shapes depend on the challenge, and a wrong derivation used by both signer and verifier is invisible to round-trip tests.", "anchors": ["picnic.c:picnic_sign", "picnic3_impl.c:sign_picnic3", "picnic3_impl.c:serializeSignature2", "tree.c:generateSeeds", "tree.c:buildMerkleTree"]}
{"id": "C42", "title": "Picnic3 verification is that of the specification", "statement": "For the picnic3 parameter sets picnic_verify returns success on exactly those byte strings that the verification algorithm of Section 7 of the specification accepts for the public key and message, and rejects all others without undefined behaviour.", "quantifier": "all three picnic3 parameter sets, all hash outputs, LowMC constants with correct inverses, public keys, messages and byte strings of any length", "why_tests_cant": "Accepting too much cannot be seen by testing with honest signatures, and the strings near the boundary depend on hash outputs.", "anchors": ["picnic.c:picnic_verify", "picnic3_impl.c:verify_picnic3", "picnic3_impl.c:deserializeSignature2", "tree.c:reconstructSeeds", "tree.c:verifyMerkleTree"]}
{"id": "C43", "title": "Two opened ZKB++ parties do not reveal the key", "statement": "In one repetition of the three-party evaluation, the views of any two parties are compatible with every key share of the third: for each alternative share there is exactly one random tape of the third party, as far as its bits are used, that leaves the two views unchanged byte for byte. If the key shared in this way has the same ciphertext, the published output share of the third party is unchanged too.", "quantifier": "all nine non-picnic3 parameter sets, LowMC constants, input shares, tapes, plaintexts, choices of the unopened party and alternative shares", "why_tests_cant": "Privacy is a statement about all executions that would look the same; an evaluation that correlates an opened party's messages with the hidden share still signs and verifies correctly.", "anchors": ["picnic_impl.c:mpc_LowMC", "picnic_impl.c:mpc_AND", "picnic_impl.c:mpc_substitution"]}
{"id": "C44", "title": "The tapes, masked key and messages of a Picnic3 opening fit every key of the public key", "statement": "For every hidden party and every other key with the same public key there is a tape of the hidden party for which preprocessing and the online phase produce the same masked key, the same tapes and auxiliary bits of all other parties, and the same broadcast messages of all parties including the hidden one; that tape is unique up to bits that are never revealed. (This concerns these values only; the commitment of the hidden party, also part of the opening, is the subject of C52.)", "quantifier": "all three picnic3 parameter sets, LowMC constants with correct inverses, tapes, hidden parties, keys and public keys", "why_tests_cant": "The statement compares the run with one under a key the tester does not have; leaking a wire through the auxiliary bits leaves signing and verification correct.", "anchors": ["picnic3_impl.c:computeAuxTape", "picnic3_impl.c:simulateOnline", "picnic3_impl.c:aux_mpc_AND", "picnic3_impl.c:mpc_AND"]}
{"id": "C45", "title": "Accepted Picnic3 openings with the same challenge hash give the private key", "statement": "Take three accepted answers to the same challenge hash for one public key and message, where some repetition has its preprocessing shown by the first and its online phase shown by the other two with different unopened parties. Then the bytes in the three answers determine a private key of the public key (the masked key with the mask of the shown preprocessing removed), or two different strings with equal hash are found among the strings verification hashes for the three answers.", "quantifier": "all three picnic3 parameter sets, hash functions, LowMC constants with correct inverses, public keys, messages, answers of the right sizes (honest or not) and repetitions", "why_tests_cant": "Soundness is about signatures made by an attacker with any strategy; a verifier that forgets to bind one field still accepts all honest signatures.", "anchors": ["picnic3_impl.c:verify_picnic3", "picnic3_impl.c:commit", "picnic3_impl.c:commit_h", "picnic3_impl.c:commit_v", "picnic3_impl.c:HCP", "tree.c:verifyMerkleTree"]}
{"id": "C46", "title": "ZKB++ signature bytes bind the message and the public key", "statement": "If the same signature bytes are accepted by picnic_verify for two different (message, public key block) pairs under one FS, UR or full parameter set, then the strings that the two verifications hash to obtain the challenge are different and give the same challenge, namely the one encoded in the signature.", "quantifier": "all nine ZKB++ parameter sets, every pair of messages and keys, every byte string, every hash function", "why_tests_cant": "Statement about the absence of ambiguous hash inputs over all messages and keys; a verifier that leaves the public key or part of the message out of the hash still accepts all honest signatures.", "anchors": ["picnic_impl.c:H3", "picnic_impl.c:verify", "picnic.c:picnic_verify"]}
{"id": "C47", "title": "Verification releases everything it allocates", "statement": "Every call of picnic_verify, whatever the signature bytes, frees exactly the blocks it allocated: afterwards the live memory is that before the call, no block is freed twice, no pointer that was never set is freed or read, and no memory outside live blocks is accessed through the pointer tables.", "quantifier": "all twelve parameter sets, every signature byte string, every hash function, every outcome of the intermediate checks, every prior state of memory", "why_tests_cant": "Depends on all error paths of the verifier and on all inputs that reach them; tests see only a few of them and a leak or double free shows no difference in the result.", "anchors": ["picnic.c:picnic_verify", "picnic_impl.c:verify", "picnic3_impl.c:verify_picnic3", "picnic3_impl.c:deserializeSignature2", "picnic_types.c", "tree.c:freeTree"]}
{"id": "C48", "title": "Signing releases everything it allocates", "statement": "Every call of picnic_sign frees exactly the blocks it allocated: for Picnic3 on all paths, for ZKB++ when the key pair is consistent. For an inconsistent ZKB++ key pair signing fails and the seeds, views, commitments and tapes stay allocated (false of the code).", "quantifier": "all twelve parameter sets, all outcomes of the round simulations and of serialisation, every prior state of memory", "why_tests_cant": "Leaks on failure paths show no difference in results; the statement covers all states of memory and all paths.", "anchors": ["picnic.c:picnic_sign", "picnic_impl.c:sign_picnic1", "picnic3_impl.c:sign_picnic3", "picnic_types.c"]}
{"id": "C49", "title": "print_signature prints the parsed signature", "statement": "For ZKB++, print_signature prints challenge, salt and the fields of each round of any signature that parses, stays inside its buffers, and the printed bytes are the signature bytes in order; for bytes that do not parse it prints that. For Picnic3 it reads beyond the end of a heap buffer for every signature that picnic_verify accepts (false of the code).", "quantifier": "all twelve parameter sets, every byte string, every hash function", "why_tests_cant": "An out-of-bounds read of a few bytes usually prints neighbouring heap bytes and is not noticed by a test; the statement covers all byte strings.", "anchors": ["picnic.c:print_signature", "picnic.c:print_signature2", "picnic_impl.c:printHex"]}
{"id": "C50", "title": "print_signature releases what it allocates", "statement": "When print_signature prints a signature it frees exactly the blocks it allocated. When the bytes do not parse it returns with the signature's buffers still allocated (false of the code).", "quantifier": "all twelve parameter sets, all outcomes of parsing, every prior state of memory", "why_tests_cant": "A leak shows no difference in the output.", "anchors": ["picnic.c:print_signature", "picnic.c:print_signature2", "picnic_types.c:allocateSignature", "picnic_types.c:allocateSignature2"]}
{"id": "C51", "title": "Arrays carved from one allocation do not overlap", "statement": "The allocation functions for commitments, messages, seeds, inputs, G commitments, random tapes and trees return tables from which every element can be reached; all pointer tables and elements, with the sizes the callers use, lie inside newly allocated blocks and no two of them overlap. The seeds of all rounds are consecutive, and for three parties the salt follows them, as the code that derives them with one call relies on.", "quantifier": "all twelve parameter sets (messages: the three picnic3 sets; G commitments: the Unruh sets; trees: any number of leaves and node size), every prior state of memory", "why_tests_cant": "An overlap or an element reaching beyond the slab corrupts other data only for certain heap layouts and contents.", "anchors": ["picnic_types.c:allocateSeeds", "picnic_types.c:allocateCommitments", "picnic_types.c:allocateMsgs", "picnic_types.c:allocateInputs", "picnic_types.c:allocateGCommitments", "picnic_types.c:allocateRandomTape", "tree.c:createTree"]}
{"id": "C52", "title": "A Picnic3 signature must not determine the private key (false of the code)", "statement": "The private key can be computed from the bytes of any single signature that picnic_sign returns with a Picnic3 set, using only the public constants, except when the challenge leaves the last party unopened in every opened repetition. The reason: the commitment to the unopened party, which is part of the signature, hashes the same string as that party's random tape, so it is the beginning of the tape that masks the key.", "quantifier": "all three picnic3 parameter sets, private keys, messages, buffers, LowMC constants with correct inverses, and every hash function whose shorter outputs are prefixes of longer ones (shown for SHAKE)", "why_tests_cant": "Signing and verification work correctly in every test; the relation between two hash calls with equal inputs in different functions shows only when the computation of an attacker is written down.", "anchors": ["picnic3_impl.c:createRandomTapes", "picnic3_impl.c:commit", "picnic3_impl.c:sign_picnic3", "picnic3_impl.c:serializeSignature2"]}
{"id": "C53", "title": "Rewinding a ZKB++ signer gives the private key or a hash collision", "statement": "Suppose picnic_verify accepts three signatures for one public key and message, under three hash functions that differ only in the answer to one input, that this input is the challenge string of all three signatures, and that some repetition is challenged with 0, 1 and 2 by them. Then the key shares opened for the three challenged parties of that repetition add up to a private key of the public key, or two of the openings are different strings with the same hash value. (This is what makes a ZKB++ signature a proof of knowledge in the random oracle model.)", "quantifier": "the nine ZKB++ parameter sets, all public keys with zero padding, messages, signatures, LowMC constants, hash functions and replaced answers, repetitions", "why_tests_cant": "The three runs need hash functions that differ in one answer, and the openings are chosen by an adversary; tests only see honest signatures under one hash function.", "anchors": ["picnic_impl.c:verify", "picnic_impl.c:verifyProof", "picnic_impl.c:mpc_LowMC_verify", "picnic_impl.c:Commit", "picnic_impl.c:H3"]}
{"id": "C54", "title": "The LowMC code with pointers stays inside its buffers and computes LowMC", "statement": "Run the encryption routine on a memory of byte blocks in which the key, the plaintext, the output buffer and the constant tables lie anywhere, word-aligned, with the output apart from key and tables and either apart from or identical to the plaintext. Then every load, store and copy is inside its block and aligned for its type, no copy overlaps, the output buffer afterwards holds exactly the LowMC ciphertext of plaintext and key with zero bits after the block, and no other byte of memory is changed, whatever uninitialised local arrays contain.", "quantifier": "all parameter sets, well-formed constants, memories, placements of the buffers (including in-place encryption), contents of uninitialised memory, keys and plaintexts", "why_tests_cant": "A run with one placement of buffers does not show that nothing else is written or read for another placement; misalignment and reads beyond a buffer usually go unnoticed.", "anchors": ["picnic_impl.c:LowMCEnc", "picnic_impl.c:matrix_mul", "picnic_impl.c:substitution", "picnic_impl.c:xor_array", "picnic_impl.c:getBit", "picnic_impl.c:setBit", "picnic_impl.c:parity32"]}
{"id": "C55", "title": "LowMC encryption is constant-time", "statement": "The sequence of addresses read and written, branches taken and loop iteration counts of the encryption routine is the same for any two memories with blocks of the same sizes, whatever they contain; in particular it does not depend on the key, the plaintext or uninitialised memory.", "quantifier": "all parameter sets, pairs of memories of the same shape, contents of uninitialised memory", "why_tests_cant": "Timing measurements sample keys and machines; the statement is about all pairs of keys and the whole sequence of observations.", "anchors": ["picnic_impl.c:LowMCEnc", "picnic_impl.c:matrix_mul", "picnic_impl.c:substitution", "picnic_impl.c:parity32"]}
{"id": "C56", "title": "The ZKB++ computation of the signer with pointers stays inside its buffers and adds up to LowMC", "statement": "Run the signer's three-party computation of one round on a memory of byte blocks in which the random tapes, input shares, views, plaintext, scratch memory and constant tables lie anywhere, apart from what is written, with word-accessed buffers word-aligned. Then every load, store and copy is inside its block and aligned for its type, no copy overlaps, and nothing is changed but scratch memory, the communicated bits and the output shares. These end up with exactly the values that the signature model computes, and the XOR of the three output shares is the LowMC encryption of the plaintext under the XOR of the three input shares, whatever uninitialised local arrays contain.", "quantifier": "all parameter sets, well-formed constants, memories, placements of the buffers, contents of uninitialised memory, tapes, shares and plaintexts", "why_tests_cant": "A run with one placement of buffers does not show that nothing else is written or read for another placement; misalignment and reads beyond a buffer usually go unnoticed.", "anchors": ["picnic_impl.c:mpc_LowMC", "picnic_impl.c:mpc_substitution", "picnic_impl.c:mpc_AND", "picnic_impl.c:mpc_matrix_mul", "picnic_impl.c:mpc_xor", "picnic_impl.c:mpc_xor_constant"]}
{"id": "C57", "title": "The ZKB++ computation of the signer is constant-time", "statement": "The sequence of addresses read and written, branches taken and loop iteration counts of the signer's three-party computation is the same for any two memories with blocks of the same sizes, whatever they contain; in particular it does not depend on the shares of the private key, the random tapes or uninitialised memory.", "quantifier": "all parameter sets, pairs of memories of the same shape, contents of uninitialised memory", "why_tests_cant": "Timing measurements sample keys and machines; the statement is about all pairs of keys and the whole sequence of observations.", "anchors": ["picnic_impl.c:mpc_LowMC", "picnic_impl.c:mpc_substitution", "picnic_impl.c:mpc_AND"]}
{"id": "C58", "title": "Alignment of the third output shares in ZKB++ verification", "statement": "While verifying, the code computes for every round the output share of the unopened party as the XOR of the two opened shares and the public key, round after round in one buffer. With every ZKB++ parameter set other than Picnic_L1_full all loads and stores of this loop are inside their buffers and aligned, nothing else changes, and each block ends up with the right bits. With Picnic_L1_full, whose blocks are 17 bytes, the loop always performs a 32-bit store at an address that is not a multiple of 4, which C leaves undefined.", "quantifier": "all ZKB++ parameter sets, memories, placements of the buffers, shares and public keys", "why_tests_cant": "Misaligned stores work on common processors, so tests pass; they show nothing about targets or compilers where they trap or are miscompiled.", "anchors": ["picnic_impl.c:verify", "picnic_impl.c:xor_three"]}
{"id": "C59", "title": "The verifier's ZKB++ computation on memory", "statement": "Verifying one round of a ZKB++ signature recomputes two of the three views in memory supplied by the caller, from tapes, input shares and one party's communicated bits. For every challenge and whatever these buffers contain, every load and store is inside its object and aligned, nothing but the scratch memory, the communicated bits of the first opened party and the two output shares changes, and what is written is exactly what the byte-level model of verification computes.", "quantifier": "all parameter sets, memories, placements of the buffers, contents of tapes and views, challenges, and contents of uninitialised stack memory", "why_tests_cant": "The views come from a signature an attacker may choose; tests cover a few signatures with one placement of the buffers.", "anchors": ["picnic_impl.c:mpc_LowMC_verify", "picnic_impl.c:mpc_substitution_verify", "picnic_impl.c:mpc_AND_verify", "picnic_impl.c:mpc_xor_constant_verify"]}
{"id": "C60", "title": "Verifier recomputes what the signer computed, on memory", "statement": "Run the signer's computation of one round in one memory. Run the verifier's in another, with the tapes and input shares of parties e and e+1 and the communicated bits the first run left for party e+1. Then the second run ends with the communicated bits of party e and with the output shares of both parties that the first run left.", "quantifier": "all parameter sets, e in 0..2, memories, placements, tapes, shares, plaintexts, previous contents of all output and scratch buffers", "why_tests_cant": "A disagreement could depend on particular tapes and shares, or on what buffers contained before.", "anchors": ["picnic_impl.c:mpc_LowMC", "picnic_impl.c:mpc_LowMC_verify"]}
{"id": "C61", "title": "The verifier's ZKB++ computation runs in constant time", "statement": "For a given challenge, the sequence of addresses accessed, branches taken and loop iterations of the verifier's computation of a round is the same whatever the tapes, shares, communicated bits and plaintext are.", "quantifier": "all pairs of memories with the same layout, and contents of uninitialised stack memory", "why_tests_cant": "Requires comparing all pairs of contents.", "anchors": ["picnic_impl.c:mpc_LowMC_verify"]}
{"id": "C62", "title": "Computing the auxiliary bits of Picnic3, on memory", "statement": "Signing and verifying with a Picnic3 parameter set compute, from the sixteen random tapes of a round, the auxiliary bits that make the parties' shares of AND gates consistent, and write them into the last party's tape. For all tapes, every load and store is inside its object and aligned, nothing but that tape and (if asked for) the mask of the key changes, the read position of the tapes is reset, and what is written is exactly what the byte-level model of signing computes.", "quantifier": "all Picnic3 parameter sets, memories, placements of tapes and constants, contents of tapes, with and without the output of the mask, contents of uninitialised stack memory", "why_tests_cant": "Tapes are pseudorandom strings; tests use a few of them, with one placement of the buffers.", "anchors": ["picnic3_impl.c:computeAuxTape", "picnic3_impl.c:aux_mpc_sbox", "picnic3_impl.c:aux_mpc_AND", "picnic3_impl.c:tapesToWord", "picnic3_impl.c:tapesToParityBits"]}
{"id": "C63", "title": "The online computation of Picnic3, on memory", "statement": "Simulating the online phase of one round, by the signer with all parties known or by the verifier with any one party unopened, accesses memory only inside its objects and aligned, whatever tapes, messages, masked key, plaintext and public key contain. Nothing but the sixteen message buffers and the masks of the state changes. Messages and verdict are those of the byte-level model.", "quantifier": "all Picnic3 parameter sets, memories, placements, contents of tapes, messages, masked key, plaintext and public key, unopened party or none, contents of uninitialised stack memory", "why_tests_cant": "The verifier runs this on data from a signature an attacker may choose.", "anchors": ["picnic3_impl.c:simulateOnline", "picnic3_impl.c:mpc_sbox", "picnic3_impl.c:mpc_AND", "picnic3_impl.c:wordToMsgs", "picnic3_impl.c:tapesToWords"]}
{"id": "C64", "title": "The computations of Picnic3 run in constant time", "statement": "The sequence of addresses accessed, branches taken and loop iterations when computing the auxiliary bits is the same whatever the tapes contain. For the online simulation it depends on memory only through the byte-wise comparison of the result with the public key; any two runs that succeed are indistinguishable.", "quantifier": "all pairs of memories with the same layout, all positions and parties, contents of uninitialised stack memory", "why_tests_cant": "Requires comparing all pairs of contents.", "anchors": ["picnic3_impl.c:computeAuxTape", "picnic3_impl.c:simulateOnline"]}
{"id": "C65", "title": "Signer's preprocessing and online phase together compute LowMC, on memory", "statement": "Compute the auxiliary bits and the mask of the key from any sixteen tapes; add the mask to any key; simulate the online phase in a memory holding these tapes and the masked key. The simulation returns 0 if the public key is the LowMC encryption of the plaintext under the key, and -1 otherwise.", "quantifier": "all Picnic3 parameter sets, tapes, keys, plaintexts, public keys, memories and placements, LowMC constants with inverses", "why_tests_cant": "An error for particular tapes or keys would go unnoticed by tests with few of them.", "anchors": ["picnic3_impl.c:computeAuxTape", "picnic3_impl.c:simulateOnline", "picnic3_impl.c:sign_picnic3"]}
{"id": "C66", "title": "Verifier recomputes the signer's messages in Picnic3, on memory", "statement": "Run the signer's online simulation in one memory, and the verifier's in another that holds the tapes of all parties but one, the messages the first run left for that party, and the same masked key. Then the second run ends with all sixteen message strings the first run left, and returns the same value, whatever the tape of the missing party is in the second memory.", "quantifier": "all Picnic3 parameter sets, unopened parties, tapes, masked keys, plaintexts, public keys, memories and placements", "why_tests_cant": "A disagreement could depend on particular tapes, keys or parties.", "anchors": ["picnic3_impl.c:simulateOnline", "picnic3_impl.c:mpc_AND", "picnic3_impl.c:wordToMsgs"]}
{"id": "C67", "title": "The online phase of Picnic3 signing shows nothing about the key", "statement": "For any two signers with keys, plaintexts, tapes and matching public keys of their own, the online simulations access the same addresses, take the same branches and iterate equally often.", "quantifier": "all pairs of keys, plaintexts, tapes; memories of the same layout", "why_tests_cant": "Requires comparing all pairs of keys.", "anchors": ["picnic3_impl.c:simulateOnline", "picnic3_impl.c:sign_picnic3"]}
{"id": "C68", "title": "Auxiliary bits between tapes and signature, on memory", "statement": "Reading the auxiliary bits out of the last party's tape (signer) and putting auxiliary bits from a signature into it (verifier) access memory only inside the buffers and change only the output, respectively the tape. Each auxiliary bit has one place in the tape, in the half of each round's part that holds output masks of gates; the other half is kept. What the signer reads out and the verifier puts in reproduces the signer's tape. Both run in constant time.", "quantifier": "all Picnic3 parameter sets, tapes, buffers of sufficient size, contents of the buffers, placements", "why_tests_cant": "Tests do not look at memory outside the buffers and at bits beyond the last auxiliary bit.", "anchors": ["picnic3_impl.c:getAuxBits", "picnic3_impl.c:setAuxBits"]}
{"id": "C69", "title": "Default random source and key generation with it", "statement": "The default random source reports success exactly if the operating system opened the random device and delivered all bytes asked for; the buffer then holds exactly these bytes, nothing behind them is written and no file is left open. Key generation succeeds exactly if both its reads are granted in full; the secret key and the plaintext are then bit by bit what the first and the second read delivered. A failed read that was cut short leaves the device open (so it is false that every key generation closes what it opened), and after as many cut-short reads as the process may have open files, key generation fails for good.", "quantifier": "all parameter sets, operating systems (limit on open files, refusals, reads of any content and any length), process states, buffers", "why_tests_cant": "Tests run on systems where opening and reading the device always succeed; short reads and the limit on open files are not provoked.", "anchors": ["picnic_impl.c:random_bytes_default", "picnic.c:picnic_keygen"]}
{"id": "C70", "title": "Keccak and the hash functions on memory", "statement": "The Keccak permutation, called on 200 aligned bytes of memory, runs without undefined behaviour, replaces them by Keccak-f[1600] of them and changes no other byte. Initialising a hash context with or without a prefix, feeding any list of inputs, finalising and squeezing any list of outputs runs without undefined behaviour, whatever the context held before; the outputs are consecutive pieces of SHAKE128 (SHAKE256) of the prefix followed by the inputs, only the context's state and the outputs change, and no error is reported. Inputs may overlap with each other and with the rooms for outputs.", "quantifier": "all contents of memory and of uninitialised arrays, all positions of the buffers (context and constants 8-aligned, context apart from the rest, outputs apart from each other), all prefixes, all lists of inputs and outputs each shorter than 2^32 - 200 bytes", "why_tests_cant": "Tests use a few lengths and layouts; the block and position cases of absorbing and squeezing, and overlap of buffers, are not covered.", "anchors": ["sha3/KeccakP-1600-reference.c:KeccakP1600_Permute_24rounds", "sha3/KeccakSponge.inc:SpongeAbsorb", "sha3/KeccakSponge.inc:SpongeAbsorbLastFewBits", "sha3/KeccakSponge.inc:SpongeSqueeze", "hash.c:HashInit", "hash.c:HashUpdate", "hash.c:HashFinal", "hash.c:HashSqueeze"]}
{"id": "C71", "title": "Hashing is constant-time", "statement": "Two uses of the hash functions with the same prefix, the same numbers and lengths of inputs and outputs and the same buffer addresses show the same addresses, branches and loop bounds, whatever the bytes hashed.", "quantifier": "all pairs of memories of the same shape, all contents, all lists of lengths", "why_tests_cant": "Secret-dependent accesses leave the results unchanged; a functional test sees no difference.", "anchors": ["sha3/KeccakP-1600-reference.c:KeccakP1600_Permute_24rounds", "sha3/KeccakSponge.inc:SpongeAbsorb", "sha3/KeccakSponge.inc:SpongeSqueeze", "hash.c:HashUpdate", "hash.c:HashSqueeze"]}
{"id": "C72", "title": "Running out of memory", "statement": "When the allocator refuses a request during signing or verification, the call reports failure. (False of the code: the signature object is tested for NULL only after it has been written to, and no other allocation is tested. If the first request is refused the run is undefined; so it is for ZKB++ if the second is, also in the signature printer. Whatever is refused, a run that is defined returns what it returns when nothing is refused, so a refusal is never reported.)", "quantifier": "all parameter sets, all memories, all sets of refused requests, all outcomes of the checks on data", "why_tests_cant": "Allocation does not fail in tests; without fault injection the path behind the test for NULL is never reached, and the code never reaches it at all.", "anchors": ["picnic.c:picnic_sign", "picnic.c:picnic_verify", "picnic.c:print_signature", "picnic_types.c:allocateSignature", "picnic_types.c:allocateSignature2"]}
{"id": "C73", "title": "What signing and verification hash, in memory", "statement": "The functions that derive seeds, salts and random tapes, commit to seeds and views, compute the function G of the Unruh transform, hash the nodes of the trees and hash the input of the challenge run in C memory without undefined behaviour, leave in their output buffer exactly SHAKE128 or SHAKE256 of the documented string (prefix byte, buffers in order, 16-bit little-endian numbers), change no other byte, and report no error. This also holds where a digest is first written to the output buffer and then hashed again, and where inputs overlap with the output. A random tape shorter than a digest is refused and nothing is written.", "quantifier": "all parameter sets, all memories and placements of buffers, all contents of buffers and of uninitialised local memory, all messages shorter than 2^32 - 200 bytes", "why_tests_cant": "Known-answer tests fix a few keys and messages; they see neither writes outside the output nor overlapping buffers, and not dependence on stale memory of the context.", "anchors": ["picnic_impl.c:Commit", "picnic_impl.c:createRandomTape", "picnic_impl.c:G", "picnic_impl.c:H3", "picnic_impl.c:computeSeeds", "picnic3_impl.c:commit", "picnic3_impl.c:commit_h", "picnic3_impl.c:commit_v", "picnic3_impl.c:HCP", "picnic3_impl.c:createRandomTapes", "picnic3_impl.c:computeSaltAndRootSeed", "tree.c:hashSeed", "tree.c:computeParentHash", "hash.c:HashUpdateIntLE"]}
{"id": "C74", "title": "Hashing secrets takes constant time", "statement": "The sequence of memory addresses, branches and loop counts of the functions of the previous property does not depend on what is hashed: keys, seeds, views, tapes, messages (only on their lengths and places).", "quantifier": "all parameter sets, all pairs of states that agree on sizes and places", "why_tests_cant": "Timing depends on all pairs of secrets.", "anchors": ["picnic_impl.c:Commit", "picnic_impl.c:createRandomTape", "picnic_impl.c:computeSeeds", "picnic3_impl.c:commit", "picnic3_impl.c:createRandomTapes", "picnic3_impl.c:computeSaltAndRootSeed", "tree.c:hashSeed"]}
{"id": "C75", "title": "The rounds of ZKB++ signing, in memory", "statement": "The loop over the rounds of signing (random tapes of the three parties, input shares, shared computation, comparison with the public key, commitments, Unruh transform), with every function it calls and SHAKE itself, runs in C memory without undefined behaviour and changes only tapes, scratch memory, views and commitments. It goes through exactly when the key pair satisfies the LowMC relation; then the views and commitments of every round lie where the signer next looks for them and hold what the model of the signature says; otherwise signing stops with an error.", "quantifier": "all ZKB++ parameter sets, all memories and placements of disjoint buffers, all keys, seeds, salts and contents of scratch and uninitialised memory", "why_tests_cant": "Tests see only the finished signature for a few keys; not stray accesses, leftovers of one round in the next, or the behaviour for key pairs that do not belong together.", "anchors": ["picnic_impl.c:sign_picnic1", "picnic_impl.c:createRandomTape", "picnic_impl.c:mpc_LowMC", "picnic_impl.c:Commit", "picnic_impl.c:G", "picnic_impl.c:zeroTrailingBits", "picnic_impl.c:xor_three"]}
{"id": "C76", "title": "The rounds of ZKB++ signing take constant time", "statement": "For a valid key pair the sequence of memory addresses, branches and loop counts of the loop over the rounds of signing does not depend on the secret key, the seeds, the salt or anything else in memory.", "quantifier": "all ZKB++ parameter sets, all pairs of valid key pairs and of memories with the same layout", "why_tests_cant": "Timing depends on all pairs of secrets.", "anchors": ["picnic_impl.c:sign_picnic1", "picnic_impl.c:mpc_LowMC"]}
{"id": "C77", "title": "A round of ZKB++ verification, in memory", "statement": "For any received proof of a round, whatever its bytes, and for every challenge, the round of verification (random tapes and input shares of the two opened views, recomputation of the views, commitments, Unruh transform, third output share), with every function it calls and SHAKE itself, runs in C memory to the end without undefined behaviour, changes only scratch memory, tapes, views, commitments and output shares, and leaves in them exactly what the model of verification computes.", "quantifier": "all ZKB++ parameter sets, rounds, challenges, proofs, salts, public keys, all memories and placements of disjoint buffers (word-aligned where the code stores words), all contents of uninitialised memory", "why_tests_cant": "A verifier reads attacker-chosen proofs; tests cannot cover all of them, nor detect accesses that happen to hit mapped memory.", "anchors": ["picnic_impl.c:verify", "picnic_impl.c:verifyProof", "picnic_impl.c:createRandomTape", "picnic_impl.c:mpc_LowMC_verify", "picnic_impl.c:Commit", "picnic_impl.c:G", "picnic_impl.c:xor_three"]}
{"id": "C78", "title": "ZKB++ verification in memory answers as the model does", "statement": "For any received signature of the right shape, whatever its bytes, ZKB++ verification of a message runs in C memory to the end without undefined behaviour: all rounds, the hash that recomputes the challenge (SHAKE itself included) and the comparison with the received challenge. It changes only the buffers it allocates, and reports valid exactly when the model of verification does.", "quantifier": "all ZKB++ parameter sets but Picnic_L1_full, all signatures, messages and keys, all memories and placements of disjoint buffers (word-aligned where the code stores words), all contents of uninitialised memory, any number of hashes allowed", "why_tests_cant": "An attacker chooses the signature; tests cannot cover all of them, nor detect accesses that happen to hit mapped memory.", "anchors": ["picnic_impl.c:verify", "picnic_impl.c:verifyProof", "picnic_impl.c:H3", "picnic_impl.c:getChallenge", "picnic_impl.c:setChallenge"]}
{"id": "C79", "title": "ZKB++ signing in memory produces the model's signature", "statement": "ZKB++ signing of a message runs in C memory to the end without undefined behaviour: the derivation of the seeds, all rounds, the hash that computes the challenge (SHAKE itself included) and the copying of the opened proofs into the signature. It changes only its own buffers and the signature, leaves in the signature exactly the salt, challenge and proofs the model of signing computes, and fails exactly when that model does.", "quantifier": "all ZKB++ parameter sets, all keys (valid pairs or not) and messages below 4 GiB, all memories and placements of disjoint buffers (word-aligned where the code stores words), all contents of uninitialised memory, any number of hashes allowed", "why_tests_cant": "A copy from the wrong place or an access out of bounds can depend on the challenge and on where the buffers lie; tests reach only a few of these.", "anchors": ["picnic_impl.c:sign_picnic1", "picnic_impl.c:prove", "picnic_impl.c:computeSeeds", "picnic_impl.c:H3", "picnic_impl.c:getChallenge"]}
{"id": "C80", "title": "What can be observed of ZKB++ signing is computable from its public output", "statement": "Everything an observer sees of a run of ZKB++ signing that produces a signature (every branch taken, every address and width of a memory access, every number of loop iterations, every datum used in a branch or as an index) is computed by one explicit function from where the buffers lie, the signature, the public key, the plaintext and the message. Neither the signing key nor the seeds nor the contents of memory are arguments of that function.", "quantifier": "all ZKB++ parameter sets, all valid keys with zero padding bits, all messages below 4 GiB, all memories and placements of disjoint buffers, all contents of uninitialised memory, any number of hashes allowed for the challenge", "why_tests_cant": "Timing tests compare finitely many keys on one machine; that no branch or address depends on the key for any key, message and placement is a statement about all runs.", "anchors": ["picnic_impl.c:sign_picnic1", "picnic_impl.c:H3", "picnic_impl.c:prove", "picnic_impl.c:getChallenge"]}
{"id": "C81", "title": "Writing a ZKB++ signature as bytes is memory-safe and writes exactly the encoded signature", "statement": "Writing a ZKB++ signature structure into the caller's buffer runs to the end without out-of-bounds or misaligned access and without overlapping copies, and changes nothing but the caller's buffer. If the length passed by the caller is below the length required, failure is reported and no byte changes; otherwise the buffer afterwards consists of the encoded signature followed by its old contents, and the reported length is that of the encoding.", "quantifier": "all ZKB++ parameter sets, all signatures (any challenges, any contents), all buffers and lengths, all memories and placements of disjoint buffers", "why_tests_cant": "The offsets depend on the challenges of all rounds; tests see few of the 3^T challenge vectors and few memory layouts, and a write of one byte too many is often silent.", "anchors": ["picnic_impl.c:serializeSignature", "picnic_impl.c:getChallenge"]}
{"id": "C82", "title": "picnic_sign on memory computes the functional result for ZKB++", "statement": "For ZKB++ parameter sets, picnic_sign (after its allocations) executed on memory with SHAKE itself runs to the end without undefined behaviour, changes nothing but its own buffers and the caller's signature buffer, and return value, contents of the caller's buffer and reported length are exactly those given by the functional description of the whole call, for valid and for invalid keys and for buffers that are too small.", "quantifier": "all ZKB++ parameter sets, all private keys, all messages below 4 GiB, all buffers and lengths, all memories and placements of disjoint buffers, all contents of uninitialised memory, any number of hashes allowed for the challenge", "why_tests_cant": "Tests run finitely many keys, messages and buffers on one memory layout; they do not show that no run touches memory outside or depends on uninitialised bytes.", "anchors": ["picnic.c:picnic_sign", "picnic_impl.c:sign_picnic1", "picnic_impl.c:serializeSignature"]}
{"id": "C83", "title": "Reading a ZKB++ signature from bytes is memory-safe (except for the UR sets) and stores exactly the decoded signature", "statement": "For the FS and full ZKB++ parameter sets, reading any received byte string runs to the end without out-of-bounds or misaligned access and without overlapping copies, and changes nothing but the memory allocated for the signature; it accepts exactly the strings the functional description accepts, and the memory then holds the decoded signature. For the UR sets this holds as well unless the functional description reads past the string; in that case the run really performs an access outside the memory of the string, if the string ends where its memory does.", "quantifier": "all ZKB++ parameter sets, all byte strings of any length, all contents of uninitialised memory, all memories and placements of disjoint buffers", "why_tests_cant": "The offsets depend on received challenges and a read past the end is often silent; tests cannot cover all malformed strings and layouts.", "anchors": ["picnic_impl.c:deserializeSignature", "picnic_impl.c:computeInputShareSize", "picnic_impl.c:isChallengeValid", "picnic_impl.c:arePaddingBitsZero"]}
{"id": "C84", "title": "picnic_verify on memory computes the functional result for ZKB++", "statement": "For the FS and full ZKB++ parameter sets (except Picnic-L1-full, see C58), picnic_verify (after its allocations) executed on memory with SHAKE itself runs to the end without undefined behaviour on any received byte string, changes nothing but the memory it allocates, and returns success exactly when the functional description of the whole call does. For the UR sets the same holds unless the functional description reads past the string; then the run performs an access outside the memory of the string if the string ends where its memory does.", "quantifier": "all ZKB++ parameter sets but Picnic-L1-full, all public keys, all messages below 4 GiB, all byte strings as signature, all memories and placements of disjoint buffers, all contents of uninitialised memory, any number of hashes allowed for the challenge", "why_tests_cant": "Received strings are controlled by an attacker; tests try finitely many of them on one memory layout and cannot show the absence of out-of-bounds accesses or of dependence on uninitialised memory.", "anchors": ["picnic.c:picnic_verify", "picnic_impl.c:deserializeSignature", "picnic_impl.c:verify"]}
{"id": "C85", "title": "Verification with the UR sets reads past the memory of a truncated signature", "statement": "One would expect picnic_verify to refuse every truncated signature without reading outside of it. For the UR parameter sets this is false on memory: for every string with all challenges zero whose length is at least what the reader expects (which leaves out the input share inside G) but below the full length, in memory that ends where the string does, picnic_verify copies from outside this memory.", "quantifier": "all UR parameter sets, all public keys, messages, and such strings, all memories, all contents of uninitialised memory, all constants", "why_tests_cant": "Tests verify signatures of full length; reading some bytes past a heap buffer usually has no visible effect.", "anchors": ["picnic.c:picnic_verify", "picnic_impl.c:deserializeSignature"]}
{"id": "C86", "title": "picnic_sign on memory writes the signature of the specification document (ZKB++)", "statement": "For every valid private key of a ZKB++ parameter set, picnic_sign executed on memory with SHAKE itself runs to the end without undefined behaviour; the caller's buffer then starts with exactly the bytes of the signature that Section 6 of the specification defines, the reported length is its length and the rest of the buffer is unchanged. If the caller's length is below the maximal signature length it fails and the buffer is unchanged.", "quantifier": "all ZKB++ parameter sets, all valid keys, all messages below 4 GiB, all buffers and lengths, all memories and placements of disjoint buffers, all contents of uninitialised memory, all constants of the right shape, any number of digests allowed for the challenge", "why_tests_cant": "Known-answer tests compare finitely many signatures with those of the same code and cannot exclude dependence on layout or uninitialised memory.", "anchors": ["picnic.c:picnic_sign", "picnic_impl.c:sign_picnic1", "picnic_impl.c:serializeSignature"]}
{"id": "C87", "title": "picnic_verify on memory decides the verification of the specification document (ZKB++)", "statement": "For every ZKB++ parameter set except Picnic-L1-full and every received byte string, picnic_verify executed on memory with SHAKE itself runs to the end and returns success exactly if the verification of Section 6 of the specification accepts. The only exception are strings that are no well-formed signature of a UR set, where it may read past the string and does if the string ends where its memory does.", "quantifier": "all ZKB++ parameter sets but Picnic-L1-full, all public keys with zero padding bits in the ciphertext, all messages below 4 GiB, all byte strings, all memories and placements of disjoint buffers, all contents of uninitialised memory", "why_tests_cant": "Acceptance of a single wrong string by the compiled function would be a forgery; tests only sample strings.", "anchors": ["picnic.c:picnic_verify", "picnic_impl.c:deserializeSignature", "picnic_impl.c:verify"]}
{"id": "C88", "title": "What picnic_sign leaves in memory is accepted by picnic_verify on any memory (ZKB++)", "statement": "For every valid key of a ZKB++ parameter set except Picnic-L1-full and a buffer of picnic_signature_size bytes, picnic_sign executed on memory runs to the end and, unless the digests allowed for the challenge are used up, reports success; the bytes it reports, placed in any other memory, are accepted by picnic_verify executed there with the corresponding public key, whatever uninitialised memory and local variables hold.", "quantifier": "all ZKB++ parameter sets but Picnic-L1-full, all valid keys, all messages below 4 GiB, all buffers that are long enough, all pairs of memories with any contents of uninitialised memory", "why_tests_cant": "Round-trip tests run in one process with one layout; they do not vary uninitialised memory and cover few keys and messages.", "anchors": ["picnic.c:picnic_sign", "picnic.c:picnic_verify"]}
{"id": "C89", "title": "Writing keys to bytes on memory", "statement": "picnic_write_public_key and picnic_write_private_key, executed on memory with pointers, run to the end without undefined behaviour and change nothing but the caller's buffer. If the caller's length suffices they return the length of the encoding and the buffer starts with it (parameter byte and blocks in the documented order), the rest unchanged; otherwise they fail and the buffer is unchanged.", "quantifier": "all twelve parameter sets, all keys, all buffers and lengths, all memories and placements of disjoint buffers", "why_tests_cant": "Tests compare a few keys in buffers of one size and do not check every byte outside of the buffer.", "anchors": ["picnic.c:picnic_write_public_key", "picnic.c:picnic_write_private_key"]}
{"id": "C90", "title": "Reading keys from bytes on memory", "statement": "picnic_read_public_key and picnic_read_private_key, executed on memory with pointers on any byte string, run to the end without reading past the string and change nothing but the fields of the key. They succeed exactly if the string starts with the encoding of a key of a known parameter set with zero padding bits, and then the fields hold exactly the encoded key; array bytes past the block are unchanged for public keys and zero for private keys.", "quantifier": "all byte strings of all lengths, all previous contents of the key, all memories and placements of disjoint buffers", "why_tests_cant": "The set of byte strings is infinite and an overread of a few bytes usually has no effect a test observes.", "anchors": ["picnic.c:picnic_read_public_key", "picnic.c:picnic_read_private_key", "picnic_impl.c:arePaddingBitsZero"]}
{"id": "C91", "title": "Keys written from one memory are read back in any other", "statement": "For every key with zero padding bits and a buffer that is long enough, the bytes that the writing function leaves in one memory, placed in any other memory, are accepted by the reading function executed there, and the key it leaves has the same parameter set and the same blocks (for private keys also zero bytes past the blocks).", "quantifier": "all twelve parameter sets, all keys, all buffers and lengths, all memories and placements of disjoint buffers on both sides", "why_tests_cant": "Round-trip tests run in one process with one layout and few keys.", "anchors": ["picnic.c:picnic_write_public_key", "picnic.c:picnic_write_private_key", "picnic.c:picnic_read_public_key", "picnic.c:picnic_read_private_key", "picnic_impl.c:arePaddingBitsZero"]}
{"id": "C92", "title": "Checking a key pair on memory", "statement": "picnic_validate_keypair, executed on memory with pointers, runs to the end without undefined behaviour, changes no memory of the caller, and returns success exactly if both keys name the same parameter set and the ciphertext of the public key is the LowMC encryption of its plaintext under the secret, with zero padding bits.", "quantifier": "all twelve parameter sets, all pairs of keys, all memories and placements, all contents of local variables, all constants of the right shape", "why_tests_cant": "A wrong pair that is accepted is found by tests only by chance; the space of pairs is far too large.", "anchors": ["picnic.c:picnic_validate_keypair", "picnic_impl.c:LowMCEnc"]}
{"id": "C93", "title": "Key generation on memory", "statement": "picnic_keygen, executed on memory with pointers for a valid parameter set, runs to the end without undefined behaviour and changes nothing but the fields of the two keys. It succeeds exactly if both requests for random bytes succeed; then the secret and the plaintext are exactly the bits delivered by the first and the second request (cut to the block size), the ciphertext is the LowMC encryption of the plaintext under the secret with zero padding, both keys name the requested parameter set, and the private key contains the public key. If a request fails, the ciphertext and the copy of the public key in the private key are all zero.", "quantifier": "all twelve parameter sets, all random sources (also failing ones), all memories and placements of disjoint buffers, all contents of local variables, all constants of the right shape", "why_tests_cant": "Keys are random, so a test cannot compare them with expected values, and failing random sources are not exercised.", "anchors": ["picnic.c:picnic_keygen", "picnic_impl.c:zeroTrailingBits", "picnic_impl.c:LowMCEnc"]}
{"id": "C94", "title": "Generated key pairs are accepted by the check on memory", "statement": "Whenever the random source delivers, the key pair that picnic_keygen leaves in one memory is accepted by picnic_validate_keypair executed on any memory that holds this pair.", "quantifier": "all twelve parameter sets, all random sources (also failing ones), all memories and placements of disjoint buffers, all contents of local variables, all constants of the right shape on both sides", "why_tests_cant": "Tests try a few random keys in one layout.", "anchors": ["picnic.c:picnic_keygen", "picnic.c:picnic_validate_keypair"]}
{"id": "C95", "title": "From key generation to verification on memory", "statement": "For the ZKB++ parameter sets but Picnic_L1_full: a key pair generated by picnic_keygen in one memory, its public key written by picnic_write_public_key in a second memory and read by picnic_read_public_key in a third, and a message signed by picnic_sign in a fourth memory with a buffer of picnic_signature_size bytes give a signature that picnic_verify, executed in a fifth memory with the public key that was read, accepts. Every one of the five calls runs to the end without undefined behaviour.", "quantifier": "all random sources that deliver, all messages below 4 GiB, all previous contents of keys and buffers, five unrelated memories with any placement of disjoint buffers, all contents of local variables and uninitialised memory", "why_tests_cant": "Integration tests run the chain in one process for a few random keys and messages and cannot vary uninitialised memory.", "anchors": ["picnic.c:picnic_keygen", "picnic.c:picnic_write_public_key", "picnic.c:picnic_read_public_key", "picnic.c:picnic_sign", "picnic.c:picnic_verify"]}
{"id": "C96", "title": "Generating a seed tree on memory", "statement": "Generating the seeds of a tree with any number of leaves (from 2 to 2^29) from a root seed, a salt and a repetition number, executed on memory with pointers and with SHAKE computed by the code of sha3/, runs to the end without undefined behaviour and changes only the nodes and the two flag arrays of the new tree. Afterwards every leaf and every node above a leaf holds the seed that hashing along its path from the root derives; both flag arrays are one for exactly these nodes and zero for the others, also when the last level is incomplete.", "quantifier": "all parameter sets, all numbers of leaves in the range, all root seeds, salts and repetition numbers, any placement of the buffers apart from each other, all contents of local variables", "why_tests_cant": "Tests run the few tree sizes of the parameter sets; a seed written to the wrong node or a flag too many goes unnoticed as long as signer and verifier make the same mistake.", "anchors": ["tree.c:createTree", "tree.c:exists", "tree.c:expandSeeds", "tree.c:generateSeeds", "tree.c:hashSeed"]}
{"id": "C97", "title": "Making a Merkle tree on memory", "statement": "Making a Merkle tree over any number of leaves (from 2, at most 2^29), executed on memory with pointers and with SHAKE computed by the code of sha3/, runs to the end without undefined behaviour and changes only the nodes and the two flag arrays of the new tree. Afterwards each leaf holds the first bytes (one digest) of the data given for it; every node above a leaf holds the digest of the byte 3, its left child, its right child if that number is below the number of nodes, the salt and its own number in two bytes; all other nodes are zero; both flag arrays are one for exactly the nodes above a leaf and the leaves. In particular a right child that has a number but is above no leaf enters the hash as zero bytes.", "quantifier": "all parameter sets, all numbers of leaves in the range, all leaf data and salts, any placement of the tree apart from what is read, all contents of local variables", "why_tests_cant": "Tests run the few tree sizes of the parameter sets; a hash over the wrong child or over stale bytes goes unnoticed as long as signer and verifier make the same mistake.", "anchors": ["tree.c:createTree", "tree.c:exists", "tree.c:hasRightChild", "tree.c:getParent", "tree.c:computeParentHash", "tree.c:buildMerkleTree"]}
{"id": "C98", "title": "Checking a Merkle tree on memory", "statement": "Checking a Merkle tree (from 2 leaves, at most 2^29) of which some nodes are already known, with data given for some of the leaves, executed on memory with pointers and with SHAKE computed by the code of sha3/, runs to the end without undefined behaviour and changes only the nodes and the flags of the tree. It returns -1 if data is given for a leaf that is already known. Otherwise the nodes known afterwards are those known before, the given leaves, and all nodes whose children above a leaf are known; known nodes keep their values, given leaves hold their data, the others the digest of their children, salt and number, and nodes that stay unknown are unchanged; it returns 0 exactly if the root is known in the end.", "quantifier": "all parameter sets, all numbers of leaves in the range, all sets of known nodes above leaves with any values, all patterns of given leaves, all leaf data and salts, any placement of the tree apart from what is read, all contents of local variables", "why_tests_cant": "Tests check trees whose opening was made by the signer; openings that supply a leaf twice, or too little to reach the root, and the sizes with an incomplete last level are not tried.", "anchors": ["tree.c:verifyMerkleTree", "tree.c:computeParentHash", "tree.c:exists", "tree.c:hasRightChild", "tree.c:getParent"]}
{"id": "C99", "title": "Rebuilding a seed tree on memory", "statement": "Rebuilding a seed tree (2 to 1024 leaves, at least one of them hidden) of Picnic3 from revealed seeds, executed on memory with pointers and with SHAKE computed by the code of sha3/, runs to the end without undefined behaviour and changes only the nodes and flags of the new tree. It returns -1 when the input is shorter than the seeds to be revealed for the hidden leaves. When it has exactly that length it returns 0, every leaf that is not hidden holds the seed the design document derives from the input, and exactly the leaves not hidden are marked as known. If the input was revealed from a tree, the leaves hold the seeds of that tree.", "quantifier": "all Picnic3 parameter sets, all numbers of leaves in the range, all non-empty lists of hidden leaves (in any order, with repetitions), all inputs of at most the required length, all salts and repetition numbers, any placement of the tree apart from what is read, all contents of local variables", "why_tests_cant": "Tests rebuild trees from what the same code revealed, for a few random hidden sets; short inputs, inputs not made by the signer and the effect on memory are not tried.", "anchors": ["tree.c:reconstructSeeds", "tree.c:expandSeeds", "tree.c:createTree", "picnic3_impl.c:verify_picnic3"]}
{"id": "C100", "title": "Revealing seeds of a seed tree on memory", "statement": "Generating a seed tree of Picnic3 (2 to 1024 leaves) from a root seed and then revealing seeds for a list of hidden leaves, executed on memory with pointers and with SHAKE computed by the code of sha3/, runs to the end without undefined behaviour if the output has room for the revealed seeds, and changes only the output and the new tree. The output then starts with exactly the seeds that the design document reveals for these hidden leaves, their total length is returned, the rest of the output is unchanged, and every leaf of the tree holds the seed of the design document.", "quantifier": "all Picnic3 parameter sets, all numbers of leaves in the range, all lists of hidden leaves, all root seeds, salts and repetition numbers, all outputs with enough room, any placement of tree and output apart from each other, all contents of local variables", "why_tests_cant": "Tests compare what is revealed with what the same code rebuilds, for a few random hidden sets; a change made to both sides alike, or bytes written beside the output, go unnoticed.", "anchors": ["tree.c:revealSeeds", "tree.c:generateSeeds", "tree.c:expandSeeds", "picnic3_impl.c:sign_picnic3"]}
{"id": "C101", "title": "Checking the opening of a Merkle tree on memory", "statement": "Checking the opening of a Merkle tree as Picnic3 verification does it (a new tree of 2 to 2^29 leaves, adding the nodes of the opening, then checking with the leaves that are given), executed on memory with pointers and with SHAKE computed by the code of sha3/, runs to the end without undefined behaviour and changes only the new tree. It returns -1 if the opening is shorter or longer than its nodes take, or if a leaf is both in the opening and given. Otherwise the tree is completed from the values of the opening and the given leaves: these keep their values, every node whose children above a leaf are known gets the digest of their values, the salt and its number, and 0 is returned exactly if the root is known in the end.", "quantifier": "all parameter sets, all numbers of leaves in the range, all lists of distinct nodes above leaves, all openings of any length, all patterns of given leaves, all leaf data and salts, any placement of the tree apart from what is read, all contents of local variables", "why_tests_cant": "Tests check openings made by the signer; openings of other lengths, with other nodes or not reaching the root are not tried.", "anchors": ["tree.c:addMerkleNodes", "tree.c:verifyMerkleTree", "tree.c:createTree", "tree.c:computeParentHash", "picnic3_impl.c:verify_picnic3"]}
{"id": "C102", "title": "Opening a Merkle tree on memory", "statement": "Building a Merkle tree over given leaves and then opening it for a list of its nodes, executed on memory with pointers and with SHAKE computed by the code of sha3/, runs to the end without undefined behaviour, and changes only the output and the new tree. The output is then exactly the values of these nodes one after the other in the order of the list, its length is the returned size, and the tree still holds its values: the leaves what they were given, each node above a leaf the hash of its children, the salt and its number, every other node zeros.", "quantifier": "all parameter sets, all numbers of leaves from 2 up to 2^29, all leaves and salts, all lists of nodes of the tree, any placement of tree, inputs and output apart from each other, all former contents of the output, all contents of local variables", "why_tests_cant": "Tests check an opening only with the matching check of the same library for a few random sets; an order of nodes or an offset that is wrong on both sides alike, or bytes written beside the output, go unnoticed.", "anchors": ["tree.c:openMerkleTree", "tree.c:buildMerkleTree", "tree.c:computeParentHash", "picnic3_impl.c:sign_picnic3"]}
