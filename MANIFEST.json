{
 "claims": [
  {
   "property": "C01",
   "status": "proved",
   "theorems": [
    "C01_sign_then_verify"
   ],
   "note": "All nine ZKB++ sets; different uninitialised memory on both sides."
  },
  {
   "property": "C02",
   "status": "proved",
   "theorems": [
    "C02_sign_then_verify"
   ],
   "note": "All three Picnic3 sets; also for keys with nonzero padding bits."
  },
  {
   "property": "C03",
   "status": "proved",
   "theorems": [
    "C03_sign_checks_key"
   ],
   "note": "All twelve sets."
  },
  {
   "property": "C04",
   "status": "proved",
   "theorems": [
    "C04_buffer_suffices",
    "C30_signature_size_max"
   ],
   "note": "All twelve sets."
  },
  {
   "property": "C05",
   "status": "proved",
   "theorems": [
    "C05_sign_writes_only_signature"
   ],
   "note": "All twelve sets."
  },
  {
   "property": "C06",
   "status": "proved",
   "theorems": [
    "C06_public_key_round_trip"
   ],
   "note": ""
  },
  {
   "property": "C07",
   "status": "proved",
   "theorems": [
    "C07_private_key_round_trip"
   ],
   "note": ""
  },
  {
   "property": "C08",
   "status": "proved",
   "theorems": [
    "C08_public_key_canonical",
    "C08_private_key_canonical"
   ],
   "note": ""
  },
  {
   "property": "C09",
   "status": "proved",
   "theorems": [
    "C09_keygen"
   ],
   "note": ""
  },
  {
   "property": "C10",
   "status": "proved",
   "theorems": [
    "C10_validate"
   ],
   "note": ""
  },
  {
   "property": "C11",
   "status": "proved",
   "theorems": [
    "C11_validate_null_refuted",
    "C11_validate_null_sk"
   ],
   "note": "The property is false of the code: the public key is dereferenced before the NULL check. Refuted with a witness; the part for a NULL private key holds."
  },
  {
   "property": "C12",
   "status": "proved",
   "theorems": [
    "C12_sign_ignores_tail",
    "C12_verify_ignores_tail",
    "C12_validate_ignores_tail"
   ],
   "note": "All twelve sets."
  },
  {
   "property": "C13",
   "status": "proved",
   "theorems": [
    "C13_signature_round_trip"
   ],
   "note": ""
  },
  {
   "property": "C14",
   "status": "proved",
   "theorems": [
    "C14_signature_round_trip",
    "C14_accepted_is_canonical"
   ],
   "note": ""
  },
  {
   "property": "C15",
   "status": "proved",
   "theorems": [
    "C15_verify_safe"
   ],
   "note": "FS, full and Picnic3 sets for all strings; UR sets for strings of full length."
  },
  {
   "property": "C16",
   "status": "proved",
   "theorems": [
    "C16_verify_reads_past_buffer_refuted"
   ],
   "note": "False of the code: every short all-zero-challenge string makes the UR reader run past the buffer."
  },
  {
   "property": "C17",
   "status": "proved",
   "theorems": [
    "C17_trailing_bytes_accepted_refuted"
   ],
   "note": "False of the code: any suffix stays accepted."
  },
  {
   "property": "C18",
   "status": "proved",
   "theorems": [
    "C18_binding"
   ],
   "note": "The collision is between the strings hashed by the two verifications."
  },
  {
   "property": "C19",
   "status": "proved",
   "theorems": [
    "C19_seed_tree_opening"
   ],
   "note": "Any number of leaves from 2 to 2^29 whose tree data stays within INT_MAX bytes; any non-empty hide list, in any order and with repetitions."
  },
  {
   "property": "C20",
   "status": "proved",
   "theorems": [
    "C20_merkle_opening_complete"
   ],
   "note": "Any tree size as for C19. The missing list must be shorter than the number of leaves, as the code asserts."
  },
  {
   "property": "C21",
   "status": "proved",
   "theorems": [
    "C21_merkle_opening_binding",
    "C21_merkle_two_openings",
    "C21_supplied_missing_leaf_refuted"
   ],
   "note": "For leaves that are not listed as missing. For leaves that are listed as missing but supplied all the same the statement is false (C21_supplied_missing_leaf_refuted); the code's only caller never does that."
  },
  {
   "property": "C22",
   "status": "proved",
   "theorems": [
    "C22_challenge_well_formed_zkb",
    "C22_challenge_well_formed_picnic3"
   ],
   "note": ""
  },
  {
   "property": "C23",
   "status": "proved",
   "theorems": [
    "C23_sampling_may_not_end_refuted",
    "C23_sign_fuel_irrelevant",
    "C23_verify_fuel_irrelevant"
   ],
   "note": "False of the code: a hash returning only 0xff bytes never lets signing leave the loop. Results are independent of the fuel."
  },
  {
   "property": "C24",
   "status": "proved",
   "theorems": [
    "C24_LowMCEnc",
    "C24_block_bits_only"
   ],
   "note": ""
  },
  {
   "property": "C25",
   "status": "proved",
   "theorems": [
    "C25_injective"
   ],
   "note": ""
  },
  {
   "property": "C26",
   "status": "proved",
   "theorems": [
    "C26_mpc_correct"
   ],
   "note": ""
  },
  {
   "property": "C27",
   "status": "proved",
   "theorems": [
    "C27_special_soundness"
   ],
   "note": "Up to an explicitly given hash collision."
  },
  {
   "property": "C28",
   "status": "proved",
   "theorems": [
    "C28_online_correct"
   ],
   "note": ""
  },
  {
   "property": "C29",
   "status": "proved",
   "theorems": [
    "C29_signature_length"
   ],
   "note": ""
  },
  {
   "property": "C30",
   "status": "proved",
   "theorems": [
    "C30_param_ids",
    "C30_param_sizes",
    "C30_signature_size_max",
    "C30_names_distinct"
   ],
   "note": ""
  },
  {
   "property": "C31",
   "status": "proved",
   "theorems": [
    "C31_unknown_params"
   ],
   "note": ""
  },
  {
   "property": "C32",
   "status": "proved",
   "theorems": [
    "C32_ceil_log2",
    "C32_numBytes",
    "C32_parity32",
    "C32_parity16",
    "C32_get_set_bit"
   ],
   "note": ""
  },
  {
   "property": "C33",
   "status": "proved",
   "theorems": [
    "C33_incremental_hash",
    "C33_hash_model",
    "C33_shake_environment",
    "C33_permutation",
    "C33_long_chunk_refuted"
   ],
   "note": "Proved against a bit-level FIPS 202 specification, for all chunkings with chunks the 32-bit block arithmetic handles (every chunk up to 4 GiB - 200 bytes); for every other chunk the code overruns the state or does not end (refuted part)."
  },
  {
   "property": "C34",
   "status": "proved",
   "theorems": [
    "C34_sign_uninit",
    "C34_verify_uninit",
    "C34_validate_uninit",
    "C34_keygen_uninit"
   ],
   "note": "All twelve sets."
  },
  {
   "property": "C35",
   "status": "proved",
   "theorems": [
    "C35_sign_safe",
    "C35_long_message_refuted"
   ],
   "note": "All twelve sets, with the hash as a total function. The hash itself is safe for messages up to 4 GiB - 200 bytes (C33); for message lengths from 2^32 - stateSizeBytes to 2^32 the first hash of signing overruns the sponge state or does not end (refuted part)."
  },
  {
   "property": "C36",
   "status": "proved",
   "theorems": [
    "C36_padded_key_signs_badly_refuted",
    "C36_padded_key_signature_rejected"
   ],
   "note": "False of the code, with witness; the second theorem shows the failure for every key with nonzero padding unless all challenges are 0."
  },
  {
   "property": "C37",
   "status": "proved",
   "theorems": [
    "C37_seed_derivation"
   ],
   "note": "Every leaf equals the value derived along its path from the root."
  },
  {
   "property": "C38",
   "status": "proved",
   "theorems": [
    "C38_sign_is_specified"
   ],
   "note": "Equality with zkbpp_sign of ZkbppSpec.v, an independent transcription of Section 6; deviations of the code from the text are listed at the head of that file."
  },
  {
   "property": "C39",
   "status": "proved",
   "theorems": [
    "C39_verify_is_specified"
   ],
   "note": "Equality with zkbpp_verify of ZkbppSpec.v; for Unruh sets the code may read out of bounds on strings that do not parse (C16)."
  },
  {
   "property": "C40",
   "status": "proved",
   "theorems": [
    "C40_parameters_are_specified"
   ],
   "note": "Table 2 transcribed in ZkbppSpec.v (table2)."
  },
  {
   "property": "C41",
   "status": "proved",
   "theorems": [
    "C41_sign3_is_specified"
   ],
   "note": "Equality with kkw_sign of KkwSpec.v, an independent transcription of Section 7; where code and text differ the file follows the code, and lists the differences at its head."
  },
  {
   "property": "C42",
   "status": "proved",
   "theorems": [
    "C42_verify3_is_specified"
   ],
   "note": "Equality with kkw_verify of KkwSpec.v for every byte string."
  },
  {
   "property": "C43",
   "status": "proved",
   "theorems": [
    "C43_two_views_hide_third"
   ],
   "note": "Perfect hiding as a bijection between alternative shares and tapes; that tapes are pseudorandom and commitments hiding is not covered."
  },
  {
   "property": "C44",
   "status": "proved",
   "theorems": [
    "C44_online_hides_key"
   ],
   "note": "Same shape as C43; concerns tapes, auxiliary bits, masked key and messages. The hidden party's seed and commitment and the other repetitions are outside the statement; C52 shows what the commitment gives away."
  },
  {
   "property": "C45",
   "status": "proved",
   "theorems": [
    "C45_openings_give_key"
   ],
   "note": "Three answers are needed since a challenge either shows a repetition's preprocessing or opens its online phase. The probability that an attacker can answer three such challenges is not covered."
  },
  {
   "property": "C46",
   "status": "proved",
   "theorems": [
    "C46_zkb_binding"
   ],
   "note": "The public keys' ciphertext padding bits must be zero, as picnic_read_public_key guarantees."
  },
  {
   "property": "C47",
   "status": "proved",
   "theorems": [
    "C47_verify_releases_zkb",
    "C47_verify_releases_picnic3",
    "C47_failed_reconstruction_refuted"
   ],
   "note": "The Picnic3 statement ties the path to the signature bytes: the seed trees of a parsed signature can always be rebuilt. The refuted theorem shows that the cleanup code relies on this. Allocation does not fail in the model."
  },
  {
   "property": "C48",
   "status": "proved",
   "theorems": [
    "C48_sign_releases",
    "C48_zkb_failure_releases_refuted"
   ],
   "note": "The failing ZKB++ path leaks (refuted theorem names one of the blocks)."
  },
  {
   "property": "C49",
   "status": "proved",
   "theorems": [
    "C49_print_zkb",
    "C49_print_unparsed",
    "C49_print_picnic3_refuted"
   ],
   "note": "ZKB++ proved; for Picnic3 the property is false of the code, for every accepted signature."
  },
  {
   "property": "C50",
   "status": "proved",
   "theorems": [
    "C50_print_releases",
    "C50_failure_releases_refuted"
   ],
   "note": "False of the code when the signature does not parse."
  },
  {
   "property": "C51",
   "status": "proved",
   "theorems": [
    "C51_commitments",
    "C51_msgs",
    "C51_seeds",
    "C51_inputs",
    "C51_gcommitments",
    "C51_random_tape",
    "C51_tree"
   ],
   "note": "Justifies that the byte-list model treats these buffers as distinct. Sizes of structures are those of x86-64."
  },
  {
   "property": "C52",
   "status": "proved",
   "theorems": [
    "C52_signature_hides_key_refuted",
    "C52_shake_streams"
   ],
   "note": "False of the code (and of the document, 7.1 steps 4b and 4d): the theorem gives the key recovered from the signature. The exceptional case needs every one of the u unopened parties to be the last of 16."
  },
  {
   "property": "C53",
   "status": "proved",
   "theorems": [
    "C53_rewinding_gives_key"
   ],
   "note": "The example shows three accepted signatures that meet all hypotheses. How often rewinding succeeds is a probability statement and is not modelled."
  },
  {
   "property": "C54",
   "status": "proved",
   "theorems": [
    "C54_LowMC_code"
   ],
   "note": "The code is written statement by statement in the language of MiniC.v, whose semantics makes accesses out of bounds or misaligned and overlapping copies undefined."
  },
  {
   "property": "C55",
   "status": "proved",
   "theorems": [
    "C55_LowMC_constant_time"
   ],
   "note": "Observations are addresses, widths and kinds of accesses, branches and iteration counts of the source program; what a compiler does with it is outside."
  },
  {
   "property": "C56",
   "status": "proved",
   "theorems": [
    "C56_mpc_LowMC_code"
   ],
   "note": "Code in the language of MiniC.v as for C54; the result is tied to the model of the signer used by the signature theorems."
  },
  {
   "property": "C57",
   "status": "proved",
   "theorems": [
    "C57_mpc_LowMC_constant_time"
   ],
   "note": "As C55, for the three-party computation."
  },
  {
   "property": "C58",
   "status": "proved",
   "theorems": [
    "C58_third_share",
    "C58_third_share_L1_full_refuted"
   ],
   "note": "Of the loop of verify only the statements on view3Output are in this program. The claim that the loop is free of misaligned stores is false for Picnic_L1_full, and proved so."
  },
  {
   "property": "C59",
   "status": "proved",
   "theorems": [
    "C59_mpc_LowMC_verify_code"
   ],
   "note": ""
  },
  {
   "property": "C60",
   "status": "proved",
   "theorems": [
    "C60_verify_replays_code"
   ],
   "note": ""
  },
  {
   "property": "C61",
   "status": "proved",
   "theorems": [
    "C61_mpc_LowMC_verify_constant_time"
   ],
   "note": "Timing of single instructions and caches are not modelled."
  },
  {
   "property": "C62",
   "status": "proved",
   "theorems": [
    "C62_computeAuxTape_code"
   ],
   "note": ""
  },
  {
   "property": "C63",
   "status": "proved",
   "theorems": [
    "C63_simulateOnline_code"
   ],
   "note": ""
  },
  {
   "property": "C64",
   "status": "proved",
   "theorems": [
    "C64_computeAuxTape_constant_time",
    "C64_simulateOnline_constant_time"
   ],
   "note": "Timing of single instructions and caches are not modelled."
  },
  {
   "property": "C65",
   "status": "proved",
   "theorems": [
    "C65_online_is_lowmc_code"
   ],
   "note": ""
  },
  {
   "property": "C66",
   "status": "proved",
   "theorems": [
    "C66_online_replays_code"
   ],
   "note": "The message buffers start as zeros, as the code allocates them."
  },
  {
   "property": "C67",
   "status": "proved",
   "theorems": [
    "C67_online_sign_constant_time"
   ],
   "note": "Timing of single instructions and caches are not modelled."
  },
  {
   "property": "C68",
   "status": "proved",
   "theorems": [
    "C68_getAuxBits_code",
    "C68_setAuxBits_code",
    "C68_auxBits_transfer",
    "C68_auxBits_constant_time"
   ],
   "note": ""
  },
  {
   "property": "C69",
   "status": "proved",
   "theorems": [
    "C69_random_bytes",
    "C69_keygen",
    "C69_leak_only_if_short",
    "C69_closes_refuted",
    "C69_exhausts"
   ],
   "note": "That every key generation closes what it opened is false: a short read leaves the file open (C69_closes_refuted)."
  },
  {
   "property": "C70",
   "status": "proved",
   "theorems": [
    "C70_Permute_code",
    "C70_hash_code"
   ],
   "note": "The integers of a context (rate, position, phase) are variables of the caller, not part of its memory; lengths do not wrap in the model, hence the bound."
  },
  {
   "property": "C71",
   "status": "proved",
   "theorems": [
    "C71_hash_constant_time"
   ],
   "note": "Source level, as C55."
  },
  {
   "property": "C72",
   "status": "proved",
   "theorems": [
    "C72_first_request_refuted",
    "C72_second_request_refuted",
    "C72_sign_unreported",
    "C72_verify_unreported"
   ],
   "note": "The property is false of the code. Witness: a memory that refuses the first request. The statements about defined runs hold for the code."
  },
  {
   "property": "C73",
   "status": "proved",
   "theorems": [
    "C73_computeSeeds_code",
    "C73_computeSaltAndRootSeed_code",
    "C73_Commit_code",
    "C73_createRandomTape_code",
    "C73_createRandomTape_short_code",
    "C73_G_code",
    "C73_H3_code",
    "C73_commit_code",
    "C73_commit_h_code",
    "C73_commit_v_code",
    "C73_HCP_code",
    "C73_createRandomTapes_code",
    "C73_hashSeed_code",
    "C73_parentHash_code"
   ],
   "note": "Of H3, HCP and computeParentHash the part that hashes; loops over parties and rounds are written out."
  },
  {
   "property": "C74",
   "status": "proved",
   "theorems": [
    "C74_hashing_constant_time"
   ],
   "note": ""
  },
  {
   "property": "C75",
   "status": "proved",
   "theorems": [
    "C75_sign_rounds_code"
   ],
   "note": "The loop over rounds and parties is written out; buffers are those of the caller. computeSeeds, H3 and prove, which come before and after, are in C73 and the models of C01-C10."
  },
  {
   "property": "C76",
   "status": "proved",
   "theorems": [
    "C76_sign_rounds_constant_time"
   ],
   "note": "The comparison with the public key branches on its outcome, which is the same for all valid key pairs."
  },
  {
   "property": "C77",
   "status": "proved",
   "theorems": [
    "C77_verify_round_code"
   ],
   "note": "Assumes that the buffer of the third output share is word-aligned. Verification with Picnic_L1_full places it misaligned in most rounds, which is the finding of C58."
  },
  {
   "property": "C78",
   "status": "proved",
   "theorems": [
    "C78_verify_code"
   ],
   "note": "Picnic_L1_full is left out: there verification stores words at misaligned addresses (C58). The challenge has no value 3, which deserialization ensures. The loop that hashes again until the challenge is complete is bounded by a number of hashes, in code and model alike; the theorem holds for every bound."
  },
  {
   "property": "C79",
   "status": "proved",
   "theorems": [
    "C79_sign_code"
   ],
   "note": "Starts after the allocations, in buffers of the sizes allocated. The loop that hashes again until the challenge is complete is bounded by a number of hashes, in code and model alike; the theorem holds for every bound."
  },
  {
   "property": "C80",
   "status": "proved",
   "theorems": [
    "C80_sign_trace"
   ],
   "note": "The function is sign_trace in CodeTraceSpec: it replays the program without memory contents, with the digest the verifier computes from the signature, the successful comparisons of the rounds and the challenges. At the level of the source: what a compiler makes of it is not modelled."
  },
  {
   "property": "C81",
   "status": "proved",
   "theorems": [
    "C81_serialize_code"
   ],
   "note": "Program c_serialize in CodeSerialize, compared with serializeSignature of the model."
  },
  {
   "property": "C82",
   "status": "proved",
   "theorems": [
    "C82_picnic_sign_code"
   ],
   "note": "Program c_picnic_sign in CodeSerialize (after the allocations, without the calls of free), compared with picnic_sign of the model with SHAKE; NoFuel corresponds to running out of the allowed number of hashes in H3."
  },
  {
   "property": "C83",
   "status": "proved",
   "theorems": [
    "C83_deserialize_code"
   ],
   "note": "Program c_deserialize in CodeDeserialize, compared with deserializeSignature of the model; the model's uninitialised bytes are those in the allocated buffers."
  },
  {
   "property": "C84",
   "status": "proved",
   "theorems": [
    "C84_picnic_verify_code"
   ],
   "note": "Program c_picnic_verify in CodeDeserialize (after the allocations, without the calls of free), compared with picnic_verify of the model with SHAKE; NoFuel corresponds to running out of the allowed number of hashes in H3."
  },
  {
   "property": "C85",
   "status": "proved",
   "theorems": [
    "C85_verify_reads_past_memory_refuted"
   ],
   "note": "Refutation, on memory, of the expectation that truncated signatures are refused without reading past them (C16 says it of the model). The program of C84 has no result because a copy's source is outside its block."
  },
  {
   "property": "C86",
   "status": "proved",
   "theorems": [
    "C86_sign_code_is_specified"
   ],
   "note": "C82 and C38 together; result of the program on memory against zkbpp_sign of ZkbppSpec with SHAKE."
  },
  {
   "property": "C87",
   "status": "proved",
   "theorems": [
    "C87_verify_code_is_specified"
   ],
   "note": "C84 and C39 together; result of the program on memory against zkbpp_verify of ZkbppSpec with SHAKE."
  },
  {
   "property": "C88",
   "status": "proved",
   "theorems": [
    "C88_sign_then_verify_code"
   ],
   "note": "C82, C84, C01 and C03 together, for two runs on unrelated memories."
  },
  {
   "property": "C89",
   "status": "proved",
   "theorems": [
    "C89_write_public_key_code",
    "C89_write_private_key_code"
   ],
   "note": "Programs of CodeKeys; the comparisons with NULL are not part of them."
  },
  {
   "property": "C90",
   "status": "proved",
   "theorems": [
    "C90_read_public_key_code",
    "C90_read_private_key_code"
   ],
   "note": "Programs of CodeKeys, with get_param_set as one branch for each set; params are index variables."
  },
  {
   "property": "C91",
   "status": "proved",
   "theorems": [
    "C91_public_key_code_round_trip",
    "C91_private_key_code_round_trip"
   ],
   "note": "Two runs on unrelated memories."
  },
  {
   "property": "C92",
   "status": "proved",
   "theorems": [
    "C92_validate_keypair_code"
   ],
   "note": "The local byte array used as words is assumed to be aligned. The NULL public key is C11."
  },
  {
   "property": "C93",
   "status": "proved",
   "theorems": [
    "C93_keygen_code"
   ],
   "note": "Program of CodeKeygen; random bytes are delivered by the environment; NULL pointers and invalid parameters are handled in the functional model."
  },
  {
   "property": "C94",
   "status": "proved",
   "theorems": [
    "C94_keygen_validate_code"
   ],
   "note": "Two runs on unrelated memories."
  },
  {
   "property": "C95",
   "status": "proved",
   "theorems": [
    "C95_code_life"
   ],
   "note": "Composition of the programs on memory; the number of digests tried for the challenge is bounded by fuel, and a run that uses them up is reported as such."
  },
  {
   "property": "C96",
   "status": "proved",
   "theorems": [
    "C96_generate_seeds_code"
   ],
   "note": "After the allocations of createTree; the loops over nodes are written out for the given number of leaves. The derivation is that of C37."
  },
  {
   "property": "C97",
   "status": "proved",
   "theorems": [
    "C97_merkle_tree_code"
   ],
   "note": "After the allocations of createTree; no leaf pointer is NULL (as in the signer); the loops over nodes are written out for the given number of leaves; hasRightChild is asked before the hash is started."
  },
  {
   "property": "C98",
   "status": "proved",
   "theorems": [
    "C98_check_tree_code"
   ],
   "note": "The pattern of NULL pointers in leafData is an argument of the program; the loops over nodes are written out for the given number of leaves; the flags are 0 or 1, as createTree and all writers leave them."
  },
  {
   "property": "C99",
   "status": "proved",
   "theorems": [
    "C99_reconstruct_seeds_code"
   ],
   "note": "The list of nodes that getRevealedNodes returns is an argument of the program (that the function returns this list is proved for the model on lists); so is inputLen. Inputs longer than required are not covered; the verifier passes the exact length."
  },
  {
   "property": "C100",
   "status": "proved",
   "theorems": [
    "C100_reveal_seeds_code"
   ],
   "note": "The list of nodes that getRevealedNodes returns is an argument of the program (that the function returns this list is proved for the model on lists); so is outputSize. An output that is too small, which the code answers with an assertion, is not covered."
  },
  {
   "property": "C101",
   "status": "proved",
   "theorems": [
    "C101_check_opening_code"
   ],
   "note": "The list of nodes that getRevealedMerkleNodes returns, inputSize and the pattern of NULL pointers in leafData are arguments of the program; inputSize is at most INT_MAX; the assertions about the missing leaves are left out."
  },
  {
   "property": "C102",
   "status": "proved",
   "theorems": [
    "C102_open_merkle_tree_code"
   ],
   "note": "The list of nodes that getRevealedMerkleNodes returns is an argument of the program, and any list of nodes of the tree is covered; the output is taken as allocated with the size the code asks for."
  }
 ]
}