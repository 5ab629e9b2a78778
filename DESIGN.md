# Formal model of the Picnic signature reference code (Rocq / Coq 8.16.1)

## 1. Approach

The C code in `/repo` is modelled function by function as total Gallina functions over byte lists
(`list N`, every byte `< 256`), in an error monad

    res A := Ok a | UB | Abort | NoFuel

* `UB`     – an access outside a buffer, a NULL dereference, ...: undefined behaviour is a
             separate outcome, never assumed away;
* `Abort`  – an `assert` of the code fires (the Makefile does not define NDEBUG);
* `NoFuel` – a potentially unbounded loop (challenge sampling, sponge loops) used up its fuel.

C return codes are ordinary values inside `Ok`. Every definition of a model file carries a comment
with the file and lines it models and says where it is simplified.

The property theorems are in files `Properties*.v`, which contain nothing else: each theorem is
closed by `exact lemma.`, followed by `Print Assumptions` and by an `Example` that exhibits a
concrete case meeting the hypotheses. The statements use a vocabulary that is separate from the
model's helper functions (files `*Spec.v`). A property that is false of the code is stated as a
theorem ending in `_refuted`, beside a theorem that says what does hold.

## 2. Files (`rocq/theories`)

Model (definitions only):

| file | code |
|---|---|
| Base     | outcome monad, loops, byte buffers, bit access (`getBit`, `setBit`, ...) |
| Params   | `picnic.h` enum, `picnic.c:get_param_set`, `picnic.c` size helpers |
| Env      | externals: hash (XOF), LowMC constants, uninitialised memory |
| LowMC    | `picnic_impl.c`: `matrix_mul`, `substitution`, `LowMCEnc` |
| MiniC, CodeLowMC | a small language with pointers, word accesses and local arrays, its runs and what is observed of them; `picnic_impl.c:LowMCEnc` and what it calls, statement by statement |
| CodeKeccak | `KeccakP-1600-reference.c` (permutation, adding and extracting bytes), `KeccakSponge.inc`, `KeccakHash.c` and `hash.c` as programs of MiniC; rho unrolled, the `while` loops of absorbing and squeezing as loops of dataByteLen rounds that test the condition, the integers of a context as variables, asserts left out |
| CodeHashUses | `Commit`, `createRandomTape`, `G`, `computeSeeds`, the hash of `H3` (picnic_impl.c); `commit`, `commit_h`, `commit_v`, `createRandomTapes`, `computeSaltAndRootSeed`, the hash of `HCP` (picnic3_impl.c); `hashSeed`, the hash of `computeParentHash` (tree.c); `HashUpdateIntLE` (hash.c) as programs of MiniC on top of CodeKeccak; integer arguments are constants of the program, loops over parties and rounds written out |
| CodeZkb | `picnic_impl.c:mpc_LowMC`, `mpc_LowMC_verify` and what they call, in the same language |
| CodeVerify | the statements of `picnic_impl.c:verify` on `view3Output`, in the same language |
| CodeSign | the loop over the rounds in `picnic_impl.c:sign_picnic1`, in the same language; written out, buffers and tables of pointers are the caller's, the plaintext is the first 4 * stateSizeWords bytes of its buffer, and returning with failure sets a variable to 0 and skips the rest |
| CodeVerRound | one iteration of the loop in `picnic_impl.c:verify` with `verifyProof`, in the same language; one copy of the program per challenge, chosen by comparing the challenge; buffers and tables of pointers are the caller's; the failure of createRandomTape inside verifyProof skips what follows as in the code |
| CodeVerAll | `picnic_impl.c:getChallenge`, `setChallenge`, `H3` and `verify`, in the same language; the buffers and tables of pointers that `verify` allocates are the caller's; the loop over the rounds is written out; the loop of H3 that hashes again has a bound on the hashes; results: whether H3 finished, and whether the signature is valid |
| CodeSignAll | `picnic_impl.c:sign_picnic1` and `prove`, in the same language, with the loop over the rounds from CodeSign and H3 from CodeVerAll; it starts after the allocations and leaves out the calls of free and the assertion of `prove`; results: whether it failed, and whether H3 finished |
| CodeSerialize | picnic_impl.c:982-1038, picnic.c:267-304 (after the allocations) in the language of MiniC |
| CodeDeserialize | picnic_impl.c:1041-1146, picnic.c:394-422 (after the allocations) in the language of MiniC; loops left early are written out |
| CodeKeys | picnic.c:467-479, 488-515, 531-545, 555-587, 605-621 (keys to and from bytes, picnic_validate_keypair; without the comparisons with NULL) in the language of MiniC; the fields params are index variables, get_param_set is one branch for each set, the local array of bytes in picnic_validate_keypair is assumed to be aligned for words |
| CodeKeygen | picnic.c:220-253 (picnic_keygen for a valid value of parameters) in the language of MiniC; the fields params are index variables, the bytes picnic_random_bytes delivers are read from memory of the environment |
| CodeTree | `exists`, `createTree` after its allocations, `expandSeeds`, `generateSeeds` (tree.c) as programs of MiniC; the number of leaves and the repetition number are constants of the program, loops over nodes written out |
| CodeMerkle | `computeParentHash`, `buildMerkleTree` with all leaves given (tree.c) as programs of MiniC, in the same way |
| CodeVerifyTree | `verifyMerkleTree` (tree.c) as a program of MiniC, in the same way; which entries of leafData are NULL is an argument of the program |
| CodeReconstruct | `reconstructSeeds` (tree.c) as a program of MiniC, in the same way; the nodes that `getRevealedNodes` returns and `inputLen` are arguments of the program |
| CodeReveal | `revealSeeds` (tree.c) as a program of MiniC, in the same way |
| CodeOpening | `addMerkleNodes` (tree.c) as a program of MiniC, in the same way, and the check of an opening in `verify_picnic3` |
| CodeOpen | `openMerkleTree` (tree.c) as a program of MiniC, in the same way |
| CodeP3 | `picnic3_impl.c:computeAuxTape`, `simulateOnline`, `getAuxBits`, `setAuxBits` and what they call, in the same language |
| Picnic1  | `picnic_impl.c`: ZKB++ signing, verification, (de)serialisation |
| Tree     | `tree.c`; `nlz`, `ceil_log2` |
| Picnic3  | `picnic3_impl.c`: signing, verification, (de)serialisation |
| Api      | `picnic.c`: the public functions |
| Rng      | `picnic_impl.c:random_bytes_default` (Linux) with the files it opens |
| Keccak   | `hash.c`, `sha3/`: Keccak-f[1600] reference code, sponge, `KeccakHash.c` |
| Memory   | blocks, pointer slots, `malloc`, `calloc`, `realloc`, `free`, local variables |
| Alloc    | `picnic_types.c`, `tree.c` (`createTree`, `freeTree`): what is allocated and freed, pointer tables |
| AllocApi | the allocations and releases of signing, verification and `print_signature` on every path |
| Print    | `picnic.c:print_signature`, as a list of printed lines |

Specifications (definitions only, independent of the model files except for types):

| file | contents |
|---|---|
| Spec       | bits, vectors and matrices over GF(2), LowMC, well-formed environments |
| ApiSpec    | keys as byte strings, padding, LowMC relation |
| SigSpec    | vocabulary for ZKB++ signatures |
| TreeSpec   | positions in a tree, paths, hashed strings |
| P3Spec     | vocabulary for Picnic3 signatures |
| KeccakSpec, HashSpec | SHAKE128/256 as in FIPS 202, on bit strings; runs of the hash interface |
| ZkbppSpec  | Table 2 and Section 6 of the specification document: the ZKB++ scheme |
| PrivacySpec | vocabulary for the statements on hidden parties |
| SoundSpec | the strings hashed by a Picnic3 verification, and the key that openings give |
| MemSpec   | what a run leaves in memory; which path verification of given bytes takes |
| LayoutSpec | regions of memory, overlap |
| ForkSpec | an environment with one hash answer replaced; strings under the commitments of opened parties |
| CodeSpec | what is stored where, what may change, what is observed; the situation in which LowMCEnc is called |
| CodeZkbSpec | the situation in which the ZKB++ computation is called |
| CodeVerifySpec | the situations in which verification computes the opened views and the third output shares |
| CodeP3Spec, CodeP3Proto | the situations in which the computations of Picnic3 are called; what the first leaves for the second |
| CodeKeccakSpec | where context, constants, inputs and outputs lie when the hash functions are called |
| CodeHashUsesSpec | where constants, inputs and outputs lie when the functions of CodeHashUses are called |
| CodeSignSpec | where keys, seeds, views and commitments lie during the rounds of signing |
| CodeVerRoundSpec | where the received proof, views and commitments lie during a round of verification |
| CodeVerAllSpec | where the received signature and the buffers of all rounds lie during verification |
| CodeSignAllSpec | where the buffers of ZKB++ signing and of the signature lie, and what it means that a signature is stored there |
| CodeTraceSpec | where the objects of a run lie, the replay of a program without data, and the trace of ZKB++ signing computed from its signature with it |
| CodeSerializeSpec | the situations in which a ZKB++ signature is written as bytes and in which picnic_sign runs, on memory |
| CodeDeserializeSpec | the situations in which a ZKB++ signature is read from bytes and in which picnic_verify runs, on memory |
| CodeKeysSpec | the situations in which keys are generated, written to bytes, read from bytes and checked, on memory (for generation the arrays are aligned for words, as the fields of the structs are) |
| CodeTreeSpec | a new tree in memory, nodes above a leaf |
| CodeMerkleSpec | the values of the nodes of a Merkle tree, and what is read |
| CodeVerifyTreeSpec | a tree in memory of which some nodes are known, and its completion |
| CodeReconstructSpec | the situation in which a seed tree is rebuilt |
| CodeOpeningSpec | the situation in which an opening is checked, and the values in an opening |
| RngSpec | what an operating system may do when random bytes are asked for |
| LeakSpec | computing the private key from the bytes of a Picnic3 signature |
| PrintSpec | the lines expected for a ZKB++ signature |
| KkwSpec    | Section 7 of the specification document: the Picnic3 scheme |

Proofs: `BaseFacts ParamFacts UtilFacts LowMCFacts LowMCInj ApiFacts ApiProofs1` (basics, keys,
LowMC), `Hint Zkb*` (ZKB++), `Tree*` (trees), `P3*` (Picnic3), `AllProps` (all sets),
`KeccakPerm KeccakSponge KeccakProofs HashProofs` (hash), `Zkbpp*` (conformance with Section 6),
`Kkw*` (conformance with Section 7), `MatInv ZkbPrivacy P3Privacy` (hidden parties), `P3Sound` (extraction of the key),
`MemLogic MemRules MemObjects MemApi MemTop` (a small separation logic for the memory model), `LayoutProofs`, `PrintProofs`,
`MiniCFacts CodeRules CodeLowMCProofs` (rules for MiniC, soundness of the constant-time check, LowMC),
`CodeHeap CodeZkbProofs CodeZkbBits CodeZkbSub CodeZkbMpc CodeZkbRun CodeZkbThm` (several live buffers, the ZKB++ computation), `CodeXor CodeVerifyProofs` (third output shares),
`CodeZkbVer CodeZkbVerSub CodeZkbVerRun CodeZkbVerThm` (the verifier's ZKB++ computation),
`CodeP3Proofs CodeP3Lin CodeP3Aux CodeP3AuxRun CodeP3AuxThm CodeP3On CodeP3Sbox CodeP3Sim CodeShow CodeP3SimThm CodeP3Thm CodeP3AuxBits` (the computations of Picnic3), `RngProofs`, `RefusalProofs`, `CodeHashUsesProofs`, `CodeHashUsesTop`, `CodeHashUsesWitness`, `CodeSignRules CodeSignProofs CodeSignThm CodeSignWitness` (the rounds of ZKB++ signing), `CodeVerRoundProofs CodeVerRoundThm CodeVerRoundWitness` (a round of ZKB++ verification), `CodeH3Proofs CodeVerAllProofs CodeVerAllWitness` (the whole of it), `CodeSignAllModel CodeSignAllProofs CodeSignAllWitness` (the whole of ZKB++ signing), `CodeTraceSim CodeTraceH3 CodeTraceSign` (what is observed of it), `CodeSerializeProofs CodeSerializeWitness` (the signature as bytes, picnic_sign), `CodeDeserializeProofs CodeReceiveProofs CodeDeserializeWitness` (the signature from bytes, picnic_verify), `CodeEndProofs` (both together), `CodeKeysProofs CodeKeysThm CodeKeygenProofs` (keys), `CodeLifeProofs` (all of it in a row), `CodeTreeProofs CodeTreeThm` (seed trees), `CodeMerkleProofs CodeVerifyTreeProofs` (Merkle trees), `CodeReconstructProofs CodeRevealProofs` (rebuilding and revealing seed trees), `CodeOpeningProofs CodeOpenProofs` (openings),
`CodeLanes CodeKeccakProofs CodeSpongeProofs CodeSqueezeProofs CodeHashProofs` (Keccak on memory; `CodeLanes` reduces a program that
only accesses whole lanes to one on lists of lanes).
Concrete cases: `Witness ZkbWitness TreeWitness P3Witness PrivacyWitness SoundWitness CodeWitness CodeZkbWitness CodeZkbVerWitness CodeP3Witness`.

Property theorems: `PropertiesKeys PropertiesLowMC PropertiesPicnic1 PropertiesTree
PropertiesPicnic3 PropertiesApi PropertiesHash PropertiesSpec PropertiesPrivacy PropertiesSound
PropertiesMemory PropertiesLayout PropertiesPrint PropertiesLeak PropertiesFork PropertiesCode PropertiesCodeZkb PropertiesCodeVerify PropertiesCodeZkbVer PropertiesCodeP3 PropertiesCodeAux PropertiesRng PropertiesCodeKeccak PropertiesRefusal PropertiesCodeHashUses PropertiesCodeSign PropertiesCodeVerRound PropertiesCodeVerAll PropertiesCodeSignAll PropertiesCodeTrace PropertiesCodeSerialize PropertiesCodeDeserialize PropertiesCodeEnd PropertiesCodeKeys PropertiesCodeKeygen PropertiesCodeLife PropertiesCodeTree PropertiesCodeMerkle PropertiesCodeVerifyTree PropertiesCodeReconstruct PropertiesCodeReveal PropertiesCodeOpening PropertiesCodeOpen`.

## 3. Externals

* **Hash**: `xof : bool -> list byte -> nat -> list byte` (SHAKE128/SHAKE256). The theorems on keys
  and signatures hold for every function of the right output length. `C33_*` prove that the code of
  `hash.c` and `sha3/` computes SHAKE for any split into `HashUpdate` calls as long as every chunk is
  shorter than about 4 GiB (`short`), so that `with_shake E` is the instance of the code.
  For longer messages it does not: `C33_long_chunk_refuted`, `C35_long_message_refuted`
  (`SpongeAbsorb` computes the partial block length in 32 bits). **All theorems on signing and
  verification are therefore to be read for messages below 2^32 - 200 bytes**; the model of the API
  calls the total function `xof`.
* **LowMC constants**: `lowmc_constants.c` is not part of the repository, so the matrices and
  round constants are fields of the environment. Well-formedness (`constants_ok`: table sizes, zero
  padding; `inverses_ok`: `LMatrixInv`/`KMatrixInv` are inverses, used by Picnic3) is an explicit
  hypothesis, which `Witness.v` shows can be met.
* **Uninitialised memory**: `uninit site instance len` yields arbitrary bytes at every `malloc`
  without clearing and every uninitialised local array. Theorems hold for all contents.
* **Randomness**: `random_bytes` is an oracle that may fail. `Rng` models the default source (Linux) with
  an operating system that may refuse to open `/dev/urandom` or deliver less than asked for (`C69_*`).

## 4. What is modelled, what is not

Modelled: all functions of `picnic.c`, `picnic_impl.c`, `picnic3_impl.c`, `tree.c` and `hash.c`
except those that print (`print*`; but `print_signature` is modelled), the random sources of
other platforms (Windows and `random_bytes_supercop`), the unused `hasLeftChild`, and `toLittleEndian`/
`fromLittleEndian` (identities on the modelled platform). `picnic_types.c` (`allocate*`, `free*`):
the sizes of the buffers appear as lengths of byte lists at the place of use in the model of the
computation, and the allocations and pointer tables themselves in `Alloc`, `AllocApi`. Of `sha3/`: the
reference permutation with its compiled-in tables, the sponge (`Initialize`, `Absorb`,
`AbsorbLastFewBits`, `Squeeze`) and `KeccakHash.c`; not `Sponge` (one-shot), not the functions that
recompute or display the tables, not the 12-round and N-round permutations and `Overwrite*`,
`ExtractAndAddBytes`, which nothing calls.

Simplified or not modelled:

* `malloc`/`calloc` always succeed, except in `Memory`/`AllocApi`, where the memory says which requests are refused; C47, C48, C50, C51
  assume that none is (in `mem_wf`), C72 says what happens otherwise.
* There are two models of signing and verification. `Picnic1`, `Picnic3`, `Api` compute the results and
  have no `free`. `AllocApi` has every `malloc`, `calloc`, `realloc`, `free`, every store and load of a
  pointer to be freed, and the branches between them; data is left out, and the outcome of each
  check on data is an input (`vflow`, `sflow`). For Picnic3 verification `follows` ties these inputs to
  the signature bytes through the first model. That data accesses stay inside buffers is the first
  model's part.
* Pointers are replaced by byte lists with offsets; distinct buffers do not alias. (For LowMC encryption C54,
  for the ZKB++ computations C56-C60, for those of Picnic3 C62-C68, for the hash functions and their uses C70 and C73 and for ZKB++ signing C75 and C79, and for verification C77 and C78, for picnic_sign and picnic_verify with ZKB++ C81-C88 for keys C89-C94 and for trees C96-C102, remove this simplification: there the code runs on
  memory with pointers.) Where the code
  carves several objects from one allocation (`slab`), the model keeps the sizes and checks
  bounds against them; C51 proves that these objects do not overlap.
* Machine integers: lengths and indices are `nat`; wrap-around is modelled where the code can reach
  it (`uint16_t` in `HashUpdateIntLE`, 32/64-bit arithmetic in the sponge). `size_t` overflow of
  buffer lengths is not reachable with lengths below 2^63 and not modelled.
* Alignment of word accesses is modelled in MiniC only. (The code reads bytes as `uint32_t` words at
  addresses that for 17-byte blocks are not 4-aligned. `picnic_validate_keypair` passes a local byte
  array to `LowMCEnc` as a `uint32_t` array; that the compiler aligns it is not guaranteed by the
  language and not part of the model.)
* Little-endian platform, x86-64 integer sizes, asserts enabled.
* Not modelled: test programs, `create_test_vectors.c`,
  Visual Studio files; timing and side channels except for C55, C57, C61, C64, C67, C68, C71, C74 and C76.
* Cryptographic security is not a theorem here. The statements on soundness and binding are
  reductions to explicit collisions of the hash function.

## 5. Properties

| id | theorem file | how |
|---|---|---|
| C01, C13, C16, C17, C26, C27, C29 | PropertiesPicnic1 | ZKB++: closed form of a round, simulation of signer by verifier, codec, special soundness |
| C02, C14, C18, C28 | PropertiesPicnic3 | Picnic3: closed forms of tapes, auxiliary bits, online phase, trees; codec; injectivity of the hashed string |
| C03, C04, C05, C12, C15, C34, C35 | PropertiesApi | all sets together |
| C36 | PropertiesPicnic1 | refuted, with the exact outcome |
| C06–C11, C30–C32 | PropertiesKeys | key encodings, parameter table, utilities |
| C19–C21, C37 | PropertiesTree | trees with any number of leaves |
| C22, C23 | PropertiesPicnic1, PropertiesPicnic3, PropertiesApi | challenge well formed; sampling need not end (refuted) |
| C24, C25 | PropertiesLowMC | code computes LowMC; injectivity |
| C33 | PropertiesHash | sponge code computes SHAKE of the concatenation |
| C38–C42 | PropertiesSpec | equality with the schemes of Sections 6 (ZKB++) and 7 (Picnic3) and Table 2 |
| C43, C44 | PropertiesPrivacy | opened parties fit every other key share (key) with exactly one tape |
| C45 | PropertiesSound | three accepted answers to one Picnic3 challenge hash give a key or a hash collision |
| C46 | PropertiesSound | ZKB++ signature bytes accepted for two messages or keys: two strings with the same challenge; uses C39 |
| C47, C48, C50 | PropertiesMemory, PropertiesPrint | triples for all allocating functions; live memory after = before |
| C51 | PropertiesLayout | tables and elements of each slab are disjoint regions of new blocks |
| C52 | PropertiesLeak | the commitment of the unopened party is the start of its tape: key recovery (refuted) |
| C53 | PropertiesFork | three ZKB++ signatures on one challenge string (hash answer replaced) give a key or a collision; uses C39 |
| C54 | PropertiesCode | MiniC program for LowMCEnc: accesses valid, output = cipher, rest of memory unchanged |
| C55 | PropertiesCode | the program shows no data (a check on its text), so its observations do not depend on memory contents |
| C56 | PropertiesCodeZkb | MiniC program for mpc_LowMC: accesses valid, results = those of the signature model, shares add up to LowMC |
| C57 | PropertiesCodeZkb | as C55 for mpc_LowMC |
| C58 | PropertiesCodeVerify | third output shares in verification: valid and right, except that Picnic_L1_full stores misaligned words |
| C59 | PropertiesCodeZkbVer | the verifier's ZKB++ computation on memory with pointers |
| C60 | PropertiesCodeZkbVer | on memory, the verifier recomputes what the signer computed |
| C61 | PropertiesCodeZkbVer | the verifier's ZKB++ computation is constant-time |
| C62 | PropertiesCodeP3 | computing the auxiliary bits on memory with pointers |
| C63 | PropertiesCodeP3 | the online simulation on memory with pointers |
| C64 | PropertiesCodeP3 | both are constant-time up to the outcomes of the final comparison |
| C65 | PropertiesCodeP3 | on memory, both together compute LowMC |
| C66 | PropertiesCodeP3 | on memory, the verifier recomputes the signer's messages |
| C67 | PropertiesCodeP3 | the signer's online simulation shows nothing about the key |
| C68 | PropertiesCodeAux | reading and setting auxiliary bits on memory with pointers |
| C69 | PropertiesRng | the default random source and key generation with it; `C69_closes_refuted`: a short read leaves the device open |
| C70 | PropertiesCodeKeccak | the permutation and the hash functions on memory with pointers |
| C71 | PropertiesCodeKeccak | both are constant-time |
| C72 | PropertiesRefusal | refused allocations: the first requests crash, no refusal is reported |
| C73 | PropertiesCodeHashUses | the functions that hash, on memory: result, frame, no error |
| C74 | PropertiesCodeHashUses | and what is observed of them does not depend on data |
| C75 | PropertiesCodeSign | the loop over the rounds of ZKB++ signing on memory, with all it calls |
| C76 | PropertiesCodeSign | and it is constant-time for valid key pairs |
| C77 | PropertiesCodeVerRound | a round of ZKB++ verification on memory, with all it calls, for any received proof |
| C78 | PropertiesCodeVerAll | the whole of ZKB++ verification on memory: all rounds, H3 and the comparison |
| C79 | PropertiesCodeSignAll | the whole of ZKB++ signing on memory, from the seeds to the signature |
| C80 | PropertiesCodeTrace | what is observed of ZKB++ signing is computed from the signature and public data |
| C81-C82 | PropertiesCodeSerialize | a ZKB++ signature written as bytes on memory; picnic_sign on memory for ZKB++ |
| C83-C85 | PropertiesCodeDeserialize | a ZKB++ signature read from bytes on memory; picnic_verify on memory for ZKB++; the read past a truncated UR signature |
| C86-C88 | PropertiesCodeEnd | picnic_sign and picnic_verify on memory against the specification, and one after the other (ZKB++) |
| C89-C92 | PropertiesCodeKeys | keys written to bytes, read from bytes and checked on memory |
| C93-C94 | PropertiesCodeKeygen | key generation on memory |
| C95 | PropertiesCodeLife | key generation, the public key through bytes, signing and verification, each on a memory of its own |
| C96 | PropertiesCodeTree | generating a seed tree on memory |
| C97 | PropertiesCodeMerkle | making a Merkle tree on memory |
| C98 | PropertiesCodeVerifyTree | checking a Merkle tree on memory |
| C99 | PropertiesCodeReconstruct | rebuilding a seed tree on memory |
| C100 | PropertiesCodeReveal | revealing seeds of a seed tree on memory |
| C101 | PropertiesCodeOpening | checking the opening of a Merkle tree on memory |
| C102 | PropertiesCodeOpen | opening a Merkle tree on memory |
| C49 | PropertiesPrint | ZKB++: lines = parsed fields; Picnic3: over-read (refuted) |

`MANIFEST.json` gives the theorems of each property.

### False of the code

C11 (NULL public key dereferenced), C16 (Unruh verifier reads past the buffer; C85 shows it on memory), C17 (trailing bytes
accepted), C23 (sampling loops need not end), C36 (validated key with nonzero padding bits signs
unverifiably), C33/C35 for chunks near and above 4 GiB, C48 (ZKB++ signing with an inconsistent key
leaks), C49 (`print_signature` over-reads for Picnic3), C50 (`print_signature` leaks when parsing fails),
C58 (verification with Picnic_L1_full stores 32-bit words at misaligned addresses), C69 (a short read
leaves the random device open), C72 (a refused allocation is dereferenced, the test for NULL comes too late).
**C52**: the private key can be computed from one Picnic3 signature. The random tape of a party and the
commitment to its seed are SHAKE outputs of one and the same string (seed, salt, t, j; no prefix), so the
commitment of the unopened party, published in the signature, is the start of the tape that masks the
key. Code and document agree in this. C44 speaks only of the other parts of an opening.
`C47_failed_reconstruction_refuted`: the error path of `verify_picnic3` frees pointers that were never
set when the initial seeds cannot be rebuilt; C47 shows that no signature leads there.

### Code and specification document

Found while writing `ZkbppSpec.v` (the formal specification follows the code in these points):

* the string hashed to the challenge ends with public key, salt, message; the document has salt,
  public key, message;
* seed derivation hashes the block size n, the document says S (differs for the full L1, L5 sets);
* the tape keeps its input share in whole bytes (differs for the full L1 set);
* step 3(d) of the document names H4 for G, Section 6.4.6 and the code use H5;
* the encoded challenge stores the low bit of each trit first;
* trailing bytes after a signature are accepted; padding bits of input shares are checked.

Found while writing `KkwSpec.v` (again the formal specification follows the code):

* revealed seed-tree nodes are listed from the leaves upwards (document: from the root downwards);
* a revealed node with a single child is replaced by that child only where the child is the last
  node of the tree;
* a Merkle node whose right child is missing hashes a digest of zeros in its place, unless the
  number of the missing node lies beyond the last leaf (document: left child only);
* openings are written in the order of the repetitions (document: in the order of the challenge);
* seed derivation hashes n instead of S, and the salt comes first;
* a tape has twice the byte-rounded length of the AND-gate bits (document: 6rs bits rounded once);
* padding bits of the masked key in a signature are not checked.

## 6. Trusted base

* The Coq 8.16.1 kernel, including its virtual machine (`vm_compute` is used for finite checks over
  the parameter table and concrete examples). No kernel check is switched off.
* `Print Assumptions` of every property theorem prints "Closed under the global context": no axioms
  at all, neither own ones nor of the standard library.
* The hand translation of C to Gallina (Section 4), the environment of Section 3.
* The specification files of Section 2, which say what the theorems mean.

Theorems were tested against wrong programs: `seeded/LOG.jsonl` lists the edits made to the model in
a scratch copy, the property theorems that stopped holding (their proof no longer goes through, directly or
through a lemma it uses) and the statements added as a result.
