# Design: a Rocq model of sphincs/sphincsplus and its proofs

Status: written before the proofs; the per-property table is updated as the model grows.
`MANIFEST.json` holds the authoritative claim status and exact theorem names.

## 1. Shape of the development

```
rocq/theories/
  Base BaseFacts       bytes, buffers with checked access, option ("UB") monad, integer wraps
  Params               ref/params/*.h: the six parameter sets and the derived sizes
  Address AdrsEnc      ref/address.c + the three *_offsets.h, byte by byte
  Suite                the hash interface (hash.h, thash.h) as a record: one value per build
  Utils Wots Fors Merkle Sign
                       ref/utils.c utilsx1.c wots.c wotsx1.c fors.c merkle.c sign.c, by function
  Spec SpecFacts SpecExt SpecExtW
                       the SPHINCS+ specification as mathematics (independent of the code model)
  Refine, AddressProofs TreeProofs TreehashProofs WotsDigitsProofs WotsProofs ForsProofs
  MerkleProofs SignProofs ApiProofs ApiProofs2 CoreFacts CoreFacts2 CoreFacts3
                       refinement proofs of the core
  Fips202              ref/fips202.c            KeccakSpec   FIPS 202, bit level
  Sha2 HashSha2        ref/sha2.c hash_sha2.c thash_sha2_*.c    Sha2Spec  FIPS 180-4
  Haraka HashHaraka    ref/haraka.c hash_haraka.c thash_haraka_*.c
                       HarakaSpec: Haraka v2 on the AES round of FIPS 197
  HashShake            ref/hash_shake.c thash_shake_*.c
  HashSpec HarakaHashSpec BuildSpec
                       the tweakable hashes, PRF, message functions of the specification
  *Proofs, SpongeFacts Sha2Facts HarakaSponge HarakaTweak BuildProofs
                       refinement proofs of the hash code and of whole builds
  ForgeSpec ForgeProofs ForgeFacts ForgeCode
                       the hash calls of the verifier, what counts as a break, extraction (C26)
  Rng                  ref/randombytes.c, ref/rng.c     RngSpec  counter-mode generators
  RngProofs            their proofs (C46 C47 C49)
  Overlap              ref/sign.c again, with all buffers in one memory (C48); OverlapProofs
  Lanes LaneFacts LaneTree* LaneSort* LaneChain* LaneWots* LaneMerkleProofs LaneAgree SignX SignXProofs
                       utilsx{2,4,8}.c and wots.c, fors.c, merkle.c, sign.c of the vector
                       directories for 2^lw lanes, and their proofs (C40 C41 C42)
  LaneKeccak LaneShake shake-avx2/keccak4x, f1600x2.s, fips202x{2,4}.c, hash_shakex*.c,
                       thash_shake_*x{2,4}.c;  LaneKeccakProofs LaneShakeProofs LaneThashShake
                       LaneShakeOk: proofs
  KeccakSnP            the rest of keccak4x: access by bytes and lanes, 12 rounds, absorbing loops;
                       KeccakSnPSpec, KeccakSnPProofs KeccakSnPLanes: proofs (C69)
  LaneSha2             sha256avx.c sha256x8.c sha512x4.c hash_sha2x8.c thash_sha2_*x8.c;
                       LaneSha2*: proofs
  HarakaNi             haraka-aesni/haraka.c hash_harakax4.c thash_haraka_*x4.c; HarakaNi*: proofs
  LaneHashForms Shake128Spec
                       the multi-lane primitives against the standards (C44 C51 C52 C53)
  OptBuild OptProofs OptForge
                       the four vector directories as whole implementations (C42 C43 C54 C55 C56)
  Bench                ref/test/benchmark.c;  BenchSpec BenchProofs (C70)
  Text Kat             ref/PQCgenKAT_sign.c and the stdio functions it uses;  KatSpec: its files
                       KatIo SignBytes KatProofs: proofs (C57 C58 C59)
  Selftest             ref/test/spx.c;  SelftestSpec, SelftestProofs SelftestImpl: proofs (C60)
  TestPrograms         test/thashx{2,4,8}.c, test/fors.c;  AnyAddr TestProgramsProofs: proofs (C61 C62)
  CallLog              ref/ core once more, with a record of every hash call;  CallErase: the record changes nothing
  CallSpec             the calls the scheme makes;  Call{Tree,Wots,Fors,Sign,Api}Proofs CallSpecFacts
                       CallInputFacts: proofs (C63 C64 C65 C66)
  CInt                 integer expressions of C;  CCore: the ref/ core once more, every expression in them as written
                       CIntFacts CCoreProofs* CCoreCases: proofs that it equals the core model (C71)
  CSha2 CFips202       sha2.c and fips202.c in the same typed expressions;  CWord CSha2Proofs CFips202Proofs CHashRuns:
                       proofs that they equal the models and so the standards (C73)
  CHaraka              haraka.c in the same typed expressions;  CHarakaProofs, 2-6: proofs that it equals the model and so
                       the AES-based definitions (C74)
  CGlue                hash_*.c, thash_*.c and seed_state in the same typed expressions;  CGlueProofs, 2-4: proofs that they
                       equal the models and so the constructions of the specification (C75)
  CBuild               the typed hash functions of CGlue as the suite the typed core is linked with;  CBuildProofs, CBuildApi:
                       the public functions over it equal the specification (C76)
  CTreehash            treehash of utils.c in typed expressions;  CTreehashProofs: equal to the model (C71)
  CRng                 rng.c in the same typed expressions;  CRngProofs: equal to the model and to the specification (C77)
  CRandombytes         randombytes.c in the same typed expressions;  CRandombytesProofs (C78)
  CKat                 FindMarker, ReadHex, fprintBstr of PQCgenKAT_sign.c in the same typed expressions;  CKatProofs (C79)
  CKatMain             main of PQCgenKAT_sign.c in the same typed expressions;  CKatMainProofs, CKatFiles: the specified files (C80)
  CTLog                the signer of ref/ once more, recording branches and accesses;  CTErase: it is the core model
                       CTSpec (public values) CTProofs CTRoots CTApi: C72
  LeakSpec             signatures seen before, secrets with the same images;  LeakFacts LeakCode LeakToy: proofs (C67 C68)
  Toy                  a small suite used by examples only
  Prop_*               property theorems only: statement, `exact lemma`, Print Assumptions, example
```

### Modelling conventions

* Bytes and C integers are `Z`; every place where the C type wraps is written as `mod 2^32`
  or `mod 2^64`, unless the definition's comment says why no wrap can occur.
* A C buffer is a `list Z`.  A pointer into the middle of a larger buffer that is passed to a
  callee is passed as the slice of the documented size and spliced back by the caller.
  Access outside the slice yields `None`, the distinct "undefined behaviour" outcome; this is
  stricter than C, where the access could still hit the enclosing buffer.
* Uninitialised memory has arbitrary contents: it is a universally quantified argument, and the
  theorems show that the outcome does not depend on it.
* Loops with a C-level `return`/`break` are recursion on explicit fuel; running out of fuel is
  also `None`.  Refinement theorems state `f args = Some (...)`, so they exclude both.
* The hash functions reach the core through the record `suite` (one field per function of
  `hash.h`/`thash.h`); the core theorems hold for every suite satisfying `suite_ok` (output sizes
  and index ranges), and the SHAKE, SHA-2 and Haraka models are proved to satisfy `suite_ok`.
* `randombytes` is an explicit argument: the bytes it returns.
* In the hash code a byte read through an `unsigned char` pointer is written `u8 x` (= x mod 256),
  so the functions are total on lists of integers and the theorems speak about `map u8` of the
  input, or assume `all_bytes`.
* Lengths are `nat`/`Z` without wrap where a wrap would need a buffer of 2^63 bytes or more (for
  example `SPX_N + mlen` in hash_sha2.c); theorems then assume `length m < 2^63`.
* `thash` is modelled with pointers into one memory (`out` and `in` may overlap); the value version
  the core uses is derived from it and proved to agree (C39).

* The multi-lane directories (shake-a64, shake-avx2, sha2-avx2, haraka-aesni) have one common
  model, `Lanes.v` and `SignX.v`, for 2^lw lanes (lw = 1, 2, 3); their hash functions are the
  record `lane_fns`, required to act lane-wise (`lanes_ok`).  `OptBuild.v` instantiates it with the
  modelled hash code of each directory, for which `lanes_ok` is proved.
* A vector register is a function from lane numbers to words; an intrinsic is its documented
  lane-wise operation.  AES-NI registers are 16-byte lists and `aesenc` is the FIPS 197 round.
  The f1600x2 assembly is a list of instructions executed on a register file.
* Lane buffers that are slices of one C array (`bufx8` in sha2-avx2) are separate buffers per lane.

### Trusted base

* Coq 8.16.1 kernel (including `vm_compute`).
* `Print Assumptions` is run under every property theorem; the intended answer is "Closed under
  the global context".  Any exception is listed in section 4.
* The reading of the C code into the model: not run here, checked by citation only.
* Integer promotions and conversions: for the core of ref/ they are modelled by CInt.v/CCore.v and proved to agree with
  the model (C71), for an ABI with 8-bit char, 32-bit int, 64-bit long long and size_t; for sha2.c and
  fips202.c by CSha2.v/CFips202.v (C73), for haraka.c by CHaraka.v (C74), for hash_*.c, thash_*.c and
  seed_state by CGlue.v (C75); for `treehash`, which nothing calls, by CTreehash.v (C71);
  for rng.c by CRng.v (C77), for randombytes.c by CRandombytes.v (C78), for PQCgenKAT_sign.c by CKat.v and CKatMain.v (C79, C80);
  in the other files (vector directories, test programs) only those written out are modelled.
* C-level facts not modelled: alignment,
  strict aliasing of `uint32_t addr[8]` accessed as bytes (allowed through `unsigned char *`),
  stack exhaustion by VLAs, timing/side channels beyond the record of C72, compiler and hardware.

* C72's record is what CTLog.v writes down: data- and index-dependent branches, offsets and lengths of buffer accesses, hash
  calls with block count or message length.  Loops with constant bounds and accesses at constant offsets (address.c,
  ull_to_bytes) are left out as constant; what happens inside a hash function, the compiler and the processor is not covered.
  Where the model copies a part of a buffer out and back (a pointer passed on in C), the copies appear in the record too.

### Not modelled

* Instructions and intrinsics below their documented lane semantics.  Of `shake-a64/f1600x2.s`, the loop
  counter register and the saving of d8-d15 are left out.  `int64_t *` accesses to byte buffers are
  read as little-endian; alignment is not modelled.
* OpenSSL's AES in `ref/rng.c` (an abstract block cipher), the clock reading and terminal texts of the
  benchmark programs (`cycles.c`), `ref/test/haraka.c`
  (it does not match the functions it calls, see below), build scripts.  Of the other test programs, messages on
  the terminal are left out and `malloc` succeeds.
* Of standard I/O, only what `PQCgenKAT_sign.c` uses: a file is a list of bytes, `fopen` may fail,
  writes and `malloc` succeed.  A failed conversion or a too-long field in the program's own files is an
  explicit outcome of the model; `printf` to the terminal is left out.

## 2. Properties

See `properties.jsonl` for statements. Plan per property:

| ids | what is modelled | how proved |
|---|---|---|
| C01 C02 C03 C04 C05 C06 C12 C20 C16 C13 | utils/wots/fors/merkle/sign | refinement of each C function to Spec.v by loop invariants, then completeness on Spec.v |
| C07 C08 C09 C10 C27 C11 | sign.c verify/open | refinement; `None` is the UB outcome, shown unreachable |
| C14 C15 | treehash, treehashx1 | both refine the recursive Merkle tree |
| C17 C18 C19 C21 C22 C45 C50 | base_w, checksum, message_to_indices, index arithmetic | positional-notation lemmas |
| C23 C24 | address.c | encoding as explicit bytes, injectivity |
| C25 | utils.c integer conversions | induction on length |
| C26 | Spec.v verify | extraction by induction over tree levels, layers, chains |
| C28 C29 C30 C31 C32 C36 | sha2.c, hash_sha2.c, thash_sha2_* | refinement to FIPS 180-4 / RFC 2104 / MGF1 |
| C33 C34 C35 | fips202.c | refinement to FIPS 202 |
| C37 C38 | haraka.c, haraka-aesni/haraka.c | sponge refinement; bitslice lifting |
| C39 | thash_*.c | refinement |
| C40 C41 C42 C43 C44 C51 C52 C53 | vectorised sources | lane-wise simulation |
| C54 C55 C56 | whole implementations | the core theorems applied to every modelled directory |
| C46 C47 C49 | randombytes.c, rng.c | trace-parametric models |
| C57 C58 C59 | PQCgenKAT_sign.c | text level: first occurrence, positional numbers; then C49, C55 per entry |
| C60 C61 C62 | test/spx.c, thashx*.c, fors.c | C55 per call; lane-wise hashing (C61_verdict: for any lane functions); simulation by a suite that patches addresses |
| C63 C64 C65 C66 | the core with a record of the hash calls | erasure to the core model; refinement of the record to the scheme's call list; then counting and distinctness of addresses on that list |
| C67 C68 | the core, all implementations | the forgery analysis of C26/C56 with a list of queries; replacement of the secret-value function |
| C69 | keccak4x/KeccakP-1600-times4-SIMD256.c | byte by byte: what each function does to each position of each instance |
| C70 | test/benchmark.c | order statistics and digit groups; C55 per call |
| C71 | params.h, address.c, wots*.c, fors.c, merkle.c, utils*.c, sign.c, end of hash_message | a second transcription in typed C expressions, proved equal to the model |
| C72 | sign.c, merkle.c, fors.c, wots*.c, utilsx1.c (key generation, signing) | the core with a record of branches and accesses; two runs compared |
| C73 | sha2.c, fips202.c (SHAKE256) | typed C expressions, proved equal to the models and to the standards |
| C74 | haraka.c | typed C expressions, proved equal to the model and to Haraka v2 and Haraka-S over the AES round |
| C75 | hash_*.c, thash_*.c, seed_state | typed C expressions over the typed primitives, proved equal to the models and to the constructions; block count wrap shown |
| C76 | all of ref/ below the public functions | typed core (C71) over typed hash functions (C73 to C75) proved equal to the specification end to end |
| C77 | rng.c | typed C expressions, any block cipher, proved equal to the model and to the specified generators; int overflow shown |
| C78 | randombytes.c | typed C expressions, pointers confined to their object; a failing read shown undefined.  read's ssize_t result is written as an int (it is -1 or at most 1048576) |
| C79 | PQCgenKAT_sign.c: FindMarker, ReadHex, fprintBstr | typed C expressions, proved equal to the model; library functions and files as in C57 |
| C80 | PQCgenKAT_sign.c: main | typed C expressions over the typed rng.c and input/output; the implementation it is linked with as in C58 (its own typed form: C76) |
| C48 | sign.c with one shared memory | overlap model, refutation witness for m = sm |

## 3. Findings

* `ref/randombytes.c:34-41`: the result of `read` is stored in `unsigned long long`, so the
  error value -1 is 2^64-1, is not `< 1`, and is then added to the pointer: the buffer pointer
  moves back by one and `xlen` grows by one (`C46_read_error_refuted`).
* `ref/rng.c:155,170`: `randombytes` indexes its output with an `int`; a request of 2^31 bytes or more
  overflows it (`C49_long_refuted`).  `reseed_counter` (line 179) is an `int` too and is never tested.
* `ref/rng.c:67`: `seedexpander` refuses `xlen >= length_remaining`, so the last of the `maxlen` bytes
  can never be obtained (`C47_total`).
* `ref/PQCgenKAT_sign.c` `ReadHex` with `Length == 0` writes `A[0]` and returns 1 without looking for the
  marker (`C57_empty_refuted`); a marker of 50 bytes or more is cut to 49.  `main` does neither.
* `ref/test/spx.c`: the second `crypto_sign_open` is called in place and moves the message over the first bytes
  of the signature, so the changed-bit checks that follow all start from an invalid signature.  A verifier
  that ignores a bit of the message passes (`C60_detects_refuted`).
* `shake-a64/test/thashx2.c:22` fills `input[2*SPX_N]` with `4*SPX_N` bytes: no run of it is defined
  (`C61_thashx2_refuted`).
* `ref/test/haraka.c` calls the functions of `haraka.c` without their `ctx` argument: it does not compile
  any more.  (The Makefile has a rule for it, but it is not among `TESTS`.)
* `ref/api.h:39,47` documents pk as `[root || PUB_SEED]`; the code and `sign.c:51` use
  `[PUB_SEED || root]`.
* `crypto_sign_open` clears `smlen` (not `smlen - SPX_BYTES`) bytes of `m` on failure, so `m` must
  have room for `smlen` bytes.
* `crypto_sign` with `m == sm` signs and returns a corrupted message: the signature is written
  over `m` before `m` is hashed a second time and copied (`C48_same_refuted`).
* `ref/utils.c:142-147` (`treehash`): when `leaf_idx >> tree_height` is 1, the comparison at height
  `tree_height` succeeds and one node is written past the end of `auth_path`.  `treehashx1`
  stops before it compares, so it does not.  No caller passes such an index (C14).
* `shake-avx2/utilsx4.c:93-97`, `sha2-avx2/utilsx8.c`: for `2^H <= leaf_idx < 2^(H+log2 lanes-1)` the copy
  to the path at the last level reads past the end of `current` (`C40_treehashx_outside`).  No
  caller passes such an index.
* `shake-avx2/wots.c:gen_chains` does not stop at `SPX_WOTS_W` as `gen_chain` does, and counts
  into `counts[SPX_WOTS_W]`, so `steps[i] >= SPX_WOTS_W` overruns it (`C41_outside_case`).  Its only
  caller stays below.
* `ref/merkle.c:merkle_gen_root` passes the caller's uninitialised `sk + 3N` as the message to be
  signed; its chain lengths are computed and never used (C15, C04).
* `ref/fips202.h` declares `shake128*` and `sha3_*` functions `fips202.c` does not define.
* `ref/haraka.c` `haraka256` must not be called in place: it re-reads `in` after writing `out`, so
  `out == in` yields 32 zero bytes.  No caller does so.
* `sha2-avx2/sha512x4.c` `_sha512x4`: the block loop index is an `unsigned int`, so it never ends for
  `inlen >= 2^32`; its length field is 64 bits of bits, so it would differ from SHA-512 from 2^61 bytes on.
* `sha2-avx2/sha256x8.c` `mgf1x8` hashes one block more than it needs when `outlen` is a multiple of 32.
* `shake-a64/f1600x2.s` defines `__f1600x2`, the Apple name of the C function `_f1600x2` declared in
  `f1600x2.h`; on ELF targets the name would not match.
* `shake-avx2/keccak4x/KeccakP-1600-times4-SIMD256.c`, `*_FastLoop_Absorb`: with `laneOffsetSerial > 3*laneOffsetParallel +
  laneCount` the unsigned `dataByteLen` can wrap around and the loop reads behind the data (`C69_absorb_refuted`).
  Nothing in the repository calls these functions.
* `ref/test/benchmark.c`: `t[NTESTS] = cpucycles()` is not divided by `CORR`, so the last of the ten values of `MEASURT`
  is about 1000 times the counter and the printed median can be wrong (`C70_measurt_refuted`); the sum in `median` can
  wrap around (`C70_median_refuted`).  `main` passes `ctx`, `block` and `fors_m` without having initialised them.
* The SHAKE vector directories copy whole 64-bit words: they need SPX_N to be a multiple of 8.
* `haraka-aesni/haraka.c` `haraka256` may be called in place, unlike the one in ref/.
* The Haraka builds need `SPX_N <= 32` (`thash_haraka_*.c` fixed-size buffers).

## 4. Axioms

Every theorem of every Prop_*.v file prints "Closed under the global context": no axioms, neither
of ours nor of the standard library, are used by any claim.

Loading `ssreflect`-aware parts of the standard library (through `lia`/`ZArith` dependencies) makes
the checker list seven declarations of Coq's own library, the parameters of the module type
`Coq.ssr.ssrunder.Under_rel`: `Under_rel`, `Under_rel_from_rel`, `Under_relE`, `Over_rel`,
`over_rel`, `over_rel_done`, `under_rel_done`.  They are present in the loaded library files; no
theorem here depends on them.
