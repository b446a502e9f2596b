{"id": "C01", "title": "Honest signatures always verify", "statement": "For every seed, every message and every value returned by the random source, if (pk,sk) is produced by crypto_sign_seed_keypair(seed) and sig,siglen by crypto_sign_signature(m,sk), then crypto_sign_verify(sig,siglen,m,pk) returns 0.", "quantifier": "all seeds of 3N bytes, all byte-string messages of any length, all N-byte random values, all 18 parameter files and both tweakable-hash constructions (any hash functions with the right output sizes)", "why_tests_cant": "The key, message, randomizer and the 2^63..2^68 leaf positions the digest can select cannot be enumerated; a wrong auth-path or index at one rarely selected position is invisible to KATs.", "anchors": ["ref/sign.c:crypto_sign_seed_keypair", "ref/sign.c:crypto_sign_signature", "ref/sign.c:crypto_sign_verify", "ref/merkle.c:merkle_sign", "ref/fors.c:fors_sign"]}
{"id": "C02", "title": "crypto_sign / crypto_sign_open round trip", "statement": "For every key pair generated from a seed and every message m, crypto_sign produces sm with smlen = |m|+SPX_BYTES, and crypto_sign_open(sm) under the matching pk returns 0, sets mlen=|m| and writes exactly m to the first |m| bytes of the output buffer.", "quantifier": "all seeds, messages, random values, initial contents of all output buffers", "why_tests_cant": "Quantifies over all messages and buffer contents.", "anchors": ["ref/sign.c:crypto_sign", "ref/sign.c:crypto_sign_open"]}
{"id": "C03", "title": "Signatures have exactly SPX_BYTES bytes, all of them written", "statement": "crypto_sign_signature always returns 0, sets *siglen to the value of crypto_sign_bytes(), overwrites every one of the first SPX_BYTES bytes of the caller's buffer with values that do not depend on the previous buffer contents, and leaves every byte after them untouched.", "quantifier": "all secret keys (any 4N bytes), messages, random values and initial buffer contents/sizes >= SPX_BYTES", "why_tests_cant": "A byte that keeps stale buffer contents only for some leaf index is not detectable by sampling.", "anchors": ["ref/sign.c:crypto_sign_signature", "ref/utilsx1.c:treehashx1", "ref/wotsx1.c:wots_gen_leafx1"]}
{"id": "C04", "title": "Deterministic key generation and key format", "statement": "crypto_sign_seed_keypair(seed) writes sk = seed || root and pk = PUB_SEED || root with PUB_SEED = the last N bytes of the seed; both are functions of the seed alone (independent of the previous contents of pk/sk and of uninitialised stack memory), and root is the root of the top Merkle tree of the hypertree.", "quantifier": "all seeds, all initial contents of the key buffers and scratch memory", "why_tests_cant": "The code reads the (uninitialised) root buffer during key generation; only a proof can show that the value read never influences the result.", "anchors": ["ref/sign.c:crypto_sign_seed_keypair", "ref/merkle.c:merkle_gen_root"]}
{"id": "C05", "title": "crypto_sign_keypair is seed_keypair on fresh randomness", "statement": "crypto_sign_keypair consumes exactly 3N bytes of the random source and returns exactly the key pair crypto_sign_seed_keypair would return for those bytes.", "quantifier": "all random streams and buffer contents", "why_tests_cant": "All random streams.", "anchors": ["ref/sign.c:crypto_sign_keypair"]}
{"id": "C06", "title": "Signing is a function of key, message and N random bytes", "statement": "The signature returned by crypto_sign_signature depends only on sk, m and the N bytes drawn from the random source (and it draws exactly N): no hidden state is read or changed, so any sequence of signing operations in any order leaves the key usable and each produced signature verifies under the same pk.", "quantifier": "all sequences (histories) of signing requests of arbitrary length", "why_tests_cant": "Quantifies over unbounded histories.", "anchors": ["ref/sign.c:crypto_sign_signature"]}
{"id": "C07", "title": "Wrong signature lengths are rejected without reading the signature", "statement": "crypto_sign_verify returns -1 for every siglen other than SPX_BYTES, for every pk, message and signature memory, and does not read the signature in this case.", "quantifier": "all siglen, all memory contents", "why_tests_cant": "All lengths including 0 and 2^64-1.", "anchors": ["ref/sign.c:crypto_sign_verify"]}
{"id": "C08", "title": "crypto_sign_open failure contract", "statement": "Whenever crypto_sign_open returns a non-zero value it returns -1, *mlen is 0 and the first smlen bytes of the output buffer are zero, with everything after them unchanged; it does so exactly when smlen < SPX_BYTES or the detached verification of (first SPX_BYTES bytes, rest) fails. In particular no unverified message byte is ever left in the output.", "quantifier": "all sm, smlen, pk, initial buffers", "why_tests_cant": "All inputs; the failing inputs are almost all of the space.", "anchors": ["ref/sign.c:crypto_sign_open"]}
{"id": "C09", "title": "crypto_sign_open success contract", "statement": "crypto_sign_open returns 0 iff smlen >= SPX_BYTES and crypto_sign_verify accepts the first SPX_BYTES bytes as a signature on the remaining bytes; then *mlen = smlen - SPX_BYTES and the output buffer holds exactly those remaining bytes and is otherwise unchanged.", "quantifier": "all sm, smlen, pk, initial buffers", "why_tests_cant": "All inputs.", "anchors": ["ref/sign.c:crypto_sign_open", "ref/sign.c:crypto_sign_verify"]}
{"id": "C10", "title": "Verification depends only on pk, signature and message", "statement": "The result of crypto_sign_verify is a function of (pk, sig, siglen, m) only: it is independent of uninitialised stack contents such as the sk_seed member of the hash context, which verification never sets.", "quantifier": "all inputs and all contents of uninitialised memory", "why_tests_cant": "Uninitialised memory contents are not under a test's control.", "anchors": ["ref/sign.c:crypto_sign_verify", "ref/context.h:spx_ctx"]}
{"id": "C11", "title": "No out-of-bounds access", "statement": "Key generation, signing, verification and opening never read or write outside the buffers whose sizes the API documents (and never outside their own stack arrays), for every input.", "quantifier": "all inputs, all well-formed parameter sets", "why_tests_cant": "Sanitizer runs only cover the executed paths.", "anchors": ["ref/sign.c", "ref/utilsx1.c:treehashx1", "ref/utils.c:compute_root", "ref/fors.c", "ref/wots.c", "ref/wotsx1.c", "ref/merkle.c"]}
{"id": "C12", "title": "The implementation computes the SPHINCS+ specification", "statement": "crypto_sign_seed_keypair, crypto_sign_signature and crypto_sign_verify compute exactly the mathematical SPHINCS+ functions spx_keygen, spx_sign and spx_verify (WOTS+ chains, XMSS trees, hypertree, FORS) instantiated with the code's hash functions and address encoding.", "quantifier": "all inputs and all well-formed parameter sets", "why_tests_cant": "KATs pin down a handful of points of the function.", "anchors": ["ref/sign.c", "ref/fors.c", "ref/merkle.c", "ref/wots.c", "ref/wotsx1.c", "ref/utils.c", "ref/utilsx1.c", "ref/address.c"]}
{"id": "C13", "title": "Merkle authentication paths authenticate", "statement": "For every tree height, offset, leaf function and leaf index below 2^height, the root and authentication path written by treehashx1 satisfy: compute_root(leaf, index, path) = root = root of the full binary hash tree, and every auth path entry is the sibling subtree root.", "quantifier": "all heights, offsets, leaf indices and leaf values", "why_tests_cant": "2^height leaf positions times all leaf values.", "anchors": ["ref/utilsx1.c:treehashx1", "ref/utils.c:compute_root"]}
{"id": "C14", "title": "The two treehash implementations agree", "statement": "The stack-based treehash and treehashx1 return the same root and the same authentication path for every leaf index whose quotient by 2^tree_height is not 1. (Finding: when that quotient is 1, treehash writes one node past the end of the path buffer, and treehashx1 does not.)", "quantifier": "all heights, offsets, leaf indices (including out-of-range ones) and leaf values", "why_tests_cant": "Unbounded domain.", "anchors": ["ref/utils.c:treehash", "ref/utilsx1.c:treehashx1"]}
{"id": "C15", "title": "The 'no leaf' marker writes nothing", "statement": "Called with leaf index ~0 (key generation), tree hashing still returns the correct root but leaves the auth-path buffer and the WOTS signature buffer byte-for-byte unchanged.", "quantifier": "all keys, heights up to 31, buffer contents", "why_tests_cant": "All keys.", "anchors": ["ref/merkle.c:merkle_gen_root", "ref/utilsx1.c:treehashx1", "ref/wotsx1.c:wots_gen_leafx1"]}
{"id": "C16", "title": "WOTS+ signatures recover the public key", "statement": "For every N-byte message and every address, running wots_pk_from_sig on the signature produced inside wots_gen_leafx1 yields the same chain ends, hence the same leaf, as key generation.", "quantifier": "all messages, seeds, addresses", "why_tests_cant": "All 2^(8N) messages.", "anchors": ["ref/wots.c:wots_pk_from_sig", "ref/wotsx1.c:wots_gen_leafx1"]}
{"id": "C17", "title": "Chain lengths are in range and the checksum is exact", "statement": "chain_lengths yields LEN digits, each below W; the first LEN1 digits are the base-W expansion of the message (big endian) and the last LEN2 digits are the base-W expansion of sum(W-1-digit), which never overflows LEN2 digits.", "quantifier": "all N-byte messages, W in {16,256}", "why_tests_cant": "All messages.", "anchors": ["ref/wots.c:base_w", "ref/wots.c:wots_checksum", "ref/wots.c:chain_lengths"]}
{"id": "C18", "title": "WOTS+ encodings never dominate each other", "statement": "For any two distinct N-byte messages there is a chain whose length for the first message is strictly smaller than for the second (and vice versa), so a WOTS+ signature on one message cannot be advanced into a signature on another one.", "quantifier": "all pairs of distinct N-byte messages", "why_tests_cant": "All pairs.", "anchors": ["ref/wots.c:chain_lengths"]}
{"id": "C19", "title": "Chain function composes and never runs past W-1", "statement": "gen_chain(start,steps) applied after gen_chain(start0,start-start0) equals gen_chain(start0, start-start0+steps); the number of hash calls never exceeds W-start, whatever steps is.", "quantifier": "all start, steps (uint32), inputs", "why_tests_cant": "All 32-bit pairs.", "anchors": ["ref/wots.c:gen_chain"]}
{"id": "C20", "title": "FORS signatures recover the FORS public key", "statement": "For every message digest and address, fors_pk_from_sig applied to the output of fors_sign returns the public key fors_sign returned; and fors_sign writes exactly SPX_FORS_BYTES bytes.", "quantifier": "all digests, seeds, addresses, buffer contents", "why_tests_cant": "All 2^(FORS_HEIGHT*FORS_TREES) digests.", "anchors": ["ref/fors.c:fors_sign", "ref/fors.c:fors_pk_from_sig"]}
{"id": "C21", "title": "FORS index extraction is a bijection on the used digest bits", "statement": "message_to_indices returns FORS_TREES indices each below 2^FORS_HEIGHT; bit j of index i is bit i*FORS_HEIGHT+j of the digest (little-endian bit order), so two digests give the same indices iff they agree on the first FORS_HEIGHT*FORS_TREES bits.", "quantifier": "all digests", "why_tests_cant": "All digests.", "anchors": ["ref/fors.c:message_to_indices"]}
{"id": "C22", "title": "Hypertree index arithmetic stays in range", "statement": "From any (tree, leaf) returned by hash_message, the successive per-layer (tree, leaf) pairs used in signing and verification satisfy leaf < 2^TREE_HEIGHT and tree < 2^(TREE_HEIGHT*(D-1-layer)); at the top layer tree = 0, and leaf+2^TREE_HEIGHT*tree at layer i+1 equals the tree index of layer i.", "quantifier": "all digests, all parameter sets", "why_tests_cant": "2^64 indices.", "anchors": ["ref/sign.c:crypto_sign_signature", "ref/sign.c:crypto_sign_verify", "ref/hash_shake.c:hash_message", "ref/hash_sha2.c:hash_message", "ref/hash_haraka.c:hash_message"]}
{"id": "C23", "title": "Address encoding is injective and fields never overlap", "statement": "Each address setter changes exactly its field; two addresses with different (layer, tree, type, keypair, chain/height, hash/index) values within the ranges reachable for the parameter set have different hashed encodings (22 bytes for SHA-2, 32 for SHAKE/Haraka).", "quantifier": "all field values in range, both layouts", "why_tests_cant": "The product of the ranges exceeds 2^100.", "anchors": ["ref/address.c", "ref/sha2_offsets.h", "ref/shake_offsets.h", "ref/haraka_offsets.h"]}
{"id": "C24", "title": "Every secret value is derived under its own address", "statement": "Within one key pair, distinct WOTS+ secret chain seeds (layer, tree, keypair, chain) and distinct FORS secrets (tree, keypair, index) are all derived with pairwise distinct PRF addresses, and PRF addresses never coincide with any tweakable-hash address.", "quantifier": "all pairs of positions in the whole hypertree", "why_tests_cant": "About 2^(64+) positions.", "anchors": ["ref/address.h", "ref/address.c", "ref/wotsx1.c:wots_gen_leafx1", "ref/fors.c:fors_gen_leafx1", "ref/fors.c:fors_sign"]}
{"id": "C25", "title": "Integer serialisation round-trips", "statement": "bytes_to_ull(ull_to_bytes(x,len),len) = x mod 256^len for len <= 8, ull_to_bytes(bytes_to_ull(b)) = b for every byte string of length <= 8, u32_to_bytes agrees with ull_to_bytes for length 4.", "quantifier": "all x < 2^64, all len", "why_tests_cant": "2^64 values.", "anchors": ["ref/utils.c:ull_to_bytes", "ref/utils.c:u32_to_bytes", "ref/utils.c:bytes_to_ull"]}
{"id": "C26", "title": "An accepted signature that differs from the honest one exposes a hash break", "statement": "If crypto_sign_verify accepts (m,sig) under a public key generated from a seed, then either sig reveals exactly the honest FORS secrets for m's digest position, or from sig one can compute an explicit tweakable-hash collision at one honest address (two different inputs, same output), or a WOTS+/FORS preimage: a value whose hash under an honest address equals an honest intermediate value although the honest signer never released its preimage for this position.", "quantifier": "all public keys generated from seeds, all messages, all byte strings offered as signatures", "why_tests_cant": "Universally quantified over adversarial signatures.", "anchors": ["ref/sign.c:crypto_sign_verify", "ref/utils.c:compute_root", "ref/wots.c:wots_pk_from_sig", "ref/fors.c:fors_pk_from_sig"]}
{"id": "C27", "title": "Acceptance is exactly equality of the recomputed root", "statement": "crypto_sign_verify returns only 0 or -1, and returns 0 iff siglen = SPX_BYTES and the root recomputed from (R, FORS part, all D layers) equals all N bytes of the root in pk.", "quantifier": "all inputs", "why_tests_cant": "All inputs.", "anchors": ["ref/sign.c:crypto_sign_verify"]}
{"id": "C28", "title": "Streaming SHA-256 equals FIPS 180-4 SHA-256", "statement": "sha256(), and sha256_inc_init / any sequence of sha256_inc_blocks on whole blocks / sha256_inc_finalize on the rest, equal SHA-256 of the concatenation as defined by FIPS 180-4 (message below 2^61 bytes).", "quantifier": "all messages, all splits into whole-block prefixes", "why_tests_cant": "Infinite message space and all splits.", "anchors": ["ref/sha2.c:crypto_hashblocks_sha256", "ref/sha2.c:sha256_inc_init", "ref/sha2.c:sha256_inc_blocks", "ref/sha2.c:sha256_inc_finalize", "ref/sha2.c:sha256"]}
{"id": "C29", "title": "Streaming SHA-512 equals FIPS 180-4 SHA-512", "statement": "Same statement for SHA-512 with 128-byte blocks.", "quantifier": "all messages, all splits", "why_tests_cant": "Infinite message space and all splits.", "anchors": ["ref/sha2.c:crypto_hashblocks_sha512", "ref/sha2.c:sha512_inc_init", "ref/sha2.c:sha512_inc_blocks", "ref/sha2.c:sha512_inc_finalize", "ref/sha2.c:sha512"]}
{"id": "C30", "title": "MGF1 produces exactly outlen bytes of the counter-mode stream", "statement": "mgf1_256/mgf1_512(out,outlen,in) write exactly outlen bytes: the first outlen bytes of Hash(in||0) || Hash(in||1) || ... with 4-byte big-endian counters; shorter outputs are prefixes of longer ones.", "quantifier": "all inputs and all output lengths (multiples of the block size included)", "why_tests_cant": "All lengths, boundary at multiples of the digest size.", "anchors": ["ref/sha2.c:mgf1_256", "ref/sha2.c:mgf1_512"]}
{"id": "C31", "title": "SHA-2 message randomizer is HMAC", "statement": "gen_message_random (SHA-2) equals the first N bytes of RFC 2104 HMAC-SHA-X(SK_PRF, OptRand || M) for every message length, including the boundary where OptRand||M just fills a block.", "quantifier": "all sk_prf, optrand, messages", "why_tests_cant": "All lengths; two code paths split on length.", "anchors": ["ref/hash_sha2.c:gen_message_random"]}
{"id": "C32", "title": "SHA-2 message digest matches the specification", "statement": "hash_message (SHA-2) equals MGF1-SHA-X(R || PK.seed || SHA-X(R || PK.seed || PK.root || M)) split into FORS digest, tree index and leaf index, for every message length.", "quantifier": "all R, pk, messages", "why_tests_cant": "Block-boundary dependent code paths for all lengths.", "anchors": ["ref/hash_sha2.c:hash_message"]}
{"id": "C33", "title": "SHAKE256 one-shot equals the FIPS 202 sponge", "statement": "shake256(out,outlen,in,inlen) equals the first outlen bytes of the Keccak[512] sponge with SHAKE domain separation and pad10*1, for every input and output length.", "quantifier": "all inputs, input lengths and output lengths", "why_tests_cant": "All lengths, all inputs.", "anchors": ["ref/fips202.c:shake256", "ref/fips202.c:keccak_absorb", "ref/fips202.c:keccak_squeezeblocks"]}
{"id": "C34", "title": "Incremental SHAKE256 is split-independent", "statement": "Any sequence of shake256_inc_absorb calls followed by finalize and any sequence of shake256_inc_squeeze calls yields the same output as one-shot shake256 on the concatenated input and total output length.", "quantifier": "all ways to split inputs and outputs", "why_tests_cant": "All splits.", "anchors": ["ref/fips202.c:shake256_inc_absorb", "ref/fips202.c:shake256_inc_finalize", "ref/fips202.c:shake256_inc_squeeze"]}
{"id": "C35", "title": "The unrolled Keccak permutation is Keccak-f[1600]", "statement": "KeccakF1600_StatePermute equals the 24-round permutation of FIPS 202 (theta, rho, pi, chi, iota, with round constants from the LFSR and rho offsets from the formula) on every state.", "quantifier": "all 2^1600 states", "why_tests_cant": "2^1600 states.", "anchors": ["ref/fips202.c:KeccakF1600_StatePermute"]}
{"id": "C36", "title": "Seed-state caching is transparent", "statement": "For SHA-2 instances the cached mid-state gives exactly the hash of pub_seed padded to a block, address and input: prf_addr and thash via state_seeded equal hashing the full string from scratch.", "quantifier": "all seeds, addresses, inputs, block counts", "why_tests_cant": "All inputs.", "anchors": ["ref/sha2.c:seed_state", "ref/hash_sha2.c:prf_addr", "ref/thash_sha2_simple.c:thash", "ref/thash_sha2_robust.c:thash"]}
{"id": "C37", "title": "Incremental Haraka-S is split-independent", "statement": "Any sequence of haraka_S_inc_absorb calls, finalize and haraka_S_inc_squeeze calls yields the same bytes as one-shot haraka_S on the concatenation.", "quantifier": "all splits, inputs, lengths", "why_tests_cant": "All splits.", "anchors": ["ref/haraka.c:haraka_S", "ref/haraka.c:haraka_S_inc_absorb", "ref/haraka.c:haraka_S_inc_finalize", "ref/haraka.c:haraka_S_inc_squeeze"]}
{"id": "C38", "title": "Bitsliced Haraka equals AES-based Haraka", "statement": "The constant-time bitsliced haraka512_perm, haraka512 and haraka256 equal the AES-round based definition (as also implemented with AES-NI in haraka-aesni), for all inputs and round constants.", "quantifier": "all 2^512 inputs and all tweaked constants", "why_tests_cant": "2^512 inputs.", "anchors": ["ref/haraka.c:haraka512_perm", "ref/haraka.c:haraka512", "ref/haraka.c:haraka256", "haraka-aesni/haraka.c"]}
{"id": "C39", "title": "Tweakable hashes match their construction and tolerate in-place use", "statement": "thash (simple and robust, SHAKE, SHA-2, Haraka) equals the construction of the specification for every number of input blocks, and the result is unchanged when the output pointer aliases the input.", "quantifier": "all block counts, inputs, addresses", "why_tests_cant": "All inputs.", "anchors": ["ref/thash_shake_simple.c", "ref/thash_shake_robust.c", "ref/thash_sha2_simple.c", "ref/thash_sha2_robust.c", "ref/thash_haraka_simple.c", "ref/thash_haraka_robust.c"]}
{"id": "C40", "title": "Multi-lane tree hashing equals the reference", "statement": "treehashx2, treehashx4 and treehashx8 produce the same root and authentication path as treehashx1 for every tree height they support, every leaf function and every leaf index below 2^H or from 2^(H+log2(lanes)-1) on, independent of uninitialised stack contents. (Finding: the indices in between make treehashx4 and treehashx8 read past the end of their node buffer.)", "quantifier": "all heights >= log2(lanes), all leaf indices, leaf values, initial stack contents", "why_tests_cant": "Unbounded domain; garbage lanes.", "anchors": ["shake-avx2/utilsx4.c:treehashx4", "shake-a64/utilsx2.c:treehashx2", "sha2-avx2/utilsx8.c:treehashx8"]}
{"id": "C41", "title": "Lane-scheduled WOTS chains equal independent chains", "statement": "gen_chains, which sorts the chains by length and processes them in groups of lanes, produces for every vector of starts and steps with steps < W and start + steps <= W the same outputs as running gen_chain on each chain separately; wots_pk_from_sig only uses such vectors. (Finding: beyond W gen_chain stops and gen_chains does not, and steps >= W overruns its count table.)", "quantifier": "all length vectors", "why_tests_cant": "16^35..16^67 length vectors.", "anchors": ["shake-avx2/wots.c:gen_chains", "sha2-avx2/wots.c:gen_chains", "shake-a64/wots.c:gen_chains"]}
{"id": "C42", "title": "Optimised builds are interoperable bit for bit", "statement": "For the same key, message and randomness the vectorised builds (shake-avx2, shake-a64, sha2-avx2, haraka-aesni) produce the same keys and signatures and accept the same signatures as the reference build: given lane-wise agreement of their primitive multi-lane hashes, and outright for the modelled hash code of the four directories and every shipped parameter set.", "quantifier": "all inputs", "why_tests_cant": "All inputs.", "anchors": ["shake-avx2/merkle.c", "shake-avx2/fors.c", "shake-avx2/wots.c", "sha2-avx2/fors.c", "sha2-avx2/wots.c", "shake-a64/wots.c"]}
{"id": "C43", "title": "Multi-lane tweakable hashes act lane-wise", "statement": "thashx2/x4/x8 and prf_addrx2/x4/x8 compute in lane i exactly thash / prf_addr of lane i's input and address, for every block count.", "quantifier": "all inputs, block counts", "why_tests_cant": "All inputs.", "anchors": ["shake-avx2/thash_shake_simplex4.c", "shake-avx2/thash_shake_robustx4.c", "sha2-avx2/thash_sha2_simplex8.c", "haraka-aesni/thash_haraka_simplex4.c"]}
{"id": "C44", "title": "8-lane SHA-256 and 4-lane SHA-512 equal the scalar functions", "statement": "sha256x8, sha256x8_seeded, sha512x4, sha512x4_seeded and the multi-lane MGF1 compute in each lane the scalar function, for every message length (below 2^32 bytes for SHA-512 and MGF1, whose lengths or loop indices are 32-bit).", "quantifier": "all messages and lengths", "why_tests_cant": "All lengths.", "anchors": ["sha2-avx2/sha256x8.c", "sha2-avx2/sha256avx.c", "sha2-avx2/sha512x4.c"]}
{"id": "C45", "title": "Derived sizes are consistent", "statement": "For every accepted parameter file the checksum digit count equals floor(log_W(LEN1*(W-1)))+1, the byte sizes sum up exactly, tree height times D equals the full height, and every index fits the integer type and address field it is stored in.", "quantifier": "all 18 parameter files; the checksum statement for every N <= 256 and W in {16,256}", "why_tests_cant": "Boundaries of the LEN2 table are never instantiated by the shipped files.", "anchors": ["ref/params/"]}
{"id": "C46", "title": "randombytes fills the whole buffer", "statement": "randombytes(x,xlen) returns only after writing exactly xlen bytes, all from the OS source, whatever sequence of short reads the OS produces, never writing outside the buffer. (Finding: a read() error return of -1 is not treated as 'retry'.)", "quantifier": "all xlen, all sequences of read() results", "why_tests_cant": "OS behaviour sequences.", "anchors": ["ref/randombytes.c:randombytes"]}
{"id": "C47", "title": "Seed expander accounting", "statement": "seedexpander never hands out more than maxlen bytes in total, returns RNG_BAD_REQ_LEN without changing state when asked for too much, and the output stream does not depend on how requests are split.", "quantifier": "all sequences of requests", "why_tests_cant": "Unbounded request sequences.", "anchors": ["ref/rng.c:seedexpander_init", "ref/rng.c:seedexpander"]}
{"id": "C48", "title": "Overlapping buffers", "statement": "crypto_sign_open is correct for every overlap of m and sm; crypto_sign is correct when m is located at sm+SPX_BYTES or is disjoint from sm, but not when m = sm.", "quantifier": "all overlaps (pointer offsets), all memories", "why_tests_cant": "All relative positions.", "anchors": ["ref/sign.c:crypto_sign", "ref/sign.c:crypto_sign_open"]}
{"id": "C49", "title": "DRBG is a deterministic counter-mode generator", "statement": "randombytes (rng.c) advances V as a 128-bit big-endian counter, returns exactly xlen bytes, and the output and next state are functions of (Key,V,xlen) only.", "quantifier": "all states and xlen", "why_tests_cant": "All states.", "anchors": ["ref/rng.c:randombytes", "ref/rng.c:AES256_CTR_DRBG_Update", "ref/rng.c:randombytes_init"]}
{"id": "C50", "title": "Message and index split of the digest is exact", "statement": "hash_message uses the digest bytes in order: FORS_MSG_BYTES bytes for FORS, then ceil(TREE_BITS/8) bytes reduced mod 2^TREE_BITS for the tree and ceil(LEAF_BITS/8) bytes reduced mod 2^LEAF_BITS for the leaf, for all three hash families, with no bits shared and no shift by the word size.", "quantifier": "all R, pk, messages, all parameter sets including D = 1 and TREE_BITS = 64", "why_tests_cant": "All inputs; shift-by-64 corner cases.", "anchors": ["ref/hash_shake.c:hash_message", "ref/hash_sha2.c:hash_message", "ref/hash_haraka.c:hash_message"]}
{"id": "C51", "title": "The vector Keccak permutations are Keccak-f[1600] in each lane", "statement": "KeccakP1600times4_PermuteAll_24rounds (AVX2, four lanes) and the assembly function f1600x2 (ARMv8.4, two lanes, for any contents of its scratch registers) compute in each lane the bit-level permutation of FIPS 202.", "quantifier": "all states of all lanes", "why_tests_cant": "2^6400 states.", "anchors": ["shake-avx2/keccak4x/KeccakP-1600-times4-SIMD256.c:KeccakP1600times4_PermuteAll_24rounds", "shake-a64/f1600x2.s"]}
{"id": "C52", "title": "Multi-lane SHAKE is SHAKE in each lane", "statement": "shake128x4, shake256x4, shake128x2 and shake256x2 compute in each lane SHAKE128 or SHAKE256 of FIPS 202, for every input and output length.", "quantifier": "all inputs and lengths", "why_tests_cant": "All lengths.", "anchors": ["shake-avx2/fips202x4.c:shake128x4", "shake-avx2/fips202x4.c:shake256x4", "shake-a64/fips202x2.c:shake128x2", "shake-a64/fips202x2.c:shake256x2"]}
{"id": "C53", "title": "AES-NI Haraka is Haraka v2, one lane and four", "statement": "haraka512, haraka256 and haraka_S of haraka-aesni, and their four-lane versions, compute Haraka-512, Haraka-256 and Haraka-S for every input and all round constants.", "quantifier": "all inputs, all constants", "why_tests_cant": "2^512 inputs.", "anchors": ["haraka-aesni/haraka.c:haraka512", "haraka-aesni/haraka.c:haraka256", "haraka-aesni/haraka.c:haraka_S", "haraka-aesni/haraka.c:haraka512x4", "haraka-aesni/haraka.c:haraka256x4", "haraka-aesni/haraka.c:haraka_Sx4"]}
{"id": "C54", "title": "Honest signatures verify across implementations", "statement": "A key pair made by one implementation, a signature made with it by a second and verified by a third (reference or vector code of one hash family) is accepted, whatever uninitialised memory holds in each run.", "quantifier": "all seeds, messages, randomness, implementations of one family", "why_tests_cant": "All inputs; combinations of builds.", "anchors": ["shake-avx2/sign.c", "shake-a64/sign.c", "sha2-avx2/sign.c", "haraka-aesni/sign.c"]}
{"id": "C55", "title": "Every implementation computes the SPHINCS+ specification", "statement": "Key generation, signing and verification of each vector directory return exactly what the specification, instantiated with FIPS 202, FIPS 180-4 or Haraka v2, prescribes.", "quantifier": "all inputs", "why_tests_cant": "All inputs.", "anchors": ["shake-avx2/merkle.c", "shake-avx2/wots.c", "shake-avx2/fors.c", "sha2-avx2/wots.c", "shake-a64/wots.c"]}
{"id": "C56", "title": "Forgeries against vector builds break the hash", "statement": "If any implementation accepts a signature under a key made by any implementation of the family, it is the honest signature for its digest or one of the verifier's hash calls is a second preimage at an honest address or an unreleased chain value.", "quantifier": "all signatures and messages", "why_tests_cant": "Adversarial inputs cannot be enumerated.", "anchors": ["ref/sign.c:crypto_sign_verify", "shake-avx2/wots.c:wots_pk_from_sig", "shake-avx2/fors.c:fors_pk_from_sig"]}
{"id": "C57", "title": "The known-answer files' fields are found, read and written correctly", "statement": "FindMarker finds the first occurrence of the marker in the file and stops right after it, or reports that there is none; ReadHex stores the last Length bytes of the hexadecimal number that follows; fprintBstr writes a field that ReadHex reads back; the printed counts and lengths are decimal and are read back. For Length = 0 reading back fails.", "quantifier": "all files, markers, field lengths and values", "why_tests_cant": "The search restarts on partial matches (FindMarker keeps a sliding window), so its correctness depends on arbitrary file contents; the generated files never contain a near miss.", "anchors": ["ref/PQCgenKAT_sign.c:FindMarker", "ref/PQCgenKAT_sign.c:ReadHex", "ref/PQCgenKAT_sign.c:fprintBstr"]}
{"id": "C58", "title": "The known-answer program writes exactly the files the specification determines", "statement": "For every block cipher behind rng.c, every implementation and every parameter set it is for, main returns 0 and writes the request and response files whose seeds and messages come from CTR_DRBG and whose keys and signed messages are those of the SPHINCS+ specification, independent of uninitialised memory; it stops with -1 when a file cannot be opened.", "quantifier": "all block ciphers, implementations, parameter sets, memory contents", "why_tests_cant": "The shipped checksums compare one cipher and one run per build; they do not relate the bytes to the specification.", "anchors": ["ref/PQCgenKAT_sign.c:main", "ref/rng.c:randombytes", "ref/sign.c:crypto_sign"]}
{"id": "C59", "title": "All implementations of a family write the same known-answer files", "statement": "Two implementations of one hash family (reference or vector) write identical files and return the same code, whichever files can be opened.", "quantifier": "all pairs of implementations, block ciphers, parameter sets", "why_tests_cant": "SHA256SUMS compares one run of each build on one machine.", "anchors": ["ref/PQCgenKAT_sign.c:main", "shake-avx2/PQCgenKAT_sign.c", "vectors.py"]}
{"id": "C60", "title": "The self-test's verdict, and what it does not detect", "statement": "ref/test/spx.c returns 0 or -1 in every run; it is 0 exactly when the changed-bit checks reject, and these start not from the signature but from the signature with its first 32 bytes overwritten by the message, because the program opens it in place before. Hence an implementation whose verifier ignores a bit of the message passes whenever that overwritten signature is invalid.", "quantifier": "all implementations, parameter sets, random bytes, memory contents; for the first part also all functions in place of the implementation's", "why_tests_cant": "It is a statement about what a test can and cannot see: running the test shows only that it passes.", "anchors": ["ref/test/spx.c:main", "ref/sign.c:crypto_sign_open"]}
{"id": "C61", "title": "The thash test programs", "statement": "thashx4.c (shake-avx2) and thashx8.c (sha2-avx2) return 0 for all random bytes; thashx2.c (shake-a64) has no defined run because it writes 4n bytes to an array of 2n, and returns 0 with that length corrected. Linked with any lane functions, the programs return 0 if the lanes agree with thash on the drawn bytes and -1 if not.", "quantifier": "all random bytes, parameter sets, simple and robust, memory contents", "why_tests_cant": "A run compares one seed, one input and one address per lane; the overflow goes unnoticed as long as the overwritten stack memory is not needed.", "anchors": ["shake-avx2/test/thashx4.c:main", "sha2-avx2/test/thashx8.c:main", "shake-a64/test/thashx2.c:main"]}
{"id": "C62", "title": "FORS signs and recovers its public key for any 32 bytes as the address", "statement": "fors_sign and fors_pk_from_sig, given arbitrary 32 bytes as the address, compute FORS of the specification with the layer and tree bytes of that address in every address hashed; the public key recovered equals the one computed while signing for any other address with the same layer, tree and key pair bytes. test/fors.c returns 0 for all random bytes, in every implementation.", "quantifier": "all implementations, parameter sets, addresses, seeds, messages, memory contents", "why_tests_cant": "test/fors.c draws one address, key and message; the number of addresses is 2^256.", "anchors": ["ref/test/fors.c:main", "ref/fors.c:fors_sign", "ref/fors.c:fors_pk_from_sig", "ref/address.c:copy_keypair_addr", "shake-avx2/fors.c:fors_sign"]}
{"id": "C63", "title": "The exact sequence of hash calls of key generation, signing and verification", "statement": "Each run of crypto_sign_seed_keypair, crypto_sign_signature and crypto_sign_verify calls thash, prf_addr, gen_message_random and hash_message in exactly the order the scheme determines (left subtree, right subtree, node; chain by chain; layer by layer), each with the stated number of blocks, address and input. The programs with the record compute the same results as those without.", "quantifier": "all parameter sets, hash functions, keys, messages, randomness, signatures, memory contents", "why_tests_cant": "A test sees outputs: a redundant call, or a call with a wrong address whose result is dropped, does not change them.", "anchors": ["ref/sign.c:crypto_sign_seed_keypair", "ref/sign.c:crypto_sign_signature", "ref/sign.c:crypto_sign_verify", "ref/utilsx1.c:treehashx1", "ref/wotsx1.c:wots_gen_leafx1", "ref/fors.c:fors_sign"]}
{"id": "C64", "title": "The number of hash calls", "statement": "Key generation and signing make a number of thash and prf_addr calls that is a function of the parameter set alone (closed formula); verification calls prf_addr never and thash at most k(a+1)+1+d(len(w-1)+1+h') times, for every signature and public key.", "quantifier": "all parameter sets, hash functions, keys, messages, randomness, signatures (also invalid ones), memory contents", "why_tests_cant": "Counting some runs says nothing about the worst signature an attacker can submit, nor that the count is the same for all keys and messages.", "anchors": ["ref/sign.c:crypto_sign_signature", "ref/sign.c:crypto_sign_verify", "ref/wots.c:gen_chain"]}
{"id": "C65", "title": "Tweaks are never reused", "statement": "No run of key generation, signing or verification calls thash twice with the same 32 address bytes. Over all key generation and signing runs of one key, thash is called for an address with one number of blocks and one input only. Verifying a signature just made calls the hash functions only as signing did.", "quantifier": "all parameter sets, hash functions, keys, messages, randomness, memory contents; pairs of runs", "why_tests_cant": "It compares all calls of all runs of a key; 2^h leaves and unboundedly many messages.", "anchors": ["ref/address.c:set_tree_addr", "ref/wotsx1.c:wots_gen_leafx1", "ref/fors.c:fors_gen_leafx1", "ref/merkle.c:merkle_sign"]}
{"id": "C66", "title": "The sequence of calls does not depend on secrets", "statement": "The sequence of hash calls with their block counts and addresses is the same for all key generation runs of a parameter set; for signing it is determined by the digest, tree and leaf index that the message hash returns (which are public), and the thash calls by tree and leaf index alone; secret seed, PRF key and randomness do not influence it otherwise.", "quantifier": "all pairs of runs: keys, messages, randomness, memory contents, and even hash functions with the same address layout", "why_tests_cant": "It is a relation between all pairs of runs (non-interference).", "anchors": ["ref/sign.c:crypto_sign_signature", "ref/wotsx1.c:wots_gen_leafx1", "ref/fors.c:fors_sign"]}
{"id": "C67", "title": "Forgery after signing queries", "statement": "Take a key pair, any list of messages with signatures the signing function returned for them, and any accepted pair of message and signature that is not in the list. Then one of three things holds: verification makes a hash call that breaks the hash function (a second preimage of a call of the honest tree, or a preimage on a WOTS+ chain before the released position, as listed in ForgeSpec.v); or the randomizer-message pair is new and every FORS index of its digest was already hit by queries with the same tree and leaf index; or the signature contains a FORS secret that no query showed.", "quantifier": "all parameter sets, hash functions, seeds, query lists of any length, signatures, messages, memory contents; all modelled implementations", "why_tests_cant": "It quantifies over all forgeries and unboundedly many queries; nobody can produce one to test with.", "anchors": ["ref/sign.c:crypto_sign_verify", "ref/sign.c:crypto_sign_signature", "ref/fors.c:fors_pk_from_sig", "ref/wots.c:wots_pk_from_sig"]}
{"id": "C68", "title": "What public key and signatures give away of the secrets", "statement": "Replace the secret-value function by any other that has the same FORS leaves, the same FORS secrets at the indices signed, and the same WOTS+ chain values at the positions released: key generation returns the same keys, and signing the same signature. So keys and signatures depend on the secret values only through these.", "quantifier": "all parameter sets, hash functions, replacement functions, seeds, messages, randomness, memory contents", "why_tests_cant": "It compares runs with two secret functions that agree on exactly the published images (non-interference).", "anchors": ["ref/sign.c:crypto_sign_signature", "ref/sign.c:crypto_sign_seed_keypair", "ref/fors.c:fors_sign", "ref/wotsx1.c:wots_gen_leafx1"]}
{"id": "C69", "title": "Access to the four Keccak states", "statement": "Each function of keccak4x that adds, overwrites, extracts or extracts-and-adds bytes or lanes does exactly that to the named byte range of the named instance (all four instances for the lane functions), leaves every other byte of every instance and buffer as it was, and stays inside the buffers. PermuteAll_12rounds and _24rounds are Keccak-p[1600,12] and [1600,24] of each instance. The absorbing loops absorb, for each instance, the blocks at the given serial and parallel offsets, and return the number of bytes used, if the serial offset is at most what one iteration needs; otherwise they can read behind the data.", "quantifier": "all states, data, offsets, lengths, lane counts, instances; any number of loop iterations", "why_tests_cant": "Offsets, lengths and lane counts select different code paths (partial lanes, groups of four, transposition), and the loop condition involves unsigned wrap-around.", "anchors": ["shake-avx2/keccak4x/KeccakP-1600-times4-SIMD256.c:KeccakP1600times4_AddBytes", "shake-avx2/keccak4x/KeccakP-1600-times4-SIMD256.c:KeccakP1600times4_ExtractAndAddLanesAll", "shake-avx2/keccak4x/KeccakP-1600-times4-SIMD256.c:KeccakP1600times4_PermuteAll_12rounds", "shake-avx2/keccak4x/KeccakP-1600-times4-SIMD256.c:KeccakF1600times4_FastLoop_Absorb"]}
{"id": "C70", "title": "The benchmark program", "statement": "The statistics of the benchmark program are right: delta gives the differences modulo 2^64, median the middle order statistic (for an even number the half of the sum modulo 2^64 of the two middle ones) for every qsort the C standard allows, and printfcomma/printfalignedcomma print the decimal numeral with a comma before each group of three digits, right-aligned. MEASURE prints the median of the differences of the counter values; MEASURT does not, because the last reading is not divided by CORR. In every implementation, each verification of the program accepts and returns the message, for all random bytes.", "quantifier": "all arrays and lengths, all numbers below 2^64, all counter values, all qsort functions; all implementations, parameter sets and random bytes, any number of rounds", "why_tests_cant": "The printed values depend on the machine's clock; overflow of the sum and the effect of the undivided last reading need particular readings.", "anchors": ["ref/test/benchmark.c:median", "ref/test/benchmark.c:delta", "ref/test/benchmark.c:printfcomma", "ref/test/benchmark.c:printfalignedcomma", "ref/test/benchmark.c:display_result", "ref/test/benchmark.c:MEASURE_GENERIC", "ref/test/benchmark.c:main"]}
{"id": "C71", "title": "Integer arithmetic of the core under the rules of C", "statement": "Evaluated with C's integer promotions, usual arithmetic conversions and declared types, every integer expression of the core (macros of params.h, utils.c conversions, address.c, wots.c, wotsx1.c, fors.c, merkle.c, utilsx1.c, compute_root, treehash, the end of hash_message, sign.c) is defined - no signed overflow, no shift by the width or more, no division by zero - and the public functions return exactly what the model over mathematical integers returns. Outside the supported parameters this fails: a tree of height 31 makes 1 << 31 undefined.", "quantifier": "all parameter sets accepted by the code with signatures below 2^31 bytes; all hash functions of the right output lengths; all keys, messages, signatures, lengths, indices, random bytes and contents of uninitialised memory", "why_tests_cant": "Undefined behaviour such as signed overflow or an oversized shift usually yields the expected value on the test machine, and wrap-around shows only at particular indices.", "anchors": ["ref/params/params-sphincs-shake-128f.h", "ref/utils.c:ull_to_bytes", "ref/utils.c:bytes_to_ull", "ref/utils.c:compute_root", "ref/utilsx1.c:treehashx1", "ref/address.c", "ref/wots.c:base_w", "ref/wots.c:wots_checksum", "ref/wotsx1.c:wots_gen_leafx1", "ref/fors.c:message_to_indices", "ref/merkle.c:merkle_gen_root", "ref/hash_shake.c:hash_message", "ref/sign.c:crypto_sign_signature"]}
{"id": "C72", "title": "Branches and memory accesses of key generation and signing show nothing secret", "statement": "Record the outcome of every branch that depends on data or indices and the offset and length of every access to a buffer in the core of ref/. Key generation produces one and the same record for all seeds, contents of memory and hash functions. The record of a signing run is determined by its lengths, the output of the message hash and the strings signed at the layers of the hypertree; these values are a function of public key, message and signature, computed as in verification. So two secret keys of one public key that give the same signature of a message leave the same record.", "quantifier": "all parameter sets accepted by the code; all hash functions of the right output lengths, also different ones in the two runs; all keys, messages, random bytes and contents of uninitialised memory", "why_tests_cant": "It compares pairs of executions over all secrets; a run shows the trace of one secret only, and timing measurements sample noise.", "anchors": ["ref/utilsx1.c:treehashx1", "ref/wots.c:base_w", "ref/wots.c:chain_lengths", "ref/wotsx1.c:wots_gen_leafx1", "ref/fors.c:message_to_indices", "ref/fors.c:fors_sign", "ref/merkle.c:merkle_sign", "ref/merkle.c:merkle_gen_root", "ref/sign.c:crypto_sign_seed_keypair", "ref/sign.c:crypto_sign_signature"]}
{"id": "C73", "title": "The integer expressions of sha2.c and fips202.c are defined in C and compute the standards' functions", "statement": "Evaluate every integer expression of ref/sha2.c and of the SHAKE256 part of ref/fips202.c as written, under C's integer promotions, usual arithmetic conversions and undefined cases, with every variable in its declared type. No expression is undefined, every loop ends, and sha256, sha512, their incremental functions, mgf1_256, mgf1_512, shake256 and its incremental functions compute the functions of FIPS 180-4, RFC 8017 and FIPS 202.", "quantifier": "all byte strings and all output lengths below 2^64 (up to a few bytes of slack in mgf1 and the incremental absorb), all sequences of incremental calls, all contents of uninitialised arrays; ABI with 8-bit char, 32-bit int and 64-bit long long and size_t", "why_tests_cant": "Undefined behaviour may go unnoticed on one compiler, and the wrap-around of counters only shows for inputs that cannot be run.", "anchors": ["ref/sha2.c:crypto_hashblocks_sha256", "ref/sha2.c:crypto_hashblocks_sha512", "ref/sha2.c:sha256_inc_finalize", "ref/sha2.c:sha512_inc_finalize", "ref/sha2.c:mgf1_256", "ref/sha2.c:mgf1_512", "ref/fips202.c:KeccakF1600_StatePermute", "ref/fips202.c:keccak_absorb", "ref/fips202.c:keccak_inc_absorb", "ref/fips202.c:keccak_inc_squeeze", "ref/fips202.c:shake256"]}
{"id": "C74", "title": "The integer expressions of haraka.c are defined in C and compute Haraka v2 and Haraka-S", "statement": "Evaluate every integer expression of ref/haraka.c as written, under C's integer promotions, usual arithmetic conversions and undefined cases, with every variable in its declared type. No expression is undefined, no array is accessed outside its bounds, every loop ends, and with the tables that tweak_constants makes from any public seed, haraka512_perm, haraka512, haraka256, haraka_S and the incremental functions compute the AES-based functions of Haraka v2 with the round constants derived from that seed.", "quantifier": "all seeds shorter than 2^31 bytes, all inputs and output lengths below 2^64 (256 less for one incremental absorb call), all sequences of incremental calls, all contents of uninitialised arrays; ABI with 8-bit char, 32-bit int and 64-bit long long and size_t", "why_tests_cant": "Undefined behaviour may go unnoticed on one compiler; a bitsliced circuit can be wrong on inputs no test vector has, and uninitialised locals are usually zero in tests.", "anchors": ["ref/haraka.c:tweak_constants", "ref/haraka.c:haraka512_perm", "ref/haraka.c:haraka512", "ref/haraka.c:haraka256", "ref/haraka.c:haraka_S", "ref/haraka.c:haraka_S_inc_absorb", "ref/haraka.c:haraka_S_inc_finalize", "ref/haraka.c:haraka_S_inc_squeeze", "ref/haraka.c:br_aes_ct64_bitslice_Sbox", "ref/haraka.c:br_aes_ct_bitslice_Sbox"]}
{"id": "C75", "title": "The integer expressions of hash_*.c and thash_*.c are defined in C and compute the specified constructions", "statement": "Evaluate every integer expression, array length, loop bound and length argument of ref/hash_shake.c, hash_sha2.c, hash_haraka.c, thash_{shake,sha2,haraka}_{simple,robust}.c and seed_state as written, under C's integer promotions, usual arithmetic conversions and undefined cases, with every variable in its declared type, down into the typed hash primitives. No expression is undefined, no array is accessed outside its bounds, and prf_addr, gen_message_random, hash_message and thash compute the constructions of the specification; thash for any placement of its input and output. Beyond the stated number of blocks the claim fails: inblocks * SPX_N wraps.", "quantifier": "all parameter sets with SPX_BYTES < 2^31 (SPX_N at most 32 for SHA-2 and Haraka), seeds, addresses, memory contents and message lengths up to 2^63 (SHA-2) or just below 2^64; all block counts with inblocks * SPX_N + 300 < 2^32; all contents of uninitialised arrays; ABI with 8-bit char, 32-bit int and 64-bit long long and size_t", "why_tests_cant": "Mixed int, unsigned int and unsigned long long arithmetic only misbehaves at lengths no test uses, and the branches on the message length and block count have corner cases.", "anchors": ["ref/hash_shake.c:prf_addr", "ref/hash_shake.c:gen_message_random", "ref/hash_shake.c:hash_message", "ref/hash_sha2.c:prf_addr", "ref/hash_sha2.c:gen_message_random", "ref/hash_sha2.c:hash_message", "ref/hash_haraka.c:prf_addr", "ref/hash_haraka.c:gen_message_random", "ref/hash_haraka.c:hash_message", "ref/thash_shake_simple.c:thash", "ref/thash_shake_robust.c:thash", "ref/thash_sha2_simple.c:thash", "ref/thash_sha2_simple.c:thash_512", "ref/thash_sha2_robust.c:thash", "ref/thash_sha2_robust.c:thash_512", "ref/thash_haraka_simple.c:thash", "ref/thash_haraka_robust.c:thash", "ref/sha2.c:seed_state"]}
{"id": "C76", "title": "The whole reference scheme, evaluated under C's integer rules from the public functions down to the compression functions, computes SPHINCS+", "statement": "Link the typed transcription of the core (sign.c, wots.c, fors.c, merkle.c, utils.c, address.c, wotsx1.c, utilsx1.c) with the typed transcription of the hash files (hash_*.c, thash_*.c, sha2.c, fips202.c, haraka.c). In every build, with no undefined expression and whatever uninitialised arrays hold: key generation yields the seeds and the root of the specification; signing yields the signature of the specification; verification and opening return 0 exactly on what the specification accepts, and opening a refused message yields zeros; an honest signature verifies; an accepted signature is the secret key's own or contains a break of a hash function.", "quantifier": "all three families and both variants, all well-formed parameter sets with SPX_N at most 32 and SPX_BYTES < 2^31 (all shipped ones), all seeds, keys, random strings, buffers and messages below 2^63 bytes; all contents of uninitialised arrays; ABI with 8-bit char, 32-bit int and 64-bit long long and size_t", "why_tests_cant": "Tests run a handful of keys and messages on one compiler; a conversion or undefined expression that matters only for some indices, lengths or stack contents is never exercised.", "anchors": ["ref/sign.c:crypto_sign_seed_keypair", "ref/sign.c:crypto_sign_signature", "ref/sign.c:crypto_sign_verify", "ref/sign.c:crypto_sign", "ref/sign.c:crypto_sign_open", "ref/thash.h:thash", "ref/hash.h:hash_message", "ref/hash.h:prf_addr", "ref/hash.h:gen_message_random"]}
{"id": "C77", "title": "The integer expressions of rng.c are defined in C and compute the specified generators", "statement": "Evaluate every integer expression, loop bound and length argument of ref/rng.c (seedexpander_init, seedexpander, randombytes_init, randombytes, AES256_CTR_DRBG_Update) as written, under C's integer promotions, usual arithmetic conversions and undefined cases, with every variable in its declared type. No expression is undefined and no array is accessed outside its bounds; the seed expander answers every sequence of requests from the specified counter-mode stream, and the generator is CTR_DRBG of SP 800-90A. For requests of 2^31 bytes or more the claim fails: the int index overflows.", "quantifier": "all block ciphers with 16-byte output, all seeds, diversifiers, states, request sequences, personalization strings and contents of uninitialised arrays; requests below 2^31 bytes for randombytes; ABI with 8-bit char, 32-bit int and 64-bit long, long long and size_t", "why_tests_cant": "The counters and the int index only wrap or overflow after amounts of output no test draws, and 16 - buffer_pos is an unsigned difference that wraps for positions tests do not reach.", "anchors": ["ref/rng.c:seedexpander_init", "ref/rng.c:seedexpander", "ref/rng.c:randombytes_init", "ref/rng.c:randombytes", "ref/rng.c:AES256_CTR_DRBG_Update"]}
{"id": "C78", "title": "The integer and pointer expressions of randombytes.c are defined in C as long as no read fails", "statement": "Evaluate every integer and pointer expression of ref/randombytes.c as written, under C's promotions, conversions and undefined cases, with every variable in its declared type and pointers confined to their object. As long as no read fails, nothing is undefined, nothing outside the buffer is written, and a call that returns has filled the buffer with exactly xlen bytes delivered by the operating system, in order. A read that fails while bytes are missing makes the call undefined, whatever was read before and whatever comes later.", "quantifier": "all descriptors, all sequences of results of open and read, all xlen below 2^64, all memory contents and buffer positions; ABI with 32-bit int and 64-bit long long", "why_tests_cant": "Short and failing reads of /dev/urandom do not occur in test runs, and a wrapped pointer usually seems to work.", "anchors": ["ref/randombytes.c:randombytes"]}
{"id": "C79", "title": "The integer expressions of FindMarker, ReadHex and fprintBstr are defined in C and compute the specified search, reading and writing", "statement": "Evaluate every integer expression, loop bound and index of FindMarker, ReadHex and fprintBstr in ref/PQCgenKAT_sign.c as written, under C's promotions, conversions and undefined cases, with every variable in its declared type. For lengths between 1 and the size of the array nothing is undefined and no array is left; FindMarker stops right after the first occurrence, ReadHex delivers the last Length bytes of the hexadecimal number, and it reads back what fprintBstr wrote. For a negative Length, or one beyond the array, ReadHex is undefined.", "quantifier": "all files, markers without zero byte, array contents, lengths and values; ABI with 8-bit char, 32-bit int, 64-bit long long and size_t", "why_tests_cant": "The program only meets files it wrote itself; len-1 with len 0 would wrap, and (size_t)Length is huge for a negative Length.", "anchors": ["ref/PQCgenKAT_sign.c:FindMarker", "ref/PQCgenKAT_sign.c:ReadHex", "ref/PQCgenKAT_sign.c:fprintBstr"]}
{"id": "C80", "title": "The known-answer program, with its integer expressions under the rules of C, writes the specified files", "statement": "Evaluate every integer expression, conversion, loop bound and length of main in ref/PQCgenKAT_sign.c as written, under C's promotions, conversions and undefined cases, with every variable in its declared type, together with the typed rng.c, FindMarker, ReadHex and fprintBstr. Nothing is undefined, and the request and response files are the ones determined by the specification of the generator and of the signature scheme; the return values for files that cannot be opened are -1.", "quantifier": "all implementations, both hash variants, all parameter sets with signatures below 2^31 bytes, all block ciphers with 16-byte output, all contents of uninitialised memory; ABI with 8-bit char, 32-bit int, 64-bit long long and size_t", "why_tests_cant": "A run shows the files for one implementation and one parameter set, and not whether they depend on uninitialised memory or on undefined behaviour that happened to be harmless.", "anchors": ["ref/PQCgenKAT_sign.c:main", "ref/rng.c:randombytes", "ref/rng.c:randombytes_init"]}
