{
 "claims": [
  {
   "property": "C01",
   "status": "proved",
   "theorems": [
    "C01_sign_verify",
    "C01_builds"
   ],
   "note": "All parameter sets with wf_params, all suites with suite_ok; C01_builds discharges suite_ok for the sha2, shake and haraka builds of ref/."
  },
  {
   "property": "C02",
   "status": "proved",
   "theorems": [
    "C02_sign_open",
    "C02_sign_format"
   ],
   "note": "Disjoint buffers (overlaps: C48); total size below 2^64."
  },
  {
   "property": "C03",
   "status": "proved",
   "theorems": [
    "C03_signature_bytes"
   ],
   "note": ""
  },
  {
   "property": "C04",
   "status": "proved",
   "theorems": [
    "C04_keygen",
    "C12_build_keygen"
   ],
   "note": ""
  },
  {
   "property": "C05",
   "status": "proved",
   "theorems": [
    "C05_keypair",
    "C05_needs_3N"
   ],
   "note": ""
  },
  {
   "property": "C06",
   "status": "proved",
   "theorems": [
    "C06_history",
    "C03_signature_bytes"
   ],
   "note": ""
  },
  {
   "property": "C07",
   "status": "proved",
   "theorems": [
    "C07_wrong_length"
   ],
   "note": ""
  },
  {
   "property": "C08",
   "status": "proved",
   "theorems": [
    "C08_C09_open"
   ],
   "note": ""
  },
  {
   "property": "C09",
   "status": "proved",
   "theorems": [
    "C08_C09_open"
   ],
   "note": ""
  },
  {
   "property": "C10",
   "status": "proved",
   "theorems": [
    "C10_verify_function"
   ],
   "note": ""
  },
  {
   "property": "C11",
   "status": "proved",
   "theorems": [
    "C11_in_bounds"
   ],
   "note": "Out-of-bounds access is the outcome None of the model."
  },
  {
   "property": "C12",
   "status": "proved",
   "theorems": [
    "C04_keygen",
    "C12_sign_is_spec",
    "C12_C27_verify_is_spec",
    "C12_build_keygen",
    "C12_build_sign",
    "C12_build_verify"
   ],
   "note": "Generic in the suite, and for each build of ref/ against the specification with FIPS 180-4, FIPS 202 or Haraka v2 as the hash."
  },
  {
   "property": "C13",
   "status": "proved",
   "theorems": [
    "C13_auth_path_authenticates"
   ],
   "note": ""
  },
  {
   "property": "C14",
   "status": "proved",
   "theorems": [
    "C14_treehash_agree_iff",
    "C14_refuted"
   ],
   "note": "Agreement for every index with index / 2^H <> 1; for the others treehash is undefined (out-of-bounds write) and treehashx1 is not."
  },
  {
   "property": "C15",
   "status": "proved",
   "theorems": [
    "C15_marker_treehash",
    "C15_marker_merkle"
   ],
   "note": ""
  },
  {
   "property": "C16",
   "status": "proved",
   "theorems": [
    "C16_wots_recovers_pk"
   ],
   "note": ""
  },
  {
   "property": "C17",
   "status": "proved",
   "theorems": [
    "C17_chain_lengths"
   ],
   "note": ""
  },
  {
   "property": "C18",
   "status": "proved",
   "theorems": [
    "C18_no_domination"
   ],
   "note": ""
  },
  {
   "property": "C19",
   "status": "proved",
   "theorems": [
    "C19_gen_chain_steps",
    "C19_gen_chain_compose"
   ],
   "note": ""
  },
  {
   "property": "C20",
   "status": "proved",
   "theorems": [
    "C20_fors_recovers_pk"
   ],
   "note": ""
  },
  {
   "property": "C21",
   "status": "proved",
   "theorems": [
    "C21_indices_bits",
    "C21_indices_equal"
   ],
   "note": ""
  },
  {
   "property": "C22",
   "status": "proved",
   "theorems": [
    "C22_sign_positions",
    "C22_verify_positions"
   ],
   "note": ""
  },
  {
   "property": "C23",
   "status": "proved",
   "theorems": [
    "C23_setters",
    "C23_disjoint",
    "C23_copies",
    "C23_injective"
   ],
   "note": ""
  },
  {
   "property": "C24",
   "status": "proved",
   "theorems": [
    "C24_secrets_distinct",
    "C24_prf_vs_thash"
   ],
   "note": ""
  },
  {
   "property": "C25",
   "status": "proved",
   "theorems": [
    "C25_roundtrip",
    "C25_parse",
    "C25_big_endian",
    "C25_u32"
   ],
   "note": ""
  },
  {
   "property": "C26",
   "status": "proved",
   "theorems": [
    "C26_forgery",
    "C26_builds",
    "C26_calls_complete",
    "C26_honest_unique",
    "C26_released"
   ],
   "note": "Stronger than stated: the accepted string is byte for byte the honest signature for its digest, or one of the verifier's listed hash calls is a second preimage at an honest address or an unreleased honest chain value."
  },
  {
   "property": "C27",
   "status": "proved",
   "theorems": [
    "C12_C27_verify_is_spec",
    "C12_build_verify"
   ],
   "note": ""
  },
  {
   "property": "C28",
   "status": "proved",
   "theorems": [
    "C28_sha256",
    "C28_sha256_incremental"
   ],
   "note": "Against the FIPS 180-4 definition in Sha2Spec.v, constants from cube and square roots of primes. Every byte string; the spec takes the bit length mod 2^64, as FIPS only defines shorter messages."
  },
  {
   "property": "C29",
   "status": "proved",
   "theorems": [
    "C29_sha512",
    "C29_sha512_incremental"
   ],
   "note": "Messages below 2^64 bytes (the width of the C counter)."
  },
  {
   "property": "C30",
   "status": "proved",
   "theorems": [
    "C30_mgf1_256",
    "C30_mgf1_512",
    "C30_prefix_256",
    "C30_prefix_512"
   ],
   "note": "All output lengths; inbuf and outbuf start with arbitrary contents."
  },
  {
   "property": "C31",
   "status": "proved",
   "theorems": [
    "C31_hmac"
   ],
   "note": "Messages below 2^63 bytes; hmac_of is RFC 2104 for keys shorter than a block."
  },
  {
   "property": "C32",
   "status": "proved",
   "theorems": [
    "C32_hash_message"
   ],
   "note": "Messages below 2^63 bytes."
  },
  {
   "property": "C33",
   "status": "proved",
   "theorems": [
    "C33_shake256",
    "C33_padding"
   ],
   "note": "one-shot SHAKE256 = Keccak[512] sponge for all input/output lengths; padding also stated on bits"
  },
  {
   "property": "C34",
   "status": "proved",
   "theorems": [
    "C34_incremental"
   ],
   "note": "any split of absorbs and squeezes"
  },
  {
   "property": "C35",
   "status": "proved",
   "theorems": [
    "C35_keccak_f1600"
   ],
   "note": "bit-level FIPS 202 permutation; constants from the LFSR, rotations from the rho walk"
  },
  {
   "property": "C36",
   "status": "proved",
   "theorems": [
    "C36_seed_state",
    "C39_sha2_prf",
    "C39_sha2_thash"
   ],
   "note": "C36_seed_state is the cached state itself; the other two say prf_addr and thash equal hashing the whole string."
  },
  {
   "property": "C37",
   "status": "proved",
   "theorems": [
    "C37_haraka_S"
   ],
   "note": "Any 40 round constants, any split of absorbs and squeezes; one-shot also equals the sponge of the specification."
  },
  {
   "property": "C38",
   "status": "proved",
   "theorems": [
    "C38_bitsliced_haraka",
    "C38_haraka256_pointers"
   ],
   "note": "Against AES rounds over GF(2^8) in HarakaSpec.v, all inputs and all constants."
  },
  {
   "property": "C39",
   "status": "proved",
   "theorems": [
    "C39_shake_thash",
    "C39_sha2_thash",
    "C39_haraka_thash",
    "C39_shake_suite_ok",
    "C39_sha2_suite_ok",
    "C39_haraka_suite_ok",
    "C39_build_ok"
   ],
   "note": "In and out anywhere in one memory, overlapping or not."
  },
  {
   "property": "C40",
   "status": "proved",
   "theorems": [
    "C40_treehashx_agree",
    "C40_treehashx_outside"
   ],
   "note": "For every number of lanes 2^w, w >= 1. Outside the stated indices the code is undefined (out-of-bounds read), proved."
  },
  {
   "property": "C41",
   "status": "proved",
   "theorems": [
    "C41_gen_chains",
    "C41_wots_pk_from_sig"
   ],
   "note": "For every number of lanes. C41_outside_case shows the difference outside the domain."
  },
  {
   "property": "C42",
   "status": "proved",
   "theorems": [
    "C42_seed_keypair",
    "C42_keypair",
    "C42_signature",
    "C42_verify",
    "C42_sign",
    "C42_open",
    "C42_shipped_params",
    "C42_impl_params",
    "C42_impl_seed_keypair",
    "C42_impl_keypair",
    "C42_impl_signature",
    "C42_impl_verify",
    "C42_impl_sign",
    "C42_impl_open"
   ],
   "note": "Equality of the model functions of a multi-lane build and of the reference build, for every suite and lane functions acting lane-wise; the C42_impl_* theorems are about the modelled code of the four directories, with no assumption on their hash code."
  },
  {
   "property": "C43",
   "status": "proved",
   "theorems": [
    "C43_thashx",
    "C43_prf_addrx",
    "C43_thash",
    "C43_prf_addr"
   ],
   "note": "All four directories, simple and robust, every block count with fewer than 2^31 input bytes."
  },
  {
   "property": "C44",
   "status": "proved",
   "theorems": [
    "C44_sha256x8",
    "C44_sha256x8_seeded",
    "C44_sha512x4",
    "C44_sha512x4_seeded",
    "C44_mgf1x8",
    "C44_mgf1x4_512"
   ],
   "note": "The 32-bit limits are those of the C code."
  },
  {
   "property": "C45",
   "status": "proved",
   "theorems": [
    "C45_len2",
    "C45_bytes",
    "C45_shipped",
    "C45_shipped_params"
   ],
   "note": ""
  },
  {
   "property": "C46",
   "status": "proved",
   "theorems": [
    "C46_randombytes",
    "C46_returns",
    "C46_read_error_refuted",
    "C46_read_error_fault_refuted"
   ],
   "note": "Proved for every sequence of reads without error return; refuted when a read fails, as the property's finding says."
  },
  {
   "property": "C47",
   "status": "proved",
   "theorems": [
    "C47_requests",
    "C47_bad_maxlen",
    "C47_total",
    "C47_refused"
   ],
   "note": "For every block cipher. Finding: the last byte of maxlen is never handed out."
  },
  {
   "property": "C48",
   "status": "proved",
   "theorems": [
    "C48_sign",
    "C48_open",
    "C48_round_trip",
    "C48_sign_any",
    "C48_same_refuted"
   ],
   "note": "m = sm is refuted in general: the emitted message is the start of the signature."
  },
  {
   "property": "C49",
   "status": "proved",
   "theorems": [
    "C49_generate",
    "C49_init",
    "C49_long_refuted"
   ],
   "note": "For every block cipher; xlen < 2^31. For xlen >= 2^31 the int index overflows (refuted)."
  },
  {
   "property": "C50",
   "status": "proved",
   "theorems": [
    "C50_split",
    "C50_shake_hash_message",
    "C32_hash_message",
    "C50_haraka_hash_message"
   ],
   "note": ""
  },
  {
   "property": "C51",
   "status": "proved",
   "theorems": [
    "C51_times4",
    "C51_f1600x2"
   ],
   "note": "Instructions by their documented lane semantics."
  },
  {
   "property": "C52",
   "status": "proved",
   "theorems": [
    "C52_shake256x4",
    "C52_shake128x4",
    "C52_shake256x2",
    "C52_shake128x2"
   ],
   "note": ""
  },
  {
   "property": "C53",
   "status": "proved",
   "theorems": [
    "C53_aesni",
    "C53_aesni_x4"
   ],
   "note": "aesenc by its documented semantics (FIPS 197 round)."
  },
  {
   "property": "C54",
   "status": "proved",
   "theorems": [
    "C54_impls"
   ],
   "note": ""
  },
  {
   "property": "C55",
   "status": "proved",
   "theorems": [
    "C55_impl_keygen",
    "C55_impl_sign",
    "C55_impl_verify"
   ],
   "note": "Messages below 2^63 bytes."
  },
  {
   "property": "C56",
   "status": "proved",
   "theorems": [
    "C56_impls"
   ],
   "note": ""
  },
  {
   "property": "C57",
   "status": "proved",
   "theorems": [
    "C57_find_marker",
    "C57_read_hex",
    "C57_field_total",
    "C57_write_read",
    "C57_decimal",
    "C57_empty_refuted"
   ],
   "note": "Length 0 refuted: ReadHex then writes A[0] and leaves the field in the file."
  },
  {
   "property": "C58",
   "status": "proved",
   "theorems": [
    "C58_files",
    "C58_open_fails",
    "C58_reopen_fails"
   ],
   "note": "AES is any function with 16-byte outputs; standard I/O is a byte stream that never fails after fopen."
  },
  {
   "property": "C59",
   "status": "proved",
   "theorems": [
    "C59_same_files"
   ],
   "note": ""
  },
  {
   "property": "C60",
   "status": "proved",
   "theorems": [
    "C60_verdict",
    "C60_detects_refuted",
    "C60_any"
   ],
   "note": "The property that the test detects such a verifier is refuted. malloc succeeds; terminal output left out."
  },
  {
   "property": "C61",
   "status": "proved",
   "theorems": [
    "C61_thashx4",
    "C61_thashx8",
    "C61_thashx2_refuted",
    "C61_thashx2_fixed",
    "C61_verdict"
   ],
   "note": "thashx2.c as shipped has no defined run (refuted)."
  },
  {
   "property": "C62",
   "status": "proved",
   "theorems": [
    "C62_any_address",
    "C62_fors_test"
   ],
   "note": ""
  },
  {
   "property": "C63",
   "status": "proved",
   "theorems": [
    "C63_erase",
    "C63_keygen",
    "C63_sign",
    "C63_verify",
    "C63_verify_length"
   ],
   "note": "The ref/ core; the record is added to the model by a second set of definitions shown to erase to the first."
  },
  {
   "property": "C64",
   "status": "proved",
   "theorems": [
    "C64_keygen",
    "C64_sign",
    "C64_verify"
   ],
   "note": ""
  },
  {
   "property": "C65",
   "status": "proved",
   "theorems": [
    "C65_keygen_distinct",
    "C65_sign_distinct",
    "C65_verify_distinct",
    "C65_one_input",
    "C65_own_verify"
   ],
   "note": ""
  },
  {
   "property": "C66",
   "status": "proved",
   "theorems": [
    "C66_keygen",
    "C66_sign",
    "C66_sign_thash"
   ],
   "note": "At the level of hash calls; memory accesses and timing inside the hash functions are not modelled."
  },
  {
   "property": "C67",
   "status": "proved",
   "theorems": [
    "C67_queries",
    "C67_impls"
   ],
   "note": "The reduction is stated on the deterministic level; probabilities are not modelled."
  },
  {
   "property": "C68",
   "status": "proved",
   "theorems": [
    "C68_keygen",
    "C68_sign"
   ],
   "note": ""
  },
  {
   "property": "C69",
   "status": "proved",
   "theorems": [
    "C69_initialize",
    "C69_add_bytes",
    "C69_overwrite_bytes",
    "C69_overwrite_zeroes",
    "C69_extract_bytes",
    "C69_extract_and_add_bytes",
    "C69_add_lanes",
    "C69_overwrite_lanes",
    "C69_extract_lanes",
    "C69_extract_and_add_lanes",
    "C69_permute12",
    "C69_permute24",
    "C69_absorb24",
    "C69_absorb12",
    "C69_absorb_refuted"
   ],
   "note": "The loop property needs serial <= 3*par + laneCount; without it it is refuted."
  },
  {
   "property": "C70",
   "status": "proved",
   "theorems": [
    "C70_delta",
    "C70_median",
    "C70_unique",
    "C70_median_refuted",
    "C70_comma",
    "C70_aligned",
    "C70_measure",
    "C70_measurt_refuted",
    "C70_api"
   ],
   "note": "The even median can wrap around and MEASURT can print a wrong median; both refuted with witnesses."
  },
  {
   "property": "C71",
   "status": "proved",
   "theorems": [
    "C71_keypair",
    "C71_signature",
    "C71_verify",
    "C71_sign",
    "C71_open",
    "C71_split",
    "C71_compute_root",
    "C71_fors",
    "C71_merkle",
    "C71_wots",
    "C71_treehash",
    "C71_builds",
    "C71_height_31_refuted",
    "C71_treehash_31_refuted",
    "C71_one_layer_refuted"
   ],
   "note": "For an ABI with 8-bit char, 32-bit int, 64-bit long long and size_t. The hash functions are typed in C73 to C76."
  },
  {
   "property": "C72",
   "status": "proved",
   "theorems": [
    "C72_forget",
    "C72_keygen",
    "C72_sign",
    "C72_marks",
    "C72_public",
    "C72_total"
   ],
   "note": "Leakage model: branches and access offsets of the ref/ core, hash calls by length; not the inside of the hash functions, compiler or processor."
  },
  {
   "property": "C73",
   "status": "proved",
   "theorems": [
    "C73_sha256",
    "C73_sha512",
    "C73_sha256_incremental",
    "C73_sha512_incremental",
    "C73_mgf1_256",
    "C73_mgf1_512",
    "C73_shake256",
    "C73_shake256_incremental"
   ],
   "note": "For an ABI with 8-bit char, 32-bit int, 64-bit long long and size_t. Lengths below 2^64."
  },
  {
   "property": "C74",
   "status": "proved",
   "theorems": [
    "C74_haraka"
   ],
   "note": "For an ABI with 8-bit char, 32-bit int, 64-bit long long and size_t. haraka256 with out and in disjoint."
  },
  {
   "property": "C75",
   "status": "proved",
   "theorems": [
    "C75_shake",
    "C75_sha2",
    "C75_haraka",
    "C75_many_blocks_wrap"
   ],
   "note": "For an ABI with 8-bit char, 32-bit int, 64-bit long long and size_t. C75_many_blocks_wrap shows that the bound on the block count is needed; no caller in ref/ comes near it."
  },
  {
   "property": "C76",
   "status": "proved",
   "theorems": [
    "C76_keygen",
    "C76_signature",
    "C76_verify",
    "C76_sign",
    "C76_open",
    "C76_honest",
    "C76_forgery"
   ],
   "note": "For an ABI with 8-bit char, 32-bit int, 64-bit long long and size_t. The core passes buffer contents to the hash functions by value here; the placement of buffers in memory is C75 and C48."
  },
  {
   "property": "C77",
   "status": "proved",
   "theorems": [
    "C77_requests",
    "C77_expander",
    "C77_expander_init",
    "C77_generate",
    "C77_instantiate",
    "C77_long_refuted"
   ],
   "note": "For an ABI with 8-bit char, 32-bit int, 64-bit long, long long and size_t. The block cipher (OpenSSL) is a parameter."
  },
  {
   "property": "C78",
   "status": "proved",
   "theorems": [
    "C78_randombytes",
    "C78_returns",
    "C78_read_error_refuted"
   ],
   "note": "For an ABI with 32-bit int and 64-bit long long. open, read and sleep are the environment: any sequence of results."
  },
  {
   "property": "C79",
   "status": "proved",
   "theorems": [
    "C79_find_marker",
    "C79_read_hex",
    "C79_bad_length_refuted",
    "C79_write_read"
   ],
   "note": "For an ABI with 8-bit char, 32-bit int, 64-bit long long and size_t. strncmp, isxdigit, printf and files are those of Kat.v; main is C58."
  },
  {
   "property": "C80",
   "status": "proved",
   "theorems": [
    "C80_files",
    "C80_open_fails"
   ],
   "note": "For an ABI with 8-bit char, 32-bit int, 64-bit long long and size_t. The C library and files are those of Kat.v; failure of calloc and of writing is left out."
  }
 ]
}