(** ref/hash_sha2.c, ref/thash_sha2_simple.c, ref/thash_sha2_robust.c and seed_state of ref/sha2.c. *)
From Verif Require Import Base Params Address Suite Utils Sha2 HashShake.

(** ref/sha2.h:6-16 *)
Definition SPX_SHA256_BLOCK_BYTES : nat := 64.
Definition SPX_SHA256_OUTPUT_BYTES : nat := 32.
Definition SPX_SHA512_BLOCK_BYTES : nat := 128.
Definition SPX_SHA512_OUTPUT_BYTES : nat := 64.
Definition SPX_SHA256_ADDR_BYTES : nat := 22.

Section HashSha2.
Variable P : params.
Notation N := (p_n P).
Variable junk : nat -> nat -> Z.

(** ref/params/params-sphincs-sha2-*.h:24: 0 in the 128-bit files, 1 in the others. *)
Definition SPX_SHA512 : bool := (24 <=? N)%nat.
(** hash_sha2.c:10-26 *)
Definition useX : bool := (24 <=? N)%nat.
Definition SPX_SHAX_OUTPUT_BYTES : nat := if useX then SPX_SHA512_OUTPUT_BYTES else SPX_SHA256_OUTPUT_BYTES.
Definition SPX_SHAX_BLOCK_BYTES : nat := if useX then SPX_SHA512_BLOCK_BYTES else SPX_SHA256_BLOCK_BYTES.
(** the local arrays padded, inbuf *)
Notation jp := (junk 200).
Definition shaX_inc_init : bytes := if useX then sha512_inc_init else sha256_inc_init.
Definition shaX_inc_blocks : bytes -> bytes -> nat -> option bytes :=
  if useX then sha512_inc_blocks else sha256_inc_blocks.
Definition shaX_inc_finalize : bytes -> bytes -> option bytes :=
  if useX then sha512_inc_finalize jp else sha256_inc_finalize jp.
Definition shaX : bytes -> option bytes := if useX then sha512 jp else sha256 jp.
Definition mgf1_X : nat -> bytes -> option bytes := if useX then mgf1_512 jp else mgf1_256 jp.

(** ctx->state_seeded and ctx->state_seeded_512; [None]: computing them was undefined behaviour. *)
Definition seeds := option (bytes * bytes).
Notation CTX := (ctx seeds).

(** sha2.c:682-700 *)
Definition seed_state (pub_seed : bytes) : seeds :=
  let block := junk_bytes (junk 201) SPX_SHA512_BLOCK_BYTES in
  s <- rd pub_seed 0 N ;;
  block <- wr block 0 s ;;
  block <- wr block N (repeat 0 (SPX_SHA512_BLOCK_BYTES - N)) ;;
  s256 <- sha256_inc_blocks sha256_inc_init block 1 ;;
  s512 <- (if SPX_SHA512 then sha512_inc_blocks sha512_inc_init block 1 else Some []) ;;
  Some (s256, s512).

(** hash_sha2.c:39-56 *)
Definition sha2_prf_addr (c : CTX) (addr : bytes) : option bytes :=
  let buf := junk_bytes (junk 202) (SPX_SHA256_ADDR_BYTES + N) in
  ' (state_seeded, _) <- c_state c ;;
  sha2_state <- rd state_seeded 0 40 ;;
  buf <- memcpy buf 0 addr 0 SPX_SHA256_ADDR_BYTES ;;
  buf <- memcpy buf SPX_SHA256_ADDR_BYTES (c_sk_seed c) 0 N ;;
  x <- rd buf 0 (SPX_SHA256_ADDR_BYTES + N) ;;
  outbuf <- sha256_inc_finalize jp sha2_state x ;;
  rd outbuf 0 N.

(** for (i = 0; i < SPX_N; i++) buf[i] = v ^ sk_prf[i] *)
Definition xor_key (v : Z) (buf sk_prf : bytes) : option bytes :=
  iterM N 0 (fun i buf => k <- get sk_prf i ;; wr buf i [Z.lxor v (u8 k)]) buf.

(** hash_sha2.c:66-115 *)
Definition sha2_gen_message_random (c : CTX) (sk_prf optrand m : bytes) : option bytes :=
  let buf := junk_bytes (junk 203) (SPX_SHAX_BLOCK_BYTES + SPX_SHAX_OUTPUT_BYTES) in
  let mlen := length m in
  _ <- guard (N <=? SPX_SHAX_BLOCK_BYTES)%nat ;;                      (* lines 77-79, #error *)
  buf <- xor_key 0x36 buf sk_prf ;;
  buf <- wr buf N (repeat 0x36 (SPX_SHAX_BLOCK_BYTES - N)) ;;
  let state := shaX_inc_init in
  state <- shaX_inc_blocks state buf 1 ;;
  buf <- memcpy buf 0 optrand 0 N ;;
  buf <-
    (if (N + mlen <? SPX_SHAX_BLOCK_BYTES)%nat then
       buf <- memcpy buf N m 0 mlen ;;
       x <- rd buf 0 (mlen + N) ;;
       h <- shaX_inc_finalize state x ;;
       wr buf SPX_SHAX_BLOCK_BYTES h
     else
       buf <- memcpy buf N m 0 (SPX_SHAX_BLOCK_BYTES - N) ;;
       state <- shaX_inc_blocks state buf 1 ;;
       x <- rd m (SPX_SHAX_BLOCK_BYTES - N) (mlen - (SPX_SHAX_BLOCK_BYTES - N)) ;;
       h <- shaX_inc_finalize state x ;;
       wr buf SPX_SHAX_BLOCK_BYTES h) ;;
  buf <- xor_key 0x5c buf sk_prf ;;
  buf <- wr buf N (repeat 0x5c (SPX_SHAX_BLOCK_BYTES - N)) ;;
  x <- rd buf 0 (SPX_SHAX_BLOCK_BYTES + SPX_SHAX_OUTPUT_BYTES) ;;
  h <- shaX x ;;
  buf <- wr buf 0 h ;;
  rd buf 0 N.

(** SPX_INBLOCKS, hash_sha2.c:140-141.  [x & -2^k] in int arithmetic. *)
Definition SPX_INBLOCKS : nat :=
  (Z.to_nat (Z.land (Z.of_nat (N + SPX_PK_BYTES P + SPX_SHAX_BLOCK_BYTES - 1))
               (- Z.of_nat SPX_SHAX_BLOCK_BYTES)) / SPX_SHAX_BLOCK_BYTES)%nat.

(** hash_sha2.c:122-194 *)
Definition sha2_hash_message (c : CTX) (R pk m : bytes) : option (bytes * Z * Z) :=
  let seed := junk_bytes (junk 204) (2 * N + SPX_SHAX_OUTPUT_BYTES) in
  let inbuf := junk_bytes (junk 205) (SPX_INBLOCKS * SPX_SHAX_BLOCK_BYTES) in
  let mlen := length m in
  let state := shaX_inc_init in
  inbuf <- memcpy inbuf 0 R 0 N ;;
  inbuf <- memcpy inbuf N pk 0 (SPX_PK_BYTES P) ;;
  h <-
    (if (N + SPX_PK_BYTES P + mlen <? SPX_INBLOCKS * SPX_SHAX_BLOCK_BYTES)%nat then
       inbuf <- memcpy inbuf (N + SPX_PK_BYTES P) m 0 mlen ;;
       x <- rd inbuf 0 (N + SPX_PK_BYTES P + mlen) ;;
       shaX_inc_finalize state x
     else
       let fill := (SPX_INBLOCKS * SPX_SHAX_BLOCK_BYTES - N - SPX_PK_BYTES P)%nat in
       inbuf <- memcpy inbuf (N + SPX_PK_BYTES P) m 0 fill ;;
       state <- shaX_inc_blocks state inbuf SPX_INBLOCKS ;;
       x <- rd m fill (mlen - fill) ;;
       shaX_inc_finalize state x) ;;
  seed <- wr seed (2 * N) h ;;
  seed <- memcpy seed 0 R 0 N ;;
  seed <- memcpy seed N pk 0 N ;;
  x <- rd seed 0 (2 * N + SPX_SHAX_OUTPUT_BYTES) ;;
  buf <- mgf1_X (SPX_DGST_BYTES P) x ;;
  split_digest P buf.

(** thash_sha2_simple.c:28-41: the part of thash after the call of thash_512 *)
Definition thash_simple_256 (c : CTX) (inblocks : nat) (addr mem : bytes) (out inp : nat) : option bytes :=
  let buf := junk_bytes (junk 206) (SPX_SHA256_ADDR_BYTES + inblocks * N) in
  ' (state_seeded, _) <- c_state c ;;
  sha2_state <- rd state_seeded 0 40 ;;
  buf <- memcpy buf 0 addr 0 SPX_SHA256_ADDR_BYTES ;;
  buf <- memcpy buf SPX_SHA256_ADDR_BYTES mem inp (inblocks * N) ;;
  x <- rd buf 0 (SPX_SHA256_ADDR_BYTES + inblocks * N) ;;
  outbuf <- sha256_inc_finalize jp sha2_state x ;;
  h <- rd outbuf 0 N ;;
  wr mem out h.
(** thash_sha2_simple.c:44-60 *)
Definition thash_simple_512 (c : CTX) (inblocks : nat) (addr mem : bytes) (out inp : nat) : option bytes :=
  let buf := junk_bytes (junk 207) (SPX_SHA256_ADDR_BYTES + inblocks * N) in
  ' (_, state_seeded_512) <- c_state c ;;
  sha2_state <- rd state_seeded_512 0 72 ;;
  buf <- memcpy buf 0 addr 0 SPX_SHA256_ADDR_BYTES ;;
  buf <- memcpy buf SPX_SHA256_ADDR_BYTES mem inp (inblocks * N) ;;
  x <- rd buf 0 (SPX_SHA256_ADDR_BYTES + inblocks * N) ;;
  outbuf <- sha512_inc_finalize jp sha2_state x ;;
  h <- rd outbuf 0 N ;;
  wr mem out h.
(** thash_sha2_robust.c:28-50 *)
Definition thash_robust_256 (c : CTX) (inblocks : nat) (addr mem : bytes) (out inp : nat) : option bytes :=
  let buf := junk_bytes (junk 208) (N + SPX_SHA256_OUTPUT_BYTES + inblocks * N) in
  buf <- memcpy buf 0 (c_pub_seed c) 0 N ;;
  buf <- memcpy buf N addr 0 SPX_SHA256_ADDR_BYTES ;;
  x <- rd buf 0 (N + SPX_SHA256_ADDR_BYTES) ;;
  bitmask <- mgf1_256 jp (inblocks * N) x ;;
  ' (state_seeded, _) <- c_state c ;;
  sha2_state <- rd state_seeded 0 40 ;;
  buf <- xor_loop (inblocks * N) buf (N + SPX_SHA256_ADDR_BYTES) mem inp bitmask ;;
  x <- rd buf N (SPX_SHA256_ADDR_BYTES + inblocks * N) ;;
  outbuf <- sha256_inc_finalize jp sha2_state x ;;
  h <- rd outbuf 0 N ;;
  wr mem out h.
(** thash_sha2_robust.c:53-77 *)
Definition thash_robust_512 (c : CTX) (inblocks : nat) (addr mem : bytes) (out inp : nat) : option bytes :=
  let buf := junk_bytes (junk 209) (N + SPX_SHA256_ADDR_BYTES + inblocks * N) in
  buf <- memcpy buf 0 (c_pub_seed c) 0 N ;;
  buf <- memcpy buf N addr 0 SPX_SHA256_ADDR_BYTES ;;
  x <- rd buf 0 (N + SPX_SHA256_ADDR_BYTES) ;;
  bitmask <- mgf1_512 jp (inblocks * N) x ;;
  ' (_, state_seeded_512) <- c_state c ;;
  sha2_state <- rd state_seeded_512 0 72 ;;
  buf <- xor_loop (inblocks * N) buf (N + SPX_SHA256_ADDR_BYTES) mem inp bitmask ;;
  x <- rd buf N (SPX_SHA256_ADDR_BYTES + inblocks * N) ;;
  outbuf <- sha512_inc_finalize jp sha2_state x ;;
  h <- rd outbuf 0 N ;;
  wr mem out h.
(** thash: thash_sha2_simple.c:18-27, thash_sha2_robust.c:18-27 *)
Definition sha2_thash (robust : bool) (c : CTX) (inblocks : nat) (addr mem : bytes) (out inp : nat)
  : option bytes :=
  if SPX_SHA512 && (1 <? inblocks)%nat
  then (if robust then thash_robust_512 else thash_simple_512) c inblocks addr mem out inp
  else (if robust then thash_robust_256 else thash_simple_256) c inblocks addr mem out inp.

Definition sha2_suite (robust : bool) : suite := {|
  hs_layout := LSha2;
  hs_st := seeds;
  hs_init := seed_state;   (* hash_sha2.c:31-34 *)
  hs_thash := fun c k inp addr => as_value N (sha2_thash robust c k addr) inp;
  hs_prf_addr := sha2_prf_addr;
  hs_gen_message_random := sha2_gen_message_random;
  hs_hash_message := sha2_hash_message
|}.
End HashSha2.
