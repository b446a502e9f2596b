(** ref/hash_{shake,sha2,haraka}.c, ref/thash_{shake,sha2,haraka}_{simple,robust}.c and seed_state of ref/sha2.c with every
    integer expression written as in the C text (CInt.v) and every variable of its declared type, over the typed hash
    functions of CSha2.v, CFips202.v and CHaraka.v.  Pointers are offsets.  Suffix _c: the C-typed version.
    [junk]: what the uninitialised local arrays hold, as in HashShake.v, HashSha2.v and HashHaraka.v. *)
From Verif Require Import Base Params Address Suite Utils Sha2 HashShake HashSha2 HashHaraka CInt CCore CSha2 CFips202 CHaraka.
Local Open Scope Z_scope.

Section Glue.
Variable P : params.
Variable junk : nat -> nat -> Z.
Notation n_ := (xN P).
(** #define SPX_ADDR_BYTES 32, params-sphincs-shake-128f.h:22 and the other parameter files *)
Definition xADDR : cexp := K 32.

(** A local array of e elements *)
Definition array (j : nat) (e : cexp) : option (list Z) := n <- ix e ;; Some (map (junk j) (seq 0 n)).
(** memcpy(dst + doff, src + soff, n) and memset(dst + doff, v, n): the offsets and sizes become 64-bit numbers *)
Definition memcpy_c (dst : bytes) (doff : cexp) (src : bytes) (soff : nat) (n : cexp) : option bytes :=
  d <- ix doff ;; n <- ix n ;; memcpy dst d src soff n.
Definition memset_c (dst : bytes) (doff : cexp) (v : Z) (n : cexp) : option bytes :=
  d <- ix doff ;; n <- ix n ;; wr dst d (repeat v n).
(** unsigned int i; for (i = 0; i < n; i++) buf[off + i] = in[i] ^ mask[i]; in at offset [ioff] of [mem] *)
Definition xor_loop_c (n : cexp) (buf : bytes) (off : cexp) (mem : bytes) (ioff : nat) (mask : bytes) : option bytes :=
  f <- ix n ;;
  cfor (S f) U32 0 n (fun i buf =>
    a <- ix (V U32 i) ;; x <- get mem (ioff + a) ;; y <- get mask a ;; v <- asg U8 (B x .^ B y)%C ;;
    j <- ix (off + V U32 i)%C ;; wr buf j [v]) buf.

(** ** SHAKE: the context has no members of its own *)
Section Shake.
Notation CTX := (ctx unit).
(** shake256(output, outlen, input + ioff, inlen); its s[25] and keccak_absorb's t[200] *)
Definition call_shake256 (outlen : cexp) (inp : bytes) (ioff : nat) (inlen : cexp) : option bytes :=
  s0 <- array 99 (K 25) ;; t0 <- array 100 (K 200) ;;
  ol <- asg U64 outlen ;; il <- asg U64 inlen ;; x <- rd inp ioff (Z.to_nat il) ;; shake256_c s0 t0 ol x il.
(** shake256_inc_absorb(s_inc, input + ioff, inlen) *)
Definition call_inc_absorb (s : list Z) (inp : bytes) (ioff : nat) (inlen : cexp) : option (list Z) :=
  il <- asg U64 inlen ;; x <- rd inp ioff (Z.to_nat il) ;; shake256_inc_absorb_c s x il.
(** shake256_inc_squeeze(output, outlen, s_inc): the output *)
Definition call_inc_squeeze (outlen : cexp) (s : list Z) : option bytes :=
  ol <- asg U64 outlen ;; ' (h, _) <- shake256_inc_squeeze_c ol s ;; Some h.

(** hash_shake.c:20-30 *)
Definition shake_prf_addr_c (c : CTX) (addr : bytes) : option bytes :=
  buf <- array 101 (K 2 * n_ + xADDR)%C ;;
  buf <- memcpy_c buf (K 0) (c_pub_seed c) 0 n_ ;;
  buf <- memcpy_c buf n_ addr 0 xADDR ;;
  buf <- memcpy_c buf (n_ + xADDR)%C (c_sk_seed c) 0 n_ ;;
  call_shake256 n_ buf 0 (K 2 * n_ + xADDR)%C.
(** hash_shake.c:36-50.  mlen: unsigned long long *)
Definition shake_gen_message_random_c (c : CTX) (sk_prf optrand m : bytes) (mlen : Z) : option bytes :=
  s <- array 104 (K 26) ;;
  s <- shake256_inc_init_c s ;;
  s <- call_inc_absorb s sk_prf 0 n_ ;;
  s <- call_inc_absorb s optrand 0 n_ ;;
  s <- call_inc_absorb s m 0 (V U64 mlen) ;;
  s <- shake256_inc_finalize_c s ;;
  call_inc_squeeze n_ s.
(** hash_shake.c:57-97 *)
Definition shake_hash_message_c (c : CTX) (R pk m : bytes) (mlen : Z) : option (bytes * Z * Z) :=
  s <- array 105 (K 26) ;;
  s <- shake256_inc_init_c s ;;
  s <- call_inc_absorb s R 0 n_ ;;
  s <- call_inc_absorb s pk 0 (xPK_BYTES P) ;;
  s <- call_inc_absorb s m 0 (V U64 mlen) ;;
  s <- shake256_inc_finalize_c s ;;
  buf <- call_inc_squeeze (xDGST_BYTES P) s ;;
  split_digest_c P buf.
(** thash_shake_simple.c:14-24.  inblocks: unsigned int *)
Definition shake_thash_simple_c (c : CTX) (inblocks : Z) (addr mem : bytes) (out inp : nat) : option bytes :=
  let inblocks := V U32 inblocks in
  buf <- array 102 (n_ + xADDR + inblocks * n_)%C ;;
  buf <- memcpy_c buf (K 0) (c_pub_seed c) 0 n_ ;;
  buf <- memcpy_c buf n_ addr 0 xADDR ;;
  buf <- memcpy_c buf (n_ + xADDR)%C mem inp (inblocks * n_)%C ;;
  h <- call_shake256 n_ buf 0 (n_ + xADDR + inblocks * n_)%C ;;
  wr mem out h.
(** thash_shake_robust.c:14-31 *)
Definition shake_thash_robust_c (c : CTX) (inblocks : Z) (addr mem : bytes) (out inp : nat) : option bytes :=
  let inblocks := V U32 inblocks in
  buf <- array 103 (n_ + xADDR + inblocks * n_)%C ;;
  buf <- memcpy_c buf (K 0) (c_pub_seed c) 0 n_ ;;
  buf <- memcpy_c buf n_ addr 0 xADDR ;;
  bitmask <- call_shake256 (inblocks * n_)%C buf 0 (n_ + xADDR)%C ;;
  buf <- xor_loop_c (inblocks * n_)%C buf (n_ + xADDR)%C mem inp bitmask ;;
  h <- call_shake256 n_ buf 0 (n_ + xADDR + inblocks * n_)%C ;;
  wr mem out h.
Definition shake_thash_c (robust : bool) := if robust then shake_thash_robust_c else shake_thash_simple_c.
End Shake.

(** ** SHA-2 *)
Section Sha2.
Notation CTX := (ctx seeds).
(** sha2.h:6-16, hash_sha2.c:10-26, all of type int *)
Definition xADDR22 : cexp := K 22.
Definition xOUT256 : cexp := K 32.
Definition xBLOCK512 : cexp := K 128.
Definition xOUT : cexp := if useX P then K 64 else xOUT256.
Definition xBLOCK : cexp := if useX P then xBLOCK512 else K 64.
Notation jp := (junk 200).
(** shaX_inc_blocks(state, in, inblocks), shaX_inc_finalize(out, state, in + ioff, inlen), shaX(out, in, inlen) and
    mgf1_X(out, outlen, in, inlen), b: the SHA-512 version *)
Definition call_blocks (b : bool) (state inp : bytes) (inblocks : cexp) : option bytes :=
  k <- asg U64 inblocks ;; (if b then sha512_inc_blocks_c else sha256_inc_blocks_c) state inp k.
Definition call_finalize (b : bool) (state inp : bytes) (ioff : nat) (inlen : cexp) : option bytes :=
  l <- asg U64 inlen ;; x <- rd inp ioff (Z.to_nat l) ;;
  (if b then sha512_inc_finalize_c else sha256_inc_finalize_c) jp state x l.
Definition call_sha (b : bool) (inp : bytes) (inlen : cexp) : option bytes :=
  n <- ix inlen ;; x <- rd inp 0 n ;; (if b then sha512_c else sha256_c) jp x inlen.
Definition call_mgf1 (b : bool) (outlen : cexp) (inp : bytes) (inlen : cexp) : option bytes :=
  ol <- asg U64 outlen ;; il <- asg U64 inlen ;; x <- rd inp 0 (Z.to_nat il) ;;
  (if b then mgf1_512_c else mgf1_256_c) jp ol x il.

(** sha2.c:682-700; i: size_t *)
Definition seed_state_c (pub_seed : bytes) : seeds :=
  block <- array 201 xBLOCK512 ;;
  f <- ix n_ ;;
  block <- cfor (S f) U64 0 n_ (fun i block => j <- ix (V U64 i) ;; x <- get pub_seed j ;; wr block j [x]) block ;;
  i <- asg U64 n_ ;;
  block <- cfor (S (128 - f)) U64 i xBLOCK512 (fun i block => j <- ix (V U64 i) ;; z <- asg U8 (K 0) ;; wr block j [z]) block ;;
  s256 <- call_blocks false sha256_inc_init block (K 1) ;;
  s512 <- (if SPX_SHA512 P then call_blocks true sha512_inc_init block (K 1) else Some []) ;;
  Some (s256, s512).
(** hash_sha2.c:39-56.  sizeof(uint8_t) is 1 of type size_t *)
Definition sha2_prf_addr_c (c : CTX) (addr : bytes) : option bytes :=
  buf <- array 202 (xADDR22 + n_)%C ;;
  ' (state_seeded, _) <- c_state c ;;
  k <- ix (K 40 * V U64 1)%C ;; sha2_state <- rd state_seeded 0 k ;;
  buf <- memcpy_c buf (K 0) addr 0 xADDR22 ;;
  buf <- memcpy_c buf xADDR22 (c_sk_seed c) 0 n_ ;;
  outbuf <- call_finalize false sha2_state buf 0 (xADDR22 + n_)%C ;;
  k <- ix n_ ;; rd outbuf 0 k.
(** int i; for (i = 0; i < SPX_N; i++) buf[i] = v ^ sk_prf[i] *)
Definition xor_key_c (v : Z) (buf sk_prf : bytes) : option bytes :=
  f <- ix n_ ;;
  cfor (S f) I32 0 n_ (fun i buf =>
    j <- ix (V I32 i) ;; x <- get sk_prf j ;; x <- asg U8 (K v .^ B x)%C ;; wr buf j [x]) buf.
(** hash_sha2.c:66-115 *)
Definition sha2_gen_message_random_c (c : CTX) (sk_prf optrand m : bytes) (mlen : Z) : option bytes :=
  buf <- array 203 (xBLOCK + xOUT)%C ;;
  buf <- xor_key_c 0x36 buf sk_prf ;;
  buf <- memset_c buf n_ 0x36 (xBLOCK - n_)%C ;;
  let state := shaX_inc_init P in
  state <- call_blocks (useX P) state buf (K 1) ;;
  buf <- memcpy_c buf (K 0) optrand 0 n_ ;;
  b <- cond (n_ + V U64 mlen < xBLOCK)%C ;;
  buf <-
    (if b : bool then
       buf <- memcpy_c buf n_ m 0 (V U64 mlen) ;;
       h <- call_finalize (useX P) state buf 0 (V U64 mlen + n_)%C ;;
       o <- ix xBLOCK ;; wr buf o h
     else
       buf <- memcpy_c buf n_ m 0 (xBLOCK - n_)%C ;;
       state <- call_blocks (useX P) state buf (K 1) ;;
       mo <- ix (xBLOCK - n_)%C ;;
       mlen <- asg U64 (V U64 mlen - (xBLOCK - n_))%C ;;
       h <- call_finalize (useX P) state m mo (V U64 mlen) ;;
       o <- ix xBLOCK ;; wr buf o h) ;;
  buf <- xor_key_c 0x5c buf sk_prf ;;
  buf <- memset_c buf n_ 0x5c (xBLOCK - n_)%C ;;
  h <- call_sha (useX P) buf (xBLOCK + xOUT)%C ;;
  buf <- wr buf 0 h ;;
  k <- ix n_ ;; rd buf 0 k.
(** hash_sha2.c:140-141; -x of an int is 0 - x *)
Definition xINBLOCKS : cexp := (((n_ + xPK_BYTES P + xBLOCK - K 1) .& (K 0 - xBLOCK)) / xBLOCK)%C.
(** hash_sha2.c:122-194 *)
Definition sha2_hash_message_c (c : CTX) (R pk m : bytes) (mlen : Z) : option (bytes * Z * Z) :=
  seed <- array 204 (K 2 * n_ + xOUT)%C ;;
  inbuf <- array 205 (xINBLOCKS * xBLOCK)%C ;;
  let state := shaX_inc_init P in
  inbuf <- memcpy_c inbuf (K 0) R 0 n_ ;;
  inbuf <- memcpy_c inbuf n_ pk 0 (xPK_BYTES P) ;;
  b <- cond (n_ + xPK_BYTES P + V U64 mlen < xINBLOCKS * xBLOCK)%C ;;
  h <-
    (if b : bool then
       inbuf <- memcpy_c inbuf (n_ + xPK_BYTES P)%C m 0 (V U64 mlen) ;;
       call_finalize (useX P) state inbuf 0 (n_ + xPK_BYTES P + V U64 mlen)%C
     else
       inbuf <- memcpy_c inbuf (n_ + xPK_BYTES P)%C m 0 (xINBLOCKS * xBLOCK - n_ - xPK_BYTES P)%C ;;
       state <- call_blocks (useX P) state inbuf xINBLOCKS ;;
       mo <- ix (xINBLOCKS * xBLOCK - n_ - xPK_BYTES P)%C ;;
       mlen <- asg U64 (V U64 mlen - (xINBLOCKS * xBLOCK - n_ - xPK_BYTES P))%C ;;
       call_finalize (useX P) state m mo (V U64 mlen)) ;;
  o <- ix (K 2 * n_)%C ;; seed <- wr seed o h ;;
  seed <- memcpy_c seed (K 0) R 0 n_ ;;
  seed <- memcpy_c seed n_ pk 0 n_ ;;
  buf <- call_mgf1 (useX P) (xDGST_BYTES P) seed (K 2 * n_ + xOUT)%C ;;
  split_digest_c P buf.
(** thash_sha2_simple.c:28-41, the rest of thash (b = false), and 44-60, thash_512 (b = true) *)
Definition sha2_simple_c (b : bool) (c : CTX) (inblocks : Z) (addr mem : bytes) (out inp : nat) : option bytes :=
  let inblocks := V U32 inblocks in
  buf <- array (if b then 207 else 206) (xADDR22 + inblocks * n_)%C ;;
  ' (state_seeded, state_seeded_512) <- c_state c ;;
  k <- ix ((if b then K 72 else K 40) * V U64 1)%C ;; sha2_state <- rd (if b then state_seeded_512 else state_seeded) 0 k ;;
  buf <- memcpy_c buf (K 0) addr 0 xADDR22 ;;
  buf <- memcpy_c buf xADDR22 mem inp (inblocks * n_)%C ;;
  outbuf <- call_finalize b sha2_state buf 0 (xADDR22 + inblocks * n_)%C ;;
  k <- ix n_ ;; h <- rd outbuf 0 k ;;
  wr mem out h.
(** thash_sha2_robust.c:28-50 (b = false; its buf has SPX_SHA256_OUTPUT_BYTES in place of SPX_SHA256_ADDR_BYTES) and
    53-77 (b = true) *)
Definition sha2_robust_c (b : bool) (c : CTX) (inblocks : Z) (addr mem : bytes) (out inp : nat) : option bytes :=
  let inblocks := V U32 inblocks in
  buf <- (if b then array 209 (n_ + xADDR22 + inblocks * n_)%C else array 208 (n_ + xOUT256 + inblocks * n_)%C) ;;
  buf <- memcpy_c buf (K 0) (c_pub_seed c) 0 n_ ;;
  buf <- memcpy_c buf n_ addr 0 xADDR22 ;;
  bitmask <- call_mgf1 b (inblocks * n_)%C buf (n_ + xADDR22)%C ;;
  ' (state_seeded, state_seeded_512) <- c_state c ;;
  k <- ix ((if b then K 72 else K 40) * V U64 1)%C ;; sha2_state <- rd (if b then state_seeded_512 else state_seeded) 0 k ;;
  buf <- xor_loop_c (inblocks * n_)%C buf (n_ + xADDR22)%C mem inp bitmask ;;
  o <- ix n_ ;;
  outbuf <- call_finalize b sha2_state buf o (xADDR22 + inblocks * n_)%C ;;
  k <- ix n_ ;; h <- rd outbuf 0 k ;;
  wr mem out h.
(** thash: thash_sha2_simple.c:18-27, thash_sha2_robust.c:18-27; [a > b] is [b < a] *)
Definition sha2_thash_c (robust : bool) (c : CTX) (inblocks : Z) (addr mem : bytes) (out inp : nat) : option bytes :=
  b <- (if SPX_SHA512 P then cond (K 1 < V U32 inblocks)%C else Some false) ;;
  (if robust then sha2_robust_c else sha2_simple_c) b c inblocks addr mem out inp.
End Sha2.

(** ** Haraka *)
Section Haraka.
Notation CTX := (ctx haraka_st).
(** tmp[16], q[8] of haraka512_perm *)
Definition hJ : list Z * list Z := (map (junk 310) (seq 0 16), map (junk 311) (seq 0 8)).
Notation perm rc := (haraka512_perm_c hJ rc).
(** hash_haraka.c:11-14; tweak_constants: its arrays and the rows of the tables before they are written *)
Definition haraka_init_c (pub_seed : bytes) : haraka_st :=
  t0 <- array 312 (K 32) ;; s0 <- array 313 (K 64) ;; tmp <- array 314 (K 16) ;; row512 <- array 315 (K 8) ;; row256 <- array 316 (K 8) ;;
  tweak_constants_c hJ t0 s0 tmp row512 row256 (p_n P) pub_seed.
Definition call_512 (rc : list (list Z)) (outbuf inp : bytes) : option bytes :=
  b0 <- array 317 (K 64) ;; haraka512_c hJ b0 rc outbuf inp.
Definition call_S (rc : list (list Z)) (outlen : cexp) (inp : bytes) (inlen : cexp) : option bytes :=
  t0 <- array 312 (K 32) ;; s0 <- array 313 (K 64) ;;
  ol <- asg U64 outlen ;; l <- ix inlen ;; x <- rd inp 0 l ;; haraka_S_c (perm rc) t0 s0 ol x inlen.
Definition call_hinc_absorb (rc : list (list Z)) (s inp : bytes) (ioff : cexp) (inlen : cexp) : option bytes :=
  o <- ix ioff ;; il <- asg U64 inlen ;; x <- rd inp o (Z.to_nat il) ;; haraka_S_inc_absorb_c (perm rc) s x il.
Definition call_hinc_squeeze (rc : list (list Z)) (outlen : cexp) (s : bytes) : option bytes :=
  ol <- asg U64 outlen ;; ' (h, _) <- haraka_S_inc_squeeze_c (perm rc) ol s ;; Some h.

(** hash_haraka.c:19-31 *)
Definition haraka_prf_addr_c (c : CTX) (addr : bytes) : option bytes :=
  ' (rc512, _) <- c_state c ;;
  outbuf <- array 303 (K 32) ;;
  let buf := repeat 0 64 in
  buf <- memcpy_c buf (K 0) addr 0 xADDR ;;
  buf <- memcpy_c buf xADDR (c_sk_seed c) 0 n_ ;;
  outbuf <- call_512 rc512 outbuf buf ;;
  k <- ix n_ ;; rd outbuf 0 k.
(** hash_haraka.c:37-50 *)
Definition haraka_gen_message_random_c (c : CTX) (sk_prf optrand m : bytes) (mlen : Z) : option bytes :=
  ' (rc512, _) <- c_state c ;;
  s <- array 304 (K 65) ;;
  s <- haraka_S_inc_init_c s ;;
  s <- call_hinc_absorb rc512 s sk_prf (K 0) n_ ;;
  s <- call_hinc_absorb rc512 s optrand (K 0) n_ ;;
  s <- call_hinc_absorb rc512 s m (K 0) (V U64 mlen) ;;
  s <- haraka_S_inc_finalize_c s ;;
  call_hinc_squeeze rc512 n_ s.
(** hash_haraka.c:57-96 *)
Definition haraka_hash_message_c (c : CTX) (R pk m : bytes) (mlen : Z) : option (bytes * Z * Z) :=
  ' (rc512, _) <- c_state c ;;
  s <- array 305 (K 65) ;;
  s <- haraka_S_inc_init_c s ;;
  s <- call_hinc_absorb rc512 s R (K 0) n_ ;;
  s <- call_hinc_absorb rc512 s pk n_ n_ ;;
  s <- call_hinc_absorb rc512 s m (K 0) (V U64 mlen) ;;
  s <- haraka_S_inc_finalize_c s ;;
  buf <- call_hinc_squeeze rc512 (xDGST_BYTES P) s ;;
  split_digest_c P buf.
(** thash_haraka_simple.c:15-37 *)
Definition haraka_thash_simple_c (c : CTX) (inblocks : Z) (addr mem : bytes) (out inp : nat) : option bytes :=
  let inblocks := V U32 inblocks in
  ' (rc512, _) <- c_state c ;;
  buf <- array 300 (xADDR + inblocks * n_)%C ;;
  outbuf <- array 303 (K 32) ;;
  buf_tmp <- array 302 (K 64) ;;
  one <- cond (inblocks == K 1)%C ;;
  if one : bool then
    buf_tmp <- memset_c buf_tmp (K 0) 0 (K 64) ;;
    buf_tmp <- memcpy_c buf_tmp (K 0) addr 0 (K 32) ;;
    buf_tmp <- memcpy_c buf_tmp xADDR mem inp n_ ;;
    outbuf <- call_512 rc512 outbuf buf_tmp ;;
    k <- ix n_ ;; h <- rd outbuf 0 k ;;
    wr mem out h
  else
    buf <- memcpy_c buf (K 0) addr 0 (K 32) ;;
    buf <- memcpy_c buf xADDR mem inp (inblocks * n_)%C ;;
    h <- call_S rc512 n_ buf (xADDR + inblocks * n_)%C ;;
    wr mem out h.
(** thash_haraka_robust.c:15-48 *)
Definition haraka_thash_robust_c (c : CTX) (inblocks : Z) (addr mem : bytes) (out inp : nat) : option bytes :=
  let inblocks := V U32 inblocks in
  ' (rc512, rc256) <- c_state c ;;
  buf <- array 301 (xADDR + inblocks * n_)%C ;;
  outbuf <- array 303 (K 32) ;;
  buf_tmp <- array 302 (K 64) ;;
  one <- cond (inblocks == K 1)%C ;;
  if one : bool then
    buf_tmp <- memset_c buf_tmp (K 0) 0 (K 64) ;;
    buf_tmp <- memcpy_c buf_tmp (K 0) addr 0 (K 32) ;;
    q0 <- array 318 (K 8) ;; x <- rd buf_tmp 0 32 ;;
    outbuf <- haraka256_c q0 rc256 outbuf x ;;
    buf_tmp <- xor_loop_c (inblocks * n_)%C buf_tmp xADDR mem inp outbuf ;;
    outbuf <- call_512 rc512 outbuf buf_tmp ;;
    k <- ix n_ ;; h <- rd outbuf 0 k ;;
    wr mem out h
  else
    buf <- memcpy_c buf (K 0) addr 0 (K 32) ;;
    bitmask <- call_S rc512 (inblocks * n_)%C buf xADDR ;;
    buf <- xor_loop_c (inblocks * n_)%C buf xADDR mem inp bitmask ;;
    h <- call_S rc512 n_ buf (xADDR + inblocks * n_)%C ;;
    wr mem out h.
Definition haraka_thash_c (robust : bool) := if robust then haraka_thash_robust_c else haraka_thash_simple_c.
End Haraka.
End Glue.
