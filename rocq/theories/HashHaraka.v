(** ref/hash_haraka.c, ref/thash_haraka_simple.c, ref/thash_haraka_robust.c. *)
From Verif Require Import Base Params Address Suite Utils Haraka HashShake.

(** context.h:23-26: tweaked512_rc64 and tweaked256_rc32; [None] if computing them left a buffer. *)
Definition haraka_st : Type := option (list (list Z) * list (list Z)).

(** What hash_haraka.c and thash_haraka_*.c call: haraka512_perm (under the incremental functions), haraka_S,
    haraka512 and haraka256 for the constants in the context.  The same C files serve ref and
    haraka-aesni, whose haraka.c differ. *)
Record haraka_fns := mkHaraka {
  hk_perm : bytes -> option bytes;
  hk_S : nat -> bytes -> option bytes;
  hk_512 : bytes -> option bytes;
  hk_256 : bytes -> option bytes
}.

Section HashHaraka.
Variable P : params.
Notation N := (p_n P).
(** Uninitialised local arrays. *)
Variable junk : nat -> nat -> Z.
Variable st : Type.
Variable fns : st -> option haraka_fns.
Notation CTX := (ctx st).

(** hash_haraka.c:19-31 *)
Definition hk_prf_addr (c : CTX) (addr : bytes) : option bytes :=
  K <- fns (c_state c) ;;
  let buf := repeat 0 64 in
  buf <- memcpy buf 0 addr 0 SPX_ADDR_BYTES ;;
  buf <- memcpy buf SPX_ADDR_BYTES (c_sk_seed c) 0 N ;;
  outbuf <- hk_512 K buf ;;
  rd outbuf 0 N.

(** haraka_S_inc_absorb(s_inc, m, mlen, ctx) with enough fuel for its loop *)
Definition inc_absorb (K : haraka_fns) (s_inc m : bytes) : option bytes :=
  haraka_S_inc_absorb (hk_perm K) (S (length m)) s_inc m.

(** hash_haraka.c:37-50 *)
Definition hk_gen_message_random (c : CTX) (sk_prf optrand m : bytes) : option bytes :=
  K <- fns (c_state c) ;;
  let s := haraka_S_inc_init in
  k <- rd sk_prf 0 N ;;
  s <- inc_absorb K s k ;;
  o <- rd optrand 0 N ;;
  s <- inc_absorb K s o ;;
  s <- inc_absorb K s m ;;
  s <- haraka_S_inc_finalize s ;;
  ' (R, _) <- haraka_S_inc_squeeze (hk_perm K) N s ;;
  Some R.

(** hash_haraka.c:57-96; only the root half of pk is absorbed. *)
Definition hk_hash_message (c : CTX) (R pk m : bytes) : option (bytes * Z * Z) :=
  K <- fns (c_state c) ;;
  let s := haraka_S_inc_init in
  r <- rd R 0 N ;;
  s <- inc_absorb K s r ;;
  k <- rd pk N N ;;
  s <- inc_absorb K s k ;;
  s <- inc_absorb K s m ;;
  s <- haraka_S_inc_finalize s ;;
  ' (buf, _) <- haraka_S_inc_squeeze (hk_perm K) (SPX_DGST_BYTES P) s ;;
  split_digest P buf.

(** thash_haraka_simple.c:15-37.  [in] and [out] are offsets into [mem]; they may overlap. *)
Definition hk_thash_simple (c : CTX) (inblocks : nat) (addr mem : bytes) (out inp : nat)
  : option bytes :=
  K <- fns (c_state c) ;;
  if (inblocks =? 1)%nat then
    let buf_tmp := repeat 0 64 in
    buf_tmp <- memcpy buf_tmp 0 addr 0 32 ;;
    buf_tmp <- memcpy buf_tmp SPX_ADDR_BYTES mem inp N ;;
    outbuf <- hk_512 K buf_tmp ;;
    h <- rd outbuf 0 N ;;
    wr mem out h
  else
    let buf := junk_bytes (junk 300) (SPX_ADDR_BYTES + inblocks * N) in
    buf <- memcpy buf 0 addr 0 32 ;;
    buf <- memcpy buf SPX_ADDR_BYTES mem inp (inblocks * N) ;;
    x <- rd buf 0 (SPX_ADDR_BYTES + inblocks * N) ;;
    h <- hk_S K N x ;;
    wr mem out h.

(** thash_haraka_robust.c:15-48 *)
Definition hk_thash_robust (c : CTX) (inblocks : nat) (addr mem : bytes) (out inp : nat)
  : option bytes :=
  K <- fns (c_state c) ;;
  if (inblocks =? 1)%nat then
    let buf_tmp := repeat 0 64 in
    buf_tmp <- memcpy buf_tmp 0 addr 0 32 ;;
    x <- rd buf_tmp 0 32 ;;
    outbuf <- hk_256 K x ;;
    buf_tmp <- xor_loop (inblocks * N) buf_tmp SPX_ADDR_BYTES mem inp outbuf ;;
    outbuf <- hk_512 K buf_tmp ;;
    h <- rd outbuf 0 N ;;
    wr mem out h
  else
    let buf := junk_bytes (junk 301) (SPX_ADDR_BYTES + inblocks * N) in
    buf <- memcpy buf 0 addr 0 32 ;;
    x <- rd buf 0 SPX_ADDR_BYTES ;;
    bitmask <- hk_S K (inblocks * N) x ;;
    buf <- xor_loop (inblocks * N) buf SPX_ADDR_BYTES mem inp bitmask ;;
    x <- rd buf 0 (SPX_ADDR_BYTES + inblocks * N) ;;
    h <- hk_S K N x ;;
    wr mem out h.

Definition hk_thash (robust : bool) :=
  if robust then hk_thash_robust else hk_thash_simple.

Definition hk_suite (init : bytes -> st) (robust : bool) : suite := {|
  hs_layout := LShake;   (* haraka_offsets.h is shake_offsets.h *)
  hs_st := st;
  hs_init := init;
  hs_thash := fun c k inp addr => as_value N (hk_thash robust c k addr) inp;
  hs_prf_addr := hk_prf_addr;
  hs_gen_message_random := hk_gen_message_random;
  hs_hash_message := hk_hash_message
|}.
End HashHaraka.

(** The ref build: ref/haraka.c. *)
Definition ref_fns (s : haraka_st) : option haraka_fns :=
  ' (rc512, rc256) <- s ;;
  Some {| hk_perm := haraka512_perm rc512; hk_S := haraka_S (haraka512_perm rc512);
          hk_512 := haraka512 rc512; hk_256 := haraka256 rc256 |}.
Definition haraka_prf_addr (P : params) := hk_prf_addr P haraka_st ref_fns.
Definition haraka_gen_message_random (P : params) := hk_gen_message_random P haraka_st ref_fns.
Definition haraka_hash_message (P : params) := hk_hash_message P haraka_st ref_fns.
Definition haraka_thash (P : params) (junk : nat -> nat -> Z) := hk_thash P junk haraka_st ref_fns.
(** hash_haraka.c:11-14: initialize_hash_function is tweak_constants. *)
Definition haraka_suite (P : params) (junk : nat -> nat -> Z) : bool -> suite :=
  hk_suite P junk haraka_st ref_fns (tweak_constants (p_n P)).
