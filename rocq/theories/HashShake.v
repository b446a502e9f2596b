(** ref/hash_shake.c, ref/thash_shake_simple.c, ref/thash_shake_robust.c, and the digest split that
    the three hash_*.c files share word for word. *)
From Verif Require Import Base Params Address Suite Utils Fips202.

(** memcpy(dst + doff, src + soff, n) *)
Definition memcpy (dst : bytes) (doff : nat) (src : bytes) (soff n : nat) : option bytes :=
  x <- rd src soff n ;; wr dst doff x.

(** buf[off + i] = in[i] ^ mask[i] for i < n; [in] is the offset [ioff] of [mem] *)
Definition xor_loop (n : nat) (buf : bytes) (off : nat) (mem : bytes) (ioff : nat) (mask : bytes)
  : option bytes :=
  iterM n 0 (fun i buf =>
    a <- get mem (ioff + i) ;; b <- get mask i ;;
    wr buf (off + i) [Z.lxor (u8 a) (u8 b)]) buf.

(** A function writing SPX_N bytes to out and reading in, both pointers into one memory, as the value
    it produces when they do not overlap. *)
Definition as_value (n : nat) (f : bytes -> nat -> nat -> option bytes) (inp : bytes) : option bytes :=
  mem <- f (inp ++ repeat 0 n) (length inp) O ;; rd mem (length inp) n.

(** hash_shake.c:79-96, hash_haraka.c:77-94, hash_sha2.c:176-193.  A shift by the width of the type or
    more is undefined behaviour; D = 1 is tested first for that reason. *)
Definition split_digest (P : params) (buf : bytes) : option (bytes * Z * Z) :=
  digest <- rd buf 0 (SPX_FORS_MSG_BYTES P) ;;
  tree <-
    (if (p_d P =? 1)%nat then Some 0
     else
       b <- rd buf (SPX_FORS_MSG_BYTES P) (SPX_TREE_BYTES P) ;;
       let s := 64 - Z.of_nat (SPX_TREE_BITS P) in
       _ <- guard ((0 <=? s) && (s <? 64)) ;;
       Some (Z.land (bytes_to_ull b) (Z.shiftr (2 ^ 64 - 1) s))) ;;
  b <- rd buf (SPX_FORS_MSG_BYTES P + SPX_TREE_BYTES P) (SPX_LEAF_BYTES P) ;;
  let s := 32 - Z.of_nat (SPX_LEAF_BITS P) in
  _ <- guard ((0 <=? s) && (s <? 32)) ;;
  Some (digest, tree, Z.land (u32 (bytes_to_ull b)) (Z.shiftr (2 ^ 32 - 1) s)).

Section HashShake.
Variable P : params.
Notation N := (p_n P).
(** Uninitialised local arrays: an arbitrary function of a program point and an offset. *)
Variable junk : nat -> nat -> Z.
Notation CTX := (ctx unit).
(** keccak_absorb's t[200] *)
Definition t0 : bytes := junk_bytes (junk 100) 200.

(** hash_shake.c:20-30 *)
Definition shake_prf_addr (c : CTX) (addr : bytes) : option bytes :=
  let buf := junk_bytes (junk 101) (2 * N + SPX_ADDR_BYTES) in
  buf <- memcpy buf 0 (c_pub_seed c) 0 N ;;
  buf <- memcpy buf N addr 0 SPX_ADDR_BYTES ;;
  buf <- memcpy buf (N + SPX_ADDR_BYTES) (c_sk_seed c) 0 N ;;
  inp <- rd buf 0 (2 * N + SPX_ADDR_BYTES) ;;
  shake256 t0 N inp.

(** hash_shake.c:36-50 *)
Definition shake_gen_message_random (c : CTX) (sk_prf optrand m : bytes) : option bytes :=
  let s := shake256_inc_init in
  k <- rd sk_prf 0 N ;;
  s <- shake256_inc_absorb s k ;;
  o <- rd optrand 0 N ;;
  s <- shake256_inc_absorb s o ;;
  s <- shake256_inc_absorb s m ;;
  s <- shake256_inc_finalize s ;;
  ' (R, _) <- shake256_inc_squeeze N s ;;
  Some R.

(** hash_shake.c:57-97 *)
Definition shake_hash_message (c : CTX) (R pk m : bytes) : option (bytes * Z * Z) :=
  let s := shake256_inc_init in
  r <- rd R 0 N ;;
  s <- shake256_inc_absorb s r ;;
  k <- rd pk 0 (SPX_PK_BYTES P) ;;
  s <- shake256_inc_absorb s k ;;
  s <- shake256_inc_absorb s m ;;
  s <- shake256_inc_finalize s ;;
  ' (buf, _) <- shake256_inc_squeeze (SPX_DGST_BYTES P) s ;;
  split_digest P buf.

(** thash_shake_simple.c:14-24.  [in] and [out] are offsets into the memory [mem]; they may overlap. *)
Definition shake_thash_simple (c : CTX) (inblocks : nat) (addr mem : bytes) (out inp : nat)
  : option bytes :=
  let buf := junk_bytes (junk 102) (N + SPX_ADDR_BYTES + inblocks * N) in
  buf <- memcpy buf 0 (c_pub_seed c) 0 N ;;
  buf <- memcpy buf N addr 0 SPX_ADDR_BYTES ;;
  buf <- memcpy buf (N + SPX_ADDR_BYTES) mem inp (inblocks * N) ;;
  x <- rd buf 0 (N + SPX_ADDR_BYTES + inblocks * N) ;;
  h <- shake256 t0 N x ;;
  wr mem out h.

(** thash_shake_robust.c:14-31 *)
Definition shake_thash_robust (c : CTX) (inblocks : nat) (addr mem : bytes) (out inp : nat)
  : option bytes :=
  let buf := junk_bytes (junk 103) (N + SPX_ADDR_BYTES + inblocks * N) in
  buf <- memcpy buf 0 (c_pub_seed c) 0 N ;;
  buf <- memcpy buf N addr 0 SPX_ADDR_BYTES ;;
  x <- rd buf 0 (N + SPX_ADDR_BYTES) ;;
  bitmask <- shake256 t0 (inblocks * N) x ;;
  buf <- xor_loop (inblocks * N) buf (N + SPX_ADDR_BYTES) mem inp bitmask ;;
  x <- rd buf 0 (N + SPX_ADDR_BYTES + inblocks * N) ;;
  h <- shake256 t0 N x ;;
  wr mem out h.

Definition shake_thash (robust : bool) :=
  if robust then shake_thash_robust else shake_thash_simple.

Definition shake_suite (robust : bool) : suite := {|
  hs_layout := LShake;
  hs_st := unit;
  hs_init := fun _ => tt;   (* hash_shake.c:12-15 *)
  hs_thash := fun c k inp addr => as_value N (shake_thash robust c k addr) inp;
  hs_prf_addr := shake_prf_addr;
  hs_gen_message_random := shake_gen_message_random;
  hs_hash_message := shake_hash_message
|}.
End HashShake.
