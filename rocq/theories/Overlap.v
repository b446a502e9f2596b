(** ref/sign.c with all of the caller's buffers in one memory, at any positions: what happens when they
    overlap.  Pointers are indices into [mem].  Locals (the context, mhash, root, the addresses) are not
    part of [mem].  Each hash function call reads its inputs before it writes its outputs. *)
From Verif Require Import Base Params Address Suite Utils Wots Fors Merkle Sign.

Section Overlap.
Variable P : params.
Variable HS : suite.
Notation CTX := (ctx (hs_st HS)).
Notation L := (hs_layout HS).
Notation N := (p_n P).
Variable junk : nat -> nat -> Z.

(** ref/sign.c:95-158: as [Sign.crypto_sign_signature], but [sig], [m] and [sk] point into [mem].  The
    message is read twice: by gen_message_random (line 126) before R is written to [sig], and by
    hash_message (line 129) afterwards; the public key is read from [sk] on line 129.  Returns (ret, mem,
    *siglen, remaining random stream). *)
Definition sign_signature_mem (stream mem : bytes) (sig m mlen sk : nat) : option (Z * bytes * Z * bytes) :=
  sk_seed <- rd mem sk N ;;
  pub_seed <- rd mem (sk + 2 * N) N ;;
  let c := mkCtx pub_seed sk_seed (hs_init HS pub_seed) in
  wots_addr <- set_type L zero_addr SPX_ADDR_TYPE_WOTS ;;
  tree_addr <- set_type L zero_addr SPX_ADDR_TYPE_HASHTREE ;;
  ' (optrand, stream) <- randombytes stream N ;;
  sk_prf <- rd mem (sk + N) N ;;
  msg <- rd mem m mlen ;;
  R <- hs_gen_message_random HS c sk_prf optrand msg ;;
  mem <- wr mem sig R ;;
  R <- rd mem sig N ;;
  pk <- rd mem (sk + 2 * N) (SPX_PK_BYTES P) ;;
  msg <- rd mem m mlen ;;
  ' (mhash, tree, idx_leaf) <- hs_hash_message HS c R pk msg ;;
  wots_addr <- set_tree_addr L wots_addr tree ;;
  wots_addr <- set_keypair_addr L wots_addr idx_leaf ;;
  fsig <- rd mem (sig + N) (SPX_FORS_BYTES P) ;;
  ' (fsig, root) <- fors_sign P HS c junk fsig mhash wots_addr ;;
  mem <- wr mem (sig + N) fsig ;;
  ' (mem, _, _, _, _, _, _) <-
    iterM (p_d P) 0 (sign_layer P HS junk c)
      (mem, (sig + N + SPX_FORS_BYTES P)%nat, root, wots_addr, tree_addr, tree, idx_leaf) ;;
  Some (0, mem, Z.of_nat (SPX_BYTES P), stream).

(** ref/sign.c:246-258. *)
Definition crypto_sign_mem (stream mem : bytes) (sm m mlen sk : nat) : option (Z * bytes * Z * bytes) :=
  ' (_, mem, siglen, stream) <- sign_signature_mem stream mem sm m mlen sk ;;
  d <- rd mem m mlen ;;
  mem <- wr mem (sm + SPX_BYTES P) d ;;
  Some (0, mem, u64 (siglen + Z.of_nat mlen), stream).

(** ref/sign.c:263-287.  Returns (ret, mem, *mlen). *)
Definition crypto_sign_open_mem (mem : bytes) (m sm : nat) (smlen : Z) (pk : nat) : option (Z * bytes * Z) :=
  if smlen <? Z.of_nat (SPX_BYTES P) then
    mem <- wr mem m (repeat 0 (Z.to_nat smlen)) ;; Some (-1, mem, 0)
  else
    let mlen := smlen - Z.of_nat (SPX_BYTES P) in
    sig <- rd mem sm (SPX_BYTES P) ;;
    msg <- rd mem (sm + SPX_BYTES P) (Z.to_nat mlen) ;;
    pkb <- rd mem pk (SPX_PK_BYTES P) ;;
    r <- crypto_sign_verify P HS junk sig (Z.of_nat (SPX_BYTES P)) msg pkb ;;
    if negb (r =? 0) then
      mem <- wr mem m (repeat 0 (Z.to_nat smlen)) ;; Some (-1, mem, 0)
    else
      d <- rd mem (sm + SPX_BYTES P) (Z.to_nat mlen) ;;
      mem <- wr mem m d ;; Some (0, mem, mlen).
End Overlap.
