(** ref/sign.c: the public API. *)
From Verif Require Import Base Params Address Suite Utils Wots Fors Merkle.

Section Sign.
Variable P : params.
Variable HS : suite.
Notation CTX := (ctx (hs_st HS)).
Notation L := (hs_layout HS).
Notation N := (p_n P).
Notation TH := (SPX_TREE_HEIGHT P).
Variable junk : nat -> nat -> Z.

(** randombytes(x, k) (ref/randombytes.c:12-43) seen from the core: the next [k] bytes of the
    random stream, and the stream that remains.  [None] when the stream is exhausted. *)
Definition randombytes (stream : bytes) (k : nat) : option (bytes * bytes) :=
  d <- rd stream 0 k ;; Some (d, skipn k stream).

(** ref/sign.c:19-46. *)
Definition crypto_sign_secretkeybytes : Z := Z.of_nat (SPX_SK_BYTES P).
Definition crypto_sign_publickeybytes : Z := Z.of_nat (SPX_PK_BYTES P).
Definition crypto_sign_bytes : Z := Z.of_nat (SPX_BYTES P).
Definition crypto_sign_seedbytes : Z := Z.of_nat (CRYPTO_SEEDBYTES P).

(** ref/sign.c:53-76.  [pk] and [sk] are the caller's buffers; returns (ret, pk, sk). *)
Definition crypto_sign_seed_keypair (pk sk seed : bytes) : option (Z * bytes * bytes) :=
  s <- rd seed 0 (CRYPTO_SEEDBYTES P) ;;
  sk <- wr sk 0 s ;;
  ps <- rd sk (2 * N) N ;;
  pk <- wr pk 0 ps ;;
  pub_seed <- rd pk 0 N ;;
  sk_seed <- rd sk 0 N ;;
  let c := mkCtx pub_seed sk_seed (hs_init HS pub_seed) in
  root0 <- rd sk (3 * N) N ;;
  root <- merkle_gen_root P HS c junk root0 ;;
  sk <- wr sk (3 * N) root ;;
  r <- rd sk (3 * N) N ;;
  pk <- wr pk N r ;;
  Some (0, pk, sk).

(** ref/sign.c:83-90.  Returns (ret, pk, sk, remaining random stream). *)
Definition crypto_sign_keypair (stream pk sk : bytes) : option (Z * bytes * bytes * bytes) :=
  ' (seed, stream) <- randombytes stream (CRYPTO_SEEDBYTES P) ;;
  ' (_, pk, sk) <- crypto_sign_seed_keypair pk sk seed ;;
  Some (0, pk, sk, stream).

(** ref/sign.c:140-153. *)
Definition sign_layer (c : CTX) (i : nat)
    (s : bytes * nat * bytes * bytes * bytes * Z * Z)
  : option (bytes * nat * bytes * bytes * bytes * Z * Z) :=
  let '(sig, sp, root, wots_addr, tree_addr, tree, idx_leaf) := s in
  tree_addr <- set_layer_addr L tree_addr (Z.of_nat i) ;;
  tree_addr <- set_tree_addr L tree_addr tree ;;
  wots_addr <- copy_subtree_addr L wots_addr tree_addr ;;
  wots_addr <- set_keypair_addr L wots_addr idx_leaf ;;
  part <- rd sig sp (SPX_WOTS_BYTES P + TH * N) ;;
  ' (part, root, tree_addr) <- merkle_sign P HS c junk part root wots_addr tree_addr idx_leaf ;;
  sig <- wr sig sp part ;;
  let sp := (sp + (SPX_WOTS_BYTES P + TH * N))%nat in
  let idx_leaf := Z.land tree (2 ^ Z.of_nat TH - 1) in
  let tree := Z.shiftr tree (Z.of_nat TH) in
  Some (sig, sp, root, wots_addr, tree_addr, tree, idx_leaf).

(** ref/sign.c:95-158.  [sig] is the caller's buffer; Returns
    (ret, sig, *siglen, remaining random stream). *)
Definition crypto_sign_signature (stream sig m sk : bytes) : option (Z * bytes * Z * bytes) :=
  sk_prf <- rd sk N N ;;
  pk <- rd sk (2 * N) (SPX_PK_BYTES P) ;;
  sk_seed <- rd sk 0 N ;;
  pub_seed <- rd pk 0 N ;;
  let c := mkCtx pub_seed sk_seed (hs_init HS pub_seed) in
  wots_addr <- set_type L zero_addr SPX_ADDR_TYPE_WOTS ;;
  tree_addr <- set_type L zero_addr SPX_ADDR_TYPE_HASHTREE ;;
  ' (optrand, stream) <- randombytes stream N ;;
  R <- hs_gen_message_random HS c sk_prf optrand m ;;
  sig <- wr sig 0 R ;;
  R <- rd sig 0 N ;;
  ' (mhash, tree, idx_leaf) <- hs_hash_message HS c R pk m ;;
  wots_addr <- set_tree_addr L wots_addr tree ;;
  wots_addr <- set_keypair_addr L wots_addr idx_leaf ;;
  fsig <- rd sig N (SPX_FORS_BYTES P) ;;
  ' (fsig, root) <- fors_sign P HS c junk fsig mhash wots_addr ;;
  sig <- wr sig N fsig ;;
  ' (sig, _, _, _, _, _, _) <-
    iterM (p_d P) 0 (sign_layer c)
      (sig, (N + SPX_FORS_BYTES P)%nat, root, wots_addr, tree_addr, tree, idx_leaf) ;;
  Some (0, sig, Z.of_nat (SPX_BYTES P), stream).

(** ref/sign.c:206-232. *)
Definition verify_layer (c : CTX) (sig : bytes) (i : nat)
    (s : nat * bytes * bytes * bytes * bytes * Z * Z)
  : option (nat * bytes * bytes * bytes * bytes * Z * Z) :=
  let '(sp, root, wots_addr, tree_addr, wots_pk_addr, tree, idx_leaf) := s in
  tree_addr <- set_layer_addr L tree_addr (Z.of_nat i) ;;
  tree_addr <- set_tree_addr L tree_addr tree ;;
  wots_addr <- copy_subtree_addr L wots_addr tree_addr ;;
  wots_addr <- set_keypair_addr L wots_addr idx_leaf ;;
  wots_pk_addr <- copy_keypair_addr L wots_pk_addr wots_addr ;;
  wsig <- rd sig sp (SPX_WOTS_BYTES P) ;;
  ' (wots_pk, wots_addr) <- wots_pk_from_sig P HS c junk wsig root wots_addr ;;
  let sp := (sp + SPX_WOTS_BYTES P)%nat in
  leaf <- thash P HS c (SPX_WOTS_LEN P) wots_pk wots_pk_addr ;;
  auth <- rd sig sp (TH * N) ;;
  ' (root, tree_addr) <- compute_root P HS c junk leaf idx_leaf 0 auth TH tree_addr ;;
  let sp := (sp + TH * N)%nat in
  let idx_leaf := Z.land tree (2 ^ Z.of_nat TH - 1) in
  let tree := Z.shiftr tree (Z.of_nat TH) in
  Some (sp, root, wots_addr, tree_addr, wots_pk_addr, tree, idx_leaf).

(** memcmp(a, b, n) != 0. *)
Definition memcmp_differs (a b : bytes) : bool :=
  negb (if list_eq_dec Z.eq_dec a b then true else false).

(** ref/sign.c:163-240.  [siglen] is the caller's claim about [sig].  ctx.sk_seed is never set:
    it holds junk. *)
Definition crypto_sign_verify (sig : bytes) (siglen : Z) (m pk : bytes) : option Z :=
  if negb (siglen =? Z.of_nat (SPX_BYTES P)) then Some (-1) else
  pub_seed <- rd pk 0 N ;;
  let c := mkCtx pub_seed (junk_bytes (junk 10) N) (hs_init HS pub_seed) in
  wots_addr <- set_type L zero_addr SPX_ADDR_TYPE_WOTS ;;
  tree_addr <- set_type L zero_addr SPX_ADDR_TYPE_HASHTREE ;;
  wots_pk_addr <- set_type L zero_addr SPX_ADDR_TYPE_WOTSPK ;;
  R <- rd sig 0 N ;;
  pk2 <- rd pk 0 (SPX_PK_BYTES P) ;;
  ' (mhash, tree, idx_leaf) <- hs_hash_message HS c R pk2 m ;;
  wots_addr <- set_tree_addr L wots_addr tree ;;
  wots_addr <- set_keypair_addr L wots_addr idx_leaf ;;
  fsig <- rd sig N (SPX_FORS_BYTES P) ;;
  root <- fors_pk_from_sig P HS c junk fsig mhash wots_addr ;;
  ' (_, root, _, _, _, _, _) <-
    iterM (p_d P) 0 (verify_layer c sig)
      ((N + SPX_FORS_BYTES P)%nat, root, wots_addr, tree_addr, wots_pk_addr, tree, idx_leaf) ;;
  pub_root <- rd pk N N ;;
  root <- rd root 0 N ;;
  if memcmp_differs root pub_root then Some (-1) else Some 0.

(** ref/sign.c:246-258, disjoint buffers.  [sm] is the caller's buffer.  Returns (ret, sm, *smlen,
    remaining random stream); the return value of crypto_sign_signature is ignored. *)
Definition crypto_sign (stream sm m sk : bytes) : option (Z * bytes * Z * bytes) :=
  sig <- rd sm 0 (SPX_BYTES P) ;;
  ' (_, sig, siglen, stream) <- crypto_sign_signature stream sig m sk ;;
  sm <- wr sm 0 sig ;;
  sm <- wr sm (SPX_BYTES P) m ;;
  Some (0, sm, u64 (siglen + Z.of_nat (length m)), stream).

(** ref/sign.c:263-287, disjoint buffers.  [m] is the caller's buffer.  Returns (ret, m, *mlen). *)
Definition crypto_sign_open (m sm : bytes) (smlen : Z) (pk : bytes) : option (Z * bytes * Z) :=
  if smlen <? Z.of_nat (SPX_BYTES P) then
    m <- wr m 0 (repeat 0 (Z.to_nat smlen)) ;; Some (-1, m, 0)
  else
    let mlen := smlen - Z.of_nat (SPX_BYTES P) in
    sig <- rd sm 0 (SPX_BYTES P) ;;
    msg <- rd sm (SPX_BYTES P) (Z.to_nat mlen) ;;
    r <- crypto_sign_verify sig (Z.of_nat (SPX_BYTES P)) msg pk ;;
    if negb (r =? 0) then
      m <- wr m 0 (repeat 0 (Z.to_nat smlen)) ;; Some (-1, m, 0)
    else
      m <- wr m 0 msg ;; Some (0, m, mlen).
End Sign.

(** A history of calls to crypto_sign_signature with one secret key: each request is the caller's
    signature buffer and a message; call number [i] runs with its own uninitialised memory
    [junks i] and draws from the common random stream. *)
Fixpoint sign_session (P : params) (HS : suite) (junks : nat -> nat -> nat -> Z) (i : nat)
    (sk : bytes) (reqs : list (bytes * bytes)) (stream : bytes)
  : option (list (Z * bytes * Z) * bytes) :=
  match reqs with
  | [] => Some ([], stream)
  | (buf, m) :: reqs' =>
      ' (r, sig, len, stream) <- crypto_sign_signature P HS (junks i) stream buf m sk ;;
      ' (outs, stream) <- sign_session P HS junks (S i) sk reqs' stream ;;
      Some ((r, sig, len) :: outs, stream)
  end.
