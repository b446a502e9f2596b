(** ref/merkle.c. *)
From Verif Require Import Base Params Address Suite Utils Wots.

Section Merkle.
Variable P : params.
Variable HS : suite.
Notation CTX := (ctx (hs_st HS)).
Notation L := (hs_layout HS).
Notation N := (p_n P).
Notation TH := (SPX_TREE_HEIGHT P).
Variable c : CTX.
Variable junk : nat -> nat -> Z.

(** ref/merkle.c:18-43.  [sig] is SPX_WOTS_BYTES + TREE_HEIGHT*N bytes, [root] is N bytes and is
    both input (the message) and output.  Returns (sig, root, tree_addr). *)
Definition merkle_sign (sig root wots_addr tree_addr : bytes) (idx_leaf : Z)
  : option (bytes * bytes * bytes) :=
  wots_sig <- rd sig 0 (SPX_WOTS_BYTES P) ;;
  auth <- rd sig (SPX_WOTS_BYTES P) (TH * N) ;;
  steps <- chain_lengths P root ;;
  tree_addr <- set_type L tree_addr SPX_ADDR_TYPE_HASHTREE ;;
  pk_addr <- set_type L zero_addr SPX_ADDR_TYPE_WOTSPK ;;
  leaf_addr <- copy_subtree_addr L zero_addr wots_addr ;;
  pk_addr <- copy_subtree_addr L pk_addr wots_addr ;;
  let info := mkInfo wots_sig idx_leaf steps leaf_addr pk_addr in
  ' (root, auth, tree_addr, info) <-
    treehashx1 P HS c junk (wots_gen_leafx1 P HS c junk) idx_leaf 0 TH auth tree_addr info ;;
  sig <- wr sig 0 (wi_sig info) ;;
  sig <- wr sig (SPX_WOTS_BYTES P) auth ;;
  Some (sig, root, tree_addr).

(** ref/merkle.c:46-61.  [root] is the caller's (possibly uninitialised) output buffer: it is
    read by chain_lengths before being written. *)
Definition merkle_gen_root (root : bytes) : option bytes :=
  let auth_path := junk_bytes (junk 9) (TH * N + SPX_WOTS_BYTES P) in
  top_tree_addr <- set_layer_addr L zero_addr (Z.of_nat (p_d P) - 1) ;;
  wots_addr <- set_layer_addr L zero_addr (Z.of_nat (p_d P) - 1) ;;
  ' (_, root, _) <- merkle_sign auth_path root wots_addr top_tree_addr (2 ^ 32 - 1) ;;
  Some root.
End Merkle.
