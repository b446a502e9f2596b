(** ref/fors.c. *)
From Verif Require Import Base Params Address Suite Utils.

(** ref/fors.c:57-61: [bits] of one index, starting at bit [offset] of the message. *)
Fixpoint message_index (k : nat) (j offset : nat) (idx : Z) (m : bytes) : option Z :=
  match k with
  | O => Some idx
  | S k' =>
      b <- get m (offset / 8) ;;
      let bit := Z.land (Z.shiftr b (Z.of_nat (offset mod 8))) 1 in
      message_index k' (S j) (S offset) (Z.lxor idx (Z.shiftl bit (Z.of_nat j))) m
  end.

(** ref/fors.c:51-63. *)
Fixpoint message_to_indices_loop (height trees offset : nat) (m : bytes) : option (list Z) :=
  match trees with
  | O => Some []
  | S t =>
      i <- message_index height 0 offset 0 m ;;
      rest <- message_to_indices_loop height t (offset + height) m ;;
      Some (i :: rest)
  end.
Definition message_to_indices (P : params) (m : bytes) : option (list Z) :=
  message_to_indices_loop (p_fh P) (p_ft P) 0 m.

Section Fors.
Variable P : params.
Variable HS : suite.
Notation CTX := (ctx (hs_st HS)).
Notation L := (hs_layout HS).
Notation N := (p_n P).
Notation FH := (p_fh P).
Notation FT := (p_ft P).
Variable c : CTX.
Variable junk : nat -> nat -> Z.

(** ref/fors.c:12-16. *)
Definition fors_gen_sk (addr : bytes) : option bytes := prf_addr HS c addr.
(** ref/fors.c:18-23. *)
Definition fors_sk_to_leaf (sk addr : bytes) : option bytes := thash P HS c 1 sk addr.

(** ref/fors.c:29-44; the info is the leaf address. *)
Definition fors_gen_leafx1 (leaf_addr : bytes) (addr_idx : Z) : option (bytes * bytes) :=
  a <- set_tree_index L leaf_addr addr_idx ;;
  a <- set_type L a SPX_ADDR_TYPE_FORSPRF ;;
  leaf <- fors_gen_sk a ;;
  a <- set_type L a SPX_ADDR_TYPE_FORSTREE ;;
  leaf <- fors_sk_to_leaf leaf a ;;
  Some (leaf, a).

(** ref/fors.c:69-113.  [sig] is the caller's buffer (SPX_FORS_BYTES); returns (sig, pk). *)
Definition fors_sign (sig m fors_addr : bytes) : option (bytes * bytes) :=
  tree_addr <- copy_keypair_addr L zero_addr fors_addr ;;
  leaf_addr <- copy_keypair_addr L zero_addr fors_addr ;;
  pk_addr <- copy_keypair_addr L zero_addr fors_addr ;;
  pk_addr <- set_type L pk_addr SPX_ADDR_TYPE_FORSPK ;;
  indices <- message_to_indices P m ;;
  ' (sig, roots, _, _, _) <-
    iterM FT 0 (fun i s =>
      let '(sig, roots, tree_addr, leaf_addr, sp) := s in
      let idx_offset := u32 (Z.of_nat i * 2 ^ Z.of_nat FH) in
      ind <- get indices i ;;
      tree_addr <- set_tree_height L tree_addr 0 ;;
      tree_addr <- set_tree_index L tree_addr (u32 (ind + idx_offset)) ;;
      tree_addr <- set_type L tree_addr SPX_ADDR_TYPE_FORSPRF ;;
      sk <- fors_gen_sk tree_addr ;;
      sig <- wr sig sp sk ;;
      tree_addr <- set_type L tree_addr SPX_ADDR_TYPE_FORSTREE ;;
      let sp := (sp + N)%nat in
      auth <- rd sig sp (N * FH) ;;
      ' (root, auth, tree_addr, leaf_addr) <-
        treehashx1 P HS c junk fors_gen_leafx1 ind idx_offset FH auth tree_addr leaf_addr ;;
      roots <- wr roots (i * N) root ;;
      sig <- wr sig sp auth ;;
      let sp := (sp + N * FH)%nat in
      Some (sig, roots, tree_addr, leaf_addr, sp))
      (sig, junk_bytes (junk 7) (FT * N), tree_addr, leaf_addr, O) ;;
  pk <- thash P HS c FT roots pk_addr ;;
  Some (sig, pk).

(** ref/fors.c:122-161. *)
Definition fors_pk_from_sig (sig m fors_addr : bytes) : option bytes :=
  tree_addr <- copy_keypair_addr L zero_addr fors_addr ;;
  pk_addr <- copy_keypair_addr L zero_addr fors_addr ;;
  tree_addr <- set_type L tree_addr SPX_ADDR_TYPE_FORSTREE ;;
  pk_addr <- set_type L pk_addr SPX_ADDR_TYPE_FORSPK ;;
  indices <- message_to_indices P m ;;
  ' (roots, _, _) <-
    iterM FT 0 (fun i s =>
      let '(roots, tree_addr, sp) := s in
      let idx_offset := u32 (Z.of_nat i * 2 ^ Z.of_nat FH) in
      ind <- get indices i ;;
      tree_addr <- set_tree_height L tree_addr 0 ;;
      tree_addr <- set_tree_index L tree_addr (u32 (ind + idx_offset)) ;;
      sk <- rd sig sp N ;;
      leaf <- fors_sk_to_leaf sk tree_addr ;;
      let sp := (sp + N)%nat in
      auth <- rd sig sp (N * FH) ;;
      ' (root, tree_addr) <- compute_root P HS c junk leaf ind idx_offset auth FH tree_addr ;;
      roots <- wr roots (i * N) root ;;
      let sp := (sp + N * FH)%nat in
      Some (roots, tree_addr, sp)) (junk_bytes (junk 8) (FT * N), tree_addr, O) ;;
  thash P HS c FT roots pk_addr.
End Fors.
