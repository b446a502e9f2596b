(** treehash of ref/utils.c:105-154 in the typed expressions of CInt.v.  Nothing in the repository calls it. *)
From Verif Require Import Base Params Address Suite Utils CInt CCore.
Local Open Scope Z_scope.

Section TreehashC.
Variable P : params.
Variable HS : suite.
Variable c : ctx (hs_st HS).
Variable junk : nat -> nat -> Z.
Notation N := (p_n P).
Notation L := (hs_layout HS).
(** gen_leaf(out, ctx, addr_idx, tree_addr) *)
Variable gen_leaf : Z -> bytes -> option bytes.
Variables leaf_idx idx_offset tree_height : Z.
Local Open Scope c_scope.

(** lines 131-151; heights has elements of type unsigned int.  As many rounds as the model allows. *)
Fixpoint treehash_while_c (fuel : nat) (idx : Z) (stack : bytes) (heights : list Z) (offset : Z)
    (auth addr : bytes) : option (bytes * list Z * Z * bytes * bytes) :=
  b1 <- cond (V U32 offset >= K 2) ;;
  b2 <- (if b1 : bool then
           i1 <- ix (V U32 offset - K 1) ;; h1 <- get heights i1 ;;
           i2 <- ix (V U32 offset - K 2) ;; h2 <- get heights i2 ;;
           cond (V U32 h1 == V U32 h2)
         else Some false) ;;
  if b2 : bool then
    match fuel with
    | O => None
    | S fuel' =>
        (** line 133 *)
        i <- ix (V U32 offset - K 1) ;; h <- get heights i ;;
        tree_idx <- asg U32 (V U32 idx >> (V U32 h + K 1)) ;;
        (** lines 136-138 *)
        addr <- set_tree_height_c L addr (V U32 h + K 1) ;;
        addr <- set_tree_index_c L addr (V U32 tree_idx + (V U32 idx_offset >> (V U32 h + K 1))) ;;
        (** lines 140-141 *)
        o <- ix ((V U32 offset - K 2) * xN P) ;;
        inp <- rd stack o (2 * N) ;;
        d <- thash P HS c 2 inp addr ;;
        stack <- wr stack o d ;;
        (** lines 142-144 *)
        offset <- asg U32 (V U32 offset - K 1) ;;
        i <- ix (V U32 offset - K 1) ;; h <- get heights i ;;
        h' <- asg U32 (V U32 h + K 1) ;;
        heights <- wr heights i [h'] ;;
        (** lines 147-150 *)
        h <- get heights i ;;
        b <- cond (((V U32 leaf_idx >> V U32 h) .^ K 1) == V U32 tree_idx) ;;
        auth <-
          (if b : bool then
             s <- ix ((V U32 offset - K 1) * xN P) ;; top <- rd stack s N ;;
             o <- ix (V U32 h * xN P) ;; wr auth o top
           else Some auth) ;;
        treehash_while_c fuel' idx stack heights offset auth addr
    end
  else Some (stack, heights, offset, auth, addr).

(** lines 119-152 *)
Definition treehash_for_c (fuel : nat) (idx : Z) (s : bytes * list Z * Z * bytes * bytes) :=
  cfor fuel U32 idx (Cast U32 (K 1 << V U32 tree_height)) (fun idx s =>
    let '(stack, heights, offset, auth, addr) := s in
    o <- ix (V U32 offset * xN P) ;;
    a <- asg U32 (V U32 idx + V U32 idx_offset) ;;
    lf <- gen_leaf a addr ;;
    stack <- wr stack o lf ;;
    offset <- asg U32 (V U32 offset + K 1) ;;
    i <- ix (V U32 offset - K 1) ;;
    heights <- wr heights i [0%Z] ;;
    b <- cond ((V U32 leaf_idx .^ K 1) == V U32 idx) ;;
    auth <-
      (if b : bool then
         o <- ix ((V U32 offset - K 1) * xN P) ;; top <- rd stack o N ;; wr auth 0 top
       else Some auth) ;;
    treehash_while_c (S (Z.to_nat tree_height)) idx stack heights offset auth addr) s.
End TreehashC.

(** lines 105-118 and 153 *)
Definition treehash_c (P : params) (HS : suite) (c : ctx (hs_st HS)) (junk : nat -> nat -> Z) (gen_leaf : Z -> bytes -> option bytes)
    (leaf_idx idx_offset tree_height : cexp) (auth addr : bytes) : option (bytes * bytes * bytes) :=
  leaf_idx <- asg U32 leaf_idx ;;
  idx_offset <- asg U32 idx_offset ;;
  tree_height <- asg U32 tree_height ;;
  n <- ix ((V U32 tree_height + K 1) * xN P)%C ;;
  k <- ix (V U32 tree_height + K 1)%C ;;
  ' (stack, _, _, auth, addr) <-
    treehash_for_c P HS c gen_leaf leaf_idx idx_offset tree_height (S (Nat.pow 2 (Z.to_nat tree_height))) 0
      (junk_bytes (junk 2%nat) n, junk_bytes (junk 3%nat) k, 0, auth, addr) ;;
  root <- rd stack 0 (p_n P) ;;
  Some (root, auth, addr).
