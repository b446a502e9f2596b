(** ref/utils.c and ref/utilsx1.c. *)
From Verif Require Import Base Params Address Suite.

(** ref/utils.c:35-44.  [retval |= in[i] << (8*(inlen-1-i))]; the shift is 64-bit. *)
Fixpoint bytes_to_ull_loop (inp : bytes) (inlen i : nat) (retval : Z) : Z :=
  match inp with
  | [] => retval
  | b :: inp' =>
      bytes_to_ull_loop inp' inlen (S i)
        (Z.lor retval (u64 (Z.shiftl b (8 * (Z.of_nat inlen - 1 - Z.of_nat i)))))
  end.
Definition bytes_to_ull (inp : bytes) : Z := bytes_to_ull_loop inp (length inp) 0 0.

Section Utils.
Variable P : params.
Variable HS : suite.
Notation CTX := (ctx (hs_st HS)).
Notation L := (hs_layout HS).
Notation N := (p_n P).
Variable c : CTX.
(** Contents of uninitialised local memory: an arbitrary function of a program point and an
    offset. *)
Variable junk : nat -> nat -> Z.

(** ** compute_root, ref/utils.c:50-95 *)

(** lines 70-87; the pointer auth_path is the offset [ap] into [auth]. *)
Fixpoint compute_root_loop (k i : nat) (leaf_idx idx_offset : Z) (auth : bytes) (ap : nat)
    (buffer addr : bytes) : option (Z * Z * bytes * bytes) :=
  match k with
  | O => Some (leaf_idx, idx_offset, buffer, addr)
  | S k' =>
      let leaf_idx := Z.shiftr leaf_idx 1 in
      let idx_offset := Z.shiftr idx_offset 1 in
      addr <- set_tree_height L addr (Z.of_nat i + 1) ;;
      addr <- set_tree_index L addr (u32 (leaf_idx + idx_offset)) ;;
      inp <- rd buffer 0 (2 * N) ;;
      h <- thash P HS c 2 inp addr ;;
      a <- rd auth ap N ;;
      buffer <-
        (if Z.odd leaf_idx then b <- wr buffer N h ;; wr b 0 a
         else b <- wr buffer 0 h ;; wr b N a) ;;
      compute_root_loop k' (S i) leaf_idx idx_offset auth (ap + N) buffer addr
  end.

(** Returns the root and the modified address.  [tree_height] = 0 would make the C loop bound
    wrap around and run off the end of auth_path: a precondition, hence the guard. *)
Definition compute_root (leaf : bytes) (leaf_idx idx_offset : Z) (auth : bytes)
    (tree_height : nat) (addr : bytes) : option (bytes * bytes) :=
  _ <- guard (1 <=? tree_height)%nat ;;
  let buffer := junk_bytes (junk 1) (2 * N) in
  l <- rd leaf 0 N ;;
  a <- rd auth 0 N ;;
  buffer <-
    (if Z.odd leaf_idx then b <- wr buffer N l ;; wr b 0 a
     else b <- wr buffer 0 l ;; wr b N a) ;;
  ' (leaf_idx, idx_offset, buffer, addr) <-
    compute_root_loop (tree_height - 1) 0 leaf_idx idx_offset auth N buffer addr ;;
  let leaf_idx := Z.shiftr leaf_idx 1 in
  let idx_offset := Z.shiftr idx_offset 1 in
  addr <- set_tree_height L addr (Z.of_nat tree_height) ;;
  addr <- set_tree_index L addr (u32 (leaf_idx + idx_offset)) ;;
  inp <- rd buffer 0 (2 * N) ;;
  root <- thash P HS c 2 inp addr ;;
  Some (root, addr).

(** ** treehash, ref/utils.c:105-154.  gen_leaf(out, ctx, addr_idx, tree_addr) has no state. *)
Section Treehash.
Variable gen_leaf : Z -> bytes -> option bytes.
Variables leaf_idx idx_offset : Z.

(** lines 131-151: while the two topmost heights are equal. *)
Fixpoint treehash_while (fuel : nat) (idx : Z) (stack : bytes) (heights : list Z) (offset : nat)
    (auth addr : bytes) : option (bytes * list Z * nat * bytes * bytes) :=
  let stop := Some (stack, heights, offset, auth, addr) in
  if (2 <=? offset)%nat then
    h1 <- get heights (offset - 1) ;;
    h2 <- get heights (offset - 2) ;;
    if h1 =? h2 then
      match fuel with
      | O => None
      | S fuel' =>
          let tree_idx := Z.shiftr idx (h1 + 1) in
          addr <- set_tree_height L addr (h1 + 1) ;;
          addr <- set_tree_index L addr (u32 (tree_idx + Z.shiftr idx_offset (h1 + 1))) ;;
          inp <- rd stack ((offset - 2) * N) (2 * N) ;;
          d <- thash P HS c 2 inp addr ;;
          stack <- wr stack ((offset - 2) * N) d ;;
          let offset := (offset - 1)%nat in
          heights <- wr heights (offset - 1) [h2 + 1] ;;
          auth <-
            (if Z.lxor (Z.shiftr leaf_idx (h2 + 1)) 1 =? tree_idx then
               top <- rd stack ((offset - 1) * N) N ;;
               wr auth (Z.to_nat (h2 + 1) * N) top
             else Some auth) ;;
          treehash_while fuel' idx stack heights offset auth addr
      end
    else stop
  else stop.

(** lines 119-152; [k] iterations remain. *)
Fixpoint treehash_for (tree_height k : nat) (idx : Z) (stack : bytes) (heights : list Z)
    (offset : nat) (auth addr : bytes) : option (bytes * bytes * bytes) :=
  match k with
  | O => Some (stack, auth, addr)
  | S k' =>
      lf <- gen_leaf (u32 (idx + idx_offset)) addr ;;
      stack <- wr stack (offset * N) lf ;;
      let offset := S offset in
      heights <- wr heights (offset - 1) [0] ;;
      auth <-
        (if Z.lxor leaf_idx 1 =? idx then
           top <- rd stack ((offset - 1) * N) N ;; wr auth 0 top
         else Some auth) ;;
      ' (stack, heights, offset, auth, addr) <-
        treehash_while (S tree_height) idx stack heights offset auth addr ;;
      treehash_for tree_height k' (idx + 1) stack heights offset auth addr
  end.

(** Returns (root, auth_path, tree_addr). *)
Definition treehash (tree_height : nat) (auth addr : bytes) : option (bytes * bytes * bytes) :=
  let stack := junk_bytes (junk 2) ((tree_height + 1) * N) in
  let heights := junk_bytes (junk 3) (tree_height + 1) in
  ' (stack, auth, addr) <-
    treehash_for tree_height (Nat.pow 2 tree_height) 0 stack heights 0 auth addr ;;
  root <- rd stack 0 N ;;
  Some (root, auth, addr).
End Treehash.

(** ** treehashx1, ref/utilsx1.c:23-100.  gen_leaf(out, ctx, idx, info) reads and writes the
    memory reachable from [info], of type [G]. *)
Section Treehashx1.
Context {G : Type}.
Variable gen_leaf : G -> Z -> option (bytes * G).
Variables leaf_idx idx_offset : Z.

(** Outcome of the inner loop, lines 52-94: the root was reached (return, line 58), or a left
    child was found at height h (break, line 78). *)
Inductive climb_out :=
| Root (root auth addr : bytes)
| Left (h : nat) (node auth addr : bytes).

(** lines 52-94.  [todo] = tree_height - h; [cur] is current[SPX_N .. 2*SPX_N-1]. *)
Fixpoint treehashx1_climb (todo h : nat) (internal_idx internal_leaf internal_off idx max_idx : Z)
    (cur stack auth addr : bytes) : option climb_out :=
  match todo with
  | O => Some (Root cur auth addr)
  | S todo' =>
      auth <- (if Z.lxor internal_idx internal_leaf =? 1 then wr auth (h * N) cur
               else Some auth) ;;
      if (Z.land internal_idx 1 =? 0) && (idx <? max_idx) then Some (Left h cur auth addr)
      else
        let internal_off := Z.shiftr internal_off 1 in
        addr <- set_tree_height L addr (Z.of_nat h + 1) ;;
        addr <- set_tree_index L addr (u32 (internal_idx / 2 + internal_off)) ;;
        left <- rd stack (h * N) N ;;
        cur <- thash P HS c 2 (left ++ cur) addr ;;
        treehashx1_climb todo' (S h) (Z.shiftr internal_idx 1) (Z.shiftr internal_leaf 1)
          internal_off idx max_idx cur stack auth addr
  end.

(** lines 39-99; the for loop has no exit test, so fuel is needed: running out is [None]. *)
Fixpoint treehashx1_loop (fuel tree_height : nat) (idx max_idx : Z) (stack auth addr : bytes)
    (g : G) : option (bytes * bytes * bytes * G) :=
  match fuel with
  | O => None
  | S fuel' =>
      ' (lf, g) <- gen_leaf g (u32 (idx + idx_offset)) ;;
      cur <- rd lf 0 N ;;
      r <- treehashx1_climb tree_height 0 idx leaf_idx idx_offset idx max_idx cur stack auth addr ;;
      match r with
      | Root root auth addr => Some (root, auth, addr, g)
      | Left h node auth addr =>
          stack <- wr stack (h * N) node ;;
          treehashx1_loop fuel' tree_height (idx + 1) max_idx stack auth addr g
      end
  end.

(** Returns (root, auth_path, tree_addr, *info). *)
Definition treehashx1 (tree_height : nat) (auth addr : bytes) (g : G)
  : option (bytes * bytes * bytes * G) :=
  let stack := junk_bytes (junk 4) (tree_height * N) in
  treehashx1_loop (Nat.pow 2 tree_height) tree_height 0 (2 ^ Z.of_nat tree_height - 1)
    stack auth addr g.
End Treehashx1.
End Utils.
