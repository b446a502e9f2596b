(** The integer code of ref/{address,utils,utilsx1,wots,wotsx1,fors,merkle,sign}.c and of hash_message, with every integer
    expression written as in the C text (CInt.v) and every variable of its declared type.  Pointers are offsets; the calls of
    thash, prf_addr and the other hash functions, and memcpy, are those of the model.  Suffix _c: the C-typed version. *)
From Verif Require Import Base Params Address Suite Utils Wots Fors Merkle Sign CInt.
Local Open Scope Z_scope.

(** [for (i = ...; i < bound; i++) body], i of type t.  Out of fuel: [None]. *)
Fixpoint cfor {S : Type} (fuel : nat) (t : cty) (i : Z) (bound : cexp) (body : Z -> S -> option S) (s : S) : option S :=
  match fuel with
  | O => None
  | Datatypes.S fuel' =>
      b <- cond (V t i < bound) ;;
      if b : bool then
        s <- body i s ;;
        i <- asg t (V t i + K 1) ;;
        cfor fuel' t i bound body s
      else Some s
  end.

(** ** The macros, all of type int: params-sphincs-sha2-128f.h:38-81, hash_shake.c:63-67, api.h:14. *)
Section Macros.
Variable P : params.
(** #define SPX_N 16 (line 7), and so on *)
Definition xN : cexp := K (Z.of_nat (p_n P)).
Definition xFULL_HEIGHT : cexp := K (Z.of_nat (p_full P)).
Definition xD : cexp := K (Z.of_nat (p_d P)).
Definition xFORS_HEIGHT : cexp := K (Z.of_nat (p_fh P)).
Definition xFORS_TREES : cexp := K (Z.of_nat (p_ft P)).
Definition xW : cexp := K (SPX_WOTS_W P).
Definition xLOGW : cexp := K (Z.of_nat (p_logw P)).
Definition xLEN2 : cexp := K (Z.of_nat (SPX_WOTS_LEN2 P)).
Local Open Scope c_scope.
Definition xLEN1 : cexp := K 8 * xN / xLOGW.
Definition xLEN : cexp := xLEN1 + xLEN2.
Definition xWOTS_BYTES : cexp := xLEN * xN.
Definition xTREE_HEIGHT : cexp := xFULL_HEIGHT / xD.
Definition xFORS_MSG_BYTES : cexp := (xFORS_HEIGHT * xFORS_TREES + K 7) / K 8.
Definition xFORS_BYTES : cexp := (xFORS_HEIGHT + K 1) * xFORS_TREES * xN.
Definition xBYTES : cexp := xN + xFORS_BYTES + xD * xWOTS_BYTES + xFULL_HEIGHT * xN.
Definition xPK_BYTES : cexp := K 2 * xN.
Definition xSK_BYTES : cexp := K 2 * xN + xPK_BYTES.
Definition xSEEDBYTES : cexp := K 3 * xN.
Definition xTREE_BITS : cexp := xTREE_HEIGHT * (xD - K 1).
Definition xTREE_BYTES : cexp := (xTREE_BITS + K 7) / K 8.
Definition xLEAF_BITS : cexp := xTREE_HEIGHT.
Definition xLEAF_BYTES : cexp := (xLEAF_BITS + K 7) / K 8.
Definition xDGST_BYTES : cexp := xFORS_MSG_BYTES + xTREE_BYTES + xLEAF_BYTES.
(** wots.c:71 *)
Definition xCSUM_BYTES : cexp := (xLEN2 * xLOGW + K 7) / K 8.
End Macros.

(** ** ref/utils.c:12-44 *)
(** lines 15-21: the loop, i counting down *)
Fixpoint ull_loop_c (fuel : nat) (i inp : Z) (out : bytes) : option bytes :=
  match fuel with
  | O => None
  | S fuel' =>
      b <- cond (V I32 i >= K 0) ;;
      if b : bool then
        j <- ix (V I32 i) ;;
        v <- asg U8 (V U64 inp .& K 255) ;;
        out <- wr out j [v] ;;
        inp <- asg U64 (V U64 inp >> K 8) ;;
        i <- asg I32 (V I32 i - K 1) ;;
        ull_loop_c fuel' i inp out
      else Some out
  end.
(** lines 12-22; out points to [out] *)
Definition ull_to_bytes_c (out : bytes) (outlen inp : Z) : option bytes :=
  i <- asg I32 (Cast I32 (V U32 outlen) - K 1) ;;
  ull_loop_c (S (Z.to_nat outlen)) i inp out.
(** lines 24-30: the four bytes *)
Definition u32_to_bytes_c (inp : Z) : option bytes :=
  a <- asg U8 (Cast U8 (V U32 inp >> K 24)) ;;
  b <- asg U8 (Cast U8 (V U32 inp >> K 16)) ;;
  c <- asg U8 (Cast U8 (V U32 inp >> K 8)) ;;
  d <- asg U8 (Cast U8 (V U32 inp)) ;;
  Some [a; b; c; d].
(** lines 35-44 *)
Definition bytes_to_ull_c (inp : bytes) (inlen : Z) : option Z :=
  cfor (S (Z.to_nat inlen)) U32 0 (V U32 inlen) (fun i retval =>
    j <- ix (V U32 i) ;;
    x <- get inp j ;;
    asg U64 (V U64 retval .| (Cast U64 (B x) << K 8 * (V U32 inlen - K 1 - V U32 i)))) 0.

(** ** ref/address.c; the parameters are uint32_t, tree is uint64_t *)
Section AddressC.
Variable L : layout.
Definition set_byte_c (addr : bytes) (off : nat) (z : Z) : option bytes :=
  b <- asg U8 (Cast U8 (V U32 z)) ;; wr addr off [b].
(** lines 11-14, 33-36, 72-75, 81-84, 92-95 *)
Definition set_layer_addr_c (addr : bytes) (layer : cexp) : option bytes :=
  z <- asg U32 layer ;; set_byte_c addr (SPX_OFFSET_LAYER L) z.
Definition set_type_c (addr : bytes) (type : cexp) : option bytes :=
  z <- asg U32 type ;; set_byte_c addr (SPX_OFFSET_TYPE L) z.
Definition set_chain_addr_c (addr : bytes) (chain : cexp) : option bytes :=
  z <- asg U32 chain ;; set_byte_c addr (SPX_OFFSET_CHAIN_ADDR L) z.
Definition set_hash_addr_c (addr : bytes) (hash : cexp) : option bytes :=
  z <- asg U32 hash ;; set_byte_c addr (SPX_OFFSET_HASH_ADDR L) z.
Definition set_tree_height_c (addr : bytes) (tree_height : cexp) : option bytes :=
  z <- asg U32 tree_height ;; set_byte_c addr (SPX_OFFSET_TREE_HGT L) z.
(** lines 53-56, 101-104 *)
Definition set_keypair_addr_c (addr : bytes) (keypair : cexp) : option bytes :=
  z <- asg U32 keypair ;; b <- u32_to_bytes_c z ;; wr addr (SPX_OFFSET_KP_ADDR L) b.
Definition set_tree_index_c (addr : bytes) (tree_index : cexp) : option bytes :=
  z <- asg U32 tree_index ;; b <- u32_to_bytes_c z ;; wr addr (SPX_OFFSET_TREE_INDEX L) b.
(** lines 19-25 *)
Definition set_tree_addr_c (addr : bytes) (tree : cexp) : option bytes :=
  z <- asg U64 tree ;;
  l <- asg U32 (K 8) ;;
  o <- rd addr (SPX_OFFSET_TREE L) 8 ;; o <- ull_to_bytes_c o l z ;; wr addr (SPX_OFFSET_TREE L) o.
(** line 44: SPX_OFFSET_TREE+8, a size_t; lines 62-66 *)
Definition copy_subtree_addr_c (out inp : bytes) : option bytes :=
  n <- ix (K (Z.of_nat (SPX_OFFSET_TREE L)) + K 8) ;; d <- rd inp 0 n ;; wr out 0 d.
Definition copy_keypair_addr_c (out inp : bytes) : option bytes :=
  n <- ix (K (Z.of_nat (SPX_OFFSET_TREE L)) + K 8) ;;
  d <- rd inp 0 n ;;
  out' <- wr out 0 d ;;
  k <- rd inp (SPX_OFFSET_KP_ADDR L) 4 ;;
  wr out' (SPX_OFFSET_KP_ADDR L) k.
End AddressC.

(** ** ref/wots.c, ref/wotsx1.c *)
Section WotsDigitsC.
Variable P : params.
(** lines 45-64 ([output] as the list of the values assigned, [out] its index) *)
Fixpoint base_w_loop_c (fuel : nat) (out_len consumed : Z) (inp : bytes) (i out : Z) (total : option Z) (bits : Z)
  : option (list Z) :=
  match fuel with
  | O => None
  | S fuel' =>
      b <- cond (V I32 consumed < V I32 out_len) ;;
      if b : bool then
        z <- cond (V I32 bits == K 0) ;;
        ' (i, total, bits) <-
          (if z : bool then
             j <- ix (V I32 i) ;;
             x <- get inp j ;;
             t <- asg U8 (B x) ;;
             i <- asg I32 (V I32 i + K 1) ;;
             bits <- asg I32 (V I32 bits + K 8) ;;
             Some (i, Some t, bits)
           else Some (i, total, bits)) ;;
        bits <- asg I32 (V I32 bits - xLOGW P) ;;
        t <- total ;;
        _ <- ix (V I32 out) ;;
        d <- asg U32 ((V U8 t >> V I32 bits) .& (xW P - K 1)) ;;
        out <- asg I32 (V I32 out + K 1) ;;
        consumed <- asg I32 (V I32 consumed + K 1) ;;
        rest <- base_w_loop_c fuel' out_len consumed inp i out total bits ;;
        Some (d :: rest)
      else Some []
  end.
Definition base_w_c (out_len : cexp) (inp : bytes) : option (list Z) :=
  n <- asg I32 out_len ;;
  base_w_loop_c (S (Z.to_nat n)) n 0 inp 0 0 None 0.
(** lines 67-84 *)
Definition wots_checksum_c (junk : nat -> Z) (msg_base_w : list Z) : option (list Z) :=
  csum <- cfor (S (SPX_WOTS_LEN1 P)) U32 0 (xLEN1 P) (fun i csum =>
    j <- ix (V U32 i) ;;
    d <- get msg_base_w j ;;
    asg U32 (V U32 csum + (xW P - K 1 - V U32 d))) 0 ;;
  csum <- asg U32 (V U32 csum << ((K 8 - ((xLEN2 P * xLOGW P) %% K 8)) %% K 8)) ;;
  n <- ix (xCSUM_BYTES P) ;;
  l <- asg U32 (Cast U64 (xCSUM_BYTES P)) ;;
  z <- asg U64 (V U32 csum) ;;
  b <- ull_to_bytes_c (junk_bytes junk n) l z ;;
  base_w_c (xLEN2 P) b.
(** lines 87-91 *)
Definition chain_lengths_c (junk : nat -> Z) (msg : bytes) : option (list Z) :=
  l1 <- base_w_c (xLEN1 P) msg ;;
  l2 <- wots_checksum_c junk l1 ;;
  Some (l1 ++ l2).
End WotsDigitsC.

Section CoreC.
Variable P : params.
Variable HS : suite.
Notation CTX := (ctx (hs_st HS)).
Notation L := (hs_layout HS).
Notation N := (p_n P).
Variable c : CTX.
Variable junk : nat -> nat -> Z.

(** wots.c:34-37; i is uint32_t, start and steps unsigned int *)
Fixpoint gen_chain_loop_c (fuel : nat) (i start steps : Z) (out addr : bytes) : option (bytes * bytes) :=
  b1 <- cond (V U32 i < V U32 start + V U32 steps) ;;
  b2 <- (if b1 : bool then cond (V U32 i < xW P) else Some false) ;;
  if b2 : bool then
    match fuel with
    | O => None
    | S fuel' =>
        addr <- set_hash_addr_c L addr (V U32 i) ;;
        out <- thash P HS c 1 out addr ;;
        i <- asg U32 (V U32 i + K 1) ;;
        gen_chain_loop_c fuel' i start steps out addr
    end
  else Some (out, addr).
(** wots.c:24-38 *)
Definition gen_chain_c (inp : bytes) (start steps : cexp) (addr : bytes) : option (bytes * bytes) :=
  start <- asg U32 start ;;
  steps <- asg U32 steps ;;
  out <- rd inp 0 N ;;
  i <- asg U32 (V U32 start) ;;
  gen_chain_loop_c (Z.to_nat (SPX_WOTS_W P)) i start steps out addr.
(** wots.c:98-112 *)
Definition wots_pk_from_sig_c (sig msg addr : bytes) : option (bytes * bytes) :=
  lengths <- chain_lengths_c P (junk 20) msg ;;
  cfor (S (SPX_WOTS_LEN P)) U32 0 (xLEN P) (fun i s =>
    let '(pk, addr) := s in
    addr <- set_chain_addr_c L addr (V U32 i) ;;
    j <- ix (V U32 i) ;;
    l <- get lengths j ;;
    o <- ix (V U32 i * xN P) ;;
    x <- rd sig o N ;;
    ' (x, addr) <- gen_chain_c x (V U32 l) (xW P - K 1 - V U32 l) addr ;;
    pk <- wr pk o x ;;
    Some (pk, addr)) (junk_bytes (junk 5) (SPX_WOTS_BYTES P), addr).

(** wotsx1.c:54-68 *)
Fixpoint wots_leaf_chain_c (fuel : nat) (i k wots_k : Z) (buf sig addr : bytes) : option (bytes * bytes * bytes) :=
  match fuel with
  | O => None
  | S fuel' =>
      b <- cond (V U32 k == V U32 wots_k) ;;
      sig <- (if b : bool then o <- ix (V U32 i * xN P) ;; wr sig o buf else Some sig) ;;
      b <- cond (V U32 k == xW P - K 1) ;;
      if b : bool then Some (buf, sig, addr)
      else
        addr <- set_hash_addr_c L addr (V U32 k) ;;
        buf <- thash P HS c 1 buf addr ;;
        k <- asg U32 (V U32 k + K 1) ;;
        wots_leaf_chain_c fuel' i k wots_k buf sig addr
  end.
(** wotsx1.c:17-73; [buffer += SPX_N] (line 43) is the offset [bo] *)
Definition wots_gen_leafx1_c (info : leaf_info) (leaf_idx : Z) : option (bytes * leaf_info) :=
  b <- cond (V U32 leaf_idx == V U32 (wi_sign_leaf info)) ;;
  mask <- (if b : bool then asg U32 (K 0) else asg U32 (Cast U32 (Not (K 0)))) ;;
  leaf_addr <- set_keypair_addr_c L (wi_leaf_addr info) (V U32 leaf_idx) ;;
  pk_addr <- set_keypair_addr_c L (wi_pk_addr info) (V U32 leaf_idx) ;;
  ' (pk_buffer, _, sig, leaf_addr) <-
    cfor (S (SPX_WOTS_LEN P)) U32 0 (xLEN P) (fun i s =>
      let '(pk_buffer, bo, sig, addr) := s in
      j <- ix (V U32 i) ;;
      step <- get (wi_steps info) j ;;
      wots_k <- asg U32 (V U32 step .| V U32 mask) ;;
      addr <- set_chain_addr_c L addr (V U32 i) ;;
      addr <- set_hash_addr_c L addr (K 0) ;;
      addr <- set_type_c L addr (K SPX_ADDR_TYPE_WOTSPRF) ;;
      buf <- prf_addr HS c addr ;;
      addr <- set_type_c L addr (K SPX_ADDR_TYPE_WOTS) ;;
      ' (buf, sig, addr) <- wots_leaf_chain_c (Z.to_nat (SPX_WOTS_W P)) i 0 wots_k buf sig addr ;;
      pk_buffer <- wr pk_buffer bo buf ;;
      Some (pk_buffer, (bo + N)%nat, sig, addr))
      (junk_bytes (junk 6) (SPX_WOTS_BYTES P), 0%nat, wi_sig info, leaf_addr) ;;
  n <- ix (xLEN P) ;;
  dest <- thash P HS c n pk_buffer pk_addr ;;
  Some (dest, mkInfo sig (wi_sign_leaf info) (wi_steps info) leaf_addr pk_addr).

(** ** compute_root, ref/utils.c:50-95 *)
Definition compute_root_c (leaf : bytes) (leaf_idx idx_offset : cexp) (auth : bytes) (tree_height : cexp) (addr : bytes)
  : option (bytes * bytes) :=
  leaf_idx <- asg U32 leaf_idx ;;
  idx_offset <- asg U32 idx_offset ;;
  tree_height <- asg U32 tree_height ;;
  let buffer := junk_bytes (junk 1) (2 * N) in
  b <- cond (V U32 leaf_idx .& K 1) ;;
  l <- rd leaf 0 N ;;
  a <- rd auth 0 N ;;
  buffer <-
    (if b : bool then b <- wr buffer N l ;; wr b 0 a
     else b <- wr buffer 0 l ;; wr b N a) ;;
  ' (leaf_idx, idx_offset, ap, buffer, addr) <-
    cfor (S (Z.to_nat tree_height)) U32 0 (V U32 tree_height - K 1) (fun i s =>
      let '(leaf_idx, idx_offset, ap, buffer, addr) := s in
      leaf_idx <- asg U32 (V U32 leaf_idx >> K 1) ;;
      idx_offset <- asg U32 (V U32 idx_offset >> K 1) ;;
      addr <- set_tree_height_c L addr (V U32 i + K 1) ;;
      addr <- set_tree_index_c L addr (V U32 leaf_idx + V U32 idx_offset) ;;
      b <- cond (V U32 leaf_idx .& K 1) ;;
      inp <- rd buffer 0 (2 * N) ;;
      h <- thash P HS c 2 inp addr ;;
      a <- rd auth ap N ;;
      buffer <-
        (if b : bool then b <- wr buffer N h ;; wr b 0 a
         else b <- wr buffer 0 h ;; wr b N a) ;;
      Some (leaf_idx, idx_offset, (ap + N)%nat, buffer, addr)) (leaf_idx, idx_offset, N, buffer, addr) ;;
  leaf_idx <- asg U32 (V U32 leaf_idx >> K 1) ;;
  idx_offset <- asg U32 (V U32 idx_offset >> K 1) ;;
  addr <- set_tree_height_c L addr (V U32 tree_height) ;;
  addr <- set_tree_index_c L addr (V U32 leaf_idx + V U32 idx_offset) ;;
  inp <- rd buffer 0 (2 * N) ;;
  root <- thash P HS c 2 inp addr ;;
  Some (root, addr).

(** ** treehashx1, ref/utilsx1.c:23-100 *)
Section TreehashC.
Context {G : Type}.
Variable gen_leaf : G -> Z -> option (bytes * G).
Variables leaf_idx idx_offset tree_height : Z.

(** lines 52-94 *)
Fixpoint climb_c (fuel : nat) (h internal_idx internal_leaf internal_off idx max_idx : Z) (cur stack auth addr : bytes)
  : option climb_out :=
  match fuel with
  | O => None
  | S fuel' =>
      top <- cond (V U32 h == V U32 tree_height) ;;
      if top : bool then Some (Root cur auth addr) else
      b <- cond ((V U32 internal_idx .^ V U32 internal_leaf) == K 1) ;;
      auth <- (if b : bool then o <- ix (V U32 h * xN P) ;; wr auth o cur else Some auth) ;;
      b1 <- cond ((V U32 internal_idx .& K 1) == K 0) ;;
      b2 <- (if b1 : bool then cond (V U32 idx < V U32 max_idx) else Some false) ;;
      if b2 : bool then hn <- ix (V U32 h) ;; Some (Left hn cur auth addr)
      else
        internal_off <- asg U32 (V U32 internal_off >> K 1) ;;
        addr <- set_tree_height_c L addr (V U32 h + K 1) ;;
        addr <- set_tree_index_c L addr (V U32 internal_idx / K 2 + V U32 internal_off) ;;
        o <- ix (V U32 h * xN P) ;;
        left <- rd stack o N ;;
        cur <- thash P HS c 2 (left ++ cur) addr ;;
        h <- asg U32 (V U32 h + K 1) ;;
        internal_idx <- asg U32 (V U32 internal_idx >> K 1) ;;
        internal_leaf <- asg U32 (V U32 internal_leaf >> K 1) ;;
        climb_c fuel' h internal_idx internal_leaf internal_off idx max_idx cur stack auth addr
  end.

(** lines 39-99 *)
Fixpoint treehashx1_loop_c (fuel : nat) (idx max_idx : Z) (stack auth addr : bytes) (g : G)
  : option (bytes * bytes * bytes * G) :=
  match fuel with
  | O => None
  | S fuel' =>
      a <- asg U32 (V U32 idx + V U32 idx_offset) ;;
      ' (lf, g) <- gen_leaf g a ;;
      cur <- rd lf 0 N ;;
      r <- climb_c (S (Z.to_nat tree_height)) 0 idx leaf_idx idx_offset idx max_idx cur stack auth addr ;;
      match r with
      | Root root auth addr => Some (root, auth, addr, g)
      | Left h node auth addr =>
          o <- ix (V U32 (Z.of_nat h) * xN P) ;;
          stack <- wr stack o node ;;
          idx <- asg U32 (V U32 idx + K 1) ;;
          treehashx1_loop_c fuel' idx max_idx stack auth addr g
      end
  end.
End TreehashC.

(** lines 23-38 *)
Definition treehashx1_c {G : Type} (gen_leaf : G -> Z -> option (bytes * G)) (leaf_idx idx_offset tree_height : cexp)
    (auth addr : bytes) (g : G) : option (bytes * bytes * bytes * G) :=
  leaf_idx <- asg U32 leaf_idx ;;
  idx_offset <- asg U32 idx_offset ;;
  tree_height <- asg U32 tree_height ;;
  n <- ix (V U32 tree_height * xN P) ;;
  max_idx <- asg U32 (Cast U32 ((K 1 << V U32 tree_height) - K 1)) ;;
  treehashx1_loop_c gen_leaf leaf_idx idx_offset tree_height (Nat.pow 2 (Z.to_nat tree_height)) 0 max_idx
    (junk_bytes (junk 4) n) auth addr g.

(** ** ref/fors.c *)
(** lines 51-63; indices[i] is the running value [idx] *)
Definition message_index_c (m : bytes) (offset : Z) : option (Z * Z) :=
  cfor (S (p_fh P)) U32 0 (xFORS_HEIGHT P) (fun j s =>
    let '(idx, offset) := s in
    o <- ix (V U32 offset >> K 3) ;;
    b <- get m o ;;
    idx <- asg U32 (V U32 idx .^ (((B b >> (V U32 offset .& K 7)) .& V U32 1) << V U32 j)) ;;
    offset <- asg U32 (V U32 offset + K 1) ;;
    Some (idx, offset)) (0, offset).
Definition message_to_indices_c (m : bytes) : option (list Z) :=
  ' (l, _) <-
    cfor (S (p_ft P)) U32 0 (xFORS_TREES P) (fun i s =>
      let '(l, offset) := s in
      _ <- ix (V U32 i) ;;
      ' (idx, offset) <- message_index_c m offset ;;
      Some (l ++ [idx], offset)) ([], 0) ;;
  Some l.
(** lines 29-44 *)
Definition fors_gen_leafx1_c (leaf_addr : bytes) (addr_idx : Z) : option (bytes * bytes) :=
  a <- set_tree_index_c L leaf_addr (V U32 addr_idx) ;;
  a <- set_type_c L a (K SPX_ADDR_TYPE_FORSPRF) ;;
  leaf <- fors_gen_sk HS c a ;;
  a <- set_type_c L a (K SPX_ADDR_TYPE_FORSTREE) ;;
  leaf <- fors_sk_to_leaf P HS c leaf a ;;
  Some (leaf, a).
(** lines 69-113 *)
Definition fors_sign_c (sig m fors_addr : bytes) : option (bytes * bytes) :=
  tree_addr <- copy_keypair_addr_c L zero_addr fors_addr ;;
  leaf_addr <- copy_keypair_addr_c L zero_addr fors_addr ;;
  pk_addr <- copy_keypair_addr_c L zero_addr fors_addr ;;
  pk_addr <- set_type_c L pk_addr (K SPX_ADDR_TYPE_FORSPK) ;;
  indices <- message_to_indices_c m ;;
  ' (sig, roots, _, _, _) <-
    cfor (S (p_ft P)) U32 0 (xFORS_TREES P) (fun i s =>
      let '(sig, roots, tree_addr, leaf_addr, sp) := s in
      idx_offset <- asg U32 (V U32 i * (K 1 << xFORS_HEIGHT P)) ;;
      j <- ix (V U32 i) ;;
      ind <- get indices j ;;
      tree_addr <- set_tree_height_c L tree_addr (K 0) ;;
      tree_addr <- set_tree_index_c L tree_addr (V U32 ind + V U32 idx_offset) ;;
      tree_addr <- set_type_c L tree_addr (K SPX_ADDR_TYPE_FORSPRF) ;;
      sk <- fors_gen_sk HS c tree_addr ;;
      sig <- wr sig sp sk ;;
      tree_addr <- set_type_c L tree_addr (K SPX_ADDR_TYPE_FORSTREE) ;;
      let sp := (sp + N)%nat in
      o <- ix (V U32 i * xN P) ;;
      n <- ix (xN P * xFORS_HEIGHT P) ;;
      auth <- rd sig sp n ;;
      ' (root, auth, tree_addr, leaf_addr) <-
        treehashx1_c fors_gen_leafx1_c (V U32 ind) (V U32 idx_offset) (xFORS_HEIGHT P) auth tree_addr leaf_addr ;;
      roots <- wr roots o root ;;
      sig <- wr sig sp auth ;;
      let sp := (sp + n)%nat in
      Some (sig, roots, tree_addr, leaf_addr, sp))
      (sig, junk_bytes (junk 7) (p_ft P * N), tree_addr, leaf_addr, O) ;;
  n <- ix (xFORS_TREES P) ;;
  pk <- thash P HS c n roots pk_addr ;;
  Some (sig, pk).
(** lines 122-161 *)
Definition fors_pk_from_sig_c (sig m fors_addr : bytes) : option bytes :=
  tree_addr <- copy_keypair_addr_c L zero_addr fors_addr ;;
  pk_addr <- copy_keypair_addr_c L zero_addr fors_addr ;;
  tree_addr <- set_type_c L tree_addr (K SPX_ADDR_TYPE_FORSTREE) ;;
  pk_addr <- set_type_c L pk_addr (K SPX_ADDR_TYPE_FORSPK) ;;
  indices <- message_to_indices_c m ;;
  ' (roots, _, _) <-
    cfor (S (p_ft P)) U32 0 (xFORS_TREES P) (fun i s =>
      let '(roots, tree_addr, sp) := s in
      idx_offset <- asg U32 (V U32 i * (K 1 << xFORS_HEIGHT P)) ;;
      j <- ix (V U32 i) ;;
      ind <- get indices j ;;
      tree_addr <- set_tree_height_c L tree_addr (K 0) ;;
      tree_addr <- set_tree_index_c L tree_addr (V U32 ind + V U32 idx_offset) ;;
      sk <- rd sig sp N ;;
      leaf <- fors_sk_to_leaf P HS c sk tree_addr ;;
      let sp := (sp + N)%nat in
      o <- ix (V U32 i * xN P) ;;
      n <- ix (xN P * xFORS_HEIGHT P) ;;
      auth <- rd sig sp n ;;
      ' (root, tree_addr) <- compute_root_c leaf (V U32 ind) (V U32 idx_offset) auth (xFORS_HEIGHT P) tree_addr ;;
      roots <- wr roots o root ;;
      let sp := (sp + n)%nat in
      Some (roots, tree_addr, sp)) (junk_bytes (junk 8) (p_ft P * N), tree_addr, O) ;;
  n <- ix (xFORS_TREES P) ;;
  thash P HS c n roots pk_addr.

(** ** ref/merkle.c:18-61 *)
Definition merkle_sign_c (sig root wots_addr tree_addr : bytes) (idx_leaf : cexp) : option (bytes * bytes * bytes) :=
  idx_leaf <- asg U32 idx_leaf ;;
  o <- ix (xWOTS_BYTES P) ;;
  n <- ix (xTREE_HEIGHT P * xN P) ;;
  wots_sig <- rd sig 0 o ;;
  auth <- rd sig o n ;;
  steps <- chain_lengths_c P (junk 20) root ;;
  tree_addr <- set_type_c L tree_addr (K SPX_ADDR_TYPE_HASHTREE) ;;
  pk_addr <- set_type_c L zero_addr (K SPX_ADDR_TYPE_WOTSPK) ;;
  leaf_addr <- copy_subtree_addr_c L zero_addr wots_addr ;;
  pk_addr <- copy_subtree_addr_c L pk_addr wots_addr ;;
  sign_leaf <- asg U32 (V U32 idx_leaf) ;;
  let info := mkInfo wots_sig sign_leaf steps leaf_addr pk_addr in
  ' (root, auth, tree_addr, info) <-
    treehashx1_c wots_gen_leafx1_c (V U32 idx_leaf) (K 0) (xTREE_HEIGHT P) auth tree_addr info ;;
  sig <- wr sig 0 (wi_sig info) ;;
  sig <- wr sig o auth ;;
  Some (sig, root, tree_addr).
Definition merkle_gen_root_c (root : bytes) : option bytes :=
  n <- ix (xTREE_HEIGHT P * xN P + xWOTS_BYTES P) ;;
  let auth_path := junk_bytes (junk 9) n in
  top_tree_addr <- set_layer_addr_c L zero_addr (xD P - K 1) ;;
  wots_addr <- set_layer_addr_c L zero_addr (xD P - K 1) ;;
  ' (_, root, _) <- merkle_sign_c auth_path root wots_addr top_tree_addr (Cast U32 (Not (K 0))) ;;
  Some root.

(** ** ref/sign.c:140-153, 206-232 *)
Definition sign_layer_c (i : Z) (s : bytes * nat * bytes * bytes * bytes * Z * Z)
  : option (bytes * nat * bytes * bytes * bytes * Z * Z) :=
  let '(sig, sp, root, wots_addr, tree_addr, tree, idx_leaf) := s in
  tree_addr <- set_layer_addr_c L tree_addr (V U32 i) ;;
  tree_addr <- set_tree_addr_c L tree_addr (V U64 tree) ;;
  wots_addr <- copy_subtree_addr_c L wots_addr tree_addr ;;
  wots_addr <- set_keypair_addr_c L wots_addr (V U32 idx_leaf) ;;
  n <- ix (xWOTS_BYTES P + xTREE_HEIGHT P * xN P) ;;
  part <- rd sig sp n ;;
  ' (part, root, tree_addr) <- merkle_sign_c part root wots_addr tree_addr (V U32 idx_leaf) ;;
  sig <- wr sig sp part ;;
  let sp := (sp + n)%nat in
  idx_leaf <- asg U32 (V U64 tree .& ((K 1 << xTREE_HEIGHT P) - K 1)) ;;
  tree <- asg U64 (V U64 tree >> xTREE_HEIGHT P) ;;
  Some (sig, sp, root, wots_addr, tree_addr, tree, idx_leaf).
Definition verify_layer_c (sig : bytes) (i : Z) (s : nat * bytes * bytes * bytes * bytes * Z * Z)
  : option (nat * bytes * bytes * bytes * bytes * Z * Z) :=
  let '(sp, root, wots_addr, tree_addr, wots_pk_addr, tree, idx_leaf) := s in
  tree_addr <- set_layer_addr_c L tree_addr (V U32 i) ;;
  tree_addr <- set_tree_addr_c L tree_addr (V U64 tree) ;;
  wots_addr <- copy_subtree_addr_c L wots_addr tree_addr ;;
  wots_addr <- set_keypair_addr_c L wots_addr (V U32 idx_leaf) ;;
  wots_pk_addr <- copy_keypair_addr_c L wots_pk_addr wots_addr ;;
  n <- ix (xWOTS_BYTES P) ;;
  wsig <- rd sig sp n ;;
  ' (wots_pk, wots_addr) <- wots_pk_from_sig_c wsig root wots_addr ;;
  let sp := (sp + n)%nat in
  l <- ix (xLEN P) ;;
  leaf <- thash P HS c l wots_pk wots_pk_addr ;;
  n <- ix (xTREE_HEIGHT P * xN P) ;;
  auth <- rd sig sp n ;;
  ' (root, tree_addr) <- compute_root_c leaf (V U32 idx_leaf) (K 0) auth (xTREE_HEIGHT P) tree_addr ;;
  let sp := (sp + n)%nat in
  idx_leaf <- asg U32 (V U64 tree .& ((K 1 << xTREE_HEIGHT P) - K 1)) ;;
  tree <- asg U64 (V U64 tree >> xTREE_HEIGHT P) ;;
  Some (sp, root, wots_addr, tree_addr, wots_pk_addr, tree, idx_leaf).
End CoreC.

Section SignC.
Variable P : params.
Variable HS : suite.
Notation L := (hs_layout HS).
Notation N := (p_n P).
Variable junk : nat -> nat -> Z.
(** sign.c:53-76 *)
Definition crypto_sign_seed_keypair_c (pk sk seed : bytes) : option (Z * bytes * bytes) :=
  n <- ix (xSEEDBYTES P) ;;
  s <- rd seed 0 n ;;
  sk <- wr sk 0 s ;;
  o2 <- ix (K 2 * xN P) ;;
  ps <- rd sk o2 N ;;
  pk <- wr pk 0 ps ;;
  pub_seed <- rd pk 0 N ;;
  sk_seed <- rd sk 0 N ;;
  let c := mkCtx pub_seed sk_seed (hs_init HS pub_seed) in
  o3 <- ix (K 3 * xN P) ;;
  root0 <- rd sk o3 N ;;
  root <- merkle_gen_root_c P HS c junk root0 ;;
  sk <- wr sk o3 root ;;
  r <- rd sk o3 N ;;
  pk <- wr pk N r ;;
  Some (0, pk, sk).
(** sign.c:95-158 *)
Definition crypto_sign_signature_c (stream sig m sk : bytes) : option (Z * bytes * Z * bytes) :=
  sk_prf <- rd sk N N ;;
  o2 <- ix (K 2 * xN P) ;;
  n <- ix (xPK_BYTES P) ;;
  pk <- rd sk o2 n ;;
  sk_seed <- rd sk 0 N ;;
  pub_seed <- rd pk 0 N ;;
  let c := mkCtx pub_seed sk_seed (hs_init HS pub_seed) in
  wots_addr <- set_type_c L zero_addr (K SPX_ADDR_TYPE_WOTS) ;;
  tree_addr <- set_type_c L zero_addr (K SPX_ADDR_TYPE_HASHTREE) ;;
  ' (optrand, stream) <- randombytes stream N ;;
  R <- hs_gen_message_random HS c sk_prf optrand m ;;
  sig <- wr sig 0 R ;;
  R <- rd sig 0 N ;;
  ' (mhash, tree, idx_leaf) <- hs_hash_message HS c R pk m ;;
  wots_addr <- set_tree_addr_c L wots_addr (V U64 tree) ;;
  wots_addr <- set_keypair_addr_c L wots_addr (V U32 idx_leaf) ;;
  n <- ix (xFORS_BYTES P) ;;
  fsig <- rd sig N n ;;
  ' (fsig, root) <- fors_sign_c P HS c junk fsig mhash wots_addr ;;
  sig <- wr sig N fsig ;;
  ' (sig, _, _, _, _, _, _) <-
    cfor (S (p_d P)) U32 0 (xD P) (sign_layer_c P HS c junk)
      (sig, (N + n)%nat, root, wots_addr, tree_addr, tree, idx_leaf) ;;
  siglen <- asg U64 (xBYTES P) ;;
  Some (0, sig, siglen, stream).
(** sign.c:163-240 *)
Definition crypto_sign_verify_c (sig : bytes) (siglen : Z) (m pk : bytes) : option Z :=
  eq <- cond (V U64 siglen == xBYTES P) ;;
  if negb eq then Some (-1) else
  pub_seed <- rd pk 0 N ;;
  let c := mkCtx pub_seed (junk_bytes (junk 10) N) (hs_init HS pub_seed) in
  wots_addr <- set_type_c L zero_addr (K SPX_ADDR_TYPE_WOTS) ;;
  tree_addr <- set_type_c L zero_addr (K SPX_ADDR_TYPE_HASHTREE) ;;
  wots_pk_addr <- set_type_c L zero_addr (K SPX_ADDR_TYPE_WOTSPK) ;;
  R <- rd sig 0 N ;;
  n <- ix (xPK_BYTES P) ;;
  pk2 <- rd pk 0 n ;;
  ' (mhash, tree, idx_leaf) <- hs_hash_message HS c R pk2 m ;;
  wots_addr <- set_tree_addr_c L wots_addr (V U64 tree) ;;
  wots_addr <- set_keypair_addr_c L wots_addr (V U32 idx_leaf) ;;
  n <- ix (xFORS_BYTES P) ;;
  fsig <- rd sig N n ;;
  root <- fors_pk_from_sig_c P HS c junk fsig mhash wots_addr ;;
  ' (_, root, _, _, _, _, _) <-
    cfor (S (p_d P)) U32 0 (xD P) (verify_layer_c P HS c junk sig)
      ((N + n)%nat, root, wots_addr, tree_addr, wots_pk_addr, tree, idx_leaf) ;;
  pub_root <- rd pk N N ;;
  root <- rd root 0 N ;;
  if memcmp_differs root pub_root then Some (-1) else Some 0.
(** sign.c:246-258: siglen is size_t, mlen and smlen are unsigned long long *)
Definition crypto_sign_c (stream sm m sk : bytes) : option (Z * bytes * Z * bytes) :=
  n <- ix (xBYTES P) ;;
  sig <- rd sm 0 n ;;
  ' (_, sig, siglen, stream) <- crypto_sign_signature_c stream sig m sk ;;
  sm <- wr sm 0 sig ;;
  sm <- wr sm n m ;;
  smlen <- asg U64 (V U64 siglen + V U64 (Z.of_nat (length m))) ;;
  Some (0, sm, smlen, stream).
(** sign.c:263-287 *)
Definition crypto_sign_open_c (m sm : bytes) (smlen : Z) (pk : bytes) : option (Z * bytes * Z) :=
  b <- cond (V U64 smlen < xBYTES P) ;;
  if b : bool then
    m <- wr m 0 (repeat 0 (Z.to_nat smlen)) ;; Some (-1, m, 0)
  else
    mlen <- asg U64 (V U64 smlen - xBYTES P) ;;
    n <- ix (xBYTES P) ;;
    sig <- rd sm 0 n ;;
    k <- ix (Cast U64 (V U64 mlen)) ;;
    msg <- rd sm n k ;;
    siglen <- asg U64 (xBYTES P) ;;
    r <- crypto_sign_verify_c sig siglen msg pk ;;
    if negb (r =? 0) then
      m <- wr m 0 (repeat 0 (Z.to_nat smlen)) ;; Some (-1, m, 0)
    else
      m <- wr m 0 msg ;; Some (0, m, mlen).

(** ** The end of hash_message: hash_shake.c:78-96, hash_sha2.c:174-194, hash_haraka.c:78-96.
    The branch on SPX_D is decided by a constant expression; the shift by 64 of the other branch is not evaluated. *)
Definition split_digest_c (buf : bytes) : option (bytes * Z * Z) :=
  n <- ix (xFORS_MSG_BYTES P) ;;
  digest <- rd buf 0 n ;;
  t <- ix (xTREE_BYTES P) ;;
  one <- cond (xD P == K 1) ;;
  tree <-
    (if one : bool then asg U64 (K 0) else
       l <- asg U32 (xTREE_BYTES P) ;;
       b <- rd buf n t ;;
       z <- bytes_to_ull_c b l ;;
       asg U64 (V U64 z .& (Not (Cast U64 (K 0)) >> (K 64 - xTREE_BITS P)))) ;;
  l <- asg U32 (xLEAF_BYTES P) ;;
  lb <- ix (xLEAF_BYTES P) ;;
  b <- rd buf (n + t) lb ;;
  z <- bytes_to_ull_c b l ;;
  leaf <- asg U32 (Cast U32 (V U64 z)) ;;
  leaf <- asg U32 (V U32 leaf .& (Not (Cast U32 (K 0)) >> (K 32 - xLEAF_BITS P))) ;;
  Some (digest, tree, leaf).
End SignC.
