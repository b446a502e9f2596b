(** The core once more (ref/utilsx1.c, utils.c, wotsx1.c, wots.c, fors.c, merkle.c, sign.c), recording the calls
    of the hash functions.  The text is that of Utils.v, Wots.v, Fors.v, Merkle.v and Sign.v, with [x <~ e ;; f]
    for the steps that make calls; forgetting the record gives the functions there (CallErase.v). *)
From Verif Require Import Base Params Address Suite Utils Wots Fors Merkle Sign.

(** thash of [k] input blocks, prf_addr, gen_message_random, hash_message, with what they are given *)
Inductive call :=
| Thash (k : nat) (inp addr : bytes)
| Prf (addr : bytes)
| MsgRandom (sk_prf optrand m : bytes)
| MsgHash (R pk m : bytes).
Definition lm (A : Type) : Type := option (A * list call).
Definition lret {A} (a : A) : lm A := Some (a, []).
Definition lbind {A B} (m : lm A) (f : A -> lm B) : lm B :=
  match m with
  | Some (a, l) => match f a with Some (b, l') => Some (b, l ++ l') | None => None end
  | None => None
  end.
Notation "x <~ e ;; f" := (lbind e (fun x => f)) (at level 61, e at next level, right associativity).
Notation "' p <~ e ;; f" := (lbind e (fun x => let 'p := x in f)) (at level 61, p pattern, e at next level, right associativity).
Definition logged {A} (o : option A) (k : call) : lm A := match o with Some a => Some (a, [k]) | None => None end.
Fixpoint iterL {S : Type} (k i : nat) (f : nat -> S -> lm S) (s : S) : lm S :=
  match k with
  | O => lret s
  | Datatypes.S k' => s' <~ f i s ;; iterL k' (Datatypes.S i) f s'
  end.

Section Calls.
Variable P : params.
Variable HS : suite.
Notation CTX := (ctx (hs_st HS)).
Notation L := (hs_layout HS).
Notation N := (p_n P).
Notation W := (SPX_WOTS_W P).
Notation LEN := (SPX_WOTS_LEN P).
Notation TH := (SPX_TREE_HEIGHT P).
Notation FH := (p_fh P).
Notation FT := (p_ft P).
Variable junk : nat -> nat -> Z.

Section Ctx.
Variable c : CTX.
Definition thashL (k : nat) (x addr : bytes) : lm bytes := logged (thash P HS c k x addr) (Thash k x addr).
Definition prf_addrL (addr : bytes) : lm bytes := logged (prf_addr HS c addr) (Prf addr).

(** ** ref/utils.c:50-95 *)
Fixpoint compute_root_loopL (k i : nat) (leaf_idx idx_offset : Z) (auth : bytes) (ap : nat)
    (buffer addr : bytes) : lm (Z * Z * bytes * bytes) :=
  match k with
  | O => lret (leaf_idx, idx_offset, buffer, addr)
  | S k' =>
      let leaf_idx := Z.shiftr leaf_idx 1 in
      let idx_offset := Z.shiftr idx_offset 1 in
      addr <- set_tree_height L addr (Z.of_nat i + 1) ;;
      addr <- set_tree_index L addr (u32 (leaf_idx + idx_offset)) ;;
      inp <- rd buffer 0 (2 * N) ;;
      h <~ thashL 2 inp addr ;;
      a <- rd auth ap N ;;
      buffer <-
        (if Z.odd leaf_idx then b <- wr buffer N h ;; wr b 0 a
         else b <- wr buffer 0 h ;; wr b N a) ;;
      compute_root_loopL k' (S i) leaf_idx idx_offset auth (ap + N) buffer addr
  end.
Definition compute_rootL (leaf : bytes) (leaf_idx idx_offset : Z) (auth : bytes)
    (tree_height : nat) (addr : bytes) : lm (bytes * bytes) :=
  _ <- guard (1 <=? tree_height)%nat ;;
  let buffer := junk_bytes (junk 1) (2 * N) in
  l <- rd leaf 0 N ;;
  a <- rd auth 0 N ;;
  buffer <-
    (if Z.odd leaf_idx then b <- wr buffer N l ;; wr b 0 a
     else b <- wr buffer 0 l ;; wr b N a) ;;
  ' (leaf_idx, idx_offset, buffer, addr) <~
    compute_root_loopL (tree_height - 1) 0 leaf_idx idx_offset auth N buffer addr ;;
  let leaf_idx := Z.shiftr leaf_idx 1 in
  let idx_offset := Z.shiftr idx_offset 1 in
  addr <- set_tree_height L addr (Z.of_nat tree_height) ;;
  addr <- set_tree_index L addr (u32 (leaf_idx + idx_offset)) ;;
  inp <- rd buffer 0 (2 * N) ;;
  root <~ thashL 2 inp addr ;;
  lret (root, addr).

(** ** ref/utilsx1.c:23-100 *)
Section Treehashx1.
Context {G : Type}.
Variable gen_leaf : G -> Z -> lm (bytes * G).
Variables leaf_idx idx_offset : Z.
Fixpoint treehashx1_climbL (todo h : nat) (internal_idx internal_leaf internal_off idx max_idx : Z)
    (cur stack auth addr : bytes) : lm climb_out :=
  match todo with
  | O => lret (Root cur auth addr)
  | S todo' =>
      auth <- (if Z.lxor internal_idx internal_leaf =? 1 then wr auth (h * N) cur
               else Some auth) ;;
      if (Z.land internal_idx 1 =? 0) && (idx <? max_idx) then lret (Left h cur auth addr)
      else
        let internal_off := Z.shiftr internal_off 1 in
        addr <- set_tree_height L addr (Z.of_nat h + 1) ;;
        addr <- set_tree_index L addr (u32 (internal_idx / 2 + internal_off)) ;;
        left <- rd stack (h * N) N ;;
        cur <~ thashL 2 (left ++ cur) addr ;;
        treehashx1_climbL todo' (S h) (Z.shiftr internal_idx 1) (Z.shiftr internal_leaf 1)
          internal_off idx max_idx cur stack auth addr
  end.
Fixpoint treehashx1_loopL (fuel tree_height : nat) (idx max_idx : Z) (stack auth addr : bytes)
    (g : G) : lm (bytes * bytes * bytes * G) :=
  match fuel with
  | O => None
  | S fuel' =>
      ' (lf, g) <~ gen_leaf g (u32 (idx + idx_offset)) ;;
      cur <- rd lf 0 N ;;
      r <~ treehashx1_climbL tree_height 0 idx leaf_idx idx_offset idx max_idx cur stack auth addr ;;
      match r with
      | Root root auth addr => lret (root, auth, addr, g)
      | Left h node auth addr =>
          stack <- wr stack (h * N) node ;;
          treehashx1_loopL fuel' tree_height (idx + 1) max_idx stack auth addr g
      end
  end.
Definition treehashx1L (tree_height : nat) (auth addr : bytes) (g : G) : lm (bytes * bytes * bytes * G) :=
  let stack := junk_bytes (junk 4) (tree_height * N) in
  treehashx1_loopL (Nat.pow 2 tree_height) tree_height 0 (2 ^ Z.of_nat tree_height - 1)
    stack auth addr g.
End Treehashx1.

(** ** ref/wots.c:24-112, ref/wotsx1.c:17-73 *)
Fixpoint gen_chain_loopL (fuel : nat) (i lim : Z) (out addr : bytes) : lm (bytes * bytes) :=
  if (i <? lim) && (i <? W) then
    match fuel with
    | O => None
    | S fuel' =>
        addr <- set_hash_addr L addr i ;;
        out <~ thashL 1 out addr ;;
        gen_chain_loopL fuel' (i + 1) lim out addr
    end
  else lret (out, addr).
Definition gen_chainL (inp : bytes) (start steps : Z) (addr : bytes) : lm (bytes * bytes) :=
  out <- rd inp 0 N ;;
  gen_chain_loopL (Z.to_nat W) start (u32 (start + steps)) out addr.
Definition wots_pk_from_sigL (sig msg addr : bytes) : lm (bytes * bytes) :=
  lengths <- chain_lengths P msg ;;
  iterL LEN 0 (fun i s =>
    let '(pk, addr) := s in
    addr <- set_chain_addr L addr (Z.of_nat i) ;;
    l <- get lengths i ;;
    x <- rd sig (i * N) N ;;
    ' (x, addr) <~ gen_chainL x l (u32 (W - 1 - l)) addr ;;
    pk <- wr pk (i * N) x ;;
    lret (pk, addr)) (junk_bytes (junk 5) (SPX_WOTS_BYTES P), addr).
Fixpoint wots_leaf_chainL (fuel : nat) (i : nat) (k wots_k : Z) (buf sig addr : bytes)
  : lm (bytes * bytes * bytes) :=
  match fuel with
  | O => None
  | S fuel' =>
      sig <- (if k =? wots_k then wr sig (i * N) buf else Some sig) ;;
      if k =? W - 1 then lret (buf, sig, addr)
      else
        addr <- set_hash_addr L addr k ;;
        buf <~ thashL 1 buf addr ;;
        wots_leaf_chainL fuel' i (k + 1) wots_k buf sig addr
  end.
Definition wots_gen_leafx1L (info : leaf_info) (leaf_idx : Z) : lm (bytes * leaf_info) :=
  let mask := if leaf_idx =? wi_sign_leaf info then 0 else 2 ^ 32 - 1 in
  leaf_addr <- set_keypair_addr L (wi_leaf_addr info) leaf_idx ;;
  pk_addr <- set_keypair_addr L (wi_pk_addr info) leaf_idx ;;
  ' (pk_buffer, sig, leaf_addr) <~
    iterL LEN 0 (fun i s =>
      let '(pk_buffer, sig, addr) := s in
      step <- get (wi_steps info) i ;;
      let wots_k := Z.lor step mask in
      addr <- set_chain_addr L addr (Z.of_nat i) ;;
      addr <- set_hash_addr L addr 0 ;;
      addr <- set_type L addr SPX_ADDR_TYPE_WOTSPRF ;;
      buf <~ prf_addrL addr ;;
      addr <- set_type L addr SPX_ADDR_TYPE_WOTS ;;
      ' (buf, sig, addr) <~ wots_leaf_chainL (Z.to_nat W) i 0 wots_k buf sig addr ;;
      pk_buffer <- wr pk_buffer (i * N) buf ;;
      lret (pk_buffer, sig, addr))
      (junk_bytes (junk 6) (SPX_WOTS_BYTES P), wi_sig info, leaf_addr) ;;
  dest <~ thashL LEN pk_buffer pk_addr ;;
  lret (dest, mkInfo sig (wi_sign_leaf info) (wi_steps info) leaf_addr pk_addr).

(** ** ref/fors.c:12-161 *)
Definition fors_gen_leafx1L (leaf_addr : bytes) (addr_idx : Z) : lm (bytes * bytes) :=
  a <- set_tree_index L leaf_addr addr_idx ;;
  a <- set_type L a SPX_ADDR_TYPE_FORSPRF ;;
  leaf <~ prf_addrL a ;;
  a <- set_type L a SPX_ADDR_TYPE_FORSTREE ;;
  leaf <~ thashL 1 leaf a ;;
  lret (leaf, a).
Definition fors_signL (sig m fors_addr : bytes) : lm (bytes * bytes) :=
  tree_addr <- copy_keypair_addr L zero_addr fors_addr ;;
  leaf_addr <- copy_keypair_addr L zero_addr fors_addr ;;
  pk_addr <- copy_keypair_addr L zero_addr fors_addr ;;
  pk_addr <- set_type L pk_addr SPX_ADDR_TYPE_FORSPK ;;
  indices <- message_to_indices P m ;;
  ' (sig, roots, _, _, _) <~
    iterL FT 0 (fun i s =>
      let '(sig, roots, tree_addr, leaf_addr, sp) := s in
      let idx_offset := u32 (Z.of_nat i * 2 ^ Z.of_nat FH) in
      ind <- get indices i ;;
      tree_addr <- set_tree_height L tree_addr 0 ;;
      tree_addr <- set_tree_index L tree_addr (u32 (ind + idx_offset)) ;;
      tree_addr <- set_type L tree_addr SPX_ADDR_TYPE_FORSPRF ;;
      sk <~ prf_addrL tree_addr ;;
      sig <- wr sig sp sk ;;
      tree_addr <- set_type L tree_addr SPX_ADDR_TYPE_FORSTREE ;;
      let sp := (sp + N)%nat in
      auth <- rd sig sp (N * FH) ;;
      ' (root, auth, tree_addr, leaf_addr) <~
        treehashx1L fors_gen_leafx1L ind idx_offset FH auth tree_addr leaf_addr ;;
      roots <- wr roots (i * N) root ;;
      sig <- wr sig sp auth ;;
      let sp := (sp + N * FH)%nat in
      lret (sig, roots, tree_addr, leaf_addr, sp))
      (sig, junk_bytes (junk 7) (FT * N), tree_addr, leaf_addr, O) ;;
  pk <~ thashL FT roots pk_addr ;;
  lret (sig, pk).
Definition fors_pk_from_sigL (sig m fors_addr : bytes) : lm bytes :=
  tree_addr <- copy_keypair_addr L zero_addr fors_addr ;;
  pk_addr <- copy_keypair_addr L zero_addr fors_addr ;;
  tree_addr <- set_type L tree_addr SPX_ADDR_TYPE_FORSTREE ;;
  pk_addr <- set_type L pk_addr SPX_ADDR_TYPE_FORSPK ;;
  indices <- message_to_indices P m ;;
  ' (roots, _, _) <~
    iterL FT 0 (fun i s =>
      let '(roots, tree_addr, sp) := s in
      let idx_offset := u32 (Z.of_nat i * 2 ^ Z.of_nat FH) in
      ind <- get indices i ;;
      tree_addr <- set_tree_height L tree_addr 0 ;;
      tree_addr <- set_tree_index L tree_addr (u32 (ind + idx_offset)) ;;
      sk <- rd sig sp N ;;
      leaf <~ thashL 1 sk tree_addr ;;
      let sp := (sp + N)%nat in
      auth <- rd sig sp (N * FH) ;;
      ' (root, tree_addr) <~ compute_rootL leaf ind idx_offset auth FH tree_addr ;;
      roots <- wr roots (i * N) root ;;
      let sp := (sp + N * FH)%nat in
      lret (roots, tree_addr, sp)) (junk_bytes (junk 8) (FT * N), tree_addr, O) ;;
  thashL FT roots pk_addr.

(** ** ref/merkle.c:18-61 *)
Definition merkle_signL (sig root wots_addr tree_addr : bytes) (idx_leaf : Z) : lm (bytes * bytes * bytes) :=
  wots_sig <- rd sig 0 (SPX_WOTS_BYTES P) ;;
  auth <- rd sig (SPX_WOTS_BYTES P) (TH * N) ;;
  steps <- chain_lengths P root ;;
  tree_addr <- set_type L tree_addr SPX_ADDR_TYPE_HASHTREE ;;
  pk_addr <- set_type L zero_addr SPX_ADDR_TYPE_WOTSPK ;;
  leaf_addr <- copy_subtree_addr L zero_addr wots_addr ;;
  pk_addr <- copy_subtree_addr L pk_addr wots_addr ;;
  let info := mkInfo wots_sig idx_leaf steps leaf_addr pk_addr in
  ' (root, auth, tree_addr, info) <~
    treehashx1L wots_gen_leafx1L idx_leaf 0 TH auth tree_addr info ;;
  sig <- wr sig 0 (wi_sig info) ;;
  sig <- wr sig (SPX_WOTS_BYTES P) auth ;;
  lret (sig, root, tree_addr).
Definition merkle_gen_rootL (root : bytes) : lm bytes :=
  let auth_path := junk_bytes (junk 9) (TH * N + SPX_WOTS_BYTES P) in
  top_tree_addr <- set_layer_addr L zero_addr (Z.of_nat (p_d P) - 1) ;;
  wots_addr <- set_layer_addr L zero_addr (Z.of_nat (p_d P) - 1) ;;
  ' (_, root, _) <~ merkle_signL auth_path root wots_addr top_tree_addr (2 ^ 32 - 1) ;;
  lret root.
End Ctx.

(** ** ref/sign.c:53-240 *)
Definition seed_keypairL (pk sk seed : bytes) : lm (Z * bytes * bytes) :=
  s <- rd seed 0 (CRYPTO_SEEDBYTES P) ;;
  sk <- wr sk 0 s ;;
  ps <- rd sk (2 * N) N ;;
  pk <- wr pk 0 ps ;;
  pub_seed <- rd pk 0 N ;;
  sk_seed <- rd sk 0 N ;;
  let c := mkCtx pub_seed sk_seed (hs_init HS pub_seed) in
  root0 <- rd sk (3 * N) N ;;
  root <~ merkle_gen_rootL c root0 ;;
  sk <- wr sk (3 * N) root ;;
  r <- rd sk (3 * N) N ;;
  pk <- wr pk N r ;;
  lret (0, pk, sk).
Definition sign_layerL (c : CTX) (i : nat)
    (s : bytes * nat * bytes * bytes * bytes * Z * Z)
  : lm (bytes * nat * bytes * bytes * bytes * Z * Z) :=
  let '(sig, sp, root, wots_addr, tree_addr, tree, idx_leaf) := s in
  tree_addr <- set_layer_addr L tree_addr (Z.of_nat i) ;;
  tree_addr <- set_tree_addr L tree_addr tree ;;
  wots_addr <- copy_subtree_addr L wots_addr tree_addr ;;
  wots_addr <- set_keypair_addr L wots_addr idx_leaf ;;
  part <- rd sig sp (SPX_WOTS_BYTES P + TH * N) ;;
  ' (part, root, tree_addr) <~ merkle_signL c part root wots_addr tree_addr idx_leaf ;;
  sig <- wr sig sp part ;;
  let sp := (sp + (SPX_WOTS_BYTES P + TH * N))%nat in
  let idx_leaf := Z.land tree (2 ^ Z.of_nat TH - 1) in
  let tree := Z.shiftr tree (Z.of_nat TH) in
  lret (sig, sp, root, wots_addr, tree_addr, tree, idx_leaf).
Definition signatureL (stream sig m sk : bytes) : lm (Z * bytes * Z * bytes) :=
  sk_prf <- rd sk N N ;;
  pk <- rd sk (2 * N) (SPX_PK_BYTES P) ;;
  sk_seed <- rd sk 0 N ;;
  pub_seed <- rd pk 0 N ;;
  let c := mkCtx pub_seed sk_seed (hs_init HS pub_seed) in
  wots_addr <- set_type L zero_addr SPX_ADDR_TYPE_WOTS ;;
  tree_addr <- set_type L zero_addr SPX_ADDR_TYPE_HASHTREE ;;
  ' (optrand, stream) <- randombytes stream N ;;
  R <~ logged (hs_gen_message_random HS c sk_prf optrand m) (MsgRandom sk_prf optrand m) ;;
  sig <- wr sig 0 R ;;
  R <- rd sig 0 N ;;
  ' (mhash, tree, idx_leaf) <~ logged (hs_hash_message HS c R pk m) (MsgHash R pk m) ;;
  wots_addr <- set_tree_addr L wots_addr tree ;;
  wots_addr <- set_keypair_addr L wots_addr idx_leaf ;;
  fsig <- rd sig N (SPX_FORS_BYTES P) ;;
  ' (fsig, root) <~ fors_signL c fsig mhash wots_addr ;;
  sig <- wr sig N fsig ;;
  ' (sig, _, _, _, _, _, _) <~
    iterL (p_d P) 0 (sign_layerL c)
      (sig, (N + SPX_FORS_BYTES P)%nat, root, wots_addr, tree_addr, tree, idx_leaf) ;;
  lret (0, sig, Z.of_nat (SPX_BYTES P), stream).
Definition verify_layerL (c : CTX) (sig : bytes) (i : nat)
    (s : nat * bytes * bytes * bytes * bytes * Z * Z)
  : lm (nat * bytes * bytes * bytes * bytes * Z * Z) :=
  let '(sp, root, wots_addr, tree_addr, wots_pk_addr, tree, idx_leaf) := s in
  tree_addr <- set_layer_addr L tree_addr (Z.of_nat i) ;;
  tree_addr <- set_tree_addr L tree_addr tree ;;
  wots_addr <- copy_subtree_addr L wots_addr tree_addr ;;
  wots_addr <- set_keypair_addr L wots_addr idx_leaf ;;
  wots_pk_addr <- copy_keypair_addr L wots_pk_addr wots_addr ;;
  wsig <- rd sig sp (SPX_WOTS_BYTES P) ;;
  ' (wots_pk, wots_addr) <~ wots_pk_from_sigL c wsig root wots_addr ;;
  let sp := (sp + SPX_WOTS_BYTES P)%nat in
  leaf <~ thashL c (SPX_WOTS_LEN P) wots_pk wots_pk_addr ;;
  auth <- rd sig sp (TH * N) ;;
  ' (root, tree_addr) <~ compute_rootL c leaf idx_leaf 0 auth TH tree_addr ;;
  let sp := (sp + TH * N)%nat in
  let idx_leaf := Z.land tree (2 ^ Z.of_nat TH - 1) in
  let tree := Z.shiftr tree (Z.of_nat TH) in
  lret (sp, root, wots_addr, tree_addr, wots_pk_addr, tree, idx_leaf).
Definition verifyL (sig : bytes) (siglen : Z) (m pk : bytes) : lm Z :=
  if negb (siglen =? Z.of_nat (SPX_BYTES P)) then lret (-1) else
  pub_seed <- rd pk 0 N ;;
  let c := mkCtx pub_seed (junk_bytes (junk 10) N) (hs_init HS pub_seed) in
  wots_addr <- set_type L zero_addr SPX_ADDR_TYPE_WOTS ;;
  tree_addr <- set_type L zero_addr SPX_ADDR_TYPE_HASHTREE ;;
  wots_pk_addr <- set_type L zero_addr SPX_ADDR_TYPE_WOTSPK ;;
  R <- rd sig 0 N ;;
  pk2 <- rd pk 0 (SPX_PK_BYTES P) ;;
  ' (mhash, tree, idx_leaf) <~ logged (hs_hash_message HS c R pk2 m) (MsgHash R pk2 m) ;;
  wots_addr <- set_tree_addr L wots_addr tree ;;
  wots_addr <- set_keypair_addr L wots_addr idx_leaf ;;
  fsig <- rd sig N (SPX_FORS_BYTES P) ;;
  root <~ fors_pk_from_sigL c fsig mhash wots_addr ;;
  ' (_, root, _, _, _, _, _) <~
    iterL (p_d P) 0 (verify_layerL c sig)
      ((N + SPX_FORS_BYTES P)%nat, root, wots_addr, tree_addr, wots_pk_addr, tree, idx_leaf) ;;
  pub_root <- rd pk N N ;;
  root <- rd root 0 N ;;
  if memcmp_differs root pub_root then lret (-1) else lret 0.
End Calls.

(** ** Reading a record *)
(** A call without what is hashed. *)
Definition shape (c : call) : call :=
  match c with
  | Thash k _ a => Thash k [] a
  | Prf a => Prf a
  | MsgRandom _ _ _ => MsgRandom [] [] []
  | MsgHash _ _ _ => MsgHash [] [] []
  end.
(** The number of blocks and the address of every thash call of a record, in order, and the address of every
    prf_addr call. *)
Definition thashes (l : list call) : list (nat * bytes) :=
  flat_map (fun c => match c with Thash k _ a => [(k, a)] | _ => [] end) l.
Definition prfs (l : list call) : list bytes := flat_map (fun c => match c with Prf a => [a] | _ => [] end) l.

(** All runs that use the secret seed [ss] under the public seed [ps]: key generation and signing, with anything in
    the buffers, any message, any randomness, any sk_prf and any root in the key. *)
Inductive signer_run (P : params) (HS : suite) (ss ps : bytes) : list call -> Prop :=
| run_keygen junk pk0 sk0 sp out log :
    length sp = p_n P -> (SPX_PK_BYTES P <= length pk0)%nat -> (SPX_SK_BYTES P <= length sk0)%nat ->
    seed_keypairL P HS junk pk0 sk0 (ss ++ sp ++ ps) = Some (out, log) -> signer_run P HS ss ps log
| run_sign junk sig0 m sp root tail optrand rest out log :
    length sp = p_n P -> length root = p_n P -> length optrand = p_n P -> (SPX_BYTES P <= length sig0)%nat ->
    signatureL P HS junk (optrand ++ rest) sig0 m (ss ++ sp ++ ps ++ root ++ tail) = Some (out, log) ->
    signer_run P HS ss ps log.
