(** The signer once more (ref/utilsx1.c, wots.c, wotsx1.c, fors.c, merkle.c, sign.c), recording what can be seen through
    timing and caches: the outcome of every branch that depends on data or indices, and the offset and length of every
    access to a buffer.  The text is that of Utils.v, Wots.v, Fors.v, Merkle.v and Sign.v; forgetting the record gives the
    functions there (CTErase.v).  Not recorded: accesses at constant offsets (address.c, ull_to_bytes) and loops with
    constant bounds.  A call of a hash function is one entry, with the number of blocks or the length of the message. *)
From Verif Require Import Base Params Address Suite Utils Wots Fors Merkle Sign.

Inductive event :=
| Rd (o n : nat)              (** n elements read at offset o *)
| Wr (o n : nat)
| Br (b : bool)               (** a branch *)
| CThash (k : nat) | CPrf | CRandom (mlen : nat) | CHash (mlen : nat)
| PubIdx (digest : bytes) (tree leaf : Z)  (** not an effect of the code: marks what hash_message returned *)
| PubRoot (root : bytes).     (** not an effect of the code: marks a root about to be signed *)
Definition tm (A : Type) : Type := option (A * list event).
Definition tret {A} (a : A) : tm A := Some (a, []).
Definition tbind {A B} (m : tm A) (f : A -> tm B) : tm B :=
  match m with
  | Some (a, l) => match f a with Some (b, l') => Some (b, l ++ l') | None => None end
  | None => None
  end.
Notation "x <! e ;; f" := (tbind e (fun x => f)) (at level 61, e at next level, right associativity).
Notation "' p <! e ;; f" := (tbind e (fun x => let 'p := x in f)) (at level 61, p pattern, e at next level, right associativity).
Definition seen {A} (o : option A) (k : event) : tm A := match o with Some a => Some (a, [k]) | None => None end.
Definition br (b : bool) : tm bool := Some (b, [Br b]).
Definition rdT (b : bytes) (o n : nat) : tm bytes := seen (rd b o n) (Rd o n).
Definition wrT (b : bytes) (o : nat) (x : bytes) : tm bytes := seen (wr b o x) (Wr o (length x)).
Definition getT {A} (b : list A) (i : nat) : tm A := seen (get b i) (Rd i 1).
Fixpoint iterT {S : Type} (k i : nat) (f : nat -> S -> tm S) (s : S) : tm S :=
  match k with
  | O => tret s
  | Datatypes.S k' => s' <! f i s ;; iterT k' (Datatypes.S i) f s'
  end.

(** ** ref/wots.c:44-91 *)
Section Digits.
Variable P : params.
Notation LOGW := (p_logw P).
Notation W := (SPX_WOTS_W P).
Fixpoint base_w_loopT (out_len : nat) (inp : bytes) (i : nat) (total : option Z) (bits : Z) : tm (list Z) :=
  match out_len with
  | O => tret []
  | S k =>
      b <! br (bits =? 0) ;;
      ' (i, total, bits) <!
        (if b : bool then t <! getT inp i ;; tret (S i, Some t, bits + 8)
         else tret (i, total, bits)) ;;
      let bits := bits - Z.of_nat LOGW in
      _ <- guard (0 <=? bits) ;;
      t <- total ;;
      rest <! base_w_loopT k inp i total bits ;;
      tret (Z.land (Z.shiftr t bits) (W - 1) :: rest)
  end.
Definition base_wT (out_len : nat) (inp : bytes) : tm (list Z) := base_w_loopT out_len inp 0 None 0.
Definition wots_checksumT (msg_base_w : list Z) : tm (list Z) :=
  _ <- guard (length msg_base_w =? SPX_WOTS_LEN1 P)%nat ;;
  let csum := csum_of P msg_base_w in
  let sh := ((8 - (SPX_WOTS_LEN2 P * LOGW) mod 8) mod 8)%nat in
  let csum := u32 (Z.shiftl csum (Z.of_nat sh)) in
  base_wT (SPX_WOTS_LEN2 P) (ull_to_bytes ((SPX_WOTS_LEN2 P * LOGW + 7) / 8) csum).
Definition chain_lengthsT (msg : bytes) : tm (list Z) :=
  l1 <! base_wT (SPX_WOTS_LEN1 P) msg ;;
  l2 <! wots_checksumT l1 ;;
  tret (l1 ++ l2).
(** ** ref/fors.c:51-63 *)
Fixpoint message_indexT (k : nat) (j offset : nat) (idx : Z) (m : bytes) : tm Z :=
  match k with
  | O => tret idx
  | S k' =>
      b <! getT m (offset / 8) ;;
      let bit := Z.land (Z.shiftr b (Z.of_nat (offset mod 8))) 1 in
      message_indexT k' (S j) (S offset) (Z.lxor idx (Z.shiftl bit (Z.of_nat j))) m
  end.
Fixpoint message_to_indices_loopT (height trees offset : nat) (m : bytes) : tm (list Z) :=
  match trees with
  | O => tret []
  | S t =>
      i <! message_indexT height 0 offset 0 m ;;
      rest <! message_to_indices_loopT height t (offset + height) m ;;
      tret (i :: rest)
  end.
Definition message_to_indicesT (m : bytes) : tm (list Z) := message_to_indices_loopT (p_fh P) (p_ft P) 0 m.
End Digits.

Section Traces.
Variable P : params.
Variable HS : suite.
Notation CTX := (ctx (hs_st HS)).
Notation L := (hs_layout HS).
Notation N := (p_n P).
Notation W := (SPX_WOTS_W P).
Notation LEN := (SPX_WOTS_LEN P).
Notation TH := (SPX_TREE_HEIGHT P).
Notation FH := (p_fh P).
Notation FT := (p_ft P).
Variable junk : nat -> nat -> Z.

Section Ctx.
Variable c : CTX.
Definition thashT (k : nat) (x addr : bytes) : tm bytes := seen (thash P HS c k x addr) (CThash k).
Definition prf_addrT (addr : bytes) : tm bytes := seen (prf_addr HS c addr) CPrf.

(** ** ref/utilsx1.c:23-100 *)
Section Treehashx1.
Context {G : Type}.
Variable gen_leaf : G -> Z -> tm (bytes * G).
Variables leaf_idx idx_offset : Z.
Fixpoint treehashx1_climbT (todo h : nat) (internal_idx internal_leaf internal_off idx max_idx : Z)
    (cur stack auth addr : bytes) : tm climb_out :=
  match todo with
  | O => tret (Root cur auth addr)
  | S todo' =>
      b <! br (Z.lxor internal_idx internal_leaf =? 1) ;;
      auth <! (if b : bool then wrT auth (h * N) cur else tret auth) ;;
      b <! br ((Z.land internal_idx 1 =? 0) && (idx <? max_idx)) ;;
      if b : bool then tret (Left h cur auth addr)
      else
        let internal_off := Z.shiftr internal_off 1 in
        addr <- set_tree_height L addr (Z.of_nat h + 1) ;;
        addr <- set_tree_index L addr (u32 (internal_idx / 2 + internal_off)) ;;
        left <! rdT stack (h * N) N ;;
        cur <! thashT 2 (left ++ cur) addr ;;
        treehashx1_climbT todo' (S h) (Z.shiftr internal_idx 1) (Z.shiftr internal_leaf 1)
          internal_off idx max_idx cur stack auth addr
  end.
Fixpoint treehashx1_loopT (fuel tree_height : nat) (idx max_idx : Z) (stack auth addr : bytes)
    (g : G) : tm (bytes * bytes * bytes * G) :=
  match fuel with
  | O => None
  | S fuel' =>
      ' (lf, g) <! gen_leaf g (u32 (idx + idx_offset)) ;;
      cur <! rdT lf 0 N ;;
      r <! treehashx1_climbT tree_height 0 idx leaf_idx idx_offset idx max_idx cur stack auth addr ;;
      match r with
      | Root root auth addr => tret (root, auth, addr, g)
      | Left h node auth addr =>
          stack <! wrT stack (h * N) node ;;
          treehashx1_loopT fuel' tree_height (idx + 1) max_idx stack auth addr g
      end
  end.
Definition treehashx1T (tree_height : nat) (auth addr : bytes) (g : G) : tm (bytes * bytes * bytes * G) :=
  let stack := junk_bytes (junk 4) (tree_height * N) in
  treehashx1_loopT (Nat.pow 2 tree_height) tree_height 0 (2 ^ Z.of_nat tree_height - 1)
    stack auth addr g.
End Treehashx1.

(** ** ref/wotsx1.c:17-73 *)
Fixpoint wots_leaf_chainT (fuel : nat) (i : nat) (k wots_k : Z) (buf sig addr : bytes)
  : tm (bytes * bytes * bytes) :=
  match fuel with
  | O => None
  | S fuel' =>
      b <! br (k =? wots_k) ;;
      sig <! (if b : bool then wrT sig (i * N) buf else tret sig) ;;
      b <! br (k =? W - 1) ;;
      if b : bool then tret (buf, sig, addr)
      else
        addr <- set_hash_addr L addr k ;;
        buf <! thashT 1 buf addr ;;
        wots_leaf_chainT fuel' i (k + 1) wots_k buf sig addr
  end.
Definition wots_gen_leafx1T (info : leaf_info) (leaf_idx : Z) : tm (bytes * leaf_info) :=
  b <! br (leaf_idx =? wi_sign_leaf info) ;;
  let mask := if b : bool then 0 else 2 ^ 32 - 1 in
  leaf_addr <- set_keypair_addr L (wi_leaf_addr info) leaf_idx ;;
  pk_addr <- set_keypair_addr L (wi_pk_addr info) leaf_idx ;;
  ' (pk_buffer, sig, leaf_addr) <!
    iterT LEN 0 (fun i s =>
      let '(pk_buffer, sig, addr) := s in
      step <! getT (wi_steps info) i ;;
      let wots_k := Z.lor step mask in
      addr <- set_chain_addr L addr (Z.of_nat i) ;;
      addr <- set_hash_addr L addr 0 ;;
      addr <- set_type L addr SPX_ADDR_TYPE_WOTSPRF ;;
      buf <! prf_addrT addr ;;
      addr <- set_type L addr SPX_ADDR_TYPE_WOTS ;;
      ' (buf, sig, addr) <! wots_leaf_chainT (Z.to_nat W) i 0 wots_k buf sig addr ;;
      pk_buffer <! wrT pk_buffer (i * N) buf ;;
      tret (pk_buffer, sig, addr))
      (junk_bytes (junk 6) (SPX_WOTS_BYTES P), wi_sig info, leaf_addr) ;;
  dest <! thashT LEN pk_buffer pk_addr ;;
  tret (dest, mkInfo sig (wi_sign_leaf info) (wi_steps info) leaf_addr pk_addr).

(** ** ref/fors.c:12-113 *)
Definition fors_gen_leafx1T (leaf_addr : bytes) (addr_idx : Z) : tm (bytes * bytes) :=
  a <- set_tree_index L leaf_addr addr_idx ;;
  a <- set_type L a SPX_ADDR_TYPE_FORSPRF ;;
  leaf <! prf_addrT a ;;
  a <- set_type L a SPX_ADDR_TYPE_FORSTREE ;;
  leaf <! thashT 1 leaf a ;;
  tret (leaf, a).
Definition fors_signT (sig m fors_addr : bytes) : tm (bytes * bytes) :=
  tree_addr <- copy_keypair_addr L zero_addr fors_addr ;;
  leaf_addr <- copy_keypair_addr L zero_addr fors_addr ;;
  pk_addr <- copy_keypair_addr L zero_addr fors_addr ;;
  pk_addr <- set_type L pk_addr SPX_ADDR_TYPE_FORSPK ;;
  indices <! message_to_indicesT P m ;;
  ' (sig, roots, _, _, _) <!
    iterT FT 0 (fun i s =>
      let '(sig, roots, tree_addr, leaf_addr, sp) := s in
      let idx_offset := u32 (Z.of_nat i * 2 ^ Z.of_nat FH) in
      ind <! getT indices i ;;
      tree_addr <- set_tree_height L tree_addr 0 ;;
      tree_addr <- set_tree_index L tree_addr (u32 (ind + idx_offset)) ;;
      tree_addr <- set_type L tree_addr SPX_ADDR_TYPE_FORSPRF ;;
      sk <! prf_addrT tree_addr ;;
      sig <! wrT sig sp sk ;;
      tree_addr <- set_type L tree_addr SPX_ADDR_TYPE_FORSTREE ;;
      let sp := (sp + N)%nat in
      auth <! rdT sig sp (N * FH) ;;
      ' (root, auth, tree_addr, leaf_addr) <!
        treehashx1T fors_gen_leafx1T ind idx_offset FH auth tree_addr leaf_addr ;;
      roots <! wrT roots (i * N) root ;;
      sig <! wrT sig sp auth ;;
      let sp := (sp + N * FH)%nat in
      tret (sig, roots, tree_addr, leaf_addr, sp))
      (sig, junk_bytes (junk 7) (FT * N), tree_addr, leaf_addr, O) ;;
  pk <! thashT FT roots pk_addr ;;
  tret (sig, pk).

(** ** ref/merkle.c:18-61 *)
Definition merkle_signT (sig root wots_addr tree_addr : bytes) (idx_leaf : Z) : tm (bytes * bytes * bytes) :=
  wots_sig <! rdT sig 0 (SPX_WOTS_BYTES P) ;;
  auth <! rdT sig (SPX_WOTS_BYTES P) (TH * N) ;;
  steps <! chain_lengthsT P root ;;
  tree_addr <- set_type L tree_addr SPX_ADDR_TYPE_HASHTREE ;;
  pk_addr <- set_type L zero_addr SPX_ADDR_TYPE_WOTSPK ;;
  leaf_addr <- copy_subtree_addr L zero_addr wots_addr ;;
  pk_addr <- copy_subtree_addr L pk_addr wots_addr ;;
  let info := mkInfo wots_sig idx_leaf steps leaf_addr pk_addr in
  ' (root, auth, tree_addr, info) <!
    treehashx1T wots_gen_leafx1T idx_leaf 0 TH auth tree_addr info ;;
  sig <! wrT sig 0 (wi_sig info) ;;
  sig <! wrT sig (SPX_WOTS_BYTES P) auth ;;
  tret (sig, root, tree_addr).
Definition merkle_gen_rootT (root : bytes) : tm bytes :=
  let auth_path := junk_bytes (junk 9) (TH * N + SPX_WOTS_BYTES P) in
  top_tree_addr <- set_layer_addr L zero_addr (Z.of_nat (p_d P) - 1) ;;
  wots_addr <- set_layer_addr L zero_addr (Z.of_nat (p_d P) - 1) ;;
  ' (_, root, _) <! merkle_signT auth_path root wots_addr top_tree_addr (2 ^ 32 - 1) ;;
  tret root.
End Ctx.

(** ** ref/sign.c:53-158 *)
Definition seed_keypairT (pk sk seed : bytes) : tm (Z * bytes * bytes) :=
  s <! rdT seed 0 (CRYPTO_SEEDBYTES P) ;;
  sk <! wrT sk 0 s ;;
  ps <! rdT sk (2 * N) N ;;
  pk <! wrT pk 0 ps ;;
  pub_seed <! rdT pk 0 N ;;
  sk_seed <! rdT sk 0 N ;;
  let c := mkCtx pub_seed sk_seed (hs_init HS pub_seed) in
  root0 <! rdT sk (3 * N) N ;;
  root <! merkle_gen_rootT c root0 ;;
  sk <! wrT sk (3 * N) root ;;
  r <! rdT sk (3 * N) N ;;
  pk <! wrT pk N r ;;
  tret (0, pk, sk).
Definition sign_layerT (c : CTX) (i : nat)
    (s : bytes * nat * bytes * bytes * bytes * Z * Z)
  : tm (bytes * nat * bytes * bytes * bytes * Z * Z) :=
  let '(sig, sp, root, wots_addr, tree_addr, tree, idx_leaf) := s in
  tree_addr <- set_layer_addr L tree_addr (Z.of_nat i) ;;
  tree_addr <- set_tree_addr L tree_addr tree ;;
  wots_addr <- copy_subtree_addr L wots_addr tree_addr ;;
  wots_addr <- set_keypair_addr L wots_addr idx_leaf ;;
  part <! rdT sig sp (SPX_WOTS_BYTES P + TH * N) ;;
  root <! seen (Some root) (PubRoot root) ;;
  ' (part, root, tree_addr) <! merkle_signT c part root wots_addr tree_addr idx_leaf ;;
  sig <! wrT sig sp part ;;
  let sp := (sp + (SPX_WOTS_BYTES P + TH * N))%nat in
  let idx_leaf := Z.land tree (2 ^ Z.of_nat TH - 1) in
  let tree := Z.shiftr tree (Z.of_nat TH) in
  tret (sig, sp, root, wots_addr, tree_addr, tree, idx_leaf).
Definition hash_messageT (c : CTX) (R pk m : bytes) : tm (bytes * Z * Z) :=
  match hs_hash_message HS c R pk m with
  | Some (d, t, l) => Some ((d, t, l), [CHash (length m); PubIdx d t l])
  | None => None
  end.
Definition signatureT (stream sig m sk : bytes) : tm (Z * bytes * Z * bytes) :=
  sk_prf <! rdT sk N N ;;
  pk <! rdT sk (2 * N) (SPX_PK_BYTES P) ;;
  sk_seed <! rdT sk 0 N ;;
  pub_seed <! rdT pk 0 N ;;
  let c := mkCtx pub_seed sk_seed (hs_init HS pub_seed) in
  wots_addr <- set_type L zero_addr SPX_ADDR_TYPE_WOTS ;;
  tree_addr <- set_type L zero_addr SPX_ADDR_TYPE_HASHTREE ;;
  ' (optrand, stream) <- randombytes stream N ;;
  R <! seen (hs_gen_message_random HS c sk_prf optrand m) (CRandom (length m)) ;;
  sig <! wrT sig 0 R ;;
  R <! rdT sig 0 N ;;
  ' (mhash, tree, idx_leaf) <! hash_messageT c R pk m ;;
  wots_addr <- set_tree_addr L wots_addr tree ;;
  wots_addr <- set_keypair_addr L wots_addr idx_leaf ;;
  fsig <! rdT sig N (SPX_FORS_BYTES P) ;;
  ' (fsig, root) <! fors_signT c fsig mhash wots_addr ;;
  sig <! wrT sig N fsig ;;
  ' (sig, _, _, _, _, _, _) <!
    iterT (p_d P) 0 (sign_layerT c)
      (sig, (N + SPX_FORS_BYTES P)%nat, root, wots_addr, tree_addr, tree, idx_leaf) ;;
  tret (0, sig, Z.of_nat (SPX_BYTES P), stream).
End Traces.

(** ** Reading a record *)
(** What the code's branches and accesses show: everything but the marks *)
Definition visible (l : list event) : list event :=
  filter (fun e => match e with PubIdx _ _ _ | PubRoot _ => false | _ => true end) l.
(** The marks *)
Definition marks (l : list event) : list event :=
  filter (fun e => match e with PubIdx _ _ _ | PubRoot _ => true | _ => false end) l.
