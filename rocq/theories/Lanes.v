(** The multi-lane core: shake-a64/utilsx2.c, shake-avx2/utilsx4.c, sha2-avx2/utilsx8.c and the
    wots.c, fors.c and merkle.c beside them (haraka-aesni links to those of shake-avx2).

    The three copies of each function are the same text up to the number of lanes, so there is one
    model, for 2^[lw] lanes: lw = 1 (shake-a64), 2 (shake-avx2, haraka-aesni), 3 (sha2-avx2).
    Line numbers are those of shake-avx2.  uint32_t addrx[lanes*8] is a list of addresses. *)
From Verif Require Import Base Params Address Suite Wots Fors.

(** Monadic maps. *)
Fixpoint mapM {A B} (f : A -> option B) (l : list A) : option (list B) :=
  match l with
  | [] => Some []
  | x :: l' => y <- f x ;; r <- mapM f l' ;; Some (y :: r)
  end.
(** With the index of the element, counted from [j]. *)
Fixpoint mapMi {A B} (f : nat -> A -> option B) (j : nat) (l : list A) : option (list B) :=
  match l with
  | [] => Some []
  | x :: l' => y <- f j x ;; r <- mapMi f (S j) l' ;; Some (y :: r)
  end.
Fixpoint mapM2 {A B C} (f : A -> B -> option C) (l : list A) (m : list B) : option (list C) :=
  match l, m with
  | x :: l', y :: m' => z <- f x y ;; r <- mapM2 f l' m' ;; Some (z :: r)
  | _, _ => Some []
  end.
(** Successive writes: [ds] at the offsets [offs], in lane order. *)
Fixpoint wrx (b : bytes) (offs : list nat) (ds : list bytes) : option bytes :=
  match offs, ds with
  | o :: offs', d :: ds' => b <- wr b o d ;; wrx b offs' ds'
  | _, _ => Some b
  end.

(** thashxN (shake-avx2/thashx4.h:7-16, sha2-avx2/thashx8.h, shake-a64/thashx2.h) and prf_addrxN
    (shake-avx2/hashx4.h:6-11): the inputs and the addresses of all lanes give the outputs of all
    lanes.  The functions read every input before they write any output (LaneHash*.v). *)
Record lane_fns (HS : suite) := mkLanes {
  lx_thash : ctx (hs_st HS) -> nat -> list bytes -> list bytes -> option (list bytes);
  lx_prf_addr : ctx (hs_st HS) -> list bytes -> option (list bytes)
}.
Arguments lx_thash {HS}. Arguments lx_prf_addr {HS}. Arguments mkLanes {HS}.

(** ref-like struct leaf_info_x4, shake-avx2/wotsx4.h:13-19. *)
Record leaf_infox := mkInfox {
  wx_sig : bytes; wx_sign_leaf : Z; wx_steps : list Z;
  wx_leaf_addr : list bytes; wx_pk_addr : list bytes
}.

Definition u16 (x : Z) : Z := x mod 2 ^ 16.

Section Lanes.
Variable P : params.
Variable HS : suite.
Variable LX : lane_fns HS.
Variable lw : nat.
Notation CTX := (ctx (hs_st HS)).
Notation L := (hs_layout HS).
Notation N := (p_n P).
Notation W := (SPX_WOTS_W P).
Notation LEN := (SPX_WOTS_LEN P).
Notation TH := (SPX_TREE_HEIGHT P).
Notation FH := (p_fh P).
Notation FT := (p_ft P).
Variable c : CTX.
Variable junk : nat -> nat -> Z.

(** The number of lanes. *)
Definition NL : nat := Nat.pow 2 lw.
Definition NLz : Z := 2 ^ Z.of_nat lw.
(** The lane numbers. *)
Definition lanes : list nat := seq 0 NL.

(** Calls with their memory preconditions. *)
Definition thashx (inblocks : nat) (ins addrs : list bytes) : option (list bytes) :=
  _ <- guard ((length ins =? NL)%nat && forallb (fun x => length x =? inblocks * N)%nat ins) ;;
  _ <- guard ((length addrs =? NL)%nat && forallb (fun a => length a =? SPX_ADDR_BYTES)%nat addrs) ;;
  lx_thash LX c inblocks ins addrs.
Definition prf_addrx (addrs : list bytes) : option (list bytes) :=
  _ <- guard ((length addrs =? NL)%nat && forallb (fun a => length a =? SPX_ADDR_BYTES)%nat addrs) ;;
  lx_prf_addr LX c addrs.

(** ** treehashx4, shake-avx2/utilsx4.c:38-138 *)
Section Treehashx.
Context {G : Type}.
(** gen_leafx4(current, ctx, idx, info): writes the leaves of all lanes. *)
Variable gen_leafx : G -> Z -> option (bytes * G).
Variables leaf_idx idx_offset : Z.

(** Outcome of the inner loop, lines 69-131: the root (return, lines 76 and 88), or a left child at
    height h (break, line 110).  left_adj and prev_left_adj survive from one leaf to the next. *)
Inductive climbx_out :=
| RootX (root auth : bytes) (addrs : list bytes)
| LeftX (h : nat) (cur auth : bytes) (addrs : list bytes) (left_adj prev_left_adj : Z).

(** lines 69-131.  [todo] = tree_height - h. *)
Fixpoint treehashx_climb (tree_height todo h : nat)
    (internal_idx internal_leaf internal_off idx max_idx left_adj prev_left_adj : Z)
    (cur stack auth : bytes) (addrs : list bytes) : option climbx_out :=
  match todo with
  | O => root <- rd cur ((NL - 1) * N) N ;; Some (RootX root auth addrs)
  | S todo' =>
      let '(left_adj, prev_left_adj) :=
        if (tree_height - lw <=? h)%nat
        then (u32 (NLz - 2 ^ Z.of_nat (tree_height - h - 1)), left_adj)
        else (left_adj, prev_left_adj) in
      auth <-
        (if Z.land (Z.lxor (u32 (Z.shiftl internal_idx (Z.of_nat lw))) internal_leaf)
              (2 ^ 32 - NLz) =? 0
         then x <- rd cur (Z.to_nat (Z.lxor (Z.land internal_leaf (NLz - 1)) 1 + prev_left_adj) * N) N ;;
              wr auth (h * N) x
         else Some auth) ;;
      if (Z.land internal_idx 1 =? 0) && (idx <? max_idx)
      then Some (LeftX h cur auth addrs left_adj prev_left_adj)
      else
        let internal_off := Z.shiftr internal_off 1 in
        addrs <- mapMi (fun j a =>
            a <- set_tree_height L a (Z.of_nat h + 1) ;;
            set_tree_index L a
              (u32 (NLz / 2 * Z.land internal_idx (2 ^ 32 - 2) + Z.of_nat j - left_adj + internal_off)))
          0 addrs ;;
        ins <- mapM (fun j =>
            if (j <? NL / 2)%nat then rd stack (h * NL * N + 2 * j * N) (2 * N)
            else rd cur (2 * (j - NL / 2) * N) (2 * N)) lanes ;;
        outs <- thashx 2 ins addrs ;;
        cur <- wrx cur (map (fun j => j * N)%nat lanes) outs ;;
        treehashx_climb tree_height todo' (S h) (Z.shiftr internal_idx 1) (Z.shiftr internal_leaf 1)
          internal_off idx max_idx left_adj prev_left_adj cur stack auth addrs
  end.

(** lines 56-137. *)
Fixpoint treehashx_loop (fuel tree_height : nat) (idx max_idx left_adj prev_left_adj : Z)
    (stack auth : bytes) (addrs : list bytes) (g : G)
  : option (bytes * bytes * list bytes * G) :=
  match fuel with
  | O => None
  | S fuel' =>
      ' (cur, g) <- gen_leafx g (u32 (NLz * idx + idx_offset)) ;;
      r <- treehashx_climb tree_height tree_height 0 idx leaf_idx idx_offset idx max_idx
             left_adj prev_left_adj cur stack auth addrs ;;
      match r with
      | RootX root auth addrs => Some (root, auth, addrs, g)
      | LeftX h cur auth addrs left_adj prev_left_adj =>
          stack <- wr stack (h * NL * N) cur ;;
          treehashx_loop fuel' tree_height (idx + 1) max_idx left_adj prev_left_adj stack auth addrs g
      end
  end.

(** Returns (root, auth_path, tree_addrx, *info).  tree_height - lw is computed in uint32_t: the
    function is only meant for tree_height >= lw (lines 34-36). *)
Definition treehashx (tree_height : nat) (auth : bytes) (addrs : list bytes) (g : G)
  : option (bytes * bytes * list bytes * G) :=
  _ <- guard (lw <=? tree_height)%nat ;;
  let stack := junk_bytes (junk 11) (tree_height * NL * N) in
  treehashx_loop (Nat.pow 2 (tree_height - lw)) tree_height 0
    (2 ^ Z.of_nat (tree_height - lw) - 1) 0 0 stack auth addrs g.
End Treehashx.

(** ** gen_chains, shake-avx2/wots.c:22-103 *)

(** lines 50-52. *)
Definition count_steps (steps : list Z) : option (list Z) :=
  iterM LEN 0 (fun i counts =>
    s <- get steps i ;;
    v <- get counts (Z.to_nat s) ;;
    wr counts (Z.to_nat s) [u16 (v + 1)]) (repeat 0 (Z.to_nat W)).
(** lines 53-58; the loop runs l = W-1 .. 0. *)
Definition prefix_counts (counts : list Z) : option (list Z) :=
  ' (counts, _) <- iterM (Z.to_nat W) 0 (fun t s =>
    let '(counts, total) := s in
    let l := (Z.to_nat W - 1 - t)%nat in
    v <- get counts l ;;
    counts <- wr counts l [total] ;;
    Some (counts, u16 (v + total))) (counts, 0) ;;
  Some counts.
(** lines 59-62. *)
Definition place_chains (steps counts : list Z) : option (list Z) :=
  ' (idxs, _) <- iterM LEN 0 (fun i s =>
    let '(idxs, counts) := s in
    st <- get steps i ;;
    v <- get counts (Z.to_nat st) ;;
    idxs <- wr idxs (Z.to_nat v) [u16 (Z.of_nat i)] ;;
    counts <- wr counts (Z.to_nat st) [u16 (v + 1)] ;;
    Some (idxs, counts)) (junk_bytes (junk 12) LEN, counts) ;;
  Some idxs.

(** A pointer in bufs[]: into [out] at an offset, or to the dummy buffer [empty]. *)
Inductive bufptr := POut (off : nat) | PEmpty.
Definition rdp (out empty : bytes) (p : bufptr) : option bytes :=
  match p with POut o => rd out o N | PEmpty => rd empty 0 N end.
(** Successive writes through the pointers. *)
Fixpoint wrp (out empty : bytes) (ps : list bufptr) (ds : list bytes) : option (bytes * bytes) :=
  match ps, ds with
  | p :: ps', d :: ds' =>
      match p with
      | POut o => out <- wr out o d ;; wrp out empty ps' ds'
      | PEmpty => empty <- wr empty 0 d ;; wrp out empty ps' ds'
      end
  | _, _ => Some (out, empty)
  end.
Definition set_buf (bufs : list bufptr) (j : nat) (p : bufptr) : option (list bufptr) :=
  if (j <? length bufs)%nat then Some (firstn j bufs ++ p :: skipn (S j) bufs) else None.

(** lines 84-91: returns watching, done and bufs. *)
Fixpoint retire (watching : nat) (k : Z) (i : nat) (steps idxs : list Z) (bufs : list bufptr)
  : option (nat * bool * list bufptr) :=
  idx <- get idxs (i + watching) ;;
  s <- get steps (Z.to_nat idx) ;;
  if k =? s then
    bufs <- set_buf bufs watching PEmpty ;;
    match watching with
    | O => Some (O, true, bufs)
    | S w' => retire w' k i steps idxs bufs
    end
  else Some (watching, false, bufs).

(** lines 83-101. *)
Fixpoint chains_loop (fuel : nat) (k : Z) (watching i : nat) (start steps idxs : list Z)
    (bufs : list bufptr) (addrs : list bytes) (out empty : bytes)
  : option (bytes * bytes * list bytes) :=
  match fuel with
  | O => None
  | S fuel' =>
      ' (watching, finished, bufs) <- retire watching k i steps idxs bufs ;;
      if finished : bool then Some (out, empty, addrs) else
      addrs <- mapMi (fun j a =>
          if (j <? watching + 1)%nat then
            idx <- get idxs (i + j) ;;
            s <- get start (Z.to_nat idx) ;;
            set_hash_addr L a (u32 (k + s))
          else Some a) 0 addrs ;;
      ins <- mapM (rdp out empty) bufs ;;
      outs <- thashx 1 ins addrs ;;
      ' (out, empty) <- wrp out empty bufs outs ;;
      chains_loop fuel' (k + 1) watching i start steps idxs bufs addrs out empty
  end.

(** lines 65-102, one group of lanes starting at chain number [i] of the sorted order.  [bufs] for
    the lanes past the last chain keep their old value on line 69 and become [empty] on line 79;
    the address of such a lane keeps its old chain number. *)
Definition chains_group (start steps idxs : list Z) (i : nat) (s : list bytes * bytes * bytes)
  : option (list bytes * bytes * bytes) :=
  let '(addrs, out, empty) := s in
  addrs <- mapMi (fun j a =>
      if (i + j <? LEN)%nat then idx <- get idxs (i + j) ;; set_chain_addr L a idx else Some a)
    0 addrs ;;
  bufs <- mapM (fun j =>
      if (i + j <? LEN)%nat
      then idx <- get idxs (i + j) ;; Some (POut (N * Z.to_nat idx)) else Some PEmpty) lanes ;;
  let watching := (Nat.min NL (LEN - i) - 1)%nat in
  ' (out, empty, addrs) <-
    chains_loop (S (Z.to_nat W)) 0 watching i start steps idxs bufs addrs out empty ;;
  Some (addrs, out, empty).

(** lines 22-103. *)
Definition gen_chains (inp : bytes) (start steps : list Z) (addr : bytes) : option bytes :=
  let addrs := map (fun _ => addr) lanes in
  out <- rd inp 0 (LEN * N) ;;
  counts <- count_steps steps ;;
  counts <- prefix_counts counts ;;
  idxs <- place_chains steps counts ;;
  ' (_, out, _) <-
    iterM ((LEN + NL - 1) / NL) 0 (fun g s => chains_group start steps idxs (g * NL) s)
      (addrs, out, junk_bytes (junk 13) N) ;;
  Some out.

(** shake-avx2/wots.c:163-178.  The caller's address is not changed. *)
Definition wots_pk_from_sigx (sig msg addr : bytes) : option (bytes * bytes) :=
  start <- chain_lengths P msg ;;
  let steps := map (fun s => u32 (W - 1 - s)) start in
  pk <- gen_chains sig start steps addr ;;
  Some (pk, addr).

(** ** wots_gen_leafx4, shake-avx2/wots.c:185-271 *)

(** Offset of chain [i] of lane [j] in pk_buffer (lines 192, 215, 225-228). *)
Definition pkb (i j : nat) : nat := (i * N + j * SPX_WOTS_BYTES P)%nat.

(** lines 236-259: all lanes of chain [i], from k to W-1. *)
Fixpoint wots_leafx_chain (fuel i : nat) (k wots_k : Z) (sign_index : nat)
    (pk_buffer sig : bytes) (addrs : list bytes) : option (bytes * bytes * list bytes) :=
  match fuel with
  | O => None
  | S fuel' =>
      sig <- (if k =? wots_k
              then x <- rd pk_buffer (pkb i sign_index) N ;; wr sig (i * N) x
              else Some sig) ;;
      if k =? W - 1 then Some (pk_buffer, sig, addrs)
      else
        addrs <- mapM (fun a => set_hash_addr L a k) addrs ;;
        ins <- mapM (fun j => rd pk_buffer (pkb i j) N) lanes ;;
        outs <- thashx 1 ins addrs ;;
        pk_buffer <- wrx pk_buffer (map (pkb i) lanes) outs ;;
        wots_leafx_chain fuel' i (k + 1) wots_k sign_index pk_buffer sig addrs
  end.

(** lines 185-271. *)
Definition wots_gen_leafx (info : leaf_infox) (leaf_idx : Z) : option (bytes * leaf_infox) :=
  let signing := Z.land (Z.lxor leaf_idx (wx_sign_leaf info)) (2 ^ 32 - NLz) =? 0 in
  let mask := if signing then 0 else 2 ^ 32 - 1 in
  let sign_index := if signing then Z.to_nat (Z.land (wx_sign_leaf info) (NLz - 1)) else O in
  leaf_addr <- mapMi (fun j a => set_keypair_addr L a (u32 (leaf_idx + Z.of_nat j))) 0
                 (wx_leaf_addr info) ;;
  pk_addr <- mapMi (fun j a => set_keypair_addr L a (u32 (leaf_idx + Z.of_nat j))) 0
                 (wx_pk_addr info) ;;
  ' (pk_buffer, sig, leaf_addr) <-
    iterM LEN 0 (fun i s =>
      let '(pk_buffer, sig, addrs) := s in
      step <- get (wx_steps info) i ;;
      let wots_k := Z.lor step mask in
      addrs <- mapM (fun a =>
          a <- set_chain_addr L a (Z.of_nat i) ;;
          a <- set_hash_addr L a 0 ;;
          set_type L a SPX_ADDR_TYPE_WOTSPRF) addrs ;;
      sks <- prf_addrx addrs ;;
      pk_buffer <- wrx pk_buffer (map (pkb i) lanes) sks ;;
      addrs <- mapM (fun a => set_type L a SPX_ADDR_TYPE_WOTS) addrs ;;
      wots_leafx_chain (Z.to_nat W) i 0 wots_k sign_index pk_buffer sig addrs)
      (junk_bytes (junk 14) (NL * SPX_WOTS_BYTES P), wx_sig info, leaf_addr) ;;
  ins <- mapM (fun j => rd pk_buffer (j * SPX_WOTS_BYTES P) (SPX_WOTS_BYTES P)) lanes ;;
  outs <- thashx LEN ins pk_addr ;;
  dest <- wrx (junk_bytes (junk 15) (NL * N)) (map (fun j => j * N)%nat lanes) outs ;;
  Some (dest, mkInfox sig (wx_sign_leaf info) (wx_steps info) leaf_addr pk_addr).

(** ** merkle_sign and merkle_gen_root, shake-avx2/merkle.c:16-65 *)

(** [sig], [root] as in Merkle.v; the caller's addresses are only read. *)
Definition merkle_signx (sig root wots_addr tree_addr : bytes) (idx_leaf : Z)
  : option (bytes * bytes) :=
  wots_sig <- rd sig 0 (SPX_WOTS_BYTES P) ;;
  auth <- rd sig (SPX_WOTS_BYTES P) (TH * N) ;;
  steps <- chain_lengths P root ;;
  tree_addrx <- mapM (fun _ =>
      a <- set_type L zero_addr SPX_ADDR_TYPE_HASHTREE ;; copy_subtree_addr L a tree_addr) lanes ;;
  leaf_addrx <- mapM (fun _ =>
      a <- set_type L zero_addr SPX_ADDR_TYPE_WOTS ;; copy_subtree_addr L a wots_addr) lanes ;;
  pk_addrx <- mapM (fun _ =>
      a <- set_type L zero_addr SPX_ADDR_TYPE_WOTSPK ;; copy_subtree_addr L a wots_addr) lanes ;;
  let info := mkInfox wots_sig idx_leaf steps leaf_addrx pk_addrx in
  ' (root, auth, _, info) <- treehashx wots_gen_leafx idx_leaf 0 TH auth tree_addrx info ;;
  sig <- wr sig 0 (wx_sig info) ;;
  sig <- wr sig (SPX_WOTS_BYTES P) auth ;;
  Some (sig, root).

(** lines 50-65. *)
Definition merkle_gen_rootx (root : bytes) : option bytes :=
  let auth_path := junk_bytes (junk 9) (TH * N + SPX_WOTS_BYTES P) in
  top_tree_addr <- set_layer_addr L zero_addr (Z.of_nat (p_d P) - 1) ;;
  wots_addr <- set_layer_addr L zero_addr (Z.of_nat (p_d P) - 1) ;;
  ' (_, root) <- merkle_signx auth_path root wots_addr top_tree_addr (2 ^ 32 - 1) ;;
  Some root.

(** ** fors_gen_leafx4 and fors_sign, shake-avx2/fors.c:57-161 *)
Definition fors_gen_leafx (leaf_addrs : list bytes) (addr_idx : Z)
  : option (bytes * list bytes) :=
  a <- mapMi (fun j a =>
      a <- set_tree_index L a (u32 (addr_idx + Z.of_nat j)) ;;
      set_type L a SPX_ADDR_TYPE_FORSPRF) 0 leaf_addrs ;;
  sks <- prf_addrx a ;;
  leaf <- wrx (junk_bytes (junk 16) (NL * N)) (map (fun j => j * N)%nat lanes) sks ;;
  a <- mapM (fun a => set_type L a SPX_ADDR_TYPE_FORSTREE) a ;;
  ins <- mapM (fun j => rd leaf (j * N) N) lanes ;;
  outs <- thashx 1 ins a ;;
  leaf <- wrx leaf (map (fun j => j * N)%nat lanes) outs ;;
  Some (leaf, a).

(** One update of the address of lane 0. *)
Definition on_lane0 (f : bytes -> option bytes) (addrs : list bytes) : option (list bytes) :=
  match addrs with [] => None | a :: r => a <- f a ;; Some (a :: r) end.

(** lines 115-161.  fors_pk_from_sig (lines 170-209) and message_to_indices (97-109) are those of
    ref/fors.c. *)
Definition fors_signx (sig m fors_addr : bytes) : option (bytes * bytes) :=
  tree_addr <- mapM (fun _ =>
      a <- copy_keypair_addr L zero_addr fors_addr ;; set_type L a SPX_ADDR_TYPE_FORSTREE) lanes ;;
  leaf_addr <- mapM (fun _ => copy_keypair_addr L zero_addr fors_addr) lanes ;;
  pk_addr <- copy_keypair_addr L zero_addr fors_addr ;;
  pk_addr <- set_type L pk_addr SPX_ADDR_TYPE_FORSPK ;;
  indices <- message_to_indices P m ;;
  ' (sig, roots, _, _, _) <-
    iterM FT 0 (fun i s =>
      let '(sig, roots, tree_addr, leaf_addr, sp) := s in
      let idx_offset := u32 (Z.of_nat i * 2 ^ Z.of_nat FH) in
      ind <- get indices i ;;
      tree_addr <- on_lane0 (fun a =>
          a <- set_tree_height L a 0 ;;
          a <- set_tree_index L a (u32 (ind + idx_offset)) ;;
          set_type L a SPX_ADDR_TYPE_FORSPRF) tree_addr ;;
      a0 <- get tree_addr 0 ;;
      sk <- fors_gen_sk HS c a0 ;;
      sig <- wr sig sp sk ;;
      tree_addr <- on_lane0 (fun a => set_type L a SPX_ADDR_TYPE_FORSTREE) tree_addr ;;
      let sp := (sp + N)%nat in
      auth <- rd sig sp (N * FH) ;;
      ' (root, auth, tree_addr, leaf_addr) <-
        treehashx fors_gen_leafx ind idx_offset FH auth tree_addr leaf_addr ;;
      roots <- wr roots (i * N) root ;;
      sig <- wr sig sp auth ;;
      let sp := (sp + N * FH)%nat in
      Some (sig, roots, tree_addr, leaf_addr, sp))
      (sig, junk_bytes (junk 17) (FT * N), tree_addr, leaf_addr, O) ;;
  pk <- thash P HS c FT roots pk_addr ;;
  Some (sig, pk).
End Lanes.

(** What the multi-lane core needs from the multi-lane hashes: lane j of the result is the scalar
    function of the input and address of lane j.  The code hashes 1, 2 or SPX_WOTS_LEN <= 256 blocks in
    lanes; the counters of the lane hashes are 32 bits wide in places, so the number of blocks is bounded
    here.  Proved for the modelled lane hashes in LaneShakeOk.v, LaneSha2Thash.v, HarakaNiLanes.v. *)
Record lanes_ok (P : params) (HS : suite) (LX : lane_fns HS) (lw : nat) : Prop := {
  lok_thash : forall c k ins addrs, ctx_ok P HS c -> (k <= 256)%nat ->
    length ins = NL lw -> length addrs = NL lw ->
    Forall (fun x => length x = (k * p_n P)%nat) ins ->
    Forall (fun a => length a = SPX_ADDR_BYTES) addrs ->
    lx_thash LX c k ins addrs = mapM2 (hs_thash HS c k) ins addrs;
  lok_prf : forall c addrs, ctx_ok P HS c -> length addrs = NL lw ->
    Forall (fun a => length a = SPX_ADDR_BYTES) addrs ->
    lx_prf_addr LX c addrs = mapM (hs_prf_addr HS c) addrs
}.
