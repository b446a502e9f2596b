(** The multi-lane SHAKE code: shake-avx2/fips202x4.c, thash_shake_simplex4.c, thash_shake_robustx4.c,
    hash_shakex4.c (four lanes) and shake-a64/fips202x2.c, thash_shake_simplex2.c,
    thash_shake_robustx2.c, hash_shakex2.c (two lanes).

    The files differ in the number of lanes [nl], in the permutation [perm] (LaneKeccak.v) and in how
    the state is set up by hand; where the text is the same up to the number of lanes there is one
    definition.  States are as in LaneKeccak.v.  Message and output pointers come in lists, one per
    lane; outputs are returned.  An access through [int64_t *] reads or writes the same bytes as load64
    and store64 (little-endian machines); its alignment is not modelled. *)
From Verif Require Import Base Params Address Suite Fips202 HashShake Lanes LaneKeccak.

(** x[i] for x of type [uint64_t *] or [int64_t *]; load64(x + 8 * i) *)
Definition load_word (x : bytes) (i : nat) : option Z := v <- rd x (8 * i) 8 ;; load64 v.
(** a[i] for a of type [uint32_t *] (little-endian) *)
Definition ld32 (a : bytes) (i : nat) : option Z := v <- rd a (4 * i) 4 ;; Some (le_word v).
(** ((uint64_t)a[1+2*i] << 32) | a[2*i]; in the four-lane code the two words are neighbours in
    _mm256_set_epi32 *)
Definition addr_word (a : bytes) (i : nat) : option Z :=
  hi <- ld32 a (1 + 2 * i) ;; lo <- ld32 a (2 * i) ;; Some (Z.lor (u64 (Z.shiftl hi 32)) lo).
(** state[off + i] = f i for i < k *)
Definition put_loop (k off : nat) (f : nat -> option vec) (s : list vec) : option (list vec) :=
  iterM k 0 (fun i s => v <- f i ;; vput s (off + i) v) s.
(** state[i] ^= x in every lane *)
Definition vxor_at (s : list vec) (i : nat) (x : Z) : option (list vec) :=
  v <- get s i ;; vput s i (vxor v (vset1 x)).
Definition zero (_ : nat) : option vec := Some (vset1 0).

Section LaneShake.
Variable nl : nat.
Variable perm : list vec -> option (list vec).
(** Uninitialised arrays of bytes (as in HashShake.v) and of vectors. *)
Variable junk : nat -> nat -> Z.

(** For every lane. *)
Definition lanesM {A} (f : nat -> option A) : option (list A) := mapM f (seq 0 nl).
(** A vector with one word computed per lane. *)
Definition vlanes (f : nat -> option Z) : option vec := ws <- lanesM f ;; Some (vset ws).

(** ** fips202x4.c, fips202x2.c; line numbers of fips202x4.c *)
(** lines 56-62, 94-100: ss[nl*i+j] ^= load64(m_j + 8 * i) for i < k *)
Definition xor_wordsx (k : nat) (ms : list bytes) (s : list vec) : option (list vec) :=
  iterM k 0 (fun i s =>
    x <- vlanes (fun j => m <- get ms j ;; load_word m i) ;;
    v <- get s i ;;
    vput s i (vxor v x)) s.
(** lines 54-70: the whole blocks; the state, the length and the pointers at the end *)
Fixpoint absorb_loopx (fuel r mlen : nat) (ms : list bytes) (s : list vec)
  : option (list vec * nat * list bytes) :=
  if (mlen <? r)%nat then Some (s, mlen, ms) else
  match fuel with
  | O => None
  | S fuel' =>
      s <- xor_wordsx (r / 8) ms s ;;
      s <- perm s ;;
      absorb_loopx fuel' r (mlen - r) (map (skipn r) ms) s
  end.
(** lines 72-92 for one lane: the padded last block *)
Definition pad_block (t0 : bytes) (r mlen : nat) (m : bytes) (p : Z) : option bytes :=
  t <- wr t0 0 (repeat 0 r) ;;
  x <- rd m 0 mlen ;;
  t <- wr t 0 x ;;
  t <- wr t mlen [p] ;;
  y <- get t (r - 1) ;;
  wr t (r - 1) [Z.lor y 128].
(** lines 36-101; [junk (300 + j)] is the uninitialised t_j[200] *)
Definition keccak_absorbx (r : nat) (ms : list bytes) (mlen : nat) (p : Z) (s : list vec)
  : option (list vec) :=
  ' (s, mlen, ms) <- absorb_loopx mlen r mlen ms s ;;
  ts <- lanesM (fun j => m <- get ms j ;; pad_block (junk_bytes (junk (300 + j)) 200) r mlen m p) ;;
  xor_wordsx (r / 8) ts s.
(** The bytes of the given words, lane by lane. *)
Definition out_bytes (vs : list vec) : list bytes :=
  map (fun j => flat_map (fun v => store64 (v j)) vs) (seq 0 nl).
(** lines 104-130 *)
Fixpoint keccak_squeezeblocksx (nblocks r : nat) (s : list vec) : option (list bytes * list vec) :=
  match nblocks with
  | O => Some (repeat [] nl, s)
  | S n' =>
      s <- perm s ;;
      vs <- mapM (get s) (seq 0 (r / 8)) ;;
      ' (outs, s) <- keccak_squeezeblocksx n' r s ;;
      Some (map (fun p => fst p ++ snd p) (combine (out_bytes vs) outs), s)
  end.
(** lines 134-177 (r = SHAKE128_RATE) and 180-223 (r = SHAKE256_RATE); [s0] is the state set to zero.
    The [inlen] bytes at each pointer are taken first. *)
Definition shakex (s0 : list vec) (r outlen : nat) (ins : list bytes) (inlen : nat) : option (list bytes) :=
  ins <- mapM (fun x => rd x 0 inlen) ins ;;
  s <- keccak_absorbx r ins inlen 0x1F s0 ;;
  ' (outs, s) <- keccak_squeezeblocksx (outlen / r) r s ;;
  if (outlen mod r =? 0)%nat then Some outs else
  ' (ts, _) <- keccak_squeezeblocksx 1 r s ;;
  lanesM (fun j =>
    o <- get outs j ;; t <- get ts j ;;
    x <- rd t 0 (outlen mod r) ;; Some (o ++ x)).

(** ** thash and prf_addr *)
Variable P : params.
Notation N := (p_n P).
Notation CTX := (ctx unit).
(** the state after it was set to zero (fips202x4.c:196-198, fips202x2.c:130) *)
Variable s0 : list vec.
Definition shake256x := shakex s0 SHAKE256_RATE.
Definition shake128x := shakex s0 168.

(** the local array [state]: uninitialised (four lanes) or zero (two lanes) *)
Variable state0 : list vec.

(** thash_shake_simplex4.c:30-44, thash_shake_simplex2.c:38-48, and in the other files: public seed and
    addresses *)
Definition put_seed_addr (pub : bytes) (addrs : list bytes) (s : list vec) : option (list vec) :=
  s <- put_loop (N / 8) 0 (fun i => x <- load_word pub i ;; Some (vset1 x)) s ;;
  put_loop 4 (N / 8) (fun i => vlanes (fun j => a <- get addrs j ;; addr_word a i)) s.
(** the input words of all lanes at index i *)
Definition in_word (ins : list bytes) (i : nat) : option vec :=
  vlanes (fun j => x <- get ins j ;; load_word x i).
(** the last lines of the hand-made hashes: the first N/8 words are the output *)
Definition extract (s : list vec) : option (list bytes) :=
  vs <- mapM (get s) (seq 0 (N / 8)) ;; Some (out_bytes vs).
(** 0x80ULL << 56 *)
Definition PAD_END : Z := u64 (Z.shiftl 0x80 56).

(** thash_shake_simplex4.c:29-65 *)
Definition simple_state4 (pub : bytes) (k : nat) (ins addrs : list bytes) : option (list vec) :=
  let c := (N / 8 * (1 + k) + 4)%nat in
  s <- put_seed_addr pub addrs state0 ;;
  s <- put_loop (N / 8 * k) (N / 8 + 4) (in_word ins) s ;;
  s <- put_loop (16 - c) c zero s ;;
  s <- vput s 16 (vset1 PAD_END) ;;
  s <- vxor_at s c 0x1f ;;
  put_loop 8 17 zero s.
(** thash_shake_simplex2.c:37-60 *)
Definition simple_state2 (pub : bytes) (k : nat) (ins addrs : list bytes) : option (list vec) :=
  let c := (N / 8 * (1 + k) + 4)%nat in
  s <- put_seed_addr pub addrs state0 ;;
  s <- put_loop (N / 8 * k) (N / 8 + 4) (in_word ins) s ;;
  s <- vput s 16 (vset1 PAD_END) ;;
  vxor_at s c 0x1f.
(** thash_shake_robustx4.c:29-55 *)
Definition robust_state4 (pub : bytes) (addrs : list bytes) : option (list vec) :=
  s <- put_seed_addr pub addrs state0 ;;
  s <- vput s (N / 8 + 4) (vset1 0x1f) ;;
  s <- put_loop (16 - (N / 8 + 5)) (N / 8 + 5) zero s ;;
  s <- vput s 16 (vset1 PAD_END) ;;
  put_loop 8 17 zero s.
(** thash_shake_robustx2.c:37-59 *)
Definition robust_state2 (pub : bytes) (addrs : list bytes) : option (list vec) :=
  s <- put_seed_addr pub addrs state0 ;;
  s <- vput s 16 (vset1 PAD_END) ;;
  vxor_at s (N / 8 + 4) 0x1f.
(** hash_shakex4.c:19-55 *)
Definition prf_state4 (pub sk : bytes) (addrs : list bytes) : option (list vec) :=
  s <- put_seed_addr pub addrs state0 ;;
  s <- put_loop (N / 8) (N / 8 + 4) (fun i => x <- load_word sk i ;; Some (vset1 x)) s ;;
  s <- vput s (N / 4 + 4) (vset1 0x1f) ;;
  s <- put_loop (16 - (N / 4 + 5)) (N / 4 + 5) zero s ;;
  s <- vput s 16 (vset1 PAD_END) ;;
  put_loop 8 17 zero s.
(** hash_shakex2.c:19-43 *)
Definition prf_state2 (pub sk : bytes) (addrs : list bytes) : option (list vec) :=
  s <- put_seed_addr pub addrs state0 ;;
  s <- put_loop (N / 8) (N / 8 + 4) (fun i => x <- load_word sk i ;; Some (vset1 x)) s ;;
  s <- vput s (N / 4 + 4) (vset1 0x1f) ;;
  vput s 16 (vset1 PAD_END).

(** The two sets of files. *)
Variable four : bool.
Definition simple_state := if four then simple_state4 else simple_state2.
Definition robust_state := if four then robust_state4 else robust_state2.
Definition prf_state := if four then prf_state4 else prf_state2.

(** thash_shake_simplex4.c:14-102, thash_shake_simplex2.c:28-86 *)
Definition thashx_simple (c : CTX) (k : nat) (ins addrs : list bytes) : option (list bytes) :=
  if (k =? 1)%nat || (k =? 2)%nat then
    s <- simple_state (c_pub_seed c) k ins addrs ;;
    s <- perm s ;;
    extract s
  else
    bufs <- lanesM (fun j =>
      let buf := junk_bytes (junk (310 + j)) (N + SPX_ADDR_BYTES + k * N) in
      a <- get addrs j ;; x <- get ins j ;;
      buf <- memcpy buf 0 (c_pub_seed c) 0 N ;;
      buf <- memcpy buf N a 0 SPX_ADDR_BYTES ;;
      memcpy buf (N + SPX_ADDR_BYTES) x 0 (k * N)) ;;
    shake256x N bufs (N + SPX_ADDR_BYTES + k * N).

(** thash_shake_robustx4.c:14-138, thash_shake_robustx2.c:28-122 *)
Definition thashx_robust (c : CTX) (k : nat) (ins addrs : list bytes) : option (list bytes) :=
  if (k =? 1)%nat || (k =? 2)%nat then
    state <- robust_state (c_pub_seed c) addrs ;;
    let state2 := state in
    state <- perm state ;;
    state2 <- put_loop (N / 8 * k) (N / 8 + 4)
                (fun i => v <- get state i ;; x <- in_word ins i ;; Some (vxor v x)) state2 ;;
    state2 <- vxor_at state2 (N / 8 * (1 + k) + 4) 0x1f ;;
    state2 <- perm state2 ;;
    extract state2
  else
    bufs <- lanesM (fun j =>
      let buf := junk_bytes (junk (320 + j)) (N + SPX_ADDR_BYTES + k * N) in
      a <- get addrs j ;;
      buf <- memcpy buf 0 (c_pub_seed c) 0 N ;;
      memcpy buf N a 0 SPX_ADDR_BYTES) ;;
    masks <- shake256x (k * N) bufs (N + SPX_ADDR_BYTES) ;;
    bufs <- lanesM (fun j =>
      buf <- get bufs j ;; x <- get ins j ;; mask <- get masks j ;;
      xor_loop (k * N) buf (N + SPX_ADDR_BYTES) x 0 mask) ;;
    shake256x N bufs (N + SPX_ADDR_BYTES + k * N).

Definition thashx_shake (robust : bool) := if robust then thashx_robust else thashx_simple.

(** hash_shakex4.c:14-65, hash_shakex2.c:14-51 *)
Definition prf_addrx_shake (c : CTX) (addrs : list bytes) : option (list bytes) :=
  s <- prf_state (c_pub_seed c) (c_sk_seed c) addrs ;;
  s <- perm s ;;
  extract s.
End LaneShake.

(** ** The two implementations *)
(** [nl] words of uninitialised memory per vector, [vj] its contents. *)
Definition junk_vecs (vj : nat -> nat -> Z) : list vec := map (fun i j => vj i j) (seq 0 25).
Section Builds.
Variable P : params.
Variable junk : nat -> nat -> Z.
(** [vj]: the vectors in uninitialised arrays; their words are 64-bit. *)
Variable vj : nat -> nat -> Z.
Variable robust : bool.

(** shake-avx2: fips202x4.c:196-198 sets s[i] to s[i] ^ s[i]; the arrays [state] are uninitialised *)
Definition avx2_s0 : list vec := map (fun v => vxor v v) (junk_vecs vj).
Definition shake_avx2_lanes : lane_fns (shake_suite P junk robust) :=
  @mkLanes (shake_suite P junk robust)
    (thashx_shake 4 KeccakP1600times4_PermuteAll_24rounds junk P avx2_s0 (junk_vecs vj) true robust)
    (prf_addrx_shake 4 KeccakP1600times4_PermuteAll_24rounds P (junk_vecs vj) true).

(** shake-a64: uint64_t s[50] = {0}; v25 .. v31 hold anything when f1600x2 is called *)
Definition zero_vecs : list vec := repeat (vset1 0) 25.
Definition a64_perm : list vec -> option (list vec) := f1600x2 (map (fun i j => vj i j) (seq 25 7)).
Definition a64_thashx :=
  thashx_shake 2 a64_perm junk P zero_vecs zero_vecs false robust.
(** thash_shake_simplex2.c:14-23, thash_shake_robustx2.c:14-23: thash is thashx2 with both lanes the
    same and both outputs to the same place, so that every word of the second lane is stored last *)
Definition a64_thash (c : ctx unit) (k : nat) (inp addr : bytes) : option bytes :=
  outs <- a64_thashx c k [inp; inp] [addr; addr] ;; get outs 1.
(** shake-a64/Makefile: hash_shake.c and fips202.c are links to ref/ *)
Definition shake_a64_suite : suite := {|
  hs_layout := LShake;
  hs_st := unit;
  hs_init := fun _ => tt;
  hs_thash := a64_thash;
  hs_prf_addr := shake_prf_addr P junk;
  hs_gen_message_random := shake_gen_message_random P;
  hs_hash_message := shake_hash_message P
|}.
Definition shake_a64_lanes : lane_fns shake_a64_suite :=
  @mkLanes shake_a64_suite a64_thashx (prf_addrx_shake 2 a64_perm P zero_vecs false).
End Builds.
