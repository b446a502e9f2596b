(** The haraka-aesni build: haraka-aesni/haraka.c (Haraka with the AES instructions, one lane and four),
    hash_harakax4.c, thash_haraka_simplex4.c, thash_haraka_robustx4.c.  Its hash_haraka.c,
    thash_haraka_simple.c and thash_haraka_robust.c are links to ref/ (HashHaraka.v).

    A vector (__m128i) is the list of its 16 bytes, byte 0 the least significant.  The instructions are
    modelled after the Intel SDM; _mm_aesenc_si128 uses the AES functions of FIPS 197 (HarakaSpec.v).
    Every function loads all it needs from [in] before it stores to [out], so it is modelled as a
    function of the bytes at [in]; [out] may be the same place. *)
From Verif Require Import Base Params Address Suite Utils HarakaSpec Haraka HashShake HashHaraka Lanes.

(** ** Instructions; lines 19-22 *)
(** _mm_loadu_si128 *)
Definition LOAD (p : bytes) (o : nat) : option bytes := x <- rd p o 16 ;; Some (map u8 x).
(** _mm_storeu_si128 *)
Definition STORE (p : bytes) (o : nat) (v : bytes) : option bytes := wr p o (map u8 v).
Definition XOR128 (a b : bytes) : bytes := map (fun i => Z.lxor (nth i a 0) (nth i b 0)) (seq 0 16).
(** AESENC: ShiftRows, SubBytes, MixColumns, exclusive or with the round key *)
Definition aesenc (s k : bytes) : bytes := AddRoundKey (MixColumns (SubBytes (ShiftRows s))) k.
(** 32-bit and 64-bit elements *)
Definition dword (v : bytes) (i : nat) : bytes := firstn 4 (skipn (4 * i) v).
Definition qword (v : bytes) (i : nat) : bytes := firstn 8 (skipn (8 * i) v).
Definition unpacklo_epi32 (a b : bytes) : bytes := dword a 0 ++ dword b 0 ++ dword a 1 ++ dword b 1.
Definition unpackhi_epi32 (a b : bytes) : bytes := dword a 2 ++ dword b 2 ++ dword a 3 ++ dword b 3.
(** _mm_shuffle_pd(a, b, imm) for the two bits of imm *)
Definition shuffle_pd (a b : bytes) (lo hi : nat) : bytes := qword a lo ++ qword b hi.
(** _mm_set_epi32(e3, e2, e1, e0) *)
Definition set_epi32 (e3 e2 e1 e0 : Z) : bytes :=
  flat_map (fun w => map (fun i => u8 (Z.shiftr w (8 * Z.of_nat i))) (seq 0 4)) [e0; e1; e2; e3].

(** ** Macros, lines 24-71; [rc] is ctx->rc and [i] the offset of rci in it *)
Definition v2 : Type := bytes * bytes.
Definition v4 : Type := bytes * bytes * bytes * bytes.
Section Ni.
Variable rc : list bytes.
(** lines 24-28 *)
Definition AES2 (s : v2) (i : nat) : option v2 :=
  let '(s0, s1) := s in
  k <- get rc i ;; let s0 := aesenc s0 k in
  k <- get rc (i + 1) ;; let s1 := aesenc s1 k in
  k <- get rc (i + 2) ;; let s0 := aesenc s0 k in
  k <- get rc (i + 3) ;; let s1 := aesenc s1 k in
  Some (s0, s1).
(** lines 36-44 *)
Definition AES4 (s : v4) (i : nat) : option v4 :=
  let '(s0, s1, s2, s3) := s in
  k <- get rc i ;; let s0 := aesenc s0 k in
  k <- get rc (i + 1) ;; let s1 := aesenc s1 k in
  k <- get rc (i + 2) ;; let s2 := aesenc s2 k in
  k <- get rc (i + 3) ;; let s3 := aesenc s3 k in
  k <- get rc (i + 4) ;; let s0 := aesenc s0 k in
  k <- get rc (i + 5) ;; let s1 := aesenc s1 k in
  k <- get rc (i + 6) ;; let s2 := aesenc s2 k in
  k <- get rc (i + 7) ;; let s3 := aesenc s3 k in
  Some (s0, s1, s2, s3).
(** lines 52-55 *)
Definition MIX2 (s : v2) : v2 :=
  let '(s0, s1) := s in
  let tmp := unpacklo_epi32 s0 s1 in
  let s1 := unpackhi_epi32 s0 s1 in
  let s0 := tmp in
  (s0, s1).
(** lines 57-65 *)
Definition MIX4 (s : v4) : v4 :=
  let '(s0, s1, s2, s3) := s in
  let tmp := unpacklo_epi32 s0 s1 in
  let s0 := unpackhi_epi32 s0 s1 in
  let s1 := unpacklo_epi32 s2 s3 in
  let s2 := unpackhi_epi32 s2 s3 in
  let s3 := unpacklo_epi32 s0 s2 in
  let s0 := unpackhi_epi32 s0 s2 in
  let s2 := unpackhi_epi32 s1 tmp in
  let s1 := unpacklo_epi32 s1 tmp in
  (s0, s1, s2, s3).
(** lines 67-71: the 32 bytes stored *)
Definition TRUNCSTORE (s : v4) : bytes :=
  let '(s0, s1, s2, s3) := s in
  map u8 (shuffle_pd s0 s1 1 1) ++ map u8 (shuffle_pd s2 s3 0 0).

(** s[0] = LOAD(in + o) ... *)
Definition load2 (inp : bytes) (o : nat) : option v2 :=
  a <- LOAD inp o ;; b <- LOAD inp (o + 16) ;; Some (a, b).
Definition load4 (inp : bytes) (o : nat) : option v4 :=
  a <- LOAD inp o ;; b <- LOAD inp (o + 16) ;; c <- LOAD inp (o + 32) ;; d <- LOAD inp (o + 48) ;;
  Some (a, b, c, d).
(** STORE(out, s[0]); ...: the bytes stored *)
Definition store2 (s : v2) : bytes := let '(a, b) := s in map u8 a ++ map u8 b.
Definition store4 (s : v4) : bytes := let '(a, b, c, d) := s in map u8 a ++ map u8 b ++ map u8 c ++ map u8 d.
(** s[0] = XOR128(s[0], LOAD(in + o)); ... *)
Definition xor_in2 (s : v2) (inp : bytes) (o : nat) : option v2 :=
  let '(a, b) := s in
  x <- LOAD inp o ;; let a := XOR128 a x in
  x <- LOAD inp (o + 16) ;; let b := XOR128 b x in
  Some (a, b).
Definition xor_in4 (s : v4) (inp : bytes) (o : nat) : option v4 :=
  let '(a, b, c, d) := s in
  x <- LOAD inp o ;; let a := XOR128 a x in
  x <- LOAD inp (o + 16) ;; let b := XOR128 b x in
  x <- LOAD inp (o + 32) ;; let c := XOR128 c x in
  x <- LOAD inp (o + 48) ;; let d := XOR128 d x in
  Some (a, b, c, d).

(** ** One lane *)
(** the ten lines of rounds in haraka512_perm (lines 418-431) and haraka512; below, those of haraka256 *)
Definition rounds4 (s : v4) : option v4 :=
  s <- AES4 s 0 ;; let s := MIX4 s in
  s <- AES4 s 8 ;; let s := MIX4 s in
  s <- AES4 s 16 ;; let s := MIX4 s in
  s <- AES4 s 24 ;; let s := MIX4 s in
  s <- AES4 s 32 ;; let s := MIX4 s in
  Some s.
Definition rounds2 (s : v2) : option v2 :=
  s <- AES2 s 0 ;; let s := MIX2 s in
  s <- AES2 s 4 ;; let s := MIX2 s in
  s <- AES2 s 8 ;; let s := MIX2 s in
  s <- AES2 s 12 ;; let s := MIX2 s in
  s <- AES2 s 16 ;; let s := MIX2 s in
  Some s.
(** haraka512_perm, lines 408-437 *)
Definition ni_perm512 (inp : bytes) : option bytes :=
  s <- load4 inp 0 ;; s <- rounds4 s ;; Some (store4 s).
(** haraka512, lines 509-541 *)
Definition ni_512 (inp : bytes) : option bytes :=
  s <- load4 inp 0 ;; s <- rounds4 s ;; s <- xor_in4 s inp 0 ;; Some (TRUNCSTORE s).
(** haraka256, lines 618-646 *)
Definition ni_256 (inp : bytes) : option bytes :=
  s <- load2 inp 0 ;; s <- rounds2 s ;; s <- xor_in2 s inp 0 ;; Some (store2 s).

(** STORE(s + so, XOR128(LOAD(s + so), LOAD(m + mo))) *)
Definition xor16 (s : bytes) (so : nat) (m : bytes) (mo : nat) : option bytes :=
  a <- LOAD s so ;; b <- LOAD m mo ;; STORE s so (XOR128 a b).
(** The padded last block, lines 150-157: m holds the bytes left, fewer than r. *)
Definition pad_t (r : nat) (m : bytes) (p : Z) : option bytes :=
  t <- wr (repeat 0 r) 0 (map u8 m) ;;
  t <- wr t (length m) [p] ;;
  x <- get t (r - 1) ;;
  wr t (r - 1) [Z.lor x 128].
(** haraka_S_absorb, lines 134-160; the loop takes fuel, and m is what m points to from here on *)
Fixpoint ni_absorb (fuel r : nat) (s m : bytes) (p : Z) : option bytes :=
  if (length m <? r)%nat then
    t <- pad_t r m p ;;
    s <- xor16 s 0 t 0 ;;
    xor16 s 16 t 16
  else
    match fuel with
    | O => None
    | S fuel' =>
        s <- xor16 s 0 m 0 ;;
        s <- xor16 s 16 m 16 ;;
        s <- ni_perm512 s ;;
        ni_absorb fuel' r s (skipn r m) p
    end.
(** haraka_S_squeezeblocks, lines 230-241: the bytes written to h (r = 32 apart), and s *)
Fixpoint ni_squeezeblocks (nblocks : nat) (s : bytes) : option (bytes * bytes) :=
  match nblocks with
  | O => Some ([], s)
  | S n =>
      s <- ni_perm512 s ;;
      a <- LOAD s 0 ;; b <- LOAD s 16 ;;
      ' (r, s) <- ni_squeezeblocks n s ;;
      Some (a ++ b ++ r, s)
  end.
(** haraka_S, lines 342-364 *)
Definition ni_S (outlen : nat) (inp : bytes) : option bytes :=
  let s := repeat 0 64 in
  s <- ni_absorb (length inp) HARAKAS_RATE s inp 0x1F ;;
  ' (out, s) <- ni_squeezeblocks (outlen / HARAKAS_RATE) s ;;
  if (outlen mod HARAKAS_RATE =? 0)%nat then Some out
  else
    ' (d, _) <- ni_squeezeblocks 1 s ;;
    o <- rd d 0 (outlen mod HARAKAS_RATE) ;;
    Some (out ++ o).

(** ** Four lanes *)
(** AES2_4x, lines 30-34, and the four MIX2; AES4_4x, lines 46-50, and the four MIX4 *)
Definition round2_4x (s : v2 * v2 * v2 * v2) (i : nat) : option (v2 * v2 * v2 * v2) :=
  let '(a, b, c, d) := s in
  a <- AES2 a i ;; b <- AES2 b i ;; c <- AES2 c i ;; d <- AES2 d i ;;
  Some (MIX2 a, MIX2 b, MIX2 c, MIX2 d).
Definition round4_4x (s : v4 * v4 * v4 * v4) (i : nat) : option (v4 * v4 * v4 * v4) :=
  let '(a, b, c, d) := s in
  a <- AES4 a i ;; b <- AES4 b i ;; c <- AES4 c i ;; d <- AES4 d i ;;
  Some (MIX4 a, MIX4 b, MIX4 c, MIX4 d).
Definition rounds4_4x (s : v4 * v4 * v4 * v4) : option (v4 * v4 * v4 * v4) :=
  s <- round4_4x s 0 ;; s <- round4_4x s 8 ;; s <- round4_4x s 16 ;; s <- round4_4x s 24 ;; round4_4x s 32.
Definition rounds2_4x (s : v2 * v2 * v2 * v2) : option (v2 * v2 * v2 * v2) :=
  s <- round2_4x s 0 ;; s <- round2_4x s 4 ;; s <- round2_4x s 8 ;; s <- round2_4x s 12 ;; round2_4x s 16.
Definition load4_4x (inp : bytes) : option (v4 * v4 * v4 * v4) :=
  a <- load4 inp 0 ;; b <- load4 inp 64 ;; c <- load4 inp 128 ;; d <- load4 inp 192 ;; Some (a, b, c, d).
Definition load2_4x (inp : bytes) : option (v2 * v2 * v2 * v2) :=
  a <- load2 inp 0 ;; b <- load2 inp 32 ;; c <- load2 inp 64 ;; d <- load2 inp 96 ;; Some (a, b, c, d).
(** haraka512_perm_x4, lines 439-507: 256 bytes to 256 bytes *)
Definition ni_perm512_x4 (inp : bytes) : option bytes :=
  s <- load4_4x inp ;;
  s <- rounds4_4x s ;;
  let '(a, b, c, d) := s in Some (store4 a ++ store4 b ++ store4 c ++ store4 d).
(** haraka512x4, lines 543-616: 256 bytes to 128 bytes *)
Definition ni_512x4 (inp : bytes) : option bytes :=
  s <- load4_4x inp ;;
  ' (a, b, c, d) <- rounds4_4x s ;;
  a <- xor_in4 a inp 0 ;; b <- xor_in4 b inp 64 ;; c <- xor_in4 c inp 128 ;; d <- xor_in4 d inp 192 ;;
  Some (TRUNCSTORE a ++ TRUNCSTORE b ++ TRUNCSTORE c ++ TRUNCSTORE d).
(** haraka256x4, lines 648-720: 128 bytes to 128 bytes *)
Definition ni_256x4 (inp : bytes) : option bytes :=
  s <- load2_4x inp ;;
  ' (a, b, c, d) <- rounds2_4x s ;;
  a <- xor_in2 a inp 0 ;; b <- xor_in2 b inp 32 ;; c <- xor_in2 c inp 64 ;; d <- xor_in2 d inp 96 ;;
  Some (store2 a ++ store2 b ++ store2 c ++ store2 d).

(** The eight lines STORE(s + 64 * j + 16 * h, XOR128(LOAD(s + 64 * j + 16 * h), LOAD(m_j + 16 * h))) *)
Definition xor_x4 (s : bytes) (ms : list bytes) : option bytes :=
  iterM 4 0 (fun j s =>
    m <- get ms j ;;
    s <- xor16 s (64 * j) m 0 ;;
    xor16 s (64 * j + 16) m 16) s.
(** haraka_S_absorb4x, lines 162-228; every m_j points to mlen more bytes *)
Fixpoint ni_absorb4x (fuel r : nat) (s : bytes) (ms : list bytes) (mlen : nat) (p : Z) : option bytes :=
  if (mlen <? r)%nat then
    ts <- mapM (fun m => x <- rd m 0 mlen ;; pad_t r x p) ms ;;
    xor_x4 s ts
  else
    match fuel with
    | O => None
    | S fuel' =>
        s <- xor_x4 s ms ;;
        s <- ni_perm512_x4 s ;;
        ni_absorb4x fuel' r s (map (skipn r) ms) (mlen - r) p
    end.
(** haraka_S_squeezeblocks4x, lines 243-268: the bytes written to h0 .. h3, and s *)
Fixpoint ni_squeezeblocks4x (nblocks : nat) (s : bytes) : option (list bytes * bytes) :=
  match nblocks with
  | O => Some (repeat [] 4, s)
  | S n =>
      s <- ni_perm512_x4 s ;;
      hs <- mapM (fun j => a <- LOAD s (64 * j) ;; b <- LOAD s (64 * j + 16) ;; Some (a ++ b)) (seq 0 4) ;;
      ' (rs, s) <- ni_squeezeblocks4x n s ;;
      Some (map (fun p => fst p ++ snd p) (combine hs rs), s)
  end.
(** haraka_Sx4, lines 366-406.  The [inlen] bytes at each pointer are taken first. *)
Definition ni_Sx4 (outlen : nat) (ins : list bytes) (inlen : nat) : option (list bytes) :=
  ins <- mapM (fun x => rd x 0 inlen) ins ;;
  s <- ni_absorb4x inlen HARAKAS_RATE (repeat 0 256) ins inlen 0x1F ;;
  ' (outs, s) <- ni_squeezeblocks4x (outlen / HARAKAS_RATE) s ;;
  if (outlen mod HARAKAS_RATE =? 0)%nat then Some outs
  else
    ' (ds, _) <- ni_squeezeblocks4x 1 s ;;
    mapM (fun p => o <- rd (snd p) 0 (outlen mod HARAKAS_RATE) ;; Some (fst p ++ o)) (combine outs ds).
End Ni.

(** ** Constants *)
(** load_haraka_constants, lines 73-115 *)
Definition load_haraka_constants : list bytes := [
set_epi32 0x0684704c 0xe620c00a 0xb2c5fef0 0x75817b9d;
   set_epi32 0x8b66b4e1 0x88f3a06b 0x640f6ba4 0x2f08f717;
   set_epi32 0x3402de2d 0x53f28498 0xcf029d60 0x9f029114;
   set_epi32 0x0ed6eae6 0x2e7b4f08 0xbbf3bcaf 0xfd5b4f79;
   set_epi32 0xcbcfb0cb 0x4872448b 0x79eecd1c 0xbe397044;
   set_epi32 0x7eeacdee 0x6e9032b7 0x8d5335ed 0x2b8a057b;
   set_epi32 0x67c28f43 0x5e2e7cd0 0xe2412761 0xda4fef1b;
   set_epi32 0x2924d9b0 0xafcacc07 0x675ffde2 0x1fc70b3b;
   set_epi32 0xab4d63f1 0xe6867fe9 0xecdb8fca 0xb9d465ee;
   set_epi32 0x1c30bf84 0xd4b7cd64 0x5b2a404f 0xad037e33;
   set_epi32 0xb2cc0bb9 0x941723bf 0x69028b2e 0x8df69800;
   set_epi32 0xfa0478a6 0xde6f5572 0x4aaa9ec8 0x5c9d2d8a;
   set_epi32 0xdfb49f2b 0x6b772a12 0x0efa4f2e 0x29129fd4;
   set_epi32 0x1ea10344 0xf449a236 0x32d611ae 0xbb6a12ee;
   set_epi32 0xaf044988 0x4b050084 0x5f9600c9 0x9ca8eca6;
   set_epi32 0x21025ed8 0x9d199c4f 0x78a2c7e3 0x27e593ec;
   set_epi32 0xbf3aaaf8 0xa759c9b7 0xb9282ecd 0x82d40173;
   set_epi32 0x6260700d 0x6186b017 0x37f2efd9 0x10307d6b;
   set_epi32 0x5aca45c2 0x21300443 0x81c29153 0xf6fc9ac6;
   set_epi32 0x9223973c 0x226b68bb 0x2caf92e8 0x36d1943a;
   set_epi32 0xd3bf9238 0x225886eb 0x6cbab958 0xe51071b4;
   set_epi32 0xdb863ce5 0xaef0c677 0x933dfddd 0x24e1128d;
   set_epi32 0xbb606268 0xffeba09c 0x83e48de3 0xcb2212b1;
   set_epi32 0x734bd3dc 0xe2e4d19c 0x2db91a4e 0xc72bf77d;
   set_epi32 0x43bb47c3 0x61301b43 0x4b1415c4 0x2cb3924e;
   set_epi32 0xdba775a8 0xe707eff6 0x03b231dd 0x16eb6899;
   set_epi32 0x6df3614b 0x3c755977 0x8e5e2302 0x7eca472c;
   set_epi32 0xcda75a17 0xd6de7d77 0x6d1be5b9 0xb88617f9;
   set_epi32 0xec6b43f0 0x6ba8e9aa 0x9d6c069d 0xa946ee5d;
   set_epi32 0xcb1e6950 0xf957332b 0xa2531159 0x3bf327c1;
   set_epi32 0x2cee0c75 0x00da619c 0xe4ed0353 0x600ed0d9;
   set_epi32 0xf0b1a5a1 0x96e90cab 0x80bbbabc 0x63a4a350;
   set_epi32 0xae3db102 0x5e962988 0xab0dde30 0x938dca39;
   set_epi32 0x17bb8f38 0xd554a40b 0x8814f3a8 0x2e75b442;
   set_epi32 0x34bb8a5b 0x5f427fd7 0xaeb6b779 0x360a16f6;
   set_epi32 0x26f65241 0xcbe55438 0x43ce5918 0xffbaafde;
   set_epi32 0x4ce99a54 0xb9f3026a 0xa2ca9cf7 0x839ec978;
   set_epi32 0xae51a51a 0x1bdff7be 0x40c06e28 0x22901235;
   set_epi32 0xa0c1613c 0xba7ed22b 0xc173bc0f 0x48a659cf;
   set_epi32 0x756acc03 0x02288288 0x4ad6bdfd 0xe9c59da1].
(** tweak_constants, lines 117-132; [None] if a buffer was left *)
Definition ni_st : Type := option (list bytes).
Definition ni_tweak_constants (n : nat) (pub_seed : bytes) : ni_st :=
  s <- rd pub_seed 0 n ;;
  buf <- ni_S load_haraka_constants (40 * 16) s ;;
  mapM (fun i => LOAD buf (i * 16)) (seq 0 40).

(** ** The build *)
Definition ni_fns (s : ni_st) : option haraka_fns :=
  rc <- s ;;
  Some {| hk_perm := ni_perm512 rc; hk_S := ni_S rc; hk_512 := ni_512 rc; hk_256 := ni_256 rc |}.
Definition ni_suite (P : params) (junk : nat -> nat -> Z) : bool -> suite :=
  hk_suite P junk ni_st ni_fns (ni_tweak_constants (p_n P)).

Section LaneHaraka.
Variable P : params.
Notation N := (p_n P).
Variable junk : nat -> nat -> Z.
Notation CTX := (ctx ni_st).
(** memcpy(out_j, outbuf + 32 * j, SPX_N) *)
Definition outs32 (outbuf : bytes) : option (list bytes) := mapM (fun j => rd outbuf (32 * j) N) (seq 0 4).

(** hash_harakax4.c:13-36 *)
Definition prf_addrx_haraka (c : CTX) (addrs : list bytes) : option (list bytes) :=
  rc <- c_state c ;;
  let bufx4 := repeat 0 (4 * 64) in
  bufx4 <- iterM 4 0 (fun i b =>
    a <- get addrs i ;;
    b <- memcpy b (i * 64) a 0 SPX_ADDR_BYTES ;;
    memcpy b (i * 64 + SPX_ADDR_BYTES) (c_sk_seed c) 0 N) bufx4 ;;
  outbuf <- ni_512x4 rc bufx4 ;;
  outs32 outbuf.

(** thash_haraka_simplex4.c:15-67 *)
Definition thashx_haraka_simple (c : CTX) (k : nat) (ins addrs : list bytes) : option (list bytes) :=
  rc <- c_state c ;;
  if (k =? 1)%nat then
    let buf := repeat 0 (64 * 4) in
    buf <- iterM 4 0 (fun j b => a <- get addrs j ;; memcpy b (64 * j) a 0 32) buf ;;
    buf <- iterM 4 0 (fun j b => x <- get ins j ;; memcpy b (SPX_ADDR_BYTES + 64 * j) x 0 N) buf ;;
    outbuf <- ni_512x4 rc buf ;;
    outs32 outbuf
  else
    bufs <- mapM (fun j =>
      let buf := junk_bytes (junk (330 + j)) (SPX_ADDR_BYTES + k * N) in
      a <- get addrs j ;; x <- get ins j ;;
      buf <- memcpy buf 0 a 0 32 ;;
      memcpy buf SPX_ADDR_BYTES x 0 (k * N)) (seq 0 4) ;;
    ni_Sx4 rc N bufs (SPX_ADDR_BYTES + k * N).

(** thash_haraka_robustx4.c:15-93; the arrays buf0 .. buf3 are filled one after the other *)
Definition thashx_haraka_robust (c : CTX) (k : nat) (ins addrs : list bytes) : option (list bytes) :=
  rc <- c_state c ;;
  if (k =? 1)%nat then
    let buf := repeat 0 (64 * 4) in
    buf <- iterM 4 0 (fun j b => a <- get addrs j ;; memcpy b (32 * j) a 0 32) buf ;;
    outbuf <- ni_256x4 rc buf ;;
    buf <- memcpy buf 192 buf 96 SPX_ADDR_BYTES ;;
    buf <- memcpy buf 128 buf 64 SPX_ADDR_BYTES ;;
    buf <- memcpy buf 64 buf 32 SPX_ADDR_BYTES ;;
    buf <- wr buf 32 (repeat 0 SPX_ADDR_BYTES) ;;
    buf <- wr buf 96 (repeat 0 SPX_ADDR_BYTES) ;;
    buf <- iterM N 0 (fun i b =>
      iterM 4 0 (fun j b =>
        m <- get ins j ;; x <- get m i ;; y <- get outbuf (i + 32 * j) ;;
        wr b (SPX_ADDR_BYTES + i + 64 * j) [Z.lxor (u8 x) (u8 y)]) b) buf ;;
    outbuf <- ni_512x4 rc buf ;;
    outs32 outbuf
  else
    bufs <- mapM (fun j =>
      let buf := junk_bytes (junk (340 + j)) (SPX_ADDR_BYTES + k * N) in
      a <- get addrs j ;; memcpy buf 0 a 0 32) (seq 0 4) ;;
    masks <- ni_Sx4 rc (k * N) bufs SPX_ADDR_BYTES ;;
    bufs <- mapM (fun j =>
      buf <- get bufs j ;; x <- get ins j ;; mask <- get masks j ;;
      xor_loop (k * N) buf SPX_ADDR_BYTES x 0 mask) (seq 0 4) ;;
    ni_Sx4 rc N bufs (SPX_ADDR_BYTES + k * N).

Definition ni_lanes (robust : bool) : lane_fns (ni_suite P junk robust) :=
  @mkLanes (ni_suite P junk robust)
    (if robust then thashx_haraka_robust else thashx_haraka_simple) prf_addrx_haraka.
End LaneHaraka.
