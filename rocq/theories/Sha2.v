(** ref/sha2.c, transcribed line by line.

    The 32-bit and the 64-bit half of the file are the same text with other constants (the SHR, ROTR,
    Ch, Maj, M, EXPAND and F macros and the two crypto_hashblocks functions); they are one definition
    here, over a record [alg] of those constants.  The parts of the text that do differ (the rounds
    with their constants, the IVs, the padding) are transcribed separately.  A sum of unsigned words
    is reduced once, at the assignment: the same value as C's reduction at every +. *)
From Verif Require Import Base Address.

(** One line of the body of crypto_hashblocks: F(w_i, k) or EXPAND. *)
Inductive step := F (i : nat) (k : Z) | EXPAND.

(** sha2.c:72-88 and 90-106: the arguments (w_i, w_i14, w_i9, w_i1) of the lines of EXPAND. *)
Definition expand_lines : list (nat * nat * nat * nat) :=
  ([(0, 14, 9, 1); (1, 15, 10, 2); (2, 0, 11, 3); (3, 1, 12, 4); (4, 2, 13, 5); (5, 3, 14, 6); (6, 4, 15, 7); (7, 5, 0, 8); (8, 6, 1, 9); (9, 7, 2, 10); (10, 8, 3, 11); (11, 9, 4, 12); (12, 10, 5, 13); (13, 11, 6, 14); (14, 12, 7, 15); (15, 13, 8, 0)])%nat.

(** sha2.c:181-253 *)
Definition prog_256 : list step :=
  [
   F 0 0x428a2f98; F 1 0x71374491; F 2 0xb5c0fbcf; F 3 0xe9b5dba5;
   F 4 0x3956c25b; F 5 0x59f111f1; F 6 0x923f82a4; F 7 0xab1c5ed5;
   F 8 0xd807aa98; F 9 0x12835b01; F 10 0x243185be; F 11 0x550c7dc3;
   F 12 0x72be5d74; F 13 0x80deb1fe; F 14 0x9bdc06a7; F 15 0xc19bf174;
   EXPAND; F 0 0xe49b69c1; F 1 0xefbe4786; F 2 0x0fc19dc6;
   F 3 0x240ca1cc; F 4 0x2de92c6f; F 5 0x4a7484aa; F 6 0x5cb0a9dc;
   F 7 0x76f988da; F 8 0x983e5152; F 9 0xa831c66d; F 10 0xb00327c8;
   F 11 0xbf597fc7; F 12 0xc6e00bf3; F 13 0xd5a79147; F 14 0x06ca6351;
   F 15 0x14292967; EXPAND; F 0 0x27b70a85; F 1 0x2e1b2138;
   F 2 0x4d2c6dfc; F 3 0x53380d13; F 4 0x650a7354; F 5 0x766a0abb;
   F 6 0x81c2c92e; F 7 0x92722c85; F 8 0xa2bfe8a1; F 9 0xa81a664b;
   F 10 0xc24b8b70; F 11 0xc76c51a3; F 12 0xd192e819; F 13 0xd6990624;
   F 14 0xf40e3585; F 15 0x106aa070; EXPAND; F 0 0x19a4c116;
   F 1 0x1e376c08; F 2 0x2748774c; F 3 0x34b0bcb5; F 4 0x391c0cb3;
   F 5 0x4ed8aa4a; F 6 0x5b9cca4f; F 7 0x682e6ff3; F 8 0x748f82ee;
   F 9 0x78a5636f; F 10 0x84c87814; F 11 0x8cc70208; F 12 0x90befffa;
   F 13 0xa4506ceb; F 14 0xbef9a3f7; F 15 0xc67178f2].
(** sha2.c:330-421 *)
Definition prog_512 : list step :=
  [
   F 0 0x428a2f98d728ae22; F 1 0x7137449123ef65cd; F 2 0xb5c0fbcfec4d3b2f; F 3 0xe9b5dba58189dbbc;
   F 4 0x3956c25bf348b538; F 5 0x59f111f1b605d019; F 6 0x923f82a4af194f9b; F 7 0xab1c5ed5da6d8118;
   F 8 0xd807aa98a3030242; F 9 0x12835b0145706fbe; F 10 0x243185be4ee4b28c; F 11 0x550c7dc3d5ffb4e2;
   F 12 0x72be5d74f27b896f; F 13 0x80deb1fe3b1696b1; F 14 0x9bdc06a725c71235; F 15 0xc19bf174cf692694;
   EXPAND; F 0 0xe49b69c19ef14ad2; F 1 0xefbe4786384f25e3; F 2 0x0fc19dc68b8cd5b5;
   F 3 0x240ca1cc77ac9c65; F 4 0x2de92c6f592b0275; F 5 0x4a7484aa6ea6e483; F 6 0x5cb0a9dcbd41fbd4;
   F 7 0x76f988da831153b5; F 8 0x983e5152ee66dfab; F 9 0xa831c66d2db43210; F 10 0xb00327c898fb213f;
   F 11 0xbf597fc7beef0ee4; F 12 0xc6e00bf33da88fc2; F 13 0xd5a79147930aa725; F 14 0x06ca6351e003826f;
   F 15 0x142929670a0e6e70; EXPAND; F 0 0x27b70a8546d22ffc; F 1 0x2e1b21385c26c926;
   F 2 0x4d2c6dfc5ac42aed; F 3 0x53380d139d95b3df; F 4 0x650a73548baf63de; F 5 0x766a0abb3c77b2a8;
   F 6 0x81c2c92e47edaee6; F 7 0x92722c851482353b; F 8 0xa2bfe8a14cf10364; F 9 0xa81a664bbc423001;
   F 10 0xc24b8b70d0f89791; F 11 0xc76c51a30654be30; F 12 0xd192e819d6ef5218; F 13 0xd69906245565a910;
   F 14 0xf40e35855771202a; F 15 0x106aa07032bbd1b8; EXPAND; F 0 0x19a4c116b8d2d0c8;
   F 1 0x1e376c085141ab53; F 2 0x2748774cdf8eeb99; F 3 0x34b0bcb5e19b48a8; F 4 0x391c0cb3c5c95a63;
   F 5 0x4ed8aa4ae3418acb; F 6 0x5b9cca4f7763e373; F 7 0x682e6ff3d6b2b8a3; F 8 0x748f82ee5defb2fc;
   F 9 0x78a5636f43172f60; F 10 0x84c87814a1f0ab72; F 11 0x8cc702081a6439ec; F 12 0x90befffa23631e28;
   F 13 0xa4506cebde82bde9; F 14 0xbef9a3f7b2c67915; F 15 0xc67178f2e372532b; EXPAND;
   F 0 0xca273eceea26619c; F 1 0xd186b8c721c0c207; F 2 0xeada7dd6cde0eb1e; F 3 0xf57d4f7fee6ed178;
   F 4 0x06f067aa72176fba; F 5 0x0a637dc5a2c898a6; F 6 0x113f9804bef90dae; F 7 0x1b710b35131c471b;
   F 8 0x28db77f523047d84; F 9 0x32caab7b40c72493; F 10 0x3c9ebe0a15c9bebc; F 11 0x431d67c49c100d4c;
   F 12 0x4cc5d4becb3e42b6; F 13 0x597f299cfc657e2a; F 14 0x5fcb6fab3ad6faec; F 15 0x6c44198c4a475817].

(** sha2.c:458-463 *)
Definition iv_256 : bytes :=
  [
   0x6a; 0x09; 0xe6; 0x67; 0xbb; 0x67; 0xae; 0x85;
   0x3c; 0x6e; 0xf3; 0x72; 0xa5; 0x4f; 0xf5; 0x3a;
   0x51; 0x0e; 0x52; 0x7f; 0x9b; 0x05; 0x68; 0x8c;
   0x1f; 0x83; 0xd9; 0xab; 0x5b; 0xe0; 0xcd; 0x19].
(** sha2.c:465-472 *)
Definition iv_512 : bytes :=
  [
   0x6a; 0x09; 0xe6; 0x67; 0xf3; 0xbc; 0xc9; 0x08;
   0xbb; 0x67; 0xae; 0x85; 0x84; 0xca; 0xa7; 0x3b;
   0x3c; 0x6e; 0xf3; 0x72; 0xfe; 0x94; 0xf8; 0x2b;
   0xa5; 0x4f; 0xf5; 0x3a; 0x5f; 0x1d; 0x36; 0xf1;
   0x51; 0x0e; 0x52; 0x7f; 0xad; 0xe6; 0x82; 0xd1;
   0x9b; 0x05; 0x68; 0x8c; 0x2b; 0x3e; 0x6c; 0x1f;
   0x1f; 0x83; 0xd9; 0xab; 0xfb; 0x41; 0xbd; 0x6b;
   0x5b; 0xe0; 0xcd; 0x19; 0x13; 0x7e; 0x21; 0x79].

(** sha2.c:12-15, 17-22 *)
Definition load_bigendian_32 (x : bytes) (o : nat) : option Z :=
  x0 <- get x o ;; x1 <- get x (o + 1) ;; x2 <- get x (o + 2) ;; x3 <- get x (o + 3) ;;
  Some (Z.lor (Z.lor (Z.lor (u8 x3) (Z.shiftl (u8 x2) 8)) (Z.shiftl (u8 x1) 16)) (Z.shiftl (u8 x0) 24)).
Definition load_bigendian_64 (x : bytes) (o : nat) : option Z :=
  x0 <- get x o ;; x1 <- get x (o + 1) ;; x2 <- get x (o + 2) ;; x3 <- get x (o + 3) ;;
  x4 <- get x (o + 4) ;; x5 <- get x (o + 5) ;; x6 <- get x (o + 6) ;; x7 <- get x (o + 7) ;;
  Some (Z.lor (Z.lor (Z.lor (Z.lor (Z.lor (Z.lor (Z.lor (u8 x7) (Z.shiftl (u8 x6) 8))
    (Z.shiftl (u8 x5) 16)) (Z.shiftl (u8 x4) 24)) (Z.shiftl (u8 x3) 32)) (Z.shiftl (u8 x2) 40))
    (Z.shiftl (u8 x1) 48)) (Z.shiftl (u8 x0) 56)).
(** sha2.c:24-32, 34-50: the last byte first, then u >>= 8; [k] bytes. *)
Fixpoint store_bigendian_loop (k : nat) (u : Z) (acc : bytes) : bytes :=
  match k with O => acc | S k' => store_bigendian_loop k' (Z.shiftr u 8) (u8 u :: acc) end.
Definition store_bigendian (k : nat) (u : Z) : bytes := store_bigendian_loop k u [].

(** What differs between the two halves of the file. *)
Record alg := {
  a_w : Z;                              (* the 32 / 64 of ROTR and of uint32_t / uint64_t *)
  a_wb : nat;                           (* sizeof the word *)
  a_S0 : Z * Z * Z; a_S1 : Z * Z * Z;   (* the constants of Sigma0, Sigma1 *)
  a_s0 : Z * Z * Z; a_s1 : Z * Z * Z;   (* the constants of sigma0, sigma1 *)
  a_load : bytes -> nat -> option Z;
  a_prog : list step
}.
(** sha2.c:59-62 *)
Definition alg256 := {| a_w := 32; a_wb := 4;
  a_S0 := (2, 13, 22); a_S1 := (6, 11, 25); a_s0 := (7, 18, 3); a_s1 := (17, 19, 10);
  a_load := load_bigendian_32; a_prog := prog_256 |}.
(** sha2.c:64-67 *)
Definition alg512 := {| a_w := 64; a_wb := 8;
  a_S0 := (28, 34, 39); a_S1 := (14, 18, 41); a_s0 := (1, 8, 7); a_s1 := (19, 61, 6);
  a_load := load_bigendian_64; a_prog := prog_512 |}.

Section Alg.
Variable A : alg.
(** Conversion to the word type. *)
Definition uw (x : Z) : Z := x mod 2 ^ a_w A.

(** sha2.c:52-57 *)
Definition ROTR (x c : Z) : Z := Z.lor (Z.shiftr x c) (uw (Z.shiftl x (a_w A - c))).
Definition Ch (x y z : Z) : Z := Z.lxor (Z.land x y) (Z.land (uw (Z.lnot x)) z).
Definition Maj (x y z : Z) : Z := Z.lxor (Z.lxor (Z.land x y) (Z.land x z)) (Z.land y z).
(** sha2.c:59-67: Sigma with three rotations, sigma with two rotations and a shift *)
Definition Sigma (k : Z * Z * Z) (x : Z) : Z :=
  let '(k1, k2, k3) := k in Z.lxor (Z.lxor (ROTR x k1) (ROTR x k2)) (ROTR x k3).
Definition sigma (k : Z * Z * Z) (x : Z) : Z :=
  let '(k1, k2, k3) := k in Z.lxor (Z.lxor (ROTR x k1) (ROTR x k2)) (Z.shiftr x k3).

(** sha2.c:69-70 *)
Definition M_line (w : list Z) (l : nat * nat * nat * nat) : option (list Z) :=
  let '(i0, i14, i9, i1) := l in
  w14 <- get w i14 ;; w9 <- get w i9 ;; w1 <- get w i1 ;; w0 <- get w i0 ;;
  wr w i0 [uw (sigma (a_s1 A) w14 + w9 + sigma (a_s0 A) w1 + w0)].
Fixpoint M_lines (w : list Z) (l : list (nat * nat * nat * nat)) : option (list Z) :=
  match l with [] => Some w | x :: l' => w <- M_line w x ;; M_lines w l' end.

(** sha2.c:108-118, 120-130; [s] is a, b, c, d, e, f, g, h *)
Definition F_line (s : list Z) (w k : Z) : option (list Z) :=
  match s with
  | [a; b; c; d; e; f; g; h] =>
      let T1 := uw (h + Sigma (a_S1 A) e + Ch e f g + k + w) in
      let T2 := uw (Sigma (a_S0 A) a + Maj a b c) in
      let h := g in
      let g := f in
      let f := e in
      let e := uw (d + T1) in
      let d := c in
      let c := b in
      let b := a in
      let a := uw (T1 + T2) in
      Some [a; b; c; d; e; f; g; h]
  | _ => None
  end.
Fixpoint exec (p : list step) (w s : list Z) : option (list Z) :=
  match p with
  | [] => Some s
  | EXPAND :: p' => w <- M_lines w expand_lines ;; exec p' w s
  | F i k :: p' => wi <- get w i ;; s <- F_line s wi k ;; exec p' w s
  end.

(** [k] consecutive loads, sha2.c:147-162 and 165-180 / 304-319 and 313-328 *)
Fixpoint load_words (k : nat) (x : bytes) (o : nat) : option (list Z) :=
  match k with
  | O => Some []
  | S k' => a <- a_load A x o ;; r <- load_words k' x (o + a_wb A) ;; Some (a :: r)
  end.

(** a += state[0] .. h += state[7], sha2.c:255-262 / 423-430 *)
Definition add_state (s st : list Z) : list Z :=
  map (fun p => uw (fst p + snd p)) (combine s st).

(** The block size in bytes: 64 / 128 *)
Definition a_bsz : nat := (16 * a_wb A)%nat.

(** while (inlen >= 64), sha2.c:164-275 / 312-442.  [s] = a..h, [st] = state[8], [in] is the offset
    [o]. *)
Fixpoint hashblocks_loop (fuel : nat) (s st : list Z) (inp : bytes) (o inlen : nat)
  : option (list Z) :=
  if (inlen <? a_bsz)%nat then Some st
  else match fuel with
  | O => None
  | S fuel' =>
      w <- load_words 16 inp o ;;
      s <- exec (a_prog A) w s ;;
      let s := add_state s st in
      hashblocks_loop fuel' s s inp (o + a_bsz) (inlen - a_bsz)
  end.

(** crypto_hashblocks_sha256, sha2.c:132-287 / _sha512, 289-456: the new contents of the state
    buffer.  [in] points at offset [o] of [inp]. *)
Definition hashblocks (statebytes inp : bytes) (o inlen : nat) : option bytes :=
  s <- load_words 8 statebytes 0 ;;
  st <- hashblocks_loop (S inlen) s s inp o inlen ;;
  wr statebytes 0 (flat_map (store_bigendian (a_wb A)) st).
End Alg.

(** sha2.c:474-481: the 40 bytes of the state *)
Definition sha256_inc_init : bytes := iv_256 ++ repeat 0 8.
(** sha2.c:483-490 *)
Definition sha512_inc_init : bytes := iv_512 ++ repeat 0 8.

(** sha2.c:492-499 *)
Definition sha256_inc_blocks (state inp : bytes) (inblocks : nat) : option bytes :=
  n <- load_bigendian_64 state 32 ;;
  state <- hashblocks alg256 state inp 0 (64 * inblocks) ;;
  let n := u64 (n + 64 * Z.of_nat inblocks) in
  wr state 32 (store_bigendian 8 n).
(** sha2.c:501-508 *)
Definition sha512_inc_blocks (state inp : bytes) (inblocks : nat) : option bytes :=
  n <- load_bigendian_64 state 64 ;;
  state <- hashblocks alg512 state inp 0 (128 * inblocks) ;;
  let n := u64 (n + 128 * Z.of_nat inblocks) in
  wr state 64 (store_bigendian 8 n).

(** padded[i] = v(i) for from <= i < to *)
Definition fill (padded : bytes) (from to : nat) : option bytes := wr padded from (repeat 0 (to - from)).

(** The last bytes of the padding: bytes >> 53, .., bytes >> 5, bytes << 3 *)
Definition len_bytes (n : Z) : bytes :=
  [u8 (Z.shiftr n 53); u8 (Z.shiftr n 45); u8 (Z.shiftr n 37); u8 (Z.shiftr n 29);
   u8 (Z.shiftr n 21); u8 (Z.shiftr n 13); u8 (Z.shiftr n 5); u8 (u64 (Z.shiftl n 3))].

Section Finalize.
(** The contents of the uninitialised local array padded. *)
Variable junk : nat -> Z.

(** sha2.c:510-555.  [in] has [inlen] = its length bytes. *)
Definition sha256_inc_finalize (state inp : bytes) : option bytes :=
  let padded := junk_bytes junk 128 in
  let inlen := length inp in
  n <- load_bigendian_64 state 32 ;;
  let n := u64 (n + Z.of_nat inlen) in
  state <- hashblocks alg256 state inp 0 inlen ;;
  let rest := Z.to_nat (Z.land (Z.of_nat inlen) 63) in
  tail <- rd inp (inlen - rest) rest ;;
  padded <- wr padded 0 tail ;;
  padded <- wr padded rest [0x80] ;;
  state <-
    (if (rest <? 56)%nat then
       padded <- fill padded (rest + 1) 56 ;;
       padded <- wr padded 56 (len_bytes n) ;;
       hashblocks alg256 state padded 0 64
     else
       padded <- fill padded (rest + 1) 120 ;;
       padded <- wr padded 120 (len_bytes n) ;;
       hashblocks alg256 state padded 0 128) ;;
  rd state 0 32.

(** sha2.c:557-605 *)
Definition sha512_inc_finalize (state inp : bytes) : option bytes :=
  let padded := junk_bytes junk 256 in
  let inlen := length inp in
  n <- load_bigendian_64 state 64 ;;
  let n := u64 (n + Z.of_nat inlen) in
  state <- hashblocks alg512 state inp 0 inlen ;;
  let rest := Z.to_nat (Z.land (Z.of_nat inlen) 127) in
  tail <- rd inp (inlen - rest) rest ;;
  padded <- wr padded 0 tail ;;
  padded <- wr padded rest [0x80] ;;
  state <-
    (if (rest <? 112)%nat then
       padded <- fill padded (rest + 1) 119 ;;
       padded <- wr padded 119 (u8 (Z.shiftr n 61) :: len_bytes n) ;;
       hashblocks alg512 state padded 0 128
     else
       padded <- fill padded (rest + 1) 247 ;;
       padded <- wr padded 247 (u8 (Z.shiftr n 61) :: len_bytes n) ;;
       hashblocks alg512 state padded 0 256) ;;
  rd state 0 64.

(** sha2.c:607-612 *)
Definition sha256 (inp : bytes) : option bytes := sha256_inc_finalize sha256_inc_init inp.
(** sha2.c:614-619 *)
Definition sha512 (inp : bytes) : option bytes := sha512_inc_finalize sha512_inc_init inp.

(** mgf1_256, sha2.c:627-648; mgf1_512, 653-674: the same text with another hash and output size.
    [inp] has [inlen] = its length bytes.  The loop with i from 0; [done] is what has been written to
    out. *)
Section Mgf1.
Variable sha : bytes -> option bytes.
Variable out_bytes : nat.
Fixpoint mgf1_loop (fuel i outlen : nat) (inbuf : bytes) (inlen : nat) (done : bytes)
  : option (nat * bytes * bytes) :=
  if (outlen <? (i + 1) * out_bytes)%nat then Some (i, inbuf, done)
  else match fuel with
  | O => None
  | S fuel' =>
      inbuf <- wr inbuf inlen (u32_to_bytes (u32 (Z.of_nat i))) ;;
      x <- rd inbuf 0 (inlen + 4) ;;
      h <- sha x ;;
      mgf1_loop fuel' (S i) outlen inbuf inlen (done ++ h)
  end.
Definition mgf1_gen (outlen : nat) (inp : bytes) : option bytes :=
  let inlen := length inp in
  inbuf <- wr (junk_bytes junk (inlen + 4)) 0 inp ;;
  ' (i, inbuf, done) <- mgf1_loop (S outlen) 0 outlen inbuf inlen [] ;;
  if (i * out_bytes <? outlen)%nat then
    inbuf <- wr inbuf inlen (u32_to_bytes (u32 (Z.of_nat i))) ;;
    x <- rd inbuf 0 (inlen + 4) ;;
    outbuf <- sha x ;;
    r <- rd outbuf 0 (outlen - i * out_bytes) ;;
    Some (done ++ r)
  else Some done.
End Mgf1.
Definition mgf1_256 : nat -> bytes -> option bytes := mgf1_gen sha256 32.
Definition mgf1_512 : nat -> bytes -> option bytes := mgf1_gen sha512 64.
End Finalize.
