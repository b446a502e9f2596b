(** ref/sha2.c with every integer expression written as in the C text (CInt.v) and every variable of its declared type.
    Suffix _c: the C-typed version.  uint32_t is unsigned int, uint64_t, size_t and unsigned long are 64 bits.  As in Sha2.v the
    two halves of the file are one text over the word type [t] and the constants.  Pointers are offsets; copying a byte
    from one array of bytes to another is no arithmetic and is done as it is. *)
From Verif Require Import Base Address Sha2 CInt CCore.
Local Open Scope Z_scope.

(** An unsuffixed hexadecimal constant below 2^32 is an int if it fits and an unsigned int otherwise (6.4.4.1p5) *)
Definition H32 (k : Z) : cexp := V (if k <? 2 ^ 31 then I32 else U32) k.
(** A constant with the suffix ULL *)
Definition ULL (k : Z) : cexp := V U64 k.
(** sizeof the word, the type of the constants of F and the type returned by crypto_hashblocks: size_t (line 132), int (line 289) *)
Definition wbytes (t : cty) : nat := match t with U64 => 8 | _ => 4 end.
Definition kexp (t : cty) (k : Z) : cexp := match t with U64 => ULL k | _ => H32 k end.
Definition rettype (t : cty) : cty := match t with U64 => I32 | _ => U64 end.

(** sha2.c:12-15 *)
Definition load_bigendian_32_c (x : bytes) (o : nat) : option Z :=
  x0 <- get x o ;; x1 <- get x (o + 1) ;; x2 <- get x (o + 2) ;; x3 <- get x (o + 3) ;;
  asg U32 (Cast U32 (B x3) .| (Cast U32 (B x2) << K 8) .|
           (Cast U32 (B x1) << K 16) .| (Cast U32 (B x0) << K 24))%C.
(** sha2.c:17-22 *)
Definition load_bigendian_64_c (x : bytes) (o : nat) : option Z :=
  x0 <- get x o ;; x1 <- get x (o + 1) ;; x2 <- get x (o + 2) ;; x3 <- get x (o + 3) ;;
  x4 <- get x (o + 4) ;; x5 <- get x (o + 5) ;; x6 <- get x (o + 6) ;; x7 <- get x (o + 7) ;;
  asg U64 (Cast U64 (B x7) .| (Cast U64 (B x6) << K 8) .|
           (Cast U64 (B x5) << K 16) .| (Cast U64 (B x4) << K 24) .|
           (Cast U64 (B x3) << K 32) .| (Cast U64 (B x2) << K 40) .|
           (Cast U64 (B x1) << K 48) .| (Cast U64 (B x0) << K 56))%C.
(** sha2.c:24-32, 34-50: x[k-1] = (uint8_t) u; u >>= 8; .. x[0] = (uint8_t) u (the shift after the last is not used) *)
Fixpoint store_bigendian_loop_c (k : nat) (u : Z) (acc : bytes) : option bytes :=
  match k with
  | O => Some acc
  | S k' =>
      b <- asg U8 (Cast U8 (V U64 u)) ;;
      u <- asg U64 (V U64 u >> K 8)%C ;;
      store_bigendian_loop_c k' u (b :: acc)
  end.
Definition store_bigendian_c (k : nat) (u : cexp) : option bytes := u <- asg U64 u ;; store_bigendian_loop_c k u [].

(** sha2.c:52-57 *)
Definition SHR_x (x : cexp) (c : Z) : cexp := (x >> K c)%C.
Definition ROTR_x (t : cty) (x : cexp) (c : Z) : cexp := ((x >> K c) .| (x << (K (width t) - K c)))%C.
Definition Ch_x (x y z : cexp) : cexp := ((x .& y) .^ (Not x .& z))%C.
Definition Maj_x (x y z : cexp) : cexp := ((x .& y) .^ (x .& z) .^ (y .& z))%C.

Section Alg.
Variable t : cty.
Variable A : alg.
(** sha2.c:59-67 *)
Definition Sigma_x (k : Z * Z * Z) (x : cexp) : cexp :=
  let '(k1, k2, k3) := k in (ROTR_x t x k1 .^ ROTR_x t x k2 .^ ROTR_x t x k3)%C.
Definition sigma_x (k : Z * Z * Z) (x : cexp) : cexp :=
  let '(k1, k2, k3) := k in (ROTR_x t x k1 .^ ROTR_x t x k2 .^ SHR_x x k3)%C.
(** sha2.c:69-70 *)
Definition M_line_c (w : list Z) (l : nat * nat * nat * nat) : option (list Z) :=
  let '(i0, i14, i9, i1) := l in
  w14 <- get w i14 ;; w9 <- get w i9 ;; w1 <- get w i1 ;; w0 <- get w i0 ;;
  v <- asg t (sigma_x (a_s1 A) (V t w14) + V t w9 + sigma_x (a_s0 A) (V t w1) + V t w0)%C ;;
  wr w i0 [v].
Fixpoint M_lines_c (w : list Z) (l : list (nat * nat * nat * nat)) : option (list Z) :=
  match l with [] => Some w | x :: l' => w <- M_line_c w x ;; M_lines_c w l' end.
(** sha2.c:108-118, 120-130 *)
Definition F_line_c (s : list Z) (w k : Z) : option (list Z) :=
  match s with
  | [a; b; c; d; e; f; g; h] =>
      T1 <- asg t (V t h + Sigma_x (a_S1 A) (V t e) + Ch_x (V t e) (V t f) (V t g) + kexp t k + V t w)%C ;;
      T2 <- asg t (Sigma_x (a_S0 A) (V t a) + Maj_x (V t a) (V t b) (V t c))%C ;;
      h <- asg t (V t g) ;;
      g <- asg t (V t f) ;;
      f <- asg t (V t e) ;;
      e <- asg t (V t d + V t T1)%C ;;
      d <- asg t (V t c) ;;
      c <- asg t (V t b) ;;
      b <- asg t (V t a) ;;
      a <- asg t (V t T1 + V t T2)%C ;;
      Some [a; b; c; d; e; f; g; h]
  | _ => None
  end.
(** sha2.c:181-253, 330-421 *)
Fixpoint exec_c (p : list step) (w s : list Z) : option (list Z) :=
  match p with
  | [] => Some s
  | EXPAND :: p' => w <- M_lines_c w expand_lines ;; exec_c p' w s
  | F i k :: p' => wi <- get w i ;; s <- F_line_c s wi k ;; exec_c p' w s
  end.
Definition load_c (x : bytes) (o : nat) : option Z :=
  match t with U64 => load_bigendian_64_c x o | _ => load_bigendian_32_c x o end.
(** sha2.c:147-180, 304-328 *)
Fixpoint load_words_c (k : nat) (x : bytes) (o : nat) : option (list Z) :=
  match k with
  | O => Some []
  | S k' => a <- load_c x o ;; r <- load_words_c k' x (o + wbytes t) ;; Some (a :: r)
  end.
(** a += state[0] .. h += state[7], sha2.c:255-262, 423-430 *)
Fixpoint add_state_c (s st : list Z) : option (list Z) :=
  match s, st with
  | a :: s', x :: st' => v <- asg t (V t a + V t x)%C ;; r <- add_state_c s' st' ;; Some (v :: r)
  | _, _ => Some []
  end.
(** while (inlen >= 64), sha2.c:164-275, 312-442: the state and inlen *)
Fixpoint hashblocks_loop_c (fuel : nat) (s st : list Z) (inp : bytes) (o : nat) (inlen : Z) : option (list Z * Z) :=
  match fuel with
  | O => None
  | S fuel' =>
      c <- cond (V U64 inlen >= K (16 * Z.of_nat (wbytes t)))%C ;;
      if c : bool then
        w <- load_words_c 16 inp o ;;
        s <- exec_c (a_prog A) w s ;;
        s <- add_state_c s st ;;
        inlen <- asg U64 (V U64 inlen - K (16 * Z.of_nat (wbytes t)))%C ;;
        hashblocks_loop_c fuel' s s inp (o + 16 * wbytes t) inlen
      else Some (st, inlen)
  end.
(** sha2.c:277-284, 444-451 *)
Fixpoint stores_c (st : list Z) : option bytes :=
  match st with
  | [] => Some []
  | x :: st' => b <- store_bigendian_c (wbytes t) (V t x) ;; r <- stores_c st' ;; Some (b ++ r)
  end.
(** crypto_hashblocks_sha256, sha2.c:132-287; _sha512, 289-456 *)
Definition hashblocks_c (statebytes inp : bytes) (o : nat) (inlen : cexp) : option bytes :=
  inlen <- asg U64 inlen ;;
  s <- load_words_c 8 statebytes 0 ;;
  ' (st, inlen) <- hashblocks_loop_c (S (Z.to_nat inlen)) s s inp o inlen ;;
  b <- stores_c st ;;
  _ <- asg (rettype t) (V U64 inlen) ;;
  wr statebytes 0 b.
End Alg.

(** sha2.c:492-499 *)
Definition sha256_inc_blocks_c (state inp : bytes) (inblocks : Z) : option bytes :=
  n <- load_bigendian_64_c state 32 ;;
  state <- hashblocks_c U32 alg256 state inp 0 (K 64 * V U64 inblocks)%C ;;
  n <- asg U64 (V U64 n + K 64 * V U64 inblocks)%C ;;
  b <- store_bigendian_c 8 (V U64 n) ;; wr state 32 b.
(** sha2.c:501-508 *)
Definition sha512_inc_blocks_c (state inp : bytes) (inblocks : Z) : option bytes :=
  n <- load_bigendian_64_c state 64 ;;
  state <- hashblocks_c U64 alg512 state inp 0 (K 128 * V U64 inblocks)%C ;;
  n <- asg U64 (V U64 n + K 128 * V U64 inblocks)%C ;;
  b <- store_bigendian_c 8 (V U64 n) ;; wr state 64 b.

(** for (size_t i = 0; i < n; ++i) dst[i] = src[i], with src at offset o *)
Definition copy_c (dst src : bytes) (o : nat) (n : Z) : option bytes :=
  cfor (S (Z.to_nat n)) U64 0 (V U64 n) (fun i dst =>
    j <- ix (V U64 i) ;; x <- get src (o + j) ;; wr dst j [x]) dst.
(** for (size_t i = from; i < to; ++i) dst[i] = 0 *)
Definition zero_c (dst : bytes) (from : cexp) (to : Z) : option bytes :=
  i <- asg U64 from ;;
  cfor (S (Z.to_nat (to - i))) U64 i (K to) (fun i dst =>
    j <- ix (V U64 i) ;; z <- asg U8 (K 0) ;; wr dst j [z]) dst.
(** padded[i] = (uint8_t) (bytes >> 53) .. (uint8_t) (bytes << 3): sha2.c:531-538 and the other three *)
Definition len_bytes_c (n : Z) : option bytes :=
  b0 <- asg U8 (Cast U8 (V U64 n >> K 53)) ;; b1 <- asg U8 (Cast U8 (V U64 n >> K 45)) ;;
  b2 <- asg U8 (Cast U8 (V U64 n >> K 37)) ;; b3 <- asg U8 (Cast U8 (V U64 n >> K 29)) ;;
  b4 <- asg U8 (Cast U8 (V U64 n >> K 21)) ;; b5 <- asg U8 (Cast U8 (V U64 n >> K 13)) ;;
  b6 <- asg U8 (Cast U8 (V U64 n >> K 5)) ;; b7 <- asg U8 (Cast U8 (V U64 n << K 3)) ;;
  Some [b0; b1; b2; b3; b4; b5; b6; b7].

Section Finalize.
Variable junk : nat -> Z.
(** sha2.c:510-555 *)
Definition sha256_inc_finalize_c (state inp : bytes) (inlen : Z) : option bytes :=
  let padded := junk_bytes junk 128 in
  n <- load_bigendian_64_c state 32 ;;
  n <- asg U64 (V U64 n + V U64 inlen)%C ;;
  state <- hashblocks_c U32 alg256 state inp 0 (V U64 inlen) ;;
  let o := Z.to_nat inlen in
  inlen <- asg U64 (V U64 inlen .& K 63)%C ;;
  let o := (o - Z.to_nat inlen)%nat in
  padded <- copy_c padded inp o inlen ;;
  j <- ix (V U64 inlen) ;; v <- asg U8 (K 0x80) ;; padded <- wr padded j [v] ;;
  c <- cond (V U64 inlen < K 56)%C ;;
  state <-
    (if c : bool then
       padded <- zero_c padded (V U64 inlen + K 1)%C 56 ;;
       b <- len_bytes_c n ;; padded <- wr padded 56 b ;;
       hashblocks_c U32 alg256 state padded 0 (K 64)
     else
       padded <- zero_c padded (V U64 inlen + K 1)%C 120 ;;
       b <- len_bytes_c n ;; padded <- wr padded 120 b ;;
       hashblocks_c U32 alg256 state padded 0 (K 128)) ;;
  rd state 0 32.
(** sha2.c:557-605 *)
Definition sha512_inc_finalize_c (state inp : bytes) (inlen : Z) : option bytes :=
  let padded := junk_bytes junk 256 in
  n <- load_bigendian_64_c state 64 ;;
  n <- asg U64 (V U64 n + V U64 inlen)%C ;;
  state <- hashblocks_c U64 alg512 state inp 0 (V U64 inlen) ;;
  let o := Z.to_nat inlen in
  inlen <- asg U64 (V U64 inlen .& K 127)%C ;;
  let o := (o - Z.to_nat inlen)%nat in
  padded <- copy_c padded inp o inlen ;;
  j <- ix (V U64 inlen) ;; v <- asg U8 (K 0x80) ;; padded <- wr padded j [v] ;;
  c <- cond (V U64 inlen < K 112)%C ;;
  state <-
    (if c : bool then
       padded <- zero_c padded (V U64 inlen + K 1)%C 119 ;;
       h <- asg U8 (Cast U8 (V U64 n >> K 61)) ;; b <- len_bytes_c n ;; padded <- wr padded 119 (h :: b) ;;
       hashblocks_c U64 alg512 state padded 0 (K 128)
     else
       padded <- zero_c padded (V U64 inlen + K 1)%C 247 ;;
       h <- asg U8 (Cast U8 (V U64 n >> K 61)) ;; b <- len_bytes_c n ;; padded <- wr padded 247 (h :: b) ;;
       hashblocks_c U64 alg512 state padded 0 (K 256)) ;;
  rd state 0 64.
(** sha2.c:607-612, 614-619 *)
Definition sha256_c (inp : bytes) (inlen : cexp) : option bytes :=
  n <- asg U64 inlen ;; sha256_inc_finalize_c sha256_inc_init inp n.
Definition sha512_c (inp : bytes) (inlen : cexp) : option bytes :=
  n <- asg U64 inlen ;; sha512_inc_finalize_c sha512_inc_init inp n.

(** mgf1_256, sha2.c:627-648; mgf1_512, 653-674.  SPX_SHA256_OUTPUT_BYTES, SPX_SHA512_OUTPUT_BYTES: 32, 64, int
    (sha2.h).  [a <= b] is written [b >= a] and [a > b] is written [b < a]. *)
Section Mgf1.
Variable sha : bytes -> cexp -> option bytes.
Variable OUT : Z.
Fixpoint mgf1_loop_c (fuel : nat) (i outlen : Z) (inbuf : bytes) (inlen : Z) (done : bytes) : option (Z * bytes * bytes) :=
  match fuel with
  | O => None
  | S fuel' =>
      c <- cond (V U64 outlen >= (V U64 i + K 1) * K OUT)%C ;;
      if c : bool then
        j <- asg U32 (V U64 i) ;; b <- u32_to_bytes_c j ;;
        inbuf <- wr inbuf (Z.to_nat inlen) b ;;
        h <- sha inbuf (V U64 inlen + K 4)%C ;;
        i <- asg U64 (V U64 i + K 1)%C ;;
        mgf1_loop_c fuel' i outlen inbuf inlen (done ++ h)
      else Some (i, inbuf, done)
  end.
Definition mgf1_c (outlen : Z) (inp : bytes) (inlen : Z) : option bytes :=
  n <- ix (V U64 inlen + K 4)%C ;;
  d <- rd inp 0 (Z.to_nat inlen) ;;
  inbuf <- wr (junk_bytes junk n) 0 d ;;
  ' (i, inbuf, done) <- mgf1_loop_c (S (Z.to_nat outlen)) 0 outlen inbuf inlen [] ;;
  c <- cond (V U64 i * K OUT < V U64 outlen)%C ;;
  if c : bool then
    j <- asg U32 (V U64 i) ;; b <- u32_to_bytes_c j ;;
    inbuf <- wr inbuf (Z.to_nat inlen) b ;;
    outbuf <- sha inbuf (V U64 inlen + K 4)%C ;;
    k <- ix (V U64 outlen - V U64 i * K OUT)%C ;;
    r <- rd outbuf 0 k ;;
    Some (done ++ r)
  else Some done.
End Mgf1.
Definition mgf1_256_c : Z -> bytes -> Z -> option bytes := mgf1_c sha256_c 32.
Definition mgf1_512_c : Z -> bytes -> Z -> option bytes := mgf1_c sha512_c 64.
End Finalize.
