(** ref/test/spx.c, the self-test (the vector directories have links to it), for any key generation, signing
    and verification functions.  Messages on the terminal are left out; malloc succeeds. *)
From Verif Require Import Base Params Sign OptBuild.

Section Selftest.
Variable P : params.
Notation SB := (SPX_BYTES P).
(** [verify k] is crypto_sign_verify in its [k]-th call (uninitialised memory may differ). *)
Variable keypair : bytes -> bytes -> bytes -> option (Z * bytes * bytes * bytes).
Variable sign : bytes -> bytes -> bytes -> bytes -> option (Z * bytes * Z * bytes).
Variable verify : nat -> bytes -> Z -> bytes -> bytes -> option Z.
(** What malloc and the stack hold: pk, sk, sm, mout. *)
Variable junk : nat -> nat -> Z.

(** ref/sign.c:263-287, with [m] and [sm] disjoint (as [Sign.crypto_sign_open]) and with m = sm. *)
Definition open_disjoint (k : nat) (m sm : bytes) (smlen : Z) (pk : bytes) : option (Z * bytes * Z) :=
  if smlen <? Z.of_nat SB then
    m <- wr m 0 (repeat 0 (Z.to_nat smlen)) ;; Some (-1, m, 0)
  else
    let mlen := smlen - Z.of_nat SB in
    sig <- rd sm 0 SB ;;
    msg <- rd sm SB (Z.to_nat mlen) ;;
    r <- verify k sig (Z.of_nat SB) msg pk ;;
    if negb (r =? 0) then
      m <- wr m 0 (repeat 0 (Z.to_nat smlen)) ;; Some (-1, m, 0)
    else
      m <- wr m 0 msg ;; Some (0, m, mlen).
Definition open_same (k : nat) (sm : bytes) (smlen : Z) (pk : bytes) : option (Z * bytes * Z) :=
  if smlen <? Z.of_nat SB then
    sm <- wr sm 0 (repeat 0 (Z.to_nat smlen)) ;; Some (-1, sm, 0)
  else
    let mlen := smlen - Z.of_nat SB in
    sig <- rd sm 0 SB ;;
    msg <- rd sm SB (Z.to_nat mlen) ;;
    r <- verify k sig (Z.of_nat SB) msg pk ;;
    if negb (r =? 0) then
      sm <- wr sm 0 (repeat 0 (Z.to_nat smlen)) ;; Some (-1, sm, 0)
    else
      msg <- rd sm SB (Z.to_nat mlen) ;;
      sm <- wr sm 0 msg ;; Some (0, sm, mlen).

(** ref/test/spx.c:10 *)
Definition SPX_MLEN : nat := 32.
(** sm[i] ^= 1 *)
Definition flip_bit (sm : bytes) (i : nat) : option bytes := b <- get sm i ;; wr sm i [Z.lxor b 1].

(** ref/test/spx.c:101-114, the loop from [j]; the result of the program.  [lim] is (int)(smlen -
    SPX_MLEN). *)
Fixpoint flips (fuel k : nat) (j : nat) (lim : Z) (ret : Z) (mout sm : bytes) (smlen : Z) (pk : bytes) : option Z :=
  match fuel with
  | O => None
  | S fuel =>
      if negb (Z.of_nat j <? lim) then Some ret else
      sm <- flip_bit sm j ;;
      ' (r, mout, _) <- open_disjoint k mout sm smlen pk ;;
      if r =? 0 then Some (-1) else
      sm <- flip_bit sm j ;;
      flips fuel (S k) (j + p_n P) lim ret mout sm smlen pk
  end.

(** ref/test/spx.c:13-125; the result of main.  [invalid]: compiled with SPX_TEST_INVALIDSIG.  smlen - SPX_MLEN
    must fit an int. *)
Definition self_test (invalid : bool) (stream : bytes) : option Z :=
  ' (m, stream) <- randombytes stream SPX_MLEN ;;
  ' (r, pk, sk, stream) <- keypair stream (junk_bytes (junk 501) (SPX_PK_BYTES P)) (junk_bytes (junk 502) (SPX_SK_BYTES P)) ;;
  if negb (r =? 0) then Some (-1) else
  ' (_, sm, smlen, stream) <- sign stream (junk_bytes (junk 503) (SB + SPX_MLEN)) m sk ;;
  let ret := if negb (smlen =? Z.of_nat (SB + SPX_MLEN)) then -1 else 0 in
  ' (r, mout, mlen) <- open_disjoint 0 (junk_bytes (junk 504) (SB + SPX_MLEN)) sm smlen pk ;;
  let ret := if negb (r =? 0) then -1 else ret in
  let ret := if negb (mlen =? Z.of_nat SPX_MLEN) then -1 else ret in
  a <- rd m 0 SPX_MLEN ;;
  b <- rd mout 0 SPX_MLEN ;;
  let ret := if memcmp_differs a b then -1 else ret in
  ' (r, sm, mlen) <- open_same 1 sm smlen pk ;;
  let ret := if negb (r =? 0) then -1 else ret in
  _ <- guard (1 <=? smlen) ;;
  sm <- flip_bit sm (Z.to_nat (smlen - 1)) ;;
  ' (r, mout, mlen) <- open_disjoint 2 mout sm smlen pk ;;
  let ret := if r =? 0 then -1 else ret in
  sm <- flip_bit sm (Z.to_nat (smlen - 1)) ;;
  if invalid : bool then
    let lim := u64 (smlen - Z.of_nat SPX_MLEN) in
    _ <- guard (lim <? 2 ^ 31) ;;
    flips (S (Z.to_nat lim)) 3 0 lim ret mout sm smlen pk
  else Some ret.
End Selftest.

(** The program of an implementation; [us k] is what uninitialised memory holds in the k-th call. *)
Definition impl_self_test (im : impl) (robust : bool) (P : params) (us : nat -> uninit) (junk : nat -> nat -> Z)
    (invalid : bool) (stream : bytes) : option Z :=
  self_test P (i_keypair im robust P (us 0%nat)) (i_sign im robust P (us 1%nat))
    (fun k => i_verify im robust P (us (2 + k)%nat)) junk invalid stream.

(** A wrong variant, for C60: the lowest bit of the last byte of the message is ignored by signing (the
    signature is the one of the message with that bit cleared) and by verification. *)
Definition clear_last (m : bytes) : bytes := firstn 31 m ++ [2 * (nth 31 m 0 / 2)].
Definition blind_sign (im : impl) (robust : bool) (P : params) (u : uninit) (stream sm m sk : bytes) : option (Z * bytes * Z * bytes) :=
  ' (r, sm, smlen, stream) <- i_sign im robust P u stream sm (clear_last m) sk ;;
  sm <- wr sm (SPX_BYTES P) m ;;
  Some (r, sm, smlen, stream).
Definition blind_verify (im : impl) (robust : bool) (P : params) (u : uninit) (sig : bytes) (siglen : Z) (m pk : bytes) : option Z :=
  i_verify im robust P u sig siglen (clear_last m) pk.
Definition blind_self_test (im : impl) (robust : bool) (P : params) (us : nat -> uninit) (junk : nat -> nat -> Z)
    (invalid : bool) (stream : bytes) : option Z :=
  self_test P (i_keypair im robust P (us 0%nat)) (blind_sign im robust P (us 1%nat))
    (fun k => blind_verify im robust P (us (2 + k)%nat)) junk invalid stream.
