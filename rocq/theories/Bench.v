(** ref/test/benchmark.c: the statistics and their output, and the calls of key generation, signing and verification.
    The files of the vector directories differ only in some of the other functions they measure.  Terminal output other than the
    two numbers of display_result (texts, floating-point times) is left out, and so are clock_gettime and the measured
    calls that do not take part in the chain of keys, signature and message (thash, wots_gen_pkx1, fors_sign: lines 147, 149,
    151, 152); these work on buffers of their own.  cpucycles is any sequence of values. *)
From Verif Require Import Base Params Sign Kat OptBuild.

(** lines 15-16 *)
Definition SPX_MLEN : nat := 32.
Definition NTESTS : nat := 10.

(** lines 21-26 *)
Definition cmp_llu (a b : Z) : Z := if a <? b then -1 else if b <? a then 1 else 0.
(** What the C standard says of qsort: the same elements, in an order the comparison accepts. *)
Definition qsort_ok (qsort : list Z -> list Z) : Prop :=
  forall l, (exists f : nat -> nat, (forall i, (i < length l)%nat -> (f i < length l)%nat)
               /\ (forall i j, (i < length l)%nat -> (j < length l)%nat -> f i = f j -> i = j)
               /\ (forall i, (i < length l)%nat -> nth i (qsort l) 0 = nth (f i) l 0))
    /\ length (qsort l) = length l
    /\ forall i j, (i < j < length l)%nat -> cmp_llu (nth i (qsort l) 0) (nth j (qsort l) 0) <= 0.

(** lines 36-42; for llen = 0 the bound is SIZE_MAX and the loop leaves the array *)
Definition delta (l : list Z) (llen : nat) : option (list Z) :=
  _ <- guard (1 <=? llen)%nat ;;
  iterM (llen - 1) 0 (fun i l => a <- get l (i + 1) ;; b <- get l i ;; wr l i [u64 (a - b)]) l.

Section Median.
Variable qsort : list Z -> list Z.
(** lines 28-34: the result and the array *)
Definition median (l : list Z) (llen : nat) : option (Z * list Z) :=
  a <- rd l 0 llen ;;
  l <- wr l 0 (qsort a) ;;
  if (llen mod 2 =? 0)%nat then
    _ <- guard (1 <=? llen / 2)%nat ;;
    x <- get l (llen / 2 - 1) ;; y <- get l (llen / 2) ;; Some (u64 (x + y) / 2, l)
  else x <- get l (llen / 2) ;; Some (x, l).

(** printf("%03llu") *)
Definition print_dec3 (n : Z) : bytes := let t := print_dec n in repeat 48 (3 - length t) ++ t.
(** lines 45-53; [fuel] bounds the depth of the recursion *)
Fixpoint printfcomma (fuel : nat) (n : Z) : option bytes :=
  match fuel with
  | O => None
  | S fuel =>
      if n <? 1000 then Some (print_dec n)
      else t <- printfcomma fuel (n / 1000) ;; Some (t ++ 44 :: print_dec3 (n mod 1000))
  end.
(** lines 60-64 *)
Fixpoint digit_loop (fuel : nat) (ncopy len i : Z) : option (Z * Z) :=
  match fuel with
  | O => None
  | S fuel => if 9 <? ncopy then digit_loop fuel (ncopy / 10) (len - 1) (i + 1) else Some (len, i)
  end.
(** lines 55-70; 20 digits and 7 groups are the most there are *)
Definition printfalignedcomma (n len : Z) : option bytes :=
  ' (len, i) <- digit_loop 20 n len 0 ;;
  let i := i / 3 - 1 in
  t <- printfcomma 7 n ;;
  Some (repeat 32 (Z.to_nat (len - i)) ++ t).

(** lines 72-84: the two numbers *)
Definition display_result (l : list Z) (llen : nat) (mul : Z) : option (bytes * bytes) :=
  l <- delta l (NTESTS + 1) ;;
  ' (med, l) <- median l llen ;;
  a <- printfalignedcomma med 12 ;;
  b <- printfalignedcomma (u64 (mul * med)) 12 ;;
  Some (a, b).
(** lines 86-98: [cycles] are the values cpucycles returns; the last is not divided *)
Definition samples (cycles : nat -> Z) (corr : Z) : list Z :=
  map (fun i => cycles i / corr) (seq 0 NTESTS) ++ [cycles NTESTS].
Definition MEASURE_GENERIC (cycles : nat -> Z) (mul corr : Z) : option (bytes * bytes) :=
  display_result (samples cycles corr) NTESTS mul.
End Median.

(** lines 138-153; in shake-a64 the address array is twice as long (test/benchmark.c:141).  [n] (NTESTS) key pairs, signatures of the same message, verifications.  The results of the verifications,
    which the program ignores, with the message each of them returned. *)
Section Api.
Variable im : impl.
Variable robust : bool.
Variable P : params.
Variable us : nat -> uninit.
Variable junk : nat -> nat -> Z.
Notation SB := (SPX_BYTES P).
Definition addr_bytes : nat := match im with Opt ShakeA64 => 2 * SPX_ADDR_BYTES | _ => SPX_ADDR_BYTES end.
Definition bench_api (n : nat) (stream : bytes) : option (bytes * list (Z * bytes)) :=
  ' (m, stream) <- randombytes stream SPX_MLEN ;;
  ' (addr, stream) <- randombytes stream addr_bytes ;;
  ' (pk, sk, stream) <- iterM n 0 (fun i s =>
      let '(pk, sk, stream) := s in
      ' (r, pk, sk, stream) <- i_keypair im robust P (us i) stream pk sk ;; Some (pk, sk, stream))
    (junk_bytes (junk 701) (SPX_PK_BYTES P), junk_bytes (junk 702) (SPX_SK_BYTES P), stream) ;;
  ' (sm, smlen, stream) <- iterM n 0 (fun i s =>
      let '(sm, smlen, stream) := s in
      ' (r, sm, smlen, stream) <- i_sign im robust P (us (n + i)%nat) stream sm m sk ;; Some (sm, smlen, stream))
    (junk_bytes (junk 703) (SB + SPX_MLEN), 0, stream) ;;
  ' (mout, res) <- iterM n 0 (fun i s =>
      let '(mout, res) := s in
      ' (r, mout, mlen) <- i_open im robust P (us (2 * n + i)%nat) mout sm smlen pk ;;
      x <- rd mout 0 (Z.to_nat mlen) ;;
      Some (mout, res ++ [(r, x)]))
    (junk_bytes (junk 704) (SB + SPX_MLEN), []) ;;
  Some (m, res).
End Api.
