(** C48: overlapping buffers.  All buffers lie in one memory [mem]; [part mem i n] are the [n] bytes at
    [i], [put mem i d] is the memory with [d] at [i]. *)
From Verif Require Import Base BaseFacts Params Address Suite Utils Wots Fors Merkle Sign Overlap
  Spec SpecFacts Refine SignProofs ApiProofs OverlapProofs Toy.

Section C48.
Variable P : params.
Variable HS : suite.
Notation N := (p_n P).
Notation D := (dims_of P).
Hypothesis Hwf : wf_params P = true.
Hypothesis Hok : suite_ok P HS.
Notation Th := (codeTh P HS).
Notation Prf := (codePrf HS).
Notation Rnd := (codeRnd P HS).
Notation Hm := (codeHm P HS).

(** crypto_sign with the message anywhere outside the bytes of the signature itself - it may overlap the place
    it is moved to in any way - is correct: the signature of the original message, then that message. *)
Theorem C48_sign junk stream mem sm m mlen sk :
  (N <= length stream)%nat -> (sm + SPX_BYTES P + mlen <= length mem)%nat -> (m + mlen <= length mem)%nat ->
  (sk + SPX_SK_BYTES P <= length mem)%nat -> Z.of_nat (SPX_BYTES P + mlen) < 2 ^ 64 ->
  (m + mlen <= sm \/ sm + SPX_BYTES P <= m)%nat ->
  (sk + SPX_SK_BYTES P <= sm \/ sm + N <= sk + 2 * N)%nat ->
  let msg := part mem m mlen in
  let s := spx_sign D Th Prf Rnd Hm (part mem sk N) (part mem (sk + N) N) (part mem (sk + 2 * N) N)
             (part mem (sk + 3 * N) N) (firstn N stream) msg in
  crypto_sign_mem P HS junk stream mem sm m mlen sk
  = Some (0, put mem sm (s ++ msg), Z.of_nat (SPX_BYTES P + mlen), skipn N stream)
  /\ length s = SPX_BYTES P.
Proof. exact (crypto_sign_mem_ok P HS Hwf Hok junk stream mem sm m mlen sk). Qed.
(** crypto_sign_open is correct for every position of [m], [sm] and [pk]: it accepts exactly when the
    verification of the original contents does, and then [m] holds the original message. *)
Theorem C48_open junk mem m sm smlen pk :
  0 <= smlen -> Z.of_nat sm + smlen <= Z.of_nat (length mem) -> Z.of_nat m + smlen <= Z.of_nat (length mem) ->
  (pk + SPX_PK_BYTES P <= length mem)%nat ->
  let SB := SPX_BYTES P in
  let msg := part mem (sm + SB) (Z.to_nat smlen - SB) in
  let good := Z.of_nat SB <= smlen
    /\ crypto_sign_verify P HS junk (part mem sm SB) (Z.of_nat SB) msg (part mem pk (SPX_PK_BYTES P)) = Some 0 in
  (good -> crypto_sign_open_mem P HS junk mem m sm smlen pk = Some (0, put mem m msg, smlen - Z.of_nat SB))
  /\ (~ good -> crypto_sign_open_mem P HS junk mem m sm smlen pk
           = Some (-1, put mem m (repeat 0 (Z.to_nat smlen)), 0)).
Proof. exact (open_mem_ok P HS Hwf Hok junk mem m sm smlen pk). Qed.
(** Sign, then open, in one memory. *)
Theorem C48_round_trip junk1 junk2 stream mem sm m mlen sk m' pk :
  (N <= length stream)%nat -> (sm + SPX_BYTES P + mlen <= length mem)%nat -> (m + mlen <= length mem)%nat ->
  (sk + SPX_SK_BYTES P <= length mem)%nat -> Z.of_nat (SPX_BYTES P + mlen) < 2 ^ 64 ->
  (m + mlen <= sm \/ sm + SPX_BYTES P <= m)%nat ->
  (sk + SPX_SK_BYTES P <= sm \/ sm + N <= sk + 2 * N)%nat ->
  (m' + SPX_BYTES P + mlen <= length mem)%nat -> (pk + SPX_PK_BYTES P <= length mem)%nat ->
  (pk + SPX_PK_BYTES P <= sm \/ sm + SPX_BYTES P + mlen <= pk)%nat ->
  part mem (sk + 3 * N) N = spx_root D Th Prf (part mem sk N) (part mem (sk + 2 * N) N) ->
  part mem pk (SPX_PK_BYTES P) = part mem (sk + 2 * N) (SPX_PK_BYTES P) ->
  exists mem1, crypto_sign_mem P HS junk1 stream mem sm m mlen sk
      = Some (0, mem1, Z.of_nat (SPX_BYTES P + mlen), skipn N stream)
    /\ crypto_sign_open_mem P HS junk2 mem1 m' sm (Z.of_nat (SPX_BYTES P + mlen)) pk
      = Some (0, put mem1 m' (part mem m mlen), Z.of_nat mlen).
Proof. exact (sign_open_mem P HS Hwf Hok junk1 junk2 stream mem sm m mlen sk m' pk). Qed.
(** What crypto_sign_signature computes for every position, overlapping or not: the randomiser comes from
    the original message, the digest from the message with the randomiser already written. *)
Theorem C48_sign_any junk stream mem sig m mlen sk :
  (N <= length stream)%nat -> (sig + SPX_BYTES P <= length mem)%nat -> (m + mlen <= length mem)%nat ->
  (sk + SPX_SK_BYTES P <= length mem)%nat ->
  let ss := part mem sk N in
  let sp := part mem (sk + N) N in
  let ps := part mem (sk + 2 * N) N in
  let R := Rnd ps sp (firstn N stream) (part mem m mlen) in
  let mem1 := put mem sig R in
  let s := sig_of P HS ps ss R (Hm ps R (part mem1 (sk + 2 * N) (SPX_PK_BYTES P)) (part mem1 m mlen)) in
  sign_signature_mem P HS junk stream mem sig m mlen sk
  = Some (0, put mem sig s, Z.of_nat (SPX_BYTES P), skipn N stream)
  /\ length s = SPX_BYTES P /\ firstn N s = R.
Proof. exact (sign_mem_ok P HS Hwf Hok junk stream mem sig m mlen sk). Qed.
(** crypto_sign with m = sm is wrong: the message that comes out is the beginning of the signature, whatever
    went in; and the signature is that of a message whose first bytes have been replaced. *)
Theorem C48_same_refuted junk stream mem sm mlen sk :
  (N <= length stream)%nat -> (sm + SPX_BYTES P + mlen <= length mem)%nat ->
  (sk + SPX_SK_BYTES P <= length mem)%nat -> Z.of_nat (SPX_BYTES P + mlen) < 2 ^ 64 ->
  (sk + SPX_SK_BYTES P <= sm \/ sm + N <= sk + 2 * N)%nat -> (N <= mlen <= SPX_BYTES P)%nat ->
  let msg := part mem sm mlen in
  let ps := part mem (sk + 2 * N) N in
  let R := Rnd ps (part mem (sk + N) N) (firstn N stream) msg in
  let s := sig_of P HS ps (part mem sk N) R
             (Hm ps R (part mem (sk + 2 * N) (SPX_PK_BYTES P)) (R ++ skipn N msg)) in
  crypto_sign_mem P HS junk stream mem sm sm mlen sk
  = Some (0, put mem sm (s ++ firstn mlen s), Z.of_nat (SPX_BYTES P + mlen), skipn N stream)
  /\ length s = SPX_BYTES P /\ firstn N s = R.
Proof. exact (crypto_sign_same P HS Hwf Hok junk stream mem sm mlen sk). Qed.
End C48.
Print Assumptions C48_sign.
Print Assumptions C48_open.
Print Assumptions C48_round_trip.
Print Assumptions C48_sign_any.
Print Assumptions C48_same_refuted.

Local Notation tP := params_toy.
Local Notation tS := (toy_suite params_toy).
(** The message starts right behind the signature buffer, where crypto_sign puts it; then it is opened on
    top of the signature. *)
Example C48_case :
  ('(_, pk, sk) <- crypto_sign_seed_keypair tP tS toy_junk (repeat 0 4) (repeat 0 8) toy_seed ;;
   '(r, mem, len, _) <- crypto_sign_mem tP tS toy_junk [7; 8] (sk ++ repeat 0 (SPX_BYTES tP) ++ [11; 22; 33] ++ pk) 8 (8 + SPX_BYTES tP) 3 0 ;;
   '(r2, mem2, len2) <- crypto_sign_open_mem tP tS toy_junk mem 8 8 len (8 + SPX_BYTES tP + 3) ;;
   Some (r, len, r2, len2, part mem2 8 3))
  = Some (0, crypto_sign_bytes tP + 3, 0, 3, [11; 22; 33]).
Proof. vm_compute. reflexivity. Qed.
(** The same with m = sm: the message is lost and the result does not verify. *)
Example C48_same_case :
  ('(_, pk, sk) <- crypto_sign_seed_keypair tP tS toy_junk (repeat 0 4) (repeat 0 8) toy_seed ;;
   '(r, mem, len, _) <- crypto_sign_mem tP tS toy_junk [7; 8] (sk ++ [11; 22; 33] ++ repeat 0 (SPX_BYTES tP) ++ pk) 8 8 3 0 ;;
   '(r2, mem2, len2) <- crypto_sign_open_mem tP tS toy_junk mem 8 8 len (8 + SPX_BYTES tP + 3) ;;
   Some (r, len, memcmp_differs (part mem 8 3) (part mem (8 + SPX_BYTES tP) 3),
         memcmp_differs (part mem (8 + SPX_BYTES tP) 3) [11; 22; 33], r2, len2))
  = Some (0, crypto_sign_bytes tP + 3, false, true, -1, 0).
Proof. vm_compute. reflexivity. Qed.
