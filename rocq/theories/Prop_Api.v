(** Properties of the public API (C01-C12, C27).  Theorems only; proofs are elsewhere.

    All are for every parameter set the code accepts ([wf_params]) and every hash suite with the
    right output sizes ([suite_ok]); Prop_Builds.v instantiates them with the modelled builds.
    Buffers are byte lists; [None] is an out-of-bounds access; [junk] is uninitialised memory. *)
From Verif Require Import Base Params Suite Sign Spec Refine SignProofs ApiProofs ApiProofs2 Toy.

Section Api.
Variable P : params.
Variable HS : suite.
Notation N := (p_n P).
Notation SB := (SPX_BYTES P).
Notation D := (dims_of P).
Hypothesis Hwf : wf_params P = true.
Hypothesis Hok : suite_ok P HS.

(** C01: honest signatures verify. *)
Theorem C01_sign_verify : forall junk1 junk2 junk3 pk0 sk0 sig0 seed stream m,
  length seed = CRYPTO_SEEDBYTES P -> (N <= length stream)%nat ->
  (SPX_PK_BYTES P <= length pk0)%nat -> (SPX_SK_BYTES P <= length sk0)%nat ->
  (SB <= length sig0)%nat ->
  exists pk sk sig stream',
    crypto_sign_seed_keypair P HS junk1 pk0 sk0 seed = Some (0, pk, sk)
    /\ crypto_sign_signature P HS junk2 stream sig0 m sk
       = Some (0, sig, crypto_sign_bytes P, stream')
    /\ crypto_sign_verify P HS junk3 sig (crypto_sign_bytes P) m pk = Some 0.
Proof. exact (keypair_sign_verify P HS Hwf Hok). Qed.

(** C02: crypto_sign then crypto_sign_open gives the message back. *)
Theorem C02_sign_open : forall junk1 junk2 junk3 pk0 sk0 sm0 m0 seed stream m,
  length seed = CRYPTO_SEEDBYTES P -> (N <= length stream)%nat ->
  (SPX_PK_BYTES P <= length pk0)%nat -> (SPX_SK_BYTES P <= length sk0)%nat ->
  (SB + length m <= length sm0)%nat -> (SB + length m <= length m0)%nat ->
  Z.of_nat (SB + length m) < 2 ^ 64 ->
  exists pk sk sm stream',
    crypto_sign_seed_keypair P HS junk1 pk0 sk0 seed = Some (0, pk, sk)
    /\ crypto_sign P HS junk2 stream sm0 m sk
       = Some (0, sm, Z.of_nat SB + Z.of_nat (length m), stream')
    /\ crypto_sign_open P HS junk3 m0 sm (Z.of_nat SB + Z.of_nat (length m)) pk
       = Some (0, m ++ skipn (length m) m0, Z.of_nat (length m)).
Proof. exact (sign_open_roundtrip P HS Hwf Hok). Qed.

(** C02, format: the signed message is the detached signature followed by the message; the rest of
    the caller's buffer is unchanged. *)
Theorem C02_sign_format : forall junk stream sm0 m sk,
  (SPX_SK_BYTES P <= length sk)%nat -> (N <= length stream)%nat ->
  (SB + length m <= length sm0)%nat -> Z.of_nat (SB + length m) < 2 ^ 64 ->
  exists s,
    crypto_sign P HS junk stream sm0 m sk
    = Some (0, s ++ m ++ skipn (SB + length m) sm0, Z.of_nat (SB + length m), skipn N stream)
    /\ length s = SB
    /\ crypto_sign_signature P HS junk stream (firstn SB sm0) m sk
       = Some (0, s, Z.of_nat SB, skipn N stream).
Proof. exact (crypto_sign_spec P HS Hwf Hok). Qed.

(** C03: exactly SPX_BYTES bytes are written, the same whatever was in the buffer ([sig0]) and in
    uninitialised memory; the rest of the buffer is unchanged; exactly N random bytes are used. *)
Theorem C03_signature_bytes : forall m sk optrand,
  (SPX_SK_BYTES P <= length sk)%nat -> length optrand = N ->
  exists s, length s = SB
    /\ forall junk sig0 rest, (SB <= length sig0)%nat ->
         crypto_sign_signature P HS junk (optrand ++ rest) sig0 m sk
         = Some (0, s ++ skipn SB sig0, crypto_sign_bytes P, rest).
Proof. exact (signature_function P HS Hwf Hok). Qed.

(** C04: keys are a function of the seed, in the documented format; the root is the root of the
    single tree at the top layer of the hypertree. *)
Theorem C04_keygen : forall seed,
  length seed = CRYPTO_SEEDBYTES P ->
  let ss := firstn N seed in
  let ps := skipn (2 * N) seed in
  exists root, root = ht_root D (codeTh P HS ps) (codePrf HS ps ss) /\ length root = N
    /\ forall junk pk0 sk0,
         (SPX_PK_BYTES P <= length pk0)%nat -> (SPX_SK_BYTES P <= length sk0)%nat ->
         crypto_sign_seed_keypair P HS junk pk0 sk0 seed
         = Some (0, ps ++ root ++ skipn (SPX_PK_BYTES P) pk0,
                 seed ++ root ++ skipn (SPX_SK_BYTES P) sk0).
Proof. exact (keygen_function P HS Hwf Hok). Qed.

(** C05: crypto_sign_keypair is crypto_sign_seed_keypair on the next 3N random bytes. *)
Theorem C05_keypair : forall junk stream pk0 sk0,
  (CRYPTO_SEEDBYTES P <= length stream)%nat ->
  (SPX_PK_BYTES P <= length pk0)%nat -> (SPX_SK_BYTES P <= length sk0)%nat ->
  exists pk sk,
    crypto_sign_seed_keypair P HS junk pk0 sk0 (firstn (CRYPTO_SEEDBYTES P) stream)
    = Some (0, pk, sk)
    /\ crypto_sign_keypair P HS junk stream pk0 sk0
       = Some (0, pk, sk, skipn (CRYPTO_SEEDBYTES P) stream).
Proof. exact (keypair_fresh P HS Hwf Hok). Qed.

(** C06: any history of signing requests.  The i-th output is what one isolated call with the i-th
    N random bytes produces, and it verifies. *)
Theorem C06_history : forall junk junks junkv pk0 sk0 seed opts rest reqs,
  length seed = CRYPTO_SEEDBYTES P ->
  (SPX_PK_BYTES P <= length pk0)%nat -> (SPX_SK_BYTES P <= length sk0)%nat ->
  Forall (fun o => length o = N) opts -> length opts = length reqs ->
  Forall (fun q => (SB <= length (fst q))%nat) reqs ->
  exists pk sk outs,
    crypto_sign_seed_keypair P HS junk pk0 sk0 seed = Some (0, pk, sk)
    /\ sign_session P HS junks 0 sk reqs (concat opts ++ rest) = Some (outs, rest)
    /\ length outs = length reqs
    /\ forall i o buf m, nth_error opts i = Some o -> nth_error reqs i = Some (buf, m) ->
         exists sig, nth_error outs i = Some (0, sig, crypto_sign_bytes P)
           /\ crypto_sign_signature P HS (junks i) o buf m sk
              = Some (0, sig, crypto_sign_bytes P, [])
           /\ crypto_sign_verify P HS junkv sig (crypto_sign_bytes P) m pk = Some 0.
Proof. exact (session_verifies P HS Hwf Hok). Qed.

(** C08, C09: crypto_sign_open. *)
Theorem C08_C09_open : forall junk m0 sm smlen pk,
  0 <= smlen -> smlen <= Z.of_nat (length sm) -> smlen <= Z.of_nat (length m0) ->
  (SPX_PK_BYTES P <= length pk)%nat ->
  let msg := firstn (Z.to_nat smlen - SB) (skipn SB sm) in
  let good := Z.of_nat SB <= smlen
    /\ crypto_sign_verify P HS junk (firstn SB sm) (Z.of_nat SB) msg pk = Some 0 in
  (good -> crypto_sign_open P HS junk m0 sm smlen pk
           = Some (0, msg ++ skipn (Z.to_nat smlen - SB) m0, smlen - Z.of_nat SB))
  /\ (~ good -> crypto_sign_open P HS junk m0 sm smlen pk
           = Some (-1, repeat 0 (Z.to_nat smlen) ++ skipn (Z.to_nat smlen) m0, 0)).
Proof. exact (open_spec P HS Hwf Hok). Qed.

(** C10: verification depends on the first SPX_BYTES bytes of sig, the first 2N of pk, and m. *)
Theorem C10_verify_function : forall junk1 junk2 sig1 sig2 siglen m pk1 pk2,
  (SB <= length sig1)%nat -> (SB <= length sig2)%nat ->
  (SPX_PK_BYTES P <= length pk1)%nat -> (SPX_PK_BYTES P <= length pk2)%nat ->
  firstn SB sig1 = firstn SB sig2 ->
  firstn (SPX_PK_BYTES P) pk1 = firstn (SPX_PK_BYTES P) pk2 ->
  crypto_sign_verify P HS junk1 sig1 siglen m pk1 = crypto_sign_verify P HS junk2 sig2 siglen m pk2.
Proof. exact (verify_indep P HS Hwf Hok). Qed.

(** C11: no access outside the documented buffers, on any input. *)
Theorem C11_in_bounds :
  (forall junk pk0 sk0 seed, length seed = CRYPTO_SEEDBYTES P ->
     (SPX_PK_BYTES P <= length pk0)%nat -> (SPX_SK_BYTES P <= length sk0)%nat ->
     crypto_sign_seed_keypair P HS junk pk0 sk0 seed <> None)
  /\ (forall junk stream pk0 sk0, (CRYPTO_SEEDBYTES P <= length stream)%nat ->
     (SPX_PK_BYTES P <= length pk0)%nat -> (SPX_SK_BYTES P <= length sk0)%nat ->
     crypto_sign_keypair P HS junk stream pk0 sk0 <> None)
  /\ (forall junk stream sig0 m sk, (SPX_SK_BYTES P <= length sk)%nat -> (N <= length stream)%nat ->
     (SB <= length sig0)%nat ->
     crypto_sign_signature P HS junk stream sig0 m sk <> None)
  /\ (forall junk sig siglen m pk,
     (siglen = Z.of_nat SB -> (SB <= length sig)%nat) ->
     (SPX_PK_BYTES P <= length pk)%nat -> crypto_sign_verify P HS junk sig siglen m pk <> None)
  /\ (forall junk stream sm0 m sk, (SPX_SK_BYTES P <= length sk)%nat -> (N <= length stream)%nat ->
     (SB + length m <= length sm0)%nat ->
     crypto_sign P HS junk stream sm0 m sk <> None)
  /\ (forall junk m0 sm smlen pk, 0 <= smlen -> smlen <= Z.of_nat (length sm) ->
     smlen <= Z.of_nat (length m0) -> (SPX_PK_BYTES P <= length pk)%nat ->
     crypto_sign_open P HS junk m0 sm smlen pk <> None).
Proof. exact (api_total P HS Hwf Hok). Qed.

(** C12: signing computes the SPHINCS+ specification (Spec.v).  Key generation: C04. *)
Theorem C12_sign_is_spec : forall junk stream sig0 m sk,
  (SPX_SK_BYTES P <= length sk)%nat -> (N <= length stream)%nat -> (SB <= length sig0)%nat ->
  let s := spx_sign D (codeTh P HS) (codePrf HS) (codeRnd P HS) (codeHm P HS)
             (firstn N sk) (firstn N (skipn N sk)) (firstn N (skipn (2 * N) sk))
             (firstn N (skipn (3 * N) sk)) (firstn N stream) m in
  crypto_sign_signature P HS junk stream sig0 m sk
  = Some (0, s ++ skipn SB sig0, Z.of_nat SB, skipn N stream)
  /\ length s = SB.
Proof. exact (signature_spec P HS Hwf Hok). Qed.

(** C12 and C27: verification accepts exactly when the specification does: when the root recomputed
    from the signature is the root in pk. *)
Theorem C12_C27_verify_is_spec : forall junk sig siglen m pk,
  (siglen = Z.of_nat SB -> (SB <= length sig)%nat) ->
  (SPX_PK_BYTES P <= length pk)%nat ->
  exists r, crypto_sign_verify P HS junk sig siglen m pk = Some r /\ (r = 0 \/ r = -1)
    /\ (r = 0 <-> siglen = Z.of_nat SB
          /\ spx_verify D (codeTh P HS) (codeHm P HS) (firstn N pk) (firstn N (skipn N pk)) m
               (firstn SB sig)).
Proof. exact (verify_total P HS Hwf Hok). Qed.
End Api.

(** C07: a wrong length is rejected without reading anything: whatever the size of the buffers. *)
Theorem C07_wrong_length : forall P HS junk sig siglen m pk,
  siglen <> Z.of_nat (SPX_BYTES P) -> crypto_sign_verify P HS junk sig siglen m pk = Some (-1).
Proof. exact verify_wrong_length. Qed.

(** C05: with fewer than 3N bytes available key generation cannot complete. *)
Theorem C05_needs_3N : forall P HS junk stream pk0 sk0,
  (length stream < CRYPTO_SEEDBYTES P)%nat -> crypto_sign_keypair P HS junk stream pk0 sk0 = None.
Proof. exact keypair_needs_seed. Qed.

Print Assumptions C01_sign_verify.
Print Assumptions C02_sign_open.
Print Assumptions C02_sign_format.
Print Assumptions C03_signature_bytes.
Print Assumptions C04_keygen.
Print Assumptions C05_keypair.
Print Assumptions C05_needs_3N.
Print Assumptions C06_history.
Print Assumptions C07_wrong_length.
Print Assumptions C08_C09_open.
Print Assumptions C10_verify_function.
Print Assumptions C11_in_bounds.
Print Assumptions C12_sign_is_spec.
Print Assumptions C12_C27_verify_is_spec.

(** ** The hypotheses can be met: runs of the model with the toy suite. *)
Definition tP := params_toy.
Definition tS := toy_suite params_toy.

Example toy_hypotheses : wf_params tP = true /\ suite_ok tP tS /\ (10 < SPX_BYTES tP)%nat.
Proof. split; [reflexivity|]. split; [apply toy_suite_ok|vm_compute; lia]. Qed.

(** Key generation, signing and verification (C01, C03, C04, C05, C06, C07, C12, C27). *)
Example toy_sign_verify :
  (r <- crypto_sign_seed_keypair tP tS toy_junk (repeat 9 5) (repeat 9 9) toy_seed ;;
   let '(_, pk, sk) := r in
   s <- crypto_sign_signature tP tS toy_junk [7; 8; 9] (repeat 0 (SPX_BYTES tP + 1)) [1; 2; 3] sk ;;
   let '(ret, sig, len, rest) := s in
   v1 <- crypto_sign_verify tP tS toy_junk sig len [1; 2; 3] pk ;;
   v2 <- crypto_sign_verify tP tS toy_junk sig len [1; 2; 4] pk ;;
   v3 <- crypto_sign_verify tP tS toy_junk sig (len - 1) [1; 2; 3] pk ;;
   Some (firstn 6 sk, nth 8 sk 0, firstn 2 pk, ret, len, rest, v1, v2, v3))
  = Some (toy_seed, 9, [5; 6], 0, crypto_sign_bytes tP, [9], 0, -1, -1).
Proof. vm_compute. reflexivity. Qed.

(** crypto_sign and both outcomes of crypto_sign_open (C02, C08, C09). *)
Example toy_sign_open :
  (r <- crypto_sign_keypair tP tS toy_junk [1; 2; 3; 4; 5; 6; 7] (repeat 0 4) (repeat 0 8) ;;
   let '(_, pk, sk, rest) := r in
   s <- crypto_sign tP tS toy_junk [7; 8] (repeat 0 (SPX_BYTES tP + 3)) [11; 22; 33] sk ;;
   let '(ret, sm, len, _) := s in
   o1 <- crypto_sign_open tP tS toy_junk (repeat 5 (SPX_BYTES tP + 4)) sm len pk ;;
   o2 <- crypto_sign_open tP tS toy_junk (repeat 5 (SPX_BYTES tP + 4)) (removelast sm ++ [34]) len pk ;;
   Some (rest, ret, len, o1, o2))
  = Some ([7], 0, crypto_sign_bytes tP + 3,
          (0, [11; 22; 33] ++ repeat 5 (SPX_BYTES tP + 1), 3),
          (-1, repeat 0 (SPX_BYTES tP + 3) ++ [5], 0)).
Proof. vm_compute. reflexivity. Qed.

(** A session of two signatures (C06). *)
Example toy_session :
  (r <- crypto_sign_seed_keypair tP tS toy_junk (repeat 0 4) (repeat 0 8) toy_seed ;;
   let '(_, pk, sk) := r in
   o <- sign_session tP tS (fun _ => toy_junk) 0 sk
          [(repeat 0 (SPX_BYTES tP), [1]); (repeat 0 (SPX_BYTES tP), [2])] [1; 2; 3; 4; 5] ;;
   let '(outs, rest) := o in
   match outs with
   | [(_, s1, len); (_, s2, _)] =>
       v1 <- crypto_sign_verify tP tS toy_junk s1 len [1] pk ;;
       v2 <- crypto_sign_verify tP tS toy_junk s2 len [2] pk ;;
       Some (v1, v2, memcmp_differs s1 s2, rest)
   | _ => None
   end)
  = Some (0, 0, true, [5]).
Proof. vm_compute. reflexivity. Qed.
