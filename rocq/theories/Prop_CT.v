(** What branches and memory accesses of key generation and signing show (C72).  Theorems only; proofs are elsewhere.

    [seed_keypairT], [signatureT] are the programs of ref/sign.c with a record of every data- or index-dependent branch
    and of offset and length of every access to a buffer (CTLog.v).  Two kinds of entry are not effects of the code but
    mark values on which branches and offsets do depend: what hash_message returned, and the strings signed with WOTS+;
    [marks] picks them out. *)
From Verif Require Import Base Params Address Suite Sign Spec Refine SignProofs BuildSpec BuildProofs Toy
  CTLog CTErase CTProofs CTSpec CTRoots CTApi.

Section CT.
Variable P : params.
Notation N := (p_n P).
Notation SB := (SPX_BYTES P).
Hypothesis Hwf : wf_params P = true.

(** Without the record they are the programs of Sign.v. *)
Theorem C72_forget : forall HS junk,
  (forall pk sk seed, forget (seed_keypairT P HS junk pk sk seed) = crypto_sign_seed_keypair P HS junk pk sk seed)
  /\ (forall st s m sk, forget (signatureT P HS junk st s m sk) = crypto_sign_signature P HS junk st s m sk).
Proof. exact (fun HS junk => conj (fg_seed_keypair P HS junk) (fg_signature P HS junk)). Qed.
(** Key generation has one record, without marks, for all seeds, contents of memory and hash functions. *)
Theorem C72_keygen : forall np ns, (SPX_PK_BYTES P <= np)%nat -> (SPX_SK_BYTES P <= ns)%nat ->
  forall HS0, suite_ok P HS0 ->
  exists l, marks l = [] /\ forall HS junk pk0 sk0 seed, suite_ok P HS -> length pk0 = np -> length sk0 = ns ->
    length seed = CRYPTO_SEEDBYTES P ->
    exists out, crypto_sign_seed_keypair P HS junk pk0 sk0 seed = Some out /\ seed_keypairT P HS junk pk0 sk0 seed = Some (out, l).
Proof. exact (keygen_one P Hwf). Qed.
(** Two signing runs, possibly of different keys, messages of one length, randomness, memory, hash functions: if the marks
    agree, so do the records. *)
Theorem C72_sign : forall HS1 HS2 junk1 junk2 st1 st2 sig1 sig2 m1 m2 sk1 sk2 out1 out2 l1 l2,
  suite_ok P HS1 -> suite_ok P HS2 -> length sig1 = length sig2 -> length m1 = length m2 ->
  signatureT P HS1 junk1 st1 sig1 m1 sk1 = Some (out1, l1) -> signatureT P HS2 junk2 st2 sig2 m2 sk2 = Some (out2, l2) ->
  marks l1 = marks l2 -> l1 = l2.
Proof. exact (sign_same P Hwf). Qed.
(** The marks are public: a function of public key, message and signature, computed as a verifier would. *)
Theorem C72_marks : forall HS junk, suite_ok P HS -> forall sig0 ss sp ps root tail optrand rest m sig slen rest' l,
  length ss = N -> length sp = N -> length ps = N -> length root = N -> length optrand = N -> (SB <= length sig0)%nat ->
  signatureT P HS junk (optrand ++ rest) sig0 m (ss ++ sp ++ ps ++ root ++ tail) = Some ((0, sig, slen, rest'), l) ->
  marks l = public_marks P HS ps root m sig.
Proof. exact (fun HS junk Hok => signature_marks P HS junk Hwf Hok). Qed.
(** Hence two secret keys for one public key, whatever the randomness and memory, that produce the same signature of a
    message show the same. *)
Theorem C72_public : forall HS, suite_ok P HS ->
  forall junk1 junk2 sig1 sig2 m ss1 sp1 ps root tail1 o1 rest1 ss2 sp2 tail2 o2 rest2 s1 n1 e1 l1 s2 n2 e2 l2,
  length ss1 = N -> length sp1 = N -> length o1 = N -> length ss2 = N -> length sp2 = N -> length o2 = N ->
  length ps = N -> length root = N -> (SB <= length sig1)%nat -> length sig1 = length sig2 ->
  signatureT P HS junk1 (o1 ++ rest1) sig1 m (ss1 ++ sp1 ++ ps ++ root ++ tail1) = Some ((0, s1, n1, e1), l1) ->
  signatureT P HS junk2 (o2 ++ rest2) sig2 m (ss2 ++ sp2 ++ ps ++ root ++ tail2) = Some ((0, s2, n2, e2), l2) ->
  firstn SB s1 = firstn SB s2 -> l1 = l2.
Proof. exact (sign_public P Hwf). Qed.
(** Every run with buffers large enough has a record. *)
Theorem C72_total : forall HS junk sig0 ss sp ps root tail o rest m, suite_ok P HS ->
  length ss = N -> length sp = N -> length ps = N -> length root = N -> length o = N -> (SB <= length sig0)%nat ->
  exists out l, crypto_sign_signature P HS junk (o ++ rest) sig0 m (ss ++ sp ++ ps ++ root ++ tail) = Some out
    /\ signatureT P HS junk (o ++ rest) sig0 m (ss ++ sp ++ ps ++ root ++ tail) = Some (out, l).
Proof. exact (sign_run P Hwf). Qed.
End CT.

(** The builds meet the hypotheses: sha2-128f-simple and haraka-128f-robust have the same record of key generation. *)
Example C72_128f : exists l, marks l = [] /\ forall jh junk seed, length seed = 48%nat ->
  (exists out, seed_keypairT params_128f (build SHA2 false params_128f jh) junk (repeat 0 32) (repeat 0 64) seed = Some (out, l))
  /\ (exists out, seed_keypairT params_128f (build HARAKA true params_128f jh) junk (repeat 0 32) (repeat 0 64) seed = Some (out, l)).
Proof.
  destruct (C72_keygen params_128f eq_refl 32 64 ltac:(cbn; lia) ltac:(cbn; lia) (toy_suite params_128f) (toy_suite_ok _)) as (l & Hl & H).
  exists l. split; [exact Hl|]. intros jh junk seed Hs. split.
  - destruct (H (build SHA2 false params_128f jh) junk (repeat 0 32) (repeat 0 64) seed) as (out & _ & E);
      [apply build_ok; [reflexivity|cbn; lia]|apply repeat_length|apply repeat_length|exact Hs|eauto].
  - destruct (H (build HARAKA true params_128f jh) junk (repeat 0 32) (repeat 0 64) seed) as (out & _ & E);
      [apply build_ok; [reflexivity|cbn; lia]|apply repeat_length|apply repeat_length|exact Hs|eauto].
Qed.

(** Two keys with different sk_prf, different randomness, different memory, and one record: here both runs draw the same R. *)
Example C72_two_keys : forall ss ps root junk1 junk2, length ss = 2%nat -> length ps = 2%nat -> length root = 2%nat ->
  exists out1 out2 l,
    signatureT params_toy (toy_suite params_toy) junk1 [7; 8] (repeat 0 (SPX_BYTES params_toy)) [1; 2; 3] (ss ++ [3; 4] ++ ps ++ root ++ [])
    = Some (out1, l)
    /\ signatureT params_toy (toy_suite params_toy) junk2 [7; 6] (repeat 9 (SPX_BYTES params_toy)) [1; 2; 3] (ss ++ [5; 3] ++ ps ++ root ++ [])
    = Some (out2, l).
Proof.
  intros ss ps root junk1 junk2 H1 H2 H3.
  refine (same_R params_toy eq_refl (toy_suite params_toy) junk1 junk2 _ _ ss [3; 4] [5; 3] ps root [] [] [7; 8] [7; 6] [] [] [1; 2; 3]
    (toy_suite_ok _) H1 eq_refl eq_refl H2 H3 eq_refl eq_refl _ _ eq_refl); now rewrite !repeat_length.
Qed.

(** A toy run: the record does say something.  Signing another message of the same length shows other branches; the marks
    are three: the message hash and two layers. *)
Notation tP := params_toy.
Notation tS := (toy_suite params_toy).
Definition toy_record (seed m : bytes) : option (bytes * bytes * list event) :=
  k <- crypto_sign_seed_keypair tP tS toy_junk (repeat 0 4) (repeat 0 8) seed ;;
  let '(_, pk, sk) := k in
  s <- signatureT tP tS toy_junk [7; 8] (repeat 0 (SPX_BYTES tP)) m sk ;;
  let '(_, sig, _, _, l) := s in Some (pk, sig, l).
Definition br_bits (l : list event) : list bool := concat (map (fun e => match e with Br b => [b] | _ => [] end) l).
Definition bools_eqb (a b : list bool) : bool :=
  (length a =? length b)%nat && forallb (fun x => Bool.eqb (fst x) (snd x)) (combine a b).
Example toy_records :
  match toy_record toy_seed [1; 2; 3], toy_record toy_seed [3; 2; 1] with
  | Some (pk, sig, l), Some (_, _, l') =>
      bools_eqb (br_bits l) (br_bits l') = false
      /\ length (br_bits l) = length (br_bits l')
      /\ length (marks l) = 3%nat
      /\ firstn 5 (visible l) = [Rd 2 2; Rd 4 4; Rd 0 2; Rd 0 2; CRandom 3]
  | _, _ => False
  end.
Proof. vm_compute. repeat split. Qed.
(** One chain of a leaf: saving position 1 or 2 shows. *)
Example chain_shows :
  let c := mkCtx [5; 6] [1; 2] tt in
  let run k := match wots_leaf_chainT tP tS c 16 0 0 k [1; 2] (repeat 0 12) (repeat 0 32) with Some (_, l) => br_bits l | None => [] end in
  length (run 1) = 32%nat /\ length (run 2) = 32%nat /\ nth 2 (run 1) false = true /\ nth 2 (run 2) false = false.
Proof. vm_compute. repeat split. Qed.

Print Assumptions C72_forget.
Print Assumptions C72_keygen.
Print Assumptions C72_sign.
Print Assumptions C72_marks.
Print Assumptions C72_public.
Print Assumptions C72_total.
