(** The hash calls of key generation, signing and verification (C63-C66).  Theorems only; proofs are elsewhere.

    [seed_keypairL], [signatureL], [verifyL] are the programs of ref/sign.c with a record of every call of thash,
    prf_addr, gen_message_random and hash_message (CallLog.v).  [keygen_calls], [sign_calls], [verify_calls] are the
    calls the scheme makes (CallSpec.v). *)
From Verif Require Import Base Params Address Suite Sign Spec Refine SignProofs AdrsEnc BuildSpec BuildProofs Toy
  CallLog CallErase CallSpec CallTreeProofs CallApiProofs.

Section Calls.
Variable P : params.
Variable HS : suite.
Notation N := (p_n P).
Notation D := (dims_of P).
Notation L := (hs_layout HS).
Notation TH := (SPX_TREE_HEIGHT P).
Hypothesis Hwf : wf_params P = true.
Hypothesis Hok : suite_ok P HS.

(** C63: without the record they are the programs of Sign.v. *)
Theorem C63_erase : forall junk,
  (forall pk sk seed, erase (seed_keypairL P HS junk pk sk seed) = crypto_sign_seed_keypair P HS junk pk sk seed)
  /\ (forall st s m sk, erase (signatureL P HS junk st s m sk) = crypto_sign_signature P HS junk st s m sk)
  /\ (forall s sl m pk, erase (verifyL P HS junk s sl m pk) = crypto_sign_verify P HS junk s sl m pk).
Proof. exact (fun junk => conj (er_seed_keypair P HS junk) (conj (er_signature P HS junk) (er_verify P HS junk))). Qed.

(** C63: the exact sequence of calls, with inputs. *)
Theorem C63_keygen : forall ss sp ps, length ss = N -> length sp = N -> length ps = N ->
  forall junk pk0 sk0, (SPX_PK_BYTES P <= length pk0)%nat -> (SPX_SK_BYTES P <= length sk0)%nat ->
  exists out, crypto_sign_seed_keypair P HS junk pk0 sk0 (ss ++ sp ++ ps) = Some out
    /\ seed_keypairL P HS junk pk0 sk0 (ss ++ sp ++ ps)
       = Some (out, map (enc_call L) (keygen_calls D (codeTh P HS ps) (codePrf HS ps ss))).
Proof. exact (keygen_log P HS Hwf Hok). Qed.
Theorem C63_sign : forall ss sp ps, length ss = N -> length sp = N -> length ps = N ->
  forall junk sig0 m root tail optrand rest,
  length root = N -> length optrand = N -> (SPX_BYTES P <= length sig0)%nat ->
  let R := codeRnd P HS ps sp optrand m in
  exists out md tree leaf, codeHm P HS ps R (ps ++ root) m = (md, tree, leaf)
    /\ 0 <= tree < 2 ^ Z.of_nat (SPX_TREE_BITS P) /\ 0 <= leaf < 2 ^ Z.of_nat TH
    /\ crypto_sign_signature P HS junk (optrand ++ rest) sig0 m (ss ++ sp ++ ps ++ root ++ tail) = Some out
    /\ signatureL P HS junk (optrand ++ rest) sig0 m (ss ++ sp ++ ps ++ root ++ tail)
       = Some (out, MsgRandom sp optrand m :: MsgHash R (ps ++ root) m
                    :: map (enc_call L) (sign_calls D (codeTh P HS ps) (codePrf HS ps ss) md tree leaf)).
Proof. exact (sign_log P HS Hwf Hok). Qed.
Theorem C63_verify : forall junk sig m pk,
  (SPX_BYTES P <= length sig)%nat -> (SPX_PK_BYTES P <= length pk)%nat ->
  let R := firstn N sig in let ps := firstn N pk in
  let cs := blocks N (spx_nblocks D) (skipn N (firstn (SPX_BYTES P) sig)) in
  exists r md tree leaf, codeHm P HS ps R (firstn (2 * N) pk) m = (md, tree, leaf)
    /\ 0 <= tree < 2 ^ Z.of_nat (SPX_TREE_BITS P) /\ 0 <= leaf < 2 ^ Z.of_nat TH
    /\ length cs = spx_nblocks D
    /\ crypto_sign_verify P HS junk sig (Z.of_nat (SPX_BYTES P)) m pk = Some r
    /\ verifyL P HS junk sig (Z.of_nat (SPX_BYTES P)) m pk
       = Some (r, MsgHash R (firstn (2 * N) pk) m
                  :: map (enc_call L) (verify_calls D (codeTh P HS ps) md tree leaf cs)).
Proof. exact (verify_log P HS Hwf Hok). Qed.
Theorem C63_verify_length : forall junk sig siglen m pk, siglen <> Z.of_nat (SPX_BYTES P) ->
  verifyL P HS junk sig siglen m pk = Some (-1, []).
Proof. exact (verify_log_length P HS). Qed.

(** C64: how many.  The numbers of key generation and signing do not depend on key, message or randomness. *)
Theorem C64_keygen : forall junk pk0 sk0 ss sp ps out log,
  length ss = N -> length sp = N -> length ps = N ->
  (SPX_PK_BYTES P <= length pk0)%nat -> (SPX_SK_BYTES P <= length sk0)%nat ->
  seed_keypairL P HS junk pk0 sk0 (ss ++ sp ++ ps) = Some (out, log) ->
  (length (thashes log) + 1 = 2 ^ TH * (SPX_WOTS_LEN P * Z.to_nat (SPX_WOTS_W P - 1) + 2)
   /\ length (prfs log) = 2 ^ TH * SPX_WOTS_LEN P
   /\ length log = length (thashes log) + length (prfs log))%nat.
Proof. exact (keygen_count P HS Hwf Hok). Qed.
Theorem C64_sign : forall junk sig0 m ss sp ps root tail optrand rest out log,
  length ss = N -> length sp = N -> length ps = N -> length root = N -> length optrand = N -> (SPX_BYTES P <= length sig0)%nat ->
  signatureL P HS junk (optrand ++ rest) sig0 m (ss ++ sp ++ ps ++ root ++ tail) = Some (out, log) ->
  (length (thashes log) + p_d P
     = p_ft P * (2 ^ p_fh P * 2 - 1) + 1 + p_d P * (2 ^ TH * (SPX_WOTS_LEN P * Z.to_nat (SPX_WOTS_W P - 1) + 2))
   /\ length (prfs log) = p_ft P * (2 ^ p_fh P + 1) + p_d P * (2 ^ TH * SPX_WOTS_LEN P)
   /\ length log = 2 + length (thashes log) + length (prfs log))%nat.
Proof. exact (sign_count P HS Hwf Hok). Qed.
Theorem C64_verify : forall junk sig siglen m pk out log,
  (SPX_BYTES P <= length sig)%nat -> (SPX_PK_BYTES P <= length pk)%nat ->
  verifyL P HS junk sig siglen m pk = Some (out, log) ->
  (length (thashes log) <= p_ft P * (p_fh P + 1) + 1 + p_d P * (SPX_WOTS_LEN P * Z.to_nat (SPX_WOTS_W P - 1) + 1 + TH)
   /\ prfs log = [] /\ length log <= 1 + length (thashes log))%nat.
Proof. exact (verify_count P HS Hwf Hok). Qed.

(** C65: no run calls thash twice with the same address. *)
Theorem C65_keygen_distinct : forall junk pk0 sk0 ss sp ps out log,
  length ss = N -> length sp = N -> length ps = N ->
  (SPX_PK_BYTES P <= length pk0)%nat -> (SPX_SK_BYTES P <= length sk0)%nat ->
  seed_keypairL P HS junk pk0 sk0 (ss ++ sp ++ ps) = Some (out, log) -> NoDup (map snd (thashes log)).
Proof. exact (keygen_nodup P HS Hwf Hok). Qed.
Theorem C65_sign_distinct : forall junk sig0 m ss sp ps root tail optrand rest out log,
  length ss = N -> length sp = N -> length ps = N -> length root = N -> length optrand = N -> (SPX_BYTES P <= length sig0)%nat ->
  signatureL P HS junk (optrand ++ rest) sig0 m (ss ++ sp ++ ps ++ root ++ tail) = Some (out, log) ->
  NoDup (map snd (thashes log)).
Proof. exact (sign_nodup P HS Hwf Hok). Qed.
Theorem C65_verify_distinct : forall junk sig siglen m pk out log,
  (SPX_BYTES P <= length sig)%nat -> (SPX_PK_BYTES P <= length pk)%nat ->
  verifyL P HS junk sig siglen m pk = Some (out, log) -> NoDup (map snd (thashes log)).
Proof. exact (verify_nodup P HS Hwf Hok). Qed.
(** C65: over all key generation and signing runs of one key, an address always comes with the same number of
    blocks and the same input. *)
Theorem C65_one_input : forall ss ps log1 log2 k1 k2 x1 x2 A, length ss = N -> length ps = N ->
  signer_run P HS ss ps log1 -> signer_run P HS ss ps log2 ->
  In (Thash k1 x1 A) log1 -> In (Thash k2 x2 A) log2 -> k1 = k2 /\ x1 = x2.
Proof. exact (one_input P HS Hwf Hok). Qed.
(** C65: verifying a signature makes only calls that signing made, with the same inputs. *)
Theorem C65_own_verify : forall junk junk' pk0 sk0 sig0 m ss sp ps optrand rest pk sk sig slen rest' log r vlog,
  length ss = N -> length sp = N -> length ps = N -> length optrand = N ->
  (SPX_PK_BYTES P <= length pk0)%nat -> (SPX_SK_BYTES P <= length sk0)%nat -> (SPX_BYTES P <= length sig0)%nat ->
  crypto_sign_seed_keypair P HS junk pk0 sk0 (ss ++ sp ++ ps) = Some (0, pk, sk) ->
  signatureL P HS junk (optrand ++ rest) sig0 m sk = Some ((0, sig, slen, rest'), log) ->
  verifyL P HS junk' sig (Z.of_nat (SPX_BYTES P)) m pk = Some (r, vlog) ->
  incl vlog log.
Proof. exact (own_verify P HS Hwf Hok). Qed.

(** C66: the sequence of calls and addresses does not depend on secrets: key generation has one for all seeds;
    signing is determined by the outputs of the message hash, its thash calls by the tree and leaf index alone.
    The two runs may differ in everything, even in the hash functions. *)
Section Traces.
Variable HS' : suite.
Hypothesis Hok' : suite_ok P HS'.
Hypothesis HL : hs_layout HS = hs_layout HS'.
Theorem C66_keygen : forall junk junk' pk0 sk0 pk0' sk0' ss sp ps ss' sp' ps' out log out' log',
  length ss = N -> length sp = N -> length ps = N -> length ss' = N -> length sp' = N -> length ps' = N ->
  (SPX_PK_BYTES P <= length pk0)%nat -> (SPX_SK_BYTES P <= length sk0)%nat ->
  (SPX_PK_BYTES P <= length pk0')%nat -> (SPX_SK_BYTES P <= length sk0')%nat ->
  seed_keypairL P HS junk pk0 sk0 (ss ++ sp ++ ps) = Some (out, log) ->
  seed_keypairL P HS' junk' pk0' sk0' (ss' ++ sp' ++ ps') = Some (out', log') ->
  map shape log = map shape log'.
Proof. exact (keygen_trace P HS HS' Hwf Hok Hok' HL). Qed.
Theorem C66_sign : forall junk junk' sig0 sig0' m m' ss sp ps root tail optrand rest ss' sp' ps' root' tail' optrand' rest'
    out out' log log',
  length ss = N /\ length sp = N /\ length ps = N /\ length root = N /\ length optrand = N ->
  length ss' = N /\ length sp' = N /\ length ps' = N /\ length root' = N /\ length optrand' = N ->
  (SPX_BYTES P <= length sig0)%nat -> (SPX_BYTES P <= length sig0')%nat ->
  signatureL P HS junk (optrand ++ rest) sig0 m (ss ++ sp ++ ps ++ root ++ tail) = Some (out, log) ->
  signatureL P HS' junk' (optrand' ++ rest') sig0' m' (ss' ++ sp' ++ ps' ++ root' ++ tail') = Some (out', log') ->
  codeHm P HS ps (codeRnd P HS ps sp optrand m) (ps ++ root) m
    = codeHm P HS' ps' (codeRnd P HS' ps' sp' optrand' m') (ps' ++ root') m' ->
  map shape log = map shape log'.
Proof. exact (sign_trace P HS HS' Hwf Hok Hok' HL). Qed.
Theorem C66_sign_thash : forall junk junk' sig0 sig0' m m' ss sp ps root tail optrand rest ss' sp' ps' root' tail' optrand' rest'
    out out' log log',
  length ss = N /\ length sp = N /\ length ps = N /\ length root = N /\ length optrand = N ->
  length ss' = N /\ length sp' = N /\ length ps' = N /\ length root' = N /\ length optrand' = N ->
  (SPX_BYTES P <= length sig0)%nat -> (SPX_BYTES P <= length sig0')%nat ->
  signatureL P HS junk (optrand ++ rest) sig0 m (ss ++ sp ++ ps ++ root ++ tail) = Some (out, log) ->
  signatureL P HS' junk' (optrand' ++ rest') sig0' m' (ss' ++ sp' ++ ps' ++ root' ++ tail') = Some (out', log') ->
  let hm := codeHm P HS ps (codeRnd P HS ps sp optrand m) (ps ++ root) m in
  let hm' := codeHm P HS' ps' (codeRnd P HS' ps' sp' optrand' m') (ps' ++ root') m' in
  snd (fst hm) = snd (fst hm') -> snd hm = snd hm' -> thashes log = thashes log'.
Proof. exact (sign_trace_th P HS HS' Hwf Hok Hok' HL). Qed.
End Traces.
End Calls.

(** The hypotheses hold of the builds: every signing run of sha2-128f-simple makes 96922 thash and 8305 prf_addr calls,
    every one of shake-128s-robust 2003436 and 182798. *)
Example C64_128f : forall jh junk sig0 m ss sp ps root optrand rest out log,
  length ss = 16%nat -> length sp = 16%nat -> length ps = 16%nat -> length root = 16%nat -> length optrand = 16%nat ->
  (SPX_BYTES params_128f <= length sig0)%nat ->
  signatureL params_128f (build SHA2 false params_128f jh) junk (optrand ++ rest) sig0 m (ss ++ sp ++ ps ++ root) = Some (out, log) ->
  Z.of_nat (length (thashes log)) = 96922 /\ Z.of_nat (length (prfs log)) = 8305.
Proof.
  intros jh junk sig0 m ss sp ps root optrand rest out log Hs Hp Hu Hr Ho Hsig EL.
  rewrite <- (app_nil_r root) in EL.
  destruct (C64_sign params_128f (build SHA2 false params_128f jh) eq_refl (build_ok SHA2 false params_128f jh eq_refl ltac:(cbn; lia))
    junk sig0 m ss sp ps root [] optrand rest out log Hs Hp Hu Hr Ho Hsig EL) as (H1 & H2 & _).
  change (SPX_TREE_HEIGHT params_128f) with 3%nat in *. change (SPX_WOTS_LEN params_128f) with 35%nat in *.
  change (Z.to_nat (SPX_WOTS_W params_128f - 1)) with 15%nat in *.
  cbn [params_128f p_n p_d p_full p_fh p_ft p_logw Nat.pow] in H1, H2. lia.
Qed.
Example C64_128s : forall jh junk sig0 m ss sp ps root optrand rest out log,
  length ss = 16%nat -> length sp = 16%nat -> length ps = 16%nat -> length root = 16%nat -> length optrand = 16%nat ->
  (SPX_BYTES params_128s <= length sig0)%nat ->
  signatureL params_128s (build SHAKE true params_128s jh) junk (optrand ++ rest) sig0 m (ss ++ sp ++ ps ++ root) = Some (out, log) ->
  Z.of_nat (length (thashes log)) = 2003436 /\ Z.of_nat (length (prfs log)) = 182798.
Proof.
  intros jh junk sig0 m ss sp ps root optrand rest out log Hs Hp Hu Hr Ho Hsig EL.
  rewrite <- (app_nil_r root) in EL.
  destruct (C64_sign params_128s (build SHAKE true params_128s jh) eq_refl (build_ok SHAKE true params_128s jh eq_refl ltac:(cbn; lia))
    junk sig0 m ss sp ps root [] optrand rest out log Hs Hp Hu Hr Ho Hsig EL) as (H1 & H2 & _).
  change (SPX_TREE_HEIGHT params_128s) with 9%nat in *. change (SPX_WOTS_LEN params_128s) with 35%nat in *.
  change (Z.to_nat (SPX_WOTS_W params_128s - 1)) with 15%nat in *.
  cbn [params_128s p_n p_d p_full p_fh p_ft p_logw] in H1, H2.
  assert (E9 : (2 ^ 9 = 512)%nat) by reflexivity. assert (E12 : (2 ^ 12 = 512 * 8)%nat) by reflexivity.
  rewrite E9, E12 in *. lia.
Qed.

(** The toy run: key generation, signing and verification recorded; the counts, the distinct addresses, the first
    calls, and the trace of a second key and message. *)
Notation tP := params_toy.
Notation tS := (toy_suite params_toy).
Definition toy_sign (seed m : bytes) : option (list call * list call * list call * Z) :=
  k <- seed_keypairL tP tS toy_junk (repeat 0 4) (repeat 0 8) seed ;;
  let '(_, pk, sk, klog) := k in
  s <- signatureL tP tS toy_junk [7; 8] (repeat 0 (SPX_BYTES tP)) m sk ;;
  let '(_, sig, len, _, slog) := s in
  v <- verifyL tP tS toy_junk sig len m pk ;;
  let '(r, vlog) := v in
  Some (klog, slog, vlog, r).
Fixpoint distinct (l : list bytes) : bool :=
  match l with [] => true | a :: l' => forallb (fun b => if list_eq_dec Z.eq_dec a b then false else true) l' && distinct l' end.
Example toy_calls :
  match toy_sign toy_seed [1; 2; 3] with
  | Some (klog, slog, vlog, r) =>
      r = 0
      /\ (length (thashes klog), length (prfs klog)) = (4 * (6 * 15 + 2) - 1, 4 * 6)%nat
      /\ (length (thashes slog), length (prfs slog)) = (3 * 7 + 1 + 2 * (4 * (6 * 15 + 2) - 1), 3 * 5 + 2 * 4 * 6)%nat
      /\ (length (thashes vlog) <? 3 * 3 + 1 + 2 * (6 * 15 + 1 + 2))%nat = true
      /\ distinct (map snd (thashes slog)) = true
      /\ firstn 1 slog = [MsgRandom [3; 4] [7; 8] [1; 2; 3]]
      /\ nth 0 (map shape klog) (MsgHash [] [] []) = Prf (enc LSha2 (mkAdrs 1 0 T_WOTS_PRF 0 0 0))
      /\ nth 1 (map shape klog) (MsgHash [] [] []) = Thash 1 [] (enc LSha2 (mkAdrs 1 0 T_WOTS_HASH 0 0 0))
  | None => False
  end.
Proof. vm_compute. repeat split. Qed.

Print Assumptions C63_erase.
Print Assumptions C63_keygen.
Print Assumptions C63_sign.
Print Assumptions C63_verify.
Print Assumptions C63_verify_length.
Print Assumptions C64_keygen.
Print Assumptions C64_sign.
Print Assumptions C64_verify.
Print Assumptions C65_keygen_distinct.
Print Assumptions C65_sign_distinct.
Print Assumptions C65_verify_distinct.
Print Assumptions C65_one_input.
Print Assumptions C65_own_verify.
Print Assumptions C66_keygen.
Print Assumptions C66_sign.
Print Assumptions C66_sign_thash.
