(** C26: an accepted signature is the honest one for its digest or exposes a break of the hash.
    Theorems only.

    [verify_calls D T md tree leaf body] lists the hash calls (address, input) the verifier makes on a
    signature; [honest_call] says which input an honest key pair has at which address; [signed_by] is
    the only value each WOTS+ key pair signs (all in ForgeSpec.v).  [break_in calls] says that one of
    the calls is made at an honest address with the honest output on a different input of the same
    length, or has as input a value of an honest WOTS+ chain at a position before the one every
    signature releases. *)
From Verif Require Import Base Params Suite Sign Spec Refine BuildSpec ForgeSpec ForgeProofs ForgeFacts
  ForgeCode Toy.

(** C26, for every suite: [T] and [PRF] are the suite's tweakable hash and PRF under the seeds the key
    pair was generated from. *)
Theorem C26_forgery : forall P HS, wf_params P = true -> suite_ok P HS ->
  forall junk1 junk2 pk0 sk0 pk sk seed sig siglen m,
  length seed = CRYPTO_SEEDBYTES P ->
  (SPX_PK_BYTES P <= length pk0)%nat -> (SPX_SK_BYTES P <= length sk0)%nat ->
  crypto_sign_seed_keypair P HS junk1 pk0 sk0 seed = Some (0, pk, sk) ->
  all_bytes sig -> (siglen = Z.of_nat (SPX_BYTES P) -> (SPX_BYTES P <= length sig)%nat) ->
  crypto_sign_verify P HS junk2 sig siglen m pk = Some 0 ->
  let N := p_n P in let D := dims_of P in
  let T := codeTh P HS (skipn (2 * N) seed) in
  let PRF := codePrf HS (skipn (2 * N) seed) (firstn N seed) in
  exists md tree leaf,
    codeHm P HS (skipn (2 * N) seed) (firstn N sig) (firstn (2 * N) pk) m = (md, tree, leaf)
    /\ (firstn (SPX_BYTES P) sig = firstn N sig ++ concat (spx_sign_body D T PRF md tree leaf)
        \/ break_in D T PRF (verify_calls D T md tree leaf (sig_body P sig))).
Proof. exact suite_forgery. Qed.

(** C26, for every build of ref/, with the hash functions of the specification. *)
Theorem C26_builds : forall f robust P, wf_params P = true -> (p_n P <= 32)%nat ->
  forall jh1 jh2 junk1 junk2 pk0 sk0 pk sk seed sig siglen m,
  length seed = CRYPTO_SEEDBYTES P ->
  (SPX_PK_BYTES P <= length pk0)%nat -> (SPX_SK_BYTES P <= length sk0)%nat ->
  all_bytes seed -> all_bytes sig -> all_bytes m -> Z.of_nat (length m) < 2 ^ 63 ->
  crypto_sign_seed_keypair P (build f robust P jh1) junk1 pk0 sk0 seed = Some (0, pk, sk) ->
  (siglen = Z.of_nat (SPX_BYTES P) -> (SPX_BYTES P <= length sig)%nat) ->
  crypto_sign_verify P (build f robust P jh2) junk2 sig siglen m pk = Some 0 ->
  let N := p_n P in let D := dims_of P in
  let T := spec_T f N robust (skipn (2 * N) seed) in
  let PRF := spec_PRF f N (skipn (2 * N) seed) (firstn N seed) in
  exists md tree leaf,
    spec_Hm f N D (skipn (2 * N) seed) (firstn N sig) (firstn (2 * N) pk) m = (md, tree, leaf)
    /\ (firstn (SPX_BYTES P) sig = firstn N sig ++ concat (spx_sign_body D T PRF md tree leaf)
        \/ break_in D T PRF (verify_calls D T md tree leaf (sig_body P sig))).
Proof. exact build_forgery. Qed.

(** The list of calls is complete: verification with another hash function that agrees on the listed
    calls gives the same root. *)
Theorem C26_calls_complete : forall D (T T' : adrs -> list Z -> list Z) md tree leaf sig,
  (forall a x, In (a, x) (verify_calls D T md tree leaf sig) -> T' a x = T a x) ->
  spx_root_of_sig D T' md tree leaf sig = spx_root_of_sig D T md tree leaf sig.
Proof. exact verify_log. Qed.

(** An address has one honest input. *)
Theorem C26_honest_unique : forall D T PRF a x y,
  honest_call D T PRF a x -> honest_call D T PRF a y -> x = y.
Proof. exact honest_unique. Qed.

(** Every signature consists of FORS secrets with paths and, for each layer, the WOTS+ signature of
    the one value [signed_by] that key pair ever signs: no message makes the signer release an earlier
    chain value. *)
Theorem C26_released : forall D T PRF md tree leaf,
  spx_sign_body D T PRF md tree leaf
  = fors_sign D T PRF tree leaf md
    ++ concat (map (fun j =>
         let l := Z.of_nat j in let t := path_tree D tree j in let kp := path_kp D tree leaf j in
         wots_sign D T PRF l t kp (signed_by D T PRF l t kp)
         ++ auth_path (fun kp => wots_pk D T PRF l t kp) (tree_hash2 T l t) (s_hp D) kp) (seq 0 (s_d D))).
Proof. exact body_released. Qed.

Print Assumptions C26_forgery.
Print Assumptions C26_builds.
Print Assumptions C26_calls_complete.
Print Assumptions C26_honest_unique.
Print Assumptions C26_released.

(** ** A forgery against the toy suite, whose hash has easy collisions: the first FORS secret
    [b0; b1] is replaced by [b0 + 1; b1 - 2].  The signature differs and is accepted (second and
    third component), so the second alternative of C26 holds. *)
Definition tamper (n : nat) (sig : bytes) : bytes :=
  firstn n sig ++ [(nth n sig 0 + 1) mod 256; (nth (n + 1) sig 0 - 2) mod 256] ++ skipn (n + 2) sig.
Example C26_toy_forgery :
  (r <- crypto_sign_seed_keypair params_toy (toy_suite params_toy) toy_junk (repeat 0 4) (repeat 0 8) toy_seed ;;
   let '(_, pk, sk) := r in
   s <- crypto_sign_signature params_toy (toy_suite params_toy) toy_junk [7; 8] (repeat 0 (SPX_BYTES params_toy))
          [1; 2; 3] sk ;;
   let '(_, sig, len, _) := s in
   v1 <- crypto_sign_verify params_toy (toy_suite params_toy) toy_junk sig len [1; 2; 3] pk ;;
   v2 <- crypto_sign_verify params_toy (toy_suite params_toy) toy_junk (tamper 2 sig) len [1; 2; 3] pk ;;
   v3 <- crypto_sign_verify params_toy (toy_suite params_toy) toy_junk (tamper 1 sig) len [1; 2; 3] pk ;;
   Some (v1, v2, nth 2 (tamper 2 sig) 0 =? nth 2 sig 0, v3)) = Some (0, 0, false, -1).
Proof. vm_compute; reflexivity. Qed.
