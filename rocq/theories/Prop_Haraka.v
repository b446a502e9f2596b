(** Properties of the Haraka code and of the Haraka builds' hash functions (C37, C38; Haraka part of
    C39 and C50).  Theorems only; proofs are elsewhere. *)
From Verif Require Import Base Params Suite Address Spec Refine HashSpec HarakaSpec HarakaHashSpec Haraka
  ShakeProofs HarakaTweak HashShake HashHaraka HashHarakaProofs.

(** C38: for any 40 round constants of 16 bytes, laid out by the code's own interleaving, the bitsliced
    functions are the AES-based ones on every input. *)
Theorem C38_bitsliced_haraka : forall buf, all_bytes buf -> length buf = 640%nat ->
  exists rc512 rc256, interleave_all buf = Some (rc512, rc256)
  /\ (forall x, all_bytes x -> length x = 64%nat -> haraka512_perm rc512 x = Some (pi512 (blocks 40 buf) x))
  /\ (forall x, all_bytes x -> length x = 64%nat -> haraka512 rc512 x = Some (Haraka512 (blocks 40 buf) x))
  /\ (forall x, all_bytes x -> length x = 32%nat -> haraka256 rc256 x = Some (Haraka256 (blocks 40 buf) x)).
Proof. exact bitsliced_ok. Qed.
Print Assumptions C38_bitsliced_haraka.
(** Haraka v2 test vectors (inputs 0, 1, 2, ...) with the standard constants, through the code. *)
Example C38_vectors :
  let buf := flat_map (le_bytes 16) standard_constants in
  let count n := map Z.of_nat (seq 0 n) in
  length buf = 640%nat /\
  (' (rc512, rc256) <- interleave_all buf ;;
   a <- haraka512 rc512 (count 64%nat) ;; b <- haraka256 rc256 (count 32%nat) ;; Some (firstn 8 a, firstn 8 b))
  = Some ([0xbe; 0x7f; 0x72; 0x3b; 0x4e; 0x80; 0xa9; 0x98], [0x80; 0x27; 0xcc; 0xb8; 0x79; 0x49; 0x77; 0x4b]).
Proof. vm_compute. auto. Qed.

(** haraka256 with out and in pointers into one memory: right when they are apart, and 32 zero bytes,
    whatever the input, when they are equal (the feed-forward reads in after out was written).  No
    caller in the library does that. *)
Theorem C38_haraka256_pointers : forall buf, all_bytes buf -> length buf = 640%nat ->
  exists rc512 rc256, interleave_all buf = Some (rc512, rc256)
  /\ (forall pre mid post, length mid = 32%nat -> forall x, all_bytes x -> length x = 32%nat ->
        haraka256_mem rc256 (pre ++ mid ++ post ++ x) (length pre) (length pre + 32 + length post)
        = Some (pre ++ Haraka256 (blocks 40 buf) x ++ post ++ x))
  /\ (forall pre x post, length x = 32%nat ->
        haraka256_mem rc256 (pre ++ x ++ post) (length pre) (length pre) = Some (pre ++ repeat 0 32 ++ post)).
Proof. exact bitsliced_256_mem. Qed.
Print Assumptions C38_haraka256_pointers.

(** C37: one-shot Haraka-S is the sponge, and any absorb calls, finalize, any squeeze calls give
    consecutive pieces of the one-shot output on the concatenated input. *)
Theorem C37_haraka_S : forall buf, all_bytes buf -> length buf = 640%nat ->
  exists rc512 rc256, interleave_all buf = Some (rc512, rc256)
  /\ (forall n m, all_bytes m -> haraka_S (haraka512_perm rc512) n m = Some (HarakaS (blocks 40 buf) m n))
  /\ (forall chunks lens, exists out, haraka_S (haraka512_perm rc512) (total lens) (concat chunks) = Some out
        /\ haraka_S_inc (haraka512_perm rc512) chunks lens = Some (pieces out lens)).
Proof. exact bitsliced_S. Qed.
Print Assumptions C37_haraka_S.
(** A run of the sponge code over three absorb calls and three squeeze calls (with a simple permutation). *)
Example C37_run :
  let perm := fun x : bytes => Some (map (fun b => Z.lxor b 77) (skipn 3 x ++ firstn 3 x)) in
  (a <- haraka_S perm 40 (repeat 5 70) ;;
   b <- haraka_S_inc perm [repeat 5 31; []; repeat 5 39] [3; 0; 37]%nat ;;
   Some (forallb (fun p => Z.eqb (fst p) (snd p)) (combine a (concat b)), length a, map (@length Z) b))
  = Some (true, 40%nat, [3; 0; 37]%nat).
Proof. vm_compute. reflexivity. Qed.

Section Builds.
Variable P : params.
Variable junk : nat -> nat -> Z.
Notation N := (p_n P).
Hypothesis HN : (1 <= N <= 32)%nat.
Hypothesis Hwf : wf_params P = true.

(** The Haraka builds meet the interface of the core, so the theorems of Prop_Api.v apply to them. *)
Theorem C39_haraka_suite_ok : forall robust, suite_ok P (haraka_suite P junk robust).
Proof. exact (haraka_suite_ok P junk HN Hwf). Qed.

(** C39: thash of the Haraka builds, for every number of blocks and any placement of in and out.
    [hctx]: the constants in the context are those initialize_hash_function computes. *)
Theorem C39_haraka_thash : forall robust c k addr mem out inp,
  hctx P c -> length addr = SPX_ADDR_BYTES ->
  all_bytes (c_pub_seed c) -> all_bytes addr -> all_bytes mem ->
  (inp + k * N <= length mem)%nat -> (out + N <= length mem)%nat ->
  let d := haraka_T N robust (c_pub_seed c) addr (firstn (k * N) (skipn inp mem)) in
  length d = N
  /\ haraka_thash P junk robust c k addr mem out inp
     = Some (firstn out mem ++ d ++ skipn (out + N) mem).
Proof. exact (haraka_thash_bytes P junk HN). Qed.
Theorem C39_haraka_prf : forall c addr,
  hctx P c -> length (c_sk_seed c) = N -> length addr = SPX_ADDR_BYTES ->
  all_bytes (c_pub_seed c) -> all_bytes (c_sk_seed c) -> all_bytes addr ->
  haraka_prf_addr P c addr = Some (haraka_PRF N (c_pub_seed c) (c_sk_seed c) addr).
Proof. exact (haraka_prf_bytes P junk HN). Qed.
Theorem C39_haraka_random : forall c sk_prf optrand m,
  hctx P c -> length sk_prf = N -> length optrand = N -> all_bytes (c_pub_seed c) ->
  all_bytes sk_prf -> all_bytes optrand -> all_bytes m ->
  haraka_gen_message_random P c sk_prf optrand m = Some (haraka_PRFmsg N (c_pub_seed c) sk_prf optrand m).
Proof. exact (haraka_rand_bytes P HN). Qed.
(** C50 for the Haraka builds; only the root half of the public key enters the digest, the seed half
    enters through the constants. *)
Theorem C50_haraka_hash_message : forall c R pk m,
  hctx P c -> length R = N -> length pk = SPX_PK_BYTES P -> all_bytes (c_pub_seed c) ->
  all_bytes R -> all_bytes pk -> all_bytes m ->
  haraka_hash_message P c R pk m
  = Some (split_digest_spec (dims_of P)
      (HarakaS (tweaked_RC (c_pub_seed c)) (R ++ skipn N pk ++ m) (SPX_DGST_BYTES P))).
Proof. exact (haraka_msg_bytes P HN Hwf). Qed.
End Builds.
Print Assumptions C39_haraka_suite_ok.
Print Assumptions C39_haraka_thash.
Print Assumptions C39_haraka_prf.
Print Assumptions C39_haraka_random.
Print Assumptions C50_haraka_hash_message.

(** A context meeting [hctx]; thash of one block, robust, in place equal to thash apart. *)
Example C39_haraka_in_place :
  let junk := fun i j => Z.of_nat (i + j) in
  let addr := repeat 9 32 in
  let mem := [10; 11; 12; 13; 14] in
  let c := mkCtx [1; 2] [3; 4] (Some (haraka512_rc64, map (map (fun x => x mod 2 ^ 32)) haraka512_rc64)) in
  (m3 <- haraka_thash params_toy junk true c 1 addr mem 1 1 ;;
   m4 <- haraka_thash params_toy junk true c 1 addr (mem ++ [0; 0]) 5 1 ;;
   a' <- rd m3 1 2 ;; b' <- rd m4 5 2 ;;
   Some (forallb (fun p => Z.eqb (fst p) (snd p)) (combine a' b'), length m3)) = Some (true, 5%nat).
Proof. vm_compute. reflexivity. Qed.
Example C39_haraka_ctx : hctx params_toy (mkCtx [1; 2] [3; 4] (tweak_constants 2 [1; 2])).
Proof. split; reflexivity. Qed.
