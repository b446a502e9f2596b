(** C75: the integer expressions of ref/hash_*.c, ref/thash_*.c and of seed_state under the rules of C.  Theorems only.

    CGlue.v transcribes these files with each variable in its declared type and each expression and array length as it is
    written (CInt.v gives the promotions, conversions and undefined cases); the functions they call are the typed ones of
    CFips202.v, CSha2.v and CHaraka.v.  [junk] is what uninitialised arrays hold. *)
From Verif Require Import Base Params Address Suite Spec Refine HashSpec KeccakSpec Sha2Spec HashSha2 HashHaraka CInt.
From Verif Require Import HarakaSpec HarakaHashSpec CGlue CGlueProofs4.
Local Open Scope Z_scope.
Local Notation z := Z.of_nat.
Local Ltac bytes_ := repeat (constructor; [split; reflexivity || discriminate|]); constructor.

(** SHAKE, for messages of less than 2^64 - 200 bytes and blocks that with the seed and the address fit an unsigned int. *)
Theorem C75_shake : forall P junk, wf_params P = true -> z (SPX_BYTES P) < 2 ^ 31 -> forall (c : ctx unit), length (c_pub_seed c) = (p_n P) -> all_bytes (c_pub_seed c) ->
  (forall a, length (c_sk_seed c) = (p_n P) -> all_bytes (c_sk_seed c) -> length a = SPX_ADDR_BYTES -> all_bytes a ->
     shake_prf_addr_c P junk c a = Some (shake_PRF (p_n P) (c_pub_seed c) (c_sk_seed c) a))
  /\ (forall sk_prf optrand m, length sk_prf = (p_n P) -> length optrand = (p_n P) -> all_bytes sk_prf -> all_bytes optrand -> all_bytes m -> z (length m) + 200 < 2 ^ 64 ->
     shake_gen_message_random_c P junk c sk_prf optrand m (z (length m)) = Some (shake_PRFmsg (p_n P) sk_prf optrand m))
  /\ (forall R pk m, length R = (p_n P) -> length pk = SPX_PK_BYTES P -> all_bytes R -> all_bytes pk -> all_bytes m -> z (length m) + 200 < 2 ^ 64 ->
     shake_hash_message_c P junk c R pk m (z (length m)) = Some (split_digest_spec (dims_of P) (SHAKE256 (R ++ pk ++ m) (SPX_DGST_BYTES P))))
  /\ (forall robust k a mem out inp, length a = SPX_ADDR_BYTES -> all_bytes a -> all_bytes mem -> z (k * (p_n P)) + 300 < 2 ^ 32 ->
     (inp + k * (p_n P) <= length mem)%nat -> (out + (p_n P) <= length mem)%nat ->
     shake_thash_c P junk robust c (z k) a mem out inp
     = Some (firstn out mem ++ shake_T (p_n P) robust (c_pub_seed c) a (firstn (k * (p_n P)) (skipn inp mem)) ++ skipn (out + (p_n P)) mem)).
Proof. exact shake_c_all. Qed.
Print Assumptions C75_shake.
Example C75_shake_case : forall junk,
  shake_thash_c params_128f junk true (mkCtx (repeat 1 16) (repeat 2 16) tt) 2 (repeat 3 32) (repeat 4 40) 20 5
  = Some (repeat 4 20 ++ shake_T 16 true (repeat 1 16) (repeat 3 32) (repeat 4 32) ++ repeat 4 4).
Proof.
  intros junk. refine (proj2 (proj2 (proj2 (C75_shake params_128f junk eq_refl _ (mkCtx (repeat 1 16) (repeat 2 16) tt) eq_refl _))) true 2%nat (repeat 3 32) (repeat 4 40) 20%nat 5%nat eq_refl _ _ _ _ _);
    try (vm_compute; reflexivity); try (cbn; lia); bytes_.
Qed.

(** SHA-2: the context holds what seed_state makes of its public seed. *)
Theorem C75_sha2 : forall P junk, wf_params P = true -> z (SPX_BYTES P) < 2 ^ 31 -> forall (c : ctx seeds), ((p_n P) <= 32)%nat -> length (c_pub_seed c) = (p_n P) -> length (c_sk_seed c) = (p_n P) -> all_bytes (c_pub_seed c) -> all_bytes (c_sk_seed c) ->
  c_state c = seed_state_c P junk (c_pub_seed c) ->
  (forall a, length a = SPX_ADDR_BYTES -> all_bytes a ->
     sha2_prf_addr_c P junk c a = Some (sha2_PRF (p_n P) (c_pub_seed c) (c_sk_seed c) (firstn 22 a)))
  /\ (forall sk_prf optrand m, length sk_prf = (p_n P) -> length optrand = (p_n P) -> all_bytes sk_prf -> all_bytes optrand -> all_bytes m -> z (length m) < 2 ^ 63 ->
     sha2_gen_message_random_c P junk c sk_prf optrand m (z (length m)) = Some (sha2_PRFmsg (p_n P) sk_prf optrand m))
  /\ (forall R pk m, length R = (p_n P) -> length pk = SPX_PK_BYTES P -> all_bytes R -> all_bytes pk -> all_bytes m -> z (length m) < 2 ^ 63 ->
     sha2_hash_message_c P junk c R pk m (z (length m)) = Some (sha2_Hmsg (p_n P) (dims_of P) R (firstn (p_n P) pk) (skipn (p_n P) pk) m))
  /\ (forall robust k a mem out inp, length a = SPX_ADDR_BYTES -> all_bytes a -> all_bytes mem -> z (k * (p_n P)) + 300 < 2 ^ 32 ->
     (inp + k * (p_n P) <= length mem)%nat -> (out + (p_n P) <= length mem)%nat ->
     sha2_thash_c P junk robust c (z k) a mem out inp
     = Some (firstn out mem ++ sha2_T (p_n P) robust (c_pub_seed c) (firstn 22 a) (firstn (k * (p_n P)) (skipn inp mem)) ++ skipn (out + (p_n P)) mem)).
Proof. exact sha2_c_all. Qed.
Print Assumptions C75_sha2.
Example C75_sha2_case : forall junk st, st = seed_state_c params_192f junk (repeat 1 24) -> let c := mkCtx (repeat 1 24) (repeat 2 24) st in
  sha2_thash_c params_192f junk true c 2 (repeat 3 32) (repeat 4 80) 20 5
  = Some (repeat 4 20 ++ sha2_T 24 true (repeat 1 24) (repeat 3 22) (repeat 4 48) ++ repeat 4 36)
  /\ sha2_gen_message_random_c params_192f junk c (repeat 5 24) (repeat 6 24) (repeat 7 104) 104 = Some (sha2_PRFmsg 24 (repeat 5 24) (repeat 6 24) (repeat 7 104)).
Proof.
  intros junk st Hst c. destruct (C75_sha2 params_192f junk eq_refl ltac:(vm_compute; reflexivity) c ltac:(cbn; lia) eq_refl eq_refl ltac:(bytes_) ltac:(bytes_) Hst)
    as (_ & R & _ & T). split.
  - refine (T true 2%nat (repeat 3 32) (repeat 4 80) 20%nat 5%nat eq_refl _ _ _ _ _); try (cbn; lia); bytes_.
  - refine (R (repeat 5 24) (repeat 6 24) (repeat 7 104) eq_refl eq_refl _ _ _ _); try (cbn; lia); bytes_.
Qed.

(** Haraka: the context holds what tweak_constants makes of its public seed. *)
Theorem C75_haraka : forall P junk, wf_params P = true -> z (SPX_BYTES P) < 2 ^ 31 -> forall (c : ctx haraka_st), ((p_n P) <= 32)%nat -> length (c_pub_seed c) = (p_n P) -> all_bytes (c_pub_seed c) -> c_state c = haraka_init_c P junk (c_pub_seed c) ->
  (forall a, length (c_sk_seed c) = (p_n P) -> all_bytes (c_sk_seed c) -> length a = SPX_ADDR_BYTES -> all_bytes a ->
     haraka_prf_addr_c P junk c a = Some (haraka_PRF (p_n P) (c_pub_seed c) (c_sk_seed c) a))
  /\ (forall sk_prf optrand m, length sk_prf = (p_n P) -> length optrand = (p_n P) -> all_bytes sk_prf -> all_bytes optrand -> all_bytes m -> z (length m) + 256 < 2 ^ 64 ->
     haraka_gen_message_random_c P junk c sk_prf optrand m (z (length m)) = Some (haraka_PRFmsg (p_n P) (c_pub_seed c) sk_prf optrand m))
  /\ (forall R pk m, length R = (p_n P) -> length pk = SPX_PK_BYTES P -> all_bytes R -> all_bytes pk -> all_bytes m -> z (length m) + 256 < 2 ^ 64 ->
     haraka_hash_message_c P junk c R pk m (z (length m))
     = Some (split_digest_spec (dims_of P) (HarakaS (tweaked_RC (c_pub_seed c)) (R ++ skipn (p_n P) pk ++ m) (SPX_DGST_BYTES P))))
  /\ (forall robust k a mem out inp, length a = SPX_ADDR_BYTES -> all_bytes a -> all_bytes mem -> z (k * (p_n P)) + 300 < 2 ^ 32 ->
     (inp + k * (p_n P) <= length mem)%nat -> (out + (p_n P) <= length mem)%nat ->
     haraka_thash_c P junk robust c (z k) a mem out inp
     = Some (firstn out mem ++ haraka_T (p_n P) robust (c_pub_seed c) a (firstn (k * (p_n P)) (skipn inp mem)) ++ skipn (out + (p_n P)) mem)).
Proof. exact haraka_glue_all. Qed.
Print Assumptions C75_haraka.
Example C75_haraka_case : forall junk st, st = haraka_init_c params_128f junk (repeat 1 16) -> let c := mkCtx (repeat 1 16) (repeat 2 16) st in
  haraka_thash_c params_128f junk true c 1 (repeat 3 32) (repeat 4 40) 20 5
  = Some (repeat 4 20 ++ haraka_T 16 true (repeat 1 16) (repeat 3 32) (repeat 4 16) ++ repeat 4 4)
  /\ haraka_thash_c params_128f junk false c 2 (repeat 3 32) (repeat 4 40) 20 5
  = Some (repeat 4 20 ++ haraka_T 16 false (repeat 1 16) (repeat 3 32) (repeat 4 32) ++ repeat 4 4).
Proof.
  intros junk st Hst c. destruct (C75_haraka params_128f junk eq_refl ltac:(vm_compute; reflexivity) c ltac:(cbn; lia) eq_refl ltac:(bytes_) Hst)
    as (_ & _ & _ & T). split.
  - refine (T true 1%nat (repeat 3 32) (repeat 4 40) 20%nat 5%nat eq_refl _ _ _ _ _); try (cbn; lia); bytes_.
  - refine (T false 2%nat (repeat 3 32) (repeat 4 40) 20%nat 5%nat eq_refl _ _ _ _ _); try (cbn; lia); bytes_.
Qed.

(** The bound on the blocks is needed: [inblocks * SPX_N] is an unsigned int, and 2^28 blocks of 16 bytes are hashed as no
    block at all. *)
Theorem C75_many_blocks_wrap : forall P junk, wf_params P = true -> z (SPX_BYTES P) < 2 ^ 31 -> forall (c : ctx unit) a mem out inp, (p_n P) = 16%nat -> length (c_pub_seed c) = (p_n P) -> all_bytes (c_pub_seed c) -> length a = SPX_ADDR_BYTES -> all_bytes a -> all_bytes mem ->
  (inp <= length mem)%nat -> (out + (p_n P) <= length mem)%nat ->
  shake_thash_c P junk false c (2 ^ 28) a mem out inp
  = Some (firstn out mem ++ shake_T (p_n P) false (c_pub_seed c) a [] ++ skipn (out + (p_n P)) mem).
Proof. exact shake_wrap. Qed.
Print Assumptions C75_many_blocks_wrap.
Example C75_many_blocks_case : forall junk,
  shake_thash_c params_128f junk false (mkCtx (repeat 1 16) [] tt) (2 ^ 28) (repeat 3 32) (repeat 4 16) 0 16
  = Some (shake_T 16 false (repeat 1 16) (repeat 3 32) [] ++ []).
Proof.
  intros junk. refine (C75_many_blocks_wrap params_128f junk eq_refl _ (mkCtx (repeat 1 16) [] tt) (repeat 3 32) (repeat 4 16) 0%nat 16%nat eq_refl eq_refl _ eq_refl _ _ _ _);
    try (vm_compute; reflexivity); try (cbn; lia); bytes_.
Qed.

