(** The typed hash functions of the three families equal the constructions of the specification. *)
From Verif Require Import Base BaseFacts Params Address Suite Utils Spec Refine HashSpec KeccakSpec Sha2Spec Haraka HashShake HashSha2 HashHaraka CInt CCore CIntFacts.
From Verif Require Import HarakaSpec HarakaHashSpec ShakeProofs HashShakeProofs HashSha2Proofs HashHarakaProofs CHaraka CHarakaProofs6 CGlue CGlueProofs CGlueProofs2 CGlueProofs3.
Local Open Scope Z_scope.
Notation z := Z.of_nat.

Section All.
Variable P : params.
Variable junk : nat -> nat -> Z.
Hypothesis Hwf : wf_params P = true.
Hypothesis Hbig : z (SPX_BYTES P) < 2 ^ 31.
Notation N := (p_n P).
Theorem shake_c_all (c : ctx unit) : length (c_pub_seed c) = N -> all_bytes (c_pub_seed c) ->
  (forall a, length (c_sk_seed c) = N -> all_bytes (c_sk_seed c) -> length a = SPX_ADDR_BYTES -> all_bytes a ->
     shake_prf_addr_c P junk c a = Some (shake_PRF N (c_pub_seed c) (c_sk_seed c) a))
  /\ (forall sk_prf optrand m, length sk_prf = N -> length optrand = N -> all_bytes sk_prf -> all_bytes optrand -> all_bytes m -> z (length m) + 200 < 2 ^ 64 ->
     shake_gen_message_random_c P junk c sk_prf optrand m (z (length m)) = Some (shake_PRFmsg N sk_prf optrand m))
  /\ (forall R pk m, length R = N -> length pk = SPX_PK_BYTES P -> all_bytes R -> all_bytes pk -> all_bytes m -> z (length m) + 200 < 2 ^ 64 ->
     shake_hash_message_c P junk c R pk m (z (length m)) = Some (split_digest_spec (dims_of P) (SHAKE256 (R ++ pk ++ m) (SPX_DGST_BYTES P))))
  /\ (forall robust k a mem out inp, length a = SPX_ADDR_BYTES -> all_bytes a -> all_bytes mem -> z (k * N) + 300 < 2 ^ 32 ->
     (inp + k * N <= length mem)%nat -> (out + N <= length mem)%nat ->
     shake_thash_c P junk robust c (z k) a mem out inp
     = Some (firstn out mem ++ shake_T N robust (c_pub_seed c) a (firstn (k * N) (skipn inp mem)) ++ skipn (out + N) mem)).
Proof.
  intros H1 B1. split; [|split; [|split]].
  - intros a H2 B2 Ha Ba. rewrite shake_prf_c by assumption. now apply shake_prf_bytes.
  - intros sk o m Lk Lo Bk Bo Bm Hm. rewrite shake_rand_c by assumption. now apply shake_rand_bytes.
  - intros R pk m LR Lp BR Bp Bm Hm. rewrite shake_msg_c by assumption. now apply shake_msg_bytes.
  - intros robust k a mem out inp La Ba Bm Hk Hi Ho. rewrite shake_thash_c_ok by assumption.
    apply shake_thash_bytes; assumption.
Qed.
Theorem sha2_c_all (c : ctx seeds) : (N <= 32)%nat -> length (c_pub_seed c) = N -> length (c_sk_seed c) = N -> all_bytes (c_pub_seed c) -> all_bytes (c_sk_seed c) ->
  c_state c = seed_state_c P junk (c_pub_seed c) ->
  (forall a, length a = SPX_ADDR_BYTES -> all_bytes a ->
     sha2_prf_addr_c P junk c a = Some (sha2_PRF N (c_pub_seed c) (c_sk_seed c) (firstn 22 a)))
  /\ (forall sk_prf optrand m, length sk_prf = N -> length optrand = N -> all_bytes sk_prf -> all_bytes optrand -> all_bytes m -> z (length m) < 2 ^ 63 ->
     sha2_gen_message_random_c P junk c sk_prf optrand m (z (length m)) = Some (sha2_PRFmsg N sk_prf optrand m))
  /\ (forall R pk m, length R = N -> length pk = SPX_PK_BYTES P -> all_bytes R -> all_bytes pk -> all_bytes m -> z (length m) < 2 ^ 63 ->
     sha2_hash_message_c P junk c R pk m (z (length m)) = Some (sha2_Hmsg N (dims_of P) R (firstn N pk) (skipn N pk) m))
  /\ (forall robust k a mem out inp, length a = SPX_ADDR_BYTES -> all_bytes a -> all_bytes mem -> z (k * N) + 300 < 2 ^ 32 ->
     (inp + k * N <= length mem)%nat -> (out + N <= length mem)%nat ->
     sha2_thash_c P junk robust c (z k) a mem out inp
     = Some (firstn out mem ++ sha2_T N robust (c_pub_seed c) (firstn 22 a) (firstn (k * N) (skipn inp mem)) ++ skipn (out + N) mem)).
Proof.
  intros HN H1 H2 B1 B2 Hst. rewrite (seed_state_c_ok P junk Hwf) in Hst by assumption.
  assert (Hc : forall robust, ctx_ok P (sha2_suite P junk robust) c) by (intros robust; split; [exact H1|split; [exact H2|exact Hst]]).
  split; [|split; [|split]].
  - intros a La Ba. rewrite (sha2_prf_c_ok P junk Hwf HN). now apply (sha2_prf_bytes P junk HN false).
  - intros sk o m Lk Lo Bk Bo Bm Hm. rewrite (sha2_rand_c_ok P junk Hwf HN) by lia. now apply sha2_rand_bytes.
  - intros R pk m LR Lp BR Bp Bm Hm. rewrite (sha2_msg_c_ok P junk Hwf Hbig HN) by lia. now apply sha2_msg_bytes.
  - intros robust k a mem out inp La Ba Bm Hk Hi Ho. rewrite (sha2_thash_c_ok P junk Hwf HN k Hk).
    apply sha2_thash_bytes; auto; lia.
Qed.
Theorem haraka_glue_all (c : ctx haraka_st) : (N <= 32)%nat -> length (c_pub_seed c) = N -> all_bytes (c_pub_seed c) -> c_state c = haraka_init_c P junk (c_pub_seed c) ->
  (forall a, length (c_sk_seed c) = N -> all_bytes (c_sk_seed c) -> length a = SPX_ADDR_BYTES -> all_bytes a ->
     haraka_prf_addr_c P junk c a = Some (haraka_PRF N (c_pub_seed c) (c_sk_seed c) a))
  /\ (forall sk_prf optrand m, length sk_prf = N -> length optrand = N -> all_bytes sk_prf -> all_bytes optrand -> all_bytes m -> z (length m) + 256 < 2 ^ 64 ->
     haraka_gen_message_random_c P junk c sk_prf optrand m (z (length m)) = Some (haraka_PRFmsg N (c_pub_seed c) sk_prf optrand m))
  /\ (forall R pk m, length R = N -> length pk = SPX_PK_BYTES P -> all_bytes R -> all_bytes pk -> all_bytes m -> z (length m) + 256 < 2 ^ 64 ->
     haraka_hash_message_c P junk c R pk m (z (length m))
     = Some (split_digest_spec (dims_of P) (HarakaS (tweaked_RC (c_pub_seed c)) (R ++ skipn N pk ++ m) (SPX_DGST_BYTES P))))
  /\ (forall robust k a mem out inp, length a = SPX_ADDR_BYTES -> all_bytes a -> all_bytes mem -> z (k * N) + 300 < 2 ^ 32 ->
     (inp + k * N <= length mem)%nat -> (out + N <= length mem)%nat ->
     haraka_thash_c P junk robust c (z k) a mem out inp
     = Some (firstn out mem ++ haraka_T N robust (c_pub_seed c) a (firstn (k * N) (skipn inp mem)) ++ skipn (out + N) mem)).
Proof.
  intros HN H1 B1 Hst. destruct (haraka_init_c_ok P junk Hwf _ H1) as [E R]. rewrite E in Hst. pose proof (bN P Hwf) as BN.
  destruct (ref_init P _ H1) as (KK & EK & _). destruct (tweak_constants N (c_pub_seed c)) as [[r5 r2]|] eqn:ET; [|discriminate].
  destruct (wf_rows _ _ (R _ eq_refl)) as [F5 F2]. assert (HN' : (1 <= N <= 32)%nat) by lia.
  assert (Hc : hctx P c) by (split; [exact H1|now rewrite ET]).
  split; [|split; [|split]].
  - intros a H2 B2 La Ba. rewrite (haraka_prf_c_ok P junk Hwf c r5 r2 Hst F5). now apply (haraka_prf_bytes P junk HN').
  - intros sk o m Lk Lo Bk Bo Bm Hm. rewrite (haraka_rand_c_ok P junk Hwf c r5 r2 Hst F5) by assumption. now apply haraka_rand_bytes.
  - intros R' pk m LR Lp BR Bp Bm Hm. rewrite (haraka_msg_c_ok P junk Hwf Hbig c r5 r2 Hst F5) by assumption. now apply haraka_msg_bytes.
  - intros robust k a mem out inp La Ba Bm Hk Hi Ho. rewrite (haraka_thash_c_ok P junk Hwf c r5 r2 Hst F5 F2 k Hk).
    apply haraka_thash_bytes; auto.
Qed.

(** inblocks * SPX_N is an unsigned int: 2^28 blocks of 16 bytes are none *)
Theorem shake_wrap (c : ctx unit) a mem out inp : N = 16%nat -> length (c_pub_seed c) = N -> all_bytes (c_pub_seed c) -> length a = SPX_ADDR_BYTES -> all_bytes a -> all_bytes mem ->
  (inp <= length mem)%nat -> (out + N <= length mem)%nat ->
  shake_thash_c P junk false c (2 ^ 28) a mem out inp
  = Some (firstn out mem ++ shake_T N false (c_pub_seed c) a [] ++ skipn (out + N) mem).
Proof.
  intros EN H1 B1 La Ba Bm Hi Ho. destruct (shake_c_all c H1 B1) as (_ & _ & _ & T).
  specialize (T false 0%nat a mem out inp La Ba Bm ltac:(lia) ltac:(lia) Ho). cbn [Nat.mul firstn] in T. rewrite <- T.
  cbn [shake_thash_c]. unfold shake_thash_simple_c. cbv zeta.
  assert (E1 : ix (xN P + xADDR + V U32 (2 ^ 28) * xN P)%C = ix (xN P + xADDR + V U32 (z 0) * xN P)%C) by (unfold xN; rewrite EN; reflexivity).
  assert (E2 : ix (V U32 (2 ^ 28) * xN P)%C = ix (V U32 (z 0) * xN P)%C) by (unfold xN; rewrite EN; reflexivity).
  assert (E3 : asg U64 (xN P + xADDR + V U32 (2 ^ 28) * xN P)%C = asg U64 (xN P + xADDR + V U32 (z 0) * xN P)%C) by (unfold xN; rewrite EN; reflexivity).
  unfold array, memcpy_c, call_shake256. rewrite E1, E2, E3. reflexivity.
Qed.
End All.
