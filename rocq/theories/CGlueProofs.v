(** The typed hash_shake.c, thash_shake_*.c equal the model's. *)
From Verif Require Import Base BaseFacts Params Address Suite Utils Sha2 HashShake HashSha2 HashHaraka CInt CCore CIntFacts CCoreProofs CCoreProofs3 CWord.
From Verif Require Import Fips202 KeccakProofs ShakeProofs CSha2 CSha2Proofs CFips202 CFips202Proofs CHashRuns CGlue HashShakeProofs.
Local Open Scope Z_scope.

(** ** Sizes *)
Lemma asg_ix e n : ix e = Some n -> asg U64 e = Some (Z.of_nat n) /\ Z.of_nat n < 2 ^ 64.
Proof.
  unfold ix, asg. destruct (eval e) as [[t v]|]; [|discriminate]. cbn [bind conv].
  intros [= <-]. pose proof (Z.mod_pos_bound v (2 ^ width U64) eq_refl) as H. cbn [width] in *. rewrite Z2Nat.id by lia. split; [reflexivity|apply H].
Qed.
Lemma ix_of e n : asg U64 e = Some (Z.of_nat n) -> ix e = Some n.
Proof. intros H. unfold ix. rewrite H. cbn [bind]. now rewrite Nat2Z.id. Qed.

Lemma ix_ADDR : ix xADDR = Some SPX_ADDR_BYTES. Proof. reflexivity. Qed.

Lemma array_ok junk j e n : ix e = Some n -> array junk j e = Some (junk_bytes (junk j) n).
Proof. intros H. unfold array. now rewrite H. Qed.

Section Sizes.
Variable P : params.
Hypothesis Hwf : wf_params P = true.
Hypothesis Hbig : Z.of_nat (SPX_BYTES P) < 2 ^ 31.
Notation N := (p_n P).
Notation z := Z.of_nat.
Notation n_ := (xN P).
Lemma memcpy_c_ok dst ed d src so en n : ix ed = Some d -> ix en = Some n -> memcpy_c dst ed src so en = memcpy dst d src so n.
Proof. intros H1 H2. unfold memcpy_c. now rewrite H1, H2. Qed.
Lemma memset_c_ok dst ed d v en n : ix ed = Some d -> ix en = Some n -> memset_c dst ed v en = wr dst d (repeat v n).
Proof. intros H1 H2. unfold memset_c. now rewrite H1, H2. Qed.
Lemma bN : 1 <= z N <= 256. Proof. apply (bnd_basic P Hwf). Qed.
Lemma eN : ev n_ I32 (z N). Proof. apply e_N; assumption. Qed.
Lemma ix_K k : 0 <= k < 2 ^ 31 -> ix (K k) = Some (Z.to_nat k).
Proof. clear. intros H. apply (ev_ix _ I32); [apply ev_K; lia|lia]. Qed.
Lemma ix_N : ix n_ = Some N. Proof. exact (ix_is _ _ _ _ eN eq_refl). Qed.
Lemma e_addK e a k : ev e I32 (z a) -> z a < 2 ^ 30 -> 0 <= k < 1000 -> ev (e + K k)%C I32 (z a + k).
Proof. clear. intros H A Hk. eapply ev_as; [apply (ev_bin OAdd _ _ I32 I32 (z a) k)|reflexivity|reflexivity]; try assumption; try reflexivity; try discriminate;
  try (apply in_range_I32; lia); [apply ev_K; lia|]. intros _. apply in_range_I32. cbn [opz]. lia. Qed.
Lemma eN32 : ev (n_ + xADDR)%C I32 (z N + 32). Proof. pose proof bN. apply e_addK; [apply eN|lia|lia]. Qed.
Lemma ix_N32 : ix (n_ + xADDR)%C = Some (N + SPX_ADDR_BYTES)%nat.
Proof. apply (ix_is _ _ _ _ eN32). unfold SPX_ADDR_BYTES. lia. Qed.
Lemma e2N : ev (K 2 * n_)%C I32 (2 * z N).
Proof. pose proof bN. pose proof eN. clear Hwf Hbig. evc. reflexivity. Qed.
Lemma ix_2N32 : ix (K 2 * n_ + xADDR)%C = Some (2 * N + SPX_ADDR_BYTES)%nat.
Proof.
  pose proof bN. apply (ix_is _ I32 (z (2 * N) + 32)); [|unfold SPX_ADDR_BYTES; lia]. apply e_addK; [|lia|lia].
  eapply ev_as; [apply e2N|reflexivity|lia].
Qed.
(** blocks *)
Section Blocks.
Variable k : nat.
Hypothesis Hk : z (k * N) + 300 < 2 ^ 32.
Lemma k_small : 0 <= z k < 2 ^ 32. Proof. clear Hbig. pose proof bN. nia. Qed.
Lemma ekN : ev (V U32 (z k) * n_)%C U32 (z (k * N)).
Proof.
  pose proof bN. pose proof k_small. rewrite Nat2Z.inj_mul. apply (ev_bin OMul _ _ U32 I32 (z k) (z N));
    [apply ev_V, in_range_U32; lia|apply eN|reflexivity|apply in_range_U32; lia|apply in_range_U32; lia|discriminate|].
  intros _. apply in_range_U32. cbn [opz]. lia.
Qed.
Lemma ix_kN : ix (V U32 (z k) * n_)%C = Some (k * N)%nat. Proof. exact (ix_is _ _ _ _ ekN eq_refl). Qed.
Lemma e_plus_kN e a : ev e I32 (z a) -> z a <= 290 -> ev (e + V U32 (z k) * n_)%C U32 (z (a + k * N)).
Proof.
  intros H Ha. pose proof ekN as E. eapply ev_as; [apply (ev_bin OAdd _ _ I32 U32 _ _ H E)|reflexivity|cbn [opz]; lia];
    try reflexivity; try discriminate; try (apply in_range_U32; lia). intros _. apply in_range_U32. cbn [opz]. lia.
Qed.
Lemma ix_N32kN : ix (n_ + xADDR + V U32 (z k) * n_)%C = Some (N + SPX_ADDR_BYTES + k * N)%nat.
Proof.
  pose proof bN. apply (ix_is _ U32 (z (N + SPX_ADDR_BYTES + k * N))); [|reflexivity]. apply e_plus_kN; [|unfold SPX_ADDR_BYTES; lia].
  eapply ev_as; [apply eN32|reflexivity|unfold SPX_ADDR_BYTES; lia].
Qed.
Lemma iterM_ext {S} (f g : nat -> S -> option S) : forall n i s, (forall j s, (i <= j < i + n)%nat -> f j s = g j s) -> iterM n i f s = iterM n i g s.
Proof.
  clear. induction n as [|n IH]; intros i s H; [reflexivity|]. cbn [iterM]. rewrite H by lia. destruct (g i s) as [s'|]; [|reflexivity]. cbn [bind].
  apply IH. intros j s1 Hj. apply H. lia.
Qed.
Lemma xor_loop_c_ok buf eo off mem ioff mask : ev eo I32 (z off) -> z off <= 290 ->
  xor_loop_c (V U32 (z k) * n_)%C buf eo mem ioff mask = xor_loop (k * N) buf off mem ioff mask.
Proof.
  intros Ho Hoff. unfold xor_loop_c, xor_loop. rewrite ix_kN. cbn [bind]. pose proof ekN as E.
  apply (cfor_uns (fun _ _ => True) U32 (k * N) 0%nat); [left; reflexivity|cbn [width]; lia| | |exact I].
  - intros i Hi. change (0 + k * N)%nat with (k * N)%nat. apply (cond_lt _ _ U32); [apply ev_V, in_range_U32; lia|].
    exists U32. split; [exact E|]. split; apply in_range_U32; lia.
  - intros i s Hi _. split; [|auto].
    assert (Ei : ev (V U32 (z i)) U32 (z i)) by (apply ev_V, in_range_U32; lia).
    rewrite (ix_is _ _ _ i Ei eq_refl). cbn [bind]. destruct (get mem (ioff + i)) as [a|]; [|reflexivity]. cbn [bind].
    destruct (get mask i) as [b|]; [|reflexivity]. cbn [bind].
    assert (Ex : asg U8 (B a .^ B b)%C = Some (Z.lxor (u8 a) (u8 b))).
    { assert (Rl : 0 <= Z.lxor (u8 a) (u8 b) < 256).
      { pose proof (u8_range a) as A. pose proof (u8_range b) as B'. unfold is_byte in *. split; [apply Z.lxor_nonneg; lia|].
        destruct (Z.eq_dec (Z.lxor (u8 a) (u8 b)) 0) as [->|Hnz]; [lia|].
        apply (Z.log2_lt_cancel _ 256). apply Z.le_lt_trans with (Z.max (Z.log2 (u8 a)) (Z.log2 (u8 b))).
        - apply Z.log2_lxor; lia.
        - change (Z.log2 256) with 8. apply Z.max_lub_lt; (destruct (Z.eq_dec (u8 a) 0) as [e1|]; destruct (Z.eq_dec (u8 b) 0) as [e2|]);
            rewrite ?e1, ?e2; cbn; try lia; apply Z.log2_lt_pow2; lia. }
      pose proof (u8_range a) as A. pose proof (u8_range b) as B'. unfold is_byte in *.
      apply (ev_asg U8 _ I32); [|apply in_range_U8; exact Rl].
      apply (ev_bin OXor _ _ U8 U8); [apply ev_B|apply ev_B|reflexivity|apply in_range_I32; lia|apply in_range_I32; lia|discriminate|].
      intros _. apply in_range_I32. cbn [opz]. lia. }
    rewrite Ex. cbn [bind].
    assert (Ej : ev (eo + V U32 (z i))%C U32 (z (off + i))).
    { eapply ev_as; [apply (ev_bin OAdd _ _ I32 U32 _ _ Ho Ei)|reflexivity|cbn [opz]; lia]; try reflexivity; try discriminate; try (apply in_range_U32; lia).
      intros _. apply in_range_U32. cbn [opz]. lia. }
    now rewrite (ix_is _ _ _ (off + i) Ej eq_refl).
Qed.
End Blocks.
Lemma ix_PK : ix (xPK_BYTES P) = Some (SPX_PK_BYTES P). Proof. exact (ix_is _ _ _ _ (e_PK P Hwf) eq_refl). Qed.
Lemma eDGST : ev (xDGST_BYTES P) I32 (z (SPX_DGST_BYTES P)) /\ z (SPX_DGST_BYTES P) < 2 ^ 31.
Proof.
  pose proof (e_FORS_MSG P Hwf Hbig) as E1. pose proof (e_TREE_BYTES P Hwf) as E2. pose proof (e_LEAF_BYTES P Hwf) as E3.
  pose proof (bnd_basic P Hwf) as B. destruct (bnd_ft P Hwf Hbig) as (B1 & _ & _ & _ & B5).
  assert (L1 : 0 <= z (SPX_FORS_MSG_BYTES P) <= 2 ^ 30).
  { unfold SPX_FORS_MSG_BYTES. rewrite Nat2Z.inj_div, Nat2Z.inj_add, Nat2Z.inj_mul. change (z 7) with 7. change (z 8) with 8.
    assert (0 <= (z (p_fh P) * z (p_ft P) + 7) / 8 <= 2 ^ 31 / 8) by (split; [apply Z.div_pos; lia|apply Z.div_le_mono; lia]). change (2 ^ 31 / 8) with 268435456 in *. lia. }
  assert (L2 : 0 <= z (SPX_TREE_BYTES P) <= 71) by (pose proof (div8_le (SPX_TREE_BITS P)); unfold SPX_TREE_BYTES; lia).
  assert (L3 : 0 <= z (SPX_LEAF_BYTES P) <= 37) by (pose proof (div8_le (SPX_LEAF_BITS P)); unfold SPX_LEAF_BYTES, SPX_LEAF_BITS in *; lia).
  unfold xDGST_BYTES, SPX_DGST_BYTES. rewrite !Nat2Z.inj_add. clear Hwf Hbig B B1 B5. split; [|lia].
  assert (E12 : ev (xFORS_MSG_BYTES P + xTREE_BYTES P)%C I32 (z (SPX_FORS_MSG_BYTES P) + z (SPX_TREE_BYTES P))).
  { apply (ev_bin OAdd _ _ I32 I32 _ _ E1 E2); try reflexivity; try discriminate; try (apply in_range_I32; lia). intros _. apply in_range_I32. cbn [opz]. lia. }
  apply (ev_bin OAdd _ _ I32 I32 _ _ E12 E3); try reflexivity; try discriminate; try (apply in_range_I32; lia). intros _. apply in_range_I32. cbn [opz]. lia.
Qed.
Lemma ix_DGST : ix (xDGST_BYTES P) = Some (SPX_DGST_BYTES P). Proof. exact (ix_is _ _ _ _ (proj1 eDGST) eq_refl). Qed.
Lemma ix_mlen (m : bytes) : z (length m) < 2 ^ 64 -> ix (V U64 (z (length m))) = Some (length m).
Proof. clear. intros H. apply (ix_is _ U64 (z (length m))); [apply ev_V, in_range_U64; lia|reflexivity]. Qed.
End Sizes.

(** ** SHAKE *)
Section Shake.
Variable P : params.
Variable junk : nat -> nat -> Z.
Hypothesis Hwf : wf_params P = true.
Hypothesis Hbig : Z.of_nat (SPX_BYTES P) < 2 ^ 31.
Notation N := (p_n P).
Notation z := Z.of_nat.
Notation n_ := (xN P).
Lemma call_shake_ok eo n inp off ei l : ix eo = Some n -> ix ei = Some l ->
  call_shake256 junk eo inp off ei = (x <- rd inp off l ;; shake256 (t0 junk) n x).
Proof.
  clear. intros Ho Hi. destruct (asg_ix _ _ Ho) as [Eo Bo]. destruct (asg_ix _ _ Hi) as [Ei Bi]. unfold call_shake256.
  rewrite (array_ok junk 99 (K 25) 25 eq_refl), (array_ok junk 100 (K 200) 200 eq_refl). cbn [bind]. rewrite Eo, Ei. cbn [bind]. rewrite Nat2Z.id.
  destruct (rd inp off l) as [x|] eqn:E; [|reflexivity]. cbn [bind]. apply rd_length in E. subst l.
  apply shake256_c_ok; [apply junk_length|apply junk_length|exact Bo|exact Bi].
Qed.
Ltac szs := repeat first
  [ rewrite (memcpy_c_ok _ _ 0%nat _ _ _ N (ix_K 0 ltac:(lia)) (ix_N P Hwf))
  | rewrite (memcpy_c_ok _ _ N _ _ _ SPX_ADDR_BYTES (ix_N P Hwf) ix_ADDR)
  | rewrite (memcpy_c_ok _ _ (N + SPX_ADDR_BYTES)%nat _ _ _ N (ix_N32 P Hwf) (ix_N P Hwf)) ].
Theorem shake_prf_c c a : shake_prf_addr_c P junk c a = shake_prf_addr P junk c a.
Proof.
  unfold shake_prf_addr_c, shake_prf_addr. rewrite (array_ok junk 101 _ _ (ix_2N32 P Hwf)). cbn [bind]. szs.
  destruct (memcpy _ 0 (c_pub_seed c) 0 N) as [b|]; [|reflexivity]. cbn [bind]. szs.
  destruct (memcpy b N a 0 SPX_ADDR_BYTES) as [b2|]; [|reflexivity]. cbn [bind]. szs.
  destruct (memcpy b2 _ (c_sk_seed c) 0 N) as [b3|]; [|reflexivity]. cbn [bind].
  apply call_shake_ok; [apply ix_N, Hwf|apply ix_2N32, Hwf].
Qed.
Section Th.
Variable k : nat.
Hypothesis Hk : z (k * N) + 300 < 2 ^ 32.
Theorem shake_thash_c_ok robust c a mem out inp : shake_thash_c P junk robust c (z k) a mem out inp = shake_thash P junk robust c k a mem out inp.
Proof.
  pose proof (ix_N32kN P Hwf k Hk) as EL. pose proof (ix_kN P Hwf k Hk) as EK. pose proof (bN P Hwf) as B.
  destruct robust; cbn [shake_thash_c shake_thash]; [unfold shake_thash_robust_c, shake_thash_robust|unfold shake_thash_simple_c, shake_thash_simple]; cbv zeta.
  - rewrite (array_ok junk 103 _ _ EL). cbn [bind]. szs.
    destruct (memcpy _ 0 (c_pub_seed c) 0 N) as [b|]; [|reflexivity]. cbn [bind]. szs.
    destruct (memcpy b N a 0 SPX_ADDR_BYTES) as [b2|]; [|reflexivity]. cbn [bind].
    rewrite (call_shake_ok _ _ _ _ _ _ EK (ix_N32 P Hwf)). destruct (rd b2 0 (N + SPX_ADDR_BYTES)) as [x|]; [|reflexivity]. cbn [bind].
    destruct (shake256 (t0 junk) (k * N) x) as [mask|]; [|reflexivity]. cbn [bind].
    rewrite (xor_loop_c_ok P Hwf k Hk b2 _ (N + SPX_ADDR_BYTES) mem inp mask) by (try (eapply ev_as; [apply (eN32 P Hwf)|reflexivity|]); unfold SPX_ADDR_BYTES; lia).
    destruct (xor_loop _ _ _ _ _ _) as [b3|]; [|reflexivity]. cbn [bind].
    rewrite (call_shake_ok _ _ _ _ _ _ (ix_N P Hwf) EL). destruct (rd b3 0 _) as [y|]; reflexivity.
  - rewrite (array_ok junk 102 _ _ EL). cbn [bind]. szs.
    destruct (memcpy _ 0 (c_pub_seed c) 0 N) as [b|]; [|reflexivity]. cbn [bind]. szs.
    destruct (memcpy b N a 0 SPX_ADDR_BYTES) as [b2|]; [|reflexivity]. cbn [bind].
    rewrite (memcpy_c_ok _ _ _ _ _ _ _ (ix_N32 P Hwf) EK). destruct (memcpy b2 _ mem inp _) as [b3|]; [|reflexivity]. cbn [bind].
    rewrite (call_shake_ok _ _ _ _ _ _ (ix_N P Hwf) EL). destruct (rd b3 0 _) as [y|]; reflexivity.
Qed.
End Th.
(** the incremental functions *)
Definition okr (s : list Z) : Prop := exists c, okinc s c /\ (c < SHAKE256_RATE)%nat.
Lemma inc_ok s inp off ei l : okr s -> ix ei = Some l -> z l + 200 < 2 ^ 64 ->
  agree okr (call_inc_absorb s inp off ei) (x <- rd inp off l ;; shake256_inc_absorb s x).
Proof.
  clear. intros (c & K & Hc) Hi Hl. unfold call_inc_absorb. rewrite (proj1 (asg_ix _ _ Hi)). cbn [bind]. rewrite Nat2Z.id.
  destruct (rd inp off l) as [x|] eqn:E; [|apply agree_none]. cbn [bind]. apply rd_length in E. subst l.
  destruct (inc_absorb_c_ok SHAKE256_RATE rate_ok s c xRATE x K Hc rate_asg Hl) as (s1 & c1 & E1 & E2 & K1 & H1).
  unfold shake256_inc_absorb, shake256_inc_absorb_c. rewrite E1, E2. apply agree_ret. exists c1. auto.
Qed.
Lemma fin_ok s : okr s -> agree (fun s' => okinc s' 0) (shake256_inc_finalize_c s) (shake256_inc_finalize s).
Proof.
  clear. intros (c & K1 & Hc). destruct (inc_finalize_c_ok SHAKE256_RATE rate_ok s c xRATE (K 0x1F) 0x1F K1 Hc rate_asg eq_refl) as (s2 & E3 & E4 & K2); [lia|].
  unfold shake256_inc_finalize, shake256_inc_finalize_c. rewrite E3, E4. now apply agree_ret.
Qed.
Lemma sq_ok s e n : okinc s 0 -> ix e = Some n -> call_inc_squeeze e s = (' (h, _) <- shake256_inc_squeeze n s ;; Some h).
Proof.
  clear. intros K1 He. destruct (asg_ix _ _ He) as [Ee Be]. unfold call_inc_squeeze. rewrite Ee. cbn [bind].
  destruct (inc_squeeze_c_ok SHAKE256_RATE rate_ok s 0 xRATE n K1 ltac:(lia) rate_asg Be) as (h & s1 & c1 & E1 & E2 & _).
  unfold shake256_inc_squeeze, shake256_inc_squeeze_c. now rewrite E1, E2.
Qed.
Lemma start_ok : okr shake256_inc_init. Proof. exists 0%nat. split; [apply init_okinc|apply rate_ok]. Qed.
Lemma inc3_c j e1 n1 e2 n2 en n x y m : ix e1 = Some n1 -> ix e2 = Some n2 -> ix en = Some n -> z n1 + 200 < 2 ^ 64 -> z n2 + 200 < 2 ^ 64 -> z (length m) + 200 < 2 ^ 64 ->
  (s <- array junk j (K 26) ;; s <- shake256_inc_init_c s ;; s <- call_inc_absorb s x 0 e1 ;; s <- call_inc_absorb s y 0 e2 ;;
   s <- call_inc_absorb s m 0 (V U64 (z (length m))) ;; s <- shake256_inc_finalize_c s ;; call_inc_squeeze en s)
  = (x <- rd x 0 n1 ;; s <- shake256_inc_absorb shake256_inc_init x ;; y <- rd y 0 n2 ;; s <- shake256_inc_absorb s y ;;
     s <- shake256_inc_absorb s m ;; s <- shake256_inc_finalize s ;; ' (h, _) <- shake256_inc_squeeze n s ;; Some h).
Proof.
  clear. intros H1 H2 Hn B1 B2 Bm. rewrite (array_ok junk j (K 26) 26 eq_refl). cbn [bind]. rewrite inc_init_c_ok by apply junk_length. cbn [bind].
  destruct (inc_ok _ x 0 _ _ start_ok H1 B1) as [-> Q1]. destruct (rd x 0 n1) as [x'|]; [|reflexivity]. cbn [bind] in Q1 |- *.
  destruct (shake256_inc_absorb _ x') as [s1|]; [|reflexivity]. cbn [bind]. specialize (Q1 _ eq_refl).
  destruct (inc_ok s1 y 0 _ _ Q1 H2 B2) as [-> Q2]. destruct (rd y 0 n2) as [y'|]; [|reflexivity]. cbn [bind] in Q2 |- *.
  destruct (shake256_inc_absorb s1 y') as [s2|]; [|reflexivity]. cbn [bind]. specialize (Q2 _ eq_refl).
  destruct (inc_ok s2 m 0 _ _ Q2 (ix_mlen m ltac:(lia)) Bm) as [-> Q3]. rewrite rd_all in Q3 |- * by reflexivity. cbn [bind] in Q3 |- *.
  destruct (shake256_inc_absorb s2 m) as [s3|]; [|reflexivity]. cbn [bind]. specialize (Q3 _ eq_refl).
  destruct (fin_ok s3 Q3) as [-> Q4]. destruct (shake256_inc_finalize s3) as [s4|]; [|reflexivity]. cbn [bind]. specialize (Q4 _ eq_refl).
  exact (sq_ok s4 _ _ Q4 Hn).
Qed.
Theorem shake_rand_c c k o m : z (length m) + 200 < 2 ^ 64 -> 
  shake_gen_message_random_c P junk c k o m (z (length m)) = shake_gen_message_random P c k o m.
Proof.
  intros Hm. unfold shake_gen_message_random_c, shake_gen_message_random. cbv zeta. pose proof (bN P Hwf). pose proof (ix_N P Hwf) as E.
  exact (inc3_c 104 _ _ _ _ _ _ k o m E E E ltac:(lia) ltac:(lia) Hm).
Qed.
Theorem shake_msg_c c R pk m : length R = N -> length pk = SPX_PK_BYTES P -> z (length m) + 200 < 2 ^ 64 ->
  shake_hash_message_c P junk c R pk m (z (length m)) = shake_hash_message P c R pk m.
Proof.
  intros HR Hpk Hm. pose proof (bN P Hwf). pose proof (ix_N P Hwf) as E. pose proof (ix_PK P Hwf) as E1. pose proof (ix_DGST P Hwf Hbig) as E2.
  pose proof (inc3_c 105 _ _ _ _ _ _ R pk m E E1 E2 ltac:(lia) ltac:(unfold SPX_PK_BYTES; lia) Hm) as X.
  transitivity (buf <- (s <- array junk 105 (K 26) ;; s <- shake256_inc_init_c s ;; s <- call_inc_absorb s R 0 n_ ;; s <- call_inc_absorb s pk 0 (xPK_BYTES P) ;;
     s <- call_inc_absorb s m 0 (V U64 (z (length m))) ;; s <- shake256_inc_finalize_c s ;; call_inc_squeeze (xDGST_BYTES P) s) ;; split_digest_c P buf).
  { unfold shake_hash_message_c. repeat (match goal with |- bind ?o _ = _ => destruct o; cbn [bind]; [|reflexivity] end). reflexivity. }
  rewrite X. clear X. unfold shake_hash_message. cbv zeta. rewrite !rd_all by auto. cbn [bind].
  pose proof (inc3 _ R pk m (SPX_DGST_BYTES P) eq_refl) as Y. cbn [bind] in Y. rewrite Y.
  destruct (shake256_inc_absorb shake256_inc_init R) as [s1|]; [|discriminate]. cbn [bind] in *.
  destruct (shake256_inc_absorb s1 pk) as [s2|]; [|discriminate]. cbn [bind] in *.
  destruct (shake256_inc_absorb s2 m) as [s3|]; [|discriminate]. cbn [bind] in *.
  destruct (shake256_inc_finalize s3) as [s4|]; [|discriminate]. cbn [bind] in *.
  destruct (shake256_inc_squeeze (SPX_DGST_BYTES P) s4) as [[h s5]|]; [|discriminate]. cbn [bind] in *.
  injection Y as ->. apply split_digest_c_ok; [assumption|assumption|apply SHAKE256_bytes].
Qed.
End Shake.
