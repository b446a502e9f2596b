(** The SHAKE build's hash functions are those of the specification. *)
From Verif Require Import Base BaseFacts Params Address Suite Utils Spec SpecFacts Refine HashSpec KeccakSpec
  Fips202 SpongeFacts ShakeProofs HashShake AddressProofs CoreFacts2.

(** ** Buffers *)
Lemma memcpy_at pre mid post src soff n i :
  i = length pre -> n = length mid -> (soff + n <= length src)%nat ->
  memcpy (pre ++ mid ++ post) i src soff n = Some (pre ++ firstn n (skipn soff src) ++ post).
Proof.
  intros Hi Hn Hs. unfold memcpy. rewrite rd_ok by lia. cbn [bind].
  apply wr_app'; auto. rewrite firstn_length, skipn_length. lia.
Qed.
Lemma memcpy_all mid post src n : n = length mid -> length src = n ->
  memcpy (mid ++ post) 0 src 0 n = Some (src ++ post).
Proof.
  intros Hn Hs. generalize (memcpy_at [] mid post src 0 n 0 eq_refl Hn). intros E.
  cbn [app skipn] in E. rewrite E by lia. now rewrite firstn_all2 by lia.
Qed.
Lemma memcpy_mid pre mid post src n i : i = length pre -> n = length mid -> length src = n ->
  memcpy (pre ++ mid ++ post) i src 0 n = Some (pre ++ src ++ post).
Proof.
  intros Hi Hn Hs. rewrite memcpy_at by (auto; lia). cbn [skipn]. now rewrite firstn_all2 by lia.
Qed.
Lemma xor_str_length a b : length a = length b -> length (xor_str a b) = length a.
Proof. intros H. unfold xor_str. rewrite map_length, combine_length. lia. Qed.
Lemma xor_str_snoc a b x y : length a = length b ->
  xor_str (a ++ [x]) (b ++ [y]) = xor_str a b ++ [Z.lxor x y].
Proof.
  unfold xor_str. revert b; induction a as [|u a IH]; intros [|v b] H; cbn [length] in H; try lia; [reflexivity|].
  cbn [app combine map fst snd]. f_equal. apply IH. lia.
Qed.
Lemma xor_loop_ok n pre mid post mem ioff mask off :
  off = length pre -> n = length mid -> (ioff + n <= length mem)%nat -> (n <= length mask)%nat ->
  xor_loop n (pre ++ mid ++ post) off mem ioff mask
  = Some (pre ++ xor_str (norm (firstn n (skipn ioff mem))) (norm (firstn n mask)) ++ post).
Proof.
  intros Hoff Hn Hmem Hmask. unfold xor_loop.
  set (A := fun i => firstn i (skipn ioff mem)). set (B := fun i => firstn i mask).
  assert (LA : forall i, (i <= n)%nat -> length (norm (A i)) = i)
    by (intros i Hi; unfold A; rewrite map_length, firstn_length, skipn_length; lia).
  assert (LB : forall i, (i <= n)%nat -> length (norm (B i)) = i)
    by (intros i Hi; unfold B; rewrite map_length, firstn_length; lia).
  match goal with |- iterM n 0 ?f ?s = _ =>
    destruct (iterM_inv n 0 f
      (fun i b => b = pre ++ (xor_str (norm (A i)) (norm (B i)) ++ skipn i mid) ++ post) s)
      as (v & E & Hv) end.
  - reflexivity.
  - intros i b Hi ->. rewrite (get_nth mem (ioff + i) 0) by lia. cbn [bind].
    rewrite (get_nth mask i 0) by lia. cbn [bind].
    assert (Hsk : skipn i mid = nth i mid 0 :: skipn (S i) mid).
    { generalize (firstn_cons_nth mid (length mid) i). intros G.
      rewrite !firstn_all2 in G by (rewrite skipn_length; lia). apply G. lia. }
    rewrite Hsk. set (X := xor_str (norm (A i)) (norm (B i))).
    assert (LX : length X = i) by (unfold X; rewrite xor_str_length; rewrite LA, ?LB; lia).
    replace (pre ++ (X ++ nth i mid 0 :: skipn (S i) mid) ++ post)
      with ((pre ++ X) ++ [nth i mid 0] ++ (skipn (S i) mid ++ post)) by (now rewrite <- !app_assoc).
    rewrite wr_app' by (try reflexivity; rewrite app_length; lia).
    eexists. split; [reflexivity|]. rewrite <- !app_assoc. f_equal. rewrite !app_assoc. f_equal. f_equal.
    unfold A, B. rewrite !(firstn_snoc _ i 0) by (rewrite ?skipn_length; lia).
    rewrite !map_app. cbn [map]. rewrite xor_str_snoc by (fold (A i) (B i); rewrite LA, LB; lia).
    fold (A i) (B i) X. do 3 f_equal.
    rewrite <- (firstn_skipn ioff mem) at 1. rewrite app_nth2 by (rewrite firstn_length; lia).
    do 2 f_equal. rewrite firstn_length. lia.
  - rewrite E, Hv. cbn [Nat.add]. rewrite (skipn_all2 mid) by lia. now rewrite app_nil_r.
Qed.
Lemma as_value_ok n f inp : forall d, length d = n ->
  f (inp ++ repeat 0 n) (length inp) O = wr (inp ++ repeat 0 n) (length inp) d ->
  as_value n f inp = Some d.
Proof.
  intros d Hd E. unfold as_value. rewrite E, wr_app_r by (rewrite ?repeat_length; auto). cbn [bind].
  now apply rd_app_r.
Qed.

(** ** The digest split *)
Lemma land_ones_shr w k x : 0 <= k <= w -> Z.land x (Z.shiftr (2 ^ w - 1) (w - k)) = x mod 2 ^ k.
Proof.
  intros H. replace (2 ^ w - 1) with (Z.ones w) by (rewrite Z.ones_equiv; lia).
  rewrite Z.shiftr_div_pow2 by lia. rewrite Z.ones_div_pow2 by lia.
  replace (w - (w - k)) with k by lia. apply Z.land_ones. lia.
Qed.
Section Split.
Variable P : params.
Hypothesis Hwf : wf_params P = true.
Lemma wf_facts : (1 <= p_d P)%nat /\ (1 <= SPX_TREE_HEIGHT P <= 30)%nat /\ (SPX_TREE_BITS P <= 64)%nat.
Proof. unfold wf_params in Hwf. lia. Qed.
Lemma split_digest_ok buf : all_bytes buf -> length buf = SPX_DGST_BYTES P ->
  split_digest P buf = Some (split_digest_spec (dims_of P) buf).
Proof.
  intros Hb Hl. destruct wf_facts as (Hd & Hh & Ht).
  unfold split_digest, split_digest_spec, SPX_DGST_BYTES, tree_bits, leaf_bits, tree_len, leaf_len, md_len in *.
  cbn [dims_of s_k s_a s_hp s_d].
  replace (p_ft P * p_fh P)%nat with (p_fh P * p_ft P)%nat by lia.
  fold (SPX_FORS_MSG_BYTES P) (SPX_TREE_BITS P). fold (SPX_TREE_BYTES P).
  change (SPX_LEAF_BITS P) with (SPX_TREE_HEIGHT P).
  change ((tree_bits (dims_of P) + 7) / 8)%nat with (SPX_TREE_BYTES P).
  change ((leaf_bits (dims_of P) + 7) / 8)%nat with (SPX_LEAF_BYTES P).
  assert (Htb : (8 * SPX_TREE_BYTES P >= SPX_TREE_BITS P /\ SPX_TREE_BYTES P <= 8)%nat).
  { unfold SPX_TREE_BYTES.
    pose proof (Nat.div_mod (SPX_TREE_BITS P + 7) 8). pose proof (Nat.mod_upper_bound (SPX_TREE_BITS P + 7) 8). lia. }
  assert (Hlb : (8 * SPX_LEAF_BYTES P >= SPX_TREE_HEIGHT P /\ SPX_LEAF_BYTES P <= 4)%nat).
  { unfold SPX_LEAF_BYTES, SPX_LEAF_BITS.
    pose proof (Nat.div_mod (SPX_TREE_HEIGHT P + 7) 8). pose proof (Nat.mod_upper_bound (SPX_TREE_HEIGHT P + 7) 8). lia. }
  assert (Hsub : forall a k, all_bytes (firstn k (skipn a buf))).
  { intros a k. apply Forall_forall. intros x Hx. unfold all_bytes in Hb. rewrite Forall_forall in Hb. apply Hb.
    rewrite <- (firstn_skipn a buf). apply in_or_app. right.
    rewrite <- (firstn_skipn k (skipn a buf)). apply in_or_app. now left. }
  assert (Hlen : forall a k, (a + k <= length buf)%nat -> length (firstn k (skipn a buf)) = k).
  { intros a k H. rewrite firstn_length, skipn_length. lia. }
  rewrite (rd_ok buf 0) by lia. cbn [bind skipn].
  match goal with |- bind ?t _ = _ =>
    assert (Et : t = Some (be_val (firstn (SPX_TREE_BYTES P) (skipn (SPX_FORS_MSG_BYTES P) buf)) mod 2 ^ Z.of_nat (SPX_TREE_BITS P))) end.
  { destruct (Nat.eqb_spec (p_d P) 1) as [E1|E1].
    - f_equal. assert (SPX_TREE_BITS P = 0)%nat as -> by (unfold SPX_TREE_BITS; rewrite E1; lia).
      now rewrite Z.mod_1_r.
    - rewrite rd_ok by lia. cbn [bind].
      assert (SPX_TREE_BITS P > 0)%nat by (unfold SPX_TREE_BITS; nia).
      replace ((0 <=? 64 - Z.of_nat (SPX_TREE_BITS P)) && (64 - Z.of_nat (SPX_TREE_BITS P) <? 64)) with true by lia.
      cbn [guard bind]. f_equal. rewrite land_ones_shr by lia. f_equal.
      apply bytes_to_ull_val; [apply Hsub|]. rewrite Hlen; lia. }
  rewrite Et. cbn [bind]. rewrite rd_ok by lia. cbn [bind].
  replace ((0 <=? 32 - Z.of_nat (SPX_TREE_HEIGHT P)) && (32 - Z.of_nat (SPX_TREE_HEIGHT P) <? 32)) with true by lia.
  cbn [guard bind]. do 2 f_equal. rewrite land_ones_shr by lia.
  rewrite bytes_to_ull_val by (try apply Hsub; rewrite Hlen; lia).
  set (b := firstn (SPX_LEAF_BYTES P) _).
  pose proof (be_val_bound b (Hsub _ _)) as B. unfold b in B at 3. rewrite Hlen in B by lia.
  unfold u32. f_equal. apply Z.mod_small. split; [lia|].
  apply Z.lt_le_trans with (256 ^ Z.of_nat (SPX_LEAF_BYTES P)); [lia|].
  change (2 ^ 32) with (256 ^ 4). apply Z.pow_le_mono_r; lia.
Qed.
Lemma split_digest_range buf : all_bytes buf -> length buf = SPX_DGST_BYTES P ->
  exists d t l, split_digest_spec (dims_of P) buf = (d, t, l)
    /\ length d = SPX_FORS_MSG_BYTES P /\ all_bytes d
    /\ 0 <= t < 2 ^ Z.of_nat (SPX_TREE_BITS P) /\ 0 <= l < 2 ^ Z.of_nat (SPX_LEAF_BITS P).
Proof.
  intros Hb Hl. unfold split_digest_spec. do 3 eexists. split; [reflexivity|].
  assert (E : md_len (dims_of P) = SPX_FORS_MSG_BYTES P).
  { unfold md_len, SPX_FORS_MSG_BYTES. cbn [dims_of s_k s_a]. do 2 f_equal. lia. }
  rewrite E. unfold SPX_DGST_BYTES in Hl.
  split; [rewrite firstn_length; lia|]. split; [now apply all_firstn|].
  split; apply Z.mod_pos_bound; apply Z.pow_pos_nonneg; lia.
Qed.
End Split.

(** ** The SHAKE functions *)
Section Shake.
Variable P : params.
Variable junk : nat -> nat -> Z.
Notation N := (p_n P).
Hypothesis Hwf : wf_params P = true.
#[local] Opaque SHAKE256.
Lemma t0_length : length (t0 junk) = 200%nat.
Proof. apply junk_length. Qed.

Lemma shake_prf_ok c a : length (c_pub_seed c) = N -> length (c_sk_seed c) = N -> length a = SPX_ADDR_BYTES ->
  shake_prf_addr P junk c a = Some (shake_PRF N (norm (c_pub_seed c)) (norm (c_sk_seed c)) (norm a)).
Proof. clear Hwf.
  intros H1 H2 H3. unfold shake_prf_addr. set (J := junk_bytes _ _).
  assert (LJ : length J = (2 * N + SPX_ADDR_BYTES)%nat) by apply junk_length. clearbody J.
  destruct (split_at J 0 N) as (x0 & j1 & r1 & E1 & L0 & L1 & _); [lia|].
  destruct x0; [|cbn in L0; lia]. cbn [app] in E1. subst J. rewrite app_length in LJ.
  destruct (split_at r1 0 SPX_ADDR_BYTES) as (x0 & j2 & j3 & E1 & L0' & L2 & _); [lia|].
  destruct x0; [|cbn in L0'; lia]. cbn [app] in E1. subst r1. rewrite app_length in LJ.
  rewrite memcpy_all by lia. cbn [bind]. rewrite memcpy_mid by lia. cbn [bind].
  replace (c_pub_seed c ++ a ++ j3) with ((c_pub_seed c ++ a) ++ j3 ++ []) by (now rewrite app_nil_r, <- app_assoc).
  rewrite memcpy_mid by (rewrite ?app_length; lia). cbn [bind].
  rewrite app_nil_r, <- app_assoc. rewrite rd_all by (rewrite !app_length; lia). cbn [bind].
  rewrite shake256_norm by apply t0_length. unfold shake_PRF. now rewrite !map_app.
Qed.

Lemma inc3 s0 x y z n : s0 = shake256_inc_init ->
  (s <- shake256_inc_absorb s0 x ;; s <- shake256_inc_absorb s y ;; s <- shake256_inc_absorb s z ;;
   s <- shake256_inc_finalize s ;; ' (h, _) <- shake256_inc_squeeze n s ;; Some h)
  = Some (SHAKE256 (norm (x ++ y ++ z)) n).
Proof. clear Hwf junk.
  intros ->. pose proof (shake256_inc_norm [x; y; z] [n]) as E.
  unfold shake256_inc in E. cbn [absorb_all squeeze_all concat pieces total fold_right] in E.
  rewrite app_nil_r, Nat.add_0_r in E.
  destruct (shake256_inc_absorb shake256_inc_init x) as [s1|]; [|discriminate]. cbn [bind] in *.
  destruct (shake256_inc_absorb s1 y) as [s2|]; [|discriminate]. cbn [bind] in *.
  destruct (shake256_inc_absorb s2 z) as [s3|]; [|discriminate]. cbn [bind] in *.
  destruct (shake256_inc_finalize s3) as [s4|]; [|discriminate]. cbn [bind] in *.
  destruct (shake256_inc_squeeze n s4) as [[h s5]|]; [|discriminate]. cbn [bind] in *.
  injection E as E. rewrite E. f_equal. apply firstn_all2. rewrite SHAKE256_length. lia.
Qed.
Lemma rand_ok c k o m : length k = N -> length o = N ->
  shake_gen_message_random P c k o m = Some (shake_PRFmsg N (norm k) (norm o) (norm m)).
Proof. clear Hwf junk.
  intros H1 H2. unfold shake_gen_message_random. rewrite rd_all by lia. cbn [bind].
  rewrite (rd_all o) by lia. unfold shake_PRFmsg. rewrite <- !map_app.
  rewrite <- (inc3 _ k o m N eq_refl). reflexivity.
Qed.
Lemma msg_ok c R pk m : length R = N -> length pk = SPX_PK_BYTES P ->
  shake_hash_message P c R pk m = Some (shake_Hmsg (dims_of P) (norm R) (norm pk) (norm m)).
Proof. clear junk.
  intros H1 H2. unfold shake_hash_message. rewrite rd_all by lia. cbn [bind].
  rewrite (rd_all pk) by lia. unfold shake_Hmsg. rewrite <- !map_app.
  assert (Hd : digest_len (dims_of P) = SPX_DGST_BYTES P).
  { unfold digest_len, SPX_DGST_BYTES, md_len, SPX_FORS_MSG_BYTES. cbn [dims_of s_k s_a].
    now rewrite (Nat.mul_comm (p_ft P)). }
  rewrite Hd. pose proof (inc3 _ R pk m (SPX_DGST_BYTES P) eq_refl) as E. cbn [bind].
  destruct (shake256_inc_absorb shake256_inc_init R) as [s1|]; [|discriminate]. cbn [bind] in *.
  destruct (shake256_inc_absorb s1 pk) as [s2|]; [|discriminate]. cbn [bind] in *.
  destruct (shake256_inc_absorb s2 m) as [s3|]; [|discriminate]. cbn [bind] in *.
  destruct (shake256_inc_finalize s3) as [s4|]; [|discriminate]. cbn [bind] in *.
  destruct (shake256_inc_squeeze (SPX_DGST_BYTES P) s4) as [[h s5]|]; [|discriminate]. cbn [bind] in *.
  injection E as ->. apply split_digest_ok; [exact Hwf|apply SHAKE256_bytes|apply SHAKE256_length].
Qed.

Theorem shake_thash_ok robust c k a mem out inp :
  length (c_pub_seed c) = N -> length a = SPX_ADDR_BYTES -> (inp + k * N <= length mem)%nat ->
  shake_thash P junk robust c k a mem out inp
  = wr mem out (shake_T N robust (norm (c_pub_seed c)) (norm a) (norm (firstn (k * N) (skipn inp mem)))).
Proof. clear Hwf.
  intros H1 H2 H3. set (M := firstn (k * N) (skipn inp mem)).
  assert (LM : length M = (k * N)%nat) by (unfold M; rewrite firstn_length, skipn_length; lia).
  unfold shake_thash, shake_T. destruct robust.
  - unfold shake_thash_robust. set (J := junk_bytes _ _).
    assert (LJ : length J = (N + SPX_ADDR_BYTES + k * N)%nat) by apply junk_length. clearbody J.
    destruct (split_at J 0 N) as (x0 & j1 & r1 & E1 & L0 & L1 & _); [lia|].
    destruct x0; [|cbn in L0; lia]. cbn [app] in E1. subst J. rewrite app_length in LJ.
    destruct (split_at r1 0 SPX_ADDR_BYTES) as (x0 & j2 & j3 & E1 & L0' & L2 & _); [lia|].
    destruct x0; [|cbn in L0'; lia]. cbn [app] in E1. subst r1. rewrite app_length in LJ.
    rewrite memcpy_all by lia. cbn [bind]. rewrite memcpy_mid by lia. cbn [bind].
    rewrite app_assoc, rd_app0 by (rewrite ?app_length; lia). cbn [bind].
    rewrite shake256_norm by apply t0_length. cbn [bind].
    rewrite <- (app_nil_r j3). rewrite xor_loop_ok by (rewrite ?app_length, ?SHAKE256_length; lia).
    fold M. cbn [bind]. rewrite (firstn_all2 (SHAKE256 _ _)) by (rewrite SHAKE256_length; lia).
    rewrite (norm_bytes (SHAKE256 _ _)) by apply SHAKE256_bytes. rewrite app_nil_r.
    rewrite rd_all.
    2:{ rewrite !app_length, xor_str_length; rewrite map_length, ?SHAKE256_length; lia. }
    cbn [bind]. rewrite shake256_norm by apply t0_length. cbn [bind]. f_equal.
    rewrite !map_app, map_length, LM, <- app_assoc. do 3 f_equal.
    apply norm_bytes. unfold xor_str. apply Forall_forall. intros x Hx. apply in_map_iff in Hx.
    destruct Hx as ([u v] & <- & Hin). pose proof (in_combine_l _ _ _ _ Hin) as Hu.
    pose proof (in_combine_r _ _ _ _ Hin) as Hv. cbn [fst snd].
    pose proof (norm_all M) as HM. pose proof (SHAKE256_bytes (norm (c_pub_seed c) ++ norm a) (k * N)) as HS.
    unfold all_bytes in HM, HS. rewrite Forall_forall in HM, HS.
    assert (Eu : u = u8 u) by (unfold u8; rewrite Z.mod_small; auto; apply HM; auto).
    assert (Ev : v = u8 v).
    { unfold u8; rewrite Z.mod_small; auto. apply HS. exact Hv. }
    rewrite Eu, Ev, <- u8_xor. apply u8_byte.
  - unfold shake_thash_simple. set (J := junk_bytes _ _).
    assert (LJ : length J = (N + SPX_ADDR_BYTES + k * N)%nat) by apply junk_length. clearbody J.
    destruct (split_at J 0 N) as (x0 & j1 & r1 & E1 & L0 & L1 & _); [lia|].
    destruct x0; [|cbn in L0; lia]. cbn [app] in E1. subst J. rewrite app_length in LJ.
    destruct (split_at r1 0 SPX_ADDR_BYTES) as (x0 & j2 & j3 & E1 & L0' & L2 & _); [lia|].
    destruct x0; [|cbn in L0'; lia]. cbn [app] in E1. subst r1. rewrite app_length in LJ.
    rewrite memcpy_all by lia. cbn [bind]. rewrite memcpy_mid by lia. cbn [bind].
    replace (c_pub_seed c ++ a ++ j3) with ((c_pub_seed c ++ a) ++ j3 ++ []) by (now rewrite app_nil_r, <- app_assoc).
    rewrite memcpy_at by (rewrite ?app_length; lia). fold M. cbn [bind].
    rewrite app_nil_r, <- app_assoc. rewrite rd_all by (rewrite !app_length; lia). cbn [bind].
    rewrite shake256_norm by apply t0_length. cbn [bind]. now rewrite !map_app.
Qed.
Lemma shake_T_length robust ps a m : length (shake_T N robust ps a m) = N.
Proof. unfold shake_T. destruct robust; apply SHAKE256_length. Qed.
Lemma shake_T_bytes robust ps a m : all_bytes (shake_T N robust ps a m).
Proof. unfold shake_T. destruct robust; apply SHAKE256_bytes. Qed.
(** As a value. *)
Theorem shake_hs_thash robust c k i a :
  length (c_pub_seed c) = N -> length a = SPX_ADDR_BYTES -> length i = (k * N)%nat ->
  hs_thash (shake_suite P junk robust) c k i a = Some (shake_T N robust (norm (c_pub_seed c)) (norm a) (norm i)).
Proof.
  intros H1 H2 H3. cbn [shake_suite hs_thash]. apply as_value_ok; [apply shake_T_length|].
  rewrite shake_thash_ok by (rewrite ?app_length; auto; lia). f_equal.
  cbn [skipn]. rewrite firstn_app, <- H3, firstn_all, Nat.sub_diag. cbn [firstn]. now rewrite app_nil_r.
Qed.

(** Whatever comes out of shake256 is bytes. *)
Lemma as_value_bytes f n inp d : 
  (forall mem o i r, f mem o i = Some r -> exists h, all_bytes h /\ length h = n /\ wr mem o h = Some r) ->
  as_value n f inp = Some d -> all_bytes d.
Proof.
  clear. intros Hf E. unfold as_value in E.
  destruct (f (inp ++ repeat 0 n) (length inp) O) as [r|] eqn:E1; [|discriminate]. cbn [bind] in E.
  destruct (Hf _ _ _ _ E1) as (h & Hh & Lh & Hw).
  rewrite wr_app_r in Hw by (rewrite ?repeat_length; auto). inversion Hw; subst r.
  rewrite rd_app_r in E by auto. congruence.
Qed.
Ltac opt E := match type of E with bind ?o _ = _ => let e := fresh "e" in destruct o eqn:e; [|discriminate]; cbn [bind] in E end.

Theorem shake_suite_ok robust : suite_ok P (shake_suite P junk robust).
Proof.
  assert (H256 : forall n x d, shake256 (t0 junk) n x = Some d -> all_bytes d /\ length d = n).
  { intros n x d E. rewrite shake256_norm in E by apply t0_length. injection E as <-.
    split; [apply SHAKE256_bytes|apply SHAKE256_length]. }
  constructor.
  - intros c k i a (H1 & H2 & _) H3 H4. eexists. split; [now apply shake_hs_thash|apply shake_T_length].
  - intros c k i a d E. cbn [shake_suite hs_thash] in E. eapply as_value_bytes; [|exact E]. clear E i d.
    intros mem o ip r E. destruct robust; cbn [shake_thash] in E.
    + unfold shake_thash_robust in E. cbv zeta in E. repeat opt E.
      destruct (H256 _ _ _ e5). eauto.
    + unfold shake_thash_simple in E. cbv zeta in E. repeat opt E.
      destruct (H256 _ _ _ e3). eauto.
  - intros c a (H1 & H2 & _) H3. eexists. split; [now apply shake_prf_ok|apply SHAKE256_length].
  - intros c a d E. cbn [shake_suite hs_prf_addr] in E. unfold shake_prf_addr in E. cbv zeta in E. repeat opt E.
    now apply H256 in E.
  - intros c s o m (H1 & H2 & _) H3 H4. eexists. split; [now apply rand_ok|apply SHAKE256_length].
  - intros c s o m d E. cbn [shake_suite hs_gen_message_random] in E.
    unfold shake_gen_message_random in E. cbv zeta in E.
    destruct (rd s 0 N) as [k1|]; [|discriminate]. cbn [bind] in E.
    destruct (rd o 0 N) as [k2|].
    + pose proof (inc3 _ k1 k2 m N eq_refl) as E3. cbn [bind] in E.
      assert (E' : Some (SHAKE256 (norm (k1 ++ k2 ++ m)) N) = Some d) by (rewrite <- E3; exact E).
      injection E' as <-. apply SHAKE256_bytes.
    + destruct (shake256_inc_absorb shake256_inc_init k1); discriminate.
  - intros c R pk m _ H1 H2. destruct (split_digest_range P Hwf (SHAKE256 (norm R ++ norm pk ++ norm m) (SPX_DGST_BYTES P)))
      as (d & t & l & E & L & B & Rt & Rl); [apply SHAKE256_bytes|apply SHAKE256_length|].
    exists d, t, l. split; [|auto]. cbn [shake_suite hs_hash_message]. rewrite msg_ok by auto. f_equal.
    rewrite <- E. unfold shake_Hmsg. do 2 f_equal.
    unfold digest_len, SPX_DGST_BYTES, md_len, SPX_FORS_MSG_BYTES. cbn [dims_of s_k s_a].
    now rewrite (Nat.mul_comm (p_ft P)).
  - intros. cbn [shake_suite hs_thash]. unfold as_value. destruct robust; reflexivity.
  - reflexivity.
  - reflexivity.
Qed.
End Shake.

(** The same for contents that are bytes. *)
Section ShakeBytes.
Variable P : params.
Variable junk : nat -> nat -> Z.
Notation N := (p_n P).
#[local] Opaque SHAKE256.
Theorem shake_thash_bytes robust (c : ctx unit) k addr mem out inp :
  length (c_pub_seed c) = N -> length addr = SPX_ADDR_BYTES ->
  all_bytes (c_pub_seed c) -> all_bytes addr -> all_bytes mem ->
  (inp + k * N <= length mem)%nat -> (out + N <= length mem)%nat ->
  let d := shake_T N robust (c_pub_seed c) addr (firstn (k * N) (skipn inp mem)) in
  length d = N
  /\ shake_thash P junk robust c k addr mem out inp
     = Some (firstn out mem ++ d ++ skipn (out + N) mem).
Proof.
  intros H1 H2 B1 B2 B3 Hi Ho d. assert (Ld : length d = N) by apply shake_T_length. split; [exact Ld|].
  rewrite shake_thash_ok by auto. rewrite !norm_bytes; auto.
  - fold d. rewrite wr_ok by lia. now rewrite Ld.
  - apply all_firstn. unfold all_bytes in *. rewrite Forall_forall in *. intros x Hx. apply B3.
    rewrite <- (firstn_skipn inp mem). apply in_or_app. now right.
Qed.
Theorem shake_msg_bytes : wf_params P = true -> forall (c : ctx unit) R pk m,
  length R = N -> length pk = SPX_PK_BYTES P -> all_bytes R -> all_bytes pk -> all_bytes m ->
  shake_hash_message P c R pk m
  = Some (split_digest_spec (dims_of P) (SHAKE256 (R ++ pk ++ m) (SPX_DGST_BYTES P))).
Proof. clear junk.
  intros Hwf c R pk m H1 H2 B1 B2 B3. rewrite msg_ok by auto. rewrite !norm_bytes by auto.
  unfold shake_Hmsg. do 3 f_equal.
  unfold digest_len, SPX_DGST_BYTES, md_len, SPX_FORS_MSG_BYTES. cbn [dims_of s_k s_a].
  now rewrite (Nat.mul_comm (p_ft P)).
Qed.
Theorem shake_prf_bytes (c : ctx unit) addr :
  length (c_pub_seed c) = N -> length (c_sk_seed c) = N -> length addr = SPX_ADDR_BYTES ->
  all_bytes (c_pub_seed c) -> all_bytes (c_sk_seed c) -> all_bytes addr ->
  shake_prf_addr P junk c addr = Some (shake_PRF N (c_pub_seed c) (c_sk_seed c) addr).
Proof. intros H1 H2 H3 B1 B2 B3. rewrite shake_prf_ok by auto. now rewrite !norm_bytes. Qed.
Theorem shake_rand_bytes (c : ctx unit) sk_prf optrand m :
  length sk_prf = N -> length optrand = N -> all_bytes sk_prf -> all_bytes optrand -> all_bytes m ->
  shake_gen_message_random P c sk_prf optrand m = Some (shake_PRFmsg N sk_prf optrand m).
Proof. clear junk. intros H1 H2 B1 B2 B3. rewrite rand_ok by auto. now rewrite !norm_bytes. Qed.
End ShakeBytes.
