(** The Haraka build's hash functions are those of the specification. *)
From Verif Require Import Base BaseFacts Params Address Suite Utils Spec SpecFacts Refine HashSpec KeccakSpec
  HarakaSpec HarakaHashSpec Haraka SpongeFacts ShakeProofs HarakaProofs HarakaSponge HarakaTweak
  HashShake HashHaraka AddressProofs CoreFacts2 HashShakeProofs HashSha2Proofs.

(** ** Whatever the constants, the outputs are bytes. *)
Lemma obind {A B} (o : option A) (f : A -> option B) d : bind o f = Some d -> exists a, o = Some a /\ f a = Some d.
Proof. destruct o; [eauto|discriminate]. Qed.
Lemma wr_bytes b o x d : all_bytes b -> all_bytes x -> wr b o x = Some d -> all_bytes d.
Proof.
  unfold wr. intros Hb Hx E. destruct (_ <=? _)%nat; [|discriminate]. inversion E; subst.
  apply Forall_app. split; [now apply all_firstn|]. apply Forall_app. split; [exact Hx|now apply Forall_skip].
Qed.
Lemma iterM_keep {S : Type} (I : S -> Prop) f k : forall i s s', I s ->
  (forall i s s', I s -> f i s = Some s' -> I s') -> iterM k i f s = Some s' -> I s'.
Proof.
  induction k as [|k IH]; intros i s s' H Hf E; cbn [iterM] in E; [congruence|].
  apply obind in E as (s1 & E1 & E). eauto.
Qed.
Lemma u8s x : all_bytes [u8 x].
Proof. apply Forall_cons; [apply u8_byte|apply Forall_nil]. Qed.
Lemma enc_bytes l : all_bytes (br_range_enc32le l).
Proof.
  unfold br_range_enc32le. induction l as [|x l IH]; cbn [flat_map]; [apply Forall_nil|].
  apply Forall_app. split; [|exact IH]. unfold br_enc32le. repeat (apply Forall_cons; [apply u8_byte|]). apply Forall_nil.
Qed.
Section AnyConstants.
Variable rc : list (list Z).
Lemma store512_bytes q d : store512 q = Some d -> all_bytes d.
Proof.
  unfold store512. intros E. apply obind in E as (x & _ & E).
  repeat (destruct x as [|? x]; try discriminate E).
  apply (f_equal (fun o => match o with Some y => y | None => [] end)) in E. cbv beta iota in E. rewrite <- E. apply enc_bytes.
Qed.
Lemma perm512_bytes x d : haraka512_perm rc x = Some d -> all_bytes d.
Proof.
  unfold haraka512_perm. intros E. apply obind in E as (q & _ & E). apply obind in E as (q' & _ & E).
  now apply store512_bytes in E.
Qed.
Lemma haraka512_any x d : haraka512 rc x = Some d -> all_bytes d.
Proof.
  unfold haraka512. intros E. apply obind in E as (b & E1 & E). apply obind in E as (b2 & E2 & E).
  assert (B : all_bytes b2).
  { eapply (iterM_keep all_bytes); [| |exact E2].
    - now apply perm512_bytes in E1.
    - clear. cbn beta. intros i s s' Hs E. apply obind in E as (u & _ & E). apply obind in E as (v & _ & E).
      eapply wr_bytes; [..|exact E]; [exact Hs|apply u8s]. }
  apply obind in E as (y1 & F1 & E). apply obind in E as (y2 & F2 & E).
  apply obind in E as (y3 & F3 & E). apply obind in E as (y4 & F4 & E). injection E as <-.
  apply rd_bytes in F1, F2, F3, F4; auto.
  apply Forall_app. split; auto. apply Forall_app. split; auto. apply Forall_app. split; auto.
Qed.
End AnyConstants.
Section AnyPerm.
Variable hp : bytes -> option bytes.
Hypothesis hp_bytes : forall x d, hp x = Some d -> all_bytes d.
Lemma squeezeblocks_bytes n : forall s h s', haraka_S_squeezeblocks hp n s = Some (h, s') -> all_bytes h.
Proof.
  induction n as [|n IH]; intros s h s' E; cbn [haraka_S_squeezeblocks] in E.
  - injection E as <- <-. apply Forall_nil.
  - apply obind in E as (s1 & E1 & E). apply obind in E as (h1 & E2 & E). apply obind in E as ([r s2] & E3 & E).
    injection E as <- <-. apply Forall_app. split; [|exact (IH _ _ _ E3)].
    eapply rd_bytes; [|exact E2]. now apply hp_bytes in E1.
Qed.
Lemma haraka_S_any n m d : haraka_S hp n m = Some d -> all_bytes d.
Proof.
  unfold haraka_S. intros E. apply obind in E as (s & _ & E). apply obind in E as ([o s1] & E1 & E).
  apply squeezeblocks_bytes in E1. destruct (_ =? _)%nat.
  - now injection E as <-.
  - apply obind in E as ([x s2] & E2 & E). apply obind in E as (y & E3 & E). injection E as <-.
    apply squeezeblocks_bytes in E2. apply Forall_app. split; [exact E1|]. eapply rd_bytes; eauto.
Qed.
Lemma squeezeblocks_len n : forall s h s', haraka_S_squeezeblocks hp n s = Some (h, s') -> length h = (32 * n)%nat.
Proof.
  induction n as [|n IH]; intros s h s' E; cbn [haraka_S_squeezeblocks] in E.
  - injection E as <- <-. reflexivity.
  - apply obind in E as (s1 & E1 & E). apply obind in E as (h1 & E2 & E). apply obind in E as ([r s2] & E3 & E).
    injection E as <- <-. rewrite app_length. apply rd_length in E2. apply IH in E3. unfold HARAKAS_RATE in E2. lia.
Qed.
Lemma haraka_S_len n m d : haraka_S hp n m = Some d -> length d = n.
Proof.
  unfold haraka_S. intros E. apply obind in E as (s & _ & E). apply obind in E as ([o s1] & E1 & E).
  apply squeezeblocks_len in E1. pose proof (Nat.div_mod n 32 ltac:(lia)) as D.
  destruct (Nat.eqb_spec (n mod 32) 0) as [Z0|Z0].
  - injection E as <-. lia.
  - apply obind in E as ([x s2] & E2 & E). apply obind in E as (y & E3 & E). injection E as <-.
    apply rd_length in E3. rewrite app_length. lia.
Qed.
Lemma inc_perm_bytes s d : all_bytes s -> inc_perm hp s = Some d -> all_bytes d.
Proof.
  unfold inc_perm. intros H E. apply obind in E as (x & _ & E). apply obind in E as (y & E1 & E).
  apply hp_bytes in E1. exact (wr_bytes _ _ _ _ H E1 E).
Qed.
Lemma inc_xor_bytes k s m d : all_bytes s -> inc_xor k s m = Some d -> all_bytes d.
Proof.
  unfold inc_xor. intros H E. eapply (iterM_keep all_bytes); [exact H| |exact E].
  clear. cbn beta. intros i s s' Hs E.
  apply obind in E as (c & _ & E). apply obind in E as (u & _ & E). apply obind in E as (v & _ & E).
  eapply wr_bytes; [..|exact E]; [exact Hs|apply u8s].
Qed.
Lemma zero_byte : all_bytes [0].
Proof. apply Forall_cons; [unfold is_byte; lia|apply Forall_nil]. Qed.
Lemma inc_absorb_bytes fuel : forall s m d, all_bytes s -> haraka_S_inc_absorb hp fuel s m = Some d -> all_bytes d.
Proof.
  induction fuel as [|fuel IH]; intros s m d H E; cbn [haraka_S_inc_absorb] in E; apply obind in E as (c & _ & E);
    destruct (_ <? _)%nat; try discriminate.
  1,2: apply obind in E as (s1 & E1 & E); apply obind in E as (c' & _ & E); apply inc_xor_bytes in E1; auto;
    eapply wr_bytes; [..|exact E]; [exact E1|apply u8s].
  apply obind in E as (s1 & E1 & E). apply inc_xor_bytes in E1; auto.
  apply obind in E as (s2 & E2 & E). apply obind in E as (s3 & E3 & E).
  apply (IH _ _ _) in E; auto. eapply inc_perm_bytes; [|exact E3]. eapply wr_bytes; [..|exact E2]; [exact E1|apply zero_byte].
Qed.
Lemma inc_finalize_bytes s d : all_bytes s -> haraka_S_inc_finalize s = Some d -> all_bytes d.
Proof.
  unfold haraka_S_inc_finalize. intros H E. apply obind in E as (c & _ & E). apply obind in E as (a & _ & E).
  apply obind in E as (s1 & E1 & E). apply obind in E as (a' & _ & E). apply obind in E as (s2 & E2 & E).
  apply wr_bytes in E1; auto using u8s. apply wr_bytes in E2; auto using u8s. apply wr_bytes in E; auto using zero_byte.
Qed.
Lemma squeeze_loop_bytes fuel : forall n s h s', all_bytes s -> inc_squeeze_loop hp fuel n s = Some (h, s') -> all_bytes h.
Proof.
  induction fuel as [|fuel IH]; intros [|n] s h s' H E; cbn [inc_squeeze_loop] in E; try discriminate.
  1,2: injection E as <- <-; apply Forall_nil.
  apply obind in E as (s1 & E1 & E). apply inc_perm_bytes in E1; auto. apply obind in E as (o & E2 & E).
  apply obind in E as (s2 & E3 & E). apply wr_bytes in E3; auto using u8s. apply obind in E as ([r s3] & E4 & E).
  injection E as <- <-. apply Forall_app. split; [exact (rd_bytes _ _ _ _ E1 E2)|exact (IH _ _ _ _ E3 E4)].
Qed.
Lemma inc_squeeze_bytes n s h s' : all_bytes s -> haraka_S_inc_squeeze hp n s = Some (h, s') -> all_bytes h.
Proof.
  unfold haraka_S_inc_squeeze. intros H E. apply obind in E as (c & _ & E). apply obind in E as (o & E1 & E).
  apply obind in E as (s1 & E2 & E). apply wr_bytes in E2; auto using u8s. apply obind in E as ([r s3] & E4 & E).
  injection E as <- <-. apply Forall_app. split; [exact (rd_bytes _ _ _ _ H E1)|exact (squeeze_loop_bytes _ _ _ _ _ E2 E4)].
Qed.
End AnyPerm.

(** The four functions are those of the specification with constants R. *)
Record hk_ok (K : haraka_fns) (R : list (list Z)) : Prop := {
  ho_512 : forall x, length x = 64%nat -> hk_512 K x = Some (Haraka512 R (norm x));
  ho_256 : forall x, length x = 32%nat -> hk_256 K x = Some (Haraka256 R (norm x));
  ho_S : forall n m, hk_S K n m = Some (HarakaS R (norm m) n);
  ho_perm : forall s, st_ok s -> hk_perm K s = Some (pi512 R s) /\ st_ok (pi512 R s);
  ho_bytes : forall x, length x = 32%nat -> all_bytes x -> all_bytes (Haraka256 R x)
}.
(** Whatever the constants, the outputs are bytes. *)
Record hk_any (K : haraka_fns) : Prop := {
  ha_512 : forall x d, hk_512 K x = Some d -> all_bytes d;
  ha_S : forall n m d, hk_S K n m = Some d -> all_bytes d /\ length d = n;
  ha_perm : forall x d, hk_perm K x = Some d -> all_bytes d
}.
Lemma Haraka512_length R x : length x = 64%nat -> length (Haraka512 R x) = 32%nat.
Proof.
  intros L. assert (L1 := pi512_length R x L). unfold Haraka512, haraka512_trunc.
  rewrite !app_length, !firstn_length, !skipn_length, !xor_bytes_length, L1. reflexivity.
Qed.
Lemma Haraka256_length R x : length x = 32%nat -> length (Haraka256 R x) = 32%nat.
Proof. intros L. unfold Haraka256. now rewrite xor_bytes_length, pi256_length. Qed.
Lemma ho_S_bytes K R : hk_ok K R -> forall m n, all_bytes m -> all_bytes (HarakaS R m n).
Proof. intros H m n. exact (gS_bytes (hk_perm K) (pi512 R) (pi512_length R) (ho_perm K R H) m n). Qed.

#[local] Opaque haraka512 haraka256 haraka_S haraka_S_inc_absorb haraka_S_inc_squeeze HarakaS Haraka512 Haraka256 tweaked_RC
  tweak_constants pi512 pi256.
Section Haraka.
Variable P : params.
Variable junk : nat -> nat -> Z.
Notation N := (p_n P).
Hypothesis HN : (1 <= N <= 32)%nat.
Variable st : Type.
Variable fns : st -> option haraka_fns.
Notation RC c := (tweaked_RC (norm (c_pub_seed c))).
(** A context whose constants are those of its public seed. *)
Definition gctx (c : ctx st) : Prop :=
  length (c_pub_seed c) = N /\ exists K, fns (c_state c) = Some K /\ hk_ok K (RC c).

Lemma norm_zeros k : norm (repeat 0 k) = repeat 0 k.
Proof. apply norm_bytes. apply Forall_forall. intros x Hx. apply repeat_spec in Hx. subst. unfold is_byte. lia. Qed.
Lemma norm_norm l : norm (norm l) = norm l.
Proof. apply norm_bytes, norm_all. Qed.
Lemma pad64_norm x : (length x <= 64)%nat -> norm (x ++ repeat 0 (64 - length x)) = pad64 (norm x).
Proof. intros H. unfold pad64. now rewrite map_app, norm_zeros, map_length. Qed.
Lemma pad64_length x : (length x <= 64)%nat -> length (x ++ repeat 0 (64 - length x)) = 64%nat.
Proof. intros H. rewrite app_length, repeat_length. lia. Qed.
(** the first N of the 32 bytes *)
Lemma h512 K R x : hk_ok K R -> (length x <= 64)%nat ->
  (o <- hk_512 K (x ++ repeat 0 (64 - length x)) ;; rd o 0 N) = Some (firstn N (Haraka512 R (pad64 (norm x)))).
Proof. clear st fns.
  intros H L. rewrite (ho_512 K R H) by (auto using pad64_length). cbn [bind].
  rewrite pad64_norm by exact L.
  rewrite rd_ok; [reflexivity|]. rewrite Haraka512_length; [lia|].
  unfold pad64. apply pad64_length. now rewrite map_length.
Qed.
Lemma h512_len R x : (length x <= 64)%nat -> length (firstn N (Haraka512 R (pad64 (norm x)))) = N.
Proof. clear st fns.
  intros L. rewrite firstn_length, Haraka512_length; [lia|].
  unfold pad64. apply pad64_length. now rewrite map_length.
Qed.

Lemma zeros64 a : (a <= 32)%nat -> repeat 0 64 = repeat 0 32 ++ repeat 0 a ++ repeat 0 (64 - (32 + a)).
Proof. intros H. rewrite <- !repeat_app. f_equal. lia. Qed.
Lemma hk_prf_ok c a : gctx c -> length (c_sk_seed c) = N -> length a = SPX_ADDR_BYTES ->
  hk_prf_addr P st fns c a = Some (haraka_PRF N (norm (c_pub_seed c)) (norm (c_sk_seed c)) (norm a)).
Proof.
  intros Hc H2 H3. destruct Hc as (Hp & K & E & H). unfold hk_prf_addr. rewrite E. cbn [bind].
  unfold SPX_ADDR_BYTES in *. rewrite (zeros64 N) by lia.
  rewrite memcpy_all by (rewrite ?repeat_length; lia). cbn [bind].
  rewrite memcpy_mid by (rewrite ?repeat_length; lia). cbn [bind].
  rewrite app_assoc. replace (32 + N)%nat with (length (a ++ c_sk_seed c)) by (rewrite app_length; lia).
  rewrite (h512 K (RC c)) by (auto; rewrite app_length; lia). unfold haraka_PRF, haraka_PRF_of. now rewrite map_app.
Qed.

Lemma inc3h K R x y z n : hk_ok K R ->
  (s <- inc_absorb K haraka_S_inc_init x ;; s <- inc_absorb K s y ;; s <- inc_absorb K s z ;;
   s <- haraka_S_inc_finalize s ;; ' (h, _) <- haraka_S_inc_squeeze (hk_perm K) n s ;; Some h)
  = Some (HarakaS R (norm (x ++ y ++ z)) n).
Proof. clear HN junk.
  intros H. pose proof (gharaka_S_inc_ok (hk_perm K) (pi512 R) (pi512_length R) (ho_perm K R H) [x; y; z] [n]) as E.
  unfold haraka_S_inc in E. cbn [absorb_all squeeze_all concat pieces total fold_right] in E.
  rewrite app_nil_r, Nat.add_0_r in E. unfold inc_absorb.
  destruct (haraka_S_inc_absorb (hk_perm K) _ haraka_S_inc_init x) as [s1|]; [|discriminate]. cbn [bind] in *.
  destruct (haraka_S_inc_absorb (hk_perm K) _ s1 y) as [s2|]; [|discriminate]. cbn [bind] in *.
  destruct (haraka_S_inc_absorb (hk_perm K) _ s2 z) as [s3|]; [|discriminate]. cbn [bind] in *.
  destruct (haraka_S_inc_finalize s3) as [s4|]; [|discriminate]. cbn [bind] in *.
  destruct (haraka_S_inc_squeeze (hk_perm K) n s4) as [[h s5]|]; [|discriminate]. cbn [bind] in *.
  injection E as E. rewrite E. f_equal. apply firstn_all2. rewrite HarakaS_length. lia.
Qed.
Lemma hk_rand_ok c k o m : gctx c -> length k = N -> length o = N ->
  hk_gen_message_random P st fns c k o m = Some (haraka_PRFmsg N (norm (c_pub_seed c)) (norm k) (norm o) (norm m)).
Proof.
  intros Hc H1 H2. destruct Hc as (Hp & K & E & H).
  unfold hk_gen_message_random. rewrite E. cbn [bind]. rewrite rd_all by lia. cbn [bind].
  rewrite (rd_all o) by lia. unfold haraka_PRFmsg, haraka_PRFmsg_of. rewrite <- !map_app.
  rewrite <- (inc3h K _ k o m N H). reflexivity.
Qed.
Hypothesis Hwf : wf_params P = true.
Lemma digest_len_P : digest_len (dims_of P) = SPX_DGST_BYTES P.
Proof.
  clear. unfold digest_len, SPX_DGST_BYTES, md_len, SPX_FORS_MSG_BYTES. cbn [dims_of s_k s_a].
  now rewrite (Nat.mul_comm (p_ft P)).
Qed.
Lemma hk_msg_ok c R pk m : gctx c -> length R = N -> length pk = SPX_PK_BYTES P ->
  hk_hash_message P st fns c R pk m
  = Some (haraka_Hmsg (dims_of P) (norm (c_pub_seed c)) (norm R) (norm (skipn N pk)) (norm m)).
Proof.
  intros Hc H1 H2. destruct Hc as (Hp & K & Er & H).
  unfold hk_hash_message. rewrite Er. cbn [bind]. rewrite rd_all by lia. cbn [bind].
  unfold SPX_PK_BYTES in H2. rewrite (rd_ok pk N) by lia. rewrite (firstn_all2 (skipn N pk)) by (rewrite skipn_length; lia).
  unfold haraka_Hmsg, haraka_Hmsg_of. rewrite <- !map_app, digest_len_P.
  pose proof (inc3h K _ R (skipn N pk) m (SPX_DGST_BYTES P) H) as E. cbn [bind].
  destruct (inc_absorb K haraka_S_inc_init R) as [s1|]; [|discriminate]. cbn [bind] in *.
  destruct (inc_absorb K s1 (skipn N pk)) as [s2|]; [|discriminate]. cbn [bind] in *.
  destruct (inc_absorb K s2 m) as [s3|]; [|discriminate]. cbn [bind] in *.
  destruct (haraka_S_inc_finalize s3) as [s4|]; [|discriminate]. cbn [bind] in *.
  destruct (haraka_S_inc_squeeze (hk_perm K) (SPX_DGST_BYTES P) s4) as [[h s5]|]; [|discriminate]. cbn [bind] in *.
  injection E as ->. apply split_digest_ok; [exact Hwf| |apply HarakaS_length].
  eapply ho_S_bytes; [exact H|apply norm_all].
Qed.

Lemma haraka_T_length robust c a m : gctx c -> length a = 32%nat -> (length m = N \/ length m <> N) ->
  length (haraka_T N robust (norm (c_pub_seed c)) (norm a) (norm m)) = N.
Proof. clear Hwf.
  intros Hc La _. destruct Hc as (Hp & K & E & H). unfold haraka_T, haraka_T_of.
  destruct (Nat.eqb_spec (length (norm m)) N) as [L|L]; [|apply HarakaS_length].
  assert (B2 : length (Haraka256 (RC c) (norm a)) = 32%nat /\ all_bytes (Haraka256 (RC c) (norm a))).
  { split; [now apply Haraka256_length; rewrite map_length|apply (ho_bytes K _ H); [now rewrite map_length|apply norm_all]]. }
  destruct B2 as [L2 B2].
  set (X := if robust then _ else _).
  assert (LX : length X = N) by (unfold X; destruct robust; rewrite ?xor_str_length; rewrite ?firstn_length; auto; lia).
  assert (BX : all_bytes X).
  { unfold X. destruct robust; [apply xor_str_bytes|]; try apply norm_all. now apply all_firstn. }
  rewrite <- (norm_bytes (norm a ++ X)) by (apply Forall_app; split; [apply norm_all|exact BX]).
  apply (h512_len); auto. rewrite app_length, map_length. lia.
Qed.
Theorem hk_thash_ok robust c k a mem out inp :
  gctx c -> length a = SPX_ADDR_BYTES -> (inp + k * N <= length mem)%nat ->
  hk_thash P junk st fns robust c k a mem out inp
  = wr mem out (haraka_T N robust (norm (c_pub_seed c)) (norm a) (norm (firstn (k * N) (skipn inp mem)))).
Proof. clear Hwf.
  intros Hc H2 H3. set (M := firstn (k * N) (skipn inp mem)).
  assert (LM : length M = (k * N)%nat) by (unfold M; rewrite firstn_length, skipn_length; lia).
  assert (EM : firstn (k * N) (skipn inp mem) = M) by reflexivity. clearbody M.
  destruct Hc as (Hp & K & E & H). unfold SPX_ADDR_BYTES in *.
  unfold hk_thash, haraka_T, haraka_T_of. rewrite map_length, LM.
  destruct robust.
  - unfold hk_thash_robust. rewrite E. cbn [bind]. unfold SPX_ADDR_BYTES.
    destruct (Nat.eqb_spec k 1) as [->|Hk].
    + rewrite Nat.mul_1_l in *. rewrite Nat.eqb_refl.
      assert (B := ho_bytes K _ H (norm a) ltac:(now rewrite map_length) (norm_all a)).
      assert (L' := Haraka256_length (RC c) (norm a) ltac:(now rewrite map_length)).
      rewrite (zeros64 N) by lia.
      rewrite memcpy_all by (rewrite ?repeat_length; lia). cbn [bind].
      rewrite rd_app0 by auto. cbn [bind]. rewrite (ho_256 K (RC c) H) by auto. cbn [bind].
      rewrite xor_loop_ok by (rewrite ?repeat_length; lia). rewrite EM. cbn [bind].
      rewrite (norm_bytes (firstn N (Haraka256 _ _))) by now apply all_firstn.
      set (X := xor_str _ _).
      assert (LM' : length (norm M) = N) by (rewrite map_length; lia).
      assert (LX : length X = N) by (unfold X; rewrite xor_str_length; rewrite LM'; rewrite ?firstn_length; lia).
      assert (BX : all_bytes X) by (unfold X; apply xor_str_bytes; [apply norm_all|now apply all_firstn]).
      rewrite app_assoc. replace (32 + N)%nat with (length (a ++ X)) by (rewrite app_length; lia).
      pose proof (h512 K (RC c) (a ++ X) H ltac:(rewrite app_length; lia)) as F.
      destruct (hk_512 K _) as [o|]; [|discriminate]. cbn [bind] in F |- *. rewrite F. cbn [bind].
      now rewrite map_app, (norm_bytes X).
    + replace (k * N =? N)%nat with false by (symmetry; apply Nat.eqb_neq; nia).
      set (J := junk_bytes _ _). assert (LJ : length J = (32 + k * N)%nat) by apply junk_length. clearbody J.
      destruct (split_at J 0 32) as (x0 & j1 & j2 & E1 & L0 & L1 & _); [lia|].
      destruct x0; [|cbn in L0; lia]. cbn [app] in E1. subst J. rewrite app_length in LJ.
      rewrite memcpy_all by lia. cbn [bind]. rewrite rd_app0 by lia. cbn [bind].
      rewrite (ho_S K (RC c) H). cbn [bind].
      assert (BS : all_bytes (HarakaS (RC c) (norm a) (k * N))) by (apply (ho_S_bytes K _ H); auto; apply norm_all).
      rewrite <- (app_nil_r j2). rewrite xor_loop_ok by (rewrite ?HarakaS_length; lia). rewrite EM. cbn [bind].
      rewrite (firstn_all2 (HarakaS _ _ _)) by (rewrite HarakaS_length; lia).
      rewrite (norm_bytes (HarakaS _ _ _)) by exact BS. rewrite app_nil_r.
      rewrite rd_all.
      2:{ rewrite !app_length, xor_str_length; rewrite map_length, ?HarakaS_length; lia. }
      cbn [bind]. rewrite (ho_S K (RC c) H). cbn [bind]. do 2 f_equal.
      rewrite map_app. f_equal. apply norm_bytes. apply xor_str_bytes; [apply norm_all|exact BS].
  - unfold hk_thash_simple. rewrite E. cbn [bind]. unfold SPX_ADDR_BYTES.
    destruct (Nat.eqb_spec k 1) as [->|Hk].
    + rewrite Nat.mul_1_l in *. rewrite Nat.eqb_refl.
      rewrite (zeros64 N) by lia.
      rewrite memcpy_all by (rewrite ?repeat_length; lia). cbn [bind].
      rewrite memcpy_at by (rewrite ?repeat_length; lia). rewrite EM. cbn [bind].
      rewrite app_assoc. replace (32 + N)%nat with (length (a ++ M)) by (rewrite app_length; lia).
      pose proof (h512 K (RC c) (a ++ M) H ltac:(rewrite app_length; lia)) as F.
      destruct (hk_512 K _) as [o|]; [|discriminate]. cbn [bind] in F |- *. rewrite F. cbn [bind].
      now rewrite map_app.
    + replace (k * N =? N)%nat with false by (symmetry; apply Nat.eqb_neq; nia).
      set (J := junk_bytes _ _). assert (LJ : length J = (32 + k * N)%nat) by apply junk_length. clearbody J.
      destruct (split_at J 0 32) as (x0 & j1 & j2 & E1 & L0 & L1 & _); [lia|].
      destruct x0; [|cbn in L0; lia]. cbn [app] in E1. subst J. rewrite app_length in LJ.
      rewrite memcpy_all by lia. cbn [bind].
      rewrite <- (app_nil_r j2). rewrite memcpy_at by lia. rewrite EM. cbn [bind].
      rewrite app_nil_r. rewrite rd_all by (rewrite app_length; lia). cbn [bind].
      rewrite (ho_S K (RC c) H). cbn [bind]. now rewrite map_app.
Qed.
Variable init : bytes -> st.
Theorem hk_hs_thash robust c k i a :
  gctx c -> length a = SPX_ADDR_BYTES -> length i = (k * N)%nat ->
  hs_thash (hk_suite P junk st fns init robust) c k i a = Some (haraka_T N robust (norm (c_pub_seed c)) (norm a) (norm i)).
Proof.
  intros H1 H2 H3. cbn [hk_suite hs_thash]. apply as_value_ok; [apply haraka_T_length; auto; lia|].
  rewrite hk_thash_ok by (rewrite ?app_length; auto; lia). f_equal.
  cbn [skipn]. rewrite firstn_app, <- H3, firstn_all, Nat.sub_diag. cbn [firstn]. now rewrite app_nil_r.
Qed.


Hypothesis Hinit : forall ps, length ps = N -> exists K, fns (init ps) = Some K /\ hk_ok K (tweaked_RC (norm ps)).
Hypothesis Hany : forall s K, fns s = Some K -> hk_any K.
Lemma hk_ctx robust c : ctx_ok P (hk_suite P junk st fns init robust) c -> gctx c.
Proof.
  clear HN Hwf Hany. intros (H1 & _ & H2). split; [exact H1|]. destruct (Hinit _ H1) as (K & E & H).
  exists K. split; [|exact H]. rewrite <- E. f_equal. exact H2.
Qed.
Theorem hk_suite_ok robust : suite_ok P (hk_suite P junk st fns init robust).
Proof.
  constructor.
  - intros c k i a Hc H3 H4. apply hk_ctx in Hc. eexists. split; [now apply hk_hs_thash|].
    apply haraka_T_length; auto; lia.
  - intros c k i a d E. cbn [hk_suite hs_thash] in E.
    assert (Ld : forall mem o ip r, hk_thash P junk st fns robust c k a mem o ip = Some r ->
      exists h, all_bytes h /\ wr mem o h = Some r /\ length h = N).
    { clear E. intros mem o ip r E. destruct robust; cbn [hk_thash] in E.
      - unfold hk_thash_robust in E. apply obind in E as (K & EK & E); apply Hany in EK. destruct (k =? 1)%nat.
        + cbv zeta in E. apply obind in E as (b1 & _ & E). apply obind in E as (x & _ & E).
          apply obind in E as (o1 & _ & E). apply obind in E as (b2 & _ & E). apply obind in E as (o2 & E5 & E).
          apply obind in E as (h & E6 & E). exists h. split; [|split; [exact E|now apply rd_length in E6]].
          eapply rd_bytes; [|exact E6]. exact (ha_512 K EK _ _ E5).
        + cbv zeta in E. apply obind in E as (b1 & _ & E). apply obind in E as (x & _ & E).
          apply obind in E as (o1 & _ & E). apply obind in E as (b2 & _ & E). apply obind in E as (x2 & _ & E).
          apply obind in E as (h & E6 & E). exists h. split; [exact (proj1 (ha_S K EK _ _ _ E6))|].
          split; [exact E|exact (proj2 (ha_S K EK _ _ _ E6))].
      - unfold hk_thash_simple in E. apply obind in E as (K & EK & E); apply Hany in EK. destruct (k =? 1)%nat.
        + cbv zeta in E. apply obind in E as (b1 & _ & E). apply obind in E as (b2 & _ & E). apply obind in E as (o2 & E5 & E).
          apply obind in E as (h & E6 & E). exists h. split; [|split; [exact E|now apply rd_length in E6]].
          eapply rd_bytes; [|exact E6]. exact (ha_512 K EK _ _ E5).
        + cbv zeta in E. apply obind in E as (b1 & _ & E). apply obind in E as (b2 & _ & E). apply obind in E as (x2 & _ & E).
          apply obind in E as (h & E6 & E). exists h. split; [exact (proj1 (ha_S K EK _ _ _ E6))|].
          split; [exact E|exact (proj2 (ha_S K EK _ _ _ E6))]. }
    eapply as_value_bytes; [|exact E]. intros mem o ip r F. destruct (Ld _ _ _ _ F) as (h & B & W & L). eauto.
  - intros c a Hc H3. assert (L2 := proj1 (proj2 Hc)). apply hk_ctx in Hc. eexists. split; [now apply hk_prf_ok|].
    unfold haraka_PRF, haraka_PRF_of. rewrite <- map_app. destruct Hc as (Hp & K & E & H).
    apply (h512_len); auto. rewrite app_length. unfold SPX_ADDR_BYTES in H3.
    assert (L2' : length (@c_sk_seed st c) = N) by exact L2. clear - HN H3 L2'. lia.
  - intros c a d E. cbn [hk_suite hs_prf_addr] in E. unfold hk_prf_addr in E.
    apply obind in E as (K & EK & E); apply Hany in EK. cbv zeta in E. apply obind in E as (b1 & _ & E). apply obind in E as (b2 & _ & E).
    apply obind in E as (o & E5 & E). eapply rd_bytes; [|exact E]. exact (ha_512 K EK _ _ E5).
  - intros c s o m Hc H3 H4. apply hk_ctx in Hc. eexists. split; [now apply hk_rand_ok|apply HarakaS_length].
  - intros c s o m d E. cbn [hk_suite hs_gen_message_random] in E. unfold hk_gen_message_random in E.
    apply obind in E as (K & EK & E); apply Hany in EK. cbv zeta in E. apply obind in E as (k1 & _ & E). apply obind in E as (s1 & E1 & E).
    apply obind in E as (k2 & _ & E). apply obind in E as (s2 & E2 & E). apply obind in E as (s3 & E3 & E).
    apply obind in E as (s4 & E4 & E). apply obind in E as ([R s5] & E5 & E). injection E as <-. unfold inc_absorb in *.
    assert (B0 : all_bytes haraka_S_inc_init).
    { unfold haraka_S_inc_init. apply Forall_app. split; [|apply zero_byte]. rewrite <- norm_zeros. apply norm_all. }
    assert (Hb := ha_perm K EK).
    apply (inc_absorb_bytes _ Hb) in E1; [|exact B0]. apply (inc_absorb_bytes _ Hb) in E2; [|exact E1].
    apply (inc_absorb_bytes _ Hb) in E3; [|exact E2]. apply inc_finalize_bytes in E4; [|exact E3].
    now apply (inc_squeeze_bytes _ Hb) in E5.
  - intros c R pk m Hc H1 H2. apply hk_ctx in Hc. assert (Hc' := Hc). destruct Hc as (Hp & K & Er & H).
    destruct (split_digest_range P Hwf (HarakaS (RC c) (norm R ++ norm (skipn N pk) ++ norm m) (SPX_DGST_BYTES P)))
      as (d & t & l & E & L & B & Rt & Rl); [|apply HarakaS_length|].
    { apply (ho_S_bytes K _ H). rewrite <- !map_app. apply norm_all. }
    exists d, t, l. split; [|auto]. cbn [hk_suite hs_hash_message]. rewrite hk_msg_ok by auto. f_equal.
    rewrite <- E. unfold haraka_Hmsg, haraka_Hmsg_of. now rewrite digest_len_P.
  - intros. cbn [hk_suite hs_thash]. unfold as_value. destruct robust; reflexivity.
  - reflexivity.
  - reflexivity.
Qed.
End Haraka.

(** ** The ref build *)
Section Ref.
Variable P : params.
Variable junk : nat -> nat -> Z.
Notation N := (p_n P).
(** A context whose constants are those of its public seed. *)
Definition hctx (c : ctx haraka_st) : Prop :=
  length (c_pub_seed c) = N /\ c_state c = tweak_constants N (c_pub_seed c).
Lemma ref_init ps : length ps = N -> exists K, ref_fns (tweak_constants N ps) = Some K /\ hk_ok K (tweaked_RC (norm ps)).
Proof.
  intros L. destruct (tweak_constants_ok N ps L) as (r5 & r2 & E & H5 & H2). rewrite E.
  eexists. split; [reflexivity|]. constructor; cbn [hk_512 hk_256 hk_S hk_perm].
  - intros x Lx. now apply haraka512_ok.
  - intros x Lx. now apply haraka256_ok.
  - intros n m. now apply haraka_S_norm.
  - intros s Hs. exact (pi512_st r5 _ H5 s Hs).
  - intros x Lx B. now apply (Haraka256_bytes r2 _ x H2 Lx).
Qed.
Lemma ref_any s K : ref_fns s = Some K -> hk_any K.
Proof.
  destruct s as [[r5 r2]|]; [|discriminate]. cbn [ref_fns bind]. intros E. injection E as <-.
  constructor; cbn [hk_512 hk_S hk_perm].
  - intros x d E. exact (haraka512_any _ _ _ E).
  - intros n m d E. split; [exact (haraka_S_any _ (perm512_bytes r5) _ _ _ E)|exact (haraka_S_len _ (perm512_bytes r5) _ _ _ E)].
  - intros x d E. exact (perm512_bytes _ _ _ E).
Qed.
Lemma hctx_g c : hctx c -> gctx P haraka_st ref_fns c.
Proof. intros [L E]. split; [exact L|]. rewrite E. now apply ref_init. Qed.
Hypothesis HN : (1 <= N <= 32)%nat.
Lemma haraka_prf_ok c a : hctx c -> length (c_sk_seed c) = N -> length a = SPX_ADDR_BYTES ->
  haraka_prf_addr P c a = Some (haraka_PRF N (norm (c_pub_seed c)) (norm (c_sk_seed c)) (norm a)).
Proof. intros H. exact (hk_prf_ok P junk HN _ _ c a (hctx_g c H)). Qed.
Lemma hrand_ok c k o m : hctx c -> length k = N -> length o = N ->
  haraka_gen_message_random P c k o m = Some (haraka_PRFmsg N (norm (c_pub_seed c)) (norm k) (norm o) (norm m)).
Proof. intros H. exact (hk_rand_ok P HN _ _ c k o m (hctx_g c H)). Qed.
Theorem haraka_thash_ok robust c k a mem out inp :
  hctx c -> length a = SPX_ADDR_BYTES -> (inp + k * N <= length mem)%nat ->
  haraka_thash P junk robust c k a mem out inp
  = wr mem out (haraka_T N robust (norm (c_pub_seed c)) (norm a) (norm (firstn (k * N) (skipn inp mem)))).
Proof. intros H. exact (hk_thash_ok P junk HN _ _ robust c k a mem out inp (hctx_g c H)). Qed.
Hypothesis Hwf : wf_params P = true.
Lemma hmsg_ok c R pk m : hctx c -> length R = N -> length pk = SPX_PK_BYTES P ->
  haraka_hash_message P c R pk m
  = Some (haraka_Hmsg (dims_of P) (norm (c_pub_seed c)) (norm R) (norm (skipn N pk)) (norm m)).
Proof. intros H. exact (hk_msg_ok P HN _ _ Hwf c R pk m (hctx_g c H)). Qed.
Theorem haraka_hs_thash robust c k i a :
  hctx c -> length a = SPX_ADDR_BYTES -> length i = (k * N)%nat ->
  hs_thash (haraka_suite P junk robust) c k i a = Some (haraka_T N robust (norm (c_pub_seed c)) (norm a) (norm i)).
Proof. intros H. exact (hk_hs_thash P junk HN _ _ Hwf _ robust c k i a (hctx_g c H)). Qed.
Lemma haraka_ctx robust c : ctx_ok P (haraka_suite P junk robust) c -> hctx c.
Proof. clear HN Hwf. intros (H1 & _ & H2). split; [exact H1|exact H2]. Qed.
Theorem haraka_suite_ok robust : suite_ok P (haraka_suite P junk robust).
Proof. exact (hk_suite_ok P junk HN _ _ Hwf _ ref_init ref_any robust). Qed.
End Ref.

(** The same for contents that are bytes. *)
Section HarakaBytes.
Variable P : params.
Variable junk : nat -> nat -> Z.
Notation N := (p_n P).
Hypothesis HN : (1 <= N <= 32)%nat.
Theorem haraka_thash_bytes robust c k addr mem out inp :
  hctx P c -> length addr = SPX_ADDR_BYTES ->
  all_bytes (c_pub_seed c) -> all_bytes addr -> all_bytes mem ->
  (inp + k * N <= length mem)%nat -> (out + N <= length mem)%nat ->
  let d := haraka_T N robust (c_pub_seed c) addr (firstn (k * N) (skipn inp mem)) in
  length d = N
  /\ haraka_thash P junk robust c k addr mem out inp
     = Some (firstn out mem ++ d ++ skipn (out + N) mem).
Proof.
  intros H1 H2 B1 B2 B3 Hi Ho d.
  assert (BM : all_bytes (firstn (k * N) (skipn inp mem))) by (apply all_firstn; now apply Forall_skip).
  assert (Ld : length d = N).
  { unfold d. rewrite <- (norm_bytes (c_pub_seed c)), <- (norm_bytes addr), <- (norm_bytes (firstn _ _)) by auto.
    apply (haraka_T_length P HN haraka_st ref_fns); [now apply hctx_g|exact H2|lia]. }
  split; [exact Ld|].
  rewrite haraka_thash_ok by auto. rewrite !norm_bytes by auto.
  fold d. rewrite wr_ok by lia. now rewrite Ld.
Qed.
Theorem haraka_msg_bytes : wf_params P = true -> forall c R pk m,
  hctx P c -> length R = N -> length pk = SPX_PK_BYTES P -> all_bytes (c_pub_seed c) ->
  all_bytes R -> all_bytes pk -> all_bytes m ->
  haraka_hash_message P c R pk m
  = Some (split_digest_spec (dims_of P)
      (HarakaS (tweaked_RC (c_pub_seed c)) (R ++ skipn N pk ++ m) (SPX_DGST_BYTES P))).
Proof.
  intros Hwf c R pk m H0 H1 H2 B0 B1 B2 B3. rewrite hmsg_ok by auto.
  rewrite !norm_bytes by (auto; now apply Forall_skip).
  unfold haraka_Hmsg, haraka_Hmsg_of. now rewrite digest_len_P.
Qed.
Theorem haraka_prf_bytes c addr :
  hctx P c -> length (c_sk_seed c) = N -> length addr = SPX_ADDR_BYTES ->
  all_bytes (c_pub_seed c) -> all_bytes (c_sk_seed c) -> all_bytes addr ->
  haraka_prf_addr P c addr = Some (haraka_PRF N (c_pub_seed c) (c_sk_seed c) addr).
Proof. intros H1 H2 H3 B1 B2 B3. rewrite haraka_prf_ok by auto. now rewrite !norm_bytes. Qed.
Theorem haraka_rand_bytes c sk_prf optrand m :
  hctx P c -> length sk_prf = N -> length optrand = N -> all_bytes (c_pub_seed c) ->
  all_bytes sk_prf -> all_bytes optrand -> all_bytes m ->
  haraka_gen_message_random P c sk_prf optrand m = Some (haraka_PRFmsg N (c_pub_seed c) sk_prf optrand m).
Proof. intros H1 H2 H3 B0 B1 B2 B3. rewrite hrand_ok by auto. now rewrite !norm_bytes. Qed.
End HarakaBytes.
