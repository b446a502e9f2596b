(** The modelled builds compute the specification with the specification's hash functions. *)
From Verif Require Import Base BaseFacts Params Address Suite AdrsEnc Spec SpecFacts SpecExtW Refine
  HashSpec HarakaHashSpec KeccakSpec SpongeFacts ShakeProofs HashShake HashShakeProofs Sha2Spec Sha2Proofs HashSha2 HashSha2Proofs
  HarakaSpec Haraka HarakaTweak HashHaraka HashHarakaProofs BuildSpec Sign SignProofs ApiProofs ApiProofs2.
#[local] Opaque SHAKE256 SHA256 SHA512 SHA512u HarakaS Haraka512 Haraka256 tweaked_RC tweak_constants seed_state.

Lemma enc_bytes l a : all_bytes (enc l a).
Proof.
  assert (B : forall v k, is_byte (byte_of v k)) by (intros; unfold byte_of, is_byte; apply Z.mod_pos_bound; lia).
  assert (Z0 : is_byte 0) by (unfold is_byte; lia).
  unfold all_bytes. destruct l; unfold enc, be4, be8; cbn [app repeat]; repeat (constructor; [auto|]); constructor.
Qed.
Lemma enc_len l a : length (enc l a) = SPX_ADDR_BYTES.
Proof. destruct l; reflexivity. Qed.

(** Facts about the parameters. *)
Section Facts.
Variable P : params.
Notation N := (p_n P).
Notation D := (dims_of P).
Hypothesis Hwf : wf_params P = true.
Hypothesis HN : (N <= 32)%nat.

Lemma N_pos : (1 <= N)%nat.
Proof. clear - Hwf. unfold wf_params in Hwf. repeat (apply andb_true_iff in Hwf as [Hwf ?]). now apply Nat.leb_le. Qed.

Definition wordN (x : bytes) : Prop := length x = N /\ all_bytes x.
Definition KK : nat := (2 + SPX_WOTS_LEN P + p_ft P)%nat.
Lemma wf_ft : Z.of_nat (p_ft P) <= 2 ^ 32 /\ (SPX_WOTS_LEN P <= 256)%nat.
Proof.
  clear - Hwf. unfold wf_params in Hwf. apply andb_true_iff in Hwf as [H1 H2]. apply Z.leb_le in H2.
  repeat (apply andb_true_iff in H1 as [H1 ?]). split; [|now apply Nat.leb_le].
  assert (1 <= 2 ^ Z.of_nat (p_fh P)) by (assert (0 < 2 ^ Z.of_nat (p_fh P)) by (apply Z.pow_pos_nonneg; lia); lia).
  nia.
Qed.
Lemma good_facts x : goodW wordN KK x -> all_bytes x /\ exists k, length x = (k * N)%nat /\ Z.of_nat (k * N) < 2 ^ 63.
Proof. clear - Hwf HN.
  intros (xs & -> & W & L). split.
  - clear L. induction W as [|y l [_ By] _ IH]; cbn [concat]; [constructor|]. apply Forall_app. split; [exact By|exact IH].
  - exists (length xs). split.
    + clear L. induction W as [|y l [Ly _] _ IH]; cbn [concat length]; [reflexivity|]. rewrite app_length, IH, Ly. reflexivity.
    + pose proof wf_ft as [H1 H2]. unfold KK in L. rewrite Nat2Z.inj_mul.
      assert (Z.of_nat (length xs) <= 2 ^ 33) by lia. assert (0 <= Z.of_nat N <= 32) by lia.
      change (2 ^ 33) with 8589934592 in *. change (2 ^ 63) with 9223372036854775808. nia.
Qed.

Lemma bounds : (2 <= KK)%nat /\ (s_len D <= KK)%nat /\ (s_k D <= KK)%nat.
Proof. clear. unfold KK, s_len, SPX_WOTS_LEN. cbn. lia. Qed.

Lemma blocks_words k : forall b, all_bytes b -> length b = (N * k)%nat ->
  Forall wordN (Spec.blocks N k b) /\ length (Spec.blocks N k b) = k.
Proof. clear.
  induction k as [|k IH]; intros b B L; cbn [Spec.blocks length]; [auto|].
  destruct (IH (skipn N b)) as [W E].
  { apply all_skipn'. exact B. }
  { rewrite skipn_length. lia. }
  split; [|lia]. constructor; [|exact W]. split; [rewrite firstn_length; lia|now apply all_firstn].
Qed.
Lemma zero_len : length (zero_seed P) = N.
Proof. apply repeat_length. Qed.

End Facts.
Lemma code_ctx_ok P HS ps ss : length ps = p_n P -> length ss = p_n P -> ctx_ok P HS (code_ctx HS ps ss).
Proof. clear. intros. repeat split; auto. Qed.

(** ** Code that computes the specification's functions *)
(** The code [HS] returns, on words of n bytes and messages of at most 2^63 - 1 bytes, what the
    specification's functions of the family [f] return. *)
Record computes (f : family) (robust : bool) (P : params) (HS : suite) : Prop := {
  cp_ok : suite_ok P HS;
  cp_T : forall ps a x, wordN P ps -> goodW (wordN P) (KK P) x ->
    codeTh P HS ps a x = spec_T f (p_n P) robust ps a x;
  cp_PRF : forall ps ss a, wordN P ps -> wordN P ss -> codePrf HS ps ss a = spec_PRF f (p_n P) ps ss a;
  cp_Rnd : forall ps k o m, wordN P ps -> wordN P k -> wordN P o -> all_bytes m -> Z.of_nat (length m) < 2 ^ 63 ->
    codeRnd P HS ps k o m = spec_Rnd f (p_n P) ps k o m;
  cp_Hm : forall ps root R m, wordN P ps -> wordN P root -> wordN P R -> all_bytes m -> Z.of_nat (length m) < 2 ^ 63 ->
    codeHm P HS ps R (ps ++ root) m = spec_Hm f (p_n P) (dims_of P) ps R (ps ++ root) m
}.

(** The reference builds. *)
Section Build.
Variable f : family.
Variable robust : bool.
Variable P : params.
Variable junk : nat -> nat -> Z.
Notation N := (p_n P).
Notation D := (dims_of P).
Notation HS := (build f robust P junk).
Notation wordN := (wordN P).
Notation KK := (KK P).
Hypothesis Hwf : wf_params P = true.
Hypothesis HN : (N <= 32)%nat.

Theorem build_ok : suite_ok P HS.
Proof.
  pose proof (N_pos P Hwf). destruct f; cbn [build];
    [apply sha2_suite_ok; auto|apply shake_suite_ok; auto|apply haraka_suite_ok; auto; lia].
Qed.

(** The four functions *)
Lemma Th_ok ps a x : wordN ps -> goodW wordN KK x -> codeTh P HS ps a x = spec_T f N robust ps a x.
Proof.
  intros [Lp Bp] G. destruct (good_facts P Hwf HN _ G) as (Bx & k & Lx & Hk). pose proof (N_pos P Hwf) as Hp.
  assert (Ek : (length x / N = k)%nat) by (rewrite Lx; apply Nat.div_mul; lia).
  unfold codeTh, codeT. rewrite Ek.
  assert (Be := enc_bytes (hs_layout HS) a). assert (Le := enc_len (hs_layout HS) a).
  pose proof (code_ctx_ok P HS ps (zero_seed P) Lp (zero_len P)) as Hc.
  destruct f; cbn [build spec_T] in *.
  - change (hs_layout (sha2_suite P junk robust)) with LSha2. rewrite (sha2_hs_thash P junk HN Hwf robust (code_ctx (sha2_suite P junk robust) ps (zero_seed P)) k x (enc LSha2 a) Hc Le Lx). cbn [opt_bytes code_ctx c_pub_seed].
    rewrite !norm_bytes by (try apply all_firstn; auto). apply sha2_T_eq; auto. lia.
  - change (hs_layout (shake_suite P junk robust)) with LShake. rewrite (shake_hs_thash P junk Hwf robust (code_ctx (shake_suite P junk robust) ps (zero_seed P)) k x (enc LShake a) Lp Le Lx). cbn [opt_bytes code_ctx c_pub_seed].
    now rewrite !norm_bytes by auto.
  - apply haraka_ctx in Hc. change (hs_layout (haraka_suite P junk robust)) with LShake.
    rewrite (haraka_hs_thash P junk (conj Hp HN) Hwf robust (code_ctx (haraka_suite P junk robust) ps (zero_seed P)) k x (enc LShake a) Hc Le Lx). cbn [opt_bytes code_ctx c_pub_seed].
    now rewrite !norm_bytes by auto.
Qed.
Lemma Prf_ok ps ss a : wordN ps -> wordN ss -> codePrf HS ps ss a = spec_PRF f N ps ss a.
Proof.
  intros [Lp Bp] [Ls Bs]. pose proof (N_pos P Hwf) as Hp.
  assert (Be := enc_bytes (hs_layout HS) a). assert (Le := enc_len (hs_layout HS) a).
  pose proof (code_ctx_ok P HS ps ss Lp Ls) as Hc.
  unfold codePrf, codePRF. destruct f; cbn [build spec_PRF] in *.
  - cbn [sha2_suite hs_prf_addr hs_layout] in *. now rewrite (sha2_prf_bytes P junk HN robust (code_ctx (sha2_suite P junk robust) ps ss) (enc LSha2 a) Hc Le Bp Bs Be).
  - cbn [shake_suite hs_prf_addr hs_layout] in *. now rewrite (shake_prf_bytes P junk (code_ctx (shake_suite P junk robust) ps ss) (enc LShake a) Lp Ls Le Bp Bs Be).
  - apply haraka_ctx in Hc. change (hs_layout (haraka_suite P junk robust)) with LShake. change (hs_prf_addr (haraka_suite P junk robust)) with (haraka_prf_addr P).
     change (hs_layout (haraka_suite P junk robust)) with LShake in Le, Be.
      now rewrite (haraka_prf_bytes P junk (conj Hp HN) (code_ctx (haraka_suite P junk robust) ps ss) (enc LShake a) Hc Ls Le Bp Bs Be).
Qed.
Lemma Rnd_ok ps k o m : wordN ps -> wordN k -> wordN o -> all_bytes m -> Z.of_nat (length m) < 2 ^ 63 ->
  codeRnd P HS ps k o m = spec_Rnd f N ps k o m.
Proof.
  intros [Lp Bp] [Lk Bk] [Lo Bo] Bm Lm. pose proof (N_pos P Hwf) as Hp.
  pose proof (code_ctx_ok P HS ps (zero_seed P) Lp (zero_len P)) as Hc.
  unfold codeRnd. destruct f; cbn [build spec_Rnd] in *.
  - cbn [sha2_suite hs_gen_message_random]. now rewrite sha2_rand_bytes by auto.
  - cbn [shake_suite hs_gen_message_random]. now rewrite shake_rand_bytes by auto.
  - apply haraka_ctx in Hc. change (hs_gen_message_random (haraka_suite P junk robust)) with (haraka_gen_message_random P).
      now rewrite (haraka_rand_bytes P (conj Hp HN) (code_ctx (haraka_suite P junk robust) ps (zero_seed P)) k o m Hc Lk Lo Bp Bk Bo Bm).
Qed.
Lemma Hm_ok ps root R m : wordN ps -> wordN root -> wordN R -> all_bytes m -> Z.of_nat (length m) < 2 ^ 63 ->
  codeHm P HS ps R (ps ++ root) m = spec_Hm f N D ps R (ps ++ root) m.
Proof.
  intros [Lp Bp] [Lr Br] [LR BR] Bm Lm. pose proof (N_pos P Hwf) as Hp.
  pose proof (code_ctx_ok P HS ps (zero_seed P) Lp (zero_len P)) as Hc.
  assert (Lpk : length (ps ++ root) = SPX_PK_BYTES P) by (rewrite app_length; unfold SPX_PK_BYTES; lia).
  assert (Bpk : all_bytes (ps ++ root)) by (apply Forall_app; auto).
  unfold codeHm. destruct f; cbn [build spec_Hm] in *.
  - cbn [sha2_suite hs_hash_message]. now rewrite sha2_msg_bytes by auto.
  - cbn [shake_suite hs_hash_message]. rewrite shake_msg_bytes by auto. unfold shake_Hmsg. do 2 f_equal.
    symmetry. apply digest_len_P.
  - apply haraka_ctx in Hc. change (hs_hash_message (haraka_suite P junk robust)) with (haraka_hash_message P).
    rewrite (haraka_msg_bytes P (conj Hp HN) Hwf (code_ctx (haraka_suite P junk robust) ps (zero_seed P)) R (ps ++ root) m Hc LR Lpk Bp BR Bpk Bm).
    cbn [code_ctx c_pub_seed]. unfold haraka_Hmsg, haraka_Hmsg_of. do 2 f_equal. symmetry. apply digest_len_P.
Qed.

Theorem build_computes : computes f robust P HS.
Proof. constructor; [exact build_ok|exact Th_ok|exact Prf_ok|exact Rnd_ok|exact Hm_ok]. Qed.
End Build.

(** ** The scheme *)
Section Any.
Variable f : family.
Variable robust : bool.
Variable P : params.
Variable HS : suite.
Notation N := (p_n P).
Notation D := (dims_of P).
Notation wordN := (wordN P).
Notation KK := (KK P).
Hypothesis Hwf : wf_params P = true.
Hypothesis HN : (N <= 32)%nat.
Hypothesis HC : computes f robust P HS.

Lemma any_Th ps a x : wordN ps -> goodW wordN KK x -> codeTh P HS ps a x = spec_T f N robust ps a x.
Proof. apply (cp_T _ _ _ _ HC). Qed.
Lemma any_Th_word ps a x : wordN ps -> goodW wordN KK x -> wordN (codeTh P HS ps a x).
Proof.
  intros [Lp Bp] G. destruct (good_facts P Hwf HN _ G) as (Bx & k & Lx & Hk). pose proof (N_pos P Hwf) as Hp.
  assert (Ek : (length x / N = k)%nat) by (rewrite Lx; apply Nat.div_mul; lia).
  unfold codeTh, codeT. rewrite Ek. pose proof (cp_ok _ _ _ _ HC) as Hok.
  destruct (ok_thash _ _ Hok (code_ctx HS ps (zero_seed P)) k x (enc (hs_layout HS) a)) as (d & E & L);
    [apply code_ctx_ok; auto using zero_len|exact Lx|apply enc_len|].
  rewrite E. cbn [opt_bytes]. split; [exact L|]. exact (ok_thash_bytes _ _ Hok _ _ _ _ _ E).
Qed.
Lemma any_Prf ps ss a : wordN ps -> wordN ss -> codePrf HS ps ss a = spec_PRF f N ps ss a /\ wordN (codePrf HS ps ss a).
Proof.
  intros Wp Ws. split; [now apply (cp_PRF _ _ _ _ HC)|]. destruct Wp as [Lp Bp], Ws as [Ls Bs].
  pose proof (code_ctx_ok P HS ps ss Lp Ls) as Hc. pose proof (cp_ok _ _ _ _ HC) as Hok. unfold codePrf, codePRF.
  destruct (ok_prf _ _ Hok (code_ctx HS ps ss) (enc (hs_layout HS) a) Hc (enc_len _ _)) as (d & E & L).
  rewrite E. cbn [opt_bytes]. split; [exact L|]. exact (ok_prf_bytes _ _ Hok _ _ _ E).
Qed.
Lemma any_Rnd ps k o m : wordN ps -> wordN k -> wordN o -> all_bytes m -> Z.of_nat (length m) < 2 ^ 63 ->
  codeRnd P HS ps k o m = spec_Rnd f N ps k o m /\ wordN (codeRnd P HS ps k o m).
Proof.
  intros Wp Wk Wo Bm Lm. split; [now apply (cp_Rnd _ _ _ _ HC)|]. destruct Wp as [Lp Bp], Wk as [Lk Bk], Wo as [Lo Bo].
  pose proof (code_ctx_ok P HS ps (zero_seed P) Lp (zero_len P)) as Hc. pose proof (cp_ok _ _ _ _ HC) as Hok.
  unfold codeRnd. destruct (ok_rand _ _ Hok (code_ctx HS ps (zero_seed P)) k o m Hc Lk Lo) as (d & E & L).
  rewrite E. cbn [opt_bytes]. split; [exact L|]. exact (ok_rand_bytes _ _ Hok _ _ _ _ _ E).
Qed.
Definition any_Hm := cp_Hm _ _ _ _ HC.

Theorem any_root ss ps : wordN ss -> wordN ps ->
  ht_root D (codeTh P HS ps) (codePrf HS ps ss) = ht_root D (spec_T f N robust ps) (spec_PRF f N ps ss).
Proof.
  intros Ws Wp. destruct (bounds P) as (B1 & B2 & B3).
  apply (ht_rootW D wordN KK); auto.
  - intros. now apply any_Th.
  - intros. now apply any_Th_word.
  - intros. now apply any_Prf.
  - intros. now apply any_Prf.
Qed.
Theorem any_root_word ss ps : wordN ss -> wordN ps ->
  wordN (ht_root D (spec_T f N robust ps) (spec_PRF f N ps ss)).
Proof.
  intros Ws Wp. rewrite <- any_root by auto. destruct (bounds P) as (B1 & B2 & B3).
  apply (ht_rootW D wordN KK) with (T' := spec_T f N robust ps) (PRF' := spec_PRF f N ps ss); auto.
  - intros. now apply any_Th.
  - intros. now apply any_Th_word.
  - intros. now apply any_Prf.
  - intros. now apply any_Prf.
Qed.
Theorem any_sign ss k ps root o m : wordN ss -> wordN k -> wordN ps -> wordN root -> wordN o ->
  all_bytes m -> Z.of_nat (length m) < 2 ^ 63 ->
  spx_sign D (codeTh P HS) (codePrf HS) (codeRnd P HS) (codeHm P HS) ss k ps root o m
  = spx_sign D (spec_T f N robust) (spec_PRF f N) (spec_Rnd f N) (spec_Hm f N D) ss k ps root o m.
Proof.
  intros Ws Wk Wp Wr Wo Bm Lm. destruct (bounds P) as (B1 & B2 & B3).
  unfold spx_sign. destruct (any_Rnd ps k o m Wp Wk Wo Bm Lm) as [ER WR]. rewrite ER in WR. rewrite ER.
  rewrite (any_Hm ps root _ m Wp Wr WR Bm Lm).
  destruct (spec_Hm f N D ps (spec_Rnd f N ps k o m) (ps ++ root) m) as [[md tree] leaf].
  do 2 f_equal. apply (spx_sign_bodyW D wordN KK); auto.
  - intros. now apply any_Th.
  - intros. now apply any_Th_word.
  - intros. now apply any_Prf.
  - intros. now apply any_Prf.
Qed.
Theorem any_verify ps root m sig : wordN ps -> wordN root -> all_bytes sig -> all_bytes m ->
  Z.of_nat (length m) < 2 ^ 63 ->
  spx_verify D (codeTh P HS) (codeHm P HS) ps root m sig
  <-> spx_verify D (spec_T f N robust) (spec_Hm f N D) ps root m sig.
Proof.
  intros Wp Wr Bs Bm Lm. destruct (bounds P) as (B1 & B2 & B3).
  assert (E : length sig = spx_sig_bytes D ->
    (spx_accepts D (codeTh P HS) (codeHm P HS) ps root m (firstn N sig) (Spec.blocks N (spx_nblocks D) (skipn N sig))
     <-> spx_accepts D (spec_T f N robust) (spec_Hm f N D) ps root m (firstn N sig) (Spec.blocks N (spx_nblocks D) (skipn N sig)))).
  { intros L. unfold spx_sig_bytes in L. cbn [dims_of s_n] in L.
    destruct (blocks_words P (spx_nblocks D) (skipn N sig)) as [W Lb]; [now apply all_skipn'|rewrite skipn_length; cbn [dims_of s_n]; lia|].
    unfold spx_accepts. rewrite (any_Hm ps root (firstn N sig) m Wp Wr); auto.
    2:{ split; [rewrite firstn_length; nia|now apply all_firstn]. }
    destruct (spec_Hm f N D ps (firstn N sig) (ps ++ root) m) as [[md tree] leaf].
    rewrite (spx_root_of_sigW D wordN KK B1 B2 B3 (codeTh P HS ps) (spec_T f N robust ps)); [reflexivity| | | |].
    - intros. now apply any_Th.
    - intros. now apply any_Th_word.
    - exact W.
    - lia. }
  unfold spx_verify. cbn [dims_of s_n] in *. tauto.
Qed.

Lemma part_word b o : all_bytes b -> (o + N <= length b)%nat -> wordN (firstn N (skipn o b)).
Proof. clear. intros B L. split; [rewrite firstn_length, skipn_length; lia|apply all_firstn, all_skipn', B]. Qed.
Lemma head_word b : all_bytes b -> (N <= length b)%nat -> wordN (firstn N b).
Proof. clear. intros B L. split; [rewrite firstn_length; lia|apply all_firstn, B]. Qed.

Theorem any_keygen seed : length seed = CRYPTO_SEEDBYTES P -> all_bytes seed ->
  let ss := firstn N seed in
  let ps := skipn (2 * N) seed in
  let root := ht_root D (spec_T f N robust ps) (spec_PRF f N ps ss) in
  length root = N /\ forall junk pk0 sk0,
    (SPX_PK_BYTES P <= length pk0)%nat -> (SPX_SK_BYTES P <= length sk0)%nat ->
    crypto_sign_seed_keypair P HS junk pk0 sk0 seed
    = Some (0, ps ++ root ++ skipn (SPX_PK_BYTES P) pk0, seed ++ root ++ skipn (SPX_SK_BYTES P) sk0).
Proof.
  intros L B ss ps root. unfold CRYPTO_SEEDBYTES in L.
  assert (Ws : wordN ss) by (apply head_word; auto; lia).
  assert (Wp : wordN ps) by (split; [unfold ps; rewrite skipn_length; lia|apply all_skipn', B]).
  assert (E : ht_root D (codeTh P HS ps) (codePrf HS ps ss) = root) by (now apply any_root).
  destruct (keygen_function P HS Hwf (cp_ok _ _ _ _ HC) seed L) as (r & Er & Lr & G).
  fold ss ps in Er. rewrite E in Er. subst r. split; [exact Lr|]. intros junk pk0 sk0 H1 H2. now apply G.
Qed.
Theorem any_signature junk stream sig0 m sk :
  (SPX_SK_BYTES P <= length sk)%nat -> (N <= length stream)%nat -> (SPX_BYTES P <= length sig0)%nat ->
  all_bytes sk -> all_bytes stream -> all_bytes m -> Z.of_nat (length m) < 2 ^ 63 ->
  let s := spx_sign D (spec_T f N robust) (spec_PRF f N) (spec_Rnd f N) (spec_Hm f N D)
             (firstn N sk) (firstn N (skipn N sk)) (firstn N (skipn (2 * N) sk))
             (firstn N (skipn (3 * N) sk)) (firstn N stream) m in
  crypto_sign_signature P HS junk stream sig0 m sk
  = Some (0, s ++ skipn (SPX_BYTES P) sig0, Z.of_nat (SPX_BYTES P), skipn N stream)
  /\ length s = SPX_BYTES P.
Proof.
  intros L1 L2 L3 B1 B2 B3 Lm s. unfold SPX_SK_BYTES, SPX_PK_BYTES in L1.
  destruct (signature_spec P HS Hwf (cp_ok _ _ _ _ HC) junk stream sig0 m sk) as [E L];
    [unfold SPX_SK_BYTES, SPX_PK_BYTES; lia|exact L2|exact L3|].
  rewrite any_sign in E, L; try (apply part_word; auto; lia); try (apply head_word; auto; lia); auto.
Qed.
Theorem any_verification junk sig siglen m pk :
  (siglen = Z.of_nat (SPX_BYTES P) -> (SPX_BYTES P <= length sig)%nat) -> (SPX_PK_BYTES P <= length pk)%nat ->
  all_bytes sig -> all_bytes pk -> all_bytes m -> Z.of_nat (length m) < 2 ^ 63 ->
  exists r, crypto_sign_verify P HS junk sig siglen m pk = Some r /\ (r = 0 \/ r = -1)
    /\ (r = 0 <-> siglen = Z.of_nat (SPX_BYTES P)
          /\ spx_verify D (spec_T f N robust) (spec_Hm f N D) (firstn N pk) (firstn N (skipn N pk)) m
               (firstn (SPX_BYTES P) sig)).
Proof.
  intros L1 L2 B1 B2 B3 Lm. unfold SPX_PK_BYTES in L2.
  destruct (verify_total P HS Hwf (cp_ok _ _ _ _ HC) junk sig siglen m pk) as (r & E & R & I);
    [exact L1|unfold SPX_PK_BYTES; lia|].
  exists r. split; [exact E|]. split; [exact R|].
  rewrite any_verify in I; auto.
  - apply head_word; auto; lia.
  - apply part_word; auto; lia.
  - now apply all_firstn.
Qed.
End Any.

(** Keys, signature and verification with three pieces of code for the same functions. *)
Theorem any_honest f robust P : wf_params P = true -> (p_n P <= 32)%nat ->
  forall HS1 HS2 HS3, computes f robust P HS1 -> computes f robust P HS2 -> computes f robust P HS3 ->
  forall junk1 junk2 junk3 pk0 sk0 sig0 seed stream m,
  length seed = CRYPTO_SEEDBYTES P -> (p_n P <= length stream)%nat ->
  (SPX_PK_BYTES P <= length pk0)%nat -> (SPX_SK_BYTES P <= length sk0)%nat ->
  (SPX_BYTES P <= length sig0)%nat ->
  all_bytes seed -> all_bytes stream -> all_bytes sk0 -> all_bytes m -> Z.of_nat (length m) < 2 ^ 63 ->
  exists pk sk sig stream',
    crypto_sign_seed_keypair P HS1 junk1 pk0 sk0 seed = Some (0, pk, sk)
    /\ crypto_sign_signature P HS2 junk2 stream sig0 m sk = Some (0, sig, crypto_sign_bytes P, stream')
    /\ crypto_sign_verify P HS3 junk3 sig (crypto_sign_bytes P) m pk = Some 0.
Proof.
  intros Hwf HN HS1 HS2 HS3 C1 C2 C3 junk1 junk2 junk3 pk0 sk0 sig0 seed stream m L1 L2 L3 L4 L5 B1 B2 B3 B4 Lm.
  destruct (keypair_sign_verify P HS3 Hwf (cp_ok _ _ _ _ C3)
    junk1 junk2 junk3 pk0 sk0 sig0 seed stream m L1 L2 L3 L4 L5) as (pk & sk & sig & st & E1 & E2 & E3).
  destruct (any_keygen f robust P HS3 Hwf HN C3 seed L1 B1) as [Lr K3]. specialize (K3 junk1 pk0 sk0 L3 L4).
  destruct (any_keygen f robust P HS1 Hwf HN C1 seed L1 B1) as [_ K1]. specialize (K1 junk1 pk0 sk0 L3 L4).
  rewrite E1 in K3. rewrite <- K3 in K1.
  exists pk, sk, sig, st. split; [exact K1|]. split; [|exact E3].
  assert (Hsk : sk = seed ++ ht_root (dims_of P) (spec_T f (p_n P) robust (skipn (2 * p_n P) seed))
     (spec_PRF f (p_n P) (skipn (2 * p_n P) seed) (firstn (p_n P) seed)) ++ skipn (SPX_SK_BYTES P) sk0) by congruence.
  assert (LS : (SPX_SK_BYTES P <= length sk)%nat).
  { rewrite Hsk, !app_length, Lr, L1, skipn_length. unfold CRYPTO_SEEDBYTES, SPX_SK_BYTES, SPX_PK_BYTES. lia. }
  assert (BS : all_bytes sk).
  { rewrite Hsk. apply Forall_app; split; [exact B1|]. apply Forall_app; split; [|apply all_skipn', B3].
    apply (any_root_word f robust P HS3 Hwf HN C3).
    - apply head_word; auto. rewrite L1. unfold CRYPTO_SEEDBYTES. lia.
    - split; [rewrite skipn_length, L1; unfold CRYPTO_SEEDBYTES; lia|apply all_skipn', B1]. }
  destruct (any_signature f robust P HS3 Hwf HN C3 junk2 stream sig0 m sk LS L2 L5 BS B2 B4 Lm) as [S3 _].
  destruct (any_signature f robust P HS2 Hwf HN C2 junk2 stream sig0 m sk LS L2 L5 BS B2 B4 Lm) as [S2 _].
  rewrite S2, <- S3. exact E2.
Qed.

(** ** The reference builds *)
Section BuildApi.
Variable f : family.
Variable robust : bool.
Variable P : params.
Notation N := (p_n P).
Notation D := (dims_of P).
Notation SB := (SPX_BYTES P).
Hypothesis Hwf : wf_params P = true.
Hypothesis HN : (N <= 32)%nat.
Notation CP jh := (build_computes f robust P jh Hwf HN).

Theorem build_root_word ss ps : wordN P ss -> wordN P ps ->
  wordN P (ht_root D (spec_T f N robust ps) (spec_PRF f N ps ss)).
Proof. exact (any_root_word f robust P _ Hwf HN (CP (fun _ _ => 0)) ss ps). Qed.
Theorem build_verify jh ps root m sig : wordN P ps -> wordN P root -> all_bytes sig -> all_bytes m ->
  Z.of_nat (length m) < 2 ^ 63 ->
  spx_verify D (codeTh P (build f robust P jh)) (codeHm P (build f robust P jh)) ps root m sig
  <-> spx_verify D (spec_T f N robust) (spec_Hm f N D) ps root m sig.
Proof. exact (any_verify f robust P _ Hwf HN (CP jh) ps root m sig). Qed.
Theorem build_keygen seed : length seed = CRYPTO_SEEDBYTES P -> all_bytes seed ->
  let ss := firstn N seed in
  let ps := skipn (2 * N) seed in
  let root := ht_root D (spec_T f N robust ps) (spec_PRF f N ps ss) in
  length root = N /\ forall jh junk pk0 sk0,
    (SPX_PK_BYTES P <= length pk0)%nat -> (SPX_SK_BYTES P <= length sk0)%nat ->
    crypto_sign_seed_keypair P (build f robust P jh) junk pk0 sk0 seed
    = Some (0, ps ++ root ++ skipn (SPX_PK_BYTES P) pk0, seed ++ root ++ skipn (SPX_SK_BYTES P) sk0).
Proof.
  intros L B ss ps root. split; [exact (proj1 (any_keygen f robust P _ Hwf HN (CP (fun _ _ => 0)) seed L B))|].
  intros jh. exact (proj2 (any_keygen f robust P _ Hwf HN (CP jh) seed L B)).
Qed.
Theorem build_signature jh junk stream sig0 m sk :
  (SPX_SK_BYTES P <= length sk)%nat -> (N <= length stream)%nat -> (SB <= length sig0)%nat ->
  all_bytes sk -> all_bytes stream -> all_bytes m -> Z.of_nat (length m) < 2 ^ 63 ->
  let s := spx_sign D (spec_T f N robust) (spec_PRF f N) (spec_Rnd f N) (spec_Hm f N D)
             (firstn N sk) (firstn N (skipn N sk)) (firstn N (skipn (2 * N) sk))
             (firstn N (skipn (3 * N) sk)) (firstn N stream) m in
  crypto_sign_signature P (build f robust P jh) junk stream sig0 m sk
  = Some (0, s ++ skipn SB sig0, Z.of_nat SB, skipn N stream)
  /\ length s = SB.
Proof. exact (any_signature f robust P _ Hwf HN (CP jh) junk stream sig0 m sk). Qed.
Theorem build_verification jh junk sig siglen m pk :
  (siglen = Z.of_nat SB -> (SB <= length sig)%nat) -> (SPX_PK_BYTES P <= length pk)%nat ->
  all_bytes sig -> all_bytes pk -> all_bytes m -> Z.of_nat (length m) < 2 ^ 63 ->
  exists r, crypto_sign_verify P (build f robust P jh) junk sig siglen m pk = Some r /\ (r = 0 \/ r = -1)
    /\ (r = 0 <-> siglen = Z.of_nat SB
          /\ spx_verify D (spec_T f N robust) (spec_Hm f N D) (firstn N pk) (firstn N (skipn N pk)) m
               (firstn SB sig)).
Proof. exact (any_verification f robust P _ Hwf HN (CP jh) junk sig siglen m pk). Qed.
Theorem build_honest jh1 jh2 jh3 junk1 junk2 junk3 pk0 sk0 sig0 seed stream m :
  length seed = CRYPTO_SEEDBYTES P -> (N <= length stream)%nat ->
  (SPX_PK_BYTES P <= length pk0)%nat -> (SPX_SK_BYTES P <= length sk0)%nat ->
  (SB <= length sig0)%nat ->
  all_bytes seed -> all_bytes stream -> all_bytes sk0 -> all_bytes m -> Z.of_nat (length m) < 2 ^ 63 ->
  exists pk sk sig stream',
    crypto_sign_seed_keypair P (build f robust P jh1) junk1 pk0 sk0 seed = Some (0, pk, sk)
    /\ crypto_sign_signature P (build f robust P jh2) junk2 stream sig0 m sk
       = Some (0, sig, crypto_sign_bytes P, stream')
    /\ crypto_sign_verify P (build f robust P jh3) junk3 sig (crypto_sign_bytes P) m pk = Some 0.
Proof.
  exact (any_honest f robust P Hwf HN _ _ _ (CP jh1) (CP jh2) (CP jh3) junk1 junk2 junk3 pk0 sk0 sig0 seed stream m).
Qed.
End BuildApi.
