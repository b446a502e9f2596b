(** Consequences of the refinement for the public API. *)
From Verif Require Import Base BaseFacts Params Address Suite Utils Wots Fors Merkle Sign
  Spec SpecFacts SpecExt AdrsEnc
  AddressProofs Refine TreeProofs WotsDigitsProofs WotsProofs ForsProofs MerkleProofs SignProofs.

Lemma blocks_chunks n k b : length b = (n * k)%nat ->
  chunks_of n (blocks n k b) /\ length (blocks n k b) = k /\ concat (blocks n k b) = b.
Proof.
  revert b. induction k as [|k IH]; intros b Hb; cbn [blocks].
  - replace b with (@nil Z). { repeat split; constructor. }
    destruct b; auto. cbn in Hb. lia.
  - destruct (IH (skipn n b)) as (H1 & H2 & H3). { rewrite skipn_length. lia. }
    repeat split.
    + constructor; auto. rewrite firstn_length. lia.
    + cbn. now rewrite H2.
    + cbn [concat]. rewrite H3. apply firstn_skipn.
Qed.

Lemma blocks_concat n cs : chunks_of n cs -> blocks n (length cs) (concat cs) = cs.
Proof.
  induction 1 as [|c cs Hc Hcs IH]; cbn [blocks length concat]; auto.
  rewrite firstn_app_len, skipn_app_len by auto. now rewrite IH.
Qed.

Section Api.
Variable P : params.
Variable HS : suite.
Notation N := (p_n P).
Notation D := (dims_of P).
Hypothesis Hwf : wf_params P = true.
Hypothesis Hok : suite_ok P HS.
Notation Th := (codeTh P HS).
Notation Prf := (codePrf HS).
Notation Rnd := (codeRnd P HS).
Notation Hm := (codeHm P HS).

Lemma sig_bytes_eq : spx_sig_bytes D = SPX_BYTES P.
Proof. clear - Hwf.
  unfold spx_sig_bytes, spx_nblocks. rewrite (spx_bytes_eq P Hwf).
  unfold SPX_FORS_BYTES, SPX_WOTS_BYTES, s_len. cbn [s_n s_k s_a s_d s_hp s_len1 s_len2 dims_of].
  unfold SPX_WOTS_LEN. ring.
Qed.

(** Verification of any buffer of at least SPX_BYTES bytes. *)
Theorem verify_spec junk sig m pk :
  (SPX_BYTES P <= length sig)%nat -> (SPX_PK_BYTES P <= length pk)%nat ->
  exists r,
    crypto_sign_verify P HS junk sig (Z.of_nat (SPX_BYTES P)) m pk = Some r
    /\ (r = 0 \/ r = -1)
    /\ (r = 0 <-> spx_verify D Th Hm (firstn N pk) (firstn N (skipn N pk)) m
                    (firstn (SPX_BYTES P) sig)).
Proof.
  intros Hs Hpk. unfold SPX_PK_BYTES in Hpk.
  set (s := firstn (SPX_BYTES P) sig).
  assert (Ls : length s = SPX_BYTES P) by (unfold s; rewrite firstn_length; lia).
  pose proof sig_bytes_eq as HB.
  assert (HN : (N <= SPX_BYTES P)%nat).
  { rewrite <- HB. unfold spx_sig_bytes. cbn [s_n dims_of]. rewrite Nat.mul_add_distr_l. lia. }
  destruct (blocks_chunks N (spx_nblocks D) (skipn N s)) as (B1 & B2 & B3).
  { rewrite skipn_length, Ls, <- HB. unfold spx_sig_bytes. cbn [s_n dims_of]. lia. }
  destruct (verify_ok P HS junk Hwf Hok (firstn N s) (blocks N (spx_nblocks D) (skipn N s))
              (skipn (SPX_BYTES P) sig) m (firstn N pk) (firstn N (skipn N pk))
              (skipn N (skipn N pk))) as (r & E & Hr & Hiff).
  - rewrite firstn_length. lia.
  - exact B1.
  - rewrite B3, skipn_length. lia.
  - rewrite firstn_length. lia.
  - rewrite firstn_length, skipn_length. lia.
  - exists r. rewrite B3 in E. rewrite (app_assoc (firstn N s)), !firstn_skipn in E.
    unfold s in E at 1. rewrite firstn_skipn in E.
    split; [exact E|]. split; [exact Hr|]. rewrite Hiff.
    unfold spx_verify. cbn [s_n dims_of]. fold s. rewrite Ls, HB. tauto.
Qed.

Theorem verify_total junk sig siglen m pk :
  (siglen = Z.of_nat (SPX_BYTES P) -> (SPX_BYTES P <= length sig)%nat) ->
  (SPX_PK_BYTES P <= length pk)%nat ->
  exists r, crypto_sign_verify P HS junk sig siglen m pk = Some r /\ (r = 0 \/ r = -1)
    /\ (r = 0 <-> siglen = Z.of_nat (SPX_BYTES P)
                  /\ spx_verify D Th Hm (firstn N pk) (firstn N (skipn N pk)) m
                       (firstn (SPX_BYTES P) sig)).
Proof.
  intros Hs Hpk. destruct (Z.eq_dec siglen (Z.of_nat (SPX_BYTES P))) as [->|Hne].
  - destruct (verify_spec junk sig m pk) as (r & E & Hr & Hi); auto.
    exists r. repeat split; try tauto; apply Hi; tauto.
  - exists (-1). rewrite verify_wrong_length by auto. repeat split; auto; try lia; tauto.
Qed.

(** The verdict does not depend on uninitialised memory, nor on anything beyond the first
    SPX_BYTES bytes of the signature and the first SPX_PK_BYTES bytes of the key. *)
Theorem verify_indep junk1 junk2 sig1 sig2 siglen m pk1 pk2 :
  (SPX_BYTES P <= length sig1)%nat -> (SPX_BYTES P <= length sig2)%nat ->
  (SPX_PK_BYTES P <= length pk1)%nat -> (SPX_PK_BYTES P <= length pk2)%nat ->
  firstn (SPX_BYTES P) sig1 = firstn (SPX_BYTES P) sig2 ->
  firstn (SPX_PK_BYTES P) pk1 = firstn (SPX_PK_BYTES P) pk2 ->
  crypto_sign_verify P HS junk1 sig1 siglen m pk1 = crypto_sign_verify P HS junk2 sig2 siglen m pk2.
Proof.
  intros Hs1 Hs2 Hp1 Hp2 Es Ep.
  destruct (verify_total junk1 sig1 siglen m pk1 (fun _ => Hs1) Hp1) as (r1 & E1 & R1 & I1).
  destruct (verify_total junk2 sig2 siglen m pk2 (fun _ => Hs2) Hp2) as (r2 & E2 & R2 & I2).
  assert (firstn N pk1 = firstn N pk2 /\ firstn N (skipn N pk1) = firstn N (skipn N pk2)) as (A1 & A2).
  { unfold SPX_PK_BYTES in Ep. split.
    - apply (f_equal (firstn N)) in Ep. rewrite !firstn_firstn in Ep.
      now replace (Nat.min N (2 * N)) with N in Ep by lia.
    - apply (f_equal (skipn N)) in Ep. rewrite !skipn_firstn_comm in Ep.
      now replace (2 * N - N)%nat with N in Ep by lia. }
  rewrite A1, A2, Es in I1. rewrite E1, E2. f_equal.
  destruct R1, R2; subst; auto; exfalso; [assert (-1 = 0) by tauto|assert (-1 = 0) by tauto]; lia.
Qed.

(** ** Opening *)
Theorem open_spec junk m0 sm smlen pk :
  0 <= smlen -> smlen <= Z.of_nat (length sm) -> smlen <= Z.of_nat (length m0) ->
  (SPX_PK_BYTES P <= length pk)%nat ->
  let SB := SPX_BYTES P in
  let msg := firstn (Z.to_nat smlen - SB) (skipn SB sm) in
  let good := Z.of_nat SB <= smlen
    /\ crypto_sign_verify P HS junk (firstn SB sm) (Z.of_nat SB) msg pk = Some 0 in
  (good -> crypto_sign_open P HS junk m0 sm smlen pk
           = Some (0, msg ++ skipn (Z.to_nat smlen - SB) m0, smlen - Z.of_nat SB))
  /\ (~ good -> crypto_sign_open P HS junk m0 sm smlen pk
           = Some (-1, repeat 0 (Z.to_nat smlen) ++ skipn (Z.to_nat smlen) m0, 0)).
Proof.
  intros H0 H1 H2 Hpk SB msg good. unfold good, crypto_sign_open. fold SB.
  assert (Hfail : wr m0 0 (repeat 0 (Z.to_nat smlen))
                  = Some (repeat 0 (Z.to_nat smlen) ++ skipn (Z.to_nat smlen) m0)).
  { rewrite <- (firstn_skipn (Z.to_nat smlen) m0) at 1.
    apply wr_app0. rewrite repeat_length, firstn_length. lia. }
  destruct (Z.ltb_spec smlen (Z.of_nat SB)) as [Hlt|Hge].
  - split; [intros (? & _); lia|intros _]. rewrite Hfail. reflexivity.
  - replace (Z.to_nat (smlen - Z.of_nat SB)) with (Z.to_nat smlen - SB)%nat by lia.
    rewrite rd_ok by lia. cbn [bind skipn].
    rewrite rd_ok by lia. cbn [bind]. fold msg.
    destruct (verify_spec junk (firstn SB sm) msg pk) as (r & E & Hr & _); auto.
    { rewrite firstn_length. unfold SB. lia. }
    fold SB in E. rewrite E. cbn [bind].
    destruct Hr as [Hr|Hr]; subst r; cbn [Z.eqb negb].
    + split; [intros _|intros C; exfalso; apply C; auto].
      assert (Lm : length msg = (Z.to_nat smlen - SB)%nat)
        by (unfold msg; rewrite firstn_length, skipn_length; lia).
      rewrite <- (firstn_skipn (Z.to_nat smlen - SB) m0) at 1.
      rewrite wr_app0 by (rewrite firstn_length; lia). reflexivity.
    + split; [intros (_ & C); discriminate|intros _]. rewrite Hfail. reflexivity.
Qed.

(** ** Correctness *)
Lemma root_length ss ps : length ss = N -> length ps = N -> length (spx_root D Th Prf ss ps) = N.
Proof.
  intros Hs Hu. unfold spx_root, ht_root.
  rewrite (xmss_root_ext D _ (codeT P HS (code_ctx HS ps ss)) _ (codePRF HS (code_ctx HS ps ss)))
    by (intros; first [apply (codeT_sk P HS Hok)|reflexivity]).
  apply xmss_root_props; auto using code_ctx_ok.
Qed.

Lemma seed_split (seed : bytes) : length seed = CRYPTO_SEEDBYTES P ->
  exists a b c, seed = a ++ b ++ c /\ length a = N /\ length b = N /\ length c = N.
Proof. clear.
  unfold CRYPTO_SEEDBYTES. intros Hseed.
  exists (firstn N seed), (firstn N (skipn N seed)), (skipn N (skipn N seed)).
  rewrite !firstn_skipn, !firstn_length, !skipn_length. repeat split; lia.
Qed.

Lemma sk_split (sk : bytes) : (SPX_SK_BYTES P <= length sk)%nat ->
  exists a b c d t, sk = a ++ b ++ c ++ d ++ t /\ length a = N /\ length b = N /\ length c = N
    /\ length d = N.
Proof. clear.
  unfold SPX_SK_BYTES, SPX_PK_BYTES. intros H.
  exists (firstn N sk), (firstn N (skipn N sk)), (firstn N (skipn N (skipn N sk))),
    (firstn N (skipn N (skipn N (skipn N sk)))), (skipn N (skipn N (skipn N (skipn N sk)))).
  rewrite !firstn_skipn, !firstn_length, !skipn_length. repeat split; lia.
Qed.

Lemma stream_split (stream : bytes) : (N <= length stream)%nat ->
  exists o r, stream = o ++ r /\ length o = N.
Proof. clear.
  intros H. exists (firstn N stream), (skipn N stream).
  rewrite firstn_skipn, firstn_length. split; [auto|lia].
Qed.

(** An honest signature under honest keys verifies. *)
Lemma honest_accepts junk ss sp ps optrand m stail ptail :
  length ss = N -> length sp = N -> length ps = N -> length optrand = N ->
  crypto_sign_verify P HS junk
    (spx_sign D Th Prf Rnd Hm ss sp ps (spx_root D Th Prf ss ps) optrand m ++ stail)
    (Z.of_nat (SPX_BYTES P)) m (spx_pk D Th Prf ss ps ++ ptail) = Some 0.
Proof.
  intros Hs Hp Hu Ho.
  destruct (spx_sign_accepted P HS Hwf Hok ss sp ps optrand m Hs Hp Hu Ho)
    as (R & cs & E & HR & Hcs & Hl & Hacc). rewrite E, <- app_assoc.
  unfold spx_pk. rewrite <- app_assoc.
  destruct (verify_ok P HS junk Hwf Hok R cs stail m ps
              (spx_root D Th Prf ss ps) ptail HR Hcs Hl Hu (root_length ss ps Hs Hu))
    as (r & Er & _ & Hiff).
  rewrite Er. f_equal. now apply Hiff.
Qed.

Theorem keypair_sign_verify junk1 junk2 junk3 pk0 sk0 sig0 seed stream m :
  length seed = CRYPTO_SEEDBYTES P -> (N <= length stream)%nat ->
  (SPX_PK_BYTES P <= length pk0)%nat -> (SPX_SK_BYTES P <= length sk0)%nat ->
  (SPX_BYTES P <= length sig0)%nat ->
  exists pk sk sig stream',
    crypto_sign_seed_keypair P HS junk1 pk0 sk0 seed = Some (0, pk, sk)
    /\ crypto_sign_signature P HS junk2 stream sig0 m sk
       = Some (0, sig, crypto_sign_bytes P, stream')
    /\ crypto_sign_verify P HS junk3 sig (crypto_sign_bytes P) m pk = Some 0.
Proof.
  intros Hseed Hst Hpk0 Hsk0 Hsig0.
  destruct (seed_split seed Hseed) as (ss & sp & ps & -> & Hs & Hp & Hu).
  destruct (stream_split stream Hst) as (o & r & -> & Ho).
  eexists _, _, _, _. rewrite seed_keypair_ok by auto. split; [reflexivity|].
  unfold spx_sk. rewrite <- !app_assoc.
  rewrite sign_signature_ok by (auto using root_length). split; [reflexivity|].
  now apply honest_accepts.
Qed.

(** Signing with any secret key bytes. *)
Theorem signature_spec junk stream sig0 m sk :
  (SPX_SK_BYTES P <= length sk)%nat -> (N <= length stream)%nat -> (SPX_BYTES P <= length sig0)%nat ->
  let ss := firstn N sk in
  let sp := firstn N (skipn N sk) in
  let ps := firstn N (skipn (2 * N) sk) in
  let root := firstn N (skipn (3 * N) sk) in
  let s := spx_sign D Th Prf Rnd Hm ss sp ps root (firstn N stream) m in
  crypto_sign_signature P HS junk stream sig0 m sk
  = Some (0, s ++ skipn (SPX_BYTES P) sig0, Z.of_nat (SPX_BYTES P), skipn N stream)
  /\ length s = SPX_BYTES P.
Proof.
  intros Hsk Hst Hsig0.
  destruct (sk_split sk Hsk) as (ss & sp & ps & rt & t & -> & Hs & Hp & Hu & Hr).
  destruct (stream_split stream Hst) as (o & r & -> & Ho).
  rewrite firstn_app_len by auto. cbn zeta.
  rewrite skipn_app_len by auto. rewrite firstn_app_len by auto.
  rewrite (app_assoc ss sp), skipn_app_len by (rewrite app_length; lia).
  rewrite firstn_app_len by auto. rewrite <- app_assoc.
  rewrite (app_assoc sp ps), (app_assoc ss (sp ++ ps)), skipn_app_len by (rewrite !app_length; lia).
  rewrite firstn_app_len by auto. rewrite <- !app_assoc.
  rewrite firstn_app_len, skipn_app_len by auto.
  rewrite sign_signature_ok by auto. split; [reflexivity|].
  apply signature_length; auto.
Qed.

(** Histories of signing requests. *)
Theorem session_spec junks i sk reqs : forall opts rest,
  (SPX_SK_BYTES P <= length sk)%nat ->
  Forall (fun o => length o = N) opts -> length opts = length reqs ->
  Forall (fun q => (SPX_BYTES P <= length (fst q))%nat) reqs ->
  sign_session P HS junks i sk reqs (concat opts ++ rest)
  = Some (map (fun oq =>
                 (0, spx_sign D Th Prf Rnd Hm (firstn N sk) (firstn N (skipn N sk))
                       (firstn N (skipn (2 * N) sk)) (firstn N (skipn (3 * N) sk))
                       (fst oq) (snd (snd oq))
                     ++ skipn (SPX_BYTES P) (fst (snd oq)), Z.of_nat (SPX_BYTES P)))
            (combine opts reqs), rest).
Proof.
  revert i. induction reqs as [|[buf m] reqs IH]; intros i opts rest Hsk Hop Hl Hb;
    destruct opts as [|o opts]; try discriminate; cbn [sign_session combine map concat].
  - reflexivity.
  - inversion Hop as [|? ? Ho Hop']; subst. inversion Hb as [|? ? Hb1 Hb2]; subst.
    rewrite <- app_assoc. cbn [fst snd] in *.
    destruct (signature_spec (junks i) (o ++ concat opts ++ rest) buf m sk) as (E & _); auto.
    { rewrite app_length. lia. }
    rewrite E. cbn [bind]. rewrite firstn_app_len, skipn_app_len by auto.
    rewrite IH by auto. cbn [bind]. reflexivity.
Qed.

(** ** crypto_sign / crypto_sign_open *)
Theorem crypto_sign_spec junk stream sm0 m sk :
  (SPX_SK_BYTES P <= length sk)%nat -> (N <= length stream)%nat ->
  (SPX_BYTES P + length m <= length sm0)%nat -> Z.of_nat (SPX_BYTES P + length m) < 2 ^ 64 ->
  exists s,
    crypto_sign P HS junk stream sm0 m sk
    = Some (0, s ++ m ++ skipn (SPX_BYTES P + length m) sm0,
            Z.of_nat (SPX_BYTES P + length m), skipn N stream)
    /\ length s = SPX_BYTES P
    /\ crypto_sign_signature P HS junk stream (firstn (SPX_BYTES P) sm0) m sk
       = Some (0, s, Z.of_nat (SPX_BYTES P), skipn N stream).
Proof.
  intros Hsk Hst Hsm H64. unfold crypto_sign.
  set (SB := SPX_BYTES P) in *.
  assert (exists a b t, sm0 = a ++ b ++ t /\ length a = SB /\ length b = length m
            /\ t = skipn (SB + length m) sm0) as (a & b & t & E0 & Ha & Hb & Ht).
  { exists (firstn SB sm0), (firstn (length m) (skipn SB sm0)), (skipn (SB + length m) sm0).
    rewrite !firstn_length, !skipn_length. repeat split; try lia.
    rewrite <- (firstn_skipn SB sm0) at 1. f_equal.
    rewrite <- (firstn_skipn (length m) (skipn SB sm0)) at 1. f_equal.
    rewrite skipn_skipn. f_equal. lia. }
  rewrite <- Ht. rewrite E0. clear E0 Ht.
  rewrite rd_app0 by lia. cbn [bind].
  destruct (signature_spec junk stream a m sk Hsk Hst) as (E & Hl). { fold SB. lia. }
  fold SB in E, Hl. rewrite firstn_app_len by auto.
  rewrite (skipn_all2 a), app_nil_r in E by lia.
  set (s := spx_sign D _ _ _ _ _ _ _ _ _ _) in *.
  exists s. rewrite E. cbn [bind].
  rewrite wr_app0 by lia. cbn [bind]. rewrite wr_app' by lia. cbn [bind].
  split; [|split; [exact Hl|reflexivity]].
  do 3 f_equal. unfold u64. rewrite Z.mod_small by lia. lia.
Qed.

Theorem sign_open_roundtrip junk1 junk2 junk3 pk0 sk0 sm0 m0 seed stream m :
  length seed = CRYPTO_SEEDBYTES P -> (N <= length stream)%nat ->
  (SPX_PK_BYTES P <= length pk0)%nat -> (SPX_SK_BYTES P <= length sk0)%nat ->
  (SPX_BYTES P + length m <= length sm0)%nat -> (SPX_BYTES P + length m <= length m0)%nat ->
  Z.of_nat (SPX_BYTES P + length m) < 2 ^ 64 ->
  exists pk sk sm stream',
    crypto_sign_seed_keypair P HS junk1 pk0 sk0 seed = Some (0, pk, sk)
    /\ crypto_sign P HS junk2 stream sm0 m sk
       = Some (0, sm, Z.of_nat (SPX_BYTES P) + Z.of_nat (length m), stream')
    /\ crypto_sign_open P HS junk3 m0 sm (Z.of_nat (SPX_BYTES P) + Z.of_nat (length m)) pk
       = Some (0, m ++ skipn (length m) m0, Z.of_nat (length m)).
Proof.
  intros Hseed Hst Hpk0 Hsk0 Hsm0 Hm0 H64.
  destruct (seed_split seed Hseed) as (ss & sp & ps & -> & Hs & Hp & Hu).
  destruct (stream_split stream Hst) as (o & r & -> & Ho).
  set (sk := spx_sk D Th Prf ss sp ps ++ skipn (SPX_SK_BYTES P) sk0).
  assert (Hroot := root_length ss ps Hs Hu).
  assert (Hskl : (SPX_SK_BYTES P <= length sk)%nat).
  { unfold sk, spx_sk. rewrite !app_length. unfold SPX_SK_BYTES, SPX_PK_BYTES. lia. }
  destruct (crypto_sign_spec junk2 (o ++ r) sm0 m sk Hskl) as (s & E & Hl & Es); auto.
  rewrite skipn_app_len in E, Es by auto.
  eexists _, sk, _, r. rewrite seed_keypair_ok by auto. split; [reflexivity|].
  rewrite Nat2Z.inj_add in E. split; [exact E|].
  unfold sk, spx_sk in Es. rewrite <- !app_assoc in Es.
  rewrite sign_signature_ok in Es by (auto; rewrite firstn_length; lia).
  rewrite (skipn_all2 (firstn _ sm0)), app_nil_r in Es by (rewrite firstn_length; lia).
  inversion Es as [Es']; clear Es. rewrite Es' in *.
  set (SB := SPX_BYTES P) in *.
  set (pk := spx_pk D Th Prf ss ps ++ skipn (SPX_PK_BYTES P) pk0).
  assert (Hpkl : (SPX_PK_BYTES P <= length pk)%nat).
  { unfold pk, spx_pk. rewrite !app_length. unfold SPX_PK_BYTES. lia. }
  set (tail := skipn (SB + length m) sm0).
  destruct (open_spec junk3 m0 (s ++ m ++ tail) (Z.of_nat SB + Z.of_nat (length m)) pk)
    as (Hgood & _); auto; try (rewrite ?app_length; lia).
  fold SB in Hgood.
  replace (Z.to_nat (Z.of_nat SB + Z.of_nat (length m)) - SB)%nat with (length m) in Hgood by lia.
  rewrite skipn_app_len, firstn_app_len, firstn_app_len in Hgood by auto.
  rewrite Hgood.
  - do 2 f_equal. lia.
  - split; [lia|].
    pose proof (honest_accepts junk3 ss sp ps o m [] (skipn (SPX_PK_BYTES P) pk0) Hs Hp Hu Ho) as Hh.
    rewrite app_nil_r, Es' in Hh. exact Hh.
Qed.
End Api.
