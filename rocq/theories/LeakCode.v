(** LeakSpec.v for the code: generic suites, then all modelled implementations. *)
From Verif Require Import Base BaseFacts Params Suite Sign Spec SpecFacts SpecExtW Refine SignProofs ApiProofs ApiProofs2
  WotsDigitsProofs WotsProofs CoreFacts ShakeProofs HashSha2Proofs BuildSpec BuildProofs SignBytes ForgeSpec ForgeFacts ForgeCode LeakSpec LeakFacts OptBuild OptProofs OptForge.

(** A suite with another prf_addr, everything else unchanged. *)
Definition with_prf (HS : suite) (g : ctx (hs_st HS) -> bytes -> option bytes) : suite :=
  mkSuite (hs_layout HS) (hs_st HS) (hs_init HS) (hs_thash HS) g (hs_gen_message_random HS) (hs_hash_message HS).

(** A signature obtained for [m]: the signing function, any randomness and buffers; the first SPX_BYTES bytes. *)
Definition suite_query (P : params) (HS : suite) (sk m sig : bytes) : Prop :=
  exists junk stream sig0 s slen rest,
    (p_n P <= length stream)%nat /\ (SPX_BYTES P <= length sig0)%nat
    /\ crypto_sign_signature P HS junk stream sig0 m sk = Some (0, s, slen, rest) /\ sig = firstn (SPX_BYTES P) s.
Definition i_query (f : family) (robust : bool) (P : params) (sk m sig : bytes) : Prop :=
  exists i u stream sig0 s slen rest,
    i_ok i P /\ i_family i = f /\ all_bytes stream /\ all_bytes m /\ Z.of_nat (length m) < 2 ^ 63
    /\ (p_n P <= length stream)%nat /\ (SPX_BYTES P <= length sig0)%nat
    /\ i_signature i robust P u stream sig0 m sk = Some (0, s, slen, rest) /\ sig = firstn (SPX_BYTES P) s.

Section Abstract.
Variable P : params.
Notation N := (p_n P).
Notation D := (dims_of P).
Notation SB := (SPX_BYTES P).
Lemma honest_sig_body T PRF md tree leaf sig :
  (forall a x, goodW (wordN P) (KK P) x -> wordN P (T a x)) -> (forall a, wordN P (PRF a)) ->
  (SB <= length sig)%nat ->
  firstn SB sig = firstn N sig ++ concat (spx_sign_body D T PRF md tree leaf) ->
  sig_body P sig = spx_sign_body D T PRF md tree leaf.
Proof.
  intros HT HP L E. unfold sig_body. rewrite E. pose proof (SB_N P) as HN.
  rewrite skipn_app_len by (rewrite firstn_length; lia).
  destruct (bounds P) as (B1 & B2 & B3).
  pose proof (sign_body_words D (wordN P) (KK P) B1 B2 T PRF HT HP md tree leaf) as W.
  replace (spx_nblocks D) with (length (spx_sign_body D T PRF md tree leaf)) by apply spx_sign_body_length.
  apply blocks_concat. eapply Forall_impl; [|exact W]. intros x [H _]. exact H.
Qed.
Lemma split_queries T PRF (hm : bytes -> bytes -> bytes * Z * Z) qs sig m md tree leaf (B : Prop) :
  (forall a x, goodW (wordN P) (KK P) x -> wordN P (T a x)) -> (forall a, wordN P (PRF a)) ->
  (SB <= length sig)%nat -> hm (firstn N sig) m = (md, tree, leaf) ->
  (forall m' s', In (m', s') qs -> honest_sig D T PRF hm m' s') ->
  ~ In (m, firstn SB sig) qs ->
  (firstn SB sig = firstn N sig ++ concat (spx_sign_body D T PRF md tree leaf) \/ B) ->
  B \/ covered D hm qs (firstn N sig) m md tree leaf \/ unseen_in D hm PRF qs md tree leaf (sig_body P sig).
Proof.
  intros HT HP L EH Hq Hn [E|HB]; [right|now left].
  rewrite (honest_sig_body T PRF md tree leaf sig HT HP L E). rewrite E in Hn.
  apply after_queries with (T := T); auto.
  pose proof (SB_N P). cbn [dims_of s_n]. rewrite firstn_length. lia.
Qed.
End Abstract.

Section Suite.
Variable P : params.
Variable HS : suite.
Notation N := (p_n P).
Notation D := (dims_of P).
Notation SB := (SPX_BYTES P).
Hypothesis Hwf : wf_params P = true.
Hypothesis Hok : suite_ok P HS.

Lemma sk_parts (seed root rest : bytes) : length seed = CRYPTO_SEEDBYTES P -> length root = N ->
  let sk := seed ++ root ++ rest in
  firstn N sk = firstn N seed /\ firstn N (skipn N sk) = firstn N (skipn N seed)
  /\ firstn N (skipn (2 * N) sk) = skipn (2 * N) seed /\ firstn N (skipn (3 * N) sk) = root.
Proof. clear.
  intros Ls Lr sk. subst sk. unfold CRYPTO_SEEDBYTES in Ls.
  split; [rewrite firstn_app; replace (N - length seed)%nat with 0%nat by lia; cbn [firstn]; apply app_nil_r|].
  split.
  { rewrite skipn_app, firstn_app, skipn_length. replace (N - (length seed - N))%nat with 0%nat by lia.
    cbn [firstn]. apply app_nil_r. }
  split.
  - rewrite skipn_app. replace (2 * N - length seed)%nat with 0%nat by lia. cbn [skipn].
    apply firstn_app_len. rewrite skipn_length. lia.
  - rewrite skipn_app_len by lia. now apply firstn_app_len.
Qed.

Theorem suite_after_queries junk1 junk2 pk0 sk0 pk sk seed sig siglen m qs :
  length seed = CRYPTO_SEEDBYTES P ->
  (SPX_PK_BYTES P <= length pk0)%nat -> (SPX_SK_BYTES P <= length sk0)%nat ->
  crypto_sign_seed_keypair P HS junk1 pk0 sk0 seed = Some (0, pk, sk) ->
  (forall m' s', In (m', s') qs -> suite_query P HS sk m' s') ->
  all_bytes sig -> (siglen = Z.of_nat SB -> (SB <= length sig)%nat) ->
  crypto_sign_verify P HS junk2 sig siglen m pk = Some 0 ->
  ~ In (m, firstn SB sig) qs ->
  let T := codeTh P HS (skipn (2 * N) seed) in
  let PRF := codePrf HS (skipn (2 * N) seed) (firstn N seed) in
  let hm R m := codeHm P HS (skipn (2 * N) seed) R (firstn (2 * N) pk) m in
  exists md tree leaf, hm (firstn N sig) m = (md, tree, leaf)
    /\ (break_in D T PRF (verify_calls D T md tree leaf (sig_body P sig))
        \/ covered D hm qs (firstn N sig) m md tree leaf
        \/ unseen_in D hm PRF qs md tree leaf (sig_body P sig)).
Proof.
  intros Ls L1 L2 Ek Hq Bs Lg Ev Hn T PRF hm. subst T PRF.
  destruct (suite_forgery P HS Hwf Hok junk1 junk2 pk0 sk0 pk sk seed sig siglen m Ls L1 L2 Ek Bs Lg Ev)
    as (md & tree & leaf & EH & HB).
  exists md, tree, leaf. split; [exact EH|].
  destruct (keygen_function P HS Hwf Hok seed Ls) as (root & Er & Lr & K). specialize (K junk1 pk0 sk0 L1 L2).
  rewrite Ek in K. assert (Epk : pk = skipn (2 * N) seed ++ root ++ skipn (SPX_PK_BYTES P) pk0) by congruence.
  assert (Esk : sk = seed ++ root ++ skipn (SPX_SK_BYTES P) sk0) by congruence. clear K.
  destruct (sk_parts seed root (skipn (SPX_SK_BYTES P) sk0) Ls Lr) as (K1 & K2 & K3 & K4). rewrite <- Esk in K1, K2, K3, K4.
  assert (Lsk : (SPX_SK_BYTES P <= length sk)%nat).
  { rewrite Esk, !app_length, skipn_length, Ls, Lr. unfold SPX_SK_BYTES, SPX_PK_BYTES, CRYPTO_SEEDBYTES in *. lia. }
  unfold CRYPTO_SEEDBYTES in Ls. set (ps := skipn (2 * N) seed) in *. set (ss := firstn N seed) in *.
  assert (Lps : length ps = N) by (unfold ps; rewrite skipn_length; lia).
  assert (Lss : length ss = N) by (unfold ss; rewrite firstn_length; lia).
  assert (P3 : firstn (2 * N) pk = ps ++ root).
  { rewrite Epk, app_assoc. apply firstn_app_len. rewrite app_length. lia. }
  assert (Lsig : (SB <= length sig)%nat).
  { apply Lg. destruct (verify_total P HS Hwf Hok junk2 sig siglen m pk Lg) as (r & Er2 & _ & I).
    - rewrite Epk, !app_length, skipn_length, Lps, Lr. unfold SPX_PK_BYTES in *. lia.
    - rewrite Ev in Er2. assert (r = 0) as -> by congruence. now apply I. }
  apply (split_queries P (codeTh P HS ps) (codePrf HS ps ss) hm qs sig m md tree leaf); auto.
  - intros. now apply suite_Th_word.
  - intros. now apply suite_Prf_word.
  - intros m' s' Hin. destruct (Hq m' s' Hin) as (junk & stream & sig0 & s & slen & rest & H1 & H2 & E & ->).
    destruct (signature_spec P HS Hwf Hok junk stream sig0 m' sk Lsk H1 H2) as [E' L'].
    rewrite K1, K2, K3, K4 in E', L'. rewrite E in E'.
    match type of L' with length ?x = _ => set (w := x) in * end.
    assert (Es : s = w ++ skipn SB sig0) by congruence. clear E' E.
    rewrite Es, firstn_app_len by exact L'.
    unfold w, spx_sign. cbv zeta. fold ss. unfold hm in *. rewrite P3 in *.
    set (R := codeRnd P HS ps (firstn N (skipn N seed)) (firstn N stream) m').
    destruct (codeHm P HS ps R (ps ++ root) m') as [[md' tree'] leaf'] eqn:E'.
    exists R, md', tree', leaf'. split; [|split; [exact E'|reflexivity]].
    apply (rnd_ok P HS Hok ps ss); auto; rewrite ?firstn_length, ?skipn_length; lia.
Qed.

(** ** Secrets with the same images *)
Variable g : ctx (hs_st HS) -> bytes -> option bytes.
Notation HS' := (with_prf HS g).
Hypothesis Hok' : suite_ok P HS'.
Lemma W2 : 2 <= s_w D.
Proof. clear - Hwf. exact (W_pos P Hwf). Qed.
Lemma D1 : (1 <= s_d D)%nat.
Proof. clear - Hwf. cbn [dims_of s_d]. 
  unfold wf_params in Hwf. repeat (apply andb_true_iff in Hwf as [Hwf ?]). now apply Nat.leb_le.
Qed.
Theorem images_keygen shown junk junk' pk0 sk0 seed :
  length seed = CRYPTO_SEEDBYTES P -> (SPX_PK_BYTES P <= length pk0)%nat -> (SPX_SK_BYTES P <= length sk0)%nat ->
  let ps := skipn (2 * N) seed in let ss := firstn N seed in
  same_images D (codeTh P HS ps) (codePrf HS ps ss) (codePrf HS' ps ss) shown ->
  crypto_sign_seed_keypair P HS' junk' pk0 sk0 seed = crypto_sign_seed_keypair P HS junk pk0 sk0 seed.
Proof.
  intros Ls L1 L2 ps ss HI.
  destruct (keygen_function P HS Hwf Hok seed Ls) as (root & Er & Lr & K).
  destruct (keygen_function P HS' Hwf Hok' seed Ls) as (root' & Er' & Lr' & K').
  rewrite (K junk pk0 sk0 L1 L2), (K' junk' pk0 sk0 L1 L2).
  assert (root' = root) as ->; [|reflexivity].
  rewrite Er, Er'. change (codeTh P HS') with (codeTh P HS).
  exact (same_root D (codeTh P HS ps) (codePrf HS ps ss) (codePrf HS' ps ss) shown W2 HI D1).
Qed.
Theorem images_sign shown junk junk' stream sig0 m sk :
  (SPX_SK_BYTES P <= length sk)%nat -> (N <= length stream)%nat -> (SB <= length sig0)%nat ->
  let ss := firstn N sk in let sp := firstn N (skipn N sk) in
  let ps := firstn N (skipn (2 * N) sk) in let root := firstn N (skipn (3 * N) sk) in
  same_images D (codeTh P HS ps) (codePrf HS ps ss) (codePrf HS' ps ss) shown ->
  (forall md tree leaf, codeHm P HS ps (codeRnd P HS ps sp (firstn N stream) m) (ps ++ root) m = (md, tree, leaf) ->
     forall t, (t < p_ft P)%nat -> shown tree leaf t (fors_index D md t)) ->
  crypto_sign_signature P HS' junk' stream sig0 m sk = crypto_sign_signature P HS junk stream sig0 m sk.
Proof.
  intros L1 L2 L3 ss sp ps root HI Hs.
  destruct (signature_spec P HS Hwf Hok junk stream sig0 m sk L1 L2 L3) as [E _].
  destruct (signature_spec P HS' Hwf Hok' junk' stream sig0 m sk L1 L2 L3) as [E' _].
  rewrite E, E'. fold ss sp ps root. clear E E'.
  unfold spx_sign. change (codeTh P HS') with (codeTh P HS). change (codeRnd P HS') with (codeRnd P HS).
  change (codeHm P HS') with (codeHm P HS). cbv zeta.
  unfold SPX_SK_BYTES, SPX_PK_BYTES in L1.
  assert (Lps : length ps = N) by (unfold ps; rewrite firstn_length, skipn_length; lia).
  assert (Lss : length ss = N) by (unfold ss; rewrite firstn_length; lia).
  assert (Lsp : length sp = N) by (unfold sp; rewrite firstn_length, skipn_length; lia).
  assert (Lrt : length root = N) by (unfold root; rewrite firstn_length, skipn_length; lia).
  set (R := codeRnd P HS ps sp (firstn N stream) m) in *.
  assert (LR : length R = N) by (apply (rnd_ok P HS Hok ps ss); auto; rewrite firstn_length; lia).
  destruct (codeHm P HS ps R (ps ++ root) m) as [[md tree] leaf] eqn:EH.
  assert (Hin : in_ht D 0 tree leaf).
  { apply (suite_Hm_range P HS Hwf Hok ps R (ps ++ root) m) with (md := md); auto. rewrite app_length. unfold SPX_PK_BYTES. lia. }
  rewrite (same_body D (codeTh P HS ps) (codePrf HS ps ss) (codePrf HS' ps ss) shown W2 HI md tree leaf Hin); [reflexivity|].
  exact (Hs md tree leaf eq_refl).
Qed.
End Suite.

Section Impls.
Variables i1 i2 : impl.
Variable robust : bool.
Variable P : params.
Variables u1 u2 : uninit.
Notation N := (p_n P).
Notation D := (dims_of P).
Notation SB := (SPX_BYTES P).
Hypothesis H1 : i_ok i1 P.
Hypothesis H2 : i_ok i2 P.
Hypothesis Hf : i_family i1 = i_family i2.
Notation f := (i_family i2).

Theorem impl_after_queries pk0 sk0 pk sk seed sig siglen m qs :
  length seed = CRYPTO_SEEDBYTES P ->
  (SPX_PK_BYTES P <= length pk0)%nat -> (SPX_SK_BYTES P <= length sk0)%nat ->
  all_bytes seed -> all_bytes sig -> all_bytes m -> Z.of_nat (length m) < 2 ^ 63 -> all_bytes sk0 ->
  i_seed_keypair i1 robust P u1 pk0 sk0 seed = Some (0, pk, sk) ->
  (forall m' s', In (m', s') qs -> i_query f robust P sk m' s') ->
  (siglen = Z.of_nat SB -> (SB <= length sig)%nat) ->
  i_verify i2 robust P u2 sig siglen m pk = Some 0 ->
  ~ In (m, firstn SB sig) qs ->
  let T := spec_T f N robust (skipn (2 * N) seed) in
  let PRF := spec_PRF f N (skipn (2 * N) seed) (firstn N seed) in
  let hm R m := spec_Hm f N D (skipn (2 * N) seed) R (firstn (2 * N) pk) m in
  exists md tree leaf, hm (firstn N sig) m = (md, tree, leaf)
    /\ (break_in D T PRF (verify_calls D T md tree leaf (sig_body P sig))
        \/ covered D hm qs (firstn N sig) m md tree leaf
        \/ unseen_in D hm PRF qs md tree leaf (sig_body P sig)).
Proof.
  intros Ls L1 L2 Bseed Bs Bm Lm Bsk0 Ek Hq Lg Ev Hn T PRF hm. subst T PRF.
  destruct (i_forgery i1 i2 robust P u1 u2 H1 H2 Hf pk0 sk0 pk sk seed sig siglen m Ls L1 L2 Bseed Bs Bm Lm Ek Lg Ev)
    as (md & tree & leaf & EH & HB).
  exists md, tree, leaf. split; [exact EH|].
  pose proof (proj1 H1) as Hwf. pose proof (i_ok_32 i1 P H1) as H32.
  pose proof (i_computes i1 robust P u1 H1) as C1. rewrite Hf in C1.
  destruct (i_keygen i1 robust P u1 H1 seed Ls Bseed) as [Lr K]. specialize (K pk0 sk0 L1 L2).
  rewrite Ek in K. rewrite Hf in Lr, K.
  set (root := ht_root _ _ _) in *.
  assert (Epk : pk = skipn (2 * N) seed ++ root ++ skipn (SPX_PK_BYTES P) pk0) by congruence.
  assert (Esk : sk = seed ++ root ++ skipn (SPX_SK_BYTES P) sk0) by congruence. clear K.
  destruct (sk_parts P seed root (skipn (SPX_SK_BYTES P) sk0) Ls Lr) as (K1 & K2 & K3 & K4). rewrite <- Esk in K1, K2, K3, K4.
  assert (Lsk : (SPX_SK_BYTES P <= length sk)%nat).
  { rewrite Esk, !app_length, skipn_length, Ls, Lr. unfold SPX_SK_BYTES, SPX_PK_BYTES, CRYPTO_SEEDBYTES in *. lia. }
  unfold CRYPTO_SEEDBYTES in Ls. set (ps := skipn (2 * N) seed) in *. set (ss := firstn N seed) in *.
  assert (Wps : wordN P ps) by (split; [unfold ps; rewrite skipn_length; lia|apply all_skipn', Bseed]).
  assert (Wss : wordN P ss) by (apply head_word; auto; lia).
  assert (Wr : wordN P root) by (apply (any_root_word f robust P _ Hwf H32 C1); auto).
  assert (Bsk : all_bytes sk).
  { rewrite Esk. apply Forall_app. split; [exact Bseed|]. apply Forall_app. split; [apply Wr|now apply all_skipn']. }
  assert (P3 : firstn (2 * N) pk = ps ++ root).
  { rewrite Epk, app_assoc. apply firstn_app_len. rewrite app_length, (proj1 Wps). lia. }
  assert (Lpk : (SPX_PK_BYTES P <= length pk)%nat).
  { rewrite Epk, !app_length, skipn_length, (proj1 Wps), Lr. unfold SPX_PK_BYTES in *. lia. }
  assert (Lsig : (SB <= length sig)%nat).
  { rewrite (i_verify_plain i2 robust P u2 H2) in Ev by auto. apply Lg.
    destruct (verify_total P _ Hwf (cp_ok _ _ _ _ (i_computes i2 robust P u2 H2)) (u_core u2) sig siglen m pk Lg Lpk) as (r & Er2 & _ & I).
    rewrite Ev in Er2. assert (r = 0) as -> by congruence. now apply I. }
  apply (split_queries P (spec_T f N robust ps) (spec_PRF f N ps ss) hm qs sig m md tree leaf); auto.
  - intros a x G. rewrite <- (any_Th f robust P _ C1 ps a x Wps G). now apply (any_Th_word f robust P _ Hwf H32 C1).
  - intros a. destruct (any_Prf f robust P _ C1 ps ss a Wps Wss) as [<- W]. exact W.
  - intros m' s' Hin. destruct (Hq m' s' Hin) as (i & u & stream & sig0 & s & slen & rest & Hi & Hfi & Bst & Bm' & Lm' & G1 & G2 & E & ->).
    destruct (i_signature_spec i robust P u Hi stream sig0 m' sk Lsk G1 G2 Bsk Bst Bm' Lm') as [E' L'].
    rewrite K1, K2, K3, K4, Hfi in E', L'. rewrite E in E'.
    match type of L' with length ?x = _ => set (w := x) in * end.
    assert (Es : s = w ++ skipn SB sig0) by congruence. clear E' E.
    rewrite Es, firstn_app_len by exact L'.
    unfold w, spx_sign. cbv zeta. fold ss. unfold hm in *. rewrite P3 in *.
    set (R := spec_Rnd f N ps (firstn N (skipn N seed)) (firstn N stream) m').
    destruct (spec_Hm f N D ps R (ps ++ root) m') as [[md' tree'] leaf'] eqn:E'.
    exists R, md', tree', leaf'. split; [|split; [exact E'|reflexivity]].
    destruct (any_Rnd f robust P _ C1 ps (firstn N (skipn N seed)) (firstn N stream) m') as [ER WR]; auto.
    + apply part_word; auto; lia.
    + apply head_word; auto.
    + unfold R. rewrite <- ER. apply WR.
Qed.
End Impls.
