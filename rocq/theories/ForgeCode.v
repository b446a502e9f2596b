(** The extraction theorem for the code: generic suites, then the builds. *)
From Verif Require Import Base BaseFacts Params Address AdrsEnc Suite Utils Wots Fors Merkle Sign Spec
  SpecFacts SpecExtW Refine WotsDigitsProofs WotsProofs CoreFacts SignProofs ApiProofs ApiProofs2
  ShakeProofs  HashSha2Proofs BuildSpec BuildProofs ForgeSpec ForgeProofs.

Lemma lengths_ND P : wf_params P = true -> forall m1 m2, wordN P m1 -> wordN P m2 -> m1 <> m2 ->
  exists i, (i < s_len (dims_of P))%nat /\ nth i (wots_lengths (dims_of P) m1) 0 < nth i (wots_lengths (dims_of P) m2) 0.
Proof.
  intros Hwf m1 m2 [L1 B1] [L2 B2] Hne.
  destruct (no_domination P m1 m2 Hwf L1 L2 B1 B2 Hne) as (l1 & l2 & E1 & E2 & i & Hi & Hlt).
  rewrite chain_lengths_ok in E1, E2 by auto.
  assert (l1 = wots_lengths (dims_of P) m1) as -> by congruence.
  assert (l2 = wots_lengths (dims_of P) m2) as -> by congruence.
  exists i. split; [exact Hi|exact Hlt].
Qed.

(** A signature string cut into randomizer and blocks. *)
Definition sig_body (P : params) (sig : bytes) : list bytes :=
  Spec.blocks (p_n P) (spx_nblocks (dims_of P)) (skipn (p_n P) (firstn (SPX_BYTES P) sig)).
Lemma blocks_concat' n k : forall b, length b = (n * k)%nat -> concat (Spec.blocks n k b) = b.
Proof.
  induction k as [|k IH]; intros b L; cbn [Spec.blocks concat].
  - destruct b; [reflexivity|cbn in L; lia].
  - rewrite IH by (rewrite skipn_length; lia). apply firstn_skipn.
Qed.

Section Extract.
Variable P : params.
Notation N := (p_n P).
Notation D := (dims_of P).
Notation SB := (SPX_BYTES P).
Hypothesis Hwf : wf_params P = true.

(** Extraction from acceptance, for any functions with n-byte values. *)
Lemma accept_extract T PRF Hm ps m sig :
  (forall a x, goodW (wordN P) (KK P) x -> wordN P (T ps a x)) -> (forall a, wordN P (PRF a)) ->
  (forall md tree leaf, Hm ps (firstn N sig) (ps ++ ht_root D (T ps) PRF) m = (md, tree, leaf) ->
     in_ht D 0 tree leaf) ->
  all_bytes sig -> (SB <= length sig)%nat ->
  spx_verify D T Hm ps (ht_root D (T ps) PRF) m (firstn SB sig) ->
  exists md tree leaf,
    Hm ps (firstn N sig) (ps ++ ht_root D (T ps) PRF) m = (md, tree, leaf)
    /\ (firstn SB sig = firstn N sig ++ concat (spx_sign_body D (T ps) PRF md tree leaf)
        \/ break_in D (T ps) PRF (verify_calls D (T ps) md tree leaf (sig_body P sig))).
Proof.
  intros HT HP HM Bs Ls [Lv Ha]. unfold spx_accepts in Ha. cbn [dims_of s_n] in Lv, Ha.
  assert (HN : (N <= SB)%nat) by (unfold SPX_BYTES; lia).
  assert (Ef : firstn N (firstn SB sig) = firstn N sig) by (rewrite firstn_firstn; f_equal; lia).
  rewrite Ef in Ha.
  destruct (Hm ps (firstn N sig) (ps ++ ht_root D (T ps) PRF) m) as [[md tree] leaf] eqn:EH.
  exists md, tree, leaf. split; [reflexivity|]. fold (sig_body P sig) in Ha.
  assert (Lb : length (skipn N (firstn SB sig)) = (N * spx_nblocks D)%nat).
  { rewrite skipn_length. unfold spx_sig_bytes in Lv. cbn [dims_of s_n] in *. lia. }
  destruct (blocks_words P (spx_nblocks D) (skipn N (firstn SB sig))) as [W L].
  { apply all_skipn', all_firstn, Bs. }
  { exact Lb. }
  destruct (bounds P) as (B1 & B2 & B3). pose proof (W_pos P Hwf) as HW.
  destruct (spx_extract D (T ps) PRF (wordN P) N (KK P)) with (md := md) (tree := tree) (leaf := leaf) (sig := sig_body P sig)
    as [E|E]; auto.
  - intros x [Lx _]. exact Lx.
  - now apply lengths_ND.
  - now apply (HM md tree leaf).
  - left. rewrite <- E. unfold sig_body. rewrite blocks_concat' by exact Lb.
    rewrite <- Ef. symmetry. apply firstn_skipn.
Qed.
End Extract.

Section Suite.
Variable P : params.
Variable HS : suite.
Notation N := (p_n P).
Notation D := (dims_of P).
Notation SB := (SPX_BYTES P).
Hypothesis Hwf : wf_params P = true.
Hypothesis Hok : suite_ok P HS.

Lemma suite_Th_word ps a x : length ps = N -> goodW (wordN P) (KK P) x -> wordN P (codeTh P HS ps a x).
Proof.
  intros Lp (xs & -> & W & L).
  assert (Lx : length (concat xs) = (length xs * N)%nat).
  { clear L. induction W as [|y l [Ly _] _ IH]; cbn [concat length]; [reflexivity|]. rewrite app_length, IH, Ly. reflexivity. }
  assert (Hp : (1 <= N)%nat) by exact (N_pos P Hwf).
  assert (Ek : (length (concat xs) / N = length xs)%nat) by (rewrite Lx; apply Nat.div_mul; lia).
  unfold codeTh, codeT. rewrite Ek.
  destruct (ok_thash _ _ Hok (code_ctx HS ps (zero_seed P)) (length xs) (concat xs) (enc (hs_layout HS) a)) as (d & E & Ld);
    [repeat split; auto; apply zero_len|exact Lx|apply enc_len|].
  rewrite E. cbn [opt_bytes]. split; [exact Ld|]. exact (ok_thash_bytes _ _ Hok _ _ _ _ _ E).
Qed.
Lemma suite_Prf_word ps ss a : length ps = N -> length ss = N -> wordN P (codePrf HS ps ss a).
Proof.
  intros Lp Ls. unfold codePrf, codePRF.
  destruct (ok_prf _ _ Hok (code_ctx HS ps ss) (enc (hs_layout HS) a)) as (d & E & L); [repeat split; auto|apply enc_len|].
  rewrite E. cbn [opt_bytes]. split; [exact L|]. exact (ok_prf_bytes _ _ Hok _ _ _ E).
Qed.
Lemma range_in_ht t l : 0 <= t < 2 ^ Z.of_nat (SPX_TREE_BITS P) -> 0 <= l < 2 ^ Z.of_nat (SPX_LEAF_BITS P) ->
  in_ht D 0 t l.
Proof.
  clear - Hwf. intros Ht Hl. unfold in_ht. cbn [dims_of s_d s_hp].
  assert (1 <= p_d P)%nat.
  { unfold wf_params in Hwf. repeat (apply andb_true_iff in Hwf as [Hwf ?]). now apply Nat.leb_le. }
  unfold SPX_TREE_BITS, SPX_LEAF_BITS in *.
  split; [lia|]. split; [|exact Hl].
  replace (Z.of_nat (SPX_TREE_HEIGHT P) * (Z.of_nat (p_d P) - 1 - 0)) with (Z.of_nat (SPX_TREE_HEIGHT P * (p_d P - 1))) by (rewrite Nat2Z.inj_mul, Nat2Z.inj_sub by lia; f_equal; lia).
  exact Ht.
Qed.
Lemma suite_Hm_range ps R pk m : length ps = N -> length R = N -> length pk = SPX_PK_BYTES P ->
  forall md tree leaf, codeHm P HS ps R pk m = (md, tree, leaf) -> in_ht D 0 tree leaf.
Proof.
  intros Lp LR Lk md tree leaf E. unfold codeHm in E.
  destruct (ok_msg _ _ Hok (code_ctx HS ps (zero_seed P)) R pk m) as (d & t & l & E2 & _ & _ & Ht & Hl);
    [repeat split; auto; apply zero_len|exact LR|exact Lk|].
  rewrite E2 in E. injection E as <- <- <-. now apply range_in_ht.
Qed.

Lemma pk_parts (a r rest : bytes) : length a = N -> length r = N ->
  firstn N (a ++ r ++ rest) = a /\ firstn N (skipn N (a ++ r ++ rest)) = r.
Proof. clear. intros La Lr. split; [now apply firstn_app_len|]. rewrite skipn_app_len by auto. now apply firstn_app_len. Qed.
Lemma SB_N : (N <= SB)%nat.
Proof. clear. unfold SPX_BYTES. lia. Qed.

Theorem suite_forgery junk1 junk2 pk0 sk0 pk sk seed sig siglen m :
  length seed = CRYPTO_SEEDBYTES P ->
  (SPX_PK_BYTES P <= length pk0)%nat -> (SPX_SK_BYTES P <= length sk0)%nat ->
  crypto_sign_seed_keypair P HS junk1 pk0 sk0 seed = Some (0, pk, sk) ->
  all_bytes sig -> (siglen = Z.of_nat SB -> (SB <= length sig)%nat) ->
  crypto_sign_verify P HS junk2 sig siglen m pk = Some 0 ->
  let T := codeTh P HS (skipn (2 * N) seed) in
  let PRF := codePrf HS (skipn (2 * N) seed) (firstn N seed) in
  exists md tree leaf,
    codeHm P HS (skipn (2 * N) seed) (firstn N sig) (firstn (2 * N) pk) m = (md, tree, leaf)
    /\ (firstn SB sig = firstn N sig ++ concat (spx_sign_body D T PRF md tree leaf)
        \/ break_in D T PRF (verify_calls D T md tree leaf (sig_body P sig))).
Proof.
  intros Ls L1 L2 Ek Bs Lg Ev T PRF. subst T PRF.
  destruct (keygen_function P HS Hwf Hok seed Ls) as (root & Er & Lr & K). specialize (K junk1 pk0 sk0 L1 L2).
  rewrite Ek in K. assert (Epk : pk = skipn (2 * N) seed ++ root ++ skipn (SPX_PK_BYTES P) pk0) by congruence. clear K.
  set (ps := skipn (2 * N) seed) in *. set (ss := firstn N seed) in *. unfold CRYPTO_SEEDBYTES in Ls.
  assert (Lps : length ps = N) by (unfold ps; rewrite skipn_length; lia).
  assert (Lss : length ss = N) by (unfold ss; rewrite firstn_length; lia).
  destruct (pk_parts ps root (skipn (SPX_PK_BYTES P) pk0) Lps Lr) as [P1 P2].
  destruct (verify_total P HS Hwf Hok junk2 sig siglen m pk Lg) as (r & Er2 & _ & I).
  { rewrite Epk, !app_length, skipn_length, Lps, Lr. unfold SPX_PK_BYTES in *. lia. }
  rewrite Ev in Er2. assert (r = 0) as -> by congruence. destruct I as [I _]. destruct (I eq_refl) as [Hl V].
  rewrite Epk, P1, P2, Er in V.
  assert (P3 : firstn (2 * N) pk = ps ++ ht_root D (codeTh P HS ps) (codePrf HS ps ss)).
  { rewrite Epk, app_assoc. rewrite firstn_app_len by (rewrite app_length; lia). now rewrite Er. }
  rewrite P3.
  apply (accept_extract P Hwf (codeTh P HS) (codePrf HS ps ss) (codeHm P HS) ps m sig); auto.
  - intros. now apply suite_Th_word.
  - intros. now apply suite_Prf_word.
  - intros md tree leaf E. revert E. apply suite_Hm_range; auto.
    + pose proof SB_N. rewrite firstn_length. specialize (Lg Hl). lia.
    + rewrite <- Er, app_length. unfold SPX_PK_BYTES. lia.
Qed.
End Suite.

Section Builds.
Variable f : family.
Variable robust : bool.
Variable P : params.
Notation N := (p_n P).
Notation D := (dims_of P).
Notation SB := (SPX_BYTES P).
Hypothesis Hwf : wf_params P = true.
Hypothesis HN : (N <= 32)%nat.

Theorem any_forgery HS1 HS2 (C1 : computes f robust P HS1) (C2 : computes f robust P HS2) junk1 junk2 pk0 sk0 pk sk seed sig siglen m :
  length seed = CRYPTO_SEEDBYTES P ->
  (SPX_PK_BYTES P <= length pk0)%nat -> (SPX_SK_BYTES P <= length sk0)%nat ->
  all_bytes seed -> all_bytes sig -> all_bytes m -> Z.of_nat (length m) < 2 ^ 63 ->
  crypto_sign_seed_keypair P HS1 junk1 pk0 sk0 seed = Some (0, pk, sk) ->
  (siglen = Z.of_nat SB -> (SB <= length sig)%nat) ->
  crypto_sign_verify P HS2 junk2 sig siglen m pk = Some 0 ->
  let T := spec_T f N robust (skipn (2 * N) seed) in
  let PRF := spec_PRF f N (skipn (2 * N) seed) (firstn N seed) in
  exists md tree leaf,
    spec_Hm f N D (skipn (2 * N) seed) (firstn N sig) (firstn (2 * N) pk) m = (md, tree, leaf)
    /\ (firstn SB sig = firstn N sig ++ concat (spx_sign_body D T PRF md tree leaf)
        \/ break_in D T PRF (verify_calls D T md tree leaf (sig_body P sig))).
Proof.
  intros Ls L1 L2 Bseed Bs Bm Lm Ek Lg Ev T PRF. subst T PRF.
  destruct (any_keygen f robust P HS1 Hwf HN C1 seed Ls Bseed) as [Lr K]. specialize (K junk1 pk0 sk0 L1 L2).
  rewrite Ek in K.
  set (ps := skipn (2 * N) seed) in *. set (ss := firstn N seed) in *. unfold CRYPTO_SEEDBYTES in Ls.
  set (root := ht_root D (spec_T f N robust ps) (spec_PRF f N ps ss)) in *.
  assert (Epk : pk = ps ++ root ++ skipn (SPX_PK_BYTES P) pk0) by congruence. clear K.
  assert (Wps : wordN P ps) by (split; [unfold ps; rewrite skipn_length; lia|apply all_skipn', Bseed]).
  assert (Wss : wordN P ss) by (apply head_word; auto; lia).
  assert (Wr : wordN P root) by (apply (any_root_word f robust P HS1 Hwf HN C1); auto).
  destruct (pk_parts P ps root (skipn (SPX_PK_BYTES P) pk0) (proj1 Wps) Lr) as [P1 P2].
  destruct (verify_total P HS2 Hwf (cp_ok _ _ _ _ C2) junk2 sig siglen m pk Lg)
    as (r & Er2 & _ & I).
  { rewrite Epk, !app_length, skipn_length, (proj1 Wps), Lr. unfold SPX_PK_BYTES in *. lia. }
  rewrite Ev in Er2. assert (r = 0) as -> by congruence. destruct I as [I _]. destruct (I eq_refl) as [Hl V].
  rewrite Epk, P1, P2 in V.
  apply (any_verify f robust P HS2 Hwf HN C2) in V; auto; [|now apply all_firstn].
  assert (P3 : firstn (2 * N) pk = ps ++ root).
  { rewrite Epk, app_assoc. apply firstn_app_len. rewrite app_length, (proj1 Wps). lia. }
  rewrite P3. unfold root.
  assert (WR : wordN P (firstn N sig)).
  { pose proof (SB_N P). apply head_word; auto. specialize (Lg Hl). lia. }
  apply (accept_extract P Hwf (spec_T f N robust) (spec_PRF f N ps ss) (spec_Hm f N D) ps m sig); auto.
  - intros a x G. rewrite <- (any_Th f robust P HS2 C2 ps a x Wps G). now apply (any_Th_word f robust P HS2 Hwf HN C2).
  - intros a. destruct (any_Prf f robust P HS2 C2 ps ss a Wps Wss) as [<- W]. exact W.
  - intros md tree leaf E. fold root in E. rewrite <- (any_Hm f robust P HS2 C2 ps root _ m Wps Wr WR Bm Lm) in E.
    revert E. apply suite_Hm_range; auto.
    + exact (cp_ok _ _ _ _ C2).
    + apply Wps.
    + apply WR.
    + rewrite app_length, (proj1 Wps). unfold SPX_PK_BYTES. lia.
Qed.
Theorem build_forgery jh1 jh2 junk1 junk2 pk0 sk0 pk sk seed sig siglen m :
  length seed = CRYPTO_SEEDBYTES P ->
  (SPX_PK_BYTES P <= length pk0)%nat -> (SPX_SK_BYTES P <= length sk0)%nat ->
  all_bytes seed -> all_bytes sig -> all_bytes m -> Z.of_nat (length m) < 2 ^ 63 ->
  crypto_sign_seed_keypair P (build f robust P jh1) junk1 pk0 sk0 seed = Some (0, pk, sk) ->
  (siglen = Z.of_nat SB -> (SB <= length sig)%nat) ->
  crypto_sign_verify P (build f robust P jh2) junk2 sig siglen m pk = Some 0 ->
  let T := spec_T f N robust (skipn (2 * N) seed) in
  let PRF := spec_PRF f N (skipn (2 * N) seed) (firstn N seed) in
  exists md tree leaf,
    spec_Hm f N D (skipn (2 * N) seed) (firstn N sig) (firstn (2 * N) pk) m = (md, tree, leaf)
    /\ (firstn SB sig = firstn N sig ++ concat (spx_sign_body D T PRF md tree leaf)
        \/ break_in D T PRF (verify_calls D T md tree leaf (sig_body P sig))).
Proof.
  exact (any_forgery _ _ (build_computes f robust P jh1 Hwf HN) (build_computes f robust P jh2 Hwf HN)
           junk1 junk2 pk0 sk0 pk sk seed sig siglen m).
Qed.
End Builds.
