(** The calls key generation, signing and verification make (ref/sign.c). *)
From Verif Require Import Base BaseFacts Params Address Suite Utils Wots Fors Merkle Sign
  Spec SpecFacts SpecExt AdrsEnc
  AddressProofs Refine TreeProofs WotsDigitsProofs WotsProofs ForsProofs MerkleProofs SignProofs
  CallLog CallSpec CallTreeProofs CallWotsProofs CallForsProofs.

(** ** The lists depend on the hash functions only through their values *)
Section Ext.
Variable D : dims.
Variables T T' : adrs -> list Z -> list Z.
Variable PRF PRF' : adrs -> list Z.
Hypothesis HT : forall a x, T a x = T' a x.
Hypothesis HP : forall a, PRF a = PRF' a.
Lemma tree_calls_ext leaf leaf' hash2 hash2' lc lc' na h i :
  (forall j, leaf j = leaf' j) -> (forall k j x, hash2 k j x = hash2' k j x) -> (forall j, lc j = lc' j) ->
  tree_calls leaf hash2 lc na h i = tree_calls leaf' hash2' lc' na h i.
Proof. clear.
  intros Hl Hh Hc. revert i. induction h as [|h IH]; intros i; cbn [tree_calls]; [apply Hc|].
  rewrite !IH, !(node_ext leaf leaf' hash2 hash2') by assumption. reflexivity.
Qed.
Lemma climb_calls_ext hash2 hash2' na p : forall h i x, (forall k j x, hash2 k j x = hash2' k j x) ->
  climb_calls hash2 na h i x p = climb_calls hash2' na h i x p.
Proof. clear.
  induction p as [|s p IH]; intros h i x Hh; cbn [climb_calls]; [reflexivity|]. now rewrite Hh, IH.
Qed.
Lemma chain_calls_ext ly tr kp i x s k : chain_calls T ly tr kp i x s k = chain_calls T' ly tr kp i x s k.
Proof. clear - HT. apply map_ext. intros j. now rewrite (chain_ext T T' HT). Qed.
Lemma wots_pk_calls_ext ly tr kp : wots_pk_calls D T PRF ly tr kp = wots_pk_calls D T' PRF' ly tr kp.
Proof.
  unfold wots_pk_calls. f_equal.
  - apply flat_map_ext. intros i. unfold wots_sk. now rewrite chain_calls_ext, HP.
  - do 3 f_equal. apply map_ext. intros i. unfold wots_sk. now rewrite (chain_ext T T' HT), HP.
Qed.
Lemma xmss_calls_ext ly tr : xmss_calls D T PRF ly tr = xmss_calls D T' PRF' ly tr.
Proof.
  apply tree_calls_ext; [intros; now apply wots_pk_ext|intros; apply HT|intros; apply wots_pk_calls_ext].
Qed.
Lemma ht_calls_ext k : forall ly tr, ht_calls D T PRF k ly tr = ht_calls D T' PRF' k ly tr.
Proof. induction k as [|k IH]; intros; cbn [ht_calls]; [reflexivity|]. now rewrite xmss_calls_ext, IH. Qed.
Lemma keygen_calls_ext : keygen_calls D T PRF = keygen_calls D T' PRF'.
Proof. apply xmss_calls_ext. Qed.
Lemma fors_calls_ext tr kp md : fors_calls D T PRF tr kp md = fors_calls D T' PRF' tr kp md.
Proof.
  unfold fors_calls. f_equal.
  - apply flat_map_ext. intros t. unfold fors_tree_calls. f_equal.
    apply tree_calls_ext; [intros; now apply fors_leaf_ext|intros; apply HT|].
    intros j. unfold fors_leaf_calls, fors_sk. now rewrite HP.
  - do 3 f_equal. apply map_ext. intros t. apply node_ext; [intros; now apply fors_leaf_ext|intros; apply HT].
Qed.
Lemma sign_calls_ext md tr lf : sign_calls D T PRF md tr lf = sign_calls D T' PRF' md tr lf.
Proof. unfold sign_calls. now rewrite fors_calls_ext, ht_calls_ext. Qed.
Lemma ht_of_sig_calls_ext k : forall ly tr ix m s, ht_of_sig_calls D T k ly tr ix m s = ht_of_sig_calls D T' k ly tr ix m s.
Proof. clear - HT.
  induction k as [|k IH]; intros; cbn [ht_of_sig_calls]; [reflexivity|]. rewrite IH.
  unfold xmss_of_sig_calls, wots_pk_of_sig_calls, xmss_root_of_sig.
  rewrite !(wots_pk_of_sig_ext D T T' HT), (climb_ext _ (tree_hash2 T' ly tr)) by (intros; apply HT).
  rewrite (climb_calls_ext (tree_hash2 T ly tr) (tree_hash2 T' ly tr)) by (intros; apply HT).
  do 2 f_equal. f_equal.
  - apply flat_map_ext. intros i. cbn zeta. now rewrite chain_calls_ext.
  - do 3 f_equal. apply map_ext. intros i. cbn zeta. now rewrite (chain_ext T T' HT).
Qed.
Lemma verify_calls_ext md tr lf s : verify_calls D T md tr lf s = verify_calls D T' md tr lf s.
Proof. clear - HT.
  unfold verify_calls. cbn zeta. rewrite ht_of_sig_calls_ext, (fors_pk_of_sig_ext D T T' HT). f_equal.
  unfold fors_of_sig_calls. cbn zeta. f_equal.
  - apply flat_map_ext. intros t. unfold fors_tree_of_sig_calls, fors_leaf_of. cbn zeta. rewrite HT. f_equal.
    apply climb_calls_ext. intros; apply HT.
  - do 3 f_equal. apply map_ext. intros t. unfold fors_root_of_sig, fors_leaf_of. cbn zeta. rewrite HT.
    apply climb_ext. intros; apply HT.
Qed.
End Ext.

Section Layers.
Variable P : params.
Variable HS : suite.
Variable c : ctx (hs_st HS).
Variable junk : nat -> nat -> Z.
Notation N := (p_n P).
Notation L := (hs_layout HS).
Notation W := (SPX_WOTS_W P).
Notation LEN := (SPX_WOTS_LEN P).
Notation TH := (SPX_TREE_HEIGHT P).
Hypothesis Hwf : wf_params P = true.
Hypothesis Hok : suite_ok P HS.
Hypothesis Hc : ctx_ok P HS c.
Notation T := (codeT P HS c).
Notation PRF := (codePRF HS c).
Notation D := (dims_of P).

Notation E := (enc_call L).
Let Hn : (1 <= N)%nat. Proof. pose proof (wf_n P Hwf). lia. Qed.

Lemma sign_layersL k : forall i pre mid tail root l0 t0 k0 u1 u2 tl tt w1 w2 tree idx,
  length mid = (k * (SPX_WOTS_BYTES P + TH * N))%nat ->
  length root = N -> all_bytes root -> 0 <= idx < 2 ^ Z.of_nat TH ->
  exists sp r wa ta t' i',
    iterL k i (sign_layerL P HS junk c)
      (pre ++ mid ++ tail, length pre, root, enc L (mkAdrs l0 t0 T_WOTS_HASH k0 u1 u2),
       enc L (mkAdrs tl tt T_TREE 0 w1 w2), tree, idx)
    = Some ((pre ++ concat (ht_sign D T PRF k (Z.of_nat i) tree idx root) ++ tail,
            sp, r, wa, ta, t', i'), map E (ht_calls D T PRF k (Z.of_nat i) tree)).
Proof.
  induction k as [|k IH]; intros i pre mid tail root l0 t0 k0 u1 u2 tl tt w1 w2 tree idx Hm Hr Hb Hi;
    cbn [iterL ht_sign ht_calls].
  - destruct mid; [|discriminate]. do 6 eexists. reflexivity.
  - set (B := (SPX_WOTS_BYTES P + TH * N)%nat) in *.
    assert (exists m1 m2, mid = m1 ++ m2 /\ length m1 = B /\ length m2 = (k * B)%nat)
      as (m1 & m2 & -> & Hm1 & Hm2).
    { exists (firstn B mid), (skipn B mid).
      rewrite firstn_skipn, firstn_length, skipn_length. repeat split; lia. }
    unfold sign_layerL at 1.
    rewrite set_layer_enc. cbn [bind]. rewrite set_tree_enc. cbn [bind].
    rewrite copy_subtree_enc. cbn [bind]. rewrite set_keypair_enc. cbn [bind].
    unfold with_layer, with_tree, with_kp; cbn [a_layer a_tree a_type a_kp a_w1 a_w2].
    replace (pre ++ (m1 ++ m2) ++ tail) with (pre ++ m1 ++ (m2 ++ tail)) by now rewrite !app_assoc.
    fold B. rewrite rd_app' by auto. cbn [bind].
    destruct (merkle_sign_okL P HS c junk Hwf Hok Hc (Z.of_nat i) tree m1 root
                T_WOTS_HASH idx u1 u2 T_TREE w1 w2 idx Hm1 Hr Hb Hi) as (w1' & w2' & E0).
    rewrite E0, lbind_some.
    set (x := xmss_sign D T PRF (Z.of_nat i) tree idx root).
    assert (Hx : length (concat x) = B).
    { rewrite (chunks_length N).
      - unfold x. rewrite xmss_sign_length. unfold B. apply Nat.mul_add_distr_r.
      - now apply xmss_sign_chunks. }
    rewrite wr_app' by congruence. cbn [bind]. rewrite run_lret, lbind_some.
    rewrite shiftr_TH, land_TH.
    destruct (xmss_root_props P HS c Hwf Hok Hc (Z.of_nat i) tree) as (R1 & R2).
    destruct (IH (S i) (pre ++ concat x) m2 tail (xmss_root D T PRF (Z.of_nat i) tree)
                (Z.of_nat i) tree idx u1 u2 (Z.of_nat i) tree w1' w2'
                (tree / 2 ^ Z.of_nat TH) (tree mod 2 ^ Z.of_nat TH) Hm2 R1 R2 (mod_TH P tree))
      as (sp & r & wa & ta & t' & i' & E2).
    exists sp, r, wa, ta, t', i'.
    rewrite app_length, Hx, <- !app_assoc in E2. rewrite E2, run_some.
    replace (Z.of_nat (S i)) with (Z.of_nat i + 1) by lia.
    rewrite concat_app, map_app, <- !app_assoc. reflexivity.
Qed.

Lemma verify_layersL k : forall i pre cs tail root l0 t0 k0 u1 u2 tl tt w1 w2 l1 t1 k1 tree idx,
  chunks_of N cs -> length cs = (k * (LEN + TH))%nat ->
  length root = N -> all_bytes root -> 0 <= u2 < 256 ->
  exists sp wa ta wpa t' i',
    iterL k i (verify_layerL P HS junk c (pre ++ concat cs ++ tail))
      (length pre, root, enc L (mkAdrs l0 t0 T_WOTS_HASH k0 u1 u2),
       enc L (mkAdrs tl tt T_TREE 0 w1 w2), enc L (mkAdrs l1 t1 T_WOTS_PK k1 0 0), tree, idx)
    = Some ((sp, ht_root_of_sig D T k (Z.of_nat i) tree idx root cs, wa, ta, wpa, t', i'),
            map E (ht_of_sig_calls D T k (Z.of_nat i) tree idx root cs)).
Proof.
  induction k as [|k IH];
    intros i pre cs tail root l0 t0 k0 u1 u2 tl tt w1 w2 l1 t1 k1 tree idx Hcs Hl Hr Hb Hu;
    cbn [iterL ht_root_of_sig ht_of_sig_calls].
  - do 6 eexists. reflexivity.
  - change (s_len D) with LEN. change (s_hp D) with TH.
    assert (exists a b r, cs = a ++ b ++ r /\ length a = LEN /\ length b = TH
              /\ length r = (k * (LEN + TH))%nat) as (a & b & r & -> & Ha & Hb' & Hr').
    { exists (firstn LEN cs), (firstn TH (skipn LEN cs)), (skipn TH (skipn LEN cs)).
      rewrite !firstn_skipn, !firstn_length, !skipn_length. repeat split; lia. }
    apply chunks_app in Hcs. destruct Hcs as (Ca & Hcs).
    apply chunks_app in Hcs. destruct Hcs as (Cb & Cr).
    unfold verify_layerL at 1.
    rewrite set_layer_enc. cbn [bind]. rewrite set_tree_enc. cbn [bind].
    rewrite copy_subtree_enc. cbn [bind]. rewrite set_keypair_enc. cbn [bind].
    rewrite copy_keypair_enc. cbn [bind].
    unfold with_layer, with_tree, with_kp; cbn [a_layer a_tree a_type a_kp a_w1 a_w2].
    assert (La : length (concat a) = SPX_WOTS_BYTES P) by (rewrite (chunks_length N), Ha; auto).
    assert (Lb : length (concat b) = (TH * N)%nat) by (rewrite (chunks_length N), Hb'; auto).
    rewrite !concat_app.
    replace (pre ++ (concat a ++ concat b ++ concat r) ++ tail)
      with (pre ++ concat a ++ concat b ++ concat r ++ tail) by now rewrite !app_assoc.
    rewrite rd_app' by auto. cbn [bind].
    pose proof (chain_lengths_ok P Hwf root Hr Hb) as Els.
    destruct (wots_pk_from_sig_genL P HS c junk Hwf Hok Hc (Z.of_nat i) tree idx
                (wots_lengths D root) a root u1 u2 Els) as (u1' & u2' & E0 & Hu'); auto.
    { apply (wots_lengths_length D). }
    { apply (wots_lengths_range D). cbn. pose proof (W_pos P Hwf). lia. }
    rewrite E0, lbind_some.
    destruct (pk_blocks_chunks P HS c Hwf Hok Hc (Z.of_nat i) tree idx (wots_lengths D root) a Ca Ha)
      as (Pc & Pl).
    rewrite (thash_encL P HS c Hn Hok Hc LEN) by (rewrite (chunks_length N), Pl; auto). rewrite lbind_some.
    replace (length pre + SPX_WOTS_BYTES P)%nat with (length (pre ++ concat a))
      by (rewrite app_length; lia).
    replace (pre ++ concat a ++ concat b ++ concat r ++ tail)
      with ((pre ++ concat a) ++ concat b ++ (concat r ++ tail)) by now rewrite !app_assoc.
    rewrite rd_app' by auto. cbn [bind].
    set (leaf := codeT P HS c _ _).
    assert (Lleaf : length leaf = N).
    { apply (codeT_len P HS c Hn Hok Hc LEN). rewrite (chunks_length N), Pl; auto. }
    destruct (wf_tree P Hwf) as (Hth & _).
    destruct (compute_root_okL P HS c junk Hn Hok Hc (Z.of_nat i) tree T_TREE 0 TH 0
                (tree_hash2 T (Z.of_nat i) tree) (tree_adrs (Z.of_nat i) tree)
                (tree_hash2_code P HS c (Z.of_nat i) tree) (tree_adrs_code P (Z.of_nat i) tree)
                b idx leaf w1 w2) as (w1' & w2' & E2); auto; try lia.
    rewrite E2, lbind_some, run_lret, !run_some.
    rewrite lbind_some.
    rewrite shiftr_TH, land_TH.
    destruct (climb_root_props P HS c Hwf Hok Hc (Z.of_nat i) tree idx leaf b Lleaf Cb Hb') as (R1 & R2).
    replace ((pre ++ concat a) ++ concat b ++ concat r ++ tail)
      with ((pre ++ concat a ++ concat b) ++ concat r ++ tail) by now rewrite !app_assoc.
    replace (length (pre ++ concat a) + TH * N)%nat with (length (pre ++ concat a ++ concat b))
      by (rewrite !app_length; lia).
    destruct (IH (S i) (pre ++ concat a ++ concat b) r tail
                (climb (tree_hash2 T (Z.of_nat i) tree) 0 idx leaf b)
                (Z.of_nat i) tree idx u1' u2' (Z.of_nat i) tree w1' w2' (Z.of_nat i) tree idx
                (tree / 2 ^ Z.of_nat TH) (tree mod 2 ^ Z.of_nat TH) Cr Hr' R1 R2 Hu')
      as (sp & wa & ta & wpa & t' & i' & E3).
    exists sp, wa, ta, wpa, t', i'. rewrite E3, run_some.
    replace (Z.of_nat (S i)) with (Z.of_nat i + 1) by lia.
    replace (firstn (LEN + TH) (a ++ b ++ r)) with (a ++ b).
    2:{ rewrite (app_assoc a b r). symmetry. apply firstn_app_len. rewrite app_length. lia. }
    replace (skipn (LEN + TH) (a ++ b ++ r)) with r.
    2:{ rewrite (app_assoc a b r). symmetry. apply skipn_app_len. rewrite app_length. lia. }
    unfold xmss_root_of_sig, xmss_of_sig_calls, wots_pk_of_sig_calls. change (s_len D) with LEN.
    rewrite firstn_app_len, skipn_app_len by auto.
    rewrite !map_app, <- !app_assoc. reflexivity.
Qed.
End Layers.

Section Api.
Variable P : params.
Variable HS : suite.
Variable junk : nat -> nat -> Z.
Notation N := (p_n P).
Notation L := (hs_layout HS).
Notation TH := (SPX_TREE_HEIGHT P).
Notation D := (dims_of P).
Hypothesis Hwf : wf_params P = true.
Hypothesis Hok : suite_ok P HS.
Notation Th := (codeTh P HS).
Notation Prf := (codePrf HS).
Notation Rnd := (codeRnd P HS).
Notation Hm := (codeHm P HS).
Notation E := (enc_call L).

Theorem seed_keypair_okL pk0 sk0 sk_seed sk_prf pub_seed :
  length sk_seed = N -> length sk_prf = N -> length pub_seed = N ->
  (SPX_PK_BYTES P <= length pk0)%nat -> (SPX_SK_BYTES P <= length sk0)%nat ->
  seed_keypairL P HS junk pk0 sk0 (sk_seed ++ sk_prf ++ pub_seed)
  = Some ((0, spx_pk D Th Prf sk_seed pub_seed ++ skipn (SPX_PK_BYTES P) pk0,
          spx_sk D Th Prf sk_seed sk_prf pub_seed ++ skipn (SPX_SK_BYTES P) sk0),
          map E (keygen_calls D (Th pub_seed) (Prf pub_seed sk_seed))).
Proof.
  intros Hs Hp Hu Hpk Hsk.
  unfold SPX_PK_BYTES in *. unfold SPX_SK_BYTES in *. unfold SPX_PK_BYTES in *.
  assert (exists p1 p2 pr, pk0 = p1 ++ p2 ++ pr /\ length p1 = N /\ length p2 = N)
    as (p1 & p2 & pr & -> & P1 & P2).
  { exists (firstn N pk0), (firstn N (skipn N pk0)), (skipn N (skipn N pk0)).
    rewrite !firstn_skipn, !firstn_length, !skipn_length. repeat split; lia. }
  assert (exists s1 s2 sr, sk0 = s1 ++ s2 ++ sr /\ length s1 = (3 * N)%nat /\ length s2 = N)
    as (s1 & s2 & sr & -> & S1 & S2).
  { exists (firstn (3 * N) sk0), (firstn N (skipn (3 * N) sk0)), (skipn N (skipn (3 * N) sk0)).
    rewrite !firstn_skipn, !firstn_length, !skipn_length. repeat split; lia. }
  set (seed := sk_seed ++ sk_prf ++ pub_seed).
  assert (Hseed : length seed = (3 * N)%nat) by (unfold seed; rewrite !app_length; lia).
  unfold seed_keypairL. unfold CRYPTO_SEEDBYTES.
  rewrite rd_all by lia. cbn [bind].
  rewrite wr_app0 by lia. cbn [bind].
  unfold seed at 1. rewrite <- !app_assoc.
  rewrite (app_assoc sk_seed sk_prf).
  rewrite (rd_app' (sk_seed ++ sk_prf) pub_seed) by (rewrite ?app_length; lia). cbn [bind].
  rewrite wr_app0 by lia. cbn [bind].
  rewrite rd_app0 by lia. cbn [bind].
  unfold seed at 1. rewrite <- !app_assoc, rd_app0 by lia. cbn [bind].
  rewrite rd_app' by lia. cbn [bind].
  fold (code_ctx HS pub_seed sk_seed).
  pose proof (code_ctx_ok P HS pub_seed sk_seed Hu Hs) as Hc.
  rewrite merkle_gen_root_okL by auto. rewrite lbind_some.
  set (root := ht_root D _ _).
  destruct (xmss_root_props P HS _ Hwf Hok Hc (Z.of_nat (s_d D) - 1) 0) as (R1 & _).
  assert (Hroot : length root = N) by exact R1.
  rewrite wr_app' by lia. cbn [bind]. rewrite rd_app' by lia. cbn [bind].
  rewrite wr_app' by lia. cbn [bind].
  assert (Er : spx_root D Th Prf sk_seed pub_seed = root).
  { apply ht_root_ext; [intros; apply (codeT_sk P HS Hok)|reflexivity]. }
  rewrite run_lret, (keygen_calls_ext D (Th pub_seed) (codeT P HS (code_ctx HS pub_seed sk_seed)) (Prf pub_seed sk_seed)
    (codePRF HS (code_ctx HS pub_seed sk_seed))) by (intros; first [apply (codeT_sk P HS Hok) | reflexivity]).
  unfold spx_pk, spx_sk. rewrite Er. unfold seed.
  rewrite !(app_assoc p1), !(app_assoc s1), !skipn_app_len by (rewrite app_length; lia).
  now rewrite <- !app_assoc.
Qed.

Theorem sign_signature_okL sig0 sk_seed sk_prf pub_seed root sktail optrand rest m :
  length sk_seed = N -> length sk_prf = N -> length pub_seed = N -> length root = N ->
  length optrand = N -> (SPX_BYTES P <= length sig0)%nat ->
  signatureL P HS junk (optrand ++ rest) sig0 m
    (sk_seed ++ sk_prf ++ pub_seed ++ root ++ sktail)
  = Some ((0, spx_sign D Th Prf Rnd Hm sk_seed sk_prf pub_seed root optrand m
             ++ skipn (SPX_BYTES P) sig0, Z.of_nat (SPX_BYTES P), rest),
     let R := Rnd pub_seed sk_prf optrand m in
     let '(md, tree, leaf) := Hm pub_seed R (pub_seed ++ root) m in
     [MsgRandom sk_prf optrand m; MsgHash R (pub_seed ++ root) m]
     ++ map E (sign_calls D (Th pub_seed) (Prf pub_seed sk_seed) md tree leaf)).
Proof.
  intros Hs Hp Hu Hr Ho Hsig.
  unfold signatureL.
  rewrite (rd_app' sk_seed sk_prf) by lia. cbn [bind].
  rewrite (app_assoc pub_seed root), (app_assoc sk_seed sk_prf), rd_app'
    by (unfold SPX_PK_BYTES; rewrite ?app_length; lia). cbn [bind].
  rewrite <- app_assoc, rd_app0 by lia. cbn [bind].
  rewrite rd_app0 by lia. cbn [bind].
  rewrite !(zero_addr_enc L), !set_type_enc. cbn [bind].
  unfold randombytes. rewrite rd_app0 by lia. cbn [bind].
  rewrite skipn_app_len by lia.
  fold (code_ctx HS pub_seed sk_seed).
  pose proof (code_ctx_ok P HS pub_seed sk_seed Hu Hs) as Hc.
  destruct (rnd_ok P HS Hok pub_seed sk_seed sk_prf optrand m Hu Hs Hp Ho) as (ER & HR).
  rewrite ER. cbn [logged]. rewrite lbind_some. set (R := codeRnd P HS pub_seed sk_prf optrand m) in *.
  pose proof (spx_bytes_eq P Hwf) as HB.
  set (BL := (SPX_WOTS_BYTES P + TH * N)%nat) in *.
  assert (exists s1 s2 s3, sig0 = s1 ++ s2 ++ s3 ++ skipn (SPX_BYTES P) sig0
            /\ length s1 = N /\ length s2 = SPX_FORS_BYTES P /\ length s3 = (p_d P * BL)%nat)
    as (s1 & s2 & s3 & E0 & S1 & S2 & S3).
  { exists (firstn N sig0), (firstn (SPX_FORS_BYTES P) (skipn N sig0)),
      (firstn (p_d P * BL) (skipn (SPX_FORS_BYTES P) (skipn N sig0))).
    rewrite !firstn_length, !skipn_length.
    split; [|repeat split; lia].
    replace (skipn (SPX_BYTES P) sig0)
      with (skipn (p_d P * BL) (skipn (SPX_FORS_BYTES P) (skipn N sig0))).
    { now rewrite !firstn_skipn. }
    rewrite !skipn_skipn. f_equal. lia. }
  set (tail := skipn (SPX_BYTES P) sig0) in *.
  rewrite E0. clear E0.
  rewrite wr_app0 by lia. cbn [bind]. rewrite rd_app0 by lia. cbn [bind].
  assert (Hpk : length (pub_seed ++ root) = SPX_PK_BYTES P)
    by (rewrite app_length; unfold SPX_PK_BYTES; lia).
  destruct (hm_ok P HS Hok pub_seed sk_seed R (pub_seed ++ root) m Hu Hs HR Hpk)
    as (md & tree & idx & EH & EH' & Hmd & Hmb & Ht & Hi).
  rewrite EH. cbn [logged]. rewrite lbind_some. cbv zeta. unfold spx_sign. fold R. rewrite EH'.
  rewrite set_tree_enc. cbn [bind]. rewrite set_keypair_enc. cbn [bind].
  unfold with_type, with_tree, with_kp; cbn [a_layer a_tree a_type a_kp a_w1 a_w2 adrs0].
  rewrite rd_app' by lia. cbn [bind].
  rewrite (fors_sign_okL P HS _ junk Hwf Hok Hc tree idx) by auto. rewrite lbind_some.
  set (fs := concat _).
  assert (Hfs : length fs = SPX_FORS_BYTES P).
  { unfold fs. rewrite (chunks_length N) by (apply (fors_sign_chunks P HS _ Hwf Hok Hc tree idx)).
    rewrite fors_sign_length. unfold SPX_FORS_BYTES. cbn. ring. }
  rewrite wr_app' by lia. cbn [bind].
  destruct (fors_pk_props P HS _ Hwf Hok Hc tree idx) as (F1 & F2).
  change SPX_ADDR_TYPE_WOTS with T_WOTS_HASH. change SPX_ADDR_TYPE_HASHTREE with T_TREE.
  destruct (sign_layersL P HS _ junk Hwf Hok Hc (p_d P) 0 (R ++ fs) s3 tail _ 0 tree idx 0 0 0 0 0 0
              tree idx S3 F1 F2 Hi) as (sp & r & wa & ta & t' & i' & EL).
  rewrite app_length, HR, Hfs, <- !app_assoc in EL. rewrite EL, lbind_some, run_lret, !run_some.
  rewrite (spx_sign_body_ext D _ (codeT P HS (code_ctx HS pub_seed sk_seed)) _
             (Prf pub_seed sk_seed)) by (intros; first [apply (codeT_sk P HS Hok) | reflexivity]).
  rewrite (sign_calls_ext D (Th pub_seed) (codeT P HS (code_ctx HS pub_seed sk_seed)) (Prf pub_seed sk_seed)
    (codePRF HS (code_ctx HS pub_seed sk_seed))) by (intros; first [apply (codeT_sk P HS Hok) | reflexivity]).
  unfold spx_sign_body, sign_calls. rewrite concat_app, map_app, <- !app_assoc. reflexivity.
Qed.

Theorem verify_okL R cs tail m pub_seed root ptail :
  length R = N -> chunks_of N cs -> length (concat cs) = (SPX_BYTES P - N)%nat ->
  length pub_seed = N -> length root = N ->
  exists r,
    verifyL P HS junk (R ++ concat cs ++ tail) (Z.of_nat (SPX_BYTES P)) m
      (pub_seed ++ root ++ ptail)
    = Some (r, let '(md, tree, leaf) := Hm pub_seed R (pub_seed ++ root) m in
               MsgHash R (pub_seed ++ root) m :: map E (verify_calls D (Th pub_seed) md tree leaf cs)).
Proof.
  intros HR Hcs Hl Hu Hr.
  assert (Hn : (1 <= N)%nat) by (pose proof (wf_n P Hwf); lia).
  unfold verifyL. rewrite Z.eqb_refl. cbn [negb].
  rewrite rd_app0 by lia. cbn [bind].
  rewrite !(zero_addr_enc L), !set_type_enc. cbn [bind].
  rewrite rd_app0 by lia. cbn [bind].
  rewrite (app_assoc pub_seed root ptail), rd_app0
    by (unfold SPX_PK_BYTES; rewrite ?app_length; lia). cbn [bind].
  set (sk := junk_bytes (junk 10) N).
  assert (Hsk : length sk = N) by apply junk_length.
  fold (code_ctx HS pub_seed sk).
  pose proof (code_ctx_ok P HS pub_seed sk Hu Hsk) as Hc.
  assert (Hpk : length (pub_seed ++ root) = SPX_PK_BYTES P)
    by (rewrite app_length; unfold SPX_PK_BYTES; lia).
  destruct (hm_ok P HS Hok pub_seed sk R (pub_seed ++ root) m Hu Hsk HR Hpk)
    as (md & tree & idx & EH & EH' & Hmd & Hmb & Ht & Hi).
  rewrite EH. cbn [logged]. rewrite lbind_some, EH'.
  rewrite set_tree_enc. cbn [bind]. rewrite set_keypair_enc. cbn [bind].
  unfold with_type, with_tree, with_kp; cbn [a_layer a_tree a_type a_kp a_w1 a_w2 adrs0].
  pose proof (spx_bytes_eq P Hwf) as HB.
  set (BL := (SPX_WOTS_LEN P + TH)%nat) in *.
  set (nf := (p_ft P * (p_fh P + 1))%nat).
  assert (HF : SPX_FORS_BYTES P = (nf * N)%nat) by (unfold SPX_FORS_BYTES, nf; ring).
  assert (HBL : (SPX_WOTS_BYTES P + TH * N = BL * N)%nat) by (unfold SPX_WOTS_BYTES, BL; ring).
  assert (Hlc : length cs = (nf + p_d P * BL)%nat).
  { rewrite (chunks_length N) in Hl by auto.
    rewrite HB, HF, HBL in Hl.
    assert (length cs * N = (nf + p_d P * BL) * N)%nat.
    { rewrite Hl, <- Nat.add_assoc, (Nat.add_comm N), Nat.add_sub. ring. }
    apply Nat.mul_cancel_r in H; lia. }
  assert (exists fs hs, cs = fs ++ hs /\ length fs = nf /\ length hs = (p_d P * BL)%nat)
    as (fs & hs & -> & Hf & Hh).
  { exists (firstn nf cs), (skipn nf cs).
    rewrite firstn_skipn, firstn_length, skipn_length. repeat split; lia. }
  apply chunks_app in Hcs. destruct Hcs as (Cf & Ch).
  rewrite concat_app, <- !app_assoc.
  assert (Lf : length (concat fs) = SPX_FORS_BYTES P) by (rewrite (chunks_length N), Hf; auto).
  rewrite rd_app' by lia. cbn [bind].
  rewrite (fors_pk_from_sig_okL P HS _ junk Hwf Hok Hc tree idx) by auto. rewrite lbind_some.
  set (fpk := fors_pk_of_sig D _ tree idx md fs).
  assert (F12 : length fpk = N /\ all_bytes fpk).
  { split; [|apply (codeT_bytes P HS _ Hok)].
    apply (codeT_len P HS _ Hn Hok Hc (p_ft P)).
    rewrite (chunks_length N). { now rewrite map_length, seq_length. }
    apply Forall_forall. intros x Hx. apply in_map_iff in Hx. destruct Hx as (t & <- & Htt).
    apply in_seq in Htt. cbn [s_k dims_of] in Htt.
    unfold fors_root_of_sig. cbn [s_a dims_of].
    set (b := firstn (p_fh P + 1) (skipn (t * (p_fh P + 1)) fs)).
    assert (Cb : chunks_of N b).
    { unfold b. rewrite <- (firstn_skipn (t * (p_fh P + 1)) fs) in Cf. apply chunks_app in Cf.
      destruct Cf as (_ & Cf). rewrite <- (firstn_skipn (p_fh P + 1)) in Cf.
      apply chunks_app in Cf. apply Cf. }
    assert (Lb : length b = (p_fh P + 1)%nat).
    { unfold b. rewrite firstn_length, skipn_length, Hf. unfold nf.
      assert ((t + 1) * (p_fh P + 1) <= p_ft P * (p_fh P + 1))%nat
        by (apply Nat.mul_le_mono_r; lia). lia. }
    assert (G : forall p h i x, length x = N -> chunks_of N p ->
       length (climb (fors_hash2 D (codeT P HS (code_ctx HS pub_seed sk)) tree idx (Z.of_nat t)) h i x p)
       = N).
    { clear - Hok Hc Hn. induction p as [|s p IH]; intros h i x Hx Hp; cbn [climb]; auto.
      inversion Hp; subst. apply IH; auto.
      apply (codeT_len P HS _ Hn Hok Hc 2). destruct (Z.even i); rewrite app_length; lia. }
    destruct b as [|b0 b']; [cbn in Lb; lia|]. inversion Cb; subst.
    apply G; auto. cbn [hd]. apply (codeT_len P HS _ Hn Hok Hc 1). lia. }
  destruct F12 as (F1 & F2).
  change SPX_ADDR_TYPE_WOTS with T_WOTS_HASH. change SPX_ADDR_TYPE_HASHTREE with T_TREE.
  change SPX_ADDR_TYPE_WOTSPK with T_WOTS_PK.
  destruct (verify_layersL P HS _ junk Hwf Hok Hc (p_d P) 0 (R ++ concat fs) hs tail fpk
              0 tree idx 0 0 0 0 0 0 0 0 0 tree idx Ch Hh F1 F2)
    as (sp & wa & ta & wpa & t' & i' & EL); [lia|].
  rewrite app_length, HR, Lf, <- !app_assoc in EL. rewrite EL, lbind_some. clear EL.
  rewrite rd_app' by lia. cbn [bind].
  set (rt := ht_root_of_sig D _ _ _ _ _ _ _).
  assert (Lrt : length rt = N).
  { unfold rt. rewrite (ht_root_of_sig_ext D _ (Th pub_seed)) by (intros; apply (codeT_sk P HS Hok)).
    apply (ht_root_of_sig_len P HS Hwf Hok); auto. }
  rewrite rd_all by lia. cbn [bind].
  assert (Elog : map E (fors_of_sig_calls D (codeT P HS (code_ctx HS pub_seed sk)) tree idx md fs)
      ++ map E (ht_of_sig_calls D (codeT P HS (code_ctx HS pub_seed sk)) (p_d P) 0 tree idx fpk hs)
      = map E (verify_calls D (Th pub_seed) md tree idx (fs ++ hs))).
  { rewrite (verify_calls_ext D (Th pub_seed) (codeT P HS (code_ctx HS pub_seed sk))) by (intros; apply (codeT_sk P HS Hok)).
    unfold verify_calls. cbn [s_k s_a s_d dims_of]. cbn zeta. fold nf.
    rewrite firstn_app_len, skipn_app_len by auto. rewrite map_app. reflexivity. }
  rewrite <- Elog.
  destruct (memcmp_differs rt root); rewrite run_lret, !run_some; eexists; reflexivity.
Qed.
End Api.
