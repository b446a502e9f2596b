(** sign.c with the multi-lane callees computes the same specification as ref/sign.c. *)
From Verif Require Import Base BaseFacts Params Address Suite Utils Wots Fors Merkle Sign
  Spec SpecFacts SpecExt AdrsEnc AddressProofs Refine TreeProofs WotsDigitsProofs WotsProofs
  ForsProofs MerkleProofs SignProofs ApiProofs Lanes LaneWotsProofs LaneMerkleProofs SignX.

Section Layers.
Variable P : params.
Variable HS : suite.
Variable LX : lane_fns HS.
Variable lw : nat.
Variable c : ctx (hs_st HS).
Variable junk : nat -> nat -> Z.
Notation N := (p_n P).
Notation L := (hs_layout HS).
Notation W := (SPX_WOTS_W P).
Notation LEN := (SPX_WOTS_LEN P).
Notation TH := (SPX_TREE_HEIGHT P).
Hypothesis Hwf : wf_params P = true.
Hypothesis Hok : suite_ok P HS.
Hypothesis Hlx : lanes_ok P HS LX lw.
Hypothesis Hfit : lanes_fit P lw.
Hypothesis Hc : ctx_ok P HS c.
Notation T := (codeT P HS c).
Notation PRF := (codePRF HS c).
Notation D := (dims_of P).

Let Hn : (1 <= N)%nat. Proof. pose proof (wf_n P Hwf). lia. Qed.

Lemma sign_layersx k : forall i pre mid tail root l0 t0 k0 u1 u2 tl tt w1 w2 tree idx,
  length mid = (k * (SPX_WOTS_BYTES P + TH * N))%nat ->
  length root = N -> all_bytes root -> 0 <= idx < 2 ^ Z.of_nat TH ->
  exists sp r wa ta t' i',
    iterM k i (sign_layerx P HS LX lw junk c)
      (pre ++ mid ++ tail, length pre, root, enc L (mkAdrs l0 t0 T_WOTS_HASH k0 u1 u2),
       enc L (mkAdrs tl tt T_TREE 0 w1 w2), tree, idx)
    = Some (pre ++ concat (ht_sign D T PRF k (Z.of_nat i) tree idx root) ++ tail,
            sp, r, wa, ta, t', i').
Proof.
  induction k as [|k IH]; intros i pre mid tail root l0 t0 k0 u1 u2 tl tt w1 w2 tree idx Hm Hr Hb Hi;
    cbn [iterM ht_sign].
  - destruct mid; [|discriminate]. eauto 8.
  - set (B := (SPX_WOTS_BYTES P + TH * N)%nat) in *.
    assert (exists m1 m2, mid = m1 ++ m2 /\ length m1 = B /\ length m2 = (k * B)%nat)
      as (m1 & m2 & -> & Hm1 & Hm2).
    { exists (firstn B mid), (skipn B mid).
      rewrite firstn_skipn, firstn_length, skipn_length. repeat split; lia. }
    unfold sign_layerx at 1.
    rewrite set_layer_enc. cbn [bind]. rewrite set_tree_enc. cbn [bind].
    rewrite copy_subtree_enc. cbn [bind]. rewrite set_keypair_enc. cbn [bind].
    unfold with_layer, with_tree, with_kp; cbn [a_layer a_tree a_type a_kp a_w1 a_w2].
    replace (pre ++ (m1 ++ m2) ++ tail) with (pre ++ m1 ++ (m2 ++ tail)) by now rewrite !app_assoc.
    fold B. rewrite rd_app' by auto. cbn [bind].
    rewrite (merkle_signx_ok P HS LX lw c junk Hwf Hok Hlx Hc Hfit (Z.of_nat i) tree m1 root
               T_WOTS_HASH idx u1 u2 T_TREE 0 w1 w2 idx Hm1 Hr Hb Hi). cbn [bind].
    set (x := xmss_sign D T PRF (Z.of_nat i) tree idx root).
    assert (Hx : length (concat x) = B).
    { rewrite (chunks_length N).
      - unfold x. rewrite xmss_sign_length. unfold B. apply Nat.mul_add_distr_r.
      - now apply xmss_sign_chunks. }
    rewrite wr_app' by congruence. cbn [bind].
    rewrite shiftr_TH, land_TH.
    destruct (xmss_root_props P HS c Hwf Hok Hc (Z.of_nat i) tree) as (R1 & R2).
    destruct (IH (S i) (pre ++ concat x) m2 tail (xmss_root D T PRF (Z.of_nat i) tree)
                (Z.of_nat i) tree idx u1 u2 (Z.of_nat i) tree w1 w2
                (tree / 2 ^ Z.of_nat TH) (tree mod 2 ^ Z.of_nat TH) Hm2 R1 R2 (mod_TH P tree))
      as (sp & r & wa & ta & t' & i' & E2).
    exists sp, r, wa, ta, t', i'.
    rewrite app_length, Hx, <- !app_assoc in E2. rewrite E2.
    replace (Z.of_nat (S i)) with (Z.of_nat i + 1) by lia.
    rewrite concat_app, <- !app_assoc. reflexivity.
Qed.

Lemma verify_layersx k : forall i pre cs tail root l0 t0 k0 u1 u2 tl tt w1 w2 l1 t1 k1 tree idx,
  chunks_of N cs -> length cs = (k * (LEN + TH))%nat ->
  length root = N -> all_bytes root -> 0 <= u2 < 256 ->
  exists sp wa ta wpa t' i',
    iterM k i (verify_layerx P HS LX lw junk c (pre ++ concat cs ++ tail))
      (length pre, root, enc L (mkAdrs l0 t0 T_WOTS_HASH k0 u1 u2),
       enc L (mkAdrs tl tt T_TREE 0 w1 w2), enc L (mkAdrs l1 t1 T_WOTS_PK k1 0 0), tree, idx)
    = Some (sp, ht_root_of_sig D T k (Z.of_nat i) tree idx root cs, wa, ta, wpa, t', i').
Proof.
  induction k as [|k IH];
    intros i pre cs tail root l0 t0 k0 u1 u2 tl tt w1 w2 l1 t1 k1 tree idx Hcs Hl Hr Hb Hu;
    cbn [iterM ht_root_of_sig].
  - eauto 8.
  - change (s_len D) with LEN. change (s_hp D) with TH.
    assert (exists a b r, cs = a ++ b ++ r /\ length a = LEN /\ length b = TH
              /\ length r = (k * (LEN + TH))%nat) as (a & b & r & -> & Ha & Hb' & Hr').
    { exists (firstn LEN cs), (firstn TH (skipn LEN cs)), (skipn TH (skipn LEN cs)).
      rewrite !firstn_skipn, !firstn_length, !skipn_length. repeat split; lia. }
    apply chunks_app in Hcs. destruct Hcs as (Ca & Hcs).
    apply chunks_app in Hcs. destruct Hcs as (Cb & Cr).
    unfold verify_layerx at 1.
    rewrite set_layer_enc. cbn [bind]. rewrite set_tree_enc. cbn [bind].
    rewrite copy_subtree_enc. cbn [bind]. rewrite set_keypair_enc. cbn [bind].
    rewrite copy_keypair_enc. cbn [bind].
    unfold with_layer, with_tree, with_kp; cbn [a_layer a_tree a_type a_kp a_w1 a_w2].
    assert (La : length (concat a) = SPX_WOTS_BYTES P) by (rewrite (chunks_length N), Ha; auto).
    assert (Lb : length (concat b) = (TH * N)%nat) by (rewrite (chunks_length N), Hb'; auto).
    rewrite !concat_app.
    replace (pre ++ (concat a ++ concat b ++ concat r) ++ tail)
      with (pre ++ concat a ++ concat b ++ concat r ++ tail) by now rewrite !app_assoc.
    rewrite rd_app' by auto. cbn [bind].
    pose proof (chain_lengths_ok P Hwf root Hr Hb) as Els.
    rewrite (wots_pk_from_sigx_gen P HS LX lw c junk Hwf Hok Hlx Hc (Z.of_nat i) tree idx
               (wots_lengths D root) a root u1 u2 Els); auto.
    2:{ apply (wots_lengths_length D). }
    2:{ apply (wots_lengths_range D). cbn. pose proof (W_pos P Hwf). lia. }
    cbn [bind].
    destruct (pk_blocks_chunks P HS c Hwf Hok Hc (Z.of_nat i) tree idx (wots_lengths D root) a Ca Ha)
      as (Pc & Pl).
    rewrite (thash_enc P HS c Hn Hok Hc LEN) by (rewrite (chunks_length N), Pl; auto). cbn [bind].
    replace (length pre + SPX_WOTS_BYTES P)%nat with (length (pre ++ concat a))
      by (rewrite app_length; lia).
    replace (pre ++ concat a ++ concat b ++ concat r ++ tail)
      with ((pre ++ concat a) ++ concat b ++ (concat r ++ tail)) by now rewrite !app_assoc.
    rewrite rd_app' by auto. cbn [bind].
    set (leaf := codeT P HS c _ _).
    assert (Lleaf : length leaf = N).
    { apply (codeT_len P HS c Hn Hok Hc LEN). rewrite (chunks_length N), Pl; auto. }
    destruct (wf_tree P Hwf) as (Hth & _).
    destruct (compute_root_ok P HS c junk Hn Hok Hc (Z.of_nat i) tree T_TREE 0 TH 0
                (tree_hash2 T (Z.of_nat i) tree) (tree_hash2_code P HS c (Z.of_nat i) tree)
                b idx leaf w1 w2) as (w1' & w2' & E2); auto; try lia.
    rewrite E2. cbn [bind].
    rewrite shiftr_TH, land_TH.
    destruct (climb_root_props P HS c Hwf Hok Hc (Z.of_nat i) tree idx leaf b Lleaf Cb Hb') as (R1 & R2).
    replace ((pre ++ concat a) ++ concat b ++ concat r ++ tail)
      with ((pre ++ concat a ++ concat b) ++ concat r ++ tail) by now rewrite !app_assoc.
    replace (length (pre ++ concat a) + TH * N)%nat with (length (pre ++ concat a ++ concat b))
      by (rewrite !app_length; lia).
    destruct (IH (S i) (pre ++ concat a ++ concat b) r tail
                (climb (tree_hash2 T (Z.of_nat i) tree) 0 idx leaf b)
                (Z.of_nat i) tree idx u1 u2 (Z.of_nat i) tree w1' w2' (Z.of_nat i) tree idx
                (tree / 2 ^ Z.of_nat TH) (tree mod 2 ^ Z.of_nat TH) Cr Hr' R1 R2 Hu)
      as (sp & wa & ta & wpa & t' & i' & E3).
    exists sp, wa, ta, wpa, t', i'. rewrite E3.
    replace (Z.of_nat (S i)) with (Z.of_nat i + 1) by lia.
    do 7 f_equal.
    replace (firstn (LEN + TH) (a ++ b ++ r)) with (a ++ b).
    2:{ rewrite (app_assoc a b r). symmetry. apply firstn_app_len. rewrite app_length. lia. }
    replace (skipn (LEN + TH) (a ++ b ++ r)) with r.
    2:{ rewrite (app_assoc a b r). symmetry. apply skipn_app_len. rewrite app_length. lia. }
    f_equal. unfold xmss_root_of_sig.
    rewrite firstn_app_len, skipn_app_len by auto. reflexivity.
Qed.

End Layers.

Section Api.
Variable P : params.
Variable HS : suite.
Variable LX : lane_fns HS.
Variable lw : nat.
Notation N := (p_n P).
Notation L := (hs_layout HS).
Notation TH := (SPX_TREE_HEIGHT P).
Notation D := (dims_of P).
Hypothesis Hwf : wf_params P = true.
Hypothesis Hok : suite_ok P HS.
Hypothesis Hlx : lanes_ok P HS LX lw.
Hypothesis Hfit : lanes_fit P lw.
Notation Th := (codeTh P HS).
Notation Prf := (codePrf HS).
Notation Rnd := (codeRnd P HS).
Notation Hm := (codeHm P HS).

Section Junk.
Variable junk : nat -> nat -> Z.

Theorem seed_keypairx_ok pk0 sk0 sk_seed sk_prf pub_seed :
  length sk_seed = N -> length sk_prf = N -> length pub_seed = N ->
  (SPX_PK_BYTES P <= length pk0)%nat -> (SPX_SK_BYTES P <= length sk0)%nat ->
  crypto_sign_seed_keypairx P HS LX lw junk pk0 sk0 (sk_seed ++ sk_prf ++ pub_seed)
  = Some (0, spx_pk D Th Prf sk_seed pub_seed ++ skipn (SPX_PK_BYTES P) pk0,
          spx_sk D Th Prf sk_seed sk_prf pub_seed ++ skipn (SPX_SK_BYTES P) sk0).
Proof.
  intros Hs Hp Hu Hpk Hsk.
  unfold SPX_PK_BYTES in *. unfold SPX_SK_BYTES in *. unfold SPX_PK_BYTES in *.
  assert (exists p1 p2 pr, pk0 = p1 ++ p2 ++ pr /\ length p1 = N /\ length p2 = N)
    as (p1 & p2 & pr & -> & P1 & P2).
  { exists (firstn N pk0), (firstn N (skipn N pk0)), (skipn N (skipn N pk0)).
    rewrite !firstn_skipn, !firstn_length, !skipn_length. repeat split; lia. }
  assert (exists s1 s2 sr, sk0 = s1 ++ s2 ++ sr /\ length s1 = (3 * N)%nat /\ length s2 = N)
    as (s1 & s2 & sr & -> & S1 & S2).
  { exists (firstn (3 * N) sk0), (firstn N (skipn (3 * N) sk0)), (skipn N (skipn (3 * N) sk0)).
    rewrite !firstn_skipn, !firstn_length, !skipn_length. repeat split; lia. }
  set (seed := sk_seed ++ sk_prf ++ pub_seed).
  assert (Hseed : length seed = (3 * N)%nat) by (unfold seed; rewrite !app_length; lia).
  unfold crypto_sign_seed_keypairx. unfold CRYPTO_SEEDBYTES.
  rewrite rd_all by lia. cbn [bind].
  rewrite wr_app0 by lia. cbn [bind].
  unfold seed at 1. rewrite <- !app_assoc.
  rewrite (app_assoc sk_seed sk_prf).
  rewrite (rd_app' (sk_seed ++ sk_prf) pub_seed) by (rewrite ?app_length; lia). cbn [bind].
  rewrite wr_app0 by lia. cbn [bind].
  rewrite rd_app0 by lia. cbn [bind].
  unfold seed at 1. rewrite <- !app_assoc, rd_app0 by lia. cbn [bind].
  rewrite rd_app' by lia. cbn [bind].
  fold (code_ctx HS pub_seed sk_seed).
  pose proof (code_ctx_ok P HS pub_seed sk_seed Hu Hs) as Hc.
  rewrite merkle_gen_rootx_ok by auto. cbn [bind].
  set (root := ht_root D _ _).
  destruct (xmss_root_props P HS _ Hwf Hok Hc (Z.of_nat (s_d D) - 1) 0) as (R1 & _).
  assert (Hroot : length root = N) by exact R1.
  rewrite wr_app' by lia. cbn [bind]. rewrite rd_app' by lia. cbn [bind].
  rewrite wr_app' by lia. cbn [bind].
  assert (Er : spx_root D Th Prf sk_seed pub_seed = root).
  { apply ht_root_ext; [intros; apply (codeT_sk P HS Hok)|reflexivity]. }
  unfold spx_pk, spx_sk. rewrite Er. unfold seed.
  rewrite !(app_assoc p1), !(app_assoc s1), !skipn_app_len by (rewrite app_length; lia).
  now rewrite <- !app_assoc.
Qed.

Theorem sign_signaturex_ok sig0 sk_seed sk_prf pub_seed root sktail optrand rest m :
  length sk_seed = N -> length sk_prf = N -> length pub_seed = N -> length root = N ->
  length optrand = N -> (SPX_BYTES P <= length sig0)%nat ->
  crypto_sign_signaturex P HS LX lw junk (optrand ++ rest) sig0 m
    (sk_seed ++ sk_prf ++ pub_seed ++ root ++ sktail)
  = Some (0, spx_sign D Th Prf Rnd Hm sk_seed sk_prf pub_seed root optrand m
             ++ skipn (SPX_BYTES P) sig0, Z.of_nat (SPX_BYTES P), rest).
Proof.
  intros Hs Hp Hu Hr Ho Hsig.
  unfold crypto_sign_signaturex.
  rewrite (rd_app' sk_seed sk_prf) by lia. cbn [bind].
  rewrite (app_assoc pub_seed root), (app_assoc sk_seed sk_prf), rd_app'
    by (unfold SPX_PK_BYTES; rewrite ?app_length; lia). cbn [bind].
  rewrite <- app_assoc, rd_app0 by lia. cbn [bind].
  rewrite rd_app0 by lia. cbn [bind].
  rewrite !(zero_addr_enc L), !set_type_enc. cbn [bind].
  unfold randombytes. rewrite rd_app0 by lia. cbn [bind].
  rewrite skipn_app_len by lia.
  fold (code_ctx HS pub_seed sk_seed).
  pose proof (code_ctx_ok P HS pub_seed sk_seed Hu Hs) as Hc.
  destruct (rnd_ok P HS Hok pub_seed sk_seed sk_prf optrand m Hu Hs Hp Ho) as (ER & HR).
  rewrite ER. cbn [bind]. set (R := codeRnd P HS pub_seed sk_prf optrand m) in *.
  pose proof (spx_bytes_eq P Hwf) as HB.
  set (BL := (SPX_WOTS_BYTES P + TH * N)%nat) in *.
  assert (exists s1 s2 s3, sig0 = s1 ++ s2 ++ s3 ++ skipn (SPX_BYTES P) sig0
            /\ length s1 = N /\ length s2 = SPX_FORS_BYTES P /\ length s3 = (p_d P * BL)%nat)
    as (s1 & s2 & s3 & E0 & S1 & S2 & S3).
  { exists (firstn N sig0), (firstn (SPX_FORS_BYTES P) (skipn N sig0)),
      (firstn (p_d P * BL) (skipn (SPX_FORS_BYTES P) (skipn N sig0))).
    rewrite !firstn_length, !skipn_length.
    split; [|repeat split; lia].
    replace (skipn (SPX_BYTES P) sig0)
      with (skipn (p_d P * BL) (skipn (SPX_FORS_BYTES P) (skipn N sig0))).
    { now rewrite !firstn_skipn. }
    rewrite !skipn_skipn. f_equal. lia. }
  set (tail := skipn (SPX_BYTES P) sig0) in *.
  rewrite E0. clear E0.
  rewrite wr_app0 by lia. cbn [bind]. rewrite rd_app0 by lia. cbn [bind].
  assert (Hpk : length (pub_seed ++ root) = SPX_PK_BYTES P)
    by (rewrite app_length; unfold SPX_PK_BYTES; lia).
  destruct (hm_ok P HS Hok pub_seed sk_seed R (pub_seed ++ root) m Hu Hs HR Hpk)
    as (md & tree & idx & EH & EH' & Hmd & Hmb & Ht & Hi).
  rewrite EH. cbn [bind]. unfold spx_sign. fold R. rewrite EH'.
  rewrite set_tree_enc. cbn [bind]. rewrite set_keypair_enc. cbn [bind].
  unfold with_type, with_tree, with_kp; cbn [a_layer a_tree a_type a_kp a_w1 a_w2 adrs0].
  rewrite rd_app' by lia. cbn [bind].
  rewrite (fors_signx_ok P HS LX lw _ junk Hwf Hok Hlx Hc Hfit tree idx) by auto. cbn [bind].
  set (fs := concat _).
  assert (Hfs : length fs = SPX_FORS_BYTES P).
  { unfold fs. rewrite (chunks_length N) by now apply fors_sign_chunks.
    rewrite fors_sign_length. unfold SPX_FORS_BYTES. cbn. ring. }
  rewrite wr_app' by lia. cbn [bind].
  destruct (fors_pk_props P HS _ Hwf Hok Hc tree idx) as (F1 & F2).
  change SPX_ADDR_TYPE_WOTS with T_WOTS_HASH. change SPX_ADDR_TYPE_HASHTREE with T_TREE.
  destruct (sign_layersx P HS LX lw _ junk Hwf Hok Hlx Hfit Hc (p_d P) 0 (R ++ fs) s3 tail _ 0 tree idx 0 0 0 0 0 0
              tree idx S3 F1 F2 Hi) as (sp & r & wa & ta & t' & i' & E).
  rewrite app_length, HR, Hfs, <- !app_assoc in E. rewrite E. cbn [bind].
  rewrite <- !app_assoc. do 3 f_equal. f_equal.
  rewrite (app_assoc fs). f_equal.
  rewrite (spx_sign_body_ext D _ (codeT P HS (code_ctx HS pub_seed sk_seed)) _
             (Prf pub_seed sk_seed)) by (intros; first [apply (codeT_sk P HS Hok) | reflexivity]).
  unfold spx_sign_body. now rewrite concat_app.
Qed.

Theorem verifyx_ok R cs tail m pub_seed root ptail :
  length R = N -> chunks_of N cs -> length (concat cs) = (SPX_BYTES P - N)%nat ->
  length pub_seed = N -> length root = N ->
  exists r,
    crypto_sign_verifyx P HS LX lw junk (R ++ concat cs ++ tail) (Z.of_nat (SPX_BYTES P)) m
      (pub_seed ++ root ++ ptail) = Some r
    /\ (r = 0 \/ r = -1)
    /\ (r = 0 <-> spx_accepts D Th Hm pub_seed root m R cs).
Proof.
  intros HR Hcs Hl Hu Hr.
  assert (Hn : (1 <= N)%nat) by (pose proof (wf_n P Hwf); lia).
  unfold crypto_sign_verifyx. rewrite Z.eqb_refl. cbn [negb].
  rewrite rd_app0 by lia. cbn [bind].
  rewrite !(zero_addr_enc L), !set_type_enc. cbn [bind].
  rewrite rd_app0 by lia. cbn [bind].
  rewrite (app_assoc pub_seed root ptail), rd_app0
    by (unfold SPX_PK_BYTES; rewrite ?app_length; lia). cbn [bind].
  set (sk := junk_bytes (junk 10) N).
  assert (Hsk : length sk = N) by apply junk_length.
  fold (code_ctx HS pub_seed sk).
  pose proof (code_ctx_ok P HS pub_seed sk Hu Hsk) as Hc.
  assert (Hpk : length (pub_seed ++ root) = SPX_PK_BYTES P)
    by (rewrite app_length; unfold SPX_PK_BYTES; lia).
  destruct (hm_ok P HS Hok pub_seed sk R (pub_seed ++ root) m Hu Hsk HR Hpk)
    as (md & tree & idx & EH & EH' & Hmd & Hmb & Ht & Hi).
  rewrite EH. cbn [bind]. unfold spx_accepts. rewrite EH'.
  rewrite set_tree_enc. cbn [bind]. rewrite set_keypair_enc. cbn [bind].
  unfold with_type, with_tree, with_kp; cbn [a_layer a_tree a_type a_kp a_w1 a_w2 adrs0].
  pose proof (spx_bytes_eq P Hwf) as HB.
  set (BL := (SPX_WOTS_LEN P + TH)%nat) in *.
  set (nf := (p_ft P * (p_fh P + 1))%nat).
  assert (HF : SPX_FORS_BYTES P = (nf * N)%nat) by (unfold SPX_FORS_BYTES, nf; ring).
  assert (HBL : (SPX_WOTS_BYTES P + TH * N = BL * N)%nat) by (unfold SPX_WOTS_BYTES, BL; ring).
  assert (Hlc : length cs = (nf + p_d P * BL)%nat).
  { rewrite (chunks_length N) in Hl by auto.
    rewrite HB, HF, HBL in Hl.
    assert (length cs * N = (nf + p_d P * BL) * N)%nat.
    { rewrite Hl, <- Nat.add_assoc, (Nat.add_comm N), Nat.add_sub. ring. }
    apply Nat.mul_cancel_r in H; lia. }
  assert (exists fs hs, cs = fs ++ hs /\ length fs = nf /\ length hs = (p_d P * BL)%nat)
    as (fs & hs & -> & Hf & Hh).
  { exists (firstn nf cs), (skipn nf cs).
    rewrite firstn_skipn, firstn_length, skipn_length. repeat split; lia. }
  apply chunks_app in Hcs. destruct Hcs as (Cf & Ch).
  rewrite concat_app, <- !app_assoc.
  assert (Lf : length (concat fs) = SPX_FORS_BYTES P) by (rewrite (chunks_length N), Hf; auto).
  rewrite rd_app' by lia. cbn [bind].
  rewrite (fors_pk_from_sig_ok P HS _ junk Hwf Hok Hc tree idx) by auto. cbn [bind].
  set (fpk := fors_pk_of_sig D _ tree idx md fs).
  assert (F12 : length fpk = N /\ all_bytes fpk).
  { split; [|apply (codeT_bytes P HS _ Hok)].
    apply (codeT_len P HS _ Hn Hok Hc (p_ft P)).
    rewrite (chunks_length N). { now rewrite map_length, seq_length. }
    apply Forall_forall. intros x Hx. apply in_map_iff in Hx. destruct Hx as (t & <- & Htt).
    apply in_seq in Htt. cbn [s_k dims_of] in Htt.
    unfold fors_root_of_sig. cbn [s_a dims_of].
    set (b := firstn (p_fh P + 1) (skipn (t * (p_fh P + 1)) fs)).
    assert (Cb : chunks_of N b).
    { unfold b. rewrite <- (firstn_skipn (t * (p_fh P + 1)) fs) in Cf. apply chunks_app in Cf.
      destruct Cf as (_ & Cf). rewrite <- (firstn_skipn (p_fh P + 1)) in Cf.
      apply chunks_app in Cf. apply Cf. }
    assert (Lb : length b = (p_fh P + 1)%nat).
    { unfold b. rewrite firstn_length, skipn_length, Hf. unfold nf.
      assert ((t + 1) * (p_fh P + 1) <= p_ft P * (p_fh P + 1))%nat
        by (apply Nat.mul_le_mono_r; lia). lia. }
    assert (G : forall p h i x, length x = N -> chunks_of N p ->
       length (climb (fors_hash2 D (codeT P HS (code_ctx HS pub_seed sk)) tree idx (Z.of_nat t)) h i x p)
       = N).
    { clear - Hok Hc Hn. induction p as [|s p IH]; intros h i x Hx Hp; cbn [climb]; auto.
      inversion Hp; subst. apply IH; auto.
      apply (codeT_len P HS _ Hn Hok Hc 2). destruct (Z.even i); rewrite app_length; lia. }
    destruct b as [|b0 b']; [cbn in Lb; lia|]. inversion Cb; subst.
    apply G; auto. cbn [hd]. apply (codeT_len P HS _ Hn Hok Hc 1). lia. }
  destruct F12 as (F1 & F2).
  change SPX_ADDR_TYPE_WOTS with T_WOTS_HASH. change SPX_ADDR_TYPE_HASHTREE with T_TREE.
  change SPX_ADDR_TYPE_WOTSPK with T_WOTS_PK.
  destruct (verify_layersx P HS LX lw _ junk Hwf Hok Hlx Hc (p_d P) 0 (R ++ concat fs) hs tail fpk
              0 tree idx 0 0 0 0 0 0 0 0 0 tree idx Ch Hh F1 F2)
    as (sp & wa & ta & wpa & t' & i' & E); [lia|].
  rewrite app_length, HR, Lf, <- !app_assoc in E. rewrite E. cbn [bind]. clear E.
  rewrite rd_app' by lia. cbn [bind].
  set (rt := ht_root_of_sig D _ _ _ _ _ _ _).
  assert (Ert : rt = spx_root_of_sig D (Th pub_seed) md tree idx (fs ++ hs)).
  { unfold spx_root_of_sig. cbn [s_k s_a s_d dims_of]. fold nf.
    rewrite firstn_app_len, skipn_app_len by auto.
    unfold rt, fpk, codeTh.
    rewrite (fors_pk_of_sig_ext D _ (codeT P HS (code_ctx HS pub_seed (zero_seed P))))
      by (intros; apply (codeT_sk P HS Hok)).
    apply ht_root_of_sig_ext. intros; apply (codeT_sk P HS Hok). }
  assert (Lrt : length rt = N).
  { unfold rt. rewrite (ht_root_of_sig_ext D _ (Th pub_seed)) by (intros; apply (codeT_sk P HS Hok)).
    apply (ht_root_of_sig_len P HS Hwf Hok); auto. }
  rewrite rd_all by lia. cbn [bind]. rewrite memcmp_spec, <- Ert.
  destruct (list_eq_dec Z.eq_dec rt root) as [e|e].
  - exists 0. repeat split; auto.
  - exists (-1). repeat split; auto; try (intros; lia). intros; contradiction.
Qed.


End Junk.

(** ** The multi-lane builds and the reference build agree. *)
Theorem seed_keypairx_agree junk junk' pk0 sk0 seed :
  length seed = CRYPTO_SEEDBYTES P ->
  (SPX_PK_BYTES P <= length pk0)%nat -> (SPX_SK_BYTES P <= length sk0)%nat ->
  crypto_sign_seed_keypairx P HS LX lw junk pk0 sk0 seed
  = crypto_sign_seed_keypair P HS junk' pk0 sk0 seed.
Proof.
  intros Hs Hp Hk. destruct (seed_split P seed Hs) as (a & b & d & -> & Ha & Hb & Hd).
  rewrite seed_keypairx_ok, seed_keypair_ok; auto.
Qed.

Theorem keypairx_agree junk junk' stream pk0 sk0 :
  (SPX_PK_BYTES P <= length pk0)%nat -> (SPX_SK_BYTES P <= length sk0)%nat ->
  crypto_sign_keypairx P HS LX lw junk stream pk0 sk0
  = crypto_sign_keypair P HS junk' stream pk0 sk0.
Proof.
  intros Hp Hk. unfold crypto_sign_keypairx, crypto_sign_keypair, randombytes.
  destruct (rd stream 0 (CRYPTO_SEEDBYTES P)) as [d|] eqn:E; [|cbn [bind]; reflexivity]. cbn [bind].
  rewrite (seed_keypairx_agree junk junk'); auto. eapply rd_length; eauto.
Qed.

Theorem signaturex_agree junk junk' stream sig0 m sk :
  (SPX_SK_BYTES P <= length sk)%nat -> (N <= length stream)%nat -> (SPX_BYTES P <= length sig0)%nat ->
  crypto_sign_signaturex P HS LX lw junk stream sig0 m sk
  = crypto_sign_signature P HS junk' stream sig0 m sk.
Proof.
  intros Hk Hs Hg. destruct (sk_split P sk Hk) as (a & b & d & e & t & -> & Ha & Hb & Hd & He).
  destruct (stream_split P stream Hs) as (o & r & -> & Ho).
  rewrite sign_signaturex_ok, sign_signature_ok; auto.
Qed.

Theorem verifyx_spec junk sig m pk :
  (SPX_BYTES P <= length sig)%nat -> (SPX_PK_BYTES P <= length pk)%nat ->
  exists r,
    crypto_sign_verifyx P HS LX lw junk sig (Z.of_nat (SPX_BYTES P)) m pk = Some r
    /\ (r = 0 \/ r = -1)
    /\ (r = 0 <-> spx_verify D Th Hm (firstn N pk) (firstn N (skipn N pk)) m
                    (firstn (SPX_BYTES P) sig)).
Proof.
  intros Hs Hpk. unfold SPX_PK_BYTES in Hpk.
  set (s := firstn (SPX_BYTES P) sig).
  assert (Ls : length s = SPX_BYTES P) by (unfold s; rewrite firstn_length; lia).
  pose proof (sig_bytes_eq P Hwf) as HB.
  assert (HN : (N <= SPX_BYTES P)%nat).
  { rewrite <- HB. unfold spx_sig_bytes. cbn [s_n dims_of]. rewrite Nat.mul_add_distr_l. lia. }
  destruct (blocks_chunks N (spx_nblocks D) (skipn N s)) as (B1 & B2 & B3).
  { rewrite skipn_length, Ls, <- HB. unfold spx_sig_bytes. cbn [s_n dims_of]. lia. }
  destruct (verifyx_ok junk (firstn N s) (blocks N (spx_nblocks D) (skipn N s))
              (skipn (SPX_BYTES P) sig) m (firstn N pk) (firstn N (skipn N pk))
              (skipn N (skipn N pk))) as (r & E & Hr & Hiff).
  - rewrite firstn_length. lia.
  - exact B1.
  - rewrite B3, skipn_length. lia.
  - rewrite firstn_length. lia.
  - rewrite firstn_length, skipn_length. lia.
  - exists r. rewrite B3 in E. rewrite (app_assoc (firstn N s)), !firstn_skipn in E.
    unfold s in E at 1. rewrite firstn_skipn in E.
    split; [exact E|]. split; [exact Hr|]. rewrite Hiff.
    unfold spx_verify. cbn [s_n dims_of]. fold s. rewrite Ls, HB. tauto.
Qed.

Theorem verifyx_wrong_length junk sig siglen m pk :
  siglen <> Z.of_nat (SPX_BYTES P) ->
  crypto_sign_verifyx P HS LX lw junk sig siglen m pk = Some (-1).
Proof. clear.
  intros H. unfold crypto_sign_verifyx. apply Z.eqb_neq in H. now rewrite H.
Qed.

Theorem verifyx_agree junk junk' sig siglen m pk :
  (siglen = Z.of_nat (SPX_BYTES P) -> (SPX_BYTES P <= length sig)%nat) ->
  (SPX_PK_BYTES P <= length pk)%nat ->
  crypto_sign_verifyx P HS LX lw junk sig siglen m pk
  = crypto_sign_verify P HS junk' sig siglen m pk.
Proof.
  intros Hs Hpk. destruct (Z.eq_dec siglen (Z.of_nat (SPX_BYTES P))) as [->|Hne].
  2:{ rewrite (verifyx_wrong_length junk), (verify_wrong_length P HS junk'); auto. }
  destruct (verifyx_spec junk sig m pk (Hs eq_refl) Hpk) as (r & E & Hr & Hi).
  destruct (verify_spec P HS Hwf Hok junk' sig m pk (Hs eq_refl) Hpk) as (r' & E' & Hr' & Hi').
  rewrite E, E'. f_equal. rewrite <- Hi in Hi'. clear - Hr Hr' Hi'. lia.
Qed.

Theorem crypto_signx_agree junk junk' stream sm0 m sk :
  (SPX_SK_BYTES P <= length sk)%nat -> (N <= length stream)%nat ->
  crypto_signx P HS LX lw junk stream sm0 m sk = crypto_sign P HS junk' stream sm0 m sk.
Proof.
  intros Hk Hs. unfold crypto_signx, crypto_sign.
  destruct (rd sm0 0 (SPX_BYTES P)) as [d|] eqn:E; [|cbn [bind]; reflexivity]. cbn [bind].
  rewrite (signaturex_agree junk junk'); [reflexivity|exact Hk|exact Hs|].
  apply rd_length in E. rewrite E. apply Nat.le_refl.
Qed.

Theorem openx_agree junk junk' m0 sm smlen pk :
  (SPX_PK_BYTES P <= length pk)%nat ->
  crypto_sign_openx P HS LX lw junk m0 sm smlen pk = crypto_sign_open P HS junk' m0 sm smlen pk.
Proof.
  intros Hk. unfold crypto_sign_openx, crypto_sign_open.
  destruct (smlen <? Z.of_nat (SPX_BYTES P)); [reflexivity|]. cbv zeta.
  destruct (rd sm 0 (SPX_BYTES P)) as [d|] eqn:E; [|cbn [bind]; reflexivity]. cbn [bind].
  destruct (rd sm (SPX_BYTES P) _) as [d2|]; [|cbn [bind]; reflexivity]. cbn [bind].
  rewrite (verifyx_agree junk junk' d _ d2 pk); [reflexivity| |exact Hk].
  intros _. apply rd_length in E. rewrite E. apply Nat.le_refl.
Qed.
End Api.
