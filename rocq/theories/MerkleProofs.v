(** ref/merkle.c computes one tree of the hypertree. *)
From Verif Require Import Base BaseFacts Params Address Suite Utils Wots Merkle Spec SpecFacts AdrsEnc
  AddressProofs Refine TreeProofs WotsDigitsProofs WotsProofs.

Section Merkle.
Variable P : params.
Variable HS : suite.
Variable c : ctx (hs_st HS).
Variable junk : nat -> nat -> Z.
Notation N := (p_n P).
Notation L := (hs_layout HS).
Notation W := (SPX_WOTS_W P).
Notation LEN := (SPX_WOTS_LEN P).
Notation TH := (SPX_TREE_HEIGHT P).
Hypothesis Hwf : wf_params P = true.
Hypothesis Hok : suite_ok P HS.
Hypothesis Hc : ctx_ok P HS c.
Notation T := (codeT P HS c).
Notation PRF := (codePRF HS c).
Notation D := (dims_of P).

Let Hn : (1 <= N)%nat. Proof. pose proof (wf_n P Hwf). lia. Qed.

Lemma wf_tree : (1 <= TH <= 30)%nat /\ (TH * p_d P = p_full P)%nat /\ (1 <= p_d P <= 256)%nat
  /\ (TH * (p_d P - 1) <= 64)%nat.
Proof. clear - Hwf. unfold wf_params, SPX_TREE_BITS in Hwf. lia. Qed.

Variables layer tree : Z.

Lemma tree_hash2_code h i x : (1 <= h <= TH)%nat ->
  T (mkAdrs layer tree T_TREE 0 (Z.of_nat h) (i + 0 / 2 ^ Z.of_nat h)) x
  = tree_hash2 T layer tree h i x.
Proof. clear. intros. rewrite Zdiv_0_l, Z.add_0_r. reflexivity. Qed.

Lemma wots_pk_len kp : length (wots_pk D T PRF layer tree kp) = N.
Proof. clear junk.
  apply (codeT_len P HS c Hn Hok Hc LEN). rewrite (chunks_length N).
  - now rewrite map_length, seq_length.
  - apply Forall_forall. intros x Hx. apply in_map_iff in Hx. destruct Hx as (i & <- & _).
    apply (chain_len P HS c Hwf Hok Hc). apply (codePRF_len P HS c Hok Hc).
Qed.

Lemma xmss_node_len h i : (h <= TH)%nat -> length (xmss_node D T PRF layer tree h i) = N.
Proof. clear junk.
  apply (node_len P HS c Hn Hok Hc layer tree T_TREE 0 TH 0 _ tree_hash2_code). apply wots_pk_len.
Qed.

Lemma xmss_root_props :
  length (xmss_root D T PRF layer tree) = N /\ all_bytes (xmss_root D T PRF layer tree).
Proof. clear junk.
  split; [apply xmss_node_len; cbn; lia|].
  unfold xmss_root, xmss_node. destruct (s_hp D); cbn [node]; apply (codeT_bytes P HS c Hok).
Qed.

Lemma xmss_auth_chunks i :
  chunks_of N (auth_path (fun kp => wots_pk D T PRF layer tree kp) (tree_hash2 T layer tree) TH i).
Proof. clear junk.
  apply Forall_forall. intros x Hx. apply in_map_iff in Hx. destruct Hx as (h & <- & Hh).
  apply in_seq in Hh. apply xmss_node_len. lia.
Qed.

Lemma wots_sign_chunks kp m : chunks_of N (wots_sign D T PRF layer tree kp m).
Proof. clear junk.
  apply Forall_forall. intros x Hx. apply in_map_iff in Hx. destruct Hx as (i & <- & _).
  apply (chain_len P HS c Hwf Hok Hc). apply (codePRF_len P HS c Hok Hc).
Qed.

Lemma xmss_sign_chunks idx m : chunks_of N (xmss_sign D T PRF layer tree idx m).
Proof. clear junk. apply chunks_app. split; [apply wots_sign_chunks|apply xmss_auth_chunks]. Qed.

(** merkle_sign for any leaf index that is either a real leaf or ~0, and any N entries in root. *)
Lemma merkle_sign_gen sig0 auth0 root ls ty k0 u1 u2 ty' w1 w2 idx :
  length sig0 = SPX_WOTS_BYTES P -> length auth0 = (TH * N)%nat -> length root = N ->
  chain_lengths P root = Some ls -> length ls = LEN -> Forall (fun l => 0 <= l < W) ls ->
  0 <= idx < 2 ^ Z.of_nat TH \/ idx = 2 ^ 32 - 1 ->
  exists w1' w2',
    merkle_sign P HS c junk (sig0 ++ auth0) root (enc L (mkAdrs layer tree ty k0 u1 u2))
      (enc L (mkAdrs layer tree ty' 0 w1 w2)) idx
    = Some ((if idx =? 2 ^ 32 - 1 then sig0 ++ auth0
             else concat (sign_blocks P HS c layer tree idx ls
                          ++ auth_path (fun kp => wots_pk D T PRF layer tree kp)
                               (tree_hash2 T layer tree) TH idx)),
            xmss_root D T PRF layer tree,
            enc L (mkAdrs layer tree T_TREE 0 w1' w2')).
Proof.
  intros Hs0 Ha0 Hr Els Hls Hlr Hidx.
  destruct wf_tree as (Hth & _).
  unfold merkle_sign. rewrite rd_app0 by auto. cbn [bind].
  rewrite rd_app_r by auto. cbn [bind]. rewrite Els. cbn [bind].
  rewrite set_type_enc. cbn [bind]. rewrite !(zero_addr_enc L), set_type_enc. cbn [bind].
  rewrite !copy_subtree_enc. cbn [bind].
  unfold with_type; cbn [a_layer a_tree a_type a_kp a_w1 a_w2 adrs0].
  change SPX_ADDR_TYPE_HASHTREE with T_TREE. change SPX_ADDR_TYPE_WOTSPK with T_WOTS_PK.
  destruct (ex_chunks N LEN sig0 Hs0) as (sg & S1 & S2 & S3).
  destruct (ex_chunks N TH auth0 Ha0) as (au0 & A1 & A2 & A3).
  rewrite <- S3, <- A3.
  set (g0 := mkInfo _ _ _ _ _).
  set (sgk k := if (0 <=? idx) && (idx <? k) then sign_blocks P HS c layer tree idx ls else sg).
  destruct (treehashx1_ok P HS c junk Hn Hok Hc layer tree T_TREE 0 TH 0 (tree_hash2 T layer tree)
              tree_hash2_code (fun kp => wots_pk D T PRF layer tree kp) wots_pk_len
              (wots_gen_leafx1 P HS c junk)
              (fun k g => info_ok P HS layer tree idx ls (sgk k) g))
    with (leaf_idx := idx) (au0 := au0) (w1 := w1) (w2 := w2) (g := g0)
    as (au' & w1' & w2' & g' & E & Hau' & Hg'); auto; try lia.
  - intros k g Hk Hg.
    assert (Hk32 : k < 2 ^ 32).
    { eapply Z.lt_le_trans; [apply Hk|]. apply Z.pow_le_mono_r; lia. }
    replace (u32 (k + 0)) with k.
    2:{ rewrite Z.add_0_r. symmetry. apply Z.mod_small. lia. }
    destruct (wots_gen_leafx1_ok P HS c junk Hwf Hok Hc layer tree k idx ls (sgk k) g Hg Hls Hlr)
      as (g1 & E1 & Hg1).
    exists g1. split; [exact E1|].
    replace (sgk (k + 1)) with (if k =? idx then sign_blocks P HS c layer tree k ls else sgk k); auto.
    unfold sgk. destruct (Z.eqb_spec k idx) as [->|Hne].
    + now replace ((0 <=? idx) && (idx <? idx + 1)) with true by lia.
    + destruct ((0 <=? idx) && (idx <? k)) eqn:E2.
      * now replace ((0 <=? idx) && (idx <? k + 1)) with true by lia.
      * now replace ((0 <=? idx) && (idx <? k + 1)) with false by lia.
  - unfold info_ok, g0; cbn [wi_sig wi_sign_leaf wi_steps wi_leaf_addr wi_pk_addr].
    unfold sgk. replace ((0 <=? idx) && (idx <? 0)) with false by lia.
    repeat split; auto.
    + exists 0, 0, 0, 0. split; [reflexivity|lia].
    + exists 0. reflexivity.
  - rewrite E. cbn [bind].
    destruct Hg' as (G1 & G2 & G3 & _). rewrite G1.
    assert (Hlsg : length (concat sg) = SPX_WOTS_BYTES P) by (rewrite (chunks_length N), S2; auto).
    assert (Hlsg' : length (concat (sgk (2 ^ Z.of_nat TH))) = SPX_WOTS_BYTES P)
      by (rewrite (chunks_length N), G3; auto).
    assert (Hlau' : length (concat au') = (TH * N)%nat).
    { destruct Hau' as (C1 & C2 & _). rewrite (chunks_length N), C2; auto. }
    assert (Hlau : length (concat au0) = (TH * N)%nat) by (rewrite (chunks_length N), A2; auto).
    rewrite wr_app0 by congruence. cbn [bind].
    rewrite wr_app_r by congruence. cbn [bind].
    exists w1', w2'. do 3 f_equal.
    assert (Hsmall : 2 ^ Z.of_nat TH < 2 ^ 32 - 1).
    { apply Z.le_lt_trans with (2 ^ 30); [apply Z.pow_le_mono_r; lia|reflexivity]. }
    destruct (Z.eqb_spec idx (2 ^ 32 - 1)) as [E1|E1].
    + unfold sgk. replace ((0 <=? idx) && (idx <? 2 ^ Z.of_nat TH)) with false by lia.
      subst idx. f_equal. f_equal.
      eapply (auth_inv_none P TH); eauto. lia.
    + destruct Hidx as [Hidx|Hidx]; [|lia].
      unfold sgk. replace ((0 <=? idx) && (idx <? 2 ^ Z.of_nat TH)) with true by lia.
      rewrite concat_app. f_equal. f_equal.
      eapply (auth_inv_full P TH); eauto.
Qed.

Theorem merkle_sign_ok sig0 root ty k0 u1 u2 ty' w1 w2 idx :
  length sig0 = (SPX_WOTS_BYTES P + TH * N)%nat -> length root = N -> all_bytes root ->
  0 <= idx < 2 ^ Z.of_nat TH ->
  exists w1' w2',
    merkle_sign P HS c junk sig0 root (enc L (mkAdrs layer tree ty k0 u1 u2))
      (enc L (mkAdrs layer tree ty' 0 w1 w2)) idx
    = Some (concat (xmss_sign D T PRF layer tree idx root), xmss_root D T PRF layer tree,
            enc L (mkAdrs layer tree T_TREE 0 w1' w2')).
Proof.
  intros Hs Hr Hb Hidx. destruct wf_tree as (Hth & _).
  assert (exists s0 a0, sig0 = s0 ++ a0 /\ length s0 = SPX_WOTS_BYTES P /\ length a0 = (TH * N)%nat)
    as (s0 & a0 & -> & H1 & H2).
  { exists (firstn (SPX_WOTS_BYTES P) sig0), (skipn (SPX_WOTS_BYTES P) sig0).
    rewrite firstn_skipn, firstn_length, skipn_length. repeat split; lia. }
  destruct (merkle_sign_gen s0 a0 root (wots_lengths D root) ty k0 u1 u2 ty' w1 w2 idx)
    as (w1' & w2' & E); auto.
  - now apply chain_lengths_ok.
  - apply (wots_lengths_length D).
  - apply (wots_lengths_range D). cbn. pose proof (W_pos P Hwf). lia.
  - exists w1', w2'. rewrite E.
    replace (idx =? 2 ^ 32 - 1) with false; [reflexivity|].
    symmetry. apply Z.eqb_neq.
    assert (2 ^ Z.of_nat TH <= 2 ^ 30) by (apply Z.pow_le_mono_r; lia).
    change (2 ^ 30) with 1073741824 in *. change (2 ^ 32 - 1) with 4294967295. lia.
Qed.
End Merkle.

Theorem merkle_gen_root_ok P HS c junk root :
  wf_params P = true -> suite_ok P HS -> ctx_ok P HS c -> length root = p_n P ->
  merkle_gen_root P HS c junk root = Some (ht_root (dims_of P) (codeT P HS c) (codePRF HS c)).
Proof.
  intros Hwf Hok Hc Hr. unfold merkle_gen_root.
  rewrite !(zero_addr_enc (hs_layout HS)), !set_layer_enc. cbn [bind].
  unfold with_layer; cbn [a_layer a_tree a_type a_kp a_w1 a_w2 adrs0].
  destruct (chain_lengths_total P Hwf root Hr) as (ls & E1 & E2 & E3).
  set (j := junk_bytes _ _).
  assert (Hj : length j = (SPX_TREE_HEIGHT P * p_n P + SPX_WOTS_BYTES P)%nat) by apply junk_length.
  assert (exists s0 a0, j = s0 ++ a0 /\ length s0 = SPX_WOTS_BYTES P
            /\ length a0 = (SPX_TREE_HEIGHT P * p_n P)%nat) as (s0 & a0 & -> & H1 & H2).
  { exists (firstn (SPX_WOTS_BYTES P) j), (skipn (SPX_WOTS_BYTES P) j).
    rewrite firstn_skipn, firstn_length, skipn_length. repeat split; lia. }
  destruct (merkle_sign_gen P HS c junk Hwf Hok Hc (Z.of_nat (p_d P) - 1) 0
              s0 a0 root ls 0 0 0 0 0 0 0 (2 ^ 32 - 1)) as (w1' & w2' & E); auto.
  rewrite E. cbn [bind]. reflexivity.
Qed.
