(** merkle.c and fors.c of the multi-lane code compute one tree of the hypertree and the FORS of the
    specification. *)
From Verif Require Import Base BaseFacts Params Address Suite Utils Wots Fors Merkle Spec SpecFacts
  AdrsEnc AddressProofs Refine TreeProofs WotsDigitsProofs WotsProofs MerkleProofs ForsProofs
  Lanes LaneFacts LaneTreeProofs LaneWotsProofs.

(** The lane counts for which the trees of [P] are tall enough (the preprocessor check of
    shake-avx2/utilsx4.c:34-36 is only a comment), and the marker ~0 is beyond them. *)
Definition lanes_fit (P : params) (lw : nat) : Prop :=
  (1 <= lw)%nat /\ (lw <= SPX_TREE_HEIGHT P)%nat /\ (lw <= p_fh P)%nat
  /\ (SPX_TREE_HEIGHT P + lw <= 32)%nat.

Section Merklex.
Variable P : params.
Variable HS : suite.
Variable LX : lane_fns HS.
Variable lw : nat.
Variable c : ctx (hs_st HS).
Variable junk : nat -> nat -> Z.
Notation N := (p_n P).
Notation L := (hs_layout HS).
Notation W := (SPX_WOTS_W P).
Notation LEN := (SPX_WOTS_LEN P).
Notation TH := (SPX_TREE_HEIGHT P).
Notation FH := (p_fh P).
Notation FT := (p_ft P).
Hypothesis Hwf : wf_params P = true.
Hypothesis Hok : suite_ok P HS.
Hypothesis Hlx : lanes_ok P HS LX lw.
Hypothesis Hc : ctx_ok P HS c.
Hypothesis Hfit : lanes_fit P lw.
Notation T := (codeT P HS c).
Notation PRF := (codePRF HS c).
Notation D := (dims_of P).

Let Hn : (1 <= N)%nat. Proof. pose proof (wf_n P Hwf). lia. Qed.

Lemma group_bound H k : (lw <= H)%nat -> (H <= 31)%nat -> 0 <= k < 2 ^ Z.of_nat (H - lw) ->
  NLz lw * k + NLz lw <= 2 ^ Z.of_nat H /\ 2 ^ Z.of_nat H < 2 ^ 32.
Proof. clear.
  intros Hl HH Hk. split; [|apply Z.pow_lt_mono_r; lia].
  unfold NLz. replace (Z.of_nat H) with (Z.of_nat lw + Z.of_nat (H - lw)) by lia.
  rewrite Z.pow_add_r by lia. pose proof (pow2_pos lw). nia.
Qed.

Section OneTree.
Variables layer tree : Z.

Lemma merkle_signx_gen sig0 auth0 root ls ty k0 u1 u2 ty' k1 w1 w2 idx :
  length sig0 = SPX_WOTS_BYTES P -> length auth0 = (TH * N)%nat -> length root = N ->
  chain_lengths P root = Some ls -> length ls = LEN -> Forall (fun l => 0 <= l < W) ls ->
  0 <= idx < 2 ^ Z.of_nat TH \/ idx = 2 ^ 32 - 1 ->
  merkle_signx P HS LX lw c junk (sig0 ++ auth0) root (enc L (mkAdrs layer tree ty k0 u1 u2))
    (enc L (mkAdrs layer tree ty' k1 w1 w2)) idx
  = Some ((if idx =? 2 ^ 32 - 1 then sig0 ++ auth0
           else concat (sign_blocks P HS c layer tree idx ls
                        ++ auth_path (fun kp => wots_pk D T PRF layer tree kp)
                             (tree_hash2 T layer tree) TH idx)),
          xmss_root D T PRF layer tree).
Proof.
  intros Hs0 Ha0 Hr Els Hls Hlr Hidx.
  destruct (wf_tree P Hwf) as (Hth & _). destruct Hfit as (F1 & F2 & _ & F4).
  unfold merkle_signx. rewrite rd_app0 by auto. cbn [bind].
  rewrite rd_app_r by auto. cbn [bind]. rewrite Els. cbn [bind].
  rewrite (mapM_ok _ (fun _ => enc L (mkAdrs layer tree T_TREE 0 0 0))).
  2:{ intros j _. rewrite (zero_addr_enc L), set_type_enc. cbn [bind]. now rewrite copy_subtree_enc. }
  cbn [bind].
  rewrite (mapM_ok _ (fun _ => enc L (mkAdrs layer tree T_WOTS_HASH 0 0 0))).
  2:{ intros j _. rewrite (zero_addr_enc L), set_type_enc. cbn [bind]. now rewrite copy_subtree_enc. }
  cbn [bind].
  rewrite (mapM_ok _ (fun _ => enc L (mkAdrs layer tree T_WOTS_PK 0 0 0))).
  2:{ intros j _. rewrite (zero_addr_enc L), set_type_enc. cbn [bind]. now rewrite copy_subtree_enc. }
  cbn [bind].
  destruct (ex_chunks N LEN sig0 Hs0) as (sg & S1 & S2 & S3).
  destruct (ex_chunks N TH auth0 Ha0) as (au0 & A1 & A2 & A3).
  rewrite <- S3, <- A3.
  set (g0 := mkInfox _ _ _ _ _).
  set (sgk k := if idx / NLz lw <? k then sign_blocks P HS c layer tree idx ls else sg).
  assert (Hpos : 0 < NLz lw) by (unfold NLz; apply Z.pow_pos_nonneg; lia).
  assert (Hsmall : 2 ^ Z.of_nat TH < 2 ^ 32 - 1).
  { apply Z.le_lt_trans with (2 ^ 30); [apply Z.pow_le_mono_r; lia|reflexivity]. }
  assert (Hi32 : 0 <= idx < 2 ^ 32) by lia.
  assert (Hmark : 2 ^ Z.of_nat (TH + lw - 1) <= 2 ^ 32 - 1).
  { apply Z.le_trans with (2 ^ 31); [apply Z.pow_le_mono_r; lia|discriminate]. }
  destruct (treehashx_ok P HS LX lw c junk Hn Hok Hlx Hc layer tree T_TREE 0 TH 0
              (tree_hash2 T layer tree) (tree_hash2_code P HS c layer tree)
              (fun kp => wots_pk D T PRF layer tree kp) (wots_pk_len P HS c Hwf Hok Hc layer tree))
    with (lidx := idx) (gen_leafx := wots_gen_leafx P HS LX lw c junk)
      (Ginv := fun k g => infox_ok P HS lw layer tree idx ls (sgk k) g)
      (au0 := au0) (a := fun _ : nat => (0, 0)) (g := g0)
    as (au' & a' & g' & E & Hau' & Hg'); auto; try lia.
  - clear Hidx. (* leaves *)
    intros k g Hk Hg.
    destruct (group_bound TH k F2 ltac:(lia) Hk) as (B1 & B2).
    replace (u32 (NLz lw * k + 0)) with (NLz lw * k).
    2:{ rewrite Z.add_0_r. symmetry. apply Z.mod_small. nia. }
    destruct (wots_gen_leafx_ok P HS LX lw c junk Hwf Hok Hlx Hc layer tree idx ls (sgk k) g k)
      as (g1 & E1 & Hg1); auto; try lia.
    exists g1. split; [exact E1|].
    replace (sgk (k + 1))
      with (if idx / NLz lw =? k then sign_blocks P HS c layer tree idx ls else sgk k); auto.
    unfold sgk. generalize (idx / NLz lw). intros q. clear.
    destruct (Z.eqb_spec q k), (Z.ltb_spec q (k + 1)), (Z.ltb_spec q k); auto; lia.
  - unfold infox_ok, g0; cbn [wx_sig wx_sign_leaf wx_steps wx_leaf_addr wx_pk_addr].
    unfold sgk. replace (idx / NLz lw <? 0) with false.
    2:{ symmetry. apply Z.ltb_ge. apply Z.div_pos; lia. }
    repeat split; auto.
    + exists T_WOTS_HASH, (fun _ => 0), 0, 0. split; [reflexivity|lia].
    + exists (fun _ => 0). reflexivity.
  - unfold tadr in E. cbn [fst snd] in E. rewrite E. cbn [bind].
    destruct Hg' as (G1 & G2 & G3 & _). rewrite G1.
    assert (Hlsg : length (concat sg) = SPX_WOTS_BYTES P) by (rewrite (chunks_length N), S2; auto).
    assert (Hlsg' : length (concat (sgk (2 ^ Z.of_nat (TH - lw)))) = SPX_WOTS_BYTES P)
      by (rewrite (chunks_length N), G3; auto).
    assert (Hlau' : length (concat au') = (TH * N)%nat).
    { destruct Hau' as (C1 & C2 & _). rewrite (chunks_length N), C2; auto. }
    assert (Hlau : length (concat au0) = (TH * N)%nat) by (rewrite (chunks_length N), A2; auto).
    rewrite wr_app0 by congruence. cbn [bind].
    rewrite wr_app_r by congruence. cbn [bind].
    do 2 f_equal.
    assert (Epow : 2 ^ Z.of_nat TH = NLz lw * 2 ^ Z.of_nat (TH - lw)).
    { unfold NLz. rewrite <- Z.pow_add_r by lia. f_equal. lia. }
    destruct (Z.eqb_spec idx (2 ^ 32 - 1)) as [E1|E1].
    + unfold sgk. replace (idx / NLz lw <? 2 ^ Z.of_nat (TH - lw)) with false.
      2:{ symmetry. apply Z.ltb_ge. apply Z.div_le_lower_bound; lia. }
      f_equal. f_equal.
      refine (authx_none P lw TH (tree_hash2 T layer tree) _ _ idx au0 au' _ A2 Hau'); [lia|].
      rewrite E1. exact Hmark.
    + destruct Hidx as [Hidx|Hidx]; [|lia].
      unfold sgk. replace (idx / NLz lw <? 2 ^ Z.of_nat (TH - lw)) with true.
      2:{ symmetry. apply Z.ltb_lt. apply Z.div_lt_upper_bound; lia. }
      rewrite concat_app. f_equal. f_equal.
      refine (authx_full P lw TH _ _ _ idx au0 au' Hidx Hau'). lia.
Qed.

Theorem merkle_signx_ok sig0 root ty k0 u1 u2 ty' k1 w1 w2 idx :
  length sig0 = (SPX_WOTS_BYTES P + TH * N)%nat -> length root = N -> all_bytes root ->
  0 <= idx < 2 ^ Z.of_nat TH ->
  merkle_signx P HS LX lw c junk sig0 root (enc L (mkAdrs layer tree ty k0 u1 u2))
    (enc L (mkAdrs layer tree ty' k1 w1 w2)) idx
  = Some (concat (xmss_sign D T PRF layer tree idx root), xmss_root D T PRF layer tree).
Proof.
  intros Hs Hr Hb Hidx. destruct (wf_tree P Hwf) as (Hth & _).
  assert (exists s0 a0, sig0 = s0 ++ a0 /\ length s0 = SPX_WOTS_BYTES P /\ length a0 = (TH * N)%nat)
    as (s0 & a0 & -> & H1 & H2).
  { exists (firstn (SPX_WOTS_BYTES P) sig0), (skipn (SPX_WOTS_BYTES P) sig0).
    rewrite firstn_skipn, firstn_length, skipn_length. repeat split; lia. }
  rewrite (merkle_signx_gen s0 a0 root (wots_lengths D root)); auto.
  - replace (idx =? 2 ^ 32 - 1) with false; [reflexivity|].
    symmetry. apply Z.eqb_neq.
    assert (2 ^ Z.of_nat TH <= 2 ^ 30) by (apply Z.pow_le_mono_r; lia).
    change (2 ^ 30) with 1073741824 in *. change (2 ^ 32 - 1) with 4294967295. lia.
  - now apply chain_lengths_ok.
  - apply (wots_lengths_length D).
  - apply (wots_lengths_range D). cbn. pose proof (W_pos P Hwf). lia.
Qed.
End OneTree.

Theorem merkle_gen_rootx_ok root : length root = N ->
  merkle_gen_rootx P HS LX lw c junk root = Some (ht_root D T PRF).
Proof.
  intros Hr. unfold merkle_gen_rootx.
  rewrite !(zero_addr_enc (hs_layout HS)), !set_layer_enc. cbn [bind].
  unfold with_layer; cbn [a_layer a_tree a_type a_kp a_w1 a_w2 adrs0].
  destruct (chain_lengths_total P Hwf root Hr) as (ls & E1 & E2 & E3).
  set (j := junk_bytes _ _).
  assert (Hj : length j = (TH * N + SPX_WOTS_BYTES P)%nat) by apply junk_length.
  assert (exists s0 a0, j = s0 ++ a0 /\ length s0 = SPX_WOTS_BYTES P
            /\ length a0 = (TH * N)%nat) as (s0 & a0 & -> & H1 & H2).
  { exists (firstn (SPX_WOTS_BYTES P) j), (skipn (SPX_WOTS_BYTES P) j).
    rewrite firstn_skipn, firstn_length, skipn_length. repeat split; lia. }
  rewrite (merkle_signx_gen (Z.of_nat (p_d P) - 1) 0 s0 a0 root ls 0 0 0 0 0 0 0 0 (2 ^ 32 - 1)); auto.
Qed.

(** ** FORS *)
Section Forsx.
Variables tree kp : Z.
Notation FA ty w1 w2 := (enc L (mkAdrs 0 tree ty kp w1 w2)).
Notation fh2 t := (fors_hash2 D T tree kp (Z.of_nat t)).
Notation flf t := (fors_leaf D T PRF tree kp (Z.of_nat t)).

Lemma fors_gen_leafx_ok t k ty (v : nat -> Z) :
  exists ty' v',
    fors_gen_leafx P HS LX lw c junk (map (fun j => FA ty 0 (v j)) (lanes lw))
      (u32 (NLz lw * k + Z.of_nat t * 2 ^ Z.of_nat FH))
    = Some (concat (map (fun j => flf t (NLz lw * k + Z.of_nat j)) (lanes lw)),
            map (fun j => FA ty' 0 (v' j)) (lanes lw)).
Proof.
  set (o := Z.of_nat t * 2 ^ Z.of_nat FH).
  set (v' := fun j => NLz lw * k + Z.of_nat j + o).
  exists T_FORS_TREE, v'. unfold fors_gen_leafx.
  unfold lanes at 1. rewrite (mapMi_ok _ _ (fun j => FA T_FORS_PRF 0 (v' j))).
  2:{ intros j Hj. rewrite set_index_enc. cbn [bind]. 
      replace (u32 (u32 (NLz lw * k + o) + Z.of_nat j)) with (u32 (v' j)).
      2:{ unfold u32, v'. rewrite Zplus_mod_idemp_l. f_equal. lia. }
      rewrite enc_u32, set_type_enc. reflexivity. }
  cbn [bind]. fold (lanes lw).
  rewrite (prf_addrx_enc P HS LX lw c Hok Hlx Hc). cbn [bind].
  destruct (ex_chunks N (NL lw) (junk_bytes (junk 16%nat) (NL lw * N))) as (js & J1 & J2 & J3).
  { apply junk_length. }
  rewrite <- J3. unfold lanes at 1 2. rewrite wrx_all; auto.
  2:{ intros. apply (codePRF_len P HS c Hok Hc). }
  fold (lanes lw). cbn [bind].
  rewrite mapM_map, (mapM_ok _ (fun j => FA T_FORS_TREE 0 (v' j))).
  2:{ intros j _. rewrite set_type_enc. reflexivity. }
  cbn [bind].
  set (sk := fun j => PRF (mkAdrs 0 tree T_FORS_PRF kp 0 (v' j))).
  assert (Hsk : forall j, length (sk j) = N) by (intros; apply (codePRF_len P HS c Hok Hc)).
  rewrite (mapM_ok _ sk).
  2:{ intros j Hj. apply lanes_in in Hj. apply rd_chunk.
      - unfold lanes. apply chunks_map_seq. auto.
      - unfold lanes. now rewrite nth_error_map_seq by lia. }
  cbn [bind].
  rewrite (thashx_enc P HS LX lw c Hn Hok Hlx Hc 1 sk (fun j => mkAdrs 0 tree T_FORS_TREE kp 0 (v' j)))
    by (try lia; intros; rewrite Hsk; lia).
  cbn [bind]. unfold lanes at 1 2 3.
  rewrite wrx_all.
  - cbn [bind]. do 3 f_equal. apply map_ext. intros j.
    unfold fors_leaf, fors_leaf_of, fors_sk, sk, v'. cbn [dims_of s_a]. fold o.
    now rewrite !(Z.add_comm o).
  - apply chunks_map_seq. auto.
  - now rewrite map_length, seq_length.
  - intros j _. apply (codeT_len P HS c Hn Hok Hc 1). rewrite Hsk. lia.
Qed.

Lemma forsx_treehash t i au0 (a : nat -> Z * Z) ty v :
  (t < FT)%nat -> 0 <= i < 2 ^ Z.of_nat FH -> chunks_of N au0 -> length au0 = FH ->
  exists a' ty' v',
    treehashx P HS LX lw c junk (fors_gen_leafx P HS LX lw c junk) i (Z.of_nat t * 2 ^ Z.of_nat FH) FH
      (concat au0) (map (fun j => FA T_FORS_TREE (fst (a j)) (snd (a j))) (lanes lw))
      (map (fun j => FA ty 0 (v j)) (lanes lw))
    = Some (fors_root D T PRF tree kp (Z.of_nat t), concat (auth_path (flf t) (fh2 t) FH i),
            map (fun j => FA T_FORS_TREE (fst (a' j)) (snd (a' j))) (lanes lw),
            map (fun j => FA ty' 0 (v' j)) (lanes lw)).
Proof.
  intros Ht Hi Hau Hl. destruct Hfit as (F1 & _ & F3 & _). destruct (wf_fors P Hwf) as (Hfh & _).
  destruct (treehashx_ok P HS LX lw c junk Hn Hok Hlx Hc 0 tree T_FORS_TREE kp FH
              (Z.of_nat t * 2 ^ Z.of_nat FH) (fh2 t) (fors_hash2_code P HS c tree kp t) (flf t)
              ltac:(intros; apply (fors_leaf_of_len P HS c Hwf Hok Hc), (fors_sk_len P HS c Hok Hc)))
    with (lidx := i) (gen_leafx := fors_gen_leafx P HS LX lw c junk)
         (Ginv := fun (_ : Z) g => exists ty v, g = map (fun j => FA ty 0 (v j)) (lanes lw))
         (au0 := au0) (a := a) (g := map (fun j => FA ty 0 (v j)) (lanes lw))
    as (au' & a' & g' & E & Hau' & (ty' & v' & ->)); auto; try lia.
  - intros k g Hk (ty1 & v1 & ->).
    destruct (fors_gen_leafx_ok t k ty1 v1) as (ty2 & v2' & E).
    eexists. split; [exact E|]. eauto.
  - eauto.
  - rewrite (authx_full P lw FH (fh2 t) (flf t) ltac:(lia) i au0 au' Hi Hau') in E.
    exists a', ty', v'. exact E.
Qed.

Theorem fors_signx_ok sig md ty w1 w2 :
  length sig = SPX_FORS_BYTES P -> all_bytes md -> length md = SPX_FORS_MSG_BYTES P ->
  fors_signx P HS LX lw c junk sig md (FA ty w1 w2)
  = Some (concat (fors_sign D T PRF tree kp md), fors_pk D T PRF tree kp).
Proof.
  intros Hsig Hmb Hml. unfold fors_signx.
  rewrite (mapM_ok _ (fun _ => FA T_FORS_TREE 0 0)).
  2:{ intros j _. rewrite (zero_addr_enc L), copy_keypair_enc. cbn [bind]. now rewrite set_type_enc. }
  cbn [bind].
  rewrite (mapM_ok _ (fun _ => FA 0 0 0)).
  2:{ intros j _. rewrite (zero_addr_enc L), copy_keypair_enc. reflexivity. }
  cbn [bind]. rewrite (zero_addr_enc L), copy_keypair_enc.
  cbn [bind]. rewrite set_type_enc. cbn [bind].
  unfold with_type; cbn [a_layer a_tree a_type a_kp a_w1 a_w2 adrs0].
  rewrite message_to_indices_ok by auto. cbn [bind].
  set (f := fun (i : nat) _ => _).
  set (done i := concat (map (fors_sign_tree D T PRF tree kp md) (seq 0 i))).
  set (rts := map (fun t => fors_root D T PRF tree kp (Z.of_nat t)) (seq 0 FT)).
  assert (Hdone : forall i, length (concat (done i)) = (i * (FH + 1) * N)%nat).
  { intros i. rewrite (chunks_length N) by apply (concat_sign_chunks P HS c Hwf Hok Hc). f_equal.
    unfold done. rewrite (concat_map_length _ (FH + 1)), seq_length; auto.
    intros. apply fors_sign_tree_length. }
  destruct (ex_chunks N FT (junk_bytes (junk 17%nat) (FT * N))) as (js & J1 & J2 & J3).
  { apply junk_length. }
  destruct (iterM_inv FT 0 f (fun i (s : bytes * bytes * list bytes * list bytes * nat) =>
      exists rest rs (a : nat -> Z * Z) ty2 v2,
      s = (concat (done i) ++ rest, concat rs,
           map (fun j => FA T_FORS_TREE (fst (a j)) (snd (a j))) (lanes lw),
           map (fun j => FA ty2 0 (v2 j)) (lanes lw), (i * (FH + 1) * N)%nat)
      /\ (length rest = (FT - i) * (FH + 1) * N)%nat
      /\ chunks_of N rs /\ length rs = FT
      /\ (forall j, (j < i)%nat -> nth_error rs j = nth_error rts j))
      (sig, junk_bytes (junk 17%nat) (FT * N), map (fun _ : nat => FA T_FORS_TREE 0 0) (lanes lw),
       map (fun _ : nat => FA 0 0 0) (lanes lw), O)) as (s' & Es & Hs).
  - exists sig, js, (fun _ => (0, 0)), 0, (fun _ => 0). rewrite J3. repeat split; auto; try lia.
    rewrite Hsig. unfold SPX_FORS_BYTES. lia.
  - intros i s Hi (rest & rs & a & ty2 & v2 & -> & R1 & R2 & R3 & R4). unfold f.
    rewrite (idx_offset_small P Hwf) by lia.
    unfold get at 1. rewrite nth_error_map_seq by lia. cbn [bind Nat.add].
    set (ind := fors_index D md i).
    assert (Hind : 0 <= ind < 2 ^ Z.of_nat FH) by apply (fors_index_range D).
    set (o := Z.of_nat i * 2 ^ Z.of_nat FH).
    assert (Elanes : exists r, lanes lw = 0%nat :: r /\ forall j, In j r -> j <> 0%nat).
    { pose proof (NL_pos lw). unfold lanes. destruct (NL lw) as [|n]; [lia|]. cbn [seq].
      eexists. split; [reflexivity|]. intros j Hj. apply in_seq in Hj. lia. }
    destruct Elanes as (lr & El & Hlr).
    set (a1 := fun j => if (j =? 0)%nat then (0, ind + o) else a j).
    assert (E1 : on_lane0 (fun x => x <- set_tree_height L x 0 ;;
                    x <- set_tree_index L x (u32 (ind + o)) ;; set_type L x SPX_ADDR_TYPE_FORSPRF)
                   (map (fun j => FA T_FORS_TREE (fst (a j)) (snd (a j))) (lanes lw))
                 = Some (FA T_FORS_PRF 0 (ind + o)
                         :: map (fun j => FA T_FORS_TREE (fst (a1 j)) (snd (a1 j))) lr)).
    { rewrite El. cbn [map on_lane0]. rewrite set_height_enc. cbn [bind].
      rewrite set_index_enc. cbn [bind]. rewrite enc_u32, set_type_enc. cbn [bind].
      do 2 f_equal. apply map_ext_in. intros j Hj. unfold a1.
      replace (j =? 0)%nat with false; [reflexivity|]. symmetry. apply Nat.eqb_neq. auto. }
    rewrite E1. cbn [bind]. unfold get at 1. cbn [nth_error bind].
    unfold fors_gen_sk. rewrite (prf_enc P HS c Hok Hc). cbn [bind].
    assert (Esk : PRF (mkAdrs 0 tree T_FORS_PRF kp 0 (ind + o))
            = fors_sk D PRF tree kp (Z.of_nat i) ind).
    { unfold fors_sk. cbn [dims_of s_a]. now rewrite Z.add_comm. }
    rewrite Esk. set (sk := fors_sk D PRF tree kp (Z.of_nat i) ind).
    assert (Hsk : length sk = N) by apply (fors_sk_len P HS c Hok Hc).
    (* split the rest *)
    assert (exists r1 r2 r3, rest = r1 ++ r2 ++ r3 /\ length r1 = N /\ length r2 = (FH * N)%nat
              /\ length r3 = ((FT - S i) * (FH + 1) * N)%nat) as (r1 & r2 & r3 & -> & L1 & L2 & L3).
    { assert (E : (length rest = N + FH * N + (FT - S i) * (FH + 1) * N)%nat).
      { rewrite R1. replace (FT - i)%nat with (S (FT - S i)) by lia. lia. }
      exists (firstn N rest), (firstn (FH * N) (skipn N rest)), (skipn (N + FH * N) rest).
      destruct (split_at rest N (FH * N)) as (p & m & q & Eq & Hp & Hm & Ep & Em & Eq');
        [rewrite E; apply Nat.le_add_r|].
      rewrite <- Ep, <- Em, <- Eq'. repeat split; auto.
      rewrite Eq' at 1. rewrite skipn_length, E. rewrite Nat.add_comm. apply Nat.add_sub. }
    rewrite wr_app' by (rewrite ?Hdone; lia). cbn [bind].
    cbn [on_lane0]. rewrite set_type_enc. cbn [bind]. unfold with_type; cbn [a_layer a_tree a_type a_kp a_w1 a_w2].
    assert (E2 : FA SPX_ADDR_TYPE_FORSTREE 0 (ind + o)
                 :: map (fun j => FA T_FORS_TREE (fst (a1 j)) (snd (a1 j))) lr
                 = map (fun j => FA T_FORS_TREE (fst (a1 j)) (snd (a1 j))) (lanes lw))
      by (rewrite El; reflexivity).
    rewrite E2.
    rewrite (app_assoc (concat (done i))).
    rewrite rd_app' by (rewrite ?app_length, ?Hdone; lia). cbn [bind].
    destruct (ex_chunks N FH r2 L2) as (au0 & A1 & A2 & A3).
    rewrite <- A3.
    destruct (forsx_treehash i ind au0 a1 ty2 v2) as (a' & ty' & v2' & E); auto; try lia.
    unfold o in *. rewrite E. cbn [bind].
    set (ap := auth_path (flf i) (fh2 i) FH ind).
    assert (Hap : length (concat ap) = (FH * N)%nat).
    { rewrite (chunks_length N) by apply (auth_path_chunks P HS c Hwf Hok Hc).
      unfold ap. now rewrite auth_path_length. }
    rewrite wr_chunk by (auto; try lia; apply (fors_root_len P HS c Hwf Hok Hc)). cbn [bind].
    rewrite wr_app' by (rewrite ?app_length, ?Hdone, ?Hap, ?A3; lia). cbn [bind].
    eexists. split; [reflexivity|].
    exists r3, (upd i (fors_root D T PRF tree kp (Z.of_nat i)) rs), a', ty', v2'.
    repeat split; auto.
    + assert (Ed : concat (done (S i)) = concat (done i) ++ sk ++ concat ap).
      { unfold done. rewrite seq_S, map_app, concat_app. cbn [map concat].
        rewrite app_nil_r, concat_app. unfold fors_sign_tree. cbn [concat Nat.add].
        reflexivity. }
      rewrite Ed, <- !app_assoc. f_equal. ring.
    + apply chunks_upd; auto. apply (fors_root_len P HS c Hwf Hok Hc).
    + now rewrite upd_length.
    + intros j Hj. destruct (Nat.eq_dec j i) as [->|].
      * rewrite nth_error_upd_same by lia. unfold rts. now rewrite nth_error_map_seq by lia.
      * rewrite nth_error_upd_other by auto. apply R4. lia.
  - destruct Hs as (rest & rs & a & ty2 & v2 & -> & R1 & R2 & R3 & R4).
    rewrite Es. cbn [bind Nat.add].
    assert (rs = rts) as ->.
    { apply nth_error_ext'; [unfold rts; now rewrite map_length, seq_length|].
      intros j Hj. apply R4. lia. }
    cbn [Nat.add] in R1. rewrite Nat.sub_diag in R1. destruct rest; [|discriminate].
    rewrite app_nil_r.
    rewrite (thash_enc P HS c Hn Hok Hc FT) by (rewrite (chunks_length N), R3; auto). reflexivity.
Qed.
End Forsx.
End Merklex.

Lemma lanes_fit_shipped : forall P lw, In P all_params -> (1 <= lw <= 3)%nat ->
  wf_params P = true /\ lanes_fit P lw.
Proof.
  intros P lw HP Hl. cbn [all_params In] in HP.
  repeat destruct HP as [<-|HP]; try contradiction; (split; [reflexivity|]);
    unfold lanes_fit; cbn -[Nat.le]; lia.
Qed.
