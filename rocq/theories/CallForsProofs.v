(** The calls FORS and one tree of the hypertree make. *)
From Verif Require Import Base BaseFacts Params Address Suite Utils Wots Fors Merkle Spec SpecFacts AdrsEnc
  AddressProofs Refine TreeProofs WotsDigitsProofs WotsProofs ForsProofs MerkleProofs
  CallLog CallSpec CallTreeProofs CallWotsProofs.

Section Fors.
Variable P : params.
Variable HS : suite.
Variable c : ctx (hs_st HS).
Variable junk : nat -> nat -> Z.
Notation N := (p_n P).
Notation L := (hs_layout HS).
Notation FH := (p_fh P).
Notation FT := (p_ft P).
Hypothesis Hwf : wf_params P = true.
Hypothesis Hok : suite_ok P HS.
Hypothesis Hc : ctx_ok P HS c.
Notation T := (codeT P HS c).
Notation PRF := (codePRF HS c).
Notation D := (dims_of P).
Notation E := (enc_call L).

Let Hn : (1 <= N)%nat. Proof. pose proof (wf_n P Hwf). lia. Qed.

Variables tree kp : Z.

Lemma fors_adrs_code t h i : (1 <= h <= FH)%nat ->
  mkAdrs 0 tree T_FORS_TREE kp (Z.of_nat h) (i + Z.of_nat t * 2 ^ Z.of_nat FH / 2 ^ Z.of_nat h)
  = fors_adrs D tree kp (Z.of_nat t) h i.
Proof. clear.
  intros Hh. unfold fors_adrs. cbn [dims_of s_a]. f_equal.
  replace (2 ^ Z.of_nat FH) with (2 ^ Z.of_nat (FH - h) * 2 ^ Z.of_nat h)
    by (rewrite <- Z.pow_add_r by lia; f_equal; lia).
  rewrite Z.mul_assoc, Z.div_mul by (apply Z.pow_nonzero; lia). lia.
Qed.

Lemma fors_gen_leafx1_okL t k ty w2 : 
  exists ty' w2',
    fors_gen_leafx1L P HS c (enc L (mkAdrs 0 tree ty kp 0 w2)) (u32 (k + Z.of_nat t * 2 ^ Z.of_nat FH))
    = Some ((fors_leaf D T PRF tree kp (Z.of_nat t) k, enc L (mkAdrs 0 tree ty' kp 0 w2')),
            map E (fors_leaf_calls D PRF tree kp (Z.of_nat t) k)).
Proof. clear junk.
  unfold fors_gen_leafx1L.
  rewrite set_index_enc. cbn [bind]. rewrite enc_u32. rewrite set_type_enc. cbn [bind].
  rewrite (prf_encL P HS c Hok Hc), lbind_some. rewrite set_type_enc. cbn [bind].
  rewrite (thash_encL P HS c Hn Hok Hc 1) by (rewrite (codePRF_len P HS c Hok Hc); lia). rewrite lbind_some, run_lret, run_some.
  unfold with_type, with_w2; cbn [a_layer a_tree a_type a_kp a_w1 a_w2].
  unfold fors_leaf_calls, fors_prf_adrs, fors_adrs, fors_leaf, fors_leaf_of, fors_sk. cbn [dims_of s_a map app].
  rewrite Nat.sub_0_r. rewrite !(Z.add_comm _ k). do 2 eexists. reflexivity.
Qed.

Let fh2 t := fors_hash2 D T tree kp (Z.of_nat t).
Let flf t := fors_leaf D T PRF tree kp (Z.of_nat t).
Notation tcs t := (tree_calls (flf t) (fh2 t) (fors_leaf_calls D PRF tree kp (Z.of_nat t)) (fors_adrs D tree kp (Z.of_nat t)) FH 0).

Lemma fors_treehashL t i au0 w1 w2 ty v2 :
  (t < FT)%nat -> 0 <= i < 2 ^ Z.of_nat FH -> chunks_of N au0 -> length au0 = FH ->
  exists w1' w2' ty' v2',
    treehashx1L P HS junk c (fors_gen_leafx1L P HS c) i (Z.of_nat t * 2 ^ Z.of_nat FH) FH (concat au0)
      (enc L (mkAdrs 0 tree T_FORS_TREE kp w1 w2)) (enc L (mkAdrs 0 tree ty kp 0 v2))
    = Some ((fors_root D T PRF tree kp (Z.of_nat t), concat (auth_path (flf t) (fh2 t) FH i),
            enc L (mkAdrs 0 tree T_FORS_TREE kp w1' w2'), enc L (mkAdrs 0 tree ty' kp 0 v2')),
            map E (tcs t)).
Proof.
  intros Ht Hi Hau Hl.
  destruct (treehashx1_okL P HS c junk Hn Hok Hc 0 tree T_FORS_TREE kp FH
              (Z.of_nat t * 2 ^ Z.of_nat FH) (fh2 t) (fors_adrs D tree kp (Z.of_nat t))
              (fors_hash2_code P HS c tree kp t) (fors_adrs_code t) (flf t)
              ltac:(intros; apply (fors_leaf_of_len P HS c Hwf Hok Hc), (fors_sk_len P HS c Hok Hc))
              (fors_leaf_calls D PRF tree kp (Z.of_nat t))
              (fors_gen_leafx1L P HS c)
              (fun _ g => exists ty v2, g = enc L (mkAdrs 0 tree ty kp 0 v2)))
    with (leaf_idx := i) (au0 := au0) (w1 := w1) (w2 := w2)
         (g := enc L (mkAdrs 0 tree ty kp 0 v2))
    as (au' & w1' & w2' & g' & E' & Hau' & (ty' & v2' & ->)); auto; try lia.
  - intros k g Hk (ty1 & v1 & ->).
    destruct (fors_gen_leafx1_okL t k ty1 v1) as (ty2 & v2' & E').
    eexists. split; [exact E'|]. eauto.
  - eauto.
  - rewrite (auth_inv_full P FH (fh2 t) (flf t) i au0 au' Hi Hau') in E'.
    exists w1', w2', ty', v2'. exact E'.
Qed.

Notation FA ty w1 w2 := (enc L (mkAdrs 0 tree ty kp w1 w2)).

Theorem fors_sign_okL sig md ty w1 w2 :
  length sig = SPX_FORS_BYTES P -> all_bytes md -> length md = SPX_FORS_MSG_BYTES P ->
  fors_signL P HS junk c sig md (FA ty w1 w2)
  = Some ((concat (fors_sign D T PRF tree kp md), fors_pk D T PRF tree kp), map E (fors_calls D T PRF tree kp md)).
Proof.
  intros Hsig Hmb Hml. unfold fors_signL. rewrite (zero_addr_enc L), !copy_keypair_enc.
  cbn [bind]. rewrite set_type_enc. cbn [bind].
  unfold with_type; cbn [a_layer a_tree a_type a_kp a_w1 a_w2 adrs0].
  rewrite message_to_indices_ok by auto. cbn [bind].
  set (f := fun (i : nat) _ => _).
  set (done i := concat (map (fors_sign_tree D T PRF tree kp md) (seq 0 i))).
  set (rts := map (fun t => fors_root D T PRF tree kp (Z.of_nat t)) (seq 0 FT)).
  assert (Hdone : forall i, length (concat (done i)) = (i * (FH + 1) * N)%nat).
  { intros i. rewrite (chunks_length N) by (apply (concat_sign_chunks P HS c Hwf Hok Hc tree kp)). f_equal.
    unfold done. rewrite (concat_map_length _ (FH + 1)), seq_length; auto.
    intros. apply fors_sign_tree_length. }
  destruct (ex_chunks N FT (junk_bytes (junk 7%nat) (FT * N))) as (js & J1 & J2 & J3).
  { apply junk_length. }
  destruct (iterL_inv _ FT 0 f (fun i (s : bytes * bytes * bytes * bytes * nat) =>
      exists rest rs ty1 u1 u2 ty2 v2,
      s = (concat (done i) ++ rest, concat rs, FA ty1 u1 u2, FA ty2 0 v2, (i * (FH + 1) * N)%nat)
      /\ (length rest = (FT - i) * (FH + 1) * N)%nat
      /\ chunks_of N rs /\ length rs = FT
      /\ (forall j, (j < i)%nat -> nth_error rs j = nth_error rts j))
      (fun i => map E (fors_tree_calls D T PRF tree kp md i))
      (sig, junk_bytes (junk 7%nat) (FT * N), FA 0 0 0, FA 0 0 0, O)) as (s' & Es & Hs).
  - exists sig, js, 0, 0, 0, 0, 0. rewrite J3. repeat split; auto; try lia.
    rewrite Hsig. unfold SPX_FORS_BYTES. lia.
  - intros i s Hi (rest & rs & ty1 & u1 & u2 & ty2 & v2 & -> & R1 & R2 & R3 & R4). unfold f.
    rewrite idx_offset_small by (auto; lia).
    unfold get. rewrite nth_error_map_seq by lia. cbn [bind Nat.add].
    set (ind := fors_index D md i).
    assert (Hind : 0 <= ind < 2 ^ Z.of_nat FH) by apply (fors_index_range D).
    rewrite set_height_enc. cbn [bind]. rewrite set_index_enc. cbn [bind]. rewrite enc_u32.
    rewrite set_type_enc. cbn [bind]. rewrite (prf_encL P HS c Hok Hc), lbind_some.
    unfold with_type, with_w2, with_w1; cbn [a_layer a_tree a_type a_kp a_w1 a_w2].
    assert (Esk : PRF (mkAdrs 0 tree SPX_ADDR_TYPE_FORSPRF kp 0 (ind + Z.of_nat i * 2 ^ Z.of_nat FH))
            = fors_sk D PRF tree kp (Z.of_nat i) ind).
    { unfold fors_sk. cbn [dims_of s_a]. now rewrite Z.add_comm. }
    rewrite Esk. set (sk := fors_sk D PRF tree kp (Z.of_nat i) ind).
    assert (Hsk : length sk = N) by apply (fors_sk_len P HS c Hok Hc).
    assert (exists r1 r2 r3, rest = r1 ++ r2 ++ r3 /\ length r1 = N /\ length r2 = (FH * N)%nat
              /\ length r3 = ((FT - S i) * (FH + 1) * N)%nat) as (r1 & r2 & r3 & -> & L1 & L2 & L3).
    { assert (E0 : (length rest = N + FH * N + (FT - S i) * (FH + 1) * N)%nat).
      { rewrite R1. replace (FT - i)%nat with (S (FT - S i)) by lia. lia. }
      exists (firstn N rest), (firstn (FH * N) (skipn N rest)), (skipn (N + FH * N) rest).
      destruct (split_at rest N (FH * N)) as (p & m & q & Eq & Hp & Hm & Ep & Em & Eq');
        [rewrite E0; apply Nat.le_add_r|].
      rewrite <- Ep, <- Em, <- Eq'. repeat split; auto.
      rewrite Eq' at 1. rewrite skipn_length, E0. rewrite Nat.add_comm. apply Nat.add_sub. }
    rewrite wr_app' by (rewrite ?Hdone; lia). cbn [bind].
    rewrite set_type_enc. cbn [bind]. unfold with_type; cbn [a_layer a_tree a_type a_kp a_w1 a_w2].
    rewrite (app_assoc (concat (done i))).
    rewrite rd_app' by (rewrite ?app_length, ?Hdone; lia). cbn [bind].
    destruct (ex_chunks N FH r2 L2) as (au0 & A1 & A2 & A3).
    rewrite <- A3. change SPX_ADDR_TYPE_FORSTREE with T_FORS_TREE.
    destruct (fors_treehashL i ind au0 0 (ind + Z.of_nat i * 2 ^ Z.of_nat FH) ty2 v2)
      as (w1' & w2' & ty' & v2' & E'); auto; try lia.
    rewrite E', lbind_some.
    set (ap := auth_path (flf i) (fh2 i) FH ind).
    assert (Hap : length (concat ap) = (FH * N)%nat).
    { rewrite (chunks_length N) by (apply (auth_path_chunks P HS c Hwf Hok Hc tree kp)). unfold ap. now rewrite auth_path_length. }
    rewrite wr_chunk by (auto; try lia; apply (fors_root_len P HS c Hwf Hok Hc tree kp)). cbn [bind].
    rewrite wr_app' by (rewrite ?app_length, ?Hdone, ?Hap, ?A3; lia). cbn [bind].
    rewrite run_lret, run_some.
    assert (Elog : [E (SPrf (mkAdrs 0 tree SPX_ADDR_TYPE_FORSPRF kp 0 (ind + Z.of_nat i * 2 ^ Z.of_nat FH)))]
        ++ map E (tcs i) = map E (fors_tree_calls D T PRF tree kp md i)).
    { unfold fors_tree_calls, fors_prf_adrs. cbn [dims_of s_a map app]. fold ind.
      rewrite (Z.add_comm (Z.of_nat i * _)). reflexivity. }
    rewrite Elog.
    eexists. split; [reflexivity|].
    exists r3, (upd i (fors_root D T PRF tree kp (Z.of_nat i)) rs), T_FORS_TREE, w1', w2', ty', v2'.
    repeat split; auto.
    + assert (Ed : concat (done (S i)) = concat (done i) ++ sk ++ concat ap).
      { unfold done. rewrite seq_S, map_app, concat_app. cbn [map concat].
        rewrite app_nil_r, concat_app. unfold fors_sign_tree. cbn [concat Nat.add].
        reflexivity. }
      rewrite Ed, <- !app_assoc. f_equal. ring.
    + apply chunks_upd; auto. apply (fors_root_len P HS c Hwf Hok Hc tree kp).
    + now rewrite upd_length.
    + intros j Hj. destruct (Nat.eq_dec j i) as [->|].
      * rewrite nth_error_upd_same by lia. unfold rts. now rewrite nth_error_map_seq by lia.
      * rewrite nth_error_upd_other by auto. apply R4. lia.
  - destruct Hs as (rest & rs & ty1 & u1 & u2 & ty2 & v2 & -> & R1 & R2 & R3 & R4).
    rewrite Es, lbind_some. cbn [Nat.add].
    assert (rs = rts) as ->.
    { apply nth_error_ext'; [unfold rts; now rewrite map_length, seq_length|].
      intros j Hj. apply R4. lia. }
    cbn [Nat.add] in R1. rewrite Nat.sub_diag in R1. destruct rest; [|discriminate].
    rewrite app_nil_r.
    rewrite (thash_encL P HS c Hn Hok Hc FT) by (rewrite (chunks_length N), R3; auto).
    rewrite lbind_some, run_lret, run_some. unfold fors_calls. rewrite map_app, map_flat_map. reflexivity.
Qed.

(** ** fors_pk_from_sig *)
Theorem fors_pk_from_sig_okL cs md ty w1 w2 :
  chunks_of N cs -> length cs = (FT * (FH + 1))%nat ->
  all_bytes md -> length md = SPX_FORS_MSG_BYTES P ->
  fors_pk_from_sigL P HS junk c (concat cs) md (FA ty w1 w2)
  = Some (fors_pk_of_sig D T tree kp md cs, map E (fors_of_sig_calls D T tree kp md cs)).
Proof.
  intros Hcs Hlen Hmb Hml. unfold fors_pk_from_sigL. rewrite (zero_addr_enc L), !copy_keypair_enc.
  cbn [bind]. rewrite !set_type_enc. cbn [bind].
  unfold with_type; cbn [a_layer a_tree a_type a_kp a_w1 a_w2 adrs0].
  rewrite message_to_indices_ok by auto. cbn [bind].
  change SPX_ADDR_TYPE_FORSTREE with T_FORS_TREE.
  set (f := fun (i : nat) _ => _).
  destruct (wf_fors P Hwf) as [Hfh _].
  set (blk t := firstn (FH + 1) (skipn (t * (FH + 1)) cs)).
  set (rts := map (fun t => fors_root_of_sig D T tree kp md t (blk t)) (seq 0 FT)).
  assert (Hblk : forall t, (t < FT)%nat -> exists pre post sk au,
             cs = pre ++ (sk :: au) ++ post /\ length pre = (t * (FH + 1))%nat
             /\ blk t = sk :: au /\ length sk = N /\ length au = FH /\ chunks_of N au
             /\ chunks_of N pre /\ chunks_of N post).
  { intros t Ht. destruct (split_at cs (t * (FH + 1)) (FH + 1)) as (pre & mid & post & E0 & H1 & H2 & _ & H3 & _).
    { rewrite Hlen. nia. }
    destruct mid as [|sk au]; [cbn in H2; lia|].
    exists pre, post, sk, au. rewrite E0 in Hcs. apply chunks_app in Hcs. destruct Hcs as [C1 C2].
    apply chunks_app in C2. destruct C2 as [C2 C3]. inversion C2; subst.
    repeat split; auto. cbn in H2; lia. }
  assert (Hrt : forall t, (t < FT)%nat ->
             length (fors_root_of_sig D T tree kp md t (blk t)) = N).
  { intros t Ht. destruct (Hblk t Ht) as (pre & post & sk & au & E0 & H1 & H2 & H3 & H4 & H5 & _).
    unfold fors_root_of_sig. rewrite H2. cbn [hd tl].
    apply (climb_len P HS c Hn Hok Hc 0 tree T_FORS_TREE kp FH _ (fh2 t) (fors_hash2_code P HS c tree kp t));
      auto using fors_leaf_of_len. lia. }
  destruct (ex_chunks N FT (junk_bytes (junk 8%nat) (FT * N))) as (js & J1 & J2 & J3).
  { apply junk_length. }
  destruct (iterL_inv _ FT 0 f (fun i (s : bytes * bytes * nat) =>
      exists rs u1 u2,
      s = (concat rs, FA T_FORS_TREE u1 u2, (i * (FH + 1) * N)%nat)
      /\ chunks_of N rs /\ length rs = FT
      /\ (forall j, (j < i)%nat -> nth_error rs j = nth_error rts j))
      (fun i => map E (fors_tree_of_sig_calls D T tree kp md i (blk i)))
      (junk_bytes (junk 8%nat) (FT * N), FA T_FORS_TREE 0 0, O)) as (s' & Es & Hs).
  - exists js, 0, 0. rewrite J3. repeat split; auto; try lia.
  - intros i s Hi (rs & u1 & u2 & -> & R2 & R3 & R4). unfold f.
    rewrite idx_offset_small by (auto; lia).
    unfold get. rewrite nth_error_map_seq by lia. cbn [bind Nat.add].
    set (ind := fors_index D md i).
    rewrite set_height_enc. cbn [bind]. rewrite set_index_enc. cbn [bind]. rewrite enc_u32.
    unfold with_w2, with_w1; cbn [a_layer a_tree a_type a_kp a_w1 a_w2].
    destruct (Hblk i ltac:(lia)) as (pre & post & sk & au & E0 & H1 & H2 & H3 & H4 & H5 & H6 & H7).
    assert (Econ : concat cs = concat pre ++ sk ++ concat au ++ concat post).
    { rewrite E0, !concat_app. cbn [concat]. now rewrite <- app_assoc. }
    assert (Hpre : length (concat pre) = (i * (FH + 1) * N)%nat)
      by (rewrite (chunks_length N) by auto; now rewrite H1).
    rewrite Econ. rewrite rd_app' by lia. cbn [bind].
    rewrite (thash_encL P HS c Hn Hok Hc 1) by lia. rewrite lbind_some.
    rewrite (app_assoc (concat pre)).
    rewrite rd_app' by (rewrite ?app_length, ?(chunks_length N) by auto; lia). cbn [bind].
    assert (El : T (mkAdrs 0 tree T_FORS_TREE kp 0 (ind + Z.of_nat i * 2 ^ Z.of_nat FH)) sk
                 = fors_leaf_of D T tree kp (Z.of_nat i) ind sk).
    { unfold fors_leaf_of. cbn [dims_of s_a]. now rewrite Z.add_comm. }
    rewrite El.
    destruct (compute_root_okL P HS c junk Hn Hok Hc 0 tree T_FORS_TREE kp FH
                (Z.of_nat i * 2 ^ Z.of_nat FH) (fh2 i) (fors_adrs D tree kp (Z.of_nat i))
                (fors_hash2_code P HS c tree kp i) (fors_adrs_code i) au
                ind (fors_leaf_of D T tree kp (Z.of_nat i) ind sk) 0
                (ind + Z.of_nat i * 2 ^ Z.of_nat FH))
      as (w1' & w2' & Ec); auto using fors_leaf_of_len; try lia.
    rewrite Ec, lbind_some.
    pose proof (Hrt i ltac:(lia)) as Hrl. unfold fors_root_of_sig in Hrl. rewrite H2 in Hrl.
    cbn [hd tl] in Hrl. fold ind (fh2 i) in Hrl.
    rewrite wr_chunk by (auto; lia). cbn [bind]. rewrite run_lret, run_some.
    assert (Elog : [E (STh 1 (mkAdrs 0 tree T_FORS_TREE kp 0 (ind + Z.of_nat i * 2 ^ Z.of_nat FH)) sk)]
        ++ map E (climb_calls (fh2 i) (fors_adrs D tree kp (Z.of_nat i)) 0 ind (fors_leaf_of D T tree kp (Z.of_nat i) ind sk) au)
        = map E (fors_tree_of_sig_calls D T tree kp md i (blk i))).
    { unfold fors_tree_of_sig_calls. rewrite H2. cbn [hd tl map app]. fold ind. unfold fors_adrs at 2. cbn [dims_of s_a].
      rewrite Nat.sub_0_r, (Z.add_comm (Z.of_nat i * _)). reflexivity. }
    rewrite Elog.
    eexists. split; [reflexivity|].
    eexists (upd i _ rs), w1', w2'. repeat split; auto.
    + f_equal. ring.
    + apply chunks_upd; auto.
    + now rewrite upd_length.
    + intros j Hj. destruct (Nat.eq_dec j i) as [->|].
      * rewrite nth_error_upd_same by lia. unfold rts. rewrite nth_error_map_seq by lia.
        cbn [Nat.add]. unfold fors_root_of_sig. rewrite H2. reflexivity.
      * rewrite nth_error_upd_other by auto. apply R4. lia.
  - destruct Hs as (rs & u1 & u2 & -> & R2 & R3 & R4).
    rewrite Es, lbind_some.
    assert (rs = rts) as ->.
    { apply nth_error_ext'; [unfold rts; now rewrite map_length, seq_length|].
      intros j Hj. apply R4. lia. }
    rewrite (thash_encL P HS c Hn Hok Hc FT) by (rewrite (chunks_length N), R3; auto).
    rewrite run_some. unfold fors_of_sig_calls. rewrite map_app, map_flat_map. reflexivity.
Qed.
End Fors.

Section Merkle.
Variable P : params.
Variable HS : suite.
Variable c : ctx (hs_st HS).
Variable junk : nat -> nat -> Z.
Notation N := (p_n P).
Notation L := (hs_layout HS).
Notation W := (SPX_WOTS_W P).
Notation LEN := (SPX_WOTS_LEN P).
Notation TH := (SPX_TREE_HEIGHT P).
Hypothesis Hwf : wf_params P = true.
Hypothesis Hok : suite_ok P HS.
Hypothesis Hc : ctx_ok P HS c.
Notation T := (codeT P HS c).
Notation PRF := (codePRF HS c).
Notation D := (dims_of P).
Notation E := (enc_call L).

Let Hn : (1 <= N)%nat. Proof. pose proof (wf_n P Hwf). lia. Qed.
Variables layer tree : Z.
Lemma tree_adrs_code h i : (1 <= h <= TH)%nat ->
  mkAdrs layer tree T_TREE 0 (Z.of_nat h) (i + 0 / 2 ^ Z.of_nat h) = tree_adrs layer tree h i.
Proof. clear. intros. rewrite Zdiv_0_l, Z.add_0_r. reflexivity. Qed.

Lemma merkle_sign_genL sig0 auth0 root ls ty k0 u1 u2 ty' w1 w2 idx :
  length sig0 = SPX_WOTS_BYTES P -> length auth0 = (TH * N)%nat -> length root = N ->
  chain_lengths P root = Some ls -> length ls = LEN -> Forall (fun l => 0 <= l < W) ls ->
  0 <= idx < 2 ^ Z.of_nat TH \/ idx = 2 ^ 32 - 1 ->
  exists w1' w2',
    merkle_signL P HS junk c (sig0 ++ auth0) root (enc L (mkAdrs layer tree ty k0 u1 u2))
      (enc L (mkAdrs layer tree ty' 0 w1 w2)) idx
    = Some (((if idx =? 2 ^ 32 - 1 then sig0 ++ auth0
             else concat (sign_blocks P HS c layer tree idx ls
                          ++ auth_path (fun kp => wots_pk D T PRF layer tree kp)
                               (tree_hash2 T layer tree) TH idx)),
            xmss_root D T PRF layer tree,
            enc L (mkAdrs layer tree T_TREE 0 w1' w2')), map E (xmss_calls D T PRF layer tree)).
Proof.
  intros Hs0 Ha0 Hr Els Hls Hlr Hidx.
  destruct (wf_tree P Hwf) as (Hth & _).
  unfold merkle_signL. rewrite rd_app0 by auto. cbn [bind].
  rewrite rd_app_r by auto. cbn [bind]. rewrite Els. cbn [bind].
  rewrite set_type_enc. cbn [bind]. rewrite !(zero_addr_enc L), set_type_enc. cbn [bind].
  rewrite !copy_subtree_enc. cbn [bind].
  unfold with_type; cbn [a_layer a_tree a_type a_kp a_w1 a_w2 adrs0].
  change SPX_ADDR_TYPE_HASHTREE with T_TREE. change SPX_ADDR_TYPE_WOTSPK with T_WOTS_PK.
  destruct (ex_chunks N LEN sig0 Hs0) as (sg & S1 & S2 & S3).
  destruct (ex_chunks N TH auth0 Ha0) as (au0 & A1 & A2 & A3).
  rewrite <- S3, <- A3.
  set (g0 := mkInfo _ _ _ _ _).
  set (sgk k := if (0 <=? idx) && (idx <? k) then sign_blocks P HS c layer tree idx ls else sg).
  destruct (treehashx1_okL P HS c junk Hn Hok Hc layer tree T_TREE 0 TH 0 (tree_hash2 T layer tree)
              (tree_adrs layer tree)
              (tree_hash2_code P HS c layer tree) tree_adrs_code (fun kp => wots_pk D T PRF layer tree kp)
              (wots_pk_len P HS c Hwf Hok Hc layer tree)
              (wots_pk_calls D T PRF layer tree)
              (wots_gen_leafx1L P HS junk c)
              (fun k g => info_ok P HS layer tree idx ls (sgk k) g))
    with (leaf_idx := idx) (au0 := au0) (w1 := w1) (w2 := w2) (g := g0)
    as (au' & w1' & w2' & g' & E0 & Hau' & Hg'); auto; try lia.
  - intros k g Hk Hg.
    assert (Hk32 : k < 2 ^ 32).
    { eapply Z.lt_le_trans; [apply Hk|]. apply Z.pow_le_mono_r; lia. }
    replace (u32 (k + 0)) with k.
    2:{ rewrite Z.add_0_r. symmetry. apply Z.mod_small. lia. }
    destruct (wots_gen_leafx1_okL P HS c junk Hwf Hok Hc layer tree k idx ls (sgk k) g Hg Hls Hlr)
      as (g1 & E1 & Hg1).
    exists g1. split; [exact E1|].
    replace (sgk (k + 1)) with (if k =? idx then sign_blocks P HS c layer tree k ls else sgk k); auto.
    unfold sgk. destruct (Z.eqb_spec k idx) as [->|Hne].
    + now replace ((0 <=? idx) && (idx <? idx + 1)) with true by lia.
    + destruct ((0 <=? idx) && (idx <? k)) eqn:E2.
      * now replace ((0 <=? idx) && (idx <? k + 1)) with true by lia.
      * now replace ((0 <=? idx) && (idx <? k + 1)) with false by lia.
  - unfold info_ok, g0; cbn [wi_sig wi_sign_leaf wi_steps wi_leaf_addr wi_pk_addr].
    unfold sgk. replace ((0 <=? idx) && (idx <? 0)) with false by lia.
    repeat split; auto.
    + exists 0, 0, 0, 0. split; [reflexivity|lia].
    + exists 0. reflexivity.
  - rewrite E0, lbind_some.
    destruct Hg' as (G1 & G2 & G3 & _). rewrite G1.
    assert (Hlsg : length (concat sg) = SPX_WOTS_BYTES P) by (rewrite (chunks_length N), S2; auto).
    assert (Hlsg' : length (concat (sgk (2 ^ Z.of_nat TH))) = SPX_WOTS_BYTES P)
      by (rewrite (chunks_length N), G3; auto).
    assert (Hlau' : length (concat au') = (TH * N)%nat).
    { destruct Hau' as (C1 & C2 & _). rewrite (chunks_length N), C2; auto. }
    assert (Hlau : length (concat au0) = (TH * N)%nat) by (rewrite (chunks_length N), A2; auto).
    rewrite wr_app0 by congruence. cbn [bind].
    rewrite wr_app_r by congruence. cbn [bind]. rewrite run_lret.
    exists w1', w2'. unfold xmss_calls. do 4 f_equal.
    assert (Hsmall : 2 ^ Z.of_nat TH < 2 ^ 32 - 1).
    { apply Z.le_lt_trans with (2 ^ 30); [apply Z.pow_le_mono_r; lia|reflexivity]. }
    destruct (Z.eqb_spec idx (2 ^ 32 - 1)) as [E1|E1].
    + unfold sgk. replace ((0 <=? idx) && (idx <? 2 ^ Z.of_nat TH)) with false by lia.
      subst idx. f_equal. f_equal.
      eapply (auth_inv_none P TH); eauto. lia.
    + destruct Hidx as [Hidx|Hidx]; [|lia].
      unfold sgk. replace ((0 <=? idx) && (idx <? 2 ^ Z.of_nat TH)) with true by lia.
      rewrite concat_app. f_equal. f_equal.
      eapply (auth_inv_full P TH); eauto.
Qed.

Theorem merkle_sign_okL sig0 root ty k0 u1 u2 ty' w1 w2 idx :
  length sig0 = (SPX_WOTS_BYTES P + TH * N)%nat -> length root = N -> all_bytes root ->
  0 <= idx < 2 ^ Z.of_nat TH ->
  exists w1' w2',
    merkle_signL P HS junk c sig0 root (enc L (mkAdrs layer tree ty k0 u1 u2))
      (enc L (mkAdrs layer tree ty' 0 w1 w2)) idx
    = Some ((concat (xmss_sign D T PRF layer tree idx root), xmss_root D T PRF layer tree,
            enc L (mkAdrs layer tree T_TREE 0 w1' w2')), map E (xmss_calls D T PRF layer tree)).
Proof.
  intros Hs Hr Hb Hidx. destruct (wf_tree P Hwf) as (Hth & _).
  assert (exists s0 a0, sig0 = s0 ++ a0 /\ length s0 = SPX_WOTS_BYTES P /\ length a0 = (TH * N)%nat)
    as (s0 & a0 & -> & H1 & H2).
  { exists (firstn (SPX_WOTS_BYTES P) sig0), (skipn (SPX_WOTS_BYTES P) sig0).
    rewrite firstn_skipn, firstn_length, skipn_length. repeat split; lia. }
  destruct (merkle_sign_genL s0 a0 root (wots_lengths D root) ty k0 u1 u2 ty' w1 w2 idx)
    as (w1' & w2' & E0); auto.
  - now apply chain_lengths_ok.
  - apply (wots_lengths_length D).
  - apply (wots_lengths_range D). cbn. pose proof (W_pos P Hwf). lia.
  - exists w1', w2'. rewrite E0.
    replace (idx =? 2 ^ 32 - 1) with false; [reflexivity|].
    symmetry. apply Z.eqb_neq.
    assert (2 ^ Z.of_nat TH <= 2 ^ 30) by (apply Z.pow_le_mono_r; lia).
    change (2 ^ 30) with 1073741824 in *. change (2 ^ 32 - 1) with 4294967295. lia.
Qed.
End Merkle.

Theorem merkle_gen_root_okL P HS c junk root :
  wf_params P = true -> suite_ok P HS -> ctx_ok P HS c -> length root = p_n P ->
  merkle_gen_rootL P HS junk c root
  = Some (ht_root (dims_of P) (codeT P HS c) (codePRF HS c),
          map (enc_call (hs_layout HS)) (keygen_calls (dims_of P) (codeT P HS c) (codePRF HS c))).
Proof.
  intros Hwf Hok Hc Hr. unfold merkle_gen_rootL.
  rewrite !(zero_addr_enc (hs_layout HS)), !set_layer_enc. cbn [bind].
  unfold with_layer; cbn [a_layer a_tree a_type a_kp a_w1 a_w2 adrs0].
  destruct (chain_lengths_total P Hwf root Hr) as (ls & E1 & E2 & E3).
  set (j := junk_bytes _ _).
  assert (Hj : length j = (SPX_TREE_HEIGHT P * p_n P + SPX_WOTS_BYTES P)%nat) by apply junk_length.
  assert (exists s0 a0, j = s0 ++ a0 /\ length s0 = SPX_WOTS_BYTES P
            /\ length a0 = (SPX_TREE_HEIGHT P * p_n P)%nat) as (s0 & a0 & -> & H1 & H2).
  { exists (firstn (SPX_WOTS_BYTES P) j), (skipn (SPX_WOTS_BYTES P) j).
    rewrite firstn_skipn, firstn_length, skipn_length. repeat split; lia. }
  destruct (merkle_sign_genL P HS c junk Hwf Hok Hc (Z.of_nat (p_d P) - 1) 0
              s0 a0 root ls 0 0 0 0 0 0 0 (2 ^ 32 - 1)) as (w1' & w2' & E0); auto.
  rewrite E0, lbind_some, run_lret. reflexivity.
Qed.
