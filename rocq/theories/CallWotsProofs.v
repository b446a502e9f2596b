(** The calls WOTS+ makes. *)
From Verif Require Import Base BaseFacts Params Address Suite Wots Spec SpecFacts AdrsEnc
  AddressProofs Refine TreeProofs WotsDigitsProofs WotsProofs CallLog CallSpec CallTreeProofs.

Lemma map_flat_map : forall A B C (f : B -> C) (g : A -> list B) l,
  map f (flat_map g l) = flat_map (fun x => map f (g x)) l.
Proof. induction l as [|x l IH]; cbn; [reflexivity|]. now rewrite map_app, IH. Qed.

Section Wots.
Variable P : params.
Variable HS : suite.
Variable c : ctx (hs_st HS).
Variable junk : nat -> nat -> Z.
Notation N := (p_n P).
Notation L := (hs_layout HS).
Notation W := (SPX_WOTS_W P).
Notation LEN := (SPX_WOTS_LEN P).
Hypothesis Hwf : wf_params P = true.
Hypothesis Hok : suite_ok P HS.
Hypothesis Hc : ctx_ok P HS c.
Notation T := (codeT P HS c).
Notation PRF := (codePRF HS c).
Notation D := (dims_of P).
Notation E := (enc_call L).

Let Hn : (1 <= N)%nat. Proof. pose proof (wf_n P Hwf). lia. Qed.
Let HW : 2 <= W <= 256. Proof. split; [apply (W_pos P Hwf)|apply (W_le_256 P Hwf)]. Qed.

Variables layer tree kp : Z.
Notation WA := (fun i w2 => mkAdrs layer tree T_WOTS_HASH kp i w2).
Notation chn := (chain T layer tree kp).
Notation cc := (chain_calls T layer tree kp).
Notation Chain_len := (chain_len P HS c Hwf Hok Hc layer tree kp).

Lemma cc_front i x s k : cc i x s (S k) = STh 1 (WA i s) x :: cc i (T (WA i s) x) (s + 1) k.
Proof. clear.
  unfold chain_calls. cbn [seq map]. rewrite Z.add_0_r. f_equal. rewrite <- seq_shift, map_map.
  apply map_ext_in. intros j _. rewrite chain_front. unfold wots_adrs.
  do 2 f_equal. lia.
Qed.

Lemma gen_chain_loop_okL fuel ci i lim x w2 :
  length x = N -> 0 <= w2 < 256 -> 0 <= i -> Z.min lim W - i <= Z.of_nat fuel ->
  exists w2',
    gen_chain_loopL P HS c fuel i lim x (enc L (WA ci w2))
    = Some ((chn ci x i (Z.to_nat (Z.min lim W - i)), enc L (WA ci w2')),
            map E (cc ci x i (Z.to_nat (Z.min lim W - i)))) /\ 0 <= w2' < 256.
Proof. clear junk.
  revert i x w2. induction fuel as [|fuel IH]; intros i x w2 Hx Hw2 Hi Hf; cbn [gen_chain_loopL].
  - replace ((i <? lim) && (i <? W)) with false by lia.
    exists w2. split; auto. now replace (Z.to_nat (Z.min lim W - i)) with O by lia.
  - destruct ((i <? lim) && (i <? W)) eqn:Eb.
    + rewrite set_hash_enc by (cbn [a_w2]; lia). cbn [bind].
      rewrite (thash_encL P HS c Hn Hok Hc 1) by lia. rewrite lbind_some.
      unfold with_w2; cbn [a_layer a_tree a_type a_kp a_w1 a_w2].
      destruct (IH (i + 1) (T (WA ci i) x) i) as (w2' & E' & Hw'); try lia.
      { apply (codeT_len P HS c Hn Hok Hc 1). lia. }
      exists w2'. split; auto. rewrite E', run_some.
      replace (Z.to_nat (Z.min lim W - i)) with (S (Z.to_nat (Z.min lim W - (i + 1)))) by lia.
      rewrite cc_front, chain_front. reflexivity.
    + exists w2. split; auto. now replace (Z.to_nat (Z.min lim W - i)) with O by lia.
Qed.

Lemma gen_chain_okL ci x start steps w2 :
  length x = N -> 0 <= w2 < 256 -> 0 <= start -> 0 <= steps -> start + steps < 2 ^ 32 ->
  exists w2',
    gen_chainL P HS c x start steps (enc L (WA ci w2))
    = Some ((chn ci x start (Z.to_nat (Z.min (start + steps) W - start)), enc L (WA ci w2')),
            map E (cc ci x start (Z.to_nat (Z.min (start + steps) W - start))))
    /\ 0 <= w2' < 256.
Proof. clear junk.
  intros Hx Hw2 Hs Hk Hlt. unfold gen_chainL. rewrite rd_all by auto. cbn [bind].
  replace (u32 (start + steps)) with (start + steps) by (symmetry; apply Z.mod_small; lia).
  apply gen_chain_loop_okL; auto. lia.
Qed.

Definition pk_chain_calls (ls : list Z) (sig : list bytes) : list scall :=
  flat_map (fun i => let l := nth i ls 0 in cc (Z.of_nat i) (nth i sig []) l (Z.to_nat (W - 1 - l))) (seq 0 LEN).

Lemma wots_pk_from_sig_genL ls cs msg w1 w2 :
  chain_lengths P msg = Some ls -> length ls = LEN -> Forall (fun l => 0 <= l < W) ls ->
  chunks_of N cs -> length cs = LEN -> 0 <= w2 < 256 ->
  exists w1' w2',
    wots_pk_from_sigL P HS junk c (concat cs) msg (enc L (WA w1 w2))
    = Some ((concat (pk_blocks P HS c layer tree kp ls cs), enc L (WA w1' w2')), map E (pk_chain_calls ls cs))
    /\ 0 <= w2' < 256.
Proof.
  intros Els Hls Hr Hch Hlen Hw2. unfold wots_pk_from_sigL. rewrite Els. cbn [bind].
  set (f := fun (i : nat) _ => _).
  destruct (ex_chunks N LEN (junk_bytes (junk 5%nat) (SPX_WOTS_BYTES P))) as (js & J1 & J2 & J3).
  { apply junk_length. }
  unfold pk_chain_calls. rewrite map_flat_map.
  destruct (iterL_inv _ LEN 0 f (fun i (s : bytes * bytes) => exists bs w1 w2,
      s = (concat bs, enc L (WA w1 w2)) /\ chunks_of N bs /\ length bs = LEN /\ 0 <= w2 < 256
      /\ forall j, (j < i)%nat -> nth_error bs j = nth_error (pk_blocks P HS c layer tree kp ls cs) j)
      (fun i => map E (let l := nth i ls 0 in cc (Z.of_nat i) (nth i cs []) l (Z.to_nat (W - 1 - l))))
      (junk_bytes (junk 5%nat) (SPX_WOTS_BYTES P), enc L (WA w1 w2))) as (s' & Es & Hs).
  - exists js, w1, w2. rewrite J3. repeat split; auto; try lia. 
  - intros i s Hi (bs & v1 & v2 & -> & B1 & B2 & Hv & B3). unfold f.
    rewrite set_chain_enc. cbn [bind]. unfold with_w1; cbn [a_layer a_tree a_type a_kp a_w1 a_w2].
    destruct (nth_error ls i) as [l|] eqn:El; [|apply nth_error_None in El; lia].
    unfold get. rewrite El. cbn [bind].
    assert (Hl : 0 <= l < W).
    { apply (proj1 (Forall_forall _ _) Hr). eapply nth_error_In; eauto. }
    destruct (nth_error cs i) as [x|] eqn:Ex; [|apply nth_error_None in Ex; lia].
    rewrite (rd_chunk N cs i x) by auto. cbn [bind].
    assert (Hx : length x = N).
    { apply (proj1 (Forall_forall _ _) Hch). eapply nth_error_In; eauto. }
    assert (E32 : u32 (W - 1 - l) = W - 1 - l) by (apply Z.mod_small; lia). rewrite E32.
    destruct (gen_chain_okL (Z.of_nat i) x l (W - 1 - l) v2) as (v2' & E' & Hv2'); auto; try lia.
    rewrite E', lbind_some. replace (Z.min (l + (W - 1 - l)) W - l) with (W - 1 - l) by lia.
    set (y := chn (Z.of_nat i) x l (Z.to_nat (W - 1 - l))).
    assert (Hy : length y = N) by (now apply Chain_len).
    rewrite wr_chunk by (auto; lia). cbn [bind]. rewrite run_lret.
    rewrite (nth_error_nth _ _ 0 El), (nth_error_nth _ _ [] Ex).
    eexists. split; [reflexivity|]. exists (upd i y bs), (Z.of_nat i), v2'.
    repeat split; auto; try lia.
    + now apply chunks_upd.
    + now rewrite upd_length.
    + intros j Hj. destruct (Nat.eq_dec j i) as [->|].
      * rewrite nth_error_upd_same by lia. unfold pk_blocks. rewrite nth_error_map_seq by lia.
        cbn [Nat.add]. rewrite (nth_error_nth _ _ 0 El), (nth_error_nth _ _ [] Ex). reflexivity.
      * rewrite nth_error_upd_other by auto. apply B3. lia.
  - destruct Hs as (bs & v1 & v2 & -> & B1 & B2 & Hv & B3).
    rewrite Es. exists v1, v2. split; auto. do 4 f_equal.
    apply nth_error_ext'.
    + unfold pk_blocks. now rewrite map_length, seq_length.
    + intros j Hj. apply B3. lia.
Qed.

Lemma wots_leaf_chain_okL fuel i k wk x sg w2 :
  length x = N -> 0 <= w2 < 256 -> 0 <= k < W -> Z.of_nat fuel = W - k ->
  chunks_of N sg -> (i < length sg)%nat ->
  exists w2',
    wots_leaf_chainL P HS c fuel i k wk x (concat sg) (enc L (WA (Z.of_nat i) w2))
    = Some ((chn (Z.of_nat i) x k (Z.to_nat (W - 1 - k)),
            concat (if (k <=? wk) && (wk <? W)
                    then upd i (chn (Z.of_nat i) x k (Z.to_nat (wk - k))) sg else sg),
            enc L (WA (Z.of_nat i) w2')), map E (cc (Z.of_nat i) x k (Z.to_nat (W - 1 - k))))
    /\ 0 <= w2' < 256.
Proof. clear junk.
  revert k x sg w2. induction fuel as [|fuel IH]; intros k x sg w2 Hx Hw2 Hk Hf Hsg Hi; [lia|].
  cbn [wots_leaf_chainL].
  set (sg1 := if k =? wk then upd i x sg else sg).
  assert (Ew : (if k =? wk then wr (concat sg) (i * N) x else Some (concat sg)) = Some (concat sg1)).
  { unfold sg1. destruct (k =? wk); [apply wr_chunk; auto|reflexivity]. }
  rewrite Ew. cbn [bind].
  assert (Hsg1 : chunks_of N sg1 /\ length sg1 = length sg).
  { unfold sg1. destruct (k =? wk); [split; [now apply chunks_upd|apply upd_length]|auto]. }
  destruct Hsg1 as [Hs1 Hs2].
  destruct (Z.eqb_spec k (W - 1)) as [Eq|Eq].
  - exists w2. split; auto. replace (Z.to_nat (W - 1 - k)) with O by lia. unfold lret. do 3 f_equal. f_equal.
    f_equal. unfold sg1. destruct (Z.eqb_spec k wk) as [E'|E'].
    + replace ((k <=? wk) && (wk <? W)) with true by lia.
      now replace (Z.to_nat (wk - k)) with O by lia.
    + now replace ((k <=? wk) && (wk <? W)) with false by lia.
  - rewrite set_hash_enc by (cbn [a_w2]; lia). cbn [bind].
    rewrite (thash_encL P HS c Hn Hok Hc 1) by lia. rewrite lbind_some.
    unfold with_w2; cbn [a_layer a_tree a_type a_kp a_w1 a_w2].
    set (y := T (WA (Z.of_nat i) k) x).
    assert (Hy : length y = N) by (apply (codeT_len P HS c Hn Hok Hc 1); lia).
    destruct (IH (k + 1) y sg1 k) as (w2' & E' & Hw'); auto; try lia.
    exists w2'. split; auto. rewrite E', run_some.
    replace (Z.to_nat (W - 1 - k)) with (S (Z.to_nat (W - 1 - (k + 1)))) by lia.
    rewrite cc_front, chain_front. fold y. do 3 f_equal. f_equal.
    f_equal. unfold sg1. destruct (Z.eqb_spec k wk) as [E1|E1].
    + replace ((k + 1 <=? wk) && (wk <? W)) with false by lia.
      replace ((k <=? wk) && (wk <? W)) with true by lia.
      now replace (Z.to_nat (wk - k)) with O by lia.
    + destruct ((k <=? wk) && (wk <? W)) eqn:E2.
      * replace ((k + 1 <=? wk) && (wk <? W)) with true by lia.
        replace (Z.to_nat (wk - k)) with (S (Z.to_nat (wk - (k + 1)))) by lia.
        now rewrite chain_front.
      * now replace ((k + 1 <=? wk) && (wk <? W)) with false by lia.
Qed.

Notation Info_ok := (info_ok P HS layer tree).
Notation Sign_blocks := (sign_blocks P HS c layer tree kp).
Notation Full_blocks := (full_blocks P HS c layer tree kp).

Lemma wots_gen_leafx1_okL sl ls sg g :
  Info_ok sl ls sg g -> length ls = LEN -> Forall (fun l => 0 <= l < W) ls ->
  exists g',
    wots_gen_leafx1L P HS junk c g kp
    = Some ((wots_pk D T PRF layer tree kp, g'), map E (wots_pk_calls D T PRF layer tree kp))
    /\ Info_ok sl ls (if kp =? sl then Sign_blocks ls else sg) g'.
Proof.
  intros (G1 & G2 & G3 & G4 & G5 & (ty & k0 & w1 & w2 & G6 & Hw2) & (k1 & G7)) Hls Hr.
  unfold wots_gen_leafx1L. rewrite G6, G7, set_keypair_enc, set_keypair_enc. cbn [bind].
  unfold with_kp; cbn [a_layer a_tree a_type a_kp a_w1 a_w2]. rewrite G1, G4, G5.
  set (mask := if kp =? sl then 0 else 2 ^ 32 - 1).
  set (f := fun (i : nat) _ => _).
  destruct (ex_chunks N LEN (junk_bytes (junk 6%nat) (SPX_WOTS_BYTES P))) as (js & J1 & J2 & J3).
  { apply junk_length. }
  destruct (iterL_inv _ LEN 0 f (fun i (s : bytes * bytes * bytes) => exists bs ss ty w1 w2,
      s = (concat bs, concat ss, enc L (mkAdrs layer tree ty kp w1 w2)) /\
      chunks_of N bs /\ length bs = LEN /\ chunks_of N ss /\ length ss = LEN /\ 0 <= w2 < 256
      /\ (forall j, (j < i)%nat -> nth_error bs j = nth_error Full_blocks j)
      /\ (if kp =? sl then forall j, (j < i)%nat -> nth_error ss j = nth_error (Sign_blocks ls) j
          else ss = sg))
      (fun i => map E (SPrf (mkAdrs layer tree T_WOTS_PRF kp (Z.of_nat i) 0)
                     :: cc (Z.of_nat i) (wots_sk PRF layer tree kp i) 0 (Z.to_nat (s_w D - 1))))
      (junk_bytes (junk 6%nat) (SPX_WOTS_BYTES P), concat sg, enc L (mkAdrs layer tree ty kp w1 w2)))
    as (s' & Es & Hs).
  - exists js, sg, ty, w1, w2. rewrite J3. destruct (kp =? sl); repeat split; auto; try lia.
  - intros i s Hi (bs & ss & ty' & v1 & v2 & -> & B1 & B2 & S1 & S2 & Hv & B3 & S3). unfold f.
    destruct (nth_error ls i) as [l|] eqn:El; [|apply nth_error_None in El; lia].
    unfold get. rewrite El. cbn [bind].
    assert (Hl : 0 <= l < W).
    { apply (proj1 (Forall_forall _ _) Hr). eapply nth_error_In; eauto. }
    rewrite set_chain_enc. cbn [bind].
    rewrite set_hash_enc by (cbn; lia). cbn [bind].
    rewrite set_type_enc. cbn [bind]. rewrite (prf_encL P HS c Hok Hc), lbind_some.
    rewrite set_type_enc. cbn [bind].
    unfold with_type, with_w2, with_w1; cbn [a_layer a_tree a_type a_kp a_w1 a_w2].
    change (codePRF HS c (mkAdrs layer tree SPX_ADDR_TYPE_WOTSPRF kp (Z.of_nat i) 0))
      with (wots_sk PRF layer tree kp i).
    set (x := wots_sk PRF layer tree kp i).
    assert (Hx : length x = N) by apply (codePRF_len P HS c Hok Hc).
    change SPX_ADDR_TYPE_WOTS with T_WOTS_HASH.
    unfold mask. rewrite (lor_mask P Hwf) by lia.
    set (wk := if kp =? sl then l else 2 ^ 32 - 1).
    destruct (wots_leaf_chain_okL (Z.to_nat W) i 0 wk x ss 0) as (w2' & E' & Hw'); auto; try lia.
    rewrite E', lbind_some. rewrite !Z.sub_0_r.
    set (y := chn (Z.of_nat i) x 0 (Z.to_nat (W - 1))).
    assert (Hy : length y = N) by (now apply Chain_len).
    rewrite wr_chunk by (auto; lia). cbn [bind]. rewrite run_lret, run_some.
    eexists. split; [reflexivity|].
    exists (upd i y bs), (if kp =? sl then upd i (chn (Z.of_nat i) x 0 (Z.to_nat l)) ss else ss),
      T_WOTS_HASH, (Z.of_nat i), w2'.
    repeat split; try lia.
    + do 2 f_equal. unfold wk. destruct (kp =? sl).
      * now replace ((0 <=? l) && (l <? W)) with true by lia.
      * now replace ((0 <=? 2 ^ 32 - 1) && (2 ^ 32 - 1 <? W)) with false by lia.
    + now apply chunks_upd.
    + now rewrite upd_length.
    + destruct (kp =? sl); auto. apply chunks_upd; auto. now apply Chain_len.
    + destruct (kp =? sl); auto. now rewrite upd_length.
    + intros j Hj. destruct (Nat.eq_dec j i) as [->|].
      * rewrite nth_error_upd_same by lia. unfold full_blocks. now rewrite nth_error_map_seq by lia.
      * rewrite nth_error_upd_other by auto. apply B3. lia.
    + destruct (kp =? sl); auto. intros j Hj. destruct (Nat.eq_dec j i) as [->|].
      * rewrite nth_error_upd_same by lia. unfold sign_blocks. rewrite nth_error_map_seq by lia.
        cbn [Nat.add]. now rewrite (nth_error_nth _ _ 0 El).
      * rewrite nth_error_upd_other by auto. apply S3. lia.
  - destruct Hs as (bs & ss & ty' & v1 & v2 & -> & B1 & B2 & S1 & S2 & Hv & B3 & S3).
    rewrite Es, lbind_some.
    assert (bs = Full_blocks) as ->.
    { apply nth_error_ext'; [unfold full_blocks; now rewrite map_length, seq_length|].
      intros j Hj. apply B3. lia. }
    rewrite (thash_encL P HS c Hn Hok Hc LEN) by (rewrite (chunks_length N), B2; auto).
    rewrite lbind_some, run_lret, run_some.
    unfold wots_pk_calls. rewrite map_app, map_flat_map.
    eexists. split; [reflexivity|].
    assert (ss = if kp =? sl then Sign_blocks ls else sg) as ->.
    { destruct (kp =? sl); auto.
      apply nth_error_ext'; [unfold sign_blocks; now rewrite map_length, seq_length|].
      intros j Hj. apply S3. lia. }
    unfold info_ok. cbn [wi_sig wi_sign_leaf wi_steps wi_leaf_addr wi_pk_addr].
    repeat split; auto.
    + exists ty', kp, v1, v2. auto.
    + exists kp. reflexivity.
Qed.
End Wots.
