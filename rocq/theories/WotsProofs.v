(** ref/wots.c and ref/wotsx1.c compute the WOTS+ of the specification. *)
From Verif Require Import Base BaseFacts Params Address Suite Wots Spec SpecFacts AdrsEnc
  AddressProofs Refine TreeProofs WotsDigitsProofs.

Section Wots.
Variable P : params.
Variable HS : suite.
Variable c : ctx (hs_st HS).
Variable junk : nat -> nat -> Z.
Notation N := (p_n P).
Notation L := (hs_layout HS).
Notation W := (SPX_WOTS_W P).
Notation LEN := (SPX_WOTS_LEN P).
Hypothesis Hwf : wf_params P = true.
Hypothesis Hok : suite_ok P HS.
Hypothesis Hc : ctx_ok P HS c.
Notation T := (codeT P HS c).
Notation PRF := (codePRF HS c).
Notation D := (dims_of P).

Let Hn : (1 <= N)%nat. Proof. pose proof (wf_n P Hwf). lia. Qed.
Let HW : 2 <= W <= 256. Proof. split; [apply (W_pos P Hwf)|apply (W_le_256 P Hwf)]. Qed.

Variables layer tree kp : Z.
Notation WA := (fun i w2 => mkAdrs layer tree T_WOTS_HASH kp i w2).
Notation chn := (chain T layer tree kp).

Lemma chain_len i x s k : length x = N -> length (chn i x s k) = N.
Proof. clear junk.
  intros Hx. induction k as [|k IH]; cbn [chain]; auto.
  apply (codeT_len P HS c Hn Hok Hc 1). lia.
Qed.

Lemma hash_step x a i : length x = N -> 0 <= a_w2 a < 256 -> 0 <= i < 256 ->
  (addr <- set_hash_addr L (enc L a) i ;;
   d <- thash P HS c 1 x addr ;; Some (d, addr))
  = Some (T (with_w2 a i) x, enc L (with_w2 a i)).
Proof. clear junk.
  intros Hx Ha Hi. rewrite set_hash_enc by auto. cbn [bind].
  rewrite (thash_enc P HS c Hn Hok Hc 1) by lia. reflexivity.
Qed.

(** The loop of gen_chain, for any limit: it stops at W. *)
Lemma gen_chain_loop_ok fuel ci i lim x w2 :
  length x = N -> 0 <= w2 < 256 -> 0 <= i -> Z.min lim W - i <= Z.of_nat fuel ->
  exists w2',
    gen_chain_loop P HS c fuel i lim x (enc L (WA ci w2))
    = Some (chn ci x i (Z.to_nat (Z.min lim W - i)), enc L (WA ci w2')) /\ 0 <= w2' < 256.
Proof. clear junk.
  revert i x w2. induction fuel as [|fuel IH]; intros i x w2 Hx Hw2 Hi Hf; cbn [gen_chain_loop].
  - replace ((i <? lim) && (i <? W)) with false by lia.
    exists w2. split; auto. now replace (Z.to_nat (Z.min lim W - i)) with O by lia.
  - destruct ((i <? lim) && (i <? W)) eqn:E.
    + rewrite set_hash_enc by (cbn [a_w2]; lia). cbn [bind].
      rewrite (thash_enc P HS c Hn Hok Hc 1) by lia. cbn [bind].
      unfold with_w2; cbn [a_layer a_tree a_type a_kp a_w1 a_w2].
      destruct (IH (i + 1) (T (WA ci i) x) i) as (w2' & E' & Hw'); try lia.
      { apply (codeT_len P HS c Hn Hok Hc 1). lia. }
      exists w2'. split; auto. rewrite E'. do 2 f_equal.
      replace (Z.to_nat (Z.min lim W - i)) with (S (Z.to_nat (Z.min lim W - (i + 1)))) by lia.
      now rewrite chain_front.
    + exists w2. split; auto. now replace (Z.to_nat (Z.min lim W - i)) with O by lia.
Qed.

Lemma gen_chain_ok ci x start steps w2 :
  length x = N -> 0 <= w2 < 256 -> 0 <= start -> 0 <= steps -> start + steps < 2 ^ 32 ->
  exists w2',
    gen_chain P HS c x start steps (enc L (WA ci w2))
    = Some (chn ci x start (Z.to_nat (Z.min (start + steps) W - start)), enc L (WA ci w2'))
    /\ 0 <= w2' < 256.
Proof. clear junk.
  intros Hx Hw2 Hs Hk Hlt. unfold gen_chain. rewrite rd_all by auto. cbn [bind].
  replace (u32 (start + steps)) with (start + steps) by (symmetry; apply Z.mod_small; lia).
  apply gen_chain_loop_ok; auto. lia.
Qed.

(** ** wots_pk_from_sig *)
Definition pk_blocks (ls : list Z) (sig : list bytes) : list bytes :=
  map (fun i => let l := nth i ls 0 in
                chn (Z.of_nat i) (nth i sig []) l (Z.to_nat (W - 1 - l))) (seq 0 LEN).

Lemma chunks_nth n cs i : chunks_of n cs -> (i < length cs)%nat -> length (nth i cs []) = n.
Proof. clear junk.
  intros H Hi. apply (proj1 (Forall_forall _ _) H). now apply nth_In.
Qed.

Lemma wots_pk_from_sig_gen ls cs msg w1 w2 :
  chain_lengths P msg = Some ls -> length ls = LEN -> Forall (fun l => 0 <= l < W) ls ->
  chunks_of N cs -> length cs = LEN -> 0 <= w2 < 256 ->
  exists w1' w2',
    wots_pk_from_sig P HS c junk (concat cs) msg (enc L (WA w1 w2))
    = Some (concat (pk_blocks ls cs), enc L (WA w1' w2')) /\ 0 <= w2' < 256.
Proof.
  intros Els Hls Hr Hch Hlen Hw2. unfold wots_pk_from_sig. rewrite Els. cbn [bind].
  set (f := fun (i : nat) _ => _).
  destruct (ex_chunks N LEN (junk_bytes (junk 5%nat) (SPX_WOTS_BYTES P))) as (js & J1 & J2 & J3).
  { apply junk_length. }
  destruct (iterM_inv LEN 0 f (fun i (s : bytes * bytes) => exists bs w1 w2,
      s = (concat bs, enc L (WA w1 w2)) /\ chunks_of N bs /\ length bs = LEN /\ 0 <= w2 < 256
      /\ forall j, (j < i)%nat -> nth_error bs j = nth_error (pk_blocks ls cs) j)
      (junk_bytes (junk 5%nat) (SPX_WOTS_BYTES P), enc L (WA w1 w2))) as (s' & Es & Hs).
  - exists js, w1, w2. rewrite J3. repeat split; auto; try lia. 
  - intros i s Hi (bs & v1 & v2 & -> & B1 & B2 & Hv & B3). unfold f.
    rewrite set_chain_enc. cbn [bind]. unfold with_w1; cbn [a_layer a_tree a_type a_kp a_w1 a_w2].
    destruct (nth_error ls i) as [l|] eqn:El; [|apply nth_error_None in El; lia].
    unfold get. rewrite El. cbn [bind].
    assert (Hl : 0 <= l < W).
    { apply (proj1 (Forall_forall _ _) Hr). eapply nth_error_In; eauto. }
    destruct (nth_error cs i) as [x|] eqn:Ex; [|apply nth_error_None in Ex; lia].
    rewrite (rd_chunk N cs i x) by auto. cbn [bind].
    assert (Hx : length x = N).
    { apply (proj1 (Forall_forall _ _) Hch). eapply nth_error_In; eauto. }
    assert (E32 : u32 (W - 1 - l) = W - 1 - l) by (apply Z.mod_small; lia). rewrite E32.
    destruct (gen_chain_ok (Z.of_nat i) x l (W - 1 - l) v2) as (v2' & E & Hv2'); auto; try lia.
    rewrite E. cbn [bind]. replace (Z.min (l + (W - 1 - l)) W - l) with (W - 1 - l) by lia.
    set (y := chn (Z.of_nat i) x l (Z.to_nat (W - 1 - l))).
    assert (Hy : length y = N) by (now apply chain_len).
    rewrite wr_chunk by (auto; lia). cbn [bind].
    eexists. split; [reflexivity|]. exists (upd i y bs), (Z.of_nat i), v2'.
    repeat split; auto; try lia.
    + now apply chunks_upd.
    + now rewrite upd_length.
    + intros j Hj. destruct (Nat.eq_dec j i) as [->|].
      * rewrite nth_error_upd_same by lia. unfold pk_blocks. rewrite nth_error_map_seq by lia.
        cbn [Nat.add]. rewrite (nth_error_nth _ _ 0 El), (nth_error_nth _ _ [] Ex). reflexivity.
      * rewrite nth_error_upd_other by auto. apply B3. lia.
  - destruct Hs as (bs & v1 & v2 & -> & B1 & B2 & Hv & B3).
    rewrite Es. exists v1, v2. split; auto. do 3 f_equal.
    apply nth_error_ext'.
    + unfold pk_blocks. now rewrite map_length, seq_length.
    + intros j Hj. apply B3. lia.
Qed.

Lemma pk_blocks_chunks ls cs : chunks_of N cs -> length cs = LEN ->
  chunks_of N (pk_blocks ls cs) /\ length (pk_blocks ls cs) = LEN.
Proof. clear junk.
  intros Hch Hl. unfold pk_blocks. split.
  - apply Forall_forall. intros x Hx. apply in_map_iff in Hx. destruct Hx as (i & <- & Hi).
    apply in_seq in Hi. apply chain_len. apply chunks_nth; auto. lia.
  - now rewrite map_length, seq_length.
Qed.

(** ** wots_gen_leafx1 *)
Definition sign_blocks (ls : list Z) : list bytes :=
  map (fun i => chn (Z.of_nat i) (wots_sk PRF layer tree kp i) 0 (Z.to_nat (nth i ls 0))) (seq 0 LEN).
Definition full_blocks : list bytes :=
  map (fun i => chn (Z.of_nat i) (wots_sk PRF layer tree kp i) 0 (Z.to_nat (W - 1))) (seq 0 LEN).

Lemma wots_leaf_chain_ok fuel i k wk x sg w2 :
  length x = N -> 0 <= w2 < 256 -> 0 <= k < W -> Z.of_nat fuel = W - k ->
  chunks_of N sg -> (i < length sg)%nat ->
  exists w2',
    wots_leaf_chain P HS c fuel i k wk x (concat sg) (enc L (WA (Z.of_nat i) w2))
    = Some (chn (Z.of_nat i) x k (Z.to_nat (W - 1 - k)),
            concat (if (k <=? wk) && (wk <? W)
                    then upd i (chn (Z.of_nat i) x k (Z.to_nat (wk - k))) sg else sg),
            enc L (WA (Z.of_nat i) w2'))
    /\ 0 <= w2' < 256.
Proof. clear junk.
  revert k x sg w2. induction fuel as [|fuel IH]; intros k x sg w2 Hx Hw2 Hk Hf Hsg Hi; [lia|].
  cbn [wots_leaf_chain].
  set (sg1 := if k =? wk then upd i x sg else sg).
  assert (Ew : (if k =? wk then wr (concat sg) (i * N) x else Some (concat sg)) = Some (concat sg1)).
  { unfold sg1. destruct (k =? wk); [apply wr_chunk; auto|reflexivity]. }
  rewrite Ew. cbn [bind].
  assert (Hsg1 : chunks_of N sg1 /\ length sg1 = length sg).
  { unfold sg1. destruct (k =? wk); [split; [now apply chunks_upd|apply upd_length]|auto]. }
  destruct Hsg1 as [Hs1 Hs2].
  destruct (Z.eqb_spec k (W - 1)) as [E|E].
  - exists w2. split; auto. do 2 f_equal. f_equal.
    + now replace (Z.to_nat (W - 1 - k)) with O by lia.
    + f_equal. unfold sg1. destruct (Z.eqb_spec k wk) as [E'|E'].
      * replace ((k <=? wk) && (wk <? W)) with true by lia.
        now replace (Z.to_nat (wk - k)) with O by lia.
      * now replace ((k <=? wk) && (wk <? W)) with false by lia.
  - rewrite set_hash_enc by (cbn [a_w2]; lia). cbn [bind].
    rewrite (thash_enc P HS c Hn Hok Hc 1) by lia. cbn [bind].
    unfold with_w2; cbn [a_layer a_tree a_type a_kp a_w1 a_w2].
    set (y := T (WA (Z.of_nat i) k) x).
    assert (Hy : length y = N) by (apply (codeT_len P HS c Hn Hok Hc 1); lia).
    destruct (IH (k + 1) y sg1 k) as (w2' & E' & Hw'); auto; try lia.
    exists w2'. split; auto. rewrite E'. do 2 f_equal. f_equal.
    + replace (Z.to_nat (W - 1 - k)) with (S (Z.to_nat (W - 1 - (k + 1)))) by lia.
      now rewrite chain_front.
    + f_equal. unfold sg1. destruct (Z.eqb_spec k wk) as [E1|E1].
      * replace ((k + 1 <=? wk) && (wk <? W)) with false by lia.
        replace ((k <=? wk) && (wk <? W)) with true by lia.
        now replace (Z.to_nat (wk - k)) with O by lia.
      * destruct ((k <=? wk) && (wk <? W)) eqn:E2.
        -- replace ((k + 1 <=? wk) && (wk <? W)) with true by lia.
           replace (Z.to_nat (wk - k)) with (S (Z.to_nat (wk - (k + 1)))) by lia.
           now rewrite chain_front.
        -- now replace ((k + 1 <=? wk) && (wk <? W)) with false by lia.
Qed.

(** Bitwise or with 0 or with all ones. *)
Lemma lor_mask s (b : bool) : 0 <= s < 2 ^ 32 ->
  Z.lor s (if b then 0 else 2 ^ 32 - 1) = if b then s else 2 ^ 32 - 1.
Proof. clear junk.
  intros Hs. destruct b; [apply Z.lor_0_r|].
  change (2 ^ 32 - 1) with (Z.ones 32).
  apply Z.bits_inj'. intros n Hn0. rewrite Z.lor_spec.
  destruct (Z.lt_ge_cases n 32).
  - rewrite Z.ones_spec_low by lia. apply orb_true_r.
  - rewrite Z.ones_spec_high by lia. rewrite orb_false_r.
    destruct (Z.eq_dec s 0) as [->|]; [apply Z.testbit_0_l|].
    apply Z.bits_above_log2; [lia|]. apply Z.log2_lt_pow2; [lia|].
    eapply Z.lt_le_trans; [apply Hs|]. apply Z.pow_le_mono_r; lia.
Qed.

(** What the info structure holds between leaves. *)
Definition info_ok (sl : Z) (ls : list Z) (sg : list bytes) (g : leaf_info) : Prop :=
  wi_sig g = concat sg /\ chunks_of N sg /\ length sg = LEN /\
  wi_sign_leaf g = sl /\ wi_steps g = ls /\
  (exists ty k0 w1 w2, wi_leaf_addr g = enc L (mkAdrs layer tree ty k0 w1 w2) /\ 0 <= w2 < 256) /\
  (exists k0, wi_pk_addr g = enc L (mkAdrs layer tree T_WOTS_PK k0 0 0)).

Lemma wots_gen_leafx1_ok sl ls sg g :
  info_ok sl ls sg g -> length ls = LEN -> Forall (fun l => 0 <= l < W) ls ->
  exists g',
    wots_gen_leafx1 P HS c junk g kp = Some (wots_pk D T PRF layer tree kp, g')
    /\ info_ok sl ls (if kp =? sl then sign_blocks ls else sg) g'.
Proof.
  intros (G1 & G2 & G3 & G4 & G5 & (ty & k0 & w1 & w2 & G6 & Hw2) & (k1 & G7)) Hls Hr.
  unfold wots_gen_leafx1. rewrite G6, G7, set_keypair_enc, set_keypair_enc. cbn [bind].
  unfold with_kp; cbn [a_layer a_tree a_type a_kp a_w1 a_w2]. rewrite G1, G4, G5.
  set (mask := if kp =? sl then 0 else 2 ^ 32 - 1).
  set (f := fun (i : nat) _ => _).
  destruct (ex_chunks N LEN (junk_bytes (junk 6%nat) (SPX_WOTS_BYTES P))) as (js & J1 & J2 & J3).
  { apply junk_length. }
  destruct (iterM_inv LEN 0 f (fun i (s : bytes * bytes * bytes) => exists bs ss ty w1 w2,
      s = (concat bs, concat ss, enc L (mkAdrs layer tree ty kp w1 w2)) /\
      chunks_of N bs /\ length bs = LEN /\ chunks_of N ss /\ length ss = LEN /\ 0 <= w2 < 256
      /\ (forall j, (j < i)%nat -> nth_error bs j = nth_error full_blocks j)
      /\ (if kp =? sl then forall j, (j < i)%nat -> nth_error ss j = nth_error (sign_blocks ls) j
          else ss = sg))
      (junk_bytes (junk 6%nat) (SPX_WOTS_BYTES P), concat sg, enc L (mkAdrs layer tree ty kp w1 w2)))
    as (s' & Es & Hs).
  - exists js, sg, ty, w1, w2. rewrite J3. destruct (kp =? sl); repeat split; auto; try lia.
  - intros i s Hi (bs & ss & ty' & v1 & v2 & -> & B1 & B2 & S1 & S2 & Hv & B3 & S3). unfold f.
    destruct (nth_error ls i) as [l|] eqn:El; [|apply nth_error_None in El; lia].
    unfold get. rewrite El. cbn [bind].
    assert (Hl : 0 <= l < W).
    { apply (proj1 (Forall_forall _ _) Hr). eapply nth_error_In; eauto. }
    rewrite set_chain_enc. cbn [bind].
    rewrite set_hash_enc by (cbn; lia). cbn [bind].
    rewrite set_type_enc. cbn [bind]. rewrite (prf_enc P HS c Hok Hc). cbn [bind].
    rewrite set_type_enc. cbn [bind].
    unfold with_type, with_w2, with_w1; cbn [a_layer a_tree a_type a_kp a_w1 a_w2].
    change (codePRF HS c (mkAdrs layer tree SPX_ADDR_TYPE_WOTSPRF kp (Z.of_nat i) 0))
      with (wots_sk PRF layer tree kp i).
    set (x := wots_sk PRF layer tree kp i).
    assert (Hx : length x = N) by apply (codePRF_len P HS c Hok Hc).
    change SPX_ADDR_TYPE_WOTS with T_WOTS_HASH.
    unfold mask. rewrite lor_mask by lia.
    set (wk := if kp =? sl then l else 2 ^ 32 - 1).
    destruct (wots_leaf_chain_ok (Z.to_nat W) i 0 wk x ss 0) as (w2' & E & Hw'); auto; try lia.
    rewrite E. cbn [bind]. rewrite !Z.sub_0_r.
    set (y := chn (Z.of_nat i) x 0 (Z.to_nat (W - 1))).
    assert (Hy : length y = N) by (now apply chain_len).
    rewrite wr_chunk by (auto; lia). cbn [bind].
    eexists. split; [reflexivity|].
    exists (upd i y bs), (if kp =? sl then upd i (chn (Z.of_nat i) x 0 (Z.to_nat l)) ss else ss),
      T_WOTS_HASH, (Z.of_nat i), w2'.
    repeat split; try lia.
    + do 2 f_equal. unfold wk. destruct (kp =? sl).
      * now replace ((0 <=? l) && (l <? W)) with true by lia.
      * now replace ((0 <=? 2 ^ 32 - 1) && (2 ^ 32 - 1 <? W)) with false by lia.
    + now apply chunks_upd.
    + now rewrite upd_length.
    + destruct (kp =? sl); auto. apply chunks_upd; auto. now apply chain_len.
    + destruct (kp =? sl); auto. now rewrite upd_length.
    + intros j Hj. destruct (Nat.eq_dec j i) as [->|].
      * rewrite nth_error_upd_same by lia. unfold full_blocks. now rewrite nth_error_map_seq by lia.
      * rewrite nth_error_upd_other by auto. apply B3. lia.
    + destruct (kp =? sl); auto. intros j Hj. destruct (Nat.eq_dec j i) as [->|].
      * rewrite nth_error_upd_same by lia. unfold sign_blocks. rewrite nth_error_map_seq by lia.
        cbn [Nat.add]. now rewrite (nth_error_nth _ _ 0 El).
      * rewrite nth_error_upd_other by auto. apply S3. lia.
  - destruct Hs as (bs & ss & ty' & v1 & v2 & -> & B1 & B2 & S1 & S2 & Hv & B3 & S3).
    rewrite Es. cbn [bind].
    assert (bs = full_blocks) as ->.
    { apply nth_error_ext'; [unfold full_blocks; now rewrite map_length, seq_length|].
      intros j Hj. apply B3. lia. }
    rewrite (thash_enc P HS c Hn Hok Hc LEN) by (rewrite (chunks_length N), B2; auto). cbn [bind].
    eexists. split; [reflexivity|].
    assert (ss = if kp =? sl then sign_blocks ls else sg) as ->.
    { destruct (kp =? sl); auto.
      apply nth_error_ext'; [unfold sign_blocks; now rewrite map_length, seq_length|].
      intros j Hj. apply S3. lia. }
    unfold info_ok. cbn [wi_sig wi_sign_leaf wi_steps wi_leaf_addr wi_pk_addr].
    repeat split; auto.
    + exists ty', kp, v1, v2. auto.
    + exists kp. reflexivity.
Qed.
End Wots.
