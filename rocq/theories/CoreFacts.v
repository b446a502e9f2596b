(** Facts about digits, indices, addresses and integer conversions used by the property files. *)
From Verif Require Import Base BaseFacts Params Address Suite Utils Wots Fors Merkle Sign
  Spec SpecFacts SpecExt AdrsEnc
  AddressProofs Refine TreeProofs WotsDigitsProofs WotsProofs ForsProofs MerkleProofs SignProofs.

(** ** Positional notation *)
Definition horner (w : Z) (ds : list Z) : Z := fold_left (fun a d => a * w + d) ds 0.

Lemma horner_app_acc w ds a : fold_left (fun a d => a * w + d) ds a
  = a * w ^ Z.of_nat (length ds) + horner w ds.
Proof.
  unfold horner. revert a; induction ds as [|d ds IH]; intros a; cbn [fold_left length].
  - cbn. lia.
  - rewrite IH, (IH (0 * w + d)). rewrite Nat2Z.inj_succ, Z.pow_succ_r by lia. ring.
Qed.

Lemma horner_cons w d ds : horner w (d :: ds) = d * w ^ Z.of_nat (length ds) + horner w ds.
Proof. unfold horner at 1. cbn [fold_left]. rewrite horner_app_acc. ring. Qed.

Lemma horner_digits w l v : 0 < w -> horner w (digits w l v) = v mod w ^ Z.of_nat l.
Proof.
  intros Hw. induction l as [|l IH].
  - cbn. now rewrite Z.mod_1_r.
  - rewrite digits_S, horner_cons, digits_length, IH.
    rewrite Nat2Z.inj_succ, Z.pow_succ_r by lia.
    assert (0 < w ^ Z.of_nat l) by (apply Z.pow_pos_nonneg; lia).
    rewrite (Z.mul_comm w). rewrite Z.rem_mul_r by lia. ring.
Qed.

Section Digits.
Variable P : params.
Hypothesis Hwf : wf_params P = true.
Notation W := (SPX_WOTS_W P).

Lemma W_pow_len1 : W ^ Z.of_nat (SPX_WOTS_LEN1 P) = 256 ^ Z.of_nat (p_n P).
Proof. rewrite len1_eq by auto. now apply W_pow_bytes. Qed.

Theorem chain_lengths_values msg : length msg = p_n P -> all_bytes msg ->
  exists ds cs, chain_lengths P msg = Some (ds ++ cs)
    /\ length ds = SPX_WOTS_LEN1 P /\ length cs = SPX_WOTS_LEN2 P
    /\ Forall (fun d => 0 <= d < W) (ds ++ cs)
    /\ horner W ds = be_val msg
    /\ horner W cs = sumZ (map (fun d => W - 1 - d) ds).
Proof.
  intros Hl Hb. pose proof (W_pos P Hwf) as HW.
  exists (wots_msg_digits (dims_of P) msg),
         (digits W (SPX_WOTS_LEN2 P) (wots_csum (dims_of P) (wots_msg_digits (dims_of P) msg))).
  rewrite chain_lengths_ok by auto.
  assert (R1 : Forall (fun d => 0 <= d < W) (wots_msg_digits (dims_of P) msg))
    by (apply digits_range; cbn; lia).
  split; [reflexivity|]. split; [apply digits_length|]. split; [apply digits_length|].
  split; [|split].
  - apply Forall_app. split; [exact R1|]. apply digits_range. lia.
  - unfold wots_msg_digits. cbn [s_w s_len1 dims_of]. rewrite horner_digits by lia.
    rewrite W_pow_len1. apply Z.mod_small. rewrite <- Hl. now apply be_val_bound.
  - rewrite horner_digits by lia. apply Z.mod_small. apply csum_fits; auto. apply digits_length.
Qed.
End Digits.

(** *** Domination *)
Lemma horner_mono w a b : 0 < w -> length a = length b ->
  (forall i, (i < length a)%nat -> nth i b 0 <= nth i a 0) -> horner w b <= horner w a.
Proof.
  intros Hw. revert b. induction a as [|x a IH]; intros [|y b] Hl Hd; cbn in Hl; try lia.
  rewrite !horner_cons. assert (length a = length b) as El by lia. rewrite El.
  specialize (Hd O) as H0. cbn in H0.
  assert (0 < w ^ Z.of_nat (length b)) by (apply Z.pow_pos_nonneg; lia).
  specialize (IH b El). assert (horner w b <= horner w a).
  { apply IH. intros i Hi. apply (Hd (S i)). cbn. lia. }
  assert (y <= x) by (apply H0; lia). nia.
Qed.

Lemma sum_csum_anti w a b : length a = length b ->
  (forall i, (i < length a)%nat -> nth i b 0 <= nth i a 0) ->
  sumZ (map (fun d => w - 1 - d) a) <= sumZ (map (fun d => w - 1 - d) b)
  /\ (sumZ (map (fun d => w - 1 - d) a) = sumZ (map (fun d => w - 1 - d) b) -> a = b).
Proof.
  revert b. induction a as [|x a IH]; intros [|y b] Hl Hd; cbn in Hl; try lia.
  - split; auto. cbn. lia.
  - cbn [map sumZ]. destruct (IH b) as [I1 I2]; [lia| |].
    { intros i Hi. apply (Hd (S i)). cbn. lia. }
    specialize (Hd O) as H0. cbn in H0. assert (y <= x) by (apply H0; lia).
    split; [lia|]. intros E. f_equal; [lia|]. apply I2. lia.
Qed.

Lemma all_or_ex (a b : list Z) : length a = length b ->
  (forall i, (i < length a)%nat -> nth i b 0 <= nth i a 0)
  \/ (exists i, (i < length a)%nat /\ nth i a 0 < nth i b 0).
Proof.
  revert b. induction a as [|x a IH]; intros [|y b] Hl; cbn in Hl; try lia.
  - left. cbn. lia.
  - destruct (IH b) as [I|(i & I1 & I2)]; [lia| |].
    + destruct (Z_lt_le_dec x y).
      * right. exists O. cbn. split; lia.
      * left. intros [|i] Hi; cbn; auto. apply I. cbn in Hi. lia.
    + right. exists (S i). cbn. split; [lia|auto].
Qed.

Theorem no_domination P m1 m2 :
  wf_params P = true -> length m1 = p_n P -> length m2 = p_n P ->
  all_bytes m1 -> all_bytes m2 -> m1 <> m2 ->
  exists l1 l2, chain_lengths P m1 = Some l1 /\ chain_lengths P m2 = Some l2
    /\ exists i, (i < SPX_WOTS_LEN P)%nat /\ nth i l1 0 < nth i l2 0.
Proof.
  intros Hwf L1 L2 B1 B2 Hne. pose proof (W_pos P Hwf) as HW.
  destruct (chain_lengths_values P Hwf m1 L1 B1) as (d1 & c1 & E1 & D1 & C1 & _ & V1 & S1).
  destruct (chain_lengths_values P Hwf m2 L2 B2) as (d2 & c2 & E2 & D2 & C2 & _ & V2 & S2).
  exists (d1 ++ c1), (d2 ++ c2). split; [exact E1|]. split; [exact E2|].
  destruct (all_or_ex (d1 ++ c1) (d2 ++ c2)) as [Hd|(i & Hi & Hlt)].
  { rewrite !app_length. lia. }
  - exfalso. apply Hne. rewrite app_length in Hd.
    assert (Hd1 : forall i, (i < length d1)%nat -> nth i d2 0 <= nth i d1 0).
    { intros i Hi. specialize (Hd i). rewrite !app_nth1 in Hd by lia. apply Hd. lia. }
    assert (Hd2 : forall i, (i < length c1)%nat -> nth i c2 0 <= nth i c1 0).
    { intros i Hi. specialize (Hd (length d1 + i)%nat). rewrite !app_nth2 in Hd by lia.
      replace (length d1 + i - length d1)%nat with i in Hd by lia.
      replace (length d1 + i - length d2)%nat with i in Hd by lia. apply Hd. lia. }
    destruct (sum_csum_anti (SPX_WOTS_W P) d1 d2) as [A1 A2]; [lia|exact Hd1|].
    assert (horner (SPX_WOTS_W P) c2 <= horner (SPX_WOTS_W P) c1)
      by (apply horner_mono; [lia|lia|exact Hd2]).
    assert (d1 = d2) as Ed by (apply A2; lia).
    apply be_val_inj; auto; [lia|]. rewrite <- V1, <- V2. now rewrite Ed.
  - exists i. split; [|exact Hlt]. unfold SPX_WOTS_LEN. rewrite app_length in Hi. lia.
Qed.

(** ** gen_chain *)
Section GenChain.
Variable P : params.
Variable HS : suite.
Variable c : ctx (hs_st HS).
Hypothesis Hwf : wf_params P = true.
Hypothesis Hok : suite_ok P HS.
Hypothesis Hc : ctx_ok P HS c.
Notation L := (hs_layout HS).
Notation W := (SPX_WOTS_W P).
Variables layer tree kp ci : Z.
Notation WA := (fun w2 => mkAdrs layer tree T_WOTS_HASH kp ci w2).
Notation chn := (chain (codeT P HS c) layer tree kp ci).

Theorem gen_chain_steps x start steps w2 :
  length x = p_n P -> 0 <= w2 < 256 -> 0 <= start < 2 ^ 32 -> 0 <= steps < 2 ^ 32 ->
  exists n w2',
    gen_chain P HS c x start steps (enc L (WA w2)) = Some (chn x start n, enc L (WA w2'))
    /\ 0 <= w2' < 256
    /\ n = Z.to_nat (Z.min ((start + steps) mod 2 ^ 32) W - start)
    /\ Z.of_nat n <= Z.max 0 (W - start).
Proof.
  intros Hx Hw Hs Ht. unfold gen_chain. rewrite rd_all by auto. cbn [bind].
  destruct (gen_chain_loop_ok P HS c Hwf Hok Hc layer tree kp (Z.to_nat W) ci start
              (u32 (start + steps)) x w2) as (w2' & E & R); auto; try lia.
  exists (Z.to_nat (Z.min ((start + steps) mod 2 ^ 32) W - start)), w2'.
  fold (u32 (start + steps)). repeat split; auto; try apply R; try lia.
Qed.

Theorem gen_chain_compose x start a b w2 :
  length x = p_n P -> 0 <= w2 < 256 -> 0 <= start -> 0 <= a -> 0 <= b ->
  start + a + b < 2 ^ 32 ->
  exists y z a1 a2 a3,
    gen_chain P HS c x start a (enc L (WA w2)) = Some (y, a1)
    /\ gen_chain P HS c y (start + a) b a1 = Some (z, a2)
    /\ gen_chain P HS c x start (a + b) (enc L (WA w2)) = Some (z, a3).
Proof.
  intros Hx Hw Hs Ha Hb Hlt.
  destruct (gen_chain_ok P HS c Hwf Hok Hc layer tree kp ci x start a w2)
    as (w3 & E1 & R1); auto; try lia.
  set (n1 := Z.to_nat (Z.min (start + a) W - start)) in *.
  assert (Hy : length (chn x start n1) = p_n P) by (apply chain_len; auto).
  destruct (gen_chain_ok P HS c Hwf Hok Hc layer tree kp ci (chn x start n1) (start + a) b w3)
    as (w4 & E2 & R2); auto; try lia.
  destruct (gen_chain_ok P HS c Hwf Hok Hc layer tree kp ci x start (a + b) w2)
    as (w5 & E3 & R3); auto; try lia.
  do 5 eexists. split; [exact E1|]. split; [exact E2|]. rewrite E3.
  rewrite Z.add_assoc.
  destruct (Z_le_gt_dec (start + a) W) as [Hle|Hgt].
  - replace (start + a) with (start + Z.of_nat n1) at 2 by (unfold n1; lia).
    rewrite chain_add. do 2 f_equal. f_equal. unfold n1. lia.
  - replace (Z.to_nat (Z.min (start + a + b) W - (start + a))) with O by lia. cbn [chain].
    do 2 f_equal. f_equal. unfold n1. lia.
Qed.
End GenChain.

(** ** WOTS+: signing then recovering *)
Section WotsRound.
Variable P : params.
Variable HS : suite.
Variable c : ctx (hs_st HS).
Variables junk1 junk2 : nat -> nat -> Z.
Hypothesis Hwf : wf_params P = true.
Hypothesis Hok : suite_ok P HS.
Hypothesis Hc : ctx_ok P HS c.
Notation L := (hs_layout HS).

Theorem wots_round m sig0 layer tree kp ty k0 u1 u2 k1 v1 v2 :
  length m = p_n P -> all_bytes m -> length sig0 = SPX_WOTS_BYTES P -> 0 <= u2 < 256 -> 0 <= v2 < 256 ->
  exists steps leaf info' pk addr',
    chain_lengths P m = Some steps
    /\ wots_gen_leafx1 P HS c junk1
         (mkInfo sig0 kp steps (enc L (mkAdrs layer tree ty k0 u1 u2))
            (enc L (mkAdrs layer tree T_WOTS_PK k1 0 0))) kp = Some (leaf, info')
    /\ leaf = wots_pk (dims_of P) (codeT P HS c) (codePRF HS c) layer tree kp
    /\ wots_pk_from_sig P HS c junk2 (wi_sig info') m
         (enc L (mkAdrs layer tree T_WOTS_HASH kp v1 v2)) = Some (pk, addr')
    /\ thash P HS c (SPX_WOTS_LEN P) pk (enc L (mkAdrs layer tree T_WOTS_PK kp 0 0)) = Some leaf.
Proof.
  intros Hm Hb Hs Hu Hv.
  pose proof (wf_n P Hwf) as Hn. pose proof (W_pos P Hwf) as HW.
  set (ls := wots_lengths (dims_of P) m).
  assert (Hls : chain_lengths P m = Some ls) by now apply chain_lengths_ok.
  assert (Hll : length ls = SPX_WOTS_LEN P) by (apply (wots_lengths_length (dims_of P))).
  assert (Hlr : Forall (fun l => 0 <= l < SPX_WOTS_W P) ls)
    by (apply (wots_lengths_range (dims_of P)); cbn; lia).
  destruct (ex_chunks (p_n P) (SPX_WOTS_LEN P) sig0) as (sg & S1 & S2 & S3); [exact Hs|].
  destruct (wots_gen_leafx1_ok P HS c junk1 Hwf Hok Hc layer tree kp kp ls sg
              (mkInfo sig0 kp ls (enc L (mkAdrs layer tree ty k0 u1 u2))
                 (enc L (mkAdrs layer tree T_WOTS_PK k1 0 0)))) as (g' & Eg & Hg'); auto.
  { repeat split; cbn [wi_sig wi_sign_leaf wi_steps wi_leaf_addr wi_pk_addr]; eauto 10. }
  rewrite Z.eqb_refl in Hg'. destruct Hg' as (G1 & G2 & G3 & _).
  destruct (wots_pk_from_sig_gen P HS c junk2 Hwf Hok Hc layer tree kp ls
              (sign_blocks P HS c layer tree kp ls) m v1 v2) as (w1' & w2' & Ep & _); auto.
  exists ls, (wots_pk (dims_of P) (codeT P HS c) (codePRF HS c) layer tree kp), g',
    (concat (pk_blocks P HS c layer tree kp ls (sign_blocks P HS c layer tree kp ls))),
    (enc L (mkAdrs layer tree T_WOTS_HASH kp w1' w2')).
  split; [exact Hls|]. split; [exact Eg|]. split; [reflexivity|].
  rewrite G1. split; [exact Ep|].
  assert (Hn1 : (1 <= p_n P)%nat) by lia.
  rewrite (thash_enc P HS c Hn1 Hok Hc).
  - f_equal. rewrite <- (wots_complete (dims_of P) (codeT P HS c) (codePRF HS c) HW layer tree kp m).
    reflexivity.
  - destruct (pk_blocks_chunks P HS c Hwf Hok Hc layer tree kp ls
                (sign_blocks P HS c layer tree kp ls)) as [B1 B2]; auto.
    rewrite (chunks_length _ _ B1), B2. reflexivity.
Qed.
End WotsRound.

(** ** FORS *)
Theorem fors_round P HS c junk1 junk2 tree kp sig0 md ty w1 w2 ty' w1' w2' :
  wf_params P = true -> suite_ok P HS -> ctx_ok P HS c ->
  length sig0 = SPX_FORS_BYTES P -> all_bytes md -> length md = SPX_FORS_MSG_BYTES P ->
  exists sig pk,
    Fors.fors_sign P HS c junk1 sig0 md (enc (hs_layout HS) (mkAdrs 0 tree ty kp w1 w2)) = Some (sig, pk)
    /\ length sig = SPX_FORS_BYTES P
    /\ sig = concat (fors_sign (dims_of P) (codeT P HS c) (codePRF HS c) tree kp md)
    /\ pk = fors_pk (dims_of P) (codeT P HS c) (codePRF HS c) tree kp
    /\ fors_pk_from_sig P HS c junk2 sig md (enc (hs_layout HS) (mkAdrs 0 tree ty' kp w1' w2')) = Some pk.
Proof.
  intros Hwf Hok Hc Hs Hb Hl.
  pose proof (fors_sign_chunks P HS c Hwf Hok Hc tree kp md) as Hch.
  pose proof (fors_sign_length (dims_of P) (codeT P HS c) (codePRF HS c) tree kp md) as Hlen.
  cbn [s_k s_a dims_of] in Hlen.
  do 2 eexists. split; [apply fors_sign_ok; auto|].
  split. { rewrite (chunks_length _ _ Hch), Hlen. unfold SPX_FORS_BYTES. lia. }
  split; [reflexivity|]. split; [reflexivity|].
  rewrite fors_pk_from_sig_ok; auto. now rewrite fors_complete.
Qed.

(** *** message_to_indices *)
Lemma le_val_testbit m k : all_bytes m -> (k < 8 * length m)%nat ->
  Z.testbit (le_val m) (Z.of_nat k) = Z.testbit (nth (k / 8) m 0) (Z.of_nat (k mod 8)).
Proof.
  intros Hb Hk.
  assert (Hi : (k / 8 < length m)%nat) by (apply Nat.div_lt_upper_bound; lia).
  pose proof (nth_error_nth' m 0 Hi) as E.
  pose proof (le_val_bit m k _ Hb E) as B.
  assert (Hx : forall v n, 0 <= n -> Z.testbit v n = negb (Z.land (Z.shiftr v n) 1 =? 0)).
  { intros v n Hn. change 1 with (Z.ones 1) at 1. rewrite Z.land_ones, Z.shiftr_div_pow2 by lia.
    rewrite Z.testbit_odd, Z.shiftr_div_pow2 by lia. change (2 ^ 1) with 2.
    rewrite Zmod_odd. now destruct (Z.odd _). }
  rewrite (Hx (nth (k / 8) m 0)), B by lia.
  rewrite Z.testbit_odd, Z.shiftr_div_pow2, Zmod_odd by lia. now destruct (Z.odd _).
Qed.

Theorem indices_bits P m : wf_params P = true ->
  all_bytes m -> length m = SPX_FORS_MSG_BYTES P ->
  exists l, message_to_indices P m = Some l /\ length l = p_ft P
    /\ Forall (fun i => 0 <= i < 2 ^ Z.of_nat (p_fh P)) l
    /\ forall i j, (i < p_ft P)%nat -> (j < p_fh P)%nat ->
         Z.testbit (nth i l 0) (Z.of_nat j)
         = Z.testbit (nth ((i * p_fh P + j) / 8) m 0) (Z.of_nat ((i * p_fh P + j) mod 8)).
Proof.
  intros Hwf Hb Hl. eexists. split; [apply message_to_indices_ok; auto|].
  split. { now rewrite map_length, seq_length. }
  split. { apply Forall_map, Forall_forall. intros t _. apply (fors_index_range (dims_of P)). }
  intros i j Hi Hj.
  rewrite (nth_indep _ 0 (fors_index (dims_of P) m 0%nat)) by (now rewrite map_length, seq_length).
  rewrite map_nth, seq_nth by lia. cbn [Nat.add]. unfold fors_index. cbn [s_a dims_of].
  rewrite Z.mod_pow2_bits_low by lia. rewrite Z.div_pow2_bits by lia.
  replace (Z.of_nat j + Z.of_nat (i * p_fh P)) with (Z.of_nat (i * p_fh P + j)) by lia.
  apply le_val_testbit; auto.
  rewrite Hl. unfold SPX_FORS_MSG_BYTES.
  assert (i * p_fh P + j < p_fh P * p_ft P)%nat by nia.
  pose proof (Nat.div_mod (p_fh P * p_ft P + 7) 8 ltac:(lia)).
  pose proof (Nat.mod_upper_bound (p_fh P * p_ft P + 7) 8 ltac:(lia)). lia.
Qed.

Theorem indices_equal P m1 m2 : wf_params P = true ->
  all_bytes m1 -> length m1 = SPX_FORS_MSG_BYTES P ->
  all_bytes m2 -> length m2 = SPX_FORS_MSG_BYTES P ->
  (message_to_indices P m1 = message_to_indices P m2 <->
   forall k, (k < p_fh P * p_ft P)%nat ->
     Z.testbit (nth (k / 8) m1 0) (Z.of_nat (k mod 8))
     = Z.testbit (nth (k / 8) m2 0) (Z.of_nat (k mod 8))).
Proof.
  intros Hwf B1 L1 B2 L2.
  destruct (indices_bits P m1 Hwf B1 L1) as (l1 & E1 & N1 & R1 & T1).
  destruct (indices_bits P m2 Hwf B2 L2) as (l2 & E2 & N2 & R2 & T2).
  rewrite E1, E2.
  destruct (wf_fors P Hwf) as [Hf _].
  split.
  - intros E k Hk. inversion E as [E']. subst l2.
    assert (Hdm : k = ((k / p_fh P) * p_fh P + k mod p_fh P)%nat)
      by (pose proof (Nat.div_mod k (p_fh P) ltac:(lia)); lia).
    assert (Hq : (k / p_fh P < p_ft P)%nat) by (apply Nat.div_lt_upper_bound; lia).
    assert (Hr : (k mod p_fh P < p_fh P)%nat) by (apply Nat.mod_upper_bound; lia).
    specialize (T1 _ _ Hq Hr). specialize (T2 _ _ Hq Hr). rewrite <- Hdm in T1, T2. congruence.
  - intros E. f_equal. apply nth_ext with 0 0; [congruence|]. intros i Hi.
    rewrite N1 in Hi.
    assert (G : forall l j, length l = p_ft P -> Forall (fun i => 0 <= i < 2 ^ Z.of_nat (p_fh P)) l ->
       Z.of_nat (p_fh P) <= j -> Z.testbit (nth i l 0) j = false).
    { intros l j Hll HF Hj. rewrite Forall_forall in HF.
      assert (In (nth i l 0) l) as HI by (apply nth_In; lia). apply HF in HI.
      destruct (Z.eq_dec (nth i l 0) 0) as [->|]; [apply Z.bits_0|].
      apply Z.bits_above_log2; [lia|].
      apply Z.lt_le_trans with (Z.of_nat (p_fh P)); [|lia]. apply Z.log2_lt_pow2; lia. }
    apply Z.bits_inj'. intros j Hj.
    destruct (Z_lt_le_dec j (Z.of_nat (p_fh P))) as [Hlt|Hge].
    + replace j with (Z.of_nat (Z.to_nat j)) by lia.
      rewrite T1, T2 by lia. apply E. nia.
    + rewrite !G; auto.
Qed.

(** ** Hypertree positions *)
Section Layers.
Variable P : params.
Variable HS : suite.
Variable junk : nat -> nat -> Z.
Variable c : ctx (hs_st HS).
Notation TH := (SPX_TREE_HEIGHT P).

Ltac inv_bind H :=
  match type of H with
  | bind ?e _ = Some _ => let E := fresh "E" in destruct e eqn:E; cbn [bind] in H; [|discriminate]
  end.

Lemma sign_layer_step i s s' : sign_layer P HS junk c i s = Some s' ->
  let '(_, _, _, _, _, t, l) := s in
  let '(_, _, _, _, _, t', l') := s' in
  t' = t / 2 ^ Z.of_nat TH /\ l' = t mod 2 ^ Z.of_nat TH.
Proof.
  destruct s as [[[[[[sig sp] root] wa] ta] t] l]. destruct s' as [[[[[[sig' sp'] root'] wa'] ta'] t'] l'].
  unfold sign_layer. intros H.
  repeat inv_bind H.
  match type of H with bind ?e _ = _ => destruct e as [[[? ?] ?]|]; cbn [bind] in H; [|discriminate] end || idtac.
  repeat match goal with p : (_ * _)%type |- _ => destruct p end.
  repeat inv_bind H. inversion H; subst. split; [apply shiftr_TH|apply land_TH].
Qed.

Lemma verify_layer_step sg i s s' : verify_layer P HS junk c sg i s = Some s' ->
  let '(_, _, _, _, _, t, l) := s in
  let '(_, _, _, _, _, t', l') := s' in
  t' = t / 2 ^ Z.of_nat TH /\ l' = t mod 2 ^ Z.of_nat TH.
Proof.
  destruct s as [[[[[[sp root] wa] ta] wpa] t] l]. destruct s' as [[[[[[sp' root'] wa'] ta'] wpa'] t'] l'].
  unfold verify_layer. intros H.
  repeat inv_bind H.
  repeat match goal with p : (_ * _)%type |- _ => destruct p end.
  repeat inv_bind H.
  repeat match goal with p : (_ * _)%type |- _ => destruct p end.
  repeat inv_bind H. inversion H; subst. split; [apply shiftr_TH|apply land_TH].
Qed.
End Layers.
