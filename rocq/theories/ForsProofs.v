(** ref/fors.c computes the FORS of the specification. *)
From Verif Require Import Base BaseFacts Params Address Suite Utils Fors Spec SpecFacts AdrsEnc
  AddressProofs Refine TreeProofs WotsDigitsProofs.

(** ** message_to_indices *)
Lemma le_val_cons x m : le_val (x :: m) = x + 256 * le_val m.
Proof. reflexivity. Qed.

Lemma le_val_bit m off b : all_bytes m -> nth_error m (off / 8) = Some b ->
  Z.land (Z.shiftr b (Z.of_nat (off mod 8))) 1 = (le_val m / 2 ^ Z.of_nat off) mod 2.
Proof.
  intros Hm. revert off b. induction Hm as [|x m Hx Hm IH]; intros off b E.
  - destruct (off / 8)%nat; discriminate.
  - rewrite le_val_cons. destruct (Nat.lt_ge_cases off 8) as [Hlt|Hge].
    + rewrite Nat.div_small in E by auto. cbn in E. injection E as ->.
      rewrite Nat.mod_small by auto. change 1 with (Z.ones 1).
      rewrite Z.land_ones, Z.shiftr_div_pow2 by lia. change (2 ^ 1) with 2.
      replace (256 * le_val m) with ((le_val m * 2 ^ (7 - Z.of_nat off) * 2) * 2 ^ Z.of_nat off).
      2:{ rewrite <- !Z.mul_assoc. replace (2 ^ (7 - Z.of_nat off) * (2 * 2 ^ Z.of_nat off)) with 256; [lia|].
          rewrite Z.mul_assoc, (Z.mul_comm _ 2), <- Z.pow_succ_r, <- Z.pow_add_r by lia.
          now replace (Z.succ (7 - Z.of_nat off) + Z.of_nat off) with 8 by lia. }
      rewrite Z.div_add by (apply Z.pow_nonzero; lia). now rewrite Z.mod_add by lia.
    + replace off with (off - 8 + 1 * 8)%nat in E |- * by lia.
      rewrite Nat.div_add, Nat.add_1_r in E by lia. cbn [nth_error] in E.
      rewrite Nat.mod_add by lia. rewrite (IH _ _ E). f_equal.
      rewrite Nat2Z.inj_add, Z.pow_add_r by lia. change (2 ^ Z.of_nat (1 * 8)) with 256.
      rewrite (Z.mul_comm _ 256), <- Z.div_div by (try apply Z.pow_pos_nonneg; lia).
      f_equal. rewrite (Z.mul_comm 256), Z.div_add by lia.
      unfold is_byte in Hx. rewrite Z.div_small by lia. lia.
Qed.

Lemma lxor_shift_bit a b j : 0 <= j -> 0 <= a < 2 ^ j -> (b = 0 \/ b = 1) ->
  Z.lxor a (Z.shiftl b j) = a + b * 2 ^ j.
Proof.
  intros Hj Ha Hb. rewrite Z.shiftl_mul_pow2 by lia. symmetry. apply Z.add_nocarry_lxor.
  apply Z.bits_inj'. intros n Hn0. rewrite Z.land_spec, Z.bits_0.
  destruct (Z.lt_ge_cases n j) as [Hlt|Hge].
  - rewrite Z.mul_pow2_bits_low by lia. apply andb_false_r.
  - replace (Z.testbit a n) with false; [reflexivity|]. symmetry.
    destruct (Z.eq_dec a 0) as [->|]; [apply Z.testbit_0_l|].
    apply Z.bits_above_log2; [lia|]. apply Z.log2_lt_pow2; [lia|].
    eapply Z.lt_le_trans; [apply Ha|]. apply Z.pow_le_mono_r; lia.
Qed.

Lemma message_index_ok k m j off0 idx :
  all_bytes m -> (off0 + j + k <= 8 * length m)%nat ->
  idx = (le_val m / 2 ^ Z.of_nat off0) mod 2 ^ Z.of_nat j ->
  message_index k j (off0 + j) idx m
  = Some ((le_val m / 2 ^ Z.of_nat off0) mod 2 ^ Z.of_nat (j + k)).
Proof.
  intros Hm. revert j idx. induction k as [|k IH]; intros j idx Hl ->; cbn [message_index].
  - now rewrite Nat.add_0_r.
  - assert (Hlt : ((off0 + j) / 8 < length m)%nat) by (apply Nat.div_lt_upper_bound; lia).
    destruct (nth_error m ((off0 + j) / 8)) as [b|] eqn:Eb; [|apply nth_error_None in Eb; lia].
    unfold get. rewrite Eb. cbn [bind]. rewrite (le_val_bit m _ b Hm Eb).
    set (V := le_val m / 2 ^ Z.of_nat off0).
    assert (EV : le_val m / 2 ^ Z.of_nat (off0 + j) = V / 2 ^ Z.of_nat j).
    { unfold V. rewrite Nat2Z.inj_add, Z.pow_add_r by lia.
      rewrite Z.div_div; [reflexivity|apply Z.pow_nonzero; lia|apply Z.pow_pos_nonneg; lia]. }
    rewrite EV. rewrite lxor_shift_bit; [|lia|apply Z.mod_pos_bound, pow2_pos|].
    2:{ pose proof (Z.mod_pos_bound (V / 2 ^ Z.of_nat j) 2). lia. }
    replace (S (off0 + j)) with (off0 + S j)%nat by lia.
    rewrite IH; [|lia|].
    + now replace (S j + k)%nat with (j + S k)%nat by lia.
    + rewrite Nat2Z.inj_succ, Z.pow_succ_r, (Z.mul_comm 2), Z.rem_mul_r
        by (try apply Z.pow_nonzero; lia). fold V. lia.
Qed.

Lemma message_to_indices_loop_ok h t m t0 :
  all_bytes m -> ((t0 + t) * h <= 8 * length m)%nat ->
  message_to_indices_loop h t (t0 * h) m
  = Some (map (fun i => (le_val m / 2 ^ Z.of_nat (i * h)) mod 2 ^ Z.of_nat h) (seq t0 t)).
Proof.
  intros Hm. revert t0. induction t as [|t IH]; intros t0 Hl; cbn [message_to_indices_loop]; auto.
  pose proof (message_index_ok h m 0 (t0 * h) 0 Hm) as E. rewrite Nat.add_0_r in E.
  rewrite E by (try lia; cbn; now rewrite Z.mod_1_r). cbn [bind].
  replace (t0 * h + h)%nat with (S t0 * h)%nat by lia.
  rewrite IH by lia. reflexivity.
Qed.

Lemma message_to_indices_ok P m :
  all_bytes m -> length m = SPX_FORS_MSG_BYTES P ->
  message_to_indices P m = Some (map (fors_index (dims_of P) m) (seq 0 (p_ft P))).
Proof.
  intros Hm Hl. unfold message_to_indices.
  pose proof (message_to_indices_loop_ok (p_fh P) (p_ft P) m 0 Hm) as E.
  cbn [Nat.mul Nat.add] in E. rewrite E; [reflexivity|].
  rewrite Hl. unfold SPX_FORS_MSG_BYTES.
  pose proof (Nat.div_mod (p_fh P * p_ft P + 7) 8). pose proof (Nat.mod_upper_bound (p_fh P * p_ft P + 7) 8).
  lia.
Qed.

Section Fors.
Variable P : params.
Variable HS : suite.
Variable c : ctx (hs_st HS).
Variable junk : nat -> nat -> Z.
Notation N := (p_n P).
Notation L := (hs_layout HS).
Notation FH := (p_fh P).
Notation FT := (p_ft P).
Hypothesis Hwf : wf_params P = true.
Hypothesis Hok : suite_ok P HS.
Hypothesis Hc : ctx_ok P HS c.
Notation T := (codeT P HS c).
Notation PRF := (codePRF HS c).
Notation D := (dims_of P).

Let Hn : (1 <= N)%nat. Proof. pose proof (wf_n P Hwf). lia. Qed.

Lemma wf_fors : (1 <= FH <= 30)%nat /\ Z.of_nat FT * 2 ^ Z.of_nat FH <= 2 ^ 32.
Proof. clear junk. unfold wf_params in Hwf. lia. Qed.

Variables tree kp : Z.

Lemma fors_hash2_code t h i x : (1 <= h <= FH)%nat ->
  T (mkAdrs 0 tree T_FORS_TREE kp (Z.of_nat h) (i + Z.of_nat t * 2 ^ Z.of_nat FH / 2 ^ Z.of_nat h)) x
  = fors_hash2 D T tree kp (Z.of_nat t) h i x.
Proof. clear.
  intros Hh. unfold fors_hash2. cbn [dims_of s_a]. do 2 f_equal.
  replace (2 ^ Z.of_nat FH) with (2 ^ Z.of_nat (FH - h) * 2 ^ Z.of_nat h)
    by (rewrite <- Z.pow_add_r by lia; f_equal; lia).
  rewrite Z.mul_assoc, Z.div_mul by (apply Z.pow_nonzero; lia). lia.
Qed.

Lemma fors_sk_len t i : length (fors_sk D PRF tree kp t i) = N.
Proof. apply (codePRF_len P HS c Hok Hc). Qed.

Lemma fors_leaf_of_len t i x : length x = N -> length (fors_leaf_of D T tree kp t i x) = N.
Proof. clear junk. intros. apply (codeT_len P HS c Hn Hok Hc 1). lia. Qed.

Lemma idx_offset_small t : (t < FT)%nat -> u32 (Z.of_nat t * 2 ^ Z.of_nat FH) = Z.of_nat t * 2 ^ Z.of_nat FH.
Proof. clear junk.
  intros Ht. destruct wf_fors as [_ Hf]. apply Z.mod_small. pose proof (pow2_pos FH). nia.
Qed.

Lemma fors_gen_leafx1_ok t k ty w2 : 
  exists ty' w2',
    fors_gen_leafx1 P HS c (enc L (mkAdrs 0 tree ty kp 0 w2)) (u32 (k + Z.of_nat t * 2 ^ Z.of_nat FH))
    = Some (fors_leaf D T PRF tree kp (Z.of_nat t) k, enc L (mkAdrs 0 tree ty' kp 0 w2')).
Proof. clear junk.
  unfold fors_gen_leafx1, fors_gen_sk, fors_sk_to_leaf.
  rewrite set_index_enc. cbn [bind]. rewrite enc_u32. rewrite set_type_enc. cbn [bind].
  rewrite (prf_enc P HS c Hok Hc). cbn [bind]. rewrite set_type_enc. cbn [bind].
  rewrite (thash_enc P HS c Hn Hok Hc 1) by (rewrite (codePRF_len P HS c Hok Hc); lia). cbn [bind].
  unfold with_type, with_w2; cbn [a_layer a_tree a_type a_kp a_w1 a_w2].
  unfold fors_leaf, fors_leaf_of, fors_sk. cbn [dims_of s_a].
  rewrite !(Z.add_comm _ k). do 2 eexists. reflexivity.
Qed.

Let fh2 t := fors_hash2 D T tree kp (Z.of_nat t).
Let flf t := fors_leaf D T PRF tree kp (Z.of_nat t).

(** The tree computation of iteration [t]. *)
Lemma fors_treehash t i au0 w1 w2 ty v2 :
  (t < FT)%nat -> 0 <= i < 2 ^ Z.of_nat FH -> chunks_of N au0 -> length au0 = FH ->
  exists w1' w2' ty' v2',
    treehashx1 P HS c junk (fors_gen_leafx1 P HS c) i (Z.of_nat t * 2 ^ Z.of_nat FH) FH (concat au0)
      (enc L (mkAdrs 0 tree T_FORS_TREE kp w1 w2)) (enc L (mkAdrs 0 tree ty kp 0 v2))
    = Some (fors_root D T PRF tree kp (Z.of_nat t), concat (auth_path (flf t) (fh2 t) FH i),
            enc L (mkAdrs 0 tree T_FORS_TREE kp w1' w2'), enc L (mkAdrs 0 tree ty' kp 0 v2')).
Proof.
  intros Ht Hi Hau Hl.
  destruct (treehashx1_ok P HS c junk Hn Hok Hc 0 tree T_FORS_TREE kp FH
              (Z.of_nat t * 2 ^ Z.of_nat FH) (fh2 t) (fors_hash2_code t) (flf t)
              ltac:(intros; apply fors_leaf_of_len, fors_sk_len)
              (fors_gen_leafx1 P HS c)
              (fun _ g => exists ty v2, g = enc L (mkAdrs 0 tree ty kp 0 v2)))
    with (leaf_idx := i) (au0 := au0) (w1 := w1) (w2 := w2)
         (g := enc L (mkAdrs 0 tree ty kp 0 v2))
    as (au' & w1' & w2' & g' & E & Hau' & (ty' & v2' & ->)); auto; try lia.
  - intros k g Hk (ty1 & v1 & ->).
    destruct (fors_gen_leafx1_ok t k ty1 v1) as (ty2 & v2' & E).
    eexists. split; [exact E|]. eauto.
  - eauto.
  - rewrite (auth_inv_full P FH (fh2 t) (flf t) i au0 au' Hi Hau') in E.
    exists w1', w2', ty', v2'. exact E.
Qed.

Lemma auth_path_chunks t i : chunks_of N (auth_path (flf t) (fh2 t) FH i).
Proof. clear junk.
  unfold auth_path. apply Forall_forall. intros x Hx. apply in_map_iff in Hx.
  destruct Hx as (h & <- & Hh). apply in_seq in Hh.
  eapply (node_len P HS c Hn Hok Hc 0 tree T_FORS_TREE kp FH); [apply (fors_hash2_code t)| |lia].
  intros. apply fors_leaf_of_len, fors_sk_len.
Qed.

Lemma fors_root_len t : length (fors_root D T PRF tree kp (Z.of_nat t)) = N.
Proof. clear junk.
  unfold fors_root. cbn [dims_of s_a].
  eapply (node_len P HS c Hn Hok Hc 0 tree T_FORS_TREE kp FH); [apply (fors_hash2_code t)| |lia].
  intros. apply fors_leaf_of_len, fors_sk_len.
Qed.

Lemma sign_tree_chunks md t : chunks_of N (fors_sign_tree D T PRF tree kp md t).
Proof. constructor; [apply fors_sk_len|apply auth_path_chunks]. Qed.

Lemma concat_sign_chunks md l :
  chunks_of N (concat (map (fors_sign_tree D T PRF tree kp md) l)).
Proof.
  induction l as [|t l IH]; cbn [map concat]; [constructor|].
  apply chunks_app. split; auto using sign_tree_chunks.
Qed.

Lemma fors_sign_chunks md : chunks_of N (fors_sign D T PRF tree kp md).
Proof. apply concat_sign_chunks. Qed.

Notation FA ty w1 w2 := (enc L (mkAdrs 0 tree ty kp w1 w2)).

Theorem fors_sign_ok sig md ty w1 w2 :
  length sig = SPX_FORS_BYTES P -> all_bytes md -> length md = SPX_FORS_MSG_BYTES P ->
  Fors.fors_sign P HS c junk sig md (FA ty w1 w2)
  = Some (concat (fors_sign D T PRF tree kp md), fors_pk D T PRF tree kp).
Proof.
  intros Hsig Hmb Hml. unfold Fors.fors_sign. rewrite (zero_addr_enc L), !copy_keypair_enc.
  cbn [bind]. rewrite set_type_enc. cbn [bind].
  unfold with_type; cbn [a_layer a_tree a_type a_kp a_w1 a_w2 adrs0].
  rewrite message_to_indices_ok by auto. cbn [bind].
  set (f := fun (i : nat) _ => _).
  set (done i := concat (map (fors_sign_tree D T PRF tree kp md) (seq 0 i))).
  set (rts := map (fun t => fors_root D T PRF tree kp (Z.of_nat t)) (seq 0 FT)).
  assert (Hdone : forall i, length (concat (done i)) = (i * (FH + 1) * N)%nat).
  { intros i. rewrite (chunks_length N) by apply concat_sign_chunks. f_equal.
    unfold done. rewrite (concat_map_length _ (FH + 1)), seq_length; auto.
    intros. apply fors_sign_tree_length. }
  destruct (ex_chunks N FT (junk_bytes (junk 7%nat) (FT * N))) as (js & J1 & J2 & J3).
  { apply junk_length. }
  destruct (iterM_inv FT 0 f (fun i (s : bytes * bytes * bytes * bytes * nat) =>
      exists rest rs ty1 u1 u2 ty2 v2,
      s = (concat (done i) ++ rest, concat rs, FA ty1 u1 u2, FA ty2 0 v2, (i * (FH + 1) * N)%nat)
      /\ (length rest = (FT - i) * (FH + 1) * N)%nat
      /\ chunks_of N rs /\ length rs = FT
      /\ (forall j, (j < i)%nat -> nth_error rs j = nth_error rts j))
      (sig, junk_bytes (junk 7%nat) (FT * N), FA 0 0 0, FA 0 0 0, O)) as (s' & Es & Hs).
  - exists sig, js, 0, 0, 0, 0, 0. rewrite J3. repeat split; auto; try lia.
    rewrite Hsig. unfold SPX_FORS_BYTES. lia.
  - intros i s Hi (rest & rs & ty1 & u1 & u2 & ty2 & v2 & -> & R1 & R2 & R3 & R4). unfold f.
    rewrite idx_offset_small by lia.
    unfold get. rewrite nth_error_map_seq by lia. cbn [bind Nat.add].
    set (ind := fors_index D md i).
    assert (Hind : 0 <= ind < 2 ^ Z.of_nat FH) by apply (fors_index_range D).
    rewrite set_height_enc. cbn [bind]. rewrite set_index_enc. cbn [bind]. rewrite enc_u32.
    rewrite set_type_enc. cbn [bind]. unfold fors_gen_sk. rewrite (prf_enc P HS c Hok Hc). cbn [bind].
    unfold with_type, with_w2, with_w1; cbn [a_layer a_tree a_type a_kp a_w1 a_w2].
    assert (Esk : PRF (mkAdrs 0 tree SPX_ADDR_TYPE_FORSPRF kp 0 (ind + Z.of_nat i * 2 ^ Z.of_nat FH))
            = fors_sk D PRF tree kp (Z.of_nat i) ind).
    { unfold fors_sk. cbn [dims_of s_a]. now rewrite Z.add_comm. }
    rewrite Esk. set (sk := fors_sk D PRF tree kp (Z.of_nat i) ind).
    assert (Hsk : length sk = N) by apply fors_sk_len.
    (* split the rest *)
    assert (exists r1 r2 r3, rest = r1 ++ r2 ++ r3 /\ length r1 = N /\ length r2 = (FH * N)%nat
              /\ length r3 = ((FT - S i) * (FH + 1) * N)%nat) as (r1 & r2 & r3 & -> & L1 & L2 & L3).
    { assert (E : (length rest = N + FH * N + (FT - S i) * (FH + 1) * N)%nat).
      { rewrite R1. replace (FT - i)%nat with (S (FT - S i)) by lia. lia. }
      exists (firstn N rest), (firstn (FH * N) (skipn N rest)), (skipn (N + FH * N) rest).
      destruct (split_at rest N (FH * N)) as (p & m & q & Eq & Hp & Hm & Ep & Em & Eq');
        [rewrite E; apply Nat.le_add_r|].
      rewrite <- Ep, <- Em, <- Eq'. repeat split; auto.
      rewrite Eq' at 1. rewrite skipn_length, E. rewrite Nat.add_comm. apply Nat.add_sub. }
    rewrite wr_app' by (rewrite ?Hdone; lia). cbn [bind].
    rewrite set_type_enc. cbn [bind]. unfold with_type; cbn [a_layer a_tree a_type a_kp a_w1 a_w2].
    rewrite (app_assoc (concat (done i))).
    rewrite rd_app' by (rewrite ?app_length, ?Hdone; lia). cbn [bind].
    destruct (ex_chunks N FH r2 L2) as (au0 & A1 & A2 & A3).
    rewrite <- A3. change SPX_ADDR_TYPE_FORSTREE with T_FORS_TREE.
    destruct (fors_treehash i ind au0 0 (ind + Z.of_nat i * 2 ^ Z.of_nat FH) ty2 v2)
      as (w1' & w2' & ty' & v2' & E); auto; try lia.
    rewrite E. cbn [bind].
    set (ap := auth_path (flf i) (fh2 i) FH ind).
    assert (Hap : length (concat ap) = (FH * N)%nat).
    { rewrite (chunks_length N) by apply auth_path_chunks. unfold ap. now rewrite auth_path_length. }
    rewrite wr_chunk by (auto; try lia; apply fors_root_len). cbn [bind].
    rewrite wr_app' by (rewrite ?app_length, ?Hdone, ?Hap, ?A3; lia). cbn [bind].
    eexists. split; [reflexivity|].
    exists r3, (upd i (fors_root D T PRF tree kp (Z.of_nat i)) rs), T_FORS_TREE, w1', w2', ty', v2'.
    repeat split; auto.
    + assert (Ed : concat (done (S i)) = concat (done i) ++ sk ++ concat ap).
      { unfold done. rewrite seq_S, map_app, concat_app. cbn [map concat].
        rewrite app_nil_r, concat_app. unfold fors_sign_tree. cbn [concat Nat.add].
        reflexivity. }
      rewrite Ed, <- !app_assoc. f_equal. ring.
    + apply chunks_upd; auto. apply fors_root_len.
    + now rewrite upd_length.
    + intros j Hj. destruct (Nat.eq_dec j i) as [->|].
      * rewrite nth_error_upd_same by lia. unfold rts. now rewrite nth_error_map_seq by lia.
      * rewrite nth_error_upd_other by auto. apply R4. lia.
  - destruct Hs as (rest & rs & ty1 & u1 & u2 & ty2 & v2 & -> & R1 & R2 & R3 & R4).
    rewrite Es. cbn [bind Nat.add].
    assert (rs = rts) as ->.
    { apply nth_error_ext'; [unfold rts; now rewrite map_length, seq_length|].
      intros j Hj. apply R4. lia. }
    cbn [Nat.add] in R1. rewrite Nat.sub_diag in R1. destruct rest; [|discriminate].
    rewrite app_nil_r.
    rewrite (thash_enc P HS c Hn Hok Hc FT) by (rewrite (chunks_length N), R3; auto). reflexivity.
Qed.

(** ** fors_pk_from_sig *)
Theorem fors_pk_from_sig_ok cs md ty w1 w2 :
  chunks_of N cs -> length cs = (FT * (FH + 1))%nat ->
  all_bytes md -> length md = SPX_FORS_MSG_BYTES P ->
  fors_pk_from_sig P HS c junk (concat cs) md (FA ty w1 w2)
  = Some (fors_pk_of_sig D T tree kp md cs).
Proof.
  intros Hcs Hlen Hmb Hml. unfold fors_pk_from_sig. rewrite (zero_addr_enc L), !copy_keypair_enc.
  cbn [bind]. rewrite !set_type_enc. cbn [bind].
  unfold with_type; cbn [a_layer a_tree a_type a_kp a_w1 a_w2 adrs0].
  rewrite message_to_indices_ok by auto. cbn [bind].
  change SPX_ADDR_TYPE_FORSTREE with T_FORS_TREE.
  set (f := fun (i : nat) _ => _).
  destruct wf_fors as [Hfh _].
  set (blk t := firstn (FH + 1) (skipn (t * (FH + 1)) cs)).
  set (rts := map (fun t => fors_root_of_sig D T tree kp md t (blk t)) (seq 0 FT)).
  (* shape of block t *)
  assert (Hblk : forall t, (t < FT)%nat -> exists pre post sk au,
             cs = pre ++ (sk :: au) ++ post /\ length pre = (t * (FH + 1))%nat
             /\ blk t = sk :: au /\ length sk = N /\ length au = FH /\ chunks_of N au
             /\ chunks_of N pre /\ chunks_of N post).
  { intros t Ht. destruct (split_at cs (t * (FH + 1)) (FH + 1)) as (pre & mid & post & E & H1 & H2 & _ & H3 & _).
    { rewrite Hlen. nia. }
    destruct mid as [|sk au]; [cbn in H2; lia|].
    exists pre, post, sk, au. rewrite E in Hcs. apply chunks_app in Hcs. destruct Hcs as [C1 C2].
    apply chunks_app in C2. destruct C2 as [C2 C3]. inversion C2; subst.
    repeat split; auto. cbn in H2; lia. }
  assert (Hrt : forall t, (t < FT)%nat ->
             length (fors_root_of_sig D T tree kp md t (blk t)) = N).
  { intros t Ht. destruct (Hblk t Ht) as (pre & post & sk & au & E & H1 & H2 & H3 & H4 & H5 & _).
    unfold fors_root_of_sig. rewrite H2. cbn [hd tl].
    apply (climb_len P HS c Hn Hok Hc 0 tree T_FORS_TREE kp FH _ (fh2 t) (fors_hash2_code t));
      auto using fors_leaf_of_len. lia. }
  destruct (ex_chunks N FT (junk_bytes (junk 8%nat) (FT * N))) as (js & J1 & J2 & J3).
  { apply junk_length. }
  destruct (iterM_inv FT 0 f (fun i (s : bytes * bytes * nat) =>
      exists rs u1 u2,
      s = (concat rs, FA T_FORS_TREE u1 u2, (i * (FH + 1) * N)%nat)
      /\ chunks_of N rs /\ length rs = FT
      /\ (forall j, (j < i)%nat -> nth_error rs j = nth_error rts j))
      (junk_bytes (junk 8%nat) (FT * N), FA T_FORS_TREE 0 0, O)) as (s' & Es & Hs).
  - exists js, 0, 0. rewrite J3. repeat split; auto; try lia.
  - intros i s Hi (rs & u1 & u2 & -> & R2 & R3 & R4). unfold f.
    rewrite idx_offset_small by lia.
    unfold get. rewrite nth_error_map_seq by lia. cbn [bind Nat.add].
    set (ind := fors_index D md i).
    rewrite set_height_enc. cbn [bind]. rewrite set_index_enc. cbn [bind]. rewrite enc_u32.
    unfold with_w2, with_w1; cbn [a_layer a_tree a_type a_kp a_w1 a_w2].
    destruct (Hblk i ltac:(lia)) as (pre & post & sk & au & E & H1 & H2 & H3 & H4 & H5 & H6 & H7).
    assert (Econ : concat cs = concat pre ++ sk ++ concat au ++ concat post).
    { rewrite E, !concat_app. cbn [concat]. now rewrite <- app_assoc. }
    assert (Hpre : length (concat pre) = (i * (FH + 1) * N)%nat)
      by (rewrite (chunks_length N) by auto; now rewrite H1).
    rewrite Econ. rewrite rd_app' by lia. cbn [bind].
    unfold fors_sk_to_leaf. rewrite (thash_enc P HS c Hn Hok Hc 1) by lia. cbn [bind].
    rewrite (app_assoc (concat pre)).
    rewrite rd_app' by (rewrite ?app_length, ?(chunks_length N) by auto; lia). cbn [bind].
    assert (El : T (mkAdrs 0 tree T_FORS_TREE kp 0 (ind + Z.of_nat i * 2 ^ Z.of_nat FH)) sk
                 = fors_leaf_of D T tree kp (Z.of_nat i) ind sk).
    { unfold fors_leaf_of. cbn [dims_of s_a]. now rewrite Z.add_comm. }
    rewrite El.
    destruct (compute_root_ok P HS c junk Hn Hok Hc 0 tree T_FORS_TREE kp FH
                (Z.of_nat i * 2 ^ Z.of_nat FH) (fh2 i) (fors_hash2_code i) au
                ind (fors_leaf_of D T tree kp (Z.of_nat i) ind sk) 0
                (ind + Z.of_nat i * 2 ^ Z.of_nat FH))
      as (w1' & w2' & Ec); auto using fors_leaf_of_len; try lia.
    rewrite Ec. cbn [bind].
    pose proof (Hrt i ltac:(lia)) as Hrl. unfold fors_root_of_sig in Hrl. rewrite H2 in Hrl.
    cbn [hd tl] in Hrl. fold ind (fh2 i) in Hrl.
    rewrite wr_chunk by (auto; lia). cbn [bind].
    eexists. split; [reflexivity|].
    eexists (upd i _ rs), w1', w2'. repeat split; auto.
    + f_equal. ring.
    + apply chunks_upd; auto.
    + now rewrite upd_length.
    + intros j Hj. destruct (Nat.eq_dec j i) as [->|].
      * rewrite nth_error_upd_same by lia. unfold rts. rewrite nth_error_map_seq by lia.
        cbn [Nat.add]. unfold fors_root_of_sig. rewrite H2. reflexivity.
      * rewrite nth_error_upd_other by auto. apply R4. lia.
  - destruct Hs as (rs & u1 & u2 & -> & R2 & R3 & R4).
    rewrite Es. cbn [bind].
    assert (rs = rts) as ->.
    { apply nth_error_ext'; [unfold rts; now rewrite map_length, seq_length|].
      intros j Hj. apply R4. lia. }
    rewrite (thash_enc P HS c Hn Hok Hc FT) by (rewrite (chunks_length N), R3; auto). reflexivity.
Qed.

Lemma fors_pk_props : length (fors_pk D T PRF tree kp) = N /\ all_bytes (fors_pk D T PRF tree kp).
Proof. clear junk.
  split; [|apply (codeT_bytes P HS c Hok)].
  apply (codeT_len P HS c Hn Hok Hc FT). rewrite (chunks_length N).
  - rewrite map_length, seq_length. reflexivity.
  - apply Forall_forall. intros x Hx. apply in_map_iff in Hx. destruct Hx as (t & <- & _).
    apply fors_root_len.
Qed.
End Fors.
