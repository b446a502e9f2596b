(** ref/address.c implements field updates of the abstract address. *)
From Verif Require Import Base BaseFacts Params Address Spec AdrsEnc.

Lemma enc_length l a : length (enc l a) = SPX_ADDR_BYTES.
Proof. destruct l; reflexivity. Qed.

Lemma shiftr_div_pow v k : 0 <= k -> Z.shiftr v k = v / 2 ^ k.
Proof. apply Z.shiftr_div_pow2. Qed.

Lemma land_255 v : Z.land v 255 = v mod 256.
Proof. change 255 with (Z.ones 8). rewrite Z.land_ones by lia. reflexivity. Qed.

Lemma u32_to_bytes_be v : u32_to_bytes v = be4 v.
Proof.
  unfold u32_to_bytes, be4, byte_of, u8. rewrite !Z.shiftr_div_pow2 by lia.
  change (256 ^ 0) with 1. rewrite Z.div_1_r. reflexivity.
Qed.

Lemma ull_to_bytes_loop_eq k v acc :
  ull_to_bytes_loop k v acc = map (fun j => byte_of v (Z.of_nat (k - 1 - j))) (seq 0 k) ++ acc.
Proof.
  revert v acc; induction k as [|k IH]; intros v acc; cbn [ull_to_bytes_loop]; [reflexivity|].
  rewrite IH. rewrite seq_S, map_app. cbn [map app]. rewrite <- app_assoc. cbn [app]. f_equal.
  - apply map_ext_in. intros j Hj. apply in_seq in Hj. unfold byte_of.
    rewrite Z.shiftr_div_pow2 by lia. rewrite Z.div_div by lia.
    replace (2 ^ 8 * 256 ^ Z.of_nat (k - 1 - j)) with (256 ^ Z.of_nat (S k - 1 - j)); [reflexivity|].
    replace (Z.of_nat (S k - 1 - j)) with (Z.succ (Z.of_nat (k - 1 - j))) by lia.
    rewrite Z.pow_succ_r by lia. reflexivity.
  - replace (S k - 1 - (0 + k))%nat with O by lia. unfold byte_of. cbn [Z.of_nat].
    change (256 ^ 0) with 1. rewrite Z.div_1_r, land_255. reflexivity.
Qed.

Lemma ull_to_bytes_eq k v :
  ull_to_bytes k v = map (fun j => byte_of v (Z.of_nat (k - 1 - j))) (seq 0 k).
Proof. unfold ull_to_bytes. rewrite ull_to_bytes_loop_eq. apply app_nil_r. Qed.

Lemma ull_to_bytes_8 v : ull_to_bytes 8 v = be8 v.
Proof. rewrite ull_to_bytes_eq. reflexivity. Qed.

Lemma u8_byte0 v : u8 v = byte_of v 0.
Proof. unfold u8, byte_of. change (256 ^ 0) with 1. now rewrite Z.div_1_r. Qed.

Lemma byte_of_0 k : byte_of 0 k = 0.
Proof. unfold byte_of. now rewrite Zdiv_0_l. Qed.

Section Setters.
Variable l : layout.
Variable a : adrs.

Ltac go := destruct l; reflexivity.

Lemma zero_addr_enc : zero_addr = enc l adrs0.
Proof. go. Qed.
Lemma set_layer_enc v : set_layer_addr l (enc l a) v = Some (enc l (with_layer a v)).
Proof. unfold set_layer_addr. rewrite u8_byte0. go. Qed.
Lemma set_tree_enc v : set_tree_addr l (enc l a) v = Some (enc l (with_tree a v)).
Proof. unfold set_tree_addr. rewrite ull_to_bytes_8. go. Qed.
Lemma set_type_enc v : set_type l (enc l a) v = Some (enc l (with_type a v)).
Proof. unfold set_type. rewrite u8_byte0. go. Qed.
Lemma set_keypair_enc v : set_keypair_addr l (enc l a) v = Some (enc l (with_kp a v)).
Proof. unfold set_keypair_addr. rewrite u32_to_bytes_be. go. Qed.
Lemma set_chain_enc v : set_chain_addr l (enc l a) v = Some (enc l (with_w1 a v)).
Proof. unfold set_chain_addr. rewrite u8_byte0. go. Qed.
Lemma set_height_enc v : set_tree_height l (enc l a) v = Some (enc l (with_w1 a v)).
Proof. unfold set_tree_height. rewrite u8_byte0. go. Qed.
Lemma set_index_enc v : set_tree_index l (enc l a) v = Some (enc l (with_w2 a v)).
Proof. unfold set_tree_index. rewrite u32_to_bytes_be. go. Qed.

(** set_hash_addr writes only the low byte of the last word. *)
Lemma set_hash_enc v :
  0 <= a_w2 a < 256 -> 0 <= v < 256 ->
  set_hash_addr l (enc l a) v = Some (enc l (with_w2 a v)).
Proof.
  intros Ha Hv. unfold set_hash_addr. rewrite u8_byte0.
  assert (Hz : forall w k, 0 <= w < 256 -> 1 <= k -> byte_of w k = 0).
  { intros w k Hw Hk. unfold byte_of. rewrite Z.div_small; [reflexivity|].
    split; [lia|]. apply Z.lt_le_trans with (256 ^ 1); [change (256 ^ 1) with 256; lia|].
    apply Z.pow_le_mono_r; lia. }
  unfold enc, be4. cbn [with_w2 a_layer a_tree a_type a_kp a_w1 a_w2].
  rewrite !(Hz (a_w2 a) 3), !(Hz (a_w2 a) 2), !(Hz (a_w2 a) 1) by lia.
  rewrite !(Hz v 3), !(Hz v 2), !(Hz v 1) by lia. go.
Qed.

Lemma copy_subtree_enc b :
  copy_subtree_addr l (enc l b) (enc l a)
  = Some (enc l (mkAdrs (a_layer a) (a_tree a) (a_type b) (a_kp b) (a_w1 b) (a_w2 b))).
Proof. go. Qed.
Lemma copy_keypair_enc b :
  copy_keypair_addr l (enc l b) (enc l a)
  = Some (enc l (mkAdrs (a_layer a) (a_tree a) (a_type b) (a_kp a) (a_w1 b) (a_w2 b))).
Proof. go. Qed.
End Setters.

(** ** Injectivity *)
Lemma byte_of_range v k : 0 <= byte_of v k < 256.
Proof. unfold byte_of. apply Z.mod_pos_bound. lia. Qed.

Lemma byte_small v : 0 <= v < 256 -> byte_of v 0 = v.
Proof. intros. unfold byte_of. change (256^0) with 1. rewrite Z.div_1_r. now apply Z.mod_small. Qed.

Lemma be4_val v : 0 <= v < 2 ^ 32 ->
  v = byte_of v 3 * 2 ^ 24 + byte_of v 2 * 2 ^ 16 + byte_of v 1 * 2 ^ 8 + byte_of v 0.
Proof.
  intros H. unfold byte_of.
  change (256^3) with 16777216. change (256^2) with 65536. change (256^1) with 256.
  change (256^0) with 1. change (2^24) with 16777216. change (2^16) with 65536.
  change (2^8) with 256. change (2^32) with 4294967296 in H.
  Z.div_mod_to_equations. lia.
Qed.

Lemma be4_inj v w : 0 <= v < 2 ^ 32 -> 0 <= w < 2 ^ 32 -> be4 v = be4 w -> v = w.
Proof.
  intros Hv Hw E. unfold be4 in E. injection E as E3 E2 E1 E0.
  rewrite (be4_val v Hv), (be4_val w Hw). congruence.
Qed.

Lemma be8_split v : be8 v = be4 (v / 2 ^ 32) ++ be4 v.
Proof.
  unfold be8, be4, byte_of. cbn [app].
  rewrite !Z.div_div by lia. reflexivity.
Qed.

Lemma byte_of_mod v k n : 0 <= k < n -> byte_of (v mod 256 ^ n) k = byte_of v k.
Proof.
  intros H. unfold byte_of. rewrite (Z.div_mod v (256 ^ n)) at 2 by (apply Z.pow_nonzero; lia).
  replace (256 ^ n * (v / 256 ^ n)) with ((v / 256 ^ n * 256 ^ (n - k - 1)) * 256 * 256 ^ k).
  2:{ replace n with ((n - k - 1) + 1 + k) at 3 by lia. rewrite !Z.pow_add_r by lia. ring. }
  rewrite Z.div_add_l by (apply Z.pow_nonzero; lia).
  rewrite Z.add_comm, Z.mod_add by lia. reflexivity.
Qed.

Lemma be4_mod v : be4 v = be4 (v mod 2 ^ 32).
Proof.
  unfold be4. change (2 ^ 32) with (256 ^ 4). now rewrite !byte_of_mod by lia.
Qed.

Lemma be8_inj v w : 0 <= v < 2 ^ 64 -> 0 <= w < 2 ^ 64 -> be8 v = be8 w -> v = w.
Proof.
  intros Hv Hw E. rewrite !be8_split in E.
  apply app_inj_len in E; [|reflexivity]. destruct E as [E1 E2].
  apply be4_inj in E1.
  2,3: change (2^64) with 18446744073709551616 in *; change (2^32) with 4294967296;
       Z.div_mod_to_equations; lia.
  rewrite (be4_mod v), (be4_mod w) in E2. apply be4_inj in E2; try (apply Z.mod_pos_bound; lia).
  rewrite (Z.div_mod v (2^32)), (Z.div_mod w (2^32)) by lia. congruence.
Qed.

Lemma enc_inj l a b : adrs_wf a -> adrs_wf b -> enc l a = enc l b -> a = b.
Proof.
  destruct a as [la ta ya ka w1 w2], b as [lb tb yb kb v1 v2].
  unfold adrs_wf; cbn [a_layer a_tree a_type a_kp a_w1 a_w2].
  intros (H1 & H2 & H3 & H4 & H5 & H6) (G1 & G2 & G3 & G4 & G5 & G6) E.
  assert (la = lb /\ be8 ta = be8 tb /\ ya = yb /\ be4 ka = be4 kb /\ w1 = v1 /\ be4 w2 = be4 v2)
    as (-> & Et & -> & Ek & -> & Ew).
  { unfold enc in E; cbn [a_layer a_tree a_type a_kp a_w1 a_w2] in E.
    rewrite !(byte_small _ H1), !(byte_small _ H3), !(byte_small _ H5),
      !(byte_small _ G1), !(byte_small _ G3), !(byte_small _ G5) in E.
    unfold be8, be4 in *. cbn [app] in E.
    destruct l; injection E; intros; repeat split; congruence. }
  apply be8_inj in Et; auto. apply be4_inj in Ek; auto. apply be4_inj in Ew; auto.
  congruence.
Qed.

(** The first 22 bytes determine the address in the SHA-2 layout. *)
Lemma enc_inj_22 a b : adrs_wf a -> adrs_wf b ->
  firstn 22 (enc LSha2 a) = firstn 22 (enc LSha2 b) -> a = b.
Proof.
  intros Ha Hb E. apply (enc_inj LSha2); auto.
  rewrite <- (firstn_skipn 22 (enc LSha2 a)), <- (firstn_skipn 22 (enc LSha2 b)), E. reflexivity.
Qed.
