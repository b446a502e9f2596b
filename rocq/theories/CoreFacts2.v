(** Hypertree positions, address fields, integer conversion, sizes, and the two tree hashes. *)
From Verif Require Import Base BaseFacts Params Address Suite Utils Wots Fors Merkle Sign
  Spec SpecFacts SpecExt AdrsEnc
  AddressProofs Refine TreeProofs TreehashProofs WotsDigitsProofs WotsProofs ForsProofs MerkleProofs
  SignProofs CoreFacts.

(** ** Hypertree positions *)
Section Positions.
Variable P : params.
Notation TH := (SPX_TREE_HEIGHT P).
Context {St : Type}.
Variable step : nat -> St -> option St.
Variables tr lf : St -> Z.
Hypothesis Hstep : forall i s s', step i s = Some s' ->
  tr s' = tr s / 2 ^ Z.of_nat TH /\ lf s' = tr s mod 2 ^ Z.of_nat TH.

Lemma iterM_last (k i : nat) (s s' : St) :
  iterM (S k) i step s = Some s' ->
  exists s1, iterM k i step s = Some s1 /\ step (i + k)%nat s1 = Some s'.
Proof.
  clear Hstep. revert i s. induction k as [|k IH]; intros i s E.
  - cbn in E. exists s. split; auto. rewrite Nat.add_0_r. destruct (step i s); cbn in E; congruence.
  - change (iterM (S (S k)) i step s) with (bind (step i s) (iterM (S k) (S i) step)) in E.
    destruct (step i s) as [s2|] eqn:E2; cbn [bind] in E; [|discriminate].
    apply IH in E. destruct E as (s1 & E1 & E3). exists s1.
    cbn [iterM]. rewrite E2. cbn [bind]. split; auto.
    now replace (i + S k)%nat with (S i + k)%nat by lia.
Qed.

Lemma iterM_tree k s s' : iterM k 0 step s = Some s' ->
  tr s' = tr s / 2 ^ Z.of_nat (TH * k) /\
  (k = O /\ lf s' = lf s \/
   exists k', k = S k' /\ lf s' + 2 ^ Z.of_nat TH * tr s' = tr s / 2 ^ Z.of_nat (TH * k')
     /\ 0 <= lf s' < 2 ^ Z.of_nat TH).
Proof.
  revert s'. induction k as [|k IH]; intros s' E.
  - cbn in E. inversion E; subst. rewrite Nat.mul_0_r. cbn. rewrite Z.div_1_r. auto.
  - apply iterM_last in E. destruct E as (s1 & E1 & E2).
    destruct (IH _ E1) as [Ht _]. apply Hstep in E2. destruct E2 as [E2 E3].
    pose proof (pow2_pos TH) as Hp. pose proof (pow2_pos (TH * k)) as Hq.
    split.
    + rewrite E2, Ht. rewrite Z.div_div by lia. f_equal. rewrite <- Z.pow_add_r by lia. f_equal. lia.
    + right. exists k. split; [reflexivity|]. rewrite E2, E3. split.
      * rewrite <- Ht. pose proof (Z.div_mod (tr s1) (2 ^ Z.of_nat TH) ltac:(lia)). lia.
      * apply Z.mod_pos_bound. lia.
Qed.

Lemma iterM_positions k s s' :
  (k < p_d P)%nat ->
  0 <= tr s < 2 ^ Z.of_nat (TH * (p_d P - 1)) -> 0 <= lf s < 2 ^ Z.of_nat TH ->
  iterM k 0 step s = Some s' ->
  0 <= lf s' < 2 ^ Z.of_nat TH
  /\ 0 <= tr s' < 2 ^ Z.of_nat (TH * (p_d P - 1 - k))
  /\ tr s' = tr s / 2 ^ Z.of_nat (TH * k)
  /\ (forall k', k = S k' -> lf s' + 2 ^ Z.of_nat TH * tr s' = tr s / 2 ^ Z.of_nat (TH * k')).
Proof.
  intros Hk Ht Hl E. apply iterM_tree in E. destruct E as [E1 E2].
  pose proof (pow2_pos (TH * k)) as Hq.
  split; [|split; [|split]].
  - destruct E2 as [[-> ->]|(k' & -> & _ & R)]; auto.
  - rewrite E1. split; [apply Z.div_pos; lia|]. apply Z.div_lt_upper_bound; [lia|].
    rewrite <- Z.pow_add_r by apply Nat2Z.is_nonneg.
    replace (Z.of_nat (TH * k) + Z.of_nat (TH * (p_d P - 1 - k)))
      with (Z.of_nat (TH * (p_d P - 1))); [lia|].
    rewrite <- Nat2Z.inj_add, <- Nat.mul_add_distr_l. do 2 f_equal. lia.
  - exact E1.
  - intros k' ->. destruct E2 as [[Ek _]|(k'' & Ek & R & _)]; [discriminate|].
    now inversion Ek; subst.
Qed.
End Positions.

(** (tree, idx_leaf) components of the loop states of crypto_sign_signature / _verify. *)
Definition sl_tree (s : bytes * nat * bytes * bytes * bytes * Z * Z) : Z :=
  let '(_, _, _, _, _, t, _) := s in t.
Definition sl_leaf (s : bytes * nat * bytes * bytes * bytes * Z * Z) : Z :=
  let '(_, _, _, _, _, _, l) := s in l.
Definition vl_tree (s : nat * bytes * bytes * bytes * bytes * Z * Z) : Z :=
  let '(_, _, _, _, _, t, _) := s in t.
Definition vl_leaf (s : nat * bytes * bytes * bytes * bytes * Z * Z) : Z :=
  let '(_, _, _, _, _, _, l) := s in l.

Theorem sign_positions P HS junk c k s s' :
  (k < p_d P)%nat ->
  0 <= sl_tree s < 2 ^ Z.of_nat (SPX_TREE_BITS P) -> 0 <= sl_leaf s < 2 ^ Z.of_nat (SPX_LEAF_BITS P) ->
  iterM k 0 (sign_layer P HS junk c) s = Some s' ->
  0 <= sl_leaf s' < 2 ^ Z.of_nat (SPX_TREE_HEIGHT P)
  /\ 0 <= sl_tree s' < 2 ^ Z.of_nat (SPX_TREE_HEIGHT P * (p_d P - 1 - k))
  /\ sl_tree s' = sl_tree s / 2 ^ Z.of_nat (SPX_TREE_HEIGHT P * k)
  /\ (forall k', k = S k' -> sl_leaf s' + 2 ^ Z.of_nat (SPX_TREE_HEIGHT P) * sl_tree s'
                            = sl_tree s / 2 ^ Z.of_nat (SPX_TREE_HEIGHT P * k')).
Proof.
  intros. eapply (iterM_positions P (sign_layer P HS junk c) sl_tree sl_leaf); eauto.
  intros i u v E. apply sign_layer_step in E.
  destruct u as [[[[[[? ?] ?] ?] ?] ?] ?]. destruct v as [[[[[[? ?] ?] ?] ?] ?] ?]. exact E.
Qed.

Theorem verify_positions P HS junk c sg k s s' :
  (k < p_d P)%nat ->
  0 <= vl_tree s < 2 ^ Z.of_nat (SPX_TREE_BITS P) -> 0 <= vl_leaf s < 2 ^ Z.of_nat (SPX_LEAF_BITS P) ->
  iterM k 0 (verify_layer P HS junk c sg) s = Some s' ->
  0 <= vl_leaf s' < 2 ^ Z.of_nat (SPX_TREE_HEIGHT P)
  /\ 0 <= vl_tree s' < 2 ^ Z.of_nat (SPX_TREE_HEIGHT P * (p_d P - 1 - k))
  /\ vl_tree s' = vl_tree s / 2 ^ Z.of_nat (SPX_TREE_HEIGHT P * k)
  /\ (forall k', k = S k' -> vl_leaf s' + 2 ^ Z.of_nat (SPX_TREE_HEIGHT P) * vl_tree s'
                            = vl_tree s / 2 ^ Z.of_nat (SPX_TREE_HEIGHT P * k')).
Proof.
  intros. eapply (iterM_positions P (verify_layer P HS junk c sg) vl_tree vl_leaf); eauto.
  intros i u v E. apply verify_layer_step in E.
  destruct u as [[[[[[? ?] ?] ?] ?] ?] ?]. destruct v as [[[[[[? ?] ?] ?] ?] ?] ?]. exact E.
Qed.

(** ** Addresses *)
(** The part of an address that enters a hash: 22 bytes for SHA-2 (SPX_SHA256_ADDR_BYTES), all 32
    bytes for SHAKE and Haraka. *)
Definition hashed_part (l : layout) (a : bytes) : bytes :=
  match l with LSha2 => firstn 22 a | LShake => a end.

Lemma hashed_inj l a b : adrs_wf a -> adrs_wf b ->
  hashed_part l (enc l a) = hashed_part l (enc l b) -> a = b.
Proof.
  intros Ha Hb E. destruct l; cbn [hashed_part] in E.
  - now apply enc_inj_22.
  - now apply (enc_inj LShake).
Qed.

(** An address built from the zero address by the setters of ref/address.c. *)
Definition build_addr (l : layout) (layer tree type kp w1 w2 : Z) : option bytes :=
  a <- set_layer_addr l zero_addr layer ;;
  a <- set_tree_addr l a tree ;;
  a <- set_type l a type ;;
  a <- set_keypair_addr l a kp ;;
  a <- set_tree_height l a w1 ;;
  set_tree_index l a w2.

Lemma build_enc l y t ty k w1 w2 :
  build_addr l y t ty k w1 w2 = Some (enc l (mkAdrs y t ty k w1 w2)).
Proof.
  unfold build_addr. rewrite (zero_addr_enc l), set_layer_enc. cbn [bind].
  rewrite set_tree_enc. cbn [bind]. rewrite set_type_enc. cbn [bind].
  rewrite set_keypair_enc. cbn [bind]. rewrite set_height_enc. cbn [bind].
  rewrite set_index_enc. reflexivity.
Qed.

(** A setter writes its field and nothing else. *)
Definition writes_only (f : bytes -> Z -> option bytes) (off w : nat) (val : Z -> bytes) : Prop :=
  forall a v, length a = SPX_ADDR_BYTES -> exists a', f a v = Some a'
    /\ length a' = SPX_ADDR_BYTES /\ length (val v) = w
    /\ firstn w (skipn off a') = val v
    /\ (forall i, (i < off \/ off + w <= i)%nat -> nth i a' 0 = nth i a 0).

Lemma nth_skipn {A} n i (l : list A) d : nth i (skipn n l) d = nth (n + i) l d.
Proof.
  revert l; induction n as [|n IH]; intros [|x l]; cbn [skipn Nat.add nth]; auto. now destruct i.
Qed.

Lemma wr_writes_only off w val (f : bytes -> Z -> option bytes) :
  (forall a v, f a v = wr a off (val v)) -> (forall v, length (val v) = w) ->
  (off + w <= SPX_ADDR_BYTES)%nat -> writes_only f off w val.
Proof.
  intros Hf Hv Hb a v Ha. rewrite Hf, wr_ok by (rewrite Hv; lia).
  eexists. split; [reflexivity|]. rewrite Hv.
  split. { rewrite !app_length, firstn_length, skipn_length, Hv. lia. }
  split; [reflexivity|]. split.
  - rewrite skipn_app_len by (rewrite firstn_length; lia). apply firstn_app_len. apply Hv.
  - intros i Hi. destruct (le_lt_dec off i) as [H1|H1].
    + rewrite app_nth2 by (rewrite firstn_length; lia). rewrite firstn_length.
      rewrite Nat.min_l by lia. rewrite app_nth2 by (rewrite Hv; lia). rewrite Hv.
      assert (Hi' : (off + w <= i)%nat) by lia.
      rewrite nth_skipn. f_equal. lia.
    + rewrite app_nth1 by (rewrite firstn_length; lia).
      rewrite <- (firstn_skipn off a) at 2. rewrite app_nth1 by (rewrite firstn_length; lia).
      reflexivity.
Qed.

(** Secret values of one key pair, by position. *)
Inductive secret :=
| SWots (layer tree kp chain : Z)     (* start of a WOTS+ chain *)
| SFors (tree kp index : Z).          (* FORS leaf secret; index over all FORS trees *)

Definition in_key (P : params) (s : secret) : Prop :=
  match s with
  | SWots y t k i =>
      0 <= y < Z.of_nat (p_d P)
      /\ 0 <= t < 2 ^ (Z.of_nat (SPX_TREE_HEIGHT P) * (Z.of_nat (p_d P) - 1 - y))
      /\ 0 <= k < 2 ^ Z.of_nat (SPX_TREE_HEIGHT P) /\ 0 <= i < Z.of_nat (SPX_WOTS_LEN P)
  | SFors t k j =>
      0 <= t < 2 ^ Z.of_nat (SPX_TREE_BITS P) /\ 0 <= k < 2 ^ Z.of_nat (SPX_TREE_HEIGHT P)
      /\ 0 <= j < Z.of_nat (p_ft P) * 2 ^ Z.of_nat (p_fh P)
  end.

Definition secret_adrs (s : secret) : adrs :=
  match s with
  | SWots y t k i => mkAdrs y t T_WOTS_PRF k i 0
  | SFors t k j => mkAdrs 0 t T_FORS_PRF k 0 j
  end.

Lemma secret_adrs_inj s1 s2 : secret_adrs s1 = secret_adrs s2 -> s1 = s2.
Proof. destruct s1, s2; cbn; intros E; inversion E; subst; auto. Qed.

Lemma wf_sizes P : wf_params P = true ->
  (SPX_WOTS_LEN P <= 256)%nat /\ Z.of_nat (p_ft P) * 2 ^ Z.of_nat (p_fh P) <= 2 ^ 32
  /\ (p_fh P <= 30)%nat /\ (1 <= p_fh P)%nat /\ (1 <= p_ft P)%nat.
Proof.
  unfold wf_params. intros E. repeat (apply andb_true_iff in E as [E ?]).
  repeat match goal with H : (_ <=? _)%nat = true |- _ => apply Nat.leb_le in H
                       | H : (_ <=? _) = true |- _ => apply Z.leb_le in H end.
  repeat split; auto.
Qed.

Lemma pow_le_2 a b : 0 <= a <= b -> 2 ^ a <= 2 ^ b.
Proof. intros. apply Z.pow_le_mono_r; lia. Qed.

Lemma secret_wf P s : wf_params P = true -> in_key P s -> adrs_wf (secret_adrs s).
Proof.
  intros Hwf. destruct (wf_tree P Hwf) as (Ht & Hfull & Hd & H64).
  destruct (wf_sizes P Hwf) as (Hl & Hft & Hfh & _).
  assert (HTH : 2 ^ Z.of_nat (SPX_TREE_HEIGHT P) <= 2 ^ 32) by (apply pow_le_2; lia).
  assert (HTB : 2 ^ Z.of_nat (SPX_TREE_BITS P) <= 2 ^ 64)
    by (apply pow_le_2; split; [apply Nat2Z.is_nonneg|unfold SPX_TREE_BITS; lia]).
  destruct s as [y t k i|t k j]; cbn [in_key secret_adrs]; unfold adrs_wf; cbn [a_layer a_tree a_type a_kp a_w1 a_w2];
    unfold T_WOTS_PRF, T_FORS_PRF.
  - intros (R1 & R2 & R3 & R4).
    assert (2 ^ (Z.of_nat (SPX_TREE_HEIGHT P) * (Z.of_nat (p_d P) - 1 - y)) <= 2 ^ 64).
    { apply pow_le_2. nia. }
    lia.
  - intros (R1 & R2 & R3). lia.
Qed.

(** ** Integer conversions *)
Lemma lor_add_disjoint a b k : 0 <= k -> 0 <= b < 2 ^ k -> a mod 2 ^ k = 0 -> Z.lor a b = a + b.
Proof.
  intros Hk Hb Ha. rewrite Z.add_nocarry_lxor, Z.lxor_lor; auto.
  - apply Z.bits_inj'. intros n Hn. rewrite Z.land_spec, Z.bits_0.
    destruct (Z_lt_le_dec n k) as [H|H].
    + apply andb_false_intro1. rewrite <- (Z.mod_pow2_bits_low a k n) by lia. rewrite Ha. apply Z.bits_0.
    + apply andb_false_intro2. destruct (Z.eq_dec b 0) as [->|]; [apply Z.bits_0|].
      apply Z.bits_above_log2; [lia|]. apply Z.lt_le_trans with k; [|lia]. apply Z.log2_lt_pow2; lia.
  - apply Z.bits_inj'. intros n Hn. rewrite Z.land_spec, Z.bits_0.
    destruct (Z_lt_le_dec n k) as [H|H].
    + apply andb_false_intro1. rewrite <- (Z.mod_pow2_bits_low a k n) by lia. rewrite Ha. apply Z.bits_0.
    + apply andb_false_intro2. destruct (Z.eq_dec b 0) as [->|]; [apply Z.bits_0|].
      apply Z.bits_above_log2; [lia|]. apply Z.lt_le_trans with k; [|lia]. apply Z.log2_lt_pow2; lia.
Qed.

Lemma pow256 n : 256 ^ Z.of_nat n = 2 ^ (8 * Z.of_nat n).
Proof. rewrite Z.pow_mul_r by lia. reflexivity. Qed.

Lemma bytes_to_ull_loop_ok b inlen i acc :
  all_bytes b -> (i + length b = inlen)%nat -> (inlen <= 8)%nat ->
  bytes_to_ull_loop b inlen i (acc * 256 ^ Z.of_nat (length b)) = acc * 256 ^ Z.of_nat (length b) + be_val b.
Proof.
  intros Hb. revert i acc. induction Hb as [|x b Hx Hb IH]; intros i acc Hi H8; cbn [bytes_to_ull_loop be_val].
  - lia.
  - cbn [length] in *. unfold is_byte in Hx.
    replace (8 * (Z.of_nat inlen - 1 - Z.of_nat i)) with (8 * Z.of_nat (length b)) by lia.
    rewrite Z.shiftl_mul_pow2, <- pow256 by lia.
    assert (Hp : 0 < 256 ^ Z.of_nat (length b)) by (apply Z.pow_pos_nonneg; lia).
    assert (E1 : u64 (x * 256 ^ Z.of_nat (length b)) = x * 256 ^ Z.of_nat (length b)).
    { unfold u64. apply Z.mod_small. split; [nia|].
      assert (256 ^ Z.of_nat (length b) <= 256 ^ 7) by (apply Z.pow_le_mono_r; lia).
      assert (x * 256 ^ Z.of_nat (length b) < 256 * 256 ^ Z.of_nat (length b)) by nia.
      change (2 ^ 64) with (256 * 256 ^ 7). lia. }
    assert (E : Z.lor (acc * 256 ^ Z.of_nat (S (length b))) (u64 (x * 256 ^ Z.of_nat (length b)))
                = (acc * 256 + x) * 256 ^ Z.of_nat (length b)).
    { rewrite E1. rewrite (lor_add_disjoint _ _ (8 * Z.of_nat (S (length b)))).
      - rewrite Nat2Z.inj_succ, Z.pow_succ_r by lia. ring.
      - lia.
      - rewrite <- pow256. rewrite Nat2Z.inj_succ, Z.pow_succ_r by lia. nia.
      - rewrite <- pow256. apply Z.mod_mul. apply Z.pow_nonzero; lia. }
    rewrite E, IH by lia. rewrite Nat2Z.inj_succ, Z.pow_succ_r by lia. ring.
Qed.

Theorem bytes_to_ull_val b : all_bytes b -> (length b <= 8)%nat -> bytes_to_ull b = be_val b.
Proof.
  intros Hb Hl. unfold bytes_to_ull. pose proof (bytes_to_ull_loop_ok b (length b) 0 0 Hb) as E.
  rewrite Z.mul_0_l in E. rewrite E by lia. lia.
Qed.

Lemma ull_be_val b : all_bytes b -> ull_to_bytes (length b) (be_val b) = b.
Proof.
  intros Hb. apply be_val_inj; auto.
  - apply ull_bytes.
  - apply ull_length.
  - rewrite be_val_ull. apply Z.mod_small. now apply be_val_bound.
Qed.

(** ** Sizes *)
Theorem len2_exact logw n : logw = 4%nat \/ logw = 8%nat -> (1 <= n <= 256)%nat ->
  exists l, wots_len2_table logw n = Some l /\ (1 <= l)%nat
    /\ (2 ^ Z.of_nat logw) ^ (Z.of_nat l - 1)
       <= Z.of_nat (8 * n / logw) * (2 ^ Z.of_nat logw - 1) < (2 ^ Z.of_nat logw) ^ Z.of_nat l.
Proof.
  intros [-> | ->] Hn; unfold wots_len2_table; cbn [Nat.eqb].
  - replace (8 * n / 4)%nat with (2 * n)%nat
      by (replace (8 * n)%nat with ((2 * n) * 4)%nat by lia; now rewrite Nat.div_mul by lia).
    destruct (Nat.leb_spec n 8). { exists 2%nat. split; [reflexivity|]. cbn. lia. }
    destruct (Nat.leb_spec n 136). { exists 3%nat. split; [reflexivity|]. cbn. lia. }
    destruct (Nat.leb_spec n 256); [|lia]. exists 4%nat. split; [reflexivity|]. cbn. lia.
  - replace (8 * n / 8)%nat with n by (rewrite Nat.mul_comm; now rewrite Nat.div_mul by lia).
    destruct (Nat.leb_spec n 1). { exists 1%nat. split; [reflexivity|]. cbn. lia. }
    destruct (Nat.leb_spec n 256); [|lia]. exists 2%nat. split; [reflexivity|]. cbn. lia.
Qed.

(** ** The two tree hashes *)
Section TwoTrees.
Variable P : params.
Variable HS : suite.
Variable c : ctx (hs_st HS).
Notation N := (p_n P).
Notation L := (hs_layout HS).
Hypothesis Hn : (1 <= N)%nat.
Hypothesis Hok : suite_ok P HS.
Hypothesis Hc : ctx_ok P HS c.
Variables layer tree type kp off : Z.
Notation A w1 w2 := (enc L (mkAdrs layer tree type kp w1 w2)).
Variable H : nat.
Variable leaf : Z -> bytes.
Hypothesis Hleaf : forall i, length (leaf i) = N.
(** Internal node at height h, index i: thash at address (h, i + off/2^h). *)
Definition node_hash (h : nat) (i : Z) (x : bytes) : bytes :=
  codeT P HS c (mkAdrs layer tree type kp (Z.of_nat h) (i + off / 2 ^ Z.of_nat h)) x.

Theorem treehashx1_authenticates {G} (gen : G -> Z -> option (bytes * G)) junk junk' g i auth0 w1 w2 v1 v2 :
  (forall k g, 0 <= k < 2 ^ Z.of_nat H -> exists g', gen g (u32 (k + off)) = Some (leaf k, g')) ->
  (1 <= H)%nat -> 0 <= i < 2 ^ Z.of_nat H -> length auth0 = (H * N)%nat ->
  exists root auth a' g' a'',
    treehashx1 P HS c junk gen i off H auth0 (A w1 w2) g = Some (root, auth, a', g')
    /\ root = node leaf node_hash H 0
    /\ auth = concat (auth_path leaf node_hash H i)
    /\ compute_root P HS c junk' (leaf i) i off auth H (A v1 v2) = Some (root, a'').
Proof.
  intros Hg HH Hi Ha.
  destruct (ex_chunks N H auth0) as (au0 & S1 & S2 & S3); [exact Ha|].
  destruct (treehashx1_ok P HS c junk Hn Hok Hc layer tree type kp H off node_hash
              (fun h i x _ => eq_refl) leaf Hleaf gen (fun _ _ => True)
              (fun k g0 Hk _ => let '(ex_intro _ g' E) := Hg k g0 Hk in ex_intro _ g' (conj E I))
              i au0 w1 w2 g) as (au' & w1' & w2' & g' & E & Hau & _); auto; [lia|].
  rewrite S3 in E. apply auth_inv_full in Hau; [|exact Hi]. subst au'.
  assert (Hch : chunks_of N (auth_path leaf node_hash H i)).
  { unfold auth_path, chunks_of. apply Forall_map, Forall_forall. intros h Hh. apply in_seq in Hh.
    apply (node_len P HS c Hn Hok Hc layer tree type kp H off node_hash (fun h i x _ => eq_refl) leaf Hleaf). lia. }
  destruct (compute_root_ok P HS c junk' Hn Hok Hc layer tree type kp H off node_hash
              (fun h i x _ => eq_refl) (auth_path leaf node_hash H i) i (leaf i) v1 v2)
    as (u1 & u2 & E2); auto.
  { apply auth_path_length. }
  rewrite climb_root in E2 by auto.
  do 5 eexists. split; [exact E|]. split; [reflexivity|]. split; [reflexivity|]. exact E2.
Qed.

Theorem treehash_agree (gen : Z -> bytes -> option bytes) {G} (gen1 : G -> Z -> option (bytes * G))
    junk junk' g i auth0 w1 w2 v1 v2 :
  (forall k u1 u2, 0 <= k < 2 ^ Z.of_nat H -> gen (u32 (k + off)) (A u1 u2) = Some (leaf k)) ->
  (forall k g, 0 <= k < 2 ^ Z.of_nat H -> exists g', gen1 g (u32 (k + off)) = Some (leaf k, g')) ->
  0 <= i -> i / 2 ^ Z.of_nat H <> 1 -> length auth0 = (H * N)%nat ->
  exists root auth a1 a2 g',
    treehash P HS c junk gen i off H auth0 (A w1 w2) = Some (root, auth, a1)
    /\ treehashx1 P HS c junk' gen1 i off H auth0 (A v1 v2) g = Some (root, auth, a2, g').
Proof.
  intros Hg Hg1 Hi Hne Ha.
  destruct (ex_chunks N H auth0) as (au0 & S1 & S2 & S3); [exact Ha|].
  destruct (treehashx1_ok P HS c junk' Hn Hok Hc layer tree type kp H off node_hash
              (fun h i x _ => eq_refl) leaf Hleaf gen1 (fun _ _ => True)
              (fun k g0 Hk _ => let '(ex_intro _ g' E) := Hg1 k g0 Hk in ex_intro _ g' (conj E I))
              i au0 v1 v2 g) as (au' & w1' & w2' & g' & E & Hau & _); auto.
  destruct (treehash_ok P HS c junk Hn Hok Hc layer tree type kp H off node_hash
              (fun h i x _ => eq_refl) leaf Hleaf gen Hg i au0 w1 w2)
    as (au2 & u1 & u2 & E2 & Hau2); auto.
  assert (au2 = au').
  { destruct Hau as (A1 & A2 & A3), Hau2 as (B1 & B2 & B3). apply nth_error_ext'; [congruence|].
    intros h Hh. rewrite A3, B3 by lia. reflexivity. }
  subst au2. rewrite S3 in E, E2. do 5 eexists. split; [exact E2|exact E].
Qed.

(** The leaf indices on which they agree, exactly. *)
Theorem treehash_agree_iff (gen : Z -> bytes -> option bytes) {G} (gen1 : G -> Z -> option (bytes * G))
    junk junk' g i auth0 w1 w2 v1 v2 :
  (forall k u1 u2, 0 <= k < 2 ^ Z.of_nat H -> gen (u32 (k + off)) (A u1 u2) = Some (leaf k)) ->
  (forall k g, 0 <= k < 2 ^ Z.of_nat H -> exists g', gen1 g (u32 (k + off)) = Some (leaf k, g')) ->
  0 <= i -> length auth0 = (H * N)%nat ->
  exists root auth a2 g',
    treehashx1 P HS c junk' gen1 i off H auth0 (A v1 v2) g = Some (root, auth, a2, g')
    /\ (i / 2 ^ Z.of_nat H <> 1 ->
        exists a1, treehash P HS c junk gen i off H auth0 (A w1 w2) = Some (root, auth, a1))
    /\ (i / 2 ^ Z.of_nat H = 1 -> treehash P HS c junk gen i off H auth0 (A w1 w2) = None).
Proof.
  intros Hg Hg1 Hi Ha.
  destruct (Z.eq_dec (i / 2 ^ Z.of_nat H) 1) as [He|Hne].
  - destruct (ex_chunks N H auth0) as (au0 & S1 & S2 & S3); [exact Ha|].
    destruct (treehashx1_ok P HS c junk' Hn Hok Hc layer tree type kp H off node_hash
                (fun h i x _ => eq_refl) leaf Hleaf gen1 (fun _ _ => True)
                (fun k g0 Hk _ => let '(ex_intro _ g' E) := Hg1 k g0 Hk in ex_intro _ g' (conj E I))
                i au0 v1 v2 g) as (au' & w1' & w2' & g' & E & Hau & _); auto.
    rewrite S3 in E. do 4 eexists. split; [exact E|]. split; [intros; contradiction|]. intros _.
    rewrite <- S3.
    apply (treehash_none P HS c junk Hn Hok Hc layer tree type kp H off node_hash
             (fun h i x _ => eq_refl) leaf Hleaf gen Hg i au0 w1 w2); auto.
  - destruct (treehash_agree gen gen1 junk junk' g i auth0 w1 w2 v1 v2 Hg Hg1 Hi Hne Ha)
      as (root & auth & a1 & a2 & g' & E1 & E2).
    do 4 eexists. split; [exact E2|]. split; [intros _; eauto|intros; contradiction].
Qed.

(** Marker leaf index: nothing is written. *)
Theorem treehashx1_marker {G} (gen : G -> Z -> option (bytes * G)) junk g auth0 w1 w2 :
  (forall k g, 0 <= k < 2 ^ Z.of_nat H -> exists g', gen g (u32 (k + off)) = Some (leaf k, g')) ->
  (H <= 31)%nat -> length auth0 = (H * N)%nat ->
  exists a' g',
    treehashx1 P HS c junk gen (2 ^ 32 - 1) off H auth0 (A w1 w2) g
    = Some (node leaf node_hash H 0, auth0, a', g').
Proof.
  intros Hg HH Ha.
  destruct (ex_chunks N H auth0) as (au0 & S1 & S2 & S3); [exact Ha|].
  destruct (treehashx1_ok P HS c junk Hn Hok Hc layer tree type kp H off node_hash
              (fun h i x _ => eq_refl) leaf Hleaf gen (fun _ _ => True)
              (fun k g0 Hk _ => let '(ex_intro _ g' E) := Hg k g0 Hk in ex_intro _ g' (conj E I))
              (2 ^ 32 - 1) au0 w1 w2 g) as (au' & w1' & w2' & g' & E & Hau & _); auto; [lia|].
  apply auth_inv_none in Hau; auto. subst au'. rewrite S3 in E. eauto.
Qed.
End TwoTrees.

Theorem merkle_marker P HS c junk sig0 root layer tree ty k0 u1 u2 ty' w1 w2 :
  wf_params P = true -> suite_ok P HS -> ctx_ok P HS c ->
  length sig0 = (SPX_WOTS_BYTES P + SPX_TREE_HEIGHT P * p_n P)%nat -> length root = p_n P ->
  exists a',
    merkle_sign P HS c junk sig0 root (enc (hs_layout HS) (mkAdrs layer tree ty k0 u1 u2))
      (enc (hs_layout HS) (mkAdrs layer tree ty' 0 w1 w2)) (2 ^ 32 - 1)
    = Some (sig0, xmss_root (dims_of P) (codeT P HS c) (codePRF HS c) layer tree, a').
Proof.
  intros Hwf Hok Hc Hs Hr.
  destruct (chain_lengths_total P Hwf root Hr) as (ls & E1 & E2 & E3).
  assert (exists s a, sig0 = s ++ a /\ length s = SPX_WOTS_BYTES P
            /\ length a = (SPX_TREE_HEIGHT P * p_n P)%nat) as (s & a & -> & Hs1 & Ha1).
  { exists (firstn (SPX_WOTS_BYTES P) sig0), (skipn (SPX_WOTS_BYTES P) sig0).
    rewrite firstn_skipn, firstn_length, skipn_length. repeat split; lia. }
  destruct (merkle_sign_gen P HS c junk Hwf Hok Hc layer tree s a root ls ty k0 u1 u2 ty' w1 w2
              (2 ^ 32 - 1)) as (w1' & w2' & E); auto.
  rewrite Z.eqb_refl in E. rewrite E. eauto.
Qed.
