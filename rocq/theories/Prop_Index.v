(** Index arithmetic, addresses, serialisation and sizes (C22-C25, C45).  Theorems only. *)
From Verif Require Import Base Params Address AdrsEnc Suite Utils Wots Fors Sign Spec Refine
  CoreFacts CoreFacts2 CoreFacts3 Toy.

(** C22: the loop of crypto_sign_signature.  [sl_tree], [sl_leaf] are the variables tree and
    idx_leaf of the loop state; [s'] is the state at the start of iteration [k]. *)
Theorem C22_sign_positions :
  forall P HS junk c k s s', (k < p_d P)%nat ->
  0 <= sl_tree s < 2 ^ Z.of_nat (SPX_TREE_BITS P) ->
  0 <= sl_leaf s < 2 ^ Z.of_nat (SPX_LEAF_BITS P) ->
  iterM k 0 (sign_layer P HS junk c) s = Some s' ->
  0 <= sl_leaf s' < 2 ^ Z.of_nat (SPX_TREE_HEIGHT P)
  /\ 0 <= sl_tree s' < 2 ^ Z.of_nat (SPX_TREE_HEIGHT P * (p_d P - 1 - k))
  /\ sl_tree s' = sl_tree s / 2 ^ Z.of_nat (SPX_TREE_HEIGHT P * k)
  /\ forall k', k = S k' ->
       sl_leaf s' + 2 ^ Z.of_nat (SPX_TREE_HEIGHT P) * sl_tree s'
       = sl_tree s / 2 ^ Z.of_nat (SPX_TREE_HEIGHT P * k').
Proof. exact sign_positions. Qed.

(** C22: the loop of crypto_sign_verify. *)
Theorem C22_verify_positions :
  forall P HS junk c sg k s s', (k < p_d P)%nat ->
  0 <= vl_tree s < 2 ^ Z.of_nat (SPX_TREE_BITS P) ->
  0 <= vl_leaf s < 2 ^ Z.of_nat (SPX_LEAF_BITS P) ->
  iterM k 0 (verify_layer P HS junk c sg) s = Some s' ->
  0 <= vl_leaf s' < 2 ^ Z.of_nat (SPX_TREE_HEIGHT P)
  /\ 0 <= vl_tree s' < 2 ^ Z.of_nat (SPX_TREE_HEIGHT P * (p_d P - 1 - k))
  /\ vl_tree s' = vl_tree s / 2 ^ Z.of_nat (SPX_TREE_HEIGHT P * k)
  /\ forall k', k = S k' ->
       vl_leaf s' + 2 ^ Z.of_nat (SPX_TREE_HEIGHT P) * vl_tree s'
       = vl_tree s / 2 ^ Z.of_nat (SPX_TREE_HEIGHT P * k').
Proof. exact verify_positions. Qed.

(** C23: every setter writes its field and nothing else; fields used together are disjoint and all
    hashed. *)
Theorem C23_setters : forall L : layout,
  writes_only (set_layer_addr L) (SPX_OFFSET_LAYER L) 1 (fun v => [v mod 256])
  /\ writes_only (set_tree_addr L) (SPX_OFFSET_TREE L) 8 be8
  /\ writes_only (set_type L) (SPX_OFFSET_TYPE L) 1 (fun v => [v mod 256])
  /\ writes_only (set_keypair_addr L) (SPX_OFFSET_KP_ADDR L) 4 be4
  /\ writes_only (set_chain_addr L) (SPX_OFFSET_CHAIN_ADDR L) 1 (fun v => [v mod 256])
  /\ writes_only (set_hash_addr L) (SPX_OFFSET_HASH_ADDR L) 1 (fun v => [v mod 256])
  /\ writes_only (set_tree_height L) (SPX_OFFSET_TREE_HGT L) 1 (fun v => [v mod 256])
  /\ writes_only (set_tree_index L) (SPX_OFFSET_TREE_INDEX L) 4 be4.
Proof. exact setters_write_only. Qed.

Theorem C23_disjoint : forall L : layout,
  fields_disjoint (wots_fields L) /\ fields_disjoint (tree_fields L)
  /\ Forall (fun f => (fst f + snd f <= hashed_bytes L)%nat) (wots_fields L ++ tree_fields L).
Proof. exact layout_disjoint. Qed.

Theorem C23_copies : forall (L : layout) (out inp : bytes),
  length out = SPX_ADDR_BYTES -> length inp = SPX_ADDR_BYTES ->
  (exists o, copy_subtree_addr L out inp = Some o /\ length o = SPX_ADDR_BYTES
     /\ forall i, nth i o 0
        = if (i <? SPX_OFFSET_TREE L + 8)%nat then nth i inp 0 else nth i out 0)
  /\ (exists o, copy_keypair_addr L out inp = Some o /\ length o = SPX_ADDR_BYTES
     /\ forall i, nth i o 0
        = if (i <? SPX_OFFSET_TREE L + 8)%nat
             || ((SPX_OFFSET_KP_ADDR L <=? i)%nat && (i <? SPX_OFFSET_KP_ADDR L + 4)%nat)
          then nth i inp 0 else nth i out 0).
Proof. exact copies_fields. Qed.

(** C23: different field values give different hashed bytes. *)
Theorem C23_injective :
  forall (L : layout) y t ty k w1 w2 y' t' ty' k' w1' w2' a a',
  adrs_wf (mkAdrs y t ty k w1 w2) -> adrs_wf (mkAdrs y' t' ty' k' w1' w2') ->
  build_addr L y t ty k w1 w2 = Some a -> build_addr L y' t' ty' k' w1' w2' = Some a' ->
  firstn (hashed_bytes L) a = firstn (hashed_bytes L) a' ->
  (y, t, ty, k, w1, w2) = (y', t', ty', k', w1', w2').
Proof. exact built_addresses_differ. Qed.

(** C24: two secrets of one key pair (any layer, tree, key pair, chain or FORS index) have
    different PRF addresses, and no thash address (types 0-4) equals a PRF address. *)
Theorem C24_secrets_distinct :
  forall P (L : layout) s1 s2, wf_params P = true -> in_key P s1 -> in_key P s2 ->
  firstn (hashed_bytes L) (enc L (secret_adrs s1)) = firstn (hashed_bytes L) (enc L (secret_adrs s2)) ->
  s1 = s2.
Proof. exact secret_addresses. Qed.
Theorem C24_prf_vs_thash :
  forall (L : layout) s a, 0 <= a_type a <= 4 ->
  firstn (hashed_bytes L) (enc L (secret_adrs s)) <> firstn (hashed_bytes L) (enc L a).
Proof. exact secret_vs_thash. Qed.

(** C25: integer serialisation. *)
Theorem C25_roundtrip : forall k x, (k <= 8)%nat -> 0 <= x < 2 ^ 64 ->
  bytes_to_ull (ull_to_bytes k x) = x mod 256 ^ Z.of_nat k.
Proof. exact serial_roundtrip. Qed.
Theorem C25_parse : forall b, all_bytes b -> (length b <= 8)%nat ->
  ull_to_bytes (length b) (bytes_to_ull b) = b.
Proof. exact parse_roundtrip. Qed.
Theorem C25_big_endian : forall b, all_bytes b -> (length b <= 8)%nat -> bytes_to_ull b = be_val b.
Proof. exact bytes_to_ull_val. Qed.
Theorem C25_u32 : forall v, u32_to_bytes v = ull_to_bytes 4 v.
Proof. exact u32_is_ull. Qed.

(** C45: the number of checksum digits, for every N up to 256: w^(l-1) <= max checksum < w^l. *)
Theorem C45_len2 : forall logw n, (logw = 4 \/ logw = 8)%nat -> (1 <= n <= 256)%nat ->
  exists l, wots_len2_table logw n = Some l /\ (1 <= l)%nat
    /\ (2 ^ Z.of_nat logw) ^ (Z.of_nat l - 1)
       <= Z.of_nat (8 * n / logw) * (2 ^ Z.of_nat logw - 1) < (2 ^ Z.of_nat logw) ^ Z.of_nat l.
Proof. exact len2_exact. Qed.
(** C45: sizes, for every accepted parameter set and for the shipped ones (a finite list). *)
Theorem C45_bytes : forall P, wf_params P = true ->
  SPX_BYTES P
  = (p_n P * (1 + p_ft P * (1 + p_fh P) + p_d P * (SPX_WOTS_LEN P + SPX_TREE_HEIGHT P)))%nat.
Proof. exact bytes_sum. Qed.
Theorem C45_shipped : forall P, In P all_params -> sizes_ok P = true.
Proof. exact sizes_ok_all. Qed.

Print Assumptions C22_sign_positions.
Print Assumptions C22_verify_positions.
Print Assumptions C23_setters.
Print Assumptions C23_disjoint.
Print Assumptions C23_copies.
Print Assumptions C23_injective.
Print Assumptions C24_secrets_distinct.
Print Assumptions C24_prf_vs_thash.
Print Assumptions C25_roundtrip.
Print Assumptions C25_parse.
Print Assumptions C25_big_endian.
Print Assumptions C25_u32.
Print Assumptions C45_len2.
Print Assumptions C45_bytes.
Print Assumptions C45_shipped.

(** ** Concrete cases *)
(** C22: one iteration of the signing loop from tree 3, leaf 1 (toy set: D = 2, height 2). *)
Example toy_positions :
  let s0 := (repeat 0 52, 20%nat, [5; 6], repeat 0 32, repeat 0 32, 3, 1) in
  0 <= sl_tree s0 < 2 ^ Z.of_nat (SPX_TREE_BITS params_toy)
  /\ 0 <= sl_leaf s0 < 2 ^ Z.of_nat (SPX_LEAF_BITS params_toy)
  /\ option_map (fun s => (sl_tree s, sl_leaf s))
       (iterM 1 0 (sign_layer params_toy (toy_suite params_toy) toy_junk (mkCtx [1; 2] [3; 4] tt)) s0)
     = Some (0, 3).
Proof. vm_compute. repeat split; discriminate. Qed.
(** C23, C24: addresses in range, and their encodings. *)
Example adrs_wf_case : adrs_wf (mkAdrs 3 (2 ^ 63 + 5) 5 (2 ^ 31) 66 255).
Proof. unfold adrs_wf; cbn; lia. Qed.
Example adrs_enc_case : build_addr LSha2 3 5 5 258 66 255
  = Some [3; 0; 0; 0; 0; 0; 0; 0; 5; 5; 0; 0; 1; 2; 0; 0; 0; 66; 0; 0; 0; 255; 0; 0; 0; 0; 0; 0; 0; 0; 0; 0].
Proof. reflexivity. Qed.
Example in_key_case : in_key params_256f (SWots 2 (2 ^ 55) 9 66) /\ in_key params_256f (SFors 77 3 17919).
Proof. split; vm_compute; repeat split; discriminate || reflexivity. Qed.
(** The secrets of the specification are derived under [secret_adrs]. *)
Example wots_sk_adrs : forall (PRF : adrs -> bytes) y t k i,
  wots_sk PRF y t k i = PRF (secret_adrs (SWots y t k (Z.of_nat i))).
Proof. reflexivity. Qed.
Example fors_sk_adrs : forall D (PRF : adrs -> bytes) t k tr i,
  fors_sk D PRF t k tr i = PRF (secret_adrs (SFors t k (tr * 2 ^ Z.of_nat (s_a D) + i))).
Proof. reflexivity. Qed.
Example serial_case : ull_to_bytes 3 16909060 = [2; 3; 4] /\ bytes_to_ull [2; 3; 4] = 131844.
Proof. vm_compute. split; reflexivity. Qed.
Example shipped_case : map (fun P => Z.of_nat (SPX_BYTES P)) all_params
  = [7856; 17088; 16224; 35664; 29792; 49856].
Proof. exact sig_sizes. Qed.
