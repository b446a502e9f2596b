(** Statements about addresses and sizes assembled for the property files. *)
From Verif Require Import Base BaseFacts Params Address Suite Utils Wots Fors Merkle Sign Spec
  SpecFacts AdrsEnc AddressProofs Refine WotsDigitsProofs CoreFacts CoreFacts2 Toy.

(** Setters: each writes its own field only. *)
Lemma setters_write_only (L : layout) :
  writes_only (set_layer_addr L) (SPX_OFFSET_LAYER L) 1 (fun v => [v mod 256])
  /\ writes_only (set_tree_addr L) (SPX_OFFSET_TREE L) 8 be8
  /\ writes_only (set_type L) (SPX_OFFSET_TYPE L) 1 (fun v => [v mod 256])
  /\ writes_only (set_keypair_addr L) (SPX_OFFSET_KP_ADDR L) 4 be4
  /\ writes_only (set_chain_addr L) (SPX_OFFSET_CHAIN_ADDR L) 1 (fun v => [v mod 256])
  /\ writes_only (set_hash_addr L) (SPX_OFFSET_HASH_ADDR L) 1 (fun v => [v mod 256])
  /\ writes_only (set_tree_height L) (SPX_OFFSET_TREE_HGT L) 1 (fun v => [v mod 256])
  /\ writes_only (set_tree_index L) (SPX_OFFSET_TREE_INDEX L) 4 be4.
Proof.
  assert (Hb : forall v, u8 v = v mod 256) by reflexivity.
  assert (H8 : forall v, ull_to_bytes 8 v = be8 v) by (intros; rewrite ull_to_bytes_eq; reflexivity).
  assert (H1 : forall off f, (forall a v, f a v = wr a off [u8 v]) -> (off + 1 <= 32)%nat ->
            writes_only f off 1 (fun v => [v mod 256])).
  { intros off f Hf Ho. apply wr_writes_only; [exact Hf|reflexivity|exact Ho]. }
  assert (H4 : forall off f, (forall a v, f a v = wr a off (u32_to_bytes v)) -> (off + 4 <= 32)%nat ->
            writes_only f off 4 be4).
  { intros off f Hf Ho. apply wr_writes_only; [|reflexivity|exact Ho].
    intros a v. rewrite Hf. f_equal. apply u32_to_bytes_be. }
  repeat match goal with |- _ /\ _ => split end.
  2: { apply wr_writes_only; [|reflexivity|destruct L; cbn; unfold SPX_ADDR_BYTES; lia].
       intros a v. unfold set_tree_addr. now rewrite H8. }
  all: first [apply H1|apply H4]; [intros a v; reflexivity|destruct L; cbn; lia].
Qed.

(** The fields used together never overlap and lie inside the hashed bytes. *)
Definition disjoint (o1 w1 o2 w2 : nat) : Prop := (o1 + w1 <= o2 \/ o2 + w2 <= o1)%nat.
Definition hashed_bytes (l : layout) : nat := match l with LSha2 => 22 | LShake => 32 end.
Definition fields_disjoint (l : list (nat * nat)) : Prop :=
  forall i j, (i < j)%nat -> (j < length l)%nat ->
    let a := nth i l (O, O) in let b := nth j l (O, O) in disjoint (fst a) (snd a) (fst b) (snd b).
Definition common_fields (L : layout) : list (nat * nat) :=
  [(SPX_OFFSET_LAYER L, 1); (SPX_OFFSET_TREE L, 8); (SPX_OFFSET_TYPE L, 1); (SPX_OFFSET_KP_ADDR L, 4)]%nat.
Definition wots_fields (L : layout) : list (nat * nat) :=
  common_fields L ++ [(SPX_OFFSET_CHAIN_ADDR L, 1); (SPX_OFFSET_HASH_ADDR L, 1)]%nat.
Definition tree_fields (L : layout) : list (nat * nat) :=
  common_fields L ++ [(SPX_OFFSET_TREE_HGT L, 1); (SPX_OFFSET_TREE_INDEX L, 4)]%nat.

Lemma layout_disjoint (L : layout) :
  fields_disjoint (wots_fields L) /\ fields_disjoint (tree_fields L)
  /\ Forall (fun f => (fst f + snd f <= hashed_bytes L)%nat) (wots_fields L ++ tree_fields L).
Proof.
  split; [|split].
  - intros i j Hij Hj. cbn [length wots_fields common_fields app] in Hj.
    destruct j as [|[|[|[|[|[|j]]]]]]; try lia;
      destruct i as [|[|[|[|[|[|i]]]]]]; try lia; destruct L; unfold disjoint; cbn; lia.
  - intros i j Hij Hj. cbn [length tree_fields common_fields app] in Hj.
    destruct j as [|[|[|[|[|[|j]]]]]]; try lia;
      destruct i as [|[|[|[|[|[|i]]]]]]; try lia; destruct L; unfold disjoint; cbn; lia.
  - destruct L; repeat constructor; cbn; lia.
Qed.

(** The copy functions. *)
Lemma copies_fields (L : layout) (out inp : bytes) :
  length out = SPX_ADDR_BYTES -> length inp = SPX_ADDR_BYTES ->
  (exists o, copy_subtree_addr L out inp = Some o /\ length o = SPX_ADDR_BYTES
     /\ forall i, nth i o 0
        = if (i <? SPX_OFFSET_TREE L + 8)%nat then nth i inp 0 else nth i out 0)
  /\ (exists o, copy_keypair_addr L out inp = Some o /\ length o = SPX_ADDR_BYTES
     /\ forall i, nth i o 0
        = if (i <? SPX_OFFSET_TREE L + 8)%nat
             || ((SPX_OFFSET_KP_ADDR L <=? i)%nat && (i <? SPX_OFFSET_KP_ADDR L + 4)%nat)
          then nth i inp 0 else nth i out 0).
Proof.
  intros Ho Hi. unfold SPX_ADDR_BYTES in *.
  do 32 (destruct out as [|? out]; [discriminate|]). destruct out; [|discriminate].
  do 32 (destruct inp as [|? inp]; [discriminate|]). destruct inp; [|discriminate].
  split; destruct L; eexists; (split; [reflexivity|]); (split; [reflexivity|]); intros i;
    (do 32 (destruct i as [|i]; [reflexivity|])); cbn; now destruct i.
Qed.

(** Two addresses built by the setters with different field values are hashed differently. *)
Lemma built_addresses_differ (L : layout) y t ty k w1 w2 y' t' ty' k' w1' w2' a a' :
  adrs_wf (mkAdrs y t ty k w1 w2) -> adrs_wf (mkAdrs y' t' ty' k' w1' w2') ->
  build_addr L y t ty k w1 w2 = Some a -> build_addr L y' t' ty' k' w1' w2' = Some a' ->
  firstn (hashed_bytes L) a = firstn (hashed_bytes L) a' ->
  (y, t, ty, k, w1, w2) = (y', t', ty', k', w1', w2').
Proof.
  intros H1 H2 E1 E2 E. rewrite build_enc in E1, E2. inversion E1; inversion E2; subst a a'.
  assert (Ea : mkAdrs y t ty k w1 w2 = mkAdrs y' t' ty' k' w1' w2').
  { apply (hashed_inj L); auto. destruct L; exact E. }
  congruence.
Qed.

(** Secrets: distinct positions, distinct hashed addresses; never the address of a thash call. *)
Lemma secret_addresses (P : params) (L : layout) s1 s2 :
  wf_params P = true -> in_key P s1 -> in_key P s2 ->
  firstn (hashed_bytes L) (enc L (secret_adrs s1)) = firstn (hashed_bytes L) (enc L (secret_adrs s2)) ->
  s1 = s2.
Proof.
  intros Hwf H1 H2 E. apply secret_adrs_inj. apply (hashed_inj L).
  - now apply (secret_wf P).
  - now apply (secret_wf P).
  - destruct L; exact E.
Qed.
Lemma secret_vs_thash (L : layout) s a :
  0 <= a_type a <= 4 ->
  firstn (hashed_bytes L) (enc L (secret_adrs s)) <> firstn (hashed_bytes L) (enc L a).
Proof.
  intros Ha E.
  assert (Et : forall x, nth (SPX_OFFSET_TYPE L) (firstn (hashed_bytes L) (enc L x)) 0 = a_type x mod 256).
  { intros x. destruct L; cbn; unfold byte_of; now rewrite Z.div_1_r. }
  pose proof (Et (secret_adrs s)) as E1. rewrite E, Et in E1.
  rewrite (Z.mod_small (a_type a)) in E1 by lia.
  destruct s; cbn in E1; unfold T_WOTS_PRF, T_FORS_PRF in E1; cbn in E1; lia.
Qed.

(** Sizes of the shipped parameter sets. *)
Definition sizes_ok (P : params) : bool :=
  wf_params P
  && (SPX_WOTS_LEN1 P * p_logw P =? 8 * p_n P)%nat
  && (SPX_TREE_HEIGHT P * p_d P =? p_full P)%nat
  && (SPX_BYTES P =? p_n P * (1 + p_ft P * (1 + p_fh P) + p_d P * (SPX_WOTS_LEN P + SPX_TREE_HEIGHT P)))%nat
  && (SPX_TREE_BITS P <=? 64)%nat && (SPX_LEAF_BITS P <=? 32)%nat
  && (SPX_TREE_BYTES P <=? 8)%nat && (SPX_LEAF_BYTES P <=? 4)%nat
  && (p_d P <=? 256)%nat && (SPX_WOTS_LEN P <=? 256)%nat && (SPX_WOTS_W P <=? 256)
  && (p_fh P <=? 255)%nat && (Z.of_nat (p_ft P) * 2 ^ Z.of_nat (p_fh P) <=? 2 ^ 32)
  && (8 * SPX_FORS_MSG_BYTES P <? p_fh P * p_ft P + 8)%nat
  && (p_fh P * p_ft P <=? 8 * SPX_FORS_MSG_BYTES P)%nat.
Lemma all_sizes_ok : forallb sizes_ok all_params = true.
Proof. vm_compute. reflexivity. Qed.
Lemma sizes_ok_all P : In P all_params -> sizes_ok P = true.
Proof. intros H. exact (proj1 (forallb_forall sizes_ok all_params) all_sizes_ok P H). Qed.
(** CRYPTO_BYTES as published (signature sizes of the round-3 submission). *)
Lemma sig_sizes : map (fun P => Z.of_nat (SPX_BYTES P)) all_params
  = [7856; 17088; 16224; 35664; 29792; 49856].
Proof. vm_compute. reflexivity. Qed.
(** The size equation holds for every accepted set, not only the shipped ones. *)
Lemma bytes_sum P : wf_params P = true ->
  SPX_BYTES P = (p_n P * (1 + p_ft P * (1 + p_fh P) + p_d P * (SPX_WOTS_LEN P + SPX_TREE_HEIGHT P)))%nat.
Proof.
  intros H. assert (E : (SPX_TREE_HEIGHT P * p_d P)%nat = p_full P).
  { unfold wf_params in H. repeat (apply andb_prop in H; destruct H as [H ?]).
    now apply Nat.eqb_eq. }
  unfold SPX_BYTES, SPX_FORS_BYTES, SPX_WOTS_BYTES. rewrite <- E. ring.
Qed.

(** Serialisation. *)
Lemma serial_roundtrip k x : (k <= 8)%nat -> 0 <= x < 2 ^ 64 ->
  bytes_to_ull (ull_to_bytes k x) = x mod 256 ^ Z.of_nat k.
Proof.
  intros Hk Hx. rewrite bytes_to_ull_val.
  - apply be_val_ull.
  - rewrite ull_to_bytes_eq. apply Forall_forall. intros y Hy. apply in_map_iff in Hy.
    destruct Hy as (j & <- & _). unfold byte_of. apply Z.mod_pos_bound. lia.
  - rewrite ull_to_bytes_eq, map_length, seq_length. exact Hk.
Qed.
Lemma parse_roundtrip b : all_bytes b -> (length b <= 8)%nat ->
  ull_to_bytes (length b) (bytes_to_ull b) = b.
Proof. intros Hb Hl. rewrite bytes_to_ull_val by auto. now apply ull_be_val. Qed.
Lemma u32_is_ull v : u32_to_bytes v = ull_to_bytes 4 v.
Proof. rewrite u32_to_bytes_be, ull_to_bytes_eq. reflexivity. Qed.
