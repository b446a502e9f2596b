(** C71: the integer expressions of the core under the rules of C.  Theorems only.

    CInt.v evaluates an expression with C's integer promotions, usual arithmetic conversions and undefined cases; CCore.v
    transcribes the core with each variable in its declared type, each expression as it is written, and the macros expanded
    to what params.h says.  The models of all other claims use mathematical integers with [mod] where the author of the
    model saw a conversion.  These theorems say that the two agree: no conversion was overlooked, nothing is undefined. *)
From Verif Require Import Spec AdrsEnc Base Params Address Suite Utils Wots Fors Merkle Sign HashShake BuildSpec Toy CInt CCore CCoreProofs CCoreProofs2 CCoreProofs3 CCoreCases CTreehash CTreehashProofs.

(** ** The public functions, for any hash functions *)
Theorem C71_keypair : forall P HS, wf_params P = true -> Z.of_nat (SPX_BYTES P) < 2 ^ 31 -> forall junk pk sk seed,
  crypto_sign_seed_keypair_c P HS junk pk sk seed = crypto_sign_seed_keypair P HS junk pk sk seed.
Proof. exact seed_keypair_c_ok. Qed.
Theorem C71_signature : forall P HS, wf_params P = true -> Z.of_nat (SPX_BYTES P) < 2 ^ 31 -> suite_ok P HS ->
  forall junk stream sig m sk,
  crypto_sign_signature_c P HS junk stream sig m sk = crypto_sign_signature P HS junk stream sig m sk.
Proof. exact signature_c_ok. Qed.
Theorem C71_verify : forall P HS, wf_params P = true -> Z.of_nat (SPX_BYTES P) < 2 ^ 31 -> suite_ok P HS ->
  forall junk sig siglen m pk, 0 <= siglen < 2 ^ 64 ->
  crypto_sign_verify_c P HS junk sig siglen m pk = crypto_sign_verify P HS junk sig siglen m pk.
Proof. exact verify_c_ok. Qed.
Theorem C71_sign : forall P HS, wf_params P = true -> Z.of_nat (SPX_BYTES P) < 2 ^ 31 -> suite_ok P HS ->
  forall junk stream sm m sk, Z.of_nat (length m) < 2 ^ 64 ->
  crypto_sign_c P HS junk stream sm m sk = crypto_sign P HS junk stream sm m sk.
Proof. exact sign_c_ok. Qed.
Theorem C71_open : forall P HS, wf_params P = true -> Z.of_nat (SPX_BYTES P) < 2 ^ 31 -> suite_ok P HS ->
  forall junk m sm smlen pk, 0 <= smlen < 2 ^ 64 ->
  crypto_sign_open_c P HS junk m sm smlen pk = crypto_sign_open P HS junk m sm smlen pk.
Proof. exact open_c_ok. Qed.
(** The end of hash_message, in all three families *)
Theorem C71_split : forall P buf, wf_params P = true -> Z.of_nat (SPX_BYTES P) < 2 ^ 31 -> all_bytes buf ->
  split_digest_c P buf = split_digest P buf.
Proof. exact split_digest_c_ok. Qed.

(** ** Parts that can be called with other arguments: all 32-bit values of the indices *)
Theorem C71_compute_root : forall P HS c junk leaf l o th auth addr, 0 <= l < 2 ^ 32 -> 0 <= o < 2 ^ 32 -> (1 <= th)%nat -> Z.of_nat th < 2 ^ 31 ->
  compute_root_c P HS c junk leaf (V U32 l) (V U32 o) auth (V U32 (Z.of_nat th)) addr = compute_root P HS c junk leaf l o auth th addr.
Proof.
  exact (fun P HS c junk leaf l o th auth addr Hl Ho H1 H2 => compute_root_c_ok P HS c junk leaf _ _ _ l o th auth addr
    (arg_V l Hl) (arg_V o Ho) (arg_V (Z.of_nat th) (conj (Nat2Z.is_nonneg th) (Z.lt_trans _ (2 ^ 31) (2 ^ 32) H2 eq_refl))) H1 H2).
Qed.
Theorem C71_fors : forall P HS, wf_params P = true -> Z.of_nat (SPX_BYTES P) < 2 ^ 31 -> forall c junk sig m addr,
  fors_sign_c P HS c junk sig m addr = fors_sign P HS c junk sig m addr
  /\ fors_pk_from_sig_c P HS c junk sig m addr = fors_pk_from_sig P HS c junk sig m addr.
Proof. exact (fun P HS H1 H2 c junk sig m addr => conj (fors_sign_c_ok P HS H1 H2 c junk sig m addr) (fors_pk_from_sig_c_ok P HS H1 H2 c junk sig m addr)). Qed.
Theorem C71_merkle : forall P HS, wf_params P = true -> Z.of_nat (SPX_BYTES P) < 2 ^ 31 -> forall c junk sig root wots_addr tree_addr leaf,
  0 <= leaf < 2 ^ 32 ->
  merkle_sign_c P HS c junk sig root wots_addr tree_addr (V U32 leaf) = merkle_sign P HS c junk sig root wots_addr tree_addr leaf.
Proof. exact (fun P HS H1 H2 c junk sig root wa ta leaf H => merkle_sign_c_ok P HS H1 H2 c junk sig root wa ta _ leaf (arg_V leaf H)). Qed.
Theorem C71_wots : forall P HS, wf_params P = true -> forall c junk sig msg addr,
  wots_pk_from_sig_c P HS c junk sig msg addr = wots_pk_from_sig P HS c junk sig msg addr.
Proof. exact wots_pk_from_sig_c_ok. Qed.

(** treehash (utils.c), which nothing calls, for any leaf function and any height up to 30. *)
Theorem C71_treehash : forall P HS, wf_params P = true -> forall c junk gen_c gen,
  (forall a ad, 0 <= a < 2 ^ 32 -> gen_c a ad = gen a ad) -> forall i off th auth addr,
  0 <= i < 2 ^ 32 -> 0 <= off < 2 ^ 32 -> (th <= 30)%nat ->
  treehash_c P HS c junk gen_c (V U32 i) (V U32 off) (V U32 (Z.of_nat th)) auth addr = treehash P HS c junk gen i off th auth addr.
Proof. exact treehash_typed. Qed.

(** ** The builds: the round trip, with nothing undefined *)
Theorem C71_builds : forall f robust P, wf_params P = true -> (p_n P <= 32)%nat -> Z.of_nat (SPX_BYTES P) < 2 ^ 31 ->
  forall jh1 jh2 jh3 junk1 junk2 junk3 pk0 sk0 sig0 seed stream m,
  length seed = CRYPTO_SEEDBYTES P -> (p_n P <= length stream)%nat ->
  (SPX_PK_BYTES P <= length pk0)%nat -> (SPX_SK_BYTES P <= length sk0)%nat -> (SPX_BYTES P <= length sig0)%nat ->
  all_bytes seed -> all_bytes stream -> all_bytes sk0 -> all_bytes m -> Z.of_nat (length m) < 2 ^ 63 ->
  exists pk sk sig stream',
    crypto_sign_seed_keypair_c P (build f robust P jh1) junk1 pk0 sk0 seed = Some (0, pk, sk)
    /\ crypto_sign_signature_c P (build f robust P jh2) junk2 stream sig0 m sk = Some (0, sig, crypto_sign_bytes P, stream')
    /\ crypto_sign_verify_c P (build f robust P jh3) junk3 sig (crypto_sign_bytes P) m pk = Some 0.
Proof. exact c_honest. Qed.

(** ** Outside the supported parameters *)
(** A tree of height 31: [1 << 31] is undefined, although the indices would fit in uint32_t. *)
Theorem C71_height_31_refuted : forall G P HS c junk (gen : G -> Z -> option (bytes * G)) e1 e2 auth addr g,
  treehashx1_c P HS c junk gen e1 e2 (K 31) auth addr g = None.
Proof. exact @height31. Qed.
Theorem C71_treehash_31_refuted : forall P HS c junk gen e1 e2 auth addr, treehash_c P HS c junk gen e1 e2 (K 31) auth addr = None.
Proof. exact treehash_c_31. Qed.
(** One layer: the expression for the tree index, if it was evaluated, would shift by 64. *)
Theorem C71_one_layer_refuted : forall P x, wf_params P = true -> p_d P = 1%nat ->
  asg U64 (V U64 x .& (Not (Cast U64 (K 0)) >> (K 64 - xTREE_BITS P)))%C = None.
Proof. exact one_layer. Qed.

Print Assumptions C71_keypair.
Print Assumptions C71_signature.
Print Assumptions C71_verify.
Print Assumptions C71_sign.
Print Assumptions C71_open.
Print Assumptions C71_split.
Print Assumptions C71_compute_root.
Print Assumptions C71_fors.
Print Assumptions C71_merkle.
Print Assumptions C71_wots.
Print Assumptions C71_treehash.
Print Assumptions C71_treehash_31_refuted.
Print Assumptions C71_builds.
Print Assumptions C71_height_31_refuted.
Print Assumptions C71_one_layer_refuted.

(** ** The hypotheses met *)
Example C71_params_case : forall P, In P all_params -> wf_params P = true /\ (p_n P <= 32)%nat /\ Z.of_nat (SPX_BYTES P) < 2 ^ 31.
Proof. exact shipped_small. Qed.
Example C71_one_layer_case : wf_params (mkParams 16 10 1 6 4 4) = true /\ p_d (mkParams 16 10 1 6 4 4) = 1%nat.
Proof. split; reflexivity. Qed.
Example C71_builds_case : forall f robust P, In P all_params -> exists pk sk sig stream',
    crypto_sign_seed_keypair_c P (build f robust P toy_junk) toy_junk (repeat 0 64) (repeat 0 128)
      (map (fun i => Z.of_nat i mod 251) (seq 0 (CRYPTO_SEEDBYTES P))) = Some (0, pk, sk)
    /\ crypto_sign_signature_c P (build f robust P toy_junk) toy_junk (map Z.of_nat (seq 0 40))
         (repeat 0 (SPX_BYTES P)) [104; 105] sk = Some (0, sig, crypto_sign_bytes P, stream')
    /\ crypto_sign_verify_c P (build f robust P toy_junk) toy_junk sig (crypto_sign_bytes P) [104; 105] pk = Some 0.
Proof.
  intros f robust P H. destruct (shipped_small P H) as (Hwf & HN & Hb).
  assert (Ht : (CRYPTO_SEEDBYTES P <= 96)%nat) by (unfold CRYPTO_SEEDBYTES; lia).
  apply C71_builds; auto; try (rewrite ?map_length, ?seq_length, ?repeat_length); auto.
  - lia.
  - unfold SPX_PK_BYTES; lia.
  - unfold SPX_SK_BYTES, SPX_PK_BYTES; lia.
  - apply Forall_forall. intros x Hx. apply in_map_iff in Hx. destruct Hx as (i & <- & _).
    unfold is_byte. pose proof (Z.mod_pos_bound (Z.of_nat i) 251 eq_refl). lia.
  - apply Forall_forall. intros x Hx. apply in_map_iff in Hx. destruct Hx as (i & <- & Hi).
    apply in_seq in Hi. unfold is_byte. lia.
  - apply Forall_forall. intros x Hx. apply repeat_spec in Hx. subst. unfold is_byte. lia.
  - repeat constructor; unfold is_byte; lia.
  - cbn; lia.
Qed.
(** treehash on four leaves: the root of the four and the path of leaf 2 are handed out. *)
Example C71_treehash_case :
  let toy_ctx : ctx (hs_st (toy_suite params_toy)) := mkCtx [1; 2] [3; 4] tt in
  let gen (k : Z) (_ : bytes) := Some [k; k + 7] in
  let h l r i t := match hs_thash (toy_suite params_toy) toy_ctx 2 (l ++ r) (enc LSha2 (mkAdrs 0 0 0 0 t i)) with Some d => d | None => [] end in
  let left := h [0; 7] [1; 8] 0 1 in
  option_map fst (treehash_c params_toy (toy_suite params_toy) toy_ctx toy_junk gen (V U32 2) (V U32 0) (V U32 2) [8; 8; 8; 8] (repeat 0 32))
  = Some (h left (h [2; 9] [3; 10] 1 1) 0 2, [3; 10] ++ left).
Proof. vm_compute. reflexivity. Qed.
(** The evaluation itself: promotion to int, conversion to unsigned, wrap-around *)
Example C71_eval_case :
  asg U32 (V U32 0 - K 1)%C = Some (2 ^ 32 - 1)             (** int converted to unsigned *)
  /\ asg U64 (Cast U64 (B 255) << K 56)%C = Some (255 * 2 ^ 56)
  /\ asg U64 (B 255 << K 24)%C = None                        (** without the cast: signed overflow *)
  /\ cond (K (-1) < V U32 0)%C = Some false                  (** -1 becomes 2^32 - 1 *)
  /\ asg U32 (Not (K 0))%C = Some (2 ^ 32 - 1).
Proof. repeat split; reflexivity. Qed.
