(** C76: the whole scheme in typed C.  Theorems only.

    The core of CCore.v (C71) linked with the hash functions of CGlue.v, CSha2.v, CFips202.v and CHaraka.v (C73 to C75) as
    [build_c] of CBuild.v: every integer expression between the public functions and the compression functions is evaluated
    under C's promotions, conversions and undefined cases.  The results are those of the specification (Spec.v, BuildSpec.v) in
    standard hash functions, for every family and variant; [jh] and [junk] are what uninitialised arrays hold. *)
From Verif Require Import Base Params Address Suite Spec Refine BuildSpec Sign ForgeSpec ForgeCode Toy CInt CCore CCoreCases CBuild CBuildProofs CBuildApi.

(** Key generation, for every seed: the key pair is the seeds and the root of the top tree. *)
Theorem C76_keygen : forall f robust P, wf_params P = true -> (p_n P <= 32)%nat -> Z.of_nat (SPX_BYTES P) < 2 ^ 31 -> forall jh seed,
 length seed = CRYPTO_SEEDBYTES P -> all_bytes seed ->
  let ss := firstn (p_n P) seed in
  let ps := skipn (2 * p_n P) seed in
  let root := ht_root (dims_of P) (spec_T f (p_n P) robust ps) (spec_PRF f (p_n P) ps ss) in
  length root = p_n P /\ forall junk pk0 sk0,
    (SPX_PK_BYTES P <= length pk0)%nat -> (SPX_SK_BYTES P <= length sk0)%nat ->
    crypto_sign_seed_keypair_c P (build_c f robust P jh) junk pk0 sk0 seed
    = Some (0, ps ++ root ++ skipn (SPX_PK_BYTES P) pk0, seed ++ root ++ skipn (SPX_SK_BYTES P) sk0).
Proof. exact cb_keygen. Qed.
(** Signing, for every key, message and random string. *)
Theorem C76_signature : forall f robust P, wf_params P = true -> (p_n P <= 32)%nat -> Z.of_nat (SPX_BYTES P) < 2 ^ 31 -> forall jh junk stream sig0 m sk,
  (SPX_SK_BYTES P <= length sk)%nat -> (p_n P <= length stream)%nat -> (SPX_BYTES P <= length sig0)%nat ->
  all_bytes sk -> all_bytes stream -> all_bytes m -> Z.of_nat (length m) < 2 ^ 63 ->
  let s := spx_sign (dims_of P) (spec_T f (p_n P) robust) (spec_PRF f (p_n P)) (spec_Rnd f (p_n P)) (spec_Hm f (p_n P) (dims_of P))
             (firstn (p_n P) sk) (firstn (p_n P) (skipn (p_n P) sk)) (firstn (p_n P) (skipn (2 * p_n P) sk))
             (firstn (p_n P) (skipn (3 * p_n P) sk)) (firstn (p_n P) stream) m in
  crypto_sign_signature_c P (build_c f robust P jh) junk stream sig0 m sk = Some (0, s ++ skipn (SPX_BYTES P) sig0, Z.of_nat (SPX_BYTES P), skipn (p_n P) stream)
  /\ length s = SPX_BYTES P.
Proof. exact cb_signature. Qed.
(** Verification returns 0 exactly on what the specification accepts, -1 otherwise. *)
Theorem C76_verify : forall f robust P, wf_params P = true -> (p_n P <= 32)%nat -> Z.of_nat (SPX_BYTES P) < 2 ^ 31 -> forall jh junk sig siglen m pk,
 0 <= siglen < 2 ^ 64 ->
  (siglen = Z.of_nat (SPX_BYTES P) -> (SPX_BYTES P <= length sig)%nat) -> (SPX_PK_BYTES P <= length pk)%nat ->
  all_bytes sig -> all_bytes pk -> all_bytes m -> Z.of_nat (length m) < 2 ^ 63 ->
  exists r, crypto_sign_verify_c P (build_c f robust P jh) junk sig siglen m pk = Some r /\ (r = 0 \/ r = -1)
    /\ (r = 0 <-> siglen = Z.of_nat (SPX_BYTES P)
          /\ spx_verify (dims_of P) (spec_T f (p_n P) robust) (spec_Hm f (p_n P) (dims_of P)) (firstn (p_n P) pk) (firstn (p_n P) (skipn (p_n P) pk)) m (firstn (SPX_BYTES P) sig)).
Proof. exact cb_verify. Qed.
(** The signed message is the signature followed by the message. *)
Theorem C76_sign : forall f robust P, wf_params P = true -> (p_n P <= 32)%nat -> Z.of_nat (SPX_BYTES P) < 2 ^ 31 -> forall jh junk stream sm0 m sk,
  (SPX_SK_BYTES P <= length sk)%nat -> (p_n P <= length stream)%nat -> (SPX_BYTES P + length m <= length sm0)%nat ->
  all_bytes sk -> all_bytes stream -> all_bytes m -> Z.of_nat (length m) < 2 ^ 63 ->
  let s := spx_sign (dims_of P) (spec_T f (p_n P) robust) (spec_PRF f (p_n P)) (spec_Rnd f (p_n P)) (spec_Hm f (p_n P) (dims_of P))
             (firstn (p_n P) sk) (firstn (p_n P) (skipn (p_n P) sk)) (firstn (p_n P) (skipn (2 * p_n P) sk))
             (firstn (p_n P) (skipn (3 * p_n P) sk)) (firstn (p_n P) stream) m in
  crypto_sign_c P (build_c f robust P jh) junk stream sm0 m sk
  = Some (0, s ++ m ++ skipn (SPX_BYTES P + length m) sm0, Z.of_nat (SPX_BYTES P + length m), skipn (p_n P) stream).
Proof. exact cb_sign. Qed.
(** Opening hands out the message if the specification accepts, and zeros otherwise. *)
Theorem C76_open : forall f robust P, wf_params P = true -> (p_n P <= 32)%nat -> Z.of_nat (SPX_BYTES P) < 2 ^ 31 -> forall jh junk m0 sm smlen pk,
 0 <= smlen < 2 ^ 63 ->
  smlen <= Z.of_nat (length sm) -> smlen <= Z.of_nat (length m0) -> (SPX_PK_BYTES P <= length pk)%nat -> all_bytes sm -> all_bytes pk ->
  let msg := firstn (Z.to_nat smlen - SPX_BYTES P) (skipn (SPX_BYTES P) sm) in
  let good := Z.of_nat (SPX_BYTES P) <= smlen
    /\ spx_verify (dims_of P) (spec_T f (p_n P) robust) (spec_Hm f (p_n P) (dims_of P)) (firstn (p_n P) pk) (firstn (p_n P) (skipn (p_n P) pk)) msg (firstn (SPX_BYTES P) sm) in
  (good -> crypto_sign_open_c P (build_c f robust P jh) junk m0 sm smlen pk
           = Some (0, msg ++ skipn (Z.to_nat smlen - SPX_BYTES P) m0, smlen - Z.of_nat (SPX_BYTES P)))
  /\ (~ good -> crypto_sign_open_c P (build_c f robust P jh) junk m0 sm smlen pk
           = Some (-1, repeat 0 (Z.to_nat smlen) ++ skipn (Z.to_nat smlen) m0, 0)).
Proof. exact cb_open. Qed.
(** What is signed under a generated key verifies. *)
Theorem C76_honest : forall f robust P, wf_params P = true -> (p_n P <= 32)%nat -> Z.of_nat (SPX_BYTES P) < 2 ^ 31 -> forall jh1 jh2 jh3 junk1 junk2 junk3 pk0 sk0 sig0 seed stream m,
  length seed = CRYPTO_SEEDBYTES P -> (p_n P <= length stream)%nat ->
  (SPX_PK_BYTES P <= length pk0)%nat -> (SPX_SK_BYTES P <= length sk0)%nat -> (SPX_BYTES P <= length sig0)%nat ->
  all_bytes seed -> all_bytes stream -> all_bytes sk0 -> all_bytes m -> Z.of_nat (length m) < 2 ^ 63 ->
  exists pk sk sig stream',
    crypto_sign_seed_keypair_c P (build_c f robust P jh1) junk1 pk0 sk0 seed = Some (0, pk, sk)
    /\ crypto_sign_signature_c P (build_c f robust P jh2) junk2 stream sig0 m sk = Some (0, sig, crypto_sign_bytes P, stream')
    /\ crypto_sign_verify_c P (build_c f robust P jh3) junk3 sig (crypto_sign_bytes P) m pk = Some 0.
Proof. exact cb_honest. Qed.
(** A signature accepted under a generated key is the one the secret key makes, or breaks a hash function at a listed input. *)
Theorem C76_forgery : forall f robust P, wf_params P = true -> (p_n P <= 32)%nat -> Z.of_nat (SPX_BYTES P) < 2 ^ 31 -> forall jh1 jh2 junk1 junk2 pk0 sk0 pk sk seed sig siglen m,
  length seed = CRYPTO_SEEDBYTES P ->
  (SPX_PK_BYTES P <= length pk0)%nat -> (SPX_SK_BYTES P <= length sk0)%nat ->
  all_bytes seed -> all_bytes sig -> all_bytes m -> Z.of_nat (length m) < 2 ^ 63 -> 0 <= siglen < 2 ^ 64 ->
  crypto_sign_seed_keypair_c P (build_c f robust P jh1) junk1 pk0 sk0 seed = Some (0, pk, sk) ->
  (siglen = Z.of_nat (SPX_BYTES P) -> (SPX_BYTES P <= length sig)%nat) ->
  crypto_sign_verify_c P (build_c f robust P jh2) junk2 sig siglen m pk = Some 0 ->
  let T := spec_T f (p_n P) robust (skipn (2 * p_n P) seed) in
  let PRF := spec_PRF f (p_n P) (skipn (2 * p_n P) seed) (firstn (p_n P) seed) in
  exists md tree leaf,
    spec_Hm f (p_n P) (dims_of P) (skipn (2 * p_n P) seed) (firstn (p_n P) sig) (firstn (2 * p_n P) pk) m = (md, tree, leaf)
    /\ (firstn (SPX_BYTES P) sig = firstn (p_n P) sig ++ concat (spx_sign_body (dims_of P) T PRF md tree leaf)
        \/ break_in (dims_of P) T PRF (verify_calls (dims_of P) T md tree leaf (sig_body P sig))).
Proof. exact cb_forgery. Qed.

(** All 36 builds of ref/ meet the hypotheses: a key pair, a signature and its verification. *)
Example C76_case : forall f robust P, In P all_params -> exists pk sk sig stream',
    crypto_sign_seed_keypair_c P (build_c f robust P toy_junk) toy_junk (repeat 0 64) (repeat 0 128)
      (map (fun i => Z.of_nat i mod 251) (seq 0 (CRYPTO_SEEDBYTES P))) = Some (0, pk, sk)
    /\ crypto_sign_signature_c P (build_c f robust P toy_junk) toy_junk (map Z.of_nat (seq 0 40))
         (repeat 0 (SPX_BYTES P)) [104; 105] sk = Some (0, sig, crypto_sign_bytes P, stream')
    /\ crypto_sign_verify_c P (build_c f robust P toy_junk) toy_junk sig (crypto_sign_bytes P) [104; 105] pk = Some 0.
Proof.
  intros f robust P H. destruct (shipped_small P H) as (Hwf & HN & Hb).
  assert (Ht : (CRYPTO_SEEDBYTES P <= 96)%nat) by (unfold CRYPTO_SEEDBYTES; lia).
  apply C76_honest; auto; try (rewrite ?map_length, ?seq_length, ?repeat_length); auto.
  - lia.
  - unfold SPX_PK_BYTES; lia.
  - unfold SPX_SK_BYTES, SPX_PK_BYTES; lia.
  - apply Forall_forall. intros x Hx. apply in_map_iff in Hx. destruct Hx as (i & <- & _).
    unfold is_byte. pose proof (Z.mod_pos_bound (Z.of_nat i) 251 eq_refl). lia.
  - apply Forall_forall. intros x Hx. apply in_map_iff in Hx. destruct Hx as (i & <- & Hi).
    apply in_seq in Hi. unfold is_byte. lia.
  - apply Forall_forall. intros x Hx. apply repeat_spec in Hx. subst. unfold is_byte. lia.
  - repeat constructor; unfold is_byte; lia.
  - cbn; lia.
Qed.
(** A signed message that is too short is refused by every build, and the buffer is filled with zeros. *)
Example C76_open_case : forall f robust P, In P all_params ->
  crypto_sign_open_c P (build_c f robust P toy_junk) toy_junk [7; 8; 9] [1; 2] 2 (repeat 5 (SPX_PK_BYTES P)) = Some (-1, [0; 0; 9], 0).
Proof.
  intros f robust P H. destruct (shipped_small P H) as (Hwf & HN & Hb).
  destruct (C76_open f robust P Hwf HN Hb toy_junk toy_junk [7; 8; 9] [1; 2] 2 (repeat 5 (SPX_PK_BYTES P))) as [_ B].
  - lia.
  - cbn; lia.
  - cbn; lia.
  - now rewrite repeat_length.
  - repeat constructor; unfold is_byte; lia.
  - apply Forall_forall. intros x Hx. apply repeat_spec in Hx. subst. unfold is_byte. lia.
  - apply B. intros [X _]. revert X. clear - H. apply Zlt_not_le.
    cbv [all_params In] in H. decompose [or] H; subst; try contradiction; reflexivity.
Qed.
Print Assumptions C76_keygen.
Print Assumptions C76_signature.
Print Assumptions C76_verify.
Print Assumptions C76_sign.
Print Assumptions C76_open.
Print Assumptions C76_honest.
Print Assumptions C76_forgery.
