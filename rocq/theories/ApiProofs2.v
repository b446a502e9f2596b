(** More statements about the public API, in the form used by the property files. *)
From Verif Require Import Base BaseFacts Params Address Suite Utils Wots Fors Merkle Sign
  Spec SpecFacts SpecExt AdrsEnc
  AddressProofs Refine TreeProofs WotsDigitsProofs WotsProofs ForsProofs MerkleProofs SignProofs
  ApiProofs.

Section Api.
Variable P : params.
Variable HS : suite.
Notation N := (p_n P).
Notation D := (dims_of P).
Hypothesis Hwf : wf_params P = true.
Hypothesis Hok : suite_ok P HS.
Notation Th := (codeTh P HS).
Notation Prf := (codePrf HS).
Notation Rnd := (codeRnd P HS).
Notation Hm := (codeHm P HS).

(** Key generation: the keys are a function of the seed. *)
Theorem keygen_function seed :
  length seed = CRYPTO_SEEDBYTES P ->
  let ss := firstn N seed in
  let ps := skipn (2 * N) seed in
  exists root, root = ht_root D (Th ps) (Prf ps ss) /\ length root = N
    /\ forall junk pk0 sk0,
         (SPX_PK_BYTES P <= length pk0)%nat -> (SPX_SK_BYTES P <= length sk0)%nat ->
         crypto_sign_seed_keypair P HS junk pk0 sk0 seed
         = Some (0, ps ++ root ++ skipn (SPX_PK_BYTES P) pk0,
                 seed ++ root ++ skipn (SPX_SK_BYTES P) sk0).
Proof.
  intros Hseed. destruct (seed_split P seed Hseed) as (ss & sp & ps & -> & Hs & Hp & Hu).
  cbn zeta. rewrite firstn_app_len by auto.
  rewrite (app_assoc ss sp), skipn_app_len by (rewrite app_length; lia).
  exists (ht_root D (Th ps) (Prf ps ss)). split; [reflexivity|].
  split. { apply (root_length P HS Hwf Hok ss ps Hs Hu). }
  intros junk pk0 sk0 Hpk Hsk. rewrite <- app_assoc. rewrite seed_keypair_ok by auto.
  unfold spx_pk, spx_sk, spx_root. rewrite <- !app_assoc. reflexivity.
Qed.

(** crypto_sign_keypair is crypto_sign_seed_keypair on the first 3N bytes of the stream. *)
Theorem keypair_fresh junk stream pk0 sk0 :
  (CRYPTO_SEEDBYTES P <= length stream)%nat ->
  (SPX_PK_BYTES P <= length pk0)%nat -> (SPX_SK_BYTES P <= length sk0)%nat ->
  exists pk sk,
    crypto_sign_seed_keypair P HS junk pk0 sk0 (firstn (CRYPTO_SEEDBYTES P) stream) = Some (0, pk, sk)
    /\ crypto_sign_keypair P HS junk stream pk0 sk0
       = Some (0, pk, sk, skipn (CRYPTO_SEEDBYTES P) stream).
Proof.
  intros Hst Hpk Hsk.
  assert (Hl : length (firstn (CRYPTO_SEEDBYTES P) stream) = CRYPTO_SEEDBYTES P)
    by (rewrite firstn_length; lia).
  destruct (keygen_function _ Hl) as (root & _ & _ & E).
  rewrite (E junk pk0 sk0 Hpk Hsk). do 2 eexists. split; [reflexivity|].
  unfold crypto_sign_keypair, randombytes.
  rewrite rd_ok by lia. cbn [bind skipn]. rewrite (E junk pk0 sk0 Hpk Hsk). cbn [bind].
  reflexivity.
Qed.

(** With fewer bytes available the model reports failure: exactly 3N bytes are needed. *)
Theorem keypair_needs_seed junk stream pk0 sk0 :
  (length stream < CRYPTO_SEEDBYTES P)%nat -> crypto_sign_keypair P HS junk stream pk0 sk0 = None.
Proof.
  clear. intros H. unfold crypto_sign_keypair, randombytes, rd.
  destruct (Nat.leb_spec (0 + CRYPTO_SEEDBYTES P) (length stream)); [lia|reflexivity].
Qed.

(** The signature is a function of the key bytes, the message and the N random bytes. *)
Theorem signature_function m sk optrand :
  (SPX_SK_BYTES P <= length sk)%nat -> length optrand = N ->
  exists s, length s = SPX_BYTES P
    /\ forall junk sig0 rest, (SPX_BYTES P <= length sig0)%nat ->
         crypto_sign_signature P HS junk (optrand ++ rest) sig0 m sk
         = Some (0, s ++ skipn (SPX_BYTES P) sig0, crypto_sign_bytes P, rest).
Proof.
  intros Hsk Ho.
  exists (spx_sign D Th Prf Rnd Hm (firstn N sk) (firstn N (skipn N sk))
            (firstn N (skipn (2 * N) sk)) (firstn N (skipn (3 * N) sk)) optrand m).
  split.
  - destruct (signature_spec P HS Hwf Hok (fun _ _ => 0) optrand (repeat 0 (SPX_BYTES P)) m sk Hsk)
      as [_ E]; [lia|rewrite repeat_length; lia|]. rewrite (firstn_all2 optrand) in E by lia. exact E.
  - intros junk sig0 rest Hs.
    destruct (signature_spec P HS Hwf Hok junk (optrand ++ rest) sig0 m sk Hsk) as [E _];
      [rewrite app_length; lia|exact Hs|].
    rewrite firstn_app_len, skipn_app_len in E by auto. exact E.
Qed.

(** Histories: every signature produced in any session verifies, and equals the signature a single
    call would produce from its own N random bytes. *)
Theorem session_verifies junk junks junkv pk0 sk0 seed opts rest reqs :
  length seed = CRYPTO_SEEDBYTES P ->
  (SPX_PK_BYTES P <= length pk0)%nat -> (SPX_SK_BYTES P <= length sk0)%nat ->
  Forall (fun o => length o = N) opts -> length opts = length reqs ->
  Forall (fun q => (SPX_BYTES P <= length (fst q))%nat) reqs ->
  exists pk sk outs,
    crypto_sign_seed_keypair P HS junk pk0 sk0 seed = Some (0, pk, sk)
    /\ sign_session P HS junks 0 sk reqs (concat opts ++ rest) = Some (outs, rest)
    /\ length outs = length reqs
    /\ forall i o buf m, nth_error opts i = Some o -> nth_error reqs i = Some (buf, m) ->
         exists sig, nth_error outs i = Some (0, sig, crypto_sign_bytes P)
           /\ crypto_sign_signature P HS (junks i) o buf m sk = Some (0, sig, crypto_sign_bytes P, [])
           /\ crypto_sign_verify P HS junkv sig (crypto_sign_bytes P) m pk = Some 0.
Proof.
  intros Hseed Hpk Hsk Hop Hl Hb.
  destruct (seed_split P seed Hseed) as (ss & sp & ps & -> & Hs & Hp & Hu).
  set (pk := spx_pk D Th Prf ss ps ++ skipn (SPX_PK_BYTES P) pk0).
  set (sk := spx_sk D Th Prf ss sp ps ++ skipn (SPX_SK_BYTES P) sk0).
  assert (Hroot := root_length P HS Hwf Hok ss ps Hs Hu).
  assert (Hskl : (SPX_SK_BYTES P <= length sk)%nat).
  { unfold sk, spx_sk. rewrite !app_length. unfold SPX_SK_BYTES, SPX_PK_BYTES. lia. }
  eexists pk, sk, _. rewrite seed_keypair_ok by auto. split; [reflexivity|].
  split; [apply (session_spec P HS Hwf Hok junks 0 sk reqs opts rest Hskl Hop Hl Hb)|].
  split. { rewrite map_length, combine_length. lia. }
  intros i o buf m Eo Eq.
  assert (Hlo : length o = N).
  { rewrite Forall_forall in Hop. apply Hop. eapply nth_error_In; eauto. }
  assert (Hlb : (SPX_BYTES P <= length buf)%nat).
  { rewrite Forall_forall in Hb. apply (Hb (buf, m)). eapply nth_error_In; eauto. }
  assert (Ec : nth_error (combine opts reqs) i = Some (o, (buf, m))).
  { clear - Eo Eq. revert i reqs Eo Eq. induction opts as [|a opts IH]; intros [|i] [|b reqs] Eo Eq;
      cbn in *; try discriminate.
    - congruence.
    - now apply IH. }
  match goal with |- context [map ?f _] => pose proof (map_nth_error f _ _ Ec) as Em end.
  cbn [fst snd] in Em. eexists. split; [exact Em|].
  destruct (signature_spec P HS Hwf Hok (junks i) o buf m sk Hskl) as [E _]; [lia|exact Hlb|].
  rewrite (firstn_all2 o), (skipn_all2 o) in E by lia. split; [exact E|].
  unfold sk, spx_sk in E. rewrite <- !app_assoc in E.
  rewrite <- (app_nil_r o) in E at 1.
  rewrite sign_signature_ok in E by auto.
  match type of E with Some (0, ?a, _, _) = Some (0, ?b, _, _) =>
    assert (E' : a = b) by congruence end.
  unfold sk, spx_sk. rewrite <- !app_assoc. rewrite <- E'.
  unfold crypto_sign_bytes, pk. now apply honest_accepts.
Qed.

(** No access outside a buffer: every entry point returns. *)
Theorem api_total :
  (forall junk pk0 sk0 seed, length seed = CRYPTO_SEEDBYTES P ->
     (SPX_PK_BYTES P <= length pk0)%nat -> (SPX_SK_BYTES P <= length sk0)%nat ->
     crypto_sign_seed_keypair P HS junk pk0 sk0 seed <> None)
  /\ (forall junk stream pk0 sk0, (CRYPTO_SEEDBYTES P <= length stream)%nat ->
     (SPX_PK_BYTES P <= length pk0)%nat -> (SPX_SK_BYTES P <= length sk0)%nat ->
     crypto_sign_keypair P HS junk stream pk0 sk0 <> None)
  /\ (forall junk stream sig0 m sk, (SPX_SK_BYTES P <= length sk)%nat -> (N <= length stream)%nat ->
     (SPX_BYTES P <= length sig0)%nat ->
     crypto_sign_signature P HS junk stream sig0 m sk <> None)
  /\ (forall junk sig siglen m pk,
     (siglen = Z.of_nat (SPX_BYTES P) -> (SPX_BYTES P <= length sig)%nat) ->
     (SPX_PK_BYTES P <= length pk)%nat -> crypto_sign_verify P HS junk sig siglen m pk <> None)
  /\ (forall junk stream sm0 m sk, (SPX_SK_BYTES P <= length sk)%nat -> (N <= length stream)%nat ->
     (SPX_BYTES P + length m <= length sm0)%nat ->
     crypto_sign P HS junk stream sm0 m sk <> None)
  /\ (forall junk m0 sm smlen pk, 0 <= smlen -> smlen <= Z.of_nat (length sm) ->
     smlen <= Z.of_nat (length m0) -> (SPX_PK_BYTES P <= length pk)%nat ->
     crypto_sign_open P HS junk m0 sm smlen pk <> None).
Proof.
  split; [|split; [|split; [|split; [|split]]]].
  - intros junk pk0 sk0 seed Hs Hp Hk E.
    destruct (keygen_function seed Hs) as (root & _ & _ & H). rewrite H in E by assumption. discriminate.
  - intros junk stream pk0 sk0 Hs Hp Hk E.
    destruct (keypair_fresh junk stream pk0 sk0 Hs Hp Hk) as (pk & sk & _ & H). congruence.
  - intros junk stream sig0 m sk Hk Hst Hs E.
    destruct (signature_spec P HS Hwf Hok junk stream sig0 m sk Hk Hst Hs) as [H _]. congruence.
  - intros junk sig siglen m pk Hs Hp E.
    destruct (verify_total P HS Hwf Hok junk sig siglen m pk Hs Hp) as (r & H & _). congruence.
  - intros junk stream sm0 m sk Hk Hst Hs. unfold crypto_sign.
    rewrite rd_ok by lia. cbn [bind skipn].
    destruct (signature_spec P HS Hwf Hok junk stream (firstn (SPX_BYTES P) sm0) m sk Hk Hst) as [H Hl].
    { rewrite firstn_length. lia. }
    rewrite H. cbn [bind]. rewrite (skipn_all2 (firstn _ _)) by (rewrite firstn_length; lia).
    rewrite app_nil_r.
    set (s := spx_sign D _ _ _ _ _ _ _ _ _ _) in *. fold s in Hl.
    rewrite wr_ok by lia. cbn [bind].
    rewrite wr_ok; [cbn [bind]; discriminate|].
    rewrite !app_length, skipn_length. cbn [firstn length]. lia.
  - intros junk m0 sm smlen pk H0 H1 H2 Hp E.
    destruct (open_spec P HS Hwf Hok junk m0 sm smlen pk H0 H1 H2 Hp) as [Hg Hb].
    destruct (Z_lt_le_dec smlen (Z.of_nat (SPX_BYTES P))) as [Hlt|Hge].
    + rewrite Hb in E by lia. discriminate.
    + destruct (verify_total P HS Hwf Hok junk (firstn (SPX_BYTES P) sm) (Z.of_nat (SPX_BYTES P))
                  (firstn (Z.to_nat smlen - SPX_BYTES P) (skipn (SPX_BYTES P) sm)) pk)
        as (r & Er & Hr & _); [rewrite firstn_length; lia|exact Hp|].
      destruct (Z.eq_dec r 0) as [->|Hne].
      * specialize (Hg (conj Hge Er)). congruence.
      * assert (Hng : ~ (Z.of_nat (SPX_BYTES P) <= smlen /\
          crypto_sign_verify P HS junk (firstn (SPX_BYTES P) sm) (Z.of_nat (SPX_BYTES P))
            (firstn (Z.to_nat smlen - SPX_BYTES P) (skipn (SPX_BYTES P) sm)) pk = Some 0))
          by (intros [_ E2]; congruence).
        specialize (Hb Hng). congruence.
Qed.
End Api.
