(** C71: bounds of the shipped sets, what is undefined outside them, and the round trip of the C-typed core. *)
From Verif Require Import Base BaseFacts Params Address Suite Sign HashShake BuildSpec BuildProofs Refine ApiProofs ApiProofs2 CoreFacts3 CInt CCore CIntFacts CCoreProofs CCoreProofs2 CCoreProofs3.
Local Open Scope Z_scope.

Lemma shipped_small P : In P all_params -> wf_params P = true /\ (p_n P <= 32)%nat /\ Z.of_nat (SPX_BYTES P) < 2 ^ 31.
Proof.
  intros H. repeat (destruct H as [<-|H]; [split; [reflexivity|split; [cbn; lia|reflexivity]]|]). destruct H.
Qed.
Lemma height31 {G} P HS c junk (gen : G -> Z -> option (bytes * G)) e1 e2 auth addr g :
  treehashx1_c P HS c junk gen e1 e2 (K 31) auth addr g = None.
Proof.
  unfold treehashx1_c. destruct (asg U32 e1) as [?|]; [|reflexivity]. destruct (asg U32 e2) as [?|]; [|reflexivity]. cbn [bind].
  change (asg U32 (K 31)) with (Some 31). cbn [bind]. destruct (ix (V U32 31 * xN P)%C) as [?|]; reflexivity.
Qed.
Lemma one_layer P x : wf_params P = true -> p_d P = 1%nat ->
  asg U64 (V U64 x .& (Not (Cast U64 (K 0)) >> (K 64 - xTREE_BITS P)))%C = None.
Proof.
  intros Hwf Hd. pose proof (bnd_basic P Hwf) as B. pose proof (e_TREE_BITS P Hwf) as HT.
  assert (E0 : Z.of_nat (SPX_TREE_BITS P) = 0) by (unfold SPX_TREE_BITS; rewrite Hd; lia). rewrite E0 in HT.
  unfold asg. cbn [eval]. destruct (guard (in_range U64 x)); [|reflexivity]. cbn [bind].
  change (eval (Not (Cast U64 (K 0)))) with (Some (U64, 2 ^ 64 - 1)). destruct HT as [HT _].
  cbn [eval]. rewrite HT. reflexivity.
Qed.
Section R.
Variable f : family.
Variable robust : bool.
Variable P : params.
Hypothesis Hwf : wf_params P = true.
Hypothesis HN : (p_n P <= 32)%nat.
Hypothesis Hbig : Z.of_nat (SPX_BYTES P) < 2 ^ 31.
Lemma c_honest jh1 jh2 jh3 junk1 junk2 junk3 pk0 sk0 sig0 seed stream m :
  length seed = CRYPTO_SEEDBYTES P -> (p_n P <= length stream)%nat ->
  (SPX_PK_BYTES P <= length pk0)%nat -> (SPX_SK_BYTES P <= length sk0)%nat ->
  (SPX_BYTES P <= length sig0)%nat ->
  all_bytes seed -> all_bytes stream -> all_bytes sk0 -> all_bytes m -> Z.of_nat (length m) < 2 ^ 63 ->
  exists pk sk sig stream',
    crypto_sign_seed_keypair_c P (build f robust P jh1) junk1 pk0 sk0 seed = Some (0, pk, sk)
    /\ crypto_sign_signature_c P (build f robust P jh2) junk2 stream sig0 m sk
       = Some (0, sig, crypto_sign_bytes P, stream')
    /\ crypto_sign_verify_c P (build f robust P jh3) junk3 sig (crypto_sign_bytes P) m pk = Some 0.
Proof.
  intros H1 H2 H3 H4 H5 H6 H7 H8 H9 H10.
  destruct (build_honest f robust P Hwf HN jh1 jh2 jh3 junk1 junk2 junk3 pk0 sk0 sig0 seed stream m H1 H2 H3 H4 H5 H6 H7 H8 H9 H10)
    as (pk & sk & sig & st & E1 & E2 & E3).
  exists pk, sk, sig, st. split; [|split].
  - now rewrite (seed_keypair_c_ok P _ Hwf Hbig).
  - now rewrite (signature_c_ok P _ Hwf Hbig (build_ok f robust P jh2 Hwf HN)).
  - rewrite (verify_c_ok P _ Hwf Hbig (build_ok f robust P jh3 Hwf HN)); [exact E3|]. unfold crypto_sign_bytes. lia.
Qed.
End R.
