(** The typed core linked with the typed hash functions computes the specification. *)
From Verif Require Import ShakeProofs HashSha2Proofs Base BaseFacts Params Address Suite Spec Refine BuildSpec Sign ApiProofs BuildProofs ForgeSpec ForgeCode CInt CCore CCoreProofs2 CCoreCases CBuild CBuildProofs.
Section Api.
Variable f : family.
Variable robust : bool.
Variable P : params.
Notation N := (p_n P).
Notation D := (dims_of P).
Notation SB := (SPX_BYTES P).
Hypothesis Hwf : wf_params P = true.
Hypothesis HN : (N <= 32)%nat.
Hypothesis Hbig : Z.of_nat SB < 2 ^ 31.
Notation T := (spec_T f N robust).
Notation PRF := (spec_PRF f N).
Notation HC jh := (build_c_computes f robust P jh Hwf HN Hbig).
Notation HS jh := (build_c f robust P jh).

Theorem cb_keygen jh seed : length seed = CRYPTO_SEEDBYTES P -> all_bytes seed ->
  let ss := firstn N seed in
  let ps := skipn (2 * N) seed in
  let root := ht_root D (T ps) (PRF ps ss) in
  length root = N /\ forall junk pk0 sk0,
    (SPX_PK_BYTES P <= length pk0)%nat -> (SPX_SK_BYTES P <= length sk0)%nat ->
    crypto_sign_seed_keypair_c P (HS jh) junk pk0 sk0 seed
    = Some (0, ps ++ root ++ skipn (SPX_PK_BYTES P) pk0, seed ++ root ++ skipn (SPX_SK_BYTES P) sk0).
Proof.
  intros L B ss ps root. destruct (any_keygen f robust P (HS jh) Hwf HN (HC jh) seed L B) as [Lr H]. split; [exact Lr|].
  intros junk pk0 sk0 H1 H2. rewrite (seed_keypair_c_ok P _ Hwf Hbig). now apply H.
Qed.
Theorem cb_signature jh junk stream sig0 m sk :
  (SPX_SK_BYTES P <= length sk)%nat -> (N <= length stream)%nat -> (SB <= length sig0)%nat ->
  all_bytes sk -> all_bytes stream -> all_bytes m -> Z.of_nat (length m) < 2 ^ 63 ->
  let s := spx_sign D T PRF (spec_Rnd f N) (spec_Hm f N D)
             (firstn N sk) (firstn N (skipn N sk)) (firstn N (skipn (2 * N) sk))
             (firstn N (skipn (3 * N) sk)) (firstn N stream) m in
  crypto_sign_signature_c P (HS jh) junk stream sig0 m sk = Some (0, s ++ skipn SB sig0, Z.of_nat SB, skipn N stream)
  /\ length s = SB.
Proof.
  intros. rewrite (signature_c_ok P _ Hwf Hbig (cp_ok _ _ _ _ (HC jh))). now apply (any_signature f robust P (HS jh) Hwf HN (HC jh)).
Qed.
Theorem cb_verify jh junk sig siglen m pk : 0 <= siglen < 2 ^ 64 ->
  (siglen = Z.of_nat SB -> (SB <= length sig)%nat) -> (SPX_PK_BYTES P <= length pk)%nat ->
  all_bytes sig -> all_bytes pk -> all_bytes m -> Z.of_nat (length m) < 2 ^ 63 ->
  exists r, crypto_sign_verify_c P (HS jh) junk sig siglen m pk = Some r /\ (r = 0 \/ r = -1)
    /\ (r = 0 <-> siglen = Z.of_nat SB
          /\ spx_verify D T (spec_Hm f N D) (firstn N pk) (firstn N (skipn N pk)) m (firstn SB sig)).
Proof.
  intros. rewrite (verify_c_ok P _ Hwf Hbig (cp_ok _ _ _ _ (HC jh))) by assumption. now apply (any_verification f robust P (HS jh) Hwf HN (HC jh)).
Qed.
Theorem cb_sign jh junk stream sm0 m sk :
  (SPX_SK_BYTES P <= length sk)%nat -> (N <= length stream)%nat -> (SB + length m <= length sm0)%nat ->
  all_bytes sk -> all_bytes stream -> all_bytes m -> Z.of_nat (length m) < 2 ^ 63 ->
  let s := spx_sign D T PRF (spec_Rnd f N) (spec_Hm f N D)
             (firstn N sk) (firstn N (skipn N sk)) (firstn N (skipn (2 * N) sk))
             (firstn N (skipn (3 * N) sk)) (firstn N stream) m in
  crypto_sign_c P (HS jh) junk stream sm0 m sk
  = Some (0, s ++ m ++ skipn (SB + length m) sm0, Z.of_nat (SB + length m), skipn N stream).
Proof.
  intros H1 H2 H3 B1 B2 B3 Lm s. pose proof (cp_ok _ _ _ _ (HC jh)) as Hok.
  assert (L64 : Z.of_nat (SB + length m) < 2 ^ 64) by lia.
  rewrite (sign_c_ok P _ Hwf Hbig Hok) by lia.
  destruct (crypto_sign_spec P (HS jh) Hwf Hok junk stream sm0 m sk H1 H2 H3 L64) as (s' & E & Ls & Es).
  rewrite E. destruct (any_signature f robust P (HS jh) Hwf HN (HC jh) junk stream (firstn SB sm0) m sk H1 H2) as [E2 L2]; auto;
    [rewrite firstn_length; lia|].
  rewrite E2 in Es. injection Es as Es. rewrite (skipn_all2 (firstn SB sm0)) in Es by (rewrite firstn_length; lia). rewrite app_nil_r in Es. now rewrite <- Es.
Qed.
Theorem cb_open jh junk m0 sm smlen pk : 0 <= smlen < 2 ^ 63 ->
  smlen <= Z.of_nat (length sm) -> smlen <= Z.of_nat (length m0) -> (SPX_PK_BYTES P <= length pk)%nat -> all_bytes sm -> all_bytes pk ->
  let msg := firstn (Z.to_nat smlen - SB) (skipn SB sm) in
  let good := Z.of_nat SB <= smlen
    /\ spx_verify D T (spec_Hm f N D) (firstn N pk) (firstn N (skipn N pk)) msg (firstn SB sm) in
  (good -> crypto_sign_open_c P (HS jh) junk m0 sm smlen pk
           = Some (0, msg ++ skipn (Z.to_nat smlen - SB) m0, smlen - Z.of_nat SB))
  /\ (~ good -> crypto_sign_open_c P (HS jh) junk m0 sm smlen pk
           = Some (-1, repeat 0 (Z.to_nat smlen) ++ skipn (Z.to_nat smlen) m0, 0)).
Proof.
  intros H0 H1 H2 Hpk Bs Bp msg good. pose proof (cp_ok _ _ _ _ (HC jh)) as Hok.
  rewrite (open_c_ok P _ Hwf Hbig Hok) by lia.
  destruct (open_spec P (HS jh) Hwf Hok junk m0 sm smlen pk) as [G B]; try lia. fold msg in G, B.
  assert (Bm : all_bytes msg) by (apply all_firstn, all_skipn', Bs).
  assert (Lm : Z.of_nat (length msg) < 2 ^ 63) by (unfold msg; rewrite firstn_length; lia).
  assert (I : Z.of_nat SB <= smlen -> (crypto_sign_verify P (HS jh) junk (firstn SB sm) (Z.of_nat SB) msg pk = Some 0
    <-> spx_verify D T (spec_Hm f N D) (firstn N pk) (firstn N (skipn N pk)) msg (firstn SB sm))).
  { intros Hs. destruct (any_verification f robust P (HS jh) Hwf HN (HC jh) junk (firstn SB sm) (Z.of_nat SB) msg pk) as (r & E & _ & R); auto.
    { intros _. rewrite firstn_length. lia. }
    { now apply all_firstn. }
    rewrite firstn_firstn, Nat.min_id in R. rewrite E. split.
    - intros X. injection X as X. now apply R.
    - intros X. f_equal. now apply R. }
  split.
  - intros [X Y]. apply G. split; [exact X|]. now apply (I X).
  - intros X. apply B. intros [Y Z]. apply X. split; [exact Y|]. now apply (I Y).
Qed.
Theorem cb_honest jh1 jh2 jh3 junk1 junk2 junk3 pk0 sk0 sig0 seed stream m :
  length seed = CRYPTO_SEEDBYTES P -> (N <= length stream)%nat ->
  (SPX_PK_BYTES P <= length pk0)%nat -> (SPX_SK_BYTES P <= length sk0)%nat -> (SB <= length sig0)%nat ->
  all_bytes seed -> all_bytes stream -> all_bytes sk0 -> all_bytes m -> Z.of_nat (length m) < 2 ^ 63 ->
  exists pk sk sig stream',
    crypto_sign_seed_keypair_c P (HS jh1) junk1 pk0 sk0 seed = Some (0, pk, sk)
    /\ crypto_sign_signature_c P (HS jh2) junk2 stream sig0 m sk = Some (0, sig, crypto_sign_bytes P, stream')
    /\ crypto_sign_verify_c P (HS jh3) junk3 sig (crypto_sign_bytes P) m pk = Some 0.
Proof.
  intros H1 H2 H3 H4 H5 H6 H7 H8 H9 H10.
  destruct (any_honest f robust P Hwf HN (HS jh1) (HS jh2) (HS jh3) (HC jh1) (HC jh2) (HC jh3) junk1 junk2 junk3 pk0 sk0 sig0 seed stream m
    H1 H2 H3 H4 H5 H6 H7 H8 H9 H10) as (pk & sk & sig & st & E1 & E2 & E3).
  exists pk, sk, sig, st. split; [|split].
  - now rewrite (seed_keypair_c_ok P _ Hwf Hbig).
  - now rewrite (signature_c_ok P _ Hwf Hbig (cp_ok _ _ _ _ (HC jh2))).
  - rewrite (verify_c_ok P _ Hwf Hbig (cp_ok _ _ _ _ (HC jh3))); [exact E3|]. unfold crypto_sign_bytes. lia.
Qed.
Theorem cb_forgery jh1 jh2 junk1 junk2 pk0 sk0 pk sk seed sig siglen m :
  length seed = CRYPTO_SEEDBYTES P ->
  (SPX_PK_BYTES P <= length pk0)%nat -> (SPX_SK_BYTES P <= length sk0)%nat ->
  all_bytes seed -> all_bytes sig -> all_bytes m -> Z.of_nat (length m) < 2 ^ 63 -> 0 <= siglen < 2 ^ 64 ->
  crypto_sign_seed_keypair_c P (HS jh1) junk1 pk0 sk0 seed = Some (0, pk, sk) ->
  (siglen = Z.of_nat SB -> (SB <= length sig)%nat) ->
  crypto_sign_verify_c P (HS jh2) junk2 sig siglen m pk = Some 0 ->
  let T := T (skipn (2 * N) seed) in
  let PRF := PRF (skipn (2 * N) seed) (firstn N seed) in
  exists md tree leaf,
    spec_Hm f N D (skipn (2 * N) seed) (firstn N sig) (firstn (2 * N) pk) m = (md, tree, leaf)
    /\ (firstn SB sig = firstn N sig ++ concat (spx_sign_body D T PRF md tree leaf)
        \/ break_in D T PRF (verify_calls D T md tree leaf (sig_body P sig))).
Proof.
  intros H1 H2 H3 H4 H5 H6 H7 H8 E1 H9 E2. rewrite (seed_keypair_c_ok P _ Hwf Hbig) in E1.
  rewrite (verify_c_ok P _ Hwf Hbig (cp_ok _ _ _ _ (HC jh2))) in E2 by assumption.
  exact (any_forgery f robust P Hwf HN (HS jh1) (HS jh2) (HC jh1) (HC jh2) junk1 junk2 pk0 sk0 pk sk seed sig siglen m H1 H2 H3 H4 H5 H6 H7 E1 H9 E2).
Qed.
End Api.
