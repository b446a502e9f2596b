(** The builds of ref/: C01, C04, C12, C27, C39 with no hypothesis about the hash functions left.
    Theorems only.

    [build f robust P jh] is the code of one build (a family, simple or robust, a parameter set), with
    [jh] the contents of the uninitialised arrays of its hash code; [spec_T] .. [spec_Hm] are the
    functions the SPHINCS+ specification prescribes, built on FIPS 202, FIPS 180-4 or Haraka v2. *)
From Verif Require Import Base Params Suite Sign Spec Refine BuildSpec BuildProofs SignProofs ApiProofs ApiProofs2 Toy.

(** The hypotheses on the parameters hold for every shipped parameter set. *)
Theorem C45_shipped_params : forall P, In P all_params -> wf_params P = true /\ (p_n P <= 32)%nat.
Proof.
  intros P H. repeat (destruct H as [<-|H]; [split; [reflexivity|cbn; lia]|]). destruct H.
Qed.

Section Builds.
Variable f : family.
Variable robust : bool.
Variable P : params.
Notation N := (p_n P).
Notation D := (dims_of P).
Notation SB := (SPX_BYTES P).
Hypothesis Hwf : wf_params P = true.
Hypothesis HN : (N <= 32)%nat.

(** The hypothesis [suite_ok] of every theorem of Prop_Api.v, Prop_Trees.v, Prop_Wots.v, Prop_Fors.v
    and Prop_Index.v holds of every build. *)
Theorem C39_build_ok : forall jh, suite_ok P (build f robust P jh).
Proof. exact (fun jh => build_ok f robust P jh Hwf HN). Qed.

(** C01 for the builds: honest signatures verify, whatever the uninitialised memory of the three
    programs holds. *)
Theorem C01_builds : forall jh1 jh2 jh3 junk1 junk2 junk3 pk0 sk0 sig0 seed stream m,
  length seed = CRYPTO_SEEDBYTES P -> (N <= length stream)%nat ->
  (SPX_PK_BYTES P <= length pk0)%nat -> (SPX_SK_BYTES P <= length sk0)%nat ->
  (SB <= length sig0)%nat ->
  all_bytes seed -> all_bytes stream -> all_bytes sk0 -> all_bytes m -> Z.of_nat (length m) < 2 ^ 63 ->
  exists pk sk sig stream',
    crypto_sign_seed_keypair P (build f robust P jh1) junk1 pk0 sk0 seed = Some (0, pk, sk)
    /\ crypto_sign_signature P (build f robust P jh2) junk2 stream sig0 m sk
       = Some (0, sig, crypto_sign_bytes P, stream')
    /\ crypto_sign_verify P (build f robust P jh3) junk3 sig (crypto_sign_bytes P) m pk = Some 0.
Proof. exact (build_honest f robust P Hwf HN). Qed.

(** C04, C12: key generation. *)
Theorem C12_build_keygen : forall seed, length seed = CRYPTO_SEEDBYTES P -> all_bytes seed ->
  let ss := firstn N seed in
  let ps := skipn (2 * N) seed in
  let root := ht_root D (spec_T f N robust ps) (spec_PRF f N ps ss) in
  length root = N /\ forall jh junk pk0 sk0,
    (SPX_PK_BYTES P <= length pk0)%nat -> (SPX_SK_BYTES P <= length sk0)%nat ->
    crypto_sign_seed_keypair P (build f robust P jh) junk pk0 sk0 seed
    = Some (0, ps ++ root ++ skipn (SPX_PK_BYTES P) pk0, seed ++ root ++ skipn (SPX_SK_BYTES P) sk0).
Proof. exact (build_keygen f robust P Hwf HN). Qed.

(** C12: signing. *)
Theorem C12_build_sign : forall jh junk stream sig0 m sk,
  (SPX_SK_BYTES P <= length sk)%nat -> (N <= length stream)%nat -> (SB <= length sig0)%nat ->
  all_bytes sk -> all_bytes stream -> all_bytes m -> Z.of_nat (length m) < 2 ^ 63 ->
  let s := spx_sign D (spec_T f N robust) (spec_PRF f N) (spec_Rnd f N) (spec_Hm f N D)
             (firstn N sk) (firstn N (skipn N sk)) (firstn N (skipn (2 * N) sk))
             (firstn N (skipn (3 * N) sk)) (firstn N stream) m in
  crypto_sign_signature P (build f robust P jh) junk stream sig0 m sk
  = Some (0, s ++ skipn SB sig0, Z.of_nat SB, skipn N stream)
  /\ length s = SB.
Proof. exact (build_signature f robust P Hwf HN). Qed.

(** C12, C27: verification. *)
Theorem C12_build_verify : forall jh junk sig siglen m pk,
  (siglen = Z.of_nat SB -> (SB <= length sig)%nat) -> (SPX_PK_BYTES P <= length pk)%nat ->
  all_bytes sig -> all_bytes pk -> all_bytes m -> Z.of_nat (length m) < 2 ^ 63 ->
  exists r, crypto_sign_verify P (build f robust P jh) junk sig siglen m pk = Some r /\ (r = 0 \/ r = -1)
    /\ (r = 0 <-> siglen = Z.of_nat SB
          /\ spx_verify D (spec_T f N robust) (spec_Hm f N D) (firstn N pk) (firstn N (skipn N pk)) m
               (firstn SB sig)).
Proof. exact (build_verification f robust P Hwf HN). Qed.
End Builds.

(** The hypotheses met: SPHINCS+-SHAKE-256f-robust, and any other build of the shipped parameter
    sets, on a concrete seed, random stream and message. *)
Example C01_builds_case : forall f robust P, In P all_params ->
  exists pk sk sig stream',
    crypto_sign_seed_keypair P (build f robust P toy_junk) toy_junk (repeat 0 64) (repeat 0 128)
      (map (fun i => Z.of_nat i mod 251) (seq 0 (CRYPTO_SEEDBYTES P))) = Some (0, pk, sk)
    /\ crypto_sign_signature P (build f robust P toy_junk) toy_junk (map Z.of_nat (seq 0 40))
         (repeat 0 (SPX_BYTES P)) [104; 105] sk = Some (0, sig, crypto_sign_bytes P, stream')
    /\ crypto_sign_verify P (build f robust P toy_junk) toy_junk sig (crypto_sign_bytes P) [104; 105] pk
       = Some 0.
Proof.
  intros f robust P H. destruct (C45_shipped_params P H) as [Hwf HN].
  assert (Ht : (CRYPTO_SEEDBYTES P <= 96)%nat) by (unfold CRYPTO_SEEDBYTES; lia).
  apply C01_builds; auto; try (rewrite ?map_length, ?seq_length, ?repeat_length); auto.
  - lia.
  - unfold SPX_PK_BYTES; lia.
  - unfold SPX_SK_BYTES, SPX_PK_BYTES; lia.
  - apply Forall_forall. intros x Hx. apply in_map_iff in Hx. destruct Hx as (i & <- & _).
    unfold is_byte. pose proof (Z.mod_pos_bound (Z.of_nat i) 251 eq_refl). lia.
  - apply Forall_forall. intros x Hx. apply in_map_iff in Hx. destruct Hx as (i & <- & Hi).
    apply in_seq in Hi. unfold is_byte. lia.
  - apply Forall_forall. intros x Hx. apply repeat_spec in Hx. subst. unfold is_byte. lia.
  - repeat constructor; unfold is_byte; lia.
  - cbn; lia.
Qed.

Print Assumptions C45_shipped_params.
Print Assumptions C39_build_ok.
Print Assumptions C01_builds.
Print Assumptions C12_build_keygen.
Print Assumptions C12_build_sign.
Print Assumptions C12_build_verify.
