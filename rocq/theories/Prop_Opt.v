(** The implementations as a whole: C42 for the code of the four vector directories and the reference
    code (given lane-wise hash functions: Prop_Lanes.v), C54, C55, C56.  Theorems only.

    [impl] is a reference build or a vector directory, [u] is what uninitialised memory holds in one run,
    [i_seed_keypair] .. [i_open] are the API functions (api.h) and [i_ok i P] says which parameters the
    implementation is for. *)
From Verif Require Import Base Params Suite Sign Spec Refine BuildSpec BuildProofs ForgeSpec ForgeCode SignProofs ApiProofs ApiProofs2 Toy
  OptBuild OptProofs OptForge.

(** Every shipped parameter set is one every implementation is for. *)
Theorem C42_impl_params : forall i P, In P all_params -> i_ok i P.
Proof. exact i_params. Qed.

(** ** Any two implementations of one family: the same keys, signatures, verdicts, messages *)
Section Two.
Variables i1 i2 : impl.
Variable robust : bool.
Variable P : params.
Variables u1 u2 : uninit.
Hypothesis H1 : i_ok i1 P.
Hypothesis H2 : i_ok i2 P.
Hypothesis Hf : i_family i1 = i_family i2.

Theorem C42_impl_seed_keypair : forall pk0 sk0 seed, length seed = CRYPTO_SEEDBYTES P -> all_bytes seed ->
  (SPX_PK_BYTES P <= length pk0)%nat -> (SPX_SK_BYTES P <= length sk0)%nat ->
  i_seed_keypair i1 robust P u1 pk0 sk0 seed = i_seed_keypair i2 robust P u2 pk0 sk0 seed.
Proof. exact (two_seed_keypair i1 i2 robust P u1 u2 H1 H2 Hf). Qed.
Theorem C42_impl_keypair : forall stream pk0 sk0, all_bytes stream ->
  (SPX_PK_BYTES P <= length pk0)%nat -> (SPX_SK_BYTES P <= length sk0)%nat ->
  i_keypair i1 robust P u1 stream pk0 sk0 = i_keypair i2 robust P u2 stream pk0 sk0.
Proof. exact (two_keypair i1 i2 robust P u1 u2 H1 H2 Hf). Qed.
Theorem C42_impl_signature : forall stream sig0 m sk,
  (SPX_SK_BYTES P <= length sk)%nat -> (p_n P <= length stream)%nat -> (SPX_BYTES P <= length sig0)%nat ->
  all_bytes sk -> all_bytes stream -> all_bytes m -> Z.of_nat (length m) < 2 ^ 63 ->
  i_signature i1 robust P u1 stream sig0 m sk = i_signature i2 robust P u2 stream sig0 m sk.
Proof. exact (two_signature i1 i2 robust P u1 u2 H1 H2 Hf). Qed.
Theorem C42_impl_verify : forall sig siglen m pk,
  (siglen = Z.of_nat (SPX_BYTES P) -> (SPX_BYTES P <= length sig)%nat) -> (SPX_PK_BYTES P <= length pk)%nat ->
  all_bytes sig -> all_bytes pk -> all_bytes m -> Z.of_nat (length m) < 2 ^ 63 ->
  i_verify i1 robust P u1 sig siglen m pk = i_verify i2 robust P u2 sig siglen m pk.
Proof. exact (two_verify i1 i2 robust P u1 u2 H1 H2 Hf). Qed.
Theorem C42_impl_sign : forall stream sm0 m sk,
  (SPX_SK_BYTES P <= length sk)%nat -> (p_n P <= length stream)%nat ->
  all_bytes sk -> all_bytes stream -> all_bytes m -> Z.of_nat (length m) < 2 ^ 63 ->
  i_sign i1 robust P u1 stream sm0 m sk = i_sign i2 robust P u2 stream sm0 m sk.
Proof. exact (two_sign i1 i2 robust P u1 u2 H1 H2 Hf). Qed.
Theorem C42_impl_open : forall m0 sm smlen pk,
  (SPX_PK_BYTES P <= length pk)%nat -> all_bytes sm -> all_bytes pk -> smlen < 2 ^ 63 ->
  i_open i1 robust P u1 m0 sm smlen pk = i_open i2 robust P u2 m0 sm smlen pk.
Proof. exact (two_open i1 i2 robust P u1 u2 H1 H2 Hf). Qed.
End Two.

(** ** C54: keys made, messages signed and signatures verified by any three implementations *)
Theorem C54_impls : forall i1 i2 i3 robust P u1 u2 u3, i_ok i1 P -> i_ok i2 P -> i_ok i3 P ->
  i_family i1 = i_family i2 -> i_family i2 = i_family i3 ->
  forall pk0 sk0 sig0 seed stream m,
  length seed = CRYPTO_SEEDBYTES P -> (p_n P <= length stream)%nat ->
  (SPX_PK_BYTES P <= length pk0)%nat -> (SPX_SK_BYTES P <= length sk0)%nat -> (SPX_BYTES P <= length sig0)%nat ->
  all_bytes seed -> all_bytes stream -> all_bytes sk0 -> all_bytes m -> Z.of_nat (length m) < 2 ^ 63 ->
  exists pk sk sig stream',
    i_seed_keypair i1 robust P u1 pk0 sk0 seed = Some (0, pk, sk)
    /\ i_signature i2 robust P u2 stream sig0 m sk = Some (0, sig, crypto_sign_bytes P, stream')
    /\ i_verify i3 robust P u3 sig (crypto_sign_bytes P) m pk = Some 0.
Proof. exact three_honest. Qed.

(** ** C55: every implementation computes the specification *)
Section Spec.
Variable i : impl.
Variable robust : bool.
Variable P : params.
Variable u : uninit.
Hypothesis Hi : i_ok i P.
Notation N := (p_n P).
Notation D := (dims_of P).
Notation f := (i_family i).
Theorem C55_impl_keygen : forall seed, length seed = CRYPTO_SEEDBYTES P -> all_bytes seed ->
  let ss := firstn N seed in
  let ps := skipn (2 * N) seed in
  let root := ht_root D (spec_T f N robust ps) (spec_PRF f N ps ss) in
  length root = N /\ forall pk0 sk0,
    (SPX_PK_BYTES P <= length pk0)%nat -> (SPX_SK_BYTES P <= length sk0)%nat ->
    i_seed_keypair i robust P u pk0 sk0 seed
    = Some (0, ps ++ root ++ skipn (SPX_PK_BYTES P) pk0, seed ++ root ++ skipn (SPX_SK_BYTES P) sk0).
Proof. exact (i_keygen i robust P u Hi). Qed.
Theorem C55_impl_sign : forall stream sig0 m sk,
  (SPX_SK_BYTES P <= length sk)%nat -> (N <= length stream)%nat -> (SPX_BYTES P <= length sig0)%nat ->
  all_bytes sk -> all_bytes stream -> all_bytes m -> Z.of_nat (length m) < 2 ^ 63 ->
  let s := spx_sign D (spec_T f N robust) (spec_PRF f N) (spec_Rnd f N) (spec_Hm f N D)
             (firstn N sk) (firstn N (skipn N sk)) (firstn N (skipn (2 * N) sk))
             (firstn N (skipn (3 * N) sk)) (firstn N stream) m in
  i_signature i robust P u stream sig0 m sk
  = Some (0, s ++ skipn (SPX_BYTES P) sig0, Z.of_nat (SPX_BYTES P), skipn N stream)
  /\ length s = SPX_BYTES P.
Proof. exact (i_signature_spec i robust P u Hi). Qed.
Theorem C55_impl_verify : forall sig siglen m pk,
  (siglen = Z.of_nat (SPX_BYTES P) -> (SPX_BYTES P <= length sig)%nat) -> (SPX_PK_BYTES P <= length pk)%nat ->
  all_bytes sig -> all_bytes pk -> all_bytes m -> Z.of_nat (length m) < 2 ^ 63 ->
  exists r, i_verify i robust P u sig siglen m pk = Some r /\ (r = 0 \/ r = -1)
    /\ (r = 0 <-> siglen = Z.of_nat (SPX_BYTES P)
          /\ spx_verify D (spec_T f N robust) (spec_Hm f N D) (firstn N pk) (firstn N (skipn N pk)) m
               (firstn (SPX_BYTES P) sig)).
Proof. exact (i_verification i robust P u Hi). Qed.
End Spec.

(** ** C56: what an accepted signature other than the honest one gives, whichever implementation accepts *)
Theorem C56_impls : forall i1 i2 robust P u1 u2, i_ok i1 P -> i_ok i2 P -> i_family i1 = i_family i2 ->
  forall pk0 sk0 pk sk seed sig siglen m,
  length seed = CRYPTO_SEEDBYTES P ->
  (SPX_PK_BYTES P <= length pk0)%nat -> (SPX_SK_BYTES P <= length sk0)%nat ->
  all_bytes seed -> all_bytes sig -> all_bytes m -> Z.of_nat (length m) < 2 ^ 63 ->
  i_seed_keypair i1 robust P u1 pk0 sk0 seed = Some (0, pk, sk) ->
  (siglen = Z.of_nat (SPX_BYTES P) -> (SPX_BYTES P <= length sig)%nat) ->
  i_verify i2 robust P u2 sig siglen m pk = Some 0 ->
  let N := p_n P in
  let T := spec_T (i_family i2) N robust (skipn (2 * N) seed) in
  let PRF := spec_PRF (i_family i2) N (skipn (2 * N) seed) (firstn N seed) in
  exists md tree leaf,
    spec_Hm (i_family i2) N (dims_of P) (skipn (2 * N) seed) (firstn N sig) (firstn (2 * N) pk) m = (md, tree, leaf)
    /\ (firstn (SPX_BYTES P) sig = firstn N sig ++ concat (spx_sign_body (dims_of P) T PRF md tree leaf)
        \/ break_in (dims_of P) T PRF (verify_calls (dims_of P) T md tree leaf (sig_body P sig))).
Proof. exact i_forgery. Qed.

Print Assumptions C42_impl_params.
Print Assumptions C42_impl_seed_keypair.
Print Assumptions C42_impl_keypair.
Print Assumptions C42_impl_signature.
Print Assumptions C42_impl_verify.
Print Assumptions C42_impl_sign.
Print Assumptions C42_impl_open.
Print Assumptions C54_impls.
Print Assumptions C55_impl_keygen.
Print Assumptions C55_impl_sign.
Print Assumptions C55_impl_verify.
Print Assumptions C56_impls.

(** Keys by shake-avx2, signature by shake-a64, verification by the reference code, for every shipped
    parameter set, simple and robust, on a concrete seed, random stream and message. *)
Example C54_impls_case : forall robust P u1 u2 u3, In P all_params ->
  exists pk sk sig stream',
    i_seed_keypair (Opt ShakeAvx2) robust P u1 (repeat 0 64) (repeat 0 128)
      (map (fun i => Z.of_nat i mod 251) (seq 0 (CRYPTO_SEEDBYTES P))) = Some (0, pk, sk)
    /\ i_signature (Opt ShakeA64) robust P u2 (map Z.of_nat (seq 0 40)) (repeat 0 (SPX_BYTES P)) [104; 105] sk
       = Some (0, sig, crypto_sign_bytes P, stream')
    /\ i_verify (Ref SHAKE) robust P u3 sig (crypto_sign_bytes P) [104; 105] pk = Some 0.
Proof.
  intros robust P u1 u2 u3 H. pose proof (i_ok_32 _ _ (C42_impl_params (Ref SHAKE) P H)) as HN.
  assert (Ht : (CRYPTO_SEEDBYTES P <= 96)%nat) by (unfold CRYPTO_SEEDBYTES; lia).
  apply C54_impls; try reflexivity; try (apply C42_impl_params; exact H);
    try (rewrite ?map_length, ?seq_length, ?repeat_length); auto.
  - lia.
  - unfold SPX_PK_BYTES; lia.
  - unfold SPX_SK_BYTES, SPX_PK_BYTES; lia.
  - apply Forall_forall. intros x Hx. apply in_map_iff in Hx. destruct Hx as (i & <- & _).
    unfold is_byte. pose proof (Z.mod_pos_bound (Z.of_nat i) 251 eq_refl). lia.
  - apply Forall_forall. intros x Hx. apply in_map_iff in Hx. destruct Hx as (i & <- & Hi).
    apply in_seq in Hi. unfold is_byte. lia.
  - apply Forall_forall. intros x Hx. apply repeat_spec in Hx. subst. unfold is_byte. lia.
  - repeat constructor; unfold is_byte; lia.
Qed.
