(** What signatures give away (C67, C68).  Theorems only; proofs are elsewhere.

    [suite_query], [i_query] (LeakCode.v): a signature the signing function returned for a message, with whatever
    randomness; [covered], [unseen_in], [same_images]: LeakSpec.v; [break_in]: ForgeSpec.v. *)
From Verif Require Import Base Params Suite Sign Spec Refine SignProofs ApiProofs BuildSpec BuildProofs Toy ForgeSpec ForgeCode LeakSpec LeakCode
  LeakToy OptBuild OptProofs.

(** ** C67: an accepted signature that is none of those obtained before *)
Theorem C67_queries : forall P HS, wf_params P = true -> suite_ok P HS ->
  forall junk1 junk2 pk0 sk0 pk sk seed sig siglen m qs,
  length seed = CRYPTO_SEEDBYTES P ->
  (SPX_PK_BYTES P <= length pk0)%nat -> (SPX_SK_BYTES P <= length sk0)%nat ->
  crypto_sign_seed_keypair P HS junk1 pk0 sk0 seed = Some (0, pk, sk) ->
  (forall m' s', In (m', s') qs -> suite_query P HS sk m' s') ->
  all_bytes sig -> (siglen = Z.of_nat (SPX_BYTES P) -> (SPX_BYTES P <= length sig)%nat) ->
  crypto_sign_verify P HS junk2 sig siglen m pk = Some 0 ->
  ~ In (m, firstn (SPX_BYTES P) sig) qs ->
  let N := p_n P in let D := dims_of P in
  let T := codeTh P HS (skipn (2 * N) seed) in
  let PRF := codePrf HS (skipn (2 * N) seed) (firstn N seed) in
  let hm R m := codeHm P HS (skipn (2 * N) seed) R (firstn (2 * N) pk) m in
  exists md tree leaf, hm (firstn N sig) m = (md, tree, leaf)
    /\ (break_in D T PRF (verify_calls D T md tree leaf (sig_body P sig))
        \/ covered D hm qs (firstn N sig) m md tree leaf
        \/ unseen_in D hm PRF qs md tree leaf (sig_body P sig)).
Proof. exact suite_after_queries. Qed.
(** For all modelled implementations; the queries may go to different implementations of the family. *)
Theorem C67_impls : forall i1 i2 robust P u1 u2, i_ok i1 P -> i_ok i2 P -> i_family i1 = i_family i2 ->
  forall pk0 sk0 pk sk seed sig siglen m qs,
  length seed = CRYPTO_SEEDBYTES P ->
  (SPX_PK_BYTES P <= length pk0)%nat -> (SPX_SK_BYTES P <= length sk0)%nat ->
  all_bytes seed -> all_bytes sig -> all_bytes m -> Z.of_nat (length m) < 2 ^ 63 -> all_bytes sk0 ->
  i_seed_keypair i1 robust P u1 pk0 sk0 seed = Some (0, pk, sk) ->
  (forall m' s', In (m', s') qs -> i_query (i_family i2) robust P sk m' s') ->
  (siglen = Z.of_nat (SPX_BYTES P) -> (SPX_BYTES P <= length sig)%nat) ->
  i_verify i2 robust P u2 sig siglen m pk = Some 0 ->
  ~ In (m, firstn (SPX_BYTES P) sig) qs ->
  let N := p_n P in let D := dims_of P in
  let T := spec_T (i_family i2) N robust (skipn (2 * N) seed) in
  let PRF := spec_PRF (i_family i2) N (skipn (2 * N) seed) (firstn N seed) in
  let hm R m := spec_Hm (i_family i2) N D (skipn (2 * N) seed) R (firstn (2 * N) pk) m in
  exists md tree leaf, hm (firstn N sig) m = (md, tree, leaf)
    /\ (break_in D T PRF (verify_calls D T md tree leaf (sig_body P sig))
        \/ covered D hm qs (firstn N sig) m md tree leaf
        \/ unseen_in D hm PRF qs md tree leaf (sig_body P sig)).
Proof. exact impl_after_queries. Qed.

(** ** C68: the public key and all signatures depend on the secret values only through the FORS leaves, the FORS
    secrets shown, and the WOTS+ chains from the position that is signed on *)
Theorem C68_keygen : forall P HS, wf_params P = true -> suite_ok P HS -> forall g, suite_ok P (with_prf HS g) ->
  forall shown junk junk' pk0 sk0 seed,
  length seed = CRYPTO_SEEDBYTES P -> (SPX_PK_BYTES P <= length pk0)%nat -> (SPX_SK_BYTES P <= length sk0)%nat ->
  let ps := skipn (2 * p_n P) seed in let ss := firstn (p_n P) seed in
  same_images (dims_of P) (codeTh P HS ps) (codePrf HS ps ss) (codePrf (with_prf HS g) ps ss) shown ->
  crypto_sign_seed_keypair P (with_prf HS g) junk' pk0 sk0 seed = crypto_sign_seed_keypair P HS junk pk0 sk0 seed.
Proof. exact images_keygen. Qed.
Theorem C68_sign : forall P HS, wf_params P = true -> suite_ok P HS -> forall g, suite_ok P (with_prf HS g) ->
  forall shown junk junk' stream sig0 m sk,
  (SPX_SK_BYTES P <= length sk)%nat -> (p_n P <= length stream)%nat -> (SPX_BYTES P <= length sig0)%nat ->
  let N := p_n P in
  let ss := firstn N sk in let sp := firstn N (skipn N sk) in
  let ps := firstn N (skipn (2 * N) sk) in let root := firstn N (skipn (3 * N) sk) in
  same_images (dims_of P) (codeTh P HS ps) (codePrf HS ps ss) (codePrf (with_prf HS g) ps ss) shown ->
  (forall md tree leaf, codeHm P HS ps (codeRnd P HS ps sp (firstn N stream) m) (ps ++ root) m = (md, tree, leaf) ->
     forall t, (t < p_ft P)%nat -> shown tree leaf t (fors_index (dims_of P) md t)) ->
  crypto_sign_signature P (with_prf HS g) junk' stream sig0 m sk = crypto_sign_signature P HS junk stream sig0 m sk.
Proof. exact images_sign. Qed.

Print Assumptions C67_queries.
Print Assumptions C67_impls.
Print Assumptions C68_keygen.
Print Assumptions C68_sign.

(** ** The hypotheses of C67 can be met, for every suite: sign two messages, present the second signature as the forgery. *)
Example C67_case : forall P HS, wf_params P = true -> suite_ok P HS ->
  forall junk (pk0 sk0 sig0 seed stream m1 m2 : bytes), m1 <> m2 ->
  length seed = CRYPTO_SEEDBYTES P -> (p_n P <= length stream)%nat ->
  (SPX_PK_BYTES P <= length pk0)%nat -> (SPX_SK_BYTES P <= length sk0)%nat -> (SPX_BYTES P <= length sig0)%nat ->
  exists pk sk s1 s2, crypto_sign_seed_keypair P HS junk pk0 sk0 seed = Some (0, pk, sk)
    /\ (forall m' s', In (m', s') [(m1, s1)] -> suite_query P HS sk m' s')
    /\ crypto_sign_verify P HS junk s2 (Z.of_nat (SPX_BYTES P)) m2 pk = Some 0
    /\ ~ In (m2, firstn (SPX_BYTES P) s2) [(m1, s1)].
Proof.
  intros P HS Hwf Hok junk pk0 sk0 sig0 seed stream m1 m2 Hne Ls Lst L1 L2 L3.
  destruct (keypair_sign_verify P HS Hwf Hok junk junk junk pk0 sk0 sig0 seed stream m1 Ls Lst L1 L2 L3)
    as (pk & sk & s1 & r1 & K1 & S1 & _).
  destruct (keypair_sign_verify P HS Hwf Hok junk junk junk pk0 sk0 sig0 seed stream m2 Ls Lst L1 L2 L3)
    as (pk' & sk' & s2 & r2 & K2 & S2 & V2).
  rewrite K1 in K2. injection K2 as <- <-.
  exists pk, sk, (firstn (SPX_BYTES P) s1), s2. split; [exact K1|]. split; [|split; [exact V2|]].
  - intros m' s' [E|[]]. apply pair_equal_spec in E as [<- <-].
    now exists junk, stream, sig0, s1, (crypto_sign_bytes P), r1.
  - intros [E|[]]. apply Hne. exact (f_equal fst E).
Qed.

(** Another secret with the same images: message [4] gets the same signature; a message that selects
    leaf 1 of FORS tree 0 would show the change. *)
Definition toy_sk : bytes := [1; 2; 3; 4; 5; 6; 214; 159].
Example C68_toy : forall junk junk' sig0, (SPX_BYTES params_toy <= length sig0)%nat ->
  crypto_sign_signature params_toy toy_suite2 junk' [7; 8] sig0 [4] toy_sk
  = crypto_sign_signature params_toy (toy_suite params_toy) junk [7; 8] sig0 [4] toy_sk.
Proof.
  intros junk junk' sig0 H.
  apply (C68_sign params_toy (toy_suite params_toy) eq_refl (toy_suite_ok params_toy) toy_prf2 toy_suite2_ok (toy_shown [5; 6] [1; 2])).
  - vm_compute. auto.
  - vm_compute. auto.
  - exact H.
  - exact (toy_same_images [5; 6] [1; 2]).
  - intros md tree leaf E t Ht. vm_compute in E. injection E as <- <- <-.
    destruct t as [|[|[|t]]]; [vm_compute; reflexivity..|]. cbn in Ht. lia.
Qed.
Example C68_toy_shown : ~ toy_shown [5; 6] [1; 2] 2 1 0 1.
Proof. unfold toy_shown. vm_compute. discriminate. Qed.
