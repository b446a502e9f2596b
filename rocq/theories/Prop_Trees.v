(** Merkle trees (C13-C15).  Theorems only. *)
From Verif Require Import Base Params Address AdrsEnc Suite Utils Merkle Wots Fors Spec Refine
  CoreFacts2 Toy.

Section Trees.
Variable P : params.
Variable HS : suite.
Variable c : ctx (hs_st HS).
Hypothesis HN : (1 <= p_n P)%nat.
Hypothesis Hok : suite_ok P HS.
Hypothesis Hc : ctx_ok P HS c.
(** Any tree: its address fields, the index offset of its leaves, its height and its leaf values. *)
Variables layer tree type kp off : Z.
Variable H : nat.
Variable leaf : Z -> bytes.
Hypothesis Hleaf : forall i, length (leaf i) = p_n P.
Notation adr w1 w2 := (enc (hs_layout HS) (mkAdrs layer tree type kp w1 w2)).
(** The hash joining two children into node [i] of height [h], and the tree it defines (Spec.v). *)
Notation hash2 := (node_hash P HS c layer tree type kp off).

(** C13: root, authentication path, and compute_root over that path. *)
Theorem C13_auth_path_authenticates :
  forall (G : Type) (gen : G -> Z -> option (bytes * G)) junk junk' g i auth0 w1 w2 v1 v2,
  (forall k g0, 0 <= k < 2 ^ Z.of_nat H -> exists g', gen g0 (u32 (k + off)) = Some (leaf k, g')) ->
  (1 <= H)%nat -> 0 <= i < 2 ^ Z.of_nat H -> length auth0 = (H * p_n P)%nat ->
  exists root auth a' g' a'',
    treehashx1 P HS c junk gen i off H auth0 (adr w1 w2) g = Some (root, auth, a', g')
    /\ root = node leaf hash2 H 0
    /\ auth = concat (auth_path leaf hash2 H i)
    /\ compute_root P HS c junk' (leaf i) i off auth H (adr v1 v2) = Some (root, a'').
Proof. exact (@treehashx1_authenticates P HS c HN Hok Hc layer tree type kp off H leaf Hleaf). Qed.

(** C14: the stack-based treehash gives the same root and path as treehashx1 for every leaf index
    whose quotient by 2^H is not 1 (in particular all indices inside the tree and the marker ~0);
    when the quotient is 1, treehash writes outside the path buffer, and treehashx1 does not. *)
Theorem C14_treehash_agree_iff :
  forall (gen : Z -> bytes -> option bytes) (G : Type) (gen1 : G -> Z -> option (bytes * G))
    junk junk' g i auth0 w1 w2 v1 v2,
  (forall k u1 u2, 0 <= k < 2 ^ Z.of_nat H -> gen (u32 (k + off)) (adr u1 u2) = Some (leaf k)) ->
  (forall k g0, 0 <= k < 2 ^ Z.of_nat H -> exists g', gen1 g0 (u32 (k + off)) = Some (leaf k, g')) ->
  0 <= i -> length auth0 = (H * p_n P)%nat ->
  exists root auth a2 g',
    treehashx1 P HS c junk' gen1 i off H auth0 (adr v1 v2) g = Some (root, auth, a2, g')
    /\ (i / 2 ^ Z.of_nat H <> 1 ->
        exists a1, treehash P HS c junk gen i off H auth0 (adr w1 w2) = Some (root, auth, a1))
    /\ (i / 2 ^ Z.of_nat H = 1 -> treehash P HS c junk gen i off H auth0 (adr w1 w2) = None).
Proof. exact (@treehash_agree_iff P HS c HN Hok Hc layer tree type kp off H leaf Hleaf). Qed.

(** C15: the marker ~0 leaves the authentication path buffer as it was. *)
Theorem C15_marker_treehash :
  forall (G : Type) (gen : G -> Z -> option (bytes * G)) junk g auth0 w1 w2,
  (forall k g0, 0 <= k < 2 ^ Z.of_nat H -> exists g', gen g0 (u32 (k + off)) = Some (leaf k, g')) ->
  (H <= 31)%nat -> length auth0 = (H * p_n P)%nat ->
  exists a' g',
    treehashx1 P HS c junk gen (2 ^ 32 - 1) off H auth0 (adr w1 w2) g
    = Some (node leaf hash2 H 0, auth0, a', g').
Proof. exact (@treehashx1_marker P HS c HN Hok Hc layer tree type kp off H leaf Hleaf). Qed.
End Trees.

(** C15: merkle_sign with the marker (merkle_gen_root) writes neither the WOTS signature nor the
    path, and returns the root of the tree. *)
Theorem C15_marker_merkle :
  forall P HS c junk sig0 root layer tree ty k0 u1 u2 ty' w1 w2,
  wf_params P = true -> suite_ok P HS -> ctx_ok P HS c ->
  length sig0 = (SPX_WOTS_BYTES P + SPX_TREE_HEIGHT P * p_n P)%nat -> length root = p_n P ->
  exists a', merkle_sign P HS c junk sig0 root
      (enc (hs_layout HS) (mkAdrs layer tree ty k0 u1 u2))
      (enc (hs_layout HS) (mkAdrs layer tree ty' 0 w1 w2)) (2 ^ 32 - 1)
    = Some (sig0, xmss_root (dims_of P) (codeT P HS c) (codePRF HS c) layer tree, a').
Proof. exact merkle_marker. Qed.

(** C14 for all indices is false: with a leaf index in the next tree (index / 2^H = 1) treehash
    writes one node past the end of the path buffer, while treehashx1 does not. *)
Definition toy_ctx : ctx (hs_st (toy_suite params_toy)) := mkCtx [1; 2] [3; 4] tt.
Definition toy_leaf (k : Z) : bytes := [u8 k; u8 (7 * k + 3)].
Definition toy_gen (k : Z) (_ : bytes) : option bytes := Some (toy_leaf k).
Definition toy_gen1 (g : unit) (k : Z) : option (bytes * unit) := Some (toy_leaf k, g).
Theorem C14_refuted : exists i auth0 a,
  length auth0 = (2 * p_n params_toy)%nat /\ length a = SPX_ADDR_BYTES
  /\ treehash params_toy (toy_suite params_toy) toy_ctx toy_junk toy_gen i 0 2 auth0 a = None
  /\ treehashx1 params_toy (toy_suite params_toy) toy_ctx toy_junk toy_gen1 i 0 2 auth0 a tt <> None.
Proof. exists 5, [0; 0; 0; 0], (repeat 0 32). vm_compute. repeat split; discriminate. Qed.

Print Assumptions C13_auth_path_authenticates.
Print Assumptions C14_treehash_agree_iff.
Print Assumptions C14_refuted.
Print Assumptions C15_marker_treehash.
Print Assumptions C15_marker_merkle.

(** ** The hypotheses can be met. *)
Example toy_tree_hypotheses :
  (1 <= p_n params_toy)%nat /\ suite_ok params_toy (toy_suite params_toy)
  /\ ctx_ok params_toy (toy_suite params_toy) toy_ctx
  /\ (forall i, length (toy_leaf i) = p_n params_toy)
  /\ (forall k g0, 0 <= k < 2 ^ Z.of_nat 2 ->
        exists g', toy_gen1 g0 (u32 (k + 0)) = Some (toy_leaf k, g'))
  /\ (forall k a, 0 <= k < 2 ^ Z.of_nat 2 -> toy_gen (u32 (k + 0)) a = Some (toy_leaf k)).
Proof.
  assert (Hu : forall k, 0 <= k < 2 ^ Z.of_nat 2 -> u32 (k + 0) = k)
    by (intros k Hk; unfold u32; rewrite Z.add_0_r; apply Z.mod_small; lia).
  split; [cbn; lia|]. split; [apply toy_suite_ok|]. split; [repeat split|].
  split; [reflexivity|]. split.
  - intros k g0 Hk. exists g0. unfold toy_gen1. now rewrite Hu.
  - intros k a Hk. unfold toy_gen. now rewrite Hu.
Qed.

(** Both functions on the same tree: same root and path, and compute_root agrees. *)
Example toy_tree_run :
  let z := repeat 0 32 in
  (a <- treehashx1 params_toy (toy_suite params_toy) toy_ctx toy_junk toy_gen1 2 0 2 [9; 9; 9; 9] z tt ;;
   b <- treehash params_toy (toy_suite params_toy) toy_ctx toy_junk toy_gen 2 0 2 [8; 8; 8; 8] z ;;
   let '(root, auth, _, _) := a in
   let '(root', auth', _) := b in
   r <- compute_root params_toy (toy_suite params_toy) toy_ctx toy_junk (toy_leaf 2) 2 0 auth 2 z ;;
   Some (auth, (if list_eq_dec Z.eq_dec root root' then true else false),
         (if list_eq_dec Z.eq_dec auth auth' then true else false),
         (if list_eq_dec Z.eq_dec root (fst r) then true else false)))
  = Some ([3; 24] ++ match hs_thash (toy_suite params_toy) toy_ctx 2 (toy_leaf 0 ++ toy_leaf 1)
                             (enc LSha2 (mkAdrs 0 0 0 0 1 0)) with Some d => d | None => [] end,
          true, true, true).
Proof. vm_compute. reflexivity. Qed.
