(** WOTS+ (C16-C19).  Theorems only. *)
From Verif Require Import Base Params Address AdrsEnc Suite Utils Wots Spec Refine
  CoreFacts CoreFacts2 Toy.

(** C16: the signature written while generating leaf [kp] recovers exactly that leaf. *)
Theorem C16_wots_recovers_pk :
  forall P HS c junk1 junk2, wf_params P = true -> suite_ok P HS -> ctx_ok P HS c ->
  forall m sig0 layer tree kp ty k0 u1 u2 k1 v1 v2,
  length m = p_n P -> all_bytes m -> length sig0 = SPX_WOTS_BYTES P ->
  0 <= u2 < 256 -> 0 <= v2 < 256 ->
  exists steps leaf info' pk addr',
    chain_lengths P m = Some steps
    /\ wots_gen_leafx1 P HS c junk1
         {| wi_sig := sig0; wi_sign_leaf := kp; wi_steps := steps;
            wi_leaf_addr := enc (hs_layout HS) (mkAdrs layer tree ty k0 u1 u2);
            wi_pk_addr := enc (hs_layout HS) (mkAdrs layer tree T_WOTS_PK k1 0 0) |} kp
       = Some (leaf, info')
    /\ leaf = wots_pk (dims_of P) (codeT P HS c) (codePRF HS c) layer tree kp
    /\ wots_pk_from_sig P HS c junk2 (wi_sig info') m
         (enc (hs_layout HS) (mkAdrs layer tree T_WOTS_HASH kp v1 v2)) = Some (pk, addr')
    /\ thash P HS c (SPX_WOTS_LEN P) pk (enc (hs_layout HS) (mkAdrs layer tree T_WOTS_PK kp 0 0))
       = Some leaf.
Proof. exact wots_round. Qed.

(** C17: chain_lengths.  [horner w ds] is the number with base-w digits [ds]. *)
Theorem C17_chain_lengths :
  forall P, wf_params P = true ->
  forall msg, length msg = p_n P -> all_bytes msg ->
  exists ds cs,
    chain_lengths P msg = Some (ds ++ cs)
    /\ length ds = SPX_WOTS_LEN1 P /\ length cs = SPX_WOTS_LEN2 P
    /\ Forall (fun d => 0 <= d < SPX_WOTS_W P) (ds ++ cs)
    /\ horner (SPX_WOTS_W P) ds = be_val msg
    /\ horner (SPX_WOTS_W P) cs = sumZ (map (fun d => SPX_WOTS_W P - 1 - d) ds).
Proof. exact chain_lengths_values. Qed.

(** C18: of two different messages, each has a chain shorter than the other's (apply twice). *)
Theorem C18_no_domination :
  forall P m1 m2, wf_params P = true ->
  length m1 = p_n P -> length m2 = p_n P -> all_bytes m1 -> all_bytes m2 -> m1 <> m2 ->
  exists l1 l2,
    chain_lengths P m1 = Some l1 /\ chain_lengths P m2 = Some l2
    /\ exists i, (i < SPX_WOTS_LEN P)%nat /\ nth i l1 0 < nth i l2 0.
Proof. exact no_domination. Qed.

(** C19: gen_chain, for any 32-bit start and steps: the sum wraps, and the chain is cut at W. *)
Theorem C19_gen_chain_steps :
  forall P HS c, wf_params P = true -> suite_ok P HS -> ctx_ok P HS c ->
  forall layer tree kp ci x start steps w2,
  length x = p_n P -> 0 <= w2 < 256 -> 0 <= start < 2 ^ 32 -> 0 <= steps < 2 ^ 32 ->
  exists n w2',
    gen_chain P HS c x start steps (enc (hs_layout HS) (mkAdrs layer tree T_WOTS_HASH kp ci w2))
    = Some (chain (codeT P HS c) layer tree kp ci x start n,
            enc (hs_layout HS) (mkAdrs layer tree T_WOTS_HASH kp ci w2'))
    /\ 0 <= w2' < 256
    /\ n = Z.to_nat (Z.min ((start + steps) mod 2 ^ 32) (SPX_WOTS_W P) - start)
    /\ Z.of_nat n <= Z.max 0 (SPX_WOTS_W P - start).
Proof. exact gen_chain_steps. Qed.

Theorem C19_gen_chain_compose :
  forall P HS c, wf_params P = true -> suite_ok P HS -> ctx_ok P HS c ->
  forall layer tree kp ci x start a b w2,
  length x = p_n P -> 0 <= w2 < 256 -> 0 <= start -> 0 <= a -> 0 <= b ->
  start + a + b < 2 ^ 32 ->
  exists y z a1 a2 a3,
    gen_chain P HS c x start a (enc (hs_layout HS) (mkAdrs layer tree T_WOTS_HASH kp ci w2))
    = Some (y, a1)
    /\ gen_chain P HS c y (start + a) b a1 = Some (z, a2)
    /\ gen_chain P HS c x start (a + b)
         (enc (hs_layout HS) (mkAdrs layer tree T_WOTS_HASH kp ci w2)) = Some (z, a3).
Proof. exact gen_chain_compose. Qed.

Print Assumptions C16_wots_recovers_pk.
Print Assumptions C17_chain_lengths.
Print Assumptions C18_no_domination.
Print Assumptions C19_gen_chain_steps.
Print Assumptions C19_gen_chain_compose.

(** ** Concrete cases *)
Example toy_wots_hypotheses :
  wf_params params_toy = true /\ suite_ok params_toy (toy_suite params_toy)
  /\ ctx_ok params_toy (toy_suite params_toy) (mkCtx [1; 2] [3; 4] tt)
  /\ length [200; 17] = p_n params_toy /\ all_bytes [200; 17] /\ (0 < SPX_WOTS_BYTES params_toy)%nat.
Proof.
  split; [reflexivity|]. split; [apply toy_suite_ok|]. split; [repeat split|]. split; [reflexivity|].
  split; [repeat constructor; unfold is_byte; lia|vm_compute; lia].
Qed.
Example toy_lengths : chain_lengths params_toy [200; 17] = Some [12; 8; 1; 1; 2; 6].
Proof. vm_compute. reflexivity. Qed.
Example lengths_128 : chain_lengths params_128s (map Z.of_nat (seq 0 16))
  = Some [0; 0; 0; 1; 0; 2; 0; 3; 0; 4; 0; 5; 0; 6; 0; 7; 0; 8; 0; 9; 0; 10; 0; 11; 0; 12; 0; 13;
          0; 14; 0; 15; 1; 6; 8].
Proof. vm_compute. reflexivity. Qed.
(** Steps wrap around: start + steps = 2^32 + 5 computes 5 - start steps, here two. *)
Example toy_chain_wrap :
  gen_chain params_toy (toy_suite params_toy) (mkCtx [1; 2] [3; 4] tt) [7; 7] 3 (2 ^ 32 + 2 - 2 ^ 32)
    (repeat 0 32)
  = gen_chain params_toy (toy_suite params_toy) (mkCtx [1; 2] [3; 4] tt) [7; 7] 3 2 (repeat 0 32)
  /\ option_map fst (gen_chain params_toy (toy_suite params_toy) (mkCtx [1; 2] [3; 4] tt) [7; 7] 14 9
       (repeat 0 32))
     = option_map fst (gen_chain params_toy (toy_suite params_toy) (mkCtx [1; 2] [3; 4] tt) [7; 7] 14 2
       (repeat 0 32)).
Proof. vm_compute. split; reflexivity. Qed.
