(** The multi-lane builds, given lane-wise hash functions (C40-C42).  Theorems only. *)
From Verif Require Import Base BaseFacts Params Address AdrsEnc Suite Utils Wots Sign Spec SpecFacts Refine TreeProofs CoreFacts2 Toy
  Lanes LaneTreeFacts LaneMerkleProofs LaneAgree SignX SignXProofs.

(** ** C40: treehashx2, treehashx4, treehashx8 against treehashx1 *)
Section Trees.
Variable P : params.
Variable HS : suite.
Variable LX : lane_fns HS.
(** 2^w lanes. *)
Variable w : nat.
Variable c : ctx (hs_st HS).
Hypothesis HN : (1 <= p_n P)%nat.
Hypothesis Hok : suite_ok P HS.
Hypothesis Hlx : lanes_ok P HS LX w.
Hypothesis Hc : ctx_ok P HS c.
(** Any tree: its address fields, the index offset of its leaves, its height and its leaf values. *)
Variables layer tree type kp off : Z.
Variable H : nat.
Variable leaf : Z -> bytes.
Hypothesis Hleaf : forall i, length (leaf i) = p_n P.
Hypothesis Hw : (1 <= w <= H)%nat.
Hypothesis HH : (H <= 31)%nat.
Notation adr w1 w2 := (enc (hs_layout HS) (mkAdrs layer tree type kp w1 w2)).

(** The same root and the same path for every index in the tree and every index from 2^(H+w-1) on
    (the marker ~0 among them), whatever the stack contains and whatever the lanes' addresses have
    in their last two words. *)
Theorem C40_treehashx_agree :
  forall (G G1 : Type) (genx : G -> Z -> option (bytes * G)) (gen1 : G1 -> Z -> option (bytes * G1))
    junk junk' g g1 i auth0 (v : nat -> Z * Z) u1 u2,
  (forall k g0, 0 <= k < 2 ^ Z.of_nat (H - w) ->
     exists g', genx g0 (u32 (Z.of_nat (NL w) * k + off))
       = Some (concat (map (fun j => leaf (Z.of_nat (NL w) * k + Z.of_nat j)) (seq 0 (NL w))), g')) ->
  (forall k g0, 0 <= k < 2 ^ Z.of_nat H ->
     exists g', gen1 g0 (u32 (k + off)) = Some (leaf k, g')) ->
  0 <= i < 2 ^ Z.of_nat H \/ 2 ^ Z.of_nat (H + w - 1) <= i < 2 ^ 32 ->
  length auth0 = (H * p_n P)%nat ->
  exists auth a a1 g' g1',
    treehashx P HS LX w c junk genx i off H auth0
      (map (fun j => adr (fst (v j)) (snd (v j))) (lanes w)) g
    = Some (node leaf (node_hash P HS c layer tree type kp off) H 0, auth, a, g')
    /\ treehashx1 P HS c junk' gen1 i off H auth0 (adr u1 u2) g1
       = Some (node leaf (node_hash P HS c layer tree type kp off) H 0, auth, a1, g1').
Proof. exact (@treehashx_agree P HS LX w c HN Hok Hlx Hc layer tree type kp off H leaf Hleaf Hw HH). Qed.

(** For the remaining indices the multi-lane code reads outside [current] (treehashx1 has no
    such case, C14).  With two lanes there are none. *)
Theorem C40_treehashx_outside :
  forall i, 2 ^ Z.of_nat H <= i < 2 ^ Z.of_nat (H + w - 1) -> i < 2 ^ 32 ->
  forall (G : Type) (genx : G -> Z -> option (bytes * G)) junk auth ad g,
  (forall k g0, 0 <= k < 2 ^ Z.of_nat (H - w) ->
     exists g', genx g0 (u32 (Z.of_nat (NL w) * k + off))
       = Some (concat (map (fun j => leaf (Z.of_nat (NL w) * k + Z.of_nat j)) (seq 0 (NL w))), g')) ->
  treehashx P HS LX w c junk genx i off H auth ad g = None.
Proof. exact (@treehashx_outside P HS LX w c HN off H leaf Hleaf Hw HH). Qed.
End Trees.
Print Assumptions C40_treehashx_agree.
Print Assumptions C40_treehashx_outside.

(** ** C41: chains sorted by length and run in groups *)
(** [cs] are the chain inputs, [start] and [steps] one number per chain, in any order. *)
Theorem C41_gen_chains :
  forall P HS LX lw c junk,
  wf_params P = true -> suite_ok P HS -> lanes_ok P HS LX lw -> ctx_ok P HS c ->
  forall layer tree kp cs start steps w1 w2 rest,
  chunks_of (p_n P) cs -> length cs = SPX_WOTS_LEN P ->
  length start = SPX_WOTS_LEN P -> length steps = SPX_WOTS_LEN P ->
  (forall i, (i < SPX_WOTS_LEN P)%nat ->
     0 <= nth i steps 0 < SPX_WOTS_W P /\ 0 <= nth i start 0
     /\ nth i start 0 + nth i steps 0 <= SPX_WOTS_W P) ->
  0 <= w2 < 256 ->
  exists ys,
    gen_chains P HS LX lw c junk (concat cs ++ rest) start steps
      (enc (hs_layout HS) (mkAdrs layer tree T_WOTS_HASH kp w1 w2)) = Some (concat ys)
    /\ length ys = SPX_WOTS_LEN P /\ chunks_of (p_n P) ys
    /\ forall i u2, (i < SPX_WOTS_LEN P)%nat -> 0 <= u2 < 256 ->
       exists a', gen_chain P HS c (nth i cs []) (nth i start 0) (nth i steps 0)
         (enc (hs_layout HS) (mkAdrs layer tree T_WOTS_HASH kp (Z.of_nat i) u2))
       = Some (nth i ys [], a').
Proof. exact gen_chains_agree. Qed.

(** The caller stays in that domain: the recovered public key is the reference one. *)
Theorem C41_wots_pk_from_sig :
  forall P HS LX lw c junk junk',
  wf_params P = true -> suite_ok P HS -> lanes_ok P HS LX lw -> ctx_ok P HS c ->
  forall layer tree kp sig msg w1 w2,
  length sig = SPX_WOTS_BYTES P -> length msg = p_n P -> all_bytes msg -> 0 <= w2 < 256 ->
  exists pk a',
    wots_pk_from_sigx P HS LX lw c junk sig msg
      (enc (hs_layout HS) (mkAdrs layer tree T_WOTS_HASH kp w1 w2))
    = Some (pk, enc (hs_layout HS) (mkAdrs layer tree T_WOTS_HASH kp w1 w2))
    /\ wots_pk_from_sig P HS c junk' sig msg
         (enc (hs_layout HS) (mkAdrs layer tree T_WOTS_HASH kp w1 w2)) = Some (pk, a').
Proof. exact wots_pk_from_sigx_agree. Qed.
Print Assumptions C41_gen_chains.
Print Assumptions C41_wots_pk_from_sig.

(** ** C42: the API of a multi-lane build is the API of the reference build *)
Section Api.
Variable P : params.
Variable HS : suite.
Variable LX : lane_fns HS.
Variable lw : nat.
Hypothesis Hwf : wf_params P = true.
Hypothesis Hok : suite_ok P HS.
Hypothesis Hlx : lanes_ok P HS LX lw.
Hypothesis Hfit : lanes_fit P lw.

Theorem C42_seed_keypair : forall junk junk' pk0 sk0 seed,
  length seed = CRYPTO_SEEDBYTES P ->
  (SPX_PK_BYTES P <= length pk0)%nat -> (SPX_SK_BYTES P <= length sk0)%nat ->
  crypto_sign_seed_keypairx P HS LX lw junk pk0 sk0 seed
  = crypto_sign_seed_keypair P HS junk' pk0 sk0 seed.
Proof. exact (seed_keypairx_agree P HS LX lw Hwf Hok Hlx Hfit). Qed.

Theorem C42_keypair : forall junk junk' stream pk0 sk0,
  (SPX_PK_BYTES P <= length pk0)%nat -> (SPX_SK_BYTES P <= length sk0)%nat ->
  crypto_sign_keypairx P HS LX lw junk stream pk0 sk0
  = crypto_sign_keypair P HS junk' stream pk0 sk0.
Proof. exact (keypairx_agree P HS LX lw Hwf Hok Hlx Hfit). Qed.

Theorem C42_signature : forall junk junk' stream sig0 m sk,
  (SPX_SK_BYTES P <= length sk)%nat -> (p_n P <= length stream)%nat ->
  (SPX_BYTES P <= length sig0)%nat ->
  crypto_sign_signaturex P HS LX lw junk stream sig0 m sk
  = crypto_sign_signature P HS junk' stream sig0 m sk.
Proof. exact (signaturex_agree P HS LX lw Hwf Hok Hlx Hfit). Qed.

Theorem C42_verify : forall junk junk' sig siglen m pk,
  (siglen = Z.of_nat (SPX_BYTES P) -> (SPX_BYTES P <= length sig)%nat) ->
  (SPX_PK_BYTES P <= length pk)%nat ->
  crypto_sign_verifyx P HS LX lw junk sig siglen m pk
  = crypto_sign_verify P HS junk' sig siglen m pk.
Proof. exact (verifyx_agree P HS LX lw Hwf Hok Hlx). Qed.

Theorem C42_sign : forall junk junk' stream sm0 m sk,
  (SPX_SK_BYTES P <= length sk)%nat -> (p_n P <= length stream)%nat ->
  crypto_signx P HS LX lw junk stream sm0 m sk = crypto_sign P HS junk' stream sm0 m sk.
Proof. exact (crypto_signx_agree P HS LX lw Hwf Hok Hlx Hfit). Qed.

Theorem C42_open : forall junk junk' m0 sm smlen pk,
  (SPX_PK_BYTES P <= length pk)%nat ->
  crypto_sign_openx P HS LX lw junk m0 sm smlen pk = crypto_sign_open P HS junk' m0 sm smlen pk.
Proof. exact (openx_agree P HS LX lw Hwf Hok Hlx). Qed.
End Api.
Print Assumptions C42_seed_keypair.
Print Assumptions C42_keypair.
Print Assumptions C42_signature.
Print Assumptions C42_verify.
Print Assumptions C42_sign.
Print Assumptions C42_open.

(** The trees of every shipped parameter set are high enough for two, four and eight lanes. *)
Theorem C42_shipped_params : forall P lw, In P all_params -> (1 <= lw <= 3)%nat ->
  wf_params P = true /\ lanes_fit P lw.
Proof. exact lanes_fit_shipped. Qed.
Print Assumptions C42_shipped_params.

(** ** Concrete cases *)
Local Notation tP := params_toy.
Local Notation tS := (toy_suite params_toy).
Local Notation tL := (plain_lanes (toy_suite params_toy)).
(** The hypotheses on the suite and the lane functions hold. *)
Example lanes_hypotheses : forall lw, (1 <= lw <= 2)%nat ->
  wf_params tP = true /\ suite_ok tP tS /\ lanes_ok tP tS tL lw /\ lanes_fit tP lw.
Proof.
  intros lw H. split; [reflexivity|]. split; [apply toy_suite_ok|]. split; [apply plain_lanes_ok|].
  unfold lanes_fit. cbn. lia.
Qed.

Local Definition tctx : ctx (hs_st tS) := mkCtx [1; 2] [3; 4] tt.
Local Definition tleaf (k : Z) : bytes := [u8 k; u8 (7 * k + 3)].
Local Definition tgen1 (g : unit) (k : Z) : option (bytes * unit) := Some (tleaf k, g).
Local Definition tgenx (w : nat) (g : unit) (k : Z) : option (bytes * unit) :=
  Some (concat (map (fun j => tleaf (k + Z.of_nat j)) (seq 0 (NL w))), g).
(** Sixteen leaves, four lanes, every leaf index in turn, and the marker. *)
Example C40_case :
  map (fun i => ' (r, a, _, _) <- treehashx tP tS tL 2 tctx toy_junk (tgenx 2) i 0 4 (repeat 0 8)
                   (repeat (repeat 0 32) 4) tt ;; Some (r, a))
      [0; 1; 2; 3; 4; 5; 6; 7; 8; 9; 10; 11; 12; 13; 14; 15; 2 ^ 32 - 1]
  = map (fun i => ' (r, a, _, _) <- treehashx1 tP tS tctx toy_junk tgen1 i 0 4 (repeat 0 8)
                   (repeat 0 32) tt ;; Some (r, a))
      [0; 1; 2; 3; 4; 5; 6; 7; 8; 9; 10; 11; 12; 13; 14; 15; 2 ^ 32 - 1].
Proof. vm_compute. reflexivity. Qed.
(** An index of the next tree: undefined with four lanes, defined with one. *)
Example C40_outside_case :
  treehashx tP tS tL 2 tctx toy_junk (tgenx 2) 16 0 4 (repeat 0 8) (repeat (repeat 0 32) 4) tt = None
  /\ treehashx1 tP tS tctx toy_junk tgen1 16 0 4 (repeat 0 8) (repeat 0 32) tt <> None.
Proof. vm_compute. split; [reflexivity|discriminate]. Qed.

(** Six chains of different lengths on four lanes: the chains retire at different times. *)
Example C41_case :
  SPX_WOTS_LEN tP = 6%nat
  /\ gen_chains tP tS tL 2 tctx toy_junk [1; 2; 3; 4; 5; 6; 7; 8; 9; 10; 11; 12]
       [0; 1; 2; 3; 4; 5] [3; 0; 14; 3; 1; 2] (repeat 0 32)
     = (l <- mapM (fun i => a <- set_chain_addr LSha2 (repeat 0 32) (Z.of_nat i) ;;
                    ' (x, _) <- gen_chain tP tS tctx (nth i
                    [[1; 2]; [3; 4]; [5; 6]; [7; 8]; [9; 10]; [11; 12]] [])
                    (nth i [0; 1; 2; 3; 4; 5] 0) (nth i [3; 0; 14; 3; 1; 2] 0)
                    a ;; Some x) (seq 0 6) ;;
        Some (concat l)).
Proof. vm_compute. split; reflexivity. Qed.
(** Outside the domain of C41 the functions differ: gen_chain stops at W, gen_chains does not. *)
Example C41_outside_case :
  (' (x, _) <- gen_chain tP tS tctx [1; 2] 10 10 (repeat 0 32) ;; Some x)
  <> (ys <- gen_chains tP tS tL 2 tctx toy_junk [1; 2; 3; 4; 5; 6; 7; 8; 9; 10; 11; 12]
              [10; 0; 0; 0; 0; 0] [10; 0; 0; 0; 0; 0] (repeat 0 32) ;; Some (firstn 2 ys))
  /\ gen_chains tP tS tL 2 tctx toy_junk [1; 2; 3; 4; 5; 6; 7; 8; 9; 10; 11; 12]
       [0; 0; 0; 0; 0; 0] [16; 0; 0; 0; 0; 0] (repeat 0 32) = None.
Proof. vm_compute. split; [discriminate|reflexivity]. Qed.

(** Keys, signature and verification of the four-lane build. *)
Example C42_case :
  (' (_, pk, sk) <- crypto_sign_seed_keypairx tP tS tL 2 toy_junk (repeat 0 4) (repeat 0 8) toy_seed ;;
   ' (r, sig, _, _) <- crypto_sign_signaturex tP tS tL 2 toy_junk [7; 8] (repeat 0 (SPX_BYTES tP)) [11; 22; 33] sk ;;
   ok <- crypto_sign_verifyx tP tS tL 2 toy_junk sig (Z.of_nat (SPX_BYTES tP)) [11; 22; 33] pk ;;
   bad <- crypto_sign_verifyx tP tS tL 2 toy_junk sig (Z.of_nat (SPX_BYTES tP)) [11; 22; 34] pk ;;
   Some (ok, bad))
  = Some (0, -1).
Proof. vm_compute. reflexivity. Qed.
