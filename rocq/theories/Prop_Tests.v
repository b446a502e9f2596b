(** C61, C62: the test programs for thash and FORS.  Theorems only; the programs: TestPrograms.v. *)
From Verif Require Import Base Params Address AdrsEnc Suite Utils Fors Spec Refine BuildSpec Lanes OptBuild TestPrograms TestProgramsProofs OptForge OptForge Toy.

(** ** C61: thashx4.c and thashx8.c succeed for all random bytes *)
Theorem C61_thashx4 : forall robust P u stream, wf_params P = true -> o_n ShakeAvx2 P ->
  (5 * p_n P + 128 <= length stream)%nat -> thashx4_test robust P u stream = Some 0.
Proof. exact thashx4_passes. Qed.
Theorem C61_thashx8 : forall robust P u stream, wf_params P = true -> o_n Sha2Avx2 P ->
  (17 * p_n P + 256 <= length stream)%nat -> thashx8_test robust P u stream = Some 0.
Proof. exact thashx8_passes. Qed.
(** thashx2.c has no defined run, whatever the random bytes: it fills an array of 2 n bytes with 4 n. *)
Theorem C61_thashx2_refuted : forall robust P u stream, wf_params P = true -> thashx2_test robust P u stream = None.
Proof. exact thashx2_undefined. Qed.
(** It succeeds with the length corrected. *)
Theorem C61_thashx2_fixed : forall robust P u stream, wf_params P = true -> o_n ShakeA64 P ->
  (3 * p_n P + 64 <= length stream)%nat -> thashx2_fixed robust P u stream = Some 0.
Proof. exact thashx2_fixed_passes. Qed.

(** The verdict, for any hash functions and any lane functions that return n bytes for every lane: 0 if the lanes
    agree with thash for every number of blocks tried, -1 if they do not for one of them.  The seed, the blocks and
    the addresses are the random bytes, in this order. *)
Theorem C61_verdict : forall P HS LX lw junk, wf_params P = true -> suite_ok P HS -> lanes_total P HS LX lw ->
  forall isize ks stream, Forall (fun k => (k * NL lw <= isize)%nat) ks ->
  (p_n P + isize * p_n P + NL lw * SPX_ADDR_BYTES <= length stream)%nat ->
  let c := code_ctx HS (firstn (p_n P) stream) (junk_bytes (junk 602%nat) (p_n P)) in
  let input := firstn (isize * p_n P) (skipn (p_n P) stream) in
  let addr := firstn (NL lw * SPX_ADDR_BYTES) (skipn (p_n P + isize * p_n P) stream) in
  let same k := lanes_same P HS LX lw c k input addr in
  (thash_program P HS LX lw junk isize isize ks stream = Some 0 /\ Forall same ks)
  \/ (thash_program P HS LX lw junk isize isize ks stream = Some (-1) /\ Exists (fun k => ~ same k) ks).
Proof. exact program_verdict. Qed.

(** ** C62: FORS for any 32 bytes as the address, in every implementation
    fors.c draws all the bytes of the address.  What fors_sign computes is the FORS signature and public key of
    the specification, with the first bytes (layer, tree and what is between them) of the given address in every
    address hashed; fors_pk_from_sig recovers the public key, for any address that has the same first bytes and
    the same key pair. *)
Theorem C62_any_address : forall im robust P u, i_ok im P ->
  let HS := i_suite im robust P u in
  let l := hs_layout HS in
  let p := (SPX_OFFSET_TREE l + 8)%nat in
  forall ps ss, length ps = p_n P -> length ss = p_n P ->
  forall fa fa2 sig0 md core,
  length fa = SPX_ADDR_BYTES -> all_bytes fa -> length fa2 = SPX_ADDR_BYTES -> all_bytes fa2 ->
  firstn p fa = firstn p fa2
    /\ firstn 4 (skipn (SPX_OFFSET_KP_ADDR l) fa) = firstn 4 (skipn (SPX_OFFSET_KP_ADDR l) fa2) ->
  length sig0 = SPX_FORS_BYTES P -> all_bytes md -> length md = SPX_FORS_MSG_BYTES P ->
  let hashed a := firstn p fa ++ skipn p (enc l a) in
  let T a x := opt_bytes (hs_thash HS (code_ctx HS ps ss) (length x / p_n P)%nat x (hashed a)) in
  let PRF a := opt_bytes (hs_prf_addr HS (code_ctx HS ps ss) (hashed a)) in
  let kp := be_val (firstn 4 (skipn (SPX_OFFSET_KP_ADDR l) fa)) in
  exists sig pk, i_fors_sign im robust P u ps ss sig0 md fa = Some (sig, pk)
    /\ length sig = SPX_FORS_BYTES P /\ length pk = p_n P
    /\ sig = concat (Spec.fors_sign (dims_of P) T PRF 0 kp md)
    /\ pk = fors_pk (dims_of P) T PRF 0 kp
    /\ i_fors_pk_from_sig im robust P u core ps ss sig md fa2 = Some pk.
Proof. exact i_fors_round. Qed.
Theorem C62_fors_test : forall im robust P u junk junk' stream, i_ok im P -> all_bytes stream ->
  (2 * p_n P + SPX_FORS_MSG_BYTES P + 32 <= length stream)%nat -> fors_test im robust P u junk junk' stream = Some 0.
Proof. exact fors_test_passes. Qed.

Print Assumptions C61_thashx4.
Print Assumptions C61_thashx8.
Print Assumptions C61_thashx2_refuted.
Print Assumptions C61_thashx2_fixed.
Print Assumptions C61_verdict.
Print Assumptions C62_any_address.
Print Assumptions C62_fors_test.

(** ** Cases *)
Definition some_stream (n : nat) : bytes := map (fun i => Z.of_nat (i * i mod 251)) (seq 3 n).
Example C61_params : forall P, In P all_params ->
  wf_params P = true /\ o_n ShakeAvx2 P /\ o_n ShakeA64 P /\ o_n Sha2Avx2 P /\ forall im, i_ok im P.
Proof.
  intros P H. pose proof (fun im => i_params im P H) as K. split; [exact (proj1 (K (Ref SHA2)))|].
  split; [exact (proj1 (proj2 (K (Opt ShakeAvx2))))|]. split; [exact (proj1 (proj2 (K (Opt ShakeA64))))|].
  split; [exact (proj1 (proj2 (K (Opt Sha2Avx2))))|exact K].
Qed.
(** For one stream. *)
Example C61_case : forall u, thashx4_test true params_128f u (some_stream 208) = Some 0 /\ thashx2_test true params_128f u (some_stream 208) = None.
Proof.
  intros u. destruct (C61_params params_128f) as (Hw & H4 & _); [now right; left|].
  split; [apply C61_thashx4; auto; apply Nat.leb_le; vm_compute; reflexivity|now apply C61_thashx2_refuted].
Qed.
Local Notation tP := params_toy.
Local Notation tS := (toy_suite params_toy).
Local Notation tc := (mkCtx [1; 2] [3; 4] tt : ctx (hs_st tS)).
(** Lane functions that compute every lane with the address of lane 0: found. *)
Definition lane0_addr : lane_fns tS := mkLanes
  (fun c k ins ads => mapM2 (hs_thash tS c k) ins (map (fun _ => nth 0 ads (repeat 0 32)) ads)) (fun c ads => mapM (hs_prf_addr tS c) ads).
Example C61_verdict_case : lanes_total tP tS lane0_addr 1
  /\ thash_program tP tS lane0_addr 1 toy_junk 2 2 [1%nat] (some_stream 70) = Some (-1).
Proof.
  split; [|vm_compute; reflexivity].
  intros c k ins ads Hc L1 L2 F1 F2. destruct ins as [|x [|y [|]]]; try discriminate L1. destruct ads as [|a [|b [|]]]; try discriminate L2.
  inversion_clear F1 as [|? ? X F]. inversion_clear F as [|? ? Y F']. inversion_clear F2 as [|? ? A _].
  destruct (ok_thash _ _ (toy_suite_ok tP) c k x a Hc X A) as (d & Ed & Ld).
  destruct (ok_thash _ _ (toy_suite_ok tP) c k y a Hc Y A) as (e & Ee & Le).
  exists [d; e]. split; [|split; [reflexivity|auto]]. cbn [lane0_addr lx_thash map nth mapM2]. rewrite Ed. cbn [bind]. rewrite Ee. reflexivity.
Qed.
(** An address with no zero byte; the byte of the type is another one in verification. *)
Example C62_case :
  (r <- Fors.fors_sign tP tS tc toy_junk (repeat 0 18) [229] (map (fun i => 7 * Z.of_nat i) (seq 1 32)) ;;
   let '(sig, pk) := r in
   pk' <- fors_pk_from_sig tP tS tc toy_junk sig [229] (map (fun i => if (i =? 10)%nat then 99 else 7 * Z.of_nat i) (seq 1 32)) ;;
   Some (if list_eq_dec Z.eq_dec pk pk' then true else false)) = Some true.
Proof. vm_compute. reflexivity. Qed.
