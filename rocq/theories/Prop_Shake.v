(** Properties of the SHAKE256 code and of the SHAKE builds' hash functions (C33, C34, C35; SHAKE part
    of C39 and C50).  Theorems only; proofs are elsewhere. *)
From Verif Require Import Base Params Suite Address Spec Refine HashSpec KeccakSpec Fips202 KeccakProofs
  ShakeProofs HashShake HashShakeProofs.

(** C35: KeccakF1600_StatePermute is Keccak-f[1600] of FIPS 202 on every state: the words stay 64-bit,
    anything after the 25 words is untouched, and bit (x,y,z) of the result is bit (x,y,z) of keccak_f
    of the state. *)
Theorem C35_keccak_f1600 : forall s t, length s = 25%nat -> Forall (fun w => 0 <= w < 2 ^ 64) s ->
  exists s', KeccakF1600_StatePermute (s ++ t) = Some (s' ++ t)
    /\ length s' = 25%nat /\ Forall (fun w => 0 <= w < 2 ^ 64) s'
    /\ forall x y z, (x < 5)%nat -> (y < 5)%nat -> 0 <= z < 64 ->
         Z.testbit (nth (5 * y + x) s' 0) z
         = keccak_f (fun x y z => Z.testbit (nth (5 * y + x) s 0) z) x y z.
Proof. exact permute_bits. Qed.
Print Assumptions C35_keccak_f1600.
(** A state meeting the hypotheses; the first word of the permuted zero state is the published one. *)
Example C35_zero_state :
  length (repeat 0 25) = 25%nat /\ forallb (fun w => (0 <=? w) && (w <? 2 ^ 64)) (repeat 0 25) = true
  /\ (s <- KeccakF1600_StatePermute (repeat 0 25) ;; get s 0) = Some 0xF1258F7940E1DDE7.
Proof. vm_compute. auto. Qed.

(** C33: the one-shot function, for every input and output length, whatever was in the local array. *)
Theorem C33_shake256 : forall t0 outlen inp, length t0 = 200%nat -> all_bytes inp ->
  shake256 t0 outlen inp = Some (SHAKE256 inp outlen).
Proof. exact shake256_ok. Qed.
Print Assumptions C33_shake256.
(** The byte-level padding of [SHAKE256] is M || 1111 || pad10*1 of FIPS 202. *)
Theorem C33_padding : forall m,
  bits_of_bytes (m ++ pad 136 0x1F (length m))
  = bits_of_bytes m ++ [true; true; true; true] ++ pad10star1 1088 (8 * length m + 4).
Proof. exact shake_pad_bits. Qed.
Print Assumptions C33_padding.
(** SHAKE256 of the empty string (FIPS 202 example), with nonzero garbage in the local array. *)
Example C33_empty : shake256 (repeat 7 200) 8 [] = Some [0x46; 0xb9; 0xdd; 0x2b; 0x0b; 0xa8; 0x8d; 0x13].
Proof. vm_compute. reflexivity. Qed.

(** C34: any absorb calls, finalize, any squeeze calls: the outputs are consecutive pieces of the
    one-shot output on the concatenated input. *)
Theorem C34_incremental : forall t0 chunks lens, length t0 = 200%nat -> Forall all_bytes chunks ->
  exists out, shake256 t0 (total lens) (concat chunks) = Some out
    /\ shake256_inc chunks lens = Some (pieces out lens).
Proof. exact shake256_inc_oneshot. Qed.
Print Assumptions C34_incremental.
Example C34_run : shake256_inc [[1; 2; 3]; []; repeat 5 140] [3%nat; 0%nat; 137%nat; 4%nat] <> None
  /\ shake256_inc [[]] [2%nat; 3%nat] = Some [[0x46; 0xb9]; [0xdd; 0x2b; 0x0b]].
Proof. split; [vm_compute; discriminate|vm_compute; reflexivity]. Qed.

Section Builds.
Variable P : params.
Variable junk : nat -> nat -> Z.
Notation N := (p_n P).
Hypothesis Hwf : wf_params P = true.

(** The SHAKE builds meet the interface of the core, so the theorems of Prop_Api.v apply to them. *)
Theorem C39_shake_suite_ok : forall robust, suite_ok P (shake_suite P junk robust).
Proof. exact (shake_suite_ok P junk Hwf). Qed.

(** C39: thash of the SHAKE builds, for every number of blocks and any placement (overlapping or not)
    of in and out in memory: out receives the construction of the specification applied to what in
    pointed to before the call, and nothing else changes. *)
Theorem C39_shake_thash : forall robust (c : ctx unit) k addr mem out inp,
  length (c_pub_seed c) = N -> length addr = SPX_ADDR_BYTES ->
  all_bytes (c_pub_seed c) -> all_bytes addr -> all_bytes mem ->
  (inp + k * N <= length mem)%nat -> (out + N <= length mem)%nat ->
  let d := shake_T N robust (c_pub_seed c) addr (firstn (k * N) (skipn inp mem)) in
  length d = N
  /\ shake_thash P junk robust c k addr mem out inp
     = Some (firstn out mem ++ d ++ skipn (out + N) mem).
Proof. exact (shake_thash_bytes P junk). Qed.

(** C50 (and the SHAKE hash_message): the digest of the specification, split exactly. *)
Theorem C50_shake_hash_message : forall (c : ctx unit) R pk m,
  length R = N -> length pk = SPX_PK_BYTES P -> all_bytes R -> all_bytes pk -> all_bytes m ->
  shake_hash_message P c R pk m
  = Some (split_digest_spec (dims_of P) (SHAKE256 (R ++ pk ++ m) (SPX_DGST_BYTES P))).
Proof. exact (shake_msg_bytes P Hwf). Qed.
Theorem C50_split : forall buf, all_bytes buf -> length buf = SPX_DGST_BYTES P ->
  split_digest P buf = Some (split_digest_spec (dims_of P) buf).
Proof. exact (split_digest_ok P Hwf). Qed.

(** The other two functions of the SHAKE builds. *)
Theorem C39_shake_prf : forall (c : ctx unit) addr,
  length (c_pub_seed c) = N -> length (c_sk_seed c) = N -> length addr = SPX_ADDR_BYTES ->
  all_bytes (c_pub_seed c) -> all_bytes (c_sk_seed c) -> all_bytes addr ->
  shake_prf_addr P junk c addr = Some (shake_PRF N (c_pub_seed c) (c_sk_seed c) addr).
Proof. exact (shake_prf_bytes P junk). Qed.
Theorem C39_shake_random : forall (c : ctx unit) sk_prf optrand m,
  length sk_prf = N -> length optrand = N -> all_bytes sk_prf -> all_bytes optrand -> all_bytes m ->
  shake_gen_message_random P c sk_prf optrand m = Some (shake_PRFmsg N sk_prf optrand m).
Proof. exact (shake_rand_bytes P). Qed.
End Builds.
Print Assumptions C39_shake_suite_ok.
Print Assumptions C39_shake_thash.
Print Assumptions C50_shake_hash_message.
Print Assumptions C50_split.
Print Assumptions C39_shake_prf.
Print Assumptions C39_shake_random.

(** In place, 2-byte hashes: in and out at the same address. *)
Example C39_in_place :
  let c := mkCtx [1; 2] [3; 4] tt in
  let junk := fun i j => Z.of_nat (i + j) in
  let addr := repeat 9 32 in
  let mem := [10; 11; 12; 13; 14] in
  (m1 <- shake_thash params_toy junk true c 2 addr mem 1 1 ;;
   m2 <- shake_thash params_toy junk true c 2 addr (mem ++ [0; 0]) 5 1 ;;
   a <- rd m1 1 2 ;; b <- rd m2 5 2 ;; Some (if list_eq_dec Z.eq_dec a b then true else false, length m1)) = Some (true, 5%nat).
Proof. vm_compute. reflexivity. Qed.
(** D = 1 (no tree bits) and TREE_BITS = 64 are both accepted parameter shapes. *)
Example C50_corner_cases :
  wf_params (mkParams 16 8 1 6 33 4) = true /\ SPX_TREE_BITS (mkParams 16 8 1 6 33 4) = O
  /\ wf_params (mkParams 16 72 9 6 33 4) = true /\ SPX_TREE_BITS (mkParams 16 72 9 6 33 4) = 64%nat
  /\ split_digest (mkParams 16 8 1 6 33 4) (repeat 1 25 ++ [0xAB]) = Some (repeat 1 25, 0, 0xAB)
  /\ split_digest (mkParams 16 72 9 6 33 4) (repeat 1 25 ++ repeat 255 8 ++ [0xAB])
     = Some (repeat 1 25, 2 ^ 64 - 1, 0xAB).
Proof. vm_compute. auto 10. Qed.
