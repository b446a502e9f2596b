(** Properties of ref/sha2.c and of the SHA-2 builds' hash functions (C28-C32, C36; SHA-2 part of C39
    and C50).  Theorems only; proofs are elsewhere. *)
From Verif Require Import Base Params Suite Address Spec Refine Sha2Spec Sha2 HashSpec Sha2Proofs HashShake
  HashSha2 HashSha2Proofs SignProofs.

(** C28: SHA-256, one call, for every byte string, whatever was in the local array. *)
Theorem C28_sha256 : forall junk inp, all_bytes inp -> sha256 junk inp = Some (SHA256 inp).
Proof. exact sha256_bytes. Qed.
Print Assumptions C28_sha256.
(** C28: any sequence of sha256_inc_blocks calls (pointer to at least [snd p] blocks), then finalize. *)
Theorem C28_sha256_incremental : forall junk calls m,
  Forall (fun p => (64 * snd p <= length (fst p))%nat) calls -> Forall (fun p => all_bytes (fst p)) calls -> all_bytes m ->
  (st <- run_blocks sha256_inc_blocks sha256_inc_init calls ;; sha256_inc_finalize junk st m)
  = Some (SHA256 (flat_map (fun p => firstn (64 * snd p) (fst p)) calls ++ m)).
Proof. exact sha256_inc_bytes. Qed.
Print Assumptions C28_sha256_incremental.
(** FIPS 180-4's "abc", and the same through the incremental functions for a block of zeros. *)
Example C28_abc : (d <- sha256 (fun i => Z.of_nat i) [97; 98; 99] ;; Some (firstn 8 d))
  = Some [0xba; 0x78; 0x16; 0xbf; 0x8f; 0x01; 0xcf; 0xea].
Proof. vm_compute. reflexivity. Qed.
Example C28_incremental_run :
  (st <- run_blocks sha256_inc_blocks sha256_inc_init [(repeat 0 130, 2%nat); (repeat 0 64, 1%nat)] ;;
   sha256_inc_finalize (fun _ => 0) st [1; 2]) = sha256 (fun _ => 9) (repeat 0 192 ++ [1; 2])
  /\ sha256 (fun _ => 9) (repeat 0 192 ++ [1; 2]) <> None.
Proof.
  assert (B : forall n, all_bytes (repeat 0 n)) by (intros n; apply Forall_forall; intros x Hx; apply repeat_spec in Hx; subst; unfold is_byte; lia).
  rewrite C28_sha256_incremental, C28_sha256; [split; [reflexivity|discriminate]|..].
  - apply Forall_app. split; [apply B|repeat constructor; unfold is_byte; lia].
  - repeat constructor; cbn; lia.
  - constructor; [apply B|constructor; [apply B|constructor]].
  - repeat constructor; unfold is_byte; lia.
Qed.

(** C29: SHA-512.  The C counter is 64 bits wide, hence the bound (the FIPS limit is 2^125 bytes). *)
Theorem C29_sha512 : forall junk inp, all_bytes inp -> Z.of_nat (length inp) < 2 ^ 64 ->
  sha512 junk inp = Some (SHA512 inp).
Proof. exact sha512_bytes. Qed.
Print Assumptions C29_sha512.
Theorem C29_sha512_incremental : forall junk calls m,
  Forall (fun p => (128 * snd p <= length (fst p))%nat) calls -> Forall (fun p => all_bytes (fst p)) calls -> all_bytes m ->
  Z.of_nat (length (flat_map (fun p => firstn (128 * snd p) (fst p)) calls ++ m)) < 2 ^ 64 ->
  (st <- run_blocks sha512_inc_blocks sha512_inc_init calls ;; sha512_inc_finalize junk st m)
  = Some (SHA512 (flat_map (fun p => firstn (128 * snd p) (fst p)) calls ++ m)).
Proof. exact sha512_inc_bytes. Qed.
Print Assumptions C29_sha512_incremental.
Example C29_abc : (d <- sha512 (fun i => Z.of_nat i) [97; 98; 99] ;; Some (firstn 8 d))
  = Some [0xdd; 0xaf; 0x35; 0xa1; 0x93; 0x61; 0x7a; 0xba].
Proof. vm_compute. reflexivity. Qed.

(** C30: MGF1, every output length. *)
Theorem C30_mgf1_256 : forall junk outlen inp, all_bytes inp ->
  mgf1_256 junk outlen inp = Some (mgf1_of SHA256 32 inp outlen).
Proof. exact mgf1_256_bytes. Qed.
Print Assumptions C30_mgf1_256.
Theorem C30_mgf1_512 : forall junk outlen inp, all_bytes inp -> Z.of_nat (length inp) + 4 < 2 ^ 64 ->
  mgf1_512 junk outlen inp = Some (mgf1_of SHA512 64 inp outlen).
Proof. exact mgf1_512_bytes. Qed.
Print Assumptions C30_mgf1_512.
(** Exactly outlen bytes, and shorter outputs are prefixes of longer ones. *)
Theorem C30_prefix_256 : forall junk a b inp out, (a <= b)%nat -> mgf1_256 junk b inp = Some out ->
  length out = b /\ mgf1_256 junk a inp = Some (firstn a out).
Proof. exact mgf1_256_prefix. Qed.
Print Assumptions C30_prefix_256.
Theorem C30_prefix_512 : forall junk a b inp out, (a <= b)%nat -> mgf1_512 junk b inp = Some out ->
  length out = b /\ mgf1_512 junk a inp = Some (firstn a out).
Proof. exact mgf1_512_prefix. Qed.
Print Assumptions C30_prefix_512.
(** A multiple of the block size, and one byte more. *)
Example C30_run : forall junk, exists out, mgf1_256 junk 65 [5; 6] = Some out /\ length out = 65%nat
  /\ mgf1_256 junk 64 [5; 6] = Some (firstn 64 out).
Proof.
  intros junk. assert (B : all_bytes [5; 6]) by (repeat constructor; unfold is_byte; lia).
  pose proof (C30_mgf1_256 junk 65 [5; 6] B) as E. eexists. split; [exact E|].
  apply (C30_prefix_256 junk 64 65 [5; 6] _); [lia|exact E].
Qed.

Section Builds.
Variable P : params.
Variable junk : nat -> nat -> Z.
Notation N := (p_n P).
Hypothesis Hn : (N <= 32)%nat.
Hypothesis Hwf : wf_params P = true.

(** The SHA-2 builds meet the interface of the core, so the theorems of Prop_Api.v apply to them. *)
Theorem C39_sha2_suite_ok : forall robust, suite_ok P (sha2_suite P junk robust).
Proof. exact (sha2_suite_ok P junk Hn Hwf). Qed.

(** C39: thash of the SHA-2 builds, any number of blocks, any placement of in and out. *)
Theorem C39_sha2_thash : forall robust (c : ctx seeds) k addr mem out inp,
  ctx_ok P (sha2_suite P junk robust) c -> length addr = SPX_ADDR_BYTES ->
  all_bytes (c_pub_seed c) -> all_bytes addr -> all_bytes mem ->
  (inp + k * N <= length mem)%nat -> (out + N <= length mem)%nat -> Z.of_nat (k * N) < 2 ^ 63 ->
  let d := sha2_T N robust (c_pub_seed c) (firstn 22 addr) (firstn (k * N) (skipn inp mem)) in
  length d = N
  /\ sha2_thash P junk robust c k addr mem out inp
     = Some (firstn out mem ++ d ++ skipn (out + N) mem).
Proof. exact (sha2_thash_bytes P junk Hn Hwf). Qed.
Theorem C39_sha2_prf : forall robust (c : ctx seeds) addr,
  ctx_ok P (sha2_suite P junk robust) c -> length addr = SPX_ADDR_BYTES ->
  all_bytes (c_pub_seed c) -> all_bytes (c_sk_seed c) -> all_bytes addr ->
  sha2_prf_addr P junk c addr = Some (sha2_PRF N (c_pub_seed c) (c_sk_seed c) (firstn 22 addr)).
Proof. exact (sha2_prf_bytes P junk Hn). Qed.

(** C31: gen_message_random is HMAC, every message length. *)
Theorem C31_hmac : forall (c : ctx seeds) sk_prf optrand m,
  length sk_prf = N -> length optrand = N -> Z.of_nat (length m) < 2 ^ 63 ->
  all_bytes sk_prf -> all_bytes optrand -> all_bytes m ->
  sha2_gen_message_random P junk c sk_prf optrand m
  = Some (firstn N (if (24 <=? N)%nat then hmac_of SHA512 128 sk_prf (optrand ++ m)
                    else hmac_of SHA256 64 sk_prf (optrand ++ m))).
Proof. exact (sha2_rand_hmac P junk Hn). Qed.

(** C32, C50: hash_message, every message length. *)
Theorem C32_hash_message : forall (c : ctx seeds) R pk m,
  length R = N -> length pk = SPX_PK_BYTES P -> Z.of_nat (length m) < 2 ^ 63 ->
  all_bytes R -> all_bytes pk -> all_bytes m ->
  sha2_hash_message P junk c R pk m
  = Some (split_digest_spec (dims_of P)
      (if (24 <=? N)%nat
       then mgf1_of SHA512 64 (R ++ firstn N pk ++ SHA512 (R ++ pk ++ m)) (SPX_DGST_BYTES P)
       else mgf1_of SHA256 32 (R ++ firstn N pk ++ SHA256 (R ++ pk ++ m)) (SPX_DGST_BYTES P))).
Proof. exact (sha2_msg_mgf1 P junk Hn Hwf). Qed.

(** C36: continuing from a cached state is hashing the padded seed and the rest from scratch. *)
Theorem C36_seed_state : forall ps, length ps = N -> all_bytes ps ->
  exists s256 s512, seed_state P junk ps = Some (s256, s512)
    /\ (forall x, all_bytes x -> sha256_inc_finalize (junk 200%nat) s256 x = sha256 (junk 200%nat) (ps ++ repeat 0 (64 - N) ++ x))
    /\ ((24 <=? N)%nat = true -> forall x, all_bytes x ->
        sha512_inc_finalize (junk 200%nat) s512 x = sha512 (junk 200%nat) (ps ++ repeat 0 (128 - N) ++ x)).
Proof. exact (seed_state_cached P junk Hn). Qed.
End Builds.
Print Assumptions C39_sha2_suite_ok.
Print Assumptions C39_sha2_thash.
Print Assumptions C39_sha2_prf.
Print Assumptions C31_hmac.
Print Assumptions C32_hash_message.
Print Assumptions C36_seed_state.

(** Every parameter set of the repository meets the two hypotheses. *)
Example C39_sha2_params : forallb (fun P => wf_params P && (p_n P <=? 32)%nat) all_params = true.
Proof. vm_compute. reflexivity. Qed.
(** In place on the 192-bit set (SHA-512 for two blocks), robust. *)
Example C39_sha2_in_place : forall junk,
  let P := params_192s in
  let ps := repeat 3 24 in
  let c := code_ctx (sha2_suite P junk true) ps (repeat 4 24) in
  let addr := repeat 9 32 in
  let mem := repeat 1 60 in
  exists d, length d = 24%nat
  /\ sha2_thash P junk true c 2 addr mem 1 1 = Some ([1] ++ d ++ repeat 1 35)
  /\ sha2_thash P junk true c 2 addr (mem ++ repeat 0 24) 60 1 = Some (mem ++ d).
Proof.
  intros junk P ps c addr mem.
  assert (B : forall b n, 0 <= b < 256 -> all_bytes (repeat b n))
    by (intros b n Hb; apply Forall_forall; intros x Hx; apply repeat_spec in Hx; subst; exact Hb).
  assert (HN : (p_n P <= 32)%nat) by (cbn; lia).
  assert (OK : ctx_ok P (sha2_suite P junk true) c) by (apply code_ctx_ok; reflexivity).
  destruct (C39_sha2_thash P junk HN eq_refl true c 2 addr mem 1 1 OK) as [L E];
    [reflexivity|apply B; lia|apply B; lia|apply B; lia|cbn; lia|cbn; lia|reflexivity|].
  destruct (C39_sha2_thash P junk HN eq_refl true c 2 addr (mem ++ repeat 0 24) 60 1 OK) as [_ E'];
    [reflexivity|apply B; lia|apply B; lia|apply Forall_app; split; apply B; lia|cbn; lia|cbn; lia|reflexivity|].
  eexists. split; [exact L|]. split; [exact E|].
  exact (eq_trans E' (f_equal (fun d => Some (mem ++ d)) (app_nil_r _))).
Qed.
(** gen_message_random at the boundary: optrand and message just fill a block, and one byte less. *)
Example C31_boundary : forall junk,
  let P := params_128s in
  let c : ctx seeds := mkCtx [] [] None in
  let f := fun n => sha2_gen_message_random P junk c (repeat 7 16) (repeat 8 16) (repeat 5 n) in
  let g := fun n => Some (firstn 16 (hmac_of SHA256 64 (repeat 7 16) (repeat 8 16 ++ repeat 5 n))) in
  f 48%nat = g 48%nat /\ f 47%nat = g 47%nat.
Proof.
  intros junk P c f g.
  assert (B : forall b n, 0 <= b < 256 -> all_bytes (repeat b n))
    by (intros b n Hb; apply Forall_forall; intros x Hx; apply repeat_spec in Hx; subst; exact Hb).
  assert (HN : (p_n P <= 32)%nat) by (cbn; lia).
  assert (E : forall n, Z.of_nat n < 2 ^ 63 -> f n = g n).
  { intros n Hn. unfold f, g. rewrite (C31_hmac P junk HN); [reflexivity|reflexivity|reflexivity| |apply B; lia..].
    now rewrite repeat_length. }
  split; apply E; reflexivity.
Qed.
