(** C73: the integer expressions of ref/sha2.c and ref/fips202.c under the rules of C.  Theorems only.

    CSha2.v and CFips202.v transcribe the two files with each variable in its declared type and each expression as it is written
    (CInt.v gives the promotions, conversions and undefined cases); lengths are 64-bit numbers.  The theorems say that
    this text is defined and computes the functions of FIPS 180-4, RFC 8017 and FIPS 202. *)
From Verif Require Import Base CInt Sha2Spec Sha2 HashSpec Sha2Proofs KeccakSpec Fips202 ShakeProofs CSha2 CFips202 CSha2Proofs CFips202Proofs CHashRuns.

(** ** SHA-256 and SHA-512; [e] is whatever expression the caller passes as the length *)
Theorem C73_sha256 : forall junk inp e, all_bytes inp -> asg U64 e = Some (Z.of_nat (length inp)) -> Z.of_nat (length inp) < 2 ^ 64 ->
  sha256_c junk inp e = Some (SHA256 inp).
Proof. exact sha256_c_bytes. Qed.
Print Assumptions C73_sha256.
Theorem C73_sha512 : forall junk inp e, all_bytes inp -> asg U64 e = Some (Z.of_nat (length inp)) -> Z.of_nat (length inp) < 2 ^ 64 ->
  sha512_c junk inp e = Some (SHA512 inp).
Proof. exact sha512_c_bytes. Qed.
Print Assumptions C73_sha512.
(** Any calls of the block functions (the byte counts below 2^64 each; they may well add up to more for SHA-256, whose
    length field is taken mod 2^64 by FIPS 180-4's encoding too), then finalize *)
Theorem C73_sha256_incremental : forall junk calls m,
  Forall (fun p => (64 * snd p <= length (fst p))%nat) calls -> Forall (fun p => 64 * Z.of_nat (snd p) < 2 ^ 64) calls ->
  Forall (fun p => all_bytes (fst p)) calls -> all_bytes m -> Z.of_nat (length m) < 2 ^ 64 ->
  (st <- run_blocks (fun st x k => sha256_inc_blocks_c st x (Z.of_nat k)) sha256_inc_init calls ;;
   sha256_inc_finalize_c junk st m (Z.of_nat (length m)))
  = Some (SHA256 (flat_map (fun p => firstn (64 * snd p) (fst p)) calls ++ m)).
Proof. exact sha256_inc_c_bytes. Qed.
Print Assumptions C73_sha256_incremental.
Theorem C73_sha512_incremental : forall junk calls m,
  Forall (fun p => (128 * snd p <= length (fst p))%nat) calls -> Forall (fun p => 128 * Z.of_nat (snd p) < 2 ^ 64) calls ->
  Forall (fun p => all_bytes (fst p)) calls -> all_bytes m ->
  Z.of_nat (length (flat_map (fun p => firstn (128 * snd p) (fst p)) calls ++ m)) < 2 ^ 64 ->
  (st <- run_blocks (fun st x k => sha512_inc_blocks_c st x (Z.of_nat k)) sha512_inc_init calls ;;
   sha512_inc_finalize_c junk st m (Z.of_nat (length m)))
  = Some (SHA512 (flat_map (fun p => firstn (128 * snd p) (fst p)) calls ++ m)).
Proof. exact sha512_inc_c_bytes. Qed.
Print Assumptions C73_sha512_incremental.
(** MGF1 *)
Theorem C73_mgf1_256 : forall junk outlen inp, all_bytes inp -> Z.of_nat outlen + 64 < 2 ^ 64 -> Z.of_nat (length inp) + 4 < 2 ^ 64 ->
  mgf1_256_c junk (Z.of_nat outlen) inp (Z.of_nat (length inp)) = Some (mgf1_of SHA256 32 inp outlen).
Proof. exact mgf1_256_c_bytes. Qed.
Print Assumptions C73_mgf1_256.
Theorem C73_mgf1_512 : forall junk outlen inp, all_bytes inp -> Z.of_nat outlen + 64 < 2 ^ 64 -> Z.of_nat (length inp) + 4 < 2 ^ 64 ->
  mgf1_512_c junk (Z.of_nat outlen) inp (Z.of_nat (length inp)) = Some (mgf1_of SHA512 64 inp outlen).
Proof. exact mgf1_512_c_bytes. Qed.
Print Assumptions C73_mgf1_512.

(** ** SHAKE256: [s0], [t0] are the uninitialised local arrays *)
Theorem C73_shake256 : forall s0 t0 outlen inp, length s0 = 25%nat -> length t0 = 200%nat -> all_bytes inp ->
  Z.of_nat outlen < 2 ^ 64 -> Z.of_nat (length inp) < 2 ^ 64 ->
  shake256_c s0 t0 (Z.of_nat outlen) inp (Z.of_nat (length inp)) = Some (SHAKE256 inp outlen).
Proof. exact shake256_c_bytes. Qed.
Print Assumptions C73_shake256.
(** Any absorb calls, finalize, any squeeze calls.  The 200 keeps [mlen + s_inc[25]] below 2^64. *)
Theorem C73_shake256_incremental : forall s0 chunks lens, length s0 = 26%nat -> Forall all_bytes chunks ->
  Forall (fun m => Z.of_nat (length m) + 200 < 2 ^ 64) chunks -> Forall (fun n => Z.of_nat n < 2 ^ 64) lens ->
  shake256_run_c s0 chunks lens = Some (pieces (SHAKE256 (concat chunks) (total lens)) lens).
Proof. exact shake256_run_c_bytes. Qed.
Print Assumptions C73_shake256_incremental.

(** ** Cases *)
Example C73_sha2_run : sha256_c (fun i => Z.of_nat i) [97; 98; 99] (V U64 3) = Some (SHA256 [97; 98; 99])
  /\ sha512_c (fun i => Z.of_nat i) [97; 98; 99] (K 3) = Some (SHA512 [97; 98; 99])
  /\ mgf1_256_c (fun i => 7) 65 [97; 98] 2 = Some (mgf1_of SHA256 32 [97; 98] 65).
Proof.
  assert (B : all_bytes [97; 98; 99]) by (repeat constructor; unfold is_byte; lia).
  assert (B2 : all_bytes [97; 98]) by (repeat constructor; unfold is_byte; lia).
  split; [apply C73_sha256; [exact B|reflexivity|cbn; lia]|].
  split; [apply C73_sha512; [exact B|reflexivity|cbn; lia]|].
  apply (C73_mgf1_256 (fun _ => 7) 65 [97; 98]); [exact B2|cbn; lia|cbn; lia].
Qed.
(** A block of the first call's buffer is left over, the second call has one block, two more bytes at the end *)
Example C73_sha2_incremental_run :
  (st <- run_blocks (fun st x k => sha256_inc_blocks_c st x (Z.of_nat k)) sha256_inc_init [(repeat 0 194, 2%nat); (repeat 0 64, 1%nat)] ;;
   sha256_inc_finalize_c (fun _ => 5) st [1; 2] 2) = Some (SHA256 (repeat 0 192 ++ [1; 2])).
Proof.
  assert (B : forall n, all_bytes (repeat 0 n)) by (intros n; apply Forall_forall; intros x Hx; apply repeat_spec in Hx; subst; unfold is_byte; lia).
  apply (C73_sha256_incremental (fun _ => 5) [(repeat 0 194, 2%nat); (repeat 0 64, 1%nat)] [1; 2]).
  - repeat constructor; cbn; lia.
  - repeat constructor; cbn [snd]; lia.
  - constructor; [apply B|constructor; [apply B|constructor]].
  - repeat constructor; unfold is_byte; lia.
  - cbn; lia.
Qed.
Example C73_shake_run : shake256_run_c (repeat 9 26) [[1; 2; 3]; []; repeat 5 140] [3%nat; 0%nat; 137%nat]
  = Some (pieces (SHAKE256 ([1; 2; 3] ++ repeat 5 140) 140) [3%nat; 0%nat; 137%nat])
  /\ shake256_c (repeat 9 25) (repeat 7 200) 200 [1] 1 = Some (SHAKE256 [1] 200).
Proof.
  split.
  - assert (B : all_bytes (repeat 5 140)) by (apply Forall_forall; intros x Hx; apply repeat_spec in Hx; subst; unfold is_byte; lia).
    apply (C73_shake256_incremental (repeat 9 26) [[1; 2; 3]; []; repeat 5 140] [3%nat; 0%nat; 137%nat]); [reflexivity| | |].
    + repeat constructor; auto; unfold is_byte; lia.
    + repeat constructor; cbn; lia.
    + repeat constructor; cbn; lia.
  - apply (C73_shake256 (repeat 9 25) (repeat 7 200) 200 [1]); [reflexivity|reflexivity| |cbn; lia|cbn; lia].
    repeat constructor; unfold is_byte; lia.
Qed.
