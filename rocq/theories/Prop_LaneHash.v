(** The multi-lane hash code: C43, C44, C51, C52, C53.  Theorems only.

    A vector is a function from lane numbers to words; [perm], [junk], [vj] and [u] stand for whatever
    uninitialised memory and registers hold. *)
From Verif Require Import Base BaseFacts Params Address Suite Refine HashSpec BuildSpec KeccakSpec Fips202 ShakeProofs Shake128Spec SpongeFacts Sha2Spec Sha2 Sha2Proofs HarakaSpec Haraka
  Lanes LaneKeccak LaneKeccakProofs LaneShake LaneShakeOk LaneSha2 HarakaNi LaneHashForms OptBuild OptProofs BuildProofs.

(** ** C43: thashx2/x4/x8 and prf_addrx2/x4/x8 in each lane *)
Section LaneWise.
Variable o : opt_build.
Variable robust : bool.
Variable P : params.
Variable u : uninit.
Variable jh : nat -> nat -> Z.
Notation N := (p_n P).
Notation HS := (o_suite o robust P u).
Notation RS := (build (o_family o) robust P jh).
Hypothesis Hwf : wf_params P = true.
Hypothesis Hn : o_n o P.
(** The seeds in the two contexts are the same; the rest of a context is what each build's own
    initialize_hash_function makes of them. *)
Variables ps ss : bytes.
Hypothesis Hps : length ps = N.
Hypothesis Hss : length ss = N.

Theorem C43_thashx : forall k ins addrs, Z.of_nat (k * N) < 2 ^ 31 ->
  length ins = NL (o_lw o) -> length addrs = NL (o_lw o) ->
  Forall (fun x => length x = (k * N)%nat) ins -> Forall (fun a => length a = SPX_ADDR_BYTES) addrs ->
  lx_thash (o_lanes o robust P u) (code_ctx HS ps ss) k ins addrs
  = mapM2 (hs_thash RS (code_ctx RS ps ss) k) ins addrs.
Proof. exact (o_thashx_ref o robust P u Hwf Hn (code_ctx HS ps ss) (code_ctx_ok P HS ps ss Hps Hss) jh). Qed.

Theorem C43_prf_addrx : forall addrs,
  length addrs = NL (o_lw o) -> Forall (fun a => length a = SPX_ADDR_BYTES) addrs ->
  lx_prf_addr (o_lanes o robust P u) (code_ctx HS ps ss) addrs
  = mapM (hs_prf_addr RS (code_ctx RS ps ss)) addrs.
Proof. exact (o_prfx_ref o robust P u Hwf Hn (code_ctx HS ps ss) (code_ctx_ok P HS ps ss Hps Hss) jh). Qed.

(** The one-lane functions of the directories (shake-a64 computes thash with two equal lanes,
    haraka-aesni uses the AES instructions). *)
Theorem C43_thash : forall k i a, length a = SPX_ADDR_BYTES -> length i = (k * N)%nat ->
  hs_thash HS (code_ctx HS ps ss) k i a = hs_thash RS (code_ctx RS ps ss) k i a.
Proof. exact (o_thash_ref o robust P u Hwf Hn (code_ctx HS ps ss) (code_ctx_ok P HS ps ss Hps Hss) jh). Qed.
Theorem C43_prf_addr : forall a, length a = SPX_ADDR_BYTES ->
  hs_prf_addr HS (code_ctx HS ps ss) a = hs_prf_addr RS (code_ctx RS ps ss) a.
Proof. exact (o_prf_ref o robust P u Hwf Hn (code_ctx HS ps ss) (code_ctx_ok P HS ps ss Hps Hss) jh). Qed.
End LaneWise.
Print Assumptions C43_thashx.
Print Assumptions C43_prf_addrx.
Print Assumptions C43_thash.
Print Assumptions C43_prf_addr.
(** Four lanes of shake-avx2, 128f, robust, two blocks, four inputs and addresses. *)
Example C43_case : forall u,
  let ins := map (fun j => repeat (Z.of_nat j) 32) (seq 0 4) in
  let addrs := map (fun j => repeat (7 * Z.of_nat j) 32) (seq 0 4) in
  let c := code_ctx (build (o_family ShakeAvx2) true params_128f (fun _ _ => 0)) (repeat 1 16) (repeat 2 16) in
  lx_thash (o_lanes ShakeAvx2 true params_128f u) (code_ctx (o_suite ShakeAvx2 true params_128f u) (repeat 1 16) (repeat 2 16))
    2 ins addrs
  = mapM2 (hs_thash (build (o_family ShakeAvx2) true params_128f (fun _ _ => 0)) c 2) ins addrs.
Proof.
  intros u ins addrs c. apply (C43_thashx ShakeAvx2 true params_128f u (fun _ _ => 0)).
  - reflexivity.
  - split; [cbn; lia|reflexivity].
  - reflexivity.
  - reflexivity.
  - reflexivity.
  - reflexivity.
  - reflexivity.
  - unfold ins. repeat constructor.
  - unfold addrs. repeat constructor.
Qed.

(** ** C44: sha256avx.c, sha256x8.c, sha512x4.c *)
Section Sha2.
Variable junk vj : nat -> nat -> Z.
Theorem C44_sha256x8 : forall ins inlen, length ins = 8%nat -> Forall (fun x => length x = inlen) ins -> Forall all_bytes ins ->
  Z.of_nat inlen < 2 ^ 64 -> sha256x8 junk vj ins inlen = Some (map SHA256 ins).
Proof. exact (sha256x8_form junk vj). Qed.
(** The length passed on is 64-bit here; the loop index of _sha512x4 is an unsigned int, hence 2^32. *)
Theorem C44_sha512x4 : forall ins inlen, length ins = 4%nat -> Forall (fun x => length x = inlen) ins -> Forall all_bytes ins ->
  Z.of_nat inlen < 2 ^ 32 -> sha512x4 junk vj ins inlen = Some (map SHA512 ins).
Proof. exact (sha512x4_form junk vj). Qed.
(** Seeded with the state after any number of whole blocks, as the scalar code computes it. *)
Theorem C44_sha256x8_seeded : forall k pre st ins inlen, length pre = (64 * k)%nat -> all_bytes pre ->
  sha256_inc_blocks sha256_inc_init pre k = Some st ->
  length ins = 8%nat -> Forall (fun x => length x = inlen) ins -> Forall all_bytes ins -> Z.of_nat inlen < 2 ^ 64 ->
  sha256x8_seeded junk vj st (512 * Z.of_nat k) ins inlen = Some (map (fun x => SHA256 (pre ++ x)) ins).
Proof. exact (sha256x8_seeded_form junk vj). Qed.
Theorem C44_sha512x4_seeded : forall k pre st ins inlen, length pre = (128 * k)%nat -> all_bytes pre -> Z.of_nat (length pre) < 2 ^ 60 ->
  sha512_inc_blocks sha512_inc_init pre k = Some st ->
  length ins = 4%nat -> Forall (fun x => length x = inlen) ins -> Forall all_bytes ins -> Z.of_nat inlen < 2 ^ 32 ->
  sha512x4_seeded junk vj st (1024 * Z.of_nat k) ins inlen = Some (map (fun x => SHA512 (pre ++ x)) ins).
Proof. exact (sha512x4_seeded_form junk vj). Qed.
Theorem C44_mgf1x8 : forall outlen ins inlen, length ins = 8%nat -> Forall (fun x => inlen <= length x)%nat ins -> Forall all_bytes ins ->
  Z.of_nat inlen < 2 ^ 32 ->
  mgf1x8 junk vj outlen ins inlen = Some (map (fun x => mgf1_of SHA256 32 (firstn inlen x) outlen) ins).
Proof. exact (mgf1x8_form junk vj). Qed.
Theorem C44_mgf1x4_512 : forall outlen ins inlen, length ins = 4%nat -> Forall (fun x => inlen <= length x)%nat ins -> Forall all_bytes ins ->
  Z.of_nat inlen + 4 < 2 ^ 32 ->
  mgf1x4_512 junk vj outlen ins inlen = Some (map (fun x => mgf1_of SHA512 64 (firstn inlen x) outlen) ins).
Proof. exact (mgf1x4_512_form junk vj). Qed.
End Sha2.
Print Assumptions C44_sha256x8.
Print Assumptions C44_sha512x4.
Print Assumptions C44_sha256x8_seeded.
Print Assumptions C44_sha512x4_seeded.
Print Assumptions C44_mgf1x8.
Print Assumptions C44_mgf1x4_512.
(** "abc" in lane 3, other strings elsewhere. *)
Example C44_abc : forall junk vj,
  option_map (fun r => firstn 4 (nth 3 r []))
    (sha256x8 junk vj (map (fun j => [97 + (3 - Z.of_nat j); 98; 99]) (seq 0 8)) 3) = Some [0xba; 0x78; 0x16; 0xbf].
Proof.
  intros junk vj.
  assert (E2 : option_map (firstn 4) (sha256 (fun _ => 0) [97; 98; 99]) = Some [0xba; 0x78; 0x16; 0xbf]) by (vm_compute; reflexivity).
  rewrite sha256_bytes in E2 by (repeat constructor; unfold is_byte; lia).
  rewrite C44_sha256x8; [|reflexivity|repeat constructor| |reflexivity].
  { cbn [option_map] in E2 |- *. cbn [seq map nth]. exact E2. }
  repeat constructor; unfold is_byte; lia.
Qed.
Example C44_abc512 : forall junk vj,
  option_map (fun r => firstn 4 (nth 3 r []))
    (sha512x4 junk vj (map (fun j => [97 + (3 - Z.of_nat j); 98; 99]) (seq 0 4)) 3) = Some [0xdd; 0xaf; 0x35; 0xa1].
Proof.
  intros junk vj.
  assert (E2 : option_map (firstn 4) (sha512 (fun _ => 0) [97; 98; 99]) = Some [0xdd; 0xaf; 0x35; 0xa1]) by (vm_compute; reflexivity).
  rewrite sha512_bytes in E2; [|repeat constructor; unfold is_byte; lia|reflexivity].
  rewrite C44_sha512x4; [|reflexivity|repeat constructor| |reflexivity].
  { cbn [option_map] in E2 |- *. cbn [seq map nth]. exact E2. }
  repeat constructor; unfold is_byte; lia.
Qed.
(** A state after one block. *)
Example C44_seeded_case : forall junk vj, exists st,
  sha256_inc_blocks sha256_inc_init (repeat 5 64) 1 = Some st
  /\ option_map (map (firstn 2)) (sha256x8_seeded junk vj st 512 (map (fun j => [Z.of_nat j]) (seq 0 8)) 1)
     = Some (map (fun j => firstn 2 (SHA256 (repeat 5 64 ++ [Z.of_nat j]))) (seq 0 8)).
Proof.
  intros junk vj. destruct (sha256_inc_blocks sha256_inc_init (repeat 5 64) 1) as [st|] eqn:E; [|vm_compute in E; discriminate].
  exists st. split; [reflexivity|]. change 512 with (512 * Z.of_nat 1).
  rewrite (C44_sha256x8_seeded junk vj 1 (repeat 5 64)); try exact E; try reflexivity.
  - apply Forall_forall. intros x Hx. apply repeat_spec in Hx. subst. unfold is_byte. lia.
  - repeat constructor.
  - repeat constructor; unfold is_byte; lia.
Qed.

(** ** C51: the vector permutations: lane j of the result is Keccak-f[1600] of lane j *)
Theorem C51_times4 : forall s, length s = 25%nat ->
  (forall j, (j < 4)%nat -> Forall (fun v : vec => 0 <= v j < 2 ^ 64) s) ->
  exists s', KeccakP1600times4_PermuteAll_24rounds s = Some s' /\ length s' = 25%nat
    /\ forall j, (j < 4)%nat -> Forall (fun v : vec => 0 <= v j < 2 ^ 64) s'
    /\ forall x y z, (x < 5)%nat -> (y < 5)%nat -> 0 <= z < 64 ->
         Z.testbit (nth (5 * y + x) s' (fun _ => 0) j) z
         = keccak_f (fun x y z => Z.testbit (nth (5 * y + x) s (fun _ => 0) j) z) x y z.
Proof. exact (perm_bits_form 4 KeccakP1600times4_PermuteAll_24rounds times4_ok). Qed.
(** [r0]: the registers v25 to v31 when the assembly function is entered. *)
Theorem C51_f1600x2 : forall r0, length r0 = 7%nat -> forall s, length s = 25%nat ->
  (forall j, (j < 2)%nat -> Forall (fun v : vec => 0 <= v j < 2 ^ 64) s) ->
  exists s', f1600x2 r0 s = Some s' /\ length s' = 25%nat
    /\ forall j, (j < 2)%nat -> Forall (fun v : vec => 0 <= v j < 2 ^ 64) s'
    /\ forall x y z, (x < 5)%nat -> (y < 5)%nat -> 0 <= z < 64 ->
         Z.testbit (nth (5 * y + x) s' (fun _ => 0) j) z
         = keccak_f (fun x y z => Z.testbit (nth (5 * y + x) s (fun _ => 0) j) z) x y z.
Proof. exact (fun r0 H => perm_bits_form 2 (f1600x2 r0) (f1600x2_ok r0 H 2)). Qed.
Print Assumptions C51_times4.
Print Assumptions C51_f1600x2.
(** A state with different words in the lanes. *)
Example C51_lanes_case : length (repeat (fun j : nat => 5 + Z.of_nat j) 25) = 25%nat
  /\ forall j, (j < 4)%nat -> Forall (fun v : vec => 0 <= v j < 2 ^ 64) (repeat (fun j : nat => 5 + Z.of_nat j) 25).
Proof.
  split; [reflexivity|]. intros j Hj. apply Forall_forall. intros v Hv. apply repeat_spec in Hv. subst v. lia.
Qed.

(** ** C52: the multi-lane one-shot functions shake128x4, shake256x4, shake128x2, shake256x2 *)
Section Shake.
Variable junk vj : nat -> nat -> Z.
Theorem C52_shake256x4 : forall n ins inlen,
  length ins = 4%nat -> Forall (fun x => inlen <= length x)%nat ins -> Forall all_bytes ins ->
  shake256x 4 KeccakP1600times4_PermuteAll_24rounds junk (avx2_s0 vj) n ins inlen
  = Some (map (fun x => SHAKE256 (firstn inlen x) n) ins).
Proof. exact (shakex_form 4 _ junk (avx2_s0 vj) 136 times4_ok eq_refl (fun j _ => avx2_zero vj j) ltac:(lia) eq_refl ltac:(lia)). Qed.
Theorem C52_shake128x4 : forall n ins inlen,
  length ins = 4%nat -> Forall (fun x => inlen <= length x)%nat ins -> Forall all_bytes ins ->
  shake128x 4 KeccakP1600times4_PermuteAll_24rounds junk (avx2_s0 vj) n ins inlen
  = Some (map (fun x => SHAKE128 (firstn inlen x) n) ins).
Proof. exact (shakex_form 4 _ junk (avx2_s0 vj) 168 times4_ok eq_refl (fun j _ => avx2_zero vj j) ltac:(lia) eq_refl ltac:(lia)). Qed.
Theorem C52_shake256x2 : forall n ins inlen,
  length ins = 2%nat -> Forall (fun x => inlen <= length x)%nat ins -> Forall all_bytes ins ->
  shake256x 2 (a64_perm vj) junk zero_vecs n ins inlen
  = Some (map (fun x => SHAKE256 (firstn inlen x) n) ins).
Proof. exact (shakex_form 2 _ junk zero_vecs 136 (f1600x2_ok (map (fun i j => vj i j) (seq 25 7)) eq_refl 2) eq_refl (fun j _ => zero_zero j) ltac:(lia) eq_refl ltac:(lia)). Qed.
Theorem C52_shake128x2 : forall n ins inlen,
  length ins = 2%nat -> Forall (fun x => inlen <= length x)%nat ins -> Forall all_bytes ins ->
  shake128x 2 (a64_perm vj) junk zero_vecs n ins inlen
  = Some (map (fun x => SHAKE128 (firstn inlen x) n) ins).
Proof. exact (shakex_form 2 _ junk zero_vecs 168 (f1600x2_ok (map (fun i j => vj i j) (seq 25 7)) eq_refl 2) eq_refl (fun j _ => zero_zero j) ltac:(lia) eq_refl ltac:(lia)). Qed.
End Shake.
Print Assumptions C52_shake256x4.
Print Assumptions C52_shake128x4.
Print Assumptions C52_shake256x2.
Print Assumptions C52_shake128x2.
(** SHAKE256 of the empty string in every lane; inlen cuts the inputs of lanes 1 and 3. *)
Example C52_shake256_empty : forall junk vj,
  shake256x 4 KeccakP1600times4_PermuteAll_24rounds junk (avx2_s0 vj) 4 [[]; [1; 2]; []; [3]] 0
  = Some (repeat [0x46; 0xb9; 0xdd; 0x2b] 4).
Proof.
  intros. assert (E : SHAKE256 [] 4 = [0x46; 0xb9; 0xdd; 0x2b]).
  { assert (H : shake256 (repeat 0 200) 4 [] = Some [0x46; 0xb9; 0xdd; 0x2b]) by (vm_compute; reflexivity).
    pose proof (shake256_ok (repeat 0 200) 4 [] eq_refl (Forall_nil _)). congruence. }
  rewrite C52_shake256x4; [cbn [map firstn]; rewrite E; reflexivity|reflexivity| |].
  - repeat constructor.
  - repeat constructor; unfold is_byte; lia.
Qed.

(** ** C53: haraka-aesni, one lane and four, for any 40 round constants of 16 bytes *)
Theorem C53_aesni : forall buf, all_bytes buf -> length buf = 640%nat -> let RC := blocks 40 buf in
  (forall x, length x = 64%nat -> all_bytes x -> ni_512 RC x = Some (Haraka512 RC x))
  /\ (forall x, length x = 32%nat -> all_bytes x -> ni_256 RC x = Some (Haraka256 RC x))
  /\ (forall n m, all_bytes m -> ni_S RC n m = Some (HarakaS RC m n)).
Proof. exact ni_forms. Qed.
Theorem C53_aesni_x4 : forall buf, all_bytes buf -> length buf = 640%nat -> let RC := blocks 40 buf in
  (forall ins, length ins = 4%nat -> Forall (fun x => length x = 64%nat) ins -> Forall all_bytes ins ->
     ni_512x4 RC (concat ins) = Some (concat (map (Haraka512 RC) ins)))
  /\ (forall ins, length ins = 4%nat -> Forall (fun x => length x = 32%nat) ins -> Forall all_bytes ins ->
     ni_256x4 RC (concat ins) = Some (concat (map (Haraka256 RC) ins)))
  /\ (forall n ins inlen, length ins = 4%nat -> Forall (fun x => inlen <= length x)%nat ins -> Forall all_bytes ins ->
     ni_Sx4 RC n ins inlen = Some (map (fun x => HarakaS RC (firstn inlen x) n) ins)).
Proof. exact ni_x4_forms. Qed.
Print Assumptions C53_aesni.
Print Assumptions C53_aesni_x4.
(** The Haraka v2 test vectors with the constants load_constants sets, through the AES-NI code. *)
Example C53_aesni_vectors :
  let count n := map Z.of_nat (seq 0 n) in
  load_haraka_constants = blocks 40 (flat_map (le_bytes 16) standard_constants)
  /\ (a <- ni_512 load_haraka_constants (count 64%nat) ;; b <- ni_256 load_haraka_constants (count 32%nat) ;;
      Some (firstn 8 a, firstn 8 b))
  = Some ([0xbe; 0x7f; 0x72; 0x3b; 0x4e; 0x80; 0xa9; 0x98], [0x80; 0x27; 0xcc; 0xb8; 0x79; 0x49; 0x77; 0x4b]).
Proof. vm_compute. auto. Qed.
