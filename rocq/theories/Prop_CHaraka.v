(** C74: the integer expressions of ref/haraka.c under the rules of C.  Theorems only.

    CHaraka.v transcribes the file with each variable in its declared type and each expression as it is written (CInt.v
    gives the promotions, conversions and undefined cases).  The arrays [J], [t0], [s0], ... are the uninitialised locals
    and the not yet written rows of the context. *)
From Verif Require Import Base CInt HarakaSpec Haraka ShakeProofs CHaraka CHarakaProofs6.

(** tweak_constants on any public seed of less than 2^31 bytes gives tables on which haraka512_perm, haraka512, haraka256,
    haraka_S and any calls of the incremental functions are the AES-based functions with the constants derived from the seed.
    The 256 keeps [mlen + s_inc[64]] below 2^64. *)
Theorem C74_haraka : forall J t0 s0 tmp row512 row256 seed, length (fst J) = 16%nat -> length (snd J) = 8%nat -> length t0 = 32%nat -> length s0 = 64%nat ->
  length tmp = 16%nat -> length row512 = 8%nat -> length row256 = 8%nat -> all_bytes seed -> Z.of_nat (length seed) < 2 ^ 31 ->
  exists rc512 rc256, tweak_constants_c J t0 s0 tmp row512 row256 (length seed) seed = Some (rc512, rc256)
  /\ (forall out x, all_bytes x -> length x = 64%nat -> (64 <= length out)%nat -> haraka512_perm_c J rc512 out x = wr out 0 (pi512 (tweaked_RC seed) x))
  /\ (forall b0 out x, length b0 = 64%nat -> all_bytes x -> length x = 64%nat -> (32 <= length out)%nat ->
        haraka512_c J b0 rc512 out x = wr out 0 (Haraka512 (tweaked_RC seed) x))
  /\ (forall q0 out x, length q0 = 8%nat -> all_bytes x -> length x = 32%nat -> length out = 32%nat ->
        haraka256_c q0 rc256 out x = Some (Haraka256 (tweaked_RC seed) x))
  /\ (forall n m, all_bytes m -> Z.of_nat n < 2 ^ 64 -> Z.of_nat (length m) < 2 ^ 64 ->
        haraka_S_c (haraka512_perm_c J rc512) t0 s0 (Z.of_nat n) m (V U64 (Z.of_nat (length m))) = Some (HarakaS (tweaked_RC seed) m n))
  /\ (forall i0 chunks lens, length i0 = 65%nat -> all_bytes (concat chunks) ->
        Forall (fun c => Z.of_nat (length c) + 256 < 2 ^ 64) chunks -> Forall (fun n => Z.of_nat n < 2 ^ 64) lens ->
        haraka_S_inc_c (haraka512_perm_c J rc512) i0 chunks lens = Some (pieces (HarakaS (tweaked_RC seed) (concat chunks) (total lens)) lens)).
Proof. exact haraka_c_all. Qed.
Print Assumptions C74_haraka.
(** A 16-byte seed, arrays full of sevens, and three absorb and two squeeze calls *)
Example C74_case : exists rc512 rc256,
  tweak_constants_c (repeat 7 16, repeat 7 8) (repeat 7 32) (repeat 7 64) (repeat 7 16) (repeat 7 8) (repeat 7 8) 16 (map Z.of_nat (seq 0 16)) = Some (rc512, rc256)
  /\ haraka256_c (repeat 7 8) rc256 (repeat 7 32) (repeat 1 32) = Some (Haraka256 (tweaked_RC (map Z.of_nat (seq 0 16))) (repeat 1 32))
  /\ haraka_S_inc_c (haraka512_perm_c (repeat 7 16, repeat 7 8) rc512) (repeat 7 65) [repeat 1 31; []; repeat 2 40] [3%nat; 70%nat]
     = Some (pieces (HarakaS (tweaked_RC (map Z.of_nat (seq 0 16))) (repeat 1 31 ++ [] ++ repeat 2 40 ++ []) 73) [3%nat; 70%nat]).
Proof.
  destruct (C74_haraka (repeat 7 16, repeat 7 8) (repeat 7 32) (repeat 7 64) (repeat 7 16) (repeat 7 8) (repeat 7 8) (map Z.of_nat (seq 0 16))
    eq_refl eq_refl eq_refl eq_refl eq_refl eq_refl eq_refl) as (rc512 & rc256 & E & _ & _ & H256 & _ & HI).
  - repeat (constructor; [split; reflexivity || discriminate|]). constructor.
  - reflexivity.
  - exists rc512, rc256. split; [exact E|]. split.
    + apply H256; try reflexivity. repeat (constructor; [split; reflexivity || discriminate|]). constructor.
    + apply (HI (repeat 7 65) [repeat 1 31; []; repeat 2 40] [3%nat; 70%nat]); [reflexivity| |repeat constructor|repeat constructor].
      repeat (constructor; [split; reflexivity || discriminate|]). constructor.
Qed.
