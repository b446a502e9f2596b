(** C77: the integer expressions of ref/rng.c under the rules of C.  Theorems only.

    CRng.v transcribes rng.c with each variable in its declared type and each expression as it is written (CInt.v gives the
    promotions, conversions and undefined cases); the block cipher [E] is arbitrary.  RngSpec.v is the specification. *)
From Verif Require Import Base Spec CInt Rng RngSpec RngProofs CRng CRngProofs.

(** The seed expander: every sequence of requests after an initialisation is answered from the specified stream. *)
Theorem C77_requests : forall E seed div maxlen ctx reqs,
  (forall k b, length (E k b) = 16%nat) ->
  length (x_buffer ctx) = 16%nat -> length (x_key ctx) = 32%nat -> length (x_ctr ctx) = 16%nat ->
  length seed = 32%nat -> length div = 8%nat -> all_bytes div -> 0 <= maxlen < 2 ^ 32 ->
  Forall (fun x : bytes => Z.of_nat (length x) < 2 ^ 64) reqs ->
  ('(r, ctx') <- seedexpander_init_c ctx seed div maxlen ;;
   answers <- sx_run_c E ctx' reqs ;;
   Some (r, answers))
  = Some (0, sx_answers (stream E seed (sx_block div maxlen)) maxlen 0 reqs).
Proof. exact c_requests. Qed.
(** In every state, also one that no initialisation leaves: the same as the model of C47, refusals included. *)
Theorem C77_expander : forall E ctx x xlen,
  0 <= xlen < 2 ^ 64 -> 0 <= x_pos ctx < 2 ^ 64 -> 0 <= x_rem ctx < 2 ^ 64 -> all_bytes (x_ctr ctx) ->
  seedexpander_c E ctx x xlen = seedexpander E ctx x xlen.
Proof. exact seedexpander_c_ok. Qed.
Theorem C77_expander_init : forall ctx seed div maxlen, 0 <= maxlen < 2 ^ 64 ->
  seedexpander_init_c ctx seed div maxlen = seedexpander_init ctx seed div maxlen.
Proof. exact seedexpander_init_c_ok. Qed.
(** The generator: CTR_DRBG of SP 800-90A. *)
Theorem C77_generate : forall E, (forall k b, length (E k b) = 16%nat) -> (forall k b, all_bytes (E k b)) ->
  forall g V temp x xlen,
  length (g_key g) = 32%nat -> g_v g = be_bytes 16 V -> 0 <= g_reseed g -> g_reseed g + 1 < 2 ^ 31 -> length temp = 48%nat ->
  0 <= xlen < 2 ^ 31 -> (Z.to_nat xlen <= length x)%nat ->
  let '(out, (k', V')) := spec_generate E (g_key g) V (Z.to_nat xlen) in
  drbg_randombytes_c E g temp x xlen
    = Some (0, mkDrbg k' (be_bytes 16 V') (g_reseed g + 1), out ++ skipn (Z.to_nat xlen) x)
  /\ length k' = 32%nat.
Proof. exact c_generate. Qed.
Theorem C77_instantiate : forall E, (forall k b, length (E k b) = 16%nat) -> (forall k b, all_bytes (E k b)) ->
  forall g sm temp entropy pers,
  length (g_key g) = 32%nat -> length (g_v g) = 16%nat -> length sm = 48%nat -> length temp = 48%nat ->
  length entropy = 48%nat -> all_bytes entropy ->
  (forall d, pers = Some d -> length d = 48%nat /\ all_bytes d) ->
  let '(k', V') := spec_instantiate E entropy (provided_data pers) in
  randombytes_init_c E g sm temp entropy pers = Some (mkDrbg k' (be_bytes 16 V') 1) /\ length k' = 32%nat.
Proof. exact c_instantiate. Qed.
(** Requests of 2^31 bytes or more: the int index overflows. *)
Theorem C77_long_refuted : forall E g temp x xlen, (forall k b, length (E k b) = 16%nat) -> (forall k b, all_bytes (E k b)) ->
  length temp = 48%nat -> all_bytes (g_v g) -> - 2 ^ 31 <= g_reseed g < 2 ^ 31 -> 2 ^ 31 <= xlen < 2 ^ 64 ->
  drbg_randombytes_c E g temp x xlen = None.
Proof. exact c_long. Qed.

(** ** Cases *)
Definition toy_E (k b : bytes) : bytes :=
  map (fun i => (nth i b 0 * 3 + nth i k 0 + Z.of_nat i + nth 15 b 0) mod 256) (seq 0 16).
Example C77_toy_E : (forall k b, length (toy_E k b) = 16%nat) /\ (forall k b, all_bytes (toy_E k b)).
Proof.
  split; intros k b; [reflexivity|]. apply Forall_forall. intros x H. apply in_map_iff in H. destruct H as (i & <- & _).
  apply Z.mod_pos_bound. reflexivity.
Qed.
Example C77_requests_case :
  ('(r, ctx') <- seedexpander_init_c (mkXof (repeat 5 16) 3 4 (repeat 6 32) (repeat 7 16)) (map Z.of_nat (seq 0 32)) (map Z.of_nat (seq 40 8)) 40 ;;
   answers <- sx_run_c toy_E ctx' [repeat 0 5; repeat 0 20; repeat 0 15; repeat 0 14; repeat 0 1] ;;
   Some (r, map fst answers, handed_out answers))
  = Some (0, [0; 0; -3; 0; -3], stream toy_E (map Z.of_nat (seq 0 32)) (sx_block (map Z.of_nat (seq 40 8)) 40) 0 39).
Proof. vm_compute. reflexivity. Qed.
(** A position beyond the buffer makes 16 - buffer_pos wrap: the access is outside the buffer. *)
Example C77_expander_case :
  seedexpander_c toy_E (mkXof (repeat 5 16) 17 100 (repeat 6 32) (repeat 7 16)) (Some (repeat 0 3)) 3 = None.
Proof. vm_compute. reflexivity. Qed.
(** The 128-bit counter wraps while 40 bytes are generated. *)
Example C77_generate_case :
  ('(r, g', x) <- drbg_randombytes_c toy_E (mkDrbg (repeat 3 32) (be_bytes 16 (-2)) 1) (repeat 4 48) (repeat 0 41) 40 ;;
   Some (r, g_reseed g', x, g_key g', g_v g'))
  = let '(out, (k', V')) := spec_generate toy_E (repeat 3 32) (-2) 40 in
    Some (0, 2, out ++ [0], k', be_bytes 16 V').
Proof. vm_compute. reflexivity. Qed.
(** reseed_counter at INT_MAX: the increment is undefined. *)
Example C77_reseed_case :
  drbg_randombytes_c toy_E (mkDrbg (repeat 3 32) (repeat 2 16) (2 ^ 31 - 1)) (repeat 4 48) [] 0 = None.
Proof. vm_compute. reflexivity. Qed.

Print Assumptions C77_requests.
Print Assumptions C77_expander.
Print Assumptions C77_expander_init.
Print Assumptions C77_generate.
Print Assumptions C77_instantiate.
Print Assumptions C77_long_refuted.
