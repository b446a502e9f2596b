(** Properties of the random sources (C46, C47, C49). *)
From Verif Require Import Base Spec Rng RngSpec RngProofs.

(** ** C46, ref/randombytes.c *)
(** Whatever data the operating system delivers, in whatever portions, as long as no read fails: nothing
    is written outside the buffer, and a call that returns has written exactly [xlen] bytes, all of them
    delivered by the operating system, in order, and its descriptor is valid. *)
Theorem C46_randombytes : forall fd opens reads mem x xlen,
  0 <= xlen < 2 ^ 64 -> Z.of_nat x + xlen <= Z.of_nat (length mem) -> Forall no_error reads ->
  match os_randombytes fd opens reads mem x xlen with
  | Fault => False
  | Waiting mem' => exists out, Z.of_nat (length out) <= xlen
      /\ mem' = firstn x mem ++ out ++ skipn (x + length out) mem
  | Returned mem' fd' opens' rest => fd' <> -1 /\ exists used out, reads = used ++ rest
      /\ drawn used out /\ Z.of_nat (length out) = xlen
      /\ mem' = firstn x mem ++ out ++ skipn (x + length out) mem
  end.
Proof. exact os_randombytes_ok. Qed.
Print Assumptions C46_randombytes.
(** Two failing opens, then portions of 0, 1, 0 and 5 bytes. *)
Example C46_case :
  os_randombytes (-1) [-1; -1; 7] [RData []; RData [1]; RData []; RData [2; 3; 4; 5; 6]; RData [9]]
    [100; 101; 102; 103; 104; 105] 1 4
  = Returned [100; 1; 2; 3; 4; 105] 7 [] [RData [9]].
Proof. vm_compute. reflexivity. Qed.

(** The call does return when each read delivers at least one byte. *)
Theorem C46_returns : forall reads fd opens mem x xlen,
  0 <= x -> 0 <= xlen < 2 ^ 64 -> x + xlen <= Z.of_nat (length mem) ->
  Forall (fun r => exists b d, r = RData (b :: d)) reads -> xlen <= Z.of_nat (length reads) ->
  exists mem' rest, rb_loop reads fd opens mem x xlen = Returned mem' fd opens rest.
Proof. exact rb_loop_returns. Qed.
Print Assumptions C46_returns.
Example C46_returns_case :
  rb_loop [RData [1]; RData [2]; RData [3]] 5 [] [0; 0; 0] 0 3 = Returned [1; 2; 3] 5 [] [].
Proof. vm_compute. reflexivity. Qed.

(** With failing reads the property is false: after one failing read (-1, stored in an unsigned variable)
    the next read goes to the byte before the buffer, and one byte more than [xlen] is written... *)
Theorem C46_read_error_refuted : forall fd opens rest mem x xlen d,
  (1 <= x)%nat -> 0 < xlen -> xlen + 1 < 1048576 -> Z.of_nat x + xlen <= Z.of_nat (length mem) ->
  xlen + 1 <= Z.of_nat (length d) ->
  rb_loop (RError :: RData d :: rest) fd opens mem (Z.of_nat x) xlen
  = Returned (firstn (x - 1) mem ++ firstn (Z.to_nat xlen + 1) d ++ skipn (x + Z.to_nat xlen) mem) fd opens rest.
Proof. exact rb_error. Qed.
Print Assumptions C46_read_error_refuted.
(** ... and when the buffer is at the start of its object the access is outside the object. *)
Theorem C46_read_error_fault_refuted : forall fd opens rest mem xlen b d,
  0 < xlen -> xlen + 1 < 2 ^ 64 ->
  rb_loop (RError :: RData (b :: d) :: rest) fd opens mem 0 xlen = Fault.
Proof. exact rb_error_fault. Qed.
Print Assumptions C46_read_error_fault_refuted.
Example C46_read_error_case :
  os_randombytes 3 [] [RError; RData [1; 2; 3; 4; 5]] [100; 101; 102; 103; 104; 105] 1 4
  = Returned [1; 2; 3; 4; 5; 105] 3 [] [].
Proof. vm_compute. reflexivity. Qed.

(** ** C47, the seed expander of ref/rng.c, for every block cipher *)
(** After a successful initialisation, every sequence of requests is answered as the account of
    RngSpec.v says, from one stream that depends only on the seed, the diversifier and maxlen. *)
Theorem C47_requests : forall E seed div maxlen ctx reqs,
  (forall k b, length (E k b) = 16%nat) ->
  length (x_buffer ctx) = 16%nat -> length (x_key ctx) = 32%nat -> length (x_ctr ctx) = 16%nat ->
  length seed = 32%nat -> length div = 8%nat -> 0 <= maxlen < 2 ^ 32 ->
  ('(r, ctx') <- seedexpander_init ctx seed div maxlen ;;
   answers <- sx_run E ctx' reqs ;;
   Some (r, answers))
  = Some (0, sx_answers (stream E seed (sx_block div maxlen)) maxlen 0 reqs).
Proof. exact sx_requests. Qed.
Print Assumptions C47_requests.
(** Too large a maxlen is rejected and nothing changes. *)
Theorem C47_bad_maxlen : forall ctx seed div maxlen,
  2 ^ 32 <= maxlen -> seedexpander_init ctx seed div maxlen = Some (-1, ctx).
Proof. exact sx_init_bad. Qed.
Print Assumptions C47_bad_maxlen.
(** The bytes handed out are an initial part of the stream, whatever the requests were, and there are
    fewer than maxlen of them (or none): the last byte of the stream can never be obtained. *)
Theorem C47_total : forall key E blk maxlen reqs p, (Z.of_nat p < maxlen \/ p = 0%nat) ->
  let out := handed_out (sx_answers (stream E key blk) maxlen p reqs) in
  out = stream E key blk p (length out) /\ (Z.of_nat (p + length out) < maxlen \/ (p + length out = 0)%nat).
Proof. exact answers_total. Qed.
Print Assumptions C47_total.
(** A NULL output pointer or a request for all that remains, or more: error code, context and buffer
    unchanged, in every state. *)
Theorem C47_refused : forall E ctx x xlen,
  seedexpander E ctx None xlen = Some (-2, ctx, None)
  /\ (x_rem ctx <= xlen -> seedexpander E ctx (Some x) xlen = Some (-3, ctx, Some x)).
Proof. exact sx_refused. Qed.
Print Assumptions C47_refused.
(** A cipher for the examples: adds up key and block bytes. *)
Definition toy_E (k b : bytes) : bytes :=
  map (fun i => (nth i b 0 * 3 + nth i k 0 + Z.of_nat i + nth 15 b 0) mod 256) (seq 0 16).
Example C47_case :
  ('(r, ctx') <- seedexpander_init (mkXof (repeat 5 16) 3 4 (repeat 6 32) (repeat 7 16)) (map Z.of_nat (seq 0 32)) (map Z.of_nat (seq 40 8)) 40 ;;
   answers <- sx_run toy_E ctx' [repeat 0 5; repeat 0 20; repeat 0 15; repeat 0 14; repeat 0 1] ;;
   Some (r, map fst answers, handed_out answers))
  = Some (0, [0; 0; -3; 0; -3], stream toy_E (map Z.of_nat (seq 0 32)) (sx_block (map Z.of_nat (seq 40 8)) 40) 0 39).
Proof. vm_compute. reflexivity. Qed.

(** ** C49, the generator of ref/rng.c, for every block cipher *)
(** One call: output and next state are those of SP 800-90A's CTR_DRBG, functions of (Key, V, xlen); V is
    a 128-bit big-endian counter; exactly [xlen] bytes of the buffer change. *)
Theorem C49_generate : forall E, (forall k b, length (E k b) = 16%nat) -> (forall k b, all_bytes (E k b)) ->
  forall g V temp x xlen,
  length (g_key g) = 32%nat -> g_v g = be_bytes 16 V -> g_reseed g + 1 < 2 ^ 31 -> length temp = 48%nat ->
  0 <= xlen < 2 ^ 31 -> (Z.to_nat xlen <= length x)%nat ->
  let '(out, (k', V')) := spec_generate E (g_key g) V (Z.to_nat xlen) in
  drbg_randombytes E g temp x xlen
    = Some (0, mkDrbg k' (be_bytes 16 V') (g_reseed g + 1), out ++ skipn (Z.to_nat xlen) x)
  /\ length k' = 32%nat.
Proof. exact generate_ok. Qed.
Print Assumptions C49_generate.
Theorem C49_init : forall E, (forall k b, length (E k b) = 16%nat) -> (forall k b, all_bytes (E k b)) ->
  forall g sm temp entropy pers,
  length (g_key g) = 32%nat -> length (g_v g) = 16%nat -> length sm = 48%nat -> length temp = 48%nat ->
  length entropy = 48%nat -> all_bytes entropy ->
  (forall d, pers = Some d -> length d = 48%nat /\ all_bytes d) ->
  let '(k', V') := spec_instantiate E entropy (provided_data pers) in
  randombytes_init E g sm temp entropy pers = Some (mkDrbg k' (be_bytes 16 V') 1) /\ length k' = 32%nat.
Proof. exact instantiate_ok. Qed.
Print Assumptions C49_init.
(** For 2^31 bytes or more the property is false: the int index overflows, which is undefined. *)
Theorem C49_long_refuted : forall E g temp x xlen,
  2 ^ 31 <= xlen < 2 ^ 64 -> drbg_randombytes E g temp x xlen = None.
Proof. exact drbg_long. Qed.
Print Assumptions C49_long_refuted.
(** The counter wraps from 2^128 - 2 while 40 bytes are generated. *)
Example C49_case :
  (g <- randombytes_init toy_E (mkDrbg (repeat 1 32) (repeat 2 16) 9) (repeat 3 48) (repeat 4 48) (map Z.of_nat (seq 0 48)) None ;;
   '(r, g', x) <- drbg_randombytes toy_E (mkDrbg (g_key g) (be_bytes 16 (-2)) 1) (repeat 4 48) (repeat 0 41) 40 ;;
   Some (r, g_reseed g', x, g_key g', g_v g'))
  = let '(k, _) := spec_instantiate toy_E (map Z.of_nat (seq 0 48)) (repeat 0 48) in
    let '(out, (k', V')) := spec_generate toy_E k (-2) 40 in
    Some (0, 2, out ++ [0], k', be_bytes 16 V').
Proof. vm_compute. reflexivity. Qed.
