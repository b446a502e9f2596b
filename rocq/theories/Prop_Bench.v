(** C70: the benchmark program ref/test/benchmark.c.  Theorems only; [order_stat], [grouped]: BenchSpec.v. *)
From Coq Require Import String.
From Verif Require Import Base Params Text OptBuild OptProofs OptForge Bench BenchSpec BenchProofs.

(** ** The differences of neighbours modulo 2^64; the last entry stays *)
Theorem C70_delta : forall l n, (1 <= n <= length l)%nat -> exists l', delta l n = Some l' /\ length l' = length l
  /\ (forall i, (i < n - 1)%nat -> nth i l' 0 = (nth (i + 1) l 0 - nth i l 0) mod 2 ^ 64)
  /\ (forall i, (n - 1 <= i)%nat -> nth i l' 0 = nth i l 0).
Proof. exact delta_ok. Qed.

(** ** The median of the first n entries, for every qsort the C standard allows
    For even n the two entries in the middle are added modulo 2^64. *)
Theorem C70_median : forall qsort l n, qsort_ok qsort -> (1 <= n <= length l)%nat ->
  exists r l', median qsort l n = Some (r, l')
    /\ if (n mod 2 =? 0)%nat
       then exists a b, order_stat (firstn n l) (n / 2 - 1) a /\ order_stat (firstn n l) (n / 2) b /\ r = (a + b) mod 2 ^ 64 / 2
       else order_stat (firstn n l) (n / 2) r.
Proof. exact median_ok. Qed.
(** An order statistic is a single value. *)
Theorem C70_unique : forall l k x y, order_stat l k x -> order_stat l k y -> x = y.
Proof. exact order_stat_unique. Qed.
(** The result is not always between the two. *)
Theorem C70_median_refuted : forall qsort, qsort_ok qsort -> exists l', median qsort [2 ^ 63; 2 ^ 63] 2 = Some (0, l').
Proof. exact median_wraps. Qed.

(** ** Printed numbers *)
Theorem C70_comma : forall n, 0 <= n < 2 ^ 64 -> exists t, printfcomma 7 n = Some t /\ grouped n t
  /\ length t = (KatSpec.ndigits n + (KatSpec.ndigits n - 1) / 3)%nat.
Proof. exact printfcomma_ok. Qed.
(** Two more columns than asked for, unless the number needs more *)
Theorem C70_aligned : forall n len, 0 <= n < 2 ^ 64 -> exists t sp, printfalignedcomma n len = Some (repeat 32 sp ++ t) /\ grouped n t
  /\ Z.of_nat (sp + length t) = Z.max (len + 2) (Z.of_nat (length t)).
Proof. exact aligned_ok. Qed.

(** ** A measurement: what the two numbers are, for any values of the counter
    For CORR = 1 every [d i] is the difference of two readings; for CORR = 1000 the last one is not divided. *)
Theorem C70_measure : forall qsort cycles mul corr, qsort_ok qsort -> (forall i, (i <= NTESTS)%nat -> 0 <= cycles i < 2 ^ 64) ->
  let d i := if (i =? NTESTS - 1)%nat then cycles (i + 1)%nat - cycles i / corr else cycles (i + 1)%nat / corr - cycles i / corr in
  let l := map (fun i => d i mod 2 ^ 64) (seq 0 NTESTS) in
  exists a b m s t, order_stat l 4 a /\ order_stat l 5 b /\ m = (a + b) mod 2 ^ 64 / 2
    /\ MEASURE_GENERIC qsort cycles mul corr = Some (s, t)
    /\ (exists sp g, s = repeat 32 sp ++ g /\ grouped m g) /\ exists sp g, t = repeat 32 sp ++ g /\ grouped ((mul * m) mod 2 ^ 64) g.
Proof. exact measure_ok. Qed.
(** Therefore MEASURT can print a wrong median: here the ten times have the middle values 1000 and 5000, and 5000 is printed. *)
Theorem C70_measurt_refuted : forall qsort, qsort_ok qsort ->
  let times := map (fun i => (odd_clock (i + 1) - odd_clock i) / 1000) (seq 0 NTESTS) in
  order_stat times 4 1000 /\ order_stat times 5 5000
  /\ MEASURE_GENERIC qsort odd_clock 1 1000 = Some (repeat 32 9 ++ str "5,000", repeat 32 9 ++ str "5,000").
Proof. exact measurt_off. Qed.

(** ** Keys, signatures and verifications of the program, for every implementation: each verification accepts and returns the message *)
Theorem C70_api : forall im robust P, i_ok im P -> forall us junk n stream, all_bytes stream ->
  (32 + addr_bytes im + n * (4 * p_n P) <= length stream)%nat ->
  bench_api im robust P us junk n stream = Some (firstn 32 stream, repeat (0, firstn 32 stream) n).
Proof. exact bench_ok. Qed.

Print Assumptions C70_delta.
Print Assumptions C70_median.
Print Assumptions C70_unique.
Print Assumptions C70_median_refuted.
Print Assumptions C70_comma.
Print Assumptions C70_aligned.
Print Assumptions C70_measure.
Print Assumptions C70_measurt_refuted.
Print Assumptions C70_api.

(** ** The hypotheses can be met *)
Example C70_qsort : qsort_ok isort /\ isort [5; 2; 9; 2] = [2; 2; 5; 9].
Proof. split; [exact isort_ok|reflexivity]. Qed.
Example C70_numbers : printfcomma 7 18446744073709551615 = Some (str "18,446,744,073,709,551,615")
  /\ printfalignedcomma 1002003 12 = Some (str "     1,002,003") /\ median isort [30; 10; 20; 7] 3 = Some (20, [10; 20; 30; 7]).
Proof. vm_compute. repeat split. Qed.
Example C70_api_case : forall im robust P us junk, In P all_params ->
  exists m, bench_api im robust P us junk NTESTS (repeat 7 (96 + 40 * p_n P)) = Some (m, repeat (0, m) 10).
Proof.
  intros im robust P us junk HP. eexists. apply (C70_api im robust P (i_params im P HP) us junk NTESTS).
  - apply Forall_forall. intros x Hx. apply repeat_spec in Hx. subst x. unfold is_byte. lia.
  - rewrite repeat_length. assert (addr_bytes im <= 64)%nat by (destruct im as [f|[]]; apply Nat.leb_le; reflexivity). unfold NTESTS. lia.
Qed.
