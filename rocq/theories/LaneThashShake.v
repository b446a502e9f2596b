(** The multi-lane thash and prf_addr of shake-avx2 and shake-a64 compute the reference's in every lane. *)
From Verif Require Import Base BaseFacts Params Address Suite Fips202 KeccakSpec KeccakProofs SpongeFacts
  ShakeProofs Lanes LaneFacts LaneKeccak LaneKeccakProofs HashSpec HashShake HashShakeProofs LaneShake
  LaneShakeProofs SpecFacts.

#[local] Opaque keccak_bytes.

(** ** One block *)
Lemma xor_zeros_l a : forall n, (length a <= n)%nat ->
  KeccakSpec.xor_bytes (repeat 0 n) a = a ++ repeat 0 (n - length a).
Proof.
  induction a as [|x a IH]; intros [|n] H; cbn [length] in H; try lia.
  - reflexivity.
  - cbn [repeat KeccakSpec.xor_bytes app]. now rewrite Nat.sub_0_r.
  - cbn [repeat KeccakSpec.xor_bytes app length Nat.sub]. rewrite Z.lxor_0_l. f_equal. apply IH. lia.
Qed.
Lemma shake256_block m n : (length m < 136)%nat -> (n <= 136)%nat ->
  SHAKE256 m n = firstn n (keccak_bytes (m ++ pad 136 0x1F (length m) ++ repeat 0 64)).
Proof.
  intros Hm Hn. unfold SHAKE256, sponge.
  assert (L : length (m ++ pad 136 31 (length m)) = 136%nat).
  { rewrite app_length. rewrite (pad_length 200 136) by lia. rewrite Nat.mod_small by lia. lia. }
  rewrite L. change (136 / 136)%nat with 1%nat. cbn [cut].
  rewrite firstn_all2 by (rewrite L; reflexivity). unfold absorb. cbn [fold_left].
  rewrite xor_zeros_l by lia. rewrite L. change (200 - 136)%nat with 64%nat. rewrite <- app_assoc.
  rewrite out_from_squeeze. rewrite (out_from_block keccak_bytes 200 136) with (k := 0%nat);
    [reflexivity|lia|intros; apply keccak_bytes_length|apply keccak_bytes_length|lia|lia].
Qed.

(** ** Words of byte strings *)
Definition words (n : nat) (l : bytes) : list Z :=
  map (fun i => le (norm (firstn 8 (skipn (8 * i) l)))) (seq 0 n).
Lemma words_length n l : length (words n l) = n.
Proof. unfold words. now rewrite map_length, seq_length. Qed.
Lemma words_S n l : words (S n) l = le (norm (firstn 8 l)) :: words n (skipn 8 l).
Proof.
  unfold words. cbn [seq map]. f_equal. rewrite <- seq_shift, map_map. apply map_ext. intros i.
  do 3 f_equal. replace (8 * S i)%nat with (8 * i + 8)%nat by lia. clear. revert l.
  induction (8 * i)%nat as [|k IH] using nat_ind; intros l.
  - reflexivity.
  - replace (S k + 8)%nat with (S (k + 8)) by lia. destruct l as [|x l]; [now rewrite !skipn_nil|].
    cbn [skipn]. rewrite IH. clear. destruct l as [|x1 l]; [now rewrite !skipn_nil|].
    do 7 (destruct l as [|? l]; [cbn [skipn]; now rewrite ?skipn_nil|]). cbn [skipn].
    revert l; induction k as [|k IH]; intros l; [reflexivity|]. destruct l; [reflexivity|]. cbn [skipn]. 
    destruct k; reflexivity.
Qed.
Lemma sbytes_words n : forall l, length l = (8 * n)%nat -> sbytes (words n l) = norm l.
Proof.
  induction n as [|n IH]; intros l Hl.
  - destruct l; [reflexivity|cbn in Hl; lia].
  - rewrite words_S. cbn [sbytes flat_map]. fold (sbytes (words n (skipn 8 l))).
    rewrite IH by (rewrite skipn_length; lia).
    rewrite store64_le by (try apply norm_all; rewrite map_length, firstn_length; lia).
    rewrite <- map_app. now rewrite firstn_skipn.
Qed.
Lemma words_W64 n l : length l = (8 * n)%nat -> Forall W64 (words n l).
Proof.
  intros Hl. apply Forall_forall. intros x Hx. apply in_map_iff in Hx. destruct Hx as (i & <- & Hi).
  apply in_seq in Hi. apply le_W64; [apply norm_all|]. rewrite map_length, firstn_length, skipn_length. lia.
Qed.
Lemma lor_shift_add a b : 0 <= b < 2 ^ 32 -> 0 <= a -> Z.lor (Z.shiftl a 32) b = b + 2 ^ 32 * a.
Proof.
  intros Hb Ha. rewrite Z.add_nocarry_lxor.
  - rewrite <- Z.lxor_lor.
    + rewrite Z.lxor_comm. f_equal. rewrite Z.shiftl_mul_pow2 by lia. lia.
    + apply Z.bits_inj'. intros i Hi. rewrite Z.land_spec, Z.bits_0, Z.shiftl_spec by lia.
      destruct (Z.ltb_spec i 32); [rewrite Z.testbit_neg_r by lia; reflexivity|].
      rewrite (Z.mod_small b (2^32)) || idtac.
      replace b with (b mod 2 ^ 32) by (now apply Z.mod_small).
      rewrite (Z.mod_pow2_bits_high b) by lia. apply andb_false_r.
  - apply Z.bits_inj'. intros i Hi. rewrite Z.land_spec, Z.bits_0.
    rewrite (Z.mul_comm (2 ^ 32)), Z.mul_pow2_bits by lia.
    destruct (Z.ltb_spec i 32); [rewrite (Z.testbit_neg_r a) by lia; apply andb_false_r|].
    replace b with (b mod 2 ^ 32) by (now apply Z.mod_small).
    now rewrite (Z.mod_pow2_bits_high b) by lia.
Qed.
Lemma addr_word_ok a i : length a = 32%nat -> (i < 4)%nat ->
  addr_word a i = Some (le (norm (firstn 8 (skipn (8 * i) a)))).
Proof.
  intros Ha Hi. unfold addr_word, ld32. rewrite rd_ok by lia. cbn [bind]. rewrite rd_ok by lia. cbn [bind]. rewrite !le_word_le. f_equal.
  replace (4 * (1 + 2 * i))%nat with (8 * i + 4)%nat by lia. replace (4 * (2 * i))%nat with (8 * i)%nat by lia.
  assert (E : firstn 8 (skipn (8 * i) a) = firstn 4 (skipn (8 * i) a) ++ firstn 4 (skipn (8 * i + 4) a)).
  { destruct (split_at a (8 * i) 8) as (x & y & z & -> & Lx & Ly & _); [lia|].
    rewrite skipn_app, Lx, Nat.sub_diag, skipn_all2 by lia. cbn [app skipn].
    replace (skipn (8 * i + 4) (x ++ y ++ z)) with (skipn 4 (y ++ z)).
    - do 8 (destruct y as [|? y]; [cbn in Ly; lia|]). destruct y; [reflexivity|cbn in Ly; lia].
    - rewrite (skipn_app (8 * i + 4) x), (skipn_all2 (n := (8 * i + 4)%nat) x) by lia. cbn [app]. do 2 f_equal; lia. }
  rewrite E. rewrite map_app, le_app, map_length, firstn_length, skipn_length.
  replace (Nat.min 4 (length a - 8 * i)) with 4%nat by lia. change (8 * Z.of_nat 4) with 32.
  assert (B : forall o, (o + 4 <= 32)%nat -> 0 <= le (map u8 (firstn 4 (skipn o a))) < 2 ^ 32).
  { intros o Ho. pose proof (le_bound (map u8 (firstn 4 (skipn o a))) (norm_all _)) as B.
    rewrite map_length, firstn_length, skipn_length in B. replace (Nat.min 4 (length a - o)) with 4%nat in B by lia.
    exact B. }
  pose proof (B (8 * i)%nat ltac:(lia)) as B1. pose proof (B (8 * i + 4)%nat ltac:(lia)) as B2. clear B E.
  unfold u64. rewrite Z.mod_small; [apply lor_shift_add; lia|].
  rewrite Z.shiftl_mul_pow2 by lia. lia.
Qed.
Lemma xor_words_bytes a b : length a = length b ->
  sbytes (map (fun p => Z.lxor (fst p) (snd p)) (combine a b)) = xor_str (sbytes b) (sbytes a).
Proof.
  revert b; induction a as [|x a IH]; intros [|y b] H; cbn [length] in H; try lia; [reflexivity|].
  cbn [combine map fst snd sbytes flat_map]. fold (sbytes a) (sbytes b).
  fold (sbytes (map (fun p => Z.lxor (fst p) (snd p)) (combine a b))). rewrite IH by lia.
  rewrite Z.lxor_comm, store64_xor. unfold xor_str, store64. cbn [map seq KeccakSpec.xor_bytes app combine fst snd].
  reflexivity.
Qed.

(** ** The states set up by hand, one lane at a time *)
Definition lput (off : nat) (ws l : list Z) : list Z := firstn off l ++ ws ++ skipn (off + length ws) l.
Definition lxor_at (i : nat) (x : Z) (l : list Z) : list Z := upd i (Z.lxor (nth i l 0) x) l.
Lemma upd_lput i x l : (i < length l)%nat -> upd i x l = lput i [x] l.
Proof.
  intros H. unfold lput. cbn [length]. revert i H; induction l as [|y l IH]; intros [|i] H; cbn [length] in H; try lia.
  - reflexivity.
  - cbn [upd firstn Nat.add skipn app]. f_equal. apply IH. lia.
Qed.
Lemma lput_snoc off ws x l : (off + length ws < length l)%nat ->
  upd (off + length ws) x (lput off ws l) = lput off (ws ++ [x]) l.
Proof.
  intros H. unfold lput. rewrite app_length. cbn [length].
  destruct (skipn (off + length ws) l) as [|y t] eqn:E.
  { apply (f_equal (@length _)) in E. rewrite skipn_length in E. cbn in E. lia. }
  replace (off + (length ws + 1))%nat with (1 + (off + length ws))%nat by lia.
  assert (E2 : skipn (1 + (off + length ws)) l = t).
  { rewrite <- (firstn_skipn (off + length ws) l), E. rewrite skipn_app, firstn_length.
    rewrite skipn_all2 by (rewrite firstn_length; lia).
    replace (1 + (off + length ws) - Nat.min (off + length ws) (length l))%nat with 1%nat by lia. reflexivity. }
  rewrite E2. rewrite app_assoc.
  replace (off + length ws)%nat with (length (firstn off l ++ ws)) by (rewrite app_length, firstn_length; lia).
  rewrite upd_app_mid. now rewrite <- !app_assoc.
Qed.

(** The words after the message in a block of the rate of SHAKE256: the padding, then the capacity. *)
Definition padw (c : nat) : list Z :=
  (if (c =? 16)%nat then [Z.lxor PAD_END 0x1f] else 0x1f :: repeat 0 (15 - c) ++ [PAD_END]) ++ repeat 0 8.
Lemma padw_bytes c : (c <= 16)%nat -> sbytes (padw c) = pad 136 0x1F (8 * c) ++ repeat 0 64.
Proof. intros H. do 17 (destruct c as [|c]; [vm_compute; reflexivity|]). lia. Qed.
Lemma padw_W64 c : (c <= 16)%nat -> Forall W64 (padw c).
Proof.
  intros H. do 17 (destruct c as [|c]; [repeat constructor; vm_compute; discriminate|]). lia.
Qed.
Lemma padw_length c : (c <= 16)%nat -> length (padw c) = (25 - c)%nat.
Proof. intros H. do 17 (destruct c as [|c]; [reflexivity|]). lia. Qed.

Ltac explode l L := repeat (destruct l as [|? l]; [try discriminate L|try discriminate L]); clear L.

Lemma simple4_list q k l0 A B C c : (1 <= q <= 4)%nat -> (1 <= k <= 2)%nat -> c = (q * (1 + k) + 4)%nat ->
  length l0 = 25%nat -> length A = q -> length B = 4%nat -> length C = (q * k)%nat ->
  lput 17 (repeat 0 8) (lxor_at c 0x1f (upd 16 PAD_END (lput c (repeat 0 (16 - c))
    (lput (q + 4) C (lput q B (lput 0 A l0)))))) = A ++ B ++ C ++ padw c.
Proof.
  intros Hq Hk -> L0 LA LB LC. explode l0 L0. explode B LB.
  assert (Q : q = 1%nat \/ q = 2%nat \/ q = 3%nat \/ q = 4%nat) by lia.
  assert (K : k = 1%nat \/ k = 2%nat) by lia. clear Hq Hk.
  destruct Q as [-> | [-> | [-> | ->]]]; destruct K as [-> | ->]; cbn [Nat.mul Nat.add] in LC;
    explode A LA; explode C LC; vm_compute; reflexivity.
Qed.
Ltac cases_q Hq :=
  match type of Hq with (1 <= ?q <= 4)%nat =>
    let Q := fresh "Q" in
    assert (Q : q = 1%nat \/ q = 2%nat \/ q = 3%nat \/ q = 4%nat) by lia;
    clear Hq; destruct Q as [-> | [-> | [-> | ->]]] end.
Ltac cases_k Hk :=
  match type of Hk with (1 <= ?k <= 2)%nat =>
    let K := fresh "K" in
    assert (K : k = 1%nat \/ k = 2%nat) by lia; clear Hk; destruct K as [-> | ->] end.
Lemma simple2_list q k A B C c : (1 <= q <= 4)%nat -> (1 <= k <= 2)%nat -> c = (q * (1 + k) + 4)%nat ->
  length A = q -> length B = 4%nat -> length C = (q * k)%nat ->
  lxor_at c 0x1f (upd 16 PAD_END (lput (q + 4) C (lput q B (lput 0 A (repeat 0 25))))) = A ++ B ++ C ++ padw c.
Proof.
  intros Hq Hk -> LA LB LC. explode B LB. cases_q Hq; cases_k Hk; cbn [Nat.mul Nat.add] in LC;
    explode A LA; explode C LC; vm_compute; reflexivity.
Qed.
Lemma robust4_list q l0 A B : (1 <= q <= 4)%nat -> length l0 = 25%nat -> length A = q -> length B = 4%nat ->
  lput 17 (repeat 0 8) (upd 16 PAD_END (lput (q + 5) (repeat 0 (16 - (q + 5)))
    (upd (q + 4) 0x1f (lput q B (lput 0 A l0))))) = A ++ B ++ padw (q + 4).
Proof.
  intros Hq L0 LA LB. explode l0 L0. explode B LB. cases_q Hq; explode A LA; vm_compute; reflexivity.
Qed.
Lemma robust2_list q A B : (1 <= q <= 4)%nat -> length A = q -> length B = 4%nat ->
  lxor_at (q + 4) 0x1f (upd 16 PAD_END (lput q B (lput 0 A (repeat 0 25)))) = A ++ B ++ padw (q + 4).
Proof.
  intros Hq LA LB. explode B LB. cases_q Hq; explode A LA; vm_compute; reflexivity.
Qed.
Lemma robust_list q k A B C c : (1 <= q <= 4)%nat -> (1 <= k <= 2)%nat -> c = (q * (1 + k) + 4)%nat ->
  length A = q -> length B = 4%nat -> length C = (q * k)%nat ->
  lxor_at c 0x1f (lput (q + 4) C (A ++ B ++ padw (q + 4))) = A ++ B ++ C ++ padw c.
Proof.
  intros Hq Hk -> LA LB LC. explode B LB. cases_q Hq; cases_k Hk; cbn [Nat.mul Nat.add] in LC;
    explode A LA; explode C LC; vm_compute; reflexivity.
Qed.
Lemma prf4_list q l0 A B C c : (1 <= q <= 4)%nat -> c = (2 * q + 4)%nat ->
  length l0 = 25%nat -> length A = q -> length B = 4%nat -> length C = q ->
  lput 17 (repeat 0 8) (upd 16 PAD_END (lput (2 * q + 5) (repeat 0 (16 - (2 * q + 5))) (upd (2 * q + 4) 0x1f
    (lput (q + 4) C (lput q B (lput 0 A l0)))))) = A ++ B ++ C ++ padw c.
Proof.
  intros Hq -> L0 LA LB LC. explode l0 L0. explode B LB.
  cases_q Hq; explode A LA; explode C LC; vm_compute; reflexivity.
Qed.
Lemma prf2_list q A B C c : (1 <= q <= 4)%nat -> c = (2 * q + 4)%nat ->
  length A = q -> length B = 4%nat -> length C = q ->
  upd 16 PAD_END (upd (2 * q + 4) 0x1f
    (lput (q + 4) C (lput q B (lput 0 A (repeat 0 25))))) = A ++ B ++ C ++ padw c.
Proof.
  intros Hq -> LA LB LC. explode B LB. cases_q Hq; explode A LA; explode C LC; vm_compute; reflexivity.
Qed.

Section Thash.
Variable nl : nat.
Variable perm : list vec -> option (list vec).
Hypothesis Hperm : perm_ok nl perm.
Variable junk : nat -> nat -> Z.

Lemma put_sim k off f (g : nat -> nat -> Z) s : (off + k <= length s)%nat ->
  (forall i, (i < k)%nat -> exists v, f i = Some v /\ forall j, (j < nl)%nat -> v j = g j i) ->
  exists s', put_loop k off f s = Some s' /\ length s' = length s
    /\ forall j, (j < nl)%nat -> lane j s' = lput off (map (g j) (seq 0 k)) (lane j s).
Proof.
  clear. intros Hk Hf. unfold put_loop.
  destruct (iterM_inv k 0 (fun i s => v <- f i ;; vput s (off + i) v)
    (fun i t => length t = length s /\ forall j, (j < nl)%nat ->
       lane j t = lput off (map (g j) (seq 0 i)) (lane j s)) s) as (s' & E & L & H).
  - split; [reflexivity|]. intros j Hj. unfold lput. cbn [seq map length app]. rewrite Nat.add_0_r.
    now rewrite firstn_skipn.
  - intros i t Hi [Lt Ht]. cbn [Nat.add]. destruct (Hf i ltac:(lia)) as (v & -> & Hv). cbn [bind].
    rewrite vput_ok by lia. eexists. split; [reflexivity|]. rewrite upd_length. split; [exact Lt|].
    intros j Hj. rewrite lane_upd, Ht, Hv by exact Hj.
    rewrite seq_S, map_app. cbn [map Nat.add]. rewrite <- lput_snoc.
    + rewrite map_length, seq_length. reflexivity.
    + rewrite map_length, seq_length, lane_length. lia.
  - exists s'. split; [exact E|]. split; [exact L|]. exact H.
Qed.
Lemma vput_sim i v s : (i < length s)%nat -> exists s', vput s i v = Some s' /\ length s' = length s
  /\ forall j, lane j s' = upd i (v j) (lane j s).
Proof.
  clear. intros H. rewrite vput_ok by exact H. eexists. split; [reflexivity|]. split; [apply upd_length|].
  intros j. apply lane_upd.
Qed.
Lemma vxor_at_sim i x s : (i < length s)%nat -> exists s', vxor_at s i x = Some s' /\ length s' = length s
  /\ forall j, lane j s' = lxor_at i x (lane j s).
Proof.
  clear. intros H. unfold vxor_at. rewrite (get_nth s i (fun _ => 0)) by exact H. cbn [bind].
  destruct (vput_sim i (vxor (nth i s (fun _ => 0)) (vset1 x)) s H) as (s' & E & L & S).
  exists s'. split; [exact E|]. split; [exact L|]. intros j. rewrite S. unfold lxor_at.
  rewrite lane_nth by exact H. reflexivity.
Qed.
Lemma map_const {A} (x : A) k o : map (fun _ => x) (seq o k) = repeat x k.
Proof. revert o; induction k as [|k IH]; intros o; [reflexivity|]. cbn [seq map repeat]. f_equal. apply IH. Qed.
Lemma zero_sim k off s : (off + k <= length s)%nat ->
  exists s', put_loop k off zero s = Some s' /\ length s' = length s
    /\ forall j, (j < nl)%nat -> lane j s' = lput off (repeat 0 k) (lane j s).
Proof.
  clear. intros H. destruct (put_sim k off zero (fun _ _ => 0) s H) as (s' & E & L & S).
  - intros i _. eexists. split; [reflexivity|]. reflexivity.
  - exists s'. split; [exact E|]. split; [exact L|]. intros j Hj. rewrite S by exact Hj. now rewrite map_const.
Qed.

Variable P : params.
Notation N := (p_n P).
Variable q : nat.
Hypothesis Hq : (1 <= q <= 4)%nat.
Hypothesis HN : N = (8 * q)%nat.
Lemma Nq : (N / 8 = q)%nat.
Proof. clear - HN. rewrite HN, Nat.mul_comm. apply Nat.div_mul. lia. Qed.

Variable pub : bytes.
Hypothesis Hpub : length pub = N.
Variable addrs : list bytes.
Hypothesis Haddrs : length addrs = nl.
Hypothesis Haddr : forall j, (j < nl)%nat -> length (nth j addrs []) = 32%nat.

Lemma const_words_sim x off s : length x = N -> (off + q <= length s)%nat ->
  exists s', put_loop (N / 8) off (fun i => v <- load_word x i ;; Some (vset1 v)) s = Some s'
    /\ length s' = length s
    /\ forall j, (j < nl)%nat -> lane j s' = lput off (words q x) (lane j s).
Proof.
  clear - HN. intros Hx H. rewrite Nq.
  apply (put_sim q off _ (fun _ i => le (norm (firstn 8 (skipn (8 * i) x))))); [exact H|].
  intros i Hi. rewrite load_word_ok by lia. cbn [bind]. eexists. split; reflexivity.
Qed.
Lemma seed_addr_sim s : length s = 25%nat ->
  exists s', put_seed_addr nl P pub addrs s = Some s' /\ length s' = 25%nat
    /\ forall j, (j < nl)%nat -> lane j s' = lput q (words 4 (nth j addrs [])) (lput 0 (words q pub) (lane j s)).
Proof.
  clear Hperm junk. intros Hs. unfold put_seed_addr.
  destruct (const_words_sim pub 0 s Hpub ltac:(lia)) as (s1 & E1 & L1 & S1). rewrite E1. cbn [bind].
  rewrite Nq.
  destruct (put_sim 4 q (fun i => vlanes nl (fun j => a <- get addrs j ;; addr_word a i))
    (fun j i => le (norm (firstn 8 (skipn (8 * i) (nth j addrs []))))) s1) as (s2 & E2 & L2 & S2).
  - lia.
  - intros i Hi. apply vlanes_ok. intros j Hj. rewrite (get_nth addrs j []) by lia. cbn [bind].
    apply addr_word_ok; [now apply Haddr|exact Hi].
  - exists s2. split; [exact E2|]. split; [lia|]. intros j Hj. rewrite S2, S1 by exact Hj. reflexivity.
Qed.

Section Ins.
Variable k : nat.
Hypothesis Hk : (1 <= k <= 2)%nat.
Variable ins : list bytes.
Hypothesis Hins : length ins = nl.
Hypothesis Hin : forall j, (j < nl)%nat -> length (nth j ins []) = (k * N)%nat.
Lemma in_word_ok i : (i < q * k)%nat -> exists v, in_word nl ins i = Some v
  /\ forall j, (j < nl)%nat -> v j = le (norm (firstn 8 (skipn (8 * i) (nth j ins [])))).
Proof.
  clear - HN Hins Hin. intros Hi. apply vlanes_ok. intros j Hj. rewrite (get_nth ins j []) by lia. cbn [bind].
  apply load_word_ok. rewrite Hin by exact Hj. rewrite HN. lia.
Qed.

Variable state0 : list vec.
Hypothesis Hst : length state0 = 25%nat.
Let c := (q * (1 + k) + 4)%nat.
Let Hc : (6 <= c <= 16)%nat.
Proof. clear - Hq Hk. unfold c. destruct Hk as [A B]. destruct k as [|[|[|]]]; lia. Qed.

Lemma simple4_ok : exists s, simple_state4 nl P state0 pub k ins addrs = Some s /\ length s = 25%nat
  /\ forall j, (j < nl)%nat ->
       lane j s = words q pub ++ words 4 (nth j addrs []) ++ words (q * k) (nth j ins []) ++ padw c.
Proof.
  clear Hperm junk. unfold simple_state4.
  destruct (seed_addr_sim state0 Hst) as (s1 & E1 & L1 & S1). rewrite E1. cbn [bind]. rewrite Nq. fold c.
  destruct (put_sim (q * k) (q + 4) (in_word nl ins)
    (fun j i => le (norm (firstn 8 (skipn (8 * i) (nth j ins []))))) s1) as (s2 & E2 & L2 & S2);
    [unfold c in Hc; lia|exact in_word_ok|]. rewrite E2. cbn [bind].
  destruct (zero_sim (16 - c) c s2) as (s3 & E3 & L3 & S3); [lia|]. rewrite E3. cbn [bind].
  destruct (vput_sim 16 (vset1 PAD_END) s3) as (s4 & E4 & L4 & S4); [lia|]. rewrite E4. cbn [bind].
  destruct (vxor_at_sim c 31 s4) as (s5 & E5 & L5 & S5); [lia|]. rewrite E5. cbn [bind].
  destruct (zero_sim 8 17 s5) as (s6 & E6 & L6 & S6); [lia|].
  exists s6. split; [exact E6|]. split; [lia|]. intros j Hj.
  rewrite S6, S5, S4, S3, S2, S1 by exact Hj.
  apply simple4_list with (k := k); auto; rewrite ?words_length, ?map_length, ?seq_length, ?lane_length; auto.
Qed.
Lemma simple2_ok : (forall j, (j < nl)%nat -> lane j state0 = repeat 0 25) ->
  exists s, simple_state2 nl P state0 pub k ins addrs = Some s /\ length s = 25%nat
  /\ forall j, (j < nl)%nat ->
       lane j s = words q pub ++ words 4 (nth j addrs []) ++ words (q * k) (nth j ins []) ++ padw c.
Proof.
  clear Hperm junk. intros H0. unfold simple_state2.
  destruct (seed_addr_sim state0 Hst) as (s1 & E1 & L1 & S1). rewrite E1. cbn [bind]. rewrite Nq. fold c.
  destruct (put_sim (q * k) (q + 4) (in_word nl ins)
    (fun j i => le (norm (firstn 8 (skipn (8 * i) (nth j ins []))))) s1) as (s2 & E2 & L2 & S2);
    [unfold c in Hc; lia|exact in_word_ok|]. rewrite E2. cbn [bind].
  destruct (vput_sim 16 (vset1 PAD_END) s2) as (s4 & E4 & L4 & S4); [lia|]. rewrite E4. cbn [bind].
  destruct (vxor_at_sim c 31 s4) as (s5 & E5 & L5 & S5); [lia|].
  exists s5. split; [exact E5|]. split; [lia|]. intros j Hj.
  rewrite S5, S4, S2, S1, H0 by exact Hj.
  apply simple2_list with (k := k); auto; rewrite ?words_length, ?map_length, ?seq_length, ?lane_length; auto.
Qed.
Lemma robust4_ok : exists s, robust_state4 nl P state0 pub addrs = Some s /\ length s = 25%nat
  /\ forall j, (j < nl)%nat -> lane j s = words q pub ++ words 4 (nth j addrs []) ++ padw (q + 4).
Proof.
  clear Hperm junk c Hc. unfold robust_state4.
  destruct (seed_addr_sim state0 Hst) as (s1 & E1 & L1 & S1). rewrite E1. cbn [bind]. rewrite Nq.
  destruct (vput_sim (q + 4) (vset1 31) s1) as (s2 & E2 & L2 & S2); [lia|]. rewrite E2. cbn [bind].
  destruct (zero_sim (16 - (q + 5)) (q + 5) s2) as (s3 & E3 & L3 & S3); [lia|]. rewrite E3. cbn [bind].
  destruct (vput_sim 16 (vset1 PAD_END) s3) as (s4 & E4 & L4 & S4); [lia|]. rewrite E4. cbn [bind].
  destruct (zero_sim 8 17 s4) as (s6 & E6 & L6 & S6); [lia|].
  exists s6. split; [exact E6|]. split; [lia|]. intros j Hj.
  rewrite S6, S4, S3, S2, S1 by exact Hj.
  apply robust4_list; auto; rewrite ?words_length, ?map_length, ?seq_length, ?lane_length; auto.
Qed.
Lemma robust2_ok : (forall j, (j < nl)%nat -> lane j state0 = repeat 0 25) ->
  exists s, robust_state2 nl P state0 pub addrs = Some s /\ length s = 25%nat
  /\ forall j, (j < nl)%nat -> lane j s = words q pub ++ words 4 (nth j addrs []) ++ padw (q + 4).
Proof.
  clear Hperm junk c Hc. intros H0. unfold robust_state2.
  destruct (seed_addr_sim state0 Hst) as (s1 & E1 & L1 & S1). rewrite E1. cbn [bind]. rewrite Nq.
  destruct (vput_sim 16 (vset1 PAD_END) s1) as (s4 & E4 & L4 & S4); [lia|]. rewrite E4. cbn [bind].
  destruct (vxor_at_sim (q + 4) 31 s4) as (s5 & E5 & L5 & S5); [lia|].
  exists s5. split; [exact E5|]. split; [lia|]. intros j Hj.
  rewrite S5, S4, S1, H0 by exact Hj.
  apply robust2_list; auto; rewrite ?words_length, ?map_length, ?seq_length, ?lane_length; auto.
Qed.

(** ** From a state to a hash *)
Lemma hash_state s m n q' : length s = 25%nat -> n = (8 * q')%nat -> (q' <= 17)%nat ->
  (forall j, (j < nl)%nat -> Forall W64 (lane j s) /\ (length (m j) < 136)%nat
     /\ sbytes (lane j s) = m j ++ pad 136 0x1F (length (m j)) ++ repeat 0 64) ->
  exists s', perm s = Some s' /\ length s' = 25%nat /\ forall j, (j < nl)%nat -> Forall W64 (lane j s') /\
    sbytes (firstn q' (lane j s')) = SHAKE256 (m j) n.
Proof.
  clear - Hperm. intros L Hn Hq' H.
  destruct (Hperm s L (fun j Hj => proj1 (H j Hj))) as (s' & E & L' & H').
  exists s'. split; [exact E|]. split; [exact L'|]. intros j Hj. destruct (H' j Hj) as [W' K].
  split; [exact W'|]. destruct (H j Hj) as (W & Lm & B).
  rewrite shake256_block by (auto; lia). rewrite <- B.
  destruct (permute_good (lane j s) [] (sbytes (lane j s))) as (s'' & E'' & G'').
  { repeat split; [now rewrite lane_length|exact W]. }
  rewrite !app_nil_r in E''. rewrite E'' in K. injection K as ->. destruct G'' as (_ & _ & <-).
  rewrite <- (firstn_skipn q' (lane j s')) at 2. rewrite sbytes_app, firstn_app.
  rewrite (firstn_all2 (n := n) (sbytes (firstn q' (lane j s')))) by (rewrite sbytes_length, firstn_length, lane_length; lia).
  rewrite sbytes_length, firstn_length, lane_length.
  replace (n - 8 * Nat.min q' (length s'))%nat with 0%nat by lia. cbn [firstn]. now rewrite app_nil_r.
Qed.
Lemma extract_ok s h : length s = 25%nat ->
  (forall j, (j < nl)%nat -> sbytes (firstn q (lane j s)) = h j) ->
  extract nl P s = Some (map h (seq 0 nl)).
Proof.
  clear - Hq HN. intros L H. unfold extract. rewrite Nq, getM by lia. cbn [bind]. f_equal.
  apply nth_ext with (d := []) (d' := []).
  - now rewrite out_bytes_length, map_length, seq_length.
  - rewrite out_bytes_length. intros j Hj. rewrite out_bytes_nth by exact Hj.
    rewrite nth_lanes by exact Hj. rewrite lane_firstn. now apply H.
Qed.
Lemma state_bytes l c' A B : (c' <= 16)%nat -> length A = (8 * q)%nat -> length B = 32%nat ->
  l = words q A ++ words 4 B ++ padw c' -> c' = (q + 4)%nat ->
  Forall W64 l /\ (length (norm A ++ norm B) < 136)%nat
  /\ sbytes l = (norm A ++ norm B) ++ pad 136 0x1F (length (norm A ++ norm B)) ++ repeat 0 64.
Proof.
  clear. intros H LA LB -> ->. split; [|split].
  - apply Forall_app; split; [now apply words_W64|]. apply Forall_app; split; [now apply words_W64|now apply padw_W64].
  - rewrite app_length, !map_length. lia.
  - rewrite !sbytes_app, !sbytes_words, padw_bytes by auto. rewrite <- app_assoc. do 3 f_equal. f_equal.
    rewrite app_length, !map_length. lia.
Qed.
Lemma state_bytes3 l c' q' A B C wC : (c' <= 16)%nat -> length A = (8 * q)%nat -> length B = 32%nat ->
  length wC = q' -> Forall W64 wC -> sbytes wC = C ->
  l = words q A ++ words 4 B ++ wC ++ padw c' -> c' = (q + 4 + q')%nat ->
  Forall W64 l /\ (length (norm A ++ norm B ++ C) < 136)%nat
  /\ sbytes l = (norm A ++ norm B ++ C) ++ pad 136 0x1F (length (norm A ++ norm B ++ C)) ++ repeat 0 64.
Proof.
  clear. intros H LA LB LC WC <- -> ->. split; [|split].
  - apply Forall_app; split; [now apply words_W64|]. apply Forall_app; split; [now apply words_W64|].
    apply Forall_app; split; [exact WC|now apply padw_W64].
  - rewrite !app_length, !map_length, sbytes_length. lia.
  - rewrite !sbytes_app, !sbytes_words, padw_bytes by auto. rewrite <- !app_assoc. do 4 f_equal. f_equal.
    rewrite !app_length, !map_length, sbytes_length. lia.
Qed.

Variable four : bool.
Hypothesis Hz : four = false -> forall j, (j < nl)%nat -> lane j state0 = repeat 0 25.
Lemma simple_fast : forall sk sd st,
  thashx_simple nl perm junk P sd state0 four (mkCtx pub sk st) k ins addrs
  = Some (map (fun j => shake_T N false (norm pub) (norm (nth j addrs [])) (norm (nth j ins []))) (seq 0 nl)).
Proof.
  intros sk sd st. unfold thashx_simple.
  replace ((k =? 1)%nat || (k =? 2)%nat) with true
    by (destruct Hk; destruct k as [|[|[|]]]; try reflexivity; lia).
  cbn [c_pub_seed].
  assert (Hs : exists s, simple_state nl P state0 four pub k ins addrs = Some s /\ length s = 25%nat
    /\ forall j, (j < nl)%nat ->
       lane j s = words q pub ++ words 4 (nth j addrs []) ++ words (q * k) (nth j ins []) ++ padw c).
  { unfold simple_state. destruct four; [exact simple4_ok|apply simple2_ok; now apply Hz]. }
  destruct Hs as (s & E & L & S). rewrite E. cbn [bind].
  destruct (hash_state s (fun j => norm pub ++ norm (nth j addrs []) ++ norm (nth j ins [])) N q L HN)
    as (s' & E' & L' & S'); [lia| |].
  - intros j Hj. apply state_bytes3 with (c' := c) (q' := (q * k)%nat) (wC := words (q * k) (nth j ins []));
      [lia|lia|now apply Haddr|apply words_length| | |now apply S|unfold c; lia].
    + apply words_W64. rewrite Hin by exact Hj. lia.
    + apply sbytes_words. rewrite Hin by exact Hj. lia.
  - rewrite E'. cbn [bind]. apply extract_ok; [exact L'|]. intros j Hj. apply S', Hj.
Qed.
Lemma words_map_nth n l : length l = n -> words n [] = words n [] -> map (fun i => nth i l 0) (seq 0 n) = l.
Proof.
  clear. intros <- _. apply nth_ext with (d := 0) (d' := 0); rewrite map_length, seq_length; [reflexivity|].
  intros i Hi. erewrite nth_error_nth; [|rewrite nth_error_map_seq by exact Hi; reflexivity]. reflexivity.
Qed.
Lemma robust_fast : forall sk sd st,
  thashx_robust nl perm junk P sd state0 four (mkCtx pub sk st) k ins addrs
  = Some (map (fun j => shake_T N true (norm pub) (norm (nth j addrs [])) (norm (nth j ins []))) (seq 0 nl)).
Proof.
  intros sk sd st. unfold thashx_robust.
  replace ((k =? 1)%nat || (k =? 2)%nat) with true
    by (destruct Hk; destruct k as [|[|[|]]]; try reflexivity; lia).
  cbn [c_pub_seed].
  assert (Hs : exists s, robust_state nl P state0 four pub addrs = Some s /\ length s = 25%nat
    /\ forall j, (j < nl)%nat -> lane j s = words q pub ++ words 4 (nth j addrs []) ++ padw (q + 4)).
  { unfold robust_state. destruct four; [exact robust4_ok|apply robust2_ok; now apply Hz]. }
  destruct Hs as (s & E & L & S). rewrite E. cbn [bind].
  destruct (hash_state s (fun j => norm pub ++ norm (nth j addrs [])) (k * N) (q * k) L)
    as (s1 & E1 & L1 & S1); [rewrite HN; lia|unfold c in Hc; lia| |].
  { intros j Hj. apply state_bytes with (c' := (q + 4)%nat);
      [lia|lia|now apply Haddr|now apply S|reflexivity]. }
  rewrite E1. cbn [bind]. rewrite Nq.
  set (wx := fun j => map (fun p => Z.lxor (fst p) (snd p))
    (combine (firstn (q * k) (lane j s1)) (words (q * k) (nth j ins [])))).
  destruct (put_sim (q * k) (q + 4)
    (fun i => v <- get s1 i ;; x <- in_word nl ins i ;; Some (vxor v x))
    (fun j i => nth i (wx j) 0) s) as (s2 & E2 & L2 & S2); [unfold c in Hc; lia| |].
  { intros i Hi. rewrite (get_nth s1 i (fun _ => 0)) by (unfold c in Hc; lia). cbn [bind].
    destruct (in_word_ok i Hi) as (x & -> & Hx). cbn [bind]. eexists. split; [reflexivity|].
    intros j Hj. unfold vxor. rewrite Hx by exact Hj. rewrite <- lane_nth by (unfold c in Hc; lia).
    unfold wx. symmetry.
    erewrite (nth_indep _ 0 (Z.lxor (fst (0, 0)) (snd (0, 0)))).
    2:{ rewrite map_length, combine_length, words_length, firstn_length, lane_length. unfold c in Hc. lia. }
    rewrite (map_nth (fun p => Z.lxor (fst p) (snd p))).
    rewrite combine_nth.
    2:{ rewrite words_length, firstn_length, lane_length. unfold c in Hc. lia. }
    cbn [fst snd]. f_equal.
    - rewrite <- (firstn_skipn (q * k) (lane j s1)) at 2. rewrite app_nth1; [reflexivity|].
      rewrite firstn_length, lane_length. unfold c in Hc. lia.
    - unfold words. apply nth_error_nth. now rewrite nth_error_map_seq. }
  rewrite E2. cbn [bind]. fold c.
  destruct (vxor_at_sim c 31 s2) as (s3 & E3 & L3 & S3); [lia|]. rewrite E3. cbn [bind].
  assert (Lwx : forall j, length (wx j) = (q * k)%nat).
  { intros j. unfold wx. rewrite map_length, combine_length, words_length, firstn_length, lane_length.
    unfold c in Hc. lia. }
  destruct (hash_state s3 (fun j => norm pub ++ norm (nth j addrs [])
      ++ xor_str (norm (nth j ins [])) (SHAKE256 (norm pub ++ norm (nth j addrs [])) (k * N))) N q)
    as (s4 & E4 & L4 & S4); [lia|exact HN|lia| |].
  - intros j Hj. destruct (S1 j Hj) as [W1 B1].
    assert (Li : length (nth j ins []) = (8 * (q * k))%nat) by (rewrite Hin by exact Hj; lia).
    apply state_bytes3 with (c' := c) (q' := (q * k)%nat) (wC := wx j);
      [lia|lia|now apply Haddr|apply Lwx| | | |unfold c; lia].
    + unfold wx. apply Forall_forall. intros x Hx. apply in_map_iff in Hx. destruct Hx as ([a b] & <- & Hx).
      cbn [fst snd]. apply W64_xor.
      * apply in_combine_l in Hx. rewrite Forall_forall in W1. apply W1.
        rewrite <- (firstn_skipn (q * k)). apply in_or_app. now left.
      * apply in_combine_r in Hx. pose proof (words_W64 (q * k) _ Li) as W2. rewrite Forall_forall in W2. now apply W2.
    + unfold wx. rewrite xor_words_bytes.
      2:{ rewrite words_length, firstn_length, lane_length. unfold c in Hc. lia. }
      rewrite sbytes_words by exact Li. now rewrite B1.
    + rewrite S3, S2, S by exact Hj. rewrite words_map_nth by (try reflexivity; apply Lwx).
      apply robust_list with (k := k); auto; rewrite ?words_length; auto.
  - rewrite E4. cbn [bind]. apply extract_ok; [exact L4|]. intros j Hj. destruct (S4 j Hj) as [_ B4].
    rewrite B4. unfold shake_T. rewrite map_length, Hin by exact Hj. reflexivity.
Qed.
End Ins.

(** ** prf_addr *)
Section Prf.
Variable sk : bytes.
Hypothesis Hsk : length sk = N.
Variable state0 : list vec.
Hypothesis Hst : length state0 = 25%nat.
Lemma Nq4 : (N / 4 = 2 * q)%nat.
Proof. clear - HN. rewrite HN. replace (8 * q)%nat with (2 * q * 4)%nat by lia. apply Nat.div_mul. lia. Qed.
Lemma prf4_ok : exists s, prf_state4 nl P state0 pub sk addrs = Some s /\ length s = 25%nat
  /\ forall j, (j < nl)%nat ->
       lane j s = words q pub ++ words 4 (nth j addrs []) ++ words q sk ++ padw (2 * q + 4).
Proof.
  clear Hperm junk. unfold prf_state4.
  destruct (seed_addr_sim state0 Hst) as (s1 & E1 & L1 & S1). rewrite E1. cbn [bind].
  destruct (const_words_sim sk (q + 4) s1 Hsk ltac:(lia)) as (s2 & E2 & L2 & S2).
  rewrite Nq in E2. rewrite Nq, Nq4. rewrite E2. cbn [bind].
  destruct (vput_sim (2 * q + 4) (vset1 31) s2) as (s3 & E3 & L3 & S3); [lia|]. rewrite E3. cbn [bind].
  destruct (zero_sim (16 - (2 * q + 5)) (2 * q + 5) s3) as (s4 & E4 & L4 & S4); [lia|]. rewrite E4. cbn [bind].
  destruct (vput_sim 16 (vset1 PAD_END) s4) as (s5 & E5 & L5 & S5); [lia|]. rewrite E5. cbn [bind].
  destruct (zero_sim 8 17 s5) as (s6 & E6 & L6 & S6); [lia|].
  exists s6. split; [exact E6|]. split; [lia|]. intros j Hj.
  rewrite S6, S5, S4, S3, S2, S1 by exact Hj.
  apply prf4_list; auto; rewrite ?words_length, ?lane_length; auto.
Qed.
Lemma prf2_ok : (forall j, (j < nl)%nat -> lane j state0 = repeat 0 25) ->
  exists s, prf_state2 nl P state0 pub sk addrs = Some s /\ length s = 25%nat
  /\ forall j, (j < nl)%nat ->
       lane j s = words q pub ++ words 4 (nth j addrs []) ++ words q sk ++ padw (2 * q + 4).
Proof.
  clear Hperm junk. intros H0. unfold prf_state2.
  destruct (seed_addr_sim state0 Hst) as (s1 & E1 & L1 & S1). rewrite E1. cbn [bind].
  destruct (const_words_sim sk (q + 4) s1 Hsk ltac:(lia)) as (s2 & E2 & L2 & S2).
  rewrite Nq in E2. rewrite Nq, Nq4. rewrite E2. cbn [bind].
  destruct (vput_sim (2 * q + 4) (vset1 31) s2) as (s3 & E3 & L3 & S3); [lia|]. rewrite E3. cbn [bind].
  destruct (vput_sim 16 (vset1 PAD_END) s3) as (s5 & E5 & L5 & S5); [lia|].
  exists s5. split; [exact E5|]. split; [lia|]. intros j Hj.
  rewrite S5, S3, S2, S1, H0 by exact Hj.
  apply prf2_list; auto; rewrite ?words_length, ?lane_length; auto.
Qed.
Lemma prf_fast four st : (four = false -> forall j, (j < nl)%nat -> lane j state0 = repeat 0 25) ->
  prf_addrx_shake nl perm P state0 four (mkCtx pub sk st) addrs
  = Some (map (fun j => shake_PRF N (norm pub) (norm sk) (norm (nth j addrs []))) (seq 0 nl)).
Proof.
  intros Hz. unfold prf_addrx_shake. cbn [c_pub_seed c_sk_seed].
  assert (Hs : exists s, prf_state nl P state0 four pub sk addrs = Some s /\ length s = 25%nat
    /\ forall j, (j < nl)%nat ->
       lane j s = words q pub ++ words 4 (nth j addrs []) ++ words q sk ++ padw (2 * q + 4)).
  { unfold prf_state. destruct four; [exact prf4_ok|apply prf2_ok; now apply Hz]. }
  destruct Hs as (s & E & L & S). rewrite E. cbn [bind].
  destruct (hash_state s (fun j => norm pub ++ norm (nth j addrs []) ++ norm sk) N q L HN)
    as (s' & E' & L' & S'); [lia| |].
  - intros j Hj. apply state_bytes3 with (c' := (2 * q + 4)%nat) (q' := q) (wC := words q sk);
      [lia|lia|now apply Haddr|apply words_length| | |now apply S|lia].
    + apply words_W64. lia.
    + apply sbytes_words. lia.
  - rewrite E'. cbn [bind]. apply extract_ok; [exact L'|]. intros j Hj. apply S', Hj.
Qed.
End Prf.

(** ** Other numbers of blocks: shake256x4, shake256x2 *)
Section Long.
Variable s0 : list vec.
Hypothesis Hs0 : length s0 = 25%nat.
Hypothesis Hs0z : forall j, (j < nl)%nat -> lane j s0 = repeat 0 25.
Lemma shake256x_ok n ins inlen : length ins = nl ->
  (forall j, (j < nl)%nat -> (inlen <= length (nth j ins []))%nat) ->
  shake256x nl perm junk s0 n ins inlen = Some (map (fun m => SHAKE256 (norm (firstn inlen m)) n) ins).
Proof.
  clear - Hperm Hs0 Hs0z. intros H1 H2. apply (shakex_ok nl perm Hperm junk 136 17); auto. lia.
Qed.
Lemma map_lanes {A} (f : bytes -> A) (g : nat -> bytes) :
  map f (map g (seq 0 nl)) = map (fun j => f (g j)) (seq 0 nl).
Proof. apply map_map. Qed.
Variable k : nat.
Hypothesis Hk : (k =? 1)%nat || (k =? 2)%nat = false.
Variable ins : list bytes.
Hypothesis Hins : length ins = nl.
Hypothesis Hin : forall j, (j < nl)%nat -> length (nth j ins []) = (k * N)%nat.
Variable state0 : list vec.
Lemma simple_slow four sk st :
  thashx_simple nl perm junk P s0 state0 four (mkCtx pub sk st) k ins addrs
  = Some (map (fun j => shake_T N false (norm pub) (norm (nth j addrs [])) (norm (nth j ins []))) (seq 0 nl)).
Proof.
  clear HN Hq. unfold thashx_simple. rewrite Hk. cbn [c_pub_seed].
  rewrite (lanesM_ok nl _ (fun j => pub ++ nth j addrs [] ++ nth j ins [])).
  - cbn [bind]. rewrite shake256x_ok.
    + rewrite map_lanes. f_equal. apply map_ext_in. intros j Hj. apply in_seq in Hj. unfold shake_T.
      rewrite firstn_all2; [now rewrite !map_app|].
      rewrite !app_length, Haddr, Hin by lia. unfold SPX_ADDR_BYTES. lia.
    + now rewrite map_length, seq_length.
    + intros j Hj. rewrite nth_lanes by exact Hj. rewrite !app_length, Haddr, Hin by exact Hj.
      unfold SPX_ADDR_BYTES. lia.
  - intros j Hj. rewrite (get_nth addrs j []), (get_nth ins j []) by lia. cbn [bind].
    specialize (Haddr j Hj). specialize (Hin j Hj).
    set (a := nth j addrs []) in *. set (x := nth j ins []) in *. clearbody a x.
    set (J := junk_bytes _ _).
    assert (LJ : length J = (N + SPX_ADDR_BYTES + k * N)%nat) by apply junk_length. clearbody J.
    change SPX_ADDR_BYTES with 32%nat in *.
    destruct (split_at J 0 N) as (x0 & j1 & r1 & E1 & L0 & L1 & _); [lia|].
    destruct x0; [|cbn in L0; lia]. cbn [app] in E1. subst J. rewrite app_length in LJ.
    destruct (split_at r1 0 32) as (x0 & j2 & j3 & E1 & L0' & L2 & _); [lia|].
    destruct x0; [|cbn in L0'; lia]. cbn [app] in E1. subst r1. rewrite app_length in LJ.
    rewrite memcpy_all by lia. cbn [bind]. rewrite memcpy_mid by lia. cbn [bind].
    replace (pub ++ a ++ j3) with ((pub ++ a) ++ j3 ++ []) by (now rewrite app_nil_r, <- app_assoc).
    rewrite memcpy_mid by (rewrite ?app_length; lia). now rewrite app_nil_r, <- app_assoc.
Qed.
Lemma robust_slow four sk st :
  thashx_robust nl perm junk P s0 state0 four (mkCtx pub sk st) k ins addrs
  = Some (map (fun j => shake_T N true (norm pub) (norm (nth j addrs [])) (norm (nth j ins []))) (seq 0 nl)).
Proof.
  clear HN Hq. unfold thashx_robust. rewrite Hk. cbn [c_pub_seed].
  set (J := fun j => junk_bytes (junk (320 + j)) (N + SPX_ADDR_BYTES + k * N)).
  assert (LJ : forall j, length (J j) = (N + 32 + k * N)%nat) by (intros j; apply junk_length).
  set (J3 := fun j => skipn (N + 32) (J j)).
  assert (LJ3 : forall j, length (J3 j) = (k * N)%nat)
    by (intros j; unfold J3; rewrite skipn_length, LJ; lia).
  rewrite (lanesM_ok nl _ (fun j => (pub ++ nth j addrs []) ++ J3 j)).
  2:{ intros j Hj. rewrite (get_nth addrs j []) by lia. cbn [bind]. fold (J j).
    specialize (Haddr j Hj). set (a := nth j addrs []) in *. clearbody a.
    specialize (LJ j). unfold J3. set (Jj := J j) in *. clearbody Jj.
    change SPX_ADDR_BYTES with 32%nat in *.
    destruct (split_at Jj 0 N) as (x0 & j1 & r1 & E1 & L0 & L1 & _); [lia|].
    destruct x0; [|cbn in L0; lia]. cbn [app] in E1. subst Jj. rewrite app_length in LJ.
    destruct (split_at r1 0 32) as (x0 & j2 & j3 & E1 & L0' & L2 & _); [lia|].
    destruct x0; [|cbn in L0'; lia]. cbn [app] in E1. subst r1. rewrite app_length in LJ.
    rewrite memcpy_all by lia. cbn [bind]. rewrite memcpy_mid by lia. f_equal. rewrite <- !app_assoc. do 2 f_equal.
    rewrite !app_assoc, skipn_app, skipn_all2 by (rewrite app_length; lia).
    rewrite app_length. replace (N + 32 - (length j1 + length j2))%nat with 0%nat by lia. reflexivity. }
  cbn [bind]. change SPX_ADDR_BYTES with 32%nat.
  rewrite shake256x_ok.
  2:{ now rewrite map_length, seq_length. }
  2:{ intros j Hj. rewrite nth_lanes by exact Hj. rewrite !app_length, Haddr by exact Hj. lia. }
  cbn [bind]. rewrite map_lanes.
  set (mask := fun j => SHAKE256 (norm pub ++ norm (nth j addrs [])) (k * N)).
  assert (Lm : forall j, length (mask j) = (k * N)%nat) by (intros j; apply SHAKE256_length).
  rewrite (map_ext_in (fun j => SHAKE256 (norm (firstn (N + 32) ((pub ++ nth j addrs []) ++ J3 j))) (k * N)) mask).
  2:{ intros j Hj. apply in_seq in Hj. unfold mask. rewrite <- map_app. do 2 f_equal.
      apply SpecFacts.firstn_app_len. rewrite app_length, Haddr by lia. lia. }
  set (B := fun j => pub ++ nth j addrs [] ++ xor_str (norm (nth j ins [])) (mask j)).
  assert (LB : forall j, (j < nl)%nat -> length (B j) = (N + 32 + k * N)%nat).
  { intros j Hj. unfold B. rewrite !app_length, Haddr, xor_str_length by (rewrite ?map_length, ?Lm, ?Hin; auto; lia).
    rewrite map_length, Hin by exact Hj. lia. }
  rewrite (lanesM_ok nl _ B).
  - cbn [bind]. rewrite shake256x_ok.
    + rewrite map_lanes. f_equal. apply map_ext_in. intros j Hj. apply in_seq in Hj. unfold shake_T.
      rewrite firstn_all2 by (rewrite LB by lia; lia). unfold B. rewrite !map_app.
      rewrite map_length, Hin by lia. fold (mask j). do 3 f_equal.
      apply norm_bytes. unfold xor_str. apply Forall_forall. intros x Hx. apply in_map_iff in Hx.
      destruct Hx as ([u v] & <- & Hx). pose proof (in_combine_l _ _ _ _ Hx) as Hu.
      pose proof (in_combine_r _ _ _ _ Hx) as Hv. cbn [fst snd].
      pose proof (norm_all (nth j ins [])) as HM. 
      pose proof (SHAKE256_bytes (norm pub ++ norm (nth j addrs [])) (k * N)) as HS. fold (mask j) in HS.
      unfold all_bytes in HM, HS. rewrite Forall_forall in HM, HS.
      assert (Eu : u = u8 u) by (unfold u8; rewrite Z.mod_small; auto; apply HM; auto).
      assert (Ev : v = u8 v) by (unfold u8; rewrite Z.mod_small; auto; apply HS; exact Hv).
      rewrite Eu, Ev, <- u8_xor. apply u8_byte.
    + now rewrite map_length, seq_length.
    + intros j Hj. rewrite nth_lanes by exact Hj. rewrite LB by exact Hj. lia.
  - intros j Hj. rewrite (get_nth _ j []) by (rewrite map_length, seq_length; lia). cbn [bind].
    rewrite nth_lanes by exact Hj. rewrite (get_nth ins j []) by lia. cbn [bind].
    rewrite (get_nth _ j []) by (rewrite map_length, seq_length; lia). cbn [bind].
    rewrite nth_lanes by exact Hj. rewrite <- (app_nil_r (J3 j)).
    rewrite xor_loop_ok by (rewrite ?app_length, ?Haddr, ?Hin, ?Lm, ?LJ3 by exact Hj; lia).
    cbn [skipn]. rewrite !firstn_all2 by (rewrite ?Hin, ?Lm by exact Hj; lia). rewrite app_nil_r.
    rewrite (norm_bytes (mask j)) by apply SHAKE256_bytes. unfold B. now rewrite <- app_assoc.
Qed.
End Long.
End Thash.
