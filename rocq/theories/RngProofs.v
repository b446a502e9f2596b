(** Proofs about the random sources. *)
From Verif Require Import Base BaseFacts Spec SpecFacts Rng RngSpec.

(** ** Lists *)
Lemma firstn_app_len' {A} (a b : list A) k : k = length a -> firstn k (a ++ b) = a.
Proof. intros ->. now rewrite firstn_app, Nat.sub_diag, firstn_O, app_nil_r, firstn_all. Qed.
Lemma skipn_app_len' {A} (a b : list A) k : k = length a -> skipn k (a ++ b) = b.
Proof. intros ->. now rewrite skipn_app, Nat.sub_diag, skipn_O, skipn_all. Qed.
(** Writing twice, the second write just after the first. *)
Lemma wr_again (x d s : bytes) off :
  (off + length d <= length x)%nat ->
  let x1 := firstn off x ++ d ++ skipn (off + length d) x in
  length x1 = length x
  /\ firstn (off + length d) x1 ++ s ++ skipn (off + length d + length s) x1
     = firstn off x ++ (d ++ s) ++ skipn (off + length (d ++ s)) x.
Proof.
  intros L x1. assert (L1 : length (firstn off x ++ d) = (off + length d)%nat) by (rewrite app_length, firstn_length; lia).
  split; [unfold x1; rewrite !app_length, firstn_length, skipn_length; lia|].
  assert (E1 : x1 = (firstn off x ++ d) ++ skipn (off + length d) x) by (unfold x1; apply app_assoc).
  rewrite E1, firstn_app_len' by auto. rewrite skipn_app, L1.
  rewrite skipn_all2 by lia. cbn [app]. rewrite skipn_skipn, app_length, <- !app_assoc. do 4 f_equal. lia.
Qed.

(** ** The operating system's source *)
Inductive drawn : list read_result -> bytes -> Prop :=
| drawn_nil : drawn [] []
| drawn_data d k evs out : drawn evs out -> drawn (RData d :: evs) (firstn k d ++ out).

Definition no_error (r : read_result) : Prop := r <> RError.
Lemma rb_loop_ok reads : forall fd opens mem x xlen,
  0 <= x -> 0 <= xlen < 2 ^ 64 -> x + xlen <= Z.of_nat (length mem) -> Forall no_error reads ->
  match rb_loop reads fd opens mem x xlen with
  | Fault => False
  | Waiting mem' => exists out, drawn reads out /\ Z.of_nat (length out) < xlen
      /\ mem' = firstn (Z.to_nat x) mem ++ out ++ skipn (Z.to_nat x + length out) mem
  | Returned mem' fd' opens' rest => fd' = fd /\ opens' = opens /\ exists used out, reads = used ++ rest
      /\ drawn used out /\ Z.of_nat (length out) = xlen
      /\ mem' = firstn (Z.to_nat x) mem ++ out ++ skipn (Z.to_nat x + length out) mem
  end.
Proof.
  induction reads as [|ev reads IH]; intros fd opens mem x xlen Hx Hl Hm Hn; cbn [rb_loop].
  - destruct (xlen <=? 0) eqn:E0.
    + split; [reflexivity|]. split; [reflexivity|]. exists [], []. split; [reflexivity|]. split; [constructor|].
      split; [cbn; lia|]. cbn [app length]. now rewrite Nat.add_0_r, firstn_skipn.
    + exists []. split; [constructor|]. split; [cbn; lia|]. cbn [app length]. now rewrite Nat.add_0_r, firstn_skipn.
  - destruct (xlen <=? 0) eqn:E0.
    { split; [reflexivity|]. split; [reflexivity|]. exists [], []. split; [reflexivity|]. split; [constructor|].
      split; [cbn; lia|]. cbn [app length]. now rewrite Nat.add_0_r, firstn_skipn. }
    inversion_clear Hn as [|? ? Hev Hn']. destruct ev as [|d]; [now destruct Hev|].
    cbv zeta. set (i := if xlen <? 1048576 then xlen else 1048576).
    assert (Hi : 0 < i <= xlen) by (unfold i; destruct (xlen <? 1048576) eqn:E1; lia).
    set (d1 := firstn (Z.to_nat i) d).
    assert (Ld : Z.of_nat (length d1) <= i) by (unfold d1; rewrite firstn_length; lia).
    destruct (Z.of_nat (length d1) <? 1) eqn:E1.
    { specialize (IH fd opens mem x xlen Hx Hl Hm Hn').
      assert (d1 = []) as Ed by (destruct d1; [reflexivity|cbn in E1; lia]).
      destruct (rb_loop reads fd opens mem x xlen) as [m f o rest|m|]; auto.
      - destruct IH as (-> & -> & used & out & -> & Dr & Lo & Em). split; [reflexivity|]. split; [reflexivity|].
        exists (RData d :: used), out. repeat split; auto.
        replace out with (firstn (Z.to_nat i) d ++ out) by (fold d1; now rewrite Ed). now constructor.
      - destruct IH as (out & Dr & R). exists out. split; auto.
        replace out with (firstn (Z.to_nat i) d ++ out) by (fold d1; now rewrite Ed). now constructor. }
    replace (x <? 0) with false by lia.
    unfold wr. replace (Z.to_nat x + length d1 <=? length mem)%nat with true by lia.
    destruct (wr_again mem d1 [] (Z.to_nat x)) as [L1 _]; [lia|].
    set (m1 := firstn (Z.to_nat x) mem ++ d1 ++ skipn (Z.to_nat x + length d1) mem) in *. cbv zeta in L1.
    assert (Eu : u64 (xlen - Z.of_nat (length d1)) = xlen - Z.of_nat (length d1)) by (apply Z.mod_small; lia).
    rewrite Eu.
    specialize (IH fd opens m1 (x + Z.of_nat (length d1)) (xlen - Z.of_nat (length d1))).
    assert (Ex : Z.to_nat (x + Z.of_nat (length d1)) = (Z.to_nat x + length d1)%nat) by lia.
    rewrite Ex in IH.
    assert (W : forall s, firstn (Z.to_nat x + length d1) m1 ++ s ++ skipn (Z.to_nat x + length d1 + length s) m1
       = firstn (Z.to_nat x) mem ++ (d1 ++ s) ++ skipn (Z.to_nat x + length (d1 ++ s)) mem).
    { intros s. destruct (wr_again mem d1 s (Z.to_nat x)) as [_ W]; [lia|exact W]. }
    destruct (rb_loop reads fd opens m1 _ _) as [m f o rest|m|].
    + destruct IH as (-> & -> & used & out & -> & Dr & Lo & Em); auto; try lia.
      split; [reflexivity|]. split; [reflexivity|]. exists (RData d :: used), (d1 ++ out).
      split; [reflexivity|]. split; [now constructor|]. split; [rewrite app_length; lia|].
      rewrite Em. apply W.
    + destruct IH as (out & Dr & Lo & Em); auto; try lia. exists (d1 ++ out).
      split; [now constructor|]. split; [rewrite app_length; lia|]. rewrite Em. apply W.
    + apply IH; auto; lia.
Qed.
Lemma rb_open_ok opens : forall fd fd' opens', rb_open opens fd = Some (fd', opens') -> fd' <> -1.
Proof.
  induction opens as [|r opens IH]; intros fd fd' opens'; cbn [rb_open]; destruct (fd =? -1) eqn:E; cbn [negb]; intros H.
  - discriminate.
  - injection H as <- <-. lia.
  - destruct (r =? -1) eqn:E2; cbn [negb] in H; [now apply IH in H|]. injection H as <- <-. lia.
  - injection H as <- <-. lia.
Qed.
(** Progress: every read delivers something. *)
Lemma rb_loop_returns reads : forall fd opens mem x xlen,
  0 <= x -> 0 <= xlen < 2 ^ 64 -> x + xlen <= Z.of_nat (length mem) ->
  Forall (fun r => exists b d, r = RData (b :: d)) reads -> xlen <= Z.of_nat (length reads) ->
  exists mem' rest, rb_loop reads fd opens mem x xlen = Returned mem' fd opens rest.
Proof.
  induction reads as [|ev reads IH]; intros fd opens mem x xlen Hx Hl Hm Hn Hr; cbn [rb_loop].
  - cbn in Hr. replace (xlen <=? 0) with true by lia. eauto.
  - destruct (xlen <=? 0) eqn:E0; [eauto|]. inversion_clear Hn as [|? ? Hev Hn']. destruct Hev as (b & d & ->).
    cbv zeta. set (i := if xlen <? 1048576 then xlen else 1048576).
    assert (Hi : 0 < i <= xlen) by (unfold i; destruct (xlen <? 1048576) eqn:E1; lia).
    set (d1 := firstn (Z.to_nat i) (b :: d)).
    assert (Ld : 1 <= Z.of_nat (length d1) <= i) by (unfold d1; rewrite firstn_length; cbn [length]; lia).
    replace (Z.of_nat (length d1) <? 1) with false by lia. replace (x <? 0) with false by lia.
    unfold wr. replace (Z.to_nat x + length d1 <=? length mem)%nat with true by lia.
    destruct (wr_again mem d1 [] (Z.to_nat x)) as [L1 _]; [lia|]. cbv zeta in L1.
    assert (Eu : u64 (xlen - Z.of_nat (length d1)) = xlen - Z.of_nat (length d1)) by (apply Z.mod_small; lia).
    rewrite Eu. cbn [length] in Hr. apply IH; auto; try lia.
Qed.

(** The defect: after a failing first read, the next read lands one byte before the buffer. *)
Lemma rb_error fd opens rest mem x xlen d :
  (1 <= x)%nat -> 0 < xlen -> xlen + 1 < 1048576 -> Z.of_nat x + xlen <= Z.of_nat (length mem) ->
  xlen + 1 <= Z.of_nat (length d) ->
  rb_loop (RError :: RData d :: rest) fd opens mem (Z.of_nat x) xlen
  = Returned (firstn (x - 1) mem ++ firstn (Z.to_nat xlen + 1) d ++ skipn (x + Z.to_nat xlen) mem) fd opens rest.
Proof.
  intros Hx Hl Hs Hm Hd. cbn [rb_loop]. replace (xlen <=? 0) with false by lia.
  change (u64 (-1)) with 18446744073709551615. change (18446744073709551615 <? 1) with false. cbv zeta iota.
  assert (E1 : u64 (xlen - 18446744073709551615) = xlen + 1).
  { unfold u64. rewrite <- (Z.mod_add _ 1) by (apply Z.pow_nonzero; lia).
    change (1 * 2 ^ 64) with 18446744073709551616.
    replace (xlen - 18446744073709551615 + 18446744073709551616) with (xlen + 1) by lia. apply Z.mod_small. change (2 ^ 64) with 18446744073709551616. lia. }
  rewrite E1. change (2 ^ 64) with 18446744073709551616.
  replace (Z.of_nat x + 18446744073709551615 - 18446744073709551616) with (Z.of_nat x - 1) by lia.
  replace (xlen + 1 <=? 0) with false by lia. replace (xlen + 1 <? 1048576) with true by lia.
  replace (Z.to_nat (xlen + 1)) with (Z.to_nat xlen + 1)%nat by lia.
  assert (Ld : length (firstn (Z.to_nat xlen + 1) d) = (Z.to_nat xlen + 1)%nat) by (rewrite firstn_length; lia).
  rewrite Ld. replace (Z.of_nat (Z.to_nat xlen + 1) <? 1) with false by lia.
  replace (Z.of_nat x - 1 <? 0) with false by lia.
  rewrite wr_ok by lia. rewrite Ld. replace (Z.to_nat (Z.of_nat x - 1)) with (x - 1)%nat by lia.
  replace (x - 1 + (Z.to_nat xlen + 1))%nat with (x + Z.to_nat xlen)%nat by lia.
  replace (xlen + 1 - Z.of_nat (Z.to_nat xlen + 1)) with 0 by lia. change (u64 0) with 0.
  destruct rest; reflexivity.
Qed.
Lemma rb_error_fault fd opens rest mem xlen b d :
  0 < xlen -> xlen + 1 < 2 ^ 64 ->
  rb_loop (RError :: RData (b :: d) :: rest) fd opens mem 0 xlen = Fault.
Proof.
  intros Hl Hs. cbn [rb_loop]. replace (xlen <=? 0) with false by lia.
  change (u64 (-1)) with 18446744073709551615. change (18446744073709551615 <? 1) with false. cbv zeta iota.
  assert (E1 : u64 (xlen - 18446744073709551615) = xlen + 1).
  { unfold u64. rewrite <- (Z.mod_add _ 1) by (apply Z.pow_nonzero; lia).
    change (1 * 2 ^ 64) with 18446744073709551616.
    replace (xlen - 18446744073709551615 + 18446744073709551616) with (xlen + 1) by lia. apply Z.mod_small. change (2 ^ 64) with 18446744073709551616 in *. lia. }
  rewrite E1. replace (xlen + 1 <=? 0) with false by lia.
  set (i := if xlen + 1 <? 1048576 then xlen + 1 else 1048576).
  assert (Hi : 0 < i) by (unfold i; destruct (xlen + 1 <? 1048576); lia).
  replace (Z.of_nat (length (firstn (Z.to_nat i) (b :: d))) <? 1) with false
    by (rewrite firstn_length; cbn [length]; lia).
  reflexivity.
Qed.

(** ** Counters *)
Lemma be_bytes_length k v : length (be_bytes k v) = k.
Proof. unfold be_bytes. now rewrite map_length, seq_length. Qed.
Lemma be_bytes_S k v : be_bytes (S k) v = be_bytes k (v / 256) ++ [v mod 256].
Proof.
  unfold be_bytes. rewrite seq_S, map_app. cbn [map Nat.add]. f_equal.
  - apply map_ext_in. intros j Hj. apply in_seq in Hj. rewrite Z.div_div by (try apply Z.pow_pos_nonneg; lia).
    rewrite <- Z.pow_succ_r by lia. do 3 f_equal. lia.
  - replace (S k - 1 - k)%nat with 0%nat by lia. change (256 ^ Z.of_nat 0) with 1. now rewrite Z.div_1_r.
Qed.
Lemma be_bytes_all k v : all_bytes (be_bytes k v).
Proof.
  apply Forall_forall. intros x Hx. apply in_map_iff in Hx. destruct Hx as (j & <- & _).
  apply Z.mod_pos_bound. lia.
Qed.
Lemma be_val_snoc b x : be_val (b ++ [x]) = be_val b * 256 + x.
Proof. rewrite be_val_app. cbn [be_val length]. change (256 ^ Z.of_nat 1) with 256. change (256 ^ Z.of_nat 0) with 1. ring. Qed.
Lemma be_bytes_val b : all_bytes b -> be_bytes (length b) (be_val b) = b.
Proof.
  induction b as [|x b IH] using rev_ind; intros B; [reflexivity|].
  apply Forall_app in B as [B1 B2]. inversion_clear B2 as [|? ? Bx _].
  rewrite app_length, Nat.add_1_r, be_bytes_S, be_val_snoc. unfold is_byte in Bx.
  rewrite Z.div_add_l, Z.div_small, Z.add_0_r by lia.
  rewrite (Z.add_comm (be_val b * 256)), Z.mod_add, Z.mod_small by lia. now rewrite IH.
Qed.
Lemma be_val_bytes k : forall v, be_val (be_bytes k v) = v mod 256 ^ Z.of_nat k.
Proof.
  induction k as [|k IH]; intros v; [cbn; now rewrite Z.mod_1_r|].
  rewrite be_bytes_S, be_val_snoc, IH.
  rewrite Nat2Z.inj_succ, Z.pow_succ_r by lia.
  rewrite (Z.rem_mul_r v 256) by (try apply Z.pow_pos_nonneg; lia). ring.
Qed.
Lemma be_bytes_mod k v w : v mod 256 ^ Z.of_nat k = w mod 256 ^ Z.of_nat k -> be_bytes k v = be_bytes k w.
Proof.
  intros H. rewrite <- (be_bytes_val (be_bytes k v)), <- (be_bytes_val (be_bytes k w)) by apply be_bytes_all.
  now rewrite !be_bytes_length, !be_val_bytes, H.
Qed.
Lemma wr_one pre x y post : wr (pre ++ [x] ++ post) (length pre) [y] = Some (pre ++ [y] ++ post).
Proof. exact (wr_app pre [x] post [y] eq_refl). Qed.
Lemma incr_ok k : forall pre c post, length c = k -> all_bytes c ->
  incr (length pre) k (pre ++ c ++ post) = Some (pre ++ be_bytes k (be_val c + 1) ++ post).
Proof.
  induction k as [|k IH]; intros pre c post L B.
  - destruct c; [reflexivity|cbn in L; lia].
  - destruct (exists_last (l := c)) as (c' & x & ->); [intros ->; cbn in L; lia|].
    rewrite app_length in L. cbn [length] in L. apply Forall_app in B as [B1 B2]. inversion_clear B2 as [|? ? Bx _].
    unfold is_byte in Bx. cbn [incr]. rewrite be_val_snoc, be_bytes_S.
    assert (EI : (length pre + k = length (pre ++ c'))%nat) by (rewrite app_length; lia).
    rewrite EI. replace (pre ++ (c' ++ [x]) ++ post) with ((pre ++ c') ++ [x] ++ post) by (now rewrite <- !app_assoc).
    unfold get. rewrite nth_error_app2, Nat.sub_diag by lia. cbn [app nth_error bind].
    change (x :: post) with ([x] ++ post).
    destruct (x =? 255) eqn:E.
    + rewrite wr_one. cbn [bind]. rewrite <- app_assoc. rewrite IH by (auto; lia).
      assert (x = 255) as -> by lia. replace (be_val c' * 256 + 255 + 1) with ((be_val c' + 1) * 256) by ring.
      rewrite Z.div_mul, Z.mod_mul by lia. now rewrite <- !app_assoc.
    + rewrite wr_one. unfold u8. rewrite Z.mod_small by lia.
      replace (be_val c' * 256 + x + 1) with (be_val c' * 256 + (x + 1)) by ring.
      rewrite Z.div_add_l, Z.div_small, Z.add_0_r by lia.
      rewrite (Z.add_comm (be_val c' * 256)), Z.mod_add, Z.mod_small by lia.
      assert (Lc : length c' = k) by lia. rewrite <- Lc, be_bytes_val by auto. now rewrite <- !app_assoc.
Qed.

(** ** The key stream *)
Section Streams.
Variable E : bytes -> bytes -> bytes.
Hypothesis HE : forall k b, length (E k b) = 16%nat.
Hypothesis HB : forall k b, all_bytes (E k b).

Lemma stream_length key blk p n : length (stream E key blk p n) = n.
Proof. clear. unfold stream. now rewrite map_length, seq_length. Qed.
Lemma stream_app key blk p a b : stream E key blk p (a + b) = stream E key blk p a ++ stream E key blk (p + a) b.
Proof. clear. unfold stream. now rewrite seq_app, map_app. Qed.
Lemma map_nth_seq {A} (l : list A) d r n : (r + n <= length l)%nat ->
  map (fun i => nth i l d) (seq r n) = firstn n (skipn r l).
Proof. clear.
  revert r. induction n as [|n IH]; intros r L; [reflexivity|]. cbn [seq map].
  rewrite IH by lia. destruct (nth_error l r) as [x|] eqn:Ex.
  - rewrite (nth_error_nth l r d Ex). apply nth_error_split in Ex. destruct Ex as (l1 & l2 & -> & <-).
    rewrite (skipn_app_len' l1 (x :: l2) (length l1) eq_refl). cbn [firstn]. f_equal.
    replace (l1 ++ x :: l2) with ((l1 ++ [x]) ++ l2) by (now rewrite <- app_assoc).
    rewrite (skipn_app_len' (l1 ++ [x]) l2); [reflexivity|]. rewrite app_length. cbn. lia.
  - apply nth_error_None in Ex. lia.
Qed.
(** Inside one block. *)
Lemma stream_block key blk j r n : (r + n <= 16)%nat ->
  stream E key blk (16 * j + r) n = firstn n (skipn r (E key (blk (Z.of_nat j)))).
Proof. clear - HE.
  intros L. unfold stream. rewrite <- (map_nth_seq (E key (blk (Z.of_nat j))) 0 r n) by (rewrite HE; exact L).
  replace (seq (16 * j + r) n) with (map (fun i => (16 * j + i)%nat) (seq r n)).
  2:{ clear. revert r. induction n as [|n IH]; intros r; [reflexivity|]. cbn [seq map]. rewrite IH. f_equal. f_equal. lia. }
  rewrite map_map. apply map_ext_in. intros i Hi. apply in_seq in Hi.
  replace ((16 * j + i) mod 16)%nat with i
    by (rewrite Nat.add_comm, Nat.mul_comm, Nat.mod_add by lia; rewrite Nat.mod_small by lia; reflexivity).
  replace ((16 * j + i) / 16)%nat with j; [reflexivity|].
  rewrite Nat.add_comm, Nat.mul_comm, Nat.div_add, Nat.div_small by lia. lia.
Qed.
Lemma stream_ext key blk blk' p p' n :
  (forall i, (i < n)%nat -> nth ((p + i) mod 16) (E key (blk (Z.of_nat ((p + i) / 16)))) 0
                    = nth ((p' + i) mod 16) (E key (blk' (Z.of_nat ((p' + i) / 16)))) 0) ->
  stream E key blk p n = stream E key blk' p' n.
Proof. clear.
  revert p p'. induction n as [|n IH]; intros p p' H; [reflexivity|].
  unfold stream in *. cbn [seq map]. f_equal.
  - specialize (H 0%nat). rewrite !Nat.add_0_r in H. apply H. lia.
  - apply IH. intros i Hi. specialize (H (S i)). rewrite !Nat.add_succ_r in H. apply H. lia.
Qed.
Lemma stream_bytes key blk p n : all_bytes (stream E key blk p n).
Proof. clear - HE HB.
  apply Forall_forall. intros x Hx. apply in_map_iff in Hx. destruct Hx as (i & <- & _).
  pose proof (HB key (blk (Z.of_nat (i / 16)))) as H. unfold all_bytes in H. rewrite Forall_forall in H. apply H, nth_In. rewrite HE. apply Nat.mod_upper_bound. lia.
Qed.
End Streams.

(** ** Seed expander *)
Section Sx.
Variable E : bytes -> bytes -> bytes.
Hypothesis HE : forall k b, length (E k b) = 16%nat.
Variables key div : bytes.
Variable maxlen : Z.
Hypothesis Lkey : length key = 32%nat.
Hypothesis Ldiv : length div = 8%nat.
Notation blk := (sx_block div maxlen).
(** The context after [p] bytes have been handed out. *)
Definition sx_at (ctx : xof) (p : nat) : Prop :=
  x_key ctx = key /\ length (x_buffer ctx) = 16%nat /\ 0 <= x_pos ctx <= 16
  /\ exists c : nat, x_ctr ctx = blk (Z.of_nat c)
      /\ Z.of_nat p = 16 * Z.of_nat c - 16 + x_pos ctx
      /\ (x_pos ctx = 16 \/ exists j, c = S j /\ x_buffer ctx = E key (blk (Z.of_nat j))).
Lemma blk_length j : length (blk j) = 16%nat.
Proof. clear - Ldiv. unfold sx_block. rewrite !app_length, !be_bytes_length, Ldiv. reflexivity. Qed.
Lemma blk_incr j : incr 12 4 (blk j) = Some (blk (j + 1)).
Proof. clear - Ldiv.
  unfold sx_block. replace 12%nat with (length (div ++ be_bytes 4 maxlen)) by (now rewrite app_length, be_bytes_length, Ldiv).
  rewrite !app_assoc. rewrite <- (app_nil_r (be_bytes 4 j)), (incr_ok 4); [|apply be_bytes_length|apply be_bytes_all].
  rewrite app_nil_r. do 2 f_equal. apply be_bytes_mod. rewrite be_val_bytes. now rewrite Z.add_mod_idemp_l by (apply Z.pow_nonzero; lia).
Qed.
Lemma sx_loop_ok fuel : forall ctx x off p xlen,
  sx_at ctx p -> 0 <= xlen < 2 ^ 64 -> xlen <= 16 - x_pos ctx + 16 * (Z.of_nat fuel - 1) -> (1 <= fuel)%nat ->
  (off + Z.to_nat xlen <= length x)%nat ->
  exists ctx', sx_loop E fuel ctx x off xlen
    = Some (ctx', firstn off x ++ stream E key blk p (Z.to_nat xlen) ++ skipn (off + Z.to_nat xlen) x)
    /\ sx_at ctx' (p + Z.to_nat xlen) /\ x_rem ctx' = x_rem ctx.
Proof.
  induction fuel as [|fuel IH]; intros ctx x off p xlen Hat Hx Hf Hf1 Lx; [lia|].
  cbn [sx_loop]. destruct (xlen <=? 0) eqn:E0.
  { assert (xlen = 0) as -> by lia. exists ctx. cbn [Z.to_nat stream seq map]. rewrite !Nat.add_0_r.
    split; [|auto]. cbn. now rewrite firstn_skipn. }
  destruct Hat as (Ek & Lb & Hp & c & Ec & Epos & Hbuf).
  assert (Eav : u64 (16 - x_pos ctx) = 16 - x_pos ctx) by (apply Z.mod_small; lia). cbv zeta. rewrite Eav.
  (* the part of the buffer that is copied is part of the stream *)
  assert (Hpart : forall n, Z.of_nat n <= 16 - x_pos ctx ->
    firstn n (skipn (Z.to_nat (x_pos ctx)) (x_buffer ctx)) = stream E key blk p n).
  { intros n Hn. destruct Hbuf as [H16|(j & -> & Hb)].
    - assert (n = 0)%nat as -> by lia. reflexivity.
    - rewrite Hb. replace p with (16 * j + Z.to_nat (x_pos ctx))%nat by lia.
      symmetry. apply stream_block; [exact HE|lia]. }
  destruct (xlen <=? 16 - x_pos ctx) eqn:E1.
  - rewrite rd_ok by lia. cbn [bind]. rewrite Hpart by lia.
    rewrite wr_ok by (rewrite stream_length; lia). cbn [bind]. rewrite stream_length.
    eexists. split; [reflexivity|]. split; [|reflexivity].
    assert (u64 (x_pos ctx + xlen) = x_pos ctx + xlen) as -> by (apply Z.mod_small; lia).
    unfold sx_at. cbn [x_key x_buffer x_pos x_ctr]. split; [exact Ek|]. split; [exact Lb|]. split; [lia|].
    exists c. split; [exact Ec|]. split; [lia|]. destruct Hbuf as [H16|Hb]; [lia|now right].
  - set (av := Z.to_nat (16 - x_pos ctx)).
    rewrite rd_ok by lia. cbn [bind]. rewrite Hpart by lia.
    rewrite wr_ok by (rewrite stream_length; lia). cbn [bind]. rewrite stream_length.
    unfold AES256_ECB. rewrite Ek, Ec, Lkey, blk_length. cbn [Nat.eqb andb guard bind].
    rewrite blk_incr. cbn [bind].
    assert (Eu : u64 (xlen - (16 - x_pos ctx)) = xlen - (16 - x_pos ctx)) by (apply Z.mod_small; lia). rewrite Eu.
    set (d := stream E key blk p av). assert (Ld : length d = av) by apply stream_length.
    destruct (wr_again x d (stream E key blk (p + av) (Z.to_nat (xlen - (16 - x_pos ctx)))) off) as [L1 W]; [lia|].
    cbv zeta in L1, W. rewrite Ld in L1, W.
    destruct (IH (mkXof (E key (blk (Z.of_nat c))) 0 (x_rem ctx) key (blk (Z.of_nat c + 1)))
      (firstn off x ++ d ++ skipn (off + av) x) (off + av)%nat (p + av)%nat (xlen - (16 - x_pos ctx))) as (ctx' & R & A & Q).
    + unfold sx_at. cbn [x_key x_buffer x_pos x_ctr]. split; [reflexivity|]. split; [apply HE|]. split; [lia|].
      exists (S c). split; [f_equal; lia|]. split; [lia|]. right. exists c. auto.
    + lia.
    + cbn [x_pos]. lia.
    + lia.
    + rewrite L1. lia.
    + exists ctx'. fold av. rewrite R.
      assert (Es : stream E key blk p (Z.to_nat xlen)
        = d ++ stream E key blk (p + av) (Z.to_nat (xlen - (16 - x_pos ctx)))).
      { unfold d. rewrite <- stream_app. f_equal. lia. }
      split; [|split; [|exact Q]].
      * do 2 f_equal. rewrite stream_length in W. rewrite Es, W. do 2 f_equal. rewrite app_length, Ld, stream_length. f_equal. lia.
      * replace (p + Z.to_nat xlen)%nat with (p + av + Z.to_nat (xlen - (16 - x_pos ctx)))%nat by lia. exact A.
Qed.
End Sx.

(** ** Seed expander: the calls *)
Section Sx2.
Variable E : bytes -> bytes -> bytes.
Hypothesis HE : forall k b, length (E k b) = 16%nat.

Lemma sx_init_bad ctx seed div maxlen : 2 ^ 32 <= maxlen -> seedexpander_init ctx seed div maxlen = Some (-1, ctx).
Proof. clear. intros H. unfold seedexpander_init. now rewrite (proj2 (Z.leb_le _ _) H). Qed.
Lemma be_bytes_4 v : be_bytes 4 v = [(v / 16777216) mod 256; (v / 65536) mod 256; (v / 256) mod 256; v mod 256].
Proof. clear. unfold be_bytes. cbn [seq map Nat.sub]. change (256 ^ Z.of_nat 3) with 16777216. change (256 ^ Z.of_nat 2) with 65536. change (256 ^ Z.of_nat 1) with 256. change (256 ^ Z.of_nat 0) with 1. now rewrite Z.div_1_r. Qed.
Lemma wr_full m d : length m = length d -> wr m 0 d = Some d.
Proof. clear. intros L. rewrite wr_ok by lia. cbn [firstn app Nat.add]. rewrite skipn_all2 by lia. now rewrite app_nil_r. Qed.
Lemma rd_full m n : length m = n -> rd m 0 n = Some m.
Proof. clear. intros L. rewrite rd_ok by lia. cbn [skipn]. now rewrite firstn_all2 by lia. Qed.
Lemma list16 (l : bytes) : length l = 16%nat -> exists d e, l = d ++ e /\ length d = 8%nat /\ length e = 8%nat.
Proof. clear. intros L. exists (firstn 8 l), (skipn 8 l). rewrite firstn_skipn, firstn_length, skipn_length, L. auto. Qed.
Lemma sx_init_ok ctx seed div maxlen :
  length (x_buffer ctx) = 16%nat -> length (x_key ctx) = 32%nat -> length (x_ctr ctx) = 16%nat ->
  length seed = 32%nat -> length div = 8%nat -> 0 <= maxlen < 2 ^ 32 ->
  exists ctx', seedexpander_init ctx seed div maxlen = Some (0, ctx')
    /\ sx_at E seed div maxlen ctx' 0 /\ x_rem ctx' = maxlen.
Proof. clear.
  intros Lb Lk Lc Ls Ld Hm. unfold seedexpander_init.
  replace (2 ^ 32 <=? maxlen) with false by lia.
  rewrite rd_full by exact Ls. cbn [bind]. rewrite wr_full by congruence. cbn [bind].
  rewrite rd_full by exact Ld. cbn [bind].
  destruct (list16 _ Lc) as (c1 & c2 & -> & L1 & L2).
  assert (W : wr (c1 ++ c2) 0 div = Some (div ++ c2)) by (apply (wr_app [] c1 c2 div); congruence).
  rewrite W. cbn [bind]. clear W.
  do 9 (destruct c2 as [|? c2]; cbn [length] in L2; try lia).
  do 9 (destruct div as [|? div]; cbn [length] in Ld; try lia).
  rewrite (wr_full (x_buffer ctx) (repeat 0 16) Lb).
  cbv [wr length Nat.leb Nat.add app firstn skipn bind guard].
  eexists. split; [reflexivity|]. split; [|reflexivity].
  unfold sx_at. cbn [x_key x_buffer x_pos x_ctr]. split; [reflexivity|]. split; [reflexivity|].
  split; [lia|]. exists 0%nat. split; [|split; [lia|now left]].
  unfold sx_block. rewrite !be_bytes_4. cbn [app].
  unfold u8. rewrite !Z.mod_mod by lia. rewrite !Z.shiftr_div_pow2 by lia. change (2 ^ 8) with 256.
  rewrite !Z.div_div by lia. reflexivity.
Qed.

Variables key div : bytes.
Variable maxlen : Z.
Hypothesis Lkey : length key = 32%nat.
Hypothesis Ldiv : length div = 8%nat.

Lemma sx_step ctx p x xlen :
  sx_at E key div maxlen ctx p -> x_rem ctx = maxlen - Z.of_nat p -> 0 <= maxlen < 2 ^ 32 -> 0 <= xlen ->
  (Z.to_nat xlen <= length x)%nat ->
  if maxlen - Z.of_nat p <=? xlen then seedexpander E ctx (Some x) xlen = Some (-3, ctx, Some x)
  else exists ctx', seedexpander E ctx (Some x) xlen
      = Some (0, ctx', Some (stream E key (sx_block div maxlen) p (Z.to_nat xlen) ++ skipn (Z.to_nat xlen) x))
      /\ sx_at E key div maxlen ctx' (p + Z.to_nat xlen)
      /\ x_rem ctx' = maxlen - Z.of_nat (p + Z.to_nat xlen).
Proof.
  intros A R Hm Hx Lx. unfold seedexpander. rewrite R. destruct (maxlen - Z.of_nat p <=? xlen) eqn:Ec; [reflexivity|].
  assert (Eu : u64 (maxlen - Z.of_nat p - xlen) = maxlen - Z.of_nat p - xlen) by (apply Z.mod_small; lia).
  rewrite Eu.
  set (ctx1 := mkXof _ _ _ _ _).
  destruct (sx_loop_ok E HE key div maxlen Lkey Ldiv (Z.to_nat (xlen / 16) + 2) ctx1 x 0 p xlen) as (ctx' & Q & A' & R').
  - destruct A as (A1 & A2 & A3 & A4). unfold sx_at, ctx1. cbn [x_key x_buffer x_pos x_ctr]. auto.
  - lia.
  - destruct A as (_ & _ & A3 & _). unfold ctx1. cbn [x_pos].
    pose proof (Z.div_mod xlen 16). pose proof (Z.mod_pos_bound xlen 16). pose proof (Z.div_pos xlen 16). lia.
  - lia.
  - lia.
  - rewrite Q. cbn [bind firstn app Nat.add]. exists ctx'. split; [reflexivity|]. split; [exact A'|].
    rewrite R'. unfold ctx1. cbn [x_rem]. lia.
Qed.
End Sx2.

(** ** DRBG *)
Section Drbg.
Variable E : bytes -> bytes -> bytes.
Hypothesis HE : forall k b, length (E k b) = 16%nat.
Hypothesis HB : forall k b, all_bytes (E k b).

Lemma incr16 V : incr 0 16 (be_bytes 16 V) = Some (be_bytes 16 (V + 1)).
Proof. clear.
  pose proof (incr_ok 16 [] (be_bytes 16 V) [] (be_bytes_length 16 V) (be_bytes_all 16 V)) as H.
  cbn [length app] in H. rewrite !app_nil_r in H. rewrite H. f_equal. apply be_bytes_mod.
  rewrite be_val_bytes. now rewrite Z.add_mod_idemp_l by (apply Z.pow_nonzero; lia).
Qed.
Lemma ctr_block_0 V : ctr_block V 0 = be_bytes 16 (V + 1).
Proof. unfold ctr_block. now rewrite Z.add_0_r. Qed.
(** A stream from a later counter is a later part of the stream. *)
Lemma stream_shift key V k n : stream E key (ctr_block (V + Z.of_nat k)) 0 n = stream E key (ctr_block V) (16 * k) n.
Proof. clear.
  apply stream_ext. intros i _. rewrite Nat.add_0_l.
  replace ((16 * k + i) mod 16)%nat with (i mod 16)%nat
    by (rewrite Nat.add_comm, Nat.mul_comm, Nat.mod_add by lia; reflexivity).
  replace ((16 * k + i) / 16)%nat with (k + i / 16)%nat
    by (rewrite Nat.add_comm with (n := (16 * k)%nat), Nat.mul_comm, Nat.div_add by lia; lia).
  unfold ctr_block. do 3 f_equal. lia.
Qed.
Lemma stream_16 key V k : stream E key (ctr_block V) (16 * k) 16 = E key (be_bytes 16 (V + Z.of_nat k + 1)).
Proof. clear - HE.
  rewrite <- (Nat.add_0_r (16 * k)), stream_block by (auto; lia). cbn [skipn]. rewrite firstn_all2 by (rewrite HE; lia).
  unfold ctr_block. do 2 f_equal. lia.
Qed.
Lemma xor_loop p : forall n pre t q ppre, p = ppre ++ q -> length ppre = length pre -> length t = n -> (n <= length q)%nat ->
  iterM n (length pre) (fun i temp => a <- get temp i ;; b <- get p i ;; wr temp i [Z.lxor a b]) (pre ++ t)
  = Some (pre ++ xor_bytes t q).
Proof. clear.
  induction n as [|n IH]; intros pre t q ppre Ep Lp Lt Lq.
  - destruct t; [reflexivity|cbn in Lt; lia].
  - destruct t as [|a t]; [cbn in Lt; lia|]. destruct q as [|b q]; [cbn in Lq; lia|]. cbn [iterM].
    unfold get at 1. rewrite nth_error_app2, Nat.sub_diag by lia. cbn [nth_error bind].
    unfold get at 1. rewrite Ep, nth_error_app2, Lp, Nat.sub_diag by lia. cbn [nth_error bind].
    change (a :: t) with ([a] ++ t). rewrite wr_one. cbn [bind].
    replace (pre ++ [Z.lxor a b] ++ t) with ((pre ++ [Z.lxor a b]) ++ t) by (now rewrite <- app_assoc).
    replace (S (length pre)) with (length (pre ++ [Z.lxor a b])) by (rewrite app_length; cbn; lia).
    rewrite <- Ep. rewrite (IH _ t q (ppre ++ [b])).
    + unfold xor_bytes. cbn [combine map app]. now rewrite <- app_assoc.
    + rewrite Ep, <- app_assoc. reflexivity.
    + rewrite !app_length. cbn. lia.
    + cbn in Lt. lia.
    + cbn in Lq. lia.
Qed.
Lemma xor_bytes_length a b : length a = length b -> length (xor_bytes a b) = length a.
Proof. clear. intros L. unfold xor_bytes. rewrite map_length, combine_length. lia. Qed.
Lemma all_skipn' k (l : bytes) : all_bytes l -> all_bytes (skipn k l).
Proof. clear. revert l. induction k as [|k IH]; intros l B; [exact B|]. destruct l; [exact B|]. inversion_clear B. now apply IH. Qed.
Lemma lxor_byte a b : is_byte a -> is_byte b -> is_byte (Z.lxor a b).
Proof. clear.
  unfold is_byte. intros Ha Hb. replace (Z.lxor a b) with (Z.lxor a b mod 2 ^ 8); [apply Z.mod_pos_bound; lia|].
  rewrite <- (Z.mod_small a (2 ^ 8)), <- (Z.mod_small b (2 ^ 8)) by lia.
  apply Z.bits_inj'. intros n Hn. rewrite Z.testbit_mod_pow2, !Z.lxor_spec, !Z.testbit_mod_pow2 by lia.
  destruct (n <? 8), (Z.testbit a n), (Z.testbit b n); reflexivity.
Qed.
Lemma xor_bytes_all a b : all_bytes a -> all_bytes b -> all_bytes (xor_bytes a b).
Proof. clear.
  revert b. induction a as [|x a IH]; intros b Ba Bb; [constructor|]. destruct b as [|y b]; [constructor|].
  inversion_clear Ba. inversion_clear Bb. constructor; [|now apply IH]. apply lxor_byte; auto.
Qed.
Lemma xor_bytes_0 a n : length a = n -> xor_bytes a (repeat 0 n) = a.
Proof. clear. revert n. induction a as [|x a IH]; intros n L; subst n; [reflexivity|]. unfold xor_bytes in *. cbn [length repeat combine map]. rewrite Z.lxor_0_r. f_equal. now apply IH. Qed.

Lemma split48 (l : bytes) : length l = 48%nat ->
  exists a b c, l = a ++ b ++ c /\ length a = 16%nat /\ length b = 16%nat /\ length c = 16%nat.
Proof. clear.
  intros L. exists (firstn 16 l), (firstn 16 (skipn 16 l)), (skipn 16 (skipn 16 l)).
  rewrite !firstn_skipn. rewrite !firstn_length, !skipn_length, L. auto.
Qed.
Definition provided_data (p : option bytes) : bytes := match p with Some d => d | None => repeat 0 48 end.
Lemma update_ok temp p key V : length temp = 48%nat -> length key = 32%nat ->
  (forall d, p = Some d -> length d = 48%nat /\ all_bytes d) ->
  drbg_update E temp p key (be_bytes 16 V)
  = (let '(k', V') := spec_update E (provided_data p) key V in Some (k', be_bytes 16 V'))
  /\ length (fst (spec_update E (provided_data p) key V)) = 32%nat.
Proof.
  intros Lt Lk Hp. unfold spec_update. set (st := stream E key (ctr_block V) 0 48).
  assert (Lst : length st = 48%nat) by apply stream_length.
  assert (Bst : all_bytes st) by (now apply stream_bytes).
  assert (Lpd : length (provided_data p) = 48%nat) by (destruct p; [now apply Hp|reflexivity]).
  assert (Bpd : all_bytes (provided_data p)).
  { destruct p; [now apply Hp|]. apply Forall_forall. intros x Hx. apply repeat_spec in Hx. subst. red. lia. }
  set (t := xor_bytes st (provided_data p)).
  assert (Lx : length t = 48%nat) by (unfold t; rewrite xor_bytes_length; lia).
  assert (Bx : all_bytes t) by (now apply xor_bytes_all).
  assert (E1 : st = E key (be_bytes 16 (V + 1)) ++ E key (be_bytes 16 (V + 1 + 1)) ++ E key (be_bytes 16 (V + 1 + 1 + 1))).
  { unfold st. change 48%nat with (16 + (16 + 16))%nat. rewrite !stream_app. cbn [Nat.add].
    pose proof (stream_16 key V 0) as S0. pose proof (stream_16 key V 1) as S1. pose proof (stream_16 key V 2) as S2.
    change (16 * 0)%nat with 0%nat in S0. change (16 * 1)%nat with 16%nat in S1. change (16 * 2)%nat with 32%nat in S2.
    rewrite S0, S1, S2.
    replace (V + Z.of_nat 0 + 1) with (V + 1) by lia. replace (V + Z.of_nat 1 + 1) with (V + 1 + 1) by lia.
    replace (V + Z.of_nat 2 + 1) with (V + 1 + 1 + 1) by lia. reflexivity. }
  split; [|cbn [fst]; rewrite firstn_length; lia].
  unfold drbg_update. cbn [iterM]. cbv beta iota.
  unfold AES256_ECB. rewrite Lk.
  rewrite incr16. cbn [bind]. rewrite be_bytes_length. cbn [Nat.eqb andb guard bind].
  set (b0 := E key (be_bytes 16 (V + 1))) in *. assert (L0 : length b0 = 16%nat) by apply HE.
  destruct (split48 temp Lt) as (t0 & t1 & t2 & Et & M0 & M1 & M2). rewrite Et.
  assert (W0 : wr (t0 ++ t1 ++ t2) (16 * 0) b0 = Some (b0 ++ t1 ++ t2)) by (apply (wr_app [] t0 (t1 ++ t2)); lia).
  rewrite W0. cbn [bind]. rewrite incr16. cbn [bind]. rewrite be_bytes_length. cbn [Nat.eqb andb guard bind].
  set (b1 := E key (be_bytes 16 (V + 1 + 1))) in *. assert (L1 : length b1 = 16%nat) by apply HE.
  assert (W1 : wr (b0 ++ t1 ++ t2) (16 * 1) b1 = Some (b0 ++ b1 ++ t2)).
  { replace (16 * 1)%nat with (length b0) by lia. apply wr_app. lia. }
  rewrite W1. cbn [bind]. rewrite incr16. cbn [bind]. rewrite be_bytes_length. cbn [Nat.eqb andb guard bind].
  set (b2 := E key (be_bytes 16 (V + 1 + 1 + 1))) in *. assert (L2 : length b2 = 16%nat) by apply HE.
  assert (W2 : wr (b0 ++ b1 ++ t2) (16 * 2) b2 = Some (b0 ++ b1 ++ b2)).
  { pose proof (wr_app (b0 ++ b1) t2 [] b2) as W. rewrite !app_nil_r in W. rewrite <- !app_assoc in W.
    replace (16 * 2)%nat with (length (b0 ++ b1)) by (rewrite app_length; lia). apply W. lia. }
  rewrite W2. cbn [bind]. rewrite <- E1.
  assert (X : match p with None => Some st | Some p => xor48 p st end = Some t).
  { unfold t. destruct p as [d|]; cbn [provided_data].
    - apply (xor_loop d 48 [] st d []); cbn [length app provided_data] in *; auto; lia.
    - now rewrite xor_bytes_0. }
  rewrite X. cbn [bind]. rewrite rd_ok by lia. cbn [bind]. change (skipn 0 t) with t.
  rewrite wr_full by (rewrite firstn_length; lia). cbn [bind].
  rewrite rd_ok by lia. cbn [bind]. rewrite firstn_all2 by (rewrite skipn_length; lia).
  rewrite wr_full by (rewrite be_bytes_length, skipn_length; lia). cbn [bind].
  pose proof (be_bytes_val (skipn 32 t) (all_skipn' 32 t Bx)) as Hv.
  assert (Lv : length (skipn 32 t) = 16%nat) by (rewrite skipn_length; lia). rewrite Lv in Hv. now rewrite Hv.
Qed.

Lemma drbg_loop_ok key fuel : length key = 32%nat -> forall V x i xlen,
  0 <= xlen -> xlen < 16 * Z.of_nat fuel -> (1 <= fuel)%nat -> Z.of_nat i + xlen < 2 ^ 31 -> (i + Z.to_nat xlen <= length x)%nat ->
  drbg_loop E fuel key (be_bytes 16 V) x i xlen
  = Some (be_bytes 16 (V + nblk (Z.to_nat xlen)),
          firstn i x ++ stream E key (ctr_block V) 0 (Z.to_nat xlen) ++ skipn (i + Z.to_nat xlen) x).
Proof.
  intros Lk. induction fuel as [|fuel IH]; intros V x i xlen Hx Hf H1 Hi Lx; [lia|]. cbn [drbg_loop].
  destruct (xlen <=? 0) eqn:E0.
  { assert (xlen = 0) as -> by lia. cbn [Z.to_nat stream seq map app]. rewrite !Nat.add_0_r, firstn_skipn.
    now rewrite Z.add_0_r. }
  rewrite incr16. cbn [bind]. unfold AES256_ECB. rewrite Lk, be_bytes_length. cbn [Nat.eqb andb guard bind].
  pose proof (stream_16 key V 0) as S0. rewrite Z.add_0_r in S0. rewrite <- S0. change (16 * 0)%nat with 0%nat.
  destruct (15 <? xlen) eqn:E1.
  - rewrite wr_ok by (rewrite stream_length; lia). cbn [bind]. rewrite stream_length.
    unfold guard. replace (Z.of_nat i + 16 <? 2 ^ 31) with true by lia. cbn [bind].
    assert (u64 (xlen - 16) = xlen - 16) as -> by (apply Z.mod_small; lia).
    set (d := stream E key (ctr_block V) 0 16). assert (Ld : length d = 16%nat) by apply stream_length.
    destruct (wr_again x d (stream E key (ctr_block (V + 1)) 0 (Z.to_nat (xlen - 16))) i) as [L1 W]; [lia|].
    cbv zeta in L1, W. rewrite Ld in L1, W.
    rewrite IH by (rewrite ?L1; lia).
    rewrite stream_length in W. rewrite W. clear W.
    assert (Es : stream E key (ctr_block V) 0 (Z.to_nat xlen) = d ++ stream E key (ctr_block (V + 1)) 0 (Z.to_nat (xlen - 16))).
    { replace (Z.to_nat xlen) with (16 + Z.to_nat (xlen - 16))%nat by lia. rewrite stream_app. f_equal.
      change (V + 1) with (V + Z.of_nat 1). now rewrite stream_shift. }
    rewrite <- Es, stream_length. do 2 f_equal.
    f_equal. unfold nblk. replace (Z.to_nat xlen + 15)%nat with (Z.to_nat (xlen - 16) + 15 + 1 * 16)%nat by lia.
    rewrite Nat.div_add by lia. lia.
  - rewrite rd_ok by (rewrite stream_length; lia). cbn [bind skipn].
    replace (firstn (Z.to_nat xlen) (stream E key (ctr_block V) 0 16)) with (stream E key (ctr_block V) 0 (Z.to_nat xlen)).
    2:{ replace 16%nat with (Z.to_nat xlen + (16 - Z.to_nat xlen))%nat by lia. rewrite stream_app.
        rewrite firstn_app, stream_length, Nat.sub_diag, firstn_all2 by (rewrite stream_length; lia). now rewrite firstn_O, app_nil_r. }
    rewrite wr_ok by (rewrite stream_length; lia). cbn [bind]. rewrite stream_length.
    assert (F : forall fu v m, drbg_loop E fu key v m i 0 = Some (v, m)) by (intros [|fu] v m; reflexivity).
    rewrite F. do 2 f_equal. f_equal. unfold nblk.
    replace (Z.to_nat xlen + 15)%nat with (Z.to_nat (xlen - 1) + 1 * 16)%nat by lia.
    rewrite Nat.div_add, Nat.div_small by lia. lia.
Qed.

Lemma generate_ok g V temp x xlen :
  length (g_key g) = 32%nat -> g_v g = be_bytes 16 V -> g_reseed g + 1 < 2 ^ 31 -> length temp = 48%nat ->
  0 <= xlen < 2 ^ 31 -> (Z.to_nat xlen <= length x)%nat ->
  let '(out, (k', V')) := spec_generate E (g_key g) V (Z.to_nat xlen) in
  drbg_randombytes E g temp x xlen
    = Some (0, mkDrbg k' (be_bytes 16 V') (g_reseed g + 1), out ++ skipn (Z.to_nat xlen) x)
  /\ length k' = 32%nat.
Proof.
  intros Lk Ev Hr Lt Hx Lx. unfold spec_generate.
  destruct (update_ok temp None (g_key g) (V + nblk (Z.to_nat xlen)) Lt Lk) as [U LU]; [discriminate|].
  cbn [provided_data] in *. destruct (spec_update E (repeat 0 48) (g_key g) (V + nblk (Z.to_nat xlen))) as [k' V'].
  cbn [fst] in LU. split; [|exact LU].
  unfold drbg_randombytes. rewrite Ev.
  pose proof (Z.div_mod xlen 16). pose proof (Z.mod_pos_bound xlen 16). pose proof (Z.div_pos xlen 16).
  rewrite drbg_loop_ok by (auto; lia). cbn [bind]. rewrite U. cbn [bind].
  unfold guard. replace (g_reseed g + 1 <? 2 ^ 31) with true by lia. reflexivity.
Qed.
Lemma instantiate_ok g sm temp entropy pers :
  length (g_key g) = 32%nat -> length (g_v g) = 16%nat -> length sm = 48%nat -> length temp = 48%nat ->
  length entropy = 48%nat -> all_bytes entropy ->
  (forall d, pers = Some d -> length d = 48%nat /\ all_bytes d) ->
  let '(k', V') := spec_instantiate E entropy (provided_data pers) in
  randombytes_init E g sm temp entropy pers = Some (mkDrbg k' (be_bytes 16 V') 1) /\ length k' = 32%nat.
Proof.
  intros Lk Lv Ls Lt Le Be Hp. unfold spec_instantiate.
  set (sd := xor_bytes entropy (provided_data pers)).
  assert (Lpd : length (provided_data pers) = 48%nat) by (destruct pers; [now apply Hp|reflexivity]).
  assert (Bpd : all_bytes (provided_data pers)).
  { destruct pers; [now apply Hp|]. apply Forall_forall. intros x Hx. apply repeat_spec in Hx. subst. red. lia. }
  destruct (update_ok temp (Some sd) (repeat 0 32) 0 Lt eq_refl) as [U LU].
  { intros d Ed. injection Ed as <-. split; [unfold sd; rewrite xor_bytes_length; lia|now apply xor_bytes_all]. }
  cbn [provided_data] in U, LU. destruct (spec_update E sd (repeat 0 32) 0) as [k' V'].
  cbn [fst] in LU. split; [|exact LU].
  unfold randombytes_init. rewrite rd_full by exact Le. cbn [bind]. rewrite wr_full by congruence. cbn [bind].
  assert (X : match pers with None => Some entropy | Some p => xor48 p entropy end = Some sd).
  { unfold sd. destruct pers as [d|]; cbn [provided_data] in *.
    - apply (xor_loop d 48 [] entropy d []); cbn [length app] in *; auto; lia.
    - now rewrite xor_bytes_0. }
  rewrite X. cbn [bind]. rewrite wr_full by (rewrite repeat_length; exact Lk). cbn [bind].
  rewrite wr_full by (rewrite repeat_length; exact Lv). cbn [bind].
  change (repeat 0 16) with (be_bytes 16 0). rewrite U. reflexivity.
Qed.
End Drbg.

(** ** Sequences of requests to the seed expander *)
(** A caller that issues one request after another. *)
Fixpoint sx_run (E : bytes -> bytes -> bytes) (ctx : xof) (reqs : list bytes) : option (list (Z * bytes)) :=
  match reqs with
  | [] => Some []
  | x :: reqs' =>
      '(r, ctx', x') <- seedexpander E ctx (Some x) (Z.of_nat (length x)) ;;
      x' <- x' ;;
      rest <- sx_run E ctx' reqs' ;;
      Some ((r, x') :: rest)
  end.
Lemma sx_run_ok E key div maxlen : (forall k b, length (E k b) = 16%nat) -> length key = 32%nat -> length div = 8%nat ->
  0 <= maxlen < 2 ^ 32 -> forall reqs ctx p,
  sx_at E key div maxlen ctx p -> x_rem ctx = maxlen - Z.of_nat p ->
  sx_run E ctx reqs = Some (sx_answers (stream E key (sx_block div maxlen)) maxlen p reqs).
Proof.
  intros HE Lk Ld Hm. induction reqs as [|x reqs IH]; intros ctx p A R; [reflexivity|]. cbn [sx_run sx_answers].
  pose proof (sx_step E HE key div maxlen Lk Ld ctx p x (Z.of_nat (length x)) A R Hm) as St.
  rewrite !Nat2Z.id in St.
  destruct (maxlen - Z.of_nat p <=? Z.of_nat (length x)).
  - rewrite St by lia. cbn [bind]. now rewrite (IH ctx p A R).
  - destruct St as (ctx' & Q & A' & R'); [lia|lia|]. rewrite Q. cbn [bind].
    rewrite (IH _ _ A' R'). cbn [bind]. rewrite skipn_all2 by lia. now rewrite app_nil_r.
Qed.
Lemma answers_total key E blk maxlen : forall reqs p, (Z.of_nat p < maxlen \/ p = 0%nat) ->
  let out := handed_out (sx_answers (stream E key blk) maxlen p reqs) in
  out = stream E key blk p (length out) /\ (Z.of_nat (p + length out) < maxlen \/ (p + length out = 0)%nat).
Proof.
  induction reqs as [|x reqs IH]; intros p Hp; cbn zeta; [cbn; rewrite Nat.add_0_r; auto|]. cbn [sx_answers].
  destruct (maxlen - Z.of_nat p <=? Z.of_nat (length x)) eqn:Ec.
  - unfold handed_out. cbn [map concat app]. change (-3 =? 0) with false. cbv iota. cbn [app]. now apply IH.
  - unfold handed_out. cbn [map concat]. change (0 =? 0) with true. cbv iota. fold (handed_out (sx_answers (stream E key blk) maxlen (p + length x) reqs)).
    destruct (IH (p + length x)%nat) as [I1 I2]; [lia|]. cbv zeta in I1, I2.
    rewrite app_length, stream_length. rewrite stream_app, <- I1. split; [reflexivity|].
    now rewrite Nat.add_assoc.
Qed.

(** ** The int index of randombytes *)
Lemma drbg_loop_long E key : forall fuel v x i xlen, (i mod 16 = 0)%nat -> Z.of_nat i < 2 ^ 31 -> 2 ^ 31 <= Z.of_nat i + xlen -> xlen < 2 ^ 64 ->
  drbg_loop E fuel key v x i xlen = None.
Proof.
  induction fuel as [|fuel IH]; intros v x i xlen Hi Hi2 Hs Hx; cbn [drbg_loop]; replace (xlen <=? 0) with false by lia; [reflexivity|].
  destruct (incr 0 16 v) as [v'|]; [|reflexivity]. cbn [bind].
  destruct (AES256_ECB E key v') as [b|]; [|reflexivity]. cbn [bind].
  assert (Z.of_nat i <= 2 ^ 31 - 16).
  { pose proof (Nat.div_mod i 16). change (2 ^ 31) with (16 * 134217728) in *. lia. }
  replace (15 <? xlen) with true by lia.
  destruct (wr x i b) as [x'|]; [|reflexivity]. cbn [bind].
  destruct (Z.of_nat i + 16 <? 2 ^ 31) eqn:Eg; [|reflexivity]. cbn [guard bind].
  assert (u64 (xlen - 16) = xlen - 16) as -> by (apply Z.mod_small; lia).
  apply IH; lia.
Qed.
Lemma drbg_long E g temp x xlen : 2 ^ 31 <= xlen < 2 ^ 64 -> drbg_randombytes E g temp x xlen = None.
Proof. intros H. unfold drbg_randombytes. rewrite drbg_loop_long; [reflexivity|reflexivity|lia|lia|lia]. Qed.

(** ** randombytes.c, the whole call *)
Lemma os_randombytes_ok fd opens reads mem x xlen :
  0 <= xlen < 2 ^ 64 -> Z.of_nat x + xlen <= Z.of_nat (length mem) -> Forall no_error reads ->
  match os_randombytes fd opens reads mem x xlen with
  | Fault => False
  | Waiting mem' => exists out, Z.of_nat (length out) <= xlen
      /\ mem' = firstn x mem ++ out ++ skipn (x + length out) mem
  | Returned mem' fd' opens' rest => fd' <> -1 /\ exists used out, reads = used ++ rest
      /\ drawn used out /\ Z.of_nat (length out) = xlen
      /\ mem' = firstn x mem ++ out ++ skipn (x + length out) mem
  end.
Proof.
  intros Hl Hm Hn. unfold os_randombytes. destruct (rb_open opens fd) as [[fd1 opens1]|] eqn:Eo.
  - pose proof (rb_loop_ok reads fd1 opens1 mem (Z.of_nat x) xlen) as H. rewrite Nat2Z.id in H.
    destruct (rb_loop reads fd1 opens1 mem (Z.of_nat x) xlen) as [m f o r|m|].
    + destruct H as (-> & -> & H); [lia|exact Hl|exact Hm|exact Hn|]. split; [|exact H].
      revert Eo. apply rb_open_ok.
    + destruct H as (out & _ & H1 & H2); [lia|exact Hl|exact Hm|exact Hn|]. exists out. split; [lia|exact H2].
    + apply H; [lia|exact Hl|exact Hm|exact Hn].
  - exists []. split; [cbn; lia|]. cbn [app length]. now rewrite Nat.add_0_r, firstn_skipn.
Qed.

(** ** Whole uses of the seed expander *)
Lemma sx_requests : forall E seed div maxlen ctx reqs,
  (forall k b, length (E k b) = 16%nat) ->
  length (x_buffer ctx) = 16%nat -> length (x_key ctx) = 32%nat -> length (x_ctr ctx) = 16%nat ->
  length seed = 32%nat -> length div = 8%nat -> 0 <= maxlen < 2 ^ 32 ->
  ('(r, ctx') <- seedexpander_init ctx seed div maxlen ;;
   answers <- sx_run E ctx' reqs ;;
   Some (r, answers))
  = Some (0, sx_answers (stream E seed (sx_block div maxlen)) maxlen 0 reqs).
Proof.
  intros E seed div maxlen ctx reqs HE Lb Lk Lc Ls Ld Hm.
  destruct (sx_init_ok E ctx seed div maxlen Lb Lk Lc Ls Ld Hm) as (ctx' & -> & A & R). cbn [bind].
  rewrite (sx_run_ok E seed div maxlen HE Ls Ld Hm reqs ctx' 0 A) by lia. reflexivity.
Qed.
Lemma sx_refused : forall E ctx x xlen,
  seedexpander E ctx None xlen = Some (-2, ctx, None)
  /\ (x_rem ctx <= xlen -> seedexpander E ctx (Some x) xlen = Some (-3, ctx, Some x)).
Proof.
  intros E ctx x xlen. split; [reflexivity|]. intros H. unfold seedexpander.
  now rewrite (proj2 (Z.leb_le _ _) H).
Qed.
