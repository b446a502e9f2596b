(** The vector code of sha256avx.c, sha256x8.c and sha512x4.c computes the compression function and the
    hash of FIPS 180-4 in every lane. *)
From Verif Require Import Base BaseFacts Fips202 KeccakProofs ShakeProofs Sha2Spec Sha2 Sha2Facts Sha2Proofs Lanes LaneFacts
  LaneKeccak LaneKeccakProofs LaneShake LaneShakeProofs LaneSha2.

Notation v0 := (fun _ : nat => 0).

(** ** The bytes of words *)
Lemma word_bytes_rev wb x : word_bytes wb x = rev (be_bytes wb x).
Proof.
  unfold word_bytes, be_bytes. apply nth_error_ext'; [now rewrite rev_length, !map_length|].
  intros i Hi. rewrite map_length, seq_length in Hi. rewrite nth_error_map_seq by lia.
  rewrite <- map_rev.
  erewrite map_nth_error; [|instantiate (1 := (wb - 1 - i)%nat)].
  - f_equal. unfold u8. rewrite Z.shiftr_div_pow2 by lia. replace (wb - 1 - (wb - 1 - i))%nat with i by lia.
    rewrite Z.pow_mul_r by lia. reflexivity.
  - rewrite (nth_error_nth' _ O) by (rewrite rev_length, seq_length; lia). f_equal.
    rewrite rev_nth by (rewrite seq_length; lia). rewrite seq_length, seq_nth by lia. lia.
Qed.
Lemma word_bytes_length wb x : length (word_bytes wb x) = wb.
Proof. unfold word_bytes. now rewrite map_length, seq_length. Qed.
Lemma le_word_be l : le_word l = be_num (norm (rev l)).
Proof.
  induction l as [|x l IH]; cbn [le_word fold_right rev]; [reflexivity|]. fold (le_word l).
  rewrite map_app, be_num_app, IH. cbn [map be_num length]. change (256 ^ Z.of_nat 1) with 256. change (256 ^ Z.of_nat 0) with 1. lia.
Qed.
Lemma word_bytes_le l : word_bytes (length l) (le_word l) = norm l.
Proof.
  rewrite word_bytes_rev, le_word_be. rewrite <- (rev_length l), <- (map_length u8 (rev l)), be_bytes_num by apply norm_all.
  now rewrite <- map_rev, rev_involutive.
Qed.

(** ** Chunks of a 32-byte register *)
Definition chunk (wb j : nat) (b : bytes) : bytes := firstn wb (skipn (wb * j) b).
Lemma chunk_length wb j b : (wb * j + wb <= length b)%nat -> length (chunk wb j b) = wb.
Proof. intros H. unfold chunk. rewrite firstn_length, skipn_length. lia. Qed.
Lemma chunks_all wb : forall n b, length b = (wb * n)%nat -> flat_map (fun j => chunk wb j b) (seq 0 n) = b.
Proof.
  induction n as [|n IH]; intros b Hb.
  - destruct b; [reflexivity|cbn in Hb; lia].
  - cbn [seq flat_map]. rewrite <- seq_shift, flat_map_concat_map, map_map, <- flat_map_concat_map.
    transitivity (firstn wb b ++ skipn wb b); [|apply firstn_skipn]. f_equal; [unfold chunk; now rewrite Nat.mul_0_r|].
    rewrite <- (IH (skipn wb b)) by (rewrite skipn_length; lia).
    apply flat_map_ext. intros j. unfold chunk. rewrite skipn_skipn. do 2 f_equal. lia.
Qed.
Lemma flat_map_chunk wb (f : nat -> bytes) n : (forall j, (j < n)%nat -> length (f j) = wb) ->
  forall i, (i < n)%nat -> chunk wb i (flat_map f (seq 0 n)) = f i.
Proof.
  intros Hf i Hi. unfold chunk.
  assert (G : forall s k, (s <= i)%nat -> (forall j, (s <= j < s + k)%nat -> length (f j) = wb) -> (i < s + k)%nat ->
    firstn wb (skipn (wb * (i - s)) (flat_map f (seq s k))) = f i).
  { clear Hi Hf. intros s k. revert s. induction k as [|k IH]; intros s H1 H2 H3; [lia|]. cbn [seq flat_map].
    destruct (Nat.eq_dec i s) as [->|Hn].
    - rewrite Nat.sub_diag, Nat.mul_0_r. cbn [skipn]. rewrite firstn_app, H2, Nat.sub_diag by lia.
      rewrite firstn_all2 by (rewrite H2; lia). apply app_nil_r.
    - rewrite skipn_app, skipn_all2 by (rewrite H2 by lia; nia). cbn [app]. rewrite H2 by lia.
      rewrite <- (IH (S s)) by (try lia; intros; apply H2; lia). do 2 f_equal. nia. }
  pose proof (G 0%nat n ltac:(lia) ltac:(intros; apply Hf; lia) ltac:(lia)) as E. now rewrite Nat.sub_0_r in E.
Qed.
Lemma flat_map_length_eq (f : nat -> bytes) wb n s : (forall j, (s <= j < s + n)%nat -> length (f j) = wb) ->
  length (flat_map f (seq s n)) = (wb * n)%nat.
Proof.
  revert s; induction n as [|n IH]; intros s Hf; cbn [seq flat_map length]; [lia|].
  rewrite app_length, Hf, IH by (try lia; intros; apply Hf; lia). lia.
Qed.
Lemma flat_map_ext_in' {A B} (f g : A -> list B) l : (forall x, In x l -> f x = g x) -> flat_map f l = flat_map g l.
Proof. intros H. rewrite !flat_map_concat_map. f_equal. now apply map_ext_in. Qed.
Lemma map_flat_map {A B C} (g : B -> C) (f : A -> list B) l : map g (flat_map f l) = flat_map (fun x => map g (f x)) l.
Proof. induction l as [|x l IH]; cbn [flat_map map]; [reflexivity|]. now rewrite map_app, IH. Qed.

(** ** What the code has in common with FIPS 180-4 *)
(** The variable that holds working variable [i] of round [t]. *)
Definition reg (t i : nat) : nat := ((i + 7 * t) mod 8)%nat.
(** The lines of round [t]; message words are kept modulo [n]. *)
Definition canon (n t : nat) : list vstep :=
  (if (t <? 16)%nat then []
   else [NEXT (t mod n) ((t - 2) mod n) ((t - 16) mod n) ((t - 7) mod n) ((t - 15) mod n)])%nat
  ++ [RND (map (reg t) (seq 0 8)) t (t mod n)].

Section Core.
Variable V : vimpl.
Variable B : sha_params.
Notation nl := (vi_nl V).
Notation wb := (vi_wb V).
Notation wd := (word B).
Notation ad := (Sha2Spec.add B).
Notation bs := (vbs V).
Notation thr := (vthr V).

Record vagree : Prop := {
  va_wb : wb = swb B; va_pos : (0 < swb B)%nat; va_bits : sw B = 8 * Z.of_nat (swb B);
  va_nl : (nl * wb = 32)%nat;
  va_16 : (nl * (16 / nl) = 16)%nat; va_8 : (nl * (8 / nl) = 8)%nat;
  va_rounds : exists q, srounds B = (8 * q)%nat;
  va_T0 : forall e f g h rc w j, wd (e j) -> wd (f j) -> wd (g j) ->
    vi_T0 V e f g h rc w j
    = ad (ad (ad (ad (h j) (Sig B (sS1 B) (e j))) (Sha2Spec.Ch B (e j) (f j) (g j))) rc) (w j);
  va_T1 : forall a b c j, vi_T1 V a b c j = ad (Sig B (sS0 B) (a j)) (Sha2Spec.Maj (a j) (b j) (c j));
  va_next : forall w2 w16 w7 w15 j, vi_next V w2 w16 w7 w15 j
    = ad (ad (ad (sig B (ss1 B) (w2 j)) (w7 j)) (sig B (ss0 B) (w15 j))) (w16 j);
  va_rc : vi_rc V = map (Kt B) (seq 0 (srounds B));
  va_iv : vi_iv V = H0 B;
  va_wlen : (16 <= vi_wlen V)%nat;
  va_prog : vi_prog V = flat_map (canon (vi_wlen V)) (seq 0 (srounds B));
  va_transpose : forall s, length s = nl -> exists t, vi_transpose V s = Some t /\ length t = nl
    /\ forall i j, (i < nl)%nat -> (j < nl)%nat -> nth i t v0 j = nth j s v0 i;
  va_mask : forall b, length b = 32%nat ->
    shuffle_epi8 b (vi_mask V) = flat_map (fun j => rev (chunk wb j b)) (seq 0 nl);
  va_imod : vi_imod V <= 2 ^ 64;
  va_lenoff : (vthr V + (if vi_clear V then 8 else 0) + 8 = vbs V)%nat;
  va_len : forall c, (vi_clear V = true -> 0 <= 8 * c < 2 ^ 64) ->
    be_bytes (2 * swb B) (8 * c) = repeat 0 (if vi_clear V then 8 else 0) ++ be_bytes 8 (8 * c)
}.
Hypothesis AG : vagree.
Let Ewb := va_wb AG.
Let Hpos := va_pos AG.
Let Hbits := va_bits AG.
Let Hnl := va_nl AG.

Lemma bs_bsz : bs = bsz B.
Proof. unfold vbs, bsz. now rewrite Ewb. Qed.
Lemma nl_pos : (0 < nl)%nat.
Proof. pose proof Hnl as Q. revert Q. clear. generalize nl wb. intros a b. lia. Qed.
Lemma div32 : (32 / wb = nl)%nat.
Proof. rewrite <- Hnl. apply Nat.div_mul. clear - Ewb Hpos. lia. Qed.
Lemma vadd_lane a b j : vadd wb a b j = ad (a j) (b j).
Proof. unfold vadd, Sha2Spec.add. now rewrite Hbits, <- Ewb. Qed.

(** ** Loads, byte swaps and stores *)
Lemma vstore_length v : length (vstore wb v) = 32%nat.
Proof.
  unfold vstore. rewrite div32, (flat_map_length_eq _ wb) by (intros; apply word_bytes_length). rewrite Nat.mul_comm. exact Hnl.
Qed.
Lemma vstore_all v : all_bytes (vstore wb v).
Proof. clear.
  unfold vstore. induction (seq 0 (32 / wb)) as [|j l IH]; cbn [flat_map]; [constructor|]. apply Forall_app. split; [|exact IH].
  rewrite word_bytes_rev. apply Forall_rev, be_bytes_all.
Qed.
Lemma vstore_load x : length x = 32%nat -> vstore wb (vload wb x) = norm x.
Proof.
  intros Hx. unfold vstore, vload. rewrite div32.
  transitivity (flat_map (fun j => norm (chunk wb j x)) (seq 0 nl)).
  - apply flat_map_ext_in'. intros j Hj. apply in_seq in Hj. fold (chunk wb j x).
    assert (L : length (chunk wb j x) = wb) by (apply chunk_length; clear - Hx Hj Hnl; nia).
    rewrite <- L at 1. apply word_bytes_le.
  - rewrite <- map_flat_map. f_equal. apply chunks_all. rewrite Hx, Nat.mul_comm. now symmetry.
Qed.
Lemma shuffle_length b m : length (shuffle_epi8 b m) = 32%nat.
Proof. unfold shuffle_epi8. now rewrite map_length, seq_length. Qed.
Lemma bswap_load x j : length x = 32%nat -> (j < nl)%nat ->
  BYTESWAP V (vload wb x) j = be_num (norm (chunk wb j x)).
Proof.
  intros Hx Hj. unfold BYTESWAP. rewrite vstore_load, (va_mask AG) by (rewrite ?map_length; exact Hx).
  unfold vload. fold (chunk wb j (flat_map (fun j => rev (chunk wb j (norm x))) (seq 0 nl))).
  rewrite (flat_map_chunk wb (fun j => rev (chunk wb j (norm x)))); [|intros i Hi|exact Hj].
  - rewrite le_word_be, rev_involutive. unfold chunk. rewrite skipn_map, firstn_map, norm_bytes by apply norm_all. reflexivity.
  - rewrite rev_length. apply chunk_length. rewrite map_length. clear - Hx Hi Hnl. nia.
Qed.
Lemma bswap_store v : vstore wb (BYTESWAP V v) = unwords B (map v (seq 0 nl)).
Proof.
  unfold BYTESWAP. rewrite vstore_load by apply shuffle_length.
  rewrite (va_mask AG) by apply vstore_length. unfold unwords. rewrite map_flat_map.
  rewrite (flat_map_concat_map _ (map v _)), map_map, <- flat_map_concat_map.
  apply flat_map_ext_in'. intros j Hj. apply in_seq in Hj.
  unfold vstore. rewrite div32, flat_map_chunk; [|intros; apply word_bytes_length|lia].
  rewrite word_bytes_rev, rev_involutive, Ewb. apply norm_bytes, be_bytes_all.
Qed.

(** ** The rounds *)
Section Rounds.
(** The message block and the initial state of every lane. *)
Variable M : nat -> list Z.
Variable H : nat -> list Z.
Notation n := (vi_wlen V).
Definition perm (t : nat) (s : list vec) : list vec := map (fun i => nth (reg t i) s v0) (seq 0 8).
Definition sinv (t : nat) (s : list vec) : Prop := length s = 8%nat /\
  forall j, (j < nl)%nat -> lane j (perm t s) = rounds B (M j) t 0 (H j).
(** Words up to [t] (exclusive) are there, the last sixteen of them. *)
Definition winv (t : nat) (w : list vec) : Prop := length w = n /\
  forall u j, (j < nl)%nat -> (u < t)%nat -> (t <= u + 16)%nat -> nth (u mod n) w v0 j = Wt B (M j) u.

Lemma reg_lt t i : (reg t i < 8)%nat.
Proof. apply Nat.mod_upper_bound. lia. Qed.
Lemma get_nth (s : list vec) i : (i < length s)%nat -> get s i = Some (nth i s v0).
Proof. intros Hi. unfold get. now apply nth_error_nth'. Qed.
Lemma upd_nth_same i (x : vec) s : (i < length s)%nat -> nth i (upd i x s) v0 = x.
Proof. intros Hi. apply nth_error_nth. now apply nth_error_upd_same. Qed.
Lemma upd_nth_other i k (x : vec) s : i <> k -> nth k (upd i x s) v0 = nth k s v0.
Proof.
  intros Hi. pose proof (nth_error_upd_other i k x s Hi) as E.
  destruct (Nat.lt_ge_cases k (length s)) as [L|L].
  - rewrite (nth_error_nth' s v0 L) in E. now apply nth_error_nth.
  - rewrite !nth_overflow by (rewrite ?upd_length; lia). reflexivity.
Qed.
Lemma mod_other u t : (u < t)%nat -> (t < u + 16)%nat -> (t mod n <> u mod n)%nat.
Proof.
  intros H1 H2 E. pose proof (va_wlen AG) as Hn.
  pose proof (Nat.div_mod t n ltac:(lia)) as Dt. pose proof (Nat.div_mod u n ltac:(lia)) as Du.
  rewrite E in Dt. revert H1 H2 Dt Du Hn. clear. generalize (u mod n)%nat as r. generalize (t / n)%nat as a. generalize (u / n)%nat as b. generalize n as m.
  intros m b a r H1 H2 Dt Du Hm. destruct (Nat.le_gt_cases a b) as [L|L]; [assert (K : (m * a <= m * b)%nat) by nia; lia|].
  assert (K : (m * b + m <= m * a)%nat) by nia. lia.
Qed.
Lemma next_ok t s w : (16 <= t)%nat -> winv t w ->
  exists w', vline V (NEXT (t mod n) ((t - 2) mod n) ((t - 16) mod n) ((t - 7) mod n) ((t - 15) mod n)) s w = Some (s, w')
  /\ winv (S t) w'.
Proof.
  intros Ht (Lw & Hw). pose proof (va_wlen AG) as Hn.
  assert (Q : forall u, (u mod n < length w)%nat) by (intros u; rewrite Lw; apply Nat.mod_upper_bound; clear - Hn; lia).
  unfold vline. rewrite !get_nth by apply Q. cbn [bind]. rewrite vput_ok by apply Q. cbn [bind].
  eexists. split; [reflexivity|]. split; [now rewrite upd_length|].
  intros u j Hj H1 H2. destruct (Nat.eq_dec u t) as [->|Hu].
  - rewrite upd_nth_same by apply Q. rewrite (va_next AG), !Hw by (auto; lia).
    replace t with (t - 16 + 16)%nat at 5 by (clear - Ht; lia). rewrite Wt_rec.
    replace (t - 16 + 14)%nat with (t - 2)%nat by lia. replace (t - 16 + 9)%nat with (t - 7)%nat by lia.
    replace (t - 16 + 1)%nat with (t - 15)%nat by lia. reflexivity.
  - rewrite upd_nth_other by (apply mod_other; lia). apply Hw; auto; lia.
Qed.
Lemma mod8 t : (exists q, t = 8 * q)%nat \/ (exists q, t = 8 * q + 1)%nat \/ (exists q, t = 8 * q + 2)%nat
  \/ (exists q, t = 8 * q + 3)%nat \/ (exists q, t = 8 * q + 4)%nat \/ (exists q, t = 8 * q + 5)%nat
  \/ (exists q, t = 8 * q + 6)%nat \/ (exists q, t = 8 * q + 7)%nat.
Proof. clear. pose proof (Nat.div_mod t 8 ltac:(lia)) as E. pose proof (Nat.mod_upper_bound t 8 ltac:(lia)).
  set (q := (t / 8)%nat) in *. clearbody q. assert (K : (t mod 8 = 0 \/ t mod 8 = 1 \/ t mod 8 = 2 \/ t mod 8 = 3 \/ t mod 8 = 4 \/ t mod 8 = 5 \/ t mod 8 = 6 \/ t mod 8 = 7)%nat) by lia.
  destruct K as [K|[K|[K|[K|[K|[K|[K|K]]]]]]]; rewrite K in E;
  [left|right; left|do 2 right; left|do 3 right; left|do 4 right; left|do 5 right; left|do 6 right; left|do 7 right]; exists q; lia.
Qed.
Lemma reg_mod q r i : reg (8 * q + r) i = reg r i.
Proof. clear. unfold reg. replace (i + 7 * (8 * q + r))%nat with (i + 7 * r + (7 * q) * 8)%nat by lia. apply Nat.mod_add. lia. Qed.
(** The two assignments of a round move every variable one place. *)
Lemma perm_step t s a b c d e f g h x y : length s = 8%nat -> perm t s = [a; b; c; d; e; f; g; h] ->
  perm (S t) (upd (reg t 7) y (upd (reg t 3) x s)) = [y; a; b; c; x; e; f; g].
Proof. clear.
  intros Hs E.
  assert (G : forall r, (r < 8)%nat -> perm r s = [a; b; c; d; e; f; g; h] ->
    perm (S r) (upd (reg r 7) y (upd (reg r 3) x s)) = [y; a; b; c; x; e; f; g]).
  { clear t E. intros r Hr E. destruct s as [|s0 [|s1 [|s2 [|s3 [|s4 [|s5 [|s6 [|s7 [|? ?]]]]]]]]]; cbn [length] in Hs; try lia.
    do 8 (destruct r as [|r]; [injection E as E0 E1 E2 E3 E4 E5 E6 E7; cbn in E0, E1, E2, E3, E4, E5, E6, E7;
      subst; reflexivity|]). lia. }
  pose proof (Nat.div_mod t 8 ltac:(lia)) as D. pose proof (Nat.mod_upper_bound t 8 ltac:(lia)) as D'.
  set (q := (t / 8)%nat) in *. set (r := (t mod 8)%nat) in *. clearbody q r. subst t.
  assert (P1 : forall s, perm (8 * q + r) s = perm r s).
  { intros s'. unfold perm. apply map_ext. intros i. now rewrite reg_mod. }
  assert (P2 : forall s, perm (S (8 * q + r)) s = perm (S r) s).
  { intros s'. unfold perm. apply map_ext. intros i. replace (S (8 * q + r))%nat with (8 * q + S r)%nat by lia. now rewrite reg_mod. }
  rewrite P1 in E. rewrite P2, !reg_mod. now apply G.
Qed.
Hypothesis HH : forall j, (j < nl)%nat -> hash_value B (H j).
Lemma round1_value m t s : hash_value B s -> hash_value B (round1 B m t s).
Proof.
  clear - Hbits Hpos. intros (L & W). split; [now rewrite round1_length|].
  destruct s as [|a [|b [|c [|d [|e [|f [|g [|h [|? ?]]]]]]]]]; try exact W.
  cbn [round1]. cbv zeta. repeat match goal with X : Forall _ (_ :: _) |- _ => inversion X; clear X; subst end.
  repeat apply Forall_cons; try assumption; try apply Forall_nil; apply add_word; [exact Hpos|exact Hbits|exact Hpos|exact Hbits].
Qed.
Lemma rounds_value m k : forall t s, hash_value B s -> hash_value B (rounds B m k t s).
Proof. induction k as [|k IH]; intros t s Hs; cbn [rounds]; [exact Hs|]. apply IH, round1_value, Hs. Qed.
Lemma mapM_perm t s : length s = 8%nat -> mapM (get s) (map (reg t) (seq 0 8)) = Some (perm t s).
Proof.
  intros Ls. rewrite mapM_map. apply mapM_ok. intros i _. apply get_nth. rewrite Ls. apply reg_lt.
Qed.
Lemma rnd_ok t s w : (t < srounds B)%nat -> sinv t s -> winv (S t) w ->
  exists s', vline V (RND (map (reg t) (seq 0 8)) t (t mod n)) s w = Some (s', w) /\ sinv (S t) s'.
Proof.
  intros Ht (Ls & Hs) (Lw & Hw). pose proof (va_wlen AG) as Hn.
  assert (Q : (t mod n < length w)%nat) by (rewrite Lw; apply Nat.mod_upper_bound; clear - Hn; lia).
  unfold vline. rewrite mapM_perm by exact Ls. cbn [bind].
  rewrite (va_rc AG). unfold get at 1. rewrite nth_error_map_seq by exact Ht. cbn [bind Nat.add].
  rewrite (get_nth w) by exact Q. cbn [bind].
  assert (Lp : length (perm t s) = 8%nat) by (unfold perm; now rewrite map_length).
  destruct (perm t s) as [|a [|b [|c [|d [|e [|f [|g [|h [|? ?]]]]]]]]] eqn:E; cbn [length] in Lp; try (clear - Lp; lia).
  cbn [seq map]. rewrite vput_ok by (rewrite Ls; apply reg_lt). cbn [bind].
  rewrite vput_ok by (rewrite upd_length, Ls; apply reg_lt). cbn [bind].
  eexists. split; [reflexivity|]. split; [now rewrite !upd_length|].
  intros j Hj. rewrite (perm_step t s _ _ _ _ _ _ _ _ _ _ Ls E).
  pose proof (Hs j Hj) as R. pose proof (rounds_value (M j) t 0 (H j) (HH j Hj)) as RV.
  replace (S t) with (t + 1)%nat by (clear; lia). rewrite rounds_app. cbn [rounds Nat.add]. rewrite <- R in *.
  cbn [lane map] in RV |- *. destruct RV as (_ & RV).
  inversion RV as [|? ? Wa RV1]; subst. inversion RV1 as [|? ? Wb RV2]; subst. inversion RV2 as [|? ? Wc RV3]; subst.
  inversion RV3 as [|? ? Wd RV4]; subst. inversion RV4 as [|? ? We RV5]; subst. inversion RV5 as [|? ? Wf RV6]; subst.
  inversion RV6 as [|? ? Wg RV7]; subst. cbn [round1]. cbv zeta.
  rewrite !vadd_lane, (va_T0 AG), (va_T1 AG) by assumption. rewrite (Hw t j Hj) by (clear; lia). reflexivity.
Qed.
Lemma exec_ok : forall k t s w p, (t + k = srounds B)%nat -> sinv t s -> winv (Nat.max t 16) w ->
  p = flat_map (canon n) (seq t k) -> exists s', vexec V p s w = Some s' /\ sinv (srounds B) s'.
Proof.
  induction k as [|k IH]; intros t s w p Ht Hs Hw ->; cbn [seq flat_map].
  - exists s. cbn [vexec]. split; [reflexivity|]. replace (srounds B) with t by (clear - Ht; lia). exact Hs.
  - assert (Lt : (t < srounds B)%nat) by (clear - Ht; lia).
    assert (Step : exists s' w', vexec V (canon n t ++ flat_map (canon n) (seq (S t) k)) s w
      = vexec V (flat_map (canon n) (seq (S t) k)) s' w' /\ sinv (S t) s' /\ winv (Nat.max (S t) 16) w').
    { unfold canon at 1. destruct (Nat.ltb_spec t 16) as [L|L].
      - cbn [app]. replace (Nat.max t 16) with 16%nat in Hw by (clear - L; lia).
        destruct (rnd_ok t s w Lt Hs) as (s' & E & Hs').
        { split; [apply Hw|]. intros u j Hj H1 H2. apply (proj2 Hw); auto; clear - H1 H2 L; lia. }
        exists s', w. cbn [vexec]. rewrite E. cbn [bind]. split; [reflexivity|]. split; [exact Hs'|].
        replace (Nat.max (S t) 16) with 16%nat by (clear - L; lia). exact Hw.
      - replace (Nat.max t 16) with t in Hw by (clear - L; lia).
        destruct (next_ok t s w L Hw) as (w' & E1 & Hw').
        destruct (rnd_ok t s w' Lt Hs Hw') as (s' & E & Hs').
        exists s', w'. cbn [app vexec]. rewrite E1. cbn [bind]. rewrite E. cbn [bind].
        split; [reflexivity|]. split; [exact Hs'|]. replace (Nat.max (S t) 16) with (S t) by (clear - L; lia). exact Hw'. }
    destruct Step as (s' & w' & -> & Hs' & Hw'). apply (IH (S t) s' w' _); auto. clear - Ht; lia.
Qed.
End Rounds.

(** ** One block *)
Variable junk : nat -> nat -> Z.
Variable vj : nat -> vec.
Notation wds k x := (Sha2Spec.words B k x).

Lemma words_nth k : forall b i, (i < k)%nat -> nth i (wds k b) 0 = be_num (chunk (swb B) i b).
Proof. clear.
  induction k as [|k IH]; intros b i Hi; [lia|]. cbn [words]. destruct i as [|i]; cbn [nth].
  - unfold chunk. now rewrite Nat.mul_0_r.
  - rewrite IH by lia. unfold chunk. rewrite skipn_skipn. do 3 f_equal. lia.
Qed.
Lemma transpose_rows_ok : forall k s, length s = (nl * k)%nat ->
  exists t, transpose_rows V k s = Some t /\ length t = (nl * k)%nat
  /\ forall c i j, (c < k)%nat -> (i < nl)%nat -> (j < nl)%nat -> nth (nl * c + i) t v0 j = nth (nl * c + j) s v0 i.
Proof.
  induction k as [|k IH]; intros s Ls; cbn [transpose_rows].
  - exists []. split; [reflexivity|]. split; [cbn; clear; lia|]. intros c i j Hc. clear - Hc. lia.
  - destruct (va_transpose AG (firstn nl s)) as (t & -> & Lt & Ht); [rewrite firstn_length, Ls; clear; nia|].
    destruct (IH (skipn nl s)) as (r & -> & Lr & Hr); [rewrite skipn_length, Ls; clear; nia|]. cbn [bind].
    exists (t ++ r). split; [reflexivity|]. split; [rewrite app_length, Lt, Lr; clear; nia|].
    intros c i j Hc Hi Hj. rewrite <- (firstn_skipn nl s).
    assert (Lf : length (firstn nl s) = nl) by (rewrite firstn_length, Ls; clear; nia).
    destruct c as [|c].
    + rewrite Nat.mul_0_r. cbn [Nat.add]. rewrite !app_nth1 by (rewrite ?Lt, ?Lf; assumption). now apply Ht.
    + rewrite !app_nth2 by (rewrite ?Lt, ?Lf; clear; nia). rewrite Lt, Lf.
      replace (nl * S c + i - nl)%nat with (nl * c + i)%nat by (clear; nia).
      replace (nl * S c + j - nl)%nat with (nl * c + j)%nat by (clear; nia). apply Hr; [clear - Hc; lia| |]; assumption.
Qed.
Lemma nth_concat_rows {A} (f : nat -> nat -> A) (d : A) m : forall k s c i, (c < k)%nat -> (i < m)%nat ->
  nth (m * c + i) (concat (map (fun c => map (f c) (seq 0 m)) (seq s k))) d = f (s + c)%nat i.
Proof. clear.
  induction k as [|k IH]; intros s c i Hc Hi; [lia|]. cbn [seq map concat].
  assert (L : length (map (f s) (seq 0 m)) = m) by now rewrite map_length, seq_length.
  destruct c as [|c].
  - rewrite Nat.mul_0_r. cbn [Nat.add]. rewrite app_nth1 by lia. rewrite Nat.add_0_r.
    apply nth_error_nth. now rewrite nth_error_map_seq.
  - rewrite app_nth2 by nia. rewrite L. replace (m * S c + i - m)%nat with (m * c + i)%nat by nia.
    rewrite IH by lia. f_equal. lia.
Qed.
Lemma concat_rows_length {A} (f : nat -> nat -> A) m : forall k s,
  length (concat (map (fun c => map (f c) (seq 0 m)) (seq s k))) = (m * k)%nat.
Proof. clear.
  induction k as [|k IH]; intros s; cbn [seq map concat length]; [lia|].
  rewrite app_length, IH, map_length, seq_length. lia.
Qed.
Notation dflt := (@nil Z, O).
Definition blk (ds : list (bytes * nat)) (j : nat) : list Z :=
  norm (firstn (bsz B) (skipn (snd (nth j ds dflt)) (fst (nth j ds dflt)))).
Lemma map_nth_seq {A} (l : list A) d : map (fun i => nth i l d) (seq 0 (length l)) = l.
Proof. clear.
  apply nth_error_ext'; [now rewrite map_length, seq_length|]. intros i Hi. rewrite map_length, seq_length in Hi.
  rewrite nth_error_map_seq by exact Hi. cbn [Nat.add]. symmetry. now apply nth_error_nth'.
Qed.
Lemma load_block_ok ds : length ds = nl ->
  (forall j, (j < nl)%nat -> (snd (nth j ds dflt) + bsz B <= length (fst (nth j ds dflt)))%nat) ->
  exists w, load_block V vj ds = Some w /\ winv (fun j => wds 16 (blk ds j)) 16 w.
Proof.
  intros Ld Hd. pose proof (va_16 AG) as H16. pose proof (va_wlen AG) as Hn.
  set (R := fun c j => BYTESWAP V (vload wb (firstn 32 (skipn (snd (nth j ds dflt) + 32 * c) (fst (nth j ds dflt)))))).
  assert (H32 : (32 * (16 / nl) = bsz B)%nat).
  { unfold bsz. rewrite <- Ewb. pose proof Hnl as K. revert H16 K. clear. generalize (16 / nl)%nat as q. generalize nl wb.
    intros a b q H1 H2. nia. }
  assert (E : mapM (fun c => mapM (fun d => x <- rd (fst d) (snd d + 32 * c) 32 ;; Some (BYTESWAP V (vload wb x))) ds)
            (seq 0 (16 / nl)) = Some (map (fun c => map (R c) (seq 0 nl)) (seq 0 (16 / nl)))).
  { apply mapM_ok. intros c Hc. apply in_seq in Hc.
    rewrite <- (map_nth_seq ds dflt) at 1. rewrite mapM_map, Ld. apply mapM_ok. intros j Hj. apply in_seq in Hj.
    pose proof (Hd j ltac:(lia)) as Hl. rewrite rd_ok; [reflexivity|]. rewrite <- H32 in Hl.
    revert Hl Hc. clear. generalize (16 / nl)%nat (snd (nth j ds dflt)) (length (fst (nth j ds dflt))). intros. nia. }
  unfold load_block. rewrite E. cbn [bind].
  destruct (transpose_rows_ok (16 / nl) (concat (map (fun c => map (R c) (seq 0 nl)) (seq 0 (16 / nl))))) as (t & -> & Lt & Ht).
  { apply concat_rows_length. }
  cbn [bind]. eexists. split; [reflexivity|]. rewrite H16 in Lt.
  split; [rewrite app_length, map_length, seq_length, Lt; clear - Hn; lia|].
  intros u j Hj Hu _. rewrite Nat.mod_small by (clear - Hu Hn; lia). rewrite app_nth1 by (rewrite Lt; exact Hu).
  rewrite Wt_lt by exact Hu. rewrite words_nth by exact Hu.
  pose proof nl_pos as Np. set (c := (u / nl)%nat). set (i := (u mod nl)%nat).
  assert (Eu : u = (nl * c + i)%nat) by (apply Nat.div_mod; clear - Np; lia).
  assert (Hi : (i < nl)%nat) by (apply Nat.mod_upper_bound; clear - Np; lia).
  assert (Hc : (c < 16 / nl)%nat).
  { destruct (Nat.lt_ge_cases c (16 / nl)) as [L|L]; [exact L|]. exfalso.
    assert (K : (nl * (16 / nl) <= nl * c)%nat) by (apply Nat.mul_le_mono_l; exact L).
    rewrite H16 in K. clear - K Eu Hu. lia. }
  clearbody c i. rewrite Eu. rewrite Ht by assumption. rewrite nth_concat_rows by assumption. cbn [Nat.add]. unfold R.
  pose proof (Hd j Hj) as Hl. set (D := fst (nth j ds dflt)) in *. set (o := snd (nth j ds dflt)) in *.
  assert (K32 : (32 * c + 32 <= bsz B)%nat).
  { rewrite <- H32. revert Hc. clear. generalize (16 / nl)%nat. intros. nia. }
  rewrite bswap_load; [|rewrite firstn_length, skipn_length; clearbody D o; clear - Hl K32; lia|exact Hi].
  f_equal. unfold blk. fold D o. unfold chunk. rewrite Ewb, skipn_map, firstn_map. f_equal.
  rewrite Ewb in Hnl. clearbody D o. clear - Hnl Hi K32.
  rewrite !skipn_firstn_comm, !firstn_firstn, !skipn_skipn.
  f_equal; [|f_equal; nia]. 
  assert (K : (swb B * i + swb B <= 32)%nat) by nia. rewrite !Nat.min_l by nia. reflexivity.
Qed.

Definition sval (s : list vec) : Prop := length s = 8%nat /\ forall j, (j < nl)%nat -> hash_value B (lane j s).
Lemma perm_0 q s : length s = 8%nat -> perm (8 * q) s = s.
Proof. clear.
  intros Ls. rewrite <- (Nat.add_0_r (8 * q)). unfold perm.
  rewrite (map_ext _ (fun i => nth (reg 0 i) s v0)) by (intros; now rewrite reg_mod).
  destruct s as [|s0 [|s1 [|s2 [|s3 [|s4 [|s5 [|s6 [|s7 [|? ?]]]]]]]]]; cbn [length] in Ls; try lia. reflexivity.
Qed.
Lemma lane_ff j s s' : length s = length s' ->
  lane j (map (fun p => vadd wb (fst p) (snd p)) (combine s' s)) = map (fun p => ad (fst p) (snd p)) (combine (lane j s') (lane j s)).
Proof.
  intros L. revert s L. induction s' as [|x s' IH]; intros [|y s] L; cbn [length] in L; try discriminate; [reflexivity|].
  cbn [combine map lane fst snd]. rewrite vadd_lane. f_equal. apply IH. now injection L.
Qed.
Lemma transform_ok s ds : sval s -> length ds = nl ->
  (forall j, (j < nl)%nat -> (snd (nth j ds dflt) + bsz B <= length (fst (nth j ds dflt)))%nat) ->
  exists s', transform V vj s ds = Some s' /\ sval s'
  /\ forall j, (j < nl)%nat -> lane j s' = compress B (lane j s) (wds 16 (blk ds j)).
Proof.
  intros (Ls & Hs) Ld Hd. unfold transform.
  destruct (load_block_ok ds Ld Hd) as (w & -> & Hw). cbn [bind].
  destruct (exec_ok (fun j => wds 16 (blk ds j)) (fun j => lane j s) Hs (srounds B) 0 s w (vi_prog V) eq_refl) as (s' & E & Ls' & Hs').
  { split; [exact Ls|]. intros j Hj. cbn [rounds]. f_equal. exact (perm_0 0 s Ls). }
  { exact Hw. }
  { exact (va_prog AG). }
  rewrite E. cbn [bind]. eexists. split; [reflexivity|].
  destruct (va_rounds AG) as (q & Eq).
  assert (F : forall j, (j < nl)%nat ->
    lane j (map (fun p => vadd wb (fst p) (snd p)) (combine s' s)) = compress B (lane j s) (wds 16 (blk ds j))).
  { intros j Hj. rewrite lane_ff by congruence. unfold compress.
    pose proof (Hs' j Hj) as G. rewrite Eq in G at 1. rewrite perm_0 in G by exact Ls'. now rewrite <- G. }
  split; [|exact F]. split; [rewrite map_length, combine_length, Ls, Ls'; reflexivity|].
  intros j Hj. rewrite F by exact Hj. apply compress_value; [exact Hpos|exact Hbits|]. apply (Hs j Hj).
Qed.

(** ** The whole blocks *)
Lemma bs_pos : (0 < bs)%nat.
Proof. rewrite bs_bsz. apply bsz_pos. exact Hpos. Qed.
Lemma u64_plus a b : u64 (u64 a + b) = u64 (a + b).
Proof. unfold u64. apply Zplus_mod_idemp_l. Qed.
Lemma nth_map_pair (ins : list bytes) (o : nat) j : (j < length ins)%nat ->
  nth j (map (fun x => (x, o)) ins) dflt = (nth j ins [], o).
Proof.
  intros Hj. apply nth_error_nth. erewrite map_nth_error; [reflexivity|]. now apply nth_error_nth'.
Qed.
Lemma blocks_loop_ok ins inlen : length ins = nl -> (forall j, (j < nl)%nat -> length (nth j ins []) = inlen) ->
  Z.of_nat inlen < vi_imod V -> forall fuel s msglen k, sval s -> (k <= inlen)%nat -> (inlen - k < fuel)%nat ->
  let q := ((inlen - k) / bs)%nat in
  exists s' m', blocks_loop V vj fuel s msglen ins inlen (Z.of_nat k) = Some (s', m', Z.of_nat (k + q * bs))
  /\ u64 m' = u64 (msglen + 8 * Z.of_nat (q * bs)) /\ sval s'
  /\ forall j, (j < nl)%nat -> lane j s' = chain_blocks B q (lane j s) (norm (skipn k (nth j ins []))).
Proof.
  intros Li Hi Hm. pose proof bs_pos as Hb. pose proof (va_imod AG) as Him. pose proof bs_bsz as Eb.
  induction fuel as [|fuel IH]; intros s msglen k Hs Hk Hf q; [clear - Hf; lia|].
  cbn [blocks_loop].
  assert (Eu : u64 (Z.of_nat inlen - Z.of_nat k) = Z.of_nat (inlen - k)).
  { unfold u64. rewrite Z.mod_small; [clear - Hk; lia|]. clear - Hm Him Hk. lia. }
  rewrite Eu. destruct (Z.ltb_spec (Z.of_nat (inlen - k)) (Z.of_nat bs)) as [L|L].
  - assert (q0 : q = O) by (apply Nat.div_small; clear - L; lia). rewrite q0.
    exists s, msglen. cbn [Nat.mul]. rewrite Nat.add_0_r. split; [reflexivity|]. split; [f_equal; clear; lia|].
    split; [exact Hs|]. intros j Hj. reflexivity.
  - assert (Lb : (bs <= inlen - k)%nat) by (clear - L; lia).
    assert (Eq : q = S ((inlen - (k + bs)) / bs)).
    { unfold q. replace (inlen - k)%nat with (inlen - (k + bs) + 1 * bs)%nat by (clear - Lb; lia).
      rewrite Nat.div_add by (clear - Hb; lia). clear; lia. }
    destruct (transform_ok s (map (fun x => (x, Z.to_nat (Z.of_nat k))) ins) Hs) as (s1 & -> & Hs1 & C1).
    { now rewrite map_length. }
    { intros j Hj. rewrite nth_map_pair by (rewrite Li; exact Hj). cbn [fst snd]. rewrite Hi, Nat2Z.id, <- Eb by exact Hj. clear - Lb Hb. lia. }
    cbn [bind].
    assert (Ei : (Z.of_nat k + Z.of_nat bs) mod vi_imod V = Z.of_nat (k + bs)).
    { rewrite Z.mod_small; [clear; lia|]. clear - Hm Lb Hb. lia. }
    rewrite Ei.
    destruct (IH s1 (u64 (msglen + 8 * Z.of_nat bs)) (k + bs)%nat Hs1 ltac:(clear - Lb Hb; lia) ltac:(clear - Lb Hb Hf; lia))
      as (s2 & m2 & -> & Em & Hs2 & C2).
    rewrite Eq. set (q' := ((inlen - (k + bs)) / bs)%nat) in *. clearbody q'. exists s2, m2.
    split; [do 2 f_equal; clear; lia|]. split; [rewrite Em, u64_plus; f_equal; clear; lia|]. split; [exact Hs2|].
    intros j Hj. rewrite C2, C1 by exact Hj. cbn [chain_blocks]. unfold blk. rewrite nth_map_pair by (rewrite Li; exact Hj).
    cbn [fst snd]. rewrite Nat2Z.id, <- Eb, firstn_map, (skipn_map u8 bs), skipn_skipn, (Nat.add_comm bs k). reflexivity.
Qed.

(** ** msgblocks, as one block per lane *)
Notation cat f := (concat (map f (seq 0 nl))).
Lemma iter_cat (F : nat -> bytes -> option bytes) (g : nat -> bytes -> bytes) : forall k i pre f,
  length pre = (bs * i)%nat -> (forall j, length (f j) = bs) ->
  (forall i pre b suf, (i < nl)%nat -> length pre = (bs * i)%nat -> b = f i ->
    F i (pre ++ b ++ suf) = Some (pre ++ g i b ++ suf) /\ length (g i b) = bs) -> (i + k <= nl)%nat ->
  iterM k i F (pre ++ concat (map f (seq i k))) = Some (pre ++ concat (map (fun j => g j (f j)) (seq i k))).
Proof. clear.
  induction k as [|k IH]; intros i pre f Lp Lf HF Hk; cbn [seq map concat iterM]; [reflexivity|].
  destruct (HF i pre (f i) (concat (map f (seq (S i) k))) ltac:(lia) Lp eq_refl) as (-> & Lg). cbn [bind].
  rewrite app_assoc, IH; [now rewrite <- app_assoc|rewrite app_length; nia|exact Lf|exact HF|lia].
Qed.
Lemma iter_cat0 (F : nat -> bytes -> option bytes) (g : nat -> bytes -> bytes) f :
  (forall j, length (f j) = bs) ->
  (forall i pre b suf, (i < nl)%nat -> length pre = (bs * i)%nat -> b = f i ->
    F i (pre ++ b ++ suf) = Some (pre ++ g i b ++ suf) /\ length (g i b) = bs) ->
  iterM nl 0 F (cat f) = Some (cat (fun j => g j (f j))).
Proof. clear.
  intros Lf HF. pose proof (iter_cat F g nl 0 [] f ltac:(cbn; lia) Lf HF (le_n _)) as E. exact E.
Qed.
Lemma cat_length (f : nat -> bytes) : (forall j, length (f j) = bs) -> length (cat f) = (nl * bs)%nat.
Proof. clear.
  intros Lf. generalize (seq 0 nl) at 1 as l, (seq_length nl 0). intros l.
  generalize nl. intros m <-. induction l as [|x l IH]; cbn [map concat length]; [reflexivity|]. rewrite app_length, IH, Lf. lia.
Qed.
Lemma cat_block (f : nat -> bytes) j r : (forall j, length (f j) = bs) -> (j < nl)%nat ->
  firstn bs (skipn (bs * j) (cat f ++ r)) = f j.
Proof.
  intros Lf Hj. rewrite skipn_app, firstn_app, skipn_length, (cat_length f Lf).
  rewrite <- flat_map_concat_map. replace (bs - (nl * bs - bs * j))%nat with O by (clear - Hj; nia).
  rewrite firstn_O, app_nil_r. fold (chunk bs j (flat_map f (seq 0 nl))). apply flat_map_chunk; [intros; apply Lf|exact Hj].
Qed.
Lemma nth_mb mb j : (j < nl)%nat -> nth j (map (fun j => (mb, bs * j)%nat) (seq 0 nl)) dflt = (mb, bs * j)%nat.
Proof. intros Hj. apply nth_error_nth. now rewrite nth_error_map_seq. Qed.
Lemma transform_mb_ok s (f : nat -> bytes) : sval s -> (forall j, length (f j) = bs) ->
  exists s', transform_mb V vj s (cat f) = Some s' /\ sval s'
  /\ forall j, (j < nl)%nat -> lane j s' = compress B (lane j s) (wds 16 (norm (f j))).
Proof.
  intros Hs Lf. unfold transform_mb.
  destruct (transform_ok s (map (fun j => (cat f, bs * j)%nat) (seq 0 nl)) Hs) as (s' & E & Hs' & C).
  { now rewrite map_length, seq_length. }
  { intros j Hj. rewrite nth_mb by exact Hj. cbn [fst snd]. rewrite cat_length, <- bs_bsz by exact Lf. clear - Hj. nia. }
  exists s'. split; [exact E|]. split; [exact Hs'|]. intros j Hj. rewrite C by exact Hj. unfold blk. rewrite nth_mb by exact Hj.
  cbn [fst snd]. rewrite <- bs_bsz. pose proof (cat_block f j [] Lf Hj) as Eb. rewrite app_nil_r in Eb. now rewrite Eb.
Qed.
Lemma wr_block pre b suf i o d : length pre = (bs * i)%nat -> (o + length d <= length b)%nat ->
  wr (pre ++ b ++ suf) (bs * i + o) d = Some (pre ++ (firstn o b ++ d ++ skipn (o + length d) b) ++ suf).
Proof. clear.
  intros Lp Hd. rewrite <- (firstn_skipn o b) at 1. rewrite <- (firstn_skipn (length d) (skipn o b)).
  rewrite skipn_skipn, (Nat.add_comm (length d)).
  replace (pre ++ (firstn o b ++ firstn (length d) (skipn o b) ++ skipn (o + length d) b) ++ suf)
    with ((pre ++ firstn o b) ++ firstn (length d) (skipn o b) ++ (skipn (o + length d) b ++ suf)) by (now rewrite <- !app_assoc).
  rewrite wr_app'.
  - now rewrite <- !app_assoc.
  - rewrite app_length, firstn_length, Lp. lia.
  - rewrite firstn_length, skipn_length. lia.
Qed.
Notation cl := (if vi_clear V then 8 else 0)%nat.
Lemma msglen_be m : msglen_bytes m = be_bytes 8 m.
Proof. clear.
  unfold msglen_bytes, be_bytes. cbn [seq map]. unfold u8. rewrite !Z.shiftr_div_pow2 by lia.
  change (256 ^ Z.of_nat (8 - 1 - 7)) with 1. rewrite Z.div_1_r. reflexivity.
Qed.
(** The padding of the last block. *)
Lemma pad_step (f t : nat -> bytes) dl : (dl < bs)%nat -> (forall j, length (t j) = dl) -> (forall j, length (f j) = bs) ->
  (forall j, (j < nl)%nat -> firstn dl (f j) = t j) ->
  iterM nl 0 (fun i mb =>
          mb <- wr mb (bs * i + dl) [0x80] ;;
          wr mb (bs * i + dl + 1) (repeat 0 (bs - (dl + 1)))) (cat f)
  = Some (cat (fun j => t j ++ [0x80] ++ repeat 0 (bs - (dl + 1)))).
Proof. clear.
  intros Hd Lt Lf Hf.
  rewrite (iter_cat0 _ (fun j _ => t j ++ [0x80] ++ repeat 0 (bs - (dl + 1)))); [reflexivity|exact Lf|].
  intros i pre b suf Hi Lp ->. split.
  - rewrite (wr_block pre (f i) suf i dl [0x80] Lp) by (cbn [length]; rewrite Lf; lia). cbn [bind].
    rewrite <- Nat.add_assoc, wr_block by (rewrite ?app_length, ?firstn_length, ?skipn_length, ?repeat_length, ?Lf; cbn [length]; auto; lia).
    do 3 f_equal. rewrite Hf by exact Hi. cbn [length].
    rewrite firstn_app, Lt, firstn_all2 by (rewrite Lt; lia). replace (dl + 1 - dl)%nat with 1%nat by lia. cbn [firstn app].
    rewrite repeat_length. rewrite (skipn_all2 (t i ++ _)); [now rewrite app_nil_r, <- app_assoc|].
    rewrite app_length. cbn [length]. rewrite skipn_length, Lt, Lf. lia.
  - rewrite !app_length, repeat_length, Lt. cbn [length]. lia.
Qed.
(** The length. *)
Lemma len_step (u : nat -> bytes) k m : (k <= thr)%nat -> (thr + cl + 8 = bs)%nat -> (forall j, length (u j) = k) ->
  iterM nl 0 (fun i mb =>
          mb <- wr mb (bs * i + bs - 8) (msglen_bytes m) ;;
          if vi_clear V then wr mb (bs * i + thr) (repeat 0 8) else Some mb)
    (cat (fun j => u j ++ repeat 0 (bs - k)))
  = Some (cat (fun j => u j ++ repeat 0 (thr - k) ++ repeat 0 cl ++ be_bytes 8 m)).
Proof. clear.
  intros Hk Hb Lu.
  rewrite (iter_cat0 _ (fun j _ => u j ++ repeat 0 (thr - k) ++ repeat 0 cl ++ be_bytes 8 m)); [reflexivity| |].
  { intros j. rewrite app_length, repeat_length, Lu. lia. }
  intros i pre b suf Hi Lp ->. split.
  - rewrite msglen_be.
    replace (repeat 0 (bs - k)) with (repeat 0 (thr - k) ++ repeat 0 cl ++ repeat 0 8)
      by (rewrite <- !repeat_app; f_equal; lia).
    replace (bs * i + bs - 8)%nat with (length (pre ++ u i ++ repeat 0 (thr - k) ++ repeat 0 cl))
      by (rewrite !app_length, !repeat_length, Lp, Lu; lia).
    replace (pre ++ (u i ++ repeat 0 (thr - k) ++ repeat 0 cl ++ repeat 0 8) ++ suf)
      with ((pre ++ u i ++ repeat 0 (thr - k) ++ repeat 0 cl) ++ repeat 0 8 ++ suf) by (now rewrite <- !app_assoc).
    rewrite wr_app by (now rewrite be_bytes_length, repeat_length). cbn [bind].
    destruct (vi_clear V).
    + replace ((pre ++ u i ++ repeat 0 (thr - k) ++ repeat 0 8) ++ be_bytes 8 m ++ suf)
        with ((pre ++ u i ++ repeat 0 (thr - k)) ++ repeat 0 8 ++ be_bytes 8 m ++ suf) by (now rewrite <- !app_assoc).
      rewrite wr_app' by (rewrite ?app_length, ?repeat_length, ?Lp, ?Lu; auto; lia). now rewrite <- !app_assoc.
    + cbn [repeat app]. rewrite app_nil_r. now rewrite <- !app_assoc.
  - rewrite !app_length, !repeat_length, be_bytes_length, Lu. lia.
Qed.

(** The padded end of a message with [dl] bytes left. *)
Lemma pad_gen len c : let rest := (len mod bs)%nat in
  pad_to B len c = [0x80] ++ repeat 0 ((if (rest <? thr)%nat then thr else thr + bs) - (rest + 1)) ++ be_bytes (2 * swb B) (8 * c).
Proof.
  intros rest. pose proof bs_pos as Hb. assert (Hr : (rest < bs)%nat) by (apply Nat.mod_upper_bound; clear - Hb; lia).
  assert (E : len = (len / bs * bs + rest)%nat).
  { unfold rest. pose proof (Nat.div_mod len bs ltac:(clear - Hb; lia)) as D. clear - D. rewrite Nat.mul_comm. exact D. }
  rewrite E at 1. rewrite bs_bsz at 2. rewrite pad_to_blocks by exact Hpos. unfold pad_to. f_equal. f_equal. f_equal.
  rewrite <- bs_bsz. clearbody rest. clear E. unfold vthr in *. rewrite Ewb.
  assert (Eb : bs = (16 * swb B)%nat) by (unfold vbs; now rewrite Ewb). rewrite Eb in *. clear Eb.
  pose proof Hpos as Hp. revert Hr Hp. clear. generalize (swb B) as w. intros w Hr Hp.
  destruct (Nat.ltb_spec rest (14 * w)) as [L|L].
  - rewrite Z.mod_small by lia. lia.
  - replace (Z.of_nat (14 * w) - 1 - Z.of_nat rest) with (Z.of_nat (14 * w) - 1 - Z.of_nat rest + Z.of_nat (16 * w) + (-1) * Z.of_nat (16 * w)) by lia.
    rewrite Z.mod_add by lia. rewrite Z.mod_small by lia. lia.
Qed.
Lemma norm_padding u k m : norm (u ++ repeat 0 k ++ be_bytes 8 m) = norm u ++ repeat 0 k ++ be_bytes 8 m.
Proof. clear.
  rewrite map_app. f_equal. apply norm_bytes. apply Forall_app. split; [|apply be_bytes_all].
  apply Forall_forall. intros x Hx. apply repeat_spec in Hx. subst. unfold is_byte. lia.
Qed.
Lemma norm_zeros k : norm (repeat 0 k) = repeat 0 k.
Proof. clear. apply norm_bytes. apply Forall_forall. intros x Hx. apply repeat_spec in Hx. subst. unfold is_byte. lia. Qed.
Lemma be8_u64' c : be_bytes 8 (u64 c) = be_bytes 8 c.
Proof. clear. exact (be_bytes_mod 8 c). Qed.
Lemma chain1 H b r : length b = bs -> chain_blocks B 1 H (b ++ r) = compress B H (wds 16 b).
Proof.
  intros Lb. cbn [chain_blocks]. rewrite <- bs_bsz. rewrite firstn_app, Lb, Nat.sub_diag, firstn_O, app_nil_r, firstn_all2 by (rewrite Lb; apply le_n).
  reflexivity.
Qed.

Lemma finish_ok s (f t : nat -> bytes) dl msglen c : sval s -> (dl < bs)%nat -> (forall j, length (t j) = dl) ->
  (forall j, length (f j) = bs) -> (forall j, (j < nl)%nat -> firstn dl (f j) = t j) ->
  u64 (msglen + Z.of_nat dl * 8) = u64 (8 * c) -> (vi_clear V = true -> 0 <= 8 * c < 2 ^ 64) ->
  exists s' k, finish V vj s (cat f) dl msglen = Some s' /\ sval s'
  /\ (dl + length (pad_to B dl c) = k * bs)%nat
  /\ forall j, (j < nl)%nat -> lane j s' = chain_blocks B k (lane j s) (norm (t j) ++ pad_to B dl c).
Proof.
  intros Hs Hd Lt Lf Hf Em Hc. pose proof bs_pos as Hb. pose proof (va_lenoff AG) as Ho.
  unfold finish. rewrite (pad_step f t dl Hd Lt Lf Hf). cbn [bind].
  pose proof (pad_gen dl c) as Ep. cbv zeta in Ep. rewrite (Nat.mod_small dl bs Hd), (va_len AG c Hc) in Ep.
  destruct (Nat.ltb_spec dl thr) as [L|L].
  - cbn [bind]. rewrite Em.
    replace (cat (fun j => t j ++ [0x80] ++ repeat 0 (bs - (dl + 1)))) with (cat (fun j => (t j ++ [0x80]) ++ repeat 0 (bs - (dl + 1))))
      by (f_equal; apply map_ext; intros; now rewrite <- app_assoc).
    rewrite (len_step (fun j => t j ++ [0x80]) (dl + 1)); [|clear - L; lia|exact Ho|intros; rewrite app_length, Lt; reflexivity].
    cbn [bind]. set (g := fun j => (t j ++ [0x80]) ++ repeat 0 (thr - (dl + 1)) ++ repeat 0 cl ++ be_bytes 8 (u64 (8 * c))).
    assert (Lg : forall j, length (g j) = bs).
    { intros j. unfold g. rewrite !app_length, !repeat_length, be_bytes_length, Lt. cbn [length]. clear - L Ho. lia. }
    destruct (transform_mb_ok s g Hs Lg) as (s' & E & Hs' & C). exists s', 1%nat. split; [exact E|]. split; [exact Hs'|].
    split. { rewrite Ep, !app_length, !repeat_length, be_bytes_length. cbn [length]. clear - L Ho. lia. }
    intros j Hj. rewrite C by exact Hj. rewrite Ep.
    assert (Eg : norm (g j) = norm (t j) ++ [0x80] ++ repeat 0 (thr - (dl + 1)) ++ repeat 0 cl ++ be_bytes 8 (8 * c)).
    { unfold g. rewrite be8_u64', (app_assoc (repeat 0 _) (repeat 0 _)), <- repeat_app, norm_padding, map_app, repeat_app, <- !app_assoc. reflexivity. }
    rewrite <- Eg. symmetry. rewrite <- (app_nil_r (norm (g j))) at 1. apply chain1. now rewrite map_length.
  - set (g := fun j => t j ++ [0x80] ++ repeat 0 (bs - (dl + 1))).
    assert (Lg : forall j, length (g j) = bs).
    { intros j. unfold g. rewrite !app_length, !repeat_length, Lt. cbn [length]. clear - Hd. lia. }
    destruct (transform_mb_ok s g Hs Lg) as (s1 & -> & Hs1 & C1). cbn [bind].
    rewrite wr_all by (rewrite repeat_length; symmetry; apply cat_length; exact Lg). cbn [bind]. rewrite Em.
    assert (Ez : repeat 0 (nl * bs) = cat (fun j => [] ++ repeat 0 (bs - 0))).
    { cbn [app]. rewrite Nat.sub_0_r. clear. generalize (seq_length nl 0). generalize (seq 0 nl) as l. generalize nl as m.
      intros m l <-. induction l as [|x l IH]; cbn [length Nat.mul map concat]; [reflexivity|]. now rewrite repeat_app, IH. }
    rewrite Ez, (len_step (fun _ => []) 0); [|clear; lia|exact Ho|reflexivity]. cbn [bind].
    set (g2 := fun j : nat => [] ++ repeat 0 (thr - 0) ++ repeat 0 cl ++ be_bytes 8 (u64 (8 * c))).
    assert (Lg2 : forall j, length (g2 j) = bs).
    { intros j. unfold g2. cbn [app]. rewrite !app_length, !repeat_length, be_bytes_length. clear - Ho. lia. }
    destruct (transform_mb_ok s1 g2 Hs1 Lg2) as (s' & E & Hs' & C). exists s', 2%nat. split; [exact E|]. split; [exact Hs'|].
    split. { rewrite Ep, !app_length, !repeat_length, be_bytes_length. cbn [length]. clear - L Ho Hd. lia. }
    intros j Hj. rewrite C, C1 by exact Hj. rewrite Ep.
    assert (Eg : norm (g j) = norm (t j) ++ [0x80] ++ repeat 0 (bs - (dl + 1))).
    { unfold g. rewrite !map_app, norm_zeros. reflexivity. }
    assert (Eg2 : norm (g2 j) = repeat 0 thr ++ repeat 0 cl ++ be_bytes 8 (8 * c)).
    { unfold g2. cbn [app]. rewrite Nat.sub_0_r, be8_u64', !map_app, !norm_zeros, norm_bytes by apply be_bytes_all. reflexivity. }
    replace (thr + bs - (dl + 1))%nat with (bs - (dl + 1) + thr)%nat by (clear - Hd; lia).
    rewrite repeat_app.
    replace (norm (t j) ++ [0x80] ++ (repeat 0 (bs - (dl + 1)) ++ repeat 0 thr) ++ repeat 0 cl ++ be_bytes 8 (8 * c))
      with (norm (g j) ++ norm (g2 j) ++ []) by (rewrite Eg, Eg2, app_nil_r, <- !app_assoc; reflexivity).
    change 2%nat with (1 + 1)%nat. rewrite chain_app by (rewrite map_length, Lg, <- bs_bsz; clear; lia).
    rewrite chain1 by (now rewrite map_length). f_equal.
    symmetry. rewrite <- (app_nil_r (norm (g j))) at 1. apply chain1. now rewrite map_length.
Qed.

(** ** The outputs *)
Lemma outputs_ok s : sval s -> outputs V s = Some (map (fun j => unwords B (lane j s)) (seq 0 nl)).
Proof.
  intros (Ls & _). pose proof (va_8 AG) as H8. unfold outputs.
  destruct (transpose_rows_ok (8 / nl) s) as (t & -> & Lt & Ht); [now rewrite H8|]. cbn [bind].
  apply mapM_ok. intros j Hj. apply in_seq in Hj.
  rewrite (mapM_ok _ (fun c => unwords B (map (fun i => nth (nl * c + i) s v0 j) (seq 0 nl)))).
  - cbn [bind]. f_equal.
    assert (G : forall (h : nat -> list Z) l, concat (map (fun c => unwords B (h c)) l) = unwords B (concat (map h l))).
    { clear. intros h. unfold unwords. induction l as [|x l IH]; cbn [map concat flat_map]; [reflexivity|]. now rewrite flat_map_app, IH. }
    rewrite G. f_equal.
    apply nth_error_ext'.
    + rewrite (concat_rows_length (fun c i => nth (nl * c + i) s v0 j)). rewrite lane_length. now rewrite H8.
    + intros i Hi. rewrite (concat_rows_length (fun c i => nth (nl * c + i) s v0 j)), H8 in Hi.
      rewrite (nth_error_nth' _ 0) by (rewrite (concat_rows_length (fun c i => nth (nl * c + i) s v0 j)), H8; exact Hi).
      rewrite (nth_error_nth' _ 0) by (rewrite lane_length, Ls; exact Hi). f_equal.
      pose proof nl_pos as Np. pose proof (Nat.div_mod i nl ltac:(clear - Np; lia)) as D.
      pose proof (Nat.mod_upper_bound i nl ltac:(clear - Np; lia)) as Hr.
      assert (Hq : (i / nl < 8 / nl)%nat).
      { destruct (Nat.lt_ge_cases (i / nl) (8 / nl)) as [L|L]; [exact L|]. exfalso.
        assert (K : (nl * (8 / nl) <= nl * (i / nl))%nat) by (apply Nat.mul_le_mono_l; exact L).
        rewrite H8 in K. revert K D Hi. clear. generalize (nl * (i / nl))%nat (i mod nl)%nat. intros. lia. }
      rewrite D. rewrite (nth_concat_rows (fun c i => nth (nl * c + i) s v0 j)) by assumption. cbn [Nat.add].
      symmetry. rewrite <- D. apply lane_nth. rewrite Ls. exact Hi.
  - intros c Hc. apply in_seq in Hc. rewrite get_nth by (rewrite Lt, H8; clear - Hc Hj H8; nia). cbn [bind]. rewrite bswap_store.
    do 2 f_equal. apply map_ext_in. intros i Hi. apply in_seq in Hi. apply Ht; clear - Hc Hi Hj; lia.
Qed.

(** ** The hash *)
Theorem hashx_ok s c0 ins inlen : sval s -> length ins = nl ->
  (forall j, (j < nl)%nat -> length (nth j ins []) = inlen) -> Z.of_nat inlen < vi_imod V ->
  (vi_clear V = true -> 0 <= 8 * (c0 + Z.of_nat inlen) < 2 ^ 64) ->
  hashx V junk vj s (8 * c0) ins inlen
  = Some (map (fun j => hash_from B (lane j s) (c0 + Z.of_nat inlen) (norm (nth j ins []))) (seq 0 nl)).
Proof.
  intros Hs Li Hi Hm Hc. pose proof bs_pos as Hb. pose proof bs_bsz as Eb.
  unfold hashx. change 0 with (Z.of_nat 0) at 1.
  destruct (blocks_loop_ok ins inlen Li Hi Hm (S inlen) s (8 * c0) 0 Hs ltac:(clear; lia) ltac:(clear; lia)) as (s1 & m1 & -> & Em & Hs1 & C1).
  cbn [bind Nat.add]. rewrite Nat2Z.id. rewrite Nat.sub_0_r in *. set (q := (inlen / bs)%nat) in *.
  assert (D : inlen = (q * bs + inlen mod bs)%nat).
  { unfold q. rewrite Nat.mul_comm. apply Nat.div_mod. clear - Hb. lia. }
  assert (Hr : (inlen mod bs < bs)%nat) by (apply Nat.mod_upper_bound; clear - Hb; lia).
  set (dl := (inlen mod bs)%nat) in *. clearbody q dl.
  replace (inlen - q * bs)%nat with dl by (clear - D; lia).
  set (f0 := fun j => if (j <? nl)%nat then chunk bs j (junk_bytes (junk 330) (nl * bs)) else repeat 0 bs).
  assert (Lf0 : forall j, length (f0 j) = bs).
  { intros j. unfold f0. destruct (Nat.ltb_spec j nl) as [L|L]; [|apply repeat_length]. apply chunk_length. rewrite junk_length. clear - L. nia. }
  assert (E0 : junk_bytes (junk 330) (nl * bs) = cat f0).
  { rewrite <- flat_map_concat_map. rewrite <- (chunks_all bs nl (junk_bytes (junk 330) (nl * bs))) at 1 by (rewrite junk_length; clear; lia).
    apply flat_map_ext_in'. intros j Hj. apply in_seq in Hj. unfold f0.
    replace (j <? nl)%nat with true by (symmetry; apply Nat.ltb_lt; clear - Hj; lia). reflexivity. }
  set (t := fun j => if (j <? nl)%nat then skipn (q * bs) (nth j ins []) else repeat 0 dl).
  assert (Lt : forall j, length (t j) = dl).
  { intros j. unfold t. destruct (Nat.ltb_spec j nl) as [L|L]; [|apply repeat_length]. rewrite skipn_length, Hi by exact L. clear - D. lia. }
  assert (Et : forall j, (j < nl)%nat -> t j = skipn (q * bs) (nth j ins [])).
  { intros j L. unfold t. apply Nat.ltb_lt in L. now rewrite L. }
  rewrite E0.
  rewrite (iter_cat0 _ (fun j b => t j ++ skipn dl b) f0 Lf0).
  2:{ intros i pre b suf Hj Lp ->. split.
      - unfold get. rewrite (nth_error_nth' _ []) by (rewrite Li; exact Hj). cbn [bind].
        rewrite rd_ok by (rewrite Hi by exact Hj; clear - D; lia). cbn [bind].
        rewrite firstn_all2 by (rewrite skipn_length, Hi by exact Hj; clear - D; lia). rewrite <- Et by exact Hj.
        rewrite <- (Nat.add_0_r (bs * i)), wr_block by (rewrite ?Lt, ?Lf0; auto; clear - Hr; lia). rewrite firstn_O, Lt. cbn [app Nat.add].
        reflexivity.
      - rewrite app_length, skipn_length, Lt, Lf0. clear - Hr. lia. }
  cbn [bind].
  destruct (finish_ok s1 (fun j => t j ++ skipn dl (f0 j)) t dl m1 (c0 + Z.of_nat inlen) Hs1 Hr Lt) as (s2 & k & -> & Hs2 & Lk & C2).
  { intros j. rewrite app_length, skipn_length, Lt, Lf0. clear - Hr. lia. }
  { intros j _. rewrite firstn_app, Lt, Nat.sub_diag, firstn_O, app_nil_r. apply firstn_all2. rewrite Lt. apply le_n. }
  { rewrite <- u64_plus, Em, u64_plus. f_equal. clear - D. lia. }
  { exact Hc. }
  cbn [bind]. rewrite (outputs_ok s2 Hs2). f_equal. apply map_ext_in. intros j Hj. apply in_seq in Hj.
  assert (Lj : (j < nl)%nat) by (clear - Hj; lia). rewrite C2, C1 by exact Lj. cbn [skipn]. unfold hash_from. f_equal.
  rewrite map_length, (Hi j Lj). 
  assert (EP : forall C, pad_to B inlen C = pad_to B dl C) by (intros C; rewrite D at 1; rewrite Eb; apply pad_to_blocks; exact Hpos).
  rewrite EP.
  set (PD := pad_to B dl (c0 + Z.of_nat inlen)) in *. clearbody PD.
  assert (Es : norm (nth j ins []) = norm (firstn (q * bs) (nth j ins [])) ++ norm (t j)).
  { rewrite Et by exact Lj. rewrite <- map_app. f_equal. now rewrite firstn_skipn. }
  assert (L1 : length (norm (firstn (q * bs) (nth j ins []))) = (q * bs)%nat).
  { rewrite map_length, firstn_length, (Hi j Lj). clear - D. lia. }
  rewrite Es, <- !app_assoc, !app_length, L1, map_length, Lt, Lk, <- Eb.
  replace (q * bs + k * bs)%nat with ((q + k) * bs)%nat by (clear; lia). rewrite Nat.div_mul by (clear - Hb; lia).
  rewrite chain_app by (rewrite <- Eb; exact L1). f_equal. symmetry.
  rewrite chain_prefix by (rewrite <- Eb; exact L1). reflexivity.
Qed.
End Core.
