(** The SHAKE256 code of fips202.c computes the sponge of KeccakSpec.v. *)
From Verif Require Import Base BaseFacts KeccakSpec Fips202 KeccakProofs SpongeFacts.

#[local] Opaque keccak_bytes.

(** What a [uint8_t] buffer holds. *)
Notation norm := (map u8).
Lemma norm_bytes m : all_bytes m -> norm m = m.
Proof.
  induction 1 as [|x m Hx _ IH]; cbn [map]; [reflexivity|]. rewrite IH. unfold u8.
  rewrite Z.mod_small; auto.
Qed.
Lemma u8_byte x : is_byte (u8 x).
Proof. unfold is_byte, u8. apply Z.mod_pos_bound. lia. Qed.
Lemma norm_all m : all_bytes (norm m).
Proof. apply Forall_forall. intros x Hx. apply in_map_iff in Hx. destruct Hx as (y & <- & _). apply u8_byte. Qed.

(** ** Little-endian words *)
Fixpoint le (l : bytes) : Z := match l with [] => 0 | x :: l' => x + 256 * le l' end.
Lemma le_bound l : all_bytes l -> 0 <= le l < 2 ^ (8 * Z.of_nat (length l)).
Proof.
  induction 1 as [|x l Hx _ IH]; cbn [le length]; [cbn; lia|].
  unfold is_byte in Hx. rewrite Nat2Z.inj_succ.
  replace (8 * Z.succ (Z.of_nat (length l))) with (8 + 8 * Z.of_nat (length l)) by lia.
  rewrite Z.pow_add_r by lia. change (2 ^ 8) with 256.
  revert IH. generalize (2 ^ (8 * Z.of_nat (length l))), (le l). intros. lia.
Qed.
Lemma le_app a b : le (a ++ b) = le a + 2 ^ (8 * Z.of_nat (length a)) * le b.
Proof.
  induction a as [|x a IH]; cbn [app le length]; [change (2 ^ (8 * Z.of_nat 0)) with 1; lia|].
  rewrite IH, Nat2Z.inj_succ.
  replace (8 * Z.succ (Z.of_nat (length a))) with (8 + 8 * Z.of_nat (length a)) by lia.
  rewrite Z.pow_add_r by lia. change (2 ^ 8) with 256. ring.
Qed.
Lemma le_byte l : all_bytes l -> forall i, u8 (Z.shiftr (le l) (8 * Z.of_nat i)) = nth i l 0.
Proof.
  induction 1 as [|x l Hx Hl IH]; intros i.
  - cbn [le]. rewrite Z.shiftr_0_l. now destruct i.
  - cbn [le]. destruct i as [|i].
    + change (8 * Z.of_nat 0) with 0. rewrite Z.shiftr_0_r. cbn [nth]. unfold u8.
      rewrite Z.mul_comm, Z.mod_add by lia. apply Z.mod_small. exact Hx.
    + cbn [nth]. rewrite <- IH. rewrite Nat2Z.inj_succ.
      replace (8 * Z.succ (Z.of_nat i)) with (8 + 8 * Z.of_nat i) by lia.
      rewrite <- Z.shiftr_shiftr by lia. f_equal. f_equal.
      rewrite Z.shiftr_div_pow2 by lia. change (2 ^ 8) with 256.
      rewrite Z.mul_comm, Z.div_add by lia. rewrite Z.div_small by exact Hx. lia.
Qed.
Lemma le_zeros k : le (repeat 0 k) = 0.
Proof. induction k; cbn [repeat le]; lia. Qed.
Lemma all_zeros k : all_bytes (repeat 0 k).
Proof. apply Forall_forall. intros x Hx. apply repeat_spec in Hx. subst. unfold is_byte. lia. Qed.
Lemma store64_le l : all_bytes l -> length l = 8%nat -> store64 (le l) = l.
Proof.
  intros Hl H8. unfold store64. apply nth_ext with (d := 0) (d' := 0).
  - now rewrite map_length, seq_length.
  - rewrite map_length, seq_length. intros i Hi.
    match goal with |- nth i (map ?f _) 0 = _ =>
      rewrite (nth_indep _ 0 (f O)) by (rewrite map_length, seq_length; lia);
      rewrite (map_nth f), seq_nth by lia end.
    cbn [Nat.add]. now apply le_byte.
Qed.
Lemma lor_disjoint a b k : 0 <= k -> 0 <= a < 2 ^ k -> Z.lor a (Z.shiftl b k) = a + 2 ^ k * b.
Proof.
  intros Hk Ha.
  assert (D : Z.land a (Z.shiftl b k) = 0).
  { apply Z.bits_inj'. intros i Hi. rewrite Z.land_spec, Z.bits_0.
    destruct (Z.ltb_spec i k); [rewrite Z.shiftl_spec_low by lia; apply andb_false_r|].
    destruct (Z.eq_dec a 0) as [->|]; [now rewrite Z.testbit_0_l|].
    rewrite Z.bits_above_log2; [reflexivity|lia|].
    apply Z.log2_lt_pow2; [lia|]. apply Z.lt_le_trans with (2 ^ k); [lia|].
    apply Z.pow_le_mono_r; lia. }
  rewrite <- Z.lxor_lor, <- Z.add_nocarry_lxor, Z.shiftl_mul_pow2 by (try lia; exact D). lia.
Qed.
Lemma firstn_snoc {A} (l : list A) i d : (i < length l)%nat -> firstn (S i) l = firstn i l ++ [nth i l d].
Proof.
  revert i; induction l as [|x l IH]; intros [|i] H; cbn [length] in H; try lia; [reflexivity|].
  cbn [firstn nth app]. f_equal. apply IH. lia.
Qed.
Lemma get_nth {A} (l : list A) i d : (i < length l)%nat -> get l i = Some (nth i l d).
Proof. intros H. unfold get. now apply nth_error_nth'. Qed.
Lemma all_firstn l k : all_bytes l -> all_bytes (firstn k l).
Proof. intros H. revert k. induction H; intros [|k]; cbn [firstn]; constructor; auto. apply IHForall. Qed.
Lemma load64_ok x : length x = 8%nat -> load64 x = Some (le (norm x)).
Proof.
  intros Hx. unfold load64.
  destruct (iterM_inv 8 0 (fun i r => v <- get x i ;; Some (Z.lor r (u64 (Z.shiftl (u8 v) (8 * Z.of_nat i)))))
    (fun i r => r = le (firstn i (norm x))) 0) as (v & E & Hv); [reflexivity| |].
  - intros i r Hi ->. rewrite (get_nth x i 0) by lia. cbn [bind]. eexists. split; [reflexivity|].
    assert (Hlen : length (firstn i (norm x)) = i) by (rewrite firstn_length, map_length; lia).
    pose proof (u8_byte (nth i x 0)) as Hb. unfold is_byte in Hb.
    assert (Hu : u64 (Z.shiftl (u8 (nth i x 0)) (8 * Z.of_nat i)) = Z.shiftl (u8 (nth i x 0)) (8 * Z.of_nat i)).
    { unfold u64. apply Z.mod_small. rewrite Z.shiftl_mul_pow2 by lia.
      assert (2 ^ (8 * Z.of_nat i) <= 2 ^ 56) by (apply Z.pow_le_mono_r; lia).
      assert (0 < 2 ^ (8 * Z.of_nat i)) by (apply Z.pow_pos_nonneg; lia).
      change (2 ^ 64) with (256 * 2 ^ 56). nia. }
    rewrite Hu. pose proof (le_bound _ (all_firstn _ i (norm_all x))) as B. rewrite Hlen in B.
    rewrite lor_disjoint by (auto; lia).
    rewrite (firstn_snoc _ i 0) by (rewrite map_length; lia). rewrite le_app, Hlen. cbn [le].
    assert (En : nth i (norm x) 0 = u8 (nth i x 0)) by (change 0 with (u8 0) at 1; apply map_nth).
    rewrite En. lia.
  - rewrite E, Hv. cbn [Nat.add]. rewrite firstn_all2; [reflexivity|rewrite map_length; lia].
Qed.

(** ** Words and bytes of the state *)
Lemma u8_xor a b : u8 (Z.lxor a b) = Z.lxor (u8 a) (u8 b).
Proof.
  unfold u8. change 256 with (2 ^ 8). rewrite <- !Z.land_ones by lia.
  apply Z.bits_inj'. intros i Hi. rewrite !Z.land_spec, !Z.lxor_spec, !Z.land_spec.
  destruct (Z.testbit (Z.ones 8) i); rewrite ?andb_true_r, ?andb_false_r; reflexivity.
Qed.
Lemma store64_xor a b : store64 (Z.lxor a b) = KeccakSpec.xor_bytes (store64 a) (store64 b).
Proof.
  unfold store64. cbn [map seq KeccakSpec.xor_bytes]. now rewrite !Z.shiftr_lxor, !u8_xor.
Qed.
Lemma sbytes_app a b : sbytes (a ++ b) = sbytes a ++ sbytes b.
Proof. unfold sbytes. apply flat_map_app. Qed.
Lemma word_xor s : forall i v, (i < length s)%nat ->
  sbytes (upd i (Z.lxor (nth i s 0) v) s) = xor_at (sbytes s) (8 * i) (store64 v).
Proof.
  induction s as [|w s IH]; intros [|i] v Hi; cbn [length] in Hi; try lia.
  - cbn [upd nth]. unfold sbytes. cbn [flat_map Nat.mul]. rewrite xor_at_0, store64_xor.
    rewrite xor_bytes_app_l by (now rewrite !store64_length). reflexivity.
  - cbn [upd nth]. change (sbytes (?a :: ?b)) with (store64 a ++ sbytes b).
    rewrite IH by lia. unfold xor_at.
    replace (8 * S i)%nat with (length (store64 w) + 8 * i)%nat by (rewrite store64_length; lia).
    rewrite firstn_app_2, <- app_assoc. f_equal.
Qed.
Lemma wr_upd s t i x : (i < length s)%nat -> wr (s ++ t) i [x] = Some (upd i x s ++ t).
Proof.
  intros Hi. destruct (split_at s i 1) as (pre & mid & post & E & Hp & Hm & _); [lia|].
  destruct mid as [|y [|? ?]]; cbn [length] in Hm; try lia. subst s.
  rewrite <- Hp. change ([y] ++ post) with (y :: post). rewrite upd_app_mid, <- !app_assoc.
  apply (wr_app' pre [y] (post ++ t) [x]); reflexivity.
Qed.
Lemma Forall_upd {A} (Q : A -> Prop) i x l : Forall Q l -> Q x -> Forall Q (upd i x l).
Proof. intros H Hx. revert i. induction H; intros [|i]; cbn [upd]; constructor; auto. Qed.
Lemma get_app_l {A} (s t : list A) i d : (i < length s)%nat -> get (s ++ t) i = Some (nth i s d).
Proof. intros H. unfold get. rewrite nth_error_app1 by auto. now apply nth_error_nth'. Qed.
Lemma get_app_r {A} (s : list A) x i : i = length s -> get (s ++ [x]) i = Some x.
Proof. intros ->. unfold get. rewrite nth_error_app2, Nat.sub_diag by lia. reflexivity. Qed.
Lemma Forall_nth_W s i : Forall W64 s -> W64 (nth i s 0).
Proof.
  intros H. destruct (Nat.ltb_spec i (length s)) as [L|L].
  - rewrite Forall_forall in H. apply H. now apply nth_In.
  - rewrite nth_overflow by lia. unfold W64. lia.
Qed.
Lemma le_W64 l : all_bytes l -> length l = 8%nat -> W64 (le l).
Proof. intros H L. pose proof (le_bound l H) as B. rewrite L in B. exact B. Qed.

(** [good s st]: [s] is 25 words whose bytes are [st]. *)
Definition good (s : list Z) (st : bytes) : Prop :=
  length s = 25%nat /\ Forall W64 s /\ sbytes s = st.
Lemma good_length s st : good s st -> length st = 200%nat.
Proof. intros (H & _ & <-). rewrite sbytes_length. lia. Qed.
Lemma good_init : good (repeat 0 25) (repeat 0 200).
Proof.
  split; [reflexivity|]. split; [|vm_compute; reflexivity].
  apply Forall_forall. intros x Hx. apply repeat_spec in Hx. subst. unfold W64. lia.
Qed.
Lemma good_bytes s st : good s st -> all_bytes st.
Proof.
  intros (_ & _ & <-). unfold sbytes. induction s as [|w s IH]; cbn [flat_map]; [constructor|].
  apply Forall_app. split; [|exact IH]. unfold store64. apply Forall_forall. intros x Hx.
  apply in_map_iff in Hx. destruct Hx as (i & <- & _). apply u8_byte.
Qed.

Lemma xor_words_ok k m s t st : good s st -> (k <= 25)%nat -> (8 * k <= length m)%nat ->
  exists s', xor_words k m (s ++ t) = Some (s' ++ t)
    /\ good s' (KeccakSpec.xor_bytes st (norm (firstn (8 * k) m))).
Proof.
  intros G Hk Hm. unfold xor_words.
  destruct (iterM_inv k 0 (fun i s0 => x <- rd m (8 * i) 8;; v <- load64 x;; w <- get s0 i;; wr s0 i [Z.lxor w v])
    (fun i s0 => exists s', s0 = s' ++ t /\ good s' (KeccakSpec.xor_bytes st (norm (firstn (8 * i) m)))) (s ++ t))
    as (v & E & s' & -> & G').
  - exists s. split; [reflexivity|]. cbn [Nat.mul firstn map]. now rewrite xor_bytes_nil.
  - intros i s0 Hi (s' & -> & L & W & B). rewrite rd_ok by lia. cbn [bind].
    set (x := firstn 8 (skipn (8 * i) m)).
    assert (Lx : length x = 8%nat) by (unfold x; rewrite firstn_length, skipn_length; lia).
    rewrite load64_ok by exact Lx. cbn [bind]. rewrite (get_app_l _ _ _ 0) by lia. cbn [bind].
    rewrite wr_upd by lia. eexists. split; [reflexivity|]. eexists. split; [reflexivity|].
    split; [now rewrite upd_length|]. split.
    { apply Forall_upd; [exact W|]. apply W64_xor; [now apply Forall_nth_W|].
      apply le_W64; [apply norm_all|now rewrite map_length]. }
    rewrite word_xor by lia. rewrite store64_le by (try apply norm_all; now rewrite map_length).
    rewrite B. replace (8 * S i)%nat with (8 * i + 8)%nat by lia.
    assert (Ef : firstn (8 * i + 8) m = firstn (8 * i) m ++ x).
    { unfold x. rewrite <- (firstn_skipn (8 * i) m) at 1. rewrite firstn_app, firstn_length, Nat.min_l by lia.
      replace (8 * i + 8 - 8 * i)%nat with 8%nat by lia.
      rewrite (firstn_all2 (firstn (8 * i) m)) by (rewrite firstn_length; lia). reflexivity. }
    rewrite Ef, map_app, <- !xor_at_0, xor_at_app. f_equal.
    rewrite map_length, firstn_length. lia.
  - exists s'. split; [exact E|exact G'].
Qed.

Lemma xor_byte_ok s t st j b : good s st -> (j < 200)%nat -> is_byte b ->
  exists s', xor_byte (s ++ t) j b = Some (s' ++ t) /\ good s' (xor_at st j [b]).
Proof.
  intros (L & W & B) Hj Hb. unfold xor_byte.
  assert (Hq : (j / 8 < 25)%nat) by (apply Nat.div_lt_upper_bound; lia).
  rewrite (get_app_l _ _ _ 0) by lia. cbn [bind]. rewrite wr_upd by lia.
  eexists. split; [reflexivity|]. split; [now rewrite upd_length|].
  split; [apply Forall_upd; [exact W|apply W64_xor; [now apply Forall_nth_W|apply W64_mod]]|].
  rewrite word_xor by lia. rewrite B.
  pose proof (Nat.mod_upper_bound j 8 ltac:(lia)) as He.
  pose proof (Nat.div_mod j 8 ltac:(lia)) as Hd.
  set (e := (j mod 8)%nat) in *.
  assert (Ev : u64 (Z.shiftl b (8 * Z.of_nat e)) = le (repeat 0 e ++ [b] ++ repeat 0 (7 - e))).
  { rewrite !le_app, !le_zeros, repeat_length. cbn [le]. rewrite Z.shiftl_mul_pow2 by lia.
    unfold u64. rewrite Z.mod_small; [ring|].
    assert (2 ^ (8 * Z.of_nat e) <= 2 ^ 56) by (apply Z.pow_le_mono_r; lia).
    assert (0 < 2 ^ (8 * Z.of_nat e)) by (apply Z.pow_pos_nonneg; lia).
    unfold is_byte in Hb. change (2 ^ 64) with (256 * 2 ^ 56). nia. }
  rewrite Ev, store64_le.
  - rewrite !xor_at_app, !xor_at_zeros. f_equal. rewrite repeat_length. lia.
  - apply Forall_app. split; [apply all_zeros|]. constructor; [exact Hb|apply all_zeros].
  - rewrite !app_length, !repeat_length. cbn [length]. lia.
Qed.

Lemma firstn_cons_nth (l : bytes) k pos : (pos < length l)%nat ->
  firstn (S k) (skipn pos l) = nth pos l 0 :: firstn k (skipn (S pos) l).
Proof.
  revert l; induction pos as [|pos IH]; intros [|x l] H; cbn [length] in H; try lia; [reflexivity|].
  cbn [skipn nth]. apply IH. lia.
Qed.
Lemma read_bytes_ok s t st k : good s st -> forall pos, (pos + k <= 200)%nat ->
  read_bytes (s ++ t) pos k = Some (firstn k (skipn pos st)).
Proof.
  intros G. pose proof (good_length _ _ G) as L2. destruct G as (L & W & B).
  induction k as [|k IH]; intros pos Hp; cbn [read_bytes]; [reflexivity|].
  assert (Hq : (pos / 8 < 25)%nat) by (apply Nat.div_lt_upper_bound; lia).
  rewrite (get_app_l _ _ _ 0) by lia. cbn [bind]. rewrite IH by lia. cbn [bind].
  rewrite firstn_cons_nth by lia. do 2 f_equal. rewrite <- B. symmetry. apply nth_sbytes. lia.
Qed.
Lemma permute_good s t st : good s st ->
  exists s', KeccakF1600_StatePermute (s ++ t) = Some (s' ++ t) /\ good s' (keccak_bytes st).
Proof.
  intros (L & W & B). destruct (permute_ok s t L W) as (s' & E & L' & W' & B').
  exists s'. split; [exact E|]. split; [exact L'|]. split; [exact W'|]. exact (eq_trans B' (f_equal keccak_bytes B)).
Qed.

Lemma keccak_bytes_length b : length (keccak_bytes b) = 200%nat.
Proof. Transparent keccak_bytes. unfold keccak_bytes, bytes_of_state. now rewrite map_length, seq_length. Opaque keccak_bytes. Qed.

Section Rate.
Variable r : nat.
Hypothesis Hr : (0 < r <= 200)%nat.
Local Notation afold := (afold keccak_bytes r).
Local Notation finish := (finish r).
Let Hperm : forall s, length s = 200%nat -> length (keccak_bytes s) = 200%nat :=
  fun s _ => keccak_bytes_length s.

(** ** Incremental absorbing *)
(** The 26-word state: [pos] bytes of the current block are already in. *)
Definition inc_good (s : list Z) (sp : bytes * nat) : Prop :=
  exists ws, s = ws ++ [Z.of_nat (snd sp)] /\ good ws (fst sp).

Lemma xor_bytes_ok s t st pos k m : good s st -> (pos + k <= 200)%nat -> (k <= length m)%nat ->
  exists s', Fips202.xor_bytes (s ++ t) pos k m = Some (s' ++ t)
    /\ good s' (xor_at st pos (norm (firstn k m))).
Proof.
  clear. intros G Hp Hk. unfold Fips202.xor_bytes.
  destruct (iterM_inv k 0 (fun i s0 => b <- get m i ;; xor_byte s0 (pos + i) (u8 b))
    (fun i s0 => exists s', s0 = s' ++ t /\ good s' (xor_at st pos (norm (firstn i m)))) (s ++ t))
    as (v & E & s' & -> & G').
  - exists s. split; [reflexivity|]. cbn [firstn map]. now rewrite xor_at_nil.
  - intros i s0 Hi (s' & -> & G'). rewrite (get_nth m i 0) by lia. cbn [bind].
    destruct (xor_byte_ok s' t _ (pos + i) (u8 (nth i m 0)) G') as (s'' & E & G''); [lia|apply u8_byte|].
    exists (s'' ++ t). split; [exact E|]. exists s''. split; [reflexivity|].
    rewrite (firstn_snoc m i 0) by lia. rewrite map_app, xor_at_app. cbn [map].
    replace (pos + length (norm (firstn i m)))%nat with (pos + i)%nat; [exact G''|].
    rewrite map_length, firstn_length. lia.
  - exists s'. split; [exact E|exact G'].
Qed.

Lemma inc_absorb_loop_ok fuel : forall m s sp, (length m < fuel)%nat -> inc_good s sp -> (snd sp < r)%nat ->
  exists s' m' sp', inc_absorb_loop fuel r m s = Some (s', m') /\ inc_good s' sp'
    /\ (length m' + snd sp' < r)%nat /\ afold (norm m') sp' = afold (norm m) sp.
Proof.
  induction fuel as [|fuel IH]; intros m s [st pos] Hf (ws & -> & G) Hp; [lia|]. cbn [fst snd] in *.
  cbn [inc_absorb_loop]. destruct G as (L & G). rewrite get_app_r by lia. cbn [bind].
  rewrite Nat2Z.id. destruct (Nat.ltb_spec (length m + pos) r) as [Hs|Hs].
  - exists (ws ++ [Z.of_nat pos]), m, (st, pos). split; [reflexivity|].
    split; [exists ws; split; [reflexivity|split; auto]|]. auto.
  - destruct (xor_bytes_ok ws [Z.of_nat pos] st pos (r - pos) m) as (w1 & E1 & G1);
      [split; auto|lia|lia|]. rewrite E1. cbn [bind].
    rewrite wr_app_r by (destruct G1; auto). cbn [bind].
    destruct (permute_good w1 [0] _ G1) as (w2 & E2 & G2). rewrite E2. cbn [bind].
    destruct (IH (skipn (r - pos) m) (w2 ++ [0]) (keccak_bytes (xor_at st pos (norm (firstn (r - pos) m))), O))
      as (s' & m' & sp' & E3 & G3 & H3 & F3).
    { rewrite skipn_length. lia. }
    { exists w2. auto. }
    { cbn [snd]. lia. }
    exists s', m', sp'. split; [exact E3|]. split; [exact G3|]. split; [exact H3|]. rewrite F3.
    rewrite <- (firstn_skipn (r - pos) m) at 3. rewrite map_app, afold_app.
    rewrite (afold_block _ 200 r Hr Hperm (norm (firstn (r - pos) m))); [reflexivity|lia|].
    rewrite map_length, firstn_length. lia.
Qed.

Theorem inc_absorb_ok s sp m : inc_good s sp -> (snd sp < r)%nat -> 
  exists s', keccak_inc_absorb s r m = Some s' /\ inc_good s' (afold (norm m) sp)
    /\ (snd (afold (norm m) sp) < r)%nat.
Proof.
  intros G Hp. unfold keccak_inc_absorb.
  destruct (inc_absorb_loop_ok (S (length m)) m s sp) as (s' & m' & [st pos] & E & (ws & -> & G') & H & F); auto.
  rewrite E. cbn [bind]. cbn [fst snd] in *. assert (L := proj1 G').
  rewrite get_app_r by lia. cbn [bind]. rewrite Nat2Z.id.
  destruct (xor_bytes_ok ws [Z.of_nat pos] st pos (length m') m' G') as (w1 & E1 & G1); [lia|lia|].
  rewrite E1. cbn [bind]. rewrite wr_app_r by (destruct G1; auto).
  rewrite firstn_all2 in G1 by lia.
  rewrite <- F. rewrite (afold_short _ _ r Hr Hperm) by (rewrite map_length; lia). rewrite map_length.
  eexists. split; [reflexivity|]. cbn [fst snd]. split; [|lia].
  exists w1. split; [|exact G1]. do 2 f_equal. cbn [snd]. unfold u64. rewrite Z.mod_small; lia.
Qed.

Theorem inc_finalize_ok s sp p : inc_good s sp -> (snd sp < r)%nat -> is_byte p ->
  exists s', keccak_inc_finalize s r p = Some s' /\ inc_good s' (finish p sp, O).
Proof.
  intros (ws & -> & G) Hp Hb. destruct sp as [st pos]. cbn [fst snd] in *. unfold keccak_inc_finalize.
  assert (L := proj1 G). rewrite get_app_r by lia. cbn [bind]. rewrite Nat2Z.id.
  destruct (xor_byte_ok ws [Z.of_nat pos] st pos p G) as (w1 & E1 & G1); [lia|auto|].
  rewrite E1. cbn [bind].
  destruct (xor_byte_ok w1 [Z.of_nat pos] _ (r - 1) 128 G1) as (w2 & E2 & G2); [lia|unfold is_byte; lia|].
  rewrite E2. cbn [bind]. rewrite wr_app_r by (destruct G2; auto).
  eexists. split; [reflexivity|]. exists w2. auto.
Qed.

(** ** Squeezing *)
(** After [n] bytes of output from the padded state [F]. *)
Definition sq_good (F : bytes) (n : nat) (s : list Z) : Prop :=
  exists ws k c, s = ws ++ [Z.of_nat c] /\ good ws (iterate keccak_bytes k F)
    /\ (c < r)%nat /\ (k * r = n + c)%nat.
Local Notation out_from := (out_from keccak_bytes r).

Lemma inc_squeeze_loop_ok fuel : forall outlen F n ws k c, (outlen <= fuel)%nat -> length F = 200%nat ->
  good ws (iterate keccak_bytes k F) -> (c < r)%nat -> (k * r = n + c)%nat -> (outlen = 0 \/ c = 0)%nat ->
  exists s', inc_squeeze_loop fuel outlen r (ws ++ [Z.of_nat c])
      = Some (out_from (keccak_bytes F) n outlen, s')
    /\ sq_good F (n + outlen) s'.
Proof.
  induction fuel as [|fuel IH]; intros outlen F n ws k c Hf HF G Hc Hk Ho.
  - assert (outlen = O) as -> by lia. exists (ws ++ [Z.of_nat c]). split; [reflexivity|].
    exists ws, k, c. rewrite Nat.add_0_r. auto.
  - destruct outlen as [|o].
    { exists (ws ++ [Z.of_nat c]). split; [reflexivity|]. exists ws, k, c. rewrite Nat.add_0_r. auto. }
    assert (c = O) as -> by lia. cbn [inc_squeeze_loop].
    destruct (permute_good ws [Z.of_nat 0] _ G) as (w2 & E2 & G2). rewrite E2. cbn [bind].
    rewrite <- iterate_snoc in G2. set (i := Nat.min (S o) r).
    rewrite (read_bytes_ok w2 [Z.of_nat 0] _ i G2 0) by lia. cbn [bind].
    rewrite wr_app_r by (destruct G2; auto). cbn [bind].
    destruct (IH (S o - i)%nat F (n + i)%nat w2 (S k) (r - i)%nat) as (s' & E3 & G3); auto; try lia.
    rewrite E3. cbn [bind]. exists s'. split.
    + f_equal. f_equal. replace (S o) with (i + (S o - i))%nat at 2 by lia.
      rewrite out_from_app. f_equal. symmetry.
      rewrite (out_from_block keccak_bytes 200 r Hr Hperm _ k) by (try apply keccak_bytes_length; lia).
      replace (n - k * r)%nat with O by lia. reflexivity.
    + replace (n + S o)%nat with (n + i + (S o - i))%nat by lia. exact G3.
Qed.
Theorem inc_squeeze_ok F n s outlen : length F = 200%nat -> sq_good F n s ->
  exists s', keccak_inc_squeeze outlen s r = Some (out_from (keccak_bytes F) n outlen, s')
    /\ sq_good F (n + outlen) s'.
Proof.
  intros HF (ws & k & c & -> & G & Hc & Hk). unfold keccak_inc_squeeze.
  rewrite get_app_r by (symmetry; apply G). cbn [bind]. rewrite Nat2Z.id.
  set (i := Nat.min outlen c). rewrite (read_bytes_ok _ _ _ i G) by lia. cbn [bind].
  rewrite wr_app_r by (auto; symmetry; apply G). cbn [bind].
  replace (Z.of_nat c - Z.of_nat i) with (Z.of_nat (c - i)) by lia.
  destruct (inc_squeeze_loop_ok outlen (outlen - i) F (n + i) ws k (c - i)) as (s' & E & G');
    auto; try lia.
  rewrite E. cbn [bind]. exists s'. split.
  - f_equal. f_equal. replace outlen with (i + (outlen - i))%nat at 2 by lia.
    rewrite out_from_app. f_equal.
    destruct (Nat.eq_dec i 0) as [->|Hi]; [reflexivity|].
    destruct k as [|k]; [lia|].
    rewrite (out_from_block keccak_bytes 200 r Hr Hperm _ k) by (try apply keccak_bytes_length; lia).
    cbn [iterate]. do 2 f_equal. lia.
  - replace (n + outlen)%nat with (n + i + (outlen - i))%nat by lia. exact G'.
Qed.
Lemma sq_start F s : inc_good s (F, O) -> sq_good F 0 s.
Proof. intros (ws & -> & G). exists ws, O, O. split; [reflexivity|]. split; [exact G|]. lia. Qed.

(** ** The one-shot functions, for a rate that is a multiple of 8 *)
Variable q : nat.
Hypothesis Hq : r = (8 * q)%nat.
Let Hdiv : (r / 8 = q)%nat.
Proof. rewrite Hq, Nat.mul_comm. apply Nat.div_mul. lia. Qed.

Lemma absorb_loop_ok fuel : forall m s st, (length m <= fuel)%nat -> good s st ->
  exists s' m' st', absorb_loop fuel r m s = Some (s', m') /\ good s' st'
    /\ (length m' < r)%nat /\ afold (norm m) (st, O) = afold (norm m') (st', O).
Proof.
  induction fuel as [|fuel IH]; intros m s st Hf G; cbn [absorb_loop];
    destruct (Nat.ltb_spec (length m) r) as [Hs|Hs]; try (exists s, m, st; now auto); [lia|].
  rewrite Hdiv. destruct (xor_words_ok q m s [] st G) as (w1 & E1 & G1); [lia|lia|].
  rewrite !app_nil_r in E1. rewrite E1. cbn [bind].
  destruct (permute_good w1 [] _ G1) as (w2 & E2 & G2). rewrite !app_nil_r in E2. rewrite E2. cbn [bind].
  destruct (IH (skipn r m) w2 _ ltac:(rewrite skipn_length; lia) G2) as (s' & m' & st' & E3 & G3 & H3 & F3).
  exists s', m', st'. split; [exact E3|]. split; [exact G3|]. split; [exact H3|]. rewrite <- F3.
  rewrite <- (firstn_skipn r m) at 1. rewrite map_app, afold_app.
  rewrite (afold_block _ 200 r Hr Hperm (norm (firstn r m))) by (rewrite ?map_length, ?firstn_length; lia).
  rewrite xor_at_0, Hq. reflexivity.
Qed.

Theorem absorb_ok t0 m p : length t0 = 200%nat -> 0 <= p < 128 ->
  exists s, keccak_absorb t0 r m p = Some s
    /\ good s (finish p (afold (norm m) (ainit 200))).
Proof.
  intros Ht Hp. unfold keccak_absorb.
  destruct (absorb_loop_ok (length m) m (repeat 0 25) (repeat 0 200) ltac:(lia) good_init)
    as (s & m' & st & E & G & Hm & F).
  rewrite E. cbn [bind].
  destruct (split_at t0 0 r) as (pre & t1 & t2 & Et & Hpre & Ht1 & _); [lia|].
  destruct pre; [|cbn in Hpre; lia]. cbn [app] in Et.
  rewrite Et, wr_app0 by (rewrite repeat_length; lia). cbn [bind].
  assert (Er : repeat 0 r = repeat 0 (length m') ++ repeat 0 1 ++ repeat 0 (r - length m' - 1))
    by (rewrite <- !repeat_app; f_equal; lia).
  rewrite Er, <- !app_assoc. rewrite wr_app0 by (rewrite repeat_length; lia). cbn [bind].
  rewrite (wr_app' m' (repeat 0 1)) by auto. cbn [bind].
  set (z := (r - length m' - 1)%nat).
  (* the padded block *)
  set (blk := m' ++ [p] ++ repeat 0 z).
  assert (Lb : length blk = r) by (unfold blk; rewrite !app_length, repeat_length; cbn [length]; lia).
  replace (m' ++ [p] ++ repeat 0 z ++ t2) with (blk ++ t2) by (unfold blk; now rewrite <- !app_assoc).
  rewrite (get_app_l blk t2 (r - 1) 0) by lia. cbn [bind].
  rewrite wr_upd by lia. cbn [bind]. rewrite Hdiv.
  set (blk' := upd (r - 1) (Z.lor (nth (r - 1) blk 0) 128) blk).
  assert (Lb' : length blk' = r) by (unfold blk'; now rewrite upd_length).
  destruct (xor_words_ok q (blk' ++ t2) s [] st G) as (w & Ew & Gw); [lia|rewrite app_length; lia|].
  rewrite !app_nil_r in Ew. exists w. split; [exact Ew|].
  rewrite <- Hq, firstn_app, Lb', Nat.sub_diag, firstn_all2, app_nil_r in Gw by lia.
  unfold ainit. rewrite F. rewrite (afold_short _ _ r Hr Hperm) by (rewrite map_length; lia).
  unfold SpongeFacts.finish. cbn [fst snd]. rewrite map_length. cbn [Nat.add].
  assert (Ex : norm blk' = KeccakSpec.xor_bytes (norm blk) (repeat 0 (r - 1) ++ [128])).
  { apply nth_ext with (d := 0) (d' := 0); [now rewrite xor_bytes_length, !map_length, Lb, Lb'|].
    rewrite map_length, Lb'. intros i Hi.
    rewrite nth_xor_bytes by (rewrite map_length; lia).
    change 0 with (u8 0) at 1 2. rewrite !map_nth. unfold blk'.
    destruct (Nat.eq_dec i (r - 1)) as [->|Hne].
    - assert (En : nth (r - 1) (upd (r - 1) (Z.lor (nth (r - 1) blk 0) 128) blk) 0 = Z.lor (nth (r - 1) blk 0) 128).
      { apply nth_error_nth. apply nth_error_upd_same. lia. }
      change (u8 0) with 0. rewrite En.
      rewrite (app_nth2 (repeat 0 _)), repeat_length, Nat.sub_diag by (rewrite repeat_length; lia). cbn [nth].
      assert (Hv : nth (r - 1) blk 0 = 0 \/ nth (r - 1) blk 0 = p).
      { unfold blk. rewrite app_nth2 by lia. destruct (r - 1 - length m')%nat as [|j]; [right; reflexivity|].
        left. cbn [app nth]. apply nth_repeat. }
      destruct Hv as [Hv|Hv]; rewrite Hv; [reflexivity|].
      assert (Ep : Z.lor p 128 = Z.lxor p 128).
      { rewrite Z.lxor_lor; [reflexivity|]. rewrite <- (Z.lor_0_l 128).
        apply Z.bits_inj'. intros i _. rewrite Z.land_spec, Z.bits_0. cbn [Z.lor].
        change 128 with (2 ^ 7). destruct (Z.eq_dec i 7) as [->|Hi7].
        - destruct (Z.eq_dec p 0) as [->|]; [reflexivity|].
          rewrite Z.bits_above_log2; [reflexivity|lia|]. apply Z.log2_lt_pow2; lia.
        - rewrite Z.pow2_bits_false by lia. apply andb_false_r. }
      rewrite Ep, u8_xor. reflexivity.
    - assert (En : forall x, nth i (upd (r - 1) x blk) 0 = nth i blk 0).
      { intros x. rewrite <- !nth_default_eq. unfold nth_default.
        rewrite nth_error_upd_other by lia. reflexivity. }
      change (u8 0) with 0. rewrite En.
      rewrite app_nth1, nth_repeat, Z.lxor_0_r by (rewrite repeat_length; lia). reflexivity. }
  rewrite Ex in Gw. revert Gw.
  match goal with |- good w ?a -> good w ?b => replace a with b; [auto|] end.
  rewrite <- (xor_at_0 st). assert (Hw := good_length _ _ G). apply xor_at_eq; [now rewrite !xor_at_length|].
  intros i Hi. rewrite !nth_xor_at by (rewrite ?xor_at_length; lia). cbn [Nat.leb]. rewrite !Nat.sub_0_r.
  rewrite !Z.lxor_assoc. f_equal.
  destruct (Nat.ltb_spec i r) as [Hir|Hir].
  - rewrite nth_xor_bytes by (rewrite map_length; lia). unfold blk. rewrite map_app.
    assert (E0 : u8 p = p) by (unfold u8; rewrite Z.mod_small; lia).
    assert (Ez : norm ([p] ++ repeat 0 z) = [p] ++ repeat 0 z).
    { cbn [map app]. rewrite E0. f_equal. apply norm_bytes, all_zeros. }
    rewrite Ez.
    destruct (Nat.leb_spec (length m') i) as [H1|H1].
    + rewrite (nth_overflow (norm m')) by (rewrite map_length; lia). rewrite Z.lxor_0_l.
      rewrite app_nth2 by (rewrite map_length; lia). rewrite map_length.
      f_equal.
      * destruct (i - length m')%nat as [|j]; [reflexivity|]. cbn [app nth]. rewrite nth_repeat. now destruct j.
      * destruct (Nat.leb_spec (r - 1) i) as [H2|H2].
        -- rewrite app_nth2 by (rewrite repeat_length; lia). now rewrite repeat_length.
        -- now rewrite app_nth1, nth_repeat by (rewrite repeat_length; lia).
    + rewrite app_nth1 by (rewrite map_length; lia). f_equal. rewrite Z.lxor_0_l.
      destruct (Nat.leb_spec (r - 1) i) as [H2|H2]; [lia|].
      now rewrite app_nth1, nth_repeat by (rewrite repeat_length; lia).
  - rewrite (nth_overflow (KeccakSpec.xor_bytes _ _)) by (rewrite xor_bytes_length, map_length; lia).
    rewrite (nth_overflow (norm m')) by (rewrite map_length; lia).
    destruct (Nat.leb_spec (length m') i) as [_|]; [|lia]. destruct (Nat.leb_spec (r - 1) i) as [_|]; [|lia].
    rewrite !nth_overflow by (cbn [length]; lia). reflexivity.
Qed.

Theorem squeezeblocks_ok nb : forall F k s, length F = 200%nat -> good s (iterate keccak_bytes k F) ->
  exists s', keccak_squeezeblocks nb r s = Some (out_from (keccak_bytes F) (k * r) (nb * r), s')
    /\ good s' (iterate keccak_bytes (k + nb) F).
Proof.
  induction nb as [|nb IH]; intros F k s HF G; cbn [keccak_squeezeblocks].
  - exists s. rewrite Nat.add_0_r. auto.
  - destruct (permute_good s [] _ G) as (w & E & G2). rewrite !app_nil_r in E. rewrite E. cbn [bind].
    rewrite <- iterate_snoc in G2. assert (L := proj1 G2).
    rewrite Hdiv, rd_ok by lia. cbn [bind skipn].
    destruct (IH F (S k) w HF G2) as (s' & E3 & G3). rewrite E3. cbn [bind]. exists s'.
    split; [|now replace (k + S nb)%nat with (S k + nb)%nat by lia].
    do 2 f_equal. replace (S nb * r)%nat with (r + nb * r)%nat by lia. rewrite out_from_app. f_equal.
    + symmetry. rewrite (out_from_block keccak_bytes 200 r Hr Hperm _ k) by (try apply keccak_bytes_length; lia).
      replace (k * r - k * r)%nat with O by lia. cbn [skipn].
      change (iterate keccak_bytes k (keccak_bytes F)) with (iterate keccak_bytes (S k) F).
      destruct G2 as (_ & _ & B). rewrite <- B.
      rewrite <- (firstn_skipn q w) at 1. rewrite sbytes_app.
      rewrite firstn_app, firstn_all2 by (rewrite sbytes_length, firstn_length; lia).
      rewrite sbytes_length, firstn_length, Nat.min_l by lia. rewrite Hq, Nat.sub_diag.
      cbn [firstn]. apply app_nil_r.
    + f_equal. lia.
Qed.
End Rate.

(** ** SHAKE256 *)
Lemma rate_ok : (0 < SHAKE256_RATE <= 200)%nat.
Proof. unfold SHAKE256_RATE. lia. Qed.
Lemma SHAKE256_fold m n :
  SHAKE256 m n = out_from keccak_bytes 136
    (keccak_bytes (finish 136 0x1F (afold keccak_bytes 136 m (ainit 200)))) 0 n.
Proof.
  unfold SHAKE256. rewrite (sponge_fold keccak_bytes 200 136); [reflexivity|lia| |lia].
  intros. apply keccak_bytes_length.
Qed.
Lemma finish_length r p sp : length (fst sp) = 200%nat -> length (finish r p sp) = 200%nat.
Proof. intros H. unfold finish. now rewrite !xor_at_length. Qed.
Lemma afold_length m sp : length (fst sp) = 200%nat -> (snd sp < 136)%nat ->
  length (fst (afold keccak_bytes 136 m sp)) = 200%nat.
Proof.
  destruct sp as [st pos]. intros H1 H2.
  apply (afold_pos keccak_bytes 200 136); auto; try lia.
Qed.

Lemma out_from_firstn S0 n k len : (k <= len)%nat ->
  firstn k (skipn 0 (out_from keccak_bytes 136 S0 n len)) = out_from keccak_bytes 136 S0 n k.
Proof.
  intros H. replace len with (k + (len - k))%nat by lia. rewrite out_from_app. cbn [skipn].
  rewrite firstn_app, out_from_length, firstn_all2 by (rewrite out_from_length; lia).
  rewrite Nat.sub_diag. cbn [firstn]. apply app_nil_r.
Qed.
Theorem shake256_norm t0 n m : length t0 = 200%nat -> shake256 t0 n m = Some (SHAKE256 (norm m) n).
Proof.
  intros Ht. unfold shake256, shake256_absorb, shake256_squeezeblocks.
  destruct (absorb_ok SHAKE256_RATE rate_ok 17 eq_refl t0 m 0x1F Ht ltac:(lia)) as (s & E & G).
  rewrite E. cbn [bind]. change SHAKE256_RATE with 136%nat in *.
  set (F := finish 136 31 (afold keccak_bytes 136 (norm m) (ainit 200))) in *.
  assert (LF : length F = 200%nat) by apply (good_length _ _ G).
  set (nb := (n / 136)%nat). 
  destruct (squeezeblocks_ok 136 rate_ok 17 eq_refl nb F 0 s LF G) as (s1 & E1 & G1).
  rewrite E1. cbn [bind]. rewrite SHAKE256_fold. fold F.
  assert (Hn : (n = nb * 136 + (n - nb * 136) /\ n - nb * 136 < 136)%nat).
  { unfold nb. pose proof (Nat.div_mod n 136 ltac:(lia)). pose proof (Nat.mod_upper_bound n 136 ltac:(lia)). lia. }
  clearbody nb. destruct (Nat.eqb_spec (n - nb * 136) 0) as [Hz|Hz].
  - do 2 f_equal. lia.
  - destruct (squeezeblocks_ok 136 rate_ok 17 eq_refl 1 F (0 + nb) s1 LF G1) as (s2 & E2 & _).
    rewrite E2. cbn [bind]. rewrite rd_ok by (rewrite out_from_length; lia). cbn [bind].
    f_equal. destruct Hn as [Hn1 Hn2]. rewrite Hn1 at 2. rewrite out_from_app. f_equal.
    rewrite out_from_firstn by lia. reflexivity.
Qed.
Theorem shake256_ok t0 n m : length t0 = 200%nat -> all_bytes m ->
  shake256 t0 n m = Some (SHAKE256 m n).
Proof. intros Ht Hm. rewrite shake256_norm by auto. now rewrite norm_bytes. Qed.

Lemma SHAKE256_length m n : length (SHAKE256 m n) = n.
Proof. unfold SHAKE256, sponge, squeeze. now rewrite map_length, seq_length. Qed.

(** Any sequence of absorb calls, then finalize, then any sequence of squeeze calls. *)
Fixpoint absorb_all (s : list Z) (chunks : list bytes) : option (list Z) :=
  match chunks with
  | [] => Some s
  | c :: cs => s <- shake256_inc_absorb s c ;; absorb_all s cs
  end.
Fixpoint squeeze_all (s : list Z) (lens : list nat) : option (list bytes) :=
  match lens with
  | [] => Some []
  | n :: ns => ' (h, s) <- shake256_inc_squeeze n s ;; hs <- squeeze_all s ns ;; Some (h :: hs)
  end.
Definition shake256_inc (chunks : list bytes) (lens : list nat) : option (list bytes) :=
  s <- absorb_all shake256_inc_init chunks ;;
  s <- shake256_inc_finalize s ;;
  squeeze_all s lens.
(** Cut a string into pieces of the given lengths. *)
Fixpoint pieces (x : bytes) (lens : list nat) : list bytes :=
  match lens with [] => [] | n :: ns => firstn n x :: pieces (skipn n x) ns end.
Definition total (lens : list nat) : nat := fold_right Nat.add O lens.

Lemma absorb_all_ok chunks : forall s sp, inc_good s sp -> (snd sp < 136)%nat ->
  exists s', absorb_all s chunks = Some s'
    /\ inc_good s' (afold keccak_bytes 136 (norm (concat chunks)) sp)
    /\ (snd (afold keccak_bytes 136 (norm (concat chunks)) sp) < 136)%nat.
Proof.
  induction chunks as [|c cs IH]; intros s sp G Hp; cbn [absorb_all concat].
  - exists s. auto.
  - unfold shake256_inc_absorb. destruct (inc_absorb_ok SHAKE256_RATE rate_ok s sp c G Hp) as (s1 & E1 & G1 & H1).
    rewrite E1. cbn [bind]. destruct (IH s1 _ G1 H1) as (s2 & E2 & G2 & H2).
    exists s2. split; [exact E2|]. rewrite map_app, afold_app. auto.
Qed.
Lemma out_pieces S0 lens : forall n,
  pieces (out_from keccak_bytes 136 S0 n (total lens)) lens
  = map (fun p => out_from keccak_bytes 136 S0 (fst p) (snd p))
      (combine (map (fun i => (n + total (firstn i lens))%nat) (seq 0 (length lens))) lens).
Proof.
  induction lens as [|l ls IH]; intros n; [reflexivity|].
  cbn [pieces total fold_right length seq map combine firstn]. fold (total ls). rewrite Nat.add_0_r.
  rewrite out_from_app. rewrite firstn_app, out_from_length, firstn_all2 by (rewrite out_from_length; lia).
  rewrite Nat.sub_diag. cbn [firstn fst snd]. rewrite app_nil_r. f_equal.
  rewrite skipn_app, out_from_length, skipn_all2, Nat.sub_diag by (rewrite out_from_length; lia).
  cbn [skipn app]. rewrite IH. f_equal. f_equal. rewrite <- seq_shift, map_map. apply map_ext.
  intros i. cbn [firstn total fold_right]. fold (total (firstn i ls)). lia.
Qed.
Lemma squeeze_all_ok F lens : length F = 200%nat -> forall n s, sq_good 136 F n s ->
  squeeze_all s lens = Some (pieces (out_from keccak_bytes 136 (keccak_bytes F) n (total lens)) lens).
Proof.
  intros HF. induction lens as [|l ls IH]; intros n s G; cbn [squeeze_all]; [reflexivity|].
  unfold shake256_inc_squeeze.
  destruct (inc_squeeze_ok SHAKE256_RATE rate_ok F n s l HF G) as (s1 & E1 & G1).
  rewrite E1. cbn [bind]. rewrite (IH _ _ G1). cbn [bind pieces total fold_right]. fold (total ls).
  do 2 f_equal.
  - rewrite out_from_app, firstn_app, out_from_length, firstn_all2 by (rewrite out_from_length; lia).
    rewrite Nat.sub_diag. cbn [firstn]. now rewrite app_nil_r.
  - rewrite out_from_app, skipn_app, out_from_length, skipn_all2, Nat.sub_diag by (rewrite out_from_length; lia).
    reflexivity.
Qed.
Lemma inc_init_good : inc_good keccak_inc_init (ainit 200).
Proof. exists (repeat 0 25). split; [reflexivity|apply good_init]. Qed.
Theorem shake256_inc_norm chunks lens :
  shake256_inc chunks lens = Some (pieces (SHAKE256 (norm (concat chunks)) (total lens)) lens).
Proof.
  unfold shake256_inc, shake256_inc_init, shake256_inc_finalize.
  destruct (absorb_all_ok chunks keccak_inc_init (ainit 200) inc_init_good) as (s & E & G & H);
    [cbn; lia|].
  rewrite E. cbn [bind].
  destruct (inc_finalize_ok SHAKE256_RATE rate_ok s _ 0x1F G H) as (s1 & E1 & G1); [unfold is_byte; lia|].
  rewrite E1. cbn [bind]. rewrite SHAKE256_fold. apply squeeze_all_ok.
  - apply finish_length, afold_length; [reflexivity|cbn; lia].
  - apply sq_start; [apply rate_ok|exact G1].
Qed.
Theorem shake256_inc_ok chunks lens : Forall all_bytes chunks ->
  shake256_inc chunks lens = Some (pieces (SHAKE256 (concat chunks) (total lens)) lens).
Proof.
  intros H. rewrite shake256_inc_norm, norm_bytes; [reflexivity|].
  induction H as [|c cs Hc _ IH]; cbn [concat]; [constructor|]. apply Forall_app. auto.
Qed.

Lemma SHAKE256_bytes m n : all_bytes (SHAKE256 m n).
Proof.
  assert (E : SHAKE256 m n = out_from keccak_bytes 136
    (keccak_bytes (finish 136 0x1F (afold keccak_bytes 136 m (ainit 200)))) 0 n) by apply SHAKE256_fold.
  rewrite E. apply Forall_forall. intros x Hx. apply in_map_iff in Hx. destruct Hx as (i & <- & _).
  set (X := finish _ _ _). clearbody X. clear E.
  assert (Hk : forall b, all_bytes (keccak_bytes b)).
  { clear. intros b. Transparent keccak_bytes. unfold keccak_bytes, bytes_of_state.
    apply Forall_forall. intros x Hx. apply in_map_iff in Hx. destruct Hx as (j & <- & _).
    Opaque keccak_bytes. unfold byte_of_bits. cbn [seq fold_right].
    repeat match goal with |- context [if ?c then 1 else 0] => destruct c end; unfold is_byte; lia. }
  assert (Hi : forall k b, all_bytes b -> all_bytes (iterate keccak_bytes k b)).
  { induction k as [|k IH]; intros b Hb; cbn [iterate]; auto. }
  specialize (Hi (i / 136)%nat _ (Hk X)).
  destruct (Nat.ltb_spec (i mod 136) (length (iterate keccak_bytes (i / 136) (keccak_bytes X)))) as [L|L].
  - unfold all_bytes in Hi. rewrite Forall_forall in Hi. apply Hi. now apply nth_In.
  - rewrite nth_overflow by lia. unfold is_byte. lia.
Qed.

(** ** The padding byte string as bits: M || 1111 || pad10*1. *)
Lemma bits_app a b : bits_of_bytes (a ++ b) = bits_of_bytes a ++ bits_of_bytes b.
Proof. apply flat_map_app. Qed.
Lemma bits_zeros k : bits_of_bytes (repeat 0 k) = repeat false (8 * k).
Proof.
  induction k as [|k IH]; [reflexivity|]. cbn [repeat].
  replace (8 * S k)%nat with (8 + 8 * k)%nat by lia. rewrite repeat_app, <- IH. reflexivity.
Qed.
Theorem pad_bits r m : (0 < r)%nat ->
  bits_of_bytes (m ++ pad r 0x1F (length m))
  = bits_of_bytes m ++ [true; true; true; true] ++ pad10star1 (8 * r) (8 * length m + 4).
Proof.
  intros Hr. rewrite bits_app. f_equal. unfold pad, pad10star1.
  pose proof (Nat.mod_upper_bound (length m) r ltac:(lia)) as Hm.
  pose proof (Nat.div_mod (length m) r ltac:(lia)) as Hd.
  set (e := (length m mod r)%nat) in *.
  assert (Ez : Z.to_nat ((- Z.of_nat (8 * length m + 4) - 2) mod Z.of_nat (8 * r)) = (8 * (r - e) - 6)%nat).
  { replace (- Z.of_nat (8 * length m + 4) - 2) with
      (Z.of_nat (8 * (r - e) - 6) + (- Z.of_nat (length m / r) - 1) * Z.of_nat (8 * r)) by nia.
    rewrite Z.mod_add by lia. rewrite Z.mod_small by lia. apply Nat2Z.id. }
  rewrite Ez. destruct (Nat.eqb_spec (r - e) 1) as [E1|E1].
  - rewrite E1. reflexivity.
  - change (31 :: repeat 0 (r - e - 2) ++ [128]) with ([31] ++ repeat 0 (r - e - 2) ++ [128]).
    rewrite !bits_app, bits_zeros.
    replace (8 * (r - e) - 6)%nat with (3 + (8 * (r - e - 2) + 7))%nat by lia.
    rewrite !repeat_app. cbn [repeat bits_of_bytes flat_map map seq app].
    rewrite <- !app_assoc. reflexivity.
Qed.
Theorem shake_pad_bits m :
  bits_of_bytes (m ++ pad 136 0x1F (length m))
  = bits_of_bytes m ++ [true; true; true; true] ++ pad10star1 1088 (8 * length m + 4).
Proof. apply pad_bits. lia. Qed.
Theorem shake256_inc_oneshot t0 chunks lens : length t0 = 200%nat -> Forall all_bytes chunks ->
  exists out, shake256 t0 (total lens) (concat chunks) = Some out
    /\ shake256_inc chunks lens = Some (pieces out lens).
Proof.
  intros Ht Hc. eexists. split; [apply shake256_ok; auto|now apply shake256_inc_ok].
  induction Hc as [|c cs Hc _ IH]; cbn [concat]; [constructor|]. apply Forall_app. auto.
Qed.
