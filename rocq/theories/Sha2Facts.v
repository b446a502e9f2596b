(** Facts about the specification of SHA-2: big-endian strings, the message schedule, chaining. *)
From Verif Require Import Base BaseFacts ShakeProofs Sha2Spec.

(** ** The constants are what FIPS 180-4 says: integer parts of roots *)
Lemma root_from_ok e n : 0 < e -> 0 <= n -> forall k x, 0 <= x -> x ^ e <= n < (x + 2 ^ Z.of_nat k) ^ e ->
  let r := root_from e n k x in x <= r /\ r ^ e <= n < (r + 1) ^ e.
Proof.
  intros He Hn. induction k as [|k IH]; intros x Hx H; cbn [root_from].
  - change (2 ^ Z.of_nat 0) with 1 in H. lia.
  - assert (P : 0 < 2 ^ Z.of_nat k) by (apply Z.pow_pos_nonneg; lia).
    rewrite Nat2Z.inj_succ, Z.pow_succ_r in H by lia.
    destruct (Z.leb_spec ((x + 2 ^ Z.of_nat k) ^ e) n) as [L|L].
    + destruct (IH (x + 2 ^ Z.of_nat k)) as (A & B); [lia| |].
      * split; [exact L|]. replace (x + 2 ^ Z.of_nat k + 2 ^ Z.of_nat k) with (x + 2 * 2 ^ Z.of_nat k) by lia.
        apply H.
      * split; [lia|exact B].
    + apply IH; [lia|]. split; [apply H|exact L].
Qed.
(** [root e n] is the integer part of the e-th root, for n below 2^(80 e). *)
Theorem root_ok e n : 0 < e -> 0 <= n < 2 ^ (80 * e) ->
  0 <= root e n /\ root e n ^ e <= n < (root e n + 1) ^ e.
Proof.
  intros He Hn. unfold root. apply (root_from_ok e n He); [lia|lia|].
  rewrite Z.pow_0_l by lia. rewrite Z.add_0_l. rewrite <- Z.pow_mul_r by lia. 
  change (Z.of_nat 80) with 80. lia.
Qed.
Lemma primes_length : length primes = 82%nat.
Proof. vm_compute. reflexivity. Qed.

(** ** Big-endian strings *)
Lemma be_bytes_length k v : length (be_bytes k v) = k.
Proof. unfold be_bytes. now rewrite map_length, seq_length. Qed.
Lemma be_bytes_snoc k v : be_bytes (S k) v = be_bytes k (v / 256) ++ [v mod 256].
Proof.
  unfold be_bytes. rewrite seq_S, map_app. cbn [map]. f_equal.
  - apply map_ext_in. intros i Hi. apply in_seq in Hi.
    replace (Z.of_nat (S k - 1 - i)) with (1 + Z.of_nat (k - 1 - i)) by lia.
    rewrite Z.pow_add_r, Z.pow_1_r by lia. rewrite Z.div_div; [reflexivity|lia|].
    apply Z.pow_pos_nonneg; lia.
  - f_equal. replace (S k - 1 - (0 + k))%nat with O by lia. change (256 ^ Z.of_nat 0) with 1.
    now rewrite Z.div_1_r.
Qed.
Lemma be_bytes_all k v : all_bytes (be_bytes k v).
Proof.
  apply Forall_forall. intros x Hx. apply in_map_iff in Hx. destruct Hx as (i & <- & _).
  apply Z.mod_pos_bound. lia.
Qed.
Lemma be_num_app a b : be_num (a ++ b) = be_num a * 256 ^ Z.of_nat (length b) + be_num b.
Proof.
  induction a as [|x a IH]; cbn [app be_num]; [lia|].
  rewrite IH, app_length, Nat2Z.inj_add, Z.pow_add_r by lia. ring.
Qed.
Lemma be_num_bound b : all_bytes b -> 0 <= be_num b < 256 ^ Z.of_nat (length b).
Proof.
  induction 1 as [|x b Hx _ IH]; cbn [be_num length]; [cbn; lia|].
  unfold is_byte in Hx. rewrite Nat2Z.inj_succ, Z.pow_succ_r by lia.
  revert IH. generalize (256 ^ Z.of_nat (length b)), (be_num b). intros. nia.
Qed.
Lemma be_num_bytes k : forall v, be_num (be_bytes k v) = v mod 256 ^ Z.of_nat k.
Proof.
  induction k as [|k IH]; intros v.
  - change (256 ^ Z.of_nat 0) with 1. now rewrite Z.mod_1_r.
  - rewrite be_bytes_snoc, be_num_app, IH. cbn [be_num length].
    change (256 ^ Z.of_nat 1) with 256. change (256 ^ Z.of_nat 0) with 1.
    rewrite Nat2Z.inj_succ, Z.pow_succ_r by lia.
    rewrite (Z.rem_mul_r v 256 (256 ^ Z.of_nat k)); [ring|lia|apply Z.pow_pos_nonneg; lia].
Qed.
Lemma be_bytes_num b : all_bytes b -> be_bytes (length b) (be_num b) = b.
Proof.
  intros H. induction b as [|x b IH] using rev_ind; [reflexivity|].
  apply Forall_app in H. destruct H as [Hb Hx]. inversion Hx as [|? ? Hx' _]; subst. unfold is_byte in Hx'.
  rewrite app_length. cbn [length]. rewrite Nat.add_1_r, be_bytes_snoc, be_num_app. cbn [be_num length].
  change (256 ^ Z.of_nat 1) with 256. change (256 ^ Z.of_nat 0) with 1. rewrite Z.mul_1_r, Z.add_0_r.
  rewrite Z.div_add_l, (Z.div_small x) by lia. rewrite Z.add_0_r, (IH Hb).
  f_equal. f_equal. rewrite Z.add_comm, Z.mod_add by lia. apply Z.mod_small. lia.
Qed.
Lemma be_bytes_mod k v : be_bytes k (v mod 256 ^ Z.of_nat k) = be_bytes k v.
Proof.
  rewrite <- be_num_bytes. rewrite <- (be_bytes_length k v) at 1. apply be_bytes_num, be_bytes_all.
Qed.
(** A wider field starts with zeros. *)
Lemma be_bytes_wide j k v : be_bytes (j + k) v = be_bytes j (v / 256 ^ Z.of_nat k) ++ be_bytes k v.
Proof.
  revert v; induction k as [|k IH]; intros v.
  - rewrite Nat.add_0_r. change (256 ^ Z.of_nat 0) with 1. now rewrite Z.div_1_r, app_nil_r.
  - rewrite Nat.add_succ_r, !be_bytes_snoc, IH, app_assoc. f_equal. f_equal. f_equal.
    rewrite Nat2Z.inj_succ, Z.pow_succ_r by lia. apply Z.div_div; [lia|apply Z.pow_pos_nonneg; lia].
Qed.
Lemma be_bytes_0 k : be_bytes k 0 = repeat 0 k.
Proof. induction k as [|k IH]; [reflexivity|]. rewrite be_bytes_snoc. change (0 / 256) with 0.
  change (0 mod 256) with 0. now rewrite IH, <- repeat_cons. Qed.

Section Alg.
Variable B : sha_params.
Hypothesis Hwb : (0 < swb B)%nat.
Hypothesis Hw : sw B = 8 * Z.of_nat (swb B).
Notation bsz := (bsz B).

(** ** The schedule *)
Lemma sched_length M t : length (sched B M t) = t.
Proof. clear Hwb Hw. induction t as [|t IH]; cbn [sched length]; [reflexivity|]. now rewrite IH. Qed.
Lemma sched_nth M t : forall j, (j < t)%nat -> nth j (sched B M t) 0 = Wt B M (t - 1 - j).
Proof. clear Hwb Hw.
  induction t as [|t IH]; intros j Hj; [lia|].
  destruct j as [|j].
  - unfold Wt. replace (S t - 1 - 0)%nat with t by lia. now destruct (sched B M (S t)).
  - cbn [sched nth]. rewrite IH by lia. f_equal. lia.
Qed.
Lemma Wt_lt M t : (t < 16)%nat -> Wt B M t = nth t M 0.
Proof. clear Hwb Hw. intros H. unfold Wt. cbn [sched hd]. apply Nat.ltb_lt in H. now rewrite H. Qed.
Lemma Wt_rec M t : Wt B M (t + 16) =
  add B (add B (add B (sig B (ss1 B) (Wt B M (t + 14))) (Wt B M (t + 9))) (sig B (ss0 B) (Wt B M (t + 1)))) (Wt B M t).
Proof. clear Hwb Hw.
  unfold Wt at 1. cbn [sched hd]. replace (t + 16 <? 16)%nat with false by (symmetry; apply Nat.ltb_ge; lia).
  rewrite !sched_nth by lia. repeat (f_equal; try lia).
Qed.

(** ** Words and blocks *)
Lemma pow_w : 2 ^ sw B = 256 ^ Z.of_nat (swb B).
Proof. rewrite Hw. change 256 with (2 ^ 8). rewrite <- Z.pow_mul_r by lia. reflexivity. Qed.
Definition word (x : Z) : Prop := 0 <= x < 2 ^ sw B.
Definition hash_value (H : list Z) : Prop := length H = 8%nat /\ Forall word H.
Lemma add_word x y : word (add B x y).
Proof. apply Z.mod_pos_bound. rewrite pow_w. apply Z.pow_pos_nonneg; lia. Qed.
Lemma round1_length M t s : length (round1 B M t s) = length s.
Proof. clear Hwb Hw. unfold round1. destruct s as [|? [|? [|? [|? [|? [|? [|? [|? [|? ?]]]]]]]]]; reflexivity. Qed.
Lemma rounds_length M k : forall t s, length (rounds B M k t s) = length s.
Proof. clear Hwb Hw. induction k as [|k IH]; intros t s; cbn [rounds]; [reflexivity|]. now rewrite IH, round1_length. Qed.
Lemma rounds_app M a : forall b t s, rounds B M (a + b) t s = rounds B M b (t + a) (rounds B M a t s).
Proof. clear Hwb Hw.
  induction a as [|a IH]; intros b t s; cbn [Nat.add rounds]; [now rewrite Nat.add_0_r|].
  rewrite IH. f_equal. lia.
Qed.
Lemma compress_value H M : length H = 8%nat -> hash_value (compress B H M).
Proof.
  intros HH. unfold compress. split.
  - rewrite map_length, combine_length, rounds_length, HH. reflexivity.
  - apply Forall_forall. intros x Hx. apply in_map_iff in Hx. destruct Hx as (p & <- & _). apply add_word.
Qed.
Lemma chain_value k : forall H b, hash_value H -> hash_value (chain_blocks B k H b).
Proof. induction k as [|k IH]; intros H b HH; cbn [chain_blocks]; [exact HH|]. apply IH, compress_value, HH. Qed.
Lemma bsz_pos : (0 < bsz)%nat.
Proof. clear - Hwb. unfold Sha2Spec.bsz. lia. Qed.
Lemma chain_app j : forall k H a b, length a = (j * bsz)%nat ->
  chain_blocks B (j + k) H (a ++ b) = chain_blocks B k (chain_blocks B j H a) b.
Proof. clear Hwb Hw.
  induction j as [|j IH]; intros k H a b Ha.
  - destruct a; [|cbn in Ha; lia]. reflexivity.
  - cbn [Nat.add chain_blocks]. rewrite firstn_app, skipn_app.
    replace (bsz - length a)%nat with O by lia. cbn [firstn skipn]. rewrite app_nil_r.
    apply IH. rewrite skipn_length. lia.
Qed.
Lemma chain_prefix k : forall H a b, length a = (k * bsz)%nat ->
  chain_blocks B k H (a ++ b) = chain_blocks B k H a.
Proof. clear Hwb Hw.
  intros H a b Ha. pose proof (chain_app k 0 H a b Ha) as E. rewrite Nat.add_0_r in E. exact E.
Qed.
Lemma words_length k : forall b, length (words B k b) = k.
Proof. clear Hwb Hw. induction k as [|k IH]; intros b; cbn [words length]; [reflexivity|]. now rewrite IH. Qed.
Lemma unwords_length H : length (unwords B H) = (length H * swb B)%nat.
Proof. clear Hwb Hw.
  unfold unwords. induction H as [|x H IH]; cbn [flat_map length]; [reflexivity|].
  rewrite app_length, be_bytes_length, IH. lia.
Qed.
Lemma unwords_all H : all_bytes (unwords B H).
Proof. clear Hwb Hw.
  unfold unwords. induction H as [|x H IH]; cbn [flat_map]; [constructor|].
  apply Forall_app. split; [apply be_bytes_all|exact IH].
Qed.
Lemma words_unwords H r : Forall word H -> words B (length H) (unwords B H ++ r) = H.
Proof.
  unfold unwords. induction 1 as [|x H Hx _ IH]; cbn [flat_map length words]; [reflexivity|].
  rewrite <- app_assoc, firstn_app, skipn_app, be_bytes_length, Nat.sub_diag.
  rewrite firstn_all2, skipn_all2 by (rewrite be_bytes_length; lia). cbn [firstn skipn app].
  rewrite app_nil_r, IH, be_num_bytes. f_equal. apply Z.mod_small. rewrite <- pow_w. exact Hx.
Qed.
Lemma words_firstn k : forall n b, (k * swb B <= n)%nat -> words B k (firstn n b) = words B k b.
Proof. clear Hwb Hw.
  induction k as [|k IH]; intros n b Hn; cbn [words]; [reflexivity|].
  rewrite firstn_firstn, Nat.min_l by lia. f_equal.
  rewrite skipn_firstn_comm. apply IH. lia.
Qed.

(** ** The padding after [len] bytes when the length field says [c] bytes *)
Definition pad_to (len : nat) (c : Z) : list Z :=
  [0x80] ++ repeat 0 (Z.to_nat ((Z.of_nat (14 * swb B) - 1 - Z.of_nat len) mod Z.of_nat bsz))
  ++ be_bytes (2 * swb B) (8 * c).
Lemma sha_pad_pad len : sha_pad B len = pad_to len (Z.of_nat len).
Proof. reflexivity. Qed.
Lemma pad_to_blocks len c j : pad_to (j * bsz + len) c = pad_to len c.
Proof.
  unfold pad_to. do 3 f_equal. f_equal.
  rewrite Nat2Z.inj_add, (Nat2Z.inj_mul j).
  replace (Z.of_nat (14 * swb B) - 1 - (Z.of_nat j * Z.of_nat bsz + Z.of_nat len))
    with (Z.of_nat (14 * swb B) - 1 - Z.of_nat len + (- Z.of_nat j) * Z.of_nat bsz) by ring.
  apply Z.mod_add. pose proof bsz_pos. lia.
Qed.
Lemma pad_zeros len : exists q, Z.of_nat (14 * swb B) - 1 - Z.of_nat len
  = q * Z.of_nat bsz + Z.of_nat (Z.to_nat ((Z.of_nat (14 * swb B) - 1 - Z.of_nat len) mod Z.of_nat bsz)).
Proof.
  pose proof bsz_pos as Hb.
  exists ((Z.of_nat (14 * swb B) - 1 - Z.of_nat len) / Z.of_nat bsz).
  pose proof (Z.div_mod (Z.of_nat (14 * swb B) - 1 - Z.of_nat len) (Z.of_nat bsz) ltac:(lia)) as E.
  pose proof (Z.mod_pos_bound (Z.of_nat (14 * swb B) - 1 - Z.of_nat len) (Z.of_nat bsz) ltac:(lia)) as M.
  rewrite Z2Nat.id by lia. rewrite (Z.mul_comm _ (Z.of_nat bsz)). exact E.
Qed.
Lemma pad_length len c : exists k, (len + length (pad_to len c) = k * bsz)%nat.
Proof.
  destruct (pad_zeros len) as (q & E). unfold pad_to.
  rewrite !app_length, repeat_length, be_bytes_length.
  set (z := Z.to_nat _) in *. clearbody z. cbn [length].
  assert (E' : Z.of_nat len + 1 + Z.of_nat z + Z.of_nat (2 * swb B) = (1 - q) * Z.of_nat bsz).
  { unfold Sha2Spec.bsz in *. lia. }
  exists (Z.to_nat (1 - q)). pose proof bsz_pos.
  assert (0 <= 1 - q) by nia. apply Nat2Z.inj. rewrite Nat2Z.inj_mul, Z2Nat.id by lia. lia.
Qed.

(** ** The hash from a chaining value after whole blocks *)
Definition hash_from (H : list Z) (c : Z) (m : list Z) : list Z :=
  let p := m ++ pad_to (length m) c in unwords B (chain_blocks B (length p / bsz) H p).
Lemma sha2_from p m j : length p = (j * bsz)%nat ->
  sha2 B (p ++ m) = hash_from (chain_blocks B j (H0 B) p) (Z.of_nat (length (p ++ m))) m.
Proof.
  intros Hp. unfold sha2, hash_from. rewrite sha_pad_pad.
  set (c := Z.of_nat _). clearbody c.
  assert (Q : pad_to (length (p ++ m)) c = pad_to (length m) c).
  { rewrite app_length, Hp. apply pad_to_blocks. }
  rewrite Q. rewrite <- app_assoc. f_equal.
  destruct (pad_length (length m) c) as (k & Hk). pose proof bsz_pos.
  rewrite !app_length, Hp, Hk. rewrite Nat.div_add_l by lia.
  rewrite Nat.div_mul by lia. apply chain_app, Hp.
Qed.
Lemma sha2_from_0 m : sha2 B m = hash_from (H0 B) (Z.of_nat (length m)) m.
Proof. exact (sha2_from [] m 0 eq_refl). Qed.
Lemma hash_from_length H c m : length H = 8%nat -> length (hash_from H c m) = outlen B.
Proof.
  intros HH. unfold hash_from. rewrite unwords_length. unfold outlen. f_equal.
  generalize (length (m ++ pad_to (length m) c) / bsz)%nat as k. generalize (m ++ pad_to (length m) c).
  intros b k. revert H b HH. induction k as [|k IH]; intros H b HH; cbn [chain_blocks]; [exact HH|].
  apply IH, compress_value, HH.
Qed.
Lemma hash_from_all H c m : all_bytes (hash_from H c m).
Proof. apply unwords_all. Qed.
End Alg.
