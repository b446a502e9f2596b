(** Facts about the mathematical scheme, ending with its completeness:
    recomputing the root from an honest signature gives the hypertree root. *)
From Verif Require Import Base BaseFacts Spec.

(** ** Digits *)
Lemma digits_length w l v : length (digits w l v) = l.
Proof. unfold digits. now rewrite map_length, seq_length. Qed.

Lemma digits_range w l v : 0 < w -> Forall (fun d => 0 <= d < w) (digits w l v).
Proof.
  intros Hw. unfold digits. apply Forall_forall. intros d Hd. apply in_map_iff in Hd.
  destruct Hd as (j & <- & _). now apply Z.mod_pos_bound.
Qed.

Lemma digits_0 w v : digits w 0 v = [].
Proof. reflexivity. Qed.

Lemma digits_S w l v : digits w (S l) v = (v / w ^ Z.of_nat l) mod w :: digits w l v.
Proof.
  unfold digits. cbn [seq map]. f_equal.
  - replace (S l - 1 - 0)%nat with l by lia. reflexivity.
  - rewrite <- seq_shift, map_map. apply map_ext_in. intros j Hj. apply in_seq in Hj.
    replace (S l - 1 - S j)%nat with (l - 1 - j)%nat by lia. reflexivity.
Qed.

(** Digits only see the value modulo w^l. *)
Lemma digits_mod w l v q : 0 < w -> digits w l (q * w ^ Z.of_nat l + v) = digits w l v.
Proof.
  intros Hw. unfold digits. apply map_ext_in. intros j Hj. apply in_seq in Hj.
  replace (Z.of_nat l) with ((Z.of_nat l - 1 - Z.of_nat (l - 1 - j)) + 1 + Z.of_nat (l - 1 - j)) by lia.
  rewrite !Z.pow_add_r by lia. rewrite Z.pow_1_r, !Z.mul_assoc.
  rewrite Z.div_add_l by (apply Z.pow_nonzero; lia).
  rewrite Z.add_comm, Z.mod_add by lia. reflexivity.
Qed.

Lemma digits_app w a l hi lo :
  0 < w -> 0 <= lo < w ^ Z.of_nat l ->
  digits w (a + l) (hi * w ^ Z.of_nat l + lo) = digits w a hi ++ digits w l lo.
Proof.
  intros Hw Hlo. induction a as [|a IH]; cbn [Nat.add].
  - rewrite digits_0. cbn [app]. now apply digits_mod.
  - rewrite !digits_S. cbn [app]. rewrite IH. f_equal.
    rewrite Nat2Z.inj_add, Z.pow_add_r by lia.
    rewrite (Z.mul_comm (w ^ Z.of_nat a)), <- Z.div_div.
    + rewrite Z.div_add_l by (apply Z.pow_nonzero; lia).
      rewrite (Z.div_small lo) by lia. now rewrite Z.add_0_r.
    + apply Z.pow_nonzero; lia.
    + apply Z.pow_pos_nonneg; lia.
Qed.

Lemma digits_inj w l u v :
  0 < w -> 0 <= u < w ^ Z.of_nat l -> 0 <= v < w ^ Z.of_nat l ->
  digits w l u = digits w l v -> u = v.
Proof.
  intros Hw. revert u v. induction l as [|l IH]; intros u v Hu Hv E.
  - cbn in Hu, Hv. lia.
  - rewrite !digits_S in E. injection E as E1 E2.
    assert (Hp : 0 < w ^ Z.of_nat l) by (apply Z.pow_pos_nonneg; lia).
    assert (HS : w ^ Z.of_nat (S l) = w * w ^ Z.of_nat l).
    { rewrite Nat2Z.inj_succ, Z.pow_succ_r by lia. reflexivity. }
    rewrite HS in *.
    assert (Hq : forall x, 0 <= x < w * w ^ Z.of_nat l -> 0 <= x / w ^ Z.of_nat l < w).
    { intros x Hx. split; [apply Z.div_pos; lia|]. apply Z.div_lt_upper_bound; lia. }
    rewrite !Z.mod_small in E1 by auto.
    rewrite (Z.div_mod u (w ^ Z.of_nat l)), (Z.div_mod v (w ^ Z.of_nat l)) in * by lia.
    rewrite !(Z.mul_comm (w ^ Z.of_nat l)) in *.
    rewrite !digits_mod in E2 by lia.
    apply IH in E2; try (apply Z.mod_pos_bound; lia).
    rewrite !Z.div_add_l, !(Z.div_small (_ mod _)) in E1 by (try apply Z.mod_pos_bound; lia).
    lia.
Qed.

Lemma sumZ_app a b : sumZ (a ++ b) = sumZ a + sumZ b.
Proof. induction a as [|x a IH]; cbn; lia. Qed.

(** ** Big-endian values *)
Lemma be_val_bound b : all_bytes b -> 0 <= be_val b < 256 ^ Z.of_nat (length b).
Proof.
  induction 1 as [|x b Hx Hb IH]; cbn [be_val length]; [cbn; lia|].
  rewrite Nat2Z.inj_succ, Z.pow_succ_r by lia. unfold is_byte in Hx. nia.
Qed.

Lemma be_val_app a b : be_val (a ++ b) = be_val a * 256 ^ Z.of_nat (length b) + be_val b.
Proof.
  induction a as [|x a IH]; cbn [be_val app]; [lia|].
  rewrite IH, app_length, Nat2Z.inj_add, Z.pow_add_r by lia. ring.
Qed.

Lemma be_val_inj a b : all_bytes a -> all_bytes b -> length a = length b ->
  be_val a = be_val b -> a = b.
Proof.
  intros Ha. revert b. induction Ha as [|x a Hx Ha IH]; intros b Hb Hl E.
  - now destruct b.
  - destruct b as [|y b]; [discriminate|]. inversion Hb as [|? ? Hy Hb']; subst.
    cbn [length] in Hl. injection Hl as Hl. cbn [be_val] in E. rewrite Hl in E.
    pose proof (be_val_bound a Ha). pose proof (be_val_bound b Hb'). rewrite Hl in *.
    unfold is_byte in *.
    assert (x = y) as -> by nia. f_equal. apply IH; auto. lia.
Qed.

(** ** Trees *)
Section Tree.
Variable leaf : Z -> list Z.
Variable hash2 : nat -> Z -> list Z -> list Z.

Lemma climb_app h i x p q :
  climb hash2 h i x (p ++ q)
  = climb hash2 (h + length p) (i / 2 ^ Z.of_nat (length p)) (climb hash2 h i x p) q.
Proof.
  revert h i x. induction p as [|s p IH]; intros h i x; cbn [climb app length].
  - rewrite Nat.add_0_r. cbn. now rewrite Z.div_1_r.
  - rewrite IH. replace (S h + length p)%nat with (h + S (length p))%nat by lia.
    rewrite Z.div_div by lia.
    replace (2 ^ Z.of_nat (S (length p))) with (2 * 2 ^ Z.of_nat (length p)); [reflexivity|].
    rewrite Nat2Z.inj_succ, Z.pow_succ_r by lia. reflexivity.
Qed.

Lemma auth_path_length k i : length (auth_path leaf hash2 k i) = k.
Proof. unfold auth_path. now rewrite map_length, seq_length. Qed.

Lemma climb_auth k i : 0 <= i ->
  climb hash2 0 i (leaf i) (auth_path leaf hash2 k i)
  = node leaf hash2 k (i / 2 ^ Z.of_nat k).
Proof.
  intros Hi. induction k as [|k IH].
  - cbn. now rewrite Z.div_1_r.
  - unfold auth_path in *. rewrite seq_S, map_app, climb_app, IH. cbn [map climb].
    rewrite map_length, seq_length. cbn [Nat.add].
    set (j := i / 2 ^ Z.of_nat k).
    replace (i / 2 ^ Z.of_nat (S k)) with (j / 2).
    2:{ unfold j. rewrite Z.div_div by (try apply Z.pow_nonzero; lia).
        rewrite Nat2Z.inj_succ, Z.pow_succ_r, Z.mul_comm by lia. reflexivity. }
    cbn [node]. unfold sibling. fold j.
    destruct (Z.even j) eqn:E.
    + apply Z.even_spec in E. destruct E as [q Hq].
      assert (j / 2 = q) as -> by (rewrite Hq, Z.mul_comm; apply Z.div_mul; lia).
      now rewrite <- Hq.
    + assert (O : Z.odd j = true) by (rewrite <- Z.negb_even, E; reflexivity).
      apply Z.odd_spec in O. destruct O as [q Hq].
      assert (j / 2 = q) as ->.
      { rewrite Hq, Z.mul_comm, Z.div_add_l by lia. rewrite Z.div_small by lia. lia. }
      rewrite <- Hq. now replace (2 * q) with (j - 1) by lia.
Qed.

Lemma climb_root k i : 0 <= i < 2 ^ Z.of_nat k ->
  climb hash2 0 i (leaf i) (auth_path leaf hash2 k i) = node leaf hash2 k 0.
Proof. intros H. rewrite climb_auth by lia. now rewrite Z.div_small. Qed.
End Tree.

Section Complete.
Variable D : dims.
Variable T : adrs -> list Z -> list Z.
Variable PRF : adrs -> list Z.
Hypothesis Hw : 2 <= s_w D.

Lemma chain_add layer tree kp i x s a b :
  chain T layer tree kp i (chain T layer tree kp i x s a) (s + Z.of_nat a) b
  = chain T layer tree kp i x s (a + b).
Proof. clear.
  induction b as [|b IH]; cbn [chain].
  - now rewrite Nat.add_0_r.
  - rewrite Nat.add_succ_r. cbn [chain]. rewrite IH. do 2 f_equal. lia.
Qed.

Lemma chain_front layer tree kp i x s k :
  chain T layer tree kp i x s (S k)
  = chain T layer tree kp i (T (wots_adrs layer tree kp i s) x) (s + 1) k.
Proof. clear.
  generalize (chain_add layer tree kp i x s 1 k). cbn [Nat.add chain Z.of_nat].
  rewrite Z.add_0_r. intros <-. reflexivity.
Qed.

Lemma wots_lengths_length m : length (wots_lengths D m) = s_len D.
Proof. clear. unfold wots_lengths, wots_msg_digits, s_len. now rewrite app_length, !digits_length. Qed.

Lemma wots_lengths_range m : Forall (fun l => 0 <= l < s_w D) (wots_lengths D m).
Proof. clear T PRF. unfold wots_lengths. apply Forall_app. split; apply digits_range; lia. Qed.

Lemma wots_lengths_nth m i : 0 <= nth i (wots_lengths D m) 0 < s_w D.
Proof. clear T PRF.
  destruct (Nat.lt_ge_cases i (length (wots_lengths D m))) as [H|H].
  - apply (proj1 (Forall_forall _ _) (wots_lengths_range m)). now apply nth_In.
  - rewrite nth_overflow by lia. lia.
Qed.

Lemma wots_sign_length layer tree kp m : length (wots_sign D T PRF layer tree kp m) = s_len D.
Proof. clear. unfold wots_sign. now rewrite map_length, seq_length. Qed.

Lemma wots_complete layer tree kp m :
  wots_pk_of_sig D T layer tree kp m (wots_sign D T PRF layer tree kp m)
  = wots_pk D T PRF layer tree kp.
Proof.
  unfold wots_pk_of_sig, wots_pk. f_equal. apply map_ext_in. intros i Hi. apply in_seq in Hi.
  pose proof (wots_lengths_nth m i) as Hl. set (l := nth i (wots_lengths D m) 0) in *.
  assert (E : nth i (wots_sign D T PRF layer tree kp m) []
              = chain T layer tree kp (Z.of_nat i) (wots_sk PRF layer tree kp i) 0 (Z.to_nat l)).
  { apply nth_error_nth. unfold wots_sign. rewrite nth_error_map_seq by lia. reflexivity. }
  rewrite E. replace l with (0 + Z.of_nat (Z.to_nat l)) at 2 by lia.
  rewrite chain_add. f_equal. lia.
Qed.

Lemma xmss_sign_length layer tree idx m :
  length (xmss_sign D T PRF layer tree idx m) = (s_len D + s_hp D)%nat.
Proof. clear. unfold xmss_sign. now rewrite app_length, wots_sign_length, auth_path_length. Qed.

Lemma firstn_app_len {A} (a b : list A) k : length a = k -> firstn k (a ++ b) = a.
Proof. clear. intros <-. rewrite firstn_app, firstn_all, Nat.sub_diag. cbn. apply app_nil_r. Qed.
Lemma skipn_app_len {A} (a b : list A) k : length a = k -> skipn k (a ++ b) = b.
Proof. clear. intros <-. rewrite skipn_app, skipn_all, Nat.sub_diag. reflexivity. Qed.

Lemma xmss_complete layer tree idx m :
  0 <= idx < 2 ^ Z.of_nat (s_hp D) ->
  xmss_root_of_sig D T layer tree idx m (xmss_sign D T PRF layer tree idx m)
  = xmss_root D T PRF layer tree.
Proof.
  intros Hi. unfold xmss_root_of_sig, xmss_sign.
  rewrite firstn_app_len, skipn_app_len by apply wots_sign_length.
  rewrite wots_complete. now apply climb_root.
Qed.

(** The hypertree: k layers from [layer] on, when the tree index fits in k-1 more layers. *)
Lemma ht_complete k layer tree idx m :
  (1 <= k)%nat ->
  0 <= idx < 2 ^ Z.of_nat (s_hp D) ->
  0 <= tree < 2 ^ Z.of_nat (s_hp D * (k - 1)) ->
  ht_root_of_sig D T k layer tree idx m (ht_sign D T PRF k layer tree idx m)
  = xmss_root D T PRF (layer + Z.of_nat k - 1) 0.
Proof.
  revert layer tree idx m. induction k as [|k IH]; intros layer tree idx m Hk Hi Ht; [lia|].
  cbn [ht_root_of_sig ht_sign].
  rewrite firstn_app_len, skipn_app_len by apply xmss_sign_length.
  rewrite xmss_complete by auto.
  assert (Hp : 0 < 2 ^ Z.of_nat (s_hp D)) by (apply Z.pow_pos_nonneg; lia).
  destruct k as [|k].
  - cbn [ht_root_of_sig]. rewrite Nat.sub_diag, Nat.mul_0_r in Ht. cbn in Ht.
    replace (layer + Z.of_nat 1 - 1) with layer by lia.
    assert (tree = 0) as -> by lia. reflexivity.
  - rewrite IH; [f_equal; lia|lia| |].
    + now apply Z.mod_pos_bound.
    + split; [apply Z.div_pos; lia|]. apply Z.div_lt_upper_bound; [lia|].
      rewrite <- Z.pow_add_r by lia.
      replace (Z.of_nat (s_hp D) + Z.of_nat (s_hp D * (S k - 1)))
        with (Z.of_nat (s_hp D * (S (S k) - 1))) by lia. lia.
Qed.

Lemma fors_index_range md t : 0 <= fors_index D md t < 2 ^ Z.of_nat (s_a D).
Proof. clear. unfold fors_index. apply Z.mod_pos_bound. apply Z.pow_pos_nonneg; lia. Qed.

Lemma fors_sign_tree_length tree kp md t :
  length (fors_sign_tree D T PRF tree kp md t) = (s_a D + 1)%nat.
Proof. clear. unfold fors_sign_tree. cbn [length]. rewrite auth_path_length. lia. Qed.

Lemma concat_map_length {A B} (f : A -> list B) n l :
  (forall a, In a l -> length (f a) = n) -> length (concat (map f l)) = (length l * n)%nat.
Proof. clear.
  intros H. induction l as [|a l IH]; cbn [map concat length]; [reflexivity|].
  rewrite app_length, H by (now left). rewrite IH; [lia|]. intros b Hb. apply H. now right.
Qed.

(** Block [t] of a concatenation of equal-sized blocks. *)
Lemma block_nth {A} (f : nat -> list A) n k t :
  (forall a, length (f a) = n) -> (t < k)%nat ->
  firstn n (skipn (t * n) (concat (map f (seq 0 k)))) = f t.
Proof. clear.
  intros H Ht.
  replace k with (t + S (k - t - 1))%nat by lia. rewrite seq_app, map_app, concat_app.
  rewrite skipn_app_len.
  2:{ rewrite (concat_map_length f n) by auto. now rewrite seq_length. }
  cbn [seq map concat Nat.add]. now rewrite firstn_app_len.
Qed.

Lemma fors_complete tree kp md :
  fors_pk_of_sig D T tree kp md (fors_sign D T PRF tree kp md) = fors_pk D T PRF tree kp.
Proof. clear.
  unfold fors_pk_of_sig, fors_pk. f_equal. apply map_ext_in. intros t Ht. apply in_seq in Ht.
  unfold fors_sign. rewrite block_nth by (try lia; apply fors_sign_tree_length).
  unfold fors_root_of_sig, fors_sign_tree. cbn [hd tl].
  apply (climb_root (fors_leaf D T PRF tree kp (Z.of_nat t))). apply fors_index_range.
Qed.

Lemma fors_sign_length tree kp md :
  length (fors_sign D T PRF tree kp md) = (s_k D * (s_a D + 1))%nat.
Proof. clear.
  unfold fors_sign. rewrite (concat_map_length _ (s_a D + 1)).
  - now rewrite seq_length.
  - intros; apply fors_sign_tree_length.
Qed.

Theorem spx_complete md tree leaf :
  (1 <= s_d D)%nat ->
  0 <= leaf < 2 ^ Z.of_nat (s_hp D) ->
  0 <= tree < 2 ^ Z.of_nat (s_hp D * (s_d D - 1)) ->
  spx_root_of_sig D T md tree leaf (spx_sign_body D T PRF md tree leaf) = ht_root D T PRF.
Proof.
  intros Hd Hl Ht. unfold spx_root_of_sig, spx_sign_body.
  rewrite firstn_app_len, skipn_app_len by apply fors_sign_length.
  rewrite fors_complete, ht_complete by auto. unfold ht_root. f_equal.
Qed.

Lemma ht_sign_length k layer tree idx m :
  length (ht_sign D T PRF k layer tree idx m) = (k * (s_len D + s_hp D))%nat.
Proof. clear.
  revert layer tree idx m. induction k as [|k IH]; intros; cbn [ht_sign]; [reflexivity|].
  rewrite app_length, xmss_sign_length, IH. lia.
Qed.

Lemma spx_sign_body_length md tree leaf :
  length (spx_sign_body D T PRF md tree leaf)
  = (s_k D * (s_a D + 1) + s_d D * (s_len D + s_hp D))%nat.
Proof. clear. unfold spx_sign_body. now rewrite app_length, fors_sign_length, ht_sign_length. Qed.
End Complete.
