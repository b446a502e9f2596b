(** The C-typed split of the message digest is the model's *)
From Verif Require Import Base BaseFacts Params Address Suite Utils HashShake CInt CCore CIntFacts CCoreProofs.
Local Open Scope Z_scope.
Notation z := Z.of_nat.

Lemma lor_small j a b : 0 <= j -> 0 <= a < 2 ^ j -> 0 <= b < 2 ^ j -> 0 <= Z.lor a b < 2 ^ j.
Proof.
  intros Hj Ha Hb. assert (E : Z.lor a b = Z.lor a b mod 2 ^ j).
  { rewrite <- Z.land_ones by lia. apply Z.bits_inj. intros i. rewrite Z.land_spec, Z.lor_spec.
    destruct (Z.neg_nonneg_cases i) as [Hi|Hi]; [now rewrite !Z.testbit_neg_r by exact Hi|].
    destruct (Z.lt_ge_cases i j) as [H|H]; [rewrite Z.ones_spec_low by lia; now rewrite andb_true_r|].
    rewrite Z.ones_spec_high by lia. rewrite andb_false_r.
    assert (T : forall x, 0 <= x < 2 ^ j -> Z.testbit x i = false).
    { intros x Hx. rewrite <- (Z.mod_small x (2 ^ j)) by exact Hx. apply Z.mod_pow2_bits_high. lia. }
    now rewrite !T by assumption. }
  rewrite E. apply Z.mod_pos_bound. apply Z.pow_pos_nonneg; lia.
Qed.
Lemma u64_range x : 0 <= u64 x < 2 ^ 64. Proof. apply Z.mod_pos_bound. reflexivity. Qed.
Lemma rd_bytes b o n d : all_bytes b -> rd b o n = Some d -> all_bytes d.
Proof.
  unfold rd. intros Hb. destruct (o + n <=? length b)%nat; [|discriminate]. intros [= <-].
  unfold all_bytes in *. rewrite Forall_forall in *. intros x Hx. apply Hb. rewrite <- (firstn_skipn o b). apply in_or_app. right.
  rewrite <- (firstn_skipn n (skipn o b)). apply in_or_app. now left.
Qed.
Definition ull_step (inp : bytes) (n i : nat) (r : Z) : option Z :=
  x <- get inp i ;; Some (Z.lor r (u64 (Z.shiftl x (8 * (z n - 1 - z i))))).
Lemma ull_iter inp n : forall k pre acc, inp = pre ++ skipn (length pre) inp -> (length pre + k = length inp)%nat ->
  iterM k (length pre) (ull_step inp n) acc = Some (bytes_to_ull_loop (skipn (length pre) inp) n (length pre) acc).
Proof.
  induction k as [|k IH]; intros pre acc Hp Hk; cbn [iterM].
  - rewrite skipn_all2 by lia. reflexivity.
  - unfold ull_step at 1. destruct (skipn (length pre) inp) as [|x t] eqn:E.
    + rewrite app_nil_r in Hp. subst. lia.
    + unfold get. rewrite Hp at 1. rewrite nth_error_app2, Nat.sub_diag by lia. cbn [nth_error bind bytes_to_ull_loop].
      assert (Et : skipn (S (length pre)) inp = t).
      { rewrite Hp at 1. rewrite skipn_app, skipn_all2, app_nil_l by lia. replace (S (length pre) - length pre)%nat with 1%nat by lia. reflexivity. }
      specialize (IH (pre ++ [x])). rewrite app_length in IH. cbn [length] in IH.
      replace (length pre + 1)%nat with (S (length pre)) in IH by lia. rewrite Et in IH. apply IH; [|lia].
      rewrite <- app_assoc. exact Hp.
Qed.
Lemma bytes_to_ull_c_ok inp : all_bytes inp -> (length inp <= 8)%nat ->
  bytes_to_ull_c inp (z (length inp)) = Some (bytes_to_ull inp) /\ 0 <= bytes_to_ull inp < 2 ^ 64.
Proof.
  intros Hb Hl. set (n := length inp).
  assert (E : bytes_to_ull_c inp (z n) = iterM n 0 (ull_step inp n) 0).
  { unfold bytes_to_ull_c. rewrite Nat2Z.id.
    apply (cfor_iter (fun _ r => 0 <= r < 2 ^ 64) U32); [reflexivity| | | |lia].
    - intros i Hi. clt. reflexivity.
    - lia.
    - intros i r Hi Hr. cix i; [|reflexivity]. unfold ull_step. destruct (get inp i) as [x|] eqn:Ex; [|split; [reflexivity|discriminate]]. cbn [bind].
      assert (Hx : is_byte x) by (unfold all_bytes in Hb; rewrite Forall_forall in Hb; apply Hb; exact (nth_error_In _ _ Ex)). unfold is_byte in Hx.
      pose proof (u64_range (Z.shiftl x (8 * (z n - 1 - z i)))) as UR.
      pose proof (lor_small 64 r _ ltac:(lia) Hr UR) as LR.
      split; [|intros s' [= <-]; exact LR].
      apply (asg_is U64 _ U64 (Z.lor r (u64 (Z.shiftl x (8 * (z n - 1 - z i)))))); [|reflexivity|rg].
      apply (ev_bin OOr _ _ U64 U64); [evc; reflexivity| |reflexivity|rg|rg|discriminate|intros _; cbn [opz promote common]; rg].
      apply (ev_shl_mod _ _ U64 U32); [|evc; reflexivity|discriminate|cbn [promote width]; lia].
      replace x with (x mod 256) at 2 by (apply Z.mod_small; lia).
      apply (ev_cast U64 _ U8); [apply ev_B|]. pose proof (Z.mod_pos_bound x 256 ltac:(lia)). rg. }
  pose proof (ull_iter inp n n [] 0 eq_refl eq_refl) as I. cbn [length skipn] in I. rewrite E, I. split; [reflexivity|].
  assert (R : forall b i acc, 0 <= acc < 2 ^ 64 -> 0 <= bytes_to_ull_loop b n i acc < 2 ^ 64).
  { induction b as [|x b IH]; intros i acc Ha; cbn [bytes_to_ull_loop]; [exact Ha|]. apply IH. apply lor_small; [lia|exact Ha|apply u64_range]. }
  apply R. lia.
Qed.

Lemma ones_shr j k : 0 <= k <= j -> Z.shiftr (2 ^ j - 1) (j - k) = 2 ^ k - 1.
Proof.
  intros H. rewrite Z.sub_1_r, <- Z.ones_equiv. rewrite Z.shiftr_div_pow2 by lia. rewrite Z.ones_div_pow2 by lia.
  replace (j - (j - k)) with k by lia. rewrite Z.ones_equiv. lia.
Qed.
Theorem split_digest_c_ok P buf : wf_params P = true -> z (SPX_BYTES P) < 2 ^ 31 -> all_bytes buf ->
  split_digest_c P buf = split_digest P buf.
Proof.
  intros Hwf Hbig Hb. pose proof (bnd_basic P Hwf) as Bd. unfold split_digest_c, split_digest.
  pose proof (e_FORS_MSG P Hwf Hbig) as HF. pose proof (e_TREE_BYTES P Hwf) as HT. pose proof (e_LEAF_BYTES P Hwf) as HL.
  pose proof (e_D P Hwf) as HD. pose proof (e_TREE_BITS P Hwf) as HTB. pose proof (e_TH P Hwf) as HTH.
  assert (BT : (SPX_TREE_BYTES P <= 8)%nat).
  { change 8%nat with ((64 + 7) / 8)%nat. unfold SPX_TREE_BYTES. apply Nat.div_le_mono; lia. }
  assert (BL : (SPX_LEAF_BYTES P <= 4)%nat).
  { change 4%nat with ((31 + 7) / 8)%nat. unfold SPX_LEAF_BYTES, SPX_LEAF_BITS. apply Nat.div_le_mono; lia. }
  cix (SPX_FORS_MSG_BYTES P); [|reflexivity]. destruct (rd buf 0 (SPX_FORS_MSG_BYTES P)) as [dg|]; [|reflexivity]. cbn [bind].
  cix (SPX_TREE_BYTES P); [|reflexivity]. ceq.
  assert (Ed : (z (p_d P) =? 1) = (p_d P =? 1)%nat) by lia. rewrite Ed.
  match goal with |- bind ?x _ = bind ?y _ => assert (E : x = y) end.
  { destruct (p_d P =? 1)%nat eqn:E1; [reflexivity|].
    casg (z (SPX_TREE_BYTES P)); [|reflexivity|rg].
    destruct (rd buf (SPX_FORS_MSG_BYTES P) (SPX_TREE_BYTES P)) as [b|] eqn:Er; [|reflexivity]. cbn [bind].
    pose proof (rd_length _ _ _ _ Er) as Lr. rewrite <- Lr.
    destruct (bytes_to_ull_c_ok b) as [-> UR]; [exact (rd_bytes _ _ _ _ Hb Er)|lia|]. cbn [bind].
    assert (TB : 1 <= z (SPX_TREE_BITS P) <= 64) by (unfold SPX_TREE_BITS in *; nia).
    replace ((0 <=? 64 - z (SPX_TREE_BITS P)) && (64 - z (SPX_TREE_BITS P) <? 64)) with true by lia. cbn [guard bind].
    set (tb := z (SPX_TREE_BITS P)) in *. set (u := bytes_to_ull b) in *. clearbody tb u.
    assert (P64 : 1 <= 2 ^ tb <= 2 ^ 64) by (split; [apply (Z.pow_le_mono_r 2 0); lia|apply Z.pow_le_mono_r; lia]).
    rewrite ones_shr by lia. pose proof (land_range u tb ltac:(lia)) as LR.
    apply (asg_is U64 _ U64 (Z.land u (2 ^ tb - 1))); [|reflexivity|rg].
    apply (ev_bin OAnd _ _ U64 U64 u (2 ^ tb - 1)); [evc; reflexivity| |reflexivity|rg|rg|discriminate|intros _; cbn [opz promote common]; rg].
    rewrite <- (ones_shr 64 tb) by lia.
    apply (ev_shr _ _ U64 I32); [split; [reflexivity|reflexivity]|evc; reflexivity|lia|cbn [promote width]; lia]. }
  rewrite E. clear E. destruct (if (p_d P =? 1)%nat then _ else _) as [tr|]; [|reflexivity]. cbn [bind].
  casg (z (SPX_LEAF_BYTES P)); [|reflexivity|rg]. cix (SPX_LEAF_BYTES P); [|reflexivity].
  destruct (rd buf (SPX_FORS_MSG_BYTES P + SPX_TREE_BYTES P) (SPX_LEAF_BYTES P)) as [b|] eqn:Er; [|reflexivity]. cbn [bind].
  pose proof (rd_length _ _ _ _ Er) as Lr. rewrite <- Lr.
  destruct (bytes_to_ull_c_ok b) as [-> UR]; [exact (rd_bytes _ _ _ _ Hb Er)|lia|]. cbn [bind].
  unfold SPX_LEAF_BITS. replace ((0 <=? 32 - z (SPX_TREE_HEIGHT P)) && (32 - z (SPX_TREE_HEIGHT P) <? 32)) with true by lia. cbn [guard bind].
  set (u := bytes_to_ull b) in *. clearbody u. pose proof (u32_range u) as U32R.
  rewrite (asg_is U32 _ U32 (u32 u) (u32 u)); [cbn [bind]| |reflexivity|rg].
  2:{ apply (ev_cast_mod U32 _ U64 u); [evc; reflexivity|discriminate]. }
  set (v := u32 u) in *. clearbody v. unfold xLEAF_BITS.
  set (tb := z (SPX_TREE_HEIGHT P)) in *. clearbody tb.
  assert (P64 : 1 <= 2 ^ tb <= 2 ^ 32) by (split; [apply (Z.pow_le_mono_r 2 0); lia|apply Z.pow_le_mono_r; lia]).
  rewrite ones_shr by lia. pose proof (land_range v tb ltac:(lia)) as LR.
  rewrite (asg_is U32 _ U32 (Z.land v (2 ^ tb - 1)) (Z.land v (2 ^ tb - 1))); [reflexivity| |reflexivity|rg].
  apply (ev_bin OAnd _ _ U32 U32 v (2 ^ tb - 1)); [evc; reflexivity| |reflexivity|rg|rg|discriminate|intros _; cbn [opz promote common]; rg].
  rewrite <- (ones_shr 32 tb) by lia.
  apply (ev_shr _ _ U32 I32); [split; [reflexivity|reflexivity]|evc; reflexivity|lia|cbn [promote width]; lia].
Qed.
