(** The C-typed core computes what the model computes: utilities, addresses, WOTS digits and FORS indices. *)
From Verif Require Import Base BaseFacts Params Address Suite Utils Wots Fors CInt CCore CIntFacts.
Local Open Scope Z_scope.
Notation z := Z.of_nat.

Lemma in_range_id t v : in_range t v = true -> conv t v = Some v. Proof. exact (conv_id t v). Qed.
Lemma land_range a k : 0 <= k -> 0 <= Z.land a (2 ^ k - 1) < 2 ^ k.
Proof.
  intros Hk. replace (2 ^ k - 1) with (Z.ones k) by (rewrite Z.ones_equiv; lia). rewrite Z.land_ones by exact Hk.
  apply Z.mod_pos_bound. apply Z.pow_pos_nonneg; lia.
Qed.
Lemma shiftr_range a k m : 0 <= k -> 0 <= a < m -> 0 <= Z.shiftr a k < m.
Proof.
  intros Hk H. rewrite Z.shiftr_div_pow2 by exact Hk. assert (1 <= 2 ^ k) by (apply (Z.pow_le_mono_r 2 0); lia).
  split; [apply Z.div_pos; lia|]. assert (a / 2 ^ k <= a); [|lia]. apply Z.div_le_upper_bound; [lia|]. nia.
Qed.
Lemma u32_range x : 0 <= u32 x < 2 ^ 32. Proof. apply Z.mod_pos_bound. reflexivity. Qed.
Lemma u32_small x : 0 <= x < 2 ^ 32 -> u32 x = x. Proof. apply Z.mod_small. Qed.
Lemma u8_range x : 0 <= u8 x < 256. Proof. apply Z.mod_pos_bound. reflexivity. Qed.

(** asg of an expression in an unsigned type *)
Lemma asg_u32 e t v : ev e t v -> asg U32 e = Some (u32 v).
Proof. intros H. exact (ev_asg_mod U32 e t v H ltac:(discriminate)). Qed.
Lemma asg_u8 e t v : ev e t v -> asg U8 e = Some (u8 v).
Proof. intros H. exact (ev_asg_mod U8 e t v H ltac:(discriminate)). Qed.

(** ** utils.c *)
Lemma ull_loop_ok k : forall v pre post fuel, 0 <= v < 2 ^ 64 -> z k < 2 ^ 31 -> length pre = k -> (k < fuel)%nat ->
  ull_loop_c fuel (z k - 1) v (pre ++ post) = Some (ull_to_bytes_loop k v post).
Proof.
  induction k as [|k IH]; intros v pre post fuel Hv Hk Hl Hf; (destruct fuel as [|fuel]; [lia|]).
  - destruct pre; [|discriminate Hl]. cbn [ull_loop_c app ull_to_bytes_loop].
    rewrite (cond_is _ I32 0 false); [reflexivity| |reflexivity]. evc. reflexivity.
  - replace (z (S k) - 1) with (z k) by lia. cbn [ull_loop_c].
    rewrite (cond_is _ I32 1 true); [|evc; replace (0 <=? z k) with true by lia; reflexivity|reflexivity]. cbn [bind].
    cix k; [|reflexivity].
    assert (R : 0 <= Z.land v 255 < 256) by (apply (land_range v 8); lia).
    rewrite (asg_is U8 _ U64 (Z.land v 255) (Z.land v 255)); [cbn [bind]| |reflexivity|rg].
    2:{ apply (ev_bin OAnd _ _ U64 I32 v 255); [apply ev_V; rg|apply ev_K; rg|reflexivity|rg|rg|discriminate|].
        intros _. cbn [opz promote common]. rg. }
    destruct (@exists_last Z pre) as (pre' & x & ->); [destruct pre; [discriminate Hl|discriminate]|].
    rewrite app_length in Hl. cbn [length] in Hl.
    assert (Hk' : length pre' = k) by lia.
    rewrite <- app_assoc. rewrite (wr_app' pre' [x] post [Z.land v 255] k) by (cbn [length]; lia). cbn [bind].
    pose proof (shiftr_range v 8 (2 ^ 64) ltac:(lia) Hv) as Rs.
    casg (Z.shiftr v 8); [|reflexivity|rg].
    rewrite (asg_is I32 _ I32 (z k - 1) (z k - 1)); [cbn [bind]|evc; reflexivity|reflexivity|rg].
    cbn [ull_to_bytes_loop]. change ([Z.land v 255] ++ post) with (Z.land v 255 :: post).
    apply (IH (Z.shiftr v 8) pre' (Z.land v 255 :: post) fuel); [exact Rs|lia|exact Hk'|lia].
Qed.
Theorem ull_to_bytes_c_ok out k v : length out = k -> z k < 2 ^ 31 -> 0 <= v < 2 ^ 64 ->
  ull_to_bytes_c out (z k) v = Some (ull_to_bytes k v).
Proof.
  intros Hl Hk Hv. unfold ull_to_bytes_c.
  rewrite (asg_is I32 _ I32 (z k - 1) (z k - 1)); [cbn [bind]|evc; reflexivity|reflexivity|rg].
  rewrite Nat2Z.id. rewrite <- (app_nil_r out) at 1. apply ull_loop_ok; [exact Hv|exact Hk|exact Hl|lia].
Qed.
Theorem u32_to_bytes_c_ok v : 0 <= v < 2 ^ 32 -> u32_to_bytes_c v = Some (u32_to_bytes v).
Proof.
  intros Hv. unfold u32_to_bytes_c, u32_to_bytes.
  assert (G : forall k, 0 <= k < 32 -> asg U8 (Cast U8 (V U32 v >> K k)%C) = Some (u8 (Z.shiftr v k))).
  { intros k Hk. pose proof (shiftr_range v k (2 ^ 32) ltac:(lia) Hv).
    rewrite (asg_is U8 _ U8 (u8 (Z.shiftr v k)) (u8 (Z.shiftr v k))); [reflexivity| |reflexivity|apply in_range_U8, u8_range].
    apply (ev_cast_mod U8 _ U32); [evc; reflexivity|discriminate]. }
  rewrite !G by lia. cbn [bind].
  rewrite (asg_is U8 _ U8 (u8 v) (u8 v)); [reflexivity| |reflexivity|apply in_range_U8, u8_range].
  apply (ev_cast_mod U8 _ U32); [evc; reflexivity|discriminate].
Qed.

(** ** address.c *)
Section Address.
Variable L : layout.
Lemma set_byte_ok addr off v : 0 <= v < 2 ^ 32 -> set_byte_c addr off v = wr addr off [u8 v].
Proof.
  intros Hv. unfold set_byte_c.
  rewrite (asg_is U8 _ U8 (u8 v) (u8 v)); [reflexivity| |reflexivity|apply in_range_U8, u8_range].
  apply (ev_cast_mod U8 _ U32); [evc; reflexivity|discriminate].
Qed.
(** an argument of type uint32_t *)
Definition arg32 (e : cexp) (v : Z) : Prop := asg U32 e = Some v /\ 0 <= v < 2 ^ 32.
Lemma arg32_ev e t v : ev e t v -> 0 <= v < 2 ^ 32 -> arg32 e v.
Proof. intros H R. split; [|exact R]. exact (asg_is U32 e t v v H eq_refl ltac:(rg)). Qed.
Lemma arg32_mod e t v : ev e t v -> arg32 e (u32 v).
Proof. intros H. split; [exact (asg_u32 e t v H)|apply u32_range]. Qed.
Lemma set_layer_addr_c_ok addr e v : arg32 e v -> set_layer_addr_c L addr e = set_layer_addr L addr v.
Proof. intros [H R]. unfold set_layer_addr_c. rewrite H. cbn [bind]. apply set_byte_ok, R. Qed.
Lemma set_type_c_ok addr e v : arg32 e v -> set_type_c L addr e = set_type L addr v.
Proof. intros [H R]. unfold set_type_c. rewrite H. cbn [bind]. apply set_byte_ok, R. Qed.
Lemma set_chain_addr_c_ok addr e v : arg32 e v -> set_chain_addr_c L addr e = set_chain_addr L addr v.
Proof. intros [H R]. unfold set_chain_addr_c. rewrite H. cbn [bind]. apply set_byte_ok, R. Qed.
Lemma set_hash_addr_c_ok addr e v : arg32 e v -> set_hash_addr_c L addr e = set_hash_addr L addr v.
Proof. intros [H R]. unfold set_hash_addr_c. rewrite H. cbn [bind]. apply set_byte_ok, R. Qed.
Lemma set_tree_height_c_ok addr e v : arg32 e v -> set_tree_height_c L addr e = set_tree_height L addr v.
Proof. intros [H R]. unfold set_tree_height_c. rewrite H. cbn [bind]. apply set_byte_ok, R. Qed.
Lemma set_keypair_addr_c_ok addr e v : arg32 e v -> set_keypair_addr_c L addr e = set_keypair_addr L addr v.
Proof. intros [H R]. unfold set_keypair_addr_c. rewrite H. cbn [bind]. rewrite u32_to_bytes_c_ok by exact R. reflexivity. Qed.
Lemma set_tree_index_c_ok addr e v : arg32 e v -> set_tree_index_c L addr e = set_tree_index L addr v.
Proof. intros [H R]. unfold set_tree_index_c. rewrite H. cbn [bind]. rewrite u32_to_bytes_c_ok by exact R. reflexivity. Qed.
Lemma ull_to_bytes_length k v : length (ull_to_bytes k v) = k.
Proof.
  unfold ull_to_bytes. assert (G : forall k v acc, length (ull_to_bytes_loop k v acc) = (k + length acc)%nat).
  { induction k0 as [|k0 IH]; intros v0 acc; cbn [ull_to_bytes_loop]; [reflexivity|]. rewrite IH. cbn [length]. lia. }
  rewrite G. cbn [length]. lia.
Qed.
Lemma set_tree_addr_c_ok addr v : 0 <= v < 2 ^ 64 -> set_tree_addr_c L addr (V U64 v) = set_tree_addr L addr v.
Proof.
  intros Hv. unfold set_tree_addr_c, set_tree_addr. casg v; [|reflexivity|rg]. casg 8; [|reflexivity|rg].
  destruct (rd addr (SPX_OFFSET_TREE L) 8) as [o|] eqn:E; cbn [bind].
  - pose proof (rd_length _ _ _ _ E) as Hl. change 8 with (z 8). rewrite (ull_to_bytes_c_ok o 8 v Hl) by (cbn; lia). reflexivity.
  - unfold rd in E. unfold wr. rewrite ull_to_bytes_length.
    destruct (SPX_OFFSET_TREE L + 8 <=? length addr)%nat; [discriminate E|reflexivity].
Qed.
Lemma off_tree_ok : ix (K (z (SPX_OFFSET_TREE L)) + K 8)%C = Some (SPX_OFFSET_TREE L + 8)%nat.
Proof. destruct L; reflexivity. Qed.
Lemma copy_subtree_addr_c_ok out inp : copy_subtree_addr_c L out inp = copy_subtree_addr L out inp.
Proof. unfold copy_subtree_addr_c. rewrite off_tree_ok. reflexivity. Qed.
Lemma copy_keypair_addr_c_ok out inp : copy_keypair_addr_c L out inp = copy_keypair_addr L out inp.
Proof. unfold copy_keypair_addr_c. rewrite off_tree_ok. reflexivity. Qed.
End Address.

(** ** WOTS digits *)
Section Digits.
Variable P : params.
Hypothesis Hwf : wf_params P = true.
Hypothesis Hbig : z (SPX_BYTES P) < 2 ^ 31.
Notation LOGW := (p_logw P).
Notation W := (SPX_WOTS_W P).

Lemma digit_range t b : 0 <= Z.land (Z.shiftr t b) (W - 1) < W.
Proof. unfold SPX_WOTS_W. apply land_range. lia. Qed.
Lemma digit_u8 t b : 0 <= b -> b + z LOGW <= 8 -> Z.land (Z.shiftr (u8 t) b) (W - 1) = Z.land (Z.shiftr t b) (W - 1).
Proof.
  intros Hb Hl. unfold SPX_WOTS_W. replace (2 ^ z LOGW - 1) with (Z.ones (z LOGW)) by (rewrite Z.ones_equiv; lia).
  unfold u8. change 256 with (2 ^ 8). rewrite <- (Z.land_ones t 8) by lia.
  apply Z.bits_inj. intros i. destruct (Z.neg_nonneg_cases i) as [Hi|Hi]; [now rewrite !Z.testbit_neg_r by exact Hi|].
  rewrite !Z.land_spec, !Z.shiftr_spec, Z.land_spec by exact Hi.
  destruct (Z.lt_ge_cases i (z LOGW)) as [H|H].
  - rewrite (Z.ones_spec_low 8 (i + b)) by lia. now rewrite andb_true_r.
  - rewrite (Z.ones_spec_high (z LOGW) i) by lia. now rewrite !andb_false_r.
Qed.

(** the loop, bits being 0 or LOGW *)
Lemma base_w_loop_c_ok n inp : forall k fuel consumed i out total bits, (k < fuel)%nat ->
  (consumed + k = n)%nat -> z n < 2 ^ 20 -> z i <= z consumed -> z out <= z consumed -> 0 <= bits -> bits + z LOGW <= 8 ->
  (0 < bits -> (exists q, bits = q * z LOGW) /\ exists t, total = Some t) ->
  base_w_loop_c P fuel (z n) (z consumed) inp (z i) (z out) (option_map u8 total) bits = base_w_loop P k inp i total bits.
Proof.
  pose proof (bnd_basic P Hwf) as Bd. pose proof (e_LOGW P Hwf) as HL. pose proof (e_W P Hwf) as HW. pose proof (w_value P Hwf) as WV.
  induction k as [|k IH]; intros fuel consumed i out total bits Hf Hn Hs Hi Ho Hb0 Hb8 Hbits;
    (destruct fuel as [|fuel]; [lia|]); cbn [base_w_loop_c base_w_loop].
  - clt. replace (z consumed <? z n) with false by lia. reflexivity.
  - clt. replace (z consumed <? z n) with true by lia. ceq.
    destruct (Z.eqb_spec bits 0) as [E|E].
    + subst bits. cix i; [|reflexivity].
      destruct (get inp i) as [t|] eqn:Et; [|reflexivity]. cbn [bind].
      casg (u8 t); [|reflexivity|apply in_range_U8, u8_range].
      casg (z (S i)); [|cbn [opz]; lia|rg]. casg (0 + 8); [|reflexivity|rg]. cbn [bind].
      casg (0 + 8 - z LOGW); [|reflexivity|rg].
      replace (0 <=? 0 + 8 - z LOGW) with true by lia. cbn [guard bind].
      cix out; [|reflexivity].
      pose proof (digit_range (u8 t) (0 + 8 - z LOGW)) as DR. pose proof (u8_range t) as UR.
      assert (Wr : 0 <= W < 2 ^ 31) by (destruct WV as [-> | ->]; lia).
      rewrite (asg_is U32 _ I32 (Z.land (Z.shiftr (u8 t) (0 + 8 - z LOGW)) (W - 1)) (Z.land (Z.shiftr (u8 t) (0 + 8 - z LOGW)) (W - 1)));
        [cbn [bind]| |reflexivity|rg].
      2:{ pose proof (shiftr_range (u8 t) (0 + 8 - z LOGW) 256 ltac:(lia) UR).
          apply (ev_bin OAnd _ _ I32 I32); [evc; reflexivity|evc; reflexivity|reflexivity|rg|rg|discriminate|]. intros _. cbn [opz promote common]. rg. }
      casg (z (S out)); [|cbn [opz]; lia|rg]. casg (z (S consumed)); [|cbn [opz]; lia|rg].
      rewrite digit_u8 by lia.
      change (Some (u8 t)) with (option_map u8 (Some t)).
      rewrite (IH fuel (S consumed) (S i) (S out) (Some t) (0 + 8 - z LOGW)); [|lia|lia|lia|lia|lia|lia|lia|].
      * reflexivity.
      * intros _. split; [|exists t; reflexivity]. destruct Bd as (_ & _ & _ & _ & _ & [->| ->] & _); [exists 1|exists 0]; reflexivity.
    + cbn [bind]. destruct (Hbits ltac:(lia)) as [[q Hq] [t ->]]. cbn [option_map].
      assert (Hge : 0 <= bits - z LOGW) by nia.
      casg (bits - z LOGW); [|reflexivity|rg].
      replace (0 <=? bits - z LOGW) with true by lia. cbn [guard bind].
      cix out; [|reflexivity].
      pose proof (digit_range (u8 t) (bits - z LOGW)) as DR. pose proof (u8_range t) as UR.
      assert (Wr : 0 <= W < 2 ^ 31) by (destruct WV as [-> | ->]; lia).
      rewrite (asg_is U32 _ I32 (Z.land (Z.shiftr (u8 t) (bits - z LOGW)) (W - 1)) (Z.land (Z.shiftr (u8 t) (bits - z LOGW)) (W - 1)));
        [cbn [bind]| |reflexivity|rg].
      2:{ pose proof (shiftr_range (u8 t) (bits - z LOGW) 256 ltac:(lia) UR).
          apply (ev_bin OAnd _ _ I32 I32); [evc; reflexivity|evc; reflexivity|reflexivity|rg|rg|discriminate|]. intros _. cbn [opz promote common]. rg. }
      casg (z (S out)); [|cbn [opz]; lia|rg]. casg (z (S consumed)); [|cbn [opz]; lia|rg].
      rewrite digit_u8 by lia.
      change (Some (u8 t)) with (option_map u8 (Some t)).
      rewrite (IH fuel (S consumed) i (S out) (Some t) (bits - z LOGW)); [|lia|lia|lia|lia|lia|lia|lia|].
      * reflexivity.
      * intros _. split; [|exists t; reflexivity]. exists (q - 1). lia.
Qed.
Lemma base_w_c_ok e n inp : ev e I32 (z n) -> z n < 2 ^ 20 -> base_w_c P e inp = base_w P n inp.
Proof.
  intros He Hn. unfold base_w_c, base_w. rewrite (asg_is I32 _ I32 (z n) (z n) He eq_refl) by rg. cbn [bind]. rewrite Nat2Z.id.
  pose proof (bnd_basic P Hwf). change 0 with (z 0) at 1 2 3. change None with (option_map u8 None) at 1.
  apply (base_w_loop_c_ok n inp n (S n) 0 0 0 None 0); try lia.
Qed.
Lemma base_w_range n inp l : base_w P n inp = Some l -> Forall (fun d => 0 <= d < W) l /\ length l = n.
Proof.
  unfold base_w.
  assert (G : forall n l i total bits, base_w_loop P n inp i total bits = Some l -> Forall (fun d => 0 <= d < W) l /\ length l = n);
    [|apply G].
  clear n l. induction n as [|n IH]; intros l i total bits; cbn [base_w_loop].
  - intros [= <-]. split; [constructor|reflexivity].
  - match goal with |- context [bind (if ?b then ?x else ?y) _] => destruct (if b then x else y) as [[[i1 t1] b1]|]; [|discriminate] end.
    cbn [bind]. destruct (guard _); [|discriminate]. cbn [bind]. destruct t1 as [t1|]; [|discriminate]. cbn [bind].
    destruct (base_w_loop P n inp i1 (Some t1) (b1 - z LOGW)) as [r|] eqn:E; [|discriminate]. cbn [bind]. intros [= <-].
    destruct (IH _ _ _ _ E) as [Hr Hl]. split; [constructor; [apply digit_range|exact Hr]|cbn [length]; now rewrite Hl].
Qed.

Lemma csum_iter l : forall acc, 0 <= acc < 2 ^ 32 -> Forall (fun d => 0 <= d < W) l ->
  fold_left (fun csum d => u32 (csum + u32 (W - 1 - d))) l acc = fold_left (fun csum d => u32 (csum + u32 (W - 1 - d))) l acc
  /\ 0 <= fold_left (fun csum d => u32 (csum + u32 (W - 1 - d))) l acc < 2 ^ 32.
Proof.
  induction l as [|d l IH]; intros acc Ha Hl; cbn [fold_left]; [split; [reflexivity|exact Ha]|].
  inversion Hl; subst. apply IH; [apply u32_range|assumption].
Qed.
Lemma csum_loop l : Forall (fun d => 0 <= d < W) l ->
  forall pre, Forall (fun d => 0 <= d < W) pre ->
  iterM (length l) (length pre) (fun i csum => d <- get (pre ++ l) i ;; Some (u32 (csum + u32 (W - 1 - d))))
    (csum_of P pre) = Some (csum_of P (pre ++ l)).
Proof.
  induction 1 as [|d l Hd Hl IH]; intros pre Hpre; cbn [iterM length].
  - now rewrite app_nil_r.
  - unfold get at 1. rewrite nth_error_app2 by lia. rewrite Nat.sub_diag. cbn [nth_error bind].
    replace (pre ++ d :: l) with ((pre ++ [d]) ++ l) by (now rewrite <- app_assoc).
    replace (u32 (csum_of P pre + u32 (W - 1 - d))) with (csum_of P (pre ++ [d]))
      by (unfold csum_of; now rewrite fold_left_app).
    replace (S (length pre)) with (length (pre ++ [d])) by (rewrite app_length; cbn; lia).
    apply IH. apply Forall_app. split; [exact Hpre|constructor; [exact Hd|constructor]].
Qed.
Lemma rem_nat (a b : nat) : (0 < b)%nat -> Z.rem (z a) (z b) = z (a mod b).
Proof. intros H. rewrite Z.rem_mod_nonneg by lia. now rewrite Nat2Z.inj_mod. Qed.
Theorem wots_checksum_c_ok junk l : Forall (fun d => 0 <= d < W) l -> length l = SPX_WOTS_LEN1 P ->
  wots_checksum_c P junk l = wots_checksum P l.
Proof.
  intros Hl Hlen. pose proof (bnd_basic P Hwf) as Bd. pose proof (w_value P Hwf) as WV. pose proof (len2_bound P Hwf) as L2.
  pose proof (e_LEN1 P Hwf) as H1. pose proof (e_LEN2 P Hwf) as H2. pose proof (e_LOGW P Hwf) as HL.
  pose proof (e_W P Hwf) as HW. pose proof (e_CSUM P Hwf) as HC.
  unfold wots_checksum_c, wots_checksum. rewrite Hlen, Nat.eqb_refl. cbn [guard bind].
  rewrite (cfor_iter (fun _ s => 0 <= s < 2 ^ 32) U32 (SPX_WOTS_LEN1 P) (xLEN1 P) _
     (fun i csum => d <- get l i ;; Some (u32 (csum + u32 (W - 1 - d)))) eq_refl).
  2:{ intros i Hi. clt. reflexivity. }
  2:{ lia. }
  2:{ intros i s Hi Hs. split.
      - cix i; [|reflexivity]. destruct (get l i) as [d|] eqn:Ed; [|reflexivity]. cbn [bind].
        assert (Hd : 0 <= d < W). { apply nth_error_In in Ed. rewrite Forall_forall in Hl. exact (Hl d Ed). }
        rewrite (asg_is U32 _ U32 (u32 (s + u32 (W - 1 - d))) (u32 (s + u32 (W - 1 - d)))); [reflexivity| |reflexivity|apply in_range_U32, u32_range].
        assert (E0 : u32 (W - 1 - d) = W - 1 - d) by (apply u32_small; lia). rewrite E0.
        apply (ev_bin_mod OAdd _ _ U32 U32 s (W - 1 - d)); try reflexivity; try discriminate; [evc; reflexivity| |rg|rg].
        destruct WV as [E|E]; rewrite E in *; evc; reflexivity.
      - intros s'. destruct (get l i); [|discriminate]. cbn [bind]. intros [= <-]. apply u32_range. }
  2:{ lia. }
  pose proof (csum_loop l Hl [] (Forall_nil _)) as E. cbn [app length] in E. rewrite Hlen in E.
  change (csum_of P []) with 0 in E. rewrite E. cbn [bind].
  assert (CR : 0 <= csum_of P l < 2 ^ 32) by (apply csum_iter; [lia|exact Hl]).
  set (cs := csum_of P l) in *. clearbody cs.
  set (sh := ((8 - (SPX_WOTS_LEN2 P * LOGW) mod 8) mod 8)%nat).
  assert (Hsh : (sh < 8)%nat) by (apply Nat.mod_upper_bound; lia).
  assert (Esh : ev ((K 8 - ((xLEN2 P * xLOGW P) %% K 8)) %% K 8)%C I32 (z sh)).
  { assert (M : 0 <= z (SPX_WOTS_LEN2 P) * z LOGW <= 32) by nia.
    assert (R1 : Z.rem (z (SPX_WOTS_LEN2 P) * z LOGW) 8 = z ((SPX_WOTS_LEN2 P * LOGW) mod 8)).
    { rewrite <- Nat2Z.inj_mul. apply (rem_nat _ 8). lia. }
    assert (R1b : ((SPX_WOTS_LEN2 P * LOGW) mod 8 < 8)%nat) by (apply Nat.mod_upper_bound; lia).
    assert (R2 : Z.rem (8 - z ((SPX_WOTS_LEN2 P * LOGW) mod 8)) 8 = z sh).
    { unfold sh. rewrite <- (rem_nat _ 8) by lia. f_equal. lia. }
    assert (E1 : ev ((xLEN2 P * xLOGW P) %% K 8)%C I32 (z ((SPX_WOTS_LEN2 P * LOGW) mod 8))).
    { rewrite <- R1. apply (ev_bin OMod _ _ I32 I32 (z (SPX_WOTS_LEN2 P) * z LOGW) 8);
        [evc; reflexivity|evc; reflexivity|reflexivity|rg|rg|discriminate|]. intros _. cbn [opz promote common]. rewrite R1. rg. }
    rewrite <- R2. apply (ev_bin OMod _ _ I32 I32 (8 - z ((SPX_WOTS_LEN2 P * LOGW) mod 8)) 8);
        [evc; reflexivity|evc; reflexivity|reflexivity|rg|rg|discriminate|]. intros _. cbn [opz promote common]. rewrite R2. rg. }
  clearbody sh.
  rewrite (asg_is U32 _ U32 (u32 (Z.shiftl cs (z sh))) (u32 (Z.shiftl cs (z sh)))); [cbn [bind]| |reflexivity|apply in_range_U32, u32_range].
  2:{ apply (ev_shl_mod _ _ U32 I32); [evc; reflexivity|exact Esh|discriminate|cbn; lia]. }
  set (cl := ((SPX_WOTS_LEN2 P * LOGW + 7) / 8)%nat) in *.
  assert (CL : z cl < 2 ^ 20). { unfold cl. pose proof (div8_le (SPX_WOTS_LEN2 P * LOGW)%nat). nia. }
  clearbody cl.
  cix cl; [|reflexivity]. casg (z cl); [|reflexivity|rg].
  pose proof (u32_range (Z.shiftl cs (z sh))) as UR.
  casg (u32 (Z.shiftl cs (z sh))); [|reflexivity|rg].
  rewrite ull_to_bytes_c_ok; [cbn [bind]|apply junk_length|lia|lia].
  apply base_w_c_ok; [exact H2|lia].
Qed.
Theorem chain_lengths_c_ok junk msg : chain_lengths_c P junk msg = chain_lengths P msg.
Proof.
  pose proof (len2_bound P Hwf) as L2. unfold chain_lengths_c, chain_lengths.
  rewrite (base_w_c_ok (xLEN1 P) (SPX_WOTS_LEN1 P)) by (try apply e_LEN1, Hwf; lia).
  destruct (base_w P (SPX_WOTS_LEN1 P) msg) as [l1|] eqn:E; [|reflexivity]. cbn [bind].
  destruct (base_w_range _ _ _ E) as [Hr Hl]. rewrite wots_checksum_c_ok by assumption. reflexivity.
Qed.
Theorem chain_lengths_range msg l : chain_lengths P msg = Some l -> Forall (fun d => 0 <= d < W) l.
Proof.
  unfold chain_lengths, wots_checksum. destruct (base_w P (SPX_WOTS_LEN1 P) msg) as [l1|] eqn:E; [|discriminate]. cbn [bind].
  destruct (guard _); [|discriminate]. cbn [bind].
  match goal with |- context [base_w P ?n ?i] => destruct (base_w P n i) as [l2|] eqn:E2; [|discriminate] end. cbn [bind]. intros [= <-].
  apply Forall_app. split; [apply (base_w_range _ _ _ E)|apply (base_w_range _ _ _ E2)].
Qed.

(** ** FORS indices *)
Lemma bit_range x : 0 <= Z.land x 1 <= 1.
Proof. clear. pose proof (land_range x 1 ltac:(lia)) as H. change (2 ^ 1 - 1) with 1 in H. change (2 ^ 1) with 2 in H. lia. Qed.
Lemma bit_u8 b k : 0 <= k < 8 -> Z.land (Z.shiftr (u8 b) k) 1 = Z.land (Z.shiftr b k) 1.
Proof.
  intros Hk. change 1 with (Z.ones 1). unfold u8. change 256 with (2 ^ 8). rewrite <- (Z.land_ones b 8) by lia.
  apply Z.bits_inj. intros i. destruct (Z.neg_nonneg_cases i) as [Hi|Hi]; [now rewrite !Z.testbit_neg_r by exact Hi|].
  rewrite !Z.land_spec, !Z.shiftr_spec, Z.land_spec by exact Hi.
  destruct (Z.lt_ge_cases i 1) as [H|H].
  - rewrite (Z.ones_spec_low 8 (i + k)) by lia. now rewrite andb_true_r.
  - rewrite (Z.ones_spec_high 1 i) by lia. now rewrite !andb_false_r.
Qed.
Lemma lxor_range a b j : 0 <= j -> 0 <= a < 2 ^ j -> 0 <= b < 2 ^ j -> 0 <= Z.lxor a b < 2 ^ j.
Proof.
  intros Hj Ha Hb. assert (E : Z.lxor a b = Z.lxor a b mod 2 ^ j).
  { rewrite <- Z.land_ones by exact Hj. apply Z.bits_inj. intros i. rewrite Z.land_spec, Z.lxor_spec.
    destruct (Z.neg_nonneg_cases i) as [Hi|Hi]; [now rewrite !Z.testbit_neg_r by exact Hi|].
    destruct (Z.lt_ge_cases i j) as [H|H]; [rewrite Z.ones_spec_low by lia; now rewrite andb_true_r|].
    rewrite Z.ones_spec_high by lia. rewrite andb_false_r.
    assert (T : forall x, 0 <= x < 2 ^ j -> Z.testbit x i = false).
    { intros x Hx. rewrite <- (Z.mod_small x (2 ^ j)) by exact Hx. apply Z.mod_pow2_bits_high. lia. }
    now rewrite !T by assumption. }
  rewrite E. apply Z.mod_pos_bound. apply Z.pow_pos_nonneg; lia.
Qed.
Lemma step_range idx b o j : 0 <= idx < 2 ^ z j ->
  0 <= Z.lxor idx (Z.shiftl (Z.land (Z.shiftr b o) 1) (z j)) < 2 ^ z (S j)
  /\ 0 <= Z.shiftl (Z.land (Z.shiftr b o) 1) (z j) < 2 ^ z (S j).
Proof.
  intros Hi. pose proof (bit_range (Z.shiftr b o)) as Hb.
  assert (E : 2 ^ z (S j) = 2 * 2 ^ z j) by (rewrite Nat2Z.inj_succ, Z.pow_succ_r; lia).
  assert (P0 : 0 < 2 ^ z j) by (apply Z.pow_pos_nonneg; lia).
  assert (S2 : 0 <= Z.shiftl (Z.land (Z.shiftr b o) 1) (z j) < 2 ^ z (S j)).
  { rewrite Z.shiftl_mul_pow2 by lia. rewrite E. nia. }
  split; [|exact S2]. apply lxor_range; [lia|lia|exact S2].
Qed.
(** message_index as an iteration *)
Lemma message_index_iter m : forall k j off idx,
  (r <- iterM k j (fun i s => let '(idx, o) := s in b <- get m (o / 8) ;;
       Some (Z.lxor idx (Z.shiftl (Z.land (Z.shiftr b (z (o mod 8))) 1) (z i)), S o)) (idx, off) ;; Some r)
  = (r <- message_index k j off idx m ;; Some (r, (off + k)%nat)).
Proof.
  induction k as [|k IH]; intros j off idx; cbn [iterM message_index].
  - cbn [bind]. now rewrite Nat.add_0_r.
  - destruct (get m (off / 8)) as [b|]; [|reflexivity]. cbn [bind].
    rewrite (IH (S j) (S off)). replace (S off + k)%nat with (off + S k)%nat by lia. reflexivity.
Qed.
Lemma message_index_range m : forall k j off idx r, 0 <= idx < 2 ^ z j -> message_index k j off idx m = Some r -> 0 <= r < 2 ^ z (j + k).
Proof.
  induction k as [|k IH]; intros j off idx r Hi; cbn [message_index].
  - intros [= <-]. now rewrite Nat.add_0_r.
  - destruct (get m (off / 8)) as [b|]; [|discriminate]. cbn [bind]. intros H.
    apply IH in H; [|apply step_range, Hi]. now rewrite <- Nat.add_succ_comm.
Qed.
Definition lift (s : Z * nat) : Z * Z := (fst s, z (snd s)).
Lemma message_index_c_ok m off : z off + z (p_fh P) < 2 ^ 31 ->
  message_index_c P m (z off) = (r <- message_index (p_fh P) 0 off 0 m ;; Some (r, z (off + p_fh P))).
Proof.
  intros Ho. pose proof (bnd_basic P Hwf) as Bd. pose proof (e_FH P Hwf) as HF. unfold message_index_c.
  rewrite (cfor_iter (fun i s => 0 <= fst s < 2 ^ z i /\ snd s = z (off + i)) U32 (p_fh P) (xFORS_HEIGHT P) _
    (fun i s => let '(idx, o) := s in b <- get m (Z.to_nat o / 8) ;;
       Some (Z.lxor idx (Z.shiftl (Z.land (Z.shiftr b (z (Z.to_nat o mod 8))) 1) (z i)), o + 1)) eq_refl).
  2:{ intros i Hi. clt. reflexivity. }
  2:{ lia. }
  2:{ intros i [idx o] Hi [Hx Hoo]. cbn [fst snd] in *. subst o. rewrite Nat2Z.id. set (o := (off + i)%nat) in *.
      assert (Hol : z o < 2 ^ 31) by lia. assert (Eo : o = (off + i)%nat) by reflexivity. clearbody o.
      assert (P32 : 2 ^ z (S i) <= 2 ^ 30) by (apply Z.pow_le_mono_r; lia).
      assert (Pi : 2 ^ z i <= 2 ^ 30) by (apply Z.pow_le_mono_r; lia).
      assert (E3 : Z.shiftr (z o) 3 = z (o / 8)) by (rewrite Z.shiftr_div_pow2 by lia; now rewrite Nat2Z.inj_div).
      assert (E7 : Z.land (z o) 7 = z (o mod 8)) by (change 7 with (Z.ones 3); rewrite Z.land_ones by lia; now rewrite Nat2Z.inj_mod).
      assert (M8 : (o mod 8 < 8)%nat) by (apply Nat.mod_upper_bound; lia).
      split.
      - rewrite (ix_is _ U32 (Z.shiftr (z o) 3) (o / 8)); [cbn [bind]|evc; reflexivity|exact E3].
        destruct (get m (o / 8)) as [b|]; [|reflexivity]. cbn [bind].
        destruct (step_range idx b (z (o mod 8)) i Hx) as [S1 S2]. pose proof (bit_range (Z.shiftr b (z (o mod 8)))) as BR.
        rewrite (asg_is U32 _ U32 (Z.lxor idx (Z.shiftl (Z.land (Z.shiftr b (z (o mod 8))) 1) (z i)))
           (Z.lxor idx (Z.shiftl (Z.land (Z.shiftr b (z (o mod 8))) 1) (z i)))); [cbn [bind]| |reflexivity|rg].
        + casg (z o + 1); [|reflexivity|rg]. reflexivity.
        + apply (ev_bin OXor _ _ U32 U32); [evc; reflexivity| |reflexivity|rg|rg|discriminate|intros _; cbn [opz promote common]; rg].
          apply (ev_shl _ _ U32 U32); [| evc; reflexivity|lia|cbn; lia|cbn [promote]; rg].
          rewrite <- bit_u8 by lia. pose proof (u8_range b) as UR.
          pose proof (shiftr_range (u8 b) (z (o mod 8)) 256 ltac:(lia) UR) as SR.
          pose proof (bit_range (Z.shiftr (u8 b) (z (o mod 8)))) as BR2.
          apply (ev_bin OAnd _ _ I32 U32); [|apply ev_V; rg|reflexivity|rg|rg|discriminate|intros _; cbn [opz promote common]; rg].
          apply (ev_shr _ _ U8 U32); [apply ev_B| |lia|cbn [promote width]; lia].
          rewrite <- E7. apply (ev_bin OAnd _ _ U32 I32); [evc; reflexivity|evc; reflexivity|reflexivity|rg|rg|discriminate|].
          intros _. cbn [opz promote common]. rewrite E7. rg.
      - intros s'. destruct (get m (o / 8)) as [b|]; [|discriminate]. cbn [bind]. intros [= <-]. cbn [fst snd].
        split; [apply step_range, Hx|]. lia. }
  2:{ cbn [fst snd]. split; [cbn; lia|f_equal; lia]. }
  pose proof (message_index_iter m (p_fh P) 0 off 0) as E.
  assert (G : forall k j s, iterM k j (fun i s => let '(idx, o) := s in b <- get m (Z.to_nat o / 8) ;;
       Some (Z.lxor idx (Z.shiftl (Z.land (Z.shiftr b (z (Z.to_nat o mod 8))) 1) (z i)), o + 1)) (lift s)
     = (r <- iterM k j (fun i s => let '(idx, o) := s in b <- get m (o / 8) ;;
       Some (Z.lxor idx (Z.shiftl (Z.land (Z.shiftr b (z (o mod 8))) 1) (z i)), S o)) s ;; Some (lift r))).
  { induction k as [|k IH]; intros j [idx o]; cbn [iterM]; [reflexivity|].
    change (lift (idx, o)) with (idx, z o). cbv beta iota. rewrite Nat2Z.id. destruct (get m (o / 8)) as [b|]; [|reflexivity]. cbn [bind].
    replace (z o + 1) with (z (S o)) by lia.
    exact (IH (S j) (Z.lxor idx (Z.shiftl (Z.land (Z.shiftr b (z (o mod 8))) 1) (z j)), S o)). }
  change (0, z off) with (lift (0, off)). rewrite (G (p_fh P) 0%nat (0, off)).
  destruct (iterM (p_fh P) 0 _ (0, off)) as [r|]; destruct (message_index (p_fh P) 0 off 0 m) as [r'|]; cbn [bind] in *; try discriminate E; [|reflexivity].
  injection E as ->. reflexivity.
Qed.
Lemma indices_loop_ok m h : forall t off l,
  (r <- iterM t 0 (fun i s => let '(l, o) := s in i <- message_index h 0 o 0 m ;; Some (l ++ [i], (o + h)%nat)) (l, off) ;; Some r)
  = (r <- message_to_indices_loop h t off m ;; Some (l ++ r, (off + t * h)%nat)).
Proof.
  intros t. assert (G : forall k j off l,
    (r <- iterM k j (fun i s => let '(l, o) := s in i <- message_index h 0 o 0 m ;; Some (l ++ [i], (o + h)%nat)) (l, off) ;; Some r)
    = (r <- message_to_indices_loop h k off m ;; Some (l ++ r, (off + k * h)%nat))); [|exact (G t 0%nat)].
  induction k as [|k IH]; intros j off l; cbn [iterM message_to_indices_loop].
  - cbn [bind]. rewrite app_nil_r. now rewrite Nat.add_0_r.
  - destruct (message_index h 0 off 0 m) as [i|]; [|reflexivity]. cbn [bind]. rewrite (IH (S j) (off + h)%nat).
    destruct (message_to_indices_loop h k (off + h) m) as [r|]; [|reflexivity]. cbn [bind].
    rewrite <- app_assoc. cbn [app]. do 2 f_equal. lia.
Qed.
Theorem message_to_indices_c_ok m : message_to_indices_c P m = message_to_indices P m.
Proof.
  pose proof (bnd_basic P Hwf) as Bd. pose proof (bnd_ft P Hwf Hbig) as BF. pose proof (e_FT P Hwf Hbig) as HF.
  unfold message_to_indices_c, message_to_indices.
  rewrite (cfor_iter (fun i s => snd s = z (i * p_fh P)) U32 (p_ft P) (xFORS_TREES P) _
    (fun i s => let '(l, o) := s in r <- message_index (p_fh P) 0 (Z.to_nat o) 0 m ;; Some (l ++ [r], o + z (p_fh P))) eq_refl).
  2:{ intros i Hi. clt. reflexivity. }
  2:{ lia. }
  2:{ intros i [l o] Hi Ho. cbn [snd] in Ho. subst o. rewrite Nat2Z.id. split.
      - cix i; [|reflexivity].
        rewrite message_index_c_ok by nia. destruct (message_index (p_fh P) 0 (i * p_fh P) 0 m) as [r|]; [|reflexivity]. cbn [bind].
        do 2 f_equal. lia.
      - intros s'. destruct (message_index (p_fh P) 0 (i * p_fh P) 0 m) as [r|]; [|discriminate]. cbn [bind]. intros [= <-]. cbn [snd]. lia. }
  2:{ reflexivity. }
  pose proof (indices_loop_ok m (p_fh P) (p_ft P) 0 []) as E.
  assert (G : forall k j l o, iterM k j (fun i s => let '(l, o) := s in r <- message_index (p_fh P) 0 (Z.to_nat o) 0 m ;; Some (l ++ [r], o + z (p_fh P))) (l, z o)
     = (r <- iterM k j (fun i s => let '(l, o) := s in i <- message_index (p_fh P) 0 o 0 m ;; Some (l ++ [i], (o + p_fh P)%nat)) (l, o) ;; Some (fst r, z (snd r)))).
  { induction k as [|k IH]; intros j l o; cbn [iterM]; [reflexivity|]. rewrite Nat2Z.id.
    destruct (message_index (p_fh P) 0 o 0 m) as [i|]; [|reflexivity]. cbn [bind]. rewrite <- Nat2Z.inj_add. apply IH. }
  change (@nil Z, 0) with (@nil Z, z 0). rewrite (G (p_ft P) 0%nat [] 0%nat).
  destruct (iterM (p_ft P) 0 _ ([], 0%nat)) as [[l o]|]; destruct (message_to_indices_loop (p_fh P) (p_ft P) 0 m) as [r'|]; cbn [bind] in *; try discriminate E; [|reflexivity].
  injection E as -> _. reflexivity.
Qed.
Theorem indices_range m l : message_to_indices P m = Some l -> Forall (fun i => 0 <= i < 2 ^ z (p_fh P)) l.
Proof.
  unfold message_to_indices. generalize (p_ft P) as t, 0%nat as off. intros t. revert l.
  induction t as [|t IH]; intros l off; cbn [message_to_indices_loop]; [intros [= <-]; constructor|].
  destruct (message_index (p_fh P) 0 off 0 m) as [i|] eqn:E; [|discriminate]. cbn [bind].
  destruct (message_to_indices_loop (p_fh P) t (off + p_fh P) m) as [r|] eqn:E2; [|discriminate]. cbn [bind]. intros [= <-].
  constructor; [apply (message_index_range m (p_fh P) 0 off 0 i ltac:(cbn; lia) E)|exact (IH _ _ E2)].
Qed.
End Digits.
