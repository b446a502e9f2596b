(** The C-typed SHA-2 code is defined and computes what the model does. *)
From Verif Require Import Base BaseFacts Address Sha2 CInt CCore CIntFacts CCoreProofs CWord CSha2.
Local Open Scope Z_scope.

Ltac wev Hu :=
  lazymatch goal with
  | H : ev ?e _ _ |- ev ?e _ _ => exact H
  | |- ev (V _ _) _ _ => apply w_V; assumption
  | |- ev (Bin OAnd _ _) _ _ => eapply (w_and _ Hu); wev Hu
  | |- ev (Bin OOr _ _) _ _ => eapply (w_or _ Hu); wev Hu
  | |- ev (Bin OXor _ _) _ _ => eapply (w_xor _ Hu); wev Hu
  | |- ev (Bin OAdd _ _) _ _ => eapply (w_add _ Hu); wev Hu
  | |- ev (Not _) _ _ => eapply (w_not _ Hu); wev Hu
  end.

Lemma u64_uns : uns U64. Proof. right. reflexivity. Qed.
Lemma u32_uns : uns U32. Proof. left. reflexivity. Qed.
Lemma u8_small b : 0 <= u8 b < 256. Proof. apply Z.mod_pos_bound. lia. Qed.
Lemma w_loadb t b k : uns t -> 0 <= k <= width t - 8 -> ev (Cast t (B b) << K k)%C t (Z.shiftl (u8 b) k).
Proof.
  intros Hu Hk. apply (w_shlb t _ _ I32); [exact Hu|apply w_byte, Hu| |apply u8_small|exact Hk].
  apply ev_K. destruct Hu as [->| ->]; cbn in Hk; lia.
Qed.
Lemma w_loadb0 t b : uns t -> ev (Cast t (B b)) t (u8 b). Proof. apply w_byte. Qed.

Lemma agree_get {S} (R : S -> Prop) (x : bytes) i k k' :
  (forall v, agree R (k v) (k' v)) -> agree R (v <- get x i ;; k v) (v <- get x i ;; k' v).
Proof. intros H. apply (agree_same (fun _ => True)); auto. Qed.
Lemma agree_asg t e v : ev e t v -> agree (inr t) (asg t e) (Some v).
Proof. intros H. rewrite (w_asg t e v H). apply agree_ret. apply H. Qed.
Lemma load32_c x o : agree (inr U32) (load_bigendian_32_c x o) (load_bigendian_32 x o).
Proof.
  unfold load_bigendian_32_c, load_bigendian_32. repeat (apply agree_get; intros ?). apply agree_asg.
  repeat apply (w_or U32 u32_uns); try (apply w_loadb; [exact u32_uns|cbn; lia]). apply w_byte, u32_uns.
Qed.
Lemma load64_c x o : agree (inr U64) (load_bigendian_64_c x o) (load_bigendian_64 x o).
Proof.
  unfold load_bigendian_64_c, load_bigendian_64. repeat (apply agree_get; intros ?). apply agree_asg.
  repeat apply (w_or U64 u64_uns); try (apply w_loadb; [exact u64_uns|cbn; lia]). apply w_byte, u64_uns.
Qed.
Lemma asg8 e t z : ev e t z -> asg U8 (Cast U8 e) = Some (u8 z).
Proof.
  intros H. assert (C : ev (Cast U8 e) U8 (u8 z)) by (apply (ev_cast_mod U8 e t z H); discriminate).
  apply (ev_asg U8 _ U8 _ C). apply C.
Qed.
Lemma store_c_ok : forall k u acc, inr U64 u -> store_bigendian_loop_c k u acc = Some (store_bigendian_loop k u acc).
Proof.
  induction k as [|k IH]; intros u acc Hu; [reflexivity|]. cbn [store_bigendian_loop_c store_bigendian_loop].
  rewrite (asg8 _ U64 u) by (apply w_V, Hu). cbn [bind].
  assert (E : ev (V U64 u >> K 8)%C U64 (Z.shiftr u 8))
    by (apply (w_shr U64 u64_uns _ _ I32); [apply w_V, Hu|apply ev_K; lia|cbn; lia]).
  rewrite (w_asg U64 _ _ E). cbn [bind]. apply IH. apply E.
Qed.
Lemma inr_u64 t z : uns t -> inr t z -> inr U64 z.
Proof. intros H. rewrite (inr_iff t) by exact H. rewrite (inr_iff U64) by exact u64_uns. destruct H as [->| ->]; cbn; lia. Qed.
Lemma store_c k t u : uns t -> inr t u -> store_bigendian_c k (V t u) = Some (store_bigendian k u).
Proof.
  intros Ht Hu. unfold store_bigendian_c, store_bigendian. rewrite (ev_asg U64 _ t u); [|apply w_V, Hu|apply (inr_u64 t u Ht Hu)].
  cbn [bind]. apply store_c_ok, (inr_u64 t u Ht Hu).
Qed.

Definition rots (t : cty) (k : Z * Z * Z) : Prop := let '(k1, k2, k3) := k in 0 < k1 < width t /\ 0 < k2 < width t /\ 0 < k3 < width t.
Section Alg.
Variable t : cty.
Variable A : alg.
Hypothesis Hu : uns t.
Hypothesis HA : t = U32 /\ A = alg256 \/ t = U64 /\ A = alg512.
Lemma aw : a_w A = width t. Proof. clear - HA. destruct HA as [[-> ->]|[-> ->]]; reflexivity. Qed.
Lemma awb : a_wb A = wbytes t. Proof. clear - HA. destruct HA as [[-> ->]|[-> ->]]; reflexivity. Qed.
Lemma rots_ok : rots t (a_S0 A) /\ rots t (a_S1 A) /\ rots t (a_s0 A) /\ rots t (a_s1 A).
Proof. clear - HA. destruct HA as [[-> ->]|[-> ->]]; repeat split; reflexivity. Qed.
Lemma uw_w x : uw A x = x mod 2 ^ width t. Proof. unfold uw. now rewrite aw. Qed.
Lemma width_cases : width t = 32 \/ width t = 64. Proof. clear - Hu. destruct Hu as [->| ->]; cbn; lia. Qed.

Lemma ROTR_x_ok e v c : ev e t v -> 0 < c < width t -> ev (ROTR_x t e c) t (ROTR A v c).
Proof.
  clear - Hu HA. intros H Hc. pose proof width_cases as W. unfold ROTR_x, ROTR. rewrite uw_w, aw. apply (w_or t Hu).
  - apply (w_shr t Hu _ _ I32); [exact H|apply ev_K; lia|lia].
  - apply (w_shl t Hu _ _ I32); [exact H| |lia]. clear H.
    apply (ev_bin OSub _ _ I32 I32); [apply ev_K; lia|apply ev_K; lia|reflexivity|apply in_range_I32; lia|apply in_range_I32; lia|discriminate|].
    intros _. apply in_range_I32. cbn [opz]. lia.
Qed.
Lemma SHR_x_ok e v c : ev e t v -> 0 < c < width t -> ev (SHR_x e c) t (Z.shiftr v c).
Proof. clear - Hu. intros H Hc. pose proof width_cases as W. apply (w_shr t Hu _ _ I32); [exact H|apply ev_K; lia|lia]. Qed.
Lemma Sigma_x_ok k e v : rots t k -> ev e t v -> ev (Sigma_x t k e) t (Sigma A k v).
Proof.
  clear - Hu HA. destruct k as [[k1 k2] k3]. intros (R1 & R2 & R3) H. cbn [Sigma_x Sigma].
  repeat apply (w_xor t Hu); apply ROTR_x_ok; assumption.
Qed.
Lemma sigma_x_ok k e v : rots t k -> ev e t v -> ev (sigma_x t k e) t (sigma A k v).
Proof.
  clear - Hu HA. destruct k as [[k1 k2] k3]. intros (R1 & R2 & R3) H. cbn [sigma_x sigma].
  repeat apply (w_xor t Hu); try (apply ROTR_x_ok; assumption). apply SHR_x_ok; assumption.
Qed.
Lemma Ch_x_ok ex ey ez x y z : ev ex t x -> ev ey t y -> ev ez t z -> ev (Ch_x ex ey ez) t (Ch A x y z).
Proof.
  clear - Hu HA. intros X Y Z. unfold Ch_x, Ch. rewrite uw_w, <- (not_bits t Hu) by apply X.
  repeat first [apply (w_xor t Hu)|apply (w_and t Hu)|apply (w_not t Hu)]; assumption.
Qed.
Lemma Maj_x_ok ex ey ez x y z : ev ex t x -> ev ey t y -> ev ez t z -> ev (Maj_x ex ey ez) t (Maj x y z).
Proof. clear - Hu. intros X Y Z. unfold Maj_x, Maj. repeat first [apply (w_xor t Hu)|apply (w_and t Hu)]; assumption. Qed.

Notation words := (Forall (inr t)).
Lemma get_word w i v : words w -> get w i = Some v -> inr t v.
Proof. clear. intros H E. apply nth_error_In in E. rewrite Forall_forall in H. now apply H. Qed.
Lemma agree_word {S} (R : S -> Prop) w i k k' : words w ->
  (forall v, inr t v -> agree R (k v) (k' v)) -> agree R (v <- get w i ;; k v) (v <- get w i ;; k' v).
Proof. clear. intros W. apply agree_same. intros v. apply get_word, W. Qed.
Lemma wr_words w i v : words w -> inr t v -> agree words (wr w i [v]) (wr w i [v]).
Proof.
  clear. intros H V. split; [reflexivity|]. intros w'.
  unfold wr. destruct (i + length [v] <=? length w)%nat; [|discriminate]. intros [= <-].
  apply Forall_app. split; [|constructor; [exact V|]].
  - rewrite <- (firstn_skipn i w) in H. apply Forall_app in H. apply H.
  - rewrite <- (firstn_skipn (i + 1) w) in H. apply Forall_app in H. apply H.
Qed.
Lemma M_line_ok w l : words w -> agree words (M_line_c t A w l) (M_line A w l).
Proof.
  clear - Hu HA. intros W. destruct rots_ok as (_ & _ & R0 & R1). destruct l as [[[i0 i14] i9] i1]. unfold M_line_c, M_line.
  apply (agree_word _ w _ _ _ W). intros w14 E14. apply (agree_word _ w _ _ _ W). intros w9 E9.
  apply (agree_word _ w _ _ _ W). intros w1 E1. apply (agree_word _ w _ _ _ W). intros w0 E0.
  apply (asg_step _ t _ (uw A (sigma A (a_s1 A) w14 + w9 + sigma A (a_s0 A) w1 + w0))).
  { eapply ev_as; [eapply (w_add t Hu); [eapply (w_add t Hu); [eapply (w_add t Hu)|]|]|reflexivity|].
    - apply sigma_x_ok; [exact R1|apply w_V; exact E14].
    - apply w_V; exact E9.
    - apply sigma_x_ok; [exact R0|apply w_V; exact E1].
    - apply w_V; exact E0.
    - rewrite uw_w. repeat (rewrite Zplus_mod_idemp_l; rewrite <- ?Z.add_assoc). f_equal; lia. }
  intros E. apply wr_words; assumption.
Qed.
Lemma M_lines_ok : forall l w, words w -> agree words (M_lines_c t A w l) (M_lines A w l).
Proof.
  clear - Hu HA. induction l as [|x l IH]; intros w W; cbn [M_lines_c M_lines]; [apply agree_ret, W|].
  apply (agree_bind words); [apply M_line_ok, W|]. intros w' W'. apply IH, W'.
Qed.
Lemma kexp_ok e v k : 0 <= k < 2 ^ width t -> ev e t v -> ev (e + kexp t k)%C t ((v + k) mod 2 ^ width t).
Proof.
  clear - Hu. intros Hk H. destruct Hu as [->| ->]; cbn [kexp].
  - unfold H32. destruct (Z.ltb_spec k (2 ^ 31)).
    + apply (w_addK U32 u32_uns); [exact H|apply ev_K; lia|lia].
    + apply (w_add U32 u32_uns); [exact H|]. apply w_V, inr_iff; [exact u32_uns|exact Hk].
  - apply (w_add U64 u64_uns); [exact H|]. apply w_V, inr_iff; [exact u64_uns|exact Hk].
Qed.
Lemma F_line_ok s w k : words s -> inr t w -> 0 <= k < 2 ^ width t ->
  agree words (F_line_c t A s w k) (F_line A s w k).
Proof.
  clear - Hu HA. intros W Hw Hk. destruct rots_ok as (R0 & R1 & _).
  destruct s as [|a [|b [|c [|d [|e [|f [|g [|h [|? ?]]]]]]]]]; try exact (agree_none _).
  repeat match goal with H : Forall _ (_ :: _) |- _ => inversion_clear H end. cbv beta iota delta [F_line_c F_line].
  alet; [|intros T1 H1'].
  { eapply ev_as; [eapply (w_add t Hu); [apply kexp_ok; [exact Hk|]; eapply (w_add t Hu); [eapply (w_add t Hu)|]|]|reflexivity|].
    - apply w_V; assumption.
    - apply Sigma_x_ok; [exact R1|apply w_V; assumption].
    - apply Ch_x_ok; apply w_V; assumption.
    - apply w_V; assumption.
    - rewrite uw_w. repeat (rewrite Zplus_mod_idemp_l; rewrite <- ?Z.add_assoc). f_equal; lia. }
  alet; [|intros T2 H2'].
  { rewrite uw_w. apply (w_add t Hu); [apply Sigma_x_ok; [exact R0|apply w_V; assumption]|apply Maj_x_ok; apply w_V; assumption]. }
  do 3 (alet; [apply w_V; assumption|intros]).
  alet; [rewrite uw_w; apply (w_add t Hu); apply w_V; assumption|intros].
  do 3 (alet; [apply w_V; assumption|intros]).
  alet; [rewrite uw_w; apply (w_add t Hu); apply w_V; assumption|intros].
  apply agree_ret. repeat (constructor; [assumption|]). constructor.
Qed.
Definition prog_ok (p : list step) : bool := forallb (fun x => match x with F _ k => (0 <=? k) && (k <? 2 ^ width t) | EXPAND => true end) p.
Lemma exec_ok : forall p w s, prog_ok p = true -> words w -> words s -> agree words (exec_c t A p w s) (exec A p w s).
Proof.
  clear - Hu HA. induction p as [|[i k|] p IH]; intros w s Hp W Hs; cbn [exec_c exec]; [apply agree_ret, Hs| |];
    cbn [prog_ok forallb] in Hp; apply andb_prop in Hp as [Hk Hp].
  - apply (agree_word _ w _ _ _ W). intros wi Hi. apply (agree_bind words).
    + apply F_line_ok; [exact Hs|exact Hi|]. clear - Hk. lia.
    + intros s' Hs'. apply IH; assumption.
  - apply (agree_bind words); [apply M_lines_ok, W|]. intros w' W'. apply IH; assumption.
Qed.
Lemma prog_A : prog_ok (a_prog A) = true.
Proof. clear - HA. destruct HA as [[E ->]|[E ->]]; unfold prog_ok; rewrite E; reflexivity. Qed.
Lemma load_ok x o : agree (inr t) (load_c t x o) (a_load A x o).
Proof. clear - HA. destruct HA as [[-> ->]|[-> ->]]; [apply load32_c|apply load64_c]. Qed.
Lemma load_words_ok : forall k x o, agree (fun l => words l) (load_words_c t k x o) (load_words A k x o).
Proof.
  clear - HA. induction k as [|k IH]; intros x o; cbn [load_words_c load_words]; [apply agree_ret; constructor|].
  apply (agree_bind (inr t)); [apply load_ok|]. intros a Ha. rewrite awb. apply (agree_bind (fun l => words l)); [apply IH|].
  intros r Hr. apply agree_ret. constructor; assumption.
Qed.
Lemma add_state_ok : forall s st, words s -> words st -> agree (fun l => words l) (add_state_c t s st) (Some (add_state A s st)).
Proof.
  clear - Hu HA. induction s as [|a s IH]; intros st Ws Wt; [apply agree_ret; constructor|].
  destruct st as [|x st]; [apply agree_ret; constructor|]. inversion_clear Ws. inversion_clear Wt.
  cbn [add_state_c]. unfold add_state. cbn [combine map fst snd].
  apply (asg_step _ t _ (uw A (a + x))); [rewrite uw_w; apply (w_add t Hu); apply w_V; assumption|]. intros R.
  destruct (IH st H0 H2) as [-> Q]. cbn [bind]. apply agree_ret. constructor; [exact R|]. apply Q. reflexivity.
Qed.
Lemma cond_ge e1 e2 t1 t2 a b : ev e1 t1 a -> ev e2 t2 b -> in_range (common (promote t1) (promote t2)) a = true ->
  in_range (common (promote t1) (promote t2)) b = true -> cond (Bin OGe e1 e2) = Some (b <=? a).
Proof.
  clear. intros H1 H2 Ra Rb. rewrite (ev_cond _ I32 (if b <=? a then 1 else 0)); [destruct (b <=? a); reflexivity|].
  apply (ev_bin OGe e1 e2 t1 t2); try assumption; try reflexivity; discriminate.
Qed.
Lemma wbytes_cases : wbytes t = 4%nat \/ wbytes t = 8%nat.
Proof. clear - Hu. destruct Hu as [->| ->]; cbn; auto. Qed.
Lemma loop_ok inp : forall fuel s st o inlen, words s -> words st -> Z.of_nat inlen < 2 ^ 64 -> (inlen < fuel)%nat ->
  agree (fun p => words (fst p) /\ 0 <= snd p < 16 * Z.of_nat (wbytes t))
    (hashblocks_loop_c t A fuel s st inp o (Z.of_nat inlen))
    (st' <- hashblocks_loop A fuel s st inp o inlen ;; Some (st', Z.of_nat (inlen mod (16 * wbytes t)))).
Proof.
  clear - Hu HA. pose proof wbytes_cases as C. induction fuel as [|fuel IH]; intros s st o inlen Ws Wt Hl Hf; [lia|].
  cbn [hashblocks_loop_c hashblocks_loop]. unfold a_bsz. rewrite awb.
  rewrite (cond_ge _ _ U64 I32 (Z.of_nat inlen) (16 * Z.of_nat (wbytes t)));
    [|apply w_V, inr_iff; [apply u64_uns|cbn [width]; lia]|apply ev_K; lia|apply in_range_U64; lia|apply in_range_U64; lia].
  cbn [bind]. destruct (Nat.ltb_spec inlen (16 * wbytes t)) as [L|L].
  - replace (16 * Z.of_nat (wbytes t) <=? Z.of_nat inlen) with false by lia. cbn [bind].
    rewrite (Nat.mod_small inlen) by exact L. apply agree_ret. cbn [fst snd]. split; [exact Wt|lia].
  - replace (16 * Z.of_nat (wbytes t) <=? Z.of_nat inlen) with true by lia.
    match goal with |- agree _ _ (bind ?r _) => idtac end.
    destruct (load_words_ok 16 inp o) as [-> Q1]. destruct (load_words A 16 inp o) as [w|]; [|apply agree_none]. cbn [bind].
    specialize (Q1 w eq_refl).
    destruct (exec_ok (a_prog A) w s prog_A Q1 Ws) as [-> Q2]. destruct (exec A (a_prog A) w s) as [s1|]; [|apply agree_none]. cbn [bind].
    specialize (Q2 s1 eq_refl).
    destruct (add_state_ok s1 st Q2 Wt) as [-> Q3]. cbn [bind]. specialize (Q3 _ eq_refl).
    rewrite (ev_asg U64 _ U64 (Z.of_nat (inlen - 16 * wbytes t))).
    + cbn [bind]. replace (Z.of_nat (inlen mod (16 * wbytes t))) with (Z.of_nat ((inlen - 16 * wbytes t) mod (16 * wbytes t))).
      * apply IH; [exact Q3|exact Q3|lia|lia].
      * f_equal. replace inlen with ((inlen - 16 * wbytes t) + 1 * (16 * wbytes t))%nat at 2 by lia.
        rewrite Nat.mod_add by lia. reflexivity.
    + eapply ev_as; [apply (ev_bin OSub _ _ U64 I32 (Z.of_nat inlen) (16 * Z.of_nat (wbytes t)))|reflexivity|cbn [opz]; lia];
        try reflexivity; [apply w_V, inr_iff; [apply u64_uns|cbn [width]; lia]|apply ev_K; lia|apply in_range_U64; lia|apply in_range_U64; lia|discriminate|].
      intros _. apply in_range_U64. cbn [opz]. lia.
    + apply in_range_U64. lia.
Qed.
Lemma stores_ok : forall st, words st -> stores_c t st = Some (flat_map (store_bigendian (a_wb A)) st).
Proof.
  clear - Hu HA. induction st as [|x st IH]; intros W; [reflexivity|]. inversion_clear W. cbn [stores_c flat_map].
  rewrite (store_c _ t x Hu H), IH by assumption. cbn [bind]. now rewrite awb.
Qed.
Theorem hashblocks_ok statebytes inp o e inlen : asg U64 e = Some (Z.of_nat inlen) -> Z.of_nat inlen < 2 ^ 64 ->
  hashblocks_c t A statebytes inp o e = hashblocks A statebytes inp o inlen.
Proof.
  clear - Hu HA. intros He Hl. unfold hashblocks_c, hashblocks. rewrite He. cbn [bind]. rewrite Nat2Z.id.
  destruct (load_words_ok 8 statebytes 0) as [-> Q1]. destruct (load_words A 8 statebytes 0) as [s|]; [|reflexivity]. cbn [bind].
  specialize (Q1 s eq_refl).
  destruct (loop_ok inp (S inlen) s s o inlen Q1 Q1 Hl ltac:(lia)) as [-> Q2].
  destruct (hashblocks_loop A (S inlen) s s inp o inlen) as [st|]; [|reflexivity]. cbn [bind] in *. specialize (Q2 _ eq_refl).
  cbn [fst snd] in Q2. destruct Q2 as [Q2 Q3]. rewrite (stores_ok st Q2). cbn [bind].
  set (z := Z.of_nat (inlen mod (16 * wbytes t))) in *. clearbody z. pose proof wbytes_cases as C.
  rewrite (ev_asg (rettype t) _ U64 z); [reflexivity|apply w_V, inr_iff; [apply u64_uns|cbn [width]; lia]|].
  clear - Q3 C Hu. destruct Hu as [->| ->]; cbn [rettype]; [apply in_range_U64|apply in_range_I32]; lia.
Qed.
End Alg.

(** ** Byte loops *)
Lemma wr_cons b i x d : (i + S (length d) <= length b)%nat -> (b' <- wr b i [x] ;; wr b' (S i) d) = wr b i (x :: d).
Proof.
  intros H. assert (E : b = firstn i b ++ firstn (S (length d)) (skipn i b) ++ skipn (S (length d)) (skipn i b)) by now rewrite !firstn_skipn.
  assert (L1 : length (firstn i b) = i) by (rewrite firstn_length; lia).
  assert (L2 : length (firstn (S (length d)) (skipn i b)) = S (length d)) by (rewrite firstn_length, skipn_length; lia).
  destruct (firstn (S (length d)) (skipn i b)) as [|y m]; [discriminate|]. injection L2 as L2. rewrite E. clear E.
  generalize dependent (firstn i b). intros pre L1. generalize (skipn (S (length d)) (skipn i b)) as post. intros post.
  rewrite (wr_app' pre (y :: m) post (x :: d) i) by (cbn [length]; lia).
  change (pre ++ (y :: m) ++ post) with (pre ++ [y] ++ m ++ post).
  rewrite (wr_app' pre [y] (m ++ post) [x] i) by (cbn [length]; lia). cbn [bind].
  replace (pre ++ [x] ++ m ++ post) with ((pre ++ [x]) ++ m ++ post) by now rewrite <- app_assoc.
  rewrite (wr_app' (pre ++ [x]) m post d (S i)) by (rewrite ?app_length; cbn [length]; lia).
  rewrite <- app_assoc. reflexivity.
Qed.
Lemma iter_set (f : nat -> Z) : forall k i b, (i + k <= length b)%nat ->
  iterM k i (fun j b => wr b j [f j]) b = wr b i (map f (seq i k)).
Proof.
  induction k as [|k IH]; intros i b H; cbn [iterM seq map].
  - unfold wr. cbn [length app]. replace (i + 0 <=? length b)%nat with true by lia. rewrite Nat.add_0_r, firstn_skipn. reflexivity.
  - rewrite <- (wr_cons b i (f i) (map f (seq (S i) k))) by (rewrite map_length, seq_length; lia).
    destruct (wr b i [f i]) as [b'|] eqn:E; [|reflexivity]. cbn [bind]. apply IH. rewrite (wr_length _ _ _ _ E). lia.
Qed.
Lemma map_seq_slice (src : bytes) o : forall k i, (o + i + k <= length src)%nat ->
  map (fun j => nth (o + j) src 0) (seq i k) = firstn k (skipn (o + i) src).
Proof.
  induction k as [|k IH]; intros i H; [reflexivity|]. cbn [seq map]. rewrite (IH (S i)) by lia.
  replace (o + S i)%nat with (S (o + i)) by lia.
  assert (L : (o + i < length src)%nat) by lia. revert L. clear. generalize (o + i)%nat as j. intros j. revert src.
  induction j as [|j IHj]; intros src L; destruct src as [|x src]; cbn [length] in L; try lia; [reflexivity|].
  cbn [nth skipn]. apply (IHj src). lia.
Qed.
Lemma iter_ext {S} (f g : nat -> S -> option S) (Inv : S -> Prop) : forall k i s, Inv s ->
  (forall j s, (i <= j < i + k)%nat -> Inv s -> f j s = g j s) -> (forall j s s', Inv s -> g j s = Some s' -> Inv s') ->
  iterM k i f s = iterM k i g s.
Proof.
  induction k as [|k IH]; intros i s Hs H K; [reflexivity|]. cbn [iterM]. rewrite H by (lia || assumption).
  destruct (g i s) as [s'|] eqn:E; [|reflexivity]. cbn [bind]. apply IH; [apply (K _ _ _ Hs E)| |exact K].
  intros j s1 Hj. apply H. lia.
Qed.
Lemma ix64 z : 0 <= z < 2 ^ 64 -> ix (V U64 z) = Some (Z.to_nat z).
Proof. intros H. apply (ev_ix _ U64); [apply w_V, in_range_U64, H|lia]. Qed.
Lemma cond_lt64 i e t b : uns t \/ t = I32 -> 0 <= i < 2 ^ 64 -> ev e t b -> 0 <= b -> cond (V U64 i < e)%C = Some (i <? b).
Proof.
  intros Ht Hi He Hb. apply (cond_lt _ _ U64 i b); [apply w_V, in_range_U64, Hi|]. exists t. split; [exact He|].
  assert (R : in_range U64 b = true).
  { destruct He as [_ R]. destruct Ht as [[->| ->]| ->]; unfold in_range, width in *; lia. }
  destruct Ht as [[->| ->]| ->]; cbn [common promote]; split; try exact R; apply in_range_U64, Hi.
Qed.
Lemma copy_c_ok dst src o k : (k <= length dst)%nat -> (o + k <= length src)%nat -> Z.of_nat k < 2 ^ 64 ->
  copy_c dst src o (Z.of_nat k) = (d <- rd src o k ;; wr dst 0 d).
Proof.
  intros Hd Hs Hk. unfold copy_c. rewrite Nat2Z.id.
  rewrite (cfor_uns (fun _ b => True) U64 k 0 _ _ (fun j b => x <- get src (o + j) ;; wr b j [x])); [|apply u64_uns|exact Hk| | |exact I].
  - rewrite (iter_ext _ (fun j b => wr b j [nth (o + j) src 0]) (fun _ => True)); [|exact I| |auto].
    + rewrite iter_set by exact Hd. rewrite map_seq_slice by lia. rewrite Nat.add_0_r.
      unfold rd. replace (o + k <=? length src)%nat with true by lia. reflexivity.
    + intros j b Hj _. unfold get. rewrite (nth_error_nth' src 0) by lia. reflexivity.
  - intros i Hi. apply (cond_lt64 _ _ U64); [left; apply u64_uns|lia|apply w_V, in_range_U64; lia|lia].
  - intros i b Hi _. split; [|auto]. rewrite ix64 by lia. cbn [bind]. rewrite Nat2Z.id. reflexivity.
Qed.
Lemma map_seq_const {A} (x : A) : forall k i, map (fun _ => x) (seq i k) = repeat x k.
Proof. induction k as [|k IH]; intros i; [reflexivity|]. cbn [seq map repeat]. now rewrite IH. Qed.
Lemma zero_c_ok dst e from to : asg U64 e = Some (Z.of_nat from) -> (from <= to <= length dst)%nat -> Z.of_nat to < 2 ^ 31 ->
  zero_c dst e (Z.of_nat to) = fill dst from to.
Proof.
  intros He Hd Ht. unfold zero_c, fill. rewrite He. cbn [bind]. replace (Z.to_nat (Z.of_nat to - Z.of_nat from)) with (to - from)%nat by lia.
  rewrite (cfor_uns (fun _ b => True) U64 (to - from) from _ _ (fun j b => wr b j [0])); [|apply u64_uns|cbn [width]; lia| | |exact I].
  - rewrite (iter_set (fun _ => 0)) by lia. f_equal. apply map_seq_const.
  - intros i Hi. replace (from + (to - from))%nat with to by lia.
    apply (cond_lt64 _ _ I32); [right; reflexivity|lia|apply ev_K; lia|lia].
  - intros i b Hi _. split; [|auto]. rewrite ix64 by lia. cbn [bind]. rewrite Nat2Z.id. reflexivity.
Qed.
Lemma byte_shr n k : inr U64 n -> 0 <= k < 64 -> asg U8 (Cast U8 (V U64 n >> K k)) = Some (u8 (Z.shiftr n k)).
Proof. intros H Hk. apply (asg8 _ U64). apply (w_shr U64 u64_uns _ _ I32); [apply w_V, H|apply ev_K; lia|exact Hk]. Qed.
Lemma len_bytes_c_ok n : inr U64 n -> len_bytes_c n = Some (len_bytes n).
Proof.
  intros H. unfold len_bytes_c. rewrite !byte_shr by (exact H || lia). cbn [bind].
  rewrite (asg8 _ U64 (u64 (Z.shiftl n 3))); [reflexivity|].
  apply (w_shl U64 u64_uns _ _ I32); [apply w_V, H|apply ev_K; lia|cbn; lia].
Qed.

(** ** The functions *)
Lemma alg_256 : U32 = U32 /\ alg256 = alg256 \/ U32 = U64 /\ alg256 = alg512. Proof. left. split; reflexivity. Qed.
Lemma alg_512 : U64 = U32 /\ alg512 = alg256 \/ U64 = U64 /\ alg512 = alg512. Proof. right. split; reflexivity. Qed.
Lemma asg64 z : 0 <= z < 2 ^ 64 -> asg U64 (V U64 z) = Some z.
Proof. intros H. apply w_asg, w_V, in_range_U64, H. Qed.
Lemma asg64K z : 0 <= z < 2 ^ 31 -> asg U64 (K z) = Some z.
Proof. intros H. apply (ev_asg U64 _ I32); [apply ev_K; lia|apply in_range_U64; lia]. Qed.
Lemma mul64 k n : 0 <= k < 2 ^ 31 -> 0 <= n < 2 ^ 64 -> ev (K k * V U64 n)%C U64 ((k * n) mod 2 ^ 64).
Proof.
  intros Hk Hn. apply (ev_bin_mod OMul _ _ I32 U64 k n); try reflexivity; try discriminate;
    [apply ev_K; lia|apply w_V, in_range_U64, Hn|apply in_range_U64; cbn; lia|apply in_range_U64; exact Hn].
Qed.
Lemma add64 a b e2 : inr U64 a -> ev e2 U64 b -> ev (V U64 a + e2)%C U64 (u64 (a + b)).
Proof. intros Ha H. apply (w_add U64 u64_uns); [apply w_V, Ha|exact H]. Qed.

Theorem sha256_inc_blocks_ok state inp k : 64 * Z.of_nat k < 2 ^ 64 ->
  sha256_inc_blocks_c state inp (Z.of_nat k) = sha256_inc_blocks state inp k.
Proof.
  intros Hk. unfold sha256_inc_blocks_c, sha256_inc_blocks. destruct (load64_c state 32) as [-> Q].
  destruct (load_bigendian_64 state 32) as [n|]; [|reflexivity]. cbn [bind]. specialize (Q n eq_refl).
  pose proof (mul64 64 (Z.of_nat k) ltac:(lia) ltac:(lia)) as M. rewrite Z.mod_small in M by lia.
  rewrite (hashblocks_ok U32 alg256 u32_uns alg_256 state inp 0 _ (64 * k)); [|rewrite (w_asg U64 _ _ M); f_equal; lia|lia].
  destruct (hashblocks alg256 state inp 0 (64 * k)) as [st|]; [|reflexivity]. cbn [bind].
  pose proof (add64 n _ _ Q M) as E. rewrite (w_asg U64 _ _ E). cbn [bind].
  rewrite (store_c 8 U64) by (apply u64_uns || apply E). reflexivity.
Qed.
Theorem sha512_inc_blocks_ok state inp k : 128 * Z.of_nat k < 2 ^ 64 ->
  sha512_inc_blocks_c state inp (Z.of_nat k) = sha512_inc_blocks state inp k.
Proof.
  intros Hk. unfold sha512_inc_blocks_c, sha512_inc_blocks. destruct (load64_c state 64) as [-> Q].
  destruct (load_bigendian_64 state 64) as [n|]; [|reflexivity]. cbn [bind]. specialize (Q n eq_refl).
  pose proof (mul64 128 (Z.of_nat k) ltac:(lia) ltac:(lia)) as M. rewrite Z.mod_small in M by lia.
  rewrite (hashblocks_ok U64 alg512 u64_uns alg_512 state inp 0 _ (128 * k)); [|rewrite (w_asg U64 _ _ M); f_equal; lia|lia].
  destruct (hashblocks alg512 state inp 0 (128 * k)) as [st|]; [|reflexivity]. cbn [bind].
  pose proof (add64 n _ _ Q M) as E. rewrite (w_asg U64 _ _ E). cbn [bind].
  rewrite (store_c 8 U64) by (apply u64_uns || apply E). reflexivity.
Qed.

Lemma mask_nat (l k : nat) (m : Z) : m = 2 ^ Z.of_nat k - 1 ->
  0 <= Z.land (Z.of_nat l) m <= m /\ Z.land (Z.of_nat l) m <= Z.of_nat l.
Proof.
  intros ->. replace (2 ^ Z.of_nat k - 1) with (Z.ones (Z.of_nat k)) by (rewrite Z.ones_equiv; lia).
  rewrite Z.land_ones by lia. assert (0 < 2 ^ Z.of_nat k) by lia. pose proof (Z.mod_pos_bound (Z.of_nat l) (2 ^ Z.of_nat k)).
  pose proof (Z.mod_le (Z.of_nat l) (2 ^ Z.of_nat k)). rewrite Z.ones_equiv. lia.
Qed.
Lemma next64 z : 0 <= z < 2 ^ 31 -> asg U64 (V U64 z + K 1)%C = Some (Z.of_nat (Z.to_nat z + 1)).
Proof.
  intros H. rewrite (w_asg U64 _ ((z + 1) mod 2 ^ 64)).
  - f_equal. rewrite Z.mod_small by lia. lia.
  - apply (w_addK U64 u64_uns); [apply w_V, in_range_U64; lia|apply ev_K; lia|lia].
Qed.
Ltac opt := match goal with
  | |- (_ <- ?r ;; _) = (_ <- ?r ;; _) => destruct r as [?|] eqn:?; [cbn [bind]|reflexivity]
  end.
Section Fin.
Variable junk : nat -> Z.
Theorem sha256_inc_finalize_ok state inp : Z.of_nat (length inp) < 2 ^ 64 ->
  sha256_inc_finalize_c junk state inp (Z.of_nat (length inp)) = sha256_inc_finalize junk state inp.
Proof.
  intros Hl. unfold sha256_inc_finalize_c, sha256_inc_finalize. destruct (load64_c state 32) as [-> Q].
  destruct (load_bigendian_64 state 32) as [n|]; [|reflexivity]. cbn [bind]. specialize (Q n eq_refl).
  assert (E : ev (V U64 n + V U64 (Z.of_nat (length inp)))%C U64 (u64 (n + Z.of_nat (length inp))))
    by (apply add64; [exact Q|apply w_V, in_range_U64; lia]).
  rewrite (w_asg U64 _ _ E). cbn [bind]. assert (Hn : inr U64 (u64 (n + Z.of_nat (length inp)))) by apply E.
  revert Hn. generalize (u64 (n + Z.of_nat (length inp))) as m. clear n Q E. intros n Hn.
  rewrite (hashblocks_ok U32 alg256 u32_uns alg_256 state inp 0 _ (length inp)); [|apply asg64; lia|exact Hl].
  destruct (hashblocks alg256 state inp 0 (length inp)) as [st|]; [|reflexivity]. cbn [bind].
  destruct (mask_nat (length inp) 6 63 eq_refl) as [M1 M2]. set (r := Z.land (Z.of_nat (length inp)) 63) in *.
  assert (Er : asg U64 (V U64 (Z.of_nat (length inp)) .& K 63)%C = Some r)
    by (apply w_asg, (w_andK U64 u64_uns); [apply w_V, in_range_U64; lia|apply ev_K; lia|lia]).
  rewrite Er. cbn [bind]. clear Er. clearbody r. rewrite Nat2Z.id.
  rewrite <- (Z2Nat.id r) at 2 by lia. rewrite copy_c_ok by (rewrite ?junk_length; lia).
  destruct (rd inp (length inp - Z.to_nat r) (Z.to_nat r)) as [tail|] eqn:Et; [|reflexivity]. cbn [bind].
  destruct (wr (junk_bytes junk 128) 0 tail) as [p1|] eqn:E1; [|reflexivity]. cbn [bind].
  rewrite ix64 by lia. cbn [bind]. change (asg U8 (K 128)) with (Some 128). cbn [bind].
  destruct (wr p1 (Z.to_nat r) [128]) as [p2|] eqn:E2; [|reflexivity]. cbn [bind].
  assert (L2 : length p2 = 128%nat) by (rewrite (wr_length _ _ _ _ E2), (wr_length _ _ _ _ E1), junk_length; reflexivity).
  rewrite (cond_lt64 r (K 56) I32 56); [|right; reflexivity|lia|apply ev_K; lia|lia]. cbn [bind].
  replace (Z.to_nat r <? 56)%nat with (r <? 56) by lia. destruct (Z.ltb_spec r 56).
  all: match goal with |- bind ?a ?k = bind ?b ?k => enough (X : a = b) by (rewrite X; reflexivity) end.
  - rewrite (zero_c_ok p2 _ (Z.to_nat r + 1) 56 : _ -> _ -> _ -> zero_c p2 _ 56 = _); [|apply next64; lia|lia|lia].
    opt. rewrite len_bytes_c_ok by exact Hn. cbn [bind]. opt.
    rewrite (hashblocks_ok U32 alg256 u32_uns alg_256 st _ 0 _ 64); [reflexivity|apply asg64K; lia|lia].
  - rewrite (zero_c_ok p2 _ (Z.to_nat r + 1) 120 : _ -> _ -> _ -> zero_c p2 _ 120 = _); [|apply next64; lia|lia|lia].
    opt. rewrite len_bytes_c_ok by exact Hn. cbn [bind]. opt.
    rewrite (hashblocks_ok U32 alg256 u32_uns alg_256 st _ 0 _ 128); [reflexivity|apply asg64K; lia|lia].
Qed.
Theorem sha512_inc_finalize_ok state inp : Z.of_nat (length inp) < 2 ^ 64 ->
  sha512_inc_finalize_c junk state inp (Z.of_nat (length inp)) = sha512_inc_finalize junk state inp.
Proof.
  intros Hl. unfold sha512_inc_finalize_c, sha512_inc_finalize. destruct (load64_c state 64) as [-> Q].
  destruct (load_bigendian_64 state 64) as [n|]; [|reflexivity]. cbn [bind]. specialize (Q n eq_refl).
  assert (E : ev (V U64 n + V U64 (Z.of_nat (length inp)))%C U64 (u64 (n + Z.of_nat (length inp))))
    by (apply add64; [exact Q|apply w_V, in_range_U64; lia]).
  rewrite (w_asg U64 _ _ E). cbn [bind]. assert (Hn : inr U64 (u64 (n + Z.of_nat (length inp)))) by apply E.
  revert Hn. generalize (u64 (n + Z.of_nat (length inp))) as m. clear n Q E. intros n Hn.
  rewrite (hashblocks_ok U64 alg512 u64_uns alg_512 state inp 0 _ (length inp)); [|apply asg64; lia|exact Hl].
  destruct (hashblocks alg512 state inp 0 (length inp)) as [st|]; [|reflexivity]. cbn [bind].
  destruct (mask_nat (length inp) 7 127 eq_refl) as [M1 M2]. set (r := Z.land (Z.of_nat (length inp)) 127) in *.
  assert (Er : asg U64 (V U64 (Z.of_nat (length inp)) .& K 127)%C = Some r)
    by (apply w_asg, (w_andK U64 u64_uns); [apply w_V, in_range_U64; lia|apply ev_K; lia|lia]).
  rewrite Er. cbn [bind]. clear Er. clearbody r. rewrite Nat2Z.id.
  rewrite <- (Z2Nat.id r) at 2 by lia. rewrite copy_c_ok by (rewrite ?junk_length; lia).
  destruct (rd inp (length inp - Z.to_nat r) (Z.to_nat r)) as [tail|] eqn:Et; [|reflexivity]. cbn [bind].
  destruct (wr (junk_bytes junk 256) 0 tail) as [p1|] eqn:E1; [|reflexivity]. cbn [bind].
  rewrite ix64 by lia. cbn [bind]. change (asg U8 (K 128)) with (Some 128). cbn [bind].
  destruct (wr p1 (Z.to_nat r) [128]) as [p2|] eqn:E2; [|reflexivity]. cbn [bind].
  assert (L2 : length p2 = 256%nat) by (rewrite (wr_length _ _ _ _ E2), (wr_length _ _ _ _ E1), junk_length; reflexivity).
  rewrite (cond_lt64 r (K 112) I32 112); [|right; reflexivity|lia|apply ev_K; lia|lia]. cbn [bind].
  replace (Z.to_nat r <? 112)%nat with (r <? 112) by lia. destruct (Z.ltb_spec r 112).
  all: match goal with |- bind ?a ?k = bind ?b ?k => enough (X : a = b) by (rewrite X; reflexivity) end.
  - rewrite (zero_c_ok p2 _ (Z.to_nat r + 1) 119 : _ -> _ -> _ -> zero_c p2 _ 119 = _); [|apply next64; lia|lia|lia].
    opt. rewrite byte_shr by (exact Hn || lia). cbn [bind]. rewrite len_bytes_c_ok by exact Hn. cbn [bind]. opt.
    rewrite (hashblocks_ok U64 alg512 u64_uns alg_512 st _ 0 _ 128); [reflexivity|apply asg64K; lia|lia].
  - rewrite (zero_c_ok p2 _ (Z.to_nat r + 1) 247 : _ -> _ -> _ -> zero_c p2 _ 247 = _); [|apply next64; lia|lia|lia].
    opt. rewrite byte_shr by (exact Hn || lia). cbn [bind]. rewrite len_bytes_c_ok by exact Hn. cbn [bind]. opt.
    rewrite (hashblocks_ok U64 alg512 u64_uns alg_512 st _ 0 _ 256); [reflexivity|apply asg64K; lia|lia].
Qed.
Theorem sha256_c_ok inp e : asg U64 e = Some (Z.of_nat (length inp)) -> Z.of_nat (length inp) < 2 ^ 64 ->
  sha256_c junk inp e = sha256 junk inp.
Proof. intros He Hl. unfold sha256_c. rewrite He. apply sha256_inc_finalize_ok, Hl. Qed.
Theorem sha512_c_ok inp e : asg U64 e = Some (Z.of_nat (length inp)) -> Z.of_nat (length inp) < 2 ^ 64 ->
  sha512_c junk inp e = sha512 junk inp.
Proof. intros He Hl. unfold sha512_c. rewrite He. apply sha512_inc_finalize_ok, Hl. Qed.
End Fin.

Section Mgf.
Variable junk : nat -> Z.
Variable sha_c : bytes -> cexp -> option bytes.
Variable sha : bytes -> option bytes.
Variable out : nat.
Hypothesis Hout : (0 < out <= 64)%nat.
Hypothesis Hsha : forall inp e, asg U64 e = Some (Z.of_nat (length inp)) -> Z.of_nat (length inp) < 2 ^ 64 -> sha_c inp e = sha inp.
Lemma addK64 a k : 0 <= a -> 0 <= k < 2 ^ 31 -> a + k < 2 ^ 64 -> ev (V U64 a + K k)%C U64 (a + k).
Proof.
  clear. intros Ha Hk H. eapply ev_as; [apply (w_addK U64 u64_uns); [apply w_V, in_range_U64; lia|apply ev_K; lia|lia]|reflexivity|].
  apply Z.mod_small. cbn [width]. lia.
Qed.
Lemma mulK64 e a k : ev e U64 a -> 0 <= k < 2 ^ 31 -> 0 <= a * k < 2 ^ 64 -> ev (e * K k)%C U64 (a * k).
Proof.
  clear. intros Ha Hk H. apply (ev_bin OMul _ _ U64 I32 a k); try reflexivity; try discriminate;
    [exact Ha|apply ev_K; lia|apply Ha|apply in_range_U64; lia|intros _; apply in_range_U64; exact H].
Qed.
Lemma cast_u32 a : 0 <= a < 2 ^ 64 -> asg U32 (V U64 a) = Some (u32 a).
Proof. clear. intros Ha. apply (ev_asg_mod U32 _ U64); [apply w_V, in_range_U64, Ha|discriminate]. Qed.
Lemma u32_bytes_len v : length (u32_to_bytes v) = 4%nat. Proof. reflexivity. Qed.
Lemma u32_b v : u32_to_bytes_c (u32 v) = Some (u32_to_bytes (u32 v)).
Proof. clear. apply u32_to_bytes_c_ok. apply Z.mod_pos_bound. lia. Qed.

Lemma mgf1_loop_ok outlen inlen : Z.of_nat outlen + 64 < 2 ^ 64 -> Z.of_nat inlen + 4 < 2 ^ 64 ->
  forall fuel i inbuf done, (outlen < fuel + i)%nat -> (i * out <= outlen)%nat -> length inbuf = (inlen + 4)%nat ->
  agree (fun p => let '(i, b, _) := p in exists n, i = Z.of_nat n /\ (n * out <= outlen)%nat /\ length b = (inlen + 4)%nat)
    (mgf1_loop_c sha_c (Z.of_nat out) fuel (Z.of_nat i) (Z.of_nat outlen) inbuf (Z.of_nat inlen) done)
    (' (i, b, d) <- mgf1_loop sha out fuel i outlen inbuf inlen done ;; Some (Z.of_nat i, b, d)).
Proof.
  intros Ho Hi. induction fuel as [|fuel IH]; intros i inbuf done Hf Hio Hb.
  - clear - Hout Hf Hio. nia.
  - assert (Hi2 : (i <= outlen)%nat) by (clear - Hout Hio; nia).
    assert (Hm : (Z.of_nat i + 1) * Z.of_nat out <= Z.of_nat outlen + 64) by (clear - Hout Hio; nia).
    cbn [mgf1_loop_c mgf1_loop].
    assert (E : ev ((V U64 (Z.of_nat i) + K 1) * K (Z.of_nat out))%C U64 ((Z.of_nat i + 1) * Z.of_nat out)).
    { apply mulK64; [apply addK64; lia|lia|]. split; [clear; nia|lia]. }
    rewrite (cond_ge _ _ U64 U64 (Z.of_nat outlen) ((Z.of_nat i + 1) * Z.of_nat out));
      [|apply w_V, in_range_U64; lia|exact E|apply in_range_U64; lia|apply E].
    cbn [bind]. clear E. destruct (Nat.ltb_spec outlen ((i + 1) * out)) as [L|L].
    + replace ((Z.of_nat i + 1) * Z.of_nat out <=? Z.of_nat outlen) with false by (clear - L; nia). cbn [bind].
      apply agree_ret. exists i. split; [reflexivity|split; [exact Hio|exact Hb]].
    + replace ((Z.of_nat i + 1) * Z.of_nat out <=? Z.of_nat outlen) with true by (clear - L; nia).
      rewrite cast_u32 by lia. cbn [bind]. rewrite u32_b. cbn [bind]. rewrite Nat2Z.id.
      destruct (wr inbuf inlen (u32_to_bytes (u32 (Z.of_nat i)))) as [b1|] eqn:E1; [|exact (agree_none _)]. cbn [bind].
      assert (L1 : length b1 = (inlen + 4)%nat) by (rewrite (wr_length _ _ _ _ E1); exact Hb).
      rewrite (rd_all b1) by lia. cbn [bind].
      rewrite Hsha; [|rewrite (w_asg U64 _ _ (addK64 (Z.of_nat inlen) 4 ltac:(lia) ltac:(lia) ltac:(lia))); f_equal; lia|lia].
      destruct (sha b1) as [h|]; [|exact (agree_none _)]. cbn [bind].
      rewrite (w_asg U64 _ _ (addK64 (Z.of_nat i) 1 ltac:(lia) ltac:(lia) ltac:(lia))). cbn [bind].
      replace (Z.of_nat i + 1) with (Z.of_nat (S i)) by lia. apply IH; [lia|clear - L; nia|exact L1].
Qed.
Theorem mgf1_c_ok outlen inp : Z.of_nat outlen + 64 < 2 ^ 64 -> Z.of_nat (length inp) + 4 < 2 ^ 64 ->
  mgf1_c junk sha_c (Z.of_nat out) (Z.of_nat outlen) inp (Z.of_nat (length inp)) = mgf1_gen junk sha out outlen inp.
Proof.
  intros Ho Hi. unfold mgf1_c, mgf1_gen. rewrite (ix_is _ U64 _ (length inp + 4) (addK64 (Z.of_nat (length inp)) 4 ltac:(lia) ltac:(lia) ltac:(lia))) by lia.
  cbn [bind]. rewrite !Nat2Z.id. rewrite rd_all by reflexivity. cbn [bind].
  destruct (wr (junk_bytes junk (length inp + 4)) 0 inp) as [b0|] eqn:E0; [|reflexivity]. cbn [bind].
  assert (L0 : length b0 = (length inp + 4)%nat) by (rewrite (wr_length _ _ _ _ E0), junk_length; reflexivity).
  destruct (mgf1_loop_ok outlen (length inp) Ho Hi (S outlen) 0 b0 [] ltac:(lia) ltac:(lia) L0) as [R Q].
  change (Z.of_nat 0) with 0 in R. rewrite R. clear R.
  destruct (mgf1_loop sha out (S outlen) 0 outlen b0 (length inp) []) as [[[i b] d]|]; [|reflexivity]. cbn [bind] in *.
  specialize (Q _ eq_refl). cbn in Q. destruct Q as (n & En & Hn & Lb). apply Nat2Z.inj in En. subst n.
  assert (Hi2 : (i <= outlen)%nat) by (clear - Hout Hn; nia).
  assert (E : ev (V U64 (Z.of_nat i) * K (Z.of_nat out))%C U64 (Z.of_nat i * Z.of_nat out))
    by (apply mulK64; [apply w_V, in_range_U64; lia|lia|split; [clear; nia|clear - Hn Ho; nia]]).
  rewrite (cond_lt _ _ U64 (Z.of_nat i * Z.of_nat out) (Z.of_nat outlen)).
  2: exact E.
  2: { exists U64. split; [apply w_V, in_range_U64; lia|]. split; [apply E|apply in_range_U64; lia]. }
  cbn [bind]. replace (Z.of_nat i * Z.of_nat out <? Z.of_nat outlen) with (i * out <? outlen)%nat by (clear; lia).
  destruct (Nat.ltb_spec (i * out) outlen) as [L|L]; [|reflexivity].
  rewrite cast_u32 by lia. cbn [bind]. rewrite u32_b. cbn [bind].
  destruct (wr b (length inp) (u32_to_bytes (u32 (Z.of_nat i)))) as [b1|] eqn:E1; [|reflexivity]. cbn [bind].
  assert (L1 : length b1 = (length inp + 4)%nat) by (rewrite (wr_length _ _ _ _ E1); exact Lb).
  rewrite (rd_all b1) by lia. cbn [bind].
  rewrite Hsha; [|rewrite (w_asg U64 _ _ (addK64 (Z.of_nat (length inp)) 4 ltac:(lia) ltac:(lia) ltac:(lia))); f_equal; lia|lia].
  destruct (sha b1) as [h|]; [|reflexivity]. cbn [bind].
  assert (E2 : ev (V U64 (Z.of_nat outlen) - V U64 (Z.of_nat i) * K (Z.of_nat out))%C U64 (Z.of_nat outlen - Z.of_nat i * Z.of_nat out)).
  { apply (ev_bin OSub _ _ U64 U64); [apply w_V, in_range_U64; lia|exact E|reflexivity|apply in_range_U64; lia|apply E|discriminate|].
    intros _. apply in_range_U64. cbn [opz]. lia. }
  rewrite (ix_is _ U64 _ (outlen - i * out) E2) by (clear - L; nia). reflexivity.
Qed.
End Mgf.
Theorem mgf1_256_c_ok junk outlen inp : Z.of_nat outlen + 64 < 2 ^ 64 -> Z.of_nat (length inp) + 4 < 2 ^ 64 ->
  mgf1_256_c junk (Z.of_nat outlen) inp (Z.of_nat (length inp)) = mgf1_256 junk outlen inp.
Proof. apply (mgf1_c_ok junk (sha256_c junk) (sha256 junk) 32); [lia|apply sha256_c_ok]. Qed.
Theorem mgf1_512_c_ok junk outlen inp : Z.of_nat outlen + 64 < 2 ^ 64 -> Z.of_nat (length inp) + 4 < 2 ^ 64 ->
  mgf1_512_c junk (Z.of_nat outlen) inp (Z.of_nat (length inp)) = mgf1_512 junk outlen inp.
Proof. apply (mgf1_c_ok junk (sha512_c junk) (sha512 junk) 64); [lia|apply sha512_c_ok]. Qed.
