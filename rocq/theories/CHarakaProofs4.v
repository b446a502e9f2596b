(** The C-typed Haraka: the sponge and the tweaked constants. *)
From Verif Require Import Base BaseFacts Haraka CInt CCore CIntFacts CCoreProofs CWord CSha2 CSha2Proofs CFips202 CFips202Proofs CHaraka.
From Verif Require Import HarakaProofs HarakaSponge ShakeProofs CHarakaProofs CHarakaProofs2 CHarakaProofs3.
Local Open Scope Z_scope.
Local Notation Q32 := (Q8 U32).
Local Notation Q64 := (Q8 U64).

(** ** Expressions of the sponge *)
Lemma xor8 a b : asg U8 (B a .^ B b)%C = Some (u8 (Z.lxor a b)).
Proof.
  assert (E : ev (B a .^ B b)%C I32 (Z.lxor (u8 a) (u8 b))).
  { apply (ev_bin OXor _ _ U8 U8); try reflexivity; try discriminate; try apply ev_B;
      [| |intros _; cbn [opz]]; apply in_range_I32; pose proof (u8_range a); pose proof (u8_range b); try lia.
    pose proof (lxor_bound 8 (u8 a) (u8 b) ltac:(lia) ltac:(lia) ltac:(lia)). lia. }
  rewrite (ev_asg_mod U8 _ I32 _ E) by discriminate. cbn [width]. f_equal. unfold u8.
  change 256 with (2 ^ 8). rewrite <- !Z.land_ones by lia. rewrite land_lxor_distr, <- !Z.land_assoc, Z.land_diag, <- land_lxor_distr. reflexivity.
Qed.
Lemma xor8K a k : is_byte a -> 0 <= k < 256 -> asg U8 (B a .^ K k)%C = Some (u8 (Z.lxor a k)).
Proof.
  intros Ha Hk. assert (E : ev (B a .^ K k)%C I32 (Z.lxor (u8 a) k)).
  { apply (ev_bin OXor _ _ U8 I32); try reflexivity; try discriminate; [apply ev_B|apply ev_K; lia| | |intros _; cbn [opz]];
      apply in_range_I32; pose proof (u8_range a); try lia.
    pose proof (lxor_bound 8 (u8 a) k ltac:(lia) ltac:(lia) ltac:(lia)). lia. }
  rewrite (ev_asg_mod U8 _ I32 _ E) by discriminate. cbn [width]. f_equal. now rewrite (u8_id a Ha).
Qed.
Lemma copy8 x : asg U8 (B x) = Some (u8 x).
Proof. apply (ev_asg U8 _ U8); [apply ev_B|apply in_range_U8, u8_range]. Qed.
Lemma evB c : (c < 256)%nat -> ev (B (Z.of_nat c)) U8 (Z.of_nat c).
Proof. intros H. eapply ev_as; [apply ev_B|reflexivity|]. unfold u8. apply Z.mod_small. lia. Qed.
Lemma addB c i : (c < 256)%nat -> Z.of_nat i + 256 < 2 ^ 64 -> ev (B (Z.of_nat c) + V U64 (Z.of_nat i))%C U64 (Z.of_nat (c + i)).
Proof.
  intros Hc Hi. eapply ev_as; [apply (ev_bin OAdd _ _ U8 U64); [apply evB, Hc|apply w_V, in_range_U64; lia|reflexivity|apply in_range_U64; lia|apply in_range_U64; lia|discriminate|]|reflexivity|cbn [opz]; lia].
  intros _. cbn [opz]. apply in_range_U64. lia.
Qed.
Lemma addB' c i : (c < 256)%nat -> Z.of_nat i + 256 < 2 ^ 64 -> ev (V U64 (Z.of_nat i) + B (Z.of_nat c))%C U64 (Z.of_nat (c + i)).
Proof.
  intros Hc Hi. eapply ev_as; [apply (ev_bin OAdd _ _ U64 U8); [apply w_V, in_range_U64; lia|apply evB, Hc|reflexivity|apply in_range_U64; lia|apply in_range_U64; lia|discriminate|]|reflexivity|cbn [opz]; lia].
  intros _. cbn [opz]. apply in_range_U64. lia.
Qed.
Lemma subR e c t : t = U8 \/ t = I32 -> (c <= 32)%nat -> ev e t (Z.of_nat c) -> ev (xHRATE - e)%C I32 (Z.of_nat (32 - c)).
Proof.
  intros Ht Hc He. replace (Z.of_nat (32 - c)) with (32 - Z.of_nat c) by lia.
  assert (C : common (promote I32) (promote t) = I32) by (destruct Ht as [->| ->]; reflexivity).
  pose proof (ev_bin OSub xHRATE e I32 t 32 _ ltac:(apply ev_K; lia) He eq_refl) as F. cbn zeta in F. rewrite C in F.
  apply F; [apply in_range_I32; lia|apply in_range_I32; lia|discriminate|intros _; cbn [opz]; apply in_range_I32; lia].
Qed.
Lemma subR64 c : (c <= 32)%nat -> ev (Cast U64 (xHRATE - B (Z.of_nat c)))%C U64 (Z.of_nat (32 - c)).
Proof. intros Hc. apply (ev_cast U64 _ I32); [apply (subR _ c U8); [now left|exact Hc|apply evB; lia]|apply in_range_U64; lia]. Qed.
Lemma iter_inv {S : Type} (Inv : S -> Prop) (f : nat -> S -> option S) : (forall i s s', Inv s -> f i s = Some s' -> Inv s') ->
  forall n i s s', Inv s -> iterM n i f s = Some s' -> Inv s'.
Proof.
  intros H. induction n as [|n IH]; intros i s s' Hs; cbn [iterM]; [intros [= <-]; exact Hs|].
  destruct (f i s) as [s1|] eqn:E; [|discriminate]. cbn [bind]. apply IH. exact (H i s s1 Hs E).
Qed.
Lemma wr_bytes s i x s' : all_bytes s -> all_bytes x -> wr s i x = Some s' -> all_bytes s'.
Proof.
  intros Hs Hx. unfold wr. destruct (_ <=? _)%nat; [|discriminate]. intros [= <-]. unfold all_bytes in *. rewrite !Forall_app. split; [|split; [exact Hx|]].
  - rewrite <- (firstn_skipn i s) in Hs. apply Forall_app in Hs. apply Hs.
  - rewrite <- (firstn_skipn (i + length x) s) in Hs. apply Forall_app in Hs. apply Hs.
Qed.
Lemma u8_one z : all_bytes [u8 z]. Proof. repeat constructor; apply u8_range. Qed.
Lemma rd_bytes s i n x : all_bytes s -> rd s i n = Some x -> all_bytes x.
Proof.
  intros Hs E. unfold all_bytes in *. rewrite Forall_forall in *. intros y Hy. apply Hs. unfold rd in E. destruct (_ <=? _)%nat; [|discriminate]. injection E as <-.
  rewrite <- (firstn_skipn i s). apply in_or_app. right. rewrite <- (firstn_skipn n (skipn i s)). apply in_or_app. now left.
Qed.
Lemma get_byte (s : bytes) i x : all_bytes s -> get s i = Some x -> is_byte x.
Proof. intros Hs E. apply nth_error_In in E. unfold all_bytes in Hs. rewrite Forall_forall in Hs. now apply Hs. Qed.
Lemma nth_byte (s : bytes) i : all_bytes s -> (i < length s)%nat -> u8 (nth i s 0) = nth i s 0.
Proof. intros Hs H. apply u8_id. unfold all_bytes in Hs. rewrite Forall_forall in Hs. apply Hs, nth_In, H. Qed.

Section Sponge.
Variables (perm_c : bytes -> bytes -> option bytes) (perm : bytes -> option bytes).
Hypothesis Hperm : forall s, (64 <= length s)%nat -> perm_c s s = (y <- perm (firstn 64 s) ;; wr s 0 y).
Hypothesis Hst : forall x y, length x = 64%nat -> perm x = Some y -> st_ok y.

Lemma perm64 s : st_ok s -> agree st_ok (perm_c s s) (perm s).
Proof.
  intros [L Bs]. rewrite Hperm by lia. rewrite firstn_all2 by lia. destruct (perm s) as [y|] eqn:E; [|exact (agree_none _)]. cbn [bind].
  pose proof (Hst s y L E) as Ky. rewrite wr_all by (destruct Ky; lia). apply agree_ret, Ky.
Qed.
Lemma xor_block_c_ok s x o : xor_block_c 32 s x o = xor_block 32 s (skipn o x).
Proof.
  clear. unfold xor_block_c, xor_block. apply (cfor_gen (fun _ _ => True) 32); [lia|intros; apply lt32; lia| |lia|exact Logic.I].
  intros i s1 Hi _. split; [|auto]. rewrite ixn by lia. cbn [bind]. rewrite get_skip.
  destruct (get s1 i) as [a|]; [|reflexivity]. destruct (get x (o + i)) as [b|]; [|reflexivity]. cbn [bind]. now rewrite xor8.
Qed.
Lemma xor_block_st s x s' : st_ok s -> xor_block 32 s x = Some s' -> st_ok s'.
Proof.
  clear. unfold xor_block. apply (iter_inv st_ok). intros i s1 s2 [L1 B1]. destruct (get s1 i) as [a|]; [|discriminate]. destruct (get x i) as [b|]; [|discriminate].
  cbn [bind]. intros E. split; [rewrite (wr_length _ _ _ _ E); exact L1|exact (wr_bytes _ _ _ _ B1 (u8_one _) E)].
Qed.
Lemma hsub l : 32 <= l < 2 ^ 64 -> asg U64 (V U64 l - V U32 32)%C = Some (l - 32).
Proof. clear. intros H. apply w_asg. apply (sub64 _ _ U64 U32); [left; reflexivity|apply w_V, in_range_U64; lia|apply w_V, in_range_U32; lia|lia|lia]. Qed.
Definition absorb_tail_c (t0 m : bytes) (p : Z) (x : bytes * nat * Z) : option bytes :=
  let '(s, o, mlen) := x in
  t <- cfor (S (Z.to_nat 32)) U64 0 (V U32 32) (fun i t => j <- ix (V U64 i) ;; x <- asg U8 (K 0) ;; wr t j [x]) t0 ;;
  ' (i, t) <- cloop (S (Z.to_nat mlen)) U64 0 (fun i _ => cond (V U64 i < V U64 mlen)%C) (fun i t =>
     j <- ix (V U64 i) ;; x <- get m (o + j) ;; x <- asg U8 (B x) ;; wr t j [x]) t ;;
  j <- ix (V U64 i) ;; x <- asg U8 (V U8 p) ;; t <- wr t j [x] ;;
  j <- ix (V U32 32 - K 1)%C ;; x <- get t j ;; x <- asg U8 (B x .| K 128)%C ;; t <- wr t j [x] ;;
  xor_block_c 32 s t 0.
Lemma absorb_tail_ok t0 m p s o : length t0 = 32%nat -> 0 <= p < 256 -> (o <= length m)%nat -> (length m - o < 32)%nat -> st_ok s ->
  agree st_ok (absorb_tail_c t0 m p (s, o, Z.of_nat (length m - o)))
    (t <- wr (repeat 0 32) 0 (map u8 (skipn o m)) ;; t <- wr t (length m - o) [p] ;; x <- get t (32 - 1) ;; t <- wr t (32 - 1) [Z.lor x 128] ;; xor_block 32 s t).
Proof.
  clear. intros Lt Hp Ho Hl Hs. unfold absorb_tail_c. rewrite Nat2Z.id.
  assert (X0 : cfor (S (Z.to_nat 32)) U64 0 (V U32 32) (fun i t => j <- ix (V U64 i) ;; x <- asg U8 (K 0) ;; wr t j [x]) t0 = Some (repeat 0 32)).
  { rewrite (cfor_gen (fun _ t => length t = 32%nat) 32 _ _ (fun j b => wr b j [0])); [|lia|intros; apply lt32; lia| |lia|exact Lt].
    - rewrite (iter_set (fun _ => 0)) by lia. rewrite map_seq_const. apply wr_all. rewrite repeat_length. lia.
    - intros i b Hi Hb. split; [rewrite ixn by lia; reflexivity|]. intros b' E. now rewrite (wr_length _ _ _ _ E). }
  rewrite X0. cbn [bind]. set (mm := skipn o m). assert (Lm : length mm = (length m - o)%nat) by (unfold mm; apply skipn_length). rewrite <- Lm in *.
  set (st := fun i => map u8 (firstn i mm) ++ repeat 0 (32 - i)).
  assert (X1 : cloop (S (length mm)) U64 0 (fun i _ => cond (V U64 i < V U64 (Z.of_nat (length mm)))%C) (fun i t =>
     j <- ix (V U64 i) ;; x <- get m (o + j) ;; x <- asg U8 (B x) ;; wr t j [x]) (st 0%nat) = Some (Z.of_nat (length mm), st (length mm))).
  { apply (cloop_det st (length mm)); [lia|intros; apply lt64; lia| |lia].
    intros i Hi. rewrite ixn by lia. cbn [bind]. rewrite <- get_skip. fold mm. rewrite (ShakeProofs.get_nth mm i 0) by lia. cbn [bind]. rewrite copy8. cbn [bind]. unfold st.
    replace (32 - i)%nat with (S (32 - S i)) by lia. cbn [repeat].
    change (0 :: repeat 0 (32 - S i)) with ([0] ++ repeat 0 (32 - S i)). rewrite wr_mid; [|rewrite map_length, firstn_length; lia|reflexivity].
    rewrite (firstn_snoc mm i 0) by lia. rewrite map_app, <- app_assoc. reflexivity. }
  change (repeat 0 32) with (st 0%nat) at 1. rewrite X1. cbn [bind]. rewrite ixn by lia. cbn [bind].
  assert (W : wr (repeat 0 32) 0 (map u8 mm) = Some (st (length mm))).
  { replace (repeat 0 32) with (repeat 0 (length mm) ++ repeat 0 (32 - length mm)) by (rewrite <- repeat_app; f_equal; lia).
    rewrite wr_app0 by (rewrite map_length, repeat_length; lia). unfold st. now rewrite firstn_all. }
  rewrite W. cbn [bind]. clear X0 X1 W.
  rewrite (ev_asg U8 _ U8 p) by (try apply ev_V; apply in_range_U8; lia). cbn [bind].
  assert (By : all_bytes (st (length mm))).
  { unfold st, all_bytes. rewrite Forall_app. split; [apply Forall_forall; intros x Hx; apply in_map_iff in Hx; destruct Hx as (y & <- & _); apply u8_range|].
    apply Forall_forall. intros x Hx. apply repeat_spec in Hx. subst x. unfold is_byte. lia. }
  destruct (wr (st (length mm)) (length mm) [p]) as [t|] eqn:Et; [|exact (agree_none _)]. cbn [bind].
  assert (Bt : all_bytes t) by (apply (wr_bytes _ _ _ _ By) in Et; [exact Et|repeat constructor; unfold is_byte; lia]).
  assert (E31 : ix (V U32 32 - K 1)%C = Some 31%nat) by reflexivity. rewrite E31. cbn [bind].
  change (32 - 1)%nat with 31%nat. destruct (get t 31) as [x|] eqn:Ex; [|exact (agree_none _)]. cbn [bind].
  pose proof (get_byte _ _ _ Bt Ex) as Bx. unfold is_byte in Bx.
  assert (Eo : asg U8 (B x .| K 128)%C = Some (Z.lor x 128)).
  { assert (R : 0 <= Z.lor x 128 < 256).
    { split; [apply Z.lor_nonneg; lia|]. destruct (Z.eq_dec (Z.lor x 128) 0) as [->|N]; [lia|]. assert (0 <= Z.lor x 128) by (apply Z.lor_nonneg; lia).
      change 256 with (2 ^ 8). apply Z.log2_lt_pow2; [lia|]. rewrite Z.log2_lor by lia. apply Z.max_lub_lt; [|reflexivity].
      destruct (Z.eq_dec x 0) as [->|]; [reflexivity|]. apply Z.log2_lt_pow2; lia. }
    apply (ev_asg U8 _ I32); [|apply in_range_U8; exact R].
    apply (ev_bin OOr _ _ U8 I32); [|apply ev_K; lia|reflexivity|apply in_range_I32; lia|apply in_range_I32; lia|discriminate|].
    - eapply ev_as; [apply ev_B|reflexivity|]. apply u8_id. exact Bx.
    - intros _. cbn [opz]. apply in_range_I32. lia. }
  rewrite Eo. cbn [bind]. destruct (wr t 31 [Z.lor x 128]) as [t'|]; [|exact (agree_none _)]. cbn [bind].
  rewrite xor_block_c_ok. cbn [skipn]. split; [reflexivity|]. intros s' E. exact (xor_block_st _ _ _ Hs E).
Qed.
Lemma absorb_loop_ok t0 p m : length t0 = 32%nat -> 0 <= p < 256 -> Z.of_nat (length m) < 2 ^ 64 -> forall fuel fuel' o s, (o <= length m)%nat ->
  (length m - o <= fuel)%nat -> (length m - o < fuel')%nat -> st_ok s ->
  agree st_ok (x <- haraka_absorb_loop_c perm_c fuel' 32 m o (Z.of_nat (length m - o)) s ;; absorb_tail_c t0 m p x)
    (haraka_S_absorb perm fuel 32 s (skipn o m) p).
Proof.
  intros Lt Hp Hm. induction fuel as [|fuel IH]; intros fuel' o s Ho Hf Hf' Hs; (destruct fuel' as [|fuel']; [lia|]);
    cbn [haraka_S_absorb haraka_absorb_loop_c]; cbv zeta; rewrite skipn_length;
    (rewrite (cond_ge _ _ U64 U32 (Z.of_nat (length m - o)) 32);
      [|apply w_V, in_range_U64; lia|apply w_V, in_range_U32; lia|apply in_range_U64; lia|apply in_range_U64; lia]); cbn [bind];
    destruct (Nat.ltb_spec (length m - o) 32) as [C|C].
  - replace (32 <=? Z.of_nat (length m - o)) with false by lia. cbn [bind]. apply absorb_tail_ok; assumption.
  - lia.
  - replace (32 <=? Z.of_nat (length m - o)) with false by lia. cbn [bind]. apply absorb_tail_ok; assumption.
  - replace (32 <=? Z.of_nat (length m - o)) with true by lia. rewrite xor_block_c_ok.
    destruct (xor_block 32 s (skipn o m)) as [s1|] eqn:E1; [|exact (agree_none _)]. cbn [bind].
    destruct (perm64 s1 (xor_block_st _ _ _ Hs E1)) as [-> K2]. destruct (perm s1) as [s2|]; [|exact (agree_none _)]. cbn [bind]. specialize (K2 s2 eq_refl).
    rewrite hsub by lia. cbn [bind]. rewrite skip_skip. change (Z.to_nat 32) with 32%nat.
    replace (Z.of_nat (length m - o) - 32) with (Z.of_nat (length m - (o + 32))) by lia. apply IH; [lia|lia|lia|exact K2].
Qed.
Lemma absorb_c_ok t0 s er ep p m : length t0 = 32%nat -> asg U32 er = Some 32 -> asg U8 ep = Some p -> 0 <= p < 256 -> Z.of_nat (length m) < 2 ^ 64 -> st_ok s ->
  agree st_ok (haraka_S_absorb_c perm_c t0 s er m (Z.of_nat (length m)) ep) (haraka_S_absorb perm (length m) 32 s m p).
Proof.
  intros Lt Er Ep Hp Hm Hs. unfold haraka_S_absorb_c. rewrite Er, Ep. cbn [bind]. rewrite Nat2Z.id.
  pose proof (absorb_loop_ok t0 p m Lt Hp Hm (length m) (S (length m)) 0 s ltac:(lia) ltac:(lia) ltac:(lia) Hs) as A.
  rewrite Nat.sub_0_r in A. cbn [skipn] in A. destruct A as [A1 A2]. split; [|exact A2]. rewrite <- A1. clear.
  destruct (haraka_absorb_loop_c _ _ _ _ _ _ _) as [[[s1 o1] l1]|]; reflexivity.
Qed.
Lemma squeezeblocks_c_ok : forall n fuel h s, fuel = S n -> Z.of_nat n < 2 ^ 64 -> st_ok s ->
  haraka_S_squeezeblocks_c perm_c fuel h (length h) (Z.of_nat n) s 32 = ('(r, s') <- haraka_S_squeezeblocks perm n s ;; Some (h ++ r, s'))
  /\ (forall r s', haraka_S_squeezeblocks perm n s = Some (r, s') -> st_ok s' /\ all_bytes r /\ length r = (32 * n)%nat).
Proof.
  induction n as [|n IH]; intros fuel h s Ef Hn Hs; (destruct fuel as [|fuel]; [discriminate|]); injection Ef as Ef; cbn [haraka_S_squeezeblocks haraka_S_squeezeblocks_c];
    rewrite gt0 by lia; cbn [bind].
  - cbn [Z.of_nat Z.ltb Z.compare]. rewrite app_nil_r. split; [reflexivity|]. intros r s' [= <- <-]. repeat split; try apply Hs. constructor.
  - replace (0 <? Z.of_nat (S n)) with true by lia. destruct (perm64 s Hs) as [-> K1].
    destruct (perm s) as [s1|]; [|split; [reflexivity|discriminate]]. cbn [bind]. specialize (K1 s1 eq_refl).
    assert (E32 : ix xHRATE = Some HARAKAS_RATE) by reflexivity. rewrite E32. cbn [bind].
    destruct (rd s1 0 HARAKAS_RATE) as [x|] eqn:Ex; [|split; [reflexivity|discriminate]]. cbn [bind].
    rewrite put_at by reflexivity. cbn [bind]. rewrite dec1 by lia. cbn [bind]. replace ((Z.of_nat (S n) - 1) mod 2 ^ 64) with (Z.of_nat n) by (rewrite Z.mod_small; lia).
    assert (Lx : length x = 32%nat) by (apply rd_length in Ex; exact Ex).
    destruct (IH fuel (h ++ x) s1 Ef ltac:(lia) K1) as [G1 G2]. rewrite app_length, Lx in G1. change (Z.to_nat 32) with 32%nat. rewrite G1.
    destruct (haraka_S_squeezeblocks perm n s1) as [[r s2]|]; [|split; [reflexivity|discriminate]]. cbn [bind]. rewrite <- app_assoc. split; [reflexivity|].
    intros r' s' [= <- <-]. destruct (G2 r s2 eq_refl) as (A & Bq & C). split; [exact A|]. split; [|rewrite app_length; lia].
    unfold all_bytes. rewrite Forall_app. split; [|exact Bq]. apply (rd_bytes s1 0 HARAKAS_RATE); [apply K1|exact Ex].
Qed.
Lemma zero64 s0 : length s0 = 64%nat -> cfor 65 U64 0 (K 64) (fun i s => j <- ix (V U64 i) ;; x <- asg U8 (K 0) ;; wr s j [x]) s0 = Some (repeat 0 64).
Proof.
  clear. intros L. rewrite (cfor_gen (fun _ t => length t = 64%nat) 64 _ _ (fun j b => wr b j [0])); [|lia|intros; apply ltK; lia| |lia|exact L].
  - rewrite (iter_set (fun _ => 0)) by lia. rewrite map_seq_const. apply wr_all. rewrite repeat_length. lia.
  - intros i b Hi Hb. split; [rewrite ixn by lia; reflexivity|]. intros b' E. now rewrite (wr_length _ _ _ _ E).
Qed.
Lemma ev_div32 n : Z.of_nat n < 2 ^ 64 -> ev (V U64 (Z.of_nat n) / K 32)%C U64 (Z.of_nat (n / 32)).
Proof.
  clear. intros H. assert (D : (Z.of_nat n) / 32 = Z.of_nat (n / 32)) by (rewrite Nat2Z.inj_div; reflexivity).
  eapply ev_as; [apply (ev_bin ODiv _ _ U64 I32 (Z.of_nat n) 32)|reflexivity|cbn [opz]];
      try reflexivity; try (apply in_range_U64; lia); try (apply ev_K; lia); try discriminate.
  - apply w_V, in_range_U64. lia.
  - intros _. cbn [opz]. rewrite Z.quot_div_nonneg by lia. apply in_range_U64. split; [apply Z.div_pos; lia|].
    apply Z.le_lt_trans with (Z.of_nat n); [|lia]. apply Z.div_le_upper_bound; lia.
  - rewrite Z.quot_div_nonneg by lia. exact D.
Qed.
Lemma ev_mod32 n : Z.of_nat n < 2 ^ 64 -> ev (V U64 (Z.of_nat n) %% K 32)%C U64 (Z.of_nat (n mod 32)).
Proof.
  clear. intros H. assert (D : (Z.of_nat n) mod 32 = Z.of_nat (n mod 32)) by (rewrite Nat2Z.inj_mod; reflexivity).
  eapply ev_as; [apply (ev_bin OMod _ _ U64 I32 (Z.of_nat n) 32)|reflexivity|cbn [opz]];
      try reflexivity; try (apply in_range_U64; lia); try (apply ev_K; lia); try discriminate.
  - apply w_V, in_range_U64. lia.
  - intros _. cbn [opz]. rewrite Z.rem_mod_nonneg by lia. apply in_range_U64. pose proof (Z.mod_pos_bound (Z.of_nat n) 32 ltac:(lia)). lia.
  - rewrite Z.rem_mod_nonneg by lia. exact D.
Qed.
Theorem haraka_S_c_ok t0 s0 n m el : length t0 = 32%nat -> length s0 = 64%nat -> Z.of_nat n < 2 ^ 64 -> Z.of_nat (length m) < 2 ^ 64 ->
  asg U64 el = Some (Z.of_nat (length m)) ->
  haraka_S_c perm_c t0 s0 (Z.of_nat n) m el = haraka_S perm n m.
Proof.
  intros Lt Ls Hn Hm El. unfold haraka_S_c, haraka_S. rewrite El. cbn [bind]. rewrite zero64 by exact Ls. cbn [bind].
  destruct (absorb_c_ok t0 (repeat 0 64) (K 32) (Hex 0x1F) 0x1F m Lt eq_refl eq_refl ltac:(lia) Hm st_init) as [-> K1].
  destruct (haraka_S_absorb perm (length m) 32 (repeat 0 64) m 31) as [s1|]; [|reflexivity]. cbn [bind]. specialize (K1 s1 eq_refl).
  rewrite (w_asg U64 _ _ (ev_div32 n Hn)). cbn [bind]. rewrite Nat2Z.id.
  pose proof (Nat.div_mod n 32 ltac:(lia)) as DM. pose proof (Nat.mod_upper_bound n 32 ltac:(lia)) as MB.
  set (q := (n / 32)%nat) in *. set (r := (n mod 32)%nat) in *.
  assert (Em : ev (V U64 (Z.of_nat n) / K 32 * K 32)%C U64 (Z.of_nat (32 * q))).
  { eapply ev_as; [apply (ev_bin OMul _ _ U64 I32 (Z.of_nat q) 32)|reflexivity|cbn [opz]; lia];
      try reflexivity; try (apply in_range_U64; lia); try (apply ev_K; lia); try discriminate.
    - apply ev_div32, Hn.
    - intros _. cbn [opz]. apply in_range_U64. lia. }
  pose proof (ev_mod32 n Hn) as Er. fold r in Er. clearbody q r.
  destruct (squeezeblocks_c_ok q (S q) [] s1 eq_refl ltac:(lia) K1) as [G1 G2]. cbn [length app] in G1. rewrite G1.
  destruct (haraka_S_squeezeblocks perm q s1) as [[h s2]|]; [|reflexivity]. cbn [bind]. destruct (G2 h s2 eq_refl) as (K2 & _ & Lh). clear G1 G2.
  rewrite (ev_ix _ U64 _ Em) by lia. cbn [bind]. rewrite Nat2Z.id. rewrite (ev_cond _ U64 _ Er). cbn [bind].
  destruct (Nat.eqb_spec r 0) as [->|Hr]; [reflexivity|]. replace (negb (Z.of_nat r =? 0)) with true by (destruct (Z.eqb_spec (Z.of_nat r) 0); [lia|reflexivity]).
  assert (E1 : asg U64 (K 1) = Some 1) by reflexivity. rewrite E1. cbn [bind].
  destruct (squeezeblocks_c_ok 1 2 [] s2 eq_refl ltac:(lia) K2) as [G1 G2]. cbn [length app] in G1. change (Z.of_nat 1) with 1 in G1. rewrite G1.
  destruct (haraka_S_squeezeblocks perm 1 s2) as [[d s3]|]; [|reflexivity]. cbn [bind]. destruct (G2 d s3 eq_refl) as (_ & Bd & Ld). clear G1 G2.
  rewrite rd_ok by lia. cbn [bind skipn].
  set (st := fun i => h ++ firstn i d). assert (E0 : st 0%nat = h) by (unfold st; now rewrite app_nil_r).
  rewrite <- E0 at 1. apply (cfor_det st r); [lia| | |lia].
  - intros i Hi. apply (cond_lt64 _ _ U64); [left; exact u64_uns|lia|exact Er|lia].
  - intros i Hi. rewrite ixn by lia. cbn [bind]. rewrite (ShakeProofs.get_nth d i 0) by lia. cbn [bind]. rewrite copy8. cbn [bind]. unfold st.
    rewrite put_at by (rewrite app_length, firstn_length; lia). rewrite (nth_byte d i Bd) by lia. rewrite (firstn_snoc d i 0) by lia. now rewrite app_assoc.
Qed.
End Sponge.
