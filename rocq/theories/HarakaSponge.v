(** Haraka-256, Haraka-512, the Haraka sponge and the tweaked constants of ref/haraka.c. *)
From Verif Require Import Base BaseFacts KeccakSpec HarakaSpec Haraka ShakeProofs SpongeFacts HarakaProofs.
Local Notation xor_bytes := KeccakSpec.xor_bytes.

(** ** Lengths and bytes *)
Lemma u8_id x : is_byte x -> u8 x = x.
Proof. intros H. unfold u8. apply Z.mod_small. exact H. Qed.
Lemma lxor_byte a b : is_byte a -> is_byte b -> is_byte (Z.lxor a b).
Proof. intros Ha Hb. rewrite <- (u8_id a), <- (u8_id b) by auto. rewrite <- u8_xor. apply u8_byte. Qed.
Lemma xor_bytes_bytes a : forall b, all_bytes a -> all_bytes b -> all_bytes (xor_bytes a b).
Proof.
  induction a as [|x a IH]; intros [|y b] Ha Hb; cbn [KeccakSpec.xor_bytes]; auto.
  inversion Ha; inversion Hb; subst. constructor; [now apply lxor_byte|]. now apply IH.
Qed.
Lemma xor_at_bytes st p l : all_bytes st -> all_bytes l -> all_bytes (xor_at st p l).
Proof.
  intros Hs Hl. unfold xor_at. apply Forall_app. split; [now apply all_firstn|].
  apply xor_bytes_bytes; auto. now apply Forall_skip.
Qed.
Definition lens (nb : nat) (SS : list (list Z)) : Prop := length SS = nb /\ Forall (fun s => length s = 16%nat) SS.
Lemma aes_layer_lens nb SS K : lens nb SS -> lens nb (aes_layer SS K).
Proof.
  intros [L _]. unfold aes_layer. split; [now rewrite map_length, seq_length|].
  apply Forall_forall. intros s Hs. apply in_map_iff in Hs. destruct Hs as (i & <- & _). reflexivity.
Qed.
Lemma column_len SS k nb : lens nb SS -> (k < 4 * nb)%nat -> length (column SS k) = 4%nat.
Proof.
  intros [L F] Hk. unfold column. rewrite firstn_length, skipn_length.
  assert (k mod 4 < 4)%nat by (apply Nat.mod_upper_bound; lia).
  assert (k / 4 < length SS)%nat by (rewrite L; apply Nat.div_lt_upper_bound; lia).
  rewrite Forall_forall in F. rewrite (F (nth (k / 4) SS [])) by (now apply nth_In). lia.
Qed.
Lemma mix_lens nb perm SS : (forall j, (j < 4 * nb)%nat -> (nth j perm 0 < 4 * nb)%nat) ->
  lens nb SS -> lens nb (mix_columns_of perm SS).
Proof.
  intros Hp H. split; [unfold mix_columns_of; rewrite map_length, seq_length; apply H|].
  apply Forall_forall. intros s Hs. unfold mix_columns_of in Hs. apply in_map_iff in Hs.
  destruct Hs as (i & <- & Hi). apply in_seq in Hi. rewrite (proj1 H) in Hi.
  cbn [flat_map seq]. rewrite !app_length, !(column_len SS _ nb) by (auto; apply Hp; lia). reflexivity.
Qed.
Lemma hperm_lens nb mix RC SS : (forall SS, lens nb SS -> lens nb (mix SS)) -> lens nb SS -> lens nb (hperm nb mix RC SS).
Proof.
  intros Hm. unfold hperm. generalize (seq 0 5). intros l. revert SS.
  induction l as [|t l IH]; intros SS H; cbn [fold_left]; auto. apply IH. unfold hround.
  apply Hm. now apply aes_layer_lens, aes_layer_lens.
Qed.
Lemma blocks_lens nb : forall x, length x = (16 * nb)%nat -> lens nb (blocks nb x).
Proof.
  induction nb as [|nb IH]; intros x L; cbn [blocks]; [split; [reflexivity|constructor]|].
  destruct (IH (skipn 16 x)) as [L' F']; [rewrite skipn_length; lia|]. split; [cbn [length]; lia|].
  constructor; auto. rewrite firstn_length. lia.
Qed.
Lemma lens_concat nb SS : lens nb SS -> length (concat SS) = (16 * nb)%nat.
Proof.
  intros [<- F]. induction F as [|s SS L _ IH]; [reflexivity|]. cbn [concat length]. rewrite app_length. lia.
Qed.
Lemma mix512_lens SS : lens 4 SS -> lens 4 (mix512 SS).
Proof. apply mix_lens. apply (perm_check _ 16). vm_compute. reflexivity. Qed.
Lemma pi512_length RC x : length x = 64%nat -> length (pi512 RC x) = 64%nat.
Proof.
  intros L. unfold pi512.
  assert (E : lens 4 (hperm 4 mix512 RC (blocks 4 x))).
  { apply hperm_lens; [exact mix512_lens|]. apply blocks_lens. exact L. }
  revert E. generalize (hperm 4 mix512 RC (blocks 4 x)). intros SS E. rewrite (lens_concat 4 SS E). reflexivity.
Qed.
Lemma mix256_lens SS : lens 2 SS -> lens 2 (mix256 SS).
Proof. apply mix_lens. apply (perm_check _ 8). vm_compute. reflexivity. Qed.
Lemma pi256_length RC x : length x = 32%nat -> length (pi256 RC x) = 32%nat.
Proof.
  intros L. unfold pi256.
  assert (E : lens 2 (hperm 2 mix256 RC (blocks 2 x))).
  { apply hperm_lens; [exact mix256_lens|]. apply blocks_lens. exact L. }
  revert E. generalize (hperm 2 mix256 RC (blocks 2 x)). intros SS E. rewrite (lens_concat 2 SS E). reflexivity.
Qed.

#[local] Opaque pi512 pi256 haraka512_perm haraka256_perm.

(** ** Exclusive or into a buffer *)
Lemma xor_wr s t i b : all_bytes s -> (i < length s)%nat ->
  wr (s ++ t) i [u8 (Z.lxor (nth i s 0) b)] = Some (xor_at s i [u8 b] ++ t).
Proof.
  intros Hs Hi. destruct (split_at s i 1) as (pre & mid & post & -> & Hp & Hm & _); [lia|].
  destruct mid as [|y [|? ?]]; cbn [length] in Hm; try lia. subst i.
  assert (Hy : is_byte y) by (apply Forall_app in Hs; destruct Hs as [_ Hs]; now inversion Hs).
  rewrite <- !app_assoc. rewrite (wr_app' pre [y] (post ++ t)) by reflexivity. f_equal.
  rewrite app_nth2, Nat.sub_diag by lia. cbn [nth app]. rewrite u8_xor, (u8_id y) by auto.
  unfold xor_at. rewrite firstn_app, Nat.sub_diag, firstn_all2, app_nil_r by lia.
  rewrite skipn_app, Nat.sub_diag, (skipn_all2 pre) by lia. cbn [app skipn KeccakSpec.xor_bytes].
  rewrite xor_bytes_nil, <- app_assoc. reflexivity.
Qed.
(** The loop for (i = 0; i < k; i++) s[pos + i] ^= m[i] *)
Lemma xor_range_ok k m s t p (f : nat -> bytes -> option bytes) : all_bytes s -> (p + k <= length s)%nat -> (k <= length m)%nat ->
  (forall i s', (i < k)%nat -> length s' = length s ->
     f i (s' ++ t) = wr (s' ++ t) (p + i) [u8 (Z.lxor (nth (p + i) s' 0) (nth i m 0))]) ->
  iterM k 0 f (s ++ t) = Some (xor_at s p (norm (firstn k m)) ++ t).
Proof.
  intros Hs Hp Hk Hf.
  destruct (iterM_inv k 0 f (fun i x => x = xor_at s p (norm (firstn i m)) ++ t) (s ++ t)) as (v & E & ->).
  - cbn [firstn map]. now rewrite xor_at_nil.
  - intros i x Hi ->. rewrite Hf by (rewrite ?xor_at_length; lia).
    rewrite xor_wr; [|apply xor_at_bytes; auto; apply norm_all|rewrite xor_at_length; lia].
    eexists. split; [reflexivity|]. rewrite (firstn_snoc m i 0) by lia. rewrite map_app, xor_at_app.
    rewrite map_length, firstn_length, Nat.min_l by lia. reflexivity.
  - exact E.
Qed.
Lemma xor_block_ok r s x : all_bytes s -> (r <= length s)%nat -> (r <= length x)%nat ->
  xor_block r s x = Some (xor_bytes s (norm (firstn r x))).
Proof.
  intros Hs H1 H2. unfold xor_block. rewrite <- (app_nil_r s) at 1.
  rewrite (xor_range_ok r x s [] 0); auto; [now rewrite app_nil_r, xor_at_0|].
  intros i s' Hi L. rewrite !app_nil_r. rewrite (get_nth s' i 0) by lia. cbn [bind].
  rewrite (get_nth x i 0) by lia. reflexivity.
Qed.
Lemma feed_forward_ok n buf inp : all_bytes buf -> length buf = n -> length inp = n ->
  feed_forward n buf inp = Some (xor_bytes buf (norm inp)).
Proof.
  intros Hb L1 L2. change (feed_forward n buf inp) with (xor_block n buf inp).
  rewrite xor_block_ok by (auto; lia). now rewrite firstn_all2 by lia.
Qed.

(** ** Haraka-512 and Haraka-256 *)
Section Perm.
Variable rc RC : list (list Z).
Lemma perm512 x : rc_ok 4 rc RC -> length x = 64%nat ->
  haraka512_perm rc x = Some (pi512 RC (norm x)) /\ all_bytes (pi512 RC (norm x)).
Proof.
  intros H L. destruct (haraka512_perm_sliced rc RC x H ltac:(lia)) as (SS & E & E2 & _ & B).
  rewrite firstn_all2 in E2 by lia. rewrite <- E2. split; [exact E|now apply concat_bytes].
Qed.
Lemma perm256 x : rc_ok 2 rc RC -> length x = 32%nat ->
  haraka256_perm rc x = Some (pi256 RC (norm x)) /\ all_bytes (pi256 RC (norm x)).
Proof.
  intros H L. destruct (haraka256_perm_sliced rc RC x H ltac:(lia)) as (SS & E & E2 & _ & B).
  rewrite firstn_all2 in E2 by lia. rewrite <- E2. split; [exact E|now apply concat_bytes].
Qed.
Theorem haraka512_ok x : rc_ok 4 rc RC -> length x = 64%nat ->
  haraka512 rc x = Some (Haraka512 RC (norm x)).
Proof.
  intros H L. destruct (perm512 x H L) as [E B]. unfold haraka512. rewrite E. cbn [bind].
  assert (L1 : length (pi512 RC (norm x)) = 64%nat) by (apply pi512_length; now rewrite map_length).
  rewrite feed_forward_ok by auto. cbn [bind].
  rewrite !rd_ok by (rewrite xor_bytes_length; lia). cbn [bind].
  unfold Haraka512, haraka512_trunc. reflexivity.
Qed.
Theorem haraka256_ok x : rc_ok 2 rc RC -> length x = 32%nat ->
  haraka256 rc x = Some (Haraka256 RC (norm x)).
Proof.
  intros H L. destruct (perm256 x H L) as [E B]. unfold haraka256. rewrite E. cbn [bind].
  assert (L1 : length (pi256 RC (norm x)) = 32%nat) by (apply pi256_length; now rewrite map_length).
  rewrite feed_forward_ok by auto. reflexivity.
Qed.
Lemma Haraka512_bytes x : rc_ok 4 rc RC -> length x = 64%nat -> all_bytes x ->
  all_bytes (Haraka512 RC x) /\ length (Haraka512 RC x) = 32%nat.
Proof.
  intros H L B. destruct (perm512 x H L) as [_ B1]. rewrite norm_bytes in B1 by auto.
  assert (L1 := pi512_length RC x L).
  assert (B2 : all_bytes (xor_bytes (pi512 RC x) x)) by (now apply xor_bytes_bytes).
  unfold Haraka512, haraka512_trunc. split.
  - assert (F : forall a b, all_bytes (firstn a (skipn b (xor_bytes (pi512 RC x) x)))) by (intros; now apply all_firstn, Forall_skip).
    apply Forall_app. split; [apply F|]. apply Forall_app. split; [apply F|]. apply Forall_app. split; apply F.
  - rewrite !app_length, !firstn_length, !skipn_length, !xor_bytes_length, L1. reflexivity.
Qed.
Lemma Haraka256_bytes x : rc_ok 2 rc RC -> length x = 32%nat -> all_bytes x ->
  all_bytes (Haraka256 RC x) /\ length (Haraka256 RC x) = 32%nat.
Proof.
  intros H L B. destruct (perm256 x H L) as [_ B1]. rewrite norm_bytes in B1 by auto.
  unfold Haraka256. split; [now apply xor_bytes_bytes|]. now rewrite xor_bytes_length, pi256_length.
Qed.

(** haraka256 with pointers: right when the buffers are apart, zero when out == in. *)
Lemma haraka256_apart pre mid post x :
  rc_ok 2 rc RC -> length mid = 32%nat -> length x = 32%nat ->
  forall mem out inp, mem = pre ++ mid ++ post -> out = length pre ->
  (exists a b, (mem = a ++ x ++ b /\ length a = inp) /\ (inp + 32 <= out \/ out + 32 <= inp))%nat ->
  haraka256_mem rc mem out inp = Some (pre ++ Haraka256 RC (norm x) ++ post).
Proof.
  intros H Lm Lx mem out inp Em Eo (a & b & (Ex & La) & D). unfold haraka256_mem.
  rewrite Ex at 1. rewrite rd_app' by auto. cbn [bind].
  destruct (perm256 x H Lx) as [E B]. rewrite E. cbn [bind].
  set (y := pi256 RC (norm x)) in *.
  assert (Ly : length y = 32%nat) by (apply pi256_length; now rewrite map_length).
  rewrite Em, wr_app' by (auto; lia). cbn [bind].
  destruct (iterM_inv 32 0 (fun i mem => b <- get mem (out + i) ;; x <- get mem (inp + i) ;; wr mem (out + i) [u8 (Z.lxor b x)])
     (fun i m => m = pre ++ xor_bytes y (norm (firstn i x)) ++ post) (pre ++ y ++ post)) as (v & E2 & ->).
  - cbn [firstn map]. now rewrite xor_bytes_nil.
  - intros i m Hi ->. set (z := xor_bytes y (norm (firstn i x))).
    assert (Lz : length z = 32%nat) by (unfold z; now rewrite xor_bytes_length).
    assert (Bz : all_bytes z) by (apply xor_bytes_bytes; auto; apply norm_all).
    assert (G1 : get (pre ++ z ++ post) (out + i) = Some (nth i z 0)).
    { rewrite app_assoc. rewrite (get_app_l _ _ _ 0) by (rewrite app_length; lia). f_equal. rewrite app_nth2 by lia. f_equal. lia. }
    assert (G2 : get (pre ++ z ++ post) (inp + i) = Some (nth i x 0)).
    { assert (G : get mem (inp + i) = Some (nth i x 0)).
      { rewrite Ex, app_assoc. rewrite (get_app_l _ _ _ 0) by (rewrite app_length; lia). f_equal. rewrite app_nth2 by lia. f_equal. lia. }
      assert (Lmem : length mem = (length a + (32 + length b))%nat) by (rewrite Ex, !app_length; lia).
      rewrite <- G, Em. unfold get. destruct D as [D|D].
      - rewrite !nth_error_app1 by lia. reflexivity.
      - rewrite !(nth_error_app2 pre) by lia. rewrite !nth_error_app2 by lia. f_equal. lia. }
    rewrite G1. cbn [bind]. rewrite G2. cbn [bind].
    exists (pre ++ xor_bytes y (norm (firstn (S i) x)) ++ post). split; [|reflexivity].
    rewrite (firstn_snoc x i 0) by lia. rewrite map_app, <- xor_at_0, xor_at_app, xor_at_0. fold z.
    rewrite map_length, firstn_length, Nat.min_l by lia. cbn [map plus].
    pose proof (xor_wr z post i (nth i x 0) Bz ltac:(lia)) as W.
    destruct (split_at z i 1) as (z1 & z2 & z3 & Ez & Lz1 & Lz2 & _); [lia|].
    rewrite Ez in *. rewrite <- !app_assoc in *.
    rewrite wr_app' in W by (cbn [length]; lia). rewrite app_assoc.
    rewrite (wr_app' (pre ++ z1) z2 (z3 ++ post)) by (rewrite ?app_length; cbn [length]; lia).
    inversion W as [W']. now rewrite <- app_assoc.
  - rewrite E2. cbn [Nat.add]. rewrite (firstn_all2 x) by lia. reflexivity.
Qed.
Theorem haraka256_in_place pre x post :
  rc_ok 2 rc RC -> length x = 32%nat ->
  haraka256_mem rc (pre ++ x ++ post) (length pre) (length pre) = Some (pre ++ repeat 0 32 ++ post).
Proof.
  intros H Lx. unfold haraka256_mem. rewrite rd_app' by auto. cbn [bind].
  destruct (perm256 x H Lx) as [E B]. rewrite E. cbn [bind].
  set (y := pi256 RC (norm x)) in *.
  assert (Ly : length y = 32%nat) by (apply pi256_length; now rewrite map_length).
  rewrite wr_app' by lia. cbn [bind].
  match goal with |- iterM 32 0 ?f ?s = _ =>
  destruct (iterM_inv 32 0 f (fun i m => m = pre ++ (repeat 0 i ++ skipn i y) ++ post) s) as (v & E2 & ->) end.
  - reflexivity.
  - intros i m Hi ->. assert (Hsk : skipn i y = nth i y 0 :: skipn (S i) y).
    { generalize (firstn_cons_nth y (length y) i). intros G. rewrite !firstn_all2 in G by (rewrite skipn_length; lia). apply G. lia. }
    rewrite Hsk. replace (pre ++ (repeat 0 i ++ nth i y 0 :: skipn (S i) y) ++ post)
      with ((pre ++ repeat 0 i) ++ [nth i y 0] ++ (skipn (S i) y ++ post)) by (now rewrite <- !app_assoc).
    assert (G : get ((pre ++ repeat 0 i) ++ [nth i y 0] ++ (skipn (S i) y ++ post)) (length pre + i) = Some (nth i y 0)).
    { unfold get. rewrite nth_error_app2 by (rewrite app_length, repeat_length; lia).
      rewrite app_length, repeat_length, Nat.sub_diag. reflexivity. }
    rewrite G. cbn [bind]. rewrite wr_app' by (rewrite ?app_length, ?repeat_length; cbn [length]; lia).
    eexists. split; [reflexivity|]. rewrite Z.lxor_nilpotent.
    replace (repeat 0 (S i)) with (repeat 0 i ++ [0]) by (rewrite <- repeat_cons; reflexivity).
    rewrite <- !app_assoc. reflexivity.
  - rewrite E2. cbn [Nat.add]. rewrite skipn_all2 by lia. now rewrite app_nil_r.
Qed.
End Perm.

(** ** The sponge *)
Lemma finish_len w r p sp : length (fst sp) = w -> length (finish r p sp) = w.
Proof. intros H. unfold finish. now rewrite !xor_at_length. Qed.
Lemma iterate_inv (P : bytes -> Prop) f : (forall s, P s -> P (f s)) -> forall k s, P s -> P (iterate f k s).
Proof. intros H k. induction k as [|k IH]; intros s Hs; cbn [iterate]; auto. Qed.
Lemma iterate_cons (f : bytes -> bytes) k s : iterate f (S k) s = iterate f k (f s).
Proof. reflexivity. Qed.
Lemma iterate_0 (f : bytes -> bytes) s : iterate f 0 s = s.
Proof. reflexivity. Qed.
Definition st_ok (st : bytes) : Prop := length st = 64%nat /\ all_bytes st.
Section Sponge.
Variable hp : bytes -> option bytes.
Variable perm : bytes -> bytes.
Hypothesis Hperm : forall s, length s = 64%nat -> length (perm s) = 64%nat.
Hypothesis perm_st : forall st, st_ok st -> hp st = Some (perm st) /\ st_ok (perm st).
Local Notation HarakaS m n := (sponge perm 64 32 0x1F m n).
Local Notation afold := (afold perm 32).
Local Notation finish := (finish 32).
Local Notation out_from := (out_from perm 32).
Let Hr : (0 < 32 <= 64)%nat.
Proof. lia. Qed.
Lemma xor_at_st st p l : st_ok st -> all_bytes l -> st_ok (xor_at st p l).
Proof. intros [L B] Hl. split; [now rewrite xor_at_length|now apply xor_at_bytes]. Qed.
Lemma finish_st sp : st_ok (fst sp) -> st_ok (finish 0x1F sp).
Proof. intros H. unfold SpongeFacts.finish. repeat apply xor_at_st; auto; repeat constructor; lia. Qed.
Lemma st_init : st_ok (repeat 0 64).
Proof. split; [reflexivity|]. apply Forall_forall. intros x Hx. apply repeat_spec in Hx. subst. unfold is_byte. lia. Qed.

(** Incremental absorbing *)
Definition inc_ok (s : bytes) (sp : bytes * nat) : Prop := s = fst sp ++ [Z.of_nat (snd sp)] /\ st_ok (fst sp).
Lemma inc_xor_ok k m st p : st_ok st -> (p + k <= 64)%nat -> (k <= length m)%nat ->
  inc_xor k (st ++ [Z.of_nat p]) m = Some (xor_at st p (norm (firstn k m)) ++ [Z.of_nat p]).
Proof.
  intros [L B] Hp Hk. unfold inc_xor. apply xor_range_ok; auto; [lia|].
  intros i s' Hi L'. rewrite get_app_r by lia. cbn [bind]. rewrite Nat2Z.id.
  rewrite (get_app_l s' _ _ 0) by lia. cbn [bind]. rewrite (get_nth m i 0) by lia. reflexivity.
Qed.
Lemma inc_perm_ok st c : st_ok st -> inc_perm hp (st ++ [c]) = Some (perm st ++ [c]) /\ st_ok (perm st).
Proof.
  intros H. destruct (perm_st st H) as [E H1]. unfold inc_perm. rewrite rd_app0 by (symmetry; apply H). cbn [bind].
  rewrite E. cbn [bind]. rewrite wr_app0 by (rewrite (proj1 H), (proj1 H1); reflexivity). auto.
Qed.
Theorem inc_absorb_ok fuel : forall m s sp, (length m < fuel)%nat -> inc_ok s sp -> (snd sp < 32)%nat ->
  exists s', haraka_S_inc_absorb hp fuel s m = Some s' /\ inc_ok s' (afold (norm m) sp)
    /\ (snd (afold (norm m) sp) < 32)%nat.
Proof.
  induction fuel as [|fuel IH]; intros m s [st p] Hf (-> & G) Hp; [lia|]. cbn [fst snd] in *.
  cbn [haraka_S_inc_absorb]. assert (L := proj1 G). rewrite get_app_r by lia. cbn [bind].
  rewrite Nat2Z.id. unfold HARAKAS_RATE. destruct (Nat.ltb_spec (length m + p) 32) as [Hs|Hs].
  - rewrite inc_xor_ok by (auto; lia). cbn [bind]. rewrite firstn_all by lia.
    rewrite get_app_r by (rewrite xor_at_length; lia). cbn [bind].
    rewrite wr_app_r by (rewrite ?xor_at_length; auto).
    rewrite (afold_short perm 64 32 Hr Hperm) by (rewrite map_length; lia). rewrite map_length.
    eexists. split; [reflexivity|]. cbn [fst snd]. split; [|lia]. split; cbn [fst snd].
    + do 2 f_equal. unfold u8. rewrite (Z.mod_small (Z.of_nat (length m))) by lia. rewrite Z.mod_small by lia. lia.
    + apply xor_at_st; auto. apply norm_all.
  - rewrite inc_xor_ok by (auto; lia). cbn [bind].
    rewrite wr_app_r by (rewrite ?xor_at_length; auto). cbn [bind].
    assert (G1 : st_ok (xor_at st p (norm (firstn (32 - p) m)))) by (apply xor_at_st; auto; apply norm_all).
    destruct (inc_perm_ok _ 0 G1) as [E2 G2]. rewrite E2. cbn [bind].
    destruct (IH (skipn (32 - p) m) (perm (xor_at st p (norm (firstn (32 - p) m))) ++ [0])
      (perm (xor_at st p (norm (firstn (32 - p) m))), O)) as (s' & E3 & G3 & H3).
    { rewrite skipn_length. lia. }
    { split; auto. }
    { cbn [snd]. lia. }
    exists s'. split; [exact E3|].
    assert (F : afold (norm m) (st, p) = afold (norm (skipn (32 - p) m)) (perm (xor_at st p (norm (firstn (32 - p) m))), O)).
    { rewrite <- (firstn_skipn (32 - p) m) at 1. rewrite map_app, afold_app.
      rewrite (afold_block perm 64 32 Hr Hperm (norm (firstn (32 - p) m))); [reflexivity|lia|].
      rewrite map_length, firstn_length. lia. }
    rewrite F. auto.
Qed.
Theorem inc_finalize_ok s sp : inc_ok s sp -> (snd sp < 32)%nat ->
  exists s', haraka_S_inc_finalize s = Some s' /\ inc_ok s' (finish 0x1F sp, O).
Proof.
  intros (-> & G) Hp. destruct sp as [st p]. cbn [fst snd] in *. unfold haraka_S_inc_finalize, HARAKAS_RATE.
  assert (L := proj1 G). rewrite get_app_r by lia. cbn [bind]. rewrite Nat2Z.id.
  rewrite (get_app_l st _ _ 0) by lia. cbn [bind]. rewrite xor_wr by (try apply G; lia). cbn [bind].
  assert (G1 : st_ok (xor_at st p [u8 0x1F])) by (apply xor_at_st; auto; repeat constructor; apply u8_byte).
  rewrite (get_app_l _ _ _ 0) by (rewrite (proj1 G1); lia). cbn [bind].
  rewrite xor_wr by (try apply G1; rewrite (proj1 G1); lia). cbn [bind].
  rewrite wr_app_r by (auto; rewrite ?xor_at_length; auto).
  eexists. split; [reflexivity|]. split; cbn [fst snd]; [|now apply finish_st].
  unfold SpongeFacts.finish. cbn [fst snd]. change (u8 31) with 31. change (u8 128) with 128. reflexivity.
Qed.

(** Squeezing: after n bytes of output from the padded state F. *)
Definition sq_ok (F : bytes) (n : nat) (s : bytes) : Prop :=
  exists k c, s = iterate perm k F ++ [Z.of_nat c] /\ (c < 32)%nat /\ (k * 32 = n + c)%nat.
Lemma iterate_st k : forall F, st_ok F -> st_ok (iterate perm k F).
Proof. apply iterate_inv. intros s H. now apply perm_st. Qed.
Lemma inc_squeeze_loop_ok fuel : forall outlen F n k c, (outlen <= fuel)%nat -> st_ok F ->
  (c < 32)%nat -> (k * 32 = n + c)%nat -> (outlen = 0 \/ c = 0)%nat ->
  exists s', inc_squeeze_loop hp fuel outlen (iterate perm k F ++ [Z.of_nat c])
      = Some (out_from (perm F) n outlen, s')
    /\ sq_ok F (n + outlen) s'.
Proof.
  induction fuel as [|fuel IH]; intros outlen F n k c Hf HF Hc Hk Ho.
  - assert (outlen = O) as -> by lia. eexists. split; [reflexivity|].
    exists k, c. rewrite Nat.add_0_r. auto.
  - destruct outlen as [|o].
    { eexists. split; [reflexivity|]. exists k, c. rewrite Nat.add_0_r. auto. }
    assert (c = O) as -> by lia. cbn [inc_squeeze_loop]. unfold HARAKAS_RATE.
    destruct (inc_perm_ok _ (Z.of_nat 0) (iterate_st k F HF)) as [E2 G2]. rewrite E2. cbn [bind].
    rewrite <- iterate_snoc in *. set (i := Nat.min (S o) 32).
    assert (L2 := proj1 G2).
    rewrite rd_ok by (rewrite app_length; cbn [length]; lia). cbn [bind].
    rewrite wr_app_r by auto. cbn [bind].
    assert (Eu : u8 (Z.of_nat (32 - i)) = Z.of_nat (32 - i)) by (unfold u8; apply Z.mod_small; lia). rewrite Eu.
    destruct (IH (S o - i)%nat F (n + i)%nat (S k) (32 - i)%nat) as (s' & E3 & G3); auto; try lia.
    rewrite E3. cbn [bind]. exists s'. split.
    + f_equal. f_equal. replace (S o) with (i + (S o - i))%nat at 2 by lia.
      rewrite out_from_app. f_equal. symmetry.
      rewrite (out_from_block perm 64 32 Hr Hperm _ k) by (try (apply Hperm; apply HF); lia).
      replace (n - k * 32)%nat with O by lia. rewrite <- iterate_cons. cbn [skipn].
      rewrite firstn_app. replace (i - length (iterate perm (S k) F))%nat with O by lia. now rewrite app_nil_r.
    + replace (n + S o)%nat with (n + i + (S o - i))%nat by lia. exact G3.
Qed.
Theorem inc_squeeze_ok F n s outlen : st_ok F -> sq_ok F n s ->
  exists s', haraka_S_inc_squeeze hp outlen s = Some (out_from (perm F) n outlen, s')
    /\ sq_ok F (n + outlen) s'.
Proof.
  intros HF (k & c & -> & Hc & Hk). unfold haraka_S_inc_squeeze, HARAKAS_RATE.
  assert (G := iterate_st k F HF). assert (L := proj1 G).
  rewrite get_app_r by auto. cbn [bind]. rewrite Nat2Z.id.
  set (i := Nat.min outlen c). rewrite rd_ok by (rewrite app_length; cbn [length]; lia). cbn [bind].
  rewrite wr_app_r by auto. cbn [bind].
  assert (Eu : u8 (Z.of_nat c - u8 (Z.of_nat i)) = Z.of_nat (c - i)).
  { unfold u8. rewrite (Z.mod_small (Z.of_nat i)) by lia. rewrite Z.mod_small by lia. lia. }
  rewrite Eu.
  destruct (inc_squeeze_loop_ok (outlen - i) (outlen - i) F (n + i) k (c - i)) as (s' & E & G');
    auto; try lia.
  rewrite E. cbn [bind]. exists s'. split.
  - f_equal. f_equal. replace outlen with (i + (outlen - i))%nat at 2 by lia.
    rewrite out_from_app. f_equal.
    destruct (Nat.eq_dec i 0) as [->|Hi]; [reflexivity|].
    destruct k as [|k]; [lia|].
    rewrite (out_from_block perm 64 32 Hr Hperm _ k) by (try (apply Hperm; apply HF); lia).
    rewrite <- iterate_cons. rewrite skipn_app, firstn_app, skipn_length.
    replace (i - (length (iterate perm (S k) F) - (32 - c)))%nat with O by lia. cbn [firstn]. rewrite app_nil_r.
    do 2 f_equal. lia.
  - replace (n + outlen)%nat with (n + i + (outlen - i))%nat by lia. exact G'.
Qed.
Lemma sq_start F s : inc_ok s (F, O) -> sq_ok F 0 s.
Proof. intros (-> & G). exists O, O. rewrite iterate_0. split; [reflexivity|]. lia. Qed.

Lemma gS_fold m n :
  HarakaS m n = out_from (perm (finish 0x1F (afold m (ainit 64)))) 0 n.
Proof. rewrite (sponge_fold perm 64 32); [reflexivity|lia|exact Hperm|lia]. Qed.
Lemma gS_length m n : length (HarakaS m n) = n.
Proof. rewrite gS_fold. apply out_from_length. Qed.
Lemma inc_init_ok : inc_ok haraka_S_inc_init (ainit 64).
Proof. split; [reflexivity|]. exact st_init. Qed.
Lemma afold_st m : forall sp, (snd sp < 32)%nat -> st_ok (fst sp) -> all_bytes m -> st_ok (fst (afold m sp)).
Proof.
  intros sp Hp H Hm.
  destruct (inc_absorb_ok (S (length m)) m (fst sp ++ [Z.of_nat (snd sp)]) sp) as (s' & _ & [_ H'] & _); auto.
  { split; auto. }
  now rewrite norm_bytes in H' by auto.
Qed.
Lemma gS_bytes m n : all_bytes m -> all_bytes (HarakaS m n).
Proof.
  intros Hm. rewrite gS_fold. apply Forall_forall. intros x Hx. unfold SpongeFacts.out_from in Hx.
  apply in_map_iff in Hx. destruct Hx as (i & <- & _).
  assert (H : st_ok (iterate perm (i / 32) (perm (finish 31 (afold m (ainit 64)))))).
  { apply iterate_st. apply perm_st. apply finish_st. apply afold_st; auto; [cbn; lia|exact st_init]. }
  assert (Hi : (i mod 32 < 32)%nat) by (apply Nat.mod_upper_bound; lia).
  apply (Forall_nth' is_byte); [apply H|rewrite (proj1 H); lia].
Qed.

(** One-shot *)
Lemma pad_block m p : (length m < 32)%nat -> 0 <= p < 128 -> all_bytes m ->
  (t <- wr (repeat 0 32) 0 m ;; t <- wr t (length m) [p] ;; x <- get t 31 ;; wr t 31 [Z.lor x 128])
  = Some (KeccakSpec.xor_bytes (m ++ [p] ++ repeat 0 (31 - length m)) (repeat 0 31 ++ [128])).
Proof.
  clear. intros Hm Hp Bm.
  set (z := (31 - length m)%nat).
  assert (Er : repeat 0 32 = repeat 0 (length m) ++ repeat 0 1 ++ repeat 0 z)
    by (rewrite <- !repeat_app; f_equal; lia).
  rewrite Er, wr_app0 by (rewrite repeat_length; lia). cbn [bind].
  rewrite (wr_app' m (repeat 0 1)) by auto. cbn [bind].
  set (blk := m ++ [p] ++ repeat 0 z).
  assert (Lb : length blk = 32%nat) by (unfold blk; rewrite !app_length, repeat_length; cbn [length]; lia).
  assert (Bb : all_bytes blk).
  { unfold blk. apply Forall_app. split; auto. apply Forall_app. split; [repeat constructor; lia|].
    apply Forall_forall. intros x Hx. apply repeat_spec in Hx. subst. unfold is_byte. lia. }
  rewrite (get_nth blk 31 0) by lia. cbn [bind].
  assert (Hv : nth 31 blk 0 = 0 \/ nth 31 blk 0 = p).
  { unfold blk. rewrite app_nth2 by lia. destruct (31 - length m)%nat as [|j]; [right; reflexivity|].
    left. cbn [app nth]. apply nth_repeat. }
  assert (El : Z.lor (nth 31 blk 0) 128 = u8 (Z.lxor (nth 31 blk 0) 128)).
  { assert (Ep : 0 <= nth 31 blk 0 < 128) by lia. revert Ep. generalize (nth 31 blk 0). intros v Ev.
    assert (D : Z.land v 128 = 0).
    { apply Z.bits_inj'. intros i _. rewrite Z.land_spec, Z.bits_0. change 128 with (2 ^ 7). destruct (Z.eq_dec i 7) as [->|Hi7].
      - rewrite (high_false v 7) by lia. reflexivity.
      - rewrite Z.pow2_bits_false by lia. apply andb_false_r. }
    rewrite <- Z.lxor_lor by exact D. symmetry. apply u8_id. apply lxor_byte; unfold is_byte; lia. }
  rewrite El. rewrite <- (app_nil_r blk) at 1. rewrite xor_wr by (auto; lia). rewrite app_nil_r. f_equal.
  change (u8 128) with 128.
  rewrite <- xor_at_0. rewrite xor_at_app, xor_at_zeros. rewrite repeat_length. reflexivity.
Qed.
Lemma xor_assoc_bytes st : forall a b, length a = length b -> (length a <= length st)%nat ->
  KeccakSpec.xor_bytes st (KeccakSpec.xor_bytes a b) = KeccakSpec.xor_bytes (KeccakSpec.xor_bytes st a) b.
Proof.
  clear. induction st as [|x st IH]; intros [|y a] [|z b] L H; cbn [length] in *; try lia; try reflexivity.
  cbn [KeccakSpec.xor_bytes]. rewrite Z.lxor_assoc. f_equal. apply IH; lia.
Qed.
Lemma absorb_ok fuel : forall m st, (length m <= fuel)%nat -> st_ok st ->
  haraka_S_absorb hp fuel 32 st m 0x1F = Some (finish 0x1F (afold (norm m) (st, O))).
Proof.
  induction fuel as [|fuel IH]; intros m st Hf H; cbn [haraka_S_absorb];
    destruct (Nat.ltb_spec (length m) 32) as [Hs|Hs]; try lia.
  1,2: cbv zeta; assert (Lm : length (norm m) = length m) by apply map_length;
    assert (P := pad_block (norm m) 31 ltac:(lia) ltac:(lia) (norm_all m)); rewrite Lm in P;
    change (32 - 1)%nat with 31%nat;
    destruct (wr (repeat 0 32) 0 (norm m)) as [t1|]; cbn [bind] in P |- *; [|discriminate P];
    destruct (wr t1 (length m) [31]) as [t2|]; cbn [bind] in P |- *; [|discriminate P];
    destruct (get t2 31) as [x|]; cbn [bind] in P |- *; [|discriminate P];
    rewrite P; cbn [bind];
    set (B := KeccakSpec.xor_bytes (norm m ++ [31] ++ repeat 0 (31 - length m)) (repeat 0 31 ++ [128]));
    assert (LB0 : length (norm m ++ [31] ++ repeat 0 (31 - length m)) = 32%nat)
      by (rewrite !app_length, repeat_length, Lm; cbn [length]; lia);
    assert (LB : length B = 32%nat) by (unfold B; now rewrite xor_bytes_length);
    assert (BB : all_bytes B)
      by (unfold B; apply xor_bytes_bytes;
          [apply Forall_app; split; [apply norm_all|apply Forall_app; split; [repeat constructor; lia|]]
          |apply Forall_app; split; [|repeat constructor; lia]];
          apply Forall_forall; intros y Hy; apply repeat_spec in Hy; subst; unfold is_byte; lia);
    rewrite xor_block_ok by (try apply H; rewrite ?(proj1 H); lia);
    f_equal; rewrite firstn_all2 by lia; rewrite norm_bytes by exact BB;
    rewrite (afold_short perm 64 32 Hr Hperm) by lia; rewrite Lm; unfold SpongeFacts.finish; cbn [fst snd Nat.add];
    unfold B; rewrite xor_assoc_bytes by (rewrite LB0, ?app_length, ?repeat_length, ?(proj1 H); cbn [length]; lia);
    rewrite <- !xor_at_0, !xor_at_app, !xor_at_zeros, repeat_length, Lm; reflexivity.
  rewrite xor_block_ok by (try apply H; rewrite ?(proj1 H); lia). cbn [bind].
  assert (G : st_ok (KeccakSpec.xor_bytes st (norm (firstn 32 m)))).
  { rewrite <- xor_at_0. apply xor_at_st; auto. apply norm_all. }
  destruct (perm_st _ G) as [E G1]. rewrite E. cbn [bind].
  rewrite IH by (auto; rewrite skipn_length; lia). do 2 f_equal.
  rewrite <- (firstn_skipn 32 m) at 3. rewrite map_app, afold_app.
  rewrite (afold_block perm 64 32 Hr Hperm (norm (firstn 32 m))) by (rewrite ?map_length, ?firstn_length; lia).
  now rewrite xor_at_0.
Qed.
Lemma squeezeblocks_ok nb : forall F k, st_ok F ->
  haraka_S_squeezeblocks hp nb (iterate perm k F) = Some (out_from (perm F) (k * 32) (nb * 32), iterate perm (k + nb) F).
Proof.
  induction nb as [|nb IH]; intros F k HF; cbn [haraka_S_squeezeblocks].
  - now rewrite Nat.add_0_r.
  - destruct (perm_st _ (iterate_st k F HF)) as [E G]. rewrite E. cbn [bind]. rewrite <- iterate_snoc in *.
    unfold HARAKAS_RATE. rewrite rd_ok by (rewrite (proj1 G); lia). cbn [bind skipn].
    rewrite (IH F (S k) HF). cbn [bind]. f_equal. f_equal; [|f_equal; lia].
    replace (S nb * 32)%nat with (32 + nb * 32)%nat by lia. rewrite out_from_app. f_equal; [|f_equal; lia].
    symmetry. rewrite (out_from_block perm 64 32 Hr Hperm _ k) by (try (apply Hperm; apply HF); lia).
    replace (k * 32 - k * 32)%nat with O by lia. rewrite <- iterate_cons. reflexivity.
Qed.
Theorem gharaka_S_ok n m : haraka_S hp n m = Some (HarakaS (norm m) n).
Proof.
  unfold haraka_S. rewrite absorb_ok by (auto; exact st_init). cbn [bind].
  change (repeat 0 64, O) with (ainit 64).
  set (F := finish 31 (afold (norm m) (ainit 64))).
  assert (HF : st_ok F) by (apply finish_st, afold_st; [cbn; lia|exact st_init|apply norm_all]).
  rewrite <- (iterate_0 perm F) at 1. rewrite (squeezeblocks_ok (n / 32) F 0 HF). cbn [bind].
  rewrite gS_fold. fold F.
  pose proof (Nat.div_mod n 32 ltac:(lia)) as Hn. pose proof (Nat.mod_upper_bound n 32 ltac:(lia)) as Hm.
  set (a := (n / 32)%nat) in *. set (b := (n mod 32)%nat) in *. clearbody a b. subst n.
  replace (32 * a + b)%nat with (a * 32 + b)%nat by lia.
  destruct (Nat.eqb_spec b 0) as [Hz|Hz].
  - do 2 f_equal. lia.
  - rewrite (squeezeblocks_ok 1 F (0 + a) HF). cbn [bind].
    rewrite rd_ok by (rewrite out_from_length; lia). cbn [bind]. f_equal. cbn [skipn].
    rewrite (out_from_app _ _ _ 0 (a * 32) b). f_equal.
    replace (1 * 32)%nat with (b + (32 - b))%nat by lia. rewrite out_from_app.
    rewrite firstn_app, out_from_length, firstn_all2, Nat.sub_diag by (rewrite out_from_length; lia).
    cbn [firstn]. rewrite app_nil_r. f_equal; lia.
Qed.
End Sponge.
