(** The C-typed Haraka: the incremental sponge, and everything over the bitsliced permutation. *)
From Verif Require Import Base BaseFacts Haraka CInt CCore CIntFacts CCoreProofs CWord CSha2 CSha2Proofs CFips202 CFips202Proofs CHaraka.
From Verif Require Import HarakaProofs HarakaSponge ShakeProofs CHarakaProofs CHarakaProofs2 CHarakaProofs3 CHarakaProofs4.
Local Open Scope Z_scope.
Local Notation Q32 := (Q8 U32).
Local Notation Q64 := (Q8 U64).

(** 64 bytes of state and the counter *)
Definition okh (s : bytes) (c : nat) : Prop := exists a, s = a ++ [Z.of_nat c] /\ st_ok a.
Lemma okh_get s c : okh s c -> get s 64 = Some (Z.of_nat c).
Proof. intros (a & -> & L & _). apply get_app_r. auto. Qed.
Lemma okh_len s c : okh s c -> length s = 65%nat.
Proof. intros (a & -> & L & _). rewrite app_length. cbn [length]. lia. Qed.
Lemma okh_count s c c' s' : okh s c -> wr s 64 [Z.of_nat c'] = Some s' -> okh s' c'.
Proof. intros (a & -> & H) E. rewrite (wr_app_r a) in E; [|destruct H; auto|reflexivity]. injection E as <-. exists a. auto. Qed.
Lemma okh_wr s c c' : okh s c -> exists s', wr s 64 [Z.of_nat c'] = Some s' /\ okh s' c'.
Proof. intros H. destruct (wr s 64 [Z.of_nat c']) as [s'|] eqn:E; [exists s'; split; [reflexivity|exact (okh_count _ _ _ _ H E)]|].
  unfold wr in E. rewrite (okh_len s c H) in E. discriminate. Qed.
Lemma okh_byte s c j z s' : okh s c -> (j < 64)%nat -> wr s j [u8 z] = Some s' -> okh s' c.
Proof.
  intros (a & -> & L & Ba) Hj E. destruct (cut a j ltac:(lia)) as (x & y & -> & Lx). rewrite app_length in L. destruct y as [|w y]; [cbn in L; lia|].
  rewrite <- app_assoc in E. change ((w :: y) ++ [Z.of_nat c]) with ([w] ++ y ++ [Z.of_nat c]) in E. rewrite (wr_mid x [w]) in E by (cbn [length]; lia). injection E as <-.
  exists (x ++ [u8 z] ++ y). split; [now rewrite <- !app_assoc|]. split; [rewrite !app_length in *; cbn [length] in *; lia|].
  unfold all_bytes in *. rewrite !Forall_app in *. destruct Ba as [Bx Bw]. inversion_clear Bw. repeat split; try assumption. apply (u8_one z).
Qed.
Lemma okh_low s c j : okh s c -> (j < 64)%nat -> exists x, get s j = Some x /\ is_byte x /\ x = nth j s 0.
Proof.
  intros (a & -> & L & Ba) Hj. exists (nth j a 0). rewrite app_nth1 by lia. split; [|split; [|reflexivity]].
  - unfold get. rewrite nth_error_app1 by lia. apply (ShakeProofs.get_nth a j 0). lia.
  - unfold all_bytes in Ba. rewrite Forall_forall in Ba. apply Ba, nth_In. lia.
Qed.

Section Sponge.
Variables (perm_c : bytes -> bytes -> option bytes) (perm : bytes -> option bytes).
Hypothesis Hperm : forall s, (64 <= length s)%nat -> perm_c s s = (y <- perm (firstn 64 s) ;; wr s 0 y).
Hypothesis Hst : forall x y, length x = 64%nat -> perm x = Some y -> st_ok y.

Lemma inc_perm_c s c : okh s c -> agree (fun s' => okh s' c) (perm_c s s) (inc_perm perm s).
Proof.
  intros H. pose proof (okh_len s c H) as L. rewrite Hperm by lia. unfold inc_perm. rewrite rd_ok by lia. cbn [bind skipn].
  destruct H as (a & -> & La & Ba). rewrite firstn_app, La, Nat.sub_diag, firstn_all2 by lia. cbn [firstn]. rewrite app_nil_r.
  destruct (perm a) as [y|] eqn:E; [|exact (agree_none _)]. cbn [bind]. pose proof (Hst a y La E) as Hy. split; [reflexivity|].
  intros s' Es. rewrite (wr_app0 a) in Es by (destruct Hy; lia). injection Es as <-. exists y. auto.
Qed.
Theorem inc_init_c_ok s0 : length s0 = 65%nat -> haraka_S_inc_init_c s0 = Some haraka_S_inc_init.
Proof.
  clear. intros L. unfold haraka_S_inc_init_c, haraka_S_inc_init.
  rewrite (cfor_gen (fun _ t => length t = 65%nat) 64 _ _ (fun j b => wr b j [0])); [|lia|intros; apply ltK; lia| |lia|exact L].
  - rewrite (iter_set (fun _ => 0)) by lia. rewrite map_seq_const. destruct (cut s0 64 ltac:(lia)) as (a & b & -> & La). rewrite app_length in L.
    rewrite wr_app0 by (rewrite repeat_length; lia). cbn [bind]. rewrite asg8K by lia. cbn [bind]. apply wr_app_r; [reflexivity|cbn [length]; lia].
  - intros i b Hi Hb. split; [rewrite ixn by lia; reflexivity|]. intros b' E. now rewrite (wr_length _ _ _ _ E).
Qed.
Definition xstep (m : bytes) (i : nat) (s : bytes) : option bytes :=
  c <- get s 64 ;; a <- get s (Z.to_nat c + i) ;; b <- get m i ;; wr s (Z.to_nat c + i) [u8 (Z.lxor a b)].
Lemma hinc_xor_c_ok m o i s c : (c + i < 64)%nat -> okh s c -> agree (fun s' => okh s' c) (hinc_xor_c m o (Z.of_nat i) s) (xstep (skipn o m) i s).
Proof.
  clear. intros H K. unfold hinc_xor_c, xstep. rewrite (okh_get s c K). cbn [bind]. rewrite Nat2Z.id.
  rewrite (ix_is _ U64 _ (c + i) (addB c i ltac:(lia) ltac:(lia)) eq_refl). cbn [bind]. rewrite ixn by lia. rewrite get_skip. cbn [bind].
  destruct (get s (c + i)) as [a|]; [|exact (agree_none _)]. cbn [bind]. destruct (get m (o + i)) as [b|]; [|exact (agree_none _)]. cbn [bind].
  rewrite xor8. cbn [bind]. split; [reflexivity|]. intros s' E. exact (okh_byte _ _ _ _ _ K H E).
Qed.
Lemma hinc_xor_loop m o s c n fuel cnd : (c + n <= 64)%nat -> (n < fuel)%nat -> okh s c ->
  (forall i s, (i <= n)%nat -> okh s c -> cnd (Z.of_nat i) s = Some (Z.of_nat i <? Z.of_nat n)) ->
  cloop fuel U64 0 cnd (hinc_xor_c m o) s = (s' <- inc_xor n s (skipn o m) ;; Some (Z.of_nat n, s'))
  /\ (forall s', inc_xor n s (skipn o m) = Some s' -> okh s' c).
Proof.
  clear. intros Hc Hf K Hcnd. change 0 with (Z.of_nat 0) at 1. split.
  - rewrite (cloop_uns (fun _ s => okh s c) n 0 cnd _ (xstep (skipn o m))); [reflexivity|lia| | |exact Hf|exact K].
    + intros i s1 Hi K1. apply Hcnd; [lia|exact K1].
    + intros i s1 Hi K1. apply (hinc_xor_c_ok m o i s1 c); [lia|exact K1].
  - assert (G : forall k i s1, (i + k <= n)%nat -> okh s1 c -> forall s', iterM k i (xstep (skipn o m)) s1 = Some s' -> okh s' c).
    { induction k as [|k IH]; intros i s1 Hi K1 s'; cbn [iterM]; [intros [= <-]; exact K1|].
      destruct (hinc_xor_c_ok m o i s1 c ltac:(lia) K1) as [_ X]. destruct (xstep (skipn o m) i s1) as [s2|]; [|discriminate]. cbn [bind].
      apply IH; [lia|apply X; reflexivity]. }
    intros s'. apply (G n 0%nat s); [lia|exact K].
Qed.
Definition inc_tail_c (m : bytes) (x : bytes * nat * Z) : option bytes :=
  let '(s, o, mlen) := x in
  ' (_, s) <- cloop (S (Z.to_nat mlen)) U64 0 (fun i s => cond (V U64 i < V U64 mlen)%C) (hinc_xor_c m o) s ;;
  c <- get s 64 ;; x <- asg U8 (B c + Cast U8 (V U64 mlen))%C ;; wr s 64 [x].
Lemma inc_tail_ok m s o c : (o <= length m)%nat -> (length m - o + c < 32)%nat -> okh s c ->
  agree (fun s' => exists c', (c' < 32)%nat /\ okh s' c') (inc_tail_c m (s, o, Z.of_nat (length m - o)))
    (s <- inc_xor (length m - o) s (skipn o m) ;; c <- get s 64 ;; wr s 64 [u8 (c + u8 (Z.of_nat (length m - o)))]).
Proof.
  clear. intros Ho Hl K. unfold inc_tail_c. rewrite Nat2Z.id.
  destruct (hinc_xor_loop m o s c (length m - o) (S (length m - o)) (fun i _ => cond (V U64 i < V U64 (Z.of_nat (length m - o)))%C)) as [E1 K1];
    [lia|lia|exact K|intros; apply lt64; lia|].
  rewrite E1. clear E1. destruct (inc_xor (length m - o) s (skipn o m)) as [s1|]; [|exact (agree_none _)]. cbn [bind]. specialize (K1 s1 eq_refl).
  rewrite (okh_get s1 c K1). cbn [bind]. set (l := (length m - o)%nat) in *.
  assert (U : u8 (Z.of_nat l) = Z.of_nat l) by (apply u8_id; unfold is_byte; lia).
  assert (E : ev (B (Z.of_nat c) + Cast U8 (V U64 (Z.of_nat l)))%C I32 (Z.of_nat c + Z.of_nat l)).
  { apply (ev_bin OAdd _ _ U8 U8); [apply evB; lia|apply (ev_cast U8 _ U64); [apply w_V, in_range_U64; lia|apply in_range_U8; lia]|reflexivity|apply in_range_I32; lia|apply in_range_I32; lia|discriminate|].
    intros _. cbn [opz]. apply in_range_I32. lia. }
  rewrite (ev_asg U8 _ I32 _ E) by (apply in_range_U8; lia). cbn [bind]. rewrite U, (u8_id (Z.of_nat c + _)) by (unfold is_byte; lia).
  split; [reflexivity|]. intros s' Es. exists (c + l)%nat. split; [lia|]. rewrite <- Nat2Z.inj_add in Es. exact (okh_count _ _ _ _ K1 Es).
Qed.
Lemma hinc_absorb_ok m : Z.of_nat (length m) + 256 < 2 ^ 64 -> forall fuel fuel' o s c, (o <= length m)%nat -> (length m - o <= fuel)%nat -> (length m - o < fuel')%nat ->
  (c < 32)%nat -> okh s c ->
  agree (fun s' => exists c', (c' < 32)%nat /\ okh s' c')
    (x <- hinc_absorb_loop_c perm_c fuel' s m o (Z.of_nat (length m - o)) ;; inc_tail_c m x) (haraka_S_inc_absorb perm fuel s (skipn o m)).
Proof.
  intros Hm. induction fuel as [|fuel IH]; intros fuel' o s c Ho Hf Hf' Hc K; (destruct fuel' as [|fuel']; [lia|]);
    cbn [haraka_S_inc_absorb hinc_absorb_loop_c]; rewrite (okh_get s c K); cbn [bind]; cbv zeta; rewrite skipn_length, Nat2Z.id;
    (rewrite (cond_ge _ _ U64 I32 (Z.of_nat (c + (length m - o))) 32);
      [|apply addB'; lia|apply ev_K; lia|apply in_range_U64; lia|apply in_range_U64; lia]); cbn [bind]; unfold HARAKAS_RATE;
    destruct (Nat.ltb_spec (length m - o + c) 32) as [C|C].
  - replace (32 <=? Z.of_nat (c + (length m - o))) with false by lia. cbn [bind]. apply (inc_tail_ok m s o c); assumption.
  - lia.
  - replace (32 <=? Z.of_nat (c + (length m - o))) with false by lia. cbn [bind]. apply (inc_tail_ok m s o c); assumption.
  - replace (32 <=? Z.of_nat (c + (length m - o))) with true by lia.
    destruct (hinc_xor_loop m o s c (32 - c) 34 (fun i s => c <- get s 64 ;; cond (V U64 i < Cast U64 (xHRATE - B c))%C)) as [E1 K1];
      [lia|lia|exact K| |].
    { intros i s1 Hi K1. rewrite (okh_get s1 c K1). cbn [bind]. apply (cond_lt64 _ _ U64); [left; exact u64_uns|lia|apply subR64; lia|lia]. }
    rewrite E1. clear E1. destruct (inc_xor (32 - c) s (skipn o m)) as [s1|]; [|exact (agree_none _)]. cbn [bind]. specialize (K1 s1 eq_refl).
    rewrite (okh_get s1 c K1). cbn [bind].
    rewrite (w_asg U64 _ (Z.of_nat (length m - o) - Z.of_nat (32 - c))).
    2: { apply (sub64 _ _ U64 U64); [left; reflexivity|apply w_V, in_range_U64; lia|apply subR64; lia|lia|lia]. }
    cbn [bind]. rewrite (ix_is _ I32 (Z.of_nat (32 - c)) (32 - c)).
    2: { apply (subR _ c U8); [now left|lia|]. apply (ev_cast U8 _ U8); [apply evB; lia|apply in_range_U8; lia]. }
    2: reflexivity.
    cbn [bind]. rewrite asg8K by lia. cbn [bind].
    destruct (okh_wr s1 c 0 K1) as (s2 & E2 & K2). change (Z.of_nat 0) with 0 in E2. rewrite E2. cbn [bind].
    destruct (inc_perm_c s2 0 K2) as [-> K3]. destruct (inc_perm perm s2) as [s3|]; [|exact (agree_none _)]. cbn [bind]. specialize (K3 s3 eq_refl).
    rewrite skip_skip. replace (Z.of_nat (length m - o) - Z.of_nat (32 - c)) with (Z.of_nat (length m - (o + (32 - c)))) by lia.
    apply (IH fuel' (o + (32 - c))%nat s3 0%nat); [lia|lia|lia|lia|exact K3].
Qed.
Theorem inc_absorb_c_ok m s c fuel : Z.of_nat (length m) + 256 < 2 ^ 64 -> (c < 32)%nat -> okh s c -> (length m <= fuel)%nat ->
  agree (fun s' => exists c', (c' < 32)%nat /\ okh s' c') (haraka_S_inc_absorb_c perm_c s m (Z.of_nat (length m))) (haraka_S_inc_absorb perm fuel s m).
Proof.
  intros Hm Hc K Hf. unfold haraka_S_inc_absorb_c. rewrite Nat2Z.id.
  pose proof (hinc_absorb_ok m Hm fuel (S (S (length m))) 0 s c ltac:(lia) ltac:(lia) ltac:(lia) Hc K) as A.
  rewrite Nat.sub_0_r in A. cbn [skipn] in A. destruct A as [A1 A2]. split; [|exact A2]. rewrite <- A1. clear.
  destruct (hinc_absorb_loop_c _ _ _ _ _ _) as [[[s1 o1] l1]|]; reflexivity.
Qed.
Theorem inc_finalize_c_ok s c : (c < 32)%nat -> okh s c -> agree (fun s' => okh s' 0) (haraka_S_inc_finalize_c s) (haraka_S_inc_finalize s).
Proof.
  clear. intros Hc KK. unfold haraka_S_inc_finalize_c, haraka_S_inc_finalize. rewrite (okh_get s c KK). cbn [bind]. rewrite Nat2Z.id.
  rewrite (ix_is _ U8 _ c (evB c ltac:(lia)) eq_refl). cbn [bind].
  destruct (okh_low s c c KK ltac:(lia)) as (x & -> & Bx & _). cbn [bind]. change (Hex 0x1F) with (K 31). rewrite xor8K by (try exact Bx; lia). cbn [bind].
  destruct (wr s c [u8 (Z.lxor x 31)]) as [s1|] eqn:E1; [|exact (agree_none _)]. cbn [bind]. assert (K1 : okh s1 c) by (eapply okh_byte; [exact KK| |exact E1]; lia).
  assert (E31 : ix (xHRATE - K 1)%C = Some (HARAKAS_RATE - 1)%nat) by reflexivity. rewrite E31. cbn [bind].
  destruct (okh_low s1 c (HARAKAS_RATE - 1) K1 ltac:(unfold HARAKAS_RATE; lia)) as (y & -> & By & _). cbn [bind]. rewrite xor8K by (try exact By; lia). cbn [bind].
  destruct (wr s1 (HARAKAS_RATE - 1) [u8 (Z.lxor y 128)]) as [s2|] eqn:E2; [|exact (agree_none _)]. cbn [bind].
  assert (K2 : okh s2 c) by (eapply okh_byte; [exact K1| |exact E2]; unfold HARAKAS_RATE; lia).
  rewrite asg8K by lia. cbn [bind]. split; [reflexivity|]. intros s' E. exact (okh_count _ _ 0 _ K2 E).
Qed.
Lemma rd_low s c i n : okh s c -> (i + n <= 64)%nat -> rd s i n = Some (firstn n (skipn i s)).
Proof. clear. intros K H. apply rd_ok. rewrite (okh_len s c K). lia. Qed.
Lemma read_loop s c pos n fuel cnd body h : okh s c -> (pos + n <= 64)%nat -> (n < fuel)%nat ->
  (forall i h', (i <= n)%nat -> cnd (Z.of_nat i) h' = Some (Z.of_nat i <? Z.of_nat n)) ->
  (forall i h', (i < n)%nat -> body (Z.of_nat i) h' = put h' (length h + i) [nth (pos + i) s 0]) ->
  cloop fuel U64 0 cnd body h = Some (Z.of_nat n, h ++ firstn n (skipn pos s)).
Proof.
  clear. intros K Hp Hf Hcnd Hb. pose proof (okh_len s c K) as L.
  set (st := fun i => h ++ firstn i (skipn pos s)).
  assert (E0 : h = st 0%nat) by (unfold st; now rewrite app_nil_r). rewrite E0 at 1.
  apply (cloop_det st n); [lia|intros; apply Hcnd; lia| |exact Hf].
  intros i Hi. rewrite Hb by lia. unfold st. rewrite put_at by (rewrite app_length, firstn_length, skipn_length; lia).
  rewrite (firstn_snoc (skipn pos s) i 0) by (rewrite skipn_length; lia). rewrite app_assoc. do 3 f_equal.
  pose proof (get_skip s pos i) as G. rewrite (ShakeProofs.get_nth s (pos + i) 0) in G by lia. rewrite (ShakeProofs.get_nth (skipn pos s) i 0) in G by (rewrite skipn_length; lia).
  injection G as ->. reflexivity.
Qed.
Lemma hinc_squeeze_loop_ok : forall fuel fuel' h outlen s c, (outlen < fuel')%nat -> (outlen <= fuel)%nat -> Z.of_nat outlen < 2 ^ 64 -> (c <= 32)%nat -> okh s c ->
  hinc_squeeze_loop_c perm_c fuel' h (length h) (Z.of_nat outlen) s = ('(r, s') <- inc_squeeze_loop perm fuel outlen s ;; Some (h ++ r, s'))
  /\ (forall r s', inc_squeeze_loop perm fuel outlen s = Some (r, s') -> exists c', (c' <= 32)%nat /\ okh s' c').
Proof.
  induction fuel as [|fuel IH]; intros fuel' h outlen s c Hf' Hf Ho Hc K; (destruct fuel' as [|fuel']; [lia|]); cbn [hinc_squeeze_loop_c]; rewrite gt0 by lia; cbn [bind].
  - assert (outlen = 0%nat) by lia. subst outlen. cbn [inc_squeeze_loop Z.of_nat Z.ltb Z.compare bind]. rewrite app_nil_r. split; [reflexivity|].
    intros r s' [= <- <-]. exists c. auto.
  - destruct outlen as [|l]; [cbn [inc_squeeze_loop Z.of_nat Z.ltb Z.compare bind]; rewrite app_nil_r; split; [reflexivity|intros r s' [= <- <-]; exists c; auto]|].
    cbn [inc_squeeze_loop]. cbv zeta. set (outlen := S l) in *.
    assert (Hpos : (0 < outlen)%nat) by (unfold outlen; lia). clearbody outlen. replace (0 <? Z.of_nat outlen) with true by lia.
    destruct (inc_perm_c s c K) as [-> K1]. destruct (inc_perm perm s) as [s1|]; [|split; [reflexivity|discriminate]]. cbn [bind]. specialize (K1 s1 eq_refl).
    unfold HARAKAS_RATE. set (n := Nat.min outlen 32). rewrite (rd_low s1 c 0 n K1) by lia. cbn [bind].
    match goal with |- context [cloop ?a U64 0 ?b ?d h] => rewrite (read_loop s1 c 0 n a b d h K1); [|lia|lia| |] end.
    2: { intros i h' Hi. unfold and_lt. rewrite (lt_and (Z.of_nat i) (Z.of_nat outlen) 32) by (try lia; apply ltK; lia). do 2 f_equal. lia. }
    2: { intros i h' Hi. rewrite ixn by lia. cbn [bind]. destruct (okh_low s1 c i K1 ltac:(lia)) as (x & -> & Bx & ->). cbn [bind]. rewrite copy8. cbn [bind Nat.add].
         now rewrite (u8_id _ Bx). }
    cbn [bind]. rewrite ixn by lia. cbn [bind].
    rewrite (w_asg U64 _ (Z.of_nat outlen - Z.of_nat n))
      by (apply (sub64 _ _ U64 U64); [left; reflexivity|apply w_V, in_range_U64; lia|apply w_V, in_range_U64; lia|lia|lia]). cbn [bind].
    rewrite (asg8 _ U64 (32 - Z.of_nat n))
      by (apply (sub64 _ _ I32 U64); [right; reflexivity|apply ev_K; lia|apply w_V, in_range_U64; lia|lia|lia]). cbn [bind].
    replace (32 - Z.of_nat n) with (Z.of_nat (32 - n)) by lia. replace (Z.of_nat outlen - Z.of_nat n) with (Z.of_nat (outlen - n)) by lia.
    rewrite (u8_id (Z.of_nat (32 - n))) by (unfold is_byte; lia).
    destruct (okh_wr s1 c (32 - n) K1) as (s2 & E3 & K2). rewrite E3. cbn [bind]. set (hs := firstn n (skipn 0 s1)).
    assert (Lh : length hs = n) by (unfold hs; rewrite firstn_length, skipn_length, (okh_len s1 c K1); lia). clearbody hs.
    destruct (IH fuel' (h ++ hs) (outlen - n)%nat s2 (32 - n)%nat) as [G1 G2]; [lia|lia|lia|lia|exact K2|].
    rewrite app_length, Lh in G1. rewrite G1. destruct (inc_squeeze_loop perm fuel (outlen - n) s2) as [[r s3]|]; [|split; [reflexivity|discriminate]].
    cbn [bind]. rewrite <- app_assoc. split; [reflexivity|]. intros r' s' [= <- <-]. exact (G2 r s3 eq_refl).
Qed.
Theorem inc_squeeze_c_ok s c outlen : okh s c -> (c <= 32)%nat -> Z.of_nat outlen < 2 ^ 64 ->
  agree (fun x => exists c', (c' <= 32)%nat /\ okh (snd x) c') (haraka_S_inc_squeeze_c perm_c (Z.of_nat outlen) s) (haraka_S_inc_squeeze perm outlen s).
Proof.
  intros K Hc Ho. unfold haraka_S_inc_squeeze_c, haraka_S_inc_squeeze. rewrite (okh_get s c K). cbn [bind]. cbv zeta. rewrite Nat2Z.id. set (n := Nat.min outlen c).
  unfold HARAKAS_RATE. rewrite (rd_low s c (32 - c) n K) by lia. cbn [bind].
  match goal with |- context [cloop ?a U64 0 ?b ?d []] => rewrite (read_loop s c (32 - c) n a b d [] K); [|lia|lia| |] end.
  2: { intros i h' Hi. unfold and_lt. rewrite (lt_and (Z.of_nat i) (Z.of_nat outlen) (Z.of_nat c)); [do 2 f_equal; lia|lia|lia|].
       apply (cond_lt _ _ U64 (Z.of_nat i) (Z.of_nat c)); [apply w_V, in_range_U64; lia|exists U8; split; [apply evB; lia|split; apply in_range_U64; lia]]. }
  2: { intros i h' Hi. assert (E : ev (xHRATE - B (Z.of_nat c) + V U64 (Z.of_nat i))%C U64 (Z.of_nat (32 - c + i))).
       { eapply ev_as; [apply (ev_bin OAdd _ _ I32 U64);
           [apply (subR _ c U8); [now left|exact Hc|apply evB; lia]|apply w_V, in_range_U64; lia|reflexivity|apply in_range_U64; lia|apply in_range_U64; lia|discriminate|]|reflexivity|cbn [opz]; lia].
         intros _. cbn [opz]. apply in_range_U64. lia. }
       rewrite (ix_is _ U64 _ _ E eq_refl). cbn [bind]. destruct (okh_low s c (32 - c + i) K ltac:(lia)) as (x & -> & Bx & ->). cbn [bind].
       rewrite (asg8 _ U8 _ (ev_B _)). cbn [bind]. rewrite ixn by lia. cbn [bind length Nat.add]. now rewrite !(u8_id _ Bx). }
  cbn [bind app]. rewrite ixn by lia. cbn [bind].
  rewrite (w_asg U64 _ (Z.of_nat outlen - Z.of_nat n))
    by (apply (sub64 _ _ U64 U64); [left; reflexivity|apply w_V, in_range_U64; lia|apply w_V, in_range_U64; lia|lia|lia]). cbn [bind].
  assert (E : ev (B (Z.of_nat c) - Cast U8 (V U64 (Z.of_nat n)))%C I32 (Z.of_nat c - Z.of_nat n)).
  { apply (ev_bin OSub _ _ U8 U8); [apply evB; lia|apply (ev_cast U8 _ U64); [apply w_V, in_range_U64; lia|apply in_range_U8; lia]|reflexivity|apply in_range_I32; lia|apply in_range_I32; lia|discriminate|].
    intros _. cbn [opz]. apply in_range_I32. lia. }
  rewrite (ev_asg U8 _ I32 _ E) by (apply in_range_U8; lia). cbn [bind].
  rewrite (u8_id (Z.of_nat n)), (u8_id (Z.of_nat c - Z.of_nat n)) by (unfold is_byte; lia).
  replace (Z.of_nat c - Z.of_nat n) with (Z.of_nat (c - n)) by lia. replace (Z.of_nat outlen - Z.of_nat n) with (Z.of_nat (outlen - n)) by lia.
  destruct (okh_wr s c (c - n) K) as (s2 & E3 & K2). rewrite E3. cbn [bind]. rewrite Nat2Z.id. set (hs := firstn n (skipn (32 - c) s)).
  assert (Lh : length hs = n) by (unfold hs; rewrite firstn_length, skipn_length, (okh_len s c K); lia). clearbody hs.
  destruct (hinc_squeeze_loop_ok (outlen - n) (S (outlen - n)) hs (outlen - n) s2 (c - n)) as [G1 G2]; [lia|lia|lia|lia|exact K2|].
  rewrite Lh in G1. rewrite G1. destruct (inc_squeeze_loop perm (outlen - n) (outlen - n) s2) as [[r s3]|]; [|exact (agree_none _)].
  cbn [bind]. apply agree_ret. exact (G2 r s3 eq_refl).
Qed.
End Sponge.
