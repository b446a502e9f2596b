(** Proofs about the self-test (Selftest.v). *)
From Verif Require Import Base BaseFacts Params Sign OptBuild Selftest SelftestSpec.

Lemma flip_split a x b i : i = length a -> flip_at (a ++ x :: b) i = a ++ Z.lxor x 1 :: b.
Proof.
  intros ->. unfold flip_at. rewrite firstn_app, Nat.sub_diag, firstn_O, app_nil_r, firstn_all.
  rewrite app_nth2, Nat.sub_diag by lia. cbn [nth]. do 2 f_equal.
  rewrite skipn_app, skipn_all2 by lia. replace (S (length a) - length a)%nat with 1%nat by lia. reflexivity.
Qed.
Lemma split_at {A} (l : list A) i : (i < length l)%nat -> exists a x b, l = a ++ x :: b /\ length a = i.
Proof.
  intros H. destruct (skipn i l) as [|x b] eqn:E.
  - apply (f_equal (@length A)) in E. rewrite skipn_length in E. cbn in E. lia.
  - exists (firstn i l), x, b. rewrite <- E, firstn_skipn. split; [reflexivity|]. rewrite firstn_length. lia.
Qed.
Lemma flip_at_length l i : (i < length l)%nat -> length (flip_at l i) = length l.
Proof. intros H. destruct (split_at l i H) as (a & x & b & -> & <-). rewrite flip_split by auto. rewrite !app_length. reflexivity. Qed.
Lemma flip_bit_ok l i : (i < length l)%nat -> flip_bit l i = Some (flip_at l i).
Proof.
  intros H. destruct (split_at l i H) as (a & x & b & -> & <-). rewrite flip_split by auto.
  unfold flip_bit, get. rewrite nth_error_app2, Nat.sub_diag by lia. cbn [nth_error bind].
  rewrite wr_ok by (rewrite app_length; cbn [length]; lia). f_equal.
  rewrite firstn_app, Nat.sub_diag, firstn_O, app_nil_r, firstn_all. f_equal. cbn [app length]. f_equal.
  rewrite skipn_app, skipn_all2 by lia. replace (length a + 1 - length a)%nat with 1%nat by lia. reflexivity.
Qed.
Lemma byte_lxor1 b : is_byte b -> is_byte (Z.lxor b 1).
Proof.
  unfold is_byte. intros H. split; [apply Z.lxor_nonneg; lia|].
  destruct (Z.eq_dec (Z.lxor b 1) 0) as [E|E]; [lia|].
  assert (0 <= Z.lxor b 1) by (apply Z.lxor_nonneg; lia).
  change 256 with (2 ^ 8). apply Z.log2_lt_pow2; [lia|].
  eapply Z.le_lt_trans; [apply Z.log2_lxor; lia|].
  apply Z.max_lub_lt; [|reflexivity].
  destruct (Z.eq_dec b 0) as [->|]; [reflexivity|]. apply Z.log2_lt_pow2; [lia|]. change (2 ^ 8) with 256. lia.
Qed.
Lemma flip_at_bytes l i : (i < length l)%nat -> all_bytes l -> all_bytes (flip_at l i).
Proof.
  intros H. destruct (split_at l i H) as (a & x & b & -> & <-). rewrite flip_split by auto.
  intros B. apply Forall_app in B. destruct B as [B1 B2]. inversion B2; subst. apply Forall_app. split; [assumption|].
  constructor; [now apply byte_lxor1|assumption].
Qed.
Lemma flip_twice l i : (i < length l)%nat -> flip_at (flip_at l i) i = l.
Proof.
  intros H. destruct (split_at l i H) as (a & x & b & -> & <-). rewrite !flip_split by auto.
  rewrite Z.lxor_assoc. change (Z.lxor 1 1) with 0. now rewrite Z.lxor_0_r.
Qed.
Lemma flip_left l r i : (i < length l)%nat -> flip_at (l ++ r) i = flip_at l i ++ r.
Proof. intros H. destruct (split_at l i H) as (a & x & b & -> & <-). rewrite <- app_assoc. cbn [app]. rewrite !flip_split by auto. now rewrite <- app_assoc. Qed.
Lemma flip_right l r i j : (i < length r)%nat -> j = (length l + i)%nat -> flip_at (l ++ r) j = l ++ flip_at r i.
Proof.
  intros H ->. destruct (split_at r i H) as (a & x & b & -> & <-). rewrite app_assoc.
  rewrite !flip_split by (rewrite ?app_length; auto). now rewrite <- app_assoc.
Qed.

Section Verdict.
Variable P : params.
Notation SB := (SPX_BYTES P).
Notation N := (p_n P).
Variable nb : nat.
Hypothesis Hnb : SB = (nb * N)%nat.
Hypothesis HN : (0 < N)%nat.
Hypothesis HSB : (SPX_MLEN <= SB)%nat.
Hypothesis HSB31 : Z.of_nat SB < 2 ^ 31.
Variable keypair : bytes -> bytes -> bytes -> option (Z * bytes * bytes * bytes).
Variable sign : bytes -> bytes -> bytes -> bytes -> option (Z * bytes * Z * bytes).
Variable verify : nat -> bytes -> Z -> bytes -> bytes -> option Z.
Variable junk : nat -> nat -> Z.
Variables pk sk : bytes.
(** Which signatures, on which messages of 32 bytes, the key verifies. *)
Variable V : bytes -> bytes -> bool.
Hypothesis HV : forall k sig m, length sig = SB -> length m = SPX_MLEN -> all_bytes sig -> all_bytes m ->
  verify k sig (Z.of_nat SB) m pk = Some (if V sig m then 0 else -1).
Notation smlen := (Z.of_nat (SB + SPX_MLEN)).

Lemma open_disjoint_ok k mout s m : length mout = (SB + SPX_MLEN)%nat -> length s = SB -> length m = SPX_MLEN ->
  all_bytes s -> all_bytes m ->
  exists mout', length mout' = (SB + SPX_MLEN)%nat
    /\ (V s m = true -> firstn SPX_MLEN mout' = m)
    /\ open_disjoint P verify k mout (s ++ m) smlen pk
       = Some (if V s m then 0 else -1, mout', if V s m then Z.of_nat SPX_MLEN else 0).
Proof.
  clear Hnb HN HSB HSB31.
  intros Lo Ls Lm B1 B2. unfold open_disjoint. replace (smlen <? Z.of_nat SB) with false by lia.
  replace (Z.to_nat (smlen - Z.of_nat SB)) with SPX_MLEN by lia.
  rewrite !rd_ok by (rewrite app_length; lia). cbn [bind]. cbn [skipn].
  rewrite firstn_app, Ls, Nat.sub_diag, firstn_O, app_nil_r, <- Ls, firstn_all.
  rewrite skipn_app, Nat.sub_diag, skipn_all. cbn [app skipn]. rewrite <- Lm, firstn_all.
  rewrite Lm, Ls. rewrite HV by auto. cbn [bind]. destruct (V s m).
  - cbn [Z.eqb negb]. rewrite wr_ok by lia. cbn [bind firstn app]. eexists. split; [|split].
    3:{ f_equal. f_equal. lia. }
    + rewrite app_length, skipn_length. lia.
    + intros _. rewrite firstn_app, <- Lm, Nat.sub_diag, firstn_O, app_nil_r, firstn_all. reflexivity.
  - cbn [Z.eqb negb]. rewrite wr_ok by (rewrite repeat_length; lia). cbn [bind firstn app]. eexists. split; [|split].
    3:{ reflexivity. }
    + rewrite app_length, skipn_length, repeat_length. lia.
    + discriminate.
Qed.
Lemma open_same_ok k s m : length s = SB -> length m = SPX_MLEN -> all_bytes s -> all_bytes m ->
  open_same P verify k (s ++ m) smlen pk
  = Some (if V s m then 0 else -1, if V s m then (m ++ skipn SPX_MLEN s) ++ m else repeat 0 (SB + SPX_MLEN),
          if V s m then Z.of_nat SPX_MLEN else 0).
Proof.
  clear Hnb HN HSB31.
  intros Ls Lm B1 B2. unfold open_same. replace (smlen <? Z.of_nat SB) with false by lia.
  replace (Z.to_nat (smlen - Z.of_nat SB)) with SPX_MLEN by lia.
  rewrite !rd_ok by (rewrite app_length; lia). cbn [bind]. cbn [skipn].
  rewrite firstn_app, Ls, Nat.sub_diag, firstn_O, app_nil_r, <- Ls, firstn_all.
  rewrite skipn_app, Nat.sub_diag, skipn_all. cbn [app skipn]. rewrite <- Lm, firstn_all.
  rewrite Lm, Ls. rewrite HV by auto. cbn [bind]. destruct (V s m).
  - cbn [Z.eqb negb]. rewrite wr_ok by (rewrite app_length; lia). cbn [bind firstn app]. f_equal. f_equal; [|lia]. f_equal.
    cbn [Nat.add]. rewrite Lm. rewrite <- app_assoc. f_equal. rewrite skipn_app. f_equal. 
    replace (SPX_MLEN - length s)%nat with 0%nat by lia. reflexivity.
  - cbn [Z.eqb negb]. rewrite wr_ok by (rewrite app_length, repeat_length; lia). cbn [bind firstn app]. rewrite repeat_length.
    rewrite skipn_all2 by (rewrite app_length; lia). rewrite app_nil_r. do 3 f_equal. f_equal. lia.
Qed.

Lemma flips_ok ret s m : length s = SB -> length m = SPX_MLEN -> all_bytes s -> all_bytes m ->
  forall rem fuel k i mout, (i + rem = nb)%nat -> (rem < fuel)%nat -> length mout = (SB + SPX_MLEN)%nat ->
  flips P verify fuel k (i * N) (Z.of_nat SB) ret mout (s ++ m) smlen pk
  = Some (if forallb (fun i => negb (V (flip_at s (i * N)) m)) (seq i rem) then ret else -1).
Proof.
  clear HSB31 HSB.
  intros Ls Lm B1 B2. induction rem as [|rem IH]; intros fuel k i mout Hi Hf Lo; (destruct fuel as [|fuel]; [lia|]); cbn [flips].
  - replace (Z.of_nat (i * N) <? Z.of_nat SB) with false; [reflexivity|]. symmetry. apply Z.ltb_ge. replace i with nb by lia. lia.
  - assert (Hlt : (i * N < SB)%nat) by nia.
    replace (Z.of_nat (i * N) <? Z.of_nat SB) with true by (symmetry; apply Z.ltb_lt; lia). cbn [negb].
    rewrite flip_bit_ok by (rewrite app_length; lia). cbn [bind]. rewrite flip_left by lia.
    destruct (open_disjoint_ok k mout (flip_at s (i * N)) m) as (mo & L2 & _ & E); auto.
    { rewrite flip_at_length; lia. } { apply flip_at_bytes; auto; lia. }
    rewrite E. cbn [bind seq forallb]. destruct (V (flip_at s (i * N)) m); [reflexivity|]. cbn [Z.eqb].
    rewrite flip_bit_ok by (rewrite app_length, flip_at_length; lia). cbn [bind].
    rewrite flip_left, flip_twice by (rewrite ?flip_at_length; lia).
    replace (i * N + N)%nat with (S i * N)%nat by lia. cbn [negb andb]. apply IH; auto; lia.
Qed.
Lemma flips_bad s m : length s = SB -> length m = SPX_MLEN -> all_bytes s -> all_bytes m ->
  forall fuel mout, (nb < fuel)%nat -> length mout = (SB + SPX_MLEN)%nat ->
  flips P verify fuel 3 0 (Z.of_nat SB) (-1) mout (s ++ m) smlen pk = Some (-1).
Proof.
  intros Ls Lm B1 B2 fuel mout Hf Lo. pose proof (flips_ok (-1) s m Ls Lm B1 B2 nb fuel 3 0 mout) as E. cbn [Nat.mul] in E.
  rewrite E by (auto; lia). now destruct forallb.
Qed.

(** The verdict: with s the signature and m the message, the last checks are made on m ++ skipn 32 s. *)
Theorem verdict invalid stream r s st1 st2 : (SPX_MLEN <= length stream)%nat -> all_bytes stream ->
  keypair (skipn SPX_MLEN stream) (junk_bytes (junk 501%nat) (SPX_PK_BYTES P)) (junk_bytes (junk 502%nat) (SPX_SK_BYTES P))
    = Some (0, pk, sk, st1) ->
  let m := firstn SPX_MLEN stream in
  sign st1 (junk_bytes (junk 503%nat) (SB + SPX_MLEN)) m sk = Some (r, s ++ m, smlen, st2) ->
  length s = SB -> all_bytes s ->
  let s' := m ++ skipn SPX_MLEN s in
  self_test P keypair sign verify junk invalid stream
  = Some (if V s m && negb (V s' (flip_at m (SPX_MLEN - 1)))
             && (negb invalid || forallb (fun i => negb (V (flip_at s' (i * N)) m)) (seq 0 nb))
          then 0 else -1).
Proof.
  intros Lst Bst HK m HS Ls Bs s'. unfold self_test, randombytes. rewrite rd_ok by lia. cbn [bind skipn].
  rewrite HK. cbn [bind Z.eqb negb]. change (firstn SPX_MLEN stream) with m. rewrite HS. cbn [bind].
  assert (Lm : length m = SPX_MLEN) by (unfold m; rewrite firstn_length; lia).
  assert (Bm : all_bytes m). { unfold m. rewrite <- (firstn_skipn SPX_MLEN) in Bst. apply Forall_app in Bst. apply Bst. }
  assert (Bt : all_bytes (skipn SPX_MLEN s)). { rewrite <- (firstn_skipn SPX_MLEN) in Bs. apply Forall_app in Bs. apply Bs. }
  assert (Ls' : length s' = SB) by (unfold s'; rewrite app_length, skipn_length; lia).
  assert (Bs' : all_bytes s') by (apply Forall_app; auto).
  clearbody m. clear HK HS Lst Bst.
  rewrite Z.eqb_refl. cbn [negb].
  destruct (open_disjoint_ok 0 (junk_bytes (junk 504%nat) (SB + SPX_MLEN)) s m) as (mo & Lo & Eo & O); auto.
  { unfold junk_bytes. rewrite map_length, seq_length. reflexivity. }
  rewrite O. cbn [bind]. rewrite (rd_ok m), (rd_ok mo) by lia. cbn [bind skipn].
  rewrite open_same_ok by auto. cbn [bind].
  replace (1 <=? smlen) with true by (change SPX_MLEN with 32%nat; lia). cbn [guard bind].
  replace (Z.to_nat (smlen - 1)) with (SB + (SPX_MLEN - 1))%nat by (change SPX_MLEN with 32%nat; lia).
  assert (Hlim : u64 (smlen - Z.of_nat SPX_MLEN) = Z.of_nat SB).
  { unfold u64. rewrite Z.mod_small; [lia|]. change (2 ^ 64) with (2 ^ 31 * 2 ^ 33). nia. }
  assert (Hnb2 : (nb <= SB)%nat) by nia.
  assert (Lm1 : (SPX_MLEN - 1 < length m)%nat) by (rewrite Lm; change SPX_MLEN with 32%nat; lia).
  destruct (V s m) eqn:EV.
  - cbn [Z.eqb negb]. rewrite Z.eqb_refl. cbn [negb]. rewrite Eo by reflexivity.
    rewrite <- Lm, firstn_all. replace (memcmp_differs m m) with false.
    2:{ symmetry. unfold memcmp_differs. destruct (list_eq_dec _ _ _); [reflexivity|congruence]. }
    rewrite Lm. fold s'.
    rewrite flip_bit_ok by (rewrite app_length; lia). cbn [bind].
    rewrite (flip_right s' m (SPX_MLEN - 1)) by lia.
    destruct (open_disjoint_ok 2 mo s' (flip_at m (SPX_MLEN - 1))) as (mo2 & Lo2 & _ & O2); auto.
    { rewrite flip_at_length; lia. } { apply flip_at_bytes; auto. }
    rewrite O2. cbn [bind].
    rewrite flip_bit_ok by (rewrite app_length, flip_at_length; lia). cbn [bind].
    rewrite (flip_right s' _ (SPX_MLEN - 1)) by (rewrite ?flip_at_length; lia). rewrite flip_twice by auto.
    cbn [andb]. destruct invalid; cbn [negb orb].
    + rewrite Hlim. replace (Z.of_nat SB <? 2 ^ 31) with true by (symmetry; apply Z.ltb_lt; lia). cbn [guard bind].
      rewrite Nat2Z.id. pose proof (flips_ok (if (if V s' (flip_at m (SPX_MLEN - 1)) then 0 else -1) =? 0 then -1 else 0)
        s' m Ls' Lm Bs' Bm nb (S SB) 3 0 mo2) as F. cbn [Nat.mul] in F. rewrite F by (auto; lia).
      destruct (V s' _); cbn [Z.eqb negb andb]; destruct forallb; reflexivity.
    + rewrite andb_true_r. destruct (V s' _); reflexivity.
  - cbn [Z.eqb negb andb].
    assert (Z0 : repeat 0 (SB + SPX_MLEN) = repeat 0 SB ++ repeat 0 SPX_MLEN) by apply repeat_app.
    assert (RB : forall n, all_bytes (repeat 0 n)) by (intros n; apply Forall_forall; intros x Hx; apply repeat_spec in Hx; subst; red; lia).
    rewrite Z0. set (z1 := repeat 0 SB) in *. set (z2 := repeat 0 SPX_MLEN) in *.
    assert (L1 : length z1 = SB) by apply repeat_length. assert (L2 : length z2 = SPX_MLEN) by apply repeat_length.
    assert (B1 : all_bytes z1) by apply RB. assert (B2 : all_bytes z2) by apply RB. clearbody z1 z2.
    rewrite flip_bit_ok by (rewrite app_length; lia). cbn [bind].
    rewrite (flip_right z1 z2 (SPX_MLEN - 1)) by lia.
    destruct (open_disjoint_ok 2 mo z1 (flip_at z2 (SPX_MLEN - 1))) as (mo2 & Lo2 & _ & O2); auto.
    { rewrite flip_at_length; lia. } { apply flip_at_bytes; auto. lia. }
    rewrite O2. cbn [bind].
    rewrite flip_bit_ok by (rewrite app_length, flip_at_length; lia). cbn [bind].
    rewrite (flip_right z1 _ (SPX_MLEN - 1)) by (rewrite ?flip_at_length; lia). rewrite flip_twice by lia.
    assert (Hr : (if (if V z1 (flip_at z2 (SPX_MLEN - 1)) then 0 else -1) =? 0 then -1 else -1) = -1) by (destruct (V z1 _); reflexivity).
    rewrite Hr. destruct invalid; [|reflexivity].
    rewrite Hlim. replace (Z.of_nat SB <? 2 ^ 31) with true by (symmetry; apply Z.ltb_lt; lia). cbn [guard bind].
    rewrite Nat2Z.id. apply flips_bad; auto. lia.
Qed.
End Verdict.
