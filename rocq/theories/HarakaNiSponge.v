(** The Haraka sponge of haraka-aesni/haraka.c, one lane and four; its constants; the build's hash functions. *)
From Verif Require Import Base BaseFacts Params Address Suite Utils HarakaSpec Haraka SpongeFacts ShakeProofs HarakaProofs
  HarakaSponge HarakaTweak HashShake HashHaraka HashSha2Proofs HashHarakaProofs Lanes LaneFacts HarakaNi HarakaNiProofs.
Local Notation xor_bytes := KeccakSpec.xor_bytes.

Lemma firstn_plus {A} a : forall b (l : list A), firstn (a + b) l = firstn a l ++ firstn b (skipn a l).
Proof. induction a as [|a IH]; intros b [|x l]; cbn [Nat.add firstn skipn app]; rewrite ?firstn_nil; try reflexivity. now rewrite IH. Qed.
(** ** Vector exclusive or into the state *)
Lemma xor16_at s so m mo : all_bytes s -> (so + 16 <= length s)%nat -> (mo + 16 <= length m)%nat ->
  xor16 s so m mo = Some (xor_at s so (norm (firstn 16 (skipn mo m)))).
Proof.
  intros B Hs Hm. unfold xor16. destruct (LOAD_ok m mo Hm) as [Em I2].
  destruct (LOAD_ok s so Hs) as [Es I1]. rewrite Es, Em. cbn [bind]. rewrite xor128_ok by assumption.
  destruct (split_at s so 16) as (a & b & c & -> & La & Lb & _); [exact Hs|].
  apply Forall_app in B as [Ba B]. apply Forall_app in B as [Bb Bc].
  assert (Eb : firstn 16 (skipn so (a ++ b ++ c)) = b).
  { rewrite skipn_app, skipn_all2, <- La, Nat.sub_diag by lia. cbn [app skipn].
    rewrite firstn_app, firstn_all2, Lb, Nat.sub_diag by lia. cbn [firstn]. apply app_nil_r. }
  rewrite Eb in *. rewrite (norm_bytes b Bb) in *. set (x := norm (firstn 16 (skipn mo m))) in *.
  assert (Bx : all_bytes x) by apply norm_all.
  unfold STORE. rewrite norm_bytes by (now apply xor_bytes_bytes).
  rewrite (wr_app' a b c) by (rewrite ?xor_bytes_length; auto). f_equal.
  unfold xor_at. rewrite firstn_app, firstn_all2, <- La, Nat.sub_diag, app_nil_r by lia. f_equal.
  rewrite skipn_app, skipn_all2, Nat.sub_diag by lia. cbn [app skipn].
  unfold is16 in I2. rewrite <- (app_nil_r x) at 2. rewrite xor_bytes_app2 by congruence.
  destruct c; reflexivity.
Qed.
Lemma xor32 s m : all_bytes s -> (32 <= length s)%nat -> (32 <= length m)%nat ->
  (s <- xor16 s 0 m 0 ;; xor16 s 16 m 16) = Some (xor_bytes s (norm (firstn 32 m))).
Proof.
  intros B Ls Lm. rewrite xor16_at by (auto; lia). cbn [bind].
  rewrite xor16_at; [|apply xor_at_bytes; auto; apply norm_all|rewrite xor_at_length; lia|lia].
  rewrite <- xor_at_0. f_equal.
  assert (E : norm (firstn 32 m) = norm (firstn 16 (skipn 0 m)) ++ norm (firstn 16 (skipn 16 m))).
  { rewrite <- map_app. f_equal. exact (firstn_plus 16 16 m). }
  rewrite E, xor_at_app. f_equal. rewrite map_length, firstn_length, skipn_length. lia.
Qed.
Lemma xor16_mid pre s post o m mo : (o + 16 <= length s)%nat -> (mo + 16 <= length m)%nat ->
  xor16 (pre ++ s ++ post) (length pre + o) m mo = (s' <- xor16 s o m mo ;; Some (pre ++ s' ++ post)).
Proof.
  intros Hs Hm. unfold xor16. rewrite LOAD_mid by exact Hs.
  destruct (LOAD_ok m mo Hm) as [Em I2]. destruct (LOAD_ok s o Hs) as [Es I1]. rewrite Es, Em. cbn [bind].
  set (v := XOR128 _ _). assert (Lv : length (norm v) = 16%nat) by reflexivity. clearbody v. unfold STORE.
  destruct (split_at s o 16) as (a & b & c & -> & La & Lb & _); [exact Hs|].
  rewrite (wr_app' a b c) by (auto; congruence). cbn [bind]. rewrite <- !app_assoc, app_assoc.
  rewrite (wr_app' (pre ++ a) b (c ++ post)); [|rewrite app_length; lia|congruence]. now rewrite <- !app_assoc.
Qed.
Lemma pad_t_ok r m p : (length m < r)%nat -> exists t, pad_t r m p = Some t /\ length t = r.
Proof.
  intros H. unfold pad_t.
  rewrite wr_ok by (rewrite map_length, repeat_length; lia). cbn [bind].
  set (t1 := _ ++ _). assert (L1 : length t1 = r).
  { unfold t1. rewrite !app_length, firstn_length, map_length, skipn_length, repeat_length. lia. } clearbody t1.
  rewrite wr_ok by (cbn [length]; lia). cbn [bind]. set (t2 := _ ++ _). assert (L2 : length t2 = r).
  { unfold t2. rewrite !app_length, firstn_length, skipn_length. cbn [length]. lia. } clearbody t2.
  rewrite (get_nth t2 (r - 1) 0) by lia. cbn [bind]. rewrite wr_ok by (cbn [length]; lia). eexists. split; [reflexivity|].
  rewrite !app_length, firstn_length, skipn_length. cbn [length]. lia.
Qed.

Section NiS.
Variable RC : list (list Z).
Hypothesis LRC : length RC = 40%nat.
Hypothesis Hb5 : forall x, length x = 64%nat -> all_bytes x -> all_bytes (pi512 RC x).
Notation hp := (ni_perm512 RC).
Lemma ni_perm_st st : st_ok st -> hp st = Some (pi512 RC st) /\ st_ok (pi512 RC st).
Proof.
  intros [L B]. rewrite (ni_perm512_ok RC LRC Hb5) by exact L. rewrite norm_bytes by exact B.
  split; [reflexivity|]. split; [now apply pi512_length|now apply Hb5].
Qed.
Lemma xor_st st m : st_ok st -> st_ok (xor_bytes st (norm m)).
Proof. intros [L B]. split; [now rewrite xor_bytes_length|]. apply xor_bytes_bytes; auto. apply norm_all. Qed.
Lemma ni_absorb_ref fuel : forall st m, st_ok st ->
  ni_absorb RC fuel 32 st m 0x1F = haraka_S_absorb hp fuel 32 st m 0x1F.
Proof.
  induction fuel as [|fuel IH]; intros st m H; cbn [ni_absorb haraka_S_absorb]; destruct (Nat.ltb_spec (length m) 32) as [Hs|Hs].
  1,3: destruct (pad_t_ok 32 m 31 Hs) as (t & E & Lt); rewrite E; cbn [bind];
    rewrite xor32 by (rewrite ?(proj1 H), ?Lt; try lia; apply H);
    unfold pad_t in E; revert E; cbv zeta;
    destruct (wr (repeat 0 32) 0 (norm m)) as [t1|]; cbn [bind]; [|discriminate];
    destruct (wr t1 (length m) [31]) as [t2|]; cbn [bind]; [|discriminate];
    destruct (get t2 (32 - 1)) as [x|]; cbn [bind]; [|discriminate]; intros E; rewrite E; cbn [bind];
    rewrite xor_block_ok by (try apply H; rewrite ?(proj1 H); lia); reflexivity.
  - cbn [bind]. reflexivity.
  - rewrite xor_block_ok by (try apply H; rewrite ?(proj1 H); lia).
    pose proof (xor32 st m (proj2 H) ltac:(rewrite (proj1 H); lia) Hs) as E.
    destruct (xor16 st 0 m 0) as [s1|]; cbn [bind] in E |- *; [|discriminate E].
    rewrite E. cbn [bind]. destruct (ni_perm_st _ (xor_st st (firstn 32 m) H)) as [E1 H1].
    rewrite E1. cbn [bind]. now apply IH.
Qed.
Lemma load_pair s : st_ok s -> exists a b, LOAD s 0 = Some a /\ LOAD s 16 = Some b /\ rd s 0 32 = Some (a ++ b).
Proof.
  clear. intros [L B]. destruct (LOAD_ok s 0 ltac:(lia)) as [E0 _]. destruct (LOAD_ok s 16 ltac:(lia)) as [E1 _].
  eexists. eexists. split; [exact E0|]. split; [exact E1|]. rewrite rd_ok by lia. f_equal.
  rewrite <- map_app. change (skipn 0 s) with s. rewrite <- firstn_plus. cbn [Nat.add].
  symmetry. apply norm_bytes. now apply all_firstn.
Qed.
Lemma ni_squeeze_ref n : forall s, st_ok s -> ni_squeezeblocks RC n s = haraka_S_squeezeblocks hp n s.
Proof.
  induction n as [|n IH]; intros s H; cbn [ni_squeezeblocks haraka_S_squeezeblocks]; [reflexivity|].
  destruct (ni_perm_st s H) as [E1 H1]. rewrite E1. cbn [bind].
  destruct (load_pair _ H1) as (a & b & E2 & E3 & E4). rewrite E2, E3. unfold HARAKAS_RATE. rewrite E4. cbn [bind].
  rewrite IH by exact H1. destruct (haraka_S_squeezeblocks hp n _) as [[r s']|]; [|cbn [bind]; reflexivity].
  cbn [bind]. now rewrite <- app_assoc.
Qed.
Lemma absorb_st fuel m : (length m <= fuel)%nat ->
  exists F, ni_absorb RC fuel 32 (repeat 0 64) m 0x1F = Some F /\ st_ok F
    /\ haraka_S_absorb hp fuel 32 (repeat 0 64) m 0x1F = Some F.
Proof.
  intros Hf. assert (H0 : st_ok (repeat 0 64)) by exact st_init. rewrite (ni_absorb_ref fuel _ m H0).
  pose proof (absorb_ok hp (pi512 RC) (pi512_length RC) ni_perm_st fuel m (repeat 0 64) Hf H0) as E.
  rewrite E. eexists. split; [reflexivity|]. split; [|reflexivity].
  apply finish_st. apply (afold_st hp (pi512 RC) (pi512_length RC) ni_perm_st); [cbn; lia|exact H0|apply norm_all].
Qed.
Lemma squeeze_st n F : st_ok F ->
  exists h s, haraka_S_squeezeblocks hp n F = Some (h, s) /\ st_ok s /\ length h = (n * 32)%nat.
Proof.
  intros H. rewrite <- (iterate_0 (pi512 RC) F).
  rewrite (squeezeblocks_ok hp (pi512 RC) (pi512_length RC) ni_perm_st n F 0 H).
  eexists. eexists. split; [reflexivity|]. split; [|apply out_from_length].
  apply (iterate_st hp (pi512 RC) ni_perm_st). exact H.
Qed.
Theorem ni_S_ok n m : ni_S RC n m = Some (HarakaS RC (norm m) n).
Proof.
  assert (R := gharaka_S_ok hp (pi512 RC) (pi512_length RC) ni_perm_st n m). unfold HarakaS. rewrite <- R. clear R.
  unfold ni_S, haraka_S, HARAKAS_RATE. destruct (absorb_st (length m) m (le_n _)) as (F & E1 & H & E2).
  rewrite E1, E2. cbn [bind]. rewrite ni_squeeze_ref by exact H.
  destruct (squeeze_st (n / 32) F H) as (h & s & E3 & H3 & _). rewrite E3. cbn [bind].
  rewrite (ni_squeeze_ref 1 s H3). reflexivity.
Qed.

(** ** Four lanes *)
Lemma lanes4 {A} (d : A) l : length l = 4%nat -> l = [nth 0 l d; nth 1 l d; nth 2 l d; nth 3 l d].
Proof. clear. destruct l as [|a [|b [|c [|e [|]]]]]; try discriminate. reflexivity. Qed.
Lemma Forall4 {A} (Q : A -> Prop) a b c d : Forall Q [a; b; c; d] -> Q a /\ Q b /\ Q c /\ Q d.
Proof. intros F. apply Forall_inv_tail in F as F1. apply Forall_inv_tail in F1 as F2. apply Forall_inv_tail in F2 as F3.
  apply Forall_inv in F, F1, F2, F3. auto. Qed.
Lemma Forall4i {A} (Q : A -> Prop) a b c d : Q a -> Q b -> Q c -> Q d -> Forall Q [a; b; c; d].
Proof. intros. auto using Forall_cons, Forall_nil. Qed.
Definition all4s (ss : list bytes) : Prop := length ss = 4%nat /\ Forall st_ok ss.
Lemma all4s_ex ss : all4s ss -> exists a b c d, ss = [a; b; c; d] /\ st_ok a /\ st_ok b /\ st_ok c /\ st_ok d.
Proof.
  clear. intros [L F]. destruct ss as [|a [|b [|c [|e [|]]]]]; try discriminate.
  destruct (Forall4 _ _ _ _ _ F) as (? & ? & ? & ?). eauto 10.
Qed.
Lemma cat4 (a b c d : bytes) : concat [a; b; c; d] = a ++ b ++ c ++ d.
Proof. cbn [concat]. now rewrite app_nil_r. Qed.
Definition xin (p : bytes * bytes) : bytes := xor_bytes (fst p) (norm (firstn 32 (snd p))).
Lemma xor32_mid pre s post m o1 : st_ok s -> (32 <= length m)%nat -> o1 = length pre ->
  (x <- xor16 (pre ++ s ++ post) o1 m 0 ;; xor16 x (o1 + 16) m 16) = Some (pre ++ xin (s, m) ++ post).
Proof.
  clear. intros [L B] Lm ->. pose proof (xor32 s m B ltac:(lia) Lm) as E.
  rewrite <- (Nat.add_0_r (length pre)) at 1. rewrite xor16_mid by lia.
  rewrite xor16_at in * by (auto; lia). cbn [bind] in *.
  rewrite xor16_mid by (rewrite ?xor_at_length; lia). rewrite E. cbn [bind]. reflexivity.
Qed.
Lemma xor_x4_ok ss ms : all4s ss -> length ms = 4%nat -> Forall (fun m => 32 <= length m)%nat ms ->
  xor_x4 (concat ss) ms = Some (concat (map xin (combine ss ms))).
Proof.
  clear. intros HS LM FM. destruct (all4s_ex ss HS) as (a & b & c & d & -> & Ha & Hb & Hc & Hd).
  destruct ms as [|m0 [|m1 [|m2 [|m3 [|]]]]]; try discriminate.
  destruct (Forall4 _ _ _ _ _ FM) as (H0 & H1 & H2 & H3).
  rewrite cat4. cbn [combine map]. rewrite cat4.
  assert (LX : forall p, st_ok (fst p) -> length (xin p) = 64%nat)
    by (intros p Hp; unfold xin; rewrite xor_bytes_length; apply Hp).
  assert (L0 := LX (a, m0) Ha). assert (L1 := LX (b, m1) Hb). assert (L2 := LX (c, m2) Hc). clear LX.
  unfold xor_x4. cbn [iterM get nth_error Nat.mul Nat.add].
  cbn [bind].
  pose proof (xor32_mid [] a (b ++ c ++ d) m0 0 Ha H0 eq_refl) as E0. cbn [app Nat.add] in E0. rewrite E0. cbn [bind].
  pose proof (xor32_mid (xin (a, m0)) b (c ++ d) m1 64 Hb H1 (eq_sym L0)) as E1. cbn [Nat.add] in E1. rewrite E1. cbn [bind].
  pose proof (xor32_mid (xin (a, m0) ++ xin (b, m1)) c d m2 128 Hc H2) as E2. cbn [Nat.add] in E2.
  rewrite <- !app_assoc in E2. rewrite E2 by (rewrite app_length; lia). cbn [bind].
  pose proof (xor32_mid (xin (a, m0) ++ xin (b, m1) ++ xin (c, m2)) d [] m3 192 Hd H3) as E3. cbn [Nat.add] in E3.
  rewrite <- !app_assoc, !app_nil_r in E3. rewrite E3 by (rewrite !app_length; lia). cbn [bind]. reflexivity.
Qed.
Lemma perm4 ss : all4s ss -> ni_perm512_x4 RC (concat ss) = Some (concat (map (pi512 RC) ss)) /\ all4s (map (pi512 RC) ss).
Proof.
  intros H. destruct (all4s_ex ss H) as (a & b & c & d & -> & Ha & Hb & Hc & Hd). cbn [map]. rewrite !cat4.
  rewrite (ni_perm512_x4_ok RC LRC Hb5) by (apply Ha || apply Hb || apply Hc || apply Hd).
  rewrite (norm_bytes a), (norm_bytes b), (norm_bytes c), (norm_bytes d) by (apply Ha || apply Hb || apply Hc || apply Hd).
  split; [reflexivity|]. split; [reflexivity|]. apply Forall4i; now apply ni_perm_st.
Qed.
Lemma all4s_xin ss ms : all4s ss -> length ms = 4%nat -> all4s (map xin (combine ss ms)).
Proof.
  clear. intros HS LM. destruct (all4s_ex ss HS) as (a & b & c & d & -> & Ha & Hb & Hc & Hd).
  destruct ms as [|m0 [|m1 [|m2 [|m3 [|]]]]]; try discriminate. split; [reflexivity|]. cbn [combine map].
  apply Forall4i; now apply xor_st.
Qed.
(** Each lane is absorbed as one message. *)
Lemma absorb1_short fuel st m : st_ok st -> (length m < 32)%nat ->
  exists t, pad_t 32 m 31 = Some t /\ length t = 32%nat /\ ni_absorb RC fuel 32 st m 31 = Some (xin (st, t)).
Proof.
  clear. intros H Hm. destruct (pad_t_ok 32 m 31 Hm) as (t & E & Lt). exists t. split; [exact E|]. split; [exact Lt|].
  assert (X := xor32 st t (proj2 H) ltac:(rewrite (proj1 H); lia) ltac:(lia)).
  assert (Q : (length m <? 32)%nat = true) by now apply Nat.ltb_lt.
  destruct fuel; cbn [ni_absorb]; rewrite Q, E; cbn [bind]; exact X.
Qed.
Lemma absorb1_long fuel st m : st_ok st -> (32 <= length m)%nat ->
  ni_absorb RC (S fuel) 32 st m 31 = ni_absorb RC fuel 32 (pi512 RC (xin (st, m))) (skipn 32 m) 31.
Proof.
  intros H Hm. cbn [ni_absorb]. assert (Q : (length m <? 32)%nat = false) by now apply Nat.ltb_ge.
  rewrite Q. pose proof (xor32 st m (proj2 H) ltac:(rewrite (proj1 H); lia) Hm) as E.
  destruct (xor16 st 0 m 0) as [s1|]; cbn [bind] in E |- *; [|discriminate E].
  rewrite E. cbn [bind]. destruct (ni_perm_st _ (xor_st st (firstn 32 m) H)) as [E1 H1].
  rewrite E1. cbn [bind]. reflexivity.
Qed.
Lemma absorb4_ok fuel : forall ss ms mlen, all4s ss -> length ms = 4%nat -> Forall (fun m => length m = mlen) ms ->
  (mlen <= fuel)%nat ->
  exists ts, ni_absorb4x RC fuel 32 (concat ss) ms mlen 31 = Some (concat ts) /\ all4s ts
    /\ mapM2 (fun s m => ni_absorb RC fuel 32 s m 31) ss ms = Some ts.
Proof.
  induction fuel as [|fuel IH]; intros ss ms mlen HS LM FM Hf.
  all: assert (Hs4 := all4s_ex ss HS); destruct Hs4 as (a & b & c & d & Es & Ha & Hb & Hc & Hd);
    destruct ms as [|m0 [|m1 [|m2 [|m3 [|]]]]]; try discriminate LM;
    destruct (Forall4 _ _ _ _ _ FM) as (H0 & H1 & H2 & H3);
    cbn [ni_absorb4x]; destruct (Nat.ltb_spec mlen 32) as [Hm|Hm]; try lia.
  1,2: match goal with |- context [ni_absorb RC ?F _ _ _ _] =>
      destruct (absorb1_short F a m0 Ha ltac:(lia)) as (t0 & P0 & L0 & A0);
      destruct (absorb1_short F b m1 Hb ltac:(lia)) as (t1 & P1 & L1 & A1);
      destruct (absorb1_short F c m2 Hc ltac:(lia)) as (t2 & P2 & L2 & A2);
      destruct (absorb1_short F d m3 Hd ltac:(lia)) as (t3 & P3 & L3 & A3) end;
    exists (map xin (combine ss [t0; t1; t2; t3]));
    (split; [|split; [now apply all4s_xin|]]);
    [cbn [mapM]; rewrite !rd_all by congruence; cbn [bind]; rewrite P0, P1, P2, P3; cbn [bind];
     apply xor_x4_ok; [exact HS|reflexivity|apply Forall4i; lia]
    |rewrite Es; cbn [mapM2]; rewrite A0, A1, A2, A3; cbn [bind combine map]; reflexivity].
  rewrite xor_x4_ok by (try exact HS; try reflexivity; apply Forall4i; lia). cbn [bind].
  destruct (perm4 _ (all4s_xin ss [m0; m1; m2; m3] HS eq_refl)) as [E1 H4]. rewrite E1. cbn [bind].
  destruct (IH _ (map (skipn 32) [m0; m1; m2; m3]) (mlen - 32)%nat H4 eq_refl) as (ts & E2 & H5 & E3).
  { cbn [map]. apply Forall4i; rewrite skipn_length; lia. }
  { lia. }
  exists ts. split; [exact E2|]. split; [exact H5|]. rewrite <- E3, Es. cbn [mapM2 map combine].
  rewrite !absorb1_long by (assumption || lia). reflexivity.
Qed.
Lemma load4s ss : all4s ss ->
  mapM (fun j => a <- LOAD (concat ss) (64 * j) ;; b <- LOAD (concat ss) (64 * j + 16) ;; Some (a ++ b)) (seq 0 4)
  = mapM (fun s => rd s 0 32) ss.
Proof.
  clear. intros H. destruct (all4s_ex ss H) as (a & b & c & d & -> & Ha & Hb & Hc & Hd). rewrite cat4.
  set (X := a ++ b ++ c ++ d).
  assert (G : forall j pre s post, X = pre ++ s ++ post -> length pre = (64 * j)%nat -> st_ok s ->
    (x <- LOAD X (64 * j) ;; y <- LOAD X (64 * j + 16) ;; Some (x ++ y)) = rd s 0 32).
  { intros j pre s post EX Lp Hs. rewrite EX, <- Lp. destruct (load_pair s Hs) as (u & v & E0 & E1 & ->).
    rewrite <- (Nat.add_0_r (length pre)) at 1. rewrite !LOAD_mid by (rewrite (proj1 Hs); lia).
    rewrite E0, E1. reflexivity. }
  assert (La := proj1 Ha). assert (Lb := proj1 Hb). assert (Lc := proj1 Hc).
  cbn [seq mapM].
  rewrite (G 0%nat [] a (b ++ c ++ d)) by auto.
  rewrite (G 1%nat a b (c ++ d)) by auto.
  rewrite (G 2%nat (a ++ b) c d); [|unfold X; now rewrite <- !app_assoc|rewrite !app_length; lia|assumption].
  rewrite (G 3%nat (a ++ b ++ c) d []); [|unfold X; now rewrite <- !app_assoc, app_nil_r|rewrite !app_length; lia|assumption].
  reflexivity.
Qed.
Lemma squeeze4_ok n : forall ss, all4s ss ->
  exists hs ss', ni_squeezeblocks4x RC n (concat ss) = Some (hs, concat ss') /\ all4s ss' /\ length hs = 4%nat
    /\ mapM (ni_squeezeblocks RC n) ss = Some (combine hs ss').
Proof.
  induction n as [|n IH]; intros ss H.
  - exists (repeat [] 4), ss. split; [reflexivity|]. split; [exact H|]. split; [reflexivity|].
    destruct (all4s_ex ss H) as (a & b & c & d & -> & _). reflexivity.
  - cbn [ni_squeezeblocks4x]. destruct (perm4 ss H) as [E1 H1]. rewrite E1. cbn [bind].
    rewrite load4s by exact H1. destruct (IH _ H1) as (hs & ss' & E2 & H2 & Lh & E3).
    destruct (all4s_ex ss H) as (a & b & c & d & Es & Ha & Hb & Hc & Hd).
    destruct (all4s_ex ss' H2) as (a' & b' & c' & d' & Es' & _).
    destruct hs as [|h0 [|h1 [|h2 [|h3 [|]]]]]; try discriminate Lh.
    rewrite Es in *. cbn [map] in *. rewrite Es' in *. cbn [combine] in *.
    destruct (ni_perm_st a Ha) as [Pa Qa]. destruct (ni_perm_st b Hb) as [Pb Qb].
    destruct (ni_perm_st c Hc) as [Pc Qc]. destruct (ni_perm_st d Hd) as [Pd Qd].
    destruct (load_pair _ Qa) as (a1 & a2 & A1 & A2 & A3). destruct (load_pair _ Qb) as (b1 & b2 & B1 & B2 & B3).
    destruct (load_pair _ Qc) as (c1 & c2 & C1 & C2 & C3). destruct (load_pair _ Qd) as (d1 & d2 & D1 & D2 & D3).
    cbn [mapM] in E3 |- *. rewrite A3, B3, C3, D3. cbn [bind]. rewrite E2. cbn [bind combine map fst snd].
    eexists. exists [a'; b'; c'; d']. split; [reflexivity|]. split; [exact H2|]. split; [reflexivity|].
    cbn [ni_squeezeblocks]. rewrite Pa, Pb, Pc, Pd. cbn [bind]. rewrite A1, A2, B1, B2, C1, C2, D1, D2. cbn [bind].
    destruct (ni_squeezeblocks RC n (pi512 RC a)) as [[ra sa]|]; cbn [bind] in E3 |- *; [|discriminate E3].
    destruct (ni_squeezeblocks RC n (pi512 RC b)) as [[rb sb]|]; cbn [bind] in E3 |- *; [|discriminate E3].
    destruct (ni_squeezeblocks RC n (pi512 RC c)) as [[rcc sc]|]; cbn [bind] in E3 |- *; [|discriminate E3].
    destruct (ni_squeezeblocks RC n (pi512 RC d)) as [[rd sd]|]; cbn [bind] in E3 |- *; [|discriminate E3].
    injection E3 as <- <- <- <- <- <- <- <-. cbn [combine]. now rewrite <- !app_assoc.
Qed.
Lemma all4s_zero : concat (repeat (repeat 0 64) 4) = repeat 0 256 /\ all4s (repeat (repeat 0 64) 4).
Proof. split; [reflexivity|]. split; [reflexivity|]. apply Forall4i; exact st_init. Qed.
Theorem ni_Sx4_ok n ins inlen : length ins = 4%nat -> Forall (fun x => inlen <= length x)%nat ins ->
  ni_Sx4 RC n ins inlen = Some (map (fun x => HarakaS RC (norm (firstn inlen x)) n) ins).
Proof.
  intros L F. unfold ni_Sx4, HARAKAS_RATE.
  destruct ins as [|m0 [|m1 [|m2 [|m3 [|]]]]]; try discriminate L. destruct (Forall4 _ _ _ _ _ F) as (F0 & F1 & F2 & F3).
  cbn [mapM]. rewrite !rd_ok by lia. cbn [bind].
  change (skipn 0 m0) with m0. change (skipn 0 m1) with m1. change (skipn 0 m2) with m2. change (skipn 0 m3) with m3.
  assert (L0 : length (firstn inlen m0) = inlen) by (rewrite firstn_length; lia).
  assert (L1 : length (firstn inlen m1) = inlen) by (rewrite firstn_length; lia).
  assert (L2 : length (firstn inlen m2) = inlen) by (rewrite firstn_length; lia).
  assert (L3 : length (firstn inlen m3) = inlen) by (rewrite firstn_length; lia).
  set (x0 := firstn inlen m0) in *. set (x1 := firstn inlen m1) in *. set (x2 := firstn inlen m2) in *. set (x3 := firstn inlen m3) in *.
  destruct all4s_zero as [EZ HZ]. rewrite <- EZ.
  destruct (absorb4_ok inlen _ [x0; x1; x2; x3] inlen HZ eq_refl) as (ts & E1 & H1 & E1').
  { apply Forall4i; assumption. }
  { lia. }
  rewrite E1. cbn [bind]. cbn [repeat mapM2] in E1'.
  destruct (squeeze4_ok (n / 32) ts H1) as (hs & us & E2 & H2 & Lh & E2'). rewrite E2. cbn [bind].
  destruct (squeeze4_ok 1 us H2) as (ds & vs & E3 & H3 & Ld & E3').
  destruct (all4s_ex ts H1) as (t0 & t1 & t2 & t3 & -> & _). destruct (all4s_ex us H2) as (u0 & u1 & u2 & u3 & -> & _).
  destruct (all4s_ex vs H3) as (v0 & v1 & v2 & v3 & -> & _).
  destruct hs as [|h0 [|h1 [|h2 [|h3 [|]]]]]; try discriminate Lh.
  destruct ds as [|d0 [|d1 [|d2 [|d3 [|]]]]]; try discriminate Ld.
  cbn [combine mapM] in E2', E3'.
  assert (K : forall x t h u d v, length x = inlen -> ni_absorb RC inlen 32 (repeat 0 64) x 31 = Some t ->
    ni_squeezeblocks RC (n / 32) t = Some (h, u) -> ni_squeezeblocks RC 1 u = Some (d, v) ->
    (if (n mod 32 =? 0)%nat then Some h else o <- rd d 0 (n mod 32) ;; Some (h ++ o)) = Some (HarakaS RC (norm x) n)).
  { clear - LRC Hb5. intros x t h u d v Lx A B C. rewrite <- ni_S_ok. unfold ni_S, HARAKAS_RATE. rewrite Lx, A. cbn [bind].
    rewrite B. cbn [bind]. rewrite C. cbn [bind]. reflexivity. }
  assert (Q : forall o1 o2 o3 o4 y1 y2 y3 y4,
    (z <- o1 ;; r <- (z0 <- o2 ;; r <- (z1 <- o3 ;; r <- (z2 <- o4 ;; Some [z2]) ;; Some (z1 :: r)) ;; Some (z0 :: r)) ;; Some (z :: r))
    = Some [y1; y2; y3; y4] -> o1 = Some y1 /\ o2 = Some y2 /\ o3 = Some y3 /\ o4 = Some (y4 : bytes)).
  { clear. intros [?|] [?|] [?|] [?|]; cbn [bind]; try discriminate. intros. injection H as <- <- <- <-. auto. }
  assert (Q2 : forall o1 o2 o3 o4 y1 y2 y3 y4,
    (z <- o1 ;; r <- (z0 <- o2 ;; r <- (z1 <- o3 ;; r <- (z2 <- o4 ;; Some [z2]) ;; Some (z1 :: r)) ;; Some (z0 :: r)) ;; Some (z :: r))
    = Some [y1; y2; y3; y4] -> o1 = Some y1 /\ o2 = Some y2 /\ o3 = Some y3 /\ o4 = Some (y4 : bytes * bytes)).
  { clear. intros [?|] [?|] [?|] [?|]; cbn [bind]; try discriminate. intros. injection H as <- <- <- <-. auto. }
  apply Q in E1' as (A0 & A1 & A2 & A3). apply Q2 in E2' as (B0 & B1 & B2 & B3). apply Q2 in E3' as (C0 & C1 & C2 & C3).
  pose proof (K _ _ _ _ _ _ L0 A0 B0 C0) as K0. pose proof (K _ _ _ _ _ _ L1 A1 B1 C1) as K1.
  pose proof (K _ _ _ _ _ _ L2 A2 B2 C2) as K2. pose proof (K _ _ _ _ _ _ L3 A3 B3 C3) as K3.
  clear - E3 K0 K1 K2 K3. cbn [map]. fold x0 x1 x2 x3. rewrite E3. cbn [bind combine mapM fst snd].
  destruct (n mod 32 =? 0)%nat.
  - congruence.
  - rewrite K0. cbn [bind]. rewrite K1. cbn [bind]. rewrite K2. cbn [bind]. rewrite K3. reflexivity.
Qed.
End NiS.

(** ** Whatever the constants, the outputs are bytes. *)
Lemma LOAD_any p o d : LOAD p o = Some d -> all_bytes d /\ length d = 16%nat.
Proof.
  unfold LOAD. intros E. apply obind in E as (x & E1 & E). injection E as <-.
  split; [apply norm_all|]. rewrite map_length. exact (rd_length _ _ _ _ E1).
Qed.
Lemma ni_squeeze_any RC n : forall s h s', ni_squeezeblocks RC n s = Some (h, s') -> all_bytes h /\ length h = (32 * n)%nat.
Proof.
  induction n as [|n IH]; intros s h s' E; cbn [ni_squeezeblocks] in E.
  - injection E as <- <-. split; [apply Forall_nil|reflexivity].
  - apply obind in E as (s1 & E1 & E). apply obind in E as (a & E2 & E). apply obind in E as (b & E3 & E).
    apply obind in E as ([r s2] & E4 & E). injection E as <- <-.
    apply LOAD_any in E2 as [? ?], E3 as [? ?]. apply IH in E4 as [? ?]. split.
    + apply Forall_app. split; auto. apply Forall_app. auto.
    + rewrite !app_length. lia.
Qed.
Lemma ni_any s K : ni_fns s = Some K -> hk_any K.
Proof.
  destruct s as [rc|]; [|discriminate]. cbn [ni_fns bind]. intros E. injection E as <-.
  constructor; cbn [hk_512 hk_S hk_perm].
  - intros x d E. unfold ni_512 in E. apply obind in E as (s & _ & E). apply obind in E as (s1 & _ & E).
    apply obind in E as ([[[a b] c] e] & _ & E). injection E as <-. unfold TRUNCSTORE. apply Forall_app. split; apply norm_all.
  - intros n m d E. unfold ni_S in E. apply obind in E as (s & _ & E). apply obind in E as ([o s1] & E1 & E).
    apply ni_squeeze_any in E1 as [B1 L1]. unfold HARAKAS_RATE in *. pose proof (Nat.div_mod n 32 ltac:(lia)) as D.
    destruct (Nat.eqb_spec (n mod 32) 0) as [Z0|Z0].
    + injection E as <-. split; [exact B1|lia].
    + apply obind in E as ([x s2] & E2 & E). apply obind in E as (y & E3 & E). injection E as <-.
      apply ni_squeeze_any in E2 as [B2 L2]. apply rd_length in E3 as L3. apply rd_bytes in E3; [|exact B2].
      split; [apply Forall_app; auto|]. rewrite app_length. lia.
  - intros x d E. unfold ni_perm512 in E. apply obind in E as (s & _ & E). apply obind in E as (s1 & _ & E).
    injection E as <-. rewrite store4_norm. apply norm_all.
Qed.

(** ** Constants *)
Theorem load_haraka_constants_ok : load_haraka_constants = standard_RC.
Proof. vm_compute. reflexivity. Qed.
Lemma rc_bytes5 rc RC : rc_ok 4 rc RC -> forall x, length x = 64%nat -> all_bytes x -> all_bytes (pi512 RC x).
Proof. intros H x L B. exact (proj2 (proj2 (pi512_st rc RC H x (conj L B)))). Qed.
Lemma rc_bytes2 rc RC : rc_ok 2 rc RC -> forall x, length x = 32%nat -> all_bytes x -> all_bytes (pi256 RC x).
Proof. intros H x L B. destruct (perm256 rc RC x H L) as [_ B']. now rewrite norm_bytes in B'. Qed.
#[local] Opaque load_haraka_constants standard_RC.
Lemma mapM_eq {A B} (f g : A -> option B) l : (forall x, f x = g x) -> mapM f l = mapM g l.
Proof. intros H. induction l as [|x l IH]; cbn [mapM]; [reflexivity|]. now rewrite H, IH. Qed.
Lemma loads_blocks k : forall buf, length buf = (16 * k)%nat -> all_bytes buf -> forall pre,
  mapM (fun i => LOAD (pre ++ buf) (length pre + i * 16)) (seq 0 k) = Some (HarakaSpec.blocks k buf).
Proof.
  induction k as [|k IH]; intros buf L B pre; [reflexivity|]. cbn [seq mapM HarakaSpec.blocks].
  destruct (split_at buf 0 16) as (a & b & c & -> & La & Lb & _); [lia|]. destruct a; [|discriminate]. cbn [app] in *.
  apply Forall_app in B as [Bb Bc]. rewrite app_length in L.
  rewrite LOAD_mid by lia. unfold LOAD. rewrite rd_all by congruence. cbn [bind]. rewrite norm_bytes by exact Bb.
  rewrite firstn_app, firstn_all2, Lb, Nat.sub_diag by lia. cbn [firstn]. rewrite app_nil_r.
  rewrite skipn_app, skipn_all2, Lb, Nat.sub_diag by lia. cbn [app skipn].
  rewrite <- seq_shift. rewrite mapM_map.
  rewrite (mapM_eq _ (fun i => LOAD ((pre ++ b) ++ c) (length (pre ++ b) + i * 16)))
    by (intros i; rewrite <- app_assoc; unfold LOAD; do 2 f_equal; rewrite app_length; lia).
  rewrite IH by (auto; lia). reflexivity.
Qed.
Theorem ni_tweak_ok n seed : length seed = n -> ni_tweak_constants n seed = Some (tweaked_RC (norm seed)).
Proof.
  intros L. unfold ni_tweak_constants, tweaked_RC. rewrite rd_all by lia. cbn [bind].
  rewrite load_haraka_constants_ok. rewrite (ni_S_ok standard_RC eq_refl (rc_bytes5 _ _ standard_rc_ok)). cbn [bind].
  change (40 * 16)%nat with 640%nat. set (buf := HarakaS standard_RC (norm seed) 640).
  apply (loads_blocks 40 buf) with (pre := []).
  - apply HarakaS_length.
  - exact (HarakaS_bytes _ _ standard_rc_ok (norm seed) 640 (norm_all seed)).
Qed.
Lemma blocks_len nb : forall x, length (HarakaSpec.blocks nb x) = nb.
Proof. induction nb as [|nb IH]; intros x; cbn [HarakaSpec.blocks length]; auto. Qed.
(** What is needed of the constants. *)
Definition rc_good (RC : list (list Z)) : Prop :=
  length RC = 40%nat
  /\ (forall x, length x = 64%nat -> all_bytes x -> all_bytes (pi512 RC x))
  /\ (forall x, length x = 32%nat -> all_bytes x -> all_bytes (pi256 RC x)).
Lemma good_blocks buf : all_bytes buf -> length buf = 640%nat -> rc_good (HarakaSpec.blocks 40 buf).
Proof.
  intros B L. destruct (interleave_all_ok buf B L) as (r5 & r2 & _ & H5 & H2).
  split; [apply blocks_len|]. split; [exact (rc_bytes5 _ _ H5)|exact (rc_bytes2 _ _ H2)].
Qed.
Lemma good_tweaked seed : rc_good (tweaked_RC (norm seed)).
Proof.
  apply good_blocks; [|apply HarakaS_length].
  exact (HarakaS_bytes _ _ standard_rc_ok (norm seed) 640 (norm_all seed)).
Qed.
Lemma good_ok RC : rc_good RC ->
  hk_ok {| hk_perm := ni_perm512 RC; hk_S := ni_S RC; hk_512 := ni_512 RC; hk_256 := ni_256 RC |} RC.
Proof.
  intros (L & B5 & B2). constructor; cbn [hk_512 hk_256 hk_S hk_perm].
  - exact (ni_512_ok RC L B5).
  - exact (ni_256_ok RC L B2).
  - exact (ni_S_ok RC L B5).
  - exact (ni_perm_st RC L B5).
  - exact (Haraka256_byte RC B2).
Qed.
Lemma ni_init n ps : length ps = n -> exists K, ni_fns (ni_tweak_constants n ps) = Some K /\ hk_ok K (tweaked_RC (norm ps)).
Proof.
  intros L. rewrite (ni_tweak_ok n ps L). eexists. split; [reflexivity|]. apply good_ok, good_tweaked.
Qed.
Theorem ni_suite_ok P junk robust : (1 <= p_n P <= 32)%nat -> wf_params P = true -> suite_ok P (ni_suite P junk robust).
Proof. intros HN Hwf. exact (hk_suite_ok P junk HN _ _ Hwf _ (ni_init (p_n P)) ni_any robust). Qed.
