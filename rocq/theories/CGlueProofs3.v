(** The typed hash_haraka.c and thash_haraka_*.c equal the model's. *)
From Verif Require Import Base BaseFacts Params Address Suite Utils Haraka HashShake HashHaraka CInt CCore CIntFacts CCoreProofs CCoreProofs3 CWord.
From Verif Require Import HarakaSpec HarakaProofs HarakaSponge HarakaTweak ShakeProofs HashHarakaProofs.
From Verif Require Import CHaraka CHarakaProofs CHarakaProofs2 CHarakaProofs3 CHarakaProofs4 CHarakaProofs5 CHarakaProofs6 CGlue CGlueProofs.
Local Open Scope Z_scope.
Local Notation Q32 := (Q8 U32).
Local Notation Q64 := (Q8 U64).

Lemma h512_size rc x y : haraka512 rc x = Some y -> length y = 32%nat.
Proof.
  unfold haraka512. intros E. apply obind in E as (b & _ & E). apply obind in E as (f & _ & E).
  apply obind in E as (u1 & R1 & E). apply obind in E as (u2 & R2 & E). apply obind in E as (u3 & R3 & E). apply obind in E as (u4 & R4 & E).
  apply rd_length in R1, R2, R3, R4. injection E as <-. rewrite !app_length. lia.
Qed.
Lemma h256_size rc x y : haraka256 rc x = Some y -> length y = 32%nat.
Proof.
  unfold haraka256. intros E. apply obind in E as (b & E1 & E). apply perm256_length in E1. revert E. unfold feed_forward.
  apply (iterM_keep (fun s => length s = 32%nat)); [exact E1|]. intros i s s' L H.
  apply obind in H as (u & _ & H). apply obind in H as (v & _ & H). apply wr_length in H. lia.
Qed.
Lemma okh_bytes s c : okh s c -> (c <= 32)%nat -> all_bytes s.
Proof.
  intros (a & -> & L & Ba) Hc. apply Forall_app. split; [exact Ba|]. constructor; [unfold is_byte; lia|constructor].
Qed.

Lemma bind_some {A B} (x : A) (f : A -> option B) : bind (Some x) f = f x. Proof. reflexivity. Qed.

Section Haraka.
Variable P : params.
Variable junk : nat -> nat -> Z.
Hypothesis Hwf : wf_params P = true.
Hypothesis Hbig : Z.of_nat (SPX_BYTES P) < 2 ^ 31.
Notation N := (p_n P).
Notation z := Z.of_nat.
Notation n_ := (xN P).
Ltac arr := repeat match goal with
  | |- context [array junk ?j (K ?k)] => let n := eval vm_compute in (Z.to_nat k) in rewrite (array_ok junk j (K k) n eq_refl), bind_some end.
Lemma hJ_ok : length (fst (hJ junk)) = 16%nat /\ length (snd (hJ junk)) = 8%nat. Proof. clear. split; reflexivity. Qed.

Theorem haraka_init_c_ok ps : length ps = N -> agree (rows 10) (haraka_init_c P junk ps) (tweak_constants N ps).
Proof.
  intros L. pose proof (bN P Hwf). unfold haraka_init_c. arr. rewrite <- L. destruct hJ_ok.
  apply tweak_c_ok; try assumption; try apply junk_length. lia.
Qed.

Section Ctx.
Variables (c : ctx haraka_st) (r5 r2 : list (list Z)).
Hypothesis Hst : c_state c = Some (r5, r2).
Hypothesis F5 : Forall Q64 r5.
Hypothesis F2 : Forall Q32 r2.
Notation pc := (haraka512_perm_c (hJ junk) r5).
Notation pm := (haraka512_perm r5).
Lemma call_512_ok out inp : length out = 32%nat -> call_512 junk r5 out inp = haraka512 r5 inp.
Proof.
  clear - F5. intros L. unfold call_512. arr. destruct hJ_ok. rewrite haraka512_c_ok by (try assumption; try apply junk_length; lia).
  destruct (haraka512 r5 inp) as [y|] eqn:E; [|reflexivity]. cbn [bind]. apply h512_size in E. apply BaseFacts.wr_all. lia.
Qed.
Lemma call_S_ok eo n inp e l : ix eo = Some n -> ix e = Some l -> call_S junk r5 eo inp e = (x <- rd inp 0 l ;; haraka_S pm n x).
Proof.
  clear - F5. intros Ho He. destruct (asg_ix _ _ Ho) as [Eo Bo]. destruct (asg_ix _ _ He) as [Ee Be]. unfold call_S. arr. rewrite Eo, He. cbn [bind].
  destruct (rd inp 0 l) as [x|] eqn:R; [|reflexivity]. cbn [bind]. apply rd_length in R. subst l.
  apply (S_c_ok (hJ junk) r5 hJ_ok F5); try apply junk_length; assumption.
Qed.
Definition okr (s : bytes) : Prop := exists k, (k < 32)%nat /\ okh s k.
Lemma hinc_ok s inp eo o e l : okr s -> ix eo = Some o -> ix e = Some l -> z l + 256 < 2 ^ 64 ->
  agree okr (call_hinc_absorb junk r5 s inp eo e) (x <- rd inp o l ;; haraka_S_inc_absorb pm (S (length x)) s x).
Proof.
  clear - F5. intros (k & Hk & Ks) Ho He Hl. unfold call_hinc_absorb. rewrite Ho, (proj1 (asg_ix _ _ He)). cbn [bind]. rewrite Nat2Z.id.
  destruct (rd inp o l) as [x|] eqn:R; [|apply agree_none]. cbn [bind]. apply rd_length in R. subst l.
  exact (inc_absorb_c_ok pc pm (H_perm (hJ junk) r5 hJ_ok F5) (H_st r5) x s k (S (length x)) Hl Hk Ks ltac:(lia)).
Qed.
Lemma hsq_ok s e n : okh s 0 -> ix e = Some n ->
  call_hinc_squeeze junk r5 e s = (' (h, _) <- haraka_S_inc_squeeze pm n s ;; Some h).
Proof.
  clear - F5. intros Ks He. destruct (asg_ix _ _ He) as [Ee Be]. unfold call_hinc_squeeze. rewrite Ee. cbn [bind].
  destruct (inc_squeeze_c_ok pc pm (H_perm (hJ junk) r5 hJ_ok F5) (H_st r5) s 0 n Ks ltac:(lia) Be) as [-> _]. reflexivity.
Qed.
Lemma sq_bytes s n h s' : okh s 0 -> haraka_S_inc_squeeze pm n s = Some (h, s') -> all_bytes h.
Proof.
  clear. intros Ks. apply inc_squeeze_bytes; [|exact (okh_bytes s 0 Ks ltac:(lia))]. intros x y E. exact (perm512_bytes _ _ _ E).
Qed.
Lemma start_ok : okr haraka_S_inc_init. Proof. clear. exists 0%nat. split; [lia|apply init_okh]. Qed.
Ltac nx := repeat match goal with |- bind ?o _ = bind ?o _ => destruct o as [?|]; cbn [bind]; [|reflexivity] | |- bind (bind ?o _) _ = bind ?o _ => destruct o as [?|]; cbn [bind]; [|reflexivity] end.
Lemma ix0 : ix (K 0) = Some 0%nat. Proof. reflexivity. Qed.
Lemma ix32 : ix (K 32) = Some 32%nat. Proof. reflexivity. Qed.
Lemma ix64 : ix (K 64) = Some 64%nat. Proof. reflexivity. Qed.
Theorem haraka_prf_c_ok a : haraka_prf_addr_c P junk c a = haraka_prf_addr P c a.
Proof.
  unfold haraka_prf_addr_c, haraka_prf_addr, hk_prf_addr, ref_fns. rewrite Hst. cbn [bind]. arr. cbv zeta. cbn [hk_512].
  rewrite (memcpy_c_ok _ _ _ _ _ _ _ ix0 ix_ADDR). nx. rewrite (memcpy_c_ok _ _ _ _ _ _ _ ix_ADDR (ix_N P Hwf)). nx.
  rewrite call_512_ok by apply junk_length. nx. rewrite (ix_N P Hwf). reflexivity.
Qed.
(** the three absorb calls *)
Lemma three j e1 n1 eo o e2 n2 x y m : ix e1 = Some n1 -> ix eo = Some o -> ix e2 = Some n2 -> z n1 + 256 < 2 ^ 64 -> z n2 + 256 < 2 ^ 64 -> z (length m) + 256 < 2 ^ 64 ->
  agree (fun s => okh s 0) (s <- array junk j (K 65) ;; s <- haraka_S_inc_init_c s ;; s <- call_hinc_absorb junk r5 s x (K 0) e1 ;; s <- call_hinc_absorb junk r5 s y eo e2 ;;
     s <- call_hinc_absorb junk r5 s m (K 0) (V U64 (z (length m))) ;; haraka_S_inc_finalize_c s)
    (x <- rd x 0 n1 ;; s <- haraka_S_inc_absorb pm (S (length x)) haraka_S_inc_init x ;; y <- rd y o n2 ;; s <- haraka_S_inc_absorb pm (S (length y)) s y ;;
     s <- haraka_S_inc_absorb pm (S (length m)) s m ;; haraka_S_inc_finalize s).
Proof.
  intros H1 Ho H2 B1 B2 Bm. arr. rewrite (CHarakaProofs5.inc_init_c_ok) by apply junk_length. cbn [bind].
  destruct (hinc_ok _ x _ _ _ _ start_ok ix0 H1 B1) as [-> Q1]. destruct (rd x 0 n1) as [x'|]; [|apply agree_none]. cbn [bind] in Q1 |- *.
  destruct (haraka_S_inc_absorb pm _ _ x') as [s1|]; [|apply agree_none]. cbn [bind]. specialize (Q1 _ eq_refl).
  destruct (hinc_ok s1 y _ _ _ _ Q1 Ho H2 B2) as [-> Q2]. destruct (rd y o n2) as [y'|]; [|apply agree_none]. cbn [bind] in Q2 |- *.
  destruct (haraka_S_inc_absorb pm _ s1 y') as [s2|]; [|apply agree_none]. cbn [bind]. specialize (Q2 _ eq_refl).
  destruct (hinc_ok s2 m _ _ _ _ Q2 ix0 (ix_mlen m ltac:(lia)) Bm) as [-> Q3]. rewrite rd_all in Q3 |- * by reflexivity. cbn [bind] in Q3 |- *.
  destruct (haraka_S_inc_absorb pm _ s2 m) as [s3|]; [|apply agree_none]. cbn [bind]. destruct (Q3 _ eq_refl) as (k & Hk & K3).
  exact (CHarakaProofs5.inc_finalize_c_ok s3 k Hk K3).
Qed.
Theorem haraka_rand_c_ok k o m : z (length m) + 256 < 2 ^ 64 ->
  haraka_gen_message_random_c P junk c k o m (z (length m)) = haraka_gen_message_random P c k o m.
Proof.
  intros Hm. pose proof (bN P Hwf). pose proof (ix_N P Hwf) as E.
  destruct (three 304 _ _ _ _ _ _ k o m E ix0 E ltac:(lia) ltac:(lia) Hm) as [X Q].
  transitivity (s <- (s <- array junk 304 (K 65) ;; s <- haraka_S_inc_init_c s ;; s <- call_hinc_absorb junk r5 s k (K 0) n_ ;; s <- call_hinc_absorb junk r5 s o (K 0) n_ ;;
     s <- call_hinc_absorb junk r5 s m (K 0) (V U64 (z (length m))) ;; haraka_S_inc_finalize_c s) ;; call_hinc_squeeze junk r5 n_ s).
  { unfold haraka_gen_message_random_c. rewrite Hst. cbn [bind]. repeat (match goal with |- bind ?u _ = _ => destruct u; cbn [bind]; [|reflexivity] end). reflexivity. }
  rewrite X. clear X. unfold haraka_gen_message_random, hk_gen_message_random, ref_fns, inc_absorb. rewrite Hst. cbn [bind hk_perm]. cbv zeta.
  repeat match goal with |- bind (bind ?o _) _ = bind ?o _ => destruct o as [?|]; cbn [bind] in Q |- *; [|reflexivity] end.
  match goal with |- bind ?o _ = _ => destruct o as [s|]; [|reflexivity] end. cbn [bind]. exact (hsq_ok s _ _ (Q s eq_refl) E).
Qed.
Theorem haraka_msg_c_ok R pk m : z (length m) + 256 < 2 ^ 64 ->
  haraka_hash_message_c P junk c R pk m (z (length m)) = haraka_hash_message P c R pk m.
Proof.
  intros Hm. pose proof (bN P Hwf). pose proof (ix_N P Hwf) as E.
  destruct (three 305 _ _ _ _ _ _ R pk m E E E ltac:(lia) ltac:(lia) Hm) as [X Q].
  transitivity (s <- (s <- array junk 305 (K 65) ;; s <- haraka_S_inc_init_c s ;; s <- call_hinc_absorb junk r5 s R (K 0) n_ ;; s <- call_hinc_absorb junk r5 s pk n_ n_ ;;
     s <- call_hinc_absorb junk r5 s m (K 0) (V U64 (z (length m))) ;; haraka_S_inc_finalize_c s) ;; buf <- call_hinc_squeeze junk r5 (xDGST_BYTES P) s ;; split_digest_c P buf).
  { unfold haraka_hash_message_c. rewrite Hst. cbn [bind]. repeat (match goal with |- bind ?u _ = _ => destruct u; cbn [bind]; [|reflexivity] end). reflexivity. }
  rewrite X. clear X. unfold haraka_hash_message, hk_hash_message, ref_fns, inc_absorb. rewrite Hst. cbn [bind hk_perm]. cbv zeta.
  repeat match goal with |- bind (bind ?o _) _ = bind ?o _ => destruct o as [?|]; cbn [bind] in Q |- *; [|reflexivity] end.
  match goal with |- bind ?o _ = _ => destruct o as [s|]; [|reflexivity] end. cbn [bind]. specialize (Q s eq_refl). rewrite (hsq_ok s _ _ Q (ix_DGST P Hwf Hbig)).
  destruct (haraka_S_inc_squeeze pm _ s) as [[h s']|] eqn:Eh; [|reflexivity]. cbn [bind].
  apply split_digest_c_ok; [assumption|assumption|]. exact (sq_bytes _ _ _ _ Q Eh).
Qed.
Section Th.
Variable k : nat.
Hypothesis Hk : z (k * N) + 300 < 2 ^ 32.
Theorem haraka_thash_c_ok robust a mem out inp : haraka_thash_c P junk robust c (z k) a mem out inp = haraka_thash P junk robust c k a mem out inp.
Proof.
  pose proof (k_small P Hwf k Hk) as Hks. pose proof (ix_kN P Hwf k Hk) as EK. pose proof (ix_N P Hwf) as EN.
  assert (E32 : ev xADDR I32 (z SPX_ADDR_BYTES)) by (change (z SPX_ADDR_BYTES) with 32; apply ev_K; lia).
  assert (EA : ix (xADDR + V U32 (z k) * n_)%C = Some (SPX_ADDR_BYTES + k * N)%nat).
  { pose proof (e_plus_kN P Hwf k Hk xADDR SPX_ADDR_BYTES E32 ltac:(unfold SPX_ADDR_BYTES; lia)) as X. exact (ix_is _ _ _ _ X eq_refl). }
  assert (C1 : cond (V U32 (z k) == K 1)%C = Some (k =? 1)%nat).
  { replace (k =? 1)%nat with (z k =? 1) by (destruct (Nat.eqb_spec k 1); [apply Z.eqb_eq|apply Z.eqb_neq]; lia).
    apply (cond_eq _ _ U32); [apply ev_V, in_range_U32; lia|]. exists I32. split; [apply ev_K; lia|]. split; apply in_range_U32; lia. }
  assert (W : forall J, length J = 64%nat -> wr J 0 (repeat 0 64) = Some (repeat 0 64)) by (intros J LJ; apply BaseFacts.wr_all; rewrite repeat_length; lia).
  destruct robust; cbn [haraka_thash_c]; unfold haraka_thash, hk_thash; cbv iota;
    [unfold haraka_thash_robust_c, hk_thash_robust|unfold haraka_thash_simple_c, hk_thash_simple]; unfold ref_fns; rewrite Hst; cbn [bind hk_512 hk_256 hk_S]; cbv zeta;
    rewrite (array_ok junk _ _ _ EA); cbn [bind]; arr; rewrite C1; cbn [bind]; destruct (k =? 1)%nat.
  - rewrite (memset_c_ok _ _ _ _ _ _ ix0 ix64), W by apply junk_length. cbn [bind]. rewrite (memcpy_c_ok _ _ _ _ _ _ _ ix0 ix32). nx.
    arr. nx. rewrite haraka256_c_ok by (try assumption; apply junk_length). destruct (haraka256 r2 _) as [ob|] eqn:E2; [|reflexivity]. cbn [bind]. apply h256_size in E2.
    rewrite (xor_loop_c_ok P Hwf k Hk _ _ _ _ _ _ E32) by (unfold SPX_ADDR_BYTES; lia). nx. rewrite call_512_ok by exact E2. nx. rewrite EN. reflexivity.
  - rewrite (memcpy_c_ok _ _ _ _ _ _ _ ix0 ix32). nx. rewrite (call_S_ok _ _ _ _ _ EK ix_ADDR). nx.
    rewrite (xor_loop_c_ok P Hwf k Hk _ _ _ _ _ _ E32) by (unfold SPX_ADDR_BYTES; lia). nx. rewrite (call_S_ok _ _ _ _ _ EN EA). nx. reflexivity.
  - rewrite (memset_c_ok _ _ _ _ _ _ ix0 ix64), W by apply junk_length. cbn [bind]. rewrite (memcpy_c_ok _ _ _ _ _ _ _ ix0 ix32). nx.
    rewrite (memcpy_c_ok _ _ _ _ _ _ _ ix_ADDR EN). nx. rewrite call_512_ok by apply junk_length. nx. rewrite EN. reflexivity.
  - rewrite (memcpy_c_ok _ _ _ _ _ _ _ ix0 ix32). nx. rewrite (memcpy_c_ok _ _ _ _ _ _ _ ix_ADDR EK). nx. rewrite (call_S_ok _ _ _ _ _ EN EA). nx. reflexivity.
Qed.
End Th.
End Ctx.
End Haraka.
