(** The SHA-2 build's hash functions are those of the specification. *)
From Verif Require Import Base BaseFacts Params Address Suite Utils Spec SpecFacts Refine Sha2Spec Sha2 Sha2Facts
  HashSpec ShakeProofs Sha2Proofs HashShake HashShakeProofs HashSha2.

Ltac opt E := match type of E with bind ?o _ = _ => let e := fresh "e" in destruct o eqn:e; [|discriminate]; cbn [bind] in E;
    try match type of E with (match ?p with (_, _) => _ end) = _ => destruct p end end.

(** ** Outputs are bytes, whatever the state *)
Lemma load_words_length A k x : forall o r, load_words A k x o = Some r -> length r = k.
Proof.
  induction k as [|k IH]; intros o r E; cbn [load_words] in E; [now inversion E|].
  destruct (a_load A x o); [|discriminate]. cbn [bind] in E.
  destruct (load_words A k x (o + a_wb A)) eqn:E1; [|discriminate]. cbn [bind] in E. inversion E; subst.
  cbn [length]. f_equal. eauto.
Qed.
Lemma exec_length A p : forall w s r, length s = 8%nat -> exec A p w s = Some r -> length r = 8%nat.
Proof.
  induction p as [|[i k|] p IH]; intros w s r Hs E; cbn [exec] in E.
  - now inversion E; subst.
  - destruct (get w i) as [wi|]; [|discriminate]. cbn [bind] in E.
    destruct (F_line A s wi k) as [s'|] eqn:E1; [|discriminate]. cbn [bind] in E. apply (IH w s' r); [|exact E].
    unfold F_line in E1. destruct s as [|? [|? [|? [|? [|? [|? [|? [|? [|? ?]]]]]]]]]; try discriminate.
    inversion E1; subst. reflexivity.
  - destruct (M_lines A w expand_lines) as [w'|]; [|discriminate]. cbn [bind] in E. eauto.
Qed.
Lemma loop_length A fuel : forall s st inp o n r, length s = 8%nat -> length st = 8%nat ->
  hashblocks_loop A fuel s st inp o n = Some r -> length r = 8%nat.
Proof.
  induction fuel as [|fuel IH]; intros s st inp o n r Hs Hst E; cbn [hashblocks_loop] in E;
    destruct (n <? a_bsz A)%nat; try discriminate; try (now inversion E; subst).
  destruct (load_words A 16 inp o) as [w|]; [|discriminate]. cbn [bind] in E.
  destruct (exec A (a_prog A) w s) as [s'|] eqn:E1; [|discriminate]. cbn [bind] in E.
  assert (L : length (add_state A s' st) = 8%nat).
  { unfold add_state. rewrite map_length, combine_length, Hst, (exec_length A _ _ _ _ Hs E1). reflexivity. }
  exact (IH _ _ _ _ _ _ L L E).
Qed.
Lemma hashblocks_bytes A sb inp o n r d : hashblocks A sb inp o n = Some r -> rd r 0 (8 * a_wb A) = Some d -> all_bytes d.
Proof.
  unfold hashblocks. intros E R. destruct (load_words A 8 sb 0) as [s|] eqn:E1; [|discriminate]. cbn [bind] in E.
  destruct (hashblocks_loop A (S n) s s inp o n) as [st|] eqn:E2; [|discriminate]. cbn [bind] in E.
  pose proof (load_words_length _ _ _ _ _ E1) as L. pose proof (loop_length _ _ _ _ _ _ _ _ L L E2) as L2.
  unfold wr in E. destruct (_ <=? _)%nat; [|discriminate]. inversion E; subst r. clear E. cbn [firstn app] in R.
  assert (LF : forall l, length (flat_map (store_bigendian (a_wb A)) l) = (length l * a_wb A)%nat).
  { induction l as [|x l IH]; cbn [flat_map length]; [reflexivity|]. rewrite app_length, store_ok, be_bytes_length, IH. lia. }
  rewrite rd_app0 in R by (rewrite LF; lia). inversion R; subst d.
  clear. induction st as [|x st IH]; cbn [flat_map]; [constructor|]. apply Forall_app. split; [|exact IH].
  rewrite store_ok. apply be_bytes_all.
Qed.
Lemma opt_bind_inv {X Y} (o : option X) (f : X -> option Y) r : bind o f = Some r -> exists x, o = Some x /\ f x = Some r.
Proof. destruct o as [x|]; [|discriminate]. intros E. now exists x. Qed.
#[local] Opaque hashblocks.
Lemma finalize256_bytes junk st m d : sha256_inc_finalize junk st m = Some d -> all_bytes d.
Proof.
  unfold sha256_inc_finalize. intros E.
  apply opt_bind_inv in E as (n & _ & E). apply opt_bind_inv in E as (st' & _ & E).
  apply opt_bind_inv in E as (tl & _ & E). apply opt_bind_inv in E as (p1 & _ & E).
  apply opt_bind_inv in E as (p2 & _ & E). apply opt_bind_inv in E as (st2 & E2 & E).
  destruct (_ <? 56)%nat in E2; apply opt_bind_inv in E2 as (p3 & _ & E2); apply opt_bind_inv in E2 as (p4 & _ & E2);
    exact (hashblocks_bytes alg256 _ _ _ _ _ _ E2 E).
Qed.
Lemma finalize512_bytes junk st m d : sha512_inc_finalize junk st m = Some d -> all_bytes d.
Proof.
  unfold sha512_inc_finalize. intros E.
  apply opt_bind_inv in E as (n & _ & E). apply opt_bind_inv in E as (st' & _ & E).
  apply opt_bind_inv in E as (tl & _ & E). apply opt_bind_inv in E as (p1 & _ & E).
  apply opt_bind_inv in E as (p2 & _ & E). apply opt_bind_inv in E as (st2 & E2 & E).
  destruct (_ <? 112)%nat in E2; apply opt_bind_inv in E2 as (p3 & _ & E2); apply opt_bind_inv in E2 as (p4 & _ & E2);
    exact (hashblocks_bytes alg512 _ _ _ _ _ _ E2 E).
Qed.
Lemma rd_bytes b o n d : all_bytes b -> rd b o n = Some d -> all_bytes d.
Proof.
  unfold rd. intros H E. destruct (_ <=? _)%nat; [|discriminate]. inversion E; subst. apply all_firstn.
  apply Forall_forall. intros x Hx. unfold all_bytes in H. rewrite Forall_forall in H. apply H.
  rewrite <- (firstn_skipn o b). apply in_or_app. now right.
Qed.
Lemma xor_str_bytes a b : all_bytes a -> all_bytes b -> all_bytes (xor_str a b).
Proof.
  intros Ha Hb. unfold xor_str. apply Forall_forall. intros x Hx. apply in_map_iff in Hx.
  destruct Hx as ([u v] & <- & Hin). pose proof (in_combine_l _ _ _ _ Hin) as Hu.
  pose proof (in_combine_r _ _ _ _ Hin) as Hv. cbn [fst snd].
  unfold all_bytes in *. rewrite Forall_forall in Ha, Hb.
  assert (Eu : u = u8 u) by (unfold u8; rewrite Z.mod_small; auto; apply Ha; auto).
  assert (Ev : v = u8 v) by (unfold u8; rewrite Z.mod_small; auto; apply Hb; auto).
  rewrite Eu, Ev, <- u8_xor. apply u8_byte.
Qed.

(** ** SHA-X *)
Notation shaXu := (HashSpec.shaX SHA256 SHA512u).
Definition spX (b : bool) : sha_params := if b then SHA512p else SHA256p.
Lemma shaXu_length b m : length (shaXu b m) = obX b.
Proof. destruct b; [apply SHA512u_length|apply SHA256_length]. Qed.
Lemma shaXu_all b m : all_bytes (shaXu b m).
Proof. destruct b; [apply SHA512u_all|apply SHA256_all]. Qed.
Lemma firstn_length_le' (l : list Z) n k : length l = k -> (n <= k)%nat -> length (firstn n l) = n.
Proof. intros. rewrite firstn_length. lia. Qed.
Lemma mgf1_of_all h ob seed len : (forall x, all_bytes (h x)) -> all_bytes (mgf1_of h ob seed len).
Proof.
  intros Hh. unfold mgf1_of. apply all_firstn. induction (seq _ _) as [|i l IH]; cbn [flat_map]; [constructor|].
  apply Forall_app. split; [apply Hh|exact IH].
Qed.
Lemma seeded_length B st p : hash_value B (H0 B) -> (0 < swb B)%nat -> sw B = 8 * Z.of_nat (swb B) ->
  seeded B st p -> length st = (8 * swb B + 8)%nat.
Proof.
  intros HV H1 H2 (j & _ & ->). unfold inc_state. rewrite app_length, be_bytes_length, unwords_length.
  f_equal. f_equal. apply (chain_value B H1 H2). exact HV.
Qed.
Lemma seeded_length256 st p : seeded SHA256p st p -> length st = 40%nat.
Proof. intros H. exact (seeded_length SHA256p st p H0_value_256 ltac:(cbn; lia) eq_refl H). Qed.
Lemma seeded_length512 st p : seeded SHA512p st p -> length st = 72%nat.
Proof. intros H. exact (seeded_length SHA512p st p H0_value_512 ltac:(cbn; lia) eq_refl H). Qed.

Lemma obX_32 b : (32 <= obX b)%nat.
Proof. destruct b; cbn; lia. Qed.
Lemma bsX_64 b : (64 <= bsX b <= 128)%nat.
Proof. destruct b; cbn; lia. Qed.

Section Sha2.
Variable P : params.
Variable junk : nat -> nat -> Z.
Notation N := (p_n P).
Notation B := (big N).
#[local] Opaque sha256_inc_blocks sha512_inc_blocks sha256_inc_finalize sha512_inc_finalize SHA256 SHA512u
  sha256_inc_init sha512_inc_init.

Lemma X_init : seeded (spX B) (shaX_inc_init P) [].
Proof. unfold shaX_inc_init. change (useX P) with B. destruct B; [exact seeded_init512|exact seeded_init256]. Qed.
Lemma X_block st p x k : seeded (spX B) st p -> (bsX B * k <= length x)%nat ->
  exists st', shaX_inc_blocks P st x k = Some st' /\ seeded (spX B) st' (p ++ norm (firstn (bsX B * k) x)).
Proof.
  unfold shaX_inc_blocks. change (useX P) with B. destruct B; cbn [spX bsX]; [apply seeded_blocks512|apply seeded_blocks256].
Qed.
Lemma X_final st p m : seeded (spX B) st p -> shaX_inc_finalize P junk st m = Some (shaXu B (p ++ norm m)).
Proof.
  unfold shaX_inc_finalize. change (useX P) with B.
  destruct B; cbn [spX HashSpec.shaX]; [apply seeded_final512|apply seeded_final256].
Qed.
Lemma X_hash m : HashSha2.shaX P junk m = Some (shaXu B (norm m)).
Proof. unfold HashSha2.shaX. change (useX P) with B. destruct B; [apply sha512_normu|apply sha256_norm]. Qed.
Lemma X_mgf len m : mgf1_X P junk len m = Some (mgf1_of (shaXu B) (obX B) (norm m) len).
Proof. unfold mgf1_X. change (useX P) with B. destruct B; [apply mgf1_512_normu|apply mgf1_256_norm]. Qed.
Lemma X_bs : SPX_SHAX_BLOCK_BYTES P = bsX B.
Proof. unfold SPX_SHAX_BLOCK_BYTES. change (useX P) with B. now destruct B. Qed.
Lemma X_ob : SPX_SHAX_OUTPUT_BYTES P = obX B.
Proof. unfold SPX_SHAX_OUTPUT_BYTES. change (useX P) with B. now destruct B. Qed.

Hypothesis Hn32 : (N <= 32)%nat.

(** ** The seeded state *)
Lemma seed_block ps st0 (f : bytes -> bytes -> nat -> option bytes) SP bs :
  (forall st p x k, seeded SP st p -> (bs * k <= length x)%nat ->
    exists st', f st x k = Some st' /\ seeded SP st' (p ++ norm (firstn (bs * k) x))) ->
  seeded SP st0 [] -> length ps = N -> (N <= bs <= 128)%nat ->
  exists st, f st0 (ps ++ repeat 0 (128 - N)) 1%nat = Some st /\ seeded SP st (norm ps ++ repeat 0 (bs - N)).
Proof.
  intros Hf H0' Hl Hb. destruct (Hf st0 [] (ps ++ repeat 0 (128 - N)) 1%nat H0') as (st & E & S).
  { rewrite app_length, repeat_length. lia. }
  exists st. split; [exact E|]. rewrite Nat.mul_1_r, firstn_app in S. cbn [app] in S.
  rewrite firstn_all2 in S by lia.
  replace (repeat 0 (128 - N)) with (repeat 0 (bs - N) ++ repeat 0 (128 - bs)) in S by (rewrite <- repeat_app; f_equal; lia).
  rewrite firstn_app, repeat_length, Hl, Nat.sub_diag in S. cbn [firstn] in S. rewrite app_nil_r in S.
  rewrite firstn_all2 in S by (rewrite repeat_length; lia).
  rewrite map_app, (norm_bytes (repeat 0 _)) in S by apply all_zeros. exact S.
Qed.
Lemma seed_state_ok ps : length ps = N ->
  exists s256 s512, seed_state P junk ps = Some (s256, s512)
    /\ seeded SHA256p s256 (norm ps ++ repeat 0 (64 - N))
    /\ (B = true -> seeded SHA512p s512 (norm ps ++ repeat 0 (128 - N))).
Proof.
  intros Hl. unfold seed_state. rewrite rd_all by lia. cbn [bind].
  set (J := junk_bytes _ _). assert (LJ : length J = 128%nat) by apply junk_length.
  rewrite wr_ok by lia. cbn [bind firstn app Nat.add].
  rewrite wr_seq' by (rewrite ?skipn_length, ?repeat_length; change SPX_SHA512_BLOCK_BYTES with 128%nat; lia).
  rewrite skipn_all2 by (rewrite skipn_length, repeat_length; change SPX_SHA512_BLOCK_BYTES with 128%nat; lia).
  cbn [bind]. rewrite app_nil_r. change SPX_SHA512_BLOCK_BYTES with 128%nat.
  destruct (seed_block ps sha256_inc_init sha256_inc_blocks SHA256p 64 seeded_blocks256 seeded_init256 Hl ltac:(lia)) as (s1 & E1 & S1).
  rewrite E1. cbn [bind].
  destruct (seed_block ps sha512_inc_init sha512_inc_blocks SHA512p 128 seeded_blocks512 seeded_init512 Hl ltac:(lia)) as (s2 & E2 & S2).
  change (SPX_SHA512 P) with B. destruct B eqn:EB.
  - rewrite E2. cbn [bind]. exists s1, s2. auto.
  - cbn [bind]. exists s1, []. split; [reflexivity|]. split; [exact S1|discriminate].
Qed.

Lemma addr22 (J a : bytes) n pre : (22 + n = length J)%nat -> length a = 32%nat ->
  memcpy (pre ++ J) (length pre) a 0 22 = Some (pre ++ firstn 22 a ++ skipn 22 J).
Proof.
  intros HJ Ha. rewrite <- (firstn_skipn 22 J) at 1. rewrite memcpy_at; [reflexivity|reflexivity| |lia].
  rewrite firstn_length. lia.
Qed.
Lemma addr22_0 (J a : bytes) n : (22 + n = length J)%nat -> length a = 32%nat ->
  memcpy J 0 a 0 22 = Some (firstn 22 a ++ skipn 22 J).
Proof. intros H1 H2. exact (addr22 J a n [] H1 H2). Qed.

(** ** prf_addr *)
Lemma sha2_prf_ok (c : @ctx seeds) a s256 s512 : c_state c = Some (s256, s512) ->
  seeded SHA256p s256 (norm (c_pub_seed c) ++ repeat 0 (64 - N)) ->
  length (c_sk_seed c) = N -> length a = SPX_ADDR_BYTES ->
  sha2_prf_addr P junk c a
  = Some (sha2_PRF N (norm (c_pub_seed c)) (norm (c_sk_seed c)) (norm (firstn 22 a))).
Proof.
  intros Hc S H2 H3. unfold sha2_prf_addr. rewrite Hc. cbn [bind]. set (J := junk_bytes _ _).
  change SPX_ADDR_BYTES with 32%nat in H3.
  assert (LJ : length J = (22 + N)%nat) by apply junk_length. clearbody J.
  change SPX_SHA256_ADDR_BYTES with 22%nat in *.
  rewrite (rd_all s256) by (now rewrite (seeded_length256 _ _ S)). cbn [bind].
  rewrite (addr22_0 J a N) by lia. cbn [bind]. set (r1 := skipn 22 J).
  assert (Lr : length r1 = N) by (unfold r1; rewrite skipn_length; lia). clearbody r1.
  assert (L22 : length (firstn 22 a) = 22%nat) by (rewrite firstn_length; lia).
  replace (firstn 22 a ++ r1) with (firstn 22 a ++ r1 ++ []) by (now rewrite app_nil_r).
  rewrite memcpy_mid by lia. cbn [bind]. rewrite app_nil_r.
  rewrite rd_all by (rewrite app_length; lia). cbn [bind].
  rewrite (seeded_final256 _ _ _ _ S). cbn [bind].
  rewrite rd_ok by (rewrite SHA256_length; lia). cbn [skipn]. unfold sha2_PRF, sha2_PRF_of.
  now rewrite map_app, <- app_assoc.
Qed.

(** ** thash *)
Definition fin (b : bool) : bytes -> bytes -> option bytes :=
  if b then sha512_inc_finalize (junk 200%nat) else sha256_inc_finalize (junk 200%nat).
Lemma fin_ok b st p m : seeded (spX b) st p -> fin b st m = Some (shaXu b (p ++ norm m)).
Proof. destruct b; [apply seeded_final512|apply seeded_final256]. Qed.

(** The two simple versions, over the seeded state and the size of the state buffer. *)
Lemma simple_gen b jn k a mem out inp st p sz : seeded (spX b) st p -> length st = sz -> length a = SPX_ADDR_BYTES ->
  (inp + k * N <= length mem)%nat ->
  (sha2_state <- rd st 0 sz ;;
   buf <- memcpy (junk_bytes (junk jn) (SPX_SHA256_ADDR_BYTES + k * N)) 0 a 0 SPX_SHA256_ADDR_BYTES ;;
   buf <- memcpy buf SPX_SHA256_ADDR_BYTES mem inp (k * N) ;;
   x <- rd buf 0 (SPX_SHA256_ADDR_BYTES + k * N) ;;
   outbuf <- fin b sha2_state x ;;
   h <- rd outbuf 0 N ;; wr mem out h)
  = wr mem out (firstn N (shaXu b (p ++ norm (firstn 22 a) ++ norm (firstn (k * N) (skipn inp mem))))).
Proof.
  intros S Hsz Ha Hm. change SPX_ADDR_BYTES with 32%nat in Ha. change SPX_SHA256_ADDR_BYTES with 22%nat.
  set (J := junk_bytes _ _). assert (LJ : length J = (22 + k * N)%nat) by apply junk_length. clearbody J.
  rewrite rd_all by lia. cbn [bind].
  rewrite (addr22_0 J a (k * N)) by lia. cbn [bind].
  rewrite <- (app_nil_r (skipn 22 J)).
  rewrite memcpy_at by (rewrite ?firstn_length, ?skipn_length; lia). cbn [bind]. rewrite app_nil_r.
  rewrite rd_all by (rewrite app_length, !firstn_length, skipn_length; lia). cbn [bind].
  rewrite (fin_ok b st p _ S). cbn [bind].
  rewrite rd_ok by (rewrite shaXu_length; pose proof (obX_32 b); lia). cbn [bind skipn]. now rewrite map_app.
Qed.
Lemma robust_gen b jn extra (c : @ctx seeds) k a mem out inp st p sz (mg : nat -> bytes -> option bytes) :
  (forall len m, mg len m = Some (mgf1_of (shaXu b) (obX b) (norm m) len)) ->
  seeded (spX b) st p -> length st = sz -> length a = SPX_ADDR_BYTES -> length (c_pub_seed c) = N ->
  (inp + k * N <= length mem)%nat ->
  (buf <- memcpy (junk_bytes (junk jn) (N + (SPX_SHA256_ADDR_BYTES + extra) + k * N)) 0 (@c_pub_seed seeds c) 0 N ;;
   buf <- memcpy buf N a 0 SPX_SHA256_ADDR_BYTES ;;
   x <- rd buf 0 (N + SPX_SHA256_ADDR_BYTES) ;;
   bitmask <- mg (k * N)%nat x ;;
   sha2_state <- rd st 0 sz ;;
   buf <- xor_loop (k * N) buf (N + SPX_SHA256_ADDR_BYTES) mem inp bitmask ;;
   x <- rd buf N (SPX_SHA256_ADDR_BYTES + k * N) ;;
   outbuf <- fin b sha2_state x ;;
   h <- rd outbuf 0 N ;; wr mem out h)
  = wr mem out (firstn N (shaXu b (p ++ norm (firstn 22 a)
      ++ xor_str (norm (firstn (k * N) (skipn inp mem)))
           (mgf1_of (shaXu b) (obX b) (norm (c_pub_seed c) ++ norm (firstn 22 a)) (k * N))))).
Proof.
  intros Hmg S Hsz Ha Hp Hm. change SPX_ADDR_BYTES with 32%nat in Ha. change SPX_SHA256_ADDR_BYTES with 22%nat.
  set (J := junk_bytes _ _). assert (LJ : length J = (N + (22 + extra) + k * N)%nat) by apply junk_length. clearbody J.
  destruct (split_at J 0 N) as (x0 & j1 & r1 & E1 & L0 & L1 & _); [lia|].
  destruct x0; [|cbn in L0; lia]. cbn [app] in E1. subst J. rewrite app_length in LJ.
  rewrite memcpy_all by lia. cbn [bind].
  rewrite <- Hp at 1. rewrite (addr22 r1 a (extra + k * N)) by lia. cbn [bind].
  assert (L22 : length (firstn 22 a) = 22%nat) by (rewrite firstn_length; lia).
  rewrite app_assoc, rd_app0 by (rewrite app_length; lia). cbn [bind]. rewrite Hmg. cbn [bind].
  rewrite rd_all by lia. cbn [bind].
  set (mask := mgf1_of _ _ _ _).
  assert (LM : length mask = (k * N)%nat).
  { unfold mask. apply mgf1_of_length; [pose proof (obX_32 b); lia|apply shaXu_length]. }
  assert (AM : all_bytes mask) by (apply mgf1_of_all; apply shaXu_all).
  assert (Lr : length (skipn 22 r1) = (k * N + extra)%nat) by (rewrite skipn_length; lia).
  rewrite <- (firstn_skipn (k * N) (skipn 22 r1)).
  rewrite xor_loop_ok by (rewrite ?app_length, ?firstn_length; lia). cbn [bind].
  set (M := firstn (k * N) (skipn inp mem)).
  assert (LMM : length M = (k * N)%nat) by (unfold M; rewrite firstn_length, skipn_length; lia).
  rewrite (firstn_all2 mask), (norm_bytes mask) by (auto; lia).
  set (X := xor_str (norm M) mask).
  assert (LX : length X = (k * N)%nat) by (unfold X; rewrite xor_str_length; rewrite map_length; lia).
  rewrite <- app_assoc, (app_assoc (firstn 22 a)).
  rewrite rd_app' by (rewrite ?app_length; lia). cbn [bind].
  rewrite (fin_ok b st p _ S). cbn [bind].
  rewrite rd_ok by (rewrite shaXu_length; pose proof (obX_32 b); lia). cbn [bind skipn].
  rewrite !map_app. unfold mask, X. rewrite (norm_bytes (xor_str _ _)) by (apply xor_str_bytes; [apply norm_all|exact AM]).
  unfold mask. rewrite map_app. reflexivity.
Qed.

Theorem sha2_thash_ok robust (c : @ctx seeds) k a mem out inp s256 s512 : c_state c = Some (s256, s512) ->
  seeded SHA256p s256 (norm (c_pub_seed c) ++ repeat 0 (64 - N)) ->
  (B = true -> seeded SHA512p s512 (norm (c_pub_seed c) ++ repeat 0 (128 - N))) ->
  length (c_pub_seed c) = N -> length a = SPX_ADDR_BYTES -> (inp + k * N <= length mem)%nat -> (1 <= N)%nat ->
  sha2_thash P junk robust c k a mem out inp
  = wr mem out (sha2_T_of SHA256 SHA512u N robust (norm (c_pub_seed c)) (norm (firstn 22 a)) (norm (firstn (k * N) (skipn inp mem)))).
Proof.
  intros Hc S1 S2 Hp Ha Hm HN. unfold sha2_thash, sha2_T_of. change (SPX_SHA512 P) with B.
  set (M := firstn (k * N) (skipn inp mem)).
  assert (LM : length M = (k * N)%nat) by (unfold M; rewrite firstn_length, skipn_length; lia).
  assert (EB : (N <? length (norm M))%nat = (1 <? k)%nat).
  { rewrite map_length, LM. destruct (Nat.ltb_spec 1 k); [apply Nat.ltb_lt|apply Nat.ltb_ge]; nia. }
  rewrite EB, map_length, LM. destruct (B && (1 <? k)%nat) eqn:Eb.
  - apply andb_true_iff in Eb. destruct Eb as [Eb _]. specialize (S2 Eb). cbn [bsX].
    destruct robust.
    + unfold thash_robust_512. rewrite Hc. cbn [bind].
      pose proof (robust_gen true 209 0 c k a mem out inp s512 _ 72 (mgf1_512 (junk 200%nat)) (mgf1_512_normu _) S2 (seeded_length512 _ _ S2) Ha Hp Hm) as G.
      rewrite Nat.add_0_r in G. cbn [fin spX] in G. etransitivity; [exact G|]. now rewrite <- !app_assoc.
    + unfold thash_simple_512. rewrite Hc. cbn [bind].
      pose proof (simple_gen true 207 k a mem out inp s512 _ 72 S2 (seeded_length512 _ _ S2) Ha Hm) as G.
      etransitivity; [exact G|]. now rewrite <- !app_assoc.
  - cbn [bsX]. destruct robust.
    + unfold thash_robust_256. rewrite Hc. cbn [bind].
      pose proof (robust_gen false 208 10 c k a mem out inp s256 _ 40 (mgf1_256 (junk 200%nat)) (mgf1_256_norm _) S1 (seeded_length256 _ _ S1) Ha Hp Hm) as G.
      etransitivity; [exact G|]. now rewrite <- !app_assoc.
    + unfold thash_simple_256. rewrite Hc. cbn [bind].
      pose proof (simple_gen false 206 k a mem out inp s256 _ 40 S1 (seeded_length256 _ _ S1) Ha Hm) as G.
      etransitivity; [exact G|]. now rewrite <- !app_assoc.
Qed.
Lemma sha2_T_of_length robust ps a m : length (sha2_T_of SHA256 SHA512u N robust ps a m) = N.
Proof. unfold sha2_T_of. eapply firstn_length_le'; [apply shaXu_length|]. match goal with |- context [obX ?b] => pose proof (obX_32 b) end. lia. Qed.
Lemma sha2_T_of_bytes robust ps a m : all_bytes (sha2_T_of SHA256 SHA512u N robust ps a m).
Proof. unfold sha2_T_of. apply all_firstn, shaXu_all. Qed.

(** ** gen_message_random *)
Lemma xor_key_ok v key mid post : length key = N -> length mid = N -> 0 <= v < 256 ->
  xor_key P v (mid ++ post) key = Some (map (fun x => Z.lxor v x) (norm key) ++ post).
Proof.
  intros Hk Hm Hv. unfold xor_key.
  match goal with |- iterM N 0 ?f ?s = _ =>
    destruct (iterM_inv N 0 f (fun i b => b = (map (fun x => Z.lxor v x) (norm (firstn i key)) ++ skipn i mid) ++ post) s)
      as (r & E & Hr) end.
  - reflexivity.
  - intros i b Hi ->. rewrite (get_nth key i 0) by lia. cbn [bind].
    assert (Hsk : skipn i mid = nth i mid 0 :: skipn (S i) mid).
    { generalize (firstn_cons_nth mid (length mid) i). intros G.
      rewrite !firstn_all2 in G by (rewrite skipn_length; lia). apply G. lia. }
    rewrite Hsk, <- app_assoc. cbn [app].
    change (nth i mid 0 :: skipn (S i) mid ++ post) with ([nth i mid 0] ++ skipn (S i) mid ++ post).
    rewrite wr_app' by (rewrite ?map_length, ?firstn_length; cbn [length]; try lia).
    eexists. split; [reflexivity|]. rewrite (firstn_snoc _ i 0) by lia.
    rewrite !map_app. cbn [map]. rewrite <- !app_assoc. reflexivity.
  - rewrite E, Hr. cbn [Nat.add]. rewrite (skipn_all2 mid), (firstn_all2 key) by lia. now rewrite app_nil_r.
Qed.
Lemma xor_pad_norm v key bs : length key = N -> (N <= bs)%nat ->
  map (fun x => Z.lxor v x) (norm key) ++ repeat v (bs - N) = xor_pad bs v (norm key).
Proof.
  intros Hk Hb. unfold xor_pad. rewrite map_app, map_length, Hk. f_equal.
  induction (bs - N)%nat as [|n IH]; cbn [repeat map]; [reflexivity|]. now rewrite IH, Z.lxor_0_r.
Qed.
Lemma xor_bytes_map v l : 0 <= v < 256 -> all_bytes l -> all_bytes (map (fun x => Z.lxor v x) l).
Proof.
  intros Hv. induction 1 as [|x l Hx _ IH]; cbn [map]; constructor; auto.
  assert (Ev : v = u8 v) by (unfold u8; rewrite Z.mod_small; auto).
  assert (Ex : x = u8 x) by (unfold u8; rewrite Z.mod_small; auto). rewrite Ev, Ex, <- u8_xor. apply u8_byte.
Qed.
Lemma xor_pad_all v key bs : 0 <= v < 256 -> all_bytes (xor_pad bs v (norm key)).
Proof. intros Hv. apply xor_bytes_map; auto. apply Forall_app. split; [apply norm_all|apply all_zeros]. Qed.
Lemma xor_pad_length v key bs : length key = N -> (N <= bs)%nat -> length (xor_pad bs v (norm key)) = bs.
Proof. intros Hk Hb. unfold xor_pad. rewrite map_length, app_length, map_length, repeat_length, Hk. lia. Qed.

(** the key pass: xor_key and memset over a block *)
Lemma key_block v key blk post : length key = N -> length blk = bsX B -> 0 <= v < 256 ->
  (buf <- xor_key P v (blk ++ post) key ;; wr buf N (repeat v (bsX B - N)))
  = Some (xor_pad (bsX B) v (norm key) ++ post).
Proof.
  intros Hk Hb Hv. pose proof (bsX_64 B) as H64.
  rewrite <- (firstn_skipn N blk), <- app_assoc.
  rewrite xor_key_ok by (auto; rewrite firstn_length; lia). cbn [bind].
  rewrite wr_app'; [|now rewrite !map_length|rewrite repeat_length, skipn_length; lia].
  now rewrite app_assoc, xor_pad_norm by (auto; lia).
Qed.

Lemma rand_ok c key o m : length key = N -> length o = N ->
  sha2_gen_message_random P junk c key o m
  = Some (sha2_PRFmsg_of SHA256 SHA512u N (norm key) (norm o) (norm m)).
Proof.
  intros Hk Ho. unfold sha2_gen_message_random. rewrite X_bs, X_ob.
  pose proof (bsX_64 B) as H64. assert (H32 := obX_32 B).
  replace (N <=? bsX B)%nat with true by (symmetry; apply Nat.leb_le; lia). cbn [guard bind].
  set (J := junk_bytes _ _). assert (LJ : length J = (bsX B + obX B)%nat) by apply junk_length. clearbody J.
  rewrite <- (firstn_skipn (bsX B) J). set (blk := firstn (bsX B) J). set (tl := skipn (bsX B) J).
  assert (Lb : length blk = bsX B) by (unfold blk; rewrite firstn_length; lia).
  assert (Lt : length tl = obX B) by (unfold tl; rewrite skipn_length; lia). clearbody blk tl. clear LJ J.
  pose proof (key_block 0x36 key blk tl Hk Lb ltac:(lia)) as K1.
  destruct (xor_key P 0x36 (blk ++ tl) key) as [b0|]; [|discriminate]. cbn [bind] in K1 |- *.
  rewrite K1. cbn [bind]. clear K1 b0.
  set (ip := xor_pad (bsX B) 0x36 (norm key)).
  assert (Li : length ip = bsX B) by (apply xor_pad_length; lia).
  assert (Ai : all_bytes ip) by (apply xor_pad_all; lia).
  destruct (X_block _ _ (ip ++ tl) 1 X_init) as (st1 & E1 & S1); [rewrite app_length; lia|].
  rewrite Nat.mul_1_r, <- Li, firstn_app, firstn_all, Nat.sub_diag in S1. cbn [firstn app] in S1.
  rewrite app_nil_r, (norm_bytes ip Ai) in S1.
  rewrite E1. cbn [bind].
  assert (C1 : memcpy (ip ++ tl) 0 o 0 N = Some (o ++ skipn N ip ++ tl)).
  { rewrite <- (firstn_skipn N ip) at 1. rewrite <- app_assoc. apply memcpy_all; [rewrite firstn_length|]; lia. }
  rewrite C1. cbn [bind]. set (rest := skipn N ip). assert (Lr : length rest = (bsX B - N)%nat) by (unfold rest; rewrite skipn_length; lia).
  clearbody rest.
  match goal with |- bind ?t _ = _ =>
    assert (Et : exists blk', length blk' = bsX B /\ t = Some (blk' ++ shaXu B (ip ++ norm (o ++ m)))) end.
  { destruct (Nat.ltb_spec (N + length m) (bsX B)) as [L|L].
    - assert (C2 : memcpy (o ++ rest ++ tl) N m 0 (length m) = Some (o ++ m ++ skipn (length m) rest ++ tl)).
      { rewrite <- (firstn_skipn (length m) rest) at 1. rewrite <- app_assoc.
        apply memcpy_mid; [lia|rewrite firstn_length; lia|reflexivity]. }
      rewrite C2. cbn [bind]. rewrite app_assoc, rd_app0 by (rewrite app_length; lia). cbn [bind].
      rewrite (X_final _ _ _ S1). cbn [bind].
      exists ((o ++ m) ++ skipn (length m) rest). split.
      + rewrite !app_length, skipn_length. lia.
      + rewrite app_assoc. apply wr_app_r; [rewrite !app_length, skipn_length; lia|]. rewrite shaXu_length. lia.
    - assert (C2 : memcpy (o ++ rest ++ tl) N m 0 (bsX B - N) = Some (o ++ firstn (bsX B - N) m ++ tl)).
      { rewrite memcpy_at by lia. reflexivity. }
      rewrite C2. cbn [bind]. set (m1 := firstn (bsX B - N) m).
      assert (Lm1 : length m1 = (bsX B - N)%nat) by (unfold m1; rewrite firstn_length; lia).
      destruct (X_block st1 ip (o ++ m1 ++ tl) 1 S1) as (st2 & E2 & S2); [rewrite !app_length; lia|].
      rewrite E2. cbn [bind].
      rewrite Nat.mul_1_r in S2. rewrite app_assoc, firstn_app in S2.
      replace (bsX B - length (o ++ m1))%nat with O in S2 by (rewrite app_length; lia). cbn [firstn] in S2.
      rewrite app_nil_r, (firstn_all2 (o ++ m1)) in S2 by (rewrite app_length; lia).
      rewrite rd_ok by lia. rewrite (firstn_all2 (skipn _ m)) by (rewrite skipn_length; lia). cbn [bind].
      rewrite (X_final _ _ _ S2). cbn [bind].
      exists (o ++ m1). split; [rewrite app_length; lia|].
      rewrite app_assoc. rewrite wr_app_r; [|rewrite app_length; lia|rewrite shaXu_length; lia].
      do 2 f_equal. f_equal. rewrite <- app_assoc, <- map_app. do 2 f_equal.
      rewrite <- app_assoc. unfold m1. now rewrite firstn_skipn. }
  destruct Et as (blk' & Lb' & ->). cbn [bind].
  set (inner := shaXu B (ip ++ norm (o ++ m))).
  assert (Lin : length inner = obX B) by apply shaXu_length.
  pose proof (key_block 0x5c key blk' inner Hk Lb' ltac:(lia)) as K2.
  destruct (xor_key P 0x5c (blk' ++ inner) key) as [b0|]; [|discriminate]. cbn [bind] in K2 |- *.
  rewrite K2. cbn [bind]. clear K2 b0.
  set (op := xor_pad (bsX B) 0x5c (norm key)).
  assert (Lo : length op = bsX B) by (apply xor_pad_length; lia).
  rewrite rd_all by (rewrite app_length; lia). cbn [bind]. rewrite X_hash. cbn [bind].
  rewrite map_app, (norm_bytes op), (norm_bytes inner) by (try apply shaXu_all; apply xor_pad_all; lia).
  set (h := shaXu B (op ++ inner)). assert (Lh : length h = obX B) by apply shaXu_length.
  rewrite wr_ok by (rewrite app_length; lia). cbn [bind firstn app Nat.add].
  rewrite rd_ok by (rewrite app_length; lia). cbn [skipn].
  rewrite firstn_app. replace (N - length h)%nat with O by lia. cbn [firstn]. rewrite app_nil_r.
  unfold sha2_PRFmsg_of, hmac_of. fold op. fold ip. rewrite <- map_app. reflexivity.
Qed.

(** ** hash_message *)
Lemma inblocks_ok : exists q, SPX_INBLOCKS P = q /\ (N + SPX_PK_BYTES P <= q * bsX B)%nat.
Proof.
  eexists. split; [reflexivity|]. unfold SPX_INBLOCKS. rewrite X_bs. unfold SPX_PK_BYTES.
  set (v := (N + 2 * N + bsX B - 1)%nat).
  assert (E : exists k, 0 <= k /\ Z.of_nat (bsX B) = 2 ^ k) by (destruct B; [exists 7|exists 6]; split; try lia; reflexivity).
  destruct E as (k & Hk & E). rewrite E.
  assert (L : Z.land (Z.of_nat v) (- 2 ^ k) = 2 ^ k * (Z.of_nat v / 2 ^ k)).
  { replace (- 2 ^ k) with (Z.lnot (Z.ones k)) by (rewrite Z.ones_equiv; unfold Z.lnot; lia).
    rewrite <- Z.ldiff_land, Z.ldiff_ones_r by lia. rewrite Z.shiftl_mul_pow2, Z.shiftr_div_pow2 by lia. ring. }
  rewrite L, <- E.
  replace (Z.of_nat (bsX B) * (Z.of_nat v / Z.of_nat (bsX B))) with (Z.of_nat ((v / bsX B) * bsX B)).
  2:{ rewrite Nat2Z.inj_mul, Nat2Z.inj_div. ring. }
  rewrite Nat2Z.id. pose proof (bsX_64 B). rewrite Nat.div_mul by lia.
  pose proof (Nat.div_mod v (bsX B) ltac:(lia)) as D. pose proof (Nat.mod_upper_bound v (bsX B) ltac:(lia)) as U.
  rewrite (Nat.mul_comm _ (bsX B)). revert D U. generalize (bsX B * (v / bsX B))%nat (v mod bsX B)%nat. unfold v. intros. lia.
Qed.
Hypothesis Hwf : wf_params P = true.
Lemma digest_len_eq : digest_len (dims_of P) = SPX_DGST_BYTES P.
Proof.
  clear. unfold digest_len, SPX_DGST_BYTES, md_len, SPX_FORS_MSG_BYTES. cbn [dims_of s_k s_a].
  now rewrite (Nat.mul_comm (p_ft P)).
Qed.
Lemma msg_ok c R pk m : length R = N -> length pk = SPX_PK_BYTES P ->
  sha2_hash_message P junk c R pk m
  = Some (sha2_Hmsg_of SHA256 SHA512u N (dims_of P) (norm R) (norm (firstn N pk)) (norm (skipn N pk)) (norm m)).
Proof.
  intros HR Hpk. unfold sha2_hash_message. destruct inblocks_ok as (q & Eq & Hq). rewrite Eq, X_bs, X_ob.
  pose proof (bsX_64 B) as H64. assert (H32 := obX_32 B).
  set (I := junk_bytes (junk 205) _). assert (LI : length I = (q * bsX B)%nat) by apply junk_length. clearbody I.
  set (PK := SPX_PK_BYTES P) in *. assert (HPK : PK = (2 * N)%nat) by reflexivity.
  assert (C1 : memcpy I 0 R 0 N = Some (R ++ skipn N I)).
  { rewrite <- (firstn_skipn N I) at 1. apply memcpy_all; [rewrite firstn_length|]; lia. }
  rewrite C1. cbn [bind].
  assert (C2 : memcpy (R ++ skipn N I) N pk 0 PK = Some (R ++ pk ++ skipn (N + PK) I)).
  { rewrite <- (firstn_skipn PK (skipn N I)) at 1. rewrite skipn_skipn, (Nat.add_comm N).
    apply memcpy_mid; [lia|rewrite firstn_length, skipn_length; lia|lia]. }
  rewrite C2. cbn [bind]. set (T := skipn (N + PK) I).
  assert (LT : length T = (q * bsX B - (N + PK))%nat) by (unfold T; rewrite skipn_length; lia). clearbody T.
  match goal with |- bind ?t _ = _ => assert (Et : t = Some (shaXu B (norm (R ++ pk ++ m)))) end.
  { destruct (Nat.ltb_spec (N + PK + length m) (q * bsX B)) as [L|L].
    - assert (C3 : memcpy (R ++ pk ++ T) (N + PK) m 0 (length m) = Some ((R ++ pk) ++ m ++ skipn (length m) T)).
      { rewrite <- (firstn_skipn (length m) T) at 1. rewrite app_assoc.
        apply memcpy_mid; [rewrite app_length; lia|rewrite firstn_length; lia|reflexivity]. }
      rewrite C3. cbn [bind]. rewrite app_assoc, rd_app0 by (rewrite !app_length; lia). cbn [bind].
      rewrite (X_final _ _ _ X_init). cbn [app]. now rewrite <- app_assoc.
    - replace (q * bsX B - N - PK)%nat with (q * bsX B - (N + PK))%nat by lia.
      assert (C3 : memcpy (R ++ pk ++ T) (N + PK) m 0 (q * bsX B - (N + PK)) = Some ((R ++ pk) ++ firstn (q * bsX B - (N + PK)) m)).
      { rewrite app_assoc. rewrite <- (app_nil_r T). rewrite memcpy_at; [|rewrite app_length; lia|lia|lia].
        cbn [skipn]. now rewrite app_nil_r. }
      rewrite C3. cbn [bind]. set (m1 := firstn _ m).
      assert (Lm1 : length m1 = (q * bsX B - (N + PK))%nat) by (unfold m1; rewrite firstn_length; lia).
      assert (LL : length ((R ++ pk) ++ m1) = (q * bsX B)%nat).
      { rewrite !app_length, Lm1, HR, Hpk. clear - Hq. lia. }
      destruct (X_block _ [] ((R ++ pk) ++ m1) q X_init) as (st2 & E2 & S2).
      { rewrite LL, Nat.mul_comm. apply Nat.le_refl. }
      rewrite E2. cbn [bind].
      rewrite (firstn_all2 ((R ++ pk) ++ m1)) in S2 by (rewrite LL, Nat.mul_comm; apply Nat.le_refl).
      rewrite rd_ok by lia. rewrite (firstn_all2 (skipn _ m)) by (rewrite skipn_length; lia). cbn [bind].
      rewrite (X_final _ _ _ S2). cbn [app]. rewrite <- map_app. do 3 f_equal.
      rewrite <- !app_assoc. do 2 f_equal. unfold m1. apply firstn_skipn. }
  rewrite Et. cbn [bind]. clear C1 C2 Et.
  set (h := shaXu B (norm (R ++ pk ++ m))). assert (Lh : length h = obX B) by apply shaXu_length.
  set (S0 := junk_bytes (junk 204) _). assert (LS : length S0 = (2 * N + obX B)%nat) by apply junk_length. clearbody S0.
  assert (W : wr S0 (2 * N) h = Some (firstn (2 * N) S0 ++ h)).
  { rewrite <- (firstn_skipn (2 * N) S0) at 1. apply wr_app_r; [rewrite firstn_length|rewrite skipn_length]; lia. }
  rewrite W. cbn [bind].
  assert (C1 : memcpy (firstn (2 * N) S0 ++ h) 0 R 0 N = Some (R ++ skipn N (firstn (2 * N) S0) ++ h)).
  { rewrite <- (firstn_skipn N (firstn (2 * N) S0)) at 1. rewrite <- app_assoc.
    apply memcpy_all; [rewrite !firstn_length; lia|lia]. }
  rewrite C1. cbn [bind].
  rewrite memcpy_at by (rewrite ?skipn_length, ?firstn_length; lia). cbn [bind skipn].
  assert (Lf : length (firstn N pk) = N) by (rewrite firstn_length; lia).
  rewrite rd_all by (rewrite !app_length; lia). cbn [bind]. rewrite X_mgf. cbn [bind].
  unfold sha2_Hmsg_of. rewrite digest_len_eq.
  replace (norm (R ++ firstn N pk ++ h))
    with (norm R ++ norm (firstn N pk) ++ shaXu B (norm R ++ norm (firstn N pk) ++ norm (skipn N pk) ++ norm m)).
  2:{ rewrite !map_app. rewrite (norm_bytes h) by apply shaXu_all. unfold h. rewrite !map_app.
      assert (Ep : norm pk = norm (firstn N pk) ++ norm (skipn N pk)) by (rewrite <- map_app, firstn_skipn; reflexivity).
      rewrite Ep. now rewrite <- !app_assoc. }
  apply split_digest_ok; [exact Hwf| |].
  - apply mgf1_of_all, shaXu_all.
  - apply mgf1_of_length; [lia|apply shaXu_length].
Qed.
End Sha2.

(** ** The suite *)
Section Sha2Suite.
Variable P : params.
Variable junk : nat -> nat -> Z.
Notation N := (p_n P).
Notation B := (big N).
Hypothesis Hn32 : (N <= 32)%nat.
Hypothesis Hwf : wf_params P = true.
#[local] Opaque sha256_inc_blocks sha512_inc_blocks sha256_inc_finalize sha512_inc_finalize SHA256 SHA512u
  sha256_inc_init sha512_inc_init.

Lemma N_pos : (1 <= N)%nat.
Proof. unfold wf_params in Hwf. repeat (apply andb_true_iff in Hwf as [Hwf ?]). now apply Nat.leb_le. Qed.

(** As a value. *)
Theorem sha2_hs_thash robust (c : ctx seeds) k i a : ctx_ok P (sha2_suite P junk robust) c ->
  length a = SPX_ADDR_BYTES -> length i = (k * N)%nat ->
  hs_thash (sha2_suite P junk robust) c k i a
  = Some (sha2_T_of SHA256 SHA512u N robust (norm (c_pub_seed c)) (norm (firstn 22 a)) (norm i)).
Proof.
  intros (H1 & H2 & Hst) Ha Hi. cbn [sha2_suite hs_thash hs_init hs_st] in *.
  destruct (seed_state_ok P junk Hn32 _ H1) as (s1 & s2 & E & S1 & S2).
  apply as_value_ok; [now apply sha2_T_of_length|].
  rewrite (sha2_thash_ok P junk Hn32 robust c k a _ _ _ s1 s2) by (rewrite ?app_length; auto; try lia; try (now rewrite Hst); apply N_pos).
  f_equal. f_equal. cbn [skipn]. rewrite firstn_app, <- Hi, firstn_all, Nat.sub_diag. cbn [firstn]. now rewrite app_nil_r.
Qed.

(** Whatever comes out is bytes. *)
Lemma finX_bytes st m d : shaX_inc_finalize P junk st m = Some d -> all_bytes d.
Proof.
  unfold shaX_inc_finalize. destruct (useX P); [apply finalize512_bytes|apply finalize256_bytes].
Qed.
Theorem sha2_suite_ok robust : suite_ok P (sha2_suite P junk robust).
Proof.
  assert (RL : forall b n d, rd b 0 n = Some d -> length d = n).
  { intros b n d. unfold rd. destruct (Nat.leb_spec (0 + n) (length b)); [|discriminate]. intros E0. inversion E0.
    cbn [skipn]. rewrite firstn_length. lia. }
  constructor.
  - intros c k i a Hc H3 H4. eexists. split; [now apply sha2_hs_thash|now apply sha2_T_of_length].
  - intros c k i a d E. cbn [sha2_suite hs_thash] in E. eapply as_value_bytes; [|exact E]. clear E i d.
    intros mem o ip r E. unfold sha2_thash in E.
    destruct (SPX_SHA512 P && (1 <? k)%nat), robust;
      [unfold thash_robust_512 in E|unfold thash_simple_512 in E|unfold thash_robust_256 in E|unfold thash_simple_256 in E];
      cbv zeta in E; repeat opt E;
      eexists; (split; [|split; [|exact E]]); try (eapply RL; eassumption);
      (eapply rd_bytes; [|eassumption]);
      first [eapply finalize512_bytes; eassumption|eapply finalize256_bytes; eassumption].
  - intros c a (H1 & H2 & H3) Ha. cbn [sha2_suite hs_init hs_st hs_prf_addr] in *.
    destruct (seed_state_ok P junk Hn32 _ H1) as (s1 & s2 & E & S1 & S2).
    eexists. split; [apply (sha2_prf_ok P junk Hn32 c a s1 s2); auto; now rewrite H3|].
    unfold sha2_PRF, sha2_PRF_of. eapply firstn_length_le'; [apply SHA256_length|exact Hn32].
  - intros c a d E. cbn [sha2_suite hs_prf_addr] in E. unfold sha2_prf_addr in E. cbv zeta in E.
    repeat opt E.
    eapply rd_bytes; [|exact E]. eapply finalize256_bytes; eassumption.
  - intros c s o m _ H1 H2. eexists. split; [now apply rand_ok|].
    unfold sha2_PRFmsg_of. eapply firstn_length_le'; [apply shaXu_length|]. pose proof (obX_32 B). lia.
  - intros c s o m d E. cbn [sha2_suite hs_gen_message_random] in E. unfold sha2_gen_message_random in E. cbv zeta in E.
    repeat (match type of E with bind (if ?b then _ else _) _ = _ => apply opt_bind_inv in E as (? & _ & E) | _ => opt E end).
    match goal with H : HashSha2.shaX _ _ _ = Some ?h |- _ => rename H into Eh; set (hh := h) in * end.
    rewrite X_hash in Eh. injection Eh as Eh.
    match goal with H : wr _ 0 hh = Some ?b |- _ => rename H into Ew end.
    unfold wr in Ew. destruct (_ <=? _)%nat in Ew; [|discriminate Ew]. injection Ew as <-. cbn [firstn app] in E.
    assert (Lh : length hh = obX B) by (rewrite <- Eh; apply shaXu_length). pose proof (obX_32 B) as H32.
    rewrite rd_ok in E by (rewrite app_length; lia). cbn [skipn] in E. injection E as <-.
    rewrite firstn_app. replace (N - length hh)%nat with O by lia. cbn [firstn]. rewrite app_nil_r.
    rewrite <- Eh. apply all_firstn, shaXu_all.
  - intros c R pk m _ H1 H2. cbn [sha2_suite hs_hash_message]. rewrite msg_ok by auto.
    unfold sha2_Hmsg_of. rewrite digest_len_eq.
    match goal with |- context [split_digest_spec _ ?b] => destruct (split_digest_range P Hwf b) as (d & t & l & E & L & Bd & Rt & Rl) end.
    { apply mgf1_of_all, shaXu_all. }
    { apply mgf1_of_length; [pose proof (obX_32 B); lia|apply shaXu_length]. }
    exists d, t, l. rewrite E. auto.
  - intros. cbn [sha2_suite hs_thash]. unfold as_value, sha2_thash. destruct (_ && _), robust; reflexivity.
  - reflexivity.
  - reflexivity.
Qed.

(** ** The specification, below the length limit of SHA-512's counter in sha2.c *)
Lemma shaXu_eq b m : Z.of_nat (length m) < 2 ^ 64 -> shaXu b m = HashSpec.shaX SHA256 SHA512 b m.
Proof. clear. intros H. destruct b; [now apply SHA512u_eq|reflexivity]. Qed.
Lemma mgf1u_eq b seed len : Z.of_nat (length seed) < 2 ^ 63 ->
  mgf1_of (shaXu b) (obX b) seed len = mgf1_of (HashSpec.shaX SHA256 SHA512 b) (obX b) seed len.
Proof.
  clear. intros H. unfold mgf1_of. f_equal. induction (seq _ _) as [|i l IH]; cbn [flat_map]; [reflexivity|].
  rewrite IH. f_equal. apply shaXu_eq. rewrite app_length, be_bytes_length. lia.
Qed.
Lemma len63 n k : (n <= 1000)%nat -> Z.of_nat k < 2 ^ 63 -> Z.of_nat (n + k) < 2 ^ 64.
Proof. clear. intros. lia. Qed.
Lemma bsX_128 b : (64 <= bsX b <= 128)%nat.
Proof. clear. destruct b; cbn; lia. Qed.
Lemma sha2_T_eq robust ps adr m : length ps = N -> length adr = 22%nat -> Z.of_nat (length m) < 2 ^ 63 ->
  sha2_T_of SHA256 SHA512u N robust ps adr m = sha2_T N robust ps adr m.
Proof. clear Hwf.
  intros H1 H2 H3. unfold sha2_T, sha2_T_of. cbv zeta. set (b := andb _ _). pose proof (bsX_128 b) as Hb.
  rewrite mgf1u_eq by (rewrite app_length, H1, H2; lia). f_equal.
  apply shaXu_eq. rewrite !app_length, repeat_length, H1, H2.
  match goal with |- context [length (if robust then ?x else m)] =>
    assert (Lx : (length (if robust then x else m) <= length m)%nat) end.
  { destruct robust; [|lia]. unfold xor_str. rewrite map_length, combine_length. lia. }
  revert Lx. generalize (length (if robust then xor_str m (mgf1_of (HashSpec.shaX SHA256 SHA512 b) (obX b) (ps ++ adr) (length m)) else m)).
  intros q Hq. clear - Hb Hq H3 Hn32. lia.
Qed.
Lemma obX_64 b : (obX b <= 64)%nat.
Proof. clear. destruct b; cbn; lia. Qed.
Lemma sha2_PRFmsg_eq k o m : length k = N -> length o = N -> Z.of_nat (length m) < 2 ^ 63 ->
  sha2_PRFmsg_of SHA256 SHA512u N k o m = sha2_PRFmsg N k o m.
Proof. clear Hwf.
  intros H1 H2 H3. unfold sha2_PRFmsg, sha2_PRFmsg_of, hmac_of. pose proof (bsX_128 B) as Hb.
  assert (Lx : forall v, length (xor_pad (bsX B) v k) = bsX B).
  { intros v. unfold xor_pad. rewrite map_length, app_length, repeat_length. lia. }
  rewrite (shaXu_eq B (_ ++ o ++ m)) by (rewrite !app_length, Lx, H2; lia).
  f_equal. apply shaXu_eq. rewrite <- shaXu_eq by (rewrite !app_length, Lx, H2; lia).
  rewrite app_length, shaXu_length, Lx. pose proof (obX_64 B). lia.
Qed.
Lemma sha2_Hmsg_eq R s r m : length R = N -> length s = N -> length r = N -> Z.of_nat (length m) < 2 ^ 63 ->
  sha2_Hmsg_of SHA256 SHA512u N (dims_of P) R s r m = sha2_Hmsg N (dims_of P) R s r m.
Proof. clear Hwf.
  intros H1 H2 H3 H4. unfold sha2_Hmsg, sha2_Hmsg_of.
  rewrite (shaXu_eq B (R ++ _)) by (rewrite !app_length, H1, H2, H3; lia).
  rewrite mgf1u_eq; [reflexivity|].
  rewrite <- shaXu_eq by (rewrite !app_length, H1, H2, H3; lia).
  rewrite !app_length, shaXu_length, H1, H2. pose proof (obX_64 B). lia.
Qed.

Lemma all_skipn' l k : all_bytes l -> all_bytes (skipn k l).
Proof. clear. intros H. apply Forall_forall. intros x Hx. unfold all_bytes in H. rewrite Forall_forall in H.
  apply H. rewrite <- (firstn_skipn k l). apply in_or_app. now right. Qed.
(** ** The same for contents that are bytes *)
Theorem sha2_thash_bytes robust (c : ctx seeds) k addr mem out inp :
  ctx_ok P (sha2_suite P junk robust) c -> length addr = SPX_ADDR_BYTES ->
  all_bytes (c_pub_seed c) -> all_bytes addr -> all_bytes mem ->
  (inp + k * N <= length mem)%nat -> (out + N <= length mem)%nat -> Z.of_nat (k * N) < 2 ^ 63 ->
  let d := sha2_T N robust (c_pub_seed c) (firstn 22 addr) (firstn (k * N) (skipn inp mem)) in
  length d = N
  /\ sha2_thash P junk robust c k addr mem out inp
     = Some (firstn out mem ++ d ++ skipn (out + N) mem).
Proof.
  intros (H1 & _ & Hst) Ha B1 B2 B3 Hi Ho Hk d. cbn [sha2_suite hs_init hs_st] in *.
  assert (LI : length (firstn (k * N) (skipn inp mem)) = (k * N)%nat) by (rewrite firstn_length, skipn_length; lia).
  assert (La : length (firstn 22 addr) = 22%nat) by (change SPX_ADDR_BYTES with 32%nat in Ha; rewrite firstn_length; lia).
  assert (Ed : sha2_T_of SHA256 SHA512u N robust (c_pub_seed c) (firstn 22 addr) (firstn (k * N) (skipn inp mem)) = d).
  { apply sha2_T_eq; auto. now rewrite LI. }
  assert (Ld : length d = N) by (rewrite <- Ed; now apply sha2_T_of_length). split; [exact Ld|].
  destruct (seed_state_ok P junk Hn32 _ H1) as (s1 & s2 & E & S1 & S2).
  rewrite (sha2_thash_ok P junk Hn32 robust c k addr _ _ _ s1 s2) by (auto; try (now rewrite Hst); apply N_pos).
  rewrite !norm_bytes by (try apply all_firstn; try apply all_skipn'; auto).
  rewrite Ed. rewrite wr_ok by lia. now rewrite Ld.
Qed.
Theorem sha2_prf_bytes robust (c : ctx seeds) addr :
  ctx_ok P (sha2_suite P junk robust) c -> length addr = SPX_ADDR_BYTES ->
  all_bytes (c_pub_seed c) -> all_bytes (c_sk_seed c) -> all_bytes addr ->
  sha2_prf_addr P junk c addr = Some (sha2_PRF N (c_pub_seed c) (c_sk_seed c) (firstn 22 addr)).
Proof. clear Hwf.
  intros (H1 & H2 & Hst) Ha B1 B2 B3. cbn [sha2_suite hs_init hs_st] in *.
  destruct (seed_state_ok P junk Hn32 _ H1) as (s1 & s2 & E & S1 & _).
  rewrite (sha2_prf_ok P junk Hn32 c addr s1 s2) by (auto; now rewrite Hst).
  now rewrite !norm_bytes by (try apply all_firstn; auto).
Qed.
Theorem sha2_rand_bytes (c : ctx seeds) sk_prf optrand m :
  length sk_prf = N -> length optrand = N -> Z.of_nat (length m) < 2 ^ 63 ->
  all_bytes sk_prf -> all_bytes optrand -> all_bytes m ->
  sha2_gen_message_random P junk c sk_prf optrand m = Some (sha2_PRFmsg N sk_prf optrand m).
Proof. clear Hwf.
  intros H1 H2 H3 B1 B2 B3. rewrite rand_ok by auto. rewrite !norm_bytes by auto. f_equal. now apply sha2_PRFmsg_eq.
Qed.
Theorem sha2_msg_bytes (c : ctx seeds) R pk m :
  length R = N -> length pk = SPX_PK_BYTES P -> Z.of_nat (length m) < 2 ^ 63 ->
  all_bytes R -> all_bytes pk -> all_bytes m ->
  sha2_hash_message P junk c R pk m
  = Some (sha2_Hmsg N (dims_of P) R (firstn N pk) (skipn N pk) m).
Proof.
  intros H1 H2 H3 B1 B2 B3. unfold SPX_PK_BYTES in H2. rewrite msg_ok by auto. rewrite !norm_bytes by (try apply all_firstn; try apply all_skipn'; auto).
  f_equal. apply sha2_Hmsg_eq; auto; rewrite ?firstn_length, ?skipn_length; lia.
Qed.

(** ** The cached states (C36) *)
Theorem seed_state_cached ps : length ps = N -> all_bytes ps ->
  exists s256 s512, seed_state P junk ps = Some (s256, s512)
    /\ (forall x, all_bytes x -> sha256_inc_finalize (junk 200%nat) s256 x = sha256 (junk 200%nat) (ps ++ repeat 0 (64 - N) ++ x))
    /\ (B = true -> forall x, all_bytes x ->
        sha512_inc_finalize (junk 200%nat) s512 x = sha512 (junk 200%nat) (ps ++ repeat 0 (128 - N) ++ x)).
Proof. clear Hwf.
  intros H1 Hb. destruct (seed_state_ok P junk Hn32 ps H1) as (s1 & s2 & E & S1 & S2).
  rewrite (norm_bytes ps Hb) in S1, S2.
  assert (A : forall k x, all_bytes x -> all_bytes (ps ++ repeat 0 k ++ x)).
  { intros k x Hx. apply Forall_app. split; [exact Hb|]. apply Forall_app. split; [apply all_zeros|exact Hx]. }
  exists s1, s2. split; [exact E|]. split.
  - intros x Hx. rewrite (seeded_final256 _ _ _ _ S1), sha256_norm, (norm_bytes x Hx), (norm_bytes _ (A _ _ Hx)).
    now rewrite <- app_assoc.
  - intros Hb' x Hx. rewrite (seeded_final512 _ _ _ _ (S2 Hb')), sha512_normu, (norm_bytes x Hx), (norm_bytes _ (A _ _ Hx)).
    now rewrite <- app_assoc.
Qed.
End Sha2Suite.

(** Unfolded. *)
Section Sha2Unfolded.
Variable P : params.
Variable junk : nat -> nat -> Z.
Notation N := (p_n P).
Hypothesis Hn32 : (N <= 32)%nat.
Theorem sha2_rand_hmac (c : ctx seeds) sk_prf optrand m :
  length sk_prf = N -> length optrand = N -> Z.of_nat (length m) < 2 ^ 63 ->
  all_bytes sk_prf -> all_bytes optrand -> all_bytes m ->
  sha2_gen_message_random P junk c sk_prf optrand m
  = Some (firstn N (if (24 <=? N)%nat then hmac_of SHA512 128 sk_prf (optrand ++ m)
                    else hmac_of SHA256 64 sk_prf (optrand ++ m))).
Proof.
  intros. rewrite sha2_rand_bytes by auto. unfold sha2_PRFmsg, sha2_PRFmsg_of, big.
  destruct (24 <=? N)%nat; reflexivity.
Qed.
Theorem sha2_msg_mgf1 : wf_params P = true -> forall (c : ctx seeds) R pk m,
  length R = N -> length pk = SPX_PK_BYTES P -> Z.of_nat (length m) < 2 ^ 63 ->
  all_bytes R -> all_bytes pk -> all_bytes m ->
  sha2_hash_message P junk c R pk m
  = Some (split_digest_spec (dims_of P)
      (if (24 <=? N)%nat
       then mgf1_of SHA512 64 (R ++ firstn N pk ++ SHA512 (R ++ pk ++ m)) (SPX_DGST_BYTES P)
       else mgf1_of SHA256 32 (R ++ firstn N pk ++ SHA256 (R ++ pk ++ m)) (SPX_DGST_BYTES P))).
Proof.
  intros Hwf c R pk m H1 H2 H3 B1 B2 B3. rewrite sha2_msg_bytes by auto. unfold sha2_Hmsg, sha2_Hmsg_of, big.
  rewrite digest_len_eq. rewrite (app_assoc (firstn N pk)), firstn_skipn.
  destruct (24 <=? N)%nat; reflexivity.
Qed.
End Sha2Unfolded.
