(** The typed rng.c computes what the model of rng.c computes. *)
From Verif Require Import Base BaseFacts CInt CCore CIntFacts CCoreProofs Rng RngSpec RngProofs CRng.
Local Open Scope Z_scope.
Notation z := Z.of_nat.

Lemma cond_ge e1 e2 t a b :
  ev e1 t a -> (exists t2, ev e2 t2 b /\ in_range (common (promote t) (promote t2)) a = true
     /\ in_range (common (promote t) (promote t2)) b = true) -> cond (Bin OGe e1 e2) = Some (b <=? a).
Proof.
  intros H1 (t2 & H2 & Ra & Rb). rewrite (ev_cond _ I32 (if b <=? a then 1 else 0)); [destruct (b <=? a); reflexivity|].
  apply (ev_bin OGe e1 e2 t t2); try assumption; try reflexivity; discriminate.
Qed.
Lemma firstn_bytes k (b : bytes) : all_bytes b -> all_bytes (firstn k b).
Proof. intros H. rewrite <- (firstn_skipn k b) in H. now apply Forall_app in H. Qed.
Lemma wr_bytes b i d b' : all_bytes b -> all_bytes d -> wr b i d = Some b' -> all_bytes b'.
Proof.
  intros Hb Hd. unfold wr. destruct (_ <=? _)%nat; [|discriminate]. intros [= <-].
  apply Forall_app. split; [apply firstn_bytes, Hb|]. apply Forall_app. split; [exact Hd|apply all_skipn', Hb].
Qed.
Lemma rd_bytes b i n d : all_bytes b -> rd b i n = Some d -> all_bytes d.
Proof. intros Hb. unfold rd. destruct (_ <=? _)%nat; [|discriminate]. intros H. injection H as <-. apply firstn_bytes, all_skipn', Hb. Qed.
Lemma get_byte (b : bytes) i v : all_bytes b -> get b i = Some v -> is_byte v.
Proof. intros H G. apply nth_error_In in G. exact (proj1 (Forall_forall _ _) H v G). Qed.
Lemma u8_byte v : is_byte v -> u8 v = v. Proof. apply Z.mod_small. Qed.
Lemma byte_u8 v : is_byte (u8 v). Proof. unfold is_byte. apply u8_range. Qed.
Lemma int_over a k : - 2 ^ 31 <= a < 2 ^ 31 -> 0 <= k < 2 ^ 31 -> 2 ^ 31 <= a + k -> asg I32 (V I32 a + K k)%C = None.
Proof.
  intros Ha Hk Ho. unfold asg, K. cbn [eval]. replace (in_range I32 a) with true by (symmetry; rg). replace (in_range I32 k) with true by (symmetry; rg).
  cbn [guard bind promote common]. rewrite !conv_id by rg. cbn [bind arith]. unfold result.
  replace (in_range I32 (a + k)) with false by (symmetry; unfold in_range; lia). reflexivity.
Qed.
Lemma one_byte v : is_byte v -> all_bytes [v]. Proof. intros H. constructor; [exact H|constructor]. Qed.

Lemma incr_c_ok : forall k lo b fuel, (k < fuel)%nat -> (lo + k <= 16)%nat -> all_bytes b ->
  incr_c fuel (z lo) (z lo + z k - 1) b = incr lo k b.
Proof.
  induction k as [|k IH]; intros lo b fuel Hf Hl Hb; (destruct fuel as [|fuel]; [lia|]); cbn [incr_c incr];
    (match goal with |- context [cond (V I32 ?j >= K ?l)%C] => rewrite (cond_ge _ _ I32 j l); [|evc; reflexivity|exists I32; split; [evc; reflexivity|split; rg]] end);
    cbn [bind].
  - replace (z lo <=? z lo + z 0 - 1) with false by lia. reflexivity.
  - replace (z lo <=? z lo + z (S k) - 1) with true by lia.
    cix (lo + k)%nat; [|cbn [opz]; lia].
    destruct (get b (lo + k)) as [v|] eqn:G; cbn [bind]; [|reflexivity]. pose proof (get_byte _ _ _ Hb G) as Bv.
    pose proof (u8_range v) as Ur.
    rewrite (cond_eq _ _ U8 (u8 v) 255); [cbn [bind]|apply ev_B|exists I32; split; [evc; reflexivity|split; rg]].
    rewrite (u8_byte v Bv) in *. destruct (v =? 255).
    + destruct (wr b (lo + k) [0]) as [b'|] eqn:W; cbn [bind]; [|reflexivity].
      casg (z lo + z k - 1); [|cbn [opz]; lia|rg].
      apply IH; [lia|lia|]. apply (wr_bytes _ _ _ _ Hb) in W; [exact W|]. apply one_byte. split; lia.
    + rewrite (asg_u8 _ I32 (v + 1)); [reflexivity|].
      replace v with (u8 v) at 2 by (apply u8_byte, Bv).
      apply (ev_bin OAdd _ _ U8 I32); [apply ev_B|evc; reflexivity|reflexivity|rewrite (u8_byte v Bv); rg|rg|discriminate|].
      intros _. cbn [opz promote common]. rewrite (u8_byte v Bv). rg.
Qed.
Lemma incr_bytes : forall k lo b b', all_bytes b -> incr lo k b = Some b' -> all_bytes b'.
Proof.
  induction k as [|k IH]; intros lo b b' Hb; cbn [incr]; [now intros [= <-]|].
  destruct (get b (lo + k)) as [v|]; [|discriminate]. cbn [bind]. destruct (v =? 255).
  - destruct (wr b (lo + k) [0]) as [b1|] eqn:W; [|discriminate]. cbn [bind]. apply IH.
    apply (wr_bytes _ _ _ _ Hb) in W; [exact W|]. apply one_byte. split; lia.
  - intros W. apply (wr_bytes _ _ _ _ Hb) in W; [exact W|]. apply one_byte, byte_u8.
Qed.
Lemma incr4_c b : all_bytes b -> incr_c 5 12 15 b = incr 12 4 b.
Proof. intros H. apply (incr_c_ok 4 12); [lia|lia|exact H]. Qed.
Lemma incr16_c b : all_bytes b -> incr_c 17 0 15 b = incr 0 16 b.
Proof. intros H. apply (incr_c_ok 16 0); [lia|lia|exact H]. Qed.

(** int loops *)
Lemma cfor_int {S : Type} (Inv : S -> Prop) n (body : Z -> S -> option S) (f : nat -> S -> option S) : z n < 2 ^ 20 ->
  (forall i s, (i < n)%nat -> Inv s -> body (z i) s = f i s /\ (forall s', f i s = Some s' -> Inv s')) ->
  forall s, Inv s -> cfor (Datatypes.S n) I32 0 (K (z n)) body s = iterM n 0 f s.
Proof.
  intros Hn Hstep.
  assert (G : forall k i s, (i + k = n)%nat -> Inv s -> cfor (Datatypes.S k) I32 (z i) (K (z n)) body s = iterM k i f s).
  { induction k as [|k IH]; intros i s Hi HI; cbn [cfor iterM]; clt.
    - replace (z i <? z n) with false by lia. reflexivity.
    - replace (z i <? z n) with true by lia.
      destruct (Hstep i s ltac:(lia) HI) as [Eq Nx]. rewrite Eq. destruct (f i s) as [s'|]; cbn [bind]; [|reflexivity].
      casg (z (Datatypes.S i)); [|cbn [opz]; lia|rg]. apply IH; [lia|]. now apply Nx. }
  intros s HI. apply (G n 0%nat s); [lia|exact HI].
Qed.
Lemma xor48_c_ok src dst : all_bytes src -> all_bytes dst -> xor48_c src dst = xor48 src dst.
Proof.
  intros Hs Hd. unfold xor48_c, xor48. apply (cfor_int all_bytes 48); [lia| |exact Hd].
  intros i s Hi Bs. cix i; [|reflexivity].
  destruct (get s i) as [a|] eqn:Ga; [|split; [reflexivity|discriminate]]. cbn [bind].
  destruct (get src i) as [b|] eqn:Gb; [|split; [reflexivity|discriminate]]. cbn [bind].
  pose proof (get_byte _ _ _ Bs Ga) as Ba. pose proof (get_byte _ _ _ Hs Gb) as Bb. pose proof (lxor_byte a b Ba Bb) as Bx.
  rewrite (asg_is U8 _ I32 (Z.lxor a b) (Z.lxor a b)); [cbn [bind]| |reflexivity|unfold is_byte in Bx; rg].
  2:{ rewrite <- (u8_byte a Ba) at 2. rewrite <- (u8_byte b Bb) at 2.
      apply (ev_bin OXor _ _ U8 U8); [apply ev_B|apply ev_B|reflexivity| | |discriminate|].
      - pose proof (u8_range a). rg.
      - pose proof (u8_range b). rg.
      - intros _. cbn [opz promote common]. rewrite (u8_byte a Ba), (u8_byte b Bb). unfold is_byte in Bx. rg. }
  split; [reflexivity|]. intros s' W. apply (wr_bytes _ _ _ _ Bs) in W; [exact W|]. now apply one_byte.
Qed.

(** ** seedexpander_init *)
Lemma len_byte v : 0 <= v < 2 ^ 64 -> asg U8 (Cast U8 (V U64 v %% K 256))%C = Some (u8 (v mod 256)).
Proof.
  intros Hv. pose proof (Z.mod_pos_bound v 256 ltac:(lia)) as M.
  rewrite (asg_is U8 _ U8 (v mod 256) (u8 (v mod 256))); [reflexivity| |symmetry; apply u8_byte, M|apply in_range_U8, u8_range].
  apply (ev_cast U8 _ U64); [|rg]. rewrite <- (Z.rem_mod_nonneg v 256) in * by lia.
  apply (ev_bin OMod _ _ U64 I32 v 256); [evc; reflexivity|evc; reflexivity|reflexivity|rg|rg|discriminate|]. intros _. cbn [opz promote common]. rg.
Qed.
Lemma shift8 v : 0 <= v < 2 ^ 64 -> asg U64 (V U64 v >> K 8)%C = Some (Z.shiftr v 8) /\ 0 <= Z.shiftr v 8 < 2 ^ 64.
Proof. intros Hv. pose proof (shiftr_range v 8 (2 ^ 64) ltac:(lia) Hv). split; [|assumption]. casg (Z.shiftr v 8); [|reflexivity|rg]. reflexivity. Qed.
Theorem seedexpander_init_c_ok ctx seed div maxlen : 0 <= maxlen < 2 ^ 64 ->
  seedexpander_init_c ctx seed div maxlen = seedexpander_init ctx seed div maxlen.
Proof.
  intros Hm. unfold seedexpander_init_c, seedexpander_init.
  rewrite (cond_ge _ _ U64 maxlen (2 ^ 32)); [cbn [bind]|evc; reflexivity|exists U64; split; [evc; reflexivity|split; rg]].
  destruct (2 ^ 32 <=? maxlen); [reflexivity|].
  destruct (rd seed 0 32); cbn [bind]; [|reflexivity]. destruct (wr (x_key ctx) 0 _); cbn [bind]; [|reflexivity].
  destruct (rd div 0 8); cbn [bind]; [|reflexivity]. destruct (wr (x_ctr ctx) 0 _) as [c1|]; cbn [bind]; [|reflexivity].
  rewrite len_byte by assumption. cbn [bind]. destruct (wr c1 11 _) as [c2|]; cbn [bind]; [|reflexivity].
  destruct (shift8 maxlen Hm) as [-> H1]. cbn [bind].
  rewrite len_byte by assumption. cbn [bind]. destruct (wr c2 10 _) as [c3|]; cbn [bind]; [|reflexivity].
  destruct (shift8 _ H1) as [-> H2]. cbn [bind].
  rewrite len_byte by assumption. cbn [bind]. destruct (wr c3 9 _) as [c4|]; cbn [bind]; [|reflexivity].
  destruct (shift8 _ H2) as [-> H3]. cbn [bind].
  rewrite len_byte by assumption. cbn [bind]. destruct (wr c4 8 _) as [c5|]; cbn [bind]; [|reflexivity].
  reflexivity.
Qed.

Section Rng.
Variable E : bytes -> bytes -> bytes.
Lemma ecb_len k b d : AES256_ECB E k b = Some d -> d = E k b.
Proof. unfold AES256_ECB. destruct (guard _); [|discriminate]. now intros [= <-]. Qed.

Lemma avail p : 0 <= p < 2 ^ 64 -> ev (K 16 - V U64 p)%C U64 (u64 (16 - p)).
Proof. intros Hp. apply (ev_bin_mod OSub _ _ I32 U64 16 p); try reflexivity; try discriminate; [evc; reflexivity|evc; reflexivity|rg]. Qed.
Lemma u64_range x : 0 <= u64 x < 2 ^ 64. Proof. apply Z.mod_pos_bound. reflexivity. Qed.
Lemma u64_small x : 0 <= x < 2 ^ 64 -> u64 x = x. Proof. apply Z.mod_small. Qed.
Lemma ix_u64 v : 0 <= v < 2 ^ 64 -> ix (V U64 v) = Some (Z.to_nat v).
Proof. intros H. cix (Z.to_nat v); [reflexivity|lia]. Qed.
Lemma pos_cond v : 0 <= v < 2 ^ 64 -> cond (K 0 < V U64 v)%C = Some (negb (v <=? 0)).
Proof. intros H. clt. f_equal. rewrite Z.leb_antisym, negb_involutive. reflexivity. Qed.

Lemma sx_loop_c_ok : forall fuel ctx x o xlen, 0 <= xlen -> z o + xlen < 2 ^ 64 -> 0 <= x_pos ctx < 2 ^ 64 -> all_bytes (x_ctr ctx) ->
  sx_loop_c E fuel ctx x (z o) xlen = sx_loop E fuel ctx x o xlen.
Proof.
  induction fuel as [|fuel IH]; intros ctx x o xlen Hx Ho Hp Hc; cbn [sx_loop_c sx_loop]; rewrite pos_cond by lia; cbn [bind].
  - destruct (xlen <=? 0); reflexivity.
  - destruct (Z.leb_spec xlen 0); cbn [negb]; [reflexivity|].
    pose proof (avail _ Hp) as Av. pose proof (u64_range (16 - x_pos ctx)) as Ar. set (av := u64 (16 - x_pos ctx)) in *.
    rewrite (cond_lt _ _ U64 av xlen); [cbn [bind]|exact Av|exists U64; split; [evc; reflexivity|split; rg]].
    rewrite Z.ltb_antisym, negb_involutive. rewrite !ix_u64 by lia. cbn [bind]. rewrite !Nat2Z.id.
    destruct (Z.leb_spec xlen av).
    + destruct (rd (x_buffer ctx) _ _) as [d|]; cbn [bind]; [|reflexivity].
      destruct (wr x o d) as [x'|]; cbn [bind]; [|reflexivity].
      rewrite (asg_is U64 _ U64 (u64 (x_pos ctx + xlen)) (u64 (x_pos ctx + xlen))); [reflexivity| |reflexivity|apply in_range_U64, u64_range].
      apply (ev_bin_mod OAdd _ _ U64 U64 (x_pos ctx) xlen); try reflexivity; try discriminate; [evc; reflexivity|evc; reflexivity|rg|rg].
    + rewrite (ev_ix _ U64 av Av) by lia. cbn [bind].
      destruct (rd (x_buffer ctx) _ _) as [d|]; cbn [bind]; [|reflexivity].
      destruct (wr x o d) as [x'|]; cbn [bind]; [|reflexivity].
      rewrite (asg_is U64 _ U64 (xlen - av) (u64 (xlen - av))); [cbn [bind]| |symmetry; apply u64_small; lia|apply in_range_U64, u64_range].
      2:{ apply (ev_bin OSub _ _ U64 U64 xlen av); [evc; reflexivity|exact Av|reflexivity|rg|rg|discriminate|]. intros _. cbn [opz promote common]. rg. }
      rewrite (asg_is U64 _ U64 (z o + av) (z (o + Z.to_nat av))); [cbn [bind]| |lia|rg].
      2:{ apply (ev_bin OAdd _ _ U64 U64 (z o) av); [evc; reflexivity|exact Av|reflexivity|rg|rg|discriminate|]. intros _. cbn [opz promote common]. rg. }
      destruct (AES256_ECB E (x_key ctx) (x_ctr ctx)) as [b|]; cbn [bind]; [|reflexivity].
      casg 0; [|reflexivity|reflexivity]. rewrite incr4_c by exact Hc.
      destruct (incr 12 4 (x_ctr ctx)) as [c|] eqn:Ei; cbn [bind]; [|reflexivity].
      apply IH; cbn [x_pos x_ctr].
      * apply u64_range.
      * rewrite u64_small by lia. lia.
      * lia.
      * exact (incr_bytes _ _ _ _ Hc Ei).
Qed.
Theorem seedexpander_c_ok ctx x xlen : 0 <= xlen < 2 ^ 64 -> 0 <= x_pos ctx < 2 ^ 64 -> 0 <= x_rem ctx < 2 ^ 64 -> all_bytes (x_ctr ctx) ->
  seedexpander_c E ctx x xlen = seedexpander E ctx x xlen.
Proof.
  intros Hx Hp Hr Hc. unfold seedexpander_c, seedexpander. destruct x as [xb|]; [|reflexivity].
  rewrite (cond_ge _ _ U64 xlen (x_rem ctx)); [cbn [bind]|evc; reflexivity|exists U64; split; [evc; reflexivity|split; rg]].
  destruct (Z.leb_spec (x_rem ctx) xlen); [reflexivity|].
  rewrite (asg_is U64 _ U64 (u64 (x_rem ctx - xlen)) (u64 (x_rem ctx - xlen))); [cbn [bind]| |reflexivity|apply in_range_U64, u64_range].
  2:{ apply (ev_bin_mod OSub _ _ U64 U64 (x_rem ctx) xlen); try reflexivity; try discriminate; [evc; reflexivity|evc; reflexivity|rg|rg]. }
  casg 0; [|reflexivity|reflexivity]. change 0 with (z 0) at 1. rewrite sx_loop_c_ok; [reflexivity|lia|cbn; lia|exact Hp|exact Hc].
Qed.

(** ** The generator *)
Hypothesis E_len : forall k b, length (E k b) = 16%nat.
Hypothesis E_bytes : forall k b, all_bytes (E k b).
Lemma update_c_ok temp p key v : length temp = 48%nat -> all_bytes v -> (forall d, p = Some d -> all_bytes d) ->
  drbg_update_c E temp p key v = drbg_update E temp p key v.
Proof.
  intros Lt Hv Hp. unfold drbg_update_c, drbg_update.
  match goal with |- _ = bind (iterM 3 0 ?F _) _ => set (f := F) end.
  rewrite (cfor_int (fun s => all_bytes (fst s)) 3 _ f); [|lia| |exact Hv].
  2:{ intros i [v1 t1] Hi Bv. cbn [fst] in Bv. unfold f. rewrite incr16_c by exact Bv.
      destruct (incr 0 16 v1) as [v2|] eqn:Ei; [|split; [reflexivity|discriminate]]. cbn [bind].
      destruct (AES256_ECB E key v2) as [b|]; [|split; [reflexivity|discriminate]]. cbn [bind].
      cix (16 * i)%nat; [|cbn [opz]; lia].
      destruct (wr t1 (16 * i) b) as [t2|]; [|split; [reflexivity|discriminate]]. cbn [bind].
      split; [reflexivity|]. intros s' [= <-]. exact (incr_bytes _ _ _ _ Bv Ei). }
  destruct (iterM 3 0 f (v, temp)) as [[v3 t3]|] eqn:It; cbn [bind]; [|reflexivity].
  assert (Bt : all_bytes t3).
  { unfold f in It. cbn [iterM] in It.
    destruct (incr 0 16 v) as [w1|]; [|discriminate]. cbn [bind] in It.
    destruct (AES256_ECB E key w1) as [b1|] eqn:A1; [|discriminate]. cbn [bind] in It. apply ecb_len in A1.
    assert (L1 : length b1 = 16%nat) by (rewrite A1; apply E_len). assert (B1 : all_bytes b1) by (rewrite A1; apply E_bytes).
    rewrite (wr_ok temp (16 * 0) b1) in It by (rewrite L1; cbn; lia). cbn [bind] in It.
    destruct (incr 0 16 w1) as [w2|]; [|discriminate]. cbn [bind] in It.
    destruct (AES256_ECB E key w2) as [b2|] eqn:A2; [|discriminate]. cbn [bind] in It. apply ecb_len in A2.
    assert (L2 : length b2 = 16%nat) by (rewrite A2; apply E_len). assert (B2 : all_bytes b2) by (rewrite A2; apply E_bytes).
    cbn [firstn app Nat.mul Nat.add] in It.
    assert (X2 : wr (b1 ++ skipn (length b1) temp) 16 b2 = Some (b1 ++ b2 ++ skipn 32 temp)).
    { rewrite wr_ok by (rewrite app_length, skipn_length; lia). rewrite L1, L2.
      rewrite firstn_app_len' by lia. rewrite skipn_app, L1, skipn_all2 by lia. cbn [app]. rewrite skipn_skipn. reflexivity. }
    rewrite X2 in It. cbn [bind] in It.
    destruct (incr 0 16 w2) as [w3|]; [|discriminate]. cbn [bind] in It.
    destruct (AES256_ECB E key w3) as [b3|] eqn:A3; [|discriminate]. cbn [bind] in It. apply ecb_len in A3.
    assert (L3 : length b3 = 16%nat) by (rewrite A3; apply E_len). assert (B3 : all_bytes b3) by (rewrite A3; apply E_bytes).
    assert (X3 : wr (b1 ++ b2 ++ skipn 32 temp) 32 b3 = Some (b1 ++ b2 ++ b3)).
    { rewrite app_assoc. rewrite wr_ok by (rewrite !app_length, skipn_length; lia).
      rewrite firstn_app_len' by (rewrite app_length; lia). rewrite (skipn_all2 (n := 32 + length b3)) by (rewrite !app_length, skipn_length; lia).
      rewrite app_nil_r, <- app_assoc. reflexivity. }
    rewrite X3 in It. cbn [bind] in It. injection It as _ <-.
    apply Forall_app. split; [exact B1|]. apply Forall_app. split; assumption. }
  destruct p as [d|]; [|reflexivity]. rewrite xor48_c_ok; [reflexivity|now apply Hp|exact Bt].
Qed.
Theorem init_c_ok g sm temp entropy pers : length (g_v g) = 16%nat -> length sm = 48%nat -> length temp = 48%nat -> all_bytes entropy ->
  (forall d, pers = Some d -> all_bytes d) ->
  randombytes_init_c E g sm temp entropy pers = randombytes_init E g sm temp entropy pers.
Proof.
  intros Lv Ls Lt He Hp. unfold randombytes_init_c, randombytes_init.
  destruct (rd entropy 0 48) as [e|] eqn:R; cbn [bind]; [|reflexivity].
  pose proof (rd_bytes _ _ _ _ He R) as Be.
  pose proof (rd_length _ _ _ _ R) as Le. rewrite (wr_all sm e) by lia. cbn [bind].
  assert (X : match pers with None => Some e | Some p => xor48_c p e end = match pers with None => Some e | Some p => xor48 p e end).
  { destruct pers as [p|]; [|reflexivity]. apply xor48_c_ok; [now apply Hp|exact Be]. }
  rewrite X. destruct (match pers with None => Some e | Some p => xor48 p e end) as [sm'|] eqn:M; cbn [bind]; [|reflexivity].
  assert (Bs : all_bytes sm').
  { destruct pers as [p|]; [|now injection M as <-]. unfold xor48 in M. specialize (Hp p eq_refl).
    revert M. apply (iterM_keeps (fun _ => all_bytes)); [|exact Be].
    intros i s s' _ Bs. destruct (get s i) as [a|] eqn:Ga; [|discriminate]. cbn [bind]. destruct (get p i) as [b|] eqn:Gb; [|discriminate]. cbn [bind].
    intros W. apply (wr_bytes _ _ _ _ Bs) in W; [exact W|]. apply one_byte, lxor_byte; [exact (get_byte _ _ _ Bs Ga)|exact (get_byte _ _ _ Hp Gb)]. }
  destruct (wr (g_key g) 0 _) as [k|]; cbn [bind]; [|reflexivity].
  rewrite (wr_all (g_v g)) by (rewrite repeat_length; lia). cbn [bind].
  rewrite update_c_ok; [reflexivity|exact Lt| |intros d [= <-]; exact Bs].
  apply Forall_forall. intros x Hx. apply repeat_spec in Hx. subst. split; lia.
Qed.
Lemma drbg_loop_c_ok key : forall fuel v x i xlen, all_bytes v -> 0 <= xlen < 2 ^ 64 -> z i < 2 ^ 31 ->
  drbg_loop_c E fuel key v x (z i) xlen = drbg_loop E fuel key v x i xlen.
Proof.
  clear E_len E_bytes. induction fuel as [|fuel IH]; intros v x i xlen Hv Hx Hi; cbn [drbg_loop_c drbg_loop]; rewrite pos_cond by lia; cbn [bind].
  - destruct (xlen <=? 0); reflexivity.
  - destruct (Z.leb_spec xlen 0); cbn [negb]; [reflexivity|]. rewrite incr16_c by exact Hv.
    destruct (incr 0 16 v) as [v'|] eqn:Ei; cbn [bind]; [|reflexivity]. pose proof (incr_bytes _ _ _ _ Hv Ei) as Hv'.
    destruct (AES256_ECB E key v') as [b|]; cbn [bind]; [|reflexivity].
    clt. cix i; [|reflexivity]. destruct (Z.ltb_spec 15 xlen).
    + destruct (wr x i b) as [x'|]; cbn [bind]; [|reflexivity].
      destruct (Z.ltb_spec (z i + 16) (2 ^ 31)); cbn [guard bind].
      * casg (z (i + 16)); [|cbn [opz]; lia|rg].
        casg (xlen - 16); [|reflexivity|rg]. rewrite u64_small by lia. apply IH; [exact Hv'|lia|lia].
      * assert (Ov : asg I32 (V I32 (z i) + K 16)%C = None) by (apply int_over; lia).
        rewrite Ov. reflexivity.
    + rewrite ix_u64 by lia. cbn [bind]. destruct (rd b 0 (Z.to_nat xlen)) as [d|]; cbn [bind]; [|reflexivity].
      destruct (wr x i d) as [x'|]; cbn [bind]; [|reflexivity]. casg 0; [|reflexivity|reflexivity]. apply IH; [exact Hv'|lia|lia].
Qed.
Lemma drbg_loop_bytes key : forall fuel v x i xlen v' x', all_bytes v -> drbg_loop E fuel key v x i xlen = Some (v', x') -> all_bytes v'.
Proof.
  clear. induction fuel as [|fuel IH]; intros v x i xlen v' x' Hv; cbn [drbg_loop]; (destruct (xlen <=? 0); [now intros [= <- _]|]); [discriminate|].
  destruct (incr 0 16 v) as [v1|] eqn:Ei; [|discriminate]. cbn [bind]. pose proof (incr_bytes _ _ _ _ Hv Ei) as Hv'.
  destruct (AES256_ECB E key v1) as [b|]; [|discriminate]. cbn [bind]. destruct (15 <? xlen).
  - destruct (wr x i b); [|discriminate]. cbn [bind]. destruct (guard _); [|discriminate]. cbn [bind]. now apply IH.
  - destruct (rd b 0 _); [|discriminate]. cbn [bind]. destruct (wr x i _); [|discriminate]. cbn [bind]. now apply IH.
Qed.
Theorem randombytes_c_ok g temp x xlen : length temp = 48%nat -> all_bytes (g_v g) -> - 2 ^ 31 <= g_reseed g < 2 ^ 31 -> 0 <= xlen < 2 ^ 64 ->
  drbg_randombytes_c E g temp x xlen = drbg_randombytes E g temp x xlen.
Proof.
  intros Lt Hv Hr Hx. unfold drbg_randombytes_c, drbg_randombytes. casg 0; [|reflexivity|reflexivity]. change 0 with (z 0) at 1.
  rewrite drbg_loop_c_ok by (assumption || (cbn; lia)).
  destruct (drbg_loop E _ (g_key g) (g_v g) x 0 xlen) as [[v x']|] eqn:El; cbn [bind]; [|reflexivity].
  rewrite update_c_ok; [|exact Lt|exact (drbg_loop_bytes _ _ _ _ _ _ _ _ Hv El)|discriminate].
  destruct (drbg_update E temp None (g_key g) v) as [[k' v']|]; cbn [bind]; [|reflexivity].
  destruct (Z.ltb_spec (g_reseed g + 1) (2 ^ 31)); cbn [guard bind].
  - casg (g_reseed g + 1); [|reflexivity|rg]. reflexivity.
  - assert (Ov : asg I32 (V I32 (g_reseed g) + K 1)%C = None) by (apply int_over; lia).
    rewrite Ov. reflexivity.
Qed.
End Rng.

(** ** Against the specification *)
Lemma blk_bytes div maxlen j : all_bytes div -> all_bytes (sx_block div maxlen j).
Proof. intros H. unfold sx_block. apply Forall_app. split; [exact H|]. apply Forall_app. split; apply be_bytes_all. Qed.
Lemma sx_run_c_ok E key div maxlen : (forall k b, length (E k b) = 16%nat) -> length key = 32%nat -> length div = 8%nat -> all_bytes div ->
  0 <= maxlen < 2 ^ 32 -> forall reqs ctx p, Forall (fun x : bytes => z (length x) < 2 ^ 64) reqs ->
  sx_at E key div maxlen ctx p -> x_rem ctx = maxlen - z p -> z p <= maxlen ->
  sx_run_c E ctx reqs = Some (sx_answers (stream E key (sx_block div maxlen)) maxlen p reqs).
Proof.
  intros HE Lk Ld Bd Hm. induction reqs as [|x reqs IH]; intros ctx p F A R Hp; [reflexivity|]. inversion F as [|? ? Hx F']; subst. cbn [sx_run_c sx_answers].
  pose proof (sx_step E HE key div maxlen Lk Ld ctx p x (z (length x)) A R Hm) as St.
  rewrite seedexpander_c_ok; [|lia| |lia|].
  2:{ destruct A as (_ & _ & Ps & _). lia. }
  2:{ destruct A as (_ & _ & _ & c & -> & _). now apply blk_bytes. }
  rewrite !Nat2Z.id in St.
  destruct (Z.leb_spec (maxlen - z p) (z (length x))) as [Q|Q].
  - rewrite St by lia. cbn [bind]. now rewrite (IH ctx p F' A R Hp).
  - destruct St as (ctx' & Q' & A' & R'); [lia|lia|]. rewrite Q'. cbn [bind].
    rewrite (IH _ _ F' A' R') by lia. cbn [bind]. rewrite skipn_all2 by lia. now rewrite app_nil_r.
Qed.
Theorem c_requests E seed div maxlen ctx reqs :
  (forall k b, length (E k b) = 16%nat) ->
  length (x_buffer ctx) = 16%nat -> length (x_key ctx) = 32%nat -> length (x_ctr ctx) = 16%nat ->
  length seed = 32%nat -> length div = 8%nat -> all_bytes div -> 0 <= maxlen < 2 ^ 32 ->
  Forall (fun x : bytes => z (length x) < 2 ^ 64) reqs ->
  ('(r, ctx') <- seedexpander_init_c ctx seed div maxlen ;;
   answers <- sx_run_c E ctx' reqs ;;
   Some (r, answers))
  = Some (0, sx_answers (stream E seed (sx_block div maxlen)) maxlen 0 reqs).
Proof.
  intros HE Lb Lk Lc Ls Ld Bd Hm F. rewrite seedexpander_init_c_ok by lia.
  destruct (sx_init_ok E ctx seed div maxlen Lb Lk Lc Ls Ld Hm) as (ctx' & -> & A & R). cbn [bind].
  rewrite (sx_run_c_ok E seed div maxlen HE Ls Ld Bd Hm reqs ctx' 0 F A) by lia. reflexivity.
Qed.
Theorem c_generate E : (forall k b, length (E k b) = 16%nat) -> (forall k b, all_bytes (E k b)) ->
  forall g V temp x xlen,
  length (g_key g) = 32%nat -> g_v g = be_bytes 16 V -> 0 <= g_reseed g -> g_reseed g + 1 < 2 ^ 31 -> length temp = 48%nat ->
  0 <= xlen < 2 ^ 31 -> (Z.to_nat xlen <= length x)%nat ->
  let '(out, (k', V')) := spec_generate E (g_key g) V (Z.to_nat xlen) in
  drbg_randombytes_c E g temp x xlen
    = Some (0, mkDrbg k' (be_bytes 16 V') (g_reseed g + 1), out ++ skipn (Z.to_nat xlen) x)
  /\ length k' = 32%nat.
Proof.
  intros H1 H2 g W temp x xlen L1 Ev R0 R Lt Hx Lx. pose proof (generate_ok E H1 H2 g W temp x xlen L1 Ev R Lt Hx Lx) as G.
  destruct (spec_generate E (g_key g) W (Z.to_nat xlen)) as [out [k' V']].
  rewrite randombytes_c_ok; [exact G|assumption|assumption|assumption| |lia|lia]. rewrite Ev. apply be_bytes_all.
Qed.
Theorem c_instantiate E : (forall k b, length (E k b) = 16%nat) -> (forall k b, all_bytes (E k b)) ->
  forall g sm temp entropy pers,
  length (g_key g) = 32%nat -> length (g_v g) = 16%nat -> length sm = 48%nat -> length temp = 48%nat ->
  length entropy = 48%nat -> all_bytes entropy ->
  (forall d, pers = Some d -> length d = 48%nat /\ all_bytes d) ->
  let '(k', V') := spec_instantiate E entropy (provided_data pers) in
  randombytes_init_c E g sm temp entropy pers = Some (mkDrbg k' (be_bytes 16 V') 1) /\ length k' = 32%nat.
Proof.
  intros H1 H2 g sm temp en pers L1 L2 L3 L4 L5 B5 Hp. pose proof (instantiate_ok E H1 H2 g sm temp en pers L1 L2 L3 L4 L5 B5 Hp) as G.
  destruct (spec_instantiate E en (provided_data pers)) as [k' V'].
  rewrite init_c_ok; auto. intros d Hd. now apply Hp.
Qed.
Theorem c_long E g temp x xlen : (forall k b, length (E k b) = 16%nat) -> (forall k b, all_bytes (E k b)) ->
  length temp = 48%nat -> all_bytes (g_v g) -> - 2 ^ 31 <= g_reseed g < 2 ^ 31 -> 2 ^ 31 <= xlen < 2 ^ 64 ->
  drbg_randombytes_c E g temp x xlen = None.
Proof. intros H1 H2 Lt Bv R Hx. rewrite randombytes_c_ok by (assumption || lia). now apply drbg_long. Qed.
