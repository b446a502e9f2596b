(** Two runs of the programs of CTLog.v compared: same control flow and same accesses whatever the contents of the
    buffers, as long as the marked values agree. *)
From Verif Require Import Base BaseFacts Params Address Suite Utils Wots Fors Merkle Sign WotsDigitsProofs MerkleProofs CTLog.

(** Run to run: if what the marks say agrees up to what follows, the records and [R]-results agree. *)
Definition same {A B} (R : A -> B -> Prop) (m1 : tm A) (m2 : tm B) : Prop :=
  forall a1 l1 a2 l2 t1 t2, m1 = Some (a1, l1) -> m2 = Some (a2, l2) -> marks l1 ++ t1 = marks l2 ++ t2 ->
  l1 = l2 /\ R a1 a2 /\ t1 = t2.
Definition lens {A B} (x : list A) (y : list B) : Prop := length x = length y.
Definition any {A B} (x : A) (y : B) : Prop := True.

Lemma marks_app : forall l l', marks (l ++ l') = marks l ++ marks l'.
Proof. intros. apply filter_app. Qed.
Lemma same_bind : forall A A' B B' (R : A -> A' -> Prop) (Q : B -> B' -> Prop) m1 m2 f1 f2,
  same R m1 m2 -> (forall a1 a2, R a1 a2 -> same Q (f1 a1) (f2 a2)) -> same Q (tbind m1 f1) (tbind m2 f2).
Proof.
  intros A A' B B' R Q [[a1 l1]|] [[a2 l2]|] f1 f2 H K b1 k1 b2 k2 t1 t2 E1 E2 E; cbn in E1, E2; try discriminate.
  destruct (f1 a1) as [[c1 h1]|] eqn:F1; [|discriminate]. destruct (f2 a2) as [[c2 h2]|] eqn:F2; [|discriminate].
  injection E1 as <- <-. injection E2 as <- <-. rewrite !marks_app, <- !app_assoc in E.
  destruct (H a1 l1 a2 l2 _ _ eq_refl eq_refl E) as (-> & HR & Et).
  destruct (K a1 a2 HR c1 h1 c2 h2 t1 t2 F1 F2 Et) as (-> & HQ & Ht). auto.
Qed.
Lemma same_obind : forall A A' B B' (Q : B -> B' -> Prop) (o1 : option A) (o2 : option A') f1 f2,
  (forall a1 a2, o1 = Some a1 -> o2 = Some a2 -> same Q (f1 a1) (f2 a2)) -> same Q (bind o1 f1) (bind o2 f2).
Proof. intros A A' B B' Q [a1|] [a2|] f1 f2 H; cbn; try (now apply H); intros ? ? ? ? ? ? E1 E2; discriminate. Qed.
Lemma same_ret : forall A B (R : A -> B -> Prop) a1 a2, R a1 a2 -> same R (tret a1) (tret a2).
Proof. intros A B R a1 a2 H b1 l1 b2 l2 t1 t2 E1 E2 E. injection E1 as <- <-. injection E2 as <- <-. auto. Qed.
Lemma same_none : forall A B (R : A -> B -> Prop) m, same R None m.
Proof. intros A B R m ? ? ? ? ? ? E. discriminate. Qed.
Lemma same_refl : forall A (m : tm A), same eq m m.
Proof.
  intros A m a1 l1 a2 l2 t1 t2 E1 E2 E. rewrite E1 in E2. injection E2 as <- <-. apply app_inv_head in E. auto.
Qed.
Lemma same_br : forall b, same eq (br b) (br b).
Proof. intros; apply same_refl. Qed.
Lemma same_impl : forall A B (R Q : A -> B -> Prop) m1 m2, (forall a b, R a b -> Q a b) -> same R m1 m2 -> same Q m1 m2.
Proof. intros A B R Q m1 m2 H K a1 l1 a2 l2 t1 t2 E1 E2 E. destruct (K _ _ _ _ _ _ E1 E2 E) as (? & ? & ?). auto. Qed.
(** One entry of no mark, the same in both runs *)
Lemma same_seen : forall A B (R : A -> B -> Prop) o1 o2 k, marks [k] = [] ->
  (forall a1 a2, o1 = Some a1 -> o2 = Some a2 -> R a1 a2) -> same R (seen o1 k) (seen o2 k).
Proof.
  intros A B R [a1|] [a2|] k Hk H b1 l1 b2 l2 t1 t2 E1 E2 E; cbn in E1, E2; try discriminate.
  injection E1 as <- <-. injection E2 as <- <-. rewrite Hk in E. auto.
Qed.
Lemma same_root : forall r1 r2, same eq (seen (Some r1) (PubRoot r1)) (seen (Some r2) (PubRoot r2)).
Proof.
  intros r1 r2 a1 l1 a2 l2 t1 t2 E1 E2 E. injection E1 as <- <-. injection E2 as <- <-. cbn in E.
  injection E as -> ->. auto.
Qed.
Lemma same_rd : forall b1 b2 o n, same lens (rdT b1 o n) (rdT b2 o n).
Proof.
  intros. apply same_seen; [reflexivity|]. intros a1 a2 E1 E2. apply rd_length in E1. apply rd_length in E2. unfold lens. congruence.
Qed.
Lemma wr_len : forall b o x b', wr b o x = Some b' -> length b' = length b.
Proof.
  intros b o x b' E. unfold wr in E. destruct (o + length x <=? length b)%nat eqn:C; [|discriminate].
  injection E as <-. apply Nat.leb_le in C. rewrite !app_length, firstn_length, skipn_length. lia.
Qed.
Lemma same_wr : forall b1 b2 o x1 x2, lens b1 b2 -> lens x1 x2 -> same lens (wrT b1 o x1) (wrT b2 o x2).
Proof.
  intros b1 b2 o x1 x2 Hb Hx. unfold wrT. unfold lens in Hx. rewrite Hx. apply same_seen; [reflexivity|].
  intros a1 a2 E1 E2. apply wr_len in E1. apply wr_len in E2. unfold lens in *. congruence.
Qed.
Lemma same_get : forall A B (b1 : list A) (b2 : list B) i (R : A -> B -> Prop),
  (forall x y, get b1 i = Some x -> get b2 i = Some y -> R x y) -> same R (getT b1 i) (getT b2 i).
Proof. intros. apply same_seen; [reflexivity|assumption]. Qed.
Lemma same_iter : forall S S' (R : S -> S' -> Prop) k i f1 f2 s1 s2,
  (forall j a1 a2, R a1 a2 -> same R (f1 j a1) (f2 j a2)) -> R s1 s2 -> same R (iterT k i f1 s1) (iterT k i f2 s2).
Proof.
  intros S S' R; induction k as [|k IH]; intros i f1 f2 s1 s2 H Hs; cbn [iterT]; [now apply same_ret|].
  eapply same_bind; [apply H, Hs|]. intros a1 a2 Ha. now apply IH.
Qed.
Lemma junk_lens : forall j1 j2 n, lens (junk_bytes j1 n) (junk_bytes j2 n).
Proof. intros. unfold lens, junk_bytes. now rewrite !map_length. Qed.

Section Digits.
Variable P : params.
Hypothesis Hwf : wf_params P = true.
Definition small (z : Z) : Prop := 0 <= z < 2 ^ 32.
Definition smalls (x y : list Z) : Prop := Forall small x /\ Forall small y.
Lemma digit_small : forall t b, small (Z.land (Z.shiftr t b) (SPX_WOTS_W P - 1)).
Proof.
  intros t b. unfold small. assert (H : SPX_WOTS_W P - 1 = Z.ones (Z.of_nat (p_logw P))).
  { unfold SPX_WOTS_W. rewrite Z.ones_equiv. lia. }
  rewrite H, Z.land_ones by lia. assert (0 < 2 ^ Z.of_nat (p_logw P) <= 2 ^ 32).
  { split; [apply Z.pow_pos_nonneg; lia|]. apply Z.pow_le_mono_r; [lia|]. destruct (logw_cases P Hwf); lia. }
  pose proof (Z.mod_pos_bound (Z.shiftr t b) (2 ^ Z.of_nat (p_logw P))). lia.
Qed.
Lemma same_base_w_loop : forall k in1 in2 i t1 t2 bits,
  same smalls (base_w_loopT P k in1 i t1 bits) (base_w_loopT P k in2 i t2 bits).
Proof.
  induction k as [|k IH]; intros; cbn [base_w_loopT]; [apply same_ret; split; constructor|].
  eapply same_bind; [apply same_br|]. intros b1 b2 <-.
  apply (same_bind _ _ _ _ (fun x y => fst (fst x) = fst (fst y) /\ snd x = snd y)).
  { destruct b1; [|apply same_ret; auto]. eapply same_bind; [apply (same_get _ _ _ _ _ any); intros; exact I|].
    intros x y _. apply same_ret; auto. }
  intros [[i1 u1] v1] [[i2 u2] v2] [E1 E2]; cbn [fst snd] in E1, E2. subst i2 v2. cbv beta iota zeta.
  apply same_obind. intros _ _ _ _. apply same_obind. intros x y _ _.
  eapply same_bind; [apply IH|]. intros r1 r2 [H1 H2]. apply same_ret. split; constructor; auto using digit_small.
Qed.
Lemma same_chain_lengths : forall m1 m2, same smalls (chain_lengthsT P m1) (chain_lengthsT P m2).
Proof.
  intros. unfold chain_lengthsT. eapply same_bind; [apply same_base_w_loop|]. intros a1 a2 [H1 H2].
  eapply same_bind.
  - unfold wots_checksumT. apply same_obind. intros _ _ _ _. apply same_base_w_loop.
  - intros b1 b2 [K1 K2]. apply same_ret. split; now apply Forall_app.
Qed.
End Digits.

Lemma same_rdE : forall b1 b2 o n, same (fun x y => lens x y /\ length x = n /\ length y = n) (rdT b1 o n) (rdT b2 o n).
Proof.
  intros. apply same_seen; [reflexivity|]. intros a1 a2 E1 E2. apply rd_length in E1. apply rd_length in E2.
  unfold lens. repeat split; congruence.
Qed.
Ltac sm0 := repeat (cbv beta zeta; first
  [ match goal with |- same _ (bind _ _) (bind _ _) => apply same_obind; intros ? ? _ _ end
  | match goal with |- same _ (tbind (rdT _ _ _) _) _ => eapply same_bind; [apply same_rdE|intros ? ? (? & ? & ?)] end
  | match goal with |- same _ (tbind (wrT _ _ _) _) _ => eapply same_bind; [apply same_wr; assumption|intros ? ? ?] end
  ]).
Section Pair.
Variable P : params.
Variables HS1 HS2 : suite.
Notation N := (p_n P).
Hypothesis Hwf : wf_params P = true.
Hypothesis Hok1 : suite_ok P HS1.
Hypothesis Hok2 : suite_ok P HS2.
Variables junk1 junk2 : nat -> nat -> Z.

Section Ctx.
Variable c1 : ctx (hs_st HS1).
Variable c2 : ctx (hs_st HS2).
Hypothesis Hc1 : ctx_ok P HS1 c1.
Hypothesis Hc2 : ctx_ok P HS2 c2.

Lemma thash_len : forall HS c k x a d, suite_ok P HS -> ctx_ok P HS c -> thash P HS c k x a = Some d -> length d = N.
Proof.
  clear. intros HS c k x a d Hok Hc E. unfold thash in E.
  destruct (length x =? k * N)%nat eqn:E1; [|discriminate]. destruct (length a =? SPX_ADDR_BYTES)%nat eqn:E2; [|discriminate].
  apply Nat.eqb_eq in E1, E2. destruct (ok_thash P HS Hok c k x a Hc E1 E2) as (d' & F & Hd). cbn [guard bind] in E. congruence.
Qed.
Lemma prf_len : forall HS c a d, suite_ok P HS -> ctx_ok P HS c -> prf_addr HS c a = Some d -> length d = N.
Proof.
  clear. intros HS c a d Hok Hc E. unfold prf_addr in E. destruct (length a =? SPX_ADDR_BYTES)%nat eqn:E2; [|discriminate].
  apply Nat.eqb_eq in E2. destruct (ok_prf P HS Hok c a Hc E2) as (d' & F & Hd). cbn [guard bind] in E. congruence.
Qed.
Lemma same_thash : forall k x1 x2 a1 a2, same lens (thashT P HS1 c1 k x1 a1) (thashT P HS2 c2 k x2 a2).
Proof.
  clear - Hok1 Hok2 Hc1 Hc2. intros. apply same_seen; [reflexivity|]. intros d1 d2 E1 E2.
  apply thash_len in E1; auto. apply thash_len in E2; auto. unfold lens; congruence.
Qed.
Lemma same_prf : forall a1 a2, same lens (prf_addrT HS1 c1 a1) (prf_addrT HS2 c2 a2).
Proof.
  clear - Hok1 Hok2 Hc1 Hc2. intros. apply same_seen; [reflexivity|]. intros d1 d2 E1 E2.
  apply prf_len in E1; auto. apply prf_len in E2; auto. unfold lens; congruence.
Qed.

Ltac sm := repeat (cbv beta zeta; first
  [ match goal with |- same _ (bind _ _) (bind _ _) => apply same_obind; intros ? ? _ _ end
  | match goal with |- same _ (tbind (rdT _ _ _) _) _ => eapply same_bind; [apply same_rd|intros ? ? ?] end
  | match goal with |- same _ (tbind (wrT _ _ _) _) _ => eapply same_bind; [apply same_wr; assumption|intros ? ? ?] end
  | match goal with |- same _ (tbind (thashT _ _ _ _ _ _) _) _ => eapply same_bind; [apply same_thash|intros ? ? ?] end
  | match goal with |- same _ (tbind (prf_addrT _ _ _) _) _ => eapply same_bind; [apply same_prf|intros ? ? ?] end
  ]).

Definition same_climb_out (x y : climb_out) : Prop :=
  match x, y with
  | Root r1 a1 _, Root r2 a2 _ => lens r1 r2 /\ lens a1 a2
  | Left h1 r1 a1 _, Left h2 r2 a2 _ => h1 = h2 /\ lens r1 r2 /\ lens a1 a2
  | _, _ => False
  end.
Lemma same_climb : forall todo h ii il off idx mx cur1 cur2 st1 st2 au1 au2 ad1 ad2,
  lens cur1 cur2 -> lens au1 au2 ->
  same same_climb_out (treehashx1_climbT P HS1 c1 todo h ii il off idx mx cur1 st1 au1 ad1)
    (treehashx1_climbT P HS2 c2 todo h ii il off idx mx cur2 st2 au2 ad2).
Proof.
  clear - Hok1 Hok2 Hc1 Hc2. induction todo as [|t IH]; intros; cbn [treehashx1_climbT]; [apply same_ret; cbn; auto|].
  eapply same_bind; [apply same_br|]. intros b ? <-.
  apply (same_bind _ _ _ _ lens); [destruct b; [now apply same_wr|now apply same_ret]|].
  intros ua1 ua2 Hu. eapply same_bind; [apply same_br|]. intros b' ? <-.
  destruct b'; [apply same_ret; cbn; auto|]. sm. now apply IH.
Qed.

Section Tree.
Variables G1 G2 : Type.
Variable gl1 : G1 -> Z -> tm (bytes * G1).
Variable gl2 : G2 -> Z -> tm (bytes * G2).
Variable Q : G1 -> G2 -> Prop.
Variables li io : Z.
Variable th : nat.
Hypothesis Hgl : forall g1 g2 idx, Q g1 g2 -> 0 <= idx < 2 ^ Z.of_nat th ->
  same (fun x y => Q (snd x) (snd y)) (gl1 g1 (u32 (idx + io))) (gl2 g2 (u32 (idx + io))).
Definition same_tree_out (x : bytes * bytes * bytes * G1) (y : bytes * bytes * bytes * G2) : Prop :=
  let '(r1, a1, _, g1) := x in let '(r2, a2, _, g2) := y in lens r1 r2 /\ lens a1 a2 /\ Q g1 g2.
Lemma same_tree_loop : forall fuel idx mx st1 st2 au1 au2 ad1 ad2 g1 g2,
  0 <= idx -> idx + Z.of_nat fuel <= 2 ^ Z.of_nat th -> lens st1 st2 -> lens au1 au2 -> Q g1 g2 ->
  same same_tree_out (treehashx1_loopT P HS1 c1 gl1 li io fuel th idx mx st1 au1 ad1 g1)
    (treehashx1_loopT P HS2 c2 gl2 li io fuel th idx mx st2 au2 ad2 g2).
Proof.
  clear - Hok1 Hok2 Hc1 Hc2 Hgl. induction fuel as [|f IH]; intros; cbn [treehashx1_loopT]; [apply same_none|].
  eapply same_bind; [apply Hgl; [eassumption|lia]|]. intros [lf1 g1'] [lf2 g2'] Hg; cbn [snd] in Hg. sm.
  eapply same_bind; [apply same_climb; assumption|].
  intros [r1 ua1 ?|h1 n1 ua1 ?] [r2 ua2 ?|h2 n2 ua2 ?] Hr; cbn in Hr; try contradiction.
  - apply same_ret. cbn. tauto.
  - destruct Hr as (<- & Hn & Hu). sm. apply IH; auto; lia.
Qed.
Lemma same_tree : forall au1 au2 ad1 ad2 g1 g2, lens au1 au2 -> Q g1 g2 ->
  same same_tree_out (treehashx1T P HS1 junk1 c1 gl1 li io th au1 ad1 g1)
    (treehashx1T P HS2 junk2 c2 gl2 li io th au2 ad2 g2).
Proof.
  clear - Hok1 Hok2 Hc1 Hc2 Hgl. intros. apply same_tree_loop; auto using junk_lens; [lia|].
  rewrite Nat2Z.inj_pow. cbn [Z.of_nat Pos.of_succ_nat Pos.succ]. lia.
Qed.
End Tree.

Lemma same_leaf_chain : forall fuel i k wk b1 b2 s1 s2 a1 a2, lens b1 b2 -> lens s1 s2 ->
  same (fun x y => lens (fst (fst x)) (fst (fst y)) /\ lens (snd (fst x)) (snd (fst y)))
    (wots_leaf_chainT P HS1 c1 fuel i k wk b1 s1 a1) (wots_leaf_chainT P HS2 c2 fuel i k wk b2 s2 a2).
Proof.
  clear - Hok1 Hok2 Hc1 Hc2. induction fuel as [|f IH]; intros; cbn [wots_leaf_chainT]; [apply same_none|].
  eapply same_bind; [apply same_br|]. intros b ? <-.
  apply (same_bind _ _ _ _ lens); [destruct b; [now apply same_wr|now apply same_ret]|].
  intros ua1 ua2 Hu. eapply same_bind; [apply same_br|]. intros b' ? <-.
  destruct b'; [apply same_ret; cbn; auto|]. sm. now apply IH.
Qed.
(** Same chain lengths, or (key generation) no leaf to sign *)
Definition same_info (x y : leaf_info) : Prop :=
  lens (wi_sig x) (wi_sig y) /\ wi_sign_leaf x = wi_sign_leaf y
  /\ (wi_steps x = wi_steps y \/ (smalls (wi_steps x) (wi_steps y) /\ wi_sign_leaf x = 2 ^ 32 - 1)).
Lemma small_mask : forall z, small z -> Z.lor z (2 ^ 32 - 1) = 2 ^ 32 - 1.
Proof.
  clear. intros z [H0 H1]. change (2 ^ 32 - 1) with (Z.ones 32).
  apply Z.bits_inj'. intros k Hk. rewrite Z.lor_spec. destruct (Z.ltb_spec k 32).
  - rewrite (Z.ones_spec_low 32 k) by lia. now rewrite Bool.orb_true_r.
  - rewrite (Z.ones_spec_high 32 k) by lia. rewrite Bool.orb_false_r.
    destruct (Z.eq_dec z 0) as [->|]; [apply Z.testbit_0_l|].
    apply Z.bits_above_log2; [lia|]. assert (Z.log2 z < 32) by (apply Z.log2_lt_pow2; lia). lia.
Qed.
Lemma same_wots_leaf : forall x y idx, same_info x y -> 0 <= idx < 2 ^ Z.of_nat (SPX_TREE_HEIGHT P) ->
  same (fun a b => same_info (snd a) (snd b)) (wots_gen_leafx1T P HS1 junk1 c1 x (u32 (idx + 0)))
    (wots_gen_leafx1T P HS2 junk2 c2 y (u32 (idx + 0))).
Proof.
  intros x y idx (Hs & Hl & Hst) Hi. assert (Hi' : 0 <= idx < 2 ^ 31).
  { destruct (wf_tree P Hwf) as (Ht & _). split; [lia|]. eapply Z.lt_le_trans; [apply Hi|]. apply Z.pow_le_mono_r; lia. }
  assert (Eu : u32 (idx + 0) = idx) by (rewrite Z.add_0_r; apply Z.mod_small; lia). rewrite Eu. clear Eu Hi.
  unfold wots_gen_leafx1T.
  apply (same_bind _ _ _ _ (fun b b' => b = (idx =? wi_sign_leaf x) /\ b' = b)).
  { rewrite <- Hl. intros ? ? ? ? ? ? E1 E2 E. injection E1 as <- <-. injection E2 as <- <-. auto. }
  intros b b' [Eb ->]. cbv zeta. sm.
  apply (same_bind _ _ _ _ (fun a b => lens (fst (fst a)) (fst (fst b)) /\ lens (snd (fst a)) (snd (fst b)))).
  - apply same_iter; [|cbn [fst snd]; auto using junk_lens].
    intros j [[p1 s1] d1] [[p2 s2] d2] [K1 K2]; cbn [fst snd] in K1, K2.
    apply (same_bind _ _ _ _ (fun u v => Z.lor u (if b then 0 else 2 ^ 32 - 1) = Z.lor v (if b then 0 else 2 ^ 32 - 1))).
    { apply same_get. intros u v U V. destruct Hst as [E|[[S1 S2] Hm]]; [rewrite E in U; unfold get in *; congruence|].
      destruct b.
      - symmetry in Eb. apply Z.eqb_eq in Eb. lia.
      - unfold get in U, V. apply nth_error_In in U, V. rewrite Forall_forall in S1, S2.
        rewrite !small_mask by auto. reflexivity. }
    intros u v Euv. cbv zeta. rewrite Euv. sm.
    eapply same_bind; [apply same_leaf_chain; assumption|].
    intros [[q1 t1] e1] [[q2 t2] e2] [L1 L2]; cbn [fst snd] in L1, L2. sm. apply same_ret; cbn [fst snd]; auto.
  - intros [[p1 s1] d1] [[p2 s2] d2] [K1 K2]; cbn [fst snd] in K1, K2. sm. apply same_ret. cbn [snd].
    unfold same_info; cbn. auto.
Qed.
Lemma same_fors_leaf : forall a1 a2 i,
  same (fun x y => any (snd x) (snd y)) (fors_gen_leafx1T P HS1 c1 a1 i) (fors_gen_leafx1T P HS2 c2 a2 i).
Proof. clear - Hok1 Hok2 Hc1 Hc2. intros. unfold fors_gen_leafx1T. sm. apply same_ret. exact I. Qed.

Lemma same_fors_sign : forall s1 s2 m a1 a2, lens s1 s2 ->
  same (fun x y => lens (fst x) (fst y)) (fors_signT P HS1 junk1 c1 s1 m a1) (fors_signT P HS2 junk2 c2 s2 m a2).
Proof.
  clear - Hok1 Hok2 Hc1 Hc2. intros s1 s2 m a1 a2 Hs. unfold fors_signT. sm.
  eapply same_bind; [apply same_refl|]. intros ind ? <-.
  eapply (same_bind _ _ _ _ (fun x y => let '(s1, r1, _, _, o1) := x in let '(s2, r2, _, _, o2) := y in
    lens s1 s2 /\ lens r1 r2 /\ o1 = o2)).
  - apply same_iter; [|repeat split; auto using junk_lens].
    intros j [[[[? ?] ?] ?] ?] [[[[? ?] ?] ?] ?] (K1 & K2 & ->). cbv zeta.
    eapply same_bind; [apply same_refl|]. intros i ? <-. sm.
    eapply same_bind.
    { eapply (same_tree _ _ _ _ any); [|eassumption|exact I]. intros. apply same_fors_leaf. }
    intros [[[? ?] ?] ?] [[[? ?] ?] ?] (M1 & M2 & _). sm. apply same_ret. auto.
  - intros [[[[? ?] ?] ?] ?] [[[[? ?] ?] ?] ?] (K1 & K2 & ->). sm. apply same_ret. cbn. auto.
Qed.

Definition same_merkle_out (x y : bytes * bytes * bytes) : Prop := lens (fst (fst x)) (fst (fst y)) /\ lens (snd (fst x)) (snd (fst y)).
Lemma same_merkle : forall s1 s2 r1 r2 w1 w2 t1 t2 i, lens s1 s2 -> r1 = r2 \/ i = 2 ^ 32 - 1 ->
  same same_merkle_out (merkle_signT P HS1 junk1 c1 s1 r1 w1 t1 i) (merkle_signT P HS2 junk2 c2 s2 r2 w2 t2 i).
Proof.
  intros s1 s2 r1 r2 w1 w2 t1 t2 i Hs Hr. unfold merkle_signT. sm.
  apply (same_bind _ _ _ _ (fun x y => x = y \/ (smalls x y /\ i = 2 ^ 32 - 1))).
  { destruct Hr as [->|Hr]; (eapply same_impl; [|first [apply same_refl | apply same_chain_lengths, Hwf]]); cbn; auto. }
  intros st1 st2 Hst. sm.
  eapply same_bind.
  { eapply (same_tree _ _ _ _ same_info); [|eassumption|unfold same_info; cbn; auto].
    intros. now apply same_wots_leaf. }
  intros [[[? ?] ?] i1] [[[? ?] ?] i2] (M1 & M2 & M3 & _).
  eapply same_bind; [apply same_wr; assumption|]. intros ? ? ?. sm. apply same_ret. split; cbn; auto.
Qed.
Lemma same_gen_root : forall r1 r2, same lens (merkle_gen_rootT P HS1 junk1 c1 r1) (merkle_gen_rootT P HS2 junk2 c2 r2).
Proof.
  intros. unfold merkle_gen_rootT. sm. eapply same_bind; [apply same_merkle; [apply junk_lens|now right]|].
  intros [[? ?] ?] [[? ?] ?] [_ K]. apply same_ret. exact K.
Qed.
End Ctx.

Definition same_state (x y : bytes * nat * bytes * bytes * bytes * Z * Z) : Prop :=
  let '(s1, p1, _, _, _, t1, i1) := x in let '(s2, p2, _, _, _, t2, i2) := y in
  lens s1 s2 /\ p1 = p2 /\ t1 = t2 /\ i1 = i2.
Lemma same_layer : forall c1 c2 i x y, ctx_ok P HS1 c1 -> ctx_ok P HS2 c2 -> same_state x y ->
  same same_state (sign_layerT P HS1 junk1 c1 i x) (sign_layerT P HS2 junk2 c2 i y).
Proof.
  intros c1 c2 i [[[[[[s1 p1] r1] w1] a1] t1] i1] [[[[[[s2 p2] r2] w2] a2] t2] i2] Hc1 Hc2 (Hs & <- & <- & <-).
  unfold sign_layerT. sm0. eapply same_bind; [apply same_root|]. intros rt ? <-.
  eapply same_bind; [apply same_merkle; auto|]. intros [[? ?] ?] [[? ?] ?] [K1 K2]; cbn [fst snd] in K1, K2.
  sm0. apply same_ret. cbn. auto.
Qed.
Lemma len_ctx : forall HS ps ss, length ps = N -> length ss = N -> ctx_ok P HS (mkCtx ps ss (hs_init HS ps)).
Proof. clear. intros. split; [|split]; auto. Qed.

Theorem same_seed_keypair : forall pk1 pk2 sk1 sk2 seed1 seed2, lens pk1 pk2 -> lens sk1 sk2 ->
  same (fun _ _ => True) (seed_keypairT P HS1 junk1 pk1 sk1 seed1) (seed_keypairT P HS2 junk2 pk2 sk2 seed2).
Proof.
  intros pk1 pk2 sk1 sk2 seed1 seed2 Hp Hs. unfold seed_keypairT. sm0.
  eapply same_bind; [apply same_gen_root; now apply len_ctx|]. intros. sm0. now apply same_ret.
Qed.
Lemma same_hash_message : forall c1 c2 R1 R2 pk1 pk2 m1 m2, lens m1 m2 ->
  same eq (hash_messageT HS1 c1 R1 pk1 m1) (hash_messageT HS2 c2 R2 pk2 m2).
Proof.
  clear. intros c1 c2 R1 R2 pk1 pk2 m1 m2 Hm a1 l1 a2 l2 t1 t2 E1 E2 E. unfold hash_messageT in *.
  destruct (hs_hash_message HS1 c1 R1 pk1 m1) as [[[d1 e1] f1]|]; [|discriminate].
  destruct (hs_hash_message HS2 c2 R2 pk2 m2) as [[[d2 e2] f2]|]; [|discriminate].
  injection E1 as <- <-. injection E2 as <- <-. cbn in E. injection E as -> -> -> ->. rewrite Hm. auto.
Qed.
Lemma randombytes_length : forall st n r s, randombytes st n = Some (r, s) -> length r = n.
Proof.
  clear. intros st n r s E. unfold randombytes in E. destruct (rd st 0 n) as [d|] eqn:C; [|discriminate].
  injection E as <- <-. eauto using rd_length.
Qed.
Theorem same_signature : forall st1 st2 s1 s2 m1 m2 sk1 sk2, lens s1 s2 -> lens m1 m2 ->
  same (fun _ _ => True) (signatureT P HS1 junk1 st1 s1 m1 sk1) (signatureT P HS2 junk2 st2 s2 m2 sk2).
Proof.
  intros st1 st2 s1 s2 m1 m2 sk1 sk2 Hs Hm. unfold signatureT.
  eapply same_bind; [apply same_rdE|]. intros f1 f2 (_ & F1 & F2).
  eapply same_bind; [apply same_rdE|]. intros pp1 pp2 _.
  eapply same_bind; [apply same_rdE|]. intros q1 q2 (_ & Q1 & Q2).
  eapply same_bind; [apply same_rdE|]. intros p1 p2 (_ & P1 & P2).
  cbv zeta. do 2 (apply same_obind; intros ? ? _ _). apply same_obind. intros [o1 ?] [o2 ?] O1 O2.
  apply randombytes_length in O1. apply randombytes_length in O2.
  eapply (same_bind _ _ _ _ lens).
  { unfold lens in Hm. rewrite Hm. apply same_seen; [reflexivity|]. intros d1 d2 E1 E2.
    destruct (ok_rand P HS1 Hok1 (mkCtx p1 q1 (hs_init HS1 p1)) f1 o1 m1 (len_ctx HS1 p1 q1 P1 Q1) F1 O1) as (x & X & LX).
    destruct (ok_rand P HS2 Hok2 (mkCtx p2 q2 (hs_init HS2 p2)) f2 o2 m2 (len_ctx HS2 p2 q2 P2 Q2) F2 O2) as (y & Y & LY).
    unfold lens. congruence. }
  intros R1 R2 HR. sm0. eapply same_bind; [now apply same_hash_message|]. intros [[dg tr] lf] ? <-. sm0.
  eapply same_bind; [apply same_fors_sign; auto using len_ctx|]. intros [? ?] [? ?] K; cbn [fst] in K. sm0.
  eapply (same_bind _ _ _ _ same_state).
  - apply same_iter; [|cbn; auto]. intros. apply same_layer; auto using len_ctx.
  - intros [[[[[[? ?] ?] ?] ?] ?] ?] [[[[[[? ?] ?] ?] ?] ?] ?] _. now apply same_ret.
Qed.
End Pair.
