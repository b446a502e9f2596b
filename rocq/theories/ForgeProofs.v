(** Extraction: a signature that leads to the honest root is the honest one, or one of the verifier's
    hash calls on it is a second preimage or an unreleased chain value. *)
From Coq Require Import List ZArith Lia.
From Verif Require Import Spec SpecFacts SpecExtW ForgeSpec.
Import ListNotations.
Open Scope Z_scope.

(** ** Lists *)
Lemma concat_inj {A} n (xs ys : list (list A)) : length xs = length ys ->
  Forall (fun x => length x = n) xs -> Forall (fun x => length x = n) ys -> concat xs = concat ys -> xs = ys.
Proof.
  revert ys. induction xs as [|x xs IH]; intros [|y ys] L Fx Fy E; cbn in L; try lia; auto.
  inversion_clear Fx as [|? ? Hx Fx']. inversion_clear Fy as [|? ? Hy Fy']. cbn [concat] in E.
  assert (x = y) as ->.
  { rewrite <- (firstn_app_len x (concat xs) n Hx), E. now apply firstn_app_len. }
  apply app_inv_head in E. f_equal. apply IH; auto.
Qed.
Lemma or_forall (P : nat -> Prop) (B : Prop) k : (forall t, (t < k)%nat -> P t \/ B) -> (forall t, (t < k)%nat -> P t) \/ B.
Proof.
  induction k as [|k IH]; intros H; [left; lia|].
  destruct IH as [I|I]; [intros; apply H; lia| |now right].
  destruct (H k) as [J|J]; [lia| |now right]. left. intros t Ht.
  destruct (Nat.eq_dec t k) as [->|]; auto. apply I. lia.
Qed.
Lemma blocks_concat {A} n (f : nat -> list A) k s : length s = (k * n)%nat ->
  (forall t, (t < k)%nat -> firstn n (skipn (t * n) s) = f t) -> s = concat (map f (seq 0 k)).
Proof.
  revert s. induction k as [|k IH]; intros s L H.
  - destruct s; [reflexivity|cbn in L; lia].
  - rewrite seq_S, map_app, concat_app. cbn [map concat Nat.add]. rewrite app_nil_r.
    rewrite <- (firstn_skipn (k * n) s) at 1. f_equal.
    + apply IH; [rewrite firstn_length; lia|]. intros t Ht. rewrite <- (H t) by lia.
      rewrite skipn_firstn_comm, firstn_firstn. f_equal.
      assert ((t + 1) * n <= k * n)%nat by (apply Nat.mul_le_mono_r; lia). lia.
    + rewrite <- H by lia. symmetry. apply firstn_all2. rewrite skipn_length. lia.
Qed.
Lemma map_eq_in {A B} (f g : A -> B) l : map f l = map g l -> forall x, In x l -> f x = g x.
Proof.
  induction l as [|a l IH]; cbn [map]; intros E x Hx; [destruct Hx|]. injection E as E1 E2.
  destruct Hx as [->|Hx]; auto.
Qed.

Section Forge.
Variable D : dims.
Variable T : adrs -> list Z -> list Z.
Variable PRF : adrs -> list Z.
Variable word : list Z -> Prop.
Variable n : nat.
Variable K : nat.
Hypothesis word_len : forall x, word x -> length x = n.
Hypothesis K2 : (2 <= K)%nat.
Hypothesis Klen : (s_len D <= K)%nat.
Hypothesis Kk : (s_k D <= K)%nat.
Hypothesis HTw : forall a x, goodW word K x -> word (T a x).
Hypothesis HPw : forall a, word (PRF a).
Hypothesis Hw : 2 <= s_w D.
(** Chain lengths of different values do not dominate each other. *)
Hypothesis ND : forall m1 m2, word m1 -> word m2 -> m1 <> m2 ->
  exists i, (i < s_len D)%nat /\ nth i (wots_lengths D m1) 0 < nth i (wots_lengths D m2) 0.

Notation hc := (honest_call D T PRF).
Notation coll := (collision_in D T PRF).
Notation unrel := (unreleased_in D T PRF).
Notation brk := (break_in D T PRF).

Lemma coll_incl a b : incl a b -> coll a -> coll b.
Proof. clear. intros I (ad & x & x' & H & R). exists ad, x, x'. split; [now apply I|exact R]. Qed.
Lemma brk_incl a b : incl a b -> brk a -> brk b.
Proof. clear.
  intros I [C|(l & t & kp & i & p & H1 & H2 & H3 & H4)]; [left; eapply coll_incl; eauto|right].
  exists l, t, kp, i, p. auto.
Qed.
Lemma same_or_coll a x x' cs : In (a, x') cs -> hc a x -> length x' = length x -> T a x' = T a x ->
  x' = x \/ coll cs.
Proof. clear.
  intros H Hh L E. destruct (list_eq_dec Z.eq_dec x' x) as [e|ne]; [now left|right].
  exists a, x, x'. auto.
Qed.

(** ** Trees *)
Section Climb.
Variable leaf : Z -> list Z.
Variable ad : nat -> Z -> adrs.
Variable H : nat.
Notation hash2 := (fun h i x => T (ad h i) x).
Hypothesis Hleaf : forall i, word (leaf i).
Hypothesis Hhon : forall h i, (h < H)%nat -> 0 <= i < 2 ^ Z.of_nat (H - S h) ->
  hc (ad (S h) i) (node leaf hash2 h (2 * i) ++ node leaf hash2 h (2 * i + 1)).

Lemma node_word h i : word (node leaf hash2 h i).
Proof. clear - Hleaf HTw K2.
  revert i. induction h as [|h IH]; intros; cbn [node]; auto. apply HTw. apply good2; auto. Qed.
Lemma climb_word p h i x : word x -> Forall word p -> word (climb hash2 h i x p).
Proof. clear - HTw K2.
  intros Wx Wp. revert h i x Wx. induction Wp as [|s p Ws Wp IH]; intros; cbn [climb]; auto.
  apply IH. apply HTw. destruct (Z.even i); apply good2; auto.
Qed.
Lemma climb_extract p h i x : word x -> Forall word p -> (h + length p = H)%nat ->
  0 <= i < 2 ^ Z.of_nat (length p) ->
  climb hash2 h i x p = node leaf hash2 H 0 ->
  (x = node leaf hash2 h i
   /\ p = map (fun k => node leaf hash2 (h + k) (sibling i k)) (seq 0 (length p)))
  \/ coll (climb_calls T ad h i x p).
Proof. clear - Hleaf Hhon HTw K2 word_len.
  intros Wx Wp. revert h i x Wx. induction Wp as [|s p Ws Wp IH]; intros h i x Wx L Hi E.
  - cbn [length climb seq map] in *. left. assert (i = 0) as -> by (change (2 ^ Z.of_nat 0) with 1 in Hi; lia).
    replace h with H by lia. auto.
  - cbn [length] in L, Hi. rewrite Nat2Z.inj_succ, Z.pow_succ_r in Hi by lia.
    cbn [climb climb_calls] in *. set (q := if Z.even i then x ++ s else s ++ x) in *. cbv zeta in *.
    assert (Wy : word (T (ad (S h) (i / 2)) q)).
    { apply HTw. unfold q. destruct (Z.even i); apply good2; auto. }
    assert (Hi2 : 0 <= i / 2 < 2 ^ Z.of_nat (length p)).
    { split; [apply Z.div_pos; lia|apply Z.div_lt_upper_bound; lia]. }
    destruct (IH (S h) (i / 2) _ Wy) as [[Ey Ep]|C]; [lia|exact Hi2|exact E| |right].
    2:{ eapply coll_incl; [|exact C]. intros c Hc. now right. }
    cbn [node] in Ey.
    assert (Wa := node_word h (2 * (i / 2))). assert (Wb := node_word h (2 * (i / 2) + 1)).
    apply word_len in Wa, Wb. assert (Lx := word_len _ Wx). assert (Ls := word_len _ Ws).
    destruct (same_or_coll (ad (S h) (i / 2)) (node leaf hash2 h (2 * (i / 2)) ++ node leaf hash2 h (2 * (i / 2) + 1)) q
      ((ad (S h) (i / 2), q) :: climb_calls T ad (S h) (i / 2) (T (ad (S h) (i / 2)) q) p)) as [Eq|C].
    + now left.
    + apply Hhon; [lia|]. replace (H - S h)%nat with (length p) by lia. exact Hi2.
    + unfold q. destruct (Z.even i); rewrite !app_length; lia.
    + exact Ey.
    + left. assert (Hsib : sibling i 0 = if Z.even i then i + 1 else i - 1).
      { unfold sibling. change (2 ^ Z.of_nat 0) with 1. now rewrite Z.div_1_r. }
      assert (Hp : p = map (fun k => node leaf hash2 (h + k) (sibling i k)) (seq 1 (length p))).
      { rewrite Ep at 1. rewrite <- seq_shift, map_map. apply map_ext. intros k.
        replace (S h + k)%nat with (h + S k)%nat by lia. f_equal. unfold sibling. cbv zeta.
        rewrite Nat2Z.inj_succ, Z.pow_succ_r by lia. rewrite Z.div_div by (try apply Z.pow_pos_nonneg; lia). reflexivity. }
      cbn [length seq map]. rewrite <- Hp, Hsib, Nat.add_0_r. unfold q in Eq.
      destruct (Z.even i) eqn:Ev.
      * assert (Hi' : 2 * (i / 2) = i).
        { apply Z.even_spec in Ev. destruct Ev as [r ->]. rewrite (Z.mul_comm 2 r), Z.div_mul by lia. lia. }
        rewrite Hi' in *. assert (x = node leaf hash2 h i) as ->.
        { rewrite <- (firstn_app_len x s n Lx), Eq. now apply firstn_app_len. }
        apply app_inv_head in Eq. rewrite Eq. auto.
      * assert (Hi' : 2 * (i / 2) = i - 1).
        { assert (O : Z.odd i = true) by (rewrite <- Z.negb_even, Ev; reflexivity).
          apply Z.odd_spec in O. destruct O as [r ->]. replace (2 * r + 1) with (1 + r * 2) by lia.
          rewrite Z.div_add by lia. change (1 / 2) with 0. lia. }
        rewrite Hi' in *. replace (i - 1 + 1) with i in * by lia.
        assert (s = node leaf hash2 h (i - 1)) as ->.
        { rewrite <- (firstn_app_len s x n Ls), Eq. now apply firstn_app_len. }
        apply app_inv_head in Eq. rewrite Eq. auto.
    + right. exact C.
Qed.
Lemma climb_auth_extract p i x : word x -> Forall word p -> length p = H -> 0 <= i < 2 ^ Z.of_nat H ->
  climb hash2 0 i x p = node leaf hash2 H 0 ->
  (x = leaf i /\ p = auth_path leaf hash2 H i) \/ coll (climb_calls T ad 0 i x p).
Proof. clear - Hleaf Hhon HTw K2 word_len.
  intros Wx Wp L Hi E. destruct (climb_extract p 0 i x Wx Wp L) as [[A B]|C]; auto; [now rewrite L|].
  left. split; [exact A|]. rewrite B, L. reflexivity.
Qed.
End Climb.

(** ** WOTS+ *)
Lemma concat_words xs : Forall word xs -> length (concat xs) = (length xs * n)%nat.
Proof. clear - word_len.
  induction 1 as [|x xs Wx Wxs IH]; cbn [concat length]; [reflexivity|]. rewrite app_length, IH, (word_len _ Wx). lia.
Qed.
Lemma chain_word layer tree kp i x s k : word x -> word (chain T layer tree kp i x s k).
Proof. clear - HTw K2. intros Wx. induction k as [|k IH]; cbn [chain]; auto. apply HTw, good1; auto. Qed.
Notation hchain layer tree kp i k := (chain T layer tree kp (Z.of_nat i) (wots_sk PRF layer tree kp i) 0 k).
Lemma chain_extract layer tree kp i x s k : in_ht D layer tree kp -> (i < s_len D)%nat -> word x ->
  Z.of_nat s + Z.of_nat k <= s_w D - 1 ->
  chain T layer tree kp (Z.of_nat i) x (Z.of_nat s) k = hchain layer tree kp i (s + k) ->
  x = hchain layer tree kp i s \/ coll (chain_calls T layer tree kp (Z.of_nat i) x (Z.of_nat s) k).
Proof. clear - HTw K2 word_len HPw.
  intros Hin Hi Wx. induction k as [|k IH]; intros Hk E.
  - left. cbn [chain] in E. now rewrite Nat.add_0_r in E.
  - rewrite Nat.add_succ_r in E. cbn [chain chain_calls] in *.
    replace (0 + Z.of_nat (s + k)) with (Z.of_nat s + Z.of_nat k) in E by lia.
    destruct (same_or_coll (wots_adrs layer tree kp (Z.of_nat i) (Z.of_nat s + Z.of_nat k))
      (hchain layer tree kp i (s + k)) (chain T layer tree kp (Z.of_nat i) x (Z.of_nat s) k)
      ((wots_adrs layer tree kp (Z.of_nat i) (Z.of_nat s + Z.of_nat k), chain T layer tree kp (Z.of_nat i) x (Z.of_nat s) k)
        :: chain_calls T layer tree kp (Z.of_nat i) x (Z.of_nat s) k)) as [e|C].
    + now left.
    + replace (Z.of_nat s + Z.of_nat k) with (Z.of_nat (s + k)) by lia. apply honest_chain; auto. lia.
    + rewrite (word_len _ (chain_word layer tree kp (Z.of_nat i) x (Z.of_nat s) k Wx)).
      now rewrite (word_len _ (chain_word layer tree kp (Z.of_nat i) (wots_sk PRF layer tree kp i) 0 (s + k) (HPw _))).
    + exact E.
    + destruct IH as [e'|C]; [lia|exact e|now left|]. right. eapply coll_incl; [|exact C]. intros c Hc. now right.
    + now right.
Qed.
Lemma chain_calls_first layer tree kp i x s k : (0 < k)%nat ->
  In (wots_adrs layer tree kp i s, x) (chain_calls T layer tree kp i x s k).
Proof. clear.
  induction k as [|k IH]; intros Hk; [lia|]. cbn [chain_calls]. destruct k as [|k].
  - left. cbn [chain]. now rewrite Z.add_0_r.
  - right. apply IH. lia.
Qed.
Lemma ends_word layer tree kp m sig : Forall word sig -> length sig = s_len D ->
  Forall word (wots_ends D T layer tree kp m sig).
Proof. clear - HTw K2.
  intros Ws L. apply Forall_forall. intros y Hy. apply in_map_iff in Hy. destruct Hy as (i & <- & Hi).
  apply in_seq in Hi. apply chain_word. rewrite Forall_forall in Ws. apply Ws, nth_In. lia.
Qed.
Lemma lengths_nth m i : 0 <= nth i (wots_lengths D m) 0 < s_w D.
Proof. clear - Hw. now apply wots_lengths_nth. Qed.
Lemma wots_extract layer tree kp m sig : in_ht D layer tree kp ->
  word m -> word (signed_by D T PRF layer tree kp) -> Forall word sig -> length sig = s_len D ->
  wots_pk_of_sig D T layer tree kp m sig = wots_pk D T PRF layer tree kp ->
  (m = signed_by D T PRF layer tree kp /\ sig = wots_sign D T PRF layer tree kp m)
  \/ brk (wots_calls D T layer tree kp m sig).
Proof. clear - HTw K2 word_len HPw Klen ND Hw.
  intros Hin Wm Wh Ws Ls E.
  set (cs := wots_calls D T layer tree kp m sig).
  destruct (same_or_coll (mkAdrs layer tree T_WOTS_PK kp 0 0)
    (concat (map (fun i => hchain layer tree kp i (Z.to_nat (s_w D - 1))) (seq 0 (s_len D))))
    (concat (wots_ends D T layer tree kp m sig)) cs) as [Ee|C].
  - apply in_or_app. right. now left.
  - now apply honest_wots_pk.
  - rewrite !concat_words.
    + unfold wots_ends. now rewrite !map_length.
    + apply Forall_forall. intros y Hy. apply in_map_iff in Hy. destruct Hy as (i & <- & _).
      apply chain_word, HPw.
    + now apply ends_word.
  - exact E.
  - apply (concat_inj n) in Ee; cycle 1.
    { unfold wots_ends. now rewrite !map_length. }
    { eapply Forall_impl; [exact word_len|]. now apply ends_word. }
    { apply Forall_forall. intros y Hy. apply in_map_iff in Hy. destruct Hy as (i & <- & _).
      apply word_len, chain_word, HPw. }
    assert (Hs : (forall i, (i < s_len D)%nat ->
        nth i sig [] = hchain layer tree kp i (Z.to_nat (nth i (wots_lengths D m) 0))) \/ brk cs).
    { apply or_forall. intros i Hi. pose proof (lengths_nth m i) as Hl.
      assert (Ei := map_eq_in _ _ _ Ee i). cbv beta in Ei.
      destruct (chain_extract layer tree kp i (nth i sig []) (Z.to_nat (nth i (wots_lengths D m) 0))
        (Z.to_nat (s_w D - 1 - nth i (wots_lengths D m) 0))) as [e|C]; auto.
      - rewrite Forall_forall in Ws. apply Ws, nth_In. lia.
      - lia.
      - rewrite Z2Nat.id by lia. rewrite Ei by (apply in_seq; lia). f_equal. lia.
      - right. left. eapply coll_incl; [|exact C]. intros c Hc. apply in_or_app. left.
        apply in_flat_map. exists i. split; [apply in_seq; lia|]. rewrite Z2Nat.id in Hc by lia. exact Hc. }
    destruct Hs as [Hs|B]; [|now right].
    destruct (list_eq_dec Z.eq_dec m (signed_by D T PRF layer tree kp)) as [e|ne].
    + left. split; [exact e|]. apply (nth_ext _ _ [] []).
      * now rewrite Ls, wots_sign_length.
      * intros i Hi. rewrite Hs by lia. unfold wots_sign.
        rewrite (nth_indep _ [] (hchain layer tree kp 0 (Z.to_nat (nth 0 (wots_lengths D m) 0))))
          by (rewrite map_length, seq_length; lia).
        rewrite (map_nth (fun i => hchain layer tree kp i (Z.to_nat (nth i (wots_lengths D m) 0)))).
        rewrite seq_nth by lia. reflexivity.
    + right. right. destruct (ND _ _ Wm Wh ne) as (i & Hi & Hlt).
      pose proof (lengths_nth m i) as Hl. pose proof (lengths_nth (signed_by D T PRF layer tree kp) i) as Hl2.
      exists layer, tree, kp, i, (Z.to_nat (nth i (wots_lengths D m) 0)). split; [exact Hin|]. split; [exact Hi|].
      rewrite Z2Nat.id by lia. split; [lia|]. rewrite <- (Hs i Hi).
      apply in_or_app. left. apply in_flat_map. exists i. split; [apply in_seq; lia|].
      apply chain_calls_first. lia.
  - right. now left.
Qed.

(** ** The hypertree *)
Lemma wots_pk_word layer tree kp : word (wots_pk D T PRF layer tree kp).
Proof. clear - HTw K2 HPw Klen.
  apply HTw. apply good_concat.
  - apply Forall_forall. intros y Hy. apply in_map_iff in Hy. destruct Hy as (i & <- & _). apply chain_word, HPw.
  - now rewrite map_length, seq_length.
Qed.
Lemma wots_pk_of_sig_word layer tree kp m sig : Forall word sig -> length sig = s_len D ->
  word (wots_pk_of_sig D T layer tree kp m sig).
Proof. clear - HTw K2 Klen.
  intros Ws L. apply HTw. apply good_concat.
  - exact (ends_word layer tree kp m sig Ws L).
  - now rewrite map_length, seq_length.
Qed.
Lemma xmss_root_word layer tree : word (xmss_root D T PRF layer tree).
Proof. clear - HTw K2 HPw Klen.
  apply (node_word (fun kp => wots_pk D T PRF layer tree kp) (tree_adrs layer tree)). intros. apply wots_pk_word. Qed.
Lemma fors_leaf_word tree kp t i : word (fors_leaf D T PRF tree kp t i).
Proof. clear - HTw K2 HPw. apply HTw, good1; auto. apply HPw. Qed.
Lemma fors_root_word tree kp t : word (fors_root D T PRF tree kp t).
Proof. clear - HTw K2 HPw.
  apply (node_word (fors_leaf D T PRF tree kp t) (fors_node_adrs D tree kp t)). intros. apply fors_leaf_word. Qed.
Lemma fors_pk_word tree kp : word (fors_pk D T PRF tree kp).
Proof. clear - HTw K2 HPw Kk.
  apply HTw. apply good_concat.
  - apply Forall_forall. intros y Hy. apply in_map_iff in Hy. destruct Hy as (i & <- & _). apply fors_root_word.
  - now rewrite map_length, seq_length.
Qed.
Lemma signed_by_word layer tree kp : word (signed_by D T PRF layer tree kp).
Proof. clear - HTw K2 HPw Klen Kk.
  unfold signed_by. destruct (layer =? 0); [apply fors_pk_word|apply xmss_root_word]. Qed.
Lemma xmss_root_of_sig_word layer tree idx m sig : Forall word sig -> (s_len D <= length sig)%nat ->
  word (xmss_root_of_sig D T layer tree idx m sig).
Proof. clear - HTw K2 Klen.
  intros Ws L. destruct (Forall_part word sig (s_len D) (s_len D) Ws) as [W1 W2].
  apply (climb_word (tree_adrs layer tree)); [|exact W2]. apply wots_pk_of_sig_word; [exact W1|].
  rewrite firstn_length. lia.
Qed.

Lemma xmss_extract layer tree idx m sig : in_ht D layer tree idx ->
  word m -> Forall word sig -> length sig = (s_len D + s_hp D)%nat ->
  xmss_root_of_sig D T layer tree idx m sig = xmss_root D T PRF layer tree ->
  (m = signed_by D T PRF layer tree idx /\ sig = xmss_sign D T PRF layer tree idx m)
  \/ brk (xmss_calls D T layer tree idx m sig).
Proof.
  intros Hin Wm Ws Ls E. pose proof Hin as (H1 & H2 & H3).
  destruct (Forall_part word sig (s_len D) (s_len D) Ws) as [W1 W2].
  assert (L1 : length (firstn (s_len D) sig) = s_len D) by (rewrite firstn_length; lia).
  destruct (climb_auth_extract (fun kp => wots_pk D T PRF layer tree kp) (tree_adrs layer tree) (s_hp D))
    with (p := skipn (s_len D) sig) (i := idx)
         (x := wots_pk_of_sig D T layer tree idx m (firstn (s_len D) sig)) as [[Ex Ep]|C]; auto.
  - intros. apply wots_pk_word.
  - intros h i Hh Hi. apply honest_node; auto. repeat split; lia.
  - now apply wots_pk_of_sig_word.
  - rewrite skipn_length. lia.
  - destruct (wots_extract layer tree idx m (firstn (s_len D) sig)) as [[Em Es]|B]; auto.
    + apply signed_by_word.
    + left. split; [exact Em|]. unfold xmss_sign. rewrite <- Es.
      rewrite <- (firstn_skipn (s_len D) sig) at 1. f_equal. exact Ep.
    + right. eapply brk_incl; [|exact B]. apply incl_appl, incl_refl.
  - right. left. eapply coll_incl; [|exact C]. apply incl_appr, incl_refl.
Qed.

Lemma ht_extract k layer tree idx m sig : (1 <= k)%nat -> layer + Z.of_nat k = Z.of_nat (s_d D) ->
  in_ht D layer tree idx -> word m -> Forall word sig -> length sig = (k * (s_len D + s_hp D))%nat ->
  ht_root_of_sig D T k layer tree idx m sig = ht_root D T PRF ->
  (m = signed_by D T PRF layer tree idx /\ sig = ht_sign D T PRF k layer tree idx m)
  \/ brk (ht_calls D T k layer tree idx m sig).
Proof.
  revert layer tree idx m sig. induction k as [|k IH]; intros layer tree idx m sig Hk Hl Hin Wm Ws Ls E; [lia|].
  cbn [ht_root_of_sig ht_calls ht_sign] in *.
  set (b := (s_len D + s_hp D)%nat) in *.
  destruct (Forall_part word sig b b Ws) as [W1 W2].
  assert (L1 : length (firstn b sig) = b) by (rewrite firstn_length; lia).
  assert (L2 : length (skipn b sig) = (k * b)%nat) by (rewrite skipn_length; lia).
  set (r := xmss_root_of_sig D T layer tree idx m (firstn b sig)) in *.
  assert (Wr : word r) by (apply xmss_root_of_sig_word; [exact W1|lia]).
  assert (Hr : (r = xmss_root D T PRF layer tree
      /\ skipn b sig = ht_sign D T PRF k (layer + 1) (tree / 2 ^ Z.of_nat (s_hp D)) (tree mod 2 ^ Z.of_nat (s_hp D)) r)
    \/ brk (ht_calls D T k (layer + 1) (tree / 2 ^ Z.of_nat (s_hp D)) (tree mod 2 ^ Z.of_nat (s_hp D)) r (skipn b sig))).
  { destruct Hin as (I1 & I2 & I3). destruct k as [|k].
    - left. cbn [ht_root_of_sig ht_sign] in *. split.
      + rewrite E. unfold ht_root. f_equal; [lia|].
        replace (Z.of_nat (s_hp D) * (Z.of_nat (s_d D) - 1 - layer)) with 0 in I2 by nia. change (2 ^ 0) with 1 in I2. lia.
      + destruct (skipn b sig); [reflexivity|cbn in L2; lia].
    - assert (Hp : 0 < 2 ^ Z.of_nat (s_hp D)) by (apply Z.pow_pos_nonneg; lia).
      destruct (IH (layer + 1) (tree / 2 ^ Z.of_nat (s_hp D)) (tree mod 2 ^ Z.of_nat (s_hp D)) r (skipn b sig))
        as [[Er Es]|B]; auto; [lia|lia| |].
      + repeat split; try lia; try (apply Z.mod_pos_bound; lia); [apply Z.div_pos; lia|].
        apply Z.div_lt_upper_bound; [lia|]. rewrite <- Z.pow_add_r by nia.
        replace (Z.of_nat (s_hp D) + Z.of_nat (s_hp D) * (Z.of_nat (s_d D) - 1 - (layer + 1)))
          with (Z.of_nat (s_hp D) * (Z.of_nat (s_d D) - 1 - layer)) by ring. lia.
      + left. split; [|exact Es]. rewrite Er. unfold signed_by.
        replace (layer + 1 =? 0) with false by (symmetry; apply Z.eqb_neq; lia).
        f_equal; [lia|]. rewrite Z.mul_comm. symmetry. apply Z.div_mod. lia. }
  destruct Hr as [[Er Es]|B].
  - destruct (xmss_extract layer tree idx m (firstn b sig)) as [[Em Ex]|B]; auto.
    + left. split; [exact Em|]. rewrite <- Ex. rewrite <- (firstn_skipn b sig) at 1. f_equal.
      rewrite Es. f_equal. exact Er.
    + right. eapply brk_incl; [|exact B]. apply incl_appl, incl_refl.
  - right. eapply brk_incl; [|exact B]. apply incl_appr, incl_refl.
Qed.

(** ** FORS *)
Lemma fors_tree_extract tree kp md t sig : in_ht D 0 tree kp -> (t < s_k D)%nat ->
  Forall word sig -> length sig = (s_a D + 1)%nat ->
  fors_root_of_sig D T tree kp md t sig = fors_root D T PRF tree kp (Z.of_nat t) ->
  sig = fors_sign_tree D T PRF tree kp md t \/ coll (fors_tree_calls D T tree kp md t sig).
Proof.
  intros Hin Ht Ws Ls E. destruct sig as [|x p]; [cbn in Ls; lia|].
  inversion_clear Ws as [|? ? Wx Wp]. unfold fors_root_of_sig, fors_tree_calls, fors_sign_tree in *.
  cbn [hd tl length] in *. set (i := fors_index D md t) in *.
  assert (Hi : 0 <= i < 2 ^ Z.of_nat (s_a D)) by apply fors_index_range.
  destruct (climb_auth_extract (fors_leaf D T PRF tree kp (Z.of_nat t)) (fors_node_adrs D tree kp (Z.of_nat t)) (s_a D))
    with (p := p) (i := i) (x := fors_leaf_of D T tree kp (Z.of_nat t) i x) as [[Ex Ep]|C]; auto.
  - intros. apply fors_leaf_word.
  - intros h j Hh Hj. now apply honest_fors_node.
  - apply HTw, good1; auto.
  - lia.
  - destruct (same_or_coll (fors_leaf_adrs D tree kp (Z.of_nat t) i) (fors_sk D PRF tree kp (Z.of_nat t) i) x
      (fors_tree_calls D T tree kp md t (x :: p))) as [e|C].
    + now left.
    + now apply honest_fors_leaf.
    + rewrite (word_len _ Wx). symmetry. apply word_len, HPw.
    + exact Ex.
    + left. rewrite e, Ep. reflexivity.
    + right. exact C.
  - right. eapply coll_incl; [|exact C]. apply incl_tl, incl_refl.
Qed.
Lemma fors_root_of_sig_word tree kp md t sig : Forall word sig -> (1 <= length sig)%nat ->
  word (fors_root_of_sig D T tree kp md t sig).
Proof. clear - HTw K2.
  intros Ws L. destruct Ws as [|x p Wx Wp]; [cbn in L; lia|].
  apply (climb_word (fors_node_adrs D tree kp (Z.of_nat t))); [apply HTw, good1; auto|exact Wp].
Qed.
Lemma fors_block_facts t sig : Forall word sig -> length sig = (s_k D * (s_a D + 1))%nat -> (t < s_k D)%nat ->
  Forall word (fors_block D t sig) /\ length (fors_block D t sig) = (s_a D + 1)%nat.
Proof. clear.
  intros Ws L Ht. unfold fors_block. destruct (Forall_part word sig 0 (t * (s_a D + 1)) Ws) as [_ W1].
  destruct (Forall_part word _ (s_a D + 1) 0 W1) as [W2 _]. split; [exact W2|].
  rewrite firstn_length, skipn_length.
  assert ((t + 1) * (s_a D + 1) <= s_k D * (s_a D + 1))%nat by (apply Nat.mul_le_mono_r; lia). lia.
Qed.
Lemma fors_roots_word tree kp md sig : Forall word sig -> length sig = (s_k D * (s_a D + 1))%nat ->
  Forall word (map (fun t => fors_root_of_sig D T tree kp md t (fors_block D t sig)) (seq 0 (s_k D))).
Proof. clear - HTw K2.
  intros Ws L. apply Forall_forall. intros y Hy. apply in_map_iff in Hy. destruct Hy as (t & <- & Ht).
  apply in_seq in Ht. destruct (fors_block_facts t sig Ws L) as [W B]; [lia|].
  apply fors_root_of_sig_word; [exact W|lia].
Qed.
Lemma fors_pk_of_sig_word tree kp md sig : Forall word sig -> length sig = (s_k D * (s_a D + 1))%nat ->
  word (fors_pk_of_sig D T tree kp md sig).
Proof. clear - HTw K2 Kk.
  intros Ws L. apply HTw. apply good_concat; [exact (fors_roots_word tree kp md sig Ws L)|].
  now rewrite map_length, seq_length. Qed.
Lemma fors_extract tree kp md sig : in_ht D 0 tree kp ->
  Forall word sig -> length sig = (s_k D * (s_a D + 1))%nat ->
  fors_pk_of_sig D T tree kp md sig = fors_pk D T PRF tree kp ->
  sig = fors_sign D T PRF tree kp md \/ coll (fors_calls D T tree kp md sig).
Proof.
  intros Hin Ws Ls E. set (cs := fors_calls D T tree kp md sig).
  destruct (same_or_coll (mkAdrs 0 tree T_FORS_ROOTS kp 0 0)
    (concat (map (fun t => fors_root D T PRF tree kp (Z.of_nat t)) (seq 0 (s_k D))))
    (concat (map (fun t => fors_root_of_sig D T tree kp md t (fors_block D t sig)) (seq 0 (s_k D)))) cs) as [Ee|C].
  - apply in_or_app. right. now left.
  - now apply honest_fors_roots.
  - rewrite !concat_words; [now rewrite !map_length| |now apply fors_roots_word].
    apply Forall_forall. intros y Hy. apply in_map_iff in Hy. destruct Hy as (i & <- & _). apply fors_root_word.
  - exact E.
  - apply (concat_inj n) in Ee; cycle 1.
    { now rewrite !map_length. }
    { eapply Forall_impl; [exact word_len|]. now apply fors_roots_word. }
    { apply Forall_forall. intros y Hy. apply in_map_iff in Hy. destruct Hy as (i & <- & _).
      apply word_len, fors_root_word. }
    assert (Hs : (forall t, (t < s_k D)%nat -> fors_block D t sig = fors_sign_tree D T PRF tree kp md t) \/ coll cs).
    { apply or_forall. intros t Ht. destruct (fors_block_facts t sig Ws Ls Ht) as [W B].
      assert (Et := map_eq_in _ _ _ Ee t). cbv beta in Et.
      destruct (fors_tree_extract tree kp md t (fors_block D t sig)) as [e|C]; auto.
      - apply Et, in_seq. lia.
      - right. eapply coll_incl; [|exact C]. intros c Hc. apply in_or_app. left. apply in_flat_map.
        exists t. split; [apply in_seq; lia|exact Hc]. }
    destruct Hs as [Hs|C]; [left|now right].
    apply (blocks_concat (s_a D + 1)); auto.
  - now right.
Qed.

(** ** The whole signature *)
Theorem spx_extract md tree leaf sig : in_ht D 0 tree leaf ->
  Forall word sig -> length sig = spx_nblocks D ->
  spx_root_of_sig D T md tree leaf sig = ht_root D T PRF ->
  sig = spx_sign_body D T PRF md tree leaf \/ brk (verify_calls D T md tree leaf sig).
Proof.
  intros Hin Ws Ls E. unfold spx_root_of_sig, verify_calls, spx_sign_body, spx_nblocks in *. cbv zeta in *.
  set (nf := (s_k D * (s_a D + 1))%nat) in *.
  destruct (Forall_part word sig nf nf Ws) as [W1 W2].
  assert (L1 : length (firstn nf sig) = nf) by (rewrite firstn_length; lia).
  assert (L2 : length (skipn nf sig) = (s_d D * (s_len D + s_hp D))%nat) by (rewrite skipn_length; lia).
  destruct (ht_extract (s_d D) 0 tree leaf (fors_pk_of_sig D T tree leaf md (firstn nf sig)) (skipn nf sig))
    as [[Em Es]|B]; auto.
  - destruct Hin as (I1 & _). lia.
  - now apply fors_pk_of_sig_word.
  - unfold signed_by in Em. cbn [Z.eqb] in Em.
    destruct (fors_extract tree leaf md (firstn nf sig)) as [Ef|C]; auto.
    + left. rewrite <- Ef, <- Em, <- Es. now rewrite firstn_skipn.
    + right. left. eapply coll_incl; [|exact C]. apply incl_appl, incl_refl.
  - right. eapply brk_incl; [|exact B]. apply incl_appr, incl_refl.
Qed.
End Forge.
