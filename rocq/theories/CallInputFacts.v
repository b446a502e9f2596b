(** The signer's inputs are a function of the address; the verifier's addresses are among the signer's, and its inputs
    too when the signature is the signer's own. *)
From Coq Require Import List ZArith Lia.
From Verif Require Import Spec SpecFacts BaseFacts TreeProofs AdrsEnc CallSpec CallSpecFacts.
Import ListNotations.
Open Scope Z_scope.

(** ** Below a node *)
Lemma under_split h i j : under (S h) i j -> under h (2 * i) j \/ under h (2 * i + 1) j.
Proof. unfold under. rewrite pow2_S. lia. Qed.
Section Tree.
Variable K : Type.
Variable lk : Z -> list K.
Variable nk : nat -> Z -> list K.
Lemma tree_keys_leaf h : forall i j x, under h i j -> In x (lk j) -> In x (tree_keys lk nk h i).
Proof.
  induction h as [|h IH]; intros i j x Hj Hx; cbn [tree_keys].
  - unfold under in Hj. cbn in Hj. replace i with j by lia. exact Hx.
  - rewrite !in_app_iff. destruct (under_split _ _ _ Hj) as [H|H]; eauto.
Qed.
Lemma tree_keys_node h : forall i h' j x, (1 <= h' <= h)%nat -> under (h - h') i j -> In x (nk h' j) -> In x (tree_keys lk nk h i).
Proof.
  induction h as [|h IH]; intros i h' j x Hh Hj Hx; [lia|]. cbn [tree_keys]. rewrite !in_app_iff.
  destruct (Nat.eq_dec h' (S h)) as [->|Hne].
  - rewrite Nat.sub_diag in Hj. unfold under in Hj. cbn in Hj. replace i with j by lia. auto.
  - replace (S h - h')%nat with (S (h - h')) in Hj by lia.
    destruct (under_split _ _ _ Hj) as [H|H]; [left|right; left]; apply (IH _ h' j); try assumption; lia.
Qed.
End Tree.
Lemma under_div h h' i : (h' <= h)%nat -> 0 <= i < 2 ^ Z.of_nat h -> under (h - h') 0 (i / 2 ^ Z.of_nat h').
Proof.
  intros Hh Hi. unfold under. pose proof (pow2_pos h'). split; [apply Z.div_pos; lia|].
  apply Z.div_lt_upper_bound; [lia|].
  rewrite Z.mul_1_l, <- Z.pow_add_r by lia. replace (Z.of_nat h' + Z.of_nat (h - h')) with (Z.of_nat h) by lia. lia.
Qed.

(** ** Climbing *)
Lemma div_pow_S i h : i / 2 ^ Z.of_nat h / 2 = i / 2 ^ Z.of_nat (S h).
Proof. pose proof (pow2_pos h). rewrite Z.div_div by lia. now rewrite pow2_S, Z.mul_comm. Qed.
Section Climb.
Variable na : nat -> Z -> adrs.
Fixpoint climb_keys (h : nat) (i : Z) (n : nat) : list (nat * adrs) :=
  match n with O => [] | S n' => (2%nat, na (S h) (i / 2)) :: climb_keys (S h) (i / 2) n' end.
Lemma th_keys_climb hash2 p : forall h i x, th_keys (climb_calls hash2 na h i x p) = climb_keys h i (length p).
Proof.
  induction p as [|s p IH]; intros h i x; cbn [climb_calls length climb_keys]; [reflexivity|].
  cbn zeta. change (th_keys (STh ?k ?a ?y :: ?l)) with ((k, a) :: th_keys l). now rewrite IH.
Qed.
Lemma climb_keys_length n : forall h i, length (climb_keys h i n) = n.
Proof. induction n as [|n IH]; intros; cbn [climb_keys length]; [reflexivity|]. now rewrite IH. Qed.
Lemma climb_keys_in n : forall h i k a, In (k, a) (climb_keys h i n) ->
  k = 2%nat /\ exists h', (h < h' <= h + n)%nat /\ a = na h' (i / 2 ^ Z.of_nat (h' - h)).
Proof.
  induction n as [|n IH]; intros h i k a H; cbn [climb_keys] in H; [destruct H|]. destruct H as [E|H].
  - injection E as <- <-. split; [reflexivity|]. exists (S h). split; [lia|]. now replace (S h - h)%nat with 1%nat by lia.
  - destruct (IH _ _ _ _ H) as (-> & h' & Hh & ->). split; [reflexivity|]. exists h'. split; [lia|]. f_equal.
    replace (h' - h)%nat with (S (h' - S h)) by lia. rewrite pow2_S, Z.div_div; [reflexivity|lia|apply pow2_pos].
Qed.
Lemma climb_keys_NoDup n : (forall h h' i i', na h i = na h' i' -> h = h') -> forall h i, NoDup (adrs_keys (climb_keys h i n)).
Proof.
  intros Hna. induction n as [|n IH]; intros h i; cbn [climb_keys adrs_keys map snd]; [constructor|]. constructor; [|apply IH].
  intros H. apply (adrs_keys_in _ (climb_keys (S h) (i / 2) n)) in H. destruct H as (k & H). apply climb_keys_in in H.
  destruct H as (_ & h' & Hh & E). apply Hna in E. lia.
Qed.
(** Along an authentication path the calls are those of the tree. *)
Variable leaf : Z -> list Z.
Variable hash2 : nat -> Z -> list Z -> list Z.
Variable lc : Z -> list scall.
Lemma climb_calls_tree H i : 0 <= i < 2 ^ Z.of_nat H -> forall n h, (h + n = H)%nat ->
  forall c, In c (climb_calls hash2 na h (i / 2 ^ Z.of_nat h) (node leaf hash2 h (i / 2 ^ Z.of_nat h))
                    (map (fun h => node leaf hash2 h (sibling i h)) (seq h n))) ->
  In c (tree_calls leaf hash2 lc na H 0).
Proof.
  intros Hi. induction n as [|n IH]; intros h Hh c Hc; cbn [seq map climb_calls] in Hc; [destruct Hc|].
  assert (E : (if Z.even (i / 2 ^ Z.of_nat h)
               then node leaf hash2 h (i / 2 ^ Z.of_nat h) ++ node leaf hash2 h (sibling i h)
               else node leaf hash2 h (sibling i h) ++ node leaf hash2 h (i / 2 ^ Z.of_nat h))
              = node leaf hash2 h (2 * (i / 2 ^ Z.of_nat (S h))) ++ node leaf hash2 h (2 * (i / 2 ^ Z.of_nat (S h)) + 1)).
  { rewrite <- div_pow_S. unfold sibling. cbn zeta. set (j := i / 2 ^ Z.of_nat h).
    pose proof (Z.div_mod j 2 ltac:(lia)) as Hd. rewrite Zmod_even in Hd. destruct (Z.even j).
    - replace (2 * (j / 2)) with j by lia. reflexivity.
    - replace (2 * (j / 2) + 1) with j by lia. replace (2 * (j / 2)) with (j - 1) by lia. reflexivity. }
  cbn zeta in Hc. rewrite E, div_pow_S in Hc. destruct Hc as [<-|Hc].
  - rewrite tree_calls_keys. apply (tree_keys_node _ _ _ H 0 (S h) (i / 2 ^ Z.of_nat (S h))); [lia| |now left].
    apply under_div; [lia|exact Hi].
  - apply (IH (S h)); [lia|]. cbn [node]. exact Hc.
Qed.
End Climb.

Section Facts.
Variable D : dims.
Hypothesis Hw : 2 <= s_w D.
Variable T : adrs -> list Z -> list Z.
Variable PRF : adrs -> list Z.
Notation w1 := (Z.to_nat (s_w D - 1)).
Notation hp := (s_hp D).

(** ** The input of each address *)
Definition asked (a : adrs) : nat * list Z :=
  let ly := a_layer a in let tr := a_tree a in let kp := a_kp a in
  if a_type a =? T_WOTS_HASH then
    (1%nat, chain T ly tr kp (a_w1 a) (wots_sk PRF ly tr kp (Z.to_nat (a_w1 a))) 0 (Z.to_nat (a_w2 a)))
  else if a_type a =? T_WOTS_PK then
    (s_len D, concat (map (fun i => chain T ly tr kp (Z.of_nat i) (wots_sk PRF ly tr kp i) 0 w1) (seq 0 (s_len D))))
  else if a_type a =? T_TREE then
    let nd := xmss_node D T PRF ly tr (pred (Z.to_nat (a_w1 a))) in
    (2%nat, nd (2 * a_w2 a) ++ nd (2 * a_w2 a + 1))
  else if a_type a =? T_FORS_TREE then
    if a_w1 a =? 0 then (1%nat, PRF (mkAdrs 0 tr T_FORS_PRF kp 0 (a_w2 a)))
    else
      let h := Z.to_nat (a_w1 a) in let t := a_w2 a / 2 ^ Z.of_nat (s_a D - h) in let i := a_w2 a mod 2 ^ Z.of_nat (s_a D - h) in
      let nd := node (fors_leaf D T PRF tr kp t) (fors_hash2 D T tr kp t) (pred h) in
      (2%nat, nd (2 * i) ++ nd (2 * i + 1))
  else (s_k D, concat (map (fun t => fors_root D T PRF tr kp (Z.of_nat t)) (seq 0 (s_k D)))).

Lemma asked_wots ly tr kp k a x : In (STh k a x) (wots_pk_calls D T PRF ly tr kp) -> asked a = (k, x).
Proof.
  unfold wots_pk_calls. intros H. apply in_app_or in H. destruct H as [H|[H|[]]].
  - apply in_flat_map in H. destruct H as (i & Hi & [H|H]); [discriminate|]. apply in_map_iff in H.
    destruct H as (s & E & Hs). injection E as <- <- <-. unfold asked. cbn [wots_adrs a_layer a_tree a_type a_kp a_w1 a_w2 Z.eqb T_WOTS_HASH].
    rewrite ?Z.add_0_l, !Nat2Z.id. reflexivity.
  - injection H as <- <- <-. reflexivity.
Qed.
Lemma asked_xmss ly tr k a x : In (STh k a x) (xmss_calls D T PRF ly tr) -> asked a = (k, x).
Proof.
  unfold xmss_calls. rewrite tree_calls_keys. intros H. apply tree_keys_in in H.
  destruct H as [(j & _ & H)|(h & j & Hh & _ & [H|[]])]; [now apply asked_wots in H|].
  injection H as <- <- <-. unfold asked. cbn [tree_adrs a_layer a_tree a_type a_kp a_w1 a_w2]. cbn [Z.eqb T_TREE T_WOTS_HASH T_WOTS_PK Pos.eqb].
  rewrite Nat2Z.id. reflexivity.
Qed.
Lemma asked_ht n : forall ly tr k a x, In (STh k a x) (ht_calls D T PRF n ly tr) -> asked a = (k, x).
Proof.
  induction n as [|n IH]; intros ly tr k a x H; cbn [ht_calls] in H; [destruct H|].
  apply in_app_or in H. destruct H as [H|H]; [now apply asked_xmss in H|now apply IH in H].
Qed.
Lemma asked_fors tr kp md k a x : In (STh k a x) (fors_calls D T PRF tr kp md) -> asked a = (k, x).
Proof.
  unfold fors_calls. intros H. apply in_app_or in H. destruct H as [H|[H|[]]].
  - apply in_flat_map in H. destruct H as (t & _ & [H|H]); [discriminate|]. rewrite tree_calls_keys in H. apply tree_keys_in in H.
    destruct H as [(j & Hj & [H|[H|[]]])|(h & j & Hh & Hj & [H|[]])]; [discriminate| |]; injection H as <- <- <-.
    + unfold asked. cbn [fors_adrs a_layer a_tree a_type a_kp a_w1 a_w2]. rewrite Nat.sub_0_r. reflexivity.
    + unfold asked. cbn [fors_adrs a_layer a_tree a_type a_kp a_w1 a_w2]. cbn [Z.eqb T_FORS_TREE T_TREE T_WOTS_HASH T_WOTS_PK Pos.eqb].
      replace (Z.of_nat h =? 0) with false by (symmetry; apply Z.eqb_neq; lia). cbv zeta. rewrite Nat2Z.id.
      destruct (fors_adrs_tree D t h j) as (-> & ->); [unfold under in Hj; lia|]. reflexivity.
  - injection H as <- <- <-. reflexivity.
Qed.
Lemma asked_sign md tr lf k a x : In (STh k a x) (sign_calls D T PRF md tr lf) -> asked a = (k, x).
Proof. intros H. apply in_app_or in H. destruct H as [H|H]; [now apply asked_fors in H|now apply asked_ht in H]. Qed.
Lemma asked_keygen k a x : In (STh k a x) (keygen_calls D T PRF) -> asked a = (k, x).
Proof. apply asked_xmss. Qed.

(** ** The verifier's addresses *)
Definition wots_v_keys (ly tr kp : Z) (m : list Z) : list (nat * adrs) :=
  flat_map (fun i => let l := nth i (wots_lengths D m) 0 in
                     map (fun s => (1%nat, wots_adrs ly tr kp (Z.of_nat i) (l + Z.of_nat s))) (seq 0 (Z.to_nat (s_w D - 1 - l))))
    (seq 0 (s_len D)) ++ [(s_len D, wots_pk_adrs ly tr kp)].
Lemma th_keys_wots_v ly tr kp m s : th_keys (wots_pk_of_sig_calls D T ly tr kp m s) = wots_v_keys ly tr kp m.
Proof. clear.
  unfold wots_pk_of_sig_calls, wots_v_keys. rewrite th_keys_app. f_equal. unfold th_keys. rewrite flat_map_flat_map.
  apply flat_map_ext. intros i. apply th_keys_chain.
Qed.
Lemma wots_v_incl ly tr kp m : incl (wots_v_keys ly tr kp m) (wots_keys D ly tr kp).
Proof. clear - Hw.
  intros ka H. apply in_app_or in H. apply in_or_app. destruct H as [H|H]; [left|now right].
  apply in_flat_map in H. destruct H as (i & Hi & H). apply in_flat_map. exists i. split; [exact Hi|].
  cbn zeta in H. apply in_map_iff in H. destruct H as (s & <- & Hs). apply in_seq in Hs.
  pose proof (wots_lengths_nth D Hw m i) as Hl. set (l := nth i (wots_lengths D m) 0) in *. clearbody l.
  apply in_map_iff. exists (Z.to_nat l + s)%nat. split; [do 2 f_equal; lia|]. apply in_seq. lia.
Qed.
Lemma wots_v_NoDup ly tr kp m : NoDup (adrs_keys (wots_v_keys ly tr kp m)).
Proof. clear.
  unfold wots_v_keys. rewrite adrs_keys_app. apply NoDup_app_intro.
  - unfold adrs_keys. rewrite map_flat_map'. apply NoDup_flat_map_intro; [apply seq_NoDup| |].
    + intros i _. cbn zeta. rewrite map_map. cbn [snd]. apply NoDup_map_inj; [|apply seq_NoDup].
      intros x y _ _ E. injection E as E. lia.
    + intros x y b _ _ Hx Hy. cbn zeta in Hx, Hy. rewrite map_map in Hx, Hy. apply in_map_iff in Hx, Hy.
      destruct Hx as (s & <- & _). destruct Hy as (s' & E & _). injection E as E _. lia.
  - constructor; [intros []|constructor].
  - intros x Hx [<-|[]]. apply adrs_keys_in in Hx. destruct Hx as (k & Hx). apply in_flat_map in Hx.
    destruct Hx as (i & _ & Hx). cbn zeta in Hx. apply in_map_iff in Hx. destruct Hx as (s & E & _). discriminate E.
Qed.
Lemma wots_v_length ly tr kp m : (length (wots_v_keys ly tr kp m) <= s_len D * w1 + 1)%nat.
Proof. clear - Hw.
  unfold wots_v_keys. rewrite app_length. cbn [length]. apply Nat.add_le_mono_r.
  rewrite <- (seq_length (s_len D) 0) at 2. apply length_flat_map_le. intros i _. cbn zeta. rewrite map_length, seq_length.
  pose proof (wots_lengths_nth D Hw m i). lia.
Qed.
Lemma tree_adrs_inj ly tr h h' i i' : tree_adrs ly tr h i = tree_adrs ly tr h' i' -> h = h'.
Proof. clear. intros E. injection E as E _. lia. Qed.
Lemma fors_adrs_inj tr kp t h h' i i' : fors_adrs D tr kp t h i = fors_adrs D tr kp t h' i' -> h = h'.
Proof. clear. intros E. injection E as E _. lia. Qed.
Definition xmss_v_keys (ly tr idx : Z) (m : list Z) : list (nat * adrs) :=
  wots_v_keys ly tr idx m ++ climb_keys (tree_adrs ly tr) 0 idx hp.
Lemma th_keys_xmss_v ly tr idx m s : length s = (s_len D + hp)%nat ->
  th_keys (xmss_of_sig_calls D T ly tr idx m s) = xmss_v_keys ly tr idx m.
Proof. clear.
  intros Hs. unfold xmss_of_sig_calls, xmss_v_keys. rewrite th_keys_app, th_keys_wots_v, th_keys_climb. do 2 f_equal.
  rewrite skipn_length. lia.
Qed.
Lemma xmss_v_incl ly tr idx m : 0 <= idx < 2 ^ Z.of_nat hp -> incl (xmss_v_keys ly tr idx m) (xmss_keys D ly tr).
Proof. clear - Hw.
  intros Hi [k a] H. apply in_app_or in H. destruct H as [H|H].
  - apply (tree_keys_leaf _ _ _ _ _ idx); [unfold under; lia|]. now apply wots_v_incl in H.
  - apply climb_keys_in in H. destruct H as (-> & h' & Hh & ->). rewrite Nat.sub_0_r.
    apply (tree_keys_node _ _ _ _ _ h' (idx / 2 ^ Z.of_nat h')); [lia| |now left]. apply under_div; [lia|exact Hi].
Qed.
Lemma xmss_v_NoDup ly tr idx m : NoDup (adrs_keys (xmss_v_keys ly tr idx m)).
Proof. clear - Hw.
  unfold xmss_v_keys. rewrite adrs_keys_app. apply NoDup_app_intro; [apply wots_v_NoDup| |].
  - apply climb_keys_NoDup. intros h h' i i'. apply tree_adrs_inj.
  - intros a H H'. apply adrs_keys_in in H, H'. destruct H as (k & H), H' as (k' & H'). apply wots_v_incl in H.
    apply wots_keys_in in H. apply climb_keys_in in H'. destruct H' as (_ & h' & _ & ->).
    destruct H as [(_ & i & s & _ & _ & E)|(_ & E)]; discriminate E.
Qed.
Lemma xmss_v_length ly tr idx m : (length (xmss_v_keys ly tr idx m) <= s_len D * w1 + 1 + hp)%nat.
Proof. clear - Hw.
  unfold xmss_v_keys. rewrite app_length, climb_keys_length. pose proof (wots_v_length ly tr idx m). lia.
Qed.
Lemma ht_v_facts k : forall ly tr idx m s, length s = (k * (s_len D + hp))%nat -> 0 <= idx < 2 ^ Z.of_nat hp ->
  incl (th_keys (ht_of_sig_calls D T k ly tr idx m s)) (ht_keys D k ly tr)
  /\ NoDup (adrs_keys (th_keys (ht_of_sig_calls D T k ly tr idx m s)))
  /\ (length (th_keys (ht_of_sig_calls D T k ly tr idx m s)) <= k * (s_len D * w1 + 1 + hp))%nat.
Proof. clear - Hw.
  induction k as [|k IH]; intros ly tr idx m s Hs Hi; cbn [ht_of_sig_calls ht_keys].
  - split; [intros x []|split; [constructor|cbn; lia]].
  - rewrite th_keys_app, th_keys_xmss_v by (rewrite firstn_length; lia).
    destruct (IH (ly + 1) (tr / 2 ^ Z.of_nat hp) (tr mod 2 ^ Z.of_nat hp)
                 (xmss_root_of_sig D T ly tr idx m (firstn (s_len D + hp) s)) (skipn (s_len D + hp) s)) as (I & N & Le).
    { rewrite skipn_length. lia. }
    { apply Z.mod_pos_bound. apply pow2_pos. }
    set (r := th_keys (ht_of_sig_calls _ _ _ _ _ _ _ _)) in *. clearbody r.
    pose proof (xmss_v_incl ly tr idx m Hi) as I0. split; [|split].
    + apply incl_app; [now apply incl_appl|now apply incl_appr].
    + rewrite adrs_keys_app. apply NoDup_app_intro; [apply xmss_v_NoDup|exact N|]. intros a H H'.
      apply adrs_keys_in in H, H'. destruct H as (x & H), H' as (x' & H'). apply I0 in H. apply I in H'.
      apply ht_keys_in in H'. destruct H' as (i & _ & H').
      assert (Q : In a (adrs_keys (xmss_keys D ly tr))) by (apply adrs_keys_in; now exists x).
      assert (Q' : In a (adrs_keys (xmss_keys D (ly + 1 + Z.of_nat i) (tr / 2 ^ Z.of_nat hp / 2 ^ Z.of_nat (i * hp)))))
        by (apply adrs_keys_in; now exists x').
      apply xmss_keys_adrs in Q, Q'. destruct Q as (Q & _), Q' as (Q' & _). lia.
    + rewrite app_length. pose proof (xmss_v_length ly tr idx m). lia.
Qed.
Definition fors_v_tree_keys (tr kp : Z) (md : list Z) (t : nat) : list (nat * adrs) :=
  (1%nat, fors_adrs D tr kp (Z.of_nat t) 0 (fors_index D md t))
  :: climb_keys (fors_adrs D tr kp (Z.of_nat t)) 0 (fors_index D md t) (s_a D).
Lemma fors_v_tree_incl tr kp md t : incl (fors_v_tree_keys tr kp md t) (fors_tree_keys D tr kp t).
Proof. clear.
  pose proof (fors_index_range D md t) as Hi. intros [k a] [H|H].
  - injection H as <- <-. apply (tree_keys_leaf _ _ _ _ _ (fors_index D md t)); [unfold under; lia|now left].
  - apply climb_keys_in in H. destruct H as (-> & h' & Hh & ->). rewrite Nat.sub_0_r.
    apply (tree_keys_node _ _ _ _ _ h' (fors_index D md t / 2 ^ Z.of_nat h')); [lia| |now left]. apply under_div; [lia|exact Hi].
Qed.
Lemma fors_v_tree_NoDup tr kp md t : NoDup (adrs_keys (fors_v_tree_keys tr kp md t)).
Proof. clear.
  cbn [fors_v_tree_keys adrs_keys map snd]. constructor; [|apply climb_keys_NoDup; intros h h' i i'; apply fors_adrs_inj].
  intros H. apply (adrs_keys_in _ (climb_keys _ _ _ _)) in H. destruct H as (k & H). apply climb_keys_in in H.
  destruct H as (_ & h' & Hh & E). apply fors_adrs_inj in E. lia.
Qed.
Lemma th_keys_fors_v tr kp md s : length s = (s_k D * (s_a D + 1))%nat ->
  th_keys (fors_of_sig_calls D T tr kp md s)
  = flat_map (fors_v_tree_keys tr kp md) (seq 0 (s_k D)) ++ [(s_k D, fors_roots_adrs tr kp)].
Proof. clear.
  intros Hs. unfold fors_of_sig_calls. cbn zeta. rewrite th_keys_app. f_equal. unfold th_keys. rewrite flat_map_flat_map.
  rewrite !flat_map_concat_map. f_equal. apply map_ext_in. intros t Ht. apply in_seq in Ht.
  unfold fors_tree_of_sig_calls. cbn zeta. cbn [flat_map th_key app]. unfold fors_v_tree_keys. f_equal.
  set (b := firstn (s_a D + 1) (skipn (t * (s_a D + 1)) s)).
  assert (Lb : length b = (s_a D + 1)%nat).
  { unfold b. rewrite firstn_length, skipn_length, Hs.
    assert ((t + 1) * (s_a D + 1) <= s_k D * (s_a D + 1))%nat by (apply Nat.mul_le_mono_r; lia). lia. }
  destruct b as [|b0 b]; [cbn in Lb; lia|]. cbn [tl length] in *.
  pose proof (th_keys_climb (fors_adrs D tr kp (Z.of_nat t)) (fors_hash2 D T tr kp (Z.of_nat t)) b 0 (fors_index D md t)
     (fors_leaf_of D T tr kp (Z.of_nat t) (fors_index D md t) (hd [] (b0 :: b)))) as E.
  unfold th_keys in E. rewrite E. f_equal. lia.
Qed.
Lemma fors_v_facts tr kp md s : length s = (s_k D * (s_a D + 1))%nat ->
  incl (th_keys (fors_of_sig_calls D T tr kp md s)) (fors_keys D tr kp)
  /\ NoDup (adrs_keys (th_keys (fors_of_sig_calls D T tr kp md s)))
  /\ length (th_keys (fors_of_sig_calls D T tr kp md s)) = (s_k D * (s_a D + 1) + 1)%nat.
Proof. clear.
  intros Hs. rewrite th_keys_fors_v by exact Hs. split; [|split].
  - apply incl_app; [apply incl_appl|now apply incl_appr]. intros ka H. apply in_flat_map in H. destruct H as (t & Ht & H).
    apply in_flat_map. exists t. split; [exact Ht|]. now apply fors_v_tree_incl in H.
  - rewrite adrs_keys_app. apply NoDup_app_intro.
    + unfold adrs_keys. rewrite map_flat_map'. apply NoDup_flat_map_intro; [apply seq_NoDup|intros; apply fors_v_tree_NoDup|].
      intros t t' a _ _ H H'. apply adrs_keys_in in H, H'. destruct H as (k & H), H' as (k' & H').
      apply fors_v_tree_incl in H, H'.
      apply fors_tree_keys_in in H, H'. destruct H as (h & j & Hh & Hj & -> & _). destruct H' as (h' & j' & Hh' & Hj' & E & _).
      injection E as E E'. assert (h' = h) by lia. subst h'.
      destruct (fors_adrs_tree D t h j Hj) as (Q & _). destruct (fors_adrs_tree D t' h j' Hj') as (Q' & _).
      rewrite E' in Q. rewrite Q in Q'. lia.
    + constructor; [intros []|constructor].
    + intros a H [<-|[]]. apply adrs_keys_in in H. destruct H as (k & H). apply in_flat_map in H. destruct H as (t & _ & H).
      apply fors_v_tree_incl in H. apply fors_tree_keys_in in H. destruct H as (h & j & _ & _ & E & _). discriminate E.
  - rewrite app_length, (length_flat_map_const _ (s_a D + 1)%nat), seq_length; [reflexivity|].
    intros t _. cbn [fors_v_tree_keys length]. rewrite climb_keys_length. lia.
Qed.
Theorem verify_keys_facts md tr lf s :
  length s = (s_k D * (s_a D + 1) + s_d D * (s_len D + hp))%nat -> 0 <= lf < 2 ^ Z.of_nat hp ->
  incl (th_keys (verify_calls D T md tr lf s)) (sign_keys D tr lf)
  /\ NoDup (adrs_keys (th_keys (verify_calls D T md tr lf s)))
  /\ (length (th_keys (verify_calls D T md tr lf s))
      <= s_k D * (s_a D + 1) + 1 + s_d D * (s_len D * w1 + 1 + hp))%nat.
Proof. clear - Hw.
  intros Hs Hl. unfold verify_calls. cbn zeta. rewrite th_keys_app.
  set (nf := (s_k D * (s_a D + 1))%nat) in *.
  destruct (fors_v_facts tr lf md (firstn nf s)) as (I & N & Le); [rewrite firstn_length; unfold nf in *; lia|]. fold nf in Le.
  destruct (ht_v_facts (s_d D) 0 tr lf (fors_pk_of_sig D T tr lf md (firstn nf s)) (skipn nf s)) as (I' & N' & Le');
    [rewrite skipn_length; lia|exact Hl|].
  set (u := th_keys (fors_of_sig_calls _ _ _ _ _ _)) in *. set (v := th_keys (ht_of_sig_calls _ _ _ _ _ _ _ _)) in *.
  clearbody u v. split; [|split].
  - apply incl_app; [now apply incl_appl|now apply incl_appr].
  - rewrite adrs_keys_app. apply NoDup_app_intro; [assumption..|]. intros a H H'. apply adrs_keys_in in H, H'.
    destruct H as (x & H), H' as (x' & H'). apply I in H. apply I' in H'.
    assert (Q : In a (adrs_keys (fors_keys D tr lf))) by (apply adrs_keys_in; now exists x).
    assert (Q' : In a (adrs_keys (ht_keys D (s_d D) 0 tr))) by (apply adrs_keys_in; now exists x').
    apply fors_keys_adrs in Q. apply ht_keys_adrs in Q'. destruct Q as (_ & _ & _ & Q).
    unfold T_FORS_TREE, T_FORS_ROOTS, T_WOTS_HASH, T_WOTS_PK, T_TREE in *. lia.
  - rewrite app_length. lia.
Qed.
Lemma prf_keys_climb hash2 na p : forall h i x, prf_keys (climb_calls hash2 na h i x p) = [].
Proof. clear.
  induction p as [|s p IH]; intros h i x; cbn [climb_calls]; [reflexivity|].
  cbn zeta. change (prf_keys (STh ?k ?a ?y :: ?l)) with (prf_keys l). apply IH.
Qed.
Lemma flat_map_nil {A B} (f : A -> list B) l : (forall x, In x l -> f x = []) -> flat_map f l = [].
Proof. clear. induction l as [|a l IH]; intros H; cbn [flat_map]; [reflexivity|]. rewrite H, IH; [reflexivity|intros; apply H; now right|now left]. Qed.
Theorem verify_no_prf md tr lf s : prf_keys (verify_calls D T md tr lf s) = [].
Proof. clear.
  unfold verify_calls. cbn zeta. rewrite prf_keys_app.
  set (fs := firstn _ s). set (hs := skipn _ s). set (m := fors_pk_of_sig _ _ _ _ _ _). clearbody fs hs m.
  assert (E : forall k ly tr idx m hs, prf_keys (ht_of_sig_calls D T k ly tr idx m hs) = []).
  { clear. induction k as [|k IH]; intros; cbn [ht_of_sig_calls]; [reflexivity|].
    unfold xmss_of_sig_calls, wots_pk_of_sig_calls. rewrite !prf_keys_app, IH, prf_keys_climb.
    cbn [prf_keys flat_map prf_key app]. rewrite !app_nil_r. unfold prf_keys. rewrite flat_map_flat_map.
    apply flat_map_nil. intros i _. apply prf_keys_chain. }
  rewrite E, app_nil_r. unfold fors_of_sig_calls. cbn zeta. rewrite prf_keys_app.
  cbn [prf_keys flat_map prf_key app]. rewrite app_nil_r. unfold prf_keys. rewrite flat_map_flat_map.
  apply flat_map_nil. intros t _. unfold fors_tree_of_sig_calls. cbn zeta. cbn [flat_map prf_key app]. apply prf_keys_climb.
Qed.

(** ** Verifying one's own signature *)
Lemma wots_own ly tr kp m :
  incl (wots_pk_of_sig_calls D T ly tr kp m (wots_sign D T PRF ly tr kp m)) (wots_pk_calls D T PRF ly tr kp).
Proof.
  assert (E : forall i (s : nat), (i < s_len D)%nat ->
     chain T ly tr kp (Z.of_nat i) (nth i (wots_sign D T PRF ly tr kp m) []) (nth i (wots_lengths D m) 0) s
     = chain T ly tr kp (Z.of_nat i) (wots_sk PRF ly tr kp i) 0 (Z.to_nat (nth i (wots_lengths D m) 0%Z) + s)).
  { intros i s Hi. pose proof (wots_lengths_nth D Hw m i) as Hl. set (l := nth i (wots_lengths D m) 0) in *.
    assert (E : nth i (wots_sign D T PRF ly tr kp m) []
                = chain T ly tr kp (Z.of_nat i) (wots_sk PRF ly tr kp i) 0 (Z.to_nat l)).
    { apply nth_error_nth. unfold wots_sign. rewrite nth_error_map_seq by lia. reflexivity. }
    rewrite E. replace l with (0 + Z.of_nat (Z.to_nat l)) at 2 by lia. apply chain_add. }
  intros c H. unfold wots_pk_of_sig_calls in H. apply in_app_or in H. apply in_or_app. destruct H as [H|[<-|[]]]; [left|right; left].
  - apply in_flat_map in H. destruct H as (i & Hi & H). apply in_flat_map. exists i. split; [exact Hi|]. right.
    cbn zeta in H. apply in_map_iff in H. destruct H as (s & <- & Hs). apply in_seq in Hs, Hi.
    rewrite E by lia. pose proof (wots_lengths_nth D Hw m i) as Hl. set (l := nth i (wots_lengths D m) 0) in *. clearbody l.
    apply in_map_iff. exists (Z.to_nat l + s)%nat. split; [do 2 f_equal; lia|]. apply in_seq. lia.
  - f_equal. f_equal. apply map_ext_in. intros i Hi. apply in_seq in Hi. cbn zeta. rewrite E by lia. f_equal.
    pose proof (wots_lengths_nth D Hw m i). lia.
Qed.
Lemma xmss_own ly tr idx m : 0 <= idx < 2 ^ Z.of_nat hp ->
  incl (xmss_of_sig_calls D T ly tr idx m (xmss_sign D T PRF ly tr idx m)) (xmss_calls D T PRF ly tr).
Proof.
  intros Hi c H. unfold xmss_of_sig_calls, xmss_sign in H.
  rewrite firstn_app_len, skipn_app_len in H by apply wots_sign_length.
  apply in_app_or in H. destruct H as [H|H].
  - unfold xmss_calls. rewrite tree_calls_keys. apply (tree_keys_leaf _ _ _ _ _ idx); [unfold under; lia|].
    now apply wots_own in H.
  - rewrite (wots_complete D T PRF Hw) in H.
    apply (climb_calls_tree (tree_adrs ly tr) (fun kp => wots_pk D T PRF ly tr kp) (tree_hash2 T ly tr)
             (wots_pk_calls D T PRF ly tr) hp idx Hi hp 0); [reflexivity|].
    cbn [Z.of_nat]. rewrite Z.pow_0_r, Z.div_1_r. exact H.
Qed.
Lemma ht_own k : forall ly tr idx m, 0 <= idx < 2 ^ Z.of_nat hp ->
  incl (ht_of_sig_calls D T k ly tr idx m (ht_sign D T PRF k ly tr idx m)) (ht_calls D T PRF k ly tr).
Proof.
  induction k as [|k IH]; intros ly tr idx m Hi; cbn [ht_of_sig_calls ht_sign ht_calls]; [intros c []|].
  rewrite firstn_app_len, skipn_app_len by apply xmss_sign_length.
  rewrite (xmss_complete D T PRF Hw) by exact Hi.
  apply incl_app; [apply incl_appl; now apply xmss_own|apply incl_appr; apply IH]. apply Z.mod_pos_bound, pow2_pos.
Qed.
Lemma fors_own tr kp md : incl (fors_of_sig_calls D T tr kp md (fors_sign D T PRF tr kp md)) (fors_calls D T PRF tr kp md).
Proof. clear.
  intros c H. unfold fors_of_sig_calls in H. cbn zeta in H. apply in_app_or in H. apply in_or_app.
  assert (B : forall t, (t < s_k D)%nat ->
     firstn (s_a D + 1) (skipn (t * (s_a D + 1)) (fors_sign D T PRF tr kp md)) = fors_sign_tree D T PRF tr kp md t).
  { intros t Ht. unfold fors_sign. apply block_nth; [|exact Ht]. intros; apply fors_sign_tree_length. }
  destruct H as [H|[<-|[]]]; [left|right; left].
  - apply in_flat_map in H. destruct H as (t & Ht & H). apply in_flat_map. exists t. split; [exact Ht|]. apply in_seq in Ht.
    rewrite B in H by lia. right.
    pose proof (fors_index_range D md t) as Hi. unfold fors_tree_of_sig_calls, fors_sign_tree in H. cbn zeta in H. cbn [hd tl] in H.
    destruct H as [<-|H].
    + rewrite tree_calls_keys. apply (tree_keys_leaf _ _ _ _ _ (fors_index D md t)); [unfold under; lia|]. right. now left.
    + apply (climb_calls_tree (fors_adrs D tr kp (Z.of_nat t)) (fors_leaf D T PRF tr kp (Z.of_nat t)) (fors_hash2 D T tr kp (Z.of_nat t))
               (fors_leaf_calls D PRF tr kp (Z.of_nat t)) (s_a D) (fors_index D md t) Hi (s_a D) 0); [reflexivity|].
      cbn [Z.of_nat]. rewrite Z.pow_0_r, Z.div_1_r. exact H.
  - f_equal. f_equal. apply map_ext_in. intros t Ht. apply in_seq in Ht. rewrite B by lia.
    unfold fors_root_of_sig, fors_sign_tree. cbn [hd tl]. symmetry.
    apply (climb_root (fors_leaf D T PRF tr kp (Z.of_nat t))). apply fors_index_range.
Qed.
Theorem sign_own md tr lf : 0 <= lf < 2 ^ Z.of_nat hp ->
  incl (verify_calls D T md tr lf (spx_sign_body D T PRF md tr lf)) (sign_calls D T PRF md tr lf).
Proof.
  intros Hl. unfold verify_calls, spx_sign_body, sign_calls. cbn zeta.
  rewrite firstn_app_len, skipn_app_len by apply fors_sign_length. rewrite fors_complete.
  apply incl_app; [apply incl_appl, fors_own|apply incl_appr; now apply ht_own].
Qed.

(** ** The addresses fit the byte form *)
Section Fit.
Hypothesis Hd : (s_d D <= 256)%nat.
Hypothesis Hhp : (hp <= 30)%nat.
Hypothesis Hlen : (s_len D <= 256)%nat.
Hypothesis HW : s_w D <= 256.
Hypothesis Ha : (s_a D <= 30)%nat.
Hypothesis Hk : Z.of_nat (s_k D) * 2 ^ Z.of_nat (s_a D) <= 2 ^ 32.
Lemma p30 h : (h <= 30)%nat -> 2 ^ Z.of_nat h <= 2 ^ 30.
Proof. clear. intros. apply Z.pow_le_mono_r; lia. Qed.
Lemma xmss_wf ly tr k a : 0 <= ly < 256 -> 0 <= tr < 2 ^ 64 -> In (k, a) (xmss_keys D ly tr) -> adrs_wf a.
Proof. clear - Hw Hhp Hlen HW.
  intros Hly Htr H. apply xmss_keys_in in H. pose proof (p30 hp Hhp) as P30. destruct H as [(j & Hj & H)|(_ & h & j & Hh & Hj & ->)].
  - apply wots_keys_in in H. destruct H as [(_ & i & s & Hi & Hs & ->)|(_ & ->)]; unfold adrs_wf;
      cbn [wots_adrs wots_pk_adrs a_layer a_tree a_type a_kp a_w1 a_w2]; unfold T_WOTS_HASH, T_WOTS_PK; repeat split; lia.
  - pose proof (p30 (hp - h) ltac:(lia)). unfold adrs_wf, T_TREE;
      cbn [tree_adrs a_layer a_tree a_type a_kp a_w1 a_w2]; unfold T_TREE; repeat split; lia.
Qed.
Lemma sign_wf tr lf k a : 0 <= tr < 2 ^ 64 -> 0 <= lf < 2 ^ Z.of_nat hp -> In (k, a) (sign_keys D tr lf) -> adrs_wf a.
Proof. clear T PRF.
  intros Htr Hl H. pose proof (p30 hp Hhp) as P30. apply in_app_or in H. destruct H as [H|H].
  - unfold fors_keys in H. apply in_app_or in H. destruct H as [H|[H|[]]].
    + apply in_flat_map in H. destruct H as (t & Ht & H). apply in_seq in Ht. apply fors_tree_keys_in in H.
      destruct H as (h & j & Hh & Hj & -> & _). unfold adrs_wf, fors_adrs. cbn [a_layer a_tree a_type a_kp a_w1 a_w2]. unfold T_FORS_TREE.
      set (q := 2 ^ Z.of_nat (s_a D - h)) in *.
      assert (Hq : 0 < q <= 2 ^ Z.of_nat (s_a D)) by (split; [apply pow2_pos|apply Z.pow_le_mono_r; lia]).
      assert (0 <= Z.of_nat t * q + j < Z.of_nat (s_k D) * 2 ^ Z.of_nat (s_a D)).
      { set (Q := 2 ^ Z.of_nat (s_a D)) in *. clearbody q Q. clear - Hj Hq Ht. nia. }
      repeat split; lia.
    + injection H as <- <-. unfold adrs_wf, fors_roots_adrs. cbn [a_layer a_tree a_type a_kp a_w1 a_w2]. unfold T_FORS_ROOTS. repeat split; lia.
  - apply ht_keys_in in H. destruct H as (i & Hi & H). apply (xmss_wf _ _ k a) in H; [exact H|lia|].
    pose proof (pow2_pos (i * hp)). split; [apply Z.div_pos; lia|]. apply Z.le_lt_trans with tr; [|lia].
    apply Z.div_le_upper_bound; [lia|]. set (e := 2 ^ Z.of_nat (i * hp)) in *. clearbody e. clear - H0 Htr. nia.
Qed.
Lemma keygen_wf k a : (1 <= s_d D)%nat -> In (k, a) (th_keys (keygen_calls D T PRF)) -> adrs_wf a.
Proof. intros H. rewrite th_keys_keygen. apply xmss_wf; lia. Qed.
End Fit.
End Facts.
