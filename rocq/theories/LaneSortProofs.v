(** The counting sort of gen_chains (shake-avx2/wots.c:49-62) orders the chains by decreasing
    number of steps. *)
From Verif Require Import Base BaseFacts Params Lanes LaneFacts.

Lemma wr1 (l : list Z) i v : (i < length l)%nat -> wr l i [v] = Some (upd i v l).
Proof.
  intros H. rewrite wr_ok by (cbn [length]; lia). cbn [length]. f_equal.
  revert i H. induction l as [|x l IH]; intros i H; cbn [length] in H; [lia|].
  destruct i as [|i]; [reflexivity|]. cbn [upd firstn skipn app Nat.add].
  f_equal. apply IH. lia.
Qed.

(** Number of indices below [k] satisfying [f]. *)
Fixpoint cnt (f : nat -> bool) (k : nat) : nat :=
  match k with O => O | S k' => (cnt f k' + if f k' then 1 else 0)%nat end.

Lemma cnt_le f k : (cnt f k <= k)%nat.
Proof. induction k as [|k IH]; cbn [cnt]; [lia|]. destruct (f k); lia. Qed.

Lemma cnt_mono_k f a b : (a <= b)%nat -> (cnt f a <= cnt f b)%nat.
Proof. induction 1 as [|b H IH]; [auto|]. cbn [cnt]. destruct (f b); lia. Qed.

Lemma cnt_imp f g k : (forall i, (i < k)%nat -> f i = true -> g i = true) -> (cnt f k <= cnt g k)%nat.
Proof.
  induction k as [|k IH]; intros H; cbn [cnt]; [lia|].
  assert (cnt f k <= cnt g k)%nat by (apply IH; intros; apply H; auto).
  destruct (f k) eqn:E; [rewrite (H k) by auto; lia|destruct (g k); lia].
Qed.

Lemma cnt_ext f g k : (forall i, (i < k)%nat -> f i = g i) -> cnt f k = cnt g k.
Proof.
  induction k as [|k IH]; intros H; cbn [cnt]; [auto|]. rewrite IH by (intros; apply H; lia).
  now rewrite H by lia.
Qed.

(** Disjoint union. *)
Lemma cnt_or f g k : (forall i, (i < k)%nat -> f i = true -> g i = false) ->
  cnt (fun i => f i || g i) k = (cnt f k + cnt g k)%nat.
Proof.
  induction k as [|k IH]; intros H; cbn [cnt]; [auto|]. rewrite IH by (intros; apply H; auto).
  destruct (f k) eqn:E; cbn [orb]; [rewrite (H k) by auto; lia|lia].
Qed.

Lemma cnt_lt f k i : (i < k)%nat -> f i = true -> (cnt f i < cnt f k)%nat.
Proof.
  intros Hi Hf. apply Nat.lt_le_trans with (cnt f (S i)); [cbn [cnt]; rewrite Hf; lia|].
  now apply cnt_mono_k.
Qed.

Section Sort.
Variable P : params.
Notation W := (SPX_WOTS_W P).
Notation LEN := (SPX_WOTS_LEN P).
Hypothesis HW : 2 <= W <= 256.
Hypothesis HLEN : (LEN <= 256)%nat.
Variable steps : list Z.
Hypothesis Hls : length steps = LEN.
Hypothesis Hrange : Forall (fun s => 0 <= s < W) steps.
Notation st i := (nth i steps 0).

Lemma st_range i : (i < LEN)%nat -> 0 <= st i < W.
Proof. intros Hi. apply (proj1 (Forall_forall _ _) Hrange). apply nth_In. lia. Qed.
Lemma get_st i : (i < LEN)%nat -> get steps i = Some (st i).
Proof. intros Hi. unfold get. apply nth_error_nth'. lia. Qed.

Lemma u16_small v : 0 <= v < 65536 -> u16 v = v.
Proof. intros. unfold u16. apply Z.mod_small. lia. Qed.

Notation eqv v := (fun i => st i =? v).
Notation gtv v := (fun i => v <? st i).

Lemma count_steps_ok : exists counts, count_steps P steps = Some counts
  /\ length counts = Z.to_nat W
  /\ forall v, 0 <= v < W -> nth_error counts (Z.to_nat v) = Some (Z.of_nat (cnt (eqv v) LEN)).
Proof.
  unfold count_steps. set (f := fun (i : nat) _ => _).
  destruct (iterM_inv LEN 0 f (fun i (cs : list Z) => length cs = Z.to_nat W
      /\ forall v, 0 <= v < W -> nth_error cs (Z.to_nat v) = Some (Z.of_nat (cnt (eqv v) i)))
      (repeat 0 (Z.to_nat W))) as (cs & E & H1 & H2).
  - split; [apply repeat_length|]. intros v Hv. cbn [cnt].
    rewrite nth_error_repeat; [reflexivity|lia].
  - intros i cs Hi (H1 & H2). unfold f. rewrite get_st by lia. cbn [bind].
    pose proof (st_range i ltac:(lia)) as Hs.
    unfold get. rewrite H2 by lia. cbn [bind].
    pose proof (cnt_le (eqv (st i)) i) as Hc.
    rewrite u16_small by lia. rewrite wr1 by lia. cbn [bind].
    eexists. split; [reflexivity|]. split; [now rewrite upd_length|].
    intros v Hv. cbn [cnt]. destruct (Z.eq_dec v (st i)) as [->|Hne].
    + rewrite nth_error_upd_same by lia. rewrite Z.eqb_refl. f_equal. lia.
    + rewrite nth_error_upd_other by lia. rewrite H2 by lia.
      replace (st i =? v) with false by lia. f_equal. lia.
  - rewrite E. exists cs. auto.
Qed.

Lemma prefix_counts_ok counts :
  length counts = Z.to_nat W ->
  (forall v, 0 <= v < W -> nth_error counts (Z.to_nat v) = Some (Z.of_nat (cnt (eqv v) LEN))) ->
  exists counts', prefix_counts P counts = Some counts' /\ length counts' = Z.to_nat W
  /\ forall v, 0 <= v < W -> nth_error counts' (Z.to_nat v) = Some (Z.of_nat (cnt (gtv v) LEN)).
Proof.
  intros Hl Hc. unfold prefix_counts. set (f := fun (t : nat) _ => _).
  destruct (iterM_inv (Z.to_nat W) 0 f (fun t (s : list Z * Z) => exists cs, 
      s = (cs, Z.of_nat (cnt (gtv (W - 1 - Z.of_nat t)) LEN)) /\ length cs = Z.to_nat W
      /\ forall v, 0 <= v < W -> nth_error cs (Z.to_nat v)
           = Some (Z.of_nat (if v <? W - Z.of_nat t then cnt (eqv v) LEN else cnt (gtv v) LEN)))
      (counts, 0)) as (s & E & cs & -> & H1 & H2).
  - exists counts. split; [|split; [auto|]].
    + f_equal. replace (cnt _ LEN) with 0%nat; [reflexivity|].
      symmetry. rewrite (cnt_ext _ (fun _ => false)).
      * clear. induction LEN; cbn [cnt]; lia.
      * intros i Hi. pose proof (st_range i Hi). lia.
    + intros v Hv. replace (v <? W - Z.of_nat 0) with true by lia. auto.
  - intros t s Ht (cs & -> & H1 & H2). unfold f.
    set (l := (Z.to_nat W - 1 - t)%nat). assert (El : Z.of_nat l = W - 1 - Z.of_nat t) by lia.
    assert (Eg : get cs l = Some (Z.of_nat (cnt (eqv (Z.of_nat l)) LEN))).
    { unfold get. rewrite <- (Nat2Z.id l) at 1. rewrite H2 by lia.
      now replace (Z.of_nat l <? W - Z.of_nat t) with true by lia. }
    rewrite Eg. cbn [bind]. rewrite wr1 by lia. cbn [bind].
    eexists. split; [reflexivity|].
    exists (upd l (Z.of_nat (cnt (gtv (W - 1 - Z.of_nat t)) LEN)) cs).
    split; [|split; [now rewrite upd_length|]].
    + f_equal. rewrite <- El.
      assert (Esum : cnt (gtv (W - 1 - Z.of_nat (S t))) LEN
                     = (cnt (eqv (Z.of_nat l)) LEN + cnt (gtv (Z.of_nat l)) LEN)%nat).
      { rewrite <- cnt_or; [|intros i Hi; lia]. apply cnt_ext. intros i Hi. lia. }
      pose proof (cnt_le (gtv (W - 1 - Z.of_nat (S t))) LEN).
      rewrite u16_small by lia. lia.
    + intros v Hv. destruct (Z.eq_dec v (Z.of_nat l)) as [->|Hne].
      * rewrite Nat2Z.id. rewrite nth_error_upd_same by lia.
        replace (Z.of_nat l <? W - Z.of_nat (S t)) with false by lia. now rewrite <- El.
      * rewrite nth_error_upd_other by lia. rewrite H2 by lia.
        destruct (Z.ltb_spec v (W - Z.of_nat t)), (Z.ltb_spec v (W - Z.of_nat (S t))); auto; lia.
  - rewrite E. cbn [bind]. exists cs. split; [auto|split; [auto|]].
    intros v Hv. rewrite H2 by auto. replace (v <? W - Z.of_nat (0 + Z.to_nat W)) with false by lia.
    reflexivity.
Qed.

(** Where chain [i] ends up. *)
Definition pos (i : nat) : nat := (cnt (gtv (st i)) LEN + cnt (eqv (st i)) i)%nat.

Lemma pos_bound i : (i < LEN)%nat -> (pos i < cnt (fun j => (st i <=? st j)%Z) LEN)%nat.
Proof. clear HW HLEN Hls Hrange.
  intros Hi. unfold pos.
  assert (cnt (eqv (st i)) i < cnt (eqv (st i)) LEN)%nat by (apply cnt_lt; auto; apply Z.eqb_refl).
  rewrite (cnt_ext (fun j => st i <=? st j) (fun j => (st i <? st j) || (st j =? st i)))
    by (intros; lia).
  rewrite cnt_or by (intros; lia). lia.
Qed.

Lemma pos_lt i : (i < LEN)%nat -> (pos i < LEN)%nat.
Proof. clear HW HLEN Hls Hrange. intros Hi. pose proof (pos_bound i Hi). pose proof (cnt_le (fun j => st i <=? st j) LEN). lia. Qed.

(** Larger counts come first. *)
Lemma pos_sorted i j : (i < LEN)%nat -> (j < LEN)%nat -> st i < st j -> (pos j < pos i)%nat.
Proof. clear HW HLEN Hls Hrange.
  intros Hi Hj Hlt. pose proof (pos_bound j Hj).
  assert (cnt (fun k => (st j <=? st k)%Z) LEN <= cnt (gtv (st i)) LEN)%nat by (apply cnt_imp; intros; lia).
  unfold pos at 2. lia.
Qed.

Lemma pos_inj i j : (i < LEN)%nat -> (j < LEN)%nat -> pos i = pos j -> i = j.
Proof. clear HW HLEN Hls Hrange.
  assert (Haux : forall i j, (i < j)%nat -> st i = st j -> pos i <> pos j).
  { intros a b Hab Es. unfold pos. rewrite Es.
    assert (cnt (eqv (st b)) a < cnt (eqv (st b)) b)%nat; [|lia].
    apply cnt_lt; auto. rewrite Es. apply Z.eqb_refl. }
  intros Hi Hj E.
  destruct (Z.lt_total (st i) (st j)) as [Hlt|[Heq|Hgt]].
  - pose proof (pos_sorted i j Hi Hj Hlt). lia.
  - destruct (lt_eq_lt_dec i j) as [[Hlt|Heq']|Hgt]; auto.
    + exfalso. eapply Haux; eauto.
    + exfalso. eapply Haux; [exact Hgt|auto|auto].
  - pose proof (pos_sorted j i Hj Hi Hgt). lia.
Qed.

Variable junk : nat -> nat -> Z.

Lemma place_chains_ok counts :
  length counts = Z.to_nat W ->
  (forall v, 0 <= v < W -> nth_error counts (Z.to_nat v) = Some (Z.of_nat (cnt (gtv v) LEN))) ->
  exists idxs, place_chains P junk steps counts = Some idxs /\ length idxs = LEN
  /\ forall i, (i < LEN)%nat -> nth_error idxs (pos i) = Some (Z.of_nat i).
Proof.
  intros Hl Hc. unfold place_chains. set (f := fun (i : nat) _ => _).
  destruct (iterM_inv LEN 0 f (fun i (s : list Z * list Z) => exists idxs cs,
      s = (idxs, cs) /\ length cs = Z.to_nat W /\ length idxs = LEN
      /\ (forall v, 0 <= v < W -> nth_error cs (Z.to_nat v)
           = Some (Z.of_nat (cnt (gtv v) LEN + cnt (eqv v) i)))
      /\ (forall i', (i' < i)%nat -> nth_error idxs (pos i') = Some (Z.of_nat i')))
      (junk_bytes (junk 12%nat) LEN, counts)) as (s & E & idxs & cs & -> & H1 & H2 & H3 & H4).
  - exists (junk_bytes (junk 12%nat) LEN), counts. split; [auto|]. split; [auto|].
    split; [apply junk_length|]. split; [|lia].
    intros v Hv. cbn [cnt]. rewrite Nat.add_0_r. auto.
  - intros i s Hi (idxs & cs & -> & H1 & H2 & H3 & H4). unfold f.
    rewrite get_st by lia. cbn [bind]. pose proof (st_range i ltac:(lia)) as Hs.
    unfold get. rewrite H3 by lia. cbn [bind]. fold (pos i).
    pose proof (pos_lt i ltac:(lia)) as Hp. rewrite Nat2Z.id.
    rewrite (u16_small (Z.of_nat i)) by lia. rewrite wr1 by lia. cbn [bind].
    rewrite u16_small by lia. rewrite wr1 by lia. cbn [bind].
    eexists. split; [reflexivity|].
    eexists. eexists. split; [reflexivity|]. rewrite !upd_length. split; [auto|]. split; [auto|].
    split.
    + intros v Hv. destruct (Z.eq_dec v (st i)) as [->|Hne].
      * rewrite nth_error_upd_same by lia. unfold pos. cbn [cnt]. rewrite Z.eqb_refl. f_equal. lia.
      * rewrite nth_error_upd_other by lia. rewrite H3 by auto. cbn [cnt].
        replace (st i =? v) with false by lia. f_equal. lia.
    + intros i' Hi'. destruct (Nat.eq_dec i' i) as [->|Hne].
      * rewrite nth_error_upd_same by lia. reflexivity.
      * rewrite nth_error_upd_other; [apply H4; lia|].
        intros Ep. apply Hne. symmetry. apply pos_inj; auto; lia.
  - rewrite E. cbn [bind]. exists idxs. split; [auto|]. split; [auto|]. intros i Hi. apply H4. lia.
Qed.

(** [pos] is onto. *)
Lemma pos_surj p : (p < LEN)%nat -> exists i, (i < LEN)%nat /\ pos i = p.
Proof. clear junk HW HLEN Hls Hrange.
  intros Hp.
  assert (Hin : In p (map pos (seq 0 LEN))).
  { assert (Hincl : incl (seq 0 LEN) (map pos (seq 0 LEN))).
    { apply NoDup_length_incl.
      - assert (Hnd : forall l, NoDup l -> (forall i, In i l -> (i < LEN)%nat) -> NoDup (map pos l)).
        { induction l as [|x l IH]; intros Hn Hl; cbn [map]; constructor.
          - inversion Hn; subst. intros Hin. apply in_map_iff in Hin. destruct Hin as (y & Ey & Hy).
            assert (x = y) by (apply pos_inj; auto; apply Hl; [now left|now right]). subst. auto.
          - inversion Hn; subst. apply IH; auto. intros; apply Hl; now right. }
        apply Hnd; [apply seq_NoDup|]. intros i Hi. apply in_seq in Hi. lia.
      - now rewrite map_length, seq_length.
      - intros x Hx. apply in_map_iff in Hx. destruct Hx as (i & <- & Hi). apply in_seq in Hi.
        apply in_seq. pose proof (pos_lt i). lia. }
    apply Hincl. apply in_seq. lia. }
  apply in_map_iff in Hin. destruct Hin as (i & E & Hi). apply in_seq in Hi. exists i. split; [lia|auto].
Qed.

(** The order [gen_chains] works in. *)
Theorem sort_ok : exists idxs,
  (counts <- count_steps P steps ;; counts <- prefix_counts P counts ;;
   place_chains P junk steps counts) = Some idxs
  /\ length idxs = LEN
  /\ (forall p, (p < LEN)%nat -> exists i, (i < LEN)%nat /\ pos i = p /\ nth_error idxs p = Some (Z.of_nat i)).
Proof.
  destruct count_steps_ok as (c1 & E1 & L1 & N1).
  destruct (prefix_counts_ok c1 L1 N1) as (c2 & E2 & L2 & N2).
  destruct (place_chains_ok c2 L2 N2) as (idxs & E3 & L3 & N3).
  exists idxs. rewrite E1. cbn [bind]. rewrite E2. cbn [bind]. split; [exact E3|]. split; [auto|].
  intros p Hp. destruct (pos_surj p Hp) as (i & Hi & Ei). exists i. split; [auto|]. split; [auto|].
  rewrite <- Ei. auto.
Qed.
End Sort.
