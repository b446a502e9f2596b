(** Proofs about Bench.v. *)
From Coq Require Import Permutation String.
From Verif Require Import Base BaseFacts Params Suite Sign Spec Refine BuildSpec OptBuild OptProofs Text Kat KatSpec KatIo KatProofs Selftest SelftestSpec SelftestProofs SelftestImpl
  Bench BenchSpec KeccakSnPProofs.

(** ** Median *)
Lemma filter_all {A} (p : A -> bool) l : (forall x, In x l -> p x = true) -> filter p l = l.
Proof. induction l as [|x l IH]; intros H; [reflexivity|]. cbn [filter]. rewrite H by now left. f_equal. apply IH. intros y Hy. apply H. now right. Qed.
Lemma filter_none {A} (p : A -> bool) l : (forall x, In x l -> p x = false) -> filter p l = [].
Proof. induction l as [|x l IH]; intros H; [reflexivity|]. cbn [filter]. rewrite H by now left. apply IH. intros y Hy. apply H. now right. Qed.
Lemma filter_perm (p : Z -> bool) l l' : Permutation l l' -> length (filter p l) = length (filter p l').
Proof. induction 1; cbn [filter]; repeat match goal with |- context [if ?b then _ else _] => destruct b end; cbn [length]; congruence. Qed.
Lemma filter_le {A} (p : A -> bool) l : (length (filter p l) <= length l)%nat.
Proof. induction l as [|x l IH]; [apply le_n|]. cbn [filter]. destruct (p x); cbn [length]; lia. Qed.
Lemma order_stat_sorted l k : (forall i j, (i < j < length l)%nat -> nth i l 0 <= nth j l 0) -> (k < length l)%nat -> order_stat l k (nth k l 0).
Proof.
  intros Hs Hk. split; [now apply nth_In|].
  assert (Hle : forall i j, (i <= j)%nat -> (j < length l)%nat -> nth i l 0 <= nth j l 0).
  { intros i j Hij Hj. destruct (Nat.eq_dec i j) as [->|]; [lia|]. apply Hs. lia. }
  assert (Hx : exists x, x = nth k l 0) by now eexists. destruct Hx as [x Hx]. rewrite <- Hx. split.
  - rewrite <- (firstn_skipn k l). rewrite filter_app, app_length, (filter_none _ (skipn k l)).
    + cbn [length]. rewrite Nat.add_0_r. eapply Nat.le_trans; [apply filter_le|]. rewrite firstn_length. lia.
    + subst x. intros x Hx. destruct (In_nth _ _ 0 Hx) as (i & Hi & <-). rewrite skipn_length in Hi. rewrite nth_skipn'.
      apply Z.ltb_ge. apply Hle; lia.
  - rewrite <- (firstn_skipn (S k) l). rewrite filter_app, app_length, (filter_all _ (firstn (S k) l)).
    + rewrite firstn_length. lia.
    + subst x. intros x Hx. destruct (In_nth _ _ 0 Hx) as (i & Hi & <-). rewrite firstn_length in Hi. rewrite nth_firstn'.
      replace (i <? S k)%nat with true by (symmetry; apply Nat.ltb_lt; lia). apply Z.leb_le. apply Hle; lia.
Qed.
Lemma order_stat_perm l l' k x : Permutation l l' -> order_stat l k x -> order_stat l' k x.
Proof.
  intros HP (H1 & H2 & H3). split; [now apply (Permutation_in _ HP)|]. now rewrite <- !(filter_perm _ l l' HP).
Qed.
(** An order statistic is unique. *)
Lemma filter_mono (p q : Z -> bool) l : (forall x, p x = true -> q x = true) -> (length (filter p l) <= length (filter q l))%nat.
Proof.
  intros H. induction l as [|x l IH]; [apply le_n|]. cbn [filter]. destruct (p x) eqn:E.
  - rewrite (H x E). cbn [length]. lia.
  - destruct (q x); cbn [length]; lia.
Qed.
Lemma order_stat_unique l k x y : order_stat l k x -> order_stat l k y -> x = y.
Proof.
  assert (G : forall x y, order_stat l k x -> order_stat l k y -> x <= y).
  { intros a b (_ & Ha & _) (_ & _ & Hb). destruct (Z.le_gt_cases a b) as [H|H]; [exact H|].
    pose proof (filter_mono (fun z => z <=? b) (fun z => z <? a) l ltac:(intros z Hz; lia)). lia. }
  intros H1 H2. apply Z.le_antisymm; now apply G.
Qed.
Lemma qsort_facts q l : qsort_ok q -> Permutation l (q l) /\ forall i j, (i < j < length l)%nat -> nth i (q l) 0 <= nth j (q l) 0.
Proof.
  intros H. destruct (H l) as ((f & F1 & F2 & F3) & L & S). split.
  - apply (Permutation_nth l (q l) 0). split; [exact L|]. exists f. split; [exact F1|]. split; [|exact F3].
    intros i j Hi Hj. now apply F2.
  - intros i j Hij. specialize (S i j Hij). unfold cmp_llu in S.
    destruct (Z.ltb_spec (nth i (q l) 0) (nth j (q l) 0)); [lia|]. destruct (Z.ltb_spec (nth j (q l) 0) (nth i (q l) 0)); lia.
Qed.
Theorem median_ok q l n : qsort_ok q -> (1 <= n <= length l)%nat ->
  exists r l', median q l n = Some (r, l')
    /\ if (n mod 2 =? 0)%nat
       then exists a b, order_stat (firstn n l) (n / 2 - 1) a /\ order_stat (firstn n l) (n / 2) b /\ r = (a + b) mod 2 ^ 64 / 2
       else order_stat (firstn n l) (n / 2) r.
Proof.
  intros Hq Hn. unfold median. rewrite rd_ok by lia. cbn [skipn bind]. set (a := firstn n l).
  assert (La : length a = n) by (unfold a; rewrite firstn_length; lia).
  destruct (qsort_facts q a Hq) as (HP & HS). pose proof (Permutation_length HP) as Lq. rewrite La in Lq, HS.
  destruct (wr_at l 0 (q a)) as (l' & E & L' & N'); [lia|]. rewrite E. cbn [bind].
  assert (Hnth : forall k, (k < n)%nat -> get l' k = Some (nth k (q a) 0)).
  { intros k Hk. rewrite (ShakeProofs.get_nth l' k 0) by lia. f_equal. rewrite N', <- Lq. cbn [Nat.leb andb Nat.add].
    replace (k <? n)%nat with true by (symmetry; apply Nat.ltb_lt; lia). f_equal. lia. }
  assert (OS : forall k, (k < n)%nat -> order_stat a k (nth k (q a) 0)).
  { intros k Hk. apply (order_stat_perm (q a)); [now apply Permutation_sym|]. apply order_stat_sorted; rewrite <- Lq; [exact HS|exact Hk]. }
  pose proof (Nat.div_mod n 2 ltac:(lia)) as Hd. pose proof (Nat.mod_upper_bound n 2 ltac:(lia)) as Hm.
  set (h := (n / 2)%nat) in *. set (m := (n mod 2)%nat) in *. clearbody h m. destruct (Nat.eqb_spec m 0) as [H0|H0].
  - replace (1 <=? h)%nat with true by (symmetry; apply Nat.leb_le; lia). cbn [guard bind].
    rewrite !Hnth by lia. cbn [bind]. eexists _, _. split; [reflexivity|]. eexists _, _. split; [apply OS; lia|]. split; [apply OS; lia|reflexivity].
  - rewrite Hnth by lia. cbn [bind]. eexists _, _. split; [reflexivity|]. apply OS. lia.
Qed.
Theorem delta_ok l n : (1 <= n <= length l)%nat -> exists l', delta l n = Some l' /\ length l' = length l
  /\ (forall i, (i < n - 1)%nat -> nth i l' 0 = (nth (i + 1) l 0 - nth i l 0) mod 2 ^ 64) /\ (forall i, (n - 1 <= i)%nat -> nth i l' 0 = nth i l 0).
Proof.
  intros Hn. unfold delta. replace (1 <=? n)%nat with true by (symmetry; apply Nat.leb_le; lia). cbn [guard bind].
  match goal with |- context [iterM ?k 0 ?f ?s] => destruct (iterM_inv k 0 f (fun m l' => length l' = length l
    /\ (forall i, (i < m)%nat -> nth i l' 0 = (nth (i + 1) l 0 - nth i l 0) mod 2 ^ 64) /\ (forall i, (m <= i)%nat -> nth i l' 0 = nth i l 0)) s)
    as (l' & E & H) end.
  - split; [reflexivity|]. split; [lia|reflexivity].
  - intros i t Hi (L & A & B). rewrite !(ShakeProofs.get_nth t _ 0) by lia. cbn [bind].
    match goal with |- context [wr t i ?d] => destruct (wr_at t i d) as (t' & E & L' & N'); [cbn [length]; lia|] end.
    exists t'. split; [exact E|]. split; [lia|]. cbn [length] in N'. split.
    + intros k Hk. rewrite N'. destruct (Nat.leb_spec i k), (Nat.ltb_spec k (i + 1)); cbn [andb]; try lia; try (apply A; lia).
      assert (k = i) by lia. subst k. rewrite Nat.sub_diag. cbn [nth]. rewrite !B by lia. reflexivity.
    + intros k Hk. rewrite N'. destruct (Nat.leb_spec i k), (Nat.ltb_spec k (i + 1)); cbn [andb]; try lia; apply B; lia.
  - exists l'. split; [exact E|]. exact H.
Qed.

(** ** Numbers *)
Lemma D10_app a n q r : n = 1000 * q + r -> 0 <= r < 1000 -> D10 (a + 3) n = D10 a q ++ D10 3 r.
Proof.
  intros -> Hr. replace (a + 3)%nat with (S (S (S a))) by lia. rewrite !D10_snoc, <- !app_assoc.
  assert (E3 : (1000 * q + r) / 10 / 10 / 10 = q) by (rewrite !Z.div_div by lia; Z.to_euclidean_division_equations; lia).
  rewrite E3. f_equal. change (D10 0 (r / 10 / 10 / 10)) with ([] : bytes). cbn [app].
  assert (A1 : (1000 * q + r) / 10 / 10 mod 10 = r / 10 / 10 mod 10) by (Z.to_euclidean_division_equations; lia).
  assert (A2 : (1000 * q + r) / 10 mod 10 = r / 10 mod 10) by (Z.to_euclidean_division_equations; lia).
  assert (A3 : (1000 * q + r) mod 10 = r mod 10) by (Z.to_euclidean_division_equations; lia).
  now rewrite A1, A2, A3.
Qed.
Lemma digits_add k q r : digits_are k q -> 1 <= q -> 0 <= r < 1000 -> digits_are (k + 3) (1000 * q + r).
Proof.
  intros (K1 & K2 & K3) Hq Hr. split; [lia|]. rewrite Nat2Z.inj_add, Z.pow_add_r by lia. change (10 ^ Z.of_nat 3) with 1000.
  split; [lia|]. right. replace (k + 3 - 1)%nat with (k - 1 + 3)%nat by lia. rewrite Nat2Z.inj_add, Z.pow_add_r by lia. change (10 ^ Z.of_nat 3) with 1000.
  destruct K3 as [->|K3]; [change (10 ^ Z.of_nat (1 - 1)) with 1; lia|lia].
Qed.
Lemma D10_no_comma k n c : In c (D10 k n) -> (c =? 44) = false.
Proof.
  intros H. unfold D10 in H. apply in_map_iff in H as (j & <- & _).
  match goal with |- context [?x mod 10] => pose proof (Z.mod_pos_bound x 10 ltac:(lia)) end. apply Z.eqb_neq. lia.
Qed.
Lemma D10_length k n : length (D10 k n) = k.
Proof. unfold D10. now rewrite map_length, seq_length. Qed.
Lemma print3 r : 0 <= r < 1000 -> print_dec3 r = D10 3 r.
Proof.
  intros Hr. unfold print_dec3.
  assert (G : forall k, digits_are k r -> print_dec r = D10 k r).
  { intros k Hk. rewrite print_decimal, (decimal_D10 r k) by (auto; change (10 ^ 20) with 100000000000000000000; lia). reflexivity. }
  destruct (Z.lt_ge_cases r 10) as [H1|H1].
  - rewrite (G 1%nat); [|split; [lia|split; [exact H1|now left]]]. rewrite D10_length. cbn [Nat.sub repeat app].
    rewrite (D10_S 2), (D10_S 1). change (10 ^ Z.of_nat 2) with 100. change (10 ^ Z.of_nat 1) with 10.
    now rewrite !Z.div_small by lia.
  - destruct (Z.lt_ge_cases r 100) as [H2|H2].
    + rewrite (G 2%nat); [|split; [lia|split; [exact H2|now right]]]. rewrite D10_length. cbn [Nat.sub repeat app].
      rewrite (D10_S 2). change (10 ^ Z.of_nat 2) with 100. now rewrite !Z.div_small by lia.
    + rewrite (G 3%nat); [|split; [lia|split; [lia|now right]]]. rewrite D10_length. reflexivity.
Qed.
Definition sep (t : bytes) : Prop := forall p, (p < length t)%nat -> (nth p (rev t) 0 = 44 <-> (p mod 4 = 3)%nat).
Lemma nth_rev_D10 k n p : (p < k)%nat -> nth p (rev (D10 k n)) 0 <> 44.
Proof.
  intros Hp E. assert (I : In 44 (D10 k n)).
  { rewrite in_rev, <- E. apply nth_In. rewrite rev_length, D10_length. exact Hp. }
  apply D10_no_comma in I. discriminate.
Qed.
Lemma sep_add t r : sep t -> sep (t ++ 44 :: D10 3 r).
Proof.
  intros Hs p Hp. rewrite rev_app_distr. cbn [rev]. rewrite <- !app_assoc. rewrite app_length in Hp. cbn [length] in Hp. rewrite D10_length in Hp.
  destruct (Nat.lt_ge_cases p 3) as [H|H].
  - rewrite app_nth1 by (rewrite rev_length, D10_length; exact H). split; intros E.
    + exfalso. now apply (nth_rev_D10 3 r p).
    + rewrite Nat.mod_small in E by lia. lia.
  - rewrite app_nth2; rewrite rev_length, D10_length; [|exact H]. destruct (Nat.eq_dec p 3) as [->|Hne].
    + cbn. tauto.
    + replace (p - 3)%nat with (S (p - 4)) by lia. cbn [app nth]. specialize (Hs (p - 4)%nat ltac:(lia)). rewrite Hs.
      replace p with (p - 4 + 1 * 4)%nat at 2 by lia. rewrite Nat.mod_add by lia. reflexivity.
Qed.
Lemma sep_D10 k n : (k <= 3)%nat -> sep (D10 k n).
Proof.
  intros Hk p Hp. rewrite D10_length in Hp. rewrite Nat.mod_small by lia. split; [|lia].
  intros E. exfalso. now apply (nth_rev_D10 k n p).
Qed.
Lemma comma_ok : forall fuel n k, 0 <= n < 1000 ^ Z.of_nat (S fuel) -> n < 10 ^ 20 -> digits_are k n ->
  exists t, printfcomma (S fuel) n = Some t /\ filter (fun c => negb (c =? 44)) t = D10 k n /\ sep t /\ length t = (k + (k - 1) / 3)%nat.
Proof.
  assert (NF : forall k n, filter (fun c => negb (c =? 44)) (D10 k n) = D10 k n).
  { intros k n. apply filter_all. intros x Hx. now rewrite (D10_no_comma _ _ _ Hx). }
  induction fuel as [|fuel IH]; intros n k Hn H20 Hk.
  all: cbn [printfcomma]; destruct (Z.ltb_spec n 1000) as [H|H].
  2: change (1000 ^ Z.of_nat 1) with 1000 in Hn; lia.
  1, 2: assert (K3 : (k <= 3)%nat)
    by (destruct (Nat.le_gt_cases k 3) as [HH|HH]; [exact HH|]; destruct Hk as (_ & _ & [Hk|Hk]); [lia|];
        assert (10 ^ 3 <= 10 ^ Z.of_nat (k - 1)) by (apply Z.pow_le_mono_r; lia); change (10 ^ 3) with 1000 in *; lia);
    exists (D10 k n); split; [f_equal; rewrite print_decimal, (decimal_D10 n k) by (auto; lia); reflexivity|];
    split; [apply NF|]; split; [now apply sep_D10|]; rewrite D10_length; pose proof (proj1 Hk); destruct k as [|[|[|[|k]]]]; try lia; reflexivity.
  - assert (Hq : 1 <= n / 1000) by (apply Z.div_le_lower_bound; lia).
    pose proof (Z.mod_pos_bound n 1000 ltac:(lia)) as Hr. pose proof (Z.div_mod n 1000 ltac:(lia)) as Hdm.
    destruct (digits_ex (n / 1000)) as [k' Hk']; [lia|].
    assert (Ek : k = (k' + 3)%nat).
    { pose proof (digits_add k' (n / 1000) (n mod 1000) Hk' Hq Hr) as Hd. rewrite <- Hdm in Hd.
      destruct (ndigits_ok n k) as [E1 _]; [lia|exact Hk|]. destruct (ndigits_ok n (k' + 3)) as [E2 _]; [lia|exact Hd|]. congruence. }
    destruct (IH (n / 1000) k') as (t & E & F & Hs & L).
    + rewrite (Nat2Z.inj_succ (S fuel)), Z.pow_succ_r in Hn by lia. split; [lia|]. apply Z.div_lt_upper_bound; lia.
    + eapply Z.le_lt_trans; [|exact H20]. apply Z.div_le_upper_bound; lia.
    + exact Hk'.
    + cbn [printfcomma] in E. rewrite E. cbn [bind]. rewrite print3 by exact Hr. eexists. split; [reflexivity|]. split; [|split].
      * rewrite filter_app. cbn [filter Z.eqb negb]. change (44 =? 44) with true. cbn [negb]. rewrite F, NF. subst k. symmetry. now apply D10_app.
      * now apply sep_add.
      * rewrite app_length. cbn [length]. rewrite D10_length, L. subst k. pose proof (proj1 Hk').
        replace (k' + 3 - 1)%nat with (k' - 1 + 1 * 3)%nat by lia. rewrite Nat.div_add by lia. lia.
Qed.
Theorem printfcomma_ok n : 0 <= n < 2 ^ 64 -> exists t, printfcomma 7 n = Some t /\ grouped n t /\ length t = (ndigits n + (ndigits n - 1) / 3)%nat.
Proof.
  intros Hn. assert (H20 : 0 <= n < 10 ^ 20) by (split; [lia|]; eapply Z.lt_le_trans; [apply Hn|]; vm_compute; discriminate).
  destruct (digits_ex n) as [k Hk]; [lia|]. destruct (comma_ok 6 n k) as (t & E & F & Hs & L); [|lia|exact Hk|].
  - split; [lia|]. eapply Z.lt_le_trans; [apply Hn|]. vm_compute. discriminate.
  - exists t. split; [exact E|]. destruct (ndigits_ok n k H20 Hk) as [En _]. rewrite En. split; [|exact L]. split; [|exact Hs].
    rewrite F. symmetry. now apply decimal_D10.
Qed.
Lemma digit_loop_ok : forall fuel n len i k, 0 <= n -> digits_are k n -> (k <= fuel)%nat ->
  digit_loop fuel n len i = Some (len - Z.of_nat (k - 1), i + Z.of_nat (k - 1)).
Proof.
  induction fuel as [|fuel IH]; intros n len i k Hn Hk Hf; [destruct Hk; lia|]. cbn [digit_loop].
  destruct (Z.ltb_spec 9 n) as [H|H].
  - destruct k as [|k]; [destruct Hk; lia|].
    assert (K : (1 <= k)%nat). { destruct Hk as (_ & Hk & _). destruct k; [|lia]. change (10 ^ Z.of_nat 1) with 10 in Hk. lia. }
    rewrite (IH (n / 10) _ _ k); [f_equal; f_equal; lia|apply Z.div_pos; lia| |lia].
    destruct Hk as (_ & K2 & K3). rewrite Nat2Z.inj_succ, Z.pow_succ_r in K2 by lia.
    split; [exact K|]. split; [apply Z.div_lt_upper_bound; lia|].
    destruct (Nat.eq_dec k 1) as [->|Hk1]; [now left|right].
    destruct K3 as [K3|K3]; [lia|]. replace (S k - 1)%nat with (S (k - 1)) in K3 by lia.
    rewrite Nat2Z.inj_succ, Z.pow_succ_r in K3 by lia. apply Z.div_le_lower_bound; lia.
  - assert (k = 1%nat) as ->.
    { destruct Hk as (K1 & _ & [K3|K3]); [exact K3|]. destruct k as [|[|k]]; [lia|reflexivity|].
      exfalso. replace (S (S k) - 1)%nat with (S k) in K3 by lia. rewrite Nat2Z.inj_succ, Z.pow_succ_r in K3 by lia.
      assert (0 < 10 ^ Z.of_nat k) by (apply Z.pow_pos_nonneg; lia). lia. }
    f_equal. f_equal; lia.
Qed.
Theorem aligned_ok n len : 0 <= n < 2 ^ 64 -> exists t sp, printfalignedcomma n len = Some (repeat 32 sp ++ t) /\ grouped n t
  /\ Z.of_nat (sp + length t) = Z.max (len + 2) (Z.of_nat (length t)).
Proof.
  intros Hn. assert (H20 : 0 <= n < 10 ^ 20) by (split; [lia|]; eapply Z.lt_le_trans; [apply Hn|]; vm_compute; discriminate).
  destruct (digits_ex n) as [k Hk]; [lia|]. destruct (ndigits_ok n k H20 Hk) as [En K20].
  destruct (printfcomma_ok n Hn) as (t & E & G & L). unfold printfalignedcomma.
  rewrite (digit_loop_ok 20 n len 0 k) by (auto; lia). cbn [bind]. rewrite E. cbn [bind]. eexists t, _. split; [reflexivity|]. split; [exact G|].
  rewrite En in L. rewrite L. pose proof (proj1 Hk) as K1. rewrite Z.add_0_l.
  replace (Z.of_nat (k - 1) / 3) with (Z.of_nat ((k - 1) / 3)) by (rewrite Nat2Z.inj_div; reflexivity).
  set (h := ((k - 1) / 3)%nat) in *. clearbody h. lia.
Qed.

(** ** One measurement *)
Lemma samples_nth cycles corr i : (i <= NTESTS)%nat -> nth i (samples cycles corr) 0 = if (i <? NTESTS)%nat then cycles i / corr else cycles NTESTS.
Proof.
  intros Hi. unfold NTESTS, samples in *. do 11 (destruct i as [|i]; [reflexivity|]). lia.
Qed.
Lemma nth_map_seq (g : nat -> Z) n i : (i < n)%nat -> nth i (map g (seq 0 n)) 0 = g i.
Proof.
  intros Hi. rewrite (nth_indep _ 0 (g 0%nat)) by (rewrite map_length, seq_length; exact Hi). now rewrite map_nth, seq_nth.
Qed.
Lemma measure_core q cycles mul corr : qsort_ok q -> (forall i, (i <= NTESTS)%nat -> 0 <= cycles i < 2 ^ 64) ->
  let d i := if (i =? NTESTS - 1)%nat then cycles (i + 1)%nat - cycles i / corr else cycles (i + 1)%nat / corr - cycles i / corr in
  let l := map (fun i => d i mod 2 ^ 64) (seq 0 NTESTS) in
  exists a b, order_stat l 4 a /\ order_stat l 5 b
    /\ MEASURE_GENERIC q cycles mul corr
       = (let m := (a + b) mod 2 ^ 64 / 2 in s <- printfalignedcomma m 12 ;; t <- printfalignedcomma (u64 (mul * m)) 12 ;; Some (s, t)).
Proof.
  intros Hq Hc d l. unfold MEASURE_GENERIC, display_result.
  assert (Ls : length (samples cycles corr) = (NTESTS + 1)%nat) by reflexivity.
  destruct (delta_ok (samples cycles corr) (NTESTS + 1)) as (l' & E & L' & A & _); [unfold NTESTS in *; lia|]. rewrite E. cbn [bind]. clear E.
  destruct (median_ok q l' NTESTS Hq) as (m & l'' & Em & M); [unfold NTESTS in *; lia|]. rewrite Em. cbn [bind]. clear Em.
  assert (El : firstn NTESTS l' = l).
  { apply (nth_ext _ _ 0 0).
    - rewrite firstn_length, L', Ls. reflexivity.
    - intros i Hi. rewrite firstn_length, L', Ls in Hi. assert (Hi' : (i < NTESTS)%nat) by lia. rewrite nth_firstn'.
      replace (i <? NTESTS)%nat with true by (symmetry; apply Nat.ltb_lt; lia). rewrite A by lia. unfold l.
      rewrite (nth_map_seq (fun i => d i mod 2 ^ 64)) by lia. unfold d. rewrite !samples_nth by lia. replace (i <? NTESTS)%nat with true by (symmetry; apply Nat.ltb_lt; lia).
      destruct (Nat.eqb_spec i (NTESTS - 1)) as [->|Hn].
      + change (NTESTS - 1 + 1)%nat with NTESTS. rewrite Nat.ltb_irrefl. reflexivity.
      + replace (i + 1 <? NTESTS)%nat with true by (symmetry; apply Nat.ltb_lt; unfold NTESTS in *; lia). reflexivity. }
  rewrite El in M. change (NTESTS mod 2 =? 0)%nat with true in M. cbv iota in M. destruct M as (a & b & Ha & Hb & Em).
  change (NTESTS / 2 - 1)%nat with 4%nat in Ha. change (NTESTS / 2)%nat with 5%nat in Hb.
  exists a, b. split; [exact Ha|]. split; [exact Hb|]. rewrite <- Em. reflexivity.
Qed.
Theorem measure_ok q cycles mul corr : qsort_ok q -> (forall i, (i <= NTESTS)%nat -> 0 <= cycles i < 2 ^ 64) ->
  let d i := if (i =? NTESTS - 1)%nat then cycles (i + 1)%nat - cycles i / corr else cycles (i + 1)%nat / corr - cycles i / corr in
  let l := map (fun i => d i mod 2 ^ 64) (seq 0 NTESTS) in
  exists a b m s t, order_stat l 4 a /\ order_stat l 5 b /\ m = (a + b) mod 2 ^ 64 / 2
    /\ MEASURE_GENERIC q cycles mul corr = Some (s, t)
    /\ (exists sp g, s = repeat 32 sp ++ g /\ grouped m g) /\ exists sp g, t = repeat 32 sp ++ g /\ grouped ((mul * m) mod 2 ^ 64) g.
Proof.
  intros Hq Hc d l. destruct (measure_core q cycles mul corr Hq Hc) as (a & b & Ha & Hb & EM). rewrite EM. clear EM. cbv zeta.
  exists a, b. set (m := (a + b) mod 2 ^ 64 / 2).
  assert (Hm : 0 <= m < 2 ^ 64).
  { pose proof (Z.mod_pos_bound (a + b) (2 ^ 64) ltac:(lia)). unfold m. split; [apply Z.div_pos; lia|]. apply Z.div_lt_upper_bound; lia. }
  destruct (aligned_ok m 12 Hm) as (g1 & sp1 & E1 & G1 & _). rewrite E1. cbn [bind].
  destruct (aligned_ok (u64 (mul * m)) 12) as (g2 & sp2 & E2 & G2 & _); [apply Z.mod_pos_bound; lia|]. rewrite E2. cbn [bind].
  eexists m, _, _. split; [exact Ha|]. split; [exact Hb|]. split; [reflexivity|]. split; [reflexivity|].
  split; eexists _, _; (split; [reflexivity|]); [exact G1|exact G2].
Qed.

(** With CORR = 1000 the last of the ten values is not the time of a run. *)
Definition odd_clock (i : nat) : Z := nth i [0; 1; 2; 3; 4; 9; 14; 19; 24; 29; 30] 0 * 1000000.
Theorem measurt_off q : qsort_ok q ->
  let times := map (fun i => (odd_clock (i + 1) - odd_clock i) / 1000) (seq 0 NTESTS) in
  order_stat times 4 1000 /\ order_stat times 5 5000
  /\ MEASURE_GENERIC q odd_clock 1 1000 = Some (repeat 32 9 ++ str "5,000", repeat 32 9 ++ str "5,000").
Proof.
  intros Hq times.
  assert (D : forall l k x, In x l -> (length (filter (fun y => y <? x)%Z l) <=? k)%nat && (k <? length (filter (fun y => y <=? x)%Z l))%nat = true -> order_stat l k x).
  { intros l k x I H. apply andb_prop in H as [H1 H2]. split; [exact I|]. split; [now apply Nat.leb_le|now apply Nat.ltb_lt]. }
  split; [apply D; [now left|reflexivity]|]. split; [apply D; [do 4 right; now left|reflexivity]|].
  destruct (measure_core q odd_clock 1 1000 Hq) as (a & b & Ha & Hb & E).
  { intros i Hi. unfold NTESTS in Hi. do 11 (destruct i as [|i]; [vm_compute; split; [discriminate|reflexivity]|]). lia. }
  cbv zeta in Ha, Hb. match type of Ha with order_stat ?l _ _ => set (L := l) in Ha, Hb end.
  assert (EL : L = [1000; 1000; 1000; 1000; 5000; 5000; 5000; 5000; 5000; 29971000]) by reflexivity. rewrite EL in Ha, Hb. clear EL L.
  assert (a = 5000) by (apply (order_stat_unique _ 4 _ _ Ha), D; [do 4 right; now left|reflexivity]).
  assert (b = 5000) by (apply (order_stat_unique _ 5 _ _ Hb), D; [do 4 right; now left|reflexivity]).
  subst a b. rewrite E. vm_compute. reflexivity.
Qed.
Theorem median_wraps q : qsort_ok q -> exists l', median q [2 ^ 63; 2 ^ 63] 2 = Some (0, l').
Proof.
  intros Hq. destruct (median_ok q [2 ^ 63; 2 ^ 63] 2 Hq) as (r & l' & E & a & b & (Ia & _) & (Ib & _) & R); [cbn [length]; lia|].
  exists l'. rewrite E. f_equal. f_equal. rewrite R. destruct Ia as [<-|[<-|[]]]; destruct Ib as [<-|[<-|[]]]; reflexivity.
Qed.
(** qsort_ok can be met *)
Fixpoint insert (x : Z) (l : list Z) : list Z := match l with [] => [x] | y :: r => if x <=? y then x :: l else y :: insert x r end.
Definition isort (l : list Z) : list Z := fold_right insert [] l.
Lemma insert_perm x l : Permutation (x :: l) (insert x l).
Proof.
  induction l as [|y l IH]; [apply Permutation_refl|]. cbn [insert]. destruct (x <=? y); [apply Permutation_refl|].
  eapply perm_trans; [apply perm_swap|]. now apply perm_skip.
Qed.
Lemma insert_sorted x : forall l, (forall i j, (i < j < length l)%nat -> nth i l 0 <= nth j l 0) ->
  forall i j, (i < j < length (insert x l))%nat -> nth i (insert x l) 0 <= nth j (insert x l) 0.
Proof.
  induction l as [|y l IH]; intros H i j Hij; [cbn in Hij; lia|].
  assert (Ha : forall z, In z l -> y <= z).
  { intros z Hz. destruct (In_nth _ _ 0 Hz) as (k & Hk & <-). apply (H 0%nat (S k)). cbn [length]. lia. }
  cbn [insert] in *. destruct (Z.leb_spec x y) as [Hx|Hx].
  - destruct j as [|j]; [lia|]. destruct i as [|i]; [|apply (H i j); cbn [length] in *; lia].
    change (x <= nth j (y :: l) 0). destruct j as [|j]; [exact Hx|]. cbn [length] in Hij. assert (Hj : (j < length l)%nat) by lia. specialize (Ha (nth j l 0) (nth_In l 0 Hj)).
    cbn [nth]. lia.
  - destruct j as [|j]; [lia|]. cbn [length] in Hij. destruct i as [|i].
    + cbn [nth]. assert (I : In (nth j (insert x l) 0) (insert x l)) by (apply nth_In; lia).
      apply (Permutation_in _ (Permutation_sym (insert_perm x l))) in I. destruct I as [<-|I]; [lia|now apply Ha].
    + cbn [nth]. apply IH; [|lia]. intros i' j' H'. apply (H (S i') (S j')). cbn [length]. lia.
Qed.
Theorem isort_ok : qsort_ok isort.
Proof.
  intros l. assert (HP : Permutation l (isort l)).
  { induction l as [|x l IH]; [apply perm_nil|]. cbn [isort fold_right]. eapply perm_trans; [apply perm_skip, IH|apply insert_perm]. }
  pose proof (Permutation_length HP) as L. split; [|split; [now symmetry|]].
  - apply (Permutation_nth l (isort l) 0) in HP as (_ & f & F1 & F2 & F3). exists f. split; [exact F1|]. split; [|exact F3].
    intros i j Hi Hj. now apply F2.
  - assert (S : forall i j, (i < j < length (isort l))%nat -> nth i (isort l) 0 <= nth j (isort l) 0).
    { clear HP L. induction l as [|x l IH]; [cbn; lia|]. cbn [isort fold_right]. apply insert_sorted, IH. }
    intros i j Hij. specialize (S i j ltac:(lia)). unfold cmp_llu. destruct (Z.ltb_spec (nth i (isort l) 0) (nth j (isort l) 0)); [lia|].
    destruct (Z.ltb_spec (nth j (isort l) 0) (nth i (isort l) 0)); lia.
Qed.

(** ** The chain of keys, signature and message *)
Section Api.
Variable im : impl.
Variable robust : bool.
Variable P : params.
Hypothesis Hi : i_ok im P.
Notation N := (p_n P).
Notation f := (i_family im).
Notation SB := (SPX_BYTES P).

Lemma all_skipn_b n (l : bytes) : all_bytes l -> all_bytes (skipn n l).
Proof. intros H. apply Forall_forall. intros x Hx. eapply Forall_forall; [exact H|]. rewrite <- (firstn_skipn n). apply in_or_app. now right. Qed.
Lemma all_firstn_b n (l : bytes) : all_bytes l -> all_bytes (firstn n l).
Proof. intros H. apply Forall_forall. intros x Hx. eapply Forall_forall; [exact H|]. rewrite <- (firstn_skipn n). apply in_or_app. now left. Qed.

Theorem bench_ok us junk n stream : all_bytes stream -> (32 + addr_bytes im + n * (4 * N) <= length stream)%nat ->
  bench_api im robust P us junk n stream = Some (firstn 32 stream, repeat (0, firstn 32 stream) n).
Proof.
  intros Bst Lst. unfold bench_api, randombytes. change SPX_MLEN with 32%nat.
  rewrite rd_ok by lia. change (skipn 0 stream) with stream. cbn [bind]. set (msg := firstn 32 stream).
  assert (Lm : length msg = 32%nat) by (unfold msg; rewrite firstn_length; lia).
  assert (Bm : all_bytes msg) by now apply all_firstn_b.
  rewrite rd_ok by (rewrite skipn_length; lia). cbn [bind]. rewrite skipn_skipn.
  set (st := skipn (addr_bytes im + 32) stream).
  assert (Lt : (n * (4 * N) <= length st)%nat) by (unfold st; rewrite skipn_length; lia).
  assert (Bt : all_bytes st) by now apply all_skipn_b. clearbody st. clear Lst Bst. clearbody msg. clear stream.
  assert (RD : forall ks, root_of f robust P ks = ht_root (dims_of P) (spec_T f N robust (skipn (2 * N) ks)) (spec_PRF f N (skipn (2 * N) ks) (firstn N ks))) by reflexivity.
  match goal with |- context [iterM n 0 ?g ?s] => destruct (iterM_inv n 0 g (fun i x => let '(pk, sk, st') := x in
     length pk = SPX_PK_BYTES P /\ length sk = SPX_SK_BYTES P /\ all_bytes st' /\ length st' = (length st - i * (3 * N))%nat
     /\ (i = 0%nat \/ exists ks, length ks = (3 * N)%nat /\ all_bytes ks /\ pk = skipn (2 * N) ks ++ root_of f robust P ks /\ sk = ks ++ root_of f robust P ks)) s)
     as (((pk & sk) & st1) & E & Lpk & Lsk & B1 & L1 & K) end.
  { cbn beta iota. repeat split; auto; try (unfold junk_bytes; rewrite map_length; apply seq_length). lia. }
  { intros i ((pk1 & sk1) & st1) Hin (Lpk & Lsk & B1 & L1 & _).
    assert (L3 : (3 * N <= length st1)%nat) by nia.
    rewrite <- (firstn_skipn (3 * N) st1). set (ks := firstn (3 * N) st1). set (st2 := skipn (3 * N) st1).
    assert (Lks : length ks = (3 * N)%nat) by (unfold ks; rewrite firstn_length; lia).
    assert (Bks : all_bytes ks) by now apply all_firstn_b.
    rewrite (run_keys im robust P Hi (us i) ks st2 pk1 sk1 Lks Bks Lpk Lsk). cbn [bind]. rewrite <- RD.
    destruct (key_facts im robust P Hi ks Lks Bks) as (_ & _ & _ & _ & F1 & _ & F2 & _).
    eexists. split; [reflexivity|]. cbn beta iota. split; [exact F1|]. split; [exact F2|]. split; [now apply all_skipn_b|].
    split; [unfold st2; rewrite skipn_length, L1; nia|]. right. exists ks. auto. }
  rewrite E. cbn [bind]. clear E. rewrite Nat.add_0_l in *.
  destruct n as [|n']; [reflexivity|]. set (n := S n') in *. destruct K as [K|(ks & Lks & Bks & -> & ->)]; [discriminate|].
  match goal with |- context [iterM n 0 ?g ?s] => destruct (iterM_inv n 0 g (fun i x => let '(sm, smlen, st') := x in
     length sm = (SB + 32)%nat /\ all_bytes st' /\ length st' = (length st1 - i * N)%nat
     /\ (i = 0%nat \/ exists optrand, length optrand = N /\ all_bytes optrand /\ sm = signature_of f robust P ks optrand msg ++ msg
          /\ smlen = Z.of_nat (SB + 32))) s) as (((sm & smlen) & st2) & E & Lsm & B2 & L2 & K) end.
  { cbn beta iota. repeat split; auto; try (unfold junk_bytes; rewrite map_length; apply seq_length). lia. }
  { intros i ((sm1 & smlen1) & st2) Hin (Lsm & B2 & L2 & _).
    assert (L3 : (N <= length st2)%nat) by nia. rewrite <- (firstn_skipn N st2). set (o := firstn N st2). set (st3 := skipn N st2).
    assert (Lo : length o = N) by (unfold o; rewrite firstn_length; lia).
    assert (Bo : all_bytes (o ++ st3)) by (unfold o, st3; rewrite firstn_skipn; exact B2).
    destruct (sign_run im robust P Hi ks o st3 Lks Bks Lo Bo (us (n + i)%nat) sm1 msg Bm) as (S1 & S2 & S3); [lia|lia|].
    rewrite S1. cbn [bind]. eexists. split; [reflexivity|]. cbn beta iota. rewrite app_length, S2, Lm. split; [reflexivity|].
    split; [now apply all_skipn_b|]. split; [unfold st3; rewrite skipn_length, L2; nia|]. right. exists o.
    split; [exact Lo|]. split; [apply Forall_app in Bo; apply Bo|]. split; reflexivity. }
  rewrite E. cbn [bind]. clear E. rewrite Nat.add_0_l in *. destruct K as [K|(o & Lo & Bo & -> & ->)]; [discriminate|].
  assert (O : forall u m0, length m0 = (SB + 32)%nat ->
     i_open im robust P u m0 (signature_of f robust P ks o msg ++ msg) (Z.of_nat (SB + 32)) (skipn (2 * N) ks ++ root_of f robust P ks)
     = Some (0, msg ++ skipn 32 m0, 32)).
  { intros u m0 L0. pose proof (impl_run im robust P Hi u u u ks o msg (repeat 0 (SPX_PK_BYTES P)) (repeat 0 (SPX_SK_BYTES P))
      (repeat 0 (SB + length msg)) m0 Lks Bks Lo Bo Bm ltac:(lia) (repeat_length _ _) (repeat_length _ _) (repeat_length _ _) ltac:(lia)) as (_ & _ & O & _).
    cbv zeta in O. rewrite <- RD in O.
    assert (Esm : entry_signed f robust P (ks ++ root_of f robust P ks) o msg = signature_of f robust P ks o msg ++ msg).
    { unfold entry_signed. destruct (sk_parts im robust P Hi ks Lks Bks) as (E1 & E2 & E3 & E4). rewrite E1, E2, E3, E4. reflexivity. }
    rewrite Esm, Lsm, Lm in O. exact O. }
  match goal with |- context [iterM n 0 ?g ?s] => destruct (iterM_inv n 0 g (fun i x => let '(mo, res) := x in
     length mo = (SB + 32)%nat /\ res = repeat (0, msg) i) s) as ((mo & res) & E & _ & K) end.
  { cbn beta iota. split; [unfold junk_bytes; rewrite map_length; apply seq_length|reflexivity]. }
  { intros i (m0 & res) Hin (L0 & ->). rewrite O by exact L0. cbn [bind].
    assert (L4 : length (msg ++ skipn 32 m0) = (SB + 32)%nat) by (rewrite app_length, skipn_length; lia).
    change (Z.to_nat 32) with 32%nat. rewrite rd_ok by lia. cbn [bind]. change (skipn 0 (msg ++ skipn 32 m0)) with (msg ++ skipn 32 m0).
    eexists. split; [reflexivity|]. cbn beta iota. split; [exact L4|].
    rewrite firstn_app, <- Lm, firstn_all, Nat.sub_diag, firstn_O, app_nil_r. now rewrite <- repeat_cons. }
  rewrite E. cbn [bind]. rewrite Nat.add_0_l in K. now rewrite K.
Qed.
End Api.
