(** The call log covers verification; honest inputs are unique per address; what the signer releases. *)
From Coq Require Import List ZArith Lia.
From Verif Require Import Spec SpecFacts ForgeSpec.
Import ListNotations.
Open Scope Z_scope.

(** ** The call log is complete: a hash function that agrees on the logged calls gives the same root *)
Section Log.
Variable D : dims.
Variables T T' : adrs -> list Z -> list Z.
Definition agree (cs : list call) : Prop := forall a x, In (a, x) cs -> T' a x = T a x.
Lemma agree_app a b : agree (a ++ b) -> agree a /\ agree b.
Proof. clear. intros H. split; intros ad x Hx; apply H, in_or_app; auto. Qed.
Lemma climb_log ad p : forall h i x, agree (climb_calls T ad h i x p) ->
  climb (fun h i => T' (ad h i)) h i x p = climb (fun h i => T (ad h i)) h i x p.
Proof. clear.
  induction p as [|s p IH]; intros h i x H; cbn [climb climb_calls] in *; [reflexivity|]. cbv zeta in *.
  rewrite (H _ _ (or_introl eq_refl)). apply IH. intros a y Hy. apply H. now right.
Qed.
Lemma chain_log layer tree kp i x s k : agree (chain_calls T layer tree kp i x s k) ->
  chain T' layer tree kp i x s k = chain T layer tree kp i x s k.
Proof. clear.
  induction k as [|k IH]; intros H; cbn [chain chain_calls] in *; [reflexivity|].
  rewrite IH by (intros a y Hy; apply H; now right). apply H. now left.
Qed.
Lemma agree_flat {A} (f : A -> list call) l x : agree (flat_map f l) -> In x l -> agree (f x).
Proof. clear. intros H Hx a y Hy. apply H. apply in_flat_map. eauto. Qed.
Lemma wots_log layer tree kp m sig : agree (wots_calls D T layer tree kp m sig) ->
  wots_pk_of_sig D T' layer tree kp m sig = wots_pk_of_sig D T layer tree kp m sig.
Proof. clear.
  intros H. apply agree_app in H as [H1 H2]. unfold wots_pk_of_sig, wots_compress.
  rewrite (map_ext_in _ (fun i => chain T layer tree kp (Z.of_nat i) (nth i sig []) (nth i (wots_lengths D m) 0)
                  (Z.to_nat (s_w D - 1 - nth i (wots_lengths D m) 0)))).
  - apply H2. now left.
  - intros i Hi. cbv zeta. apply chain_log. exact (agree_flat _ _ i H1 Hi).
Qed.
Lemma xmss_log layer tree idx m sig : agree (xmss_calls D T layer tree idx m sig) ->
  xmss_root_of_sig D T' layer tree idx m sig = xmss_root_of_sig D T layer tree idx m sig.
Proof. clear.
  intros H. apply agree_app in H as [H1 H2]. unfold xmss_root_of_sig. rewrite wots_log by exact H1.
  exact (climb_log (tree_adrs layer tree) _ _ _ _ H2).
Qed.
Lemma ht_log k : forall layer tree idx m sig, agree (ht_calls D T k layer tree idx m sig) ->
  ht_root_of_sig D T' k layer tree idx m sig = ht_root_of_sig D T k layer tree idx m sig.
Proof. clear.
  induction k as [|k IH]; intros layer tree idx m sig H; cbn [ht_root_of_sig ht_calls] in *; [reflexivity|].
  apply agree_app in H as [H1 H2]. rewrite xmss_log by exact H1. now apply IH.
Qed.
Lemma fors_log tree kp md sig : agree (fors_calls D T tree kp md sig) ->
  fors_pk_of_sig D T' tree kp md sig = fors_pk_of_sig D T tree kp md sig.
Proof. clear.
  intros H. apply agree_app in H as [H1 H2]. unfold fors_pk_of_sig, fors_compress.
  rewrite (map_ext_in _ (fun t => fors_root_of_sig D T tree kp md t (fors_block D t sig))).
  - apply H2. now left.
  - intros t Ht. pose proof (agree_flat _ _ t H1 Ht) as Ha. unfold fors_tree_calls in Ha. cbv zeta in Ha.
    fold (fors_block D t sig).
    unfold fors_root_of_sig, fors_leaf_of in *. cbv zeta in *.
    pose proof (Ha _ _ (or_introl eq_refl)) as E0. unfold fors_leaf_adrs in E0. rewrite E0.
    apply (climb_log (fors_node_adrs D tree kp (Z.of_nat t))). intros a y Hy. apply Ha. now right.
Qed.
Theorem verify_log md tree leaf sig : agree (verify_calls D T md tree leaf sig) ->
  spx_root_of_sig D T' md tree leaf sig = spx_root_of_sig D T md tree leaf sig.
Proof. clear.
  intros H. apply agree_app in H as [H1 H2]. unfold spx_root_of_sig. cbv zeta. rewrite fors_log by exact H1.
  now apply ht_log.
Qed.
End Log.

(** ** Uniqueness *)
Section Unique.
Variable D : dims.
Variable T : adrs -> list Z -> list Z.
Variable PRF : adrs -> list Z.
Lemma decode_block b t t' i i' : 0 <= i < b -> 0 <= i' < b -> t * b + i = t' * b + i' -> t = t' /\ i = i'.
Proof. clear. intros. assert (t = t') by nia. subst. lia. Qed.
Lemma honest_unique_eq a b x y : honest_call D T PRF a x -> honest_call D T PRF b y -> a = b -> x = y.
Proof. clear.
  intros Hx Hy Ea.
  destruct Hx as [l t kp i p|l t kp|l t h i|tr kp t i HI Ht Hi|tr kp t h i HI Ht Hh Hi|tr kp];
  destruct Hy as [l2 t2 kp2 i2 p2|l2 t2 kp2|l2 t2 h2 i2|tr2 kp2 t2 i2 HI2 Ht2 Hi2|tr2 kp2 t2 h2 i2 HI2 Ht2 Hh2 Hi2|tr2 kp2];
  unfold wots_adrs, tree_adrs, fors_leaf_adrs, fors_node_adrs in Ea; try discriminate Ea;
  pose proof (f_equal a_layer Ea) as E1; pose proof (f_equal a_tree Ea) as E2; pose proof (f_equal a_kp Ea) as E3;
  pose proof (f_equal a_w1 Ea) as E4; pose proof (f_equal a_w2 Ea) as E5;
  cbn [a_layer a_tree a_kp a_w1 a_w2] in *; clear Ea; try (exfalso; lia).
  - assert (i2 = i) as -> by lia. assert (p2 = p) as -> by lia. now subst.
  - now subst.
  - assert (h2 = h) as -> by lia. now subst.
  - apply decode_block in E5 as [A B]; auto. assert (t2 = t) as -> by lia. now subst.
  - assert (h2 = h) as -> by lia.
    apply decode_block in E5 as [A B]; auto. assert (t2 = t) as -> by lia. now subst.
  - now subst.
Qed.
Theorem honest_unique a x y : honest_call D T PRF a x -> honest_call D T PRF a y -> x = y.
Proof. clear. intros. eapply honest_unique_eq; eauto. Qed.

(** ** What a signature releases of the WOTS+ chains *)
Definition path_tree (tree : Z) (j : nat) : Z := tree / 2 ^ (Z.of_nat (s_hp D) * Z.of_nat j).
Definition path_kp (tree leaf : Z) (j : nat) : Z :=
  match j with O => leaf | S j' => path_tree tree j' mod 2 ^ Z.of_nat (s_hp D) end.
Lemma path_tree_step tree j : path_tree (tree / 2 ^ Z.of_nat (s_hp D)) j = path_tree tree (S j).
Proof. clear.
  unfold path_tree. rewrite Z.div_div by (try apply Z.pow_nonzero; try apply Z.pow_pos_nonneg; lia).
  rewrite <- Z.pow_add_r by lia. do 2 f_equal. lia.
Qed.
Lemma signed_next l t : 0 <= l ->
  signed_by D T PRF (l + 1) (t / 2 ^ Z.of_nat (s_hp D)) (t mod 2 ^ Z.of_nat (s_hp D)) = xmss_root D T PRF l t.
Proof. clear.
  intros Hl. unfold signed_by.
  replace (l + 1 =? 0) with false by (symmetry; apply Z.eqb_neq; lia).
  f_equal; [lia|]. rewrite Z.mul_comm. symmetry. apply Z.div_mod. apply Z.pow_nonzero; lia.
Qed.
Lemma ht_released k : forall l tree leaf, 0 <= l ->
  ht_sign D T PRF k l tree leaf (signed_by D T PRF l tree leaf)
  = concat (map (fun j =>
      xmss_sign D T PRF (l + Z.of_nat j) (path_tree tree j) (path_kp tree leaf j)
        (signed_by D T PRF (l + Z.of_nat j) (path_tree tree j) (path_kp tree leaf j))) (seq 0 k)).
Proof. clear.
  induction k as [|k IH]; intros l tree leaf Hl; cbn [ht_sign seq map concat]; [reflexivity|].
  assert (P0 : path_tree tree 0 = tree).
  { unfold path_tree. rewrite Z.mul_0_r. change (2 ^ 0) with 1. apply Z.div_1_r. }
  rewrite P0. cbn [path_kp]. rewrite Z.add_0_r. f_equal.
  rewrite <- (signed_next l tree Hl), IH by lia. rewrite <- seq_shift, map_map.
  f_equal. apply map_ext. intros j. replace (l + 1 + Z.of_nat j) with (l + Z.of_nat (S j)) by lia.
  rewrite path_tree_step.
  assert (path_kp (tree / 2 ^ Z.of_nat (s_hp D)) (tree mod 2 ^ Z.of_nat (s_hp D)) j = path_kp tree leaf (S j)) as ->.
  { destruct j as [|j]; cbn [path_kp]; [now rewrite P0|]. now rewrite path_tree_step. }
  reflexivity.
Qed.
Theorem body_released md tree leaf :
  spx_sign_body D T PRF md tree leaf
  = fors_sign D T PRF tree leaf md
    ++ concat (map (fun j =>
         let l := Z.of_nat j in let t := path_tree tree j in let kp := path_kp tree leaf j in
         wots_sign D T PRF l t kp (signed_by D T PRF l t kp)
         ++ auth_path (fun kp => wots_pk D T PRF l t kp) (tree_hash2 T l t) (s_hp D) kp) (seq 0 (s_d D))).
Proof. clear.
  unfold spx_sign_body. f_equal. change (fors_pk D T PRF tree leaf) with (signed_by D T PRF 0 tree leaf).
  rewrite ht_released by lia. reflexivity.
Qed.
End Unique.
