(** A signature consists of words (n-byte strings). *)
From Coq Require Import List ZArith Lia.
From Verif Require Import Base Params Suite Spec SpecExtW Refine BuildSpec BuildProofs.

Section Words.
Variable D : dims.
Variable word : list Z -> Prop.
Variable K : nat.
Hypothesis K2 : (2 <= K)%nat.
Hypothesis Klen : (s_len D <= K)%nat.
Hypothesis Kk : (s_k D <= K)%nat.
Variable T : adrs -> list Z -> list Z.
Variable PRF : adrs -> list Z.
Hypothesis HTw : forall a x, goodW word K x -> word (T a x).
Hypothesis HPw : forall a, word (PRF a).
Let HT : forall a x, goodW word K x -> T a x = T a x := fun a x _ => eq_refl.
Let HP : forall a, PRF a = PRF a := fun a => eq_refl.

Lemma map_words {A} (g : A -> list Z) l : (forall i, word (g i)) -> Forall word (map g l).
Proof. clear. intros H. induction l; cbn; constructor; auto. Qed.
Lemma path_words leaf hash2 h i : (forall j, word (leaf j)) ->
  (forall k j x, goodW word K x -> word (hash2 k j x)) -> Forall word (auth_path leaf hash2 h i).
Proof. clear - K2. intros Hl Hh. apply map_words. intros j. apply (nodeW word K K2 leaf leaf hash2 hash2); auto. Qed.
Lemma wots_sign_words layer tree kp m : Forall word (wots_sign D T PRF layer tree kp m).
Proof. apply map_words. intros i. apply (chainW word K K2 T T HT HTw). apply HPw. Qed.
Lemma xmss_sign_words layer tree idx m : Forall word (xmss_sign D T PRF layer tree idx m).
Proof.
  apply Forall_app. split; [apply wots_sign_words|]. apply path_words.
  - intros j. apply (wots_pkW D word K K2 Klen T T PRF PRF HT HTw HP HPw).
  - intros k j x G. apply HTw, G.
Qed.
Lemma ht_sign_words k : forall layer tree idx m, Forall word (ht_sign D T PRF k layer tree idx m).
Proof. induction k as [|k IH]; intros; cbn [ht_sign]; [constructor|]. apply Forall_app. split; [apply xmss_sign_words|apply IH]. Qed.
Lemma fors_sign_words tree kp md : Forall word (fors_sign D T PRF tree kp md).
Proof.
  unfold fors_sign. apply Forall_concat. apply Forall_map. apply Forall_forall. intros t _.
  unfold fors_sign_tree. cbv zeta. constructor; [apply HPw|]. apply path_words.
  - intros j. unfold fors_leaf, fors_leaf_of, fors_sk. apply HTw, (good1 word K K2), HPw.
  - intros k j x G. apply HTw, G.
Qed.
Theorem sign_body_words md tree leaf : Forall word (spx_sign_body D T PRF md tree leaf).
Proof. apply Forall_app. split; [apply fors_sign_words|apply ht_sign_words]. Qed.
End Words.

Lemma concat_bytes P (l : list bytes) : Forall (wordN P) l -> all_bytes (concat l).
Proof. intros H. apply Forall_concat. revert H. apply Forall_impl. intros x Hx. apply Hx. Qed.

Theorem sign_all_bytes f robust P HS : wf_params P = true -> (p_n P <= 32)%nat -> computes f robust P HS ->
  forall ss k ps root o m, wordN P ss -> wordN P k -> wordN P ps -> wordN P root -> wordN P o ->
  all_bytes m -> Z.of_nat (length m) < 2 ^ 63 ->
  all_bytes (spx_sign (dims_of P) (spec_T f (p_n P) robust) (spec_PRF f (p_n P)) (spec_Rnd f (p_n P)) (spec_Hm f (p_n P) (dims_of P)) ss k ps root o m).
Proof.
  intros Hwf HN HC ss k ps root o m Ws Wk Wp Wr Wo Bm Lm.
  rewrite <- (any_sign f robust P HS Hwf HN HC) by auto. destruct (bounds P) as (B1 & B2 & B3).
  unfold spx_sign. destruct (any_Rnd f robust P HS HC ps k o m Wp Wk Wo Bm Lm) as [_ WR].
  destruct (codeHm _ _ _ _ _ _) as [[md tree] leaf]. apply Forall_app. split; [apply WR|].
  apply (concat_bytes P). apply (sign_body_words (dims_of P) (wordN P) (KK P) B1 B2).
  - intros. now apply (any_Th_word f robust P HS Hwf HN HC).
  - intros. now apply (any_Prf f robust P HS HC).
Qed.
