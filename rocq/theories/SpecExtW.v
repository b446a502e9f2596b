(** Extensionality of the specification, restricted: two pairs of hash functions that agree on the
    inputs that occur (concatenations of at most [K] words) give the same signatures and the same
    verification.  A word is a hash value: an n-byte string. *)
From Coq Require Import List ZArith Lia.
From Verif Require Import Spec SpecFacts.
Import ListNotations.
Open Scope Z_scope.

Section ExtW.
Variable D : dims.
Variable word : list Z -> Prop.
Variable K : nat.
Definition goodW (x : list Z) : Prop := exists xs, x = concat xs /\ Forall word xs /\ (length xs <= K)%nat.
Hypothesis K2 : (2 <= K)%nat.
Hypothesis Klen : (s_len D <= K)%nat.
Hypothesis Kk : (s_k D <= K)%nat.
Lemma good1 a : word a -> goodW a.
Proof. clear - K2. exists [a]. cbn. rewrite app_nil_r. repeat split; [|lia]. now constructor. Qed.
Lemma good2 a b : word a -> word b -> goodW (a ++ b).
Proof. clear - K2. exists [a; b]. cbn. rewrite app_nil_r. repeat split; [|lia]. now repeat constructor. Qed.

Variables T T' : adrs -> list Z -> list Z.
Variable PRF PRF' : adrs -> list Z.
Hypothesis HT : forall a x, goodW x -> T a x = T' a x.
Hypothesis HTw : forall a x, goodW x -> word (T a x).
Hypothesis HP : forall a, PRF a = PRF' a.
Hypothesis HPw : forall a, word (PRF a).

Lemma nodeW (leaf leaf' : Z -> list Z) hash2 hash2' h i :
  (forall j, leaf j = leaf' j /\ word (leaf j)) ->
  (forall k j x, goodW x -> hash2 k j x = hash2' k j x /\ word (hash2 k j x)) ->
  node leaf hash2 h i = node leaf' hash2' h i /\ word (node leaf hash2 h i).
Proof. clear - K2.
  intros Hl Hh. revert i. induction h as [|h IH]; intros; cbn [node]; auto.
  destruct (IH (2 * i)) as [E1 W1], (IH (2 * i + 1)) as [E2 W2]. rewrite <- E1, <- E2.
  apply Hh. now apply good2.
Qed.
Lemma auth_pathW (leaf leaf' : Z -> list Z) hash2 hash2' h i :
  (forall j, leaf j = leaf' j /\ word (leaf j)) ->
  (forall k j x, goodW x -> hash2 k j x = hash2' k j x /\ word (hash2 k j x)) ->
  auth_path leaf hash2 h i = auth_path leaf' hash2' h i.
Proof. clear - K2. intros. apply map_ext. intros. now apply nodeW. Qed.
Lemma climbW hash2 hash2' p h i x : word x -> Forall word p ->
  (forall k j x, goodW x -> hash2 k j x = hash2' k j x /\ word (hash2 k j x)) ->
  climb hash2 h i x p = climb hash2' h i x p /\ word (climb hash2 h i x p).
Proof. clear - K2.
  intros Wx Wp Hh. revert h i x Wx. induction Wp as [|s p Ws Wp IH]; intros; cbn [climb]; auto.
  assert (G : goodW (if Z.even i then x ++ s else s ++ x)) by (destruct (Z.even i); now apply good2).
  destruct (Hh (S h) (i / 2) _ G) as [E W]. rewrite <- E. now apply IH.
Qed.
Lemma chainW layer tree kp i x s k : word x ->
  chain T layer tree kp i x s k = chain T' layer tree kp i x s k /\ word (chain T layer tree kp i x s k).
Proof. clear - HT HTw K2.
  intros Wx. induction k as [|k IH]; cbn [chain]; auto. destruct IH as [E W]. rewrite <- E.
  split; [apply HT|apply HTw]; now apply good1.
Qed.
Lemma mapW {A} (f f' : A -> list Z) l : (forall i, In i l -> f i = f' i /\ word (f i)) ->
  map f l = map f' l /\ Forall word (map f l).
Proof. clear.
  intros H. induction l as [|a l IH]; cbn [map]; [auto|]. destruct (H a (or_introl eq_refl)) as [E W].
  destruct IH as [E2 W2]; [intros; apply H; now right|]. split; [congruence|now constructor].
Qed.
Lemma good_concat xs : Forall word xs -> (length xs <= K)%nat -> goodW (concat xs).
Proof. clear. intros. now exists xs. Qed.

Lemma wots_pkW layer tree kp :
  wots_pk D T PRF layer tree kp = wots_pk D T' PRF' layer tree kp /\ word (wots_pk D T PRF layer tree kp).
Proof. clear Kk.
  unfold wots_pk, wots_compress.
  destruct (mapW (fun i => chain T layer tree kp (Z.of_nat i) (wots_sk PRF layer tree kp i) 0 (Z.to_nat (s_w D - 1)))
    (fun i => chain T' layer tree kp (Z.of_nat i) (wots_sk PRF' layer tree kp i) 0 (Z.to_nat (s_w D - 1))) (seq 0 (s_len D))) as [E W].
  { intros i _. unfold wots_sk. rewrite <- HP. apply chainW, HPw. }
  rewrite <- E. assert (G : goodW (concat (map (fun i => chain T layer tree kp (Z.of_nat i) (wots_sk PRF layer tree kp i) 0 (Z.to_nat (s_w D - 1))) (seq 0 (s_len D))))).
  { apply good_concat; [exact W|]. now rewrite map_length, seq_length. }
  split; [now apply HT|now apply HTw].
Qed.
Lemma wots_signW layer tree kp m : wots_sign D T PRF layer tree kp m = wots_sign D T' PRF' layer tree kp m.
Proof. clear Kk Klen.
  apply map_ext. intros. unfold wots_sk. rewrite <- HP. apply chainW, HPw. Qed.
Lemma wots_pk_of_sigW layer tree kp m s : Forall word s -> (s_len D <= length s)%nat ->
  wots_pk_of_sig D T layer tree kp m s = wots_pk_of_sig D T' layer tree kp m s
  /\ word (wots_pk_of_sig D T layer tree kp m s).
Proof. clear - HT HTw K2 Klen.
  intros Ws Ls. unfold wots_pk_of_sig, wots_compress.
  destruct (mapW (fun i => chain T layer tree kp (Z.of_nat i) (nth i s []) (nth i (wots_lengths D m) 0)
      (Z.to_nat (s_w D - 1 - nth i (wots_lengths D m) 0)))
    (fun i => chain T' layer tree kp (Z.of_nat i) (nth i s []) (nth i (wots_lengths D m) 0)
      (Z.to_nat (s_w D - 1 - nth i (wots_lengths D m) 0))) (seq 0 (s_len D))) as [E W].
  { intros i Hi. apply in_seq in Hi. cbv zeta. apply chainW. rewrite Forall_forall in Ws. apply Ws, nth_In. lia. }
  rewrite <- E. set (l := map _ _) in *.
  assert (G : goodW (concat l)).
  { apply good_concat; [exact W|]. unfold l. now rewrite map_length, seq_length. }
  split; [now apply HT|now apply HTw].
Qed.
Lemma hash2W layer tree k j x : goodW x ->
  tree_hash2 T layer tree k j x = tree_hash2 T' layer tree k j x /\ word (tree_hash2 T layer tree k j x).
Proof. clear - HT HTw. intros G. split; [now apply HT|now apply HTw]. Qed.
Lemma xmss_rootW layer tree :
  xmss_root D T PRF layer tree = xmss_root D T' PRF' layer tree /\ word (xmss_root D T PRF layer tree).
Proof. apply nodeW; [intros; apply wots_pkW|intros; now apply hash2W]. Qed.
Lemma xmss_signW layer tree idx m : xmss_sign D T PRF layer tree idx m = xmss_sign D T' PRF' layer tree idx m.
Proof.
  unfold xmss_sign. rewrite wots_signW. f_equal.
  apply auth_pathW; [intros; apply wots_pkW|intros; now apply hash2W].
Qed.
Lemma ht_signW k layer tree idx m : ht_sign D T PRF k layer tree idx m = ht_sign D T' PRF' k layer tree idx m.
Proof.
  revert layer tree idx m. induction k as [|k IH]; intros; cbn [ht_sign]; auto.
  destruct (xmss_rootW layer tree) as [<- _]. now rewrite xmss_signW, IH.
Qed.
Lemma ht_rootW : ht_root D T PRF = ht_root D T' PRF' /\ word (ht_root D T PRF).
Proof. apply xmss_rootW. Qed.
Lemma Forall_part (s : list (list Z)) a b : Forall word s -> Forall word (firstn a s) /\ Forall word (skipn b s).
Proof.
  clear. intros H. rewrite Forall_forall in H. split; apply Forall_forall; intros x Hx; apply H.
  - rewrite <- (firstn_skipn a s). apply in_or_app; auto.
  - rewrite <- (firstn_skipn b s). apply in_or_app; auto.
Qed.
Lemma xmss_root_of_sigW layer tree idx m s : Forall word s -> (s_len D <= length s)%nat ->
  xmss_root_of_sig D T layer tree idx m s = xmss_root_of_sig D T' layer tree idx m s
  /\ word (xmss_root_of_sig D T layer tree idx m s).
Proof. clear - HT HTw K2 Klen.
  intros Ws Ls. destruct (Forall_part s (s_len D) (s_len D) Ws) as [W1 W2]. unfold xmss_root_of_sig.
  destruct (wots_pk_of_sigW layer tree idx m (firstn (s_len D) s) W1) as [<- W]; [rewrite firstn_length; lia|].
  apply climbW; auto. intros; now apply hash2W.
Qed.
Lemma ht_root_of_sigW k layer tree idx m s : Forall word s -> (k * (s_len D + s_hp D) <= length s)%nat ->
  ht_root_of_sig D T k layer tree idx m s = ht_root_of_sig D T' k layer tree idx m s.
Proof. clear - HT HTw K2 Klen.
  revert layer tree idx m s. induction k as [|k IH]; intros layer tree idx m s Ws Ls; cbn [ht_root_of_sig]; auto.
  destruct (Forall_part s (s_len D + s_hp D) (s_len D + s_hp D) Ws) as [W1 W2].
  destruct (xmss_root_of_sigW layer tree idx m (firstn (s_len D + s_hp D) s) W1) as [<- _];
    [rewrite firstn_length; lia|].
  apply IH; [exact W2|rewrite skipn_length; lia].
Qed.

Lemma fors_leafW tree kp t i :
  fors_leaf D T PRF tree kp t i = fors_leaf D T' PRF' tree kp t i /\ word (fors_leaf D T PRF tree kp t i).
Proof. unfold fors_leaf, fors_leaf_of, fors_sk. rewrite <- HP.
  split; [apply HT|apply HTw]; apply good1, HPw. Qed.
Lemma fors_hash2W tree kp t k j x : goodW x ->
  fors_hash2 D T tree kp t k j x = fors_hash2 D T' tree kp t k j x /\ word (fors_hash2 D T tree kp t k j x).
Proof. clear - HT HTw. intros G. split; [now apply HT|now apply HTw]. Qed.
Lemma fors_pkW tree kp : fors_pk D T PRF tree kp = fors_pk D T' PRF' tree kp.
Proof.
  unfold fors_pk, fors_compress.
  destruct (mapW (fun t => fors_root D T PRF tree kp (Z.of_nat t)) (fun t => fors_root D T' PRF' tree kp (Z.of_nat t)) (seq 0 (s_k D))) as [E W].
  { intros t _. apply nodeW; [intros; apply fors_leafW|intros; now apply fors_hash2W]. }
  rewrite <- E. apply HT. apply good_concat; [exact W|]. now rewrite map_length, seq_length.
Qed.
Lemma fors_signW tree kp md : fors_sign D T PRF tree kp md = fors_sign D T' PRF' tree kp md.
Proof.
  unfold fors_sign. f_equal. apply map_ext. intros. unfold fors_sign_tree, fors_sk. cbn zeta.
  rewrite <- HP. f_equal. apply auth_pathW; [intros; apply fors_leafW|intros; now apply fors_hash2W].
Qed.
Lemma fors_pk_of_sigW tree kp md s : Forall word s -> (s_k D * (s_a D + 1) <= length s)%nat ->
  fors_pk_of_sig D T tree kp md s = fors_pk_of_sig D T' tree kp md s.
Proof. clear - HT HTw K2 Kk.
  intros Ws Ls. unfold fors_pk_of_sig, fors_compress.
  destruct (mapW (fun t => fors_root_of_sig D T tree kp md t (firstn (s_a D + 1) (skipn (t * (s_a D + 1)) s)))
    (fun t => fors_root_of_sig D T' tree kp md t (firstn (s_a D + 1) (skipn (t * (s_a D + 1)) s))) (seq 0 (s_k D))) as [E W].
  { intros t Ht. apply in_seq in Ht. unfold fors_root_of_sig, fors_leaf_of. cbv zeta.
    destruct (Forall_part s 0 (t * (s_a D + 1)) Ws) as [_ W1].
    destruct (Forall_part _ (s_a D + 1) 0 W1) as [W2 _].
    assert (L : (1 <= length (firstn (s_a D + 1) (skipn (t * (s_a D + 1)) s)))%nat).
    { rewrite firstn_length, skipn_length.
      assert ((t + 1) * (s_a D + 1) <= s_k D * (s_a D + 1))%nat by (apply Nat.mul_le_mono_r; lia). lia. }
    destruct W2 as [|x l Wx Wl]; [cbn in L; lia|]. cbn [hd tl].
    rewrite <- (HT _ x) by now apply good1.
    apply climbW; [apply HTw; now apply good1|exact Wl|intros; now apply fors_hash2W]. }
  rewrite <- E. apply HT. apply good_concat; [exact W|]. now rewrite map_length, seq_length.
Qed.

Theorem spx_sign_bodyW md tree leaf :
  spx_sign_body D T PRF md tree leaf = spx_sign_body D T' PRF' md tree leaf.
Proof. unfold spx_sign_body. now rewrite fors_signW, ht_signW, fors_pkW. Qed.
Theorem spx_root_of_sigW md tree leaf s : Forall word s -> (spx_nblocks D <= length s)%nat ->
  spx_root_of_sig D T md tree leaf s = spx_root_of_sig D T' md tree leaf s.
Proof. clear - HT HTw K2 Kk Klen.
  intros Ws Ls. unfold spx_root_of_sig, spx_nblocks in *. cbn zeta.
  destruct (Forall_part s (s_k D * (s_a D + 1)) (s_k D * (s_a D + 1)) Ws) as [W1 W2].
  rewrite <- fors_pk_of_sigW by (auto; rewrite firstn_length; lia).
  apply ht_root_of_sigW; [exact W2|]. rewrite skipn_length. lia.
Qed.
End ExtW.
