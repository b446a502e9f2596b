(** Facts about the call lists of CallSpec.v: which addresses they use, how many calls they make, and what input
    each address gets. *)
From Coq Require Import List ZArith Lia.
From Verif Require Import Spec SpecFacts BaseFacts TreeProofs CallSpec.
Import ListNotations.
Open Scope Z_scope.

(** ** Lists *)
Lemma NoDup_app_intro {A} (l l' : list A) :
  NoDup l -> NoDup l' -> (forall x, In x l -> In x l' -> False) -> NoDup (l ++ l').
Proof.
  intros H H' Hd. induction l as [|a l IH]; [exact H'|]. cbn [app]. inversion H; subst. constructor.
  - rewrite in_app_iff. intros [Hi|Hi]; [contradiction|]. apply (Hd a); [now left|exact Hi].
  - apply IH; [assumption|]. intros x Hx. apply Hd. now right.
Qed.
Lemma NoDup_flat_map_intro {A B} (f : A -> list B) l :
  NoDup l -> (forall x, In x l -> NoDup (f x)) ->
  (forall x y b, In x l -> In y l -> In b (f x) -> In b (f y) -> x = y) -> NoDup (flat_map f l).
Proof.
  induction l as [|a l IH]; intros Hl Hf Hd; cbn [flat_map]; [constructor|]. inversion Hl; subst.
  apply NoDup_app_intro.
  - apply Hf. now left.
  - apply IH; [assumption|intros; apply Hf; now right|]. intros x y b Hx Hy. apply Hd; now right.
  - intros b Hb Hb'. apply in_flat_map in Hb'. destruct Hb' as (y & Hy & Hb').
    assert (a = y) by (apply (Hd a y b); [now left|now right|assumption|assumption]). subst. contradiction.
Qed.
Lemma NoDup_map_inj {A B} (f : A -> B) l :
  (forall x y, In x l -> In y l -> f x = f y -> x = y) -> NoDup l -> NoDup (map f l).
Proof.
  induction l as [|a l IH]; intros Hf Hl; cbn [map]; [constructor|]. inversion Hl; subst. constructor.
  - rewrite in_map_iff. intros (y & E & Hy). apply Hf in E; [subst; contradiction|now right|now left].
  - apply IH; [intros; apply Hf; try (now right); assumption|assumption].
Qed.
Lemma length_flat_map_const {A B} (f : A -> list B) c l :
  (forall x, In x l -> length (f x) = c) -> length (flat_map f l) = (length l * c)%nat.
Proof.
  induction l as [|a l IH]; intros H; cbn [flat_map length]; [reflexivity|].
  rewrite app_length, IH by (intros; apply H; now right). rewrite H by now left. lia.
Qed.
Lemma length_flat_map_le {A B} (f : A -> list B) c l :
  (forall x, In x l -> (length (f x) <= c)%nat) -> (length (flat_map f l) <= length l * c)%nat.
Proof.
  induction l as [|a l IH]; intros H; cbn [flat_map length]; [lia|].
  assert (length (flat_map f l) <= length l * c)%nat by (apply IH; intros; apply H; now right).
  assert (length (f a) <= c)%nat by (apply H; now left). rewrite app_length. lia.
Qed.
Lemma flat_map_flat_map {A B C} (f : A -> list B) (g : B -> list C) l :
  flat_map g (flat_map f l) = flat_map (fun x => flat_map g (f x)) l.
Proof. induction l as [|a l IH]; cbn [flat_map]; [reflexivity|]. now rewrite flat_map_app, IH. Qed.
Lemma flat_map_map' {A B C} (f : A -> B) (g : B -> list C) l :
  flat_map g (map f l) = flat_map (fun x => g (f x)) l.
Proof. induction l as [|a l IH]; cbn [map flat_map]; [reflexivity|]. now rewrite IH. Qed.
Lemma map_flat_map' {A B C} (f : A -> list B) (g : B -> C) l :
  map g (flat_map f l) = flat_map (fun x => map g (f x)) l.
Proof. induction l as [|a l IH]; cbn [map flat_map]; [reflexivity|]. now rewrite map_app, IH. Qed.
Lemma flat_map_single {A B} (f : A -> B) l : flat_map (fun x => [f x]) l = map f l.
Proof. induction l as [|a l IH]; cbn [map flat_map]; [reflexivity|]. now rewrite IH. Qed.

(** ** What is asked, without the inputs *)
Definition th_key (c : scall) : list (nat * adrs) := match c with STh k a _ => [(k, a)] | SPrf _ => [] end.
Definition prf_key (c : scall) : list adrs := match c with STh _ _ _ => [] | SPrf a => [a] end.
Definition th_keys (l : list scall) : list (nat * adrs) := flat_map th_key l.
Definition prf_keys (l : list scall) : list adrs := flat_map prf_key l.
Lemma th_keys_app l l' : th_keys (l ++ l') = th_keys l ++ th_keys l'.
Proof. apply flat_map_app. Qed.
Lemma prf_keys_app l l' : prf_keys (l ++ l') = prf_keys l ++ prf_keys l'.
Proof. apply flat_map_app. Qed.
Lemma th_keys_in k a x l : In (STh k a x) l -> In (k, a) (th_keys l).
Proof. intros H. apply in_flat_map. exists (STh k a x). split; [exact H|now left]. Qed.
Lemma prf_keys_in a l : In (SPrf a) l -> In a (prf_keys l).
Proof. intros H. apply in_flat_map. exists (SPrf a). split; [exact H|now left]. Qed.

Section Tree.
Variable K : Type.
Variable lk : Z -> list K.
Variable nk : nat -> Z -> list K.
Fixpoint tree_keys (h : nat) (i : Z) : list K :=
  match h with
  | O => lk i
  | S h' => tree_keys h' (2 * i) ++ tree_keys h' (2 * i + 1) ++ nk h i
  end.
Lemma tree_keys_length c e : (forall i, length (lk i) = c) -> (forall h i, length (nk h i) = e) ->
  forall h i, (length (tree_keys h i) + e = 2 ^ h * (c + e))%nat.
Proof.
  intros Hl Hn. induction h as [|h IH]; intros i; cbn [tree_keys].
  - rewrite Hl. cbn [Nat.pow]. lia.
  - rewrite !app_length, Hn. pose proof (IH (2 * i)). pose proof (IH (2 * i + 1)).
    replace (2 ^ S h)%nat with (2 ^ h + 2 ^ h)%nat by (cbn [Nat.pow]; lia). lia.
Qed.
(** [j] is below node [i] of height [h]. *)
Definition under (h : nat) (i j : Z) : Prop := i * 2 ^ Z.of_nat h <= j < (i + 1) * 2 ^ Z.of_nat h.
Lemma under_l h i j : under h (2 * i) j -> under (S h) i j.
Proof. clear. unfold under. rewrite pow2_S. pose proof (pow2_pos h). nia. Qed.
Lemma under_r h i j : under h (2 * i + 1) j -> under (S h) i j.
Proof. clear. unfold under. rewrite pow2_S. pose proof (pow2_pos h). nia. Qed.
Lemma under_lr h i j j' : under h (2 * i) j -> under h (2 * i + 1) j' -> j < j'.
Proof. clear. unfold under. lia. Qed.
Lemma tree_keys_in h : forall i x, In x (tree_keys h i) ->
  (exists j, under h i j /\ In x (lk j))
  \/ (exists h' j, (1 <= h' <= h)%nat /\ under (h - h') i j /\ In x (nk h' j)).
Proof.
  induction h as [|h IH]; intros i x Hx; cbn [tree_keys] in Hx.
  - left. exists i. split; [unfold under; cbn; lia|exact Hx].
  - apply in_app_or in Hx. destruct Hx as [Hx|Hx]; [|apply in_app_or in Hx; destruct Hx as [Hx|Hx]].
    + destruct (IH _ _ Hx) as [(j & Hj & H)|(h' & j & Hh & Hj & H)]; [left|right].
      * exists j. split; [now apply under_l|exact H].
      * exists h', j. split; [lia|]. split; [|exact H].
        replace (S h - h')%nat with (S (h - h')) by lia. now apply under_l.
    + destruct (IH _ _ Hx) as [(j & Hj & H)|(h' & j & Hh & Hj & H)]; [left|right].
      * exists j. split; [now apply under_r|exact H].
      * exists h', j. split; [lia|]. split; [|exact H].
        replace (S h - h')%nat with (S (h - h')) by lia. now apply under_r.
    + right. exists (S h), i. split; [lia|]. split; [|exact Hx].
      rewrite Nat.sub_diag. unfold under. cbn. lia.
Qed.
Lemma tree_keys_NoDup H :
  (forall j, NoDup (lk j)) ->
  (forall j j' x, In x (lk j) -> In x (lk j') -> j = j') ->
  (forall h j, NoDup (nk h j)) ->
  (forall h j h' j' x, In x (nk h j) -> In x (nk h' j') -> (1 <= h <= H)%nat -> (1 <= h' <= H)%nat -> h = h' /\ j = j') ->
  (forall h j j' x, In x (nk h j) -> In x (lk j') -> (1 <= h <= H)%nat -> False) ->
  forall h i, (h <= H)%nat -> NoDup (tree_keys h i).
Proof.
  intros Hl Hl2 Hk Hk2 Hkl. induction h as [|h IH]; intros i Hh; cbn [tree_keys]; [apply Hl|].
  apply NoDup_app_intro; [apply IH; lia|apply NoDup_app_intro; [apply IH; lia|apply Hk|]|].
  - intros x Hx Hx'. apply tree_keys_in in Hx. destruct Hx as [(j & Hj & Hx)|(h' & j & Hh' & Hj & Hx)].
    + apply (Hkl _ _ _ _ Hx' Hx ltac:(lia)).
    + destruct (Hk2 _ _ _ _ _ Hx Hx' ltac:(lia) ltac:(lia)) as (E & _). lia.
  - intros x Hx Hx'. apply in_app_or in Hx'. destruct Hx' as [Hx'|Hx'].
    + apply tree_keys_in in Hx, Hx'.
      destruct Hx as [(j & Hj & Hx)|(h1 & j & Hh1 & Hj & Hx)];
        destruct Hx' as [(j' & Hj' & Hx')|(h2 & j' & Hh2 & Hj' & Hx')].
      * pose proof (Hl2 _ _ _ Hx Hx'). pose proof (under_lr _ _ _ _ Hj Hj'). lia.
      * apply (Hkl _ _ _ _ Hx' Hx ltac:(lia)).
      * apply (Hkl _ _ _ _ Hx Hx' ltac:(lia)).
      * destruct (Hk2 _ _ _ _ _ Hx Hx' ltac:(lia) ltac:(lia)) as (E & E'). subst.
        pose proof (under_lr _ _ _ _ Hj Hj'). lia.
    + apply tree_keys_in in Hx. destruct Hx as [(j & Hj & Hx)|(h' & j & Hh' & Hj & Hx)].
      * apply (Hkl _ _ _ _ Hx' Hx ltac:(lia)).
      * destruct (Hk2 _ _ _ _ _ Hx Hx' ltac:(lia) ltac:(lia)) as (E & _). lia.
Qed.
End Tree.
Arguments tree_keys {K}.
Lemma tree_keys_flat {K K'} (g : K -> list K') lk nk h : forall i,
  flat_map g (tree_keys lk nk h i) = tree_keys (fun j => flat_map g (lk j)) (fun k j => flat_map g (nk k j)) h i.
Proof. induction h as [|h IH]; intros i; cbn [tree_keys]; [reflexivity|]. now rewrite !flat_map_app, !IH. Qed.
Lemma tree_keys_ext {K} (lk lk' : Z -> list K) nk nk' h : (forall j, lk j = lk' j) -> (forall k j, nk k j = nk' k j) ->
  forall i, tree_keys lk nk h i = tree_keys lk' nk' h i.
Proof. intros Hl Hn. induction h as [|h IH]; intros i; cbn [tree_keys]; [apply Hl|]. now rewrite !IH, Hn. Qed.
Lemma tree_calls_keys leaf hash2 lc na h : forall i,
  tree_calls leaf hash2 lc na h i
  = tree_keys lc (fun k j => [STh 2 (na k j) (node leaf hash2 (pred k) (2 * j) ++ node leaf hash2 (pred k) (2 * j + 1))]) h i.
Proof. induction h as [|h IH]; intros i; cbn [tree_keys tree_calls]; [reflexivity|]. now rewrite !IH. Qed.
Lemma th_keys_tree leaf hash2 lc na h i :
  th_keys (tree_calls leaf hash2 lc na h i) = tree_keys (fun j => th_keys (lc j)) (fun k j => [(2%nat, na k j)]) h i.
Proof. rewrite tree_calls_keys. unfold th_keys. rewrite tree_keys_flat. now apply tree_keys_ext. Qed.
Lemma prf_keys_tree leaf hash2 lc na h i :
  prf_keys (tree_calls leaf hash2 lc na h i) = tree_keys (fun j => prf_keys (lc j)) (fun _ _ => []) h i.
Proof. rewrite tree_calls_keys. unfold prf_keys. rewrite tree_keys_flat. now apply tree_keys_ext. Qed.

(** ** The addresses, as functions of the position in the hypertree only *)
Section Keys.
Variable D : dims.
Notation w1 := (Z.to_nat (s_w D - 1)).
Definition wots_keys (layer tree kp : Z) : list (nat * adrs) :=
  flat_map (fun i => map (fun s => (1%nat, wots_adrs layer tree kp (Z.of_nat i) (Z.of_nat s))) (seq 0 w1)) (seq 0 (s_len D))
  ++ [(s_len D, wots_pk_adrs layer tree kp)].
Definition wots_prf_keys (layer tree kp : Z) : list adrs :=
  map (fun i => mkAdrs layer tree T_WOTS_PRF kp (Z.of_nat i) 0) (seq 0 (s_len D)).
Definition xmss_keys (layer tree : Z) : list (nat * adrs) :=
  tree_keys (wots_keys layer tree) (fun k j => [(2%nat, tree_adrs layer tree k j)]) (s_hp D) 0.
Definition xmss_prf_keys (layer tree : Z) : list adrs :=
  tree_keys (wots_prf_keys layer tree) (fun _ _ => []) (s_hp D) 0.
Fixpoint ht_keys (k : nat) (layer tree : Z) : list (nat * adrs) :=
  match k with
  | O => []
  | S k' => xmss_keys layer tree ++ ht_keys k' (layer + 1) (tree / 2 ^ Z.of_nat (s_hp D))
  end.
Fixpoint ht_prf_keys (k : nat) (layer tree : Z) : list adrs :=
  match k with
  | O => []
  | S k' => xmss_prf_keys layer tree ++ ht_prf_keys k' (layer + 1) (tree / 2 ^ Z.of_nat (s_hp D))
  end.
Definition fors_tree_keys (tree kp : Z) (t : nat) : list (nat * adrs) :=
  tree_keys (fun j => [(1%nat, fors_adrs D tree kp (Z.of_nat t) 0 j)]) (fun k j => [(2%nat, fors_adrs D tree kp (Z.of_nat t) k j)])
    (s_a D) 0.
Definition fors_tree_prf_keys (tree kp : Z) (t : nat) : list adrs :=
  tree_keys (fun j => [fors_prf_adrs D tree kp (Z.of_nat t) j]) (fun _ _ => []) (s_a D) 0.
Definition fors_keys (tree kp : Z) : list (nat * adrs) :=
  flat_map (fors_tree_keys tree kp) (seq 0 (s_k D)) ++ [(s_k D, fors_roots_adrs tree kp)].
Definition sign_keys (tree leaf : Z) : list (nat * adrs) := fors_keys tree leaf ++ ht_keys (s_d D) 0 tree.
Definition sign_prf_keys (tree leaf : Z) (md : list Z) : list adrs :=
  flat_map (fun t => fors_prf_adrs D tree leaf (Z.of_nat t) (fors_index D md t) :: fors_tree_prf_keys tree leaf t) (seq 0 (s_k D))
  ++ ht_prf_keys (s_d D) 0 tree.

Section Values.
Variable T : adrs -> list Z -> list Z.
Variable PRF : adrs -> list Z.
Lemma th_keys_chain ly tr kp i x s k :
  th_keys (chain_calls T ly tr kp i x s k) = map (fun j => (1%nat, wots_adrs ly tr kp i (s + Z.of_nat j))) (seq 0 k).
Proof. unfold th_keys, chain_calls. rewrite flat_map_map'. cbn [th_key]. apply flat_map_single. Qed.
Lemma prf_keys_chain ly tr kp i x s k : prf_keys (chain_calls T ly tr kp i x s k) = [].
Proof. unfold prf_keys, chain_calls. rewrite flat_map_map'. cbn [prf_key]. induction (seq 0 k); [reflexivity|assumption]. Qed.
Lemma th_keys_wots ly tr kp : th_keys (wots_pk_calls D T PRF ly tr kp) = wots_keys ly tr kp.
Proof.
  unfold wots_pk_calls, wots_keys. rewrite th_keys_app. f_equal. unfold th_keys at 1. rewrite flat_map_flat_map.
  apply flat_map_ext. intros i. apply (th_keys_chain ly tr kp (Z.of_nat i) (wots_sk PRF ly tr kp i) 0 w1).
Qed.
Lemma prf_keys_wots ly tr kp : prf_keys (wots_pk_calls D T PRF ly tr kp) = wots_prf_keys ly tr kp.
Proof.
  unfold wots_pk_calls, wots_prf_keys. rewrite prf_keys_app. cbn [prf_keys flat_map prf_key app]. rewrite app_nil_r.
  unfold prf_keys. rewrite flat_map_flat_map, <- flat_map_single. apply flat_map_ext. intros i. cbn [flat_map prf_key app].
  f_equal. apply (prf_keys_chain ly tr kp (Z.of_nat i) (wots_sk PRF ly tr kp i) 0 w1).
Qed.
Lemma th_keys_xmss ly tr : th_keys (xmss_calls D T PRF ly tr) = xmss_keys ly tr.
Proof.
  unfold xmss_calls, xmss_keys. rewrite th_keys_tree. apply tree_keys_ext; [intros; apply th_keys_wots|reflexivity].
Qed.
Lemma prf_keys_xmss ly tr : prf_keys (xmss_calls D T PRF ly tr) = xmss_prf_keys ly tr.
Proof.
  unfold xmss_calls, xmss_prf_keys. rewrite prf_keys_tree. apply tree_keys_ext; [intros; apply prf_keys_wots|reflexivity].
Qed.
Lemma th_keys_ht k : forall ly tr, th_keys (ht_calls D T PRF k ly tr) = ht_keys k ly tr.
Proof.
  induction k as [|k IH]; intros; cbn [ht_calls ht_keys]; [reflexivity|]. now rewrite th_keys_app, th_keys_xmss, IH.
Qed.
Lemma prf_keys_ht k : forall ly tr, prf_keys (ht_calls D T PRF k ly tr) = ht_prf_keys k ly tr.
Proof.
  induction k as [|k IH]; intros; cbn [ht_calls ht_prf_keys]; [reflexivity|]. now rewrite prf_keys_app, prf_keys_xmss, IH.
Qed.
Lemma th_keys_keygen : th_keys (keygen_calls D T PRF) = xmss_keys (Z.of_nat (s_d D) - 1) 0.
Proof. apply th_keys_xmss. Qed.
Lemma prf_keys_keygen : prf_keys (keygen_calls D T PRF) = xmss_prf_keys (Z.of_nat (s_d D) - 1) 0.
Proof. apply prf_keys_xmss. Qed.
Lemma th_keys_fors_tree tr kp md t : th_keys (fors_tree_calls D T PRF tr kp md t) = fors_tree_keys tr kp t.
Proof.
  unfold fors_tree_calls. change (th_keys (SPrf ?a :: ?l)) with (th_keys l). rewrite th_keys_tree. now apply tree_keys_ext.
Qed.
Lemma th_keys_sign md tr lf : th_keys (sign_calls D T PRF md tr lf) = sign_keys tr lf.
Proof.
  unfold sign_calls, sign_keys, fors_calls, fors_keys. rewrite !th_keys_app, th_keys_ht. f_equal. f_equal.
  unfold th_keys. rewrite flat_map_flat_map. apply flat_map_ext. intros t. apply th_keys_fors_tree.
Qed.
Lemma prf_keys_sign md tr lf : prf_keys (sign_calls D T PRF md tr lf) = sign_prf_keys tr lf md.
Proof.
  unfold sign_calls, sign_prf_keys, fors_calls. rewrite !prf_keys_app, prf_keys_ht. f_equal.
  cbn [prf_keys flat_map prf_key app]. rewrite app_nil_r.
  unfold prf_keys. rewrite flat_map_flat_map. apply flat_map_ext. intros t. unfold fors_tree_calls. cbn [flat_map prf_key app].
  f_equal. fold (prf_keys (tree_calls (fors_leaf D T PRF tr lf (Z.of_nat t)) (fors_hash2 D T tr lf (Z.of_nat t))
     (fors_leaf_calls D PRF tr lf (Z.of_nat t)) (fors_adrs D tr lf (Z.of_nat t)) (s_a D) 0)).
  rewrite prf_keys_tree. now apply tree_keys_ext.
Qed.
End Values.

(** *** How many *)
Notation hp := (s_hp D).
Lemma wots_keys_length ly tr kp : length (wots_keys ly tr kp) = (s_len D * w1 + 1)%nat.
Proof.
  unfold wots_keys. rewrite app_length, (length_flat_map_const _ w1) by (intros; now rewrite map_length, seq_length).
  now rewrite seq_length.
Qed.
Lemma xmss_keys_length ly tr : (length (xmss_keys ly tr) + 1 = 2 ^ hp * (s_len D * w1 + 2))%nat.
Proof.
  unfold xmss_keys. rewrite (tree_keys_length _ _ _ (s_len D * w1 + 1)%nat 1) by (intros; first [apply wots_keys_length|reflexivity]).
  f_equal. lia.
Qed.
Lemma xmss_prf_keys_length ly tr : (length (xmss_prf_keys ly tr) = 2 ^ hp * s_len D)%nat.
Proof.
  pose proof (tree_keys_length _ (wots_prf_keys ly tr) (fun _ _ => []) (s_len D) 0) as H.
  rewrite <- (Nat.add_0_r (length _)), <- (Nat.add_0_r (s_len D)). apply H; intros; [|reflexivity].
  unfold wots_prf_keys. now rewrite map_length, seq_length.
Qed.
Lemma ht_keys_length k : forall ly tr, (length (ht_keys k ly tr) + k = k * (2 ^ hp * (s_len D * w1 + 2)))%nat.
Proof.
  induction k as [|k IH]; intros; cbn [ht_keys]; [reflexivity|]. rewrite app_length.
  pose proof (xmss_keys_length ly tr). pose proof (IH (ly + 1) (tr / 2 ^ Z.of_nat hp)). lia.
Qed.
Lemma ht_prf_keys_length k : forall ly tr, (length (ht_prf_keys k ly tr) = k * (2 ^ hp * s_len D))%nat.
Proof.
  induction k as [|k IH]; intros; cbn [ht_prf_keys]; [reflexivity|]. rewrite app_length, xmss_prf_keys_length, IH. lia.
Qed.
Lemma fors_tree_keys_length tr kp t : (length (fors_tree_keys tr kp t) = 2 ^ s_a D * 2 - 1)%nat.
Proof.
  pose proof (tree_keys_length _ (fun j => [(1%nat, fors_adrs D tr kp (Z.of_nat t) 0 j)])
    (fun k j => [(2%nat, fors_adrs D tr kp (Z.of_nat t) k j)]) 1 1 ltac:(reflexivity) ltac:(reflexivity) (s_a D) 0) as H.
  unfold fors_tree_keys. cbn [Nat.add] in H. lia.
Qed.
Lemma fors_tree_prf_keys_length tr kp t : (length (fors_tree_prf_keys tr kp t) = 2 ^ s_a D)%nat.
Proof.
  pose proof (tree_keys_length _ (fun j => [fors_prf_adrs D tr kp (Z.of_nat t) j]) (fun _ _ => []) 1 0
    ltac:(reflexivity) ltac:(reflexivity) (s_a D) 0) as H.
  unfold fors_tree_prf_keys. cbn [Nat.add] in H. lia.
Qed.
Lemma sign_keys_length tr lf :
  (length (sign_keys tr lf) + s_d D
   = s_k D * (2 ^ s_a D * 2 - 1) + 1 + s_d D * (2 ^ hp * (s_len D * w1 + 2)))%nat.
Proof.
  unfold sign_keys, fors_keys. rewrite !app_length, (length_flat_map_const _ (2 ^ s_a D * 2 - 1)%nat)
    by (intros; apply fors_tree_keys_length).
  rewrite seq_length. pose proof (ht_keys_length (s_d D) 0 tr). cbn [length]. lia.
Qed.
Lemma sign_prf_keys_length tr lf md :
  (length (sign_prf_keys tr lf md) = s_k D * (2 ^ s_a D + 1) + s_d D * (2 ^ hp * s_len D))%nat.
Proof.
  unfold sign_prf_keys. rewrite app_length, (length_flat_map_const _ (2 ^ s_a D + 1)%nat), seq_length, ht_prf_keys_length; [reflexivity|].
  intros t _. cbn [length]. rewrite fors_tree_prf_keys_length. lia.
Qed.

(** *** Distinct *)
Lemma wots_keys_in ly tr kp k a : In (k, a) (wots_keys ly tr kp) ->
  (k = 1%nat /\ exists i s, (i < s_len D)%nat /\ (s < w1)%nat /\ a = wots_adrs ly tr kp (Z.of_nat i) (Z.of_nat s))
  \/ (k = s_len D /\ a = wots_pk_adrs ly tr kp).
Proof.
  unfold wots_keys. intros H. apply in_app_or in H. destruct H as [H|[H|[]]]; [left|right].
  - apply in_flat_map in H. destruct H as (i & Hi & H). apply in_map_iff in H. destruct H as (s & E & Hs).
    injection E as <- <-. apply in_seq in Hi, Hs. split; [reflexivity|]. exists i, s. repeat split; lia.
  - now injection H as <- <-.
Qed.
Definition adrs_keys (l : list (nat * adrs)) : list adrs := map snd l.
Lemma adrs_keys_in a l : In a (adrs_keys l) <-> exists k, In (k, a) l.
Proof.
  unfold adrs_keys. rewrite in_map_iff. split.
  - intros ([k a'] & E & H). cbn in E. subst. now exists k.
  - intros (k & H). now exists (k, a).
Qed.
Lemma adrs_keys_app l l' : adrs_keys (l ++ l') = adrs_keys l ++ adrs_keys l'.
Proof. apply map_app. Qed.
Lemma wots_keys_NoDup ly tr kp : NoDup (adrs_keys (wots_keys ly tr kp)).
Proof.
  unfold wots_keys. rewrite adrs_keys_app. apply NoDup_app_intro.
  - unfold adrs_keys. rewrite map_flat_map'. apply NoDup_flat_map_intro; [apply seq_NoDup| |].
    + intros i _. rewrite map_map. cbn [snd]. apply NoDup_map_inj; [|apply seq_NoDup].
      intros x y _ _ E. injection E as E. lia.
    + intros x y b _ _ Hx Hy. rewrite map_map in Hx, Hy. apply in_map_iff in Hx, Hy.
      destruct Hx as (s & <- & _). destruct Hy as (s' & E & _). injection E as E _. lia.
  - constructor; [intros []|constructor].
  - intros x Hx [<-|[]]. apply adrs_keys_in in Hx. destruct Hx as (k & Hx). apply in_flat_map in Hx.
    destruct Hx as (i & _ & Hx). apply in_map_iff in Hx. destruct Hx as (s & E & _). discriminate E.
Qed.
Lemma tree_adrs_keys lk nk h i : adrs_keys (tree_keys lk nk h i) = tree_keys (fun j => adrs_keys (lk j)) (fun k j => adrs_keys (nk k j)) h i.
Proof.
  revert i. induction h as [|h IH]; intros i; cbn [tree_keys]; [reflexivity|]. now rewrite !adrs_keys_app, !IH.
Qed.
Lemma wots_keys_adrs ly tr kp a : In a (adrs_keys (wots_keys ly tr kp)) ->
  a_layer a = ly /\ a_tree a = tr /\ a_kp a = kp /\ (a_type a = T_WOTS_HASH \/ a_type a = T_WOTS_PK).
Proof.
  intros H. apply adrs_keys_in in H. destruct H as (k & H).
  apply wots_keys_in in H. destruct H as [(_ & i & s & _ & _ & ->)|(_ & ->)]; repeat split; [now left|now right].
Qed.
Lemma xmss_keys_NoDup ly tr : NoDup (adrs_keys (xmss_keys ly tr)).
Proof.
  unfold xmss_keys. rewrite tree_adrs_keys. apply (tree_keys_NoDup _ _ _ hp); [| | | | |lia].
  - intros; apply wots_keys_NoDup.
  - intros j j' x H H'. apply wots_keys_adrs in H, H'. destruct H as (_ & _ & H & _), H' as (_ & _ & H' & _). congruence.
  - intros h j. constructor; [intros []|constructor].
  - intros h j h' j' x [<-|[]] [E|[]] _ _. injection E as E E'. split; lia.
  - intros h j j' x [<-|[]] H _. apply wots_keys_adrs in H. destruct H as (_ & _ & _ & [H|H]); discriminate H.
Qed.
Lemma xmss_keys_in ly tr k a : In (k, a) (xmss_keys ly tr) ->
  (exists j, 0 <= j < 2 ^ Z.of_nat hp /\ In (k, a) (wots_keys ly tr j))
  \/ (k = 2%nat /\ exists h j, (1 <= h <= hp)%nat /\ 0 <= j < 2 ^ Z.of_nat (hp - h) /\ a = tree_adrs ly tr h j).
Proof.
  intros H. apply tree_keys_in in H. destruct H as [(j & Hj & H)|(h' & j & Hh & Hj & H)]; [left|right].
  - exists j. split; [unfold under in Hj; lia|exact H].
  - destruct H as [E|[]]. injection E as <- <-. split; [reflexivity|]. exists h', j. unfold under in Hj. repeat split; lia.
Qed.
Lemma xmss_keys_adrs ly tr a : In a (adrs_keys (xmss_keys ly tr)) ->
  a_layer a = ly /\ a_tree a = tr /\ (a_type a = T_WOTS_HASH \/ a_type a = T_WOTS_PK \/ a_type a = T_TREE).
Proof.
  intros H. apply adrs_keys_in in H. destruct H as (k & H). apply xmss_keys_in in H.
  destruct H as [(j & _ & H)|(_ & h & j & _ & _ & ->)].
  - assert (H' : In a (adrs_keys (wots_keys ly tr j))) by (apply adrs_keys_in; now exists k).
    apply wots_keys_adrs in H'. tauto.
  - cbn. tauto.
Qed.
Lemma ht_keys_in n : forall ly tr k a, In (k, a) (ht_keys n ly tr) ->
  exists i, (i < n)%nat /\ In (k, a) (xmss_keys (ly + Z.of_nat i) (tr / 2 ^ Z.of_nat (i * hp))).
Proof.
  induction n as [|n IH]; intros ly tr k a H; cbn [ht_keys] in H; [destruct H|].
  apply in_app_or in H. destruct H as [H|H].
  - exists 0%nat. split; [lia|]. rewrite Nat.mul_0_l. cbn [Z.of_nat]. rewrite Z.pow_0_r, Z.div_1_r, Z.add_0_r. exact H.
  - destruct (IH _ _ _ _ H) as (i & Hi & H'). exists (S i). split; [lia|].
    replace (ly + Z.of_nat (S i)) with (ly + 1 + Z.of_nat i) by lia.
    replace (tr / 2 ^ Z.of_nat (S i * hp)) with (tr / 2 ^ Z.of_nat hp / 2 ^ Z.of_nat (i * hp)); [exact H'|].
    rewrite Z.div_div by (pose proof (pow2_pos hp); pose proof (pow2_pos (i * hp)); lia).
    rewrite <- Z.pow_add_r by lia. do 2 f_equal. lia.
Qed.
Lemma ht_keys_NoDup n : forall ly tr, NoDup (adrs_keys (ht_keys n ly tr)).
Proof.
  induction n as [|n IH]; intros ly tr; cbn [ht_keys]; [constructor|]. rewrite adrs_keys_app.
  apply NoDup_app_intro; [apply xmss_keys_NoDup|apply IH|]. intros a Ha Ha'.
  apply xmss_keys_adrs in Ha. destruct Ha as (Ha & _). apply adrs_keys_in in Ha'. destruct Ha' as (k & H').
  apply ht_keys_in in H'. destruct H' as (i & _ & H').
  assert (H2 : In a (adrs_keys (xmss_keys (ly + 1 + Z.of_nat i) (tr / 2 ^ Z.of_nat hp / 2 ^ Z.of_nat (i * hp)))))
    by (apply adrs_keys_in; now exists k).
  apply xmss_keys_adrs in H2. destruct H2 as (H2 & _). lia.
Qed.
Lemma fors_tree_keys_in tr kp t k a : In (k, a) (fors_tree_keys tr kp t) ->
  exists h j, (h <= s_a D)%nat /\ 0 <= j < 2 ^ Z.of_nat (s_a D - h) /\ a = fors_adrs D tr kp (Z.of_nat t) h j
    /\ k = (if Nat.eqb h 0 then 1 else 2)%nat.
Proof.
  intros H. apply tree_keys_in in H. destruct H as [(j & Hj & H)|(h' & j & Hh & Hj & H)]; destruct H as [E|[]]; injection E as <- <-; unfold under in Hj.
  - exists 0%nat, j. rewrite Nat.sub_0_r. repeat split; lia.
  - exists h', j. destruct h'; [lia|]. repeat split; lia.
Qed.
Lemma fors_tree_keys_NoDup tr kp t : NoDup (adrs_keys (fors_tree_keys tr kp t)).
Proof.
  unfold fors_tree_keys. rewrite tree_adrs_keys. apply (tree_keys_NoDup _ _ _ (s_a D)); [| | | | |lia].
  - intros. constructor; [intros []|constructor].
  - intros j j' x [<-|[]] [E|[]]. injection E as E. lia.
  - intros h j. constructor; [intros []|constructor].
  - intros h j h' j' x [<-|[]] [E|[]] Hh Hh'. injection E as E E'. assert (h = h') by lia. subst. split; [reflexivity|]. lia.
  - intros h j j' x [<-|[]] [E|[]] Hh. injection E as E E'. lia.
Qed.
Lemma fors_adrs_tree t h j : 0 <= j < 2 ^ Z.of_nat (s_a D - h) ->
  (Z.of_nat t * 2 ^ Z.of_nat (s_a D - h) + j) / 2 ^ Z.of_nat (s_a D - h) = Z.of_nat t
  /\ (Z.of_nat t * 2 ^ Z.of_nat (s_a D - h) + j) mod 2 ^ Z.of_nat (s_a D - h) = j.
Proof.
  intros H. pose proof (pow2_pos (s_a D - h)). split.
  - rewrite Z.div_add_l, Z.div_small by lia. lia.
  - rewrite Z.add_comm, Z.mod_add, Z.mod_small by lia. reflexivity.
Qed.
Lemma fors_keys_adrs tr kp a : In a (adrs_keys (fors_keys tr kp)) ->
  a_layer a = 0 /\ a_tree a = tr /\ a_kp a = kp /\ (a_type a = T_FORS_TREE \/ a_type a = T_FORS_ROOTS).
Proof.
  intros H. apply adrs_keys_in in H. destruct H as (k & H). unfold fors_keys in H. apply in_app_or in H. destruct H as [H|[H|[]]].
  - apply in_flat_map in H. destruct H as (t & _ & H). apply fors_tree_keys_in in H.
    destruct H as (h & j & _ & _ & -> & _). cbn. tauto.
  - injection H as <- <-. cbn. tauto.
Qed.
Lemma fors_keys_NoDup tr kp : NoDup (adrs_keys (fors_keys tr kp)).
Proof.
  unfold fors_keys. rewrite adrs_keys_app. apply NoDup_app_intro.
  - unfold adrs_keys. rewrite map_flat_map'. apply NoDup_flat_map_intro; [apply seq_NoDup|intros; apply fors_tree_keys_NoDup|].
    intros t t' a _ _ H H'. apply adrs_keys_in in H, H'. destruct H as (k & H), H' as (k' & H').
    apply fors_tree_keys_in in H, H'. destruct H as (h & j & Hh & Hj & -> & _). destruct H' as (h' & j' & Hh' & Hj' & E & _).
    injection E as E E'. assert (h' = h) by lia. subst h'.
    destruct (fors_adrs_tree t h j Hj) as (Q & _). destruct (fors_adrs_tree t' h j' Hj') as (Q' & _).
    rewrite E' in Q. rewrite Q in Q'. lia.
  - constructor; [intros []|constructor].
  - intros a H [<-|[]]. apply adrs_keys_in in H. destruct H as (k & H). apply in_flat_map in H. destruct H as (t & _ & H).
    apply fors_tree_keys_in in H. destruct H as (h & j & _ & _ & E & _). discriminate E.
Qed.
Lemma ht_keys_adrs n ly tr a : In a (adrs_keys (ht_keys n ly tr)) ->
  a_type a = T_WOTS_HASH \/ a_type a = T_WOTS_PK \/ a_type a = T_TREE.
Proof.
  intros H. apply adrs_keys_in in H. destruct H as (k & H). apply ht_keys_in in H. destruct H as (i & _ & H).
  eapply xmss_keys_adrs. apply adrs_keys_in. exists k. exact H.
Qed.
Lemma sign_keys_NoDup tr lf : NoDup (adrs_keys (sign_keys tr lf)).
Proof.
  unfold sign_keys. rewrite adrs_keys_app. apply NoDup_app_intro; [apply fors_keys_NoDup|apply ht_keys_NoDup|].
  intros a H H'. apply fors_keys_adrs in H. apply ht_keys_adrs in H'. destruct H as (_ & _ & _ & H).
  unfold T_FORS_TREE, T_FORS_ROOTS, T_WOTS_HASH, T_WOTS_PK, T_TREE in *. lia.
Qed.
End Keys.
