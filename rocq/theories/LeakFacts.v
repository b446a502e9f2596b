(** Proofs on the specification for LeakSpec.v. *)
From Coq Require Import List ZArith Lia.
From Verif Require Import Spec SpecFacts ForgeSpec ForgeFacts LeakSpec.
Import ListNotations.
Open Scope Z_scope.

Lemma node_same (leaf leaf' : Z -> list Z) hash2 h : forall i,
  (forall j, i * 2 ^ Z.of_nat h <= j < (i + 1) * 2 ^ Z.of_nat h -> leaf j = leaf' j) ->
  node leaf hash2 h i = node leaf' hash2 h i.
Proof.
  induction h as [|h IH]; intros i H; cbn [node].
  - apply H. change (2 ^ Z.of_nat 0) with 1. lia.
  - assert (E : 2 ^ Z.of_nat (S h) = 2 * 2 ^ Z.of_nat h) by (rewrite Nat2Z.inj_succ; apply Z.pow_succ_r; lia).
    rewrite E in H. assert (0 < 2 ^ Z.of_nat h) by (apply Z.pow_pos_nonneg; lia). set (p := 2 ^ Z.of_nat h) in *. clearbody p.
    rewrite (IH (2 * i)), (IH (2 * i + 1)); [reflexivity| |]; intros j Hj; apply H; nia.
Qed.
Lemma pow_split a b : (b <= a)%nat -> 2 ^ Z.of_nat a = 2 ^ Z.of_nat (a - b) * 2 ^ Z.of_nat b.
Proof. intros. rewrite <- Z.pow_add_r by lia. f_equal. lia. Qed.
Lemma sibling_range H i h : 0 <= i < 2 ^ Z.of_nat H -> (h < H)%nat -> 0 <= sibling i h < 2 ^ Z.of_nat (H - h).
Proof.
  intros Hi Hh. unfold sibling.
  assert (P : 0 < 2 ^ Z.of_nat h) by (apply Z.pow_pos_nonneg; lia).
  assert (J : 0 <= i / 2 ^ Z.of_nat h < 2 ^ Z.of_nat (H - h)).
  { split; [apply Z.div_pos; lia|]. apply Z.div_lt_upper_bound; [lia|]. rewrite (pow_split H h) in Hi by lia. lia. }
  set (j := i / 2 ^ Z.of_nat h) in *. clearbody j.
  assert (E : 2 ^ Z.of_nat (H - h) = 2 * 2 ^ Z.of_nat (H - h - 1)).
  { rewrite <- Z.pow_succ_r by lia. f_equal. lia. }
  rewrite E in *. set (q := 2 ^ Z.of_nat (H - h - 1)) in *. clearbody q.
  pose proof (Zmod_even j) as Em. pose proof (Z.div_mod j 2). destruct (Z.even j); lia.
Qed.
Lemma auth_path_same (leaf leaf' : Z -> list Z) hash2 H i : 0 <= i < 2 ^ Z.of_nat H ->
  (forall j, 0 <= j < 2 ^ Z.of_nat H -> leaf j = leaf' j) ->
  auth_path leaf hash2 H i = auth_path leaf' hash2 H i.
Proof.
  intros Hi HL. apply map_ext_in. intros h Hh. apply in_seq in Hh. apply node_same. intros j Hj. apply HL.
  destruct (sibling_range H i h Hi) as [S1 S2]; [lia|].
  rewrite (pow_split H h) by lia. assert (0 < 2 ^ Z.of_nat h) by (apply Z.pow_pos_nonneg; lia).
  set (p := 2 ^ Z.of_nat h) in *. set (q := 2 ^ Z.of_nat (H - h)) in *. clearbody p q. nia.
Qed.

Section Images.
Variable D : dims.
Variable T : adrs -> list Z -> list Z.
Variables PRF PRF' : adrs -> list Z.
Variable shown : Z -> Z -> nat -> Z -> Prop.
Hypothesis Hw : 2 <= s_w D.
Hypothesis HI : same_images D T PRF PRF' shown.
Notation hp := (s_hp D).

Lemma wots_pk_same layer tree kp : in_ht D layer tree kp ->
  wots_pk D T PRF' layer tree kp = wots_pk D T PRF layer tree kp.
Proof.
  intros Hin. unfold wots_pk. f_equal. apply map_ext_in. intros i Hi. apply in_seq in Hi.
  pose proof (si_chain _ _ _ _ _ HI layer tree kp i Hin ltac:(lia)) as E. cbv zeta in E.
  pose proof (wots_lengths_nth D Hw (signed_by D T PRF layer tree kp) i) as R.
  set (l := nth i (wots_lengths D (signed_by D T PRF layer tree kp)) 0) in *. clearbody l.
  replace (Z.to_nat (s_w D - 1)) with (Z.to_nat l + Z.to_nat (s_w D - 1 - l))%nat by lia.
  rewrite <- !chain_add, E. reflexivity.
Qed.
Lemma in_ht_kp layer tree kp kp' : in_ht D layer tree kp -> 0 <= kp' < 2 ^ Z.of_nat hp -> in_ht D layer tree kp'.
Proof. unfold in_ht. tauto. Qed.
Lemma xmss_root_same layer tree : in_ht D layer tree 0 ->
  xmss_root D T PRF' layer tree = xmss_root D T PRF layer tree.
Proof.
  intros Hin. apply node_same. intros j Hj. apply wots_pk_same. apply (in_ht_kp _ _ 0); [exact Hin|lia].
Qed.
Lemma fors_leaf_same tree kp t i : in_ht D 0 tree kp -> (t < s_k D)%nat -> 0 <= i < 2 ^ Z.of_nat (s_a D) ->
  fors_leaf D T PRF' tree kp (Z.of_nat t) i = fors_leaf D T PRF tree kp (Z.of_nat t) i.
Proof. intros. unfold fors_leaf, fors_leaf_of. now apply (si_leaf _ _ _ _ _ HI). Qed.
Lemma fors_pk_same tree kp : in_ht D 0 tree kp -> fors_pk D T PRF' tree kp = fors_pk D T PRF tree kp.
Proof.
  intros Hin. unfold fors_pk. f_equal. apply map_ext_in. intros t Ht. apply in_seq in Ht.
  apply node_same. intros j Hj. apply fors_leaf_same; [exact Hin|lia|lia].
Qed.
Lemma fors_sign_same tree kp md : in_ht D 0 tree kp ->
  (forall t, (t < s_k D)%nat -> shown tree kp t (fors_index D md t)) ->
  fors_sign D T PRF' tree kp md = fors_sign D T PRF tree kp md.
Proof.
  intros Hin Hs. unfold fors_sign. f_equal. apply map_ext_in. intros t Ht. apply in_seq in Ht.
  unfold fors_sign_tree. cbv zeta. pose proof (fors_index_range D md t) as R. f_equal.
  - apply (si_shown _ _ _ _ _ HI); auto; [lia|]. apply Hs. lia.
  - apply auth_path_same; [exact R|]. intros j Hj. apply fors_leaf_same; auto. lia.
Qed.
Lemma signed_same layer tree kp : in_ht D layer tree kp ->
  signed_by D T PRF' layer tree kp = signed_by D T PRF layer tree kp.
Proof.
  intros (H1 & H2 & H3). unfold signed_by. destruct (Z.eqb_spec layer 0) as [->|Hne].
  - apply fors_pk_same. now repeat split.
  - apply xmss_root_same. assert (0 < 2 ^ Z.of_nat hp) by (apply Z.pow_pos_nonneg; lia).
    split; [lia|]. split; [|lia].
    assert (E : 2 ^ (Z.of_nat hp * (Z.of_nat (s_d D) - 1 - (layer - 1)))
      = 2 ^ (Z.of_nat hp * (Z.of_nat (s_d D) - 1 - layer)) * 2 ^ Z.of_nat hp).
    { rewrite <- Z.pow_add_r by nia. f_equal. ring. }
    rewrite E. set (p := 2 ^ Z.of_nat hp) in *. set (q := 2 ^ (Z.of_nat hp * (Z.of_nat (s_d D) - 1 - layer))) in *.
    clearbody p q. nia.
Qed.
Lemma wots_sign_same layer tree kp : in_ht D layer tree kp ->
  wots_sign D T PRF' layer tree kp (signed_by D T PRF layer tree kp)
  = wots_sign D T PRF layer tree kp (signed_by D T PRF layer tree kp).
Proof.
  intros Hin. apply map_ext_in. intros i Hi. apply in_seq in Hi.
  apply (si_chain _ _ _ _ _ HI layer tree kp i Hin). lia.
Qed.
Lemma path_in_ht tree leaf j : in_ht D 0 tree leaf -> (j < s_d D)%nat ->
  in_ht D (Z.of_nat j) (path_tree D tree j) (path_kp D tree leaf j).
Proof. clear.
  intros (H1 & H2 & H3) Hj. assert (P : 0 < 2 ^ Z.of_nat hp) by (apply Z.pow_pos_nonneg; lia).
  split; [lia|]. split.
  - unfold path_tree. assert (Q : 0 < 2 ^ (Z.of_nat hp * Z.of_nat j)) by (apply Z.pow_pos_nonneg; lia).
    split; [apply Z.div_pos; lia|]. apply Z.div_lt_upper_bound; [exact Q|].
    rewrite <- Z.pow_add_r by nia.
    replace (Z.of_nat hp * Z.of_nat j + Z.of_nat hp * (Z.of_nat (s_d D) - 1 - Z.of_nat j))
      with (Z.of_nat hp * (Z.of_nat (s_d D) - 1 - 0)) by ring. lia.
  - destruct j as [|j]; cbn [path_kp]; [exact H3|]. apply Z.mod_pos_bound, P.
Qed.
(** Two secrets with the same images have the same public key and the same signatures. *)
Theorem same_root : (1 <= s_d D)%nat -> ht_root D T PRF' = ht_root D T PRF.
Proof.
  intros Hd. apply xmss_root_same. split; [lia|].
  replace (Z.of_nat hp * (Z.of_nat (s_d D) - 1 - (Z.of_nat (s_d D) - 1))) with 0 by ring.
  change (2 ^ 0) with 1. split; [lia|]. split; [lia|]. apply Z.pow_pos_nonneg; lia.
Qed.
Theorem same_body md tree leaf : in_ht D 0 tree leaf ->
  (forall t, (t < s_k D)%nat -> shown tree leaf t (fors_index D md t)) ->
  spx_sign_body D T PRF' md tree leaf = spx_sign_body D T PRF md tree leaf.
Proof.
  intros Hin Hs. rewrite !body_released. f_equal; [now apply fors_sign_same|].
  f_equal. apply map_ext_in. intros j Hj. apply in_seq in Hj. cbv zeta.
  assert (Hp : in_ht D (Z.of_nat j) (path_tree D tree j) (path_kp D tree leaf j)) by (apply path_in_ht; [exact Hin|lia]).
  rewrite signed_same by exact Hp. rewrite wots_sign_same by exact Hp. f_equal.
  apply auth_path_same; [apply Hp|]. intros kp Hk. apply wots_pk_same. now apply (in_ht_kp _ _ (path_kp D tree leaf j)).
Qed.
End Images.

(** ** After many queries *)
Section Queries.
Variable D : dims.
Variable T : adrs -> list Z -> list Z.
Variable PRF : adrs -> list Z.
Variable hm : list Z -> list Z -> list Z * Z * Z.
Definition honest_sig (m sig : list Z) : Prop :=
  exists R md tree leaf, length R = s_n D /\ hm R m = (md, tree, leaf)
    /\ sig = R ++ concat (spx_sign_body D T PRF md tree leaf).
Lemma shown_dec qs tree leaf t i : shown_by D hm qs tree leaf t i \/ ~ shown_by D hm qs tree leaf t i.
Proof. clear.
  induction qs as [|[m sig] qs IH].
  - right. intros (m & sig & md & [] & _).
  - destruct IH as [(m' & sig' & md & Hin & E & F)|IH].
    + left. exists m', sig', md. split; [now right|auto].
    + destruct (hm (firstn (s_n D) sig) m) as [[md tr] lf] eqn:E.
      destruct (Z.eq_dec tr tree) as [->|N1]; [destruct (Z.eq_dec lf leaf) as [->|N2];
        [destruct (Z.eq_dec (fors_index D md t) i) as [<-|N3]|]|].
      * left. exists m, sig, md. split; [now left|auto].
      * right. intros (m' & sig' & md' & [Hin|Hin] & E' & F); [injection Hin as -> ->; congruence|].
        apply IH. now exists m', sig', md'.
      * right. intros (m' & sig' & md' & [Hin|Hin] & E' & F); [injection Hin as -> ->; congruence|].
        apply IH. now exists m', sig', md'.
      * right. intros (m' & sig' & md' & [Hin|Hin] & E' & F); [injection Hin as -> ->; congruence|].
        apply IH. now exists m', sig', md'.
Qed.
Lemma all_or_one (Q : nat -> Prop) : (forall t, Q t \/ ~ Q t) -> forall k,
  (forall t, (t < k)%nat -> Q t) \/ exists t, (t < k)%nat /\ ~ Q t.
Proof. clear.
  intros Hd k. induction k as [|k [IH|(t & Ht & Hn)]].
  - left. intros. lia.
  - destruct (Hd k) as [Hk|Hk].
    + left. intros t Ht. destruct (Nat.eq_dec t k) as [->|]; [exact Hk|]. apply IH. lia.
    + right. exists k. split; [lia|exact Hk].
  - right. exists t. split; [lia|exact Hn].
Qed.
Lemma body_fors_sk md tree leaf t : (t < s_k D)%nat ->
  nth (t * (s_a D + 1)) (spx_sign_body D T PRF md tree leaf) [] = fors_sk D PRF tree leaf (Z.of_nat t) (fors_index D md t).
Proof. clear hm.
  intros Ht. unfold spx_sign_body.
  pose proof (fors_sign_length D T PRF tree leaf md) as L.
  rewrite app_nth1 by (rewrite L; nia).
  pose proof (block_nth (fors_sign_tree D T PRF tree leaf md) (s_a D + 1) (s_k D) t
    (fun i => fors_sign_tree_length D T PRF tree leaf md i) Ht) as B.
  unfold fors_sign. 
  replace (nth (t * (s_a D + 1)) (concat (map (fors_sign_tree D T PRF tree leaf md) (seq 0 (s_k D)))) [])
    with (nth 0 (firstn (s_a D + 1) (skipn (t * (s_a D + 1)) (concat (map (fors_sign_tree D T PRF tree leaf md) (seq 0 (s_k D)))))) []).
  - rewrite B. reflexivity.
  - set (l := concat _). rewrite <- (firstn_skipn (t * (s_a D + 1)) l) at 2.
    assert (Hl : (t * (s_a D + 1) < length l)%nat).
    { unfold l. fold (fors_sign D T PRF tree leaf md). rewrite L. nia. }
    rewrite app_nth2 by (rewrite firstn_length; lia). rewrite firstn_length.
    replace (t * (s_a D + 1) - Nat.min (t * (s_a D + 1)) (length l))%nat with 0%nat by lia.
    rewrite Nat.add_1_r. destruct (skipn _ l); reflexivity.
Qed.
(** An honest-looking signature that is none of the queries. *)
Theorem after_queries qs R m md tree leaf :
  (forall m' sig, In (m', sig) qs -> honest_sig m' sig) ->
  length R = s_n D -> hm R m = (md, tree, leaf) ->
  ~ In (m, R ++ concat (spx_sign_body D T PRF md tree leaf)) qs ->
  covered D hm qs R m md tree leaf
  \/ unseen_in D hm PRF qs md tree leaf (spx_sign_body D T PRF md tree leaf).
Proof.
  intros Hq LR EH Hn.
  destruct (all_or_one (fun t => shown_by D hm qs tree leaf t (fors_index D md t)) (fun t => shown_dec qs _ _ _ _) (s_k D))
    as [Ha|(t & Ht & Hu)].
  - left. split; [|exact Ha]. intros sig Hin ER. apply Hn.
    destruct (Hq m sig Hin) as (R' & md' & tree' & leaf' & LR' & E' & ES).
    rewrite ES, firstn_app_len in ER by exact LR'. subst R'. rewrite E' in EH. injection EH as -> -> ->.
    rewrite <- ES. exact Hin.
  - right. exists t. split; [exact Ht|]. split; [exact Hu|]. now apply body_fors_sk.
Qed.
End Queries.
