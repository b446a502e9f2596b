(** The specification depends on the hash functions only through their values (so no function
    extensionality is needed anywhere). *)
From Coq Require Import List ZArith.
From Verif Require Import Spec.
Import ListNotations.
Open Scope Z_scope.

Section Ext.
Variable D : dims.
Variables T T' : adrs -> list Z -> list Z.
Variable PRF PRF' : adrs -> list Z.
Hypothesis HT : forall a x, T a x = T' a x.
Hypothesis HP : forall a, PRF a = PRF' a.

Lemma node_ext leaf leaf' hash2 hash2' h i :
  (forall j, leaf j = leaf' j) -> (forall k j x, hash2 k j x = hash2' k j x) ->
  node leaf hash2 h i = node leaf' hash2' h i.
Proof. clear.
  intros Hl Hh. revert i. induction h as [|h IH]; intros; cbn [node]; auto.
  now rewrite Hh, !IH.
Qed.

Lemma auth_path_ext leaf leaf' hash2 hash2' h i :
  (forall j, leaf j = leaf' j) -> (forall k j x, hash2 k j x = hash2' k j x) ->
  auth_path leaf hash2 h i = auth_path leaf' hash2' h i.
Proof. clear. intros. apply map_ext. intros. now apply node_ext. Qed.

Lemma climb_ext hash2 hash2' p h i x :
  (forall k j x, hash2 k j x = hash2' k j x) -> climb hash2 h i x p = climb hash2' h i x p.
Proof. clear.
  intros Hh. revert h i x. induction p as [|s p IH]; intros; cbn [climb]; auto.
  now rewrite Hh, IH.
Qed.

Lemma chain_ext layer tree kp i x s k :
  chain T layer tree kp i x s k = chain T' layer tree kp i x s k.
Proof. clear - HT. induction k as [|k IH]; cbn [chain]; auto. now rewrite HT, IH. Qed.

Lemma wots_pk_ext layer tree kp : wots_pk D T PRF layer tree kp = wots_pk D T' PRF' layer tree kp.
Proof.
  unfold wots_pk, wots_compress. rewrite HT. f_equal. f_equal. apply map_ext. intros i.
  unfold wots_sk. now rewrite HP, chain_ext.
Qed.
Lemma wots_sign_ext layer tree kp m :
  wots_sign D T PRF layer tree kp m = wots_sign D T' PRF' layer tree kp m.
Proof. apply map_ext. intros. unfold wots_sk. now rewrite HP, chain_ext. Qed.
Lemma wots_pk_of_sig_ext layer tree kp m s :
  wots_pk_of_sig D T layer tree kp m s = wots_pk_of_sig D T' layer tree kp m s.
Proof. clear - HT.
  unfold wots_pk_of_sig, wots_compress. rewrite HT. f_equal. f_equal. apply map_ext. intros i.
  cbn zeta. now rewrite chain_ext.
Qed.

Lemma tree_hash2_ext layer tree h i x : tree_hash2 T layer tree h i x = tree_hash2 T' layer tree h i x.
Proof. clear - HT. apply HT. Qed.
Lemma xmss_root_ext layer tree : xmss_root D T PRF layer tree = xmss_root D T' PRF' layer tree.
Proof. apply node_ext; [intros; apply wots_pk_ext|intros; apply HT]. Qed.
Lemma xmss_sign_ext layer tree idx m :
  xmss_sign D T PRF layer tree idx m = xmss_sign D T' PRF' layer tree idx m.
Proof.
  unfold xmss_sign. rewrite wots_sign_ext. f_equal.
  apply auth_path_ext; [intros; apply wots_pk_ext|intros; apply HT].
Qed.
Lemma ht_sign_ext k layer tree idx m :
  ht_sign D T PRF k layer tree idx m = ht_sign D T' PRF' k layer tree idx m.
Proof.
  revert layer tree idx m. induction k as [|k IH]; intros; cbn [ht_sign]; auto.
  now rewrite xmss_sign_ext, IH, xmss_root_ext.
Qed.
Lemma ht_root_ext : ht_root D T PRF = ht_root D T' PRF'.
Proof. apply xmss_root_ext. Qed.
Lemma ht_root_of_sig_ext k layer tree idx m s :
  ht_root_of_sig D T k layer tree idx m s = ht_root_of_sig D T' k layer tree idx m s.
Proof. clear - HT.
  revert layer tree idx m s. induction k as [|k IH]; intros; cbn [ht_root_of_sig]; auto.
  rewrite IH. f_equal. unfold xmss_root_of_sig. rewrite wots_pk_of_sig_ext.
  apply climb_ext. intros; apply HT.
Qed.

Lemma fors_leaf_ext tree kp t i : fors_leaf D T PRF tree kp t i = fors_leaf D T' PRF' tree kp t i.
Proof. unfold fors_leaf, fors_leaf_of, fors_sk. now rewrite HT, HP. Qed.
Lemma fors_pk_ext tree kp : fors_pk D T PRF tree kp = fors_pk D T' PRF' tree kp.
Proof.
  unfold fors_pk, fors_compress. rewrite HT. f_equal. f_equal. apply map_ext. intros.
  apply node_ext; [intros; apply fors_leaf_ext|intros; apply HT].
Qed.
Lemma fors_sign_ext tree kp md : fors_sign D T PRF tree kp md = fors_sign D T' PRF' tree kp md.
Proof.
  unfold fors_sign. f_equal. apply map_ext. intros. unfold fors_sign_tree, fors_sk. cbn zeta.
  rewrite HP. f_equal. apply auth_path_ext; [intros; apply fors_leaf_ext|intros; apply HT].
Qed.
Lemma fors_pk_of_sig_ext tree kp md s :
  fors_pk_of_sig D T tree kp md s = fors_pk_of_sig D T' tree kp md s.
Proof. clear - HT.
  unfold fors_pk_of_sig, fors_compress. rewrite HT. f_equal. f_equal. apply map_ext. intros.
  unfold fors_root_of_sig, fors_leaf_of. cbn zeta. rewrite HT. apply climb_ext. intros; apply HT.
Qed.

Lemma spx_sign_body_ext md tree leaf :
  spx_sign_body D T PRF md tree leaf = spx_sign_body D T' PRF' md tree leaf.
Proof. unfold spx_sign_body. now rewrite fors_sign_ext, ht_sign_ext, fors_pk_ext. Qed.
Lemma spx_root_of_sig_ext md tree leaf s :
  spx_root_of_sig D T md tree leaf s = spx_root_of_sig D T' md tree leaf s.
Proof. clear - HT. unfold spx_root_of_sig. cbn zeta. now rewrite ht_root_of_sig_ext, fors_pk_of_sig_ext. Qed.
End Ext.
