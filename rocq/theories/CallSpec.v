(** The hash calls the scheme of Spec.v makes, in order: the tweakable hash with its number of blocks, its address
    and its input, and the PRF with its address.  Nothing here uses the model. *)
From Coq Require Import List ZArith.
From Verif Require Import Spec.
Import ListNotations.
Open Scope Z_scope.

Inductive scall :=
| STh (k : nat) (a : adrs) (x : list Z)
| SPrf (a : adrs).

Section Calls.
Variable D : dims.
Variable T : adrs -> list Z -> list Z.
Variable PRF : adrs -> list Z.

(** A subtree is computed left child, right child, node. *)
Section Tree.
Variable leaf : Z -> list Z.
Variable hash2 : nat -> Z -> list Z -> list Z.
Variable leaf_calls : Z -> list scall.
Variable node_adrs : nat -> Z -> adrs.
Fixpoint tree_calls (h : nat) (i : Z) : list scall :=
  match h with
  | O => leaf_calls i
  | S h' =>
      tree_calls h' (2 * i) ++ tree_calls h' (2 * i + 1)
      ++ [STh 2 (node_adrs h i) (node leaf hash2 h' (2 * i) ++ node leaf hash2 h' (2 * i + 1))]
  end.
End Tree.
(** The path to the root, from a leaf value and the siblings. *)
Fixpoint climb_calls (hash2 : nat -> Z -> list Z -> list Z) (node_adrs : nat -> Z -> adrs) (h : nat) (i : Z)
    (x : list Z) (path : list (list Z)) : list scall :=
  match path with
  | [] => []
  | s :: path' =>
      let p := if Z.even i then x ++ s else s ++ x in
      STh 2 (node_adrs (S h) (i / 2)) p
      :: climb_calls hash2 node_adrs (S h) (i / 2) (hash2 (S h) (i / 2) p) path'
  end.

(** WOTS+ *)
Section WOTS.
Variables layer tree kp : Z.
Definition chain_calls (i : Z) (x : list Z) (start : Z) (steps : nat) : list scall :=
  map (fun s => STh 1 (wots_adrs layer tree kp i (start + Z.of_nat s)) (chain T layer tree kp i x start s))
    (seq 0 steps).
Definition wots_pk_adrs : adrs := mkAdrs layer tree T_WOTS_PK kp 0 0.
Definition wots_pk_calls : list scall :=
  flat_map (fun i => SPrf (mkAdrs layer tree T_WOTS_PRF kp (Z.of_nat i) 0)
                     :: chain_calls (Z.of_nat i) (wots_sk PRF layer tree kp i) 0 (Z.to_nat (s_w D - 1)))
    (seq 0 (s_len D))
  ++ [STh (s_len D) wots_pk_adrs
        (concat (map (fun i => chain T layer tree kp (Z.of_nat i) (wots_sk PRF layer tree kp i) 0
                                 (Z.to_nat (s_w D - 1))) (seq 0 (s_len D))))].
Definition wots_pk_of_sig_calls (m : list Z) (sig : list (list Z)) : list scall :=
  flat_map (fun i => let l := nth i (wots_lengths D m) 0 in
                     chain_calls (Z.of_nat i) (nth i sig []) l (Z.to_nat (s_w D - 1 - l)))
    (seq 0 (s_len D))
  ++ [STh (s_len D) wots_pk_adrs
        (concat (map (fun i => let l := nth i (wots_lengths D m) 0 in
                               chain T layer tree kp (Z.of_nat i) (nth i sig []) l (Z.to_nat (s_w D - 1 - l)))
                   (seq 0 (s_len D))))].
End WOTS.

(** One tree of the hypertree; the hypertree *)
Definition tree_adrs (layer tree : Z) (h : nat) (i : Z) : adrs := mkAdrs layer tree T_TREE 0 (Z.of_nat h) i.
Definition xmss_calls (layer tree : Z) : list scall :=
  tree_calls (fun kp => wots_pk D T PRF layer tree kp) (tree_hash2 T layer tree)
    (wots_pk_calls layer tree) (tree_adrs layer tree) (s_hp D) 0.
Fixpoint ht_calls (k : nat) (layer tree : Z) : list scall :=
  match k with
  | O => []
  | S k' => xmss_calls layer tree ++ ht_calls k' (layer + 1) (tree / 2 ^ Z.of_nat (s_hp D))
  end.
Definition xmss_of_sig_calls (layer tree idx : Z) (m : list Z) (sig : list (list Z)) : list scall :=
  wots_pk_of_sig_calls layer tree idx m (firstn (s_len D) sig)
  ++ climb_calls (tree_hash2 T layer tree) (tree_adrs layer tree) 0 idx
       (wots_pk_of_sig D T layer tree idx m (firstn (s_len D) sig)) (skipn (s_len D) sig).
Fixpoint ht_of_sig_calls (k : nat) (layer tree idx : Z) (m : list Z) (sig : list (list Z)) : list scall :=
  match k with
  | O => []
  | S k' =>
      xmss_of_sig_calls layer tree idx m (firstn (s_len D + s_hp D) sig)
      ++ ht_of_sig_calls k' (layer + 1) (tree / 2 ^ Z.of_nat (s_hp D)) (tree mod 2 ^ Z.of_nat (s_hp D))
           (xmss_root_of_sig D T layer tree idx m (firstn (s_len D + s_hp D) sig))
           (skipn (s_len D + s_hp D) sig)
  end.

(** FORS *)
Section FORS.
Variables tree kp : Z.
Definition fors_prf_adrs (t i : Z) : adrs := mkAdrs 0 tree T_FORS_PRF kp 0 (t * 2 ^ Z.of_nat (s_a D) + i).
Definition fors_adrs (t : Z) (h : nat) (i : Z) : adrs :=
  mkAdrs 0 tree T_FORS_TREE kp (Z.of_nat h) (t * 2 ^ Z.of_nat (s_a D - h) + i).
Definition fors_roots_adrs : adrs := mkAdrs 0 tree T_FORS_ROOTS kp 0 0.
Definition fors_leaf_calls (t i : Z) : list scall :=
  [SPrf (fors_prf_adrs t i); STh 1 (fors_adrs t 0 i) (fors_sk D PRF tree kp t i)].
(** The secret leaf value that goes into the signature is computed once more, before its tree. *)
Definition fors_tree_calls (md : list Z) (t : nat) : list scall :=
  SPrf (fors_prf_adrs (Z.of_nat t) (fors_index D md t))
  :: tree_calls (fors_leaf D T PRF tree kp (Z.of_nat t)) (fors_hash2 D T tree kp (Z.of_nat t))
       (fors_leaf_calls (Z.of_nat t)) (fors_adrs (Z.of_nat t)) (s_a D) 0.
Definition fors_calls (md : list Z) : list scall :=
  flat_map (fors_tree_calls md) (seq 0 (s_k D))
  ++ [STh (s_k D) fors_roots_adrs
        (concat (map (fun t => fors_root D T PRF tree kp (Z.of_nat t)) (seq 0 (s_k D))))].
Definition fors_tree_of_sig_calls (md : list Z) (t : nat) (sig : list (list Z)) : list scall :=
  let i := fors_index D md t in
  STh 1 (fors_adrs (Z.of_nat t) 0 i) (hd [] sig)
  :: climb_calls (fors_hash2 D T tree kp (Z.of_nat t)) (fors_adrs (Z.of_nat t)) 0 i
       (fors_leaf_of D T tree kp (Z.of_nat t) i (hd [] sig)) (tl sig).
Definition fors_of_sig_calls (md : list Z) (sig : list (list Z)) : list scall :=
  let blk t := firstn (s_a D + 1) (skipn (t * (s_a D + 1)) sig) in
  flat_map (fun t => fors_tree_of_sig_calls md t (blk t)) (seq 0 (s_k D))
  ++ [STh (s_k D) fors_roots_adrs
        (concat (map (fun t => fors_root_of_sig D T tree kp md t (blk t)) (seq 0 (s_k D))))].
End FORS.

(** Key generation, signing and verification, without the two message functions *)
Definition keygen_calls : list scall := xmss_calls (Z.of_nat (s_d D) - 1) 0.
Definition sign_calls (md : list Z) (tree leaf : Z) : list scall :=
  fors_calls tree leaf md ++ ht_calls (s_d D) 0 tree.
Definition verify_calls (md : list Z) (tree leaf : Z) (sig : list (list Z)) : list scall :=
  let nf := (s_k D * (s_a D + 1))%nat in
  fors_of_sig_calls tree leaf md (firstn nf sig)
  ++ ht_of_sig_calls (s_d D) 0 tree leaf (fors_pk_of_sig D T tree leaf md (firstn nf sig)) (skipn nf sig).
End Calls.
