(** SPHINCS+ as mathematics: the round-3.1 scheme written over abstract address records and
    integers, with no buffers, no byte addresses and no mutation.  Nothing here uses the model.

    Notation follows the SPHINCS+ specification: ADRS structures (section 2.7.3), WOTS+ (3),
    hypertree (4), FORS (5), SPHINCS+ (6). *)
From Coq Require Import List ZArith.
Import ListNotations.
Open Scope Z_scope.

(** ** Addresses *)
Record adrs := mkAdrs {
  a_layer : Z;   (* 0 .. d-1 *)
  a_tree : Z;    (* index of the tree in its layer *)
  a_type : Z;    (* 0 WOTS hash, 1 WOTS pk, 2 hash tree, 3 FORS tree, 4 FORS roots,
                    5 WOTS key generation, 6 FORS key generation *)
  a_kp : Z;      (* key pair *)
  a_w1 : Z;      (* chain, or tree height *)
  a_w2 : Z       (* hash position in the chain, or tree index *)
}.

Definition T_WOTS_HASH : Z := 0.
Definition T_WOTS_PK : Z := 1.
Definition T_TREE : Z := 2.
Definition T_FORS_TREE : Z := 3.
Definition T_FORS_ROOTS : Z := 4.
Definition T_WOTS_PRF : Z := 5.
Definition T_FORS_PRF : Z := 6.

(** ** Integers and digits *)
(** Big-endian value of a byte string. *)
Fixpoint be_val (b : list Z) : Z :=
  match b with [] => 0 | x :: b' => x * 256 ^ Z.of_nat (length b') + be_val b' end.

(** The [l] base-[w] digits of [v], most significant first. *)
Definition digits (w : Z) (l : nat) (v : Z) : list Z :=
  map (fun j => (v / w ^ Z.of_nat (l - 1 - j)) mod w) (seq 0 l).

Fixpoint sumZ (l : list Z) : Z := match l with [] => 0 | x :: l' => x + sumZ l' end.

(** ** The scheme *)
Record dims := mkDims {
  s_n : nat;       (* hash output bytes *)
  s_d : nat;       (* layers *)
  s_hp : nat;      (* height of one tree, h/d *)
  s_a : nat;       (* height of a FORS tree *)
  s_k : nat;       (* number of FORS trees *)
  s_w : Z;         (* Winternitz parameter *)
  s_len1 : nat; s_len2 : nat
}.

Section Scheme.
Variable D : dims.
(** Tweakable hash (of the concatenation of its inputs) and PRF, for one key pair. *)
Variable T : adrs -> list Z -> list Z.
Variable PRF : adrs -> list Z.

Definition s_len : nat := (s_len1 D + s_len2 D)%nat.

(** *** Merkle trees over any leaf function: node [h] [i] is the [i]-th node at height [h]. *)
Section Tree.
Variable leaf : Z -> list Z.
Variable hash2 : nat -> Z -> list Z -> list Z.   (* height, index, left ++ right *)
Fixpoint node (h : nat) (i : Z) : list Z :=
  match h with
  | O => leaf i
  | S h' => hash2 h i (node h' (2 * i) ++ node h' (2 * i + 1))
  end.
(** Sibling at each height of the path from leaf [i]. *)
Definition sibling (i : Z) (h : nat) : Z :=
  let j := i / 2 ^ Z.of_nat h in if Z.even j then j + 1 else j - 1.
Definition auth_path (height : nat) (i : Z) : list (list Z) :=
  map (fun h => node h (sibling i h)) (seq 0 height).
End Tree.

(** Recomputing the root from a leaf value and a path. *)
Fixpoint climb (hash2 : nat -> Z -> list Z -> list Z) (h : nat) (i : Z) (x : list Z)
    (path : list (list Z)) : list Z :=
  match path with
  | [] => x
  | s :: path' =>
      let y := hash2 (S h) (i / 2) (if Z.even i then x ++ s else s ++ x) in
      climb hash2 (S h) (i / 2) y path'
  end.

(** *** WOTS+ *)
Section WOTS.
Variables layer tree kp : Z.
Definition wots_adrs (i pos : Z) : adrs := mkAdrs layer tree T_WOTS_HASH kp i pos.
(** [steps] hash steps on chain [i] starting at position [start]. *)
Fixpoint chain (i : Z) (x : list Z) (start : Z) (steps : nat) : list Z :=
  match steps with
  | O => x
  | S s => T (wots_adrs i (start + Z.of_nat s)) (chain i x start s)
  end.
Definition wots_sk (i : nat) : list Z := PRF (mkAdrs layer tree T_WOTS_PRF kp (Z.of_nat i) 0).
Definition wots_compress (xs : list (list Z)) : list Z :=
  T (mkAdrs layer tree T_WOTS_PK kp 0 0) (concat xs).
Definition wots_pk : list Z :=
  wots_compress
    (map (fun i => chain (Z.of_nat i) (wots_sk i) 0 (Z.to_nat (s_w D - 1))) (seq 0 s_len)).
(** Chain lengths of a message: its base-w digits, then the digits of the checksum. *)
Definition wots_msg_digits (m : list Z) : list Z := digits (s_w D) (s_len1 D) (be_val m).
Definition wots_csum (ds : list Z) : Z := sumZ (map (fun d => s_w D - 1 - d) ds).
Definition wots_lengths (m : list Z) : list Z :=
  let ds := wots_msg_digits m in
  ds ++ digits (s_w D) (s_len2 D) (wots_csum ds).
Definition wots_sign (m : list Z) : list (list Z) :=
  map (fun i => chain (Z.of_nat i) (wots_sk i) 0 (Z.to_nat (nth i (wots_lengths m) 0)))
    (seq 0 s_len).
Definition wots_pk_of_sig (m : list Z) (sig : list (list Z)) : list Z :=
  wots_compress
    (map (fun i =>
            let l := nth i (wots_lengths m) 0 in
            chain (Z.of_nat i) (nth i sig []) l (Z.to_nat (s_w D - 1 - l))) (seq 0 s_len)).
End WOTS.

(** *** One tree of the hypertree *)
Definition tree_hash2 (layer tree : Z) (h : nat) (i : Z) (x : list Z) : list Z :=
  T (mkAdrs layer tree T_TREE 0 (Z.of_nat h) i) x.
Definition xmss_node (layer tree : Z) : nat -> Z -> list Z :=
  node (fun kp => wots_pk layer tree kp) (tree_hash2 layer tree).
Definition xmss_root (layer tree : Z) : list Z := xmss_node layer tree (s_hp D) 0.
Definition xmss_sign (layer tree idx : Z) (m : list Z) : list (list Z) :=
  wots_sign layer tree idx m
  ++ auth_path (fun kp => wots_pk layer tree kp) (tree_hash2 layer tree) (s_hp D) idx.
Definition xmss_root_of_sig (layer tree idx : Z) (m : list Z) (sig : list (list Z)) : list Z :=
  climb (tree_hash2 layer tree) 0 idx
    (wots_pk_of_sig layer tree idx m (firstn s_len sig)) (skipn s_len sig).

(** *** Hypertree: [k] layers remain, starting at [layer]. *)
Fixpoint ht_sign (k : nat) (layer tree idx : Z) (m : list Z) : list (list Z) :=
  match k with
  | O => []
  | S k' =>
      xmss_sign layer tree idx m
      ++ ht_sign k' (layer + 1) (tree / 2 ^ Z.of_nat (s_hp D)) (tree mod 2 ^ Z.of_nat (s_hp D))
           (xmss_root layer tree)
  end.
Fixpoint ht_root_of_sig (k : nat) (layer tree idx : Z) (m : list Z) (sig : list (list Z))
  : list Z :=
  match k with
  | O => m
  | S k' =>
      ht_root_of_sig k' (layer + 1) (tree / 2 ^ Z.of_nat (s_hp D)) (tree mod 2 ^ Z.of_nat (s_hp D))
        (xmss_root_of_sig layer tree idx m (firstn (s_len + s_hp D) sig))
        (skipn (s_len + s_hp D) sig)
  end.
Definition ht_root : list Z := xmss_root (Z.of_nat (s_d D) - 1) 0.

(** *** FORS, under leaf [kp] of tree [tree] of layer 0; [t] numbers the FORS trees. *)
Section FORS.
Variables tree kp : Z.
(** Leaves and nodes are numbered across all trees. *)
Definition fors_sk (t i : Z) : list Z :=
  PRF (mkAdrs 0 tree T_FORS_PRF kp 0 (t * 2 ^ Z.of_nat (s_a D) + i)).
Definition fors_leaf_of (t i : Z) (x : list Z) : list Z :=
  T (mkAdrs 0 tree T_FORS_TREE kp 0 (t * 2 ^ Z.of_nat (s_a D) + i)) x.
Definition fors_leaf (t i : Z) : list Z := fors_leaf_of t i (fors_sk t i).
Definition fors_hash2 (t : Z) (h : nat) (i : Z) (x : list Z) : list Z :=
  T (mkAdrs 0 tree T_FORS_TREE kp (Z.of_nat h) (t * 2 ^ Z.of_nat (s_a D - h) + i)) x.
Definition fors_root (t : Z) : list Z := node (fors_leaf t) (fors_hash2 t) (s_a D) 0.
Definition fors_compress (roots : list (list Z)) : list Z :=
  T (mkAdrs 0 tree T_FORS_ROOTS kp 0 0) (concat roots).
Definition fors_pk : list Z :=
  fors_compress (map (fun t => fors_root (Z.of_nat t)) (seq 0 (s_k D))).

(** Index of tree [t]: the [s_a] bits of the digest starting at bit [t * s_a], least significant
    first, bits of a byte numbered from its least significant bit. *)
Definition le_val (b : list Z) : Z :=
  fold_right (fun x acc => x + 256 * acc) 0 b.
Definition fors_index (md : list Z) (t : nat) : Z :=
  (le_val md / 2 ^ Z.of_nat (t * s_a D)) mod 2 ^ Z.of_nat (s_a D).

Definition fors_sign_tree (md : list Z) (t : nat) : list (list Z) :=
  let i := fors_index md t in
  fors_sk (Z.of_nat t) i
  :: auth_path (fors_leaf (Z.of_nat t)) (fors_hash2 (Z.of_nat t)) (s_a D) i.
Definition fors_sign (md : list Z) : list (list Z) :=
  concat (map (fors_sign_tree md) (seq 0 (s_k D))).
Definition fors_root_of_sig (md : list Z) (t : nat) (sig : list (list Z)) : list Z :=
  let i := fors_index md t in
  climb (fors_hash2 (Z.of_nat t)) 0 i (fors_leaf_of (Z.of_nat t) i (hd [] sig)) (tl sig).
Definition fors_pk_of_sig (md : list Z) (sig : list (list Z)) : list Z :=
  fors_compress
    (map (fun t => fors_root_of_sig md t (firstn (s_a D + 1) (skipn (t * (s_a D + 1)) sig)))
       (seq 0 (s_k D))).
End FORS.

(** *** SPHINCS+.  A signature is R followed by [sig_blocks] blocks of n bytes.  [md], [tree],
    [leaf] are the outputs of the message hash. *)
Definition spx_sign_body (md : list Z) (tree leaf : Z) : list (list Z) :=
  fors_sign tree leaf md
  ++ ht_sign (s_d D) 0 tree leaf (fors_pk tree leaf).
Definition spx_root_of_sig (md : list Z) (tree leaf : Z) (sig : list (list Z)) : list Z :=
  let nf := (s_k D * (s_a D + 1))%nat in
  ht_root_of_sig (s_d D) 0 tree leaf
    (fors_pk_of_sig tree leaf md (firstn nf sig)) (skipn nf sig).
End Scheme.

(** ** The API: keys and signatures as byte strings (section 6 of the specification).
    [Th ps] is the tweakable hash under public seed [ps], [Prf ps ss] the PRF under public seed [ps]
    and secret seed [ss]; [Rnd] the randomizer function and [Hm] the message hash. *)
Section Api.
Variable D : dims.
Variable Th : list Z -> adrs -> list Z -> list Z.
Variable Prf : list Z -> list Z -> adrs -> list Z.
Variable Rnd : list Z -> list Z -> list Z -> list Z -> list Z. (* pub_seed, sk_prf, optrand, m *)
Variable Hm : list Z -> list Z -> list Z -> list Z -> list Z * Z * Z. (* pub_seed, R, pk, m *)

(** pk = pub_seed || root, sk = sk_seed || sk_prf || pub_seed || root. *)
Definition spx_root (sk_seed pub_seed : list Z) : list Z :=
  ht_root D (Th pub_seed) (Prf pub_seed sk_seed).
Definition spx_pk (sk_seed pub_seed : list Z) : list Z :=
  pub_seed ++ spx_root sk_seed pub_seed.
Definition spx_sk (sk_seed sk_prf pub_seed : list Z) : list Z :=
  sk_seed ++ sk_prf ++ pub_seed ++ spx_root sk_seed pub_seed.
(** The signature of [m] under the secret key sk_seed || sk_prf || pub_seed || root. *)
Definition spx_sign (sk_seed sk_prf pub_seed root optrand m : list Z) : list Z :=
  let R := Rnd pub_seed sk_prf optrand m in
  let '(md, tree, leaf) := Hm pub_seed R (pub_seed ++ root) m in
  R ++ concat (spx_sign_body D (Th pub_seed) (Prf pub_seed sk_seed) md tree leaf).
(** A signature is randomizer R followed by blocks; it is accepted when the root recomputed from it
    is the root in the public key. *)
Definition spx_accepts (pub_seed root m R : list Z) (blocks : list (list Z)) : Prop :=
  let '(md, tree, leaf) := Hm pub_seed R (pub_seed ++ root) m in
  spx_root_of_sig D (Th pub_seed) md tree leaf blocks = root.

(** A byte string cut into [k] blocks of [n] bytes. *)
Fixpoint blocks (n k : nat) (b : list Z) : list (list Z) :=
  match k with O => [] | S k' => firstn n b :: blocks n k' (skipn n b) end.
(** Number of n-byte blocks after R: k FORS secrets with paths, d WOTS+ signatures with paths. *)
Definition spx_nblocks : nat := (s_k D * (s_a D + 1) + s_d D * (s_len D + s_hp D))%nat.
Definition spx_sig_bytes : nat := (s_n D * (1 + spx_nblocks))%nat.
(** Verification of an arbitrary byte string under the public key pub_seed || root. *)
Definition spx_verify (pub_seed root m sig : list Z) : Prop :=
  length sig = spx_sig_bytes
  /\ spx_accepts pub_seed root m (firstn (s_n D) sig)
       (blocks (s_n D) spx_nblocks (skipn (s_n D) sig)).
End Api.
