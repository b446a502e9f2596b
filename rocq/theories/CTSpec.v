(** The values a signature makes public, computed from the public key, the message and the signature alone, as a
    verifier does: the output of the message hash, and the string signed at each layer of the hypertree. *)
From Verif Require Import Base Params Suite Spec Refine SignProofs CTLog.

(** What layer after layer signs: [m] at this layer, then the roots recomputed from the signature. *)
Fixpoint layer_roots (D : dims) (T : adrs -> list Z -> list Z) (k : nat) (layer tree idx : Z) (m : list Z)
    (sig : list (list Z)) : list (list Z) :=
  match k with
  | O => []
  | S k' =>
      m :: layer_roots D T k' (layer + 1) (tree / 2 ^ Z.of_nat (s_hp D)) (tree mod 2 ^ Z.of_nat (s_hp D))
             (xmss_root_of_sig D T layer tree idx m (firstn (s_len D + s_hp D) sig)) (skipn (s_len D + s_hp D) sig)
  end.
Definition public_roots (D : dims) (T : adrs -> list Z -> list Z) (md : list Z) (tree leaf : Z) (sig : list (list Z))
  : list (list Z) :=
  let nf := (s_k D * (s_a D + 1))%nat in
  layer_roots D T (s_d D) 0 tree leaf (fors_pk_of_sig D T tree leaf md (firstn nf sig)) (skipn nf sig).
(** [sig] at least SPX_BYTES bytes, [ps] and [root] the two halves of the public key *)
Definition public_marks (P : params) (HS : suite) (ps root m sig : bytes) : list event :=
  let D := dims_of P in
  let '(md, tree, leaf) := codeHm P HS ps (firstn (p_n P) sig) (ps ++ root) m in
  PubIdx md tree leaf
  :: map PubRoot (public_roots D (codeTh P HS ps) md tree leaf
                    (blocks (p_n P) (spx_nblocks D) (skipn (p_n P) (firstn (SPX_BYTES P) sig)))).
