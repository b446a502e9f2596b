(** What the public key and the signatures give away of the secret values, and what a new signature after many
    queries amounts to.  Specification only; nothing here uses the model of the code. *)
From Coq Require Import List ZArith.
From Verif Require Import Spec ForgeSpec.
Import ListNotations.
Open Scope Z_scope.

(** ** Two secrets that look the same from outside
    [PRF] and [PRF'] are two ways to choose the secret values.  They have the same images when every FORS secret has the
    same leaf, the FORS secrets [shown] are the same, and every WOTS+ chain passes through the same value at the one
    position that signatures release. *)
Section Images.
Variable D : dims.
Variable T : adrs -> list Z -> list Z.
Variables PRF PRF' : adrs -> list Z.
Variable shown : Z -> Z -> nat -> Z -> Prop.   (* tree, leaf, number of the FORS tree, index in it *)
Record same_images : Prop := {
  si_leaf : forall tree kp t i, in_ht D 0 tree kp -> (t < s_k D)%nat -> 0 <= i < 2 ^ Z.of_nat (s_a D) ->
    T (fors_leaf_adrs D tree kp (Z.of_nat t) i) (fors_sk D PRF' tree kp (Z.of_nat t) i)
    = T (fors_leaf_adrs D tree kp (Z.of_nat t) i) (fors_sk D PRF tree kp (Z.of_nat t) i);
  si_shown : forall tree kp t i, in_ht D 0 tree kp -> (t < s_k D)%nat -> 0 <= i < 2 ^ Z.of_nat (s_a D) ->
    shown tree kp t i -> fors_sk D PRF' tree kp (Z.of_nat t) i = fors_sk D PRF tree kp (Z.of_nat t) i;
  si_chain : forall layer tree kp i, in_ht D layer tree kp -> (i < s_len D)%nat ->
    let l := Z.to_nat (nth i (wots_lengths D (signed_by D T PRF layer tree kp)) 0) in
    chain T layer tree kp (Z.of_nat i) (wots_sk PRF' layer tree kp i) 0 l
    = chain T layer tree kp (Z.of_nat i) (wots_sk PRF layer tree kp i) 0 l
}.
End Images.

(** ** Signatures obtained before
    A query is a message with the signature obtained for it; [hm R m] are digest, tree and leaf of the message hash. *)
Section Queries.
Variable D : dims.
Variable hm : list Z -> list Z -> list Z * Z * Z.
(** Some query showed the secret of leaf [i] of FORS tree [t] under leaf [leaf] of tree [tree]. *)
Definition shown_by (qs : list (list Z * list Z)) (tree leaf : Z) (t : nat) (i : Z) : Prop :=
  exists m sig md, In (m, sig) qs /\ hm (firstn (s_n D) sig) m = (md, tree, leaf) /\ fors_index D md t = i.
(** A new pair of randomizer and message, every FORS index of which was hit by queries with the same leaf. *)
Definition covered (qs : list (list Z * list Z)) (R m md : list Z) (tree leaf : Z) : Prop :=
  (forall sig, In (m, sig) qs -> firstn (s_n D) sig <> R)
  /\ forall t, (t < s_k D)%nat -> shown_by qs tree leaf t (fors_index D md t).
(** The signature contains a FORS secret that no query showed. *)
Definition unseen_in (PRF : adrs -> list Z) (qs : list (list Z * list Z)) (md : list Z) (tree leaf : Z)
    (body : list (list Z)) : Prop :=
  exists t, (t < s_k D)%nat /\ ~ shown_by qs tree leaf t (fors_index D md t)
    /\ nth (t * (s_a D + 1)) body [] = fors_sk D PRF tree leaf (Z.of_nat t) (fors_index D md t).
End Queries.
