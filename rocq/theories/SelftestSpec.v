(** What the self-test should do, by the specification. *)
From Verif Require Import Base Params Spec Refine BuildSpec.

(** The string with the lowest bit of byte [i] changed. *)
Definition flip_at (l : bytes) (i : nat) : bytes := firstn i l ++ Z.lxor (nth i l 0) 1 :: skipn (S i) l.

Section Spec.
Variable f : family.
Variable robust : bool.
Variable P : params.
Notation N := (p_n P).
Notation D := (dims_of P).
(** The key made from the 3n bytes [ks] (SK.seed, SK.prf, PK.seed): its root, its signature of [msg] with the
    randomness [optrand], and what verifies under it. *)
Definition root_of (ks : bytes) : bytes :=
  let ps := skipn (2 * N) ks in ht_root D (spec_T f N robust ps) (spec_PRF f N ps (firstn N ks)).
Definition signature_of (ks optrand msg : bytes) : bytes :=
  spx_sign D (spec_T f N robust) (spec_PRF f N) (spec_Rnd f N) (spec_Hm f N D)
    (firstn N ks) (firstn N (skipn N ks)) (skipn (2 * N) ks) (root_of ks) optrand msg.
Definition accepted (ks sig msg : bytes) : Prop :=
  spx_verify D (spec_T f N robust) (spec_Hm f N D) (skipn (2 * N) ks) (root_of ks) msg sig.
End Spec.
