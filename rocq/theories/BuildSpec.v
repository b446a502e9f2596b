(** The 36 builds of ref/: a hash family, simple or robust, and a parameter set (ref/Makefile:1-29
    chooses the source files); and the hash functions the specification prescribes for each. *)
From Verif Require Import Base Params Address Suite AdrsEnc Spec Refine HashSpec HarakaHashSpec
  HashShake HashSha2 HashHaraka.

Inductive family := SHA2 | SHAKE | HARAKA.

(** The code of a build. *)
Definition build (f : family) (robust : bool) (P : params) (junk : nat -> nat -> Z) : suite :=
  match f with
  | SHA2 => sha2_suite P junk robust
  | SHAKE => shake_suite P junk robust
  | HARAKA => haraka_suite P junk robust
  end.

(** The specification's functions (sections 7.2.1-7.2.3), on abstract addresses. *)
Section SpecFunctions.
Variable f : family.
Variable n : nat.
Definition spec_T (robust : bool) (ps : bytes) (a : adrs) (x : bytes) : bytes :=
  match f with
  | SHA2 => sha2_T n robust ps (firstn 22 (enc LSha2 a)) x
  | SHAKE => shake_T n robust ps (enc LShake a) x
  | HARAKA => haraka_T n robust ps (enc LShake a) x
  end.
Definition spec_PRF (ps ss : bytes) (a : adrs) : bytes :=
  match f with
  | SHA2 => sha2_PRF n ps ss (firstn 22 (enc LSha2 a))
  | SHAKE => shake_PRF n ps ss (enc LShake a)
  | HARAKA => haraka_PRF n ps ss (enc LShake a)
  end.
Definition spec_Rnd (ps sk_prf optrand m : bytes) : bytes :=
  match f with
  | SHA2 => sha2_PRFmsg n sk_prf optrand m
  | SHAKE => shake_PRFmsg n sk_prf optrand m
  | HARAKA => haraka_PRFmsg n ps sk_prf optrand m
  end.
Definition spec_Hm (D : dims) (ps R pk m : bytes) : bytes * Z * Z :=
  match f with
  | SHA2 => sha2_Hmsg n D R (firstn n pk) (skipn n pk) m
  | SHAKE => shake_Hmsg D R pk m
  | HARAKA => haraka_Hmsg D ps R (skipn n pk) m
  end.
End SpecFunctions.
