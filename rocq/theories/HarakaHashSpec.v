(** The Haraka instantiation of the SPHINCS+ hash functions (section 7.2.3 of the specification), as
    mathematics.  [RC] stands for the constants tweaked with the public seed.  Nothing here uses the
    model. *)
From Coq Require Import List ZArith.
From Verif Require Import Spec HashSpec HarakaSpec.
Import ListNotations.
Open Scope Z_scope.

Section HarakaOf.
Variable RC : list (list Z).
Variable n : nat.
Definition pad64 (x : list Z) : list Z := x ++ repeat 0 (64 - length x).
(** F: one block, Haraka-512 (masked with Haraka-256 of the address when robust); all other inputs:
    Haraka-S (masked with Haraka-S of the address when robust). *)
Definition haraka_T_of (robust : bool) (adr m : list Z) : list Z :=
  if (length m =? n)%nat
  then firstn n (Haraka512 RC (pad64 (adr ++ if robust then xor_str m (firstn n (Haraka256 RC adr)) else m)))
  else HarakaS RC (adr ++ if robust then xor_str m (HarakaS RC adr (length m)) else m) n.
Definition haraka_PRF_of (sk_seed adr : list Z) : list Z := firstn n (Haraka512 RC (pad64 (adr ++ sk_seed))).
Definition haraka_PRFmsg_of (sk_prf optrand m : list Z) : list Z := HarakaS RC (sk_prf ++ optrand ++ m) n.
Definition haraka_Hmsg_of (D : dims) (R pk_root m : list Z) : list Z * Z * Z :=
  split_digest_spec D (HarakaS RC (R ++ pk_root ++ m) (digest_len D)).
End HarakaOf.
Definition haraka_T (n : nat) (robust : bool) (pub_seed adr m : list Z) : list Z :=
  haraka_T_of (tweaked_RC pub_seed) n robust adr m.
Definition haraka_PRF (n : nat) (pub_seed sk_seed adr : list Z) : list Z :=
  haraka_PRF_of (tweaked_RC pub_seed) n sk_seed adr.
Definition haraka_PRFmsg (n : nat) (pub_seed sk_prf optrand m : list Z) : list Z :=
  haraka_PRFmsg_of (tweaked_RC pub_seed) n sk_prf optrand m.
Definition haraka_Hmsg (D : dims) (pub_seed R pk_root m : list Z) : list Z * Z * Z :=
  haraka_Hmsg_of (tweaked_RC pub_seed) D R pk_root m.
