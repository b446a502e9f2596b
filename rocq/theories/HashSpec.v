(** The hash functions of the SPHINCS+ specification (section 7) for the three families, as
    mathematics: functions of byte strings.  Nothing here uses the model. *)
From Coq Require Import List ZArith.
From Verif Require Import Spec KeccakSpec Sha2Spec.
Import ListNotations.
Open Scope Z_scope.

(** xor of two strings of the same length *)
Definition xor_str (a b : list Z) : list Z := map (fun p => Z.lxor (fst p) (snd p)) (combine a b).

(** Section 6.4 / algorithm 20: the message digest is md || idx_tree || idx_leaf. *)
Section Split.
Variable D : dims.
Definition md_len : nat := ((s_k D * s_a D + 7) / 8)%nat.
Definition tree_bits : nat := (s_hp D * (s_d D - 1))%nat.
Definition tree_len : nat := ((tree_bits + 7) / 8)%nat.
Definition leaf_bits : nat := s_hp D.
Definition leaf_len : nat := ((leaf_bits + 7) / 8)%nat.
Definition digest_len : nat := (md_len + tree_len + leaf_len)%nat.
Definition split_digest_spec (d : list Z) : list Z * Z * Z :=
  (firstn md_len d,
   be_val (firstn tree_len (skipn md_len d)) mod 2 ^ Z.of_nat tree_bits,
   be_val (firstn leaf_len (skipn (md_len + tree_len) d)) mod 2 ^ Z.of_nat leaf_bits).
End Split.

(** Section 7.2.1: SHAKE256.  [adr] is the 32-byte address. *)
Section Shake.
Variable n : nat.
Definition shake_T (robust : bool) (pub_seed adr m : list Z) : list Z :=
  if robust
  then SHAKE256 (pub_seed ++ adr ++ xor_str m (SHAKE256 (pub_seed ++ adr) (length m))) n
  else SHAKE256 (pub_seed ++ adr ++ m) n.
Definition shake_PRF (pub_seed sk_seed adr : list Z) : list Z := SHAKE256 (pub_seed ++ adr ++ sk_seed) n.
Definition shake_PRFmsg (sk_prf optrand m : list Z) : list Z := SHAKE256 (sk_prf ++ optrand ++ m) n.
Definition shake_Hmsg (D : dims) (R pk m : list Z) : list Z * Z * Z :=
  split_digest_spec D (SHAKE256 (R ++ pk ++ m) (digest_len D)).
End Shake.

(** Section 7.2.2: SHA-2.  [adr] is the 22-byte compressed address.  SHA-256 for n = 16; for n = 24
    and 32 SHA-512 for the message hashes and for inputs of more than one block.  Over the two hash
    functions. *)
Section Sha2Of.
Variables h256 h512 : list Z -> list Z.
Variable n : nat.
Definition big : bool := (24 <=? n)%nat.
Definition shaX (b : bool) : list Z -> list Z := if b then h512 else h256.
Definition obX (b : bool) : nat := if b then 64 else 32.   (* output bytes *)
Definition bsX (b : bool) : nat := if b then 128 else 64.  (* block bytes *)
Definition sha2_T_of (robust : bool) (pub_seed adr m : list Z) : list Z :=
  let b := andb big (n <? length m)%nat in
  firstn n (shaX b (pub_seed ++ repeat 0 (bsX b - n) ++ adr
    ++ (if robust then xor_str m (mgf1_of (shaX b) (obX b) (pub_seed ++ adr) (length m)) else m))).
Definition sha2_PRF_of (pub_seed sk_seed adr : list Z) : list Z :=
  firstn n (h256 (pub_seed ++ repeat 0 (64 - n) ++ adr ++ sk_seed)).
Definition sha2_PRFmsg_of (sk_prf optrand m : list Z) : list Z :=
  firstn n (hmac_of (shaX big) (bsX big) sk_prf (optrand ++ m)).
Definition sha2_Hmsg_of (D : dims) (R pk_seed pk_root m : list Z) : list Z * Z * Z :=
  split_digest_spec D
    (mgf1_of (shaX big) (obX big) (R ++ pk_seed ++ shaX big (R ++ pk_seed ++ pk_root ++ m)) (digest_len D)).
End Sha2Of.
Definition sha2_T := sha2_T_of SHA256 SHA512.
Definition sha2_PRF := sha2_PRF_of SHA256.
Definition sha2_PRFmsg := sha2_PRFmsg_of SHA256 SHA512.
Definition sha2_Hmsg := sha2_Hmsg_of SHA256 SHA512.
