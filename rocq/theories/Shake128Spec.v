(** SHAKE128 of FIPS 202, section 6.2: Keccak[256](M || 1111, 8n), rate 168 bytes. *)
From Verif Require Import Base KeccakSpec.
Definition SHAKE128 (m : list Z) (n : nat) : list Z := sponge keccak_bytes 200 168 0x1F m n.
