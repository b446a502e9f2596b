(** The byte form of an address, as specification: where each field of an [adrs] goes. *)
From Verif Require Import Base Params Address Spec.

Definition byte_of (v : Z) (k : Z) : Z := (v / 256 ^ k) mod 256.
Definition be4 (v : Z) : bytes := [byte_of v 3; byte_of v 2; byte_of v 1; byte_of v 0].
Definition be8 (v : Z) : bytes :=
  [byte_of v 7; byte_of v 6; byte_of v 5; byte_of v 4; byte_of v 3; byte_of v 2; byte_of v 1; byte_of v 0].

(** SHA-2: the 22-byte compressed address (padded with zeros to the 32 bytes of uint32_t[8]);
    SHAKE and Haraka: eight big-endian 32-bit words, the tree index taking three of them. *)
Definition enc (l : layout) (a : adrs) : bytes :=
  match l with
  | LSha2 =>
      [byte_of (a_layer a) 0] ++ be8 (a_tree a) ++ [byte_of (a_type a) 0] ++ be4 (a_kp a)
      ++ [0; 0; 0; byte_of (a_w1 a) 0] ++ be4 (a_w2 a) ++ repeat 0 10
  | LShake =>
      [0; 0; 0; byte_of (a_layer a) 0] ++ [0; 0; 0; 0] ++ be8 (a_tree a)
      ++ [0; 0; 0; byte_of (a_type a) 0] ++ be4 (a_kp a)
      ++ [0; 0; 0; byte_of (a_w1 a) 0] ++ be4 (a_w2 a)
  end.

Definition adrs0 : adrs := mkAdrs 0 0 0 0 0 0.
Definition with_layer a v := mkAdrs v (a_tree a) (a_type a) (a_kp a) (a_w1 a) (a_w2 a).
Definition with_tree a v := mkAdrs (a_layer a) v (a_type a) (a_kp a) (a_w1 a) (a_w2 a).
Definition with_type a v := mkAdrs (a_layer a) (a_tree a) v (a_kp a) (a_w1 a) (a_w2 a).
Definition with_kp a v := mkAdrs (a_layer a) (a_tree a) (a_type a) v (a_w1 a) (a_w2 a).
Definition with_w1 a v := mkAdrs (a_layer a) (a_tree a) (a_type a) (a_kp a) v (a_w2 a).
Definition with_w2 a v := mkAdrs (a_layer a) (a_tree a) (a_type a) (a_kp a) (a_w1 a) v.

(** Field ranges that fit the byte form. *)
Definition adrs_wf (a : adrs) : Prop :=
  0 <= a_layer a < 256 /\ 0 <= a_tree a < 2 ^ 64 /\ 0 <= a_type a < 256
  /\ 0 <= a_kp a < 2 ^ 32 /\ 0 <= a_w1 a < 256 /\ 0 <= a_w2 a < 2 ^ 32.
