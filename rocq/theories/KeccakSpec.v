(** FIPS 202: Keccak-f[1600], the sponge and SHAKE256, as mathematics.  Nothing here uses the model. *)
From Coq Require Import List ZArith Bool.
Import ListNotations.
Open Scope Z_scope.

(** ** The state array: bit (x, y, z), 0 <= x, y < 5, 0 <= z < 64 (section 3.1). *)
Definition kstate := nat -> nat -> Z -> bool.

(** Section 3.2.1: theta. *)
Definition column (A : kstate) (x : nat) (z : Z) : bool :=
  xorb (xorb (xorb (xorb (A x 0%nat z) (A x 1%nat z)) (A x 2%nat z)) (A x 3%nat z)) (A x 4%nat z).
Definition theta (A : kstate) : kstate := fun x y z =>
  xorb (A x y z)
    (xorb (column A ((x + 4) mod 5)%nat z) (column A ((x + 1) mod 5)%nat ((z - 1) mod 64))).

(** Section 3.2.2: rho.  The lane (x, y) is rotated by (t+1)(t+2)/2 where (x, y) is the t-th point of
    the walk (1,0), (x,y) -> (y, 2x+3y). *)
Fixpoint rho_walk (fuel t : nat) (px py x y : nat) : Z :=
  match fuel with
  | O => 0
  | S f =>
      if ((px =? x) && (py =? y))%nat then Z.of_nat ((t + 1) * (t + 2) / 2) mod 64
      else rho_walk f (S t) py ((2 * px + 3 * py) mod 5)%nat x y
  end.
Definition rho_offset (x y : nat) : Z := rho_walk 24 0 1 0 x y.
Definition rho (A : kstate) : kstate := fun x y z => A x y ((z - rho_offset x y) mod 64).

(** Section 3.2.3: pi. *)
Definition pi (A : kstate) : kstate := fun x y z => A ((x + 3 * y) mod 5)%nat x z.

(** Section 3.2.4: chi. *)
Definition chi (A : kstate) : kstate := fun x y z =>
  xorb (A x y z) (negb (A ((x + 1) mod 5)%nat y z) && A ((x + 2) mod 5)%nat y z).

(** Section 3.2.5: iota.  rc(t) is the low bit of the LFSR 0x171 (x^8+x^6+x^5+x^4+1) after t steps. *)
Definition lfsr_step (R : list bool) : list bool :=
  match R with
  | [r0; r1; r2; r3; r4; r5; r6; r7] =>
      (* R := 0 || R; R[0] ^= R[8]; R[4] ^= R[8]; R[5] ^= R[8]; R[6] ^= R[8]; keep 8 bits *)
      [xorb false r7; r0; r1; r2; xorb r3 r7; xorb r4 r7; xorb r5 r7; r6]
  | _ => R
  end.
Fixpoint lfsr (t : nat) : list bool :=
  match t with
  | O => [true; false; false; false; false; false; false; false]
  | S t' => lfsr_step (lfsr t')
  end.
Definition rc (t : nat) : bool := hd false (lfsr (t mod 255)).
(** RC[2^j - 1] = rc(j + 7 ir), all other bits 0. *)
Definition round_constant (ir : nat) (z : Z) : bool :=
  existsb (fun j => (z =? 2 ^ Z.of_nat j - 1) && rc (j + 7 * ir)) (seq 0 7).
Definition iota (ir : nat) (A : kstate) : kstate := fun x y z =>
  if ((x =? 0) && (y =? 0))%nat then xorb (A x y z) (round_constant ir z) else A x y z.

(** Section 3.3: 24 rounds. *)
Definition Rnd (ir : nat) (A : kstate) : kstate := iota ir (chi (pi (rho (theta A)))).
Fixpoint keccak_from (k ir : nat) (A : kstate) : kstate :=
  match k with O => A | S k' => keccak_from k' (S ir) (Rnd ir A) end.
Definition keccak_f (A : kstate) : kstate := keccak_from 24 0 A.

(** Strings of bits to bytes and back (appendix B.1: least significant bit first); bit (x, y, z) of
    the state is bit 64(5y+x)+z of the string. *)
Definition byte_of_bits (f : nat -> bool) : Z :=
  fold_right (fun i acc => (if f i then 1 else 0) + 2 * acc) 0 (seq 0 8).
Definition state_of_bytes (b : list Z) : kstate := fun x y z =>
  Z.testbit (nth (8 * (5 * y + x) + Z.to_nat (z / 8)) b 0) (z mod 8).
Definition bytes_of_state (A : kstate) : list Z :=
  map (fun j => byte_of_bits (fun i =>
        A ((j / 8) mod 5)%nat ((j / 8) / 5)%nat (Z.of_nat (8 * (j mod 8) + i)))) (seq 0 200).
Definition keccak_bytes (b : list Z) : list Z := bytes_of_state (keccak_f (state_of_bytes b)).

(** ** The sponge (section 4) on byte strings, for any permutation of [width] bytes and rate [r]. *)
Section Sponge.
Variable perm : list Z -> list Z.
Variable width r : nat.

Fixpoint xor_bytes (a b : list Z) : list Z :=
  match a, b with
  | x :: a', y :: b' => Z.lxor x y :: xor_bytes a' b'
  | a, [] => a
  | [], _ => []
  end.
Fixpoint cut (k : nat) (b : list Z) : list (list Z) :=
  match k with O => [] | S k' => firstn r b :: cut k' (skipn r b) end.
(** Padding to a multiple of the rate: the byte [p] carries the domain bits and the first bit of
    pad10*1, the last byte its last bit. *)
Definition pad (p : Z) (len : nat) : list Z :=
  let q := (r - len mod r)%nat in
  if (q =? 1)%nat then [p + 128] else p :: repeat 0 (q - 2) ++ [128].
Definition absorb (blocks : list (list Z)) : list Z :=
  fold_left (fun s b => perm (xor_bytes s b)) blocks (repeat 0 width).
Fixpoint iterate (n : nat) (s : list Z) : list Z :=
  match n with O => s | S n' => iterate n' (perm s) end.
(** Byte i of the output is byte i mod r of the state after i/r more permutations. *)
Definition squeeze (s : list Z) (n : nat) : list Z :=
  map (fun i => nth (i mod r) (iterate (i / r) s) 0) (seq 0 n).
Definition sponge (p : Z) (m : list Z) (n : nat) : list Z :=
  let padded := m ++ pad p (length m) in
  squeeze (absorb (cut (length padded / r) padded)) n.
End Sponge.

(** SHAKE256(M, 8n) = Keccak[512](M || 1111, 8n): rate 136 bytes; the bits 1111 and the first pad bit
    make the byte 0x1F (see [pad_bits] in KeccakProofs.v for the bit-level form). *)
Definition SHAKE256 (m : list Z) (n : nat) : list Z := sponge keccak_bytes 200 136 0x1F m n.

(** The padded message as a bit string, FIPS 202 sections 5.1 and 6.2: M || 1111 || 1 0* 1. *)
Definition bits_of_bytes (b : list Z) : list bool :=
  flat_map (fun x => map (fun i => Z.testbit x (Z.of_nat i)) (seq 0 8)) b.
Definition pad10star1 (x m : nat) : list bool :=
  [true] ++ repeat false (Z.to_nat ((- Z.of_nat m - 2) mod Z.of_nat x)) ++ [true].
