(** Four Keccak states in one array: bytes of an instance, changes of a byte string, reduced rounds.  Specification only. *)
From Coq Require Import List ZArith.
From Verif Require Import KeccakSpec.
Import ListNotations.
Open Scope Z_scope.

(** The 200 bytes of instance j of an array of vectors (word j of each vector, least significant byte first). *)
Definition instance (s : list (nat -> Z)) (j : nat) : list Z :=
  flat_map (fun v => map (fun i => (v j / 256 ^ Z.of_nat i) mod 256) (seq 0 8)) s.

(** The string b with the bytes from position off on combined with those of d. *)
Definition overlay (f : Z -> Z -> Z) (off : nat) (d b : list Z) : list Z :=
  firstn off b ++ map (fun p => f (fst p) (snd p)) (combine (skipn off b) d) ++ skipn (off + length d) b.
Definition xor_at := overlay Z.lxor.
Definition put_at := overlay (fun _ y => y).

(** n bytes of d from position off on *)
Definition slice (off n : nat) (d : list Z) : list Z := firstn n (skipn off d).

(** Four strings put into mem at out, out+8*lo, out+16*lo, out+24*lo. *)
Definition put_lanes (out lo : nat) (part : nat -> list Z) (mem : list Z) : list Z :=
  put_at (out + 8 * lo * 3) (part 3%nat) (put_at (out + 8 * lo * 2) (part 2%nat)
    (put_at (out + 8 * lo * 1) (part 1%nat) (put_at (out + 8 * lo * 0) (part 0%nat) mem))).

(** Keccak-p[1600, nr], FIPS 202 section 3.3: the last nr rounds of Keccak-f[1600]. *)
Definition keccak_p (nr : nat) (b : list Z) : list Z :=
  bytes_of_state (keccak_from nr (24 - nr) (state_of_bytes b)).

(** Absorbing blocks. *)
Definition absorb_blocks (perm : list Z -> list Z) (blocks : list (list Z)) (b : list Z) : list Z :=
  fold_left (fun b x => perm (xor_at 0 x b)) blocks b.

(** How often a loop runs that needs [need] bytes and then drops [step]. *)
Definition loop_count (len need step : nat) : nat := if (len <? need)%nat then 0%nat else S ((len - need) / step).
