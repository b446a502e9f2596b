(** FIPS 180-4: SHA-256 and SHA-512; PKCS#1 MGF1; RFC 2104 HMAC.  As mathematics; nothing here uses
    the model.  Words are integers in [0, 2^w). *)
From Coq Require Import List ZArith.
Import ListNotations.
Open Scope Z_scope.

(** ** The constants (sections 4.2.2, 4.2.3, 5.3.3, 5.3.5): the first w bits of the fractional parts
    of cube and square roots of the first primes. *)
(** Greatest x below 2^k with x^e <= n, bit by bit. *)
Fixpoint root_from (e : Z) (n : Z) (k : nat) (x : Z) : Z :=
  match k with
  | O => x
  | S k' => let y := x + 2 ^ Z.of_nat k' in root_from e n k' (if y ^ e <=? n then y else x)
  end.
Definition root (e n : Z) : Z := root_from e n 80 0.
Fixpoint primes_from (fuel : nat) (n : Z) (acc : list Z) : list Z := (* primes below n, ascending *)
  match fuel with
  | O => acc
  | S f => primes_from f (n + 1) (if forallb (fun p => negb (n mod p =? 0)) acc then acc ++ [n] else acc)
  end.
Definition primes : list Z := primes_from 420 2 [].
(** floor(2^w * p^(1/e)) mod 2^w *)
Definition frac_root (w e p : Z) : Z := root e (p * 2 ^ (e * w)) mod 2 ^ w.

(** What differs between the two functions. *)
Record sha_params := {
  sw : Z;                          (* word size in bits *)
  swb : nat;                       (* in bytes *)
  srounds : nat;
  sS0 : Z * Z * Z; sS1 : Z * Z * Z;   (* Sigma_0, Sigma_1: three rotations *)
  ss0 : Z * Z * Z; ss1 : Z * Z * Z    (* sigma_0, sigma_1: two rotations and a shift *)
}.
Definition SHA256p := {| sw := 32; swb := 4; srounds := 64;
  sS0 := (2, 13, 22); sS1 := (6, 11, 25); ss0 := (7, 18, 3); ss1 := (17, 19, 10) |}.
Definition SHA512p := {| sw := 64; swb := 8; srounds := 80;
  sS0 := (28, 34, 39); sS1 := (14, 18, 41); ss0 := (1, 8, 7); ss1 := (19, 61, 6) |}.

Section Sha2.
Variable A : sha_params.
Notation w := (sw A).

Definition Kt (t : nat) : Z := frac_root w 3 (nth t primes 0).
Definition H0 : list Z := map (frac_root w 2) (firstn 8 primes).

(** Section 3.2 *)
Definition add (x y : Z) : Z := (x + y) mod 2 ^ w.
Definition rotr (n x : Z) : Z := Z.lor (Z.shiftr x n) (Z.shiftl x (w - n) mod 2 ^ w).
Definition Ch (x y z : Z) : Z := Z.lxor (Z.land x y) (Z.land (Z.ldiff (2 ^ w - 1) x) z).
Definition Maj (x y z : Z) : Z := Z.lxor (Z.lxor (Z.land x y) (Z.land x z)) (Z.land y z).
Definition Sig (c : Z * Z * Z) (x : Z) : Z :=
  let '(a, b, d) := c in Z.lxor (Z.lxor (rotr a x) (rotr b x)) (rotr d x).
Definition sig (c : Z * Z * Z) (x : Z) : Z :=
  let '(a, b, d) := c in Z.lxor (Z.lxor (rotr a x) (rotr b x)) (Z.shiftr x d).

(** The message schedule: W_0 .. W_{t-1}, most recent first. *)
Fixpoint sched (M : list Z) (t : nat) : list Z :=
  match t with
  | O => []
  | S t' =>
      let W := sched M t' in
      (if (t' <? 16)%nat then nth t' M 0
       else add (add (add (sig (ss1 A) (nth 1 W 0)) (nth 6 W 0)) (sig (ss0 A) (nth 14 W 0))) (nth 15 W 0))
      :: W
  end.
Definition Wt (M : list Z) (t : nat) : Z := hd 0 (sched M (S t)).

(** Section 6.2.2 / 6.4.2, one round. *)
Definition round1 (M : list Z) (t : nat) (s : list Z) : list Z :=
  match s with
  | [a; b; c; d; e; f; g; h] =>
      let T1 := add (add (add (add h (Sig (sS1 A) e)) (Ch e f g)) (Kt t)) (Wt M t) in
      let T2 := add (Sig (sS0 A) a) (Maj a b c) in
      [add T1 T2; a; b; c; add d T1; e; f; g]
  | _ => s
  end.
Fixpoint rounds (M : list Z) (k t : nat) (s : list Z) : list Z :=
  match k with O => s | S k' => rounds M k' (S t) (round1 M t s) end.
Definition compress (H M : list Z) : list Z :=
  map (fun p => add (fst p) (snd p)) (combine (rounds M (srounds A) 0 H) H).

(** Bytes. *)
Definition be_bytes (k : nat) (v : Z) : list Z :=
  map (fun i => (v / 256 ^ Z.of_nat (k - 1 - i)) mod 256) (seq 0 k).
Fixpoint be_num (b : list Z) : Z :=
  match b with [] => 0 | x :: b' => x * 256 ^ Z.of_nat (length b') + be_num b' end.
Definition bsz : nat := (16 * swb A)%nat.  (* block size in bytes *)
Fixpoint words (k : nat) (b : list Z) : list Z :=
  match k with O => [] | S k' => be_num (firstn (swb A) b) :: words k' (skipn (swb A) b) end.
Definition unwords (ws : list Z) : list Z := flat_map (be_bytes (swb A)) ws.

(** Section 5.1: M || 1 || 0^k || length, the length in 2w bits; on whole bytes. *)
Definition sha_pad (len : nat) : list Z :=
  [0x80] ++ repeat 0 (Z.to_nat ((Z.of_nat (14 * swb A) - 1 - Z.of_nat len) mod Z.of_nat bsz))
  ++ be_bytes (2 * swb A) (8 * Z.of_nat len).
Fixpoint chain_blocks (k : nat) (H : list Z) (b : list Z) : list Z :=
  match k with O => H | S k' => chain_blocks k' (compress H (words 16 (firstn bsz b))) (skipn bsz b) end.
Definition sha2 (m : list Z) : list Z :=
  let p := m ++ sha_pad (length m) in
  unwords (chain_blocks (length p / bsz) H0 p).
Definition outlen : nat := (8 * swb A)%nat.

End Sha2.

(** MGF1 (PKCS #1 v2.1, B.2.1) for a hash with [ob] output bytes: the first [len] bytes of
    h(seed || 0) || h(seed || 1) || ..., the counter in four bytes. *)
Definition mgf1_of (h : list Z -> list Z) (ob : nat) (seed : list Z) (len : nat) : list Z :=
  firstn len (flat_map (fun i => h (seed ++ be_bytes 4 (Z.of_nat i))) (seq 0 ((len + ob - 1) / ob))).
Definition mgf1 (A : sha_params) : list Z -> nat -> list Z := mgf1_of (sha2 A) (outlen A).

(** HMAC (RFC 2104) for a hash with [bs]-byte blocks and a key no longer than a block. *)
Definition xor_pad (bs : nat) (v : Z) (key : list Z) : list Z :=
  map (fun x => Z.lxor v x) (key ++ repeat 0 (bs - length key)).
Definition hmac_of (h : list Z -> list Z) (bs : nat) (key m : list Z) : list Z :=
  h (xor_pad bs 0x5c key ++ h (xor_pad bs 0x36 key ++ m)).
Definition hmac (A : sha_params) : list Z -> list Z -> list Z := hmac_of (sha2 A) (bsz A).

Definition SHA256 : list Z -> list Z := sha2 SHA256p.
Definition SHA512 : list Z -> list Z := sha2 SHA512p.
