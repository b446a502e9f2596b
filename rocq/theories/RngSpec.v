(** Counter-mode generators as mathematics: output byte by byte. *)
From Coq Require Import List ZArith.
From Verif Require Import Spec.
Import ListNotations.
Open Scope Z_scope.

(** [k]-byte big-endian form of [v] (mod 256^k). *)
Definition be_bytes (k : nat) (v : Z) : list Z :=
  map (fun j => (v / 256 ^ Z.of_nat (k - 1 - j)) mod 256) (seq 0 k).
Definition xor_bytes (a b : list Z) : list Z := map (fun '(x, y) => Z.lxor x y) (combine a b).

Section Gen.
Variable E : list Z -> list Z -> list Z.   (* block cipher: key, 16-byte block *)

(** Bytes [p .. p+n-1] of the key stream whose block [j] is the encryption of [block j]. *)
Definition stream (key : list Z) (block : Z -> list Z) (p n : nat) : list Z :=
  map (fun i => nth (i mod 16) (E key (block (Z.of_nat (i / 16)))) 0) (seq p n).

(** Seed expander: blocks are diversifier || maxlen (4 bytes) || counter (4 bytes). *)
Definition sx_block (div : list Z) (maxlen j : Z) : list Z := div ++ be_bytes 4 maxlen ++ be_bytes 4 j.

(** SP 800-90A CTR_DRBG with AES-256, no derivation function: state (Key, V), V a 128-bit integer. *)
Definition ctr_block (v j : Z) : list Z := be_bytes 16 (v + 1 + j).
Definition spec_update (data : list Z) (key : list Z) (v : Z) : list Z * Z :=
  let t := xor_bytes (stream key (ctr_block v) 0 48) data in (firstn 32 t, be_val (skipn 32 t)).
Definition spec_instantiate (entropy pers : list Z) : list Z * Z :=
  spec_update (xor_bytes entropy pers) (repeat 0 32) 0.
(** Number of blocks for [n] bytes. *)
Definition nblk (n : nat) : Z := Z.of_nat ((n + 15) / 16).
Definition spec_generate (key : list Z) (v : Z) (n : nat) : list Z * (list Z * Z) :=
  (stream key (ctr_block v) 0 n, spec_update (repeat 0 48) key (v + nblk n)).
End Gen.

(** Seed expander as an account: each request is an output buffer, to be filled completely; [p] bytes have
    been handed out so far.  A request is refused (code -3, buffer as it was) unless it asks for less than
    what is left; otherwise (code 0) the buffer receives the next bytes of the stream [S]. *)
Fixpoint sx_answers (S : nat -> nat -> list Z) (maxlen : Z) (p : nat) (reqs : list (list Z)) : list (Z * list Z) :=
  match reqs with
  | [] => []
  | x :: reqs' =>
      if maxlen - Z.of_nat p <=? Z.of_nat (length x) then (-3, x) :: sx_answers S maxlen p reqs'
      else (0, S p (length x)) :: sx_answers S maxlen (p + length x) reqs'
  end.
(** The bytes handed out. *)
Definition handed_out (answers : list (Z * list Z)) : list Z :=
  concat (map (fun '(r, x) => if r =? 0 then x else []) answers).
