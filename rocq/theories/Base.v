(** Bytes, checked buffers and the "undefined behaviour" monad.

    Conventions used by every model file:
    - a C integer or byte is a [Z]; wraps are written out with [u8], [u32], [u64];
    - a C buffer is a [list Z]; [rd]/[wr]/[get] are the only ways to access one, and an access
      outside the buffer is [None], the distinct outcome standing for undefined behaviour;
    - running out of loop fuel is [None] as well. *)
From Coq Require Export List ZArith Lia Bool Arith.
From Coq Require Export ZifyBool ZifyNat.
Export ListNotations.
Open Scope Z_scope.

Notation bytes := (list Z) (only parsing).

(** C integer conversions: (unsigned char)x, (uint32_t)x, (uint64_t)x. *)
Definition u8 (x : Z) : Z := x mod 256.
Definition u32 (x : Z) : Z := x mod 2 ^ 32.
Definition u64 (x : Z) : Z := x mod 2 ^ 64.

Definition bind {A B : Type} (o : option A) (f : A -> option B) : option B :=
  match o with Some a => f a | None => None end.

Notation "x <- e ;; f" := (bind e (fun x => f))
  (at level 61, e at next level, right associativity).
Notation "' p <- e ;; f" := (bind e (fun p => f))
  (at level 61, p pattern, e at next level, right associativity).

(** A checked assertion: the precondition of a call, [None] if it does not hold. *)
Definition guard (b : bool) : option unit := if b then Some tt else None.

(** [rd b off len]: the [len] bytes at offset [off] (memcpy source). *)
Definition rd (b : bytes) (off len : nat) : option bytes :=
  if (off + len <=? length b)%nat then Some (firstn len (skipn off b)) else None.

(** [wr b off d]: the buffer after writing [d] at offset [off] (memcpy destination). *)
Definition wr (b : bytes) (off : nat) (d : bytes) : option bytes :=
  if (off + length d <=? length b)%nat
  then Some (firstn off b ++ d ++ skipn (off + length d) b)%list else None.

(** [get b i]: b[i]. *)
Definition get {A} (b : list A) (i : nat) : option A := nth_error b i.

(** A byte string is well formed when every element is a byte. *)
Definition is_byte (x : Z) : Prop := 0 <= x < 256.
Definition all_bytes (b : bytes) : Prop := Forall is_byte b.

(** [n] bytes of unspecified memory, described by an arbitrary function. *)
Definition junk_bytes (junk : nat -> Z) (n : nat) : bytes := map junk (seq 0 n).

(** Monadic iteration [for i = start .. start+k-1]. *)
Fixpoint iterM {S : Type} (k : nat) (i : nat) (f : nat -> S -> option S) (s : S) : option S :=
  match k with
  | O => Some s
  | Datatypes.S k' => s' <- f i s ;; iterM k' (Datatypes.S i) f s'
  end.
