(** The builds of ref/ made of the typed hash functions of CGlue.v alone: the hash functions that the typed core of CCore.v is
    linked with.  The core hands over the contents of buffers; a cell of a buffer is an unsigned char, and the model's cells,
    which are numbers, are converted ([cells]).  thash gets the output buffer and behind it the input, in one memory.
    Outside the claims, where the fields of a suite must still have a value: messages of 2^63 bytes and more, and inputs of thash
    of almost 2^32 bytes; zeros stand for it.  The core calls thash for two, SPX_WOTS_LEN or SPX_FORS_TREES blocks at most. *)
From Verif Require Import Base Params Address Suite Sha2 HashShake HashSha2 HashHaraka BuildSpec CInt CCore CSha2 CFips202 CHaraka CGlue.
Local Open Scope Z_scope.

Definition cells (b : bytes) : bytes := map u8 b.
(** The messages and inputs of the claims. *)
Definition small_msg (m : bytes) : bool := Z.of_nat (length m) <? 2 ^ 63.
Definition small_in (P : params) (k : nat) : bool := Z.of_nat (k * p_n P) + 300 <? 2 ^ 32.

Section Wrap.
Variable P : params.
Variable junk : nat -> nat -> Z.
Notation N := (p_n P).
Variable L : layout.
Variable St : Type.
Variable init : bytes -> St.
Variable th : ctx St -> Z -> bytes -> bytes -> nat -> nat -> option bytes.
Variable prf : ctx St -> bytes -> option bytes.
Variable rnd : ctx St -> bytes -> bytes -> bytes -> Z -> option bytes.
Variable msg : ctx St -> bytes -> bytes -> bytes -> Z -> option (bytes * Z * Z).
Definition cctx (c : ctx St) : ctx St := mkCtx (cells (c_pub_seed c)) (cells (c_sk_seed c)) (c_state c).
Definition typed_suite : suite := {|
  hs_layout := L; hs_st := St;
  hs_init := fun ps => init (cells ps);
  hs_thash := fun c k i a =>
    if small_in P k then
      mem <- th (cctx c) (Z.of_nat k) (cells a) (cells (map (junk 400%nat) (seq 0 N)) ++ cells i) 0 N ;;
      h <- rd mem 0 N ;; Some (cells h)
    else Some (repeat 0 N);
  hs_prf_addr := fun c a => h <- prf (cctx c) (cells a) ;; Some (cells h);
  hs_gen_message_random := fun c k o m =>
    if small_msg m then h <- rnd (cctx c) (cells k) (cells o) (cells m) (Z.of_nat (length m)) ;; Some (cells h)
    else Some (repeat 0 N);
  hs_hash_message := fun c R pk m =>
    if small_msg m then msg (cctx c) (cells R) (cells pk) (cells m) (Z.of_nat (length m))
    else Some (repeat 0 (SPX_FORS_MSG_BYTES P), 0, 0)
|}.
End Wrap.

(** ref/Makefile:8-29: the source files of a family, thash simple or robust *)
Definition build_c (f : family) (robust : bool) (P : params) (junk : nat -> nat -> Z) : suite :=
  match f with
  | SHA2 => typed_suite P junk LSha2 seeds (seed_state_c P junk) (sha2_thash_c P junk robust) (sha2_prf_addr_c P junk)
              (sha2_gen_message_random_c P junk) (sha2_hash_message_c P junk)
  | SHAKE => typed_suite P junk LShake unit (fun _ => tt) (shake_thash_c P junk robust) (shake_prf_addr_c P junk)
              (shake_gen_message_random_c P junk) (shake_hash_message_c P junk)
  | HARAKA => typed_suite P junk LShake haraka_st (haraka_init_c P junk) (haraka_thash_c P junk robust) (haraka_prf_addr_c P junk)
              (haraka_gen_message_random_c P junk) (haraka_hash_message_c P junk)
  end.
