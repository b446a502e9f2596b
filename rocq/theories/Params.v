(** Parameter sets: ref/params/params-sphincs-*.h.

    One [params] value per distinct combination of the #defines.  Line numbers are those of
    params-sphincs-sha2-128f.h; the shake and haraka files are the same text without lines 21-25. *)
From Verif Require Import Base.

Record params := mkParams {
  p_n : nat;      (* SPX_N            line 7  *)
  p_full : nat;   (* SPX_FULL_HEIGHT  line 9  *)
  p_d : nat;      (* SPX_D            line 11 *)
  p_fh : nat;     (* SPX_FORS_HEIGHT  line 13 *)
  p_ft : nat;     (* SPX_FORS_TREES   line 14 *)
  p_logw : nat    (* SPX_WOTS_LOGW    lines 30-36: 4 for SPX_WOTS_W = 16, 8 for 256 *)
}.

(** SPX_ADDR_BYTES, line 27. *)
Definition SPX_ADDR_BYTES : nat := 32.

Section Sizes.
Variable P : params.
(** SPX_N *)
Definition SPX_N : nat := p_n P.
(** SPX_WOTS_W, lines 16 and 30-36. *)
Definition SPX_WOTS_W : Z := 2 ^ Z.of_nat (p_logw P).
(** SPX_WOTS_LEN1, line 38. *)
Definition SPX_WOTS_LEN1 : nat := (8 * p_n P / p_logw P)%nat.
(** SPX_WOTS_LEN2, lines 40-59; [None] is the #error. *)
Definition wots_len2_table (logw n : nat) : option nat :=
  if (logw =? 8)%nat then
    if (n <=? 1)%nat then Some 1%nat
    else if (n <=? 256)%nat then Some 2%nat else None
  else if (logw =? 4)%nat then
    if (n <=? 8)%nat then Some 2%nat
    else if (n <=? 136)%nat then Some 3%nat
    else if (n <=? 256)%nat then Some 4%nat else None
  else None.
Definition SPX_WOTS_LEN2 : nat :=
  match wots_len2_table (p_logw P) (p_n P) with Some l => l | None => O end.
(** SPX_WOTS_LEN, SPX_WOTS_BYTES, lines 61-62. *)
Definition SPX_WOTS_LEN : nat := (SPX_WOTS_LEN1 + SPX_WOTS_LEN2)%nat.
Definition SPX_WOTS_BYTES : nat := (SPX_WOTS_LEN * p_n P)%nat.
(** SPX_TREE_HEIGHT, line 66. *)
Definition SPX_TREE_HEIGHT : nat := (p_full P / p_d P)%nat.
(** SPX_FORS_*, lines 73-74. *)
Definition SPX_FORS_MSG_BYTES : nat := ((p_fh P * p_ft P + 7) / 8)%nat.
Definition SPX_FORS_BYTES : nat := ((p_fh P + 1) * p_ft P * p_n P)%nat.
(** SPX_BYTES, SPX_PK_BYTES, SPX_SK_BYTES, lines 78-81. *)
Definition SPX_BYTES : nat :=
  (p_n P + SPX_FORS_BYTES + p_d P * SPX_WOTS_BYTES + p_full P * p_n P)%nat.
Definition SPX_PK_BYTES : nat := (2 * p_n P)%nat.
Definition SPX_SK_BYTES : nat := (2 * p_n P + SPX_PK_BYTES)%nat.
(** CRYPTO_SEEDBYTES, ref/api.h line 14. *)
Definition CRYPTO_SEEDBYTES : nat := (3 * p_n P)%nat.
(** ref/hash_shake.c:63-67, ref/hash_sha2.c:128-132, ref/hash_haraka.c:62-66. *)
Definition SPX_TREE_BITS : nat := (SPX_TREE_HEIGHT * (p_d P - 1))%nat.
Definition SPX_TREE_BYTES : nat := ((SPX_TREE_BITS + 7) / 8)%nat.
Definition SPX_LEAF_BITS : nat := SPX_TREE_HEIGHT.
Definition SPX_LEAF_BYTES : nat := ((SPX_LEAF_BITS + 7) / 8)%nat.
Definition SPX_DGST_BYTES : nat := (SPX_FORS_MSG_BYTES + SPX_TREE_BYTES + SPX_LEAF_BYTES)%nat.

(** Which parameter values the code supports.  The #error directives of the header
    (W, LEN2, D | FULL_HEIGHT), of address.c:21-23 and hash_*.c (TREE_BITS <= 64), and the
    implicit requirements: [1 << height] in [int] (utils.c:119, utilsx1.c:38, fors.c:92,
    sign.c:151), FORS indices in uint32 (fors.c:92-95), layer / chain / height in one address
    byte (address.c:13,74,94), leaf index in uint32 (hash_*.c). *)
Definition wf_params : bool :=
  ((1 <=? p_n P) && (p_n P <=? 256)
   && (1 <=? p_d P) && (p_d P <=? 256)
   && (SPX_TREE_HEIGHT * p_d P =? p_full P)
   && (1 <=? SPX_TREE_HEIGHT) && (SPX_TREE_HEIGHT <=? 30)
   && (SPX_TREE_BITS <=? 64)
   && (1 <=? p_fh P) && (p_fh P <=? 30) && (1 <=? p_ft P)
   && ((p_logw P =? 4) || (p_logw P =? 8))
   && (SPX_WOTS_LEN <=? 256))%nat
  && (Z.of_nat (p_ft P) * 2 ^ Z.of_nat (p_fh P) <=? 2 ^ 32).
End Sizes.

(** The six sets of #defines; each is shared by the sha2, shake and haraka file of that name.
    ref/params/params-sphincs-{sha2,shake,haraka}-{128s,128f,192s,192f,256s,256f}.h lines 7-16. *)
Definition params_128s := mkParams 16 63 7 12 14 4.
Definition params_128f := mkParams 16 66 22 6 33 4.
Definition params_192s := mkParams 24 63 7 14 17 4.
Definition params_192f := mkParams 24 66 22 8 33 4.
Definition params_256s := mkParams 32 64 8 14 22 4.
Definition params_256f := mkParams 32 68 17 9 35 4.
Definition all_params : list params :=
  [params_128s; params_128f; params_192s; params_192f; params_256s; params_256f].

(** SPX_SHA512 (sha2 files only, line 24): 0 for the 128-bit sets, 1 for the others. *)
Definition SPX_SHA512 (P : params) : bool := negb (p_n P =? 16)%nat.

(** A toy set used by examples only (not shipped; satisfies [wf_params]). *)
Definition params_toy := mkParams 2 4 2 2 3 4.
