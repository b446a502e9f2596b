(** The interface between the core and the hash functions: ref/hash.h, ref/thash.h,
    ref/context.h.  A [suite] is one build: a hash family, simple or robust, for one
    parameter set.  The fields model exactly the functions the core calls. *)
From Verif Require Import Base Params Address.

(** ref/context.h:8-26.  [c_state] stands for the family-specific members: the seeded SHA-2
    states, or the tweaked Haraka constants, or nothing for SHAKE. *)
Record ctx (St : Type) := mkCtx { c_pub_seed : bytes; c_sk_seed : bytes; c_state : St }.
Arguments mkCtx {St}. Arguments c_pub_seed {St}. Arguments c_sk_seed {St}. Arguments c_state {St}.

(** Each function is [option]-valued: [None] is an access outside a buffer inside the hash code. *)
Record suite := mkSuite {
  hs_layout : layout;
  hs_st : Type;
  (** initialize_hash_function: computes the family-specific members from ctx->pub_seed. *)
  hs_init : bytes -> hs_st;
  (** thash(out, in, inblocks, ctx, addr): the N output bytes. *)
  hs_thash : ctx hs_st -> nat -> bytes -> bytes -> option bytes;
  (** prf_addr(out, ctx, addr). *)
  hs_prf_addr : ctx hs_st -> bytes -> option bytes;
  (** gen_message_random(R, sk_prf, optrand, m, mlen, ctx). *)
  hs_gen_message_random : ctx hs_st -> bytes -> bytes -> bytes -> option bytes;
  (** hash_message(digest, &tree, &leaf_idx, R, pk, m, mlen, ctx): (digest, tree, leaf_idx). *)
  hs_hash_message : ctx hs_st -> bytes -> bytes -> bytes -> option (bytes * Z * Z)
}.

(** A context set up for some public seed: what sign.c builds before calling anything else. *)
Definition ctx_ok (P : params) (HS : suite) (c : ctx (hs_st HS)) : Prop :=
  length (c_pub_seed c) = p_n P /\ length (c_sk_seed c) = p_n P
  /\ c_state c = hs_init HS (c_pub_seed c).

(** What the core needs from a suite: on inputs of the right sizes every function succeeds, with
    outputs of the right sizes.  Proved for every modelled build. *)
Record suite_ok (P : params) (HS : suite) : Prop := {
  ok_thash : forall c k i a, ctx_ok P HS c ->
      length i = (k * p_n P)%nat -> length a = SPX_ADDR_BYTES ->
      exists d, hs_thash HS c k i a = Some d /\ length d = p_n P;
  ok_thash_bytes : forall c k i a d, hs_thash HS c k i a = Some d -> all_bytes d;
  ok_prf : forall c a, ctx_ok P HS c -> length a = SPX_ADDR_BYTES ->
      exists d, hs_prf_addr HS c a = Some d /\ length d = p_n P;
  ok_prf_bytes : forall c a d, hs_prf_addr HS c a = Some d -> all_bytes d;
  ok_rand : forall c s o m, ctx_ok P HS c -> length s = p_n P -> length o = p_n P ->
      exists d, hs_gen_message_random HS c s o m = Some d /\ length d = p_n P;
  ok_rand_bytes : forall c s o m d, hs_gen_message_random HS c s o m = Some d -> all_bytes d;
  ok_msg : forall c R pk m, ctx_ok P HS c -> length R = p_n P -> length pk = SPX_PK_BYTES P ->
      exists d t l, hs_hash_message HS c R pk m = Some (d, t, l)
      /\ length d = SPX_FORS_MSG_BYTES P /\ all_bytes d
      /\ 0 <= t < 2 ^ Z.of_nat (SPX_TREE_BITS P)
      /\ 0 <= l < 2 ^ Z.of_nat (SPX_LEAF_BITS P);
  (** only prf_addr reads ctx->sk_seed (verification never sets it) *)
  ok_thash_sk : forall ps s1 s2 st k i a,
      hs_thash HS (mkCtx ps s1 st) k i a = hs_thash HS (mkCtx ps s2 st) k i a;
  ok_msg_sk : forall ps s1 s2 st R pk m,
      hs_hash_message HS (mkCtx ps s1 st) R pk m = hs_hash_message HS (mkCtx ps s2 st) R pk m;
  ok_rand_sk : forall ps s1 s2 st s o m,
      hs_gen_message_random HS (mkCtx ps s1 st) s o m
      = hs_gen_message_random HS (mkCtx ps s2 st) s o m
}.

Section Calls.
Variable P : params.
Variable HS : suite.
Notation CTX := (ctx (hs_st HS)).

(** Call of thash with its memory preconditions: the callee reads inblocks*SPX_N bytes from
    [in] and the whole 32-byte address. *)
Definition thash (c : CTX) (inblocks : nat) (inp addr : bytes) : option bytes :=
  _ <- guard (length inp =? inblocks * p_n P)%nat ;;
  _ <- guard (length addr =? SPX_ADDR_BYTES)%nat ;;
  hs_thash HS c inblocks inp addr.

(** Call of prf_addr. *)
Definition prf_addr (c : CTX) (addr : bytes) : option bytes :=
  _ <- guard (length addr =? SPX_ADDR_BYTES)%nat ;;
  hs_prf_addr HS c addr.
End Calls.
