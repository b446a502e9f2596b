(** The functions of a build seen through the abstract address: the [T] and [PRF] of the
    specification.  No proofs here. *)
From Verif Require Import Base Params Address Suite Spec AdrsEnc.

(** The dimensions of the specification for a parameter set. *)
Definition dims_of (P : params) : dims :=
  mkDims (p_n P) (p_d P) (SPX_TREE_HEIGHT P) (p_fh P) (p_ft P) (SPX_WOTS_W P)
    (SPX_WOTS_LEN1 P) (SPX_WOTS_LEN2 P).

(** The value of a call that succeeds ([suite_ok]). *)
Definition opt_bytes (o : option bytes) : bytes := match o with Some d => d | None => [] end.

Section CodeFunctions.
Variable P : params.
Variable HS : suite.
Variable c : ctx (hs_st HS).
(** thash on an encoded address; the number of blocks is the length over N. *)
Definition codeT (a : adrs) (x : bytes) : bytes :=
  opt_bytes (hs_thash HS c (length x / p_n P)%nat x (enc (hs_layout HS) a)).
Definition codePRF (a : adrs) : bytes := opt_bytes (hs_prf_addr HS c (enc (hs_layout HS) a)).
End CodeFunctions.

(** The functions of the specification's API section for a build.  The tweakable hash is the one of
    a context whose secret seed is zero: [ok_thash_sk] says the secret seed plays no role. *)
Section CodeApi.
Variable P : params.
Variable HS : suite.
Definition code_ctx (ps ss : bytes) : ctx (hs_st HS) := mkCtx ps ss (hs_init HS ps).
Definition zero_seed : bytes := repeat 0 (p_n P).
Definition codeTh (ps : bytes) : adrs -> bytes -> bytes := codeT P HS (code_ctx ps zero_seed).
Definition codePrf (ps ss : bytes) : adrs -> bytes := codePRF HS (code_ctx ps ss).
Definition codeRnd (ps sk_prf optrand m : bytes) : bytes :=
  opt_bytes (hs_gen_message_random HS (code_ctx ps zero_seed) sk_prf optrand m).
Definition codeHm (ps R pk m : bytes) : bytes * Z * Z :=
  match hs_hash_message HS (code_ctx ps zero_seed) R pk m with Some r => r | None => ([], 0, 0) end.
End CodeApi.
