(** ref/wots.c, ref/wotsx1.c, ref/wotsx1.h. *)
From Verif Require Import Base Params Address Suite.

Section WotsDigits.
Variable P : params.
Notation N := (p_n P).
Notation W := (SPX_WOTS_W P).
Notation LOGW := (p_logw P).

(** ref/wots.c:45-64.  [total] is uninitialised before the first read: [None]. *)
Fixpoint base_w_loop (out_len : nat) (inp : bytes) (i : nat) (total : option Z) (bits : Z)
  : option (list Z) :=
  match out_len with
  | O => Some []
  | S k =>
      ' (i, total, bits) <-
        (if bits =? 0 then t <- get inp i ;; Some (S i, Some t, bits + 8)
         else Some (i, total, bits)) ;;
      let bits := bits - Z.of_nat LOGW in
      _ <- guard (0 <=? bits) ;;
      t <- total ;;
      rest <- base_w_loop k inp i total bits ;;
      Some (Z.land (Z.shiftr t bits) (W - 1) :: rest)
  end.
Definition base_w (out_len : nat) (inp : bytes) : option (list Z) :=
  base_w_loop out_len inp 0 None 0.

(** ref/wots.c:74-77, unsigned int arithmetic. *)
Definition csum_of (msg_base_w : list Z) : Z :=
  fold_left (fun csum d => u32 (csum + u32 (W - 1 - d))) msg_base_w 0.

(** ref/wots.c:67-84.  The argument is read for SPX_WOTS_LEN1 entries. *)
Definition wots_checksum (msg_base_w : list Z) : option (list Z) :=
  _ <- guard (length msg_base_w =? SPX_WOTS_LEN1 P)%nat ;;
  let csum := csum_of msg_base_w in
  let sh := ((8 - (SPX_WOTS_LEN2 P * LOGW) mod 8) mod 8)%nat in
  let csum := u32 (Z.shiftl csum (Z.of_nat sh)) in
  base_w (SPX_WOTS_LEN2 P) (ull_to_bytes ((SPX_WOTS_LEN2 P * LOGW + 7) / 8) csum).

(** ref/wots.c:87-91. *)
Definition chain_lengths (msg : bytes) : option (list Z) :=
  l1 <- base_w (SPX_WOTS_LEN1 P) msg ;;
  l2 <- wots_checksum l1 ;;
  Some (l1 ++ l2).
End WotsDigits.

(** ref/wotsx1.h:12-18.  [wi_sig] is the memory behind the pointer wots_sig. *)
Record leaf_info := mkInfo {
  wi_sig : bytes; wi_sign_leaf : Z; wi_steps : list Z; wi_leaf_addr : bytes; wi_pk_addr : bytes
}.

Section Wots.
Variable P : params.
Variable HS : suite.
Notation CTX := (ctx (hs_st HS)).
Notation L := (hs_layout HS).
Notation N := (p_n P).
Notation W := (SPX_WOTS_W P).
Notation LEN := (SPX_WOTS_LEN P).
Variable c : CTX.
Variable junk : nat -> nat -> Z.

(** ref/wots.c:34-37: for (i = start; i < lim && i < W; i++). *)
Fixpoint gen_chain_loop (fuel : nat) (i lim : Z) (out addr : bytes) : option (bytes * bytes) :=
  if (i <? lim) && (i <? W) then
    match fuel with
    | O => None
    | S fuel' =>
        addr <- set_hash_addr L addr i ;;
        out <- thash P HS c 1 out addr ;;
        gen_chain_loop fuel' (i + 1) lim out addr
    end
  else Some (out, addr).

(** ref/wots.c:24-38; [start + steps] is unsigned int.  At most W iterations. *)
Definition gen_chain (inp : bytes) (start steps : Z) (addr : bytes) : option (bytes * bytes) :=
  out <- rd inp 0 N ;;
  gen_chain_loop (Z.to_nat W) start (u32 (start + steps)) out addr.

(** ref/wots.c:98-112. *)
Definition wots_pk_from_sig (sig msg addr : bytes) : option (bytes * bytes) :=
  lengths <- chain_lengths P msg ;;
  iterM LEN 0 (fun i s =>
    let '(pk, addr) := s in
    addr <- set_chain_addr L addr (Z.of_nat i) ;;
    l <- get lengths i ;;
    x <- rd sig (i * N) N ;;
    ' (x, addr) <- gen_chain x l (u32 (W - 1 - l)) addr ;;
    pk <- wr pk (i * N) x ;;
    Some (pk, addr)) (junk_bytes (junk 5) (SPX_WOTS_BYTES P), addr).

(** ref/wotsx1.c:54-68: one chain, from k to W-1, saving position wots_k of chain i. *)
Fixpoint wots_leaf_chain (fuel : nat) (i : nat) (k wots_k : Z) (buf sig addr : bytes)
  : option (bytes * bytes * bytes) :=
  match fuel with
  | O => None
  | S fuel' =>
      sig <- (if k =? wots_k then wr sig (i * N) buf else Some sig) ;;
      if k =? W - 1 then Some (buf, sig, addr)
      else
        addr <- set_hash_addr L addr k ;;
        buf <- thash P HS c 1 buf addr ;;
        wots_leaf_chain fuel' i (k + 1) wots_k buf sig addr
  end.

(** ref/wotsx1.c:17-73. *)
Definition wots_gen_leafx1 (info : leaf_info) (leaf_idx : Z) : option (bytes * leaf_info) :=
  let mask := if leaf_idx =? wi_sign_leaf info then 0 else 2 ^ 32 - 1 in
  leaf_addr <- set_keypair_addr L (wi_leaf_addr info) leaf_idx ;;
  pk_addr <- set_keypair_addr L (wi_pk_addr info) leaf_idx ;;
  ' (pk_buffer, sig, leaf_addr) <-
    iterM LEN 0 (fun i s =>
      let '(pk_buffer, sig, addr) := s in
      step <- get (wi_steps info) i ;;
      let wots_k := Z.lor step mask in
      addr <- set_chain_addr L addr (Z.of_nat i) ;;
      addr <- set_hash_addr L addr 0 ;;
      addr <- set_type L addr SPX_ADDR_TYPE_WOTSPRF ;;
      buf <- prf_addr HS c addr ;;
      addr <- set_type L addr SPX_ADDR_TYPE_WOTS ;;
      ' (buf, sig, addr) <- wots_leaf_chain (Z.to_nat W) i 0 wots_k buf sig addr ;;
      pk_buffer <- wr pk_buffer (i * N) buf ;;
      Some (pk_buffer, sig, addr))
      (junk_bytes (junk 6) (SPX_WOTS_BYTES P), wi_sig info, leaf_addr) ;;
  dest <- thash P HS c LEN pk_buffer pk_addr ;;
  Some (dest, mkInfo sig (wi_sign_leaf info) (wi_steps info) leaf_addr pk_addr).
End Wots.
