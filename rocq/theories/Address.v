(** Hash addresses: ref/address.c, ref/address.h and the *_offsets.h files. *)
From Verif Require Import Base Params.

(** The two byte layouts: ref/sha2_offsets.h:9-16 and ref/shake_offsets.h:9-16
    (ref/haraka_offsets.h:9-16 has the same values as shake). *)
Inductive layout := LSha2 | LShake.

Definition SPX_OFFSET_LAYER (l : layout) : nat := match l with LSha2 => 0 | LShake => 3 end.
Definition SPX_OFFSET_TREE (l : layout) : nat := match l with LSha2 => 1 | LShake => 8 end.
Definition SPX_OFFSET_TYPE (l : layout) : nat := match l with LSha2 => 9 | LShake => 19 end.
Definition SPX_OFFSET_KP_ADDR (l : layout) : nat := match l with LSha2 => 10 | LShake => 20 end.
Definition SPX_OFFSET_CHAIN_ADDR (l : layout) : nat := match l with LSha2 => 17 | LShake => 27 end.
Definition SPX_OFFSET_HASH_ADDR (l : layout) : nat := match l with LSha2 => 21 | LShake => 31 end.
Definition SPX_OFFSET_TREE_HGT (l : layout) : nat := match l with LSha2 => 17 | LShake => 27 end.
Definition SPX_OFFSET_TREE_INDEX (l : layout) : nat := match l with LSha2 => 18 | LShake => 28 end.

(** ref/address.h:8-14. *)
Definition SPX_ADDR_TYPE_WOTS : Z := 0.
Definition SPX_ADDR_TYPE_WOTSPK : Z := 1.
Definition SPX_ADDR_TYPE_HASHTREE : Z := 2.
Definition SPX_ADDR_TYPE_FORSTREE : Z := 3.
Definition SPX_ADDR_TYPE_FORSPK : Z := 4.
Definition SPX_ADDR_TYPE_WOTSPRF : Z := 5.
Definition SPX_ADDR_TYPE_FORSPRF : Z := 6.

(** ref/utils.c:12-22: fills out[outlen-1] .. out[0] with the low byte, shifting right by 8. *)
Fixpoint ull_to_bytes_loop (i : nat) (inp : Z) (acc : bytes) : bytes :=
  match i with
  | O => acc
  | S i' => ull_to_bytes_loop i' (Z.shiftr inp 8) (Z.land inp 255 :: acc)
  end.
Definition ull_to_bytes (outlen : nat) (inp : Z) : bytes := ull_to_bytes_loop outlen inp [].

(** ref/utils.c:24-30. *)
Definition u32_to_bytes (inp : Z) : bytes :=
  [u8 (Z.shiftr inp 24); u8 (Z.shiftr inp 16); u8 (Z.shiftr inp 8); u8 inp].

Section WithLayout.
Variable L : layout.

(** uint32_t addr[8] = {0} : 32 zero bytes. *)
Definition zero_addr : bytes := repeat 0 SPX_ADDR_BYTES.

(** ref/address.c:11-14 *)
Definition set_layer_addr (addr : bytes) (layer : Z) : option bytes :=
  wr addr (SPX_OFFSET_LAYER L) [u8 layer].
(** ref/address.c:19-25 *)
Definition set_tree_addr (addr : bytes) (tree : Z) : option bytes :=
  wr addr (SPX_OFFSET_TREE L) (ull_to_bytes 8 tree).
(** ref/address.c:33-36 *)
Definition set_type (addr : bytes) (type : Z) : option bytes :=
  wr addr (SPX_OFFSET_TYPE L) [u8 type].
(** ref/address.c:42-45 *)
Definition copy_subtree_addr (out inp : bytes) : option bytes :=
  d <- rd inp 0 (SPX_OFFSET_TREE L + 8) ;; wr out 0 d.
(** ref/address.c:53-56 *)
Definition set_keypair_addr (addr : bytes) (keypair : Z) : option bytes :=
  wr addr (SPX_OFFSET_KP_ADDR L) (u32_to_bytes keypair).
(** ref/address.c:62-66 *)
Definition copy_keypair_addr (out inp : bytes) : option bytes :=
  d <- rd inp 0 (SPX_OFFSET_TREE L + 8) ;;
  out' <- wr out 0 d ;;
  k <- rd inp (SPX_OFFSET_KP_ADDR L) 4 ;;
  wr out' (SPX_OFFSET_KP_ADDR L) k.
(** ref/address.c:72-75 *)
Definition set_chain_addr (addr : bytes) (chain : Z) : option bytes :=
  wr addr (SPX_OFFSET_CHAIN_ADDR L) [u8 chain].
(** ref/address.c:81-84 *)
Definition set_hash_addr (addr : bytes) (hash : Z) : option bytes :=
  wr addr (SPX_OFFSET_HASH_ADDR L) [u8 hash].
(** ref/address.c:92-95 *)
Definition set_tree_height (addr : bytes) (tree_height : Z) : option bytes :=
  wr addr (SPX_OFFSET_TREE_HGT L) [u8 tree_height].
(** ref/address.c:101-104 *)
Definition set_tree_index (addr : bytes) (tree_index : Z) : option bytes :=
  wr addr (SPX_OFFSET_TREE_INDEX L) (u32_to_bytes tree_index).
End WithLayout.
