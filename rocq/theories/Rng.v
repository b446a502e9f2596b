(** Model of the two random sources: ref/randombytes.c (operating system) and ref/rng.c (the
    AES-256-CTR generator and the seed expander used by the NIST test-vector program). *)
From Verif Require Import Base.

(** ** ref/randombytes.c *)

(** One return of read(2): an error (-1), or the bytes the kernel has at hand, of which it delivers at
    most as many as requested.  A short or empty read is [RData] of a short or empty list. *)
Inductive read_result := RError | RData (d : bytes).

(** What has become of a call: it returned with this memory, this descriptor and the unread rest of the
    two event lists; or it is still waiting after the last event; or it wrote outside the memory. *)
Inductive rb_outcome :=
| Returned (mem : bytes) (fd : Z) (opens : list Z) (reads : list read_result)
| Waiting (mem : bytes)
| Fault.

(** randombytes.c:26-42, the loop [while (xlen > 0)]; [x] is the pointer, as an index into [mem];
    one event is consumed per iteration.  [xlen] is an unsigned long long.  [read]'s result is stored
    in the unsigned long long [i] (line 34), so the error value -1 becomes 2^64-1, which is not < 1
    (line 35); pointers are 64 bits wide, so adding it (line 40) moves [x] back by one. *)
Fixpoint rb_loop (reads : list read_result) (fd : Z) (opens : list Z) (mem : bytes) (x xlen : Z) : rb_outcome :=
  if xlen <=? 0 then Returned mem fd opens reads else
  match reads with
  | [] => Waiting mem
  | ev :: reads' =>
      let i := if xlen <? 1048576 then xlen else 1048576 in
      match ev with
      | RError =>
          let i := u64 (-1) in
          if i <? 1 then rb_loop reads' fd opens mem x xlen
          else rb_loop reads' fd opens mem (x + i - 2 ^ 64) (u64 (xlen - i))
      | RData d =>
          let d := firstn (Z.to_nat i) d in
          let i := Z.of_nat (length d) in
          if i <? 1 then rb_loop reads' fd opens mem x xlen
          else if x <? 0 then Fault
          else match wr mem (Z.to_nat x) d with
               | None => Fault
               | Some mem' => rb_loop reads' fd opens mem' (x + i) (u64 (xlen - i))
               end
      end
  end.
(** randombytes.c:10, 16-24: the static descriptor and the loop around open; [opens] are the results of
    open.  sleep is not modelled. *)
Fixpoint rb_open (opens : list Z) (fd : Z) : option (Z * list Z) :=
  if negb (fd =? -1) then Some (fd, opens) else
  match opens with
  | [] => None
  | r :: opens' => if negb (r =? -1) then Some (r, opens') else rb_open opens' r
  end.
(** randombytes.c:12-43. *)
Definition os_randombytes (fd : Z) (opens : list Z) (reads : list read_result) (mem : bytes) (x : nat) (xlen : Z)
  : rb_outcome :=
  match rb_open opens fd with
  | None => Waiting mem
  | Some (fd', opens') => rb_loop reads fd' opens' mem (Z.of_nat x) xlen
  end.

(** ** ref/rng.c *)
(** AES256_ECB (rng.c:115-133) calls OpenSSL; the block cipher is a parameter.  The call reads a
    32-byte key and a 16-byte block; allocation failure (abort) is not modelled. *)
Section Rng.
Variable E : bytes -> bytes -> bytes.
Definition AES256_ECB (key ctr : bytes) : option bytes :=
  _ <- guard ((length key =? 32) && (length ctr =? 16))%nat ;;
  Some (E key ctr).

(** The loops [for (j = hi; j >= lo; j--)] of rng.c:90-97, 159-166, 193-200: increment with carry;
    [k] = number of positions left, the current one is [lo + k - 1]. *)
Fixpoint incr (lo k : nat) (b : bytes) : option bytes :=
  match k with
  | O => Some b
  | S k' =>
      v <- get b (lo + k') ;;
      if v =? 255 then b' <- wr b (lo + k') [0] ;; incr lo k' b'
      else wr b (lo + k') [u8 (v + 1)]
  end.

(** AES_XOF_struct, rng.h:18-24.  unsigned long is 64 bits wide. *)
Record xof := mkXof { x_buffer : bytes; x_pos : Z; x_rem : Z; x_key : bytes; x_ctr : bytes }.

(** seedexpander_init, rng.c:25-52: return value and context. *)
Definition seedexpander_init (ctx : xof) (seed diversifier : bytes) (maxlen : Z) : option (Z * xof) :=
  if 2 ^ 32 <=? maxlen then Some (-1, ctx) else
  s <- rd seed 0 32 ;;
  key <- wr (x_key ctx) 0 s ;;
  d <- rd diversifier 0 8 ;;
  c <- wr (x_ctr ctx) 0 d ;;
  c <- wr c 11 [u8 (maxlen mod 256)] ;;
  let maxlen1 := Z.shiftr maxlen 8 in
  c <- wr c 10 [u8 (maxlen1 mod 256)] ;;
  let maxlen2 := Z.shiftr maxlen1 8 in
  c <- wr c 9 [u8 (maxlen2 mod 256)] ;;
  let maxlen3 := Z.shiftr maxlen2 8 in
  c <- wr c 8 [u8 (maxlen3 mod 256)] ;;
  c <- wr c 12 (repeat 0 4) ;;
  b <- wr (x_buffer ctx) 0 (repeat 0 16) ;;
  Some (0, mkXof b 16 maxlen key c).

(** rng.c:73-99, the loop; returns the context and the output buffer. *)
Fixpoint sx_loop (fuel : nat) (ctx : xof) (x : bytes) (offset : nat) (xlen : Z) : option (xof * bytes) :=
  if xlen <=? 0 then Some (ctx, x) else
  match fuel with
  | O => None
  | S f =>
      let av := u64 (16 - x_pos ctx) in
      if xlen <=? av then
        d <- rd (x_buffer ctx) (Z.to_nat (x_pos ctx)) (Z.to_nat xlen) ;;
        x' <- wr x offset d ;;
        Some (mkXof (x_buffer ctx) (u64 (x_pos ctx + xlen)) (x_rem ctx) (x_key ctx) (x_ctr ctx), x')
      else
        d <- rd (x_buffer ctx) (Z.to_nat (x_pos ctx)) (Z.to_nat av) ;;
        x' <- wr x offset d ;;
        b <- AES256_ECB (x_key ctx) (x_ctr ctx) ;;
        c <- incr 12 4 (x_ctr ctx) ;;
        sx_loop f (mkXof b 0 (x_rem ctx) (x_key ctx) c) x' (offset + Z.to_nat av) (u64 (xlen - av))
  end.
(** seedexpander, rng.c:60-102; [None] for x stands for a NULL pointer.  Return value, context,
    output buffer. *)
Definition seedexpander (ctx : xof) (x : option bytes) (xlen : Z) : option (Z * xof * option bytes) :=
  match x with
  | None => Some (-2, ctx, None)
  | Some xb =>
      if x_rem ctx <=? xlen then Some (-3, ctx, Some xb) else
      let ctx1 := mkXof (x_buffer ctx) (x_pos ctx) (u64 (x_rem ctx - xlen)) (x_key ctx) (x_ctr ctx) in
      '(ctx2, xb') <- sx_loop (Z.to_nat (xlen / 16) + 2) ctx1 xb 0 xlen ;;
      Some (0, ctx2, Some xb')
  end.

(** AES256_CTR_DRBG_struct, rng.h:26-30. *)
Record drbg := mkDrbg { g_key : bytes; g_v : bytes; g_reseed : Z }.

(** The loops [for (i = 0; i < 48; i++) dst[i] ^= src[i]] of rng.c:143-144 and 205-206. *)
Definition xor48 (src dst : bytes) : option bytes :=
  iterM 48 0 (fun i dst => a <- get dst i ;; b <- get src i ;; wr dst i [Z.lxor a b]) dst.

(** AES256_CTR_DRBG_Update, rng.c:184-209: new Key and V.  [temp] is the uninitialised local array. *)
Definition drbg_update (temp : bytes) (provided : option bytes) (key v : bytes) : option (bytes * bytes) :=
  '(v, temp) <- iterM 3 0 (fun i '(v, temp) =>
      v' <- incr 0 16 v ;;
      b <- AES256_ECB key v' ;;
      temp' <- wr temp (16 * i) b ;;
      Some (v', temp')) (v, temp) ;;
  temp <- match provided with
          | None => Some temp
          | Some p => xor48 p temp
          end ;;
  a <- rd temp 0 32 ;;
  key' <- wr key 0 a ;;
  b <- rd temp 32 16 ;;
  v' <- wr v 0 b ;;
  Some (key', v').

(** randombytes_init, rng.c:135-149. *)
Definition randombytes_init (g : drbg) (sm temp : bytes) (entropy : bytes) (pers : option bytes) : option drbg :=
  e <- rd entropy 0 48 ;;
  sm <- wr sm 0 e ;;
  sm <- match pers with
        | None => Some sm
        | Some p => xor48 p sm
        end ;;
  k <- wr (g_key g) 0 (repeat 0 32) ;;
  v <- wr (g_v g) 0 (repeat 0 16) ;;
  '(k', v') <- drbg_update temp (Some sm) k v ;;
  Some (mkDrbg k' v' 1).

(** rng.c:157-177, the loop of randombytes; [i] is an int: going past INT_MAX is undefined. *)
Fixpoint drbg_loop (fuel : nat) (key v x : bytes) (i : nat) (xlen : Z) : option (bytes * bytes) :=
  if xlen <=? 0 then Some (v, x) else
  match fuel with
  | O => None
  | S f =>
      v' <- incr 0 16 v ;;
      block <- AES256_ECB key v' ;;
      if 15 <? xlen then
        x' <- wr x i block ;;
        _ <- guard (Z.of_nat i + 16 <? 2 ^ 31) ;;
        drbg_loop f key v' x' (i + 16) (u64 (xlen - 16))
      else
        d <- rd block 0 (Z.to_nat xlen) ;;
        x' <- wr x i d ;;
        drbg_loop f key v' x' i 0
  end.
(** randombytes, rng.c:151-182: return value, generator, output buffer.  [reseed_counter] is an int. *)
Definition drbg_randombytes (g : drbg) (temp x : bytes) (xlen : Z) : option (Z * drbg * bytes) :=
  '(v, x') <- drbg_loop (Z.to_nat (xlen / 16) + 2) (g_key g) (g_v g) x 0 xlen ;;
  '(k', v') <- drbg_update temp None (g_key g) v ;;
  _ <- guard (g_reseed g + 1 <? 2 ^ 31) ;;
  Some (0, mkDrbg k' v' (g_reseed g + 1), x').
End Rng.
