(** ref/rng.c in the typed expressions of CInt.v.  unsigned long is 64 bits wide (LP64).  The block cipher is a parameter, as in
    Rng.v, from where AES256_ECB and the two structures come. *)
From Verif Require Import Base CInt CCore Rng.
Local Open Scope Z_scope.

(** The loops [for (int j=15; j>=lo; j--)] of rng.c:90-97, 159-166, 193-200. *)
Fixpoint incr_c (fuel : nat) (lo j : Z) (b : bytes) : option bytes :=
  match fuel with
  | O => None
  | S fuel' =>
      t <- cond (V I32 j >= K lo)%C ;;
      if t : bool then
        i <- ix (V I32 j) ;;
        v <- get b i ;;
        e <- cond (B v == K 255)%C ;;
        if e : bool then
          b <- wr b i [0] ;;
          j <- asg I32 (V I32 j - K 1)%C ;;
          incr_c fuel' lo j b
        else
          v <- asg U8 (B v + K 1)%C ;;
          wr b i [v]
      else Some b
  end.
(** [for (int i=0; i<48; i++) dst[i] ^= src[i]], rng.c:143-144, 205-206. *)
Definition xor48_c (src dst : bytes) : option bytes :=
  cfor 49 I32 0 (K 48) (fun i dst =>
    k <- ix (V I32 i) ;; a <- get dst k ;; b <- get src k ;;
    v <- asg U8 (B a .^ B b)%C ;; wr dst k [v]) dst.

(** seedexpander_init, rng.c:25-52.  0x100000000 is a long; it is converted to unsigned long. *)
Definition seedexpander_init_c (ctx : xof) (seed diversifier : bytes) (maxlen : Z) : option (Z * xof) :=
  bad <- cond (V U64 maxlen >= V U64 (2 ^ 32))%C ;;
  if bad : bool then Some (-1, ctx) else
  s <- rd seed 0 32 ;;
  key <- wr (x_key ctx) 0 s ;;
  d <- rd diversifier 0 8 ;;
  c <- wr (x_ctr ctx) 0 d ;;
  v <- asg U8 (Cast U8 (V U64 maxlen %% K 256))%C ;;
  c <- wr c 11 [v] ;;
  maxlen1 <- asg U64 (V U64 maxlen >> K 8)%C ;;
  v <- asg U8 (Cast U8 (V U64 maxlen1 %% K 256))%C ;;
  c <- wr c 10 [v] ;;
  maxlen2 <- asg U64 (V U64 maxlen1 >> K 8)%C ;;
  v <- asg U8 (Cast U8 (V U64 maxlen2 %% K 256))%C ;;
  c <- wr c 9 [v] ;;
  maxlen3 <- asg U64 (V U64 maxlen2 >> K 8)%C ;;
  v <- asg U8 (Cast U8 (V U64 maxlen3 %% K 256))%C ;;
  c <- wr c 8 [v] ;;
  c <- wr c 12 (repeat 0 4) ;;
  pos <- asg U64 (K 16) ;;
  b <- wr (x_buffer ctx) 0 (repeat 0 16) ;;
  Some (0, mkXof b pos maxlen key c).

Section Rng.
Variable E : bytes -> bytes -> bytes.
(** rng.c:73-99; one round more than the model of Rng.v needs is [None] in both. *)
Fixpoint sx_loop_c (fuel : nat) (ctx : xof) (x : bytes) (offset xlen : Z) : option (xof * bytes) :=
  go <- cond (K 0 < V U64 xlen)%C ;;
  if go : bool then
  match fuel with
  | O => None
  | S f =>
      (** xlen <= e is !(e < xlen) *)
      more <- cond ((K 16 - V U64 (x_pos ctx)) < V U64 xlen)%C ;;
      if negb more then
        p <- ix (V U64 (x_pos ctx)) ;;
        n <- ix (V U64 xlen) ;;
        d <- rd (x_buffer ctx) p n ;;
        o <- ix (V U64 offset) ;;
        x' <- wr x o d ;;
        pos <- asg U64 (V U64 (x_pos ctx) + V U64 xlen)%C ;;
        Some (mkXof (x_buffer ctx) pos (x_rem ctx) (x_key ctx) (x_ctr ctx), x')
      else
        p <- ix (V U64 (x_pos ctx)) ;;
        n <- ix (K 16 - V U64 (x_pos ctx))%C ;;
        d <- rd (x_buffer ctx) p n ;;
        o <- ix (V U64 offset) ;;
        x' <- wr x o d ;;
        xlen <- asg U64 (V U64 xlen - (K 16 - V U64 (x_pos ctx)))%C ;;
        offset <- asg U64 (V U64 offset + (K 16 - V U64 (x_pos ctx)))%C ;;
        b <- AES256_ECB E (x_key ctx) (x_ctr ctx) ;;
        pos <- asg U64 (K 0) ;;
        c <- incr_c 5 12 15 (x_ctr ctx) ;;
        sx_loop_c f (mkXof b pos (x_rem ctx) (x_key ctx) c) x' offset xlen
  end
  else Some (ctx, x).
(** seedexpander, rng.c:60-102; [None] for x stands for a NULL pointer. *)
Definition seedexpander_c (ctx : xof) (x : option bytes) (xlen : Z) : option (Z * xof * option bytes) :=
  match x with
  | None => Some (-2, ctx, None)
  | Some xb =>
      bad <- cond (V U64 xlen >= V U64 (x_rem ctx))%C ;;
      if bad : bool then Some (-3, ctx, Some xb) else
      rem <- asg U64 (V U64 (x_rem ctx) - V U64 xlen)%C ;;
      offset <- asg U64 (K 0) ;;
      '(ctx2, xb') <- sx_loop_c (Z.to_nat (xlen / 16) + 2) (mkXof (x_buffer ctx) (x_pos ctx) rem (x_key ctx) (x_ctr ctx)) xb offset xlen ;;
      Some (0, ctx2, Some xb')
  end.

(** AES256_CTR_DRBG_Update, rng.c:184-209; [temp] is the uninitialised local array. *)
Definition drbg_update_c (temp : bytes) (provided : option bytes) (key v : bytes) : option (bytes * bytes) :=
  '(v, temp) <- cfor 4 I32 0 (K 3) (fun i '(v, temp) =>
      v' <- incr_c 17 0 15 v ;;
      b <- AES256_ECB E key v' ;;
      o <- ix (K 16 * V I32 i)%C ;;
      temp' <- wr temp o b ;;
      Some (v', temp')) (v, temp) ;;
  temp <- match provided with
          | None => Some temp
          | Some p => xor48_c p temp
          end ;;
  a <- rd temp 0 32 ;;
  key' <- wr key 0 a ;;
  b <- rd temp 32 16 ;;
  v' <- wr v 0 b ;;
  Some (key', v').
(** randombytes_init, rng.c:135-149. *)
Definition randombytes_init_c (g : drbg) (sm temp : bytes) (entropy : bytes) (pers : option bytes) : option drbg :=
  e <- rd entropy 0 48 ;;
  sm <- wr sm 0 e ;;
  sm <- match pers with
        | None => Some sm
        | Some p => xor48_c p sm
        end ;;
  k <- wr (g_key g) 0 (repeat 0 32) ;;
  v <- wr (g_v g) 0 (repeat 0 16) ;;
  '(k', v') <- drbg_update_c temp (Some sm) k v ;;
  c <- asg I32 (K 1) ;;
  Some (mkDrbg k' v' c).
(** rng.c:157-177; i is an int, xlen an unsigned long long. *)
Fixpoint drbg_loop_c (fuel : nat) (key v x : bytes) (i xlen : Z) : option (bytes * bytes) :=
  go <- cond (K 0 < V U64 xlen)%C ;;
  if go : bool then
  match fuel with
  | O => None
  | S f =>
      v' <- incr_c 17 0 15 v ;;
      block <- AES256_ECB E key v' ;;
      full <- cond (K 15 < V U64 xlen)%C ;;
      o <- ix (V I32 i) ;;
      if full : bool then
        x' <- wr x o block ;;
        i <- asg I32 (V I32 i + K 16)%C ;;
        xlen <- asg U64 (V U64 xlen - K 16)%C ;;
        drbg_loop_c f key v' x' i xlen
      else
        n <- ix (V U64 xlen) ;;
        d <- rd block 0 n ;;
        x' <- wr x o d ;;
        xlen <- asg U64 (K 0) ;;
        drbg_loop_c f key v' x' i xlen
  end
  else Some (v, x).
(** randombytes, rng.c:151-182. *)
Definition drbg_randombytes_c (g : drbg) (temp x : bytes) (xlen : Z) : option (Z * drbg * bytes) :=
  i <- asg I32 (K 0) ;;
  '(v, x') <- drbg_loop_c (Z.to_nat (xlen / 16) + 2) (g_key g) (g_v g) x i xlen ;;
  '(k', v') <- drbg_update_c temp None (g_key g) v ;;
  r <- asg I32 (V I32 (g_reseed g) + K 1)%C ;;
  Some (0, mkDrbg k' v' r, x').
End Rng.
(** A sequence of requests (not in the code): return values and buffers. *)
Fixpoint sx_run_c (E : bytes -> bytes -> bytes) (ctx : xof) (reqs : list bytes) : option (list (Z * bytes)) :=
  match reqs with
  | [] => Some []
  | x :: reqs' =>
      '(r, ctx', x') <- seedexpander_c E ctx (Some x) (Z.of_nat (length x)) ;;
      x' <- x' ;;
      rest <- sx_run_c E ctx' reqs' ;;
      Some ((r, x') :: rest)
  end.
