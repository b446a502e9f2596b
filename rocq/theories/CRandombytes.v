(** ref/randombytes.c in the typed expressions of CInt.v.  [None]: undefined behaviour, including a pointer that leaves the
    object (6.5.6p8), which the model of Rng.v lets wrap.  The events and outcomes are those of Rng.v; sleep is not modelled.
    read's result has type ssize_t; it is -1 or at most 1048576, so it is written as an int, which converts to
    unsigned long long with the same value. *)
From Verif Require Import Base CInt Rng.
Local Open Scope Z_scope.

(** What read(fd, x, i) does in one event: the memory and the result. *)
Definition os_read (ev : read_result) (mem : bytes) (x : nat) (i : Z) : option (bytes * Z) :=
  match ev with
  | RError => Some (mem, -1)
  | RData d =>
      let d := firstn (Z.to_nat i) d in
      mem <- wr mem x d ;; Some (mem, Z.of_nat (length d))
  end.
(** [x += i] for a pointer [x] into an object of [size] bytes, randombytes.c:40. *)
Definition padd (size x : nat) (i : Z) : option nat :=
  _ <- guard (Z.of_nat x + i <=? Z.of_nat size) ;; Some (Z.to_nat (Z.of_nat x + i)).
(** randombytes.c:26-42; [xlen > 0] is written as [0 < xlen]. *)
Fixpoint rb_loop_c (reads : list read_result) (fd : Z) (opens : list Z) (mem : bytes) (x : nat) (xlen : Z) : option rb_outcome :=
  go <- cond (K 0 < V U64 xlen)%C ;;
  if go : bool then
    match reads with
    | [] => Some (Waiting mem)
    | ev :: reads' =>
        small <- cond (V U64 xlen < K 1048576)%C ;;
        i <- (if small : bool then asg U64 (V U64 xlen) else asg U64 (K 1048576)) ;;
        '(mem, r) <- os_read ev mem x i ;;
        i <- asg U64 (Cast U64 (V I32 r)) ;;
        none <- cond (V U64 i < K 1)%C ;;
        if none : bool then rb_loop_c reads' fd opens mem x xlen
        else
          x <- padd (length mem) x i ;;
          xlen <- asg U64 (V U64 xlen - V U64 i)%C ;;
          rb_loop_c reads' fd opens mem x xlen
    end
  else Some (Returned mem fd opens reads).
(** randombytes.c:17-23, the loop around open; the result has type int.  The inner [None]: still waiting. *)
Fixpoint rb_open_c (opens : list Z) : option (option (Z * list Z)) :=
  match opens with
  | [] => Some None
  | r :: opens' =>
      fd <- asg I32 (V I32 r) ;;
      failed <- cond (V I32 fd == (K 0 - K 1))%C ;;
      if failed : bool then rb_open_c opens' else Some (Some (fd, opens'))
  end.
(** randombytes.c:12-43; [-1] is written as [0 - 1]. *)
Definition os_randombytes_c (fd : Z) (opens : list Z) (reads : list read_result) (mem : bytes) (x : nat) (xlen : Z) : option rb_outcome :=
  closed <- cond (V I32 fd == (K 0 - K 1))%C ;;
  st <- (if closed : bool then rb_open_c opens else Some (Some (fd, opens))) ;;
  match st with
  | None => Some (Waiting mem)
  | Some (fd, opens) => rb_loop_c reads fd opens mem x xlen
  end.
