(** shake-avx2/test/thashx4.c, shake-a64/test/thashx2.c, sha2-avx2/test/thashx8.c and test/fors.c (the same file
    in every directory).  Messages on the terminal are left out. *)
From Verif Require Import Base Params Address Suite Utils Fors Refine Sign BuildSpec Lanes OptBuild.

(** randombytes(buf, k) *)
Definition fill (stream buf : bytes) (k : nat) : option (bytes * bytes) :=
  ' (d, stream) <- randombytes stream k ;; buf <- wr buf 0 d ;; Some (buf, stream).
(** randombytes((unsigned char * )addr, 32 * lanes): the words of the array are read back as bytes *)
Definition lane_addrs (addr : bytes) (nl : nat) : option (list bytes) :=
  mapM (fun j => rd addr (j * SPX_ADDR_BYTES) SPX_ADDR_BYTES) (seq 0 nl).

(** The programs for any hash functions [HS] and lane functions [LX] they are linked with. *)
Section Thash.
Variable P : params.
Variable HS : suite.
Variable LX : lane_fns HS.
Variable lw : nat.
Variable junk : nat -> nat -> Z.
Notation N := (p_n P).
Notation nl := (NL lw).

(** One comparison: thashx4.c:27-41, thashx2.c:27-37, thashx8.c:36-58 (k = 1) and :66-88 (k = 2).  [a] and [b] are
    the arrays of the two results; [true]: they differ. *)
Definition thash_differs (c : ctx (hs_st HS)) (k : nat) (input addr a b : bytes) : option (bool * bytes * bytes) :=
  a <- iterM nl 0 (fun j a =>
         x <- rd input (k * j * N) (k * N) ;;
         ad <- rd addr (j * SPX_ADDR_BYTES) SPX_ADDR_BYTES ;;
         h <- thash P HS c k x ad ;;
         wr a (j * N) h) a ;;
  ins <- mapM (fun j => rd input (k * j * N) (k * N)) (seq 0 nl) ;;
  addrs <- lane_addrs addr nl ;;
  hs <- thashx P HS LX lw c k ins addrs ;;
  b <- wrx b (map (fun j => j * N)%nat (seq 0 nl)) hs ;;
  x <- rd a 0 (nl * N) ;;
  y <- rd b 0 (nl * N) ;;
  Some (memcmp_differs x y, a, b).

(** The programs: [isize] blocks of [input] are declared and [irand] filled; the comparisons for the numbers of
    blocks [ks] follow.  The context is not initialised (the SHAKE code does not use more of it than the seeds) or
    initialised by initialize_hash_function.  What it holds before is [junk]. *)
Fixpoint compare_all (c : ctx (hs_st HS)) (ks : list nat) (input addr a b : bytes) : option Z :=
  match ks with
  | [] => Some 0
  | k :: ks =>
      ' (d, a, b) <- thash_differs c k input addr a b ;;
      if d : bool then Some (-1) else compare_all c ks input addr a b
  end.
Definition thash_program (isize irand : nat) (ks : list nat) (stream : bytes) : option Z :=
  ' (ps, stream) <- randombytes stream N ;;
  ' (input, stream) <- fill stream (junk_bytes (junk 601) (isize * N)) (irand * N) ;;
  ' (addr, stream) <- fill stream (repeat 0 (nl * SPX_ADDR_BYTES)) (nl * SPX_ADDR_BYTES) ;;
  compare_all (code_ctx HS ps (junk_bytes (junk 602) N)) ks input addr
    (junk_bytes (junk 603) (nl * N)) (junk_bytes (junk 604) (nl * N)).
End Thash.
(** with the functions of a directory *)
Definition o_thash_program o robust P u := thash_program P (o_suite o robust P u) (o_lanes o robust P u) (o_lw o) (u_core u).

(** shake-avx2/test/thashx4.c:9-47 *)
Definition thashx4_test robust P u stream := o_thash_program ShakeAvx2 robust P u 4 4 [1%nat] stream.
(** sha2-avx2/test/thashx8.c:16-94 *)
Definition thashx8_test robust P u stream := o_thash_program Sha2Avx2 robust P u 16 16 [1%nat; 2%nat] stream.
(** shake-a64/test/thashx2.c:9-43; line 22 writes 4*SPX_N bytes to an array of 2*SPX_N *)
Definition thashx2_test robust P u stream := o_thash_program ShakeA64 robust P u 2 4 [1%nat] stream.
(** with line 22 corrected *)
Definition thashx2_fixed robust P u stream := o_thash_program ShakeA64 robust P u 2 2 [1%nat] stream.

(** ref/test/fors.c:10-41, for every implementation ([fors_pk_from_sig] is the same in all of them).  [junk] and
    [junk']: the memory of main and of the second call. *)
Section ForsTest.
Variable im : impl.
Variable robust : bool.
Variable P : params.
Variable u : uninit.
Variables junk junk' : nat -> nat -> Z.
Notation HS := (i_suite im robust P u).
Notation N := (p_n P).
Definition i_fors_sign (ps ss sig m addr : bytes) : option (bytes * bytes) :=
  match im with
  | Ref f => fors_sign P (build f robust P (u_hash u)) (code_ctx _ ps ss) (u_core u) sig m addr
  | Opt o => fors_signx P (o_suite o robust P u) (o_lanes o robust P u) (o_lw o) (code_ctx _ ps ss) (u_core u) sig m addr
  end.
Definition i_fors_pk_from_sig (core : nat -> nat -> Z) (ps ss sig m addr : bytes) : option bytes :=
  fors_pk_from_sig P HS (code_ctx HS ps ss) core sig m addr.
Definition fors_test (stream : bytes) : option Z :=
  ' (ss, stream) <- randombytes stream N ;;
  ' (ps, stream) <- randombytes stream N ;;
  ' (m, stream) <- fill stream (junk_bytes (junk 611) (SPX_FORS_MSG_BYTES P)) (SPX_FORS_MSG_BYTES P) ;;
  ' (addr, stream) <- fill stream (repeat 0 SPX_ADDR_BYTES) SPX_ADDR_BYTES ;;
  ' (sig, pk1) <- i_fors_sign ps ss (junk_bytes (junk 612) (SPX_FORS_BYTES P)) m addr ;;
  pk2 <- i_fors_pk_from_sig junk' ps ss sig m addr ;;
  x <- rd pk1 0 N ;;
  y <- rd pk2 0 N ;;
  if memcmp_differs x y then Some (-1) else Some 0.
End ForsTest.
