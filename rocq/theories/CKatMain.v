(** main of ref/PQCgenKAT_sign.c in the typed expressions of CInt.v, with the typed rng.c (CRng.v) and the typed input and output
    functions (CKat.v).  Left out as in Kat.v: messages on the terminal, failure of calloc and of writing. *)
From Coq Require Import String.
From Verif Require Import Base Params Rng OptBuild Text Kat CInt CCore CRng CKat.
Local Open Scope Z_scope.
Local Open Scope list_scope.

Section Main.
(** The block cipher, the implementation the program is linked with, and uninitialised memory, as in Kat.v *)
Variable E : bytes -> bytes -> bytes.
Variable im : impl.
Variable robust : bool.
Variable P : params.
Notation N := (p_n P).
Variable us : nat -> nat -> uninit.
Variable junk : nat -> nat -> Z.
Notation line0 := (junk_bytes (junk 400) MAX_MARKER_LEN).
Notation temp := (junk_bytes (junk 401) 48).
(** CRYPTO_BYTES, CRYPTO_PUBLICKEYBYTES, CRYPTO_SECRETKEYBYTES (api.h): constant expressions of type int *)
Definition CB : cexp := K (Z.of_nat (SPX_BYTES P)).
Definition CPK : cexp := K (Z.of_nat (SPX_PK_BYTES P)).
Definition CSK : cexp := K (Z.of_nat (SPX_SK_BYTES P)).

(** PQCgenKAT_sign.c:55-56 *)
Definition entropy_c (e : bytes) : option bytes :=
  cfor 49 I32 0 (K 48) (fun i e => k <- ix (V I32 i) ;; v <- asg U8 (Cast U8 (V I32 i)) ;; wr e k [v]) e.
(** The loop of lines 59-71; state: the generator, seed, msg, the request file *)
Definition req_entry_c (i : Z) (s : drbg * bytes * bytes * bytes) : option (drbg * bytes * bytes * bytes) :=
  let '(g, seed, msg, out) := s in
  let out := out ++ str "count = " ++ print_dec i ++ nl in
  n48 <- asg U64 (K 48) ;;
  ' (_, g, seed) <- drbg_randombytes_c E g temp seed n48 ;;
  x <- fprintBstr_c (str "seed = ") seed n48 ;;
  let out := out ++ x in
  mlen <- asg U64 (Cast U64 (K 33 * (V I32 i + K 1)))%C ;;
  let out := out ++ str "mlen = " ++ print_dec mlen ++ nl in
  ' (_, g, msg) <- drbg_randombytes_c E g temp msg mlen ;;
  x <- fprintBstr_c (str "msg = ") msg mlen ;;
  let out := out ++ x in
  let out := out ++ str "pk =" ++ nl ++ str "sk =" ++ nl ++ str "smlen =" ++ nl ++ str "sm =" ++ nl ++ nl in
  Some (g, seed, msg, out).

(** crypto_sign_keypair and crypto_sign with rng.c (sign.c:86, 125; CRYPTO_SEEDBYTES is 3*SPX_N, SPX_N an int constant) *)
Definition kat_keypair_c (u : uninit) (g : drbg) (pk sk : bytes) : option (Z * bytes * bytes * drbg) :=
  n <- asg U64 (K 3 * K (Z.of_nat N))%C ;;
  ' (_, g, x) <- drbg_randombytes_c E g temp (junk_bytes (junk 402) (3 * N)) n ;;
  ' (r, pk, sk, _) <- i_keypair im robust P u x pk sk ;;
  Some (r, pk, sk, g).
Definition kat_sign_c (u : uninit) (g : drbg) (sm m sk : bytes) : option (Z * bytes * Z * drbg) :=
  n <- asg U64 (K (Z.of_nat N)) ;;
  ' (_, g, x) <- drbg_randombytes_c E g temp (junk_bytes (junk 403) N) n ;;
  ' (r, sm, smlen, _) <- i_sign im robust P u x sm m sk ;;
  Some (r, sm, smlen, g).

(** lines 83-151; [j] counts the rounds *)
Definition rsp_entry_c (j : nat) (s : kstate) : option kstep :=
  let '(f, g, seed, pk, sk, count, mlen, out) := s in
  ' (r, f) <- FindMarker_c line0 f (str "count = ") ;;
  found <- cond (V I32 r) ;;
  if negb found then Some (Break out) else
  ' (count, f) <- fscanf_d f count ;;
  let out := out ++ str "count = " ++ print_dec count ++ nl in
  n48 <- asg I32 (K 48) ;;
  ' (r, seed, f) <- ReadHex_c line0 f seed n48 (str "seed = ") ;;
  ok <- cond (V I32 r) ;;
  if negb ok then Some (Exit KAT_DATA_ERROR out) else
  l48 <- asg U64 (K 48) ;;
  x <- fprintBstr_c (str "seed = ") seed l48 ;;
  let out := out ++ x in
  g <- randombytes_init_c E g (junk_bytes (junk 404) 48) temp seed None ;;
  ' (r, f) <- FindMarker_c line0 f (str "mlen = ") ;;
  found <- cond (V I32 r) ;;
  if negb found then Some (Exit KAT_DATA_ERROR out) else
  ' (mlen, f) <- fscanf_llu f mlen ;;
  let out := out ++ str "mlen = " ++ print_dec mlen ++ nl in
  n <- asg U64 (V U64 mlen) ;;
  n1 <- asg U64 (V U64 mlen + CB)%C ;;
  n2 <- asg U64 (V U64 mlen + CB)%C ;;
  let m := repeat 0 (Z.to_nat n) in
  let m1 := repeat 0 (Z.to_nat n1) in
  let sm := repeat 0 (Z.to_nat n2) in
  len <- asg I32 (Cast I32 (V U64 mlen)) ;;
  ' (r, m, f) <- ReadHex_c line0 f m len (str "msg = ") ;;
  ok <- cond (V I32 r) ;;
  if negb ok then Some (Exit KAT_DATA_ERROR out) else
  x <- fprintBstr_c (str "msg = ") m mlen ;;
  let out := out ++ x in
  ' (ret, pk, sk, g) <- kat_keypair_c (us j 0) g pk sk ;;
  bad <- cond (V I32 ret) ;;
  if bad : bool then Some (Exit KAT_CRYPTO_FAILURE out) else
  l <- asg U64 CPK ;;
  x <- fprintBstr_c (str "pk = ") pk l ;;
  let out := out ++ x in
  l <- asg U64 CSK ;;
  x <- fprintBstr_c (str "sk = ") sk l ;;
  let out := out ++ x in
  ' (ret, sm, smlen, g) <- kat_sign_c (us j 1) g sm m sk ;;
  bad <- cond (V I32 ret) ;;
  if bad : bool then Some (Exit KAT_CRYPTO_FAILURE out) else
  let out := out ++ str "smlen = " ++ print_dec smlen ++ nl in
  x <- fprintBstr_c (str "sm = ") sm smlen ;;
  let out := out ++ x ++ nl in
  ' (ret, m1, mlen1) <- i_open im robust P (us j 2) m1 sm smlen pk ;;
  bad <- cond (V I32 ret) ;;
  if bad : bool then Some (Exit KAT_CRYPTO_FAILURE out) else
  same <- cond (V U64 mlen == V U64 mlen1)%C ;;
  if negb same then Some (Exit KAT_CRYPTO_FAILURE out) else
  a <- rd m 0 (Z.to_nat mlen) ;;
  b <- rd m1 0 (Z.to_nat mlen) ;;
  if Sign.memcmp_differs a b then Some (Exit KAT_CRYPTO_FAILURE out) else
  Some (Next (f, g, seed, pk, sk, count, mlen, out)).
(** lines 82-152 *)
Fixpoint rsp_loop_c (fuel j : nat) (s : kstate) : option (Z * bytes) :=
  match fuel with
  | O => None
  | S fuel' =>
      r <- rsp_entry_c j s ;;
      match r with
      | Break out => Some (KAT_SUCCESS, out)
      | Exit code out => Some (code, out)
      | Next s => rsp_loop_c fuel' (S j) s
      end
  end.
(** lines 28-158, as in Kat.v *)
Definition kat_main_c (open1 open2 open3 : bool) : option (Z * bytes * bytes) :=
  if negb open1 then Some (KAT_FILE_OPEN_ERROR, [], []) else
  if negb open2 then Some (KAT_FILE_OPEN_ERROR, [], []) else
  entropy_input <- entropy_c (junk_bytes (junk 410) 48) ;;
  let seed := junk_bytes (junk 405) 48 in
  let msg := junk_bytes (junk 406) 3300 in
  g <- randombytes_init_c E (mkDrbg (repeat 0 32) (repeat 0 16) 0) (junk_bytes (junk 404) 48) temp entropy_input None ;;
  ' (g, seed, msg, req) <- cfor 101 I32 0 (K 100) req_entry_c (g, seed, msg, []) ;;
  if negb open3 then Some (KAT_FILE_OPEN_ERROR, req, []) else
  let rsp := str "# " ++ str "SPHINCS+" ++ nl ++ nl in
  let pk := junk_bytes (junk 407) (SPX_PK_BYTES P) in
  let sk := junk_bytes (junk 408) (SPX_SK_BYTES P) in
  ' (code, rsp) <- rsp_loop_c (S (List.length req)) 0
                     (req, g, seed, pk, sk, junk 409 0%nat, junk 409 1%nat, rsp) ;;
  Some (code, req, rsp).
End Main.
