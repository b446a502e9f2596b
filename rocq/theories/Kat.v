(** ref/PQCgenKAT_sign.c, the program that writes the known-answer files (the other directories have links
    to it), with the generator of rng.c (Rng.v) and any of the modelled implementations (OptBuild.v).

    Left out: messages on the terminal, failure of calloc and of writing.  A file is the list of its
    bytes; a file being read is the list of the bytes not read yet. *)
From Coq Require Import String.
From Verif Require Import Base Params Rng OptBuild Text.

(** ** The parts of the C library used *)
(** isxdigit, isspace in the "C" locale *)
Definition isdigit (c : Z) : bool := (48 <=? c) && (c <=? 57).
Definition isxdigit (c : Z) : bool := isdigit c || ((65 <=? c) && (c <=? 70)) || ((97 <=? c) && (c <=? 102)).
Definition isspace (c : Z) : bool := (c =? 32) || ((9 <=? c) && (c <=? 13)).
(** printf("%d"), printf("%llu"): at most 20 digits *)
Fixpoint dec_digits (fuel : nat) (n : Z) (acc : bytes) : bytes :=
  match fuel with
  | O => acc
  | S f => let acc := (48 + n mod 10) :: acc in if n <? 10 then acc else dec_digits f (n / 10) acc
  end.
Definition print_dec (n : Z) : bytes := if n <? 0 then 45 :: dec_digits 20 (- n) [] else dec_digits 20 n [].
(** printf("%02X") of a byte *)
Definition hex_digit (d : Z) : Z := if d <? 10 then 48 + d else 55 + d.
Definition print_hex (x : Z) : bytes := [hex_digit (Z.shiftr x 4); hex_digit (Z.land x 15)].
(** scanf("%d") and scanf("%llu"): white space, sign, digits; the byte that ends the number is not
    consumed.  [None]: no number (the variable keeps its value). *)
Fixpoint skip_space (f : bytes) : bytes :=
  match f with c :: f' => if isspace c then skip_space f' else f | [] => [] end.
Fixpoint scan_digits (f : bytes) (found : bool) (v : Z) : bool * Z * bytes :=
  match f with
  | c :: f' => if isdigit c then scan_digits f' true (10 * v + (c - 48)) else (found, v, f)
  | [] => (found, v, [])
  end.
Definition scan_int (f : bytes) : option Z * bytes :=
  let f := skip_space f in
  let '(neg, f) := match f with
                   | c :: f' => if c =? 45 then (true, f') else if c =? 43 then (false, f') else (false, f)
                   | [] => (false, [])
                   end in
  let '(found, v, f) := scan_digits f false 0 in
  (if found then Some (if neg : bool then - v else v) else None, f).
(** A number that does not fit the type: undefined *)
Definition fscanf_d (f : bytes) (old : Z) : option (Z * bytes) :=
  match scan_int f with
  | (Some v, f) => _ <- guard ((- 2 ^ 31 <=? v) && (v <? 2 ^ 31)) ;; Some (v, f)
  | (None, f) => Some (old, f)
  end.
Definition fscanf_llu (f : bytes) (old : Z) : option (Z * bytes) :=
  match scan_int f with
  | (Some v, f) => _ <- guard ((- 2 ^ 64 <? v) && (v <? 2 ^ 64)) ;; Some (u64 v, f)
  | (None, f) => Some (old, f)
  end.
(** strncmp(line, s, n) == 0 for an array and a string literal *)
Fixpoint strncmp_eq (line s : bytes) (n i : nat) : option bool :=
  match n with
  | O => Some true
  | S n' =>
      a <- get line i ;;
      b <- get (s ++ [0]) i ;;
      if negb (a =? b) then Some false
      else if a =? 0 then Some true
      else strncmp_eq line s n' (S i)
  end.

(** ** FindMarker, PQCgenKAT_sign.c:163-198 *)
Definition MAX_MARKER_LEN : nat := 50.
(** lines 174-180; the flag says that the end of the file was met *)
Fixpoint fm_fill (k i : nat) (line f : bytes) : option (bool * bytes * bytes) :=
  match k with
  | O => Some (false, line, f)
  | S k' =>
      match f with
      | [] => line <- wr line i [u8 (-1)] ;; Some (true, line, [])
      | c :: f' => line <- wr line i [c] ;; fm_fill k' (S i) line f'
      end
  end.
(** lines 183-194 *)
Fixpoint fm_search (f line marker : bytes) (len : nat) : option (Z * bytes) :=
  eq <- strncmp_eq line marker len 0 ;;
  if eq : bool then Some (1, f) else
  line <- iterM (len - 1) 0 (fun i l => x <- get l (i + 1) ;; wr l i [x]) line ;;
  match f with
  | [] => Some (0, [])
  | c :: f' =>
      line <- wr line (len - 1) [c] ;;
      line <- wr line len [0] ;;
      fm_search f' line marker len
  end.
(** The result and the file; [line0] is the uninitialised array line *)
Definition FindMarker (line0 f marker : bytes) : option (Z * bytes) :=
  let len := if (MAX_MARKER_LEN - 1 <? length marker)%nat then (MAX_MARKER_LEN - 1)%nat else length marker in
  ' (eof, line, f) <- fm_fill len 0 line0 f ;;
  if eof : bool then Some (0, f) else
  line <- wr line len [0] ;;
  fm_search f line marker len.

(** ** ReadHex, PQCgenKAT_sign.c:203-245 *)
(** lines 228-235 *)
Definition hex_value (ch : Z) : Z :=
  if (48 <=? ch) && (ch <=? 57) then u8 (ch - 48)
  else if (65 <=? ch) && (ch <=? 70) then u8 (ch - 65 + 10)
  else if (97 <=? ch) && (ch <=? 102) then u8 (ch - 97 + 10)
  else 0.
(** lines 237-239 *)
Definition shift_in (A : bytes) (Length : nat) (ich : Z) : option bytes :=
  A <- iterM (Length - 1) 0 (fun i A =>
         x <- get A i ;; y <- get A (i + 1) ;;
         wr A i [u8 (Z.lor (Z.shiftl x 4) (Z.shiftr y 4))]) A ;;
  x <- get A (Length - 1) ;;
  wr A (Length - 1) [u8 (Z.lor (Z.shiftl x 4) ich)].
(** lines 216-240 *)
Fixpoint rh_loop (f A : bytes) (Length : nat) (started : bool) : option (bytes * bytes) :=
  match f with
  | [] => Some (A, [])
  | ch :: f' =>
      if negb (isxdigit ch) then
        if negb started then (if ch =? 10 then Some (A, f') else rh_loop f' A Length started)
        else Some (A, f')
      else
        A <- shift_in A Length (hex_value ch) ;;
        rh_loop f' A Length true
  end.
(** The result, A and the file *)
Definition ReadHex (line0 f A : bytes) (Length : Z) (s : bytes) : option (Z * bytes * bytes) :=
  if Length =? 0 then A <- wr A 0 [0] ;; Some (1, A, f) else
  _ <- guard (0 <? Length) ;;
  A <- wr A 0 (repeat 0 (Z.to_nat Length)) ;;
  ' (r, f) <- FindMarker line0 f s ;;
  if r =? 0 then Some (0, A, f) else
  ' (A, f) <- rh_loop f A (Z.to_nat Length) false ;;
  Some (1, A, f).

(** ** fprintBstr, PQCgenKAT_sign.c:247-261: what is written *)
Definition fprintBstr (s A : bytes) (L : Z) : option bytes :=
  x <- rd A 0 (Z.to_nat L) ;;
  Some (s ++ flat_map print_hex x ++ (if L =? 0 then str "00" else []) ++ nl).

(** ** main, PQCgenKAT_sign.c:28-158 *)
Definition KAT_SUCCESS : Z := 0.
Definition KAT_FILE_OPEN_ERROR : Z := -1.
Definition KAT_DATA_ERROR : Z := -3.
Definition KAT_CRYPTO_FAILURE : Z := -4.

Section Main.
(** AES-256 (Rng.v) *)
Variable E : bytes -> bytes -> bytes.
(** The implementation the program is linked with *)
Variable im : impl.
Variable robust : bool.
Variable P : params.
Notation N := (p_n P).
(** Uninitialised memory: of the calls in one round of the second loop, and of arrays *)
Variable us : nat -> nat -> uninit.
Variable junk : nat -> nat -> Z.
Notation line0 := (junk_bytes (junk 400) MAX_MARKER_LEN).
Notation temp := (junk_bytes (junk 401) 48).

(** The loop of lines 59-71; state: the generator, seed, msg, the request file *)
Definition req_entry (i : nat) (s : drbg * bytes * bytes * bytes) : option (drbg * bytes * bytes * bytes) :=
  let '(g, seed, msg, out) := s in
  let out := out ++ str "count = " ++ print_dec (Z.of_nat i) ++ nl in
  ' (_, g, seed) <- drbg_randombytes E g temp seed 48 ;;
  x <- fprintBstr (str "seed = ") seed 48 ;;
  let out := out ++ x in
  let mlen := u64 (33 * (Z.of_nat i + 1)) in
  let out := out ++ str "mlen = " ++ print_dec mlen ++ nl in
  ' (_, g, msg) <- drbg_randombytes E g temp msg mlen ;;
  x <- fprintBstr (str "msg = ") msg mlen ;;
  let out := out ++ x in
  let out := out ++ str "pk =" ++ nl ++ str "sk =" ++ nl ++ str "smlen =" ++ nl ++ str "sm =" ++ nl ++ nl in
  Some (g, seed, msg, out).

(** crypto_sign_keypair and crypto_sign with rng.c: each calls randombytes once, for 3N and for N bytes
    (sign.c:86, 125); those bytes are the random stream of the implementation *)
Definition kat_keypair (u : uninit) (g : drbg) (pk sk : bytes) : option (Z * bytes * bytes * drbg) :=
  ' (_, g, x) <- drbg_randombytes E g temp (junk_bytes (junk 402) (3 * N)) (Z.of_nat (3 * N)) ;;
  ' (r, pk, sk, _) <- i_keypair im robust P u x pk sk ;;
  Some (r, pk, sk, g).
Definition kat_sign (u : uninit) (g : drbg) (sm m sk : bytes) : option (Z * bytes * Z * drbg) :=
  ' (_, g, x) <- drbg_randombytes E g temp (junk_bytes (junk 403) N) (Z.of_nat N) ;;
  ' (r, sm, smlen, _) <- i_sign im robust P u x sm m sk ;;
  Some (r, sm, smlen, g).

(** State of the second loop: the request file, the generator, seed, pk, sk, count, mlen, the response
    file.  A round ends the loop (line 87), the program, or neither. *)
Definition kstate : Type := bytes * drbg * bytes * bytes * bytes * Z * Z * bytes.
Inductive kstep := Break (rsp : bytes) | Exit (code : Z) (rsp : bytes) | Next (s : kstate).

(** lines 83-151; [j] counts the rounds *)
Definition rsp_entry (j : nat) (s : kstate) : option kstep :=
  let '(f, g, seed, pk, sk, count, mlen, out) := s in
  ' (found, f) <- FindMarker line0 f (str "count = ") ;;
  if found =? 0 then Some (Break out) else
  ' (count, f) <- fscanf_d f count ;;
  let out := out ++ str "count = " ++ print_dec count ++ nl in
  ' (ok, seed, f) <- ReadHex line0 f seed 48 (str "seed = ") ;;
  if ok =? 0 then Some (Exit KAT_DATA_ERROR out) else
  x <- fprintBstr (str "seed = ") seed 48 ;;
  let out := out ++ x in
  g <- randombytes_init E g (junk_bytes (junk 404) 48) temp seed None ;;
  ' (found, f) <- FindMarker line0 f (str "mlen = ") ;;
  if found =? 0 then Some (Exit KAT_DATA_ERROR out) else
  ' (mlen, f) <- fscanf_llu f mlen ;;
  let out := out ++ str "mlen = " ++ print_dec mlen ++ nl in
  let m := repeat 0 (Z.to_nat mlen) in
  let m1 := repeat 0 (Z.to_nat (u64 (mlen + Z.of_nat (SPX_BYTES P)))) in
  let sm := repeat 0 (Z.to_nat (u64 (mlen + Z.of_nat (SPX_BYTES P)))) in
  _ <- guard (mlen <? 2 ^ 31) ;;
  ' (ok, m, f) <- ReadHex line0 f m mlen (str "msg = ") ;;
  if ok =? 0 then Some (Exit KAT_DATA_ERROR out) else
  x <- fprintBstr (str "msg = ") m mlen ;;
  let out := out ++ x in
  ' (ret, pk, sk, g) <- kat_keypair (us j 0) g pk sk ;;
  if negb (ret =? 0) then Some (Exit KAT_CRYPTO_FAILURE out) else
  x <- fprintBstr (str "pk = ") pk (Z.of_nat (SPX_PK_BYTES P)) ;;
  let out := out ++ x in
  x <- fprintBstr (str "sk = ") sk (Z.of_nat (SPX_SK_BYTES P)) ;;
  let out := out ++ x in
  ' (ret, sm, smlen, g) <- kat_sign (us j 1) g sm m sk ;;
  if negb (ret =? 0) then Some (Exit KAT_CRYPTO_FAILURE out) else
  let out := out ++ str "smlen = " ++ print_dec smlen ++ nl in
  x <- fprintBstr (str "sm = ") sm smlen ;;
  let out := out ++ x ++ nl in
  ' (ret, m1, mlen1) <- i_open im robust P (us j 2) m1 sm smlen pk ;;
  if negb (ret =? 0) then Some (Exit KAT_CRYPTO_FAILURE out) else
  if negb (mlen =? mlen1) then Some (Exit KAT_CRYPTO_FAILURE out) else
  a <- rd m 0 (Z.to_nat mlen) ;;
  b <- rd m1 0 (Z.to_nat mlen) ;;
  if Sign.memcmp_differs a b then Some (Exit KAT_CRYPTO_FAILURE out) else
  Some (Next (f, g, seed, pk, sk, count, mlen, out)).
(** lines 82-152; the program's result and the response file *)
Fixpoint rsp_loop (fuel j : nat) (s : kstate) : option (Z * bytes) :=
  match fuel with
  | O => None
  | S fuel' =>
      r <- rsp_entry j s ;;
      match r with
      | Break out => Some (KAT_SUCCESS, out)
      | Exit code out => Some (code, out)
      | Next s => rsp_loop fuel' (S j) s
      end
  end.

(** [open1], [open2], [open3]: whether the three calls of fopen succeed (lines 45, 50, 75).  Returns the
    result of main and the contents of the two files. *)
Definition kat_main (open1 open2 open3 : bool) : option (Z * bytes * bytes) :=
  if negb open1 then Some (KAT_FILE_OPEN_ERROR, [], []) else
  if negb open2 then Some (KAT_FILE_OPEN_ERROR, [], []) else
  let entropy_input := map Z.of_nat (seq 0 48) in
  let seed := junk_bytes (junk 405) 48 in
  let msg := junk_bytes (junk 406) 3300 in
  g <- randombytes_init E (mkDrbg (repeat 0 32) (repeat 0 16) 0) (junk_bytes (junk 404) 48) temp entropy_input None ;;
  ' (g, seed, msg, req) <- iterM 100 0 req_entry (g, seed, msg, []) ;;
  if negb open3 then Some (KAT_FILE_OPEN_ERROR, req, []) else
  let rsp := str "# " ++ str "SPHINCS+" ++ nl ++ nl in
  let pk := junk_bytes (junk 407) (SPX_PK_BYTES P) in
  let sk := junk_bytes (junk 408) (SPX_SK_BYTES P) in
  ' (code, rsp) <- rsp_loop (S (List.length req)) 0
                     (req, g, seed, pk, sk, junk 409 0%nat, junk 409 1%nat, rsp) ;;
  Some (code, req, rsp).
End Main.
