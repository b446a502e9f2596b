(** FindMarker, ReadHex and fprintBstr of ref/PQCgenKAT_sign.c in the typed expressions of CInt.v.  The library functions
    (strncmp, isxdigit, printf) and files are those of Kat.v.  The elements of the char array line are
    written as bytes: they are only compared by strncmp, which compares them as unsigned char. *)
From Coq Require Import String.
From Verif Require Import Base CInt CCore Kat Text.
Local Open Scope Z_scope.
Local Open Scope list_scope.

(** EOF is -1; [fgetc]: the next byte, or EOF. *)
Definition EOF_c : cexp := (K 0 - K 1)%C.
Definition fgetc (f : bytes) : Z * bytes := match f with [] => (-1, []) | c :: f' => (c, f') end.

(** PQCgenKAT_sign.c:174-180 *)
Fixpoint fm_fill_c (fuel : nat) (i len : Z) (line f : bytes) : option (bool * bytes * bytes) :=
  match fuel with
  | O => None
  | S fuel' =>
      b <- cond (V U64 i < V U64 len)%C ;;
      if b : bool then
        let '(curr, f) := fgetc f in
        k <- ix (V U64 i) ;;
        v <- asg U8 (V I32 curr) ;;
        line <- wr line k [v] ;;
        e <- cond (V I32 curr == EOF_c)%C ;;
        if e : bool then Some (true, line, f) else
        i <- asg U64 (V U64 i + K 1)%C ;;
        fm_fill_c fuel' i len line f
      else Some (false, line, f)
  end.
(** lines 183-194; one byte of the file per round, so one round more than bytes *)
Fixpoint fm_search_c (fuel : nat) (f line marker : bytes) (len : Z) : option (Z * bytes) :=
  match fuel with
  | O => None
  | S fuel' =>
      eq <- strncmp_eq line marker (Z.to_nat len) 0 ;;
      if eq : bool then Some (1, f) else
      line <- cfor 51 U64 0 (V U64 len - K 1)%C (fun i l =>
        j <- ix (V U64 i + K 1)%C ;; x <- get l j ;; k <- ix (V U64 i) ;; wr l k [x]) line ;;
      let '(curr, f) := fgetc f in
      k <- ix (V U64 len - K 1)%C ;;
      v <- asg U8 (V I32 curr) ;;
      line <- wr line k [v] ;;
      e <- cond (V I32 curr == EOF_c)%C ;;
      if e : bool then Some (0, f) else
      k <- ix (V U64 len) ;;
      line <- wr line k [0] ;;
      fm_search_c fuel' f line marker len
  end.
(** lines 163-198; [len > MAX_MARKER_LEN-1] is written as [MAX_MARKER_LEN-1 < len]. *)
Definition FindMarker_c (line0 f marker : bytes) : option (Z * bytes) :=
  len <- asg U64 (V U64 (Z.of_nat (length marker))) ;;
  big <- cond ((K 50 - K 1) < V U64 len)%C ;;
  len <- (if big : bool then asg U64 (K 50 - K 1)%C else Some len) ;;
  ' (eof, line, f) <- fm_fill_c 51 0 len line0 f ;;
  if eof : bool then Some (0, f) else
  k <- ix (V U64 len) ;;
  line <- wr line k [0] ;;
  fm_search_c (S (length f)) f line marker len.

(** lines 228-235; [ch <= c] is written as [c >= ch]. *)
Definition between_c (lo ch hi : Z) : option bool :=
  a <- cond (V I32 ch >= K lo)%C ;;
  if a : bool then cond (K hi >= V I32 ch)%C else Some false.
Definition hex_value_c (ch : Z) : option Z :=
  d <- between_c 48 ch 57 ;;
  if d : bool then asg U8 (Cast U8 (V I32 ch - K 48))%C else
  u <- between_c 65 ch 70 ;;
  if u : bool then asg U8 (Cast U8 (V I32 ch - K 65 + K 10))%C else
  l <- between_c 97 ch 102 ;;
  if l : bool then asg U8 (Cast U8 (V I32 ch - K 97 + K 10))%C else
  asg U8 (K 0).
(** lines 237-239 *)
Definition shift_in_c (A : bytes) (Length ich : Z) : option bytes :=
  A <- cfor (S (Z.to_nat Length)) I32 0 (V I32 Length - K 1)%C (fun i A =>
         k <- ix (V I32 i) ;; x <- get A k ;;
         j <- ix (V I32 i + K 1)%C ;; y <- get A j ;;
         v <- asg U8 (Cast U8 ((B x << K 4) .| (B y >> K 4)))%C ;;
         wr A k [v]) A ;;
  k <- ix (V I32 Length - K 1)%C ;;
  x <- get A k ;;
  v <- asg U8 (Cast U8 ((B x << K 4) .| V U8 ich))%C ;;
  wr A k [v].
(** lines 216-240 *)
Fixpoint rh_loop_c (fuel : nat) (f A : bytes) (Length started : Z) : option (bytes * bytes) :=
  match fuel with
  | O => None
  | S fuel' =>
      let '(ch, f) := fgetc f in
      e <- cond (V I32 ch == EOF_c)%C ;;
      if e : bool then Some (A, f) else
      if negb (isxdigit ch) then
        st <- cond (V I32 started) ;;
        if st : bool then Some (A, f) else
        nl <- cond (V I32 ch == K 10)%C ;;
        if nl : bool then Some (A, f) else rh_loop_c fuel' f A Length started
      else
        started <- asg I32 (K 1) ;;
        ich <- hex_value_c ch ;;
        A <- shift_in_c A Length ich ;;
        rh_loop_c fuel' f A Length started
  end.
(** memset(A, 0, n) *)
Definition memset0 (A : bytes) (n : Z) : option bytes :=
  _ <- guard (n <=? Z.of_nat (length A)) ;; wr A 0 (repeat 0 (Z.to_nat n)).
(** lines 203-245 *)
Definition ReadHex_c (line0 f A : bytes) (Length : Z) (s : bytes) : option (Z * bytes * bytes) :=
  empty <- cond (V I32 Length == K 0)%C ;;
  if empty : bool then A <- wr A 0 [0] ;; Some (1, A, f) else
  n <- asg U64 (Cast U64 (V I32 Length)) ;;
  A <- memset0 A n ;;
  ' (r, f) <- FindMarker_c line0 f s ;;
  found <- cond (V I32 r) ;;
  if found : bool then
    ' (A, f) <- rh_loop_c (S (length f)) f A Length 0 ;;
    Some (1, A, f)
  else Some (0, A, f).
(** fprintBstr, lines 247-261: what is written *)
Definition fprintBstr_c (s A : bytes) (L : Z) : option bytes :=
  out <- cfor (S (Z.to_nat L)) U64 0 (V U64 L) (fun i out =>
           k <- ix (V U64 i) ;; x <- get A k ;; Some (out ++ print_hex x)) s ;;
  empty <- cond (V U64 L == K 0)%C ;;
  Some (out ++ (if empty : bool then str "00" else []) ++ nl).
