(** C79: the integer expressions of FindMarker, ReadHex and fprintBstr (ref/PQCgenKAT_sign.c) under the rules of C.
    Theorems only.

    CKat.v transcribes the three functions with each variable in its declared type and each expression as it is written
    (CInt.v); occurrences, fields, numbers and lines are defined in KatSpec.v. *)
From Coq Require Import String.
From Verif Require Import Base Params Spec RngSpec CInt Kat Text KatSpec CKat CKatProofs.
Local Open Scope list_scope.

(** FindMarker: 1 and the file right after the first occurrence, or 0, for every file, marker and content of line.  In
    particular [len-1] does not wrap and [line] is not left. *)
Theorem C79_find_marker : forall line0 f marker,
  length line0 = 50%nat -> all_bytes f -> Forall (fun c => c <> 0) marker -> Z.of_nat (length marker) < 2 ^ 64 ->
  let m := firstn 49 marker in
  (exists p, first_at m f p /\ FindMarker_c line0 f marker = Some (1, skipn (p + length m) f))
  \/ ((forall p, ~ occurs_at m f p) /\ FindMarker_c line0 f marker = Some (0, [])).
Proof. exact c_find_marker. Qed.
(** ReadHex: the last [L] bytes of the hexadecimal number after the first marker. *)
Theorem C79_read_hex : forall line0 f A L s,
  length line0 = 50%nat -> all_bytes f -> all_bytes A -> Forall (fun c => c <> 0) s -> Z.of_nat (length s) < 2 ^ 64 ->
  0 < L < 2 ^ 31 -> L <= Z.of_nat (length A) < 2 ^ 63 ->
  (forall p vs rem, first_at (firstn 49 s) f p -> hex_field (skipn (p + length (firstn 49 s)) f) vs rem ->
     ReadHex_c line0 f A L s = Some (1, be_bytes (Z.to_nat L) (number 16 vs) ++ skipn (Z.to_nat L) A, rem))
  /\ ((forall p, ~ occurs_at (firstn 49 s) f p) ->
     ReadHex_c line0 f A L s = Some (0, repeat 0 (Z.to_nat L) ++ skipn (Z.to_nat L) A, [])).
Proof. exact c_read_hex. Qed.
(** A negative length becomes a huge size_t and a length beyond the array leaves it: memset is undefined for both. *)
Theorem C79_bad_length_refuted : forall line0 f A L s,
  length line0 = 50%nat -> all_bytes f -> all_bytes A -> Z.of_nat (length s) < 2 ^ 64 ->
  - 2 ^ 31 <= L < 2 ^ 31 -> Z.of_nat (length A) < 2 ^ 63 -> L < 0 \/ Z.of_nat (length A) < L ->
  ReadHex_c line0 f A L s = None.
Proof. exact c_read_bad. Qed.
(** What fprintBstr writes is the hexadecimal form, and ReadHex reads it back. *)
Theorem C79_write_read : forall line0 t A L s v,
  length line0 = 50%nat -> all_bytes t -> all_bytes A -> all_bytes s -> Forall (fun c => c <> 0) s -> (length s <= 49)%nat ->
  0 < L < 2 ^ 31 -> L <= Z.of_nat (length A) < 2 ^ 63 -> L <= Z.of_nat (length v) < 2 ^ 63 -> all_bytes v ->
  exists x, fprintBstr_c s v L = Some x /\ x = line s (hex (firstn (Z.to_nat L) v))
    /\ ReadHex_c line0 (x ++ t) A L s = Some (1, firstn (Z.to_nat L) v ++ skipn (Z.to_nat L) A, t).
Proof. exact c_write_read. Qed.

(** ** Cases *)
Example C79_find_case :
  FindMarker_c (repeat 7 50) (str "xmlen =" ++ nl ++ str "mmlen = 33") (str "mlen = ") = Some (1, str "33")
  /\ FindMarker_c (repeat 7 50) (str "xmlen =") (str "mlen = ") = Some (0, [])
  /\ FindMarker_c (repeat 7 50) (str "ab") [] = Some (1, str "ab").
Proof. vm_compute. auto. Qed.
Example C79_read_case :
  ReadHex_c (repeat 7 50) (str "a = b = zz 12aBf." ++ str "rest") [9; 9; 9; 9] 2 (str "b = ")
  = Some (1, [42; 191; 9; 9], str "rest").
Proof. vm_compute. reflexivity. Qed.
Example C79_bad_length_case :
  ReadHex_c (repeat 7 50) (str "b = 12") [9; 9] (-1) (str "b = ") = None /\ ReadHex_c (repeat 7 50) (str "b = 12") [9; 9] 3 (str "b = ") = None.
Proof. vm_compute. auto. Qed.
Example C79_write_case :
  fprintBstr_c (str "b = ") [18; 171; 0; 255] 3 = Some (str "b = 12AB00" ++ nl) /\ fprintBstr_c (str "b = ") [] 0 = Some (str "b = 00" ++ nl).
Proof. vm_compute. auto. Qed.

Print Assumptions C79_find_marker.
Print Assumptions C79_read_hex.
Print Assumptions C79_bad_length_refuted.
Print Assumptions C79_write_read.
