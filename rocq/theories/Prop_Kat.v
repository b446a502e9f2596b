(** The known-answer program ref/PQCgenKAT_sign.c (model: Kat.v): C57, C58, C59.  Theorems only; numerals,
    fields and files are defined in KatSpec.v. *)
From Coq Require Import String.
From Verif Require Import Base Params Spec RngSpec BuildSpec OptBuild OptProofs OptForge Rng Kat Text KatSpec KatIo KatProofs.

(** ** C57: searching, reading and writing *)
(** FindMarker, for every file and every marker (a string: no zero byte; at most 49 bytes of it count)
    and whatever the array line holds: 1 and the file right after the first occurrence, or 0. *)
Theorem C57_find_marker : forall line0 f marker, length line0 = MAX_MARKER_LEN -> Forall (fun c => c <> 0) marker ->
  let m := firstn 49 marker in
  (exists p, first_at m f p /\ FindMarker line0 f marker = Some (1, skipn (p + length m) f))
  \/ ((forall p, ~ occurs_at m f p) /\ FindMarker line0 f marker = Some (0, [])).
Proof. exact find_marker. Qed.
(** ReadHex: the last [L] bytes of the number written in hexadecimal after the first marker; 0 without
    marker.  Every file has a field after the marker, so this is every case. *)
Theorem C57_read_hex : forall line0 f A L s, length line0 = MAX_MARKER_LEN -> Forall (fun c => c <> 0) s ->
  0 < L -> (Z.to_nat L <= length A)%nat ->
  (forall p vs rem, first_at (firstn 49 s) f p -> hex_field (skipn (p + length (firstn 49 s)) f) vs rem ->
     ReadHex line0 f A L s = Some (1, be_bytes (Z.to_nat L) (number 16 vs) ++ skipn (Z.to_nat L) A, rem))
  /\ ((forall p, ~ occurs_at (firstn 49 s) f p) ->
     ReadHex line0 f A L s = Some (0, repeat 0 (Z.to_nat L) ++ skipn (Z.to_nat L) A, [])).
Proof. exact read_hex. Qed.
Theorem C57_field_total : forall rest, exists vs rem, hex_field rest vs rem.
Proof. exact hex_field_total. Qed.
(** What fprintBstr writes is the hexadecimal form, and ReadHex reads it back. *)
Theorem C57_write_read : forall line0 t A L s v, length line0 = MAX_MARKER_LEN -> Forall (fun c => c <> 0) s -> (length s <= 49)%nat ->
  0 < L -> (Z.to_nat L <= length A)%nat -> (Z.to_nat L <= length v)%nat -> all_bytes v ->
  exists x, fprintBstr s v L = Some x /\ x = line s (hex (firstn (Z.to_nat L) v))
    /\ ReadHex line0 (x ++ t) A L s = Some (1, firstn (Z.to_nat L) v ++ skipn (Z.to_nat L) A, t).
Proof. exact write_read. Qed.
(** printf and scanf of a number. *)
Theorem C57_decimal : forall n r, 0 <= n < 2 ^ 64 -> starts_with (fun c => c < 48 \/ 57 < c) r ->
  print_dec n = decimal n /\ (forall old, fscanf_llu (decimal n ++ r) old = Some (n, r))
  /\ (n < 2 ^ 31 -> forall old, fscanf_d (decimal n ++ r) old = Some (n, r)).
Proof. exact decimal_round_trip. Qed.
(** The round trip fails for length 0: with the buffer calloc(0) gives, ReadHex writes outside it; with
    a longer one it leaves the field in the file. *)
Theorem C57_empty_refuted : forall line0 f A s,
  ReadHex line0 f A 0 s = match A with [] => None | _ :: A' => Some (1, 0 :: A', f) end.
Proof. exact read_empty. Qed.

(** ** C58: the files are the ones the specification determines, for every implementation and whatever
    uninitialised memory holds *)
Theorem C58_files : forall E im robust P us junk,
  (forall k b, length (E k b) = 16%nat) -> (forall k b, all_bytes (E k b)) -> i_ok im P ->
  kat_main E im robust P us junk true true true = Some (0, kat_req E, kat_rsp E (i_family im) robust P).
Proof. exact kat_files. Qed.
Theorem C58_open_fails : forall E im robust P us junk o2 o3,
  kat_main E im robust P us junk false o2 o3 = Some (-1, [], [])
  /\ kat_main E im robust P us junk true false o3 = Some (-1, [], []).
Proof. exact kat_open_fails. Qed.
Theorem C58_reopen_fails : forall E im robust P us junk,
  (forall k b, length (E k b) = 16%nat) -> (forall k b, all_bytes (E k b)) ->
  kat_main E im robust P us junk true true false = Some (-1, kat_req E, []).
Proof. exact kat_reopen_fails. Qed.

(** ** C59: two implementations of one family write the same files *)
Theorem C59_same_files : forall E i1 i2 robust P us1 us2 junk1 junk2 o1 o2 o3,
  (forall k b, length (E k b) = 16%nat) -> (forall k b, all_bytes (E k b)) ->
  i_ok i1 P -> i_ok i2 P -> i_family i1 = i_family i2 ->
  kat_main E i1 robust P us1 junk1 o1 o2 o3 = kat_main E i2 robust P us2 junk2 o1 o2 o3.
Proof. exact kat_same. Qed.

Print Assumptions C57_find_marker.
Print Assumptions C57_read_hex.
Print Assumptions C57_field_total.
Print Assumptions C57_write_read.
Print Assumptions C57_decimal.
Print Assumptions C57_empty_refuted.
Print Assumptions C58_files.
Print Assumptions C58_open_fails.
Print Assumptions C58_reopen_fails.
Print Assumptions C59_same_files.

(** ** The hypotheses can be met *)
Example find_case :
  FindMarker (repeat 7 50) (str "xmlen =" ++ nl ++ str "mmlen = 33") (str "mlen = ") = Some (1, str "33").
Proof. vm_compute. reflexivity. Qed.
Example read_case :
  ReadHex (repeat 7 50) (str "a = b = zz 12aBf." ++ str "rest") [9; 9; 9; 9] 2 (str "b = ")
  = Some (1, [42; 191; 9; 9], str "rest").
Proof. vm_compute. reflexivity. Qed.
(** The field "12aBf" of 5 digits: its last two bytes, as C57_read_hex says. *)
Example field_case : hex_field (str "zz 12aBf.rest") [1; 2; 10; 11; 15]%nat (str "rest") /\ be_bytes 2 (number 16 [1; 2; 10; 11; 15]%nat) = [42; 191].
Proof.
  split; [|vm_compute; reflexivity]. exists (str "zz "), (str "12aBf"), (str ".rest").
  split; [reflexivity|]. split; [repeat constructor; try discriminate; apply not_hex_false; reflexivity|].
  split; [repeat constructor; unfold hex_digit_of; solve [left; reflexivity | right; reflexivity]|]. split; [apply not_hex_false; reflexivity|]. split; [discriminate|reflexivity].
Qed.
Example decimal_case : decimal 0 = str "0" /\ decimal 3300 = str "3300" /\ decimal 18446744073709551615 = str "18446744073709551615".
Proof. vm_compute. auto. Qed.
(** A block "cipher" with 16-byte outputs, and the start of the request file it gives. *)
Definition kat_E (k b : bytes) : bytes := map (fun j => (nth j b 0 + 3 * Z.of_nat j) mod 256) (seq 0 16).
Example files_case : forall im robust P us junk, In P all_params ->
  kat_main kat_E im robust P us junk true true true = Some (0, kat_req kat_E, kat_rsp kat_E (i_family im) robust P).
Proof.
  intros. apply C58_files.
  - intros. unfold kat_E. now rewrite map_length, seq_length.
  - intros. apply Forall_forall. intros x Hx. apply in_map_iff in Hx. destruct Hx as (j & <- & _). apply Z.mod_pos_bound. lia.
  - now apply i_params.
Qed.
Example req_case :
  let '(key, V) := spec_instantiate kat_E (map Z.of_nat (seq 0 48)) (repeat 0 48) in flat_map req_text (draws kat_E 1 0 key V)
  = line (str "count = ") (str "0")
    ++ line (str "seed = ") (str "20252A3334394647484D522B2C312E4D20252A3334394647484D522B2C312E4E20252A3334394647484D522B2C312E4F")
    ++ line (str "mlen = ") (str "33") ++ line (str "msg = ") (str "2028303C4048585C6068704C505858802028303C4048585C6068704C5058588120")
    ++ line (str "pk =") [] ++ line (str "sk =") [] ++ line (str "smlen =") [] ++ line (str "sm =") [] ++ nl.
Proof. vm_compute. reflexivity. Qed.
