(** The known-answer files as mathematics: numerals, fields, and the two files, from the specification of
    SPHINCS+ (Spec.v, BuildSpec.v) and of the generator (RngSpec.v).  Nothing here uses the model of the
    program (Kat.v). *)
From Coq Require Import String.
From Verif Require Import Base Params Spec Refine BuildSpec RngSpec Text.

(** Decimal numeral of 0 <= n < 10^20, without leading zeros: the number of digits and the digits. *)
Definition ndigits (n : Z) : nat := S (List.length (filter (fun j => 10 ^ Z.of_nat (S j) <=? n) (seq 0 19))).
Definition decimal (n : Z) : bytes :=
  map (fun j => nth (Z.to_nat (n / 10 ^ Z.of_nat (ndigits n - 1 - j) mod 10)) (str "0123456789") 0) (seq 0 (ndigits n)).
(** The two hexadecimal digits of a byte. *)
Definition hex_byte (x : Z) : bytes :=
  [nth (Z.to_nat (x / 16)) (str "0123456789ABCDEF") 0; nth (Z.to_nat (x mod 16)) (str "0123456789ABCDEF") 0].
Definition hex (v : bytes) : bytes := flat_map hex_byte v.
(** A line of a file. *)
Definition line (name value : bytes) : bytes := name ++ value ++ nl.

(** [m] occurs in [f] at position [p], and nowhere before. *)
Definition occurs_at (m f : bytes) (p : nat) : Prop := exists r, skipn p f = m ++ r.
Definition first_at (m f : bytes) (p : nat) : Prop := occurs_at m f p /\ forall q, (q < p)%nat -> ~ occurs_at m f q.

Section Files.
Variable E : bytes -> bytes -> bytes.   (* AES-256: key, block *)
Variable f : family.
Variable robust : bool.
Variable P : params.
Notation N := (p_n P).
Notation D := (dims_of P).

(** The seeds and messages of entries i, i+1, .. (n of them) when the generator is in state (key, V). *)
Fixpoint draws (n i : nat) (key : bytes) (V : Z) : list (nat * bytes * bytes) :=
  match n with
  | O => []
  | S n' =>
      let '(seed, (key, V)) := spec_generate E key V 48 in
      let '(msg, (key, V)) := spec_generate E key V (33 * (i + 1)) in
      (i, seed, msg) :: draws n' (S i) key V
  end.
Definition kat_inputs : list (nat * bytes * bytes) :=
  let '(key, V) := spec_instantiate E (map Z.of_nat (seq 0 48)) (repeat 0 48) in draws 100 0 key V.

Definition inputs_text (e : nat * bytes * bytes) : bytes :=
  let '(i, seed, msg) := e in
  line (str "count = ") (decimal (Z.of_nat i)) ++ line (str "seed = ") (hex seed)
  ++ line (str "mlen = ") (decimal (Z.of_nat (List.length msg))) ++ line (str "msg = ") (hex msg).
Definition req_text (e : nat * bytes * bytes) : bytes :=
  inputs_text e ++ line (str "pk =") [] ++ line (str "sk =") [] ++ line (str "smlen =") [] ++ line (str "sm =") [] ++ nl.

(** The keys and the signed message of an entry: the generator instantiated with the entry's seed gives
    the 3n bytes of the key seed and then the n bytes for the randomizer. *)
Definition entry_keys (seed : bytes) : bytes * bytes * bytes :=
  let '(key, V) := spec_instantiate E seed (repeat 0 48) in
  let '(ks, (key, V)) := spec_generate E key V (3 * N) in
  let '(optrand, _) := spec_generate E key V N in
  let ps := skipn (2 * N) ks in
  let root := ht_root D (spec_T f N robust ps) (spec_PRF f N ps (firstn N ks)) in
  (ps ++ root, ks ++ root, optrand).
Definition entry_signed (sk optrand msg : bytes) : bytes :=
  spx_sign D (spec_T f N robust) (spec_PRF f N) (spec_Rnd f N) (spec_Hm f N D)
    (firstn N sk) (firstn N (skipn N sk)) (firstn N (skipn (2 * N) sk)) (firstn N (skipn (3 * N) sk)) optrand msg
  ++ msg.
Definition rsp_text (e : nat * bytes * bytes) : bytes :=
  let '(i, seed, msg) := e in
  let '(pk, sk, optrand) := entry_keys seed in
  let sm := entry_signed sk optrand msg in
  inputs_text e ++ line (str "pk = ") (hex pk) ++ line (str "sk = ") (hex sk)
  ++ line (str "smlen = ") (decimal (Z.of_nat (List.length sm))) ++ line (str "sm = ") (hex sm) ++ nl.

Definition kat_req : bytes := flat_map req_text kat_inputs.
Definition kat_rsp : bytes := str "# SPHINCS+" ++ nl ++ nl ++ flat_map rsp_text kat_inputs.
End Files.

(** [c] is the hexadecimal digit of value [d]. *)
Definition hex_digit_of (c : Z) (d : nat) : Prop :=
  nth_error (str "0123456789ABCDEF") d = Some c \/ nth_error (str "0123456789abcdef") d = Some c.
Definition not_hex (c : Z) : Prop := forall d, ~ hex_digit_of c d.
Definition starts_with (Q : Z -> Prop) (t : bytes) : Prop := match t with [] => True | c :: _ => Q c end.
(** The hexadecimal field at the beginning of [rest]: bytes that are neither digits nor a newline are
    skipped; the digits that follow, of values [vs], are the field; the byte after them is skipped too
    and [rem] is what remains.  Without digits the field ends with the line. *)
Definition hex_field (rest : bytes) (vs : list nat) (rem : bytes) : Prop :=
  exists g ds t, rest = g ++ ds ++ t /\ Forall (fun c => not_hex c /\ c <> 10) g /\ Forall2 hex_digit_of ds vs
    /\ starts_with not_hex t /\ (ds = [] -> starts_with (fun c => c = 10) t) /\ rem = tl t.
(** The number with the given digits. *)
Definition number (base : Z) (vs : list nat) : Z := fold_left (fun v d => base * v + Z.of_nat d) vs 0.
