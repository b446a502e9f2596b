(** String literals as bytes. *)
From Coq Require Import String Ascii.
From Verif Require Import Base.

(** The bytes of a string literal (ASCII). *)
Definition str (s : string) : bytes := map (fun a => Z.of_N (N_of_ascii a)) (list_ascii_of_string s).
(** A newline. *)
Definition nl : bytes := [10].
