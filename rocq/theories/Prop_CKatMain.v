(** C80: the whole known-answer program (ref/PQCgenKAT_sign.c) with its integer expressions under the rules of C.  Theorems only.

    CKatMain.v transcribes main with each variable in its declared type and each expression as it is written; it calls the typed
    rng.c (CRng.v) and the typed input and output functions (CKat.v).  The files are those of KatSpec.v. *)
From Coq Require Import String.
From Verif Require Import Base Params Spec RngSpec BuildSpec OptBuild OptProofs OptForge Kat Text KatSpec CKat CKatMain CKatFiles.
Local Open Scope list_scope.

(** For every implementation, parameter set with signatures below 2^31 bytes, block cipher and content of uninitialised memory:
    nothing is undefined and the two files are the ones the specification determines; when the request file cannot be
    reopened, -1. *)
Theorem C80_files : forall E im robust P us junk,
  (forall k b, length (E k b) = 16%nat) -> (forall k b, all_bytes (E k b)) -> i_ok im P -> Z.of_nat (SPX_BYTES P) < 2 ^ 31 ->
  kat_main_c E im robust P us junk true true true = Some (0, kat_req E, kat_rsp E (i_family im) robust P)
  /\ kat_main_c E im robust P us junk true true false = Some (-1, kat_req E, []).
Proof. exact c_kat_files. Qed.
Theorem C80_open_fails : forall E im robust P us junk o2 o3,
  kat_main_c E im robust P us junk false o2 o3 = Some (-1, [], [])
  /\ kat_main_c E im robust P us junk true false o3 = Some (-1, [], []).
Proof. exact c_kat_open_fails. Qed.

(** ** The hypotheses can be met: every parameter file, a cipher with 16-byte output *)
Definition c80_E (k b : bytes) : bytes := map (fun j => (nth j b 0 + 3 * Z.of_nat j) mod 256) (seq 0 16).
Lemma c80_sizes : forall P, In P all_params -> Z.of_nat (SPX_BYTES P) < 2 ^ 31.
Proof.
  intros P H.
  assert (A : forallb (fun P => Z.of_nat (SPX_BYTES P) <? 2 ^ 31) all_params = true) by (vm_compute; reflexivity).
  apply Z.ltb_lt. exact (proj1 (forallb_forall _ _) A P H).
Qed.
Example C80_files_case : forall im robust P us junk, In P all_params ->
  kat_main_c c80_E im robust P us junk true true true = Some (0, kat_req c80_E, kat_rsp c80_E (i_family im) robust P).
Proof.
  intros. refine (proj1 (C80_files c80_E im robust P us junk _ _ _ _)).
  - intros. unfold c80_E. now rewrite map_length, seq_length.
  - intros. apply Forall_forall. intros x Hx. apply in_map_iff in Hx. destruct Hx as (j & <- & _). apply Z.mod_pos_bound. lia.
  - now apply i_params.
  - now apply c80_sizes.
Qed.
(** The first entry, read from uninitialised arrays: 33 bytes of message. *)
Example C80_entry_case :
  match req_entry_c c80_E (fun _ j => Z.of_nat j) 0 (Rng.mkDrbg (repeat 3 32) (repeat 2 16) 1, repeat 9 48, repeat 8 3300, []) with
  | Some (g, seed, msg, out) => (Rng.g_reseed g, length seed, length msg, firstn 17 out) = (3, 48%nat, 3300%nat, str "count = 0" ++ nl ++ str "seed = ")
  | None => False
  end.
Proof. vm_compute. reflexivity. Qed.

Print Assumptions C80_files.
Print Assumptions C80_open_fails.
