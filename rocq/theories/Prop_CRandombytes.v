(** C78: the integer and pointer expressions of ref/randombytes.c under the rules of C.  Theorems only.

    CRandombytes.v transcribes randombytes.c with each variable in its declared type and each expression as it is written
    (CInt.v); a pointer that leaves its object is undefined ([None]).  [reads] and [opens] are what the operating system
    answers. *)
From Verif Require Import Base CInt Rng RngSpec RngProofs CRandombytes CRandombytesProofs.

(** No failing read: nothing undefined happens, nothing is written outside the buffer, and a call that returns has filled
    the buffer with [xlen] bytes that the operating system delivered, in order. *)
Theorem C78_randombytes : forall fd opens reads mem x xlen,
  - 2 ^ 31 <= fd < 2 ^ 31 -> Forall (fun r => - 2 ^ 31 <= r < 2 ^ 31) opens ->
  0 <= xlen < 2 ^ 64 -> Z.of_nat x + xlen <= Z.of_nat (length mem) -> Forall no_error reads ->
  match os_randombytes_c fd opens reads mem x xlen with
  | None | Some Fault => False
  | Some (Waiting mem') => exists out, Z.of_nat (length out) <= xlen
      /\ mem' = firstn x mem ++ out ++ skipn (x + length out) mem
  | Some (Returned mem' fd' opens' rest) => fd' <> -1 /\ exists used out, reads = used ++ rest
      /\ drawn used out /\ Z.of_nat (length out) = xlen
      /\ mem' = firstn x mem ++ out ++ skipn (x + length out) mem
  end.
Proof. exact c_randombytes. Qed.
(** It returns when every read delivers something. *)
Theorem C78_returns : forall reads fd opens mem x xlen,
  - 2 ^ 31 <= fd < 2 ^ 31 -> fd <> -1 -> 0 <= xlen < 2 ^ 64 -> Z.of_nat x + xlen <= Z.of_nat (length mem) ->
  Forall (fun r => exists b d, r = RData (b :: d)) reads -> xlen <= Z.of_nat (length reads) ->
  exists mem' rest, os_randombytes_c fd opens reads mem x xlen = Some (Returned mem' fd opens rest).
Proof. exact c_returns. Qed.
(** A failing read is not retried: whatever was read before, if the call was still waiting for bytes then a read that returns -1
    makes it undefined, whatever comes later. *)
Theorem C78_read_error_refuted : forall used rest fd opens mem x xlen m,
  - 2 ^ 31 <= fd < 2 ^ 31 -> fd <> -1 -> Z.of_nat (length mem) < 2 ^ 64 - 1 ->
  os_randombytes_c fd opens used mem x xlen = Some (Waiting m) ->
  os_randombytes_c fd opens (used ++ RError :: rest) mem x xlen = None.
Proof. exact c_read_error. Qed.

(** ** Cases *)
(** Two failing opens, then portions of 0, 1, 0 and 5 bytes for a buffer of 4. *)
Example C78_randombytes_case :
  os_randombytes_c (-1) [-1; -1; 7] [RData []; RData [1]; RData []; RData [2; 3; 4; 5; 6]; RData [9]]
    [100; 101; 102; 103; 104; 105] 1 4
  = Some (Returned [100; 1; 2; 3; 4; 105] 7 [] [RData [9]]).
Proof. vm_compute. reflexivity. Qed.
Example C78_returns_case :
  os_randombytes_c 5 [] [RData [1]; RData [2]; RData [3]] [0; 0; 0] 0 3 = Some (Returned [1; 2; 3] 5 [] []).
Proof. vm_compute. reflexivity. Qed.
Example C78_read_error_case :
  os_randombytes_c 3 [] [RData [1]] [100; 101; 102] 0 3 = Some (Waiting [1; 101; 102])
  /\ os_randombytes_c 3 [] [RData [1]; RError; RData [2; 3]] [100; 101; 102] 0 3 = None.
Proof. vm_compute. split; reflexivity. Qed.

Print Assumptions C78_randombytes.
Print Assumptions C78_returns.
Print Assumptions C78_read_error_refuted.
