(** C60: the self-test ref/test/spx.c.  Theorems only; [flip_at], [signature_of], [accepted]: SelftestSpec.v. *)
From Verif Require Import Base Params Suite Sign Spec Refine BuildSpec OptBuild OptForge Selftest SelftestSpec SelftestProofs SelftestImpl Toy.

(** ** The verdict of the self-test
    The random bytes are the message [m], the key seed [ks], the signer's randomness, and what is left.  The
    program returns 0 or -1.  It is 0 exactly when the checks for changed bits fail to verify; everything else it
    checks holds for every implementation.  These checks do not start from the signature [s] of [m]: opening it
    in place has moved [m] to the beginning of it. *)
Theorem C60_verdict : forall im robust P, i_ok im P -> forall us junk invalid,
  (32 <= SPX_BYTES P)%nat -> Z.of_nat (SPX_BYTES P) < 2 ^ 31 ->
  forall m ks optrand rest, length m = 32%nat -> length ks = (3 * p_n P)%nat -> length optrand = p_n P ->
  all_bytes (m ++ ks ++ optrand ++ rest) ->
  let accepted := accepted (i_family im) robust P in
  let s := signature_of (i_family im) robust P ks optrand m in
  let s' := m ++ skipn 32 s in
  exists r, impl_self_test im robust P us junk invalid (m ++ ks ++ optrand ++ rest) = Some r /\ (r = 0 \/ r = -1)
    /\ (r = 0 <-> ~ accepted ks s' (flip_at m 31)
         /\ (invalid = true -> forall i, (i < 1 + spx_nblocks (dims_of P))%nat -> ~ accepted ks (flip_at s' (i * p_n P)) m)).
Proof. exact impl_verdict. Qed.

(** ** It does not detect a verifier that ignores a bit of the message
    [blind_verify] accepts [s] for the message with that bit changed; but the self-test of the blind functions
    returns 0 as soon as the overwritten signature [s'] is not valid. *)
Theorem C60_detects_refuted : forall im robust P, i_ok im P -> forall us junk invalid,
  (32 <= SPX_BYTES P)%nat -> Z.of_nat (SPX_BYTES P) < 2 ^ 31 ->
  forall m ks optrand rest, length m = 32%nat -> length ks = (3 * p_n P)%nat -> length optrand = p_n P ->
  all_bytes (m ++ ks ++ optrand ++ rest) ->
  let accepted := accepted (i_family im) robust P in
  let s := signature_of (i_family im) robust P ks optrand (clear_last m) in
  let s' := m ++ skipn 32 s in
  (forall u, blind_verify im robust P u s (Z.of_nat (SPX_BYTES P)) (flip_at m 31)
               (skipn (2 * p_n P) ks ++ root_of (i_family im) robust P ks) = Some 0)
  /\ exists r, blind_self_test im robust P us junk invalid (m ++ ks ++ optrand ++ rest) = Some r /\ (r = 0 \/ r = -1)
    /\ (r = 0 <-> ~ accepted ks s' (clear_last m)
         /\ (invalid = true -> forall i, (i < 1 + spx_nblocks (dims_of P))%nat -> ~ accepted ks (flip_at s' (i * p_n P)) (clear_last m))).
Proof. exact blind_verdict. Qed.

(** ** For any functions in place of the implementation's: only these verdicts of [verify] matter *)
Theorem C60_any : forall P nb, SPX_BYTES P = (nb * p_n P)%nat -> (0 < p_n P)%nat -> (SPX_MLEN <= SPX_BYTES P)%nat ->
  Z.of_nat (SPX_BYTES P) < 2 ^ 31 -> forall (keypair : bytes -> bytes -> bytes -> option (Z * bytes * bytes * bytes))
  (sign : bytes -> bytes -> bytes -> bytes -> option (Z * bytes * Z * bytes)) (verify : nat -> bytes -> Z -> bytes -> bytes -> option Z)
  (junk : nat -> nat -> Z) pk sk (V : bytes -> bytes -> bool),
  (forall k sig m, length sig = SPX_BYTES P -> length m = SPX_MLEN -> all_bytes sig -> all_bytes m ->
     verify k sig (Z.of_nat (SPX_BYTES P)) m pk = Some (if V sig m then 0 else -1)) ->
  forall invalid stream r s st1 st2, (SPX_MLEN <= length stream)%nat -> all_bytes stream ->
  keypair (skipn SPX_MLEN stream) (junk_bytes (junk 501%nat) (SPX_PK_BYTES P)) (junk_bytes (junk 502%nat) (SPX_SK_BYTES P))
    = Some (0, pk, sk, st1) ->
  let m := firstn SPX_MLEN stream in
  sign st1 (junk_bytes (junk 503%nat) (SPX_BYTES P + SPX_MLEN)) m sk = Some (r, s ++ m, Z.of_nat (SPX_BYTES P + SPX_MLEN), st2) ->
  length s = SPX_BYTES P -> all_bytes s ->
  let s' := m ++ skipn SPX_MLEN s in
  self_test P keypair sign verify junk invalid stream
  = Some (if V s m && negb (V s' (flip_at m (SPX_MLEN - 1)))
             && (negb invalid || forallb (fun i => negb (V (flip_at s' (i * p_n P)) m)) (seq 0 nb))
          then 0 else -1).
Proof. exact verdict. Qed.

Print Assumptions C60_verdict.
Print Assumptions C60_detects_refuted.
Print Assumptions C60_any.

(** ** The hypotheses can be met *)
Example C60_params : Forall (fun P => (32 <= SPX_BYTES P)%nat /\ Z.of_nat (SPX_BYTES P) < 2 ^ 31
  /\ SPX_BYTES P = ((1 + spx_nblocks (dims_of P)) * p_n P)%nat) all_params.
Proof.
  assert (H : forallb (fun P => (32 <=? SPX_BYTES P)%nat && (Z.of_nat (SPX_BYTES P) <? 2 ^ 31)
    && (SPX_BYTES P =? (1 + spx_nblocks (dims_of P)) * p_n P)%nat) all_params = true) by (vm_compute; reflexivity).
  apply Forall_forall. intros P HP. rewrite forallb_forall in H. specialize (H P HP).
  apply andb_prop in H. destruct H as [H H3]. apply andb_prop in H. destruct H as [H1 H2].
  split; [now apply Nat.leb_le|]. split; [now apply Z.ltb_lt|now apply Nat.eqb_eq].
Qed.
Local Notation tP := params_toy.
Local Notation tS := (toy_suite params_toy).
Definition toy_stream : bytes := map (fun i => Z.of_nat (i * i mod 251)) (seq 3 45).
(** The toy build passes; so does its blind variant; one that accepts everything fails. *)
Example C60_case :
  self_test tP (crypto_sign_keypair tP tS toy_junk) (crypto_sign tP tS toy_junk) (fun _ => crypto_sign_verify tP tS toy_junk)
    toy_junk true toy_stream = Some 0.
Proof. vm_compute. reflexivity. Qed.
Example C60_blind_case :
  self_test tP (crypto_sign_keypair tP tS toy_junk)
    (fun st sm m sk => '(r, sm, l, st) <- crypto_sign tP tS toy_junk st sm (clear_last m) sk ;; sm <- wr sm (SPX_BYTES tP) m ;; Some (r, sm, l, st))
    (fun _ sig l m pk => crypto_sign_verify tP tS toy_junk sig l (clear_last m) pk) toy_junk false toy_stream = Some 0.
Proof. vm_compute. reflexivity. Qed.
Example C60_lax_case :
  self_test tP (crypto_sign_keypair tP tS toy_junk) (crypto_sign tP tS toy_junk) (fun _ _ _ _ _ => Some 0)
    toy_junk false toy_stream = Some (-1).
Proof. vm_compute. reflexivity. Qed.
