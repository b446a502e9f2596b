(** FORS (C20, C21).  Theorems only. *)
From Verif Require Import Base Params Address AdrsEnc Suite Utils Fors Spec Refine
  CoreFacts CoreFacts2 Toy.

(** C20: a FORS signature recovers the public key computed while signing.  The type and the last two
    words of the address passed in do not matter. *)
Theorem C20_fors_recovers_pk :
  forall P HS c junk1 junk2 tree kp sig0 md ty w1 w2 ty' w1' w2',
  wf_params P = true -> suite_ok P HS -> ctx_ok P HS c ->
  length sig0 = SPX_FORS_BYTES P -> all_bytes md -> length md = SPX_FORS_MSG_BYTES P ->
  exists sig pk,
    Fors.fors_sign P HS c junk1 sig0 md (enc (hs_layout HS) (mkAdrs 0 tree ty kp w1 w2)) = Some (sig, pk)
    /\ length sig = SPX_FORS_BYTES P
    /\ sig = concat (fors_sign (dims_of P) (codeT P HS c) (codePRF HS c) tree kp md)
    /\ pk = fors_pk (dims_of P) (codeT P HS c) (codePRF HS c) tree kp
    /\ fors_pk_from_sig P HS c junk2 sig md (enc (hs_layout HS) (mkAdrs 0 tree ty' kp w1' w2')) = Some pk.
Proof. exact fors_round. Qed.

(** C21: bit j of index i is digest bit i*FORS_HEIGHT + j. *)
Theorem C21_indices_bits :
  forall P m, wf_params P = true -> all_bytes m -> length m = SPX_FORS_MSG_BYTES P ->
  exists l, message_to_indices P m = Some l
    /\ length l = p_ft P
    /\ Forall (fun i => 0 <= i < 2 ^ Z.of_nat (p_fh P)) l
    /\ forall i j, (i < p_ft P)%nat -> (j < p_fh P)%nat ->
         Z.testbit (nth i l 0) (Z.of_nat j)
         = Z.testbit (nth ((i * p_fh P + j) / 8) m 0) (Z.of_nat ((i * p_fh P + j) mod 8)).
Proof. exact indices_bits. Qed.

Theorem C21_indices_equal :
  forall P m1 m2, wf_params P = true ->
  all_bytes m1 -> length m1 = SPX_FORS_MSG_BYTES P ->
  all_bytes m2 -> length m2 = SPX_FORS_MSG_BYTES P ->
  message_to_indices P m1 = message_to_indices P m2
  <-> forall k, (k < p_fh P * p_ft P)%nat ->
        Z.testbit (nth (k / 8) m1 0) (Z.of_nat (k mod 8))
        = Z.testbit (nth (k / 8) m2 0) (Z.of_nat (k mod 8)).
Proof. exact indices_equal. Qed.

Print Assumptions C20_fors_recovers_pk.
Print Assumptions C21_indices_bits.
Print Assumptions C21_indices_equal.

(** ** Concrete cases: the toy set has 3 trees of height 2, so 6 of the 8 digest bits are used. *)
Example toy_fors :
  wf_params params_toy = true /\ suite_ok params_toy (toy_suite params_toy)
  /\ ctx_ok params_toy (toy_suite params_toy) (mkCtx [1; 2] [3; 4] tt)
  /\ SPX_FORS_BYTES params_toy = 18%nat /\ all_bytes [229]
  /\ length [229] = SPX_FORS_MSG_BYTES params_toy
  /\ message_to_indices params_toy [229] = Some [1; 1; 2]
  /\ message_to_indices params_toy [37] = Some [1; 1; 2]
  /\ message_to_indices params_toy [36] = Some [0; 1; 2].
Proof.
  split; [reflexivity|]. split; [apply toy_suite_ok|]. split; [repeat split|]. split; [reflexivity|].
  split; [repeat constructor; unfold is_byte; lia|]. repeat split.
Qed.
Example toy_fors_run :
  (r <- Fors.fors_sign params_toy (toy_suite params_toy) (mkCtx [1; 2] [3; 4] tt) toy_junk (repeat 0 18)
          [229] (repeat 0 32) ;;
   let '(sig, pk) := r in
   pk' <- fors_pk_from_sig params_toy (toy_suite params_toy) (mkCtx [1; 2] [0; 0] tt) toy_junk sig [229]
            (repeat 0 32) ;;
   bad <- fors_pk_from_sig params_toy (toy_suite params_toy) (mkCtx [1; 2] [0; 0] tt) toy_junk sig [230]
            (repeat 0 32) ;;
   Some (if list_eq_dec Z.eq_dec pk pk' then true else false,
         if list_eq_dec Z.eq_dec pk bad then true else false)) = Some (true, false).
Proof. vm_compute. reflexivity. Qed.
