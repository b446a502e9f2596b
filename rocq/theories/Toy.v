(** A tiny suite, only used to show that the hypotheses of the theorems can be met and to run the
    model: its hash is a byte-mixing function of the address and the input. *)
From Verif Require Import Base BaseFacts Params Address Suite.

Definition mix (n : nat) (data : bytes) : bytes :=
  let s := fold_left (fun p b => let a := fst p + b in (a, snd p + a)) data (1, 0) in
  map (fun j => (snd s + 89 * Z.of_nat j) mod 256) (seq 0 n).

Lemma mix_length n d : length (mix n d) = n.
Proof. unfold mix. now rewrite map_length, seq_length. Qed.
Lemma mix_bytes n d : all_bytes (mix n d).
Proof.
  apply Forall_forall. intros x Hx. apply in_map_iff in Hx. destruct Hx as (j & <- & _).
  unfold is_byte. apply Z.mod_pos_bound. lia.
Qed.

Definition toy_num (bits : nat) (data : bytes) : Z :=
  fold_left (fun a b => a * 256 + b) (mix 8 data) 0 mod 2 ^ Z.of_nat bits.

Definition toy_suite (P : params) : suite := {|
  hs_layout := LSha2;
  hs_st := unit;
  hs_init := fun _ => tt;
  hs_thash := fun c k i a => Some (mix (p_n P) (c_pub_seed c ++ a ++ i));
  hs_prf_addr := fun c a => Some (mix (p_n P) (c_pub_seed c ++ a ++ c_sk_seed c));
  hs_gen_message_random := fun c s o m => Some (mix (p_n P) (s ++ o ++ m));
  hs_hash_message := fun c R pk m =>
    Some (mix (SPX_FORS_MSG_BYTES P) (R ++ pk ++ m),
          toy_num (SPX_TREE_BITS P) (1 :: R ++ pk ++ m),
          toy_num (SPX_LEAF_BITS P) (2 :: R ++ pk ++ m))
|}.

Lemma toy_num_range b d : 0 <= toy_num b d < 2 ^ Z.of_nat b.
Proof. apply Z.mod_pos_bound. apply Z.pow_pos_nonneg; lia. Qed.

Lemma toy_suite_ok P : suite_ok P (toy_suite P).
Proof.
  constructor; cbn [hs_layout hs_st hs_init hs_thash hs_prf_addr hs_gen_message_random
    hs_hash_message toy_suite c_pub_seed c_sk_seed]; intros; eauto using mix_length.
  - inversion H. apply mix_bytes.
  - inversion H. apply mix_bytes.
  - inversion H. apply mix_bytes.
  - do 3 eexists. split; [reflexivity|].
    rewrite mix_length. repeat split; try apply toy_num_range. apply mix_bytes.
Qed.

(** Runs of the model. *)
Definition toy_junk (site off : nat) : Z := Z.of_nat (site + off).
Definition toy_seed : bytes := [1; 2; 3; 4; 5; 6].
