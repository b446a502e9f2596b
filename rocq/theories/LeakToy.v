(** A case for C67 and C68: the toy suite with another value for the FORS secrets of one leaf number, which the toy hash
    cannot tell apart from the old ones. *)
From Verif Require Import Base BaseFacts Params Address Suite Spec AdrsEnc Refine ForgeSpec LeakSpec LeakCode Toy.

Definition shift (x : bytes) : bytes := match x with [b0; b1] => [(b0 + 1) mod 256; (b1 - 2) mod 256] | _ => x end.
(** The leaf with number 1 under each key pair (bytes 9 and 21 of the address are type and leaf number). *)
Definition toy_prf2 (c : ctx unit) (a : bytes) : option bytes :=
  let x := mix 2 (c_pub_seed c ++ a ++ c_sk_seed c) in
  Some (if (nth 9 a 0 =? 6) && (nth 21 a 0 =? 1) then shift x else x).
Definition toy_suite2 : suite := with_prf (toy_suite params_toy) toy_prf2.

Lemma shift_len x : length (shift x) = length x.
Proof. destruct x as [|a [|b [|c x]]]; reflexivity. Qed.
Lemma shift_bytes x : all_bytes x -> all_bytes (shift x).
Proof.
  intros H. destruct x as [|a [|b [|c x]]]; try exact H.
  repeat constructor; unfold is_byte; try (apply Z.mod_pos_bound; lia).
Qed.
Lemma toy_suite2_ok : suite_ok params_toy toy_suite2.
Proof.
  destruct (toy_suite_ok params_toy) as [H1 H2 H3 H4 H5 H6 H7 H8 H9 H10]. constructor; auto.
  - intros c a _ _. eexists. split; [reflexivity|]. destruct (_ && _); rewrite ?shift_len; apply mix_length.
  - intros c a d E. change (toy_prf2 c a = Some d) in E. unfold toy_prf2 in E. cbv zeta in E.
    pose proof (mix_bytes 2 (c_pub_seed c ++ a ++ c_sk_seed c)) as B. set (x := mix 2 _) in *. clearbody x.
    assert (d = if (nth 9 a 0 =? 6) && (nth 21 a 0 =? 1) then shift x else x) as -> by congruence.
    destruct (_ && _); [now apply shift_bytes|exact B].
Qed.
Lemma mix_shift n p x : mix n (p ++ shift x) = mix n (p ++ x).
Proof.
  destruct x as [|b0 [|b1 [|c x]]]; try reflexivity. apply map_ext. intros j. cbn [shift]. rewrite !fold_left_app.
  set (v := fold_left _ p _). cbn [fold_left fst snd]. generalize (Z.of_nat j). clearbody v. intros k.
  rewrite (Z.mod_eq (b0 + 1) 256), (Z.mod_eq (b1 - 2) 256) by lia.
  set (q1 := (b0 + 1) / 256). set (q2 := (b1 - 2) / 256). clearbody q1 q2.
  match goal with |- ?l mod 256 = ?r mod 256 => replace l with (r + (- 2 * q1 - q2) * 256) by ring end.
  apply Z_mod_plus_full.
Qed.
(** FORS secrets that are the same in both. *)
Definition toy_shown (ps ss : bytes) (tree kp : Z) (t : nat) (i : Z) : Prop :=
  fors_sk (dims_of params_toy) (codePrf toy_suite2 ps ss) tree kp (Z.of_nat t) i
  = fors_sk (dims_of params_toy) (codePrf (toy_suite params_toy) ps ss) tree kp (Z.of_nat t) i.
Lemma toy_same_images ps ss :
  same_images (dims_of params_toy) (codeTh params_toy (toy_suite params_toy) ps) (codePrf (toy_suite params_toy) ps ss)
    (codePrf toy_suite2 ps ss) (toy_shown ps ss).
Proof.
  constructor; auto.
  - intros tree kp t i _ _ _. unfold fors_sk.
    set (ad := mkAdrs 0 tree T_FORS_PRF kp 0 _). set (la := fors_leaf_adrs _ _ _ _ _).
    change (codePrf toy_suite2 ps ss ad) with
      (if (nth 9 (enc LSha2 ad) 0 =? 6) && (nth 21 (enc LSha2 ad) 0 =? 1)
       then shift (mix 2 (ps ++ enc LSha2 ad ++ ss)) else mix 2 (ps ++ enc LSha2 ad ++ ss)).
    change (codePrf (toy_suite params_toy) ps ss ad) with (mix 2 (ps ++ enc LSha2 ad ++ ss)).
    set (x := mix 2 _). destruct (_ && _); [|reflexivity].
    change (mix 2 (ps ++ enc LSha2 la ++ shift x) = mix 2 (ps ++ enc LSha2 la ++ x)).
    rewrite !app_assoc. apply mix_shift.
Qed.
