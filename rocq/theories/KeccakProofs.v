(** KeccakF1600_StatePermute computes Keccak-f[1600]. *)
From Verif Require Import Base BaseFacts Fips202 KeccakSpec.

(** ** 64-bit words *)
Definition W64 (a : Z) : Prop := 0 <= a < 2 ^ 64.
Lemma W64_bits a : W64 a <-> 0 <= a /\ forall z, 64 <= z -> Z.testbit a z = false.
Proof.
  unfold W64. split.
  - intros [H1 H2]. split; [lia|]. intros z Hz. destruct (Z.eq_dec a 0) as [->|Hn]; [apply Z.testbit_0_l|].
    apply Z.bits_above_log2; [lia|]. apply Z.log2_lt_pow2; [lia|].
    eapply Z.lt_le_trans; [exact H2|]. apply Z.pow_le_mono_r; lia.
  - intros [H1 H2]. split; [lia|].
    destruct (Z_lt_le_dec a (2 ^ 64)) as [|Hge]; [lia|exfalso].
    assert (Hl : 64 <= Z.log2 a) by (apply Z.log2_le_pow2; lia).
    specialize (H2 _ Hl). rewrite Z.bit_log2 in H2 by lia. discriminate.
Qed.
Lemma W64_xor a b : W64 a -> W64 b -> W64 (Z.lxor a b).
Proof.
  rewrite !W64_bits. intros [A1 A2] [B1 B2]. split.
  - apply Z.lxor_nonneg. lia.
  - intros z Hz. rewrite Z.lxor_spec, A2, B2 by lia. reflexivity.
Qed.
Lemma W64_andn a b : W64 b -> W64 (Z.land (Z.lnot a) b).
Proof.
  rewrite !W64_bits. intros [B1 B2]. split.
  - apply Z.land_nonneg. lia.
  - intros z Hz. rewrite Z.land_spec, B2 by lia. apply andb_false_r.
Qed.
Lemma W64_mod a : W64 (u64 a).
Proof. unfold W64, u64. apply Z.mod_pos_bound. lia. Qed.
Lemma W64_shr a o : 0 <= o -> W64 a -> W64 (Z.shiftr a o).
Proof.
  intros Ho. rewrite !W64_bits. intros [A1 A2]. split.
  - now apply Z.shiftr_nonneg.
  - intros z Hz. rewrite Z.shiftr_spec by lia. apply A2. lia.
Qed.
Lemma W64_rol a o : 0 <= o <= 64 -> W64 a -> W64 (ROL a o).
Proof. intros Ho Ha. apply W64_xor; [apply W64_mod|apply W64_shr; [lia|exact Ha]]. Qed.
Lemma u64_bit a z : 0 <= z < 64 -> Z.testbit (u64 a) z = Z.testbit a z.
Proof. intros Hz. unfold u64. apply Z.mod_pow2_bits_low. lia. Qed.
Lemma rol_bit a o z : W64 a -> 0 < o < 64 -> 0 <= z < 64 ->
  Z.testbit (ROL a o) z = Z.testbit a ((z - o) mod 64).
Proof.
  intros Ha Ho Hz. unfold ROL. rewrite Z.lxor_spec, u64_bit by lia.
  rewrite Z.shiftl_spec, Z.shiftr_spec by lia.
  apply W64_bits in Ha. destruct Ha as [A1 A2].
  destruct (Z_lt_le_dec z o) as [H|H].
  - rewrite Z.testbit_neg_r, xorb_false_l by lia.
    replace ((z - o) mod 64) with (z + (64 - o)); [reflexivity|].
    rewrite <- (Z_mod_plus_full (z - o) 1 64). rewrite Z.mod_small; lia.
  - rewrite (A2 (z + (64 - o))) by lia. rewrite xorb_false_r, Z.mod_small by lia. reflexivity.
Qed.
Lemma mod64 z : 0 <= z mod 64 < 64.
Proof. apply Z.mod_pos_bound. lia. Qed.

(** ** One round *)
Definition kbits (s : list Z) : kstate := fun x y z => Z.testbit (nth (5 * y + x) s 0) z.
Definition keq (A B : kstate) : Prop :=
  forall x y z, (x < 5)%nat -> (y < 5)%nat -> 0 <= z < 64 -> A x y z = B x y z.

Lemma keq_theta A B : keq A B -> keq (theta A) (theta B).
Proof.
  intros H x y z Hx Hy Hz. unfold theta, column.
  assert (Hm : forall k, (k mod 5 < 5)%nat) by (intros; apply Nat.mod_upper_bound; lia).
  rewrite !H by (auto using mod64; lia). reflexivity.
Qed.
Lemma keq_rho A B : keq A B -> keq (rho A) (rho B).
Proof. intros H x y z Hx Hy Hz. unfold rho. apply H; auto using mod64. Qed.
Lemma keq_pi A B : keq A B -> keq (pi A) (pi B).
Proof. intros H x y z Hx Hy Hz. unfold pi. apply H; auto. apply Nat.mod_upper_bound; lia. Qed.
Lemma keq_chi A B : keq A B -> keq (chi A) (chi B).
Proof.
  intros H x y z Hx Hy Hz. unfold chi.
  assert (Hm : forall k, (k mod 5 < 5)%nat) by (intros; apply Nat.mod_upper_bound; lia).
  rewrite !H by auto. reflexivity.
Qed.
Lemma keq_iota ir A B : keq A B -> keq (iota ir A) (iota ir B).
Proof. intros H x y z Hx Hy Hz. unfold iota. rewrite !H by auto. reflexivity. Qed.
Lemma keq_Rnd ir A B : keq A B -> keq (Rnd ir A) (Rnd ir B).
Proof. intros H. apply keq_iota, keq_chi, keq_pi, keq_rho, keq_theta, H. Qed.

Ltac w64 :=
  match goal with
  | |- W64 (ROL _ _) => apply W64_rol; [lia|w64]
  | |- W64 (Z.lxor _ _) => apply W64_xor; w64
  | |- W64 (Z.land _ _) => apply W64_andn; w64
  | |- W64 _ => assumption
  end.
(** Bit z of an output word: push [Z.testbit] down to the input words. *)
Ltac lane_bits Hz Hrc :=
  repeat rewrite Z.lxor_spec; repeat rewrite Z.land_spec;
  repeat (rewrite Z.lnot_spec by exact (proj1 Hz));
  repeat (rewrite rol_bit; [|w64|lia|first [exact Hz|apply mod64]]; repeat rewrite Z.lxor_spec).
Ltac rho_consts :=
  repeat match goal with |- context [rho_offset ?a ?b] =>
    let v := eval vm_compute in (rho_offset a b) in change (rho_offset a b) with v end.
(** Unfold the specification at a concrete lane. *)
Ltac spec_bits :=
  cbv [Rnd iota chi pi rho theta column kbits Nat.modulo Nat.divmod Nat.sub fst snd Nat.add Nat.mul
       Nat.eqb andb];
  rho_consts; cbn [nth].

Definition is_rc (w : Z) (ir : nat) : Prop :=
  W64 w /\ forall z, 0 <= z < 64 -> Z.testbit w z = round_constant ir z.

Ltac half_proof Hrc Hl Hs :=
  do 25 (destruct Hs as [|? ? ? Hs]; [discriminate Hl|]); destruct Hs; [clear Hl|discriminate Hl];
  eexists; split; [reflexivity|]; split; [reflexivity|]; split;
  [ repeat (apply Forall_cons; [w64|]); apply Forall_nil
  | let x := fresh "x" in let y := fresh "y" in let zb := fresh "zb" in
    let Hx := fresh in let Hy := fresh in let Hz := fresh "Hz" in
    intros x y zb Hx Hy Hz;
    assert (Hz0 : (zb - 0) mod 64 = zb) by (rewrite Z.sub_0_r; apply Z.mod_small; exact Hz);
    destruct y as [|[|[|[|[|y]]]]]; try (exfalso; clear - Hy; lia);
    destruct x as [|[|[|[|[|x]]]]]; try (exfalso; clear - Hx; lia);
    unfold kbits at 1; cbn [nth Nat.add Nat.mul];
    lane_bits Hz Hrc; try rewrite (Hrc _ Hz); spec_bits; rewrite ?Hz0; reflexivity ].

Lemma half_A_E w ir s : is_rc w ir -> length s = 25%nat -> Forall W64 s ->
  exists s', round_A_to_E w s = Some s' /\ length s' = 25%nat /\ Forall W64 s'
    /\ keq (kbits s') (Rnd ir (kbits s)).
Proof. intros [Hw Hrc] Hl Hs. half_proof Hrc Hl Hs. Qed.
Lemma half_E_A w ir s : is_rc w ir -> length s = 25%nat -> Forall W64 s ->
  exists s', round_E_to_A w s = Some s' /\ length s' = 25%nat /\ Forall W64 s'
    /\ keq (kbits s') (Rnd ir (kbits s)).
Proof. intros [Hw Hrc] Hl Hs. half_proof Hrc Hl Hs. Qed.

(** ** The round constants *)
Lemma rc_table ir : (ir < 24)%nat -> exists w, get KeccakF_RoundConstants ir = Some w /\ is_rc w ir.
Proof.
  intros Hir.
  assert (Hall : forallb (fun ir =>
      match get KeccakF_RoundConstants ir with
      | Some w => (0 <=? w) && (w <? 2 ^ 64)
          && forallb (fun z => Bool.eqb (Z.testbit w (Z.of_nat z)) (round_constant ir (Z.of_nat z))) (seq 0 64)
      | None => false
      end) (seq 0 24) = true) by (vm_compute; reflexivity).
  rewrite forallb_forall in Hall. specialize (Hall ir). rewrite in_seq in Hall.
  specialize (Hall (conj (Nat.le_0_l _) Hir)).
  destruct (get KeccakF_RoundConstants ir) as [w|]; [|discriminate].
  exists w. split; [reflexivity|].
  apply andb_prop in Hall. destruct Hall as [Hr Hb]. apply andb_prop in Hr. destruct Hr as [H1 H2].
  split; [unfold W64; lia|]. intros z Hz. rewrite forallb_forall in Hb.
  specialize (Hb (Z.to_nat z)). rewrite in_seq in Hb. rewrite Z2Nat.id in Hb by lia.
  apply Bool.eqb_prop, Hb. lia.
Qed.

(** ** The permutation *)
Lemma keq_from k : forall ir A B, keq A B -> keq (keccak_from k ir A) (keccak_from k ir B).
Proof.
  induction k as [|k IH]; intros ir A B H; cbn [keccak_from]; [exact H|]. now apply IH, keq_Rnd.
Qed.
Lemma keccak_from_split a b ir A : keccak_from (a + b) ir A = keccak_from b (ir + a) (keccak_from a ir A).
Proof.
  revert ir A; induction a as [|a IH]; intros ir A; cbn [Nat.add keccak_from].
  - now rewrite Nat.add_0_r.
  - rewrite IH. f_equal. lia.
Qed.
Lemma keq_trans A B C : keq A B -> keq B C -> keq A C.
Proof. intros H1 H2 x y z Hx Hy Hz. rewrite H1, H2; auto. Qed.

Lemma rounds_ok s : length s = 25%nat -> Forall W64 s ->
  exists s', keccak_rounds s = Some s' /\ length s' = 25%nat /\ Forall W64 s'
    /\ keq (kbits s') (keccak_f (kbits s)).
Proof.
  intros Hl Hs. unfold keccak_rounds, keccak_f.
  destruct (iterM_inv 12 0 (fun k s =>
      rc0 <- get KeccakF_RoundConstants (2 * k) ;;
      rc1 <- get KeccakF_RoundConstants (2 * k + 1) ;;
      s <- round_A_to_E rc0 s ;; round_E_to_A rc1 s)
    (fun k s' => length s' = 25%nat /\ Forall W64 s'
           /\ keq (kbits s') (keccak_from (2 * k) 0 (kbits s))) s) as (s' & E & H).
  - split; [exact Hl|]. split; [exact Hs|]. intros x y z _ _ _. reflexivity.
  - intros i t Hi (Htl & Ht & Hk).
    destruct (rc_table (2 * i)) as (w0 & E0 & R0); [lia|].
    destruct (rc_table (2 * i + 1)) as (w1 & E1 & R1); [lia|].
    destruct (half_A_E w0 _ t R0 Htl Ht) as (t1 & F1 & L1 & W1 & K1).
    destruct (half_E_A w1 _ t1 R1 L1 W1) as (t2 & F2 & L2 & W2 & K2).
    exists t2. rewrite E0, E1. cbn [bind]. rewrite F1. cbn [bind]. rewrite F2.
    split; [reflexivity|]. split; [exact L2|]. split; [exact W2|].
    replace (2 * S i)%nat with (2 * i + 2)%nat by lia. rewrite keccak_from_split.
    cbn [keccak_from Nat.add]. eapply keq_trans; [exact K2|].
    replace (2 * i + 1)%nat with (S (2 * i)) by lia. apply keq_Rnd.
    eapply keq_trans; [exact K1|]. now apply keq_Rnd.
  - exists s'. split; [exact E|]. exact H.
Qed.

(** ** The state as 200 bytes *)
Definition sbytes (s : list Z) : bytes := flat_map store64 s.
Lemma store64_length u : length (store64 u) = 8%nat.
Proof. reflexivity. Qed.
Lemma sbytes_length s : length (sbytes s) = (8 * length s)%nat.
Proof. induction s as [|w s IH]; cbn [sbytes flat_map length]; [reflexivity|]. fold (sbytes s). rewrite app_length, IH, store64_length. lia. Qed.
Lemma nth_sbytes s : forall j, (j < 8 * length s)%nat ->
  nth j (sbytes s) 0 = u8 (Z.shiftr (nth (j / 8) s 0) (8 * Z.of_nat (j mod 8))).
Proof.
  induction s as [|w s IH]; intros j Hj; cbn [length] in Hj; [lia|].
  cbn [sbytes flat_map]. fold (sbytes s).
  destruct (le_lt_dec 8 j) as [H|H].
  - rewrite app_nth2 by (rewrite store64_length; lia). rewrite store64_length, IH by lia.
    replace j with (1 * 8 + (j - 8))%nat at 3 4 by lia.
    rewrite Nat.div_add_l, (Nat.add_comm (1 * 8)), Nat.mod_add by lia. reflexivity.
  - rewrite app_nth1 by (rewrite store64_length; lia).
    rewrite Nat.div_small, Nat.mod_small by lia. unfold store64.
    rewrite (nth_indep _ 0 (u8 (Z.shiftr w (8 * Z.of_nat 0)))) by (rewrite map_length, seq_length; lia).
    rewrite (map_nth (fun i => u8 (Z.shiftr w (8 * Z.of_nat i)))), seq_nth by lia. reflexivity.
Qed.
Lemma u8_bit a i : 0 <= i < 8 -> Z.testbit (u8 a) i = Z.testbit a i.
Proof. intros Hz. unfold u8. change 256 with (2 ^ 8). apply Z.mod_pow2_bits_low. lia. Qed.

Lemma byte_of_bits_ext f g : (forall i, (i < 8)%nat -> f i = g i) -> byte_of_bits f = byte_of_bits g.
Proof.
  intros H. unfold byte_of_bits. cbn [seq fold_right]. rewrite !H by lia. reflexivity.
Qed.
Lemma byte_of_byte v : is_byte v -> byte_of_bits (fun i => Z.testbit v (Z.of_nat i)) = v.
Proof.
  intros Hv.
  assert (Hall : forallb (fun k => byte_of_bits (fun i => Z.testbit (Z.of_nat k) (Z.of_nat i)) =? Z.of_nat k)
            (seq 0 256) = true) by (vm_compute; reflexivity).
  rewrite forallb_forall in Hall. specialize (Hall (Z.to_nat v)). rewrite in_seq in Hall.
  unfold is_byte in Hv. rewrite Z2Nat.id in Hall by lia. apply Z.eqb_eq, Hall. lia.
Qed.
Lemma byte_of_word w k : byte_of_bits (fun i => Z.testbit w (Z.of_nat (k + i))) = u8 (Z.shiftr w (Z.of_nat k)).
Proof.
  rewrite <- (byte_of_byte (u8 (Z.shiftr w (Z.of_nat k)))) by (apply Z.mod_pos_bound; lia).
  apply byte_of_bits_ext. intros i Hi. rewrite u8_bit, Z.shiftr_spec by lia. f_equal. lia.
Qed.

Lemma state_sbytes s : length s = 25%nat -> keq (state_of_bytes (sbytes s)) (kbits s).
Proof.
  intros Hl x y z Hx Hy Hz. unfold state_of_bytes, kbits.
  assert (Hq : 0 <= z / 8 < 8) by (split; [apply Z.div_pos; lia|apply Z.div_lt_upper_bound; lia]).
  assert (Hr : 0 <= z mod 8 < 8) by (apply Z.mod_pos_bound; lia).
  rewrite nth_sbytes by lia. rewrite u8_bit, Z.shiftr_spec by lia.
  replace (8 * (5 * y + x) + Z.to_nat (z / 8))%nat with ((5 * y + x) * 8 + Z.to_nat (z / 8))%nat by lia.
  rewrite Nat.div_add_l, Nat.div_small by lia.
  rewrite (Nat.add_comm ((5 * y + x) * 8)), Nat.mod_add, Nat.mod_small by lia.
  rewrite Nat.add_0_r, Z2Nat.id by lia. f_equal. rewrite (Z.div_mod z 8) at 3 by lia. lia.
Qed.

Lemma bytes_of_keq A B : keq A B -> bytes_of_state A = bytes_of_state B.
Proof.
  intros H. unfold bytes_of_state. apply map_ext_in. intros j Hj. apply in_seq in Hj.
  apply byte_of_bits_ext. intros i Hi.
  assert (j / 8 < 25)%nat by (apply Nat.div_lt_upper_bound; lia).
  assert (j mod 8 < 8)%nat by (apply Nat.mod_upper_bound; lia).
  apply H; [apply Nat.mod_upper_bound; lia|apply Nat.div_lt_upper_bound; lia|lia].
Qed.
Lemma bytes_of_kbits s : length s = 25%nat -> bytes_of_state (kbits s) = sbytes s.
Proof.
  intros Hl. apply nth_ext with (d := 0) (d' := 0).
  { unfold bytes_of_state. rewrite map_length, seq_length, sbytes_length. lia. }
  intros j Hj. unfold bytes_of_state in Hj. rewrite map_length, seq_length in Hj.
  rewrite nth_sbytes by lia. unfold bytes_of_state.
  match goal with |- nth j (map ?f _) 0 = _ =>
    rewrite (nth_indep _ 0 (f O)) by (rewrite map_length, seq_length; lia);
    rewrite (map_nth f), seq_nth by lia end.
  cbn [Nat.add]. unfold kbits.
  rewrite <- (Nat.div_mod (j / 8) 5) by lia.
  rewrite byte_of_word. f_equal. f_equal. lia.
Qed.

Theorem permute_ok s t : length s = 25%nat -> Forall W64 s ->
  exists s', KeccakF1600_StatePermute (s ++ t) = Some (s' ++ t) /\ length s' = 25%nat /\ Forall W64 s'
    /\ sbytes s' = keccak_bytes (sbytes s).
Proof.
  intros Hl Hs. destruct (rounds_ok s Hl Hs) as (s' & E & Hl' & Hs' & K).
  exists s'. unfold KeccakF1600_StatePermute. rewrite rd_app0 by auto. cbn [bind]. rewrite E. cbn [bind].
  rewrite wr_app0 by lia. split; [reflexivity|]. split; [exact Hl'|]. split; [exact Hs'|].
  rewrite <- (bytes_of_kbits s') by exact Hl'. unfold keccak_bytes. apply bytes_of_keq.
  eapply keq_trans; [exact K|]. intros x y z Hx Hy Hz. symmetry.
  apply (keq_from 24 0); auto. now apply state_sbytes.
Qed.

Theorem permute_bits s t : length s = 25%nat -> Forall (fun w => 0 <= w < 2 ^ 64) s ->
  exists s', KeccakF1600_StatePermute (s ++ t) = Some (s' ++ t)
    /\ length s' = 25%nat /\ Forall (fun w => 0 <= w < 2 ^ 64) s'
    /\ forall x y z, (x < 5)%nat -> (y < 5)%nat -> 0 <= z < 64 ->
         Z.testbit (nth (5 * y + x) s' 0) z
         = keccak_f (fun x y z => Z.testbit (nth (5 * y + x) s 0) z) x y z.
Proof.
  intros Hl Hs. destruct (rounds_ok s Hl Hs) as (s' & E & Hl' & Hs' & K).
  exists s'. unfold KeccakF1600_StatePermute. rewrite rd_app0 by auto. cbn [bind]. rewrite E. cbn [bind].
  rewrite wr_app0 by lia. split; [reflexivity|]. split; [exact Hl'|]. split; [exact Hs'|]. exact K.
Qed.
