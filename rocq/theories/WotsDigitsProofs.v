(** chain_lengths computes the base-w digits of the message and of its checksum. *)
From Verif Require Import Base BaseFacts Params Address Suite Wots Spec SpecFacts AdrsEnc
  AddressProofs Refine.

Section Digits.
Variable P : params.
Hypothesis Hwf : wf_params P = true.
Notation N := (p_n P).
Notation W := (SPX_WOTS_W P).
Notation LOGW := (p_logw P).

Lemma logw_cases : LOGW = 4%nat \/ LOGW = 8%nat.
Proof. unfold wf_params in Hwf. lia. Qed.

Lemma wf_n : (1 <= N <= 256)%nat.
Proof. unfold wf_params in Hwf. lia. Qed.

Lemma W_pos : 2 <= W.
Proof. unfold SPX_WOTS_W. destruct logw_cases as [-> | ->]; vm_compute; discriminate. Qed.

(** Digits of one byte. *)
Definition byte_digits (b : Z) : list Z :=
  if (LOGW =? 4)%nat then [Z.land (Z.shiftr b 4) 15; Z.land b 15] else [Z.land b 255].
Definition per_byte : nat := if (LOGW =? 4)%nat then 2 else 1.

Lemma byte_digits_length b : length (byte_digits b) = per_byte.
Proof. unfold byte_digits, per_byte. now destruct (LOGW =? 4)%nat. Qed.

Lemma flat_digits_length inp : length (flat_map byte_digits inp) = (length inp * per_byte)%nat.
Proof.
  induction inp as [|b inp IH]; cbn [flat_map length]; [reflexivity|].
  rewrite app_length, byte_digits_length, IH. lia.
Qed.

Lemma skipn_nth_error {A} (l : list A) i x : nth_error l i = Some x -> skipn i l = x :: skipn (S i) l.
Proof. revert i; induction l as [|y l IH]; intros [|i] E; cbn in *; try discriminate; auto.
  congruence. Qed.

Lemma base_w_loop_ok n inp i t :
  (n + i * per_byte <= length inp * per_byte)%nat ->
  base_w_loop P n inp i t 0 = Some (firstn n (flat_map byte_digits (skipn i inp))).
Proof.
  revert i t. induction n as [n IH] using lt_wf_ind. intros i t Hn.
  destruct n as [|n]; [reflexivity|].
  destruct (nth_error inp i) as [b|] eqn:Eb.
  2:{ apply nth_error_None in Eb. unfold per_byte in Hn. destruct (LOGW =? 4)%nat; lia. }
  rewrite (skipn_nth_error inp i b Eb). cbn [flat_map].
  cbn [base_w_loop]. change (0 =? 0) with true. cbn match.
  unfold get. rewrite Eb. cbn [bind].
  unfold byte_digits at 1. unfold per_byte in *.
  destruct logw_cases as [E|E]; rewrite E in *; cbn [Nat.eqb] in *.
  - change (0 + 8 - Z.of_nat 4) with 4. change (0 <=? 4) with true. cbn [guard bind].
    unfold SPX_WOTS_W. rewrite E. change (2 ^ Z.of_nat 4 - 1) with 15.
    destruct n as [|n]; [reflexivity|].
    cbn [base_w_loop]. change (4 =? 0) with false. cbn match. cbn [bind].
    rewrite E. change (4 - Z.of_nat 4) with 0. change (0 <=? 0) with true. cbn [guard bind].
    rewrite IH by lia. cbn [bind]. unfold SPX_WOTS_W. rewrite E. reflexivity.
  - change (0 + 8 - Z.of_nat 8) with 0. change (0 <=? 0) with true. cbn [guard bind].
    unfold SPX_WOTS_W. rewrite E. change (2 ^ Z.of_nat 8 - 1) with 255.
    rewrite IH by lia. reflexivity.
Qed.

Lemma base_w_ok n inp :
  (n <= length inp * per_byte)%nat ->
  base_w P n inp = Some (firstn n (flat_map byte_digits inp)).
Proof. intros. apply (base_w_loop_ok n inp 0 None). lia. Qed.

Lemma byte_digits_spec b : is_byte b -> byte_digits b = digits W per_byte b.
Proof.
  intros Hb. unfold byte_digits, per_byte, SPX_WOTS_W.
  destruct logw_cases as [-> | ->]; cbn [Nat.eqb]; rewrite ?digits_S, digits_0.
  - change 15 with (Z.ones 4). rewrite !Z.land_ones, Z.shiftr_div_pow2 by lia.
    change (Z.of_nat 1) with 1. change (Z.of_nat 0) with 0.
    change (2 ^ Z.of_nat 4) with 16. change (16 ^ 1) with 16. change (16 ^ 0) with 1.
    now rewrite Z.div_1_r.
  - change 255 with (Z.ones 8). rewrite !Z.land_ones by lia.
    change (2 ^ Z.of_nat 8) with 256. change (256 ^ Z.of_nat 0) with 1. now rewrite Z.div_1_r.
Qed.

Lemma W_per_byte : W ^ Z.of_nat per_byte = 256.
Proof. unfold SPX_WOTS_W, per_byte. destruct logw_cases as [-> | ->]; reflexivity. Qed.

Lemma W_pow_bytes k : W ^ Z.of_nat (k * per_byte) = 256 ^ Z.of_nat k.
Proof.
  rewrite Nat.mul_comm, Nat2Z.inj_mul, Z.pow_mul_r by lia. now rewrite W_per_byte.
Qed.

Lemma flat_digits_spec inp : all_bytes inp ->
  flat_map byte_digits inp = digits W (length inp * per_byte) (be_val inp).
Proof.
  pose proof W_pos as HW.
  induction 1 as [|b inp Hb Hi IH]; cbn [flat_map length be_val]; [reflexivity|].
  cbn [Nat.mul]. rewrite <- W_pow_bytes, digits_app.
  - now rewrite byte_digits_spec, IH.
  - lia.
  - rewrite W_pow_bytes. now apply be_val_bound.
Qed.

Lemma len1_eq : SPX_WOTS_LEN1 P = (N * per_byte)%nat.
Proof.
  unfold SPX_WOTS_LEN1, per_byte. destruct logw_cases as [-> | ->]; cbn [Nat.eqb].
  - replace (8 * N)%nat with ((N * 2) * 4)%nat by lia. now rewrite Nat.div_mul.
  - rewrite Nat.mul_comm, Nat.div_mul; lia.
Qed.

Lemma base_w_msg msg : length msg = N ->
  base_w P (SPX_WOTS_LEN1 P) msg = Some (flat_map byte_digits msg).
Proof.
  intros Hl. rewrite base_w_ok by (rewrite len1_eq; lia).
  rewrite firstn_all2; auto. rewrite flat_digits_length, len1_eq. lia.
Qed.

Lemma byte_digits_range b : Forall (fun d => 0 <= d < W) (byte_digits b).
Proof.
  unfold byte_digits, SPX_WOTS_W. destruct logw_cases as [-> | ->]; cbn [Nat.eqb].
  - change 15 with (Z.ones 4). rewrite !Z.land_ones by lia.
    repeat constructor; apply Z.mod_pos_bound; lia.
  - change 255 with (Z.ones 8). rewrite !Z.land_ones by lia.
    repeat constructor; apply Z.mod_pos_bound; lia.
Qed.

Lemma flat_digits_range inp : Forall (fun d => 0 <= d < W) (flat_map byte_digits inp).
Proof.
  induction inp as [|b inp IH]; cbn [flat_map]; [constructor|].
  apply Forall_app. split; auto using byte_digits_range.
Qed.

(** ** Checksum *)
Lemma sum_csum_bound ds : Forall (fun d => 0 <= d < W) ds ->
  0 <= wots_csum (dims_of P) ds <= Z.of_nat (length ds) * (W - 1).
Proof.
  unfold wots_csum. cbn [dims_of s_w].
  induction 1 as [|d ds Hd Hds IH]; cbn [map sumZ length]; [lia|].
  rewrite Nat2Z.inj_succ. nia.
Qed.

Lemma W_le_256 : W <= 256.
Proof. unfold SPX_WOTS_W. destruct logw_cases as [-> | ->]; vm_compute; discriminate. Qed.

Lemma csum_fold ds acc :
  Forall (fun d => 0 <= d < W) ds -> 0 <= acc -> acc + Z.of_nat (length ds) * (W - 1) < 2 ^ 32 ->
  fold_left (fun csum d => u32 (csum + u32 (W - 1 - d))) ds acc
  = acc + wots_csum (dims_of P) ds.
Proof.
  pose proof W_pos. pose proof W_le_256.
  intros Hds. revert acc. induction Hds as [|d ds Hd Hds IH]; intros acc Ha Hb;
    cbn [fold_left length] in *.
  - unfold wots_csum. cbn. lia.
  - assert (E : u32 (W - 1 - d) = W - 1 - d) by (apply Z.mod_small; lia). rewrite E.
    rewrite Nat2Z.inj_succ in Hb.
    assert (E2 : u32 (acc + (W - 1 - d)) = acc + (W - 1 - d)) by (apply Z.mod_small; nia).
    rewrite E2, IH by nia. unfold wots_csum. cbn [map sumZ dims_of s_w]. lia.
Qed.

Lemma len2_cases :
  (LOGW = 8%nat /\ (N <= 1)%nat /\ SPX_WOTS_LEN2 P = 1%nat)
  \/ (LOGW = 8%nat /\ (N <= 256)%nat /\ SPX_WOTS_LEN2 P = 2%nat)
  \/ (LOGW = 4%nat /\ (N <= 8)%nat /\ SPX_WOTS_LEN2 P = 2%nat)
  \/ (LOGW = 4%nat /\ (N <= 136)%nat /\ SPX_WOTS_LEN2 P = 3%nat)
  \/ (LOGW = 4%nat /\ (N <= 256)%nat /\ SPX_WOTS_LEN2 P = 4%nat).
Proof.
  pose proof wf_n. unfold SPX_WOTS_LEN2, wots_len2_table.
  destruct logw_cases as [-> | ->]; cbn [Nat.eqb].
  - destruct (Nat.leb_spec N 8); [tauto|]. destruct (Nat.leb_spec N 136); [tauto|].
    destruct (Nat.leb_spec N 256); [tauto|lia].
  - destruct (Nat.leb_spec N 1); [tauto|]. destruct (Nat.leb_spec N 256); [tauto|lia].
Qed.

(** The checksum always fits its LEN2 digits. *)
Lemma csum_fits ds : length ds = SPX_WOTS_LEN1 P -> Forall (fun d => 0 <= d < W) ds ->
  0 <= wots_csum (dims_of P) ds < W ^ Z.of_nat (SPX_WOTS_LEN2 P).
Proof.
  intros Hl Hds. pose proof (sum_csum_bound ds Hds) as Hb. rewrite Hl, len1_eq in Hb.
  split; [lia|]. eapply Z.le_lt_trans; [apply Hb|].
  unfold per_byte, SPX_WOTS_W.
  destruct len2_cases as [(-> & Hn & ->)|[(-> & Hn & ->)|[(-> & Hn & ->)|[(-> & Hn & ->)|(-> & Hn & ->)]]]];
    cbn [Nat.eqb].
  all: rewrite Nat2Z.inj_mul;
    match goal with |- context[2 ^ Z.of_nat ?k] =>
      let v := eval vm_compute in (2 ^ Z.of_nat k) in change (2 ^ Z.of_nat k) with v end;
    match goal with |- _ < ?a ^ Z.of_nat ?k =>
      let v := eval vm_compute in (a ^ Z.of_nat k) in change (a ^ Z.of_nat k) with v end;
    lia.
Qed.

Lemma firstn_digits_app w a e hi lo :
  0 < w -> 0 <= lo < w ^ Z.of_nat e ->
  firstn a (digits w (a + e) (hi * w ^ Z.of_nat e + lo)) = digits w a hi.
Proof.
  intros. rewrite digits_app by auto. apply firstn_app_len. apply digits_length.
Qed.

Lemma be_val_ull k v : be_val (ull_to_bytes k v) = v mod 256 ^ Z.of_nat k.
Proof. clear.
  rewrite ull_to_bytes_eq.
  induction k as [|k IH]; [cbn; now rewrite Z.mod_1_r|].
  cbn [seq map be_val]. rewrite map_length, seq_length.
  rewrite <- seq_shift, map_map.
  rewrite (map_ext_in _ (fun j => byte_of v (Z.of_nat (k - 1 - j)))).
  2:{ intros j Hj. apply in_seq in Hj. f_equal. f_equal. lia. }
  rewrite IH. replace (S k - 1 - 0)%nat with k by lia.
  rewrite Nat2Z.inj_succ, Z.pow_succ_r by lia. unfold byte_of.
  rewrite (Z.mul_comm 256), Z.rem_mul_r by (try apply Z.pow_nonzero; lia). lia.
Qed.

Lemma ull_bytes k v : all_bytes (ull_to_bytes k v).
Proof.
  rewrite ull_to_bytes_eq. apply Forall_forall. intros x Hx. apply in_map_iff in Hx.
  destruct Hx as (j & <- & _). apply byte_of_range.
Qed.

Lemma ull_length k v : length (ull_to_bytes k v) = k.
Proof. rewrite ull_to_bytes_eq. now rewrite map_length, seq_length. Qed.

Lemma wots_checksum_ok ds :
  length ds = SPX_WOTS_LEN1 P -> Forall (fun d => 0 <= d < W) ds ->
  wots_checksum P ds = Some (digits W (SPX_WOTS_LEN2 P) (wots_csum (dims_of P) ds)).
Proof.
  intros Hl Hds. unfold wots_checksum. rewrite Hl, Nat.eqb_refl. cbn [guard bind].
  pose proof W_pos as HW. pose proof W_le_256 as HW2. pose proof wf_n as Hn.
  unfold csum_of. rewrite csum_fold; [|auto|lia|].
  2:{ rewrite Hl, len1_eq. unfold per_byte. destruct (LOGW =? 4)%nat; nia. }
  rewrite Z.add_0_l.
  pose proof (csum_fits ds Hl Hds) as Hc.
  set (cs := wots_csum (dims_of P) ds) in *.
  rewrite Z.shiftl_mul_pow2 by lia.
  set (l2 := SPX_WOTS_LEN2 P) in *.
  set (k := ((l2 * LOGW + 7) / 8)%nat). set (sh := ((8 - (l2 * LOGW) mod 8) mod 8)%nat).
  (* the shift is e digits, filling up k bytes *)
  assert (exists e, 2 ^ Z.of_nat sh = W ^ Z.of_nat e /\ (l2 + e = k * per_byte)%nat /\ (k <= 3)%nat)
    as (e & He & Hlen & Hk).
  { unfold k, sh, per_byte, SPX_WOTS_W.
    destruct len2_cases as [(-> & _ & E)|[(-> & _ & E)|[(-> & _ & E)|[(-> & _ & E)|(-> & _ & E)]]]];
      unfold l2; rewrite E.
    1,2,3,5: exists 0%nat; vm_compute; repeat split; auto.
    exists 1%nat; vm_compute; repeat split; auto. }
  rewrite He.
  assert (Hp : 0 < W ^ Z.of_nat e) by (apply Z.pow_pos_nonneg; lia).
  assert (Hfit : 0 <= cs * W ^ Z.of_nat e < 256 ^ Z.of_nat k).
  { rewrite <- W_pow_bytes, <- Hlen, Nat2Z.inj_add, Z.pow_add_r by lia. nia. }
  assert (E32 : u32 (cs * W ^ Z.of_nat e) = cs * W ^ Z.of_nat e).
  { apply Z.mod_small. split; [lia|]. eapply Z.lt_trans; [apply Hfit|].
    apply Z.le_lt_trans with (256 ^ 3); [apply Z.pow_le_mono_r; lia|]. reflexivity. }
  rewrite E32. rewrite base_w_ok by (rewrite ull_length; lia).
  rewrite flat_digits_spec by apply ull_bytes.
  rewrite be_val_ull, ull_length, Z.mod_small by auto.
  rewrite <- Hlen. f_equal.
  rewrite <- (Z.add_0_r (cs * W ^ Z.of_nat e)). apply firstn_digits_app; lia.
Qed.

(** Total on any N entries, byte-valued or not. *)
Lemma chain_lengths_total msg : length msg = N ->
  exists ls, chain_lengths P msg = Some ls /\ length ls = SPX_WOTS_LEN P
    /\ Forall (fun l => 0 <= l < W) ls.
Proof.
  intros Hl. pose proof W_pos. unfold chain_lengths. rewrite base_w_msg by auto. cbn [bind].
  rewrite wots_checksum_ok; [|now rewrite flat_digits_length, len1_eq; lia|apply flat_digits_range].
  cbn [bind]. eexists. split; [reflexivity|]. split.
  - rewrite app_length, digits_length, flat_digits_length, Hl, <- len1_eq. reflexivity.
  - apply Forall_app. split; [apply flat_digits_range|apply digits_range; lia].
Qed.

Lemma chain_lengths_ok msg : length msg = N -> all_bytes msg ->
  chain_lengths P msg = Some (wots_lengths (dims_of P) msg).
Proof.
  intros Hl Hb. unfold chain_lengths. rewrite base_w_msg by auto. cbn [bind].
  rewrite wots_checksum_ok; [|now rewrite flat_digits_length, len1_eq; lia|apply flat_digits_range].
  cbn [bind]. f_equal. unfold wots_lengths, wots_msg_digits. cbn [dims_of s_w s_len1 s_len2].
  rewrite flat_digits_spec by auto. rewrite Hl, <- len1_eq. reflexivity.
Qed.
End Digits.
