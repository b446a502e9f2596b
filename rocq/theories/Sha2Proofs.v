(** The code of sha2.c computes FIPS 180-4, MGF1; and the incremental interface computes the hash of the
    concatenation. *)
From Verif Require Import Base BaseFacts Address ShakeProofs Sha2Spec Sha2 Sha2Facts.

(** ** Loads and stores *)
Lemma get_skipn {A} (x : list A) o i : get x (o + i) = get (skipn o x) i.
Proof. unfold get. revert x; induction o as [|o IH]; intros [|a x]; cbn; auto. now destruct i. Qed.
Lemma get_skipn0 {A} (x : list A) o : get x o = get (skipn o x) 0.
Proof. rewrite <- get_skipn. f_equal. lia. Qed.

Lemma load32_ok x o : (o + 4 <= length x)%nat ->
  load_bigendian_32 x o = Some (be_num (norm (firstn 4 (skipn o x)))).
Proof.
  intros H. unfold load_bigendian_32. rewrite !(get_skipn x o), (get_skipn0 x o).
  assert (L : (4 <= length (skipn o x))%nat) by (rewrite skipn_length; lia).
  revert L. generalize (skipn o x). clear. intros x L.
  destruct x as [|x0 [|x1 [|x2 [|x3 x]]]]; cbn [length] in L; try lia. clear L.
  cbn [get nth_error bind firstn map]. f_equal.
  pose proof (u8_byte x0). pose proof (u8_byte x1). pose proof (u8_byte x2). pose proof (u8_byte x3).
  unfold is_byte in *. revert H H0 H1 H2. generalize (u8 x0), (u8 x1), (u8 x2), (u8 x3). clear. intros a b c d Ha Hb Hc Hd.
  cbn [be_num length]. cbn [Z.of_nat Pos.of_succ_nat].
  change (256 ^ 3) with (2 ^ 24). change (256 ^ 2) with (2 ^ 16). change (256 ^ 1) with (2 ^ 8). change (256 ^ 0) with 1.
  rewrite (lor_disjoint d c 8) by lia. rewrite (lor_disjoint _ b 16) by lia. rewrite (lor_disjoint _ a 24) by lia. lia.
Qed.
Lemma load64_be x o : (o + 8 <= length x)%nat ->
  load_bigendian_64 x o = Some (be_num (norm (firstn 8 (skipn o x)))).
Proof.
  intros H. unfold load_bigendian_64. rewrite !(get_skipn x o), (get_skipn0 x o).
  assert (L : (8 <= length (skipn o x))%nat) by (rewrite skipn_length; lia).
  revert L. generalize (skipn o x). clear. intros x L.
  destruct x as [|x0 [|x1 [|x2 [|x3 [|x4 [|x5 [|x6 [|x7 x]]]]]]]]; cbn [length] in L; try lia. clear L.
  cbn [get nth_error bind firstn map]. f_equal.
  pose proof (u8_byte x0) as H0. pose proof (u8_byte x1) as H1. pose proof (u8_byte x2) as H2. pose proof (u8_byte x3) as H3.
  pose proof (u8_byte x4) as H4. pose proof (u8_byte x5) as H5. pose proof (u8_byte x6) as H6. pose proof (u8_byte x7) as H7.
  unfold is_byte in *. revert H0 H1 H2 H3 H4 H5 H6 H7.
  generalize (u8 x0), (u8 x1), (u8 x2), (u8 x3), (u8 x4), (u8 x5), (u8 x6), (u8 x7).
  clear. intros a b c d e f g h Ha Hb Hc Hd He Hf Hg Hh.
  cbn [be_num length]. cbn [Z.of_nat Pos.of_succ_nat].
  change (256 ^ 3) with (2 ^ 24). change (256 ^ 2) with (2 ^ 16). change (256 ^ 1) with (2 ^ 8). change (256 ^ 0) with 1.
  cbn [Pos.succ]. change (256 ^ 4) with (2 ^ 32). change (256 ^ 5) with (2 ^ 40). change (256 ^ 6) with (2 ^ 48). change (256 ^ 7) with (2 ^ 56).
  rewrite (lor_disjoint h g 8) by lia. rewrite (lor_disjoint _ f 16) by lia. rewrite (lor_disjoint _ e 24) by lia.
  rewrite (lor_disjoint _ d 32) by lia. rewrite (lor_disjoint _ c 40) by lia. rewrite (lor_disjoint _ b 48) by lia.
  rewrite (lor_disjoint _ a 56) by lia. lia.
Qed.
Lemma store_loop_ok k : forall u acc, store_bigendian_loop k u acc = be_bytes k u ++ acc.
Proof.
  induction k as [|k IH]; intros u acc; cbn [store_bigendian_loop]; [reflexivity|].
  rewrite IH, be_bytes_snoc, <- app_assoc. rewrite Z.shiftr_div_pow2 by lia. reflexivity.
Qed.
Lemma store_ok k u : store_bigendian k u = be_bytes k u.
Proof. unfold store_bigendian. rewrite store_loop_ok. apply app_nil_r. Qed.

(** ** The compression function *)
Section Alg.
Variable A : alg.
Variable B : sha_params.
(** The rounds as 16-line groups separated by EXPAND. *)
Definition group (t : nat) : list step := map (fun i => F i (Kt B (t + i))) (seq 0 16).
Fixpoint prog_of (g t : nat) : list step :=
  match g with
  | O => group t
  | S g' => group t ++ EXPAND :: prog_of g' (t + 16)
  end.
Record agree (g : nat) : Prop := {
  ag_w : a_w A = sw B; ag_wb : a_wb A = swb B;
  ag_pos : (0 < swb B)%nat; ag_bits : sw B = 8 * Z.of_nat (swb B);
  ag_S0 : a_S0 A = sS0 B; ag_S1 : a_S1 A = sS1 B; ag_s0 : a_s0 A = ss0 B; ag_s1 : a_s1 A = ss1 B;
  ag_load : forall x o, (o + swb B <= length x)%nat ->
    a_load A x o = Some (be_num (norm (firstn (swb B) (skipn o x))));
  ag_rounds : srounds B = (16 * S g)%nat;
  ag_prog : a_prog A = prog_of g 0
}.
Variable g : nat.
Hypothesis AG : agree g.
Notation bsz := (Sha2Spec.bsz B).
Let Hwb := ag_pos g AG.
Let Hw := ag_bits g AG.

Lemma pow_pos_w : 0 < 2 ^ sw B.
Proof. apply Z.pow_pos_nonneg; [lia|]. rewrite Hw. lia. Qed.
Lemma uw_add x y : uw A (x + y) = Sha2Spec.add B x y.
Proof. unfold uw, Sha2Spec.add. now rewrite (ag_w g AG). Qed.
Lemma add_l x y : Sha2Spec.add B (x mod 2 ^ sw B) y = Sha2Spec.add B x y.
Proof. unfold Sha2Spec.add. apply Zplus_mod_idemp_l. Qed.
Lemma add_r x y : Sha2Spec.add B x (y mod 2 ^ sw B) = Sha2Spec.add B x y.
Proof. unfold Sha2Spec.add. apply Zplus_mod_idemp_r. Qed.
Lemma ROTR_ok x c : ROTR A x c = rotr B c x.
Proof. unfold ROTR, rotr, uw. now rewrite (ag_w g AG). Qed.
Lemma Ch_ok x y z : Sha2.Ch A x y z = Sha2Spec.Ch B x y z.
Proof.
  unfold Sha2.Ch, Sha2Spec.Ch, uw. rewrite (ag_w g AG). do 2 f_equal.
  rewrite Z.sub_1_r, <- Z.ones_equiv. 
  rewrite <- Z.land_ones by (rewrite Hw; lia).
  rewrite Z.ldiff_land. apply Z.land_comm.
Qed.
Lemma Sigma_ok k x : Sigma A k x = Sig B k x.
Proof. unfold Sigma, Sig. destruct k as [[a b] c]. now rewrite !ROTR_ok. Qed.
Lemma sigma_ok k x : sigma A k x = sig B k x.
Proof. unfold sigma, sig. destruct k as [[a b] c]. now rewrite !ROTR_ok. Qed.

Lemma M_sum a b c d : uw A (a + b + c + d)
  = Sha2Spec.add B (Sha2Spec.add B (Sha2Spec.add B a b) c) d.
Proof.
  rewrite uw_add. rewrite <- (add_l (a + b + c)). f_equal. symmetry. apply (add_l (a + b) c).
Qed.

(** The schedule window. *)
Definition window (M : list Z) (t : nat) : list Z := map (fun i => Wt B M (t + i)) (seq 0 16).
Lemma expand_ok M t : M_lines A (window M t) expand_lines = Some (window M (t + 16)).
Proof.
  unfold window. cbn [map seq].
  assert (R : forall i, uw A (sigma A (a_s1 A) (Wt B M (t + (i + 14))) + Wt B M (t + (i + 9))
    + sigma A (a_s0 A) (Wt B M (t + (i + 1))) + Wt B M (t + i)) = Wt B M (t + (i + 16))).
  { intros i. rewrite !Nat.add_assoc, (Wt_rec B M (t + i)), M_sum, !sigma_ok, (ag_s0 g AG), (ag_s1 g AG). reflexivity. }
  replace (t + 16 + 0)%nat with (t + (0 + 16))%nat by lia.
  replace (t + 16 + 1)%nat with (t + (1 + 16))%nat by lia.
  replace (t + 16 + 2)%nat with (t + (2 + 16))%nat by lia.
  replace (t + 16 + 3)%nat with (t + (3 + 16))%nat by lia.
  replace (t + 16 + 4)%nat with (t + (4 + 16))%nat by lia.
  replace (t + 16 + 5)%nat with (t + (5 + 16))%nat by lia.
  replace (t + 16 + 6)%nat with (t + (6 + 16))%nat by lia.
  replace (t + 16 + 7)%nat with (t + (7 + 16))%nat by lia.
  replace (t + 16 + 8)%nat with (t + (8 + 16))%nat by lia.
  replace (t + 16 + 9)%nat with (t + (9 + 16))%nat by lia.
  replace (t + 16 + 10)%nat with (t + (10 + 16))%nat by lia.
  replace (t + 16 + 11)%nat with (t + (11 + 16))%nat by lia.
  replace (t + 16 + 12)%nat with (t + (12 + 16))%nat by lia.
  replace (t + 16 + 13)%nat with (t + (13 + 16))%nat by lia.
  replace (t + 16 + 14)%nat with (t + (14 + 16))%nat by lia.
  replace (t + 16 + 15)%nat with (t + (15 + 16))%nat by lia.
  set (w := fun i => Wt B M (t + i)).
  change (M_lines A [w 0%nat; w 1%nat; w 2%nat; w 3%nat; w 4%nat; w 5%nat; w 6%nat; w 7%nat; w 8%nat;
     w 9%nat; w 10%nat; w 11%nat; w 12%nat; w 13%nat; w 14%nat; w 15%nat] expand_lines
    = Some [w 16%nat; w 17%nat; w 18%nat; w 19%nat; w 20%nat; w 21%nat; w 22%nat; w 23%nat; w 24%nat;
     w 25%nat; w 26%nat; w 27%nat; w 28%nat; w 29%nat; w 30%nat; w 31%nat]).
  assert (R' : forall i, uw A (sigma A (a_s1 A) (w (i + 14)%nat) + w (i + 9)%nat
    + sigma A (a_s0 A) (w (i + 1)%nat) + w i) = w (i + 16)%nat) by (intros i; apply R).
  pose proof (R' 0%nat) as R0. pose proof (R' 1%nat) as R1. pose proof (R' 2%nat) as R2. pose proof (R' 3%nat) as R3.
  pose proof (R' 4%nat) as R4. pose proof (R' 5%nat) as R5. pose proof (R' 6%nat) as R6. pose proof (R' 7%nat) as R7.
  pose proof (R' 8%nat) as R8. pose proof (R' 9%nat) as R9. pose proof (R' 10%nat) as R10. pose proof (R' 11%nat) as R11.
  pose proof (R' 12%nat) as R12. pose proof (R' 13%nat) as R13. pose proof (R' 14%nat) as R14. pose proof (R' 15%nat) as R15.
  cbn [Nat.add] in R0, R1, R2, R3, R4, R5, R6, R7, R8, R9, R10, R11, R12, R13, R14, R15.
  clearbody w. clear R R'.
  Ltac mline E := cbn [M_lines M_line get nth_error bind]; rewrite E;
    unfold wr at 1; cbn [length Nat.add Nat.leb firstn skipn app bind].
  unfold expand_lines.
  mline R0. mline R1. mline R2. mline R3. mline R4. mline R5. mline R6. mline R7.
  mline R8. mline R9. mline R10. mline R11. mline R12. mline R13. mline R14. mline R15.
  reflexivity.
Qed.

Lemma F_ok M t s w : length s = 8%nat -> w = Wt B M t ->
  F_line A s w (Kt B t) = Some (round1 B M t s).
Proof.
  intros Hs ->. destruct s as [|a [|b [|c [|d [|e [|f [|h0 [|h [|? ?]]]]]]]]]; cbn [length] in Hs; try lia.
  unfold F_line, round1. cbv zeta.
  assert (T1 : uw A (h + Sigma A (a_S1 A) e + Sha2.Ch A e f h0 + Kt B t + Wt B M t)
    = Sha2Spec.add B (Sha2Spec.add B (Sha2Spec.add B (Sha2Spec.add B h (Sig B (sS1 B) e)) (Sha2Spec.Ch B e f h0)) (Kt B t)) (Wt B M t)).
  { rewrite uw_add, Ch_ok, Sigma_ok, (ag_S1 g AG).
    set (x1 := Sig B (sS1 B) e). set (x2 := Sha2Spec.Ch B e f h0). generalize (Kt B t), (Wt B M t). intros x3 x4.
    rewrite <- (add_l (h + x1 + x2 + x3)). f_equal. symmetry.
    change ((h + x1 + x2 + x3) mod 2 ^ sw B) with (Sha2Spec.add B (h + x1 + x2) x3).
    rewrite <- (add_l (h + x1 + x2)). f_equal. 
    change ((h + x1 + x2) mod 2 ^ sw B) with (Sha2Spec.add B (h + x1) x2).
    rewrite <- (add_l (h + x1)). reflexivity. }
  rewrite T1, !uw_add, Sigma_ok, (ag_S0 g AG). reflexivity.
Qed.

Lemma exec_group M t p : forall n i s, (n + i = 16)%nat -> length s = 8%nat ->
  exec A (map (fun i => F i (Kt B (t + i))) (seq i n) ++ p) (window M t) s
  = exec A p (window M t) (rounds B M n (t + i) s).
Proof.
  induction n as [|n IH]; intros i s Hn Hs; cbn [seq map app rounds]; [reflexivity|].
  cbn [exec]. unfold get, window at 1. rewrite nth_error_map_seq by lia. cbn [bind].
  rewrite (F_ok M (t + i) s) by (auto; f_equal; lia). cbn [bind].
  rewrite IH by (rewrite ?round1_length; lia). f_equal. f_equal. lia.
Qed.
Lemma exec_prog M : forall k t s, length s = 8%nat ->
  exec A (prog_of k t) (window M t) s = Some (rounds B M (16 * S k) t s).
Proof.
  induction k as [|k IH]; intros t s Hs; cbn [prog_of].
  - unfold group. rewrite <- (app_nil_r (map _ _)). rewrite exec_group by (auto; lia).
    cbn [exec]. now rewrite Nat.add_0_r.
  - unfold group. rewrite exec_group by (auto; lia). rewrite Nat.add_0_r. cbn [exec].
    rewrite expand_ok. cbn [bind]. rewrite IH by (rewrite rounds_length; lia).
    f_equal. replace (16 * S (S k))%nat with (16 + 16 * S k)%nat by lia. now rewrite rounds_app.
Qed.

(** ** Loading words *)
Lemma load_words_ok k x : forall o, (o + k * swb B <= length x)%nat ->
  load_words A k x o = Some (Sha2Spec.words B k (norm (skipn o x))).
Proof.
  induction k as [|k IH]; intros o Ho; cbn [load_words words]; [reflexivity|].
  rewrite (ag_load g AG) by lia. cbn [bind]. rewrite (ag_wb g AG), IH by lia. cbn [bind].
  f_equal. f_equal.
  - now rewrite firstn_map.
  - now rewrite skipn_map, skipn_skipn, (Nat.add_comm o).
Qed.
Lemma window_0 M : length M = 16%nat -> window M 0 = M.
Proof.
  intros HM. apply nth_ext with (d := 0) (d' := 0).
  - unfold window. now rewrite map_length, seq_length.
  - unfold window. rewrite map_length, seq_length. intros i Hi.
    rewrite (nth_indep _ 0 (Wt B M (0 + 0))) by (rewrite map_length, seq_length; lia).
    rewrite (map_nth (fun i => Wt B M (0 + i))), seq_nth by lia. cbn [Nat.add]. now apply Wt_lt.
Qed.

(** ** crypto_hashblocks *)
Lemma loop_ok fuel : forall H inp o inlen, (inlen < fuel)%nat -> length H = 8%nat ->
  (o + inlen / bsz * bsz <= length inp)%nat ->
  hashblocks_loop A fuel H H inp o inlen
  = Some (chain_blocks B (inlen / bsz) H (norm (skipn o inp))).
Proof.
  assert (Hb := bsz_pos B Hwb).
  assert (Eb : a_bsz A = bsz) by (unfold a_bsz, Sha2Spec.bsz; now rewrite (ag_wb g AG)).
  induction fuel as [|fuel IH]; intros H inp o inlen Hf HH Ho; [lia|].
  cbn [hashblocks_loop]. rewrite Eb. destruct (Nat.ltb_spec inlen bsz) as [L|L].
  - rewrite Nat.div_small by lia. reflexivity.
  - assert (D : (inlen / bsz = S ((inlen - bsz) / bsz))%nat).
    { replace inlen with (inlen - bsz + 1 * bsz)%nat at 1 by lia. rewrite Nat.div_add by lia. lia. }
    rewrite D in *. cbn [Nat.mul] in Ho.
    assert (Ho16 : (o + 16 * swb B <= length inp)%nat).
    { change (16 * swb B)%nat with bsz. revert Ho. generalize ((inlen - bsz) / bsz * bsz)%nat. clear. intros. lia. }
    rewrite load_words_ok by exact Ho16. cbn [bind].
    rewrite (ag_prog g AG).
    set (M := Sha2Spec.words B 16 (norm (skipn o inp))).
    assert (HM : length M = 16%nat) by (unfold M; apply words_length).
    rewrite <- (window_0 M HM) at 1. rewrite exec_prog by auto. cbn [bind].
    assert (C : add_state A (rounds B M (16 * S g) 0 H) H = compress B H M).
    { unfold add_state, compress. rewrite <- (ag_rounds g AG). apply map_ext. intros [a b]. cbn [fst snd].
      apply uw_add. }
    rewrite C. cbv zeta. rewrite IH; [|lia| |].
    + cbn [chain_blocks]. f_equal. f_equal.
      * unfold M. f_equal. symmetry. apply words_firstn. unfold Sha2Spec.bsz. lia.
      * now rewrite skipn_map, skipn_skipn, (Nat.add_comm o).
    + apply (compress_value B Hwb Hw). exact HH.
    + revert Ho. generalize ((inlen - bsz) / bsz * bsz)%nat. clear. intros. lia.
Qed.

Lemma unwords_store H : flat_map (store_bigendian (a_wb A)) H = unwords B H.
Proof. unfold unwords. rewrite (ag_wb g AG). induction H as [|x H IH]; cbn [flat_map]; [reflexivity|]. now rewrite IH, store_ok. Qed.

Lemma hashblocks_ok H r inp o inlen : hash_value B H ->
  (o + inlen / bsz * bsz <= length inp)%nat ->
  hashblocks A (unwords B H ++ r) inp o inlen
  = Some (unwords B (chain_blocks B (inlen / bsz) H (norm (skipn o inp))) ++ r).
Proof.
  intros (HL & HW) Ho. unfold hashblocks.
  assert (LU := unwords_length B H).
  rewrite load_words_ok by (rewrite app_length; lia). cbn [skipn bind].
  rewrite map_app, norm_bytes by apply unwords_all. rewrite <- HL at 1 2. 
  rewrite (words_unwords B Hwb Hw) by auto. 
  rewrite loop_ok by (auto; lia). cbn [bind]. rewrite unwords_store.
  apply wr_app0. rewrite !unwords_length. f_equal. rewrite HL.
  apply (chain_value B Hwb Hw). split; auto.
Qed.

(** ** The incremental state: chaining value and byte count *)
Definition inc_state (H : list Z) (c : Z) : bytes := unwords B H ++ be_bytes 8 c.
Lemma inc_counter H c : hash_value B H ->
  load_bigendian_64 (inc_state H c) (8 * swb B) = Some (u64 c).
Proof. clear.
  intros (HL & _). unfold inc_state. assert (LU := unwords_length B H). rewrite HL in LU.
  rewrite load64_be by (rewrite app_length, be_bytes_length; lia).
  rewrite skipn_app, skipn_all2 by lia. replace (8 * swb B - length (unwords B H))%nat with O by lia.
  cbn [skipn app]. rewrite firstn_all2 by (rewrite be_bytes_length; lia).
  rewrite norm_bytes by apply be_bytes_all. rewrite be_num_bytes. reflexivity.
Qed.
Lemma be8_u64 c : be_bytes 8 (u64 c) = be_bytes 8 c.
Proof. clear. exact (be_bytes_mod 8 c). Qed.
Lemma set_counter H c c' : hash_value B H ->
  wr (inc_state H c) (8 * swb B) (be_bytes 8 c') = Some (inc_state H c').
Proof. clear.
  intros (HL & _). unfold inc_state. apply wr_app_r; [|now rewrite !be_bytes_length].
  rewrite unwords_length, HL. lia.
Qed.

Lemma inc_blocks_ok H c inp k : hash_value B H -> (k * bsz <= length inp)%nat ->
  (n <- load_bigendian_64 (inc_state H c) (8 * swb B) ;;
   state <- hashblocks A (inc_state H c) inp 0 (bsz * k) ;;
   wr state (8 * swb B) (store_bigendian 8 (u64 (n + Z.of_nat bsz * Z.of_nat k))))
  = Some (inc_state (chain_blocks B k H (norm inp)) (c + Z.of_nat (k * bsz))).
Proof.
  intros HH Hk. assert (Hb := bsz_pos B Hwb).
  rewrite inc_counter by auto. cbn [bind].
  assert (D : (bsz * k / bsz = k)%nat) by (rewrite Nat.mul_comm; apply Nat.div_mul; lia).
  unfold inc_state at 1. rewrite hashblocks_ok by (rewrite ?D; auto; lia). rewrite D. cbn [bind skipn].
  rewrite store_ok. change (unwords B ?x ++ be_bytes 8 c) with (inc_state x c).
  rewrite set_counter by (apply (chain_value B Hwb Hw); auto).
  f_equal. unfold inc_state. f_equal. rewrite be8_u64. rewrite <- be8_u64.
  replace (u64 (u64 c + Z.of_nat bsz * Z.of_nat k)) with (u64 (c + Z.of_nat (k * bsz))).
  - apply be8_u64.
  - unfold u64. rewrite Zplus_mod_idemp_l. f_equal. lia.
Qed.

(** The final blocks: [pb] is what remains of the message, padded, at the start of the buffer. *)
Lemma final_blocks H r inp rest pb junkb k c c' : hash_value B H ->
  rest = (length inp mod bsz)%nat ->
  pb = skipn (length inp - rest) inp ++ pad_to B (length inp) c' ->
  (8 * c') mod 256 ^ Z.of_nat (2 * swb B) = (8 * c) mod 256 ^ Z.of_nat (2 * swb B) ->
  length pb = (k * bsz)%nat ->
  (state <- hashblocks A (unwords B H ++ r) inp 0 (length inp) ;;
   state <- hashblocks A state (pb ++ junkb) 0 (k * bsz) ;;
   rd state 0 (8 * swb B))
  = Some (hash_from B H c (norm inp)).
Proof.
  intros HH -> Epb Hc Hk. assert (Hb := bsz_pos B Hwb).
  assert (EP : pad_to B (length inp) c' = pad_to B (length inp) c).
  { unfold pad_to. do 2 f_equal. rewrite <- be_bytes_mod, Hc. apply be_bytes_mod. }
  rewrite EP in Epb. clear EP Hc c'.
  pose proof (Nat.div_mod (length inp) bsz ltac:(lia)) as D.
  pose proof (Nat.mod_upper_bound (length inp) bsz ltac:(lia)) as U.
  assert (D' : (length inp - length inp mod bsz = length inp / bsz * bsz)%nat).
  { rewrite (Nat.mul_comm _ bsz). revert D. generalize (bsz * (length inp / bsz))%nat. clear. intros. lia. }
  assert (Q : (0 + length inp / bsz * bsz <= length inp)%nat) by (cbn [Nat.add]; rewrite <- D'; clear; lia).
  rewrite D' in Epb.
  rewrite hashblocks_ok by auto. cbn [bind skipn].
  rewrite hashblocks_ok.
  2:{ apply (chain_value B Hwb Hw); auto. }
  2:{ rewrite Nat.div_mul, app_length by lia. lia. }
  cbn [bind skipn]. rewrite Nat.div_mul by lia.
  rewrite rd_app0.
  2:{ rewrite unwords_length. f_equal. symmetry. do 2 apply (chain_value B Hwb Hw). auto. }
  f_equal. unfold hash_from. f_equal.
  set (q := (length inp / bsz)%nat) in *.
  assert (Hq : length (firstn (q * bsz) inp) = (q * bsz)%nat) by (rewrite firstn_length; clear - Q; lia).
  assert (PB : norm inp ++ pad_to B (length (norm inp)) c = norm (firstn (q * bsz) inp) ++ norm pb).
  { rewrite Epb, map_app, app_assoc, <- map_app, firstn_skipn, map_length. f_equal. symmetry. apply norm_bytes.
    unfold pad_to. repeat (apply Forall_app; split).
    - constructor; [|constructor]. unfold is_byte. lia.
    - apply all_zeros.
    - apply be_bytes_all. }
  rewrite PB. rewrite app_length, !map_length, Hq, Hk. rewrite <- Nat.mul_add_distr_r, Nat.div_mul by lia.
  rewrite chain_app by (now rewrite map_length).
  rewrite map_app, chain_prefix by (now rewrite map_length).
  f_equal. rewrite <- (firstn_skipn (q * bsz) inp) at 1. rewrite map_app. apply chain_prefix. now rewrite map_length.
Qed.
End Alg.

(** ** The two instances *)
Lemma agree256 : agree alg256 SHA256p 3.
Proof.
  constructor; [reflexivity|reflexivity|cbn; lia|reflexivity|reflexivity|reflexivity|reflexivity|reflexivity
    |exact load32_ok|reflexivity|vm_compute; reflexivity].
Qed.
Lemma agree512 : agree alg512 SHA512p 4.
Proof.
  constructor; [reflexivity|reflexivity|cbn; lia|reflexivity|reflexivity|reflexivity|reflexivity|reflexivity
    |exact load64_be|reflexivity|vm_compute; reflexivity].
Qed.
Lemma iv256_ok : iv_256 = unwords SHA256p (H0 SHA256p).
Proof. vm_compute. reflexivity. Qed.
Lemma iv512_ok : iv_512 = unwords SHA512p (H0 SHA512p).
Proof. vm_compute. reflexivity. Qed.
Lemma H0_value B : 0 <= sw B -> hash_value B (H0 B).
Proof.
  intros Hw. unfold H0, hash_value. rewrite map_length. split; [vm_compute; reflexivity|].
  generalize (firstn 8 primes). intros l. induction l as [|p l IH]; constructor; auto.
  apply Z.mod_pos_bound, Z.pow_pos_nonneg; lia.
Qed.
Lemma H0_value_256 : hash_value SHA256p (H0 SHA256p).
Proof. apply H0_value. cbn. lia. Qed.
Lemma H0_value_512 : hash_value SHA512p (H0 SHA512p).
Proof. apply H0_value. cbn. lia. Qed.

#[local] Opaque H0 chain_blocks hashblocks unwords hash_from.

Lemma init256_ok : sha256_inc_init = inc_state SHA256p (H0 SHA256p) 0.
Proof. unfold sha256_inc_init, inc_state. rewrite iv256_ok, be_bytes_0. reflexivity. Qed.
Lemma init512_ok : sha512_inc_init = inc_state SHA512p (H0 SHA512p) 0.
Proof. unfold sha512_inc_init, inc_state. rewrite iv512_ok, be_bytes_0. reflexivity. Qed.

Lemma blocks256_ok H c inp k : hash_value SHA256p H -> (64 * k <= length inp)%nat ->
  sha256_inc_blocks (inc_state SHA256p H c) inp k
  = Some (inc_state SHA256p (chain_blocks SHA256p k H (norm inp)) (c + Z.of_nat (k * 64))).
Proof. intros HH Hk. apply (inc_blocks_ok alg256 SHA256p 3 agree256); auto. change (bsz SHA256p) with 64%nat. lia. Qed.
Lemma blocks512_ok H c inp k : hash_value SHA512p H -> (128 * k <= length inp)%nat ->
  sha512_inc_blocks (inc_state SHA512p H c) inp k
  = Some (inc_state SHA512p (chain_blocks SHA512p k H (norm inp)) (c + Z.of_nat (k * 128))).
Proof. intros HH Hk. apply (inc_blocks_ok alg512 SHA512p 4 agree512); auto. change (bsz SHA512p) with 128%nat. lia. Qed.

(** The length field. *)
Lemma u8_shiftr n k : 3 <= k -> u8 (Z.shiftr n k) = (8 * n / 2 ^ (k + 3)) mod 256.
Proof.
  intros Hk. unfold u8. f_equal. rewrite Z.shiftr_div_pow2 by lia. rewrite Z.add_comm, Z.pow_add_r by lia.
  rewrite Z.div_mul_cancel_l; [reflexivity| |lia]. apply Z.pow_nonzero; lia.
Qed.
Lemma len_bytes_ok n : len_bytes n = be_bytes 8 (8 * n).
Proof.
  unfold len_bytes. rewrite !u8_shiftr by lia. unfold be_bytes. cbn [seq map].
  assert (E : u8 (u64 (Z.shiftl n 3)) = (8 * n / 256 ^ Z.of_nat (8 - 1 - 7)) mod 256).
  { change (256 ^ Z.of_nat (8 - 1 - 7)) with 1. rewrite Z.div_1_r, Z.shiftl_mul_pow2 by lia.
    unfold u8, u64. rewrite (Z.mul_comm n). change (2 ^ 3) with 8. change (2 ^ 64) with (256 * 2 ^ 56).
    rewrite Z.rem_mul_r by (try apply Z.pow_nonzero; lia). rewrite (Z.mul_comm 256), Z.mod_add by lia. apply Z.mod_mod. lia. }
  rewrite E. reflexivity.
Qed.
Lemma len_bytes9_ok n : u8 (Z.shiftr n 61) :: len_bytes n = be_bytes 9 (8 * n).
Proof.
  change 9%nat with (1 + 8)%nat. rewrite be_bytes_wide, len_bytes_ok, u8_shiftr by lia. 
  unfold be_bytes at 2. cbn [seq map app]. change (256 ^ Z.of_nat (1 - 1 - 0)) with 1. now rewrite Z.div_1_r.
Qed.
Lemma len16_ok n : 0 <= n < 2 ^ 64 -> be_bytes 16 (8 * n) = repeat 0 7 ++ be_bytes 9 (8 * n).
Proof.
  intros Hn. change 16%nat with (7 + 9)%nat. rewrite be_bytes_wide. f_equal.
  rewrite Z.div_small; [reflexivity|]. change (256 ^ Z.of_nat 9) with (2 ^ 72). lia.
Qed.

Lemma wr_seq pre R d : (length d <= length R)%nat ->
  wr (pre ++ R) (length pre) d = Some ((pre ++ d) ++ skipn (length d) R).
Proof.
  intros H. rewrite <- (firstn_skipn (length d) R) at 1. rewrite wr_app by (rewrite firstn_length; lia).
  now rewrite app_assoc.
Qed.
Lemma wr_seq' pre R d i : i = length pre -> (length d <= length R)%nat ->
  wr (pre ++ R) i d = Some ((pre ++ d) ++ skipn (length d) R).
Proof. intros ->. apply wr_seq. Qed.

Lemma pad_buffer {X} J tail rest z lb (k : bytes -> option X) : length tail = rest -> (rest < z)%nat ->
  (z + length lb <= length J)%nat ->
  (p <- wr J 0 tail ;; p <- wr p rest [0x80] ;; p <- fill p (rest + 1) z ;; p <- wr p z lb ;; k p)
  = k ((tail ++ [0x80] ++ repeat 0 (z - (rest + 1)) ++ lb) ++ skipn (z + length lb) J).
Proof.
  intros Ht Hz HJ.
  change (wr J 0 tail) with (wr ([] ++ J) 0 tail). rewrite (wr_seq' [] J tail 0) by (auto; lia). cbn [bind app].
  rewrite wr_seq' by (auto; rewrite skipn_length; cbn [length]; lia). cbn [bind].
  unfold fill. rewrite wr_seq' by (rewrite ?app_length, ?skipn_length, ?repeat_length; cbn [length]; lia). cbn [bind].
  rewrite wr_seq' by (rewrite ?app_length, ?skipn_length, ?repeat_length; cbn [length]; lia). cbn [bind].
  rewrite <- !app_assoc. rewrite !skipn_skipn, repeat_length. cbn [length].
  replace (length lb + (z - (rest + 1)) + 1 + length tail)%nat with (z + length lb)%nat by lia.
  cbn [app]. now rewrite <- !app_assoc.
Qed.

Lemma land_63 n : Z.to_nat (Z.land (Z.of_nat n) 63) = (n mod 64)%nat.
Proof. change 63 with (Z.ones 6). rewrite Z.land_ones by lia. change (2 ^ 6) with (Z.of_nat 64). rewrite <- Nat2Z.inj_mod. apply Nat2Z.id. Qed.
Lemma land_127 n : Z.to_nat (Z.land (Z.of_nat n) 127) = (n mod 128)%nat.
Proof. change 127 with (Z.ones 7). rewrite Z.land_ones by lia. change (2 ^ 7) with (Z.of_nat 128). rewrite <- Nat2Z.inj_mod. apply Nat2Z.id. Qed.

Lemma pad256 len c : let rest := (len mod 64)%nat in
  pad_to SHA256p len c = [0x80] ++ repeat 0 ((if (rest <? 56)%nat then 56 else 120) - (rest + 1)) ++ be_bytes 8 (8 * c).
Proof.
  intros rest. assert (Hr : (rest < 64)%nat) by (apply Nat.mod_upper_bound; lia).
  assert (E : len = (len / 64 * 64 + rest)%nat).
  { unfold rest. pose proof (Nat.div_mod len 64 ltac:(lia)). lia. }
  rewrite E at 1. change 64%nat with (bsz SHA256p) at 2. rewrite pad_to_blocks by (cbn; lia).
  unfold pad_to. do 3 f_equal. change (bsz SHA256p) with 64%nat. change (14 * swb SHA256p)%nat with 56%nat.
  destruct (Nat.ltb_spec rest 56) as [L|L].
  - rewrite Z.mod_small by lia. lia.
  - rewrite <- (Z.mod_unique _ (Z.of_nat 64) (-1) (119 - Z.of_nat rest)) by lia. lia.
Qed.
Lemma pad512 len c : 0 <= c < 2 ^ 64 -> let rest := (len mod 128)%nat in
  pad_to SHA512p len c = [0x80] ++ repeat 0 ((if (rest <? 112)%nat then 119 else 247) - (rest + 1)) ++ be_bytes 9 (8 * c).
Proof.
  intros Hc rest. assert (Hr : (rest < 128)%nat) by (apply Nat.mod_upper_bound; lia).
  assert (E : len = (len / 128 * 128 + rest)%nat).
  { unfold rest. pose proof (Nat.div_mod len 128 ltac:(lia)). lia. }
  rewrite E at 1. change 128%nat with (bsz SHA512p) at 2. rewrite pad_to_blocks by (cbn; lia).
  unfold pad_to. change (2 * swb SHA512p)%nat with 16%nat. rewrite len16_ok by exact Hc.
  f_equal. rewrite app_assoc, <- repeat_app. f_equal. f_equal.
  change (bsz SHA512p) with 128%nat. change (14 * swb SHA512p)%nat with 112%nat.
  destruct (Nat.ltb_spec rest 112) as [L|L].
  - rewrite Z.mod_small by lia. lia.
  - rewrite <- (Z.mod_unique _ (Z.of_nat 128) (-1) (239 - Z.of_nat rest)) by lia. lia.
Qed.
Lemma tail_ok (inp : bytes) k : (k <= length inp)%nat ->
  rd inp (length inp - k) k = Some (skipn (length inp - k) inp) /\ length (skipn (length inp - k) inp) = k.
Proof.
  intros H. assert (L : length (skipn (length inp - k) inp) = k) by (rewrite skipn_length; lia).
  split; [|exact L]. rewrite rd_ok by lia. rewrite firstn_all2 by lia. reflexivity.
Qed.
Lemma bind_bind {X Y Z0} (o : option X) (f : X -> option Y) (h : Y -> option Z0) :
  bind (bind o f) h = bind o (fun x => bind (f x) h).
Proof. now destruct o. Qed.

Theorem finalize256_ok junk H c inp : hash_value SHA256p H ->
  sha256_inc_finalize junk (inc_state SHA256p H c) inp
  = Some (hash_from SHA256p H (c + Z.of_nat (length inp)) (norm inp)).
Proof.
  intros HH. unfold sha256_inc_finalize.
  rewrite (inc_counter SHA256p H c HH : load_bigendian_64 _ 32 = _). cbn [bind].
  rewrite land_63. set (n := u64 (u64 c + Z.of_nat (length inp))).
  assert (Hr : (length inp mod 64 < 64)%nat) by (apply Nat.mod_upper_bound; lia).
  assert (Hl : (length inp mod 64 <= length inp)%nat) by (apply Nat.mod_le; lia).
  destruct (tail_ok inp _ Hl) as (T1 & T2).
  assert (Hc : (8 * n) mod 256 ^ Z.of_nat (2 * swb SHA256p)
    = (8 * (c + Z.of_nat (length inp))) mod 256 ^ Z.of_nat (2 * swb SHA256p)).
  { change (256 ^ Z.of_nat (2 * swb SHA256p)) with (2 ^ 64). unfold n, u64.
    rewrite Zplus_mod_idemp_l. apply Zmult_mod_idemp_r. }
  pose proof (pad256 (length inp) n) as PD. cbv zeta in PD.
  destruct (Nat.ltb_spec (length inp mod 64) 56) as [L|L].
  - pose proof (final_blocks alg256 SHA256p 3 agree256 H (be_bytes 8 c) inp _ _ (skipn 64 (junk_bytes junk 128)) 1 _ _ HH eq_refl eq_refl Hc) as FB.
    rewrite <- FB.
    2:{ change (bsz SHA256p) with 64%nat. rewrite PD. rewrite !app_length, T2, repeat_length, be_bytes_length. cbn [length]. lia. }
    change (unwords SHA256p H ++ be_bytes 8 c) with (inc_state SHA256p H c).
    destruct (hashblocks alg256 (inc_state SHA256p H c) inp 0 (length inp)) as [st|]; [|reflexivity]. cbn [bind].
    rewrite T1. cbn [bind].
    assert (PB := pad_buffer (junk_bytes junk 128) (skipn (length inp - length inp mod 64) inp) (length inp mod 64) 56 (len_bytes n)
      (fun p => s <- hashblocks alg256 st p 0 64 ;; rd s 0 32)).
    rewrite len_bytes_ok in *. 
    repeat rewrite bind_bind in *.
    etransitivity; [|etransitivity; [apply PB|]].
    + destruct (wr _ 0 _) as [p|]; [|reflexivity]. cbn [bind]. destruct (wr _ _ _) as [p'|]; [|reflexivity]. cbn [bind].
      destruct (fill _ _ _) as [p1|]; [|reflexivity]. cbn [bind]. destruct (wr p1 _ _); reflexivity.
    + exact T2.
    + lia.
    + rewrite junk_length, be_bytes_length. lia.
    + rewrite PD. change (bsz SHA256p) with 64%nat. rewrite be_bytes_length. reflexivity.
  - pose proof (final_blocks alg256 SHA256p 3 agree256 H (be_bytes 8 c) inp _ _ (skipn 128 (junk_bytes junk 128)) 2 _ _ HH eq_refl eq_refl Hc) as FB.
    rewrite <- FB.
    2:{ change (bsz SHA256p) with 64%nat. rewrite PD. rewrite !app_length, T2, repeat_length, be_bytes_length. cbn [length]. lia. }
    change (unwords SHA256p H ++ be_bytes 8 c) with (inc_state SHA256p H c).
    destruct (hashblocks alg256 (inc_state SHA256p H c) inp 0 (length inp)) as [st|]; [|reflexivity]. cbn [bind].
    rewrite T1. cbn [bind].
    assert (PB := pad_buffer (junk_bytes junk 128) (skipn (length inp - length inp mod 64) inp) (length inp mod 64) 120 (len_bytes n)
      (fun p => s <- hashblocks alg256 st p 0 128 ;; rd s 0 32)).
    rewrite len_bytes_ok in *. 
    repeat rewrite bind_bind in *.
    etransitivity; [|etransitivity; [apply PB|]].
    + destruct (wr _ 0 _) as [p|]; [|reflexivity]. cbn [bind]. destruct (wr _ _ _) as [p'|]; [|reflexivity]. cbn [bind].
      destruct (fill _ _ _) as [p1|]; [|reflexivity]. cbn [bind]. destruct (wr p1 _ _); reflexivity.
    + exact T2.
    + lia.
    + rewrite junk_length, be_bytes_length. lia.
    + rewrite PD. change (bsz SHA256p) with 64%nat. rewrite be_bytes_length. reflexivity.
Qed.

Theorem finalize512_ok junk H c inp : hash_value SHA512p H ->
  sha512_inc_finalize junk (inc_state SHA512p H c) inp
  = Some (hash_from SHA512p H (u64 (c + Z.of_nat (length inp))) (norm inp)).
Proof.
  intros HH. unfold sha512_inc_finalize.
  rewrite (inc_counter SHA512p H c HH : load_bigendian_64 _ 64 = _). cbn [bind].
  rewrite land_127.
  assert (En : u64 (u64 c + Z.of_nat (length inp)) = u64 (c + Z.of_nat (length inp))).
  { unfold u64. apply Zplus_mod_idemp_l. }
  rewrite En. set (n := u64 (c + Z.of_nat (length inp))).
  assert (Hn : 0 <= n < 2 ^ 64) by (apply Z.mod_pos_bound; lia).
  assert (Hr : (length inp mod 128 < 128)%nat) by (apply Nat.mod_upper_bound; lia).
  assert (Hl : (length inp mod 128 <= length inp)%nat) by (apply Nat.mod_le; lia).
  destruct (tail_ok inp _ Hl) as (T1 & T2).
  pose proof (pad512 (length inp) n Hn) as PD. cbv zeta in PD.
  destruct (Nat.ltb_spec (length inp mod 128) 112) as [L|L].
  - pose proof (final_blocks alg512 SHA512p 4 agree512 H (be_bytes 8 c) inp _ _ (skipn 128 (junk_bytes junk 256)) 1 _ _ HH eq_refl eq_refl (eq_refl ((8 * n) mod 256 ^ Z.of_nat (2 * swb SHA512p)))) as FB.
    rewrite <- FB.
    2:{ change (bsz SHA512p) with 128%nat. rewrite PD. rewrite !app_length, T2, repeat_length, be_bytes_length. cbn [length]. lia. }
    change (unwords SHA512p H ++ be_bytes 8 c) with (inc_state SHA512p H c).
    destruct (hashblocks alg512 (inc_state SHA512p H c) inp 0 (length inp)) as [st|]; [|reflexivity]. cbn [bind].
    rewrite T1. cbn [bind].
    assert (PB := pad_buffer (junk_bytes junk 256) (skipn (length inp - length inp mod 128) inp) (length inp mod 128) 119 (u8 (Z.shiftr n 61) :: len_bytes n)
      (fun p => s <- hashblocks alg512 st p 0 128 ;; rd s 0 64)).
    rewrite len_bytes9_ok in *.
    repeat rewrite bind_bind in *.
    etransitivity; [|etransitivity; [apply PB|]].
    + destruct (wr _ 0 _) as [p|]; [|reflexivity]. cbn [bind]. destruct (wr _ _ _) as [p'|]; [|reflexivity]. cbn [bind].
      destruct (fill _ _ _) as [p1|]; [|reflexivity]. cbn [bind]. destruct (wr p1 _ _); reflexivity.
    + exact T2.
    + lia.
    + rewrite junk_length, be_bytes_length. lia.
    + rewrite PD. change (bsz SHA512p) with 128%nat. rewrite be_bytes_length. reflexivity.
  - pose proof (final_blocks alg512 SHA512p 4 agree512 H (be_bytes 8 c) inp _ _ (skipn 256 (junk_bytes junk 256)) 2 _ _ HH eq_refl eq_refl (eq_refl ((8 * n) mod 256 ^ Z.of_nat (2 * swb SHA512p)))) as FB.
    rewrite <- FB.
    2:{ change (bsz SHA512p) with 128%nat. rewrite PD. rewrite !app_length, T2, repeat_length, be_bytes_length. cbn [length]. lia. }
    change (unwords SHA512p H ++ be_bytes 8 c) with (inc_state SHA512p H c).
    destruct (hashblocks alg512 (inc_state SHA512p H c) inp 0 (length inp)) as [st|]; [|reflexivity]. cbn [bind].
    rewrite T1. cbn [bind].
    assert (PB := pad_buffer (junk_bytes junk 256) (skipn (length inp - length inp mod 128) inp) (length inp mod 128) 247 (u8 (Z.shiftr n 61) :: len_bytes n)
      (fun p => s <- hashblocks alg512 st p 0 256 ;; rd s 0 64)).
    rewrite len_bytes9_ok in *.
    repeat rewrite bind_bind in *.
    etransitivity; [|etransitivity; [apply PB|]].
    + destruct (wr _ 0 _) as [p|]; [|reflexivity]. cbn [bind]. destruct (wr _ _ _) as [p'|]; [|reflexivity]. cbn [bind].
      destruct (fill _ _ _) as [p1|]; [|reflexivity]. cbn [bind]. destruct (wr p1 _ _); reflexivity.
    + exact T2.
    + lia.
    + rewrite junk_length, be_bytes_length. lia.
    + rewrite PD. change (bsz SHA512p) with 128%nat. rewrite be_bytes_length. reflexivity.
Qed.

(** ** The hash functions *)
#[local] Opaque sha2.
Theorem sha256_norm junk m : sha256 junk m = Some (SHA256 (norm m)).
Proof.
  unfold sha256. rewrite init256_ok, finalize256_ok by exact H0_value_256.
  unfold SHA256. rewrite sha2_from_0 by (cbn; lia). rewrite map_length. reflexivity.
Qed.
(** sha512 for every length: the length field is the byte count modulo 2^64. *)
Definition SHA512u (m : list Z) : list Z := hash_from SHA512p (H0 SHA512p) (u64 (Z.of_nat (length m))) m.
Lemma SHA512u_eq m : Z.of_nat (length m) < 2 ^ 64 -> SHA512u m = SHA512 m.
Proof.
  intros H. unfold SHA512u, SHA512. rewrite sha2_from_0 by (cbn; lia).
  unfold u64. rewrite Z.mod_small by lia. reflexivity.
Qed.
Lemma sha512_normu junk m : sha512 junk m = Some (SHA512u (norm m)).
Proof.
  unfold sha512. rewrite init512_ok, finalize512_ok by exact H0_value_512.
  unfold SHA512u. rewrite map_length. reflexivity.
Qed.
Theorem sha512_norm junk m : Z.of_nat (length m) < 2 ^ 64 -> sha512 junk m = Some (SHA512 (norm m)).
Proof. intros H. rewrite sha512_normu, SHA512u_eq; [reflexivity|]. now rewrite map_length. Qed.
Lemma SHA256_length m : length (SHA256 m) = 32%nat.
Proof. unfold SHA256. rewrite sha2_from_0 by (cbn; lia).
  rewrite hash_from_length; [reflexivity|cbn; lia|reflexivity|apply H0_value_256]. Qed.
Lemma SHA512u_length m : length (SHA512u m) = 64%nat.
Proof. unfold SHA512u. rewrite hash_from_length; [reflexivity|cbn; lia|reflexivity|apply H0_value_512]. Qed.
Lemma SHA256_all m : all_bytes (SHA256 m).
Proof. unfold SHA256. rewrite sha2_from_0 by (cbn; lia). apply hash_from_all. Qed.
Lemma SHA512u_all m : all_bytes (SHA512u m).
Proof. apply hash_from_all. Qed.

(** ** The incremental interface *)
(** inc_blocks on each pair (buffer, number of blocks) in turn. *)
Fixpoint run_blocks (f : bytes -> bytes -> nat -> option bytes) (st : bytes) (l : list (bytes * nat)) : option bytes :=
  match l with [] => Some st | (x, k) :: l' => st <- f st x k ;; run_blocks f st l' end.
(** What they absorb. *)
Definition absorbed (bs : nat) (l : list (bytes * nat)) : bytes :=
  flat_map (fun p => firstn (bs * snd p) (fst p)) l.
Definition enough (bs : nat) (l : list (bytes * nat)) : Prop :=
  Forall (fun p => (bs * snd p <= length (fst p))%nat) l.

Definition seeded (B : sha_params) (st p : bytes) : Prop :=
  exists j, length p = (j * bsz B)%nat /\ st = inc_state B (chain_blocks B j (H0 B) p) (Z.of_nat (length p)).
Lemma seeded_init256 : seeded SHA256p sha256_inc_init [].
Proof. exists O. split; [reflexivity|]. rewrite init256_ok. reflexivity. Qed.
Lemma seeded_init512 : seeded SHA512p sha512_inc_init [].
Proof. exists O. split; [reflexivity|]. rewrite init512_ok. reflexivity. Qed.
Lemma seeded_blocks256 st p x k : seeded SHA256p st p -> (64 * k <= length x)%nat ->
  exists st', sha256_inc_blocks st x k = Some st' /\ seeded SHA256p st' (p ++ norm (firstn (64 * k) x)).
Proof.
  intros (j & Hj & ->) Hk.
  assert (V : hash_value SHA256p (chain_blocks SHA256p j (H0 SHA256p) p)).
  { apply chain_value; [cbn; lia|reflexivity|exact H0_value_256]. }
  rewrite blocks256_ok by auto. eexists. split; [reflexivity|].
  assert (L : length (norm (firstn (64 * k) x)) = (k * bsz SHA256p)%nat).
  { rewrite map_length, firstn_length. change (bsz SHA256p) with 64%nat. lia. }
  exists (j + k)%nat. split.
  - rewrite app_length, L, Hj. lia.
  - rewrite chain_app by exact Hj. f_equal.
    + rewrite <- (firstn_skipn (64 * k) x) at 1. rewrite map_app. apply chain_prefix. exact L.
    + rewrite app_length, L, Nat2Z.inj_add. reflexivity.
Qed.
Lemma seeded_blocks512 st p x k : seeded SHA512p st p -> (128 * k <= length x)%nat ->
  exists st', sha512_inc_blocks st x k = Some st' /\ seeded SHA512p st' (p ++ norm (firstn (128 * k) x)).
Proof.
  intros (j & Hj & ->) Hk.
  assert (V : hash_value SHA512p (chain_blocks SHA512p j (H0 SHA512p) p)).
  { apply chain_value; [cbn; lia|reflexivity|exact H0_value_512]. }
  rewrite blocks512_ok by auto. eexists. split; [reflexivity|].
  assert (L : length (norm (firstn (128 * k) x)) = (k * bsz SHA512p)%nat).
  { rewrite map_length, firstn_length. change (bsz SHA512p) with 128%nat. lia. }
  exists (j + k)%nat. split.
  - rewrite app_length, L, Hj. lia.
  - rewrite chain_app by exact Hj. f_equal.
    + rewrite <- (firstn_skipn (128 * k) x) at 1. rewrite map_app. apply chain_prefix. exact L.
    + rewrite app_length, L, Nat2Z.inj_add. reflexivity.
Qed.
Lemma seeded_final256 junk st p m : seeded SHA256p st p ->
  sha256_inc_finalize junk st m = Some (SHA256 (p ++ norm m)).
Proof.
  intros (j & Hj & ->). rewrite finalize256_ok.
  2:{ apply chain_value; [cbn; lia|reflexivity|exact H0_value_256]. }
  unfold SHA256. rewrite (sha2_from SHA256p ltac:(cbn; lia) p (norm m) j Hj). now rewrite app_length, map_length, Nat2Z.inj_add.
Qed.
Lemma SHA512u_from p m j : length p = (j * bsz SHA512p)%nat ->
  SHA512u (p ++ m) = hash_from SHA512p (chain_blocks SHA512p j (H0 SHA512p) p) (u64 (Z.of_nat (length (p ++ m)))) m.
Proof.
  intros Hp. unfold SHA512u. Transparent hash_from. unfold hash_from. Opaque hash_from.
  set (c := u64 _). clearbody c.
  assert (Q : pad_to SHA512p (length (p ++ m)) c = pad_to SHA512p (length m) c).
  { rewrite app_length, Hp. apply pad_to_blocks. cbn; lia. }
  rewrite Q, <- app_assoc. f_equal.
  destruct (pad_length SHA512p ltac:(cbn; lia) (length m) c) as (k & Hk).
  rewrite !app_length, Hp, Hk. rewrite Nat.div_add_l, Nat.div_mul by (cbn; lia). now apply chain_app.
Qed.
Lemma seeded_final512 junk st p m : seeded SHA512p st p ->
  sha512_inc_finalize junk st m = Some (SHA512u (p ++ norm m)).
Proof.
  intros (j & Hj & ->). rewrite finalize512_ok.
  2:{ apply chain_value; [cbn; lia|reflexivity|exact H0_value_512]. }
  rewrite (SHA512u_from p (norm m) j Hj). now rewrite app_length, map_length, Nat2Z.inj_add.
Qed.
Lemma seeded_run B f bs l : (forall st p x k, seeded B st p -> (bs * k <= length x)%nat ->
    exists st', f st x k = Some st' /\ seeded B st' (p ++ norm (firstn (bs * k) x))) ->
  forall st p, seeded B st p -> enough bs l ->
  exists st', run_blocks f st l = Some st' /\ seeded B st' (p ++ norm (absorbed bs l)).
Proof.
  intros Hf. induction l as [|[x k] l IH]; intros st p Hs He; cbn [run_blocks].
  - exists st. split; [reflexivity|]. cbn. now rewrite app_nil_r.
  - inversion He as [|? ? Hx He']; subst. destruct (Hf st p x k Hs Hx) as (st1 & E1 & S1).
    rewrite E1. cbn [bind]. destruct (IH st1 _ S1 He') as (st2 & E2 & S2).
    exists st2. split; [exact E2|]. unfold absorbed. cbn [flat_map]. now rewrite map_app, app_assoc.
Qed.
Theorem sha256_inc_norm junk l m : enough 64 l ->
  (st <- run_blocks sha256_inc_blocks sha256_inc_init l ;; sha256_inc_finalize junk st m)
  = Some (SHA256 (norm (absorbed 64 l ++ m))).
Proof.
  intros He. destruct (seeded_run SHA256p sha256_inc_blocks 64 l seeded_blocks256 _ _ seeded_init256 He) as (st & E & S).
  rewrite E. cbn [bind]. rewrite (seeded_final256 _ _ _ _ S), map_app. reflexivity.
Qed.
Theorem sha512_inc_norm junk l m : enough 128 l -> Z.of_nat (length (absorbed 128 l ++ m)) < 2 ^ 64 ->
  (st <- run_blocks sha512_inc_blocks sha512_inc_init l ;; sha512_inc_finalize junk st m)
  = Some (SHA512 (norm (absorbed 128 l ++ m))).
Proof.
  intros He Hl. destruct (seeded_run SHA512p sha512_inc_blocks 128 l seeded_blocks512 _ _ seeded_init512 He) as (st & E & S).
  rewrite E. cbn [bind]. rewrite (seeded_final512 _ _ _ _ S), map_app. cbn [app]. rewrite SHA512u_eq; [reflexivity|].
  now rewrite <- map_app, map_length.
Qed.

(** ** MGF1 *)
Section Mgf.
Variable junk : nat -> Z.
Variable sha : bytes -> option bytes.
Variable ob : nat.
Variable h : list Z -> list Z.
Hypothesis Hob : (0 < ob)%nat.
Hypothesis Hlen : forall x, length (h x) = ob.
Variable inp : bytes.
(** the hash is only used on [inp] with a counter *)
Hypothesis Hsha : forall x, length x = (length inp + 4)%nat -> sha x = Some (h (norm x)).
Let f (i : nat) : list Z := h (norm inp ++ be_bytes 4 (Z.of_nat i)).

Lemma u32_be v : norm (u32_to_bytes (u32 v)) = be_bytes 4 v.
Proof.
  clear. rewrite <- (be_bytes_mod 4 v). change (v mod 256 ^ Z.of_nat 4) with (u32 v). generalize (u32 v). intros w.
  rewrite norm_bytes by (repeat constructor; apply u8_byte).
  unfold u32_to_bytes, be_bytes. cbn [seq map]. rewrite !Z.shiftr_div_pow2 by lia.
  change (256 ^ Z.of_nat (4 - 1 - 3)) with 1. rewrite Z.div_1_r. reflexivity.
Qed.
Lemma mgf_round c i : length c = 4%nat ->
  exists c', length c' = 4%nat /\ wr (inp ++ c) (length inp) (u32_to_bytes (u32 (Z.of_nat i))) = Some (inp ++ c')
    /\ rd (inp ++ c') 0 (length inp + 4) = Some (inp ++ c') /\ sha (inp ++ c') = Some (f i).
Proof.
  intros Hc. exists (u32_to_bytes (u32 (Z.of_nat i))). split; [reflexivity|]. split; [|split].
  - apply wr_app_r; auto.
  - apply rd_all. rewrite app_length. reflexivity.
  - rewrite Hsha by (rewrite app_length; reflexivity). unfold f. now rewrite map_app, u32_be.
Qed.
Lemma flat_length (l : list nat) : length (flat_map f l) = (length l * ob)%nat.
Proof.
  induction l as [|i l IH]; cbn [flat_map length]; [reflexivity|].
  rewrite app_length, IH. unfold f at 1. rewrite Hlen. lia.
Qed.
Lemma mgf_loop fuel : forall i outlen c, length c = 4%nat -> (i * ob <= outlen)%nat -> (outlen / ob - i < fuel)%nat ->
  exists c', length c' = 4%nat /\
    mgf1_loop sha ob fuel i outlen (inp ++ c) (length inp) (flat_map f (seq 0 i))
    = Some ((outlen / ob)%nat, inp ++ c', flat_map f (seq 0 (outlen / ob))).
Proof.
  induction fuel as [|fuel IH]; intros i outlen c Hc Hi Hf; [lia|].
  cbn [mgf1_loop]. assert (Q := Nat.div_mod outlen ob ltac:(lia)).
  assert (U := Nat.mod_upper_bound outlen ob ltac:(lia)).
  destruct (Nat.ltb_spec outlen ((i + 1) * ob)) as [L|L].
  - assert (E : (outlen / ob = i)%nat).
    { symmetry. apply Nat.div_unique with (r := (outlen - i * ob)%nat); lia. }
    rewrite E. exists c. auto.
  - destruct (mgf_round c i Hc) as (c' & Hc' & E1 & E2 & E3).
    rewrite E1. cbn [bind]. rewrite E2. cbn [bind]. rewrite E3. cbn [bind].
    replace (flat_map f (seq 0 i) ++ f i) with (flat_map f (seq 0 (S i))).
    2:{ rewrite seq_S, flat_map_app. cbn [flat_map Nat.add]. now rewrite app_nil_r. }
    apply IH; auto; [lia|].
    assert (i + 1 <= outlen / ob)%nat by (apply Nat.div_le_lower_bound; lia). lia.
Qed.
Theorem mgf1_gen_ok outlen :
  mgf1_gen junk sha ob outlen inp = Some (firstn outlen (flat_map f (seq 0 ((outlen + ob - 1) / ob)))).
Proof.
  unfold mgf1_gen.
  assert (J : exists c, length c = 4%nat /\ wr (junk_bytes junk (length inp + 4)) 0 inp = Some (inp ++ c)).
  { exists (skipn (length inp) (junk_bytes junk (length inp + 4))). split.
    - rewrite skipn_length, junk_length. lia.
    - rewrite wr_ok by (rewrite junk_length; lia). reflexivity. }
  destruct J as (c & Hc & E). rewrite E. cbn [bind].
  destruct (mgf_loop (S outlen) 0 outlen c Hc ltac:(lia)) as (c' & Hc' & E').
  { assert (outlen / ob <= outlen)%nat by (apply Nat.div_le_upper_bound; nia). lia. }
  cbn [seq flat_map] in E'. rewrite E'. cbn [bind].
  set (q := (outlen / ob)%nat).
  assert (Q := Nat.div_mod outlen ob ltac:(lia)). fold q in Q.
  assert (U := Nat.mod_upper_bound outlen ob ltac:(lia)).
  destruct (Nat.ltb_spec (q * ob) outlen) as [L|L].
  - destruct (mgf_round c' q Hc') as (c'' & Hc'' & E1 & E2 & E3).
    rewrite E1. cbn [bind]. rewrite E2. cbn [bind]. rewrite E3. cbn [bind].
    rewrite rd_ok by (unfold f; rewrite Hlen; lia). cbn [bind skipn]. f_equal.
    assert (D : ((outlen + ob - 1) / ob = S q)%nat).
    { symmetry. apply Nat.div_unique with (r := (outlen - q * ob - 1)%nat); lia. }
    rewrite D, seq_S, flat_map_app. cbn [flat_map Nat.add]. rewrite app_nil_r.
    rewrite firstn_app, flat_length, seq_length. rewrite (firstn_all2 (flat_map f (seq 0 q))) by (rewrite flat_length, seq_length; lia).
    reflexivity.
  - assert (D : ((outlen + ob - 1) / ob = q)%nat).
    { symmetry. apply Nat.div_unique with (r := (ob - 1)%nat); lia. }
    rewrite D. rewrite firstn_all2 by (rewrite flat_length, seq_length; lia). reflexivity.
Qed.
End Mgf.

Theorem mgf1_256_norm junk outlen inp :
  mgf1_256 junk outlen inp = Some (mgf1 SHA256p (norm inp) outlen).
Proof.
  unfold mgf1_256. rewrite (mgf1_gen_ok junk (sha256 junk) 32 SHA256); [reflexivity|lia|exact SHA256_length|].
  intros x _. apply sha256_norm.
Qed.
Lemma mgf1_512_normu junk outlen inp :
  mgf1_512 junk outlen inp = Some (mgf1_of SHA512u 64 (norm inp) outlen).
Proof.
  unfold mgf1_512.
  rewrite (mgf1_gen_ok junk (sha512 junk) 64 SHA512u); [reflexivity|lia|exact SHA512u_length|intros x _; apply sha512_normu].
Qed.
Theorem mgf1_512_norm junk outlen inp : Z.of_nat (length inp) + 4 < 2 ^ 64 ->
  mgf1_512 junk outlen inp = Some (mgf1 SHA512p (norm inp) outlen).
Proof.
  intros H. rewrite mgf1_512_normu. f_equal. unfold mgf1, mgf1_of. change (Sha2Spec.outlen SHA512p) with 64%nat. f_equal.
  induction (seq 0 ((outlen + 64 - 1) / 64)) as [|i l IH]; cbn [flat_map]; [reflexivity|].
  rewrite IH. f_equal. apply SHA512u_eq. rewrite app_length, map_length, be_bytes_length. lia.
Qed.

(** ** The same for contents that are bytes *)
Theorem sha256_bytes junk inp : all_bytes inp -> sha256 junk inp = Some (SHA256 inp).
Proof. intros H. now rewrite sha256_norm, norm_bytes. Qed.
Theorem sha512_bytes junk inp : all_bytes inp -> Z.of_nat (length inp) < 2 ^ 64 -> sha512 junk inp = Some (SHA512 inp).
Proof. intros H Hl. now rewrite sha512_norm, norm_bytes. Qed.
Lemma absorbed_all bs l : Forall (fun p => all_bytes (fst p)) l -> all_bytes (absorbed bs l).
Proof.
  unfold absorbed. induction 1 as [|p l Hp _ IH]; cbn [flat_map]; [constructor|].
  apply Forall_app. split; [now apply all_firstn|exact IH].
Qed.
Theorem sha256_inc_bytes junk l m : enough 64 l -> Forall (fun p => all_bytes (fst p)) l -> all_bytes m ->
  (st <- run_blocks sha256_inc_blocks sha256_inc_init l ;; sha256_inc_finalize junk st m)
  = Some (SHA256 (absorbed 64 l ++ m)).
Proof.
  intros H1 H2 H3. rewrite sha256_inc_norm by auto. rewrite norm_bytes; [reflexivity|].
  apply Forall_app. split; [now apply absorbed_all|exact H3].
Qed.
Theorem sha512_inc_bytes junk l m : enough 128 l -> Forall (fun p => all_bytes (fst p)) l -> all_bytes m ->
  Z.of_nat (length (absorbed 128 l ++ m)) < 2 ^ 64 ->
  (st <- run_blocks sha512_inc_blocks sha512_inc_init l ;; sha512_inc_finalize junk st m)
  = Some (SHA512 (absorbed 128 l ++ m)).
Proof.
  intros H1 H2 H3 H4. rewrite sha512_inc_norm by auto. rewrite norm_bytes; [reflexivity|].
  apply Forall_app. split; [now apply absorbed_all|exact H3].
Qed.
Theorem mgf1_256_bytes junk len inp : all_bytes inp -> mgf1_256 junk len inp = Some (mgf1_of SHA256 32 inp len).
Proof. intros H. now rewrite mgf1_256_norm, norm_bytes. Qed.
Theorem mgf1_512_bytes junk len inp : all_bytes inp -> Z.of_nat (length inp) + 4 < 2 ^ 64 ->
  mgf1_512 junk len inp = Some (mgf1_of SHA512 64 inp len).
Proof. intros H Hl. now rewrite mgf1_512_norm, norm_bytes. Qed.
Lemma mgf1_of_length h ob seed len : (0 < ob)%nat -> (forall x, length (h x) = ob) -> length (mgf1_of h ob seed len) = len.
Proof.
  intros Ho Hh. unfold mgf1_of. rewrite firstn_length.
  assert (L : forall l, length (flat_map (fun i => h (seed ++ be_bytes 4 (Z.of_nat i))) l) = (length l * ob)%nat).
  { induction l as [|i l IH]; cbn [flat_map length]; [reflexivity|]. rewrite app_length, IH, Hh. lia. }
  rewrite L, seq_length. pose proof (Nat.div_mod (len + ob - 1) ob ltac:(lia)).
  pose proof (Nat.mod_upper_bound (len + ob - 1) ob ltac:(lia)). nia.
Qed.
Lemma mgf1_of_prefix h ob x a b : (0 < ob)%nat -> (forall y, length (h y) = ob) -> (a <= b)%nat ->
  firstn a (mgf1_of h ob x b) = mgf1_of h ob x a.
Proof.
  intros Ho Hh Hab. unfold mgf1_of. rewrite firstn_firstn, Nat.min_l by lia.
  set (f := fun i : nat => _). set (na := ((a + ob - 1) / ob)%nat). set (nb := ((b + ob - 1) / ob)%nat).
  assert (Hn : (na <= nb)%nat) by (apply Nat.div_le_mono; lia).
  replace nb with (na + (nb - na))%nat by lia. rewrite seq_app, flat_map_app, firstn_app.
  assert (L : length (flat_map f (seq 0 na)) = (na * ob)%nat).
  { generalize 0%nat. induction na as [|n IH]; intros i; cbn [seq flat_map]; [reflexivity|].
    rewrite app_length, IH by lia. unfold f. rewrite Hh. lia. }
  assert (Hge : (a <= na * ob)%nat).
  { unfold na. pose proof (Nat.div_mod (a + ob - 1) ob ltac:(lia)) as D.
    pose proof (Nat.mod_upper_bound (a + ob - 1) ob ltac:(lia)). rewrite Nat.mul_comm. lia. }
  rewrite L. replace (a - na * ob)%nat with O by lia. cbn [firstn]. now rewrite app_nil_r.
Qed.
Theorem mgf1_256_prefix junk a b inp out : (a <= b)%nat -> mgf1_256 junk b inp = Some out ->
  length out = b /\ mgf1_256 junk a inp = Some (firstn a out).
Proof.
  intros Hab E. rewrite mgf1_256_norm in E |- *. injection E as <-. split.
  - apply (mgf1_of_length SHA256 32); [lia|apply SHA256_length].
  - f_equal. symmetry. apply (mgf1_of_prefix SHA256 32); [lia|apply SHA256_length|exact Hab].
Qed.
Theorem mgf1_512_prefix junk a b inp out : (a <= b)%nat -> mgf1_512 junk b inp = Some out ->
  length out = b /\ mgf1_512 junk a inp = Some (firstn a out).
Proof.
  intros Hab E. rewrite mgf1_512_normu in E |- *. injection E as <-. split.
  - apply (mgf1_of_length SHA512u 64); [lia|apply SHA512u_length].
  - f_equal. symmetry. apply (mgf1_of_prefix SHA512u 64); [lia|apply SHA512u_length|exact Hab].
Qed.
