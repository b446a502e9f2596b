(** treehashx2/x4/x8 compute the specification's root and authentication path. *)
From Verif Require Import Base BaseFacts Params Address Suite Utils Spec SpecFacts AdrsEnc
  AddressProofs Refine TreeProofs Lanes LaneFacts.

(** ** Reads of chunk pairs and of blocks of chunks *)
Lemma rd_pair n cs j : chunks_of n cs -> (2 * j + 1 < length cs)%nat ->
  rd (concat cs) (2 * j * n) (2 * n) = Some (nth (2 * j) cs [] ++ nth (2 * j + 1) cs []).
Proof.
  intros Hc Hj.
  assert (Hjj : (2 * j < length cs)%nat) by lia.
  destruct (nth_error_split cs (2 * j)%nat (nth_error_nth' cs [] Hjj)) as (l1 & l2 & E & El).
  assert (Hl2 : l2 <> []) by (intros ->; rewrite E, app_length in Hj; cbn in Hj; lia).
  destruct l2 as [|y l2]; [congruence|].
  assert (Ey : nth (2 * j + 1) cs [] = y).
  { rewrite E, app_nth2 by lia. replace (2 * j + 1 - length l1)%nat with 1%nat by lia. reflexivity. }
  rewrite Ey. set (x := nth (2 * j) cs []) in *. rewrite E in *. clear E.
  apply chunks_app in Hc. destruct Hc as [H1 H2]. inversion H2 as [|? ? Hx H3]; subst.
  inversion H3 as [|? ? Hy H4]; subst.
  rewrite concat_app. cbn [concat]. rewrite (app_assoc x).
  apply rd_app'.
  - rewrite (chunks_length (length x)) by auto. rewrite El. lia.
  - rewrite app_length, Hy. lia.
Qed.

Lemma rd_block M st h b o l : chunks_of M st -> nth_error st h = Some b -> (o + l <= M)%nat ->
  rd (concat st) (h * M + o) l = rd b o l.
Proof.
  intros Hc Hb Ho.
  assert (Hlb : length b = M).
  { apply nth_error_In in Hb. unfold chunks_of in Hc. rewrite Forall_forall in Hc. auto. }
  destruct (nth_error_split st h Hb) as (l1 & l2 & E & El). rewrite E in *.
  apply chunks_app in Hc. destruct Hc as [H1 _].
  rewrite concat_app. cbn [concat].
  destruct (split_at b o l) as (p & q & r & Eb & E1 & E2 & _); [lia|].
  rewrite Eb, (rd_app' p q r) by auto. rewrite <- !app_assoc, app_assoc.
  apply rd_app'; [|auto]. rewrite app_length, (chunks_length M) by auto. lia.
Qed.

(** ** Bits *)
Lemma hit_bits w a b : (w <= 32)%nat -> 0 <= a -> a * NLz w < 2 ^ 32 -> 0 <= b < 2 ^ 32 ->
  (Z.land (Z.lxor (u32 (Z.shiftl a (Z.of_nat w))) b) (2 ^ 32 - NLz w) =? 0) = (b / NLz w =? a).
Proof.
  intros Hw Ha Hlt Hb. unfold NLz in *.
  assert (E1 : u32 (Z.shiftl a (Z.of_nat w)) = Z.shiftl a (Z.of_nat w)).
  { unfold u32. rewrite Z.shiftl_mul_pow2 by lia. apply Z.mod_small.
    pose proof (pow2_pos w). nia. }
  rewrite E1. clear E1.
  set (x := Z.lxor (Z.shiftl a (Z.of_nat w)) b).
  assert (Hsx : Z.shiftr x (Z.of_nat w) = Z.lxor a (b / 2 ^ Z.of_nat w)).
  { unfold x. rewrite Z.shiftr_lxor, Z.shiftr_shiftl_l by lia. rewrite Z.sub_diag, Z.shiftl_0_r.
    now rewrite Z.shiftr_div_pow2 by lia. }
  assert (Hx : 0 <= x < 2 ^ 32).
  { assert (0 <= x).
    { unfold x. apply Z.lxor_nonneg. split; intros; [lia|]. apply Z.shiftl_nonneg. lia. }
    split; [auto|]. destruct (Z.eq_dec x 0) as [->|Hx0]; [lia|].
    apply Z.log2_lt_pow2; [lia|]. unfold x.
    assert (0 <= Z.shiftl a (Z.of_nat w) < 2 ^ 32).
    { rewrite Z.shiftl_mul_pow2 by lia. pose proof (pow2_pos w). nia. }
    assert (Hg : forall y, 0 <= y < 2 ^ 32 -> Z.log2 y < 32).
    { intros y Hy. destruct (Z.eq_dec y 0) as [->|]; [cbn; lia|]. apply Z.log2_lt_pow2; lia. }
    pose proof (Z.log2_lxor (Z.shiftl a (Z.of_nat w)) b).
    pose proof (Hg _ H0). pose proof (Hg _ Hb). lia. }
  assert (Hm : 2 ^ 32 - 2 ^ Z.of_nat w = Z.shiftl (Z.ones (32 - Z.of_nat w)) (Z.of_nat w)).
  { rewrite Z.shiftl_mul_pow2, Z.ones_equiv by lia.
    replace (2 ^ 32) with (2 ^ (32 - Z.of_nat w) * 2 ^ Z.of_nat w)
      by (rewrite <- Z.pow_add_r by lia; f_equal; lia). lia. }
  assert (El : Z.land x (2 ^ 32 - 2 ^ Z.of_nat w) = Z.shiftl (Z.shiftr x (Z.of_nat w)) (Z.of_nat w)).
  { rewrite Hm. apply Z.bits_inj'. intros n Hn. rewrite Z.land_spec, !Z.shiftl_spec by lia.
    destruct (Z.lt_ge_cases n (Z.of_nat w)) as [Hlt'|Hge].
    - rewrite !(Z.testbit_neg_r _ (n - Z.of_nat w)) by lia. apply Bool.andb_false_r.
    - rewrite Z.shiftr_spec by lia. replace (n - Z.of_nat w + Z.of_nat w) with n by lia.
      destruct (Z.lt_ge_cases n 32) as [H32|H32].
      + rewrite Z.ones_spec_low by lia. apply Bool.andb_true_r.
      + rewrite Z.ones_spec_high by lia.
        rewrite (Z.bits_above_log2 x n); [reflexivity|lia|].
        destruct (Z.eq_dec x 0) as [->|]; [cbn; lia|].
        assert (Z.log2 x < 32) by (apply Z.log2_lt_pow2; lia). lia. }
  rewrite El, Hsx. apply Bool.eq_true_iff_eq. rewrite !Z.eqb_eq. split; intros E.
  - symmetry. apply Z.lxor_eq. apply Z.shiftl_eq_0_iff in E; [auto|lia].
  - rewrite E, Z.lxor_nilpotent. apply Z.shiftl_0_l.
Qed.

Lemma div_top k m h : 0 <= k < 2 ^ Z.of_nat m -> (m <= h)%nat -> k / 2 ^ Z.of_nat h = 0.
Proof.
  intros Hk Hm. apply Z.div_small.
  assert (2 ^ Z.of_nat m <= 2 ^ Z.of_nat h) by (apply Z.pow_le_mono_r; lia). lia.
Qed.

Lemma lxor_1_odd q : Z.lxor (2 * q + 1) 1 = 2 * q.
Proof. rewrite <- lxor_1_even, Z.lxor_assoc, Z.lxor_nilpotent. apply Z.lxor_0_r. Qed.

(** The sibling, from the lane number of the node. *)
Lemma lane_sib w x : (1 <= w)%nat -> 0 <= x ->
  Z.lxor x 1 = NLz w * (x / NLz w) + Z.lxor (Z.land x (NLz w - 1)) 1.
Proof.
  intros Hw Hx. unfold NLz.
  assert (El : Z.land x (2 ^ Z.of_nat w - 1) = x mod 2 ^ Z.of_nat w).
  { rewrite Z.sub_1_r, <- Z.ones_equiv. apply Z.land_ones. lia. }
  rewrite El. destruct w as [|w]; [lia|]. rewrite !pow2_S.
  pose proof (pow2_pos w). set (M := 2 ^ Z.of_nat w) in *.
  pose proof (Z.div_mod x (2 * M) ltac:(lia)) as E.
  set (q := x / (2 * M)) in *. set (r := x mod (2 * M)) in *.
  destruct (Z.even r) eqn:Er.
  - apply Z.even_spec in Er. destruct Er as [s Es]. rewrite Es, lxor_1_even.
    replace x with (2 * (M * q + s)) by lia. rewrite lxor_1_even. lia.
  - assert (Eo : Z.odd r = true) by (rewrite <- Z.negb_even, Er; reflexivity).
    apply Z.odd_spec in Eo. destruct Eo as [s Es]. rewrite Es, lxor_1_odd.
    replace x with (2 * (M * q + s) + 1) by lia. rewrite lxor_1_odd. lia.
Qed.

Lemma land_m2 j : 0 <= j < 2 ^ 32 -> Z.land j (2 ^ 32 - 2) = 2 * (j / 2).
Proof.
  intros Hj. change (2 ^ 32 - 2) with (Z.shiftl (Z.ones 31) 1).
  replace (2 * (j / 2)) with (Z.shiftl (Z.shiftr j 1) 1)
    by (rewrite Z.shiftl_mul_pow2, Z.shiftr_div_pow2 by lia; change (2 ^ 1) with 2; lia).
  apply Z.bits_inj'. intros n Hn. rewrite Z.land_spec, !Z.shiftl_spec by lia.
  destruct (Z.lt_ge_cases n 1) as [Hlt'|Hge].
  - rewrite !(Z.testbit_neg_r _ (n - 1)) by lia. apply Bool.andb_false_r.
  - rewrite Z.shiftr_spec by lia. replace (n - 1 + 1) with n by lia.
    destruct (Z.lt_ge_cases n 32) as [H32|H32].
    + rewrite Z.ones_spec_low by lia. apply Bool.andb_true_r.
    + rewrite Z.ones_spec_high by lia.
      rewrite (Z.bits_above_log2 j n); [reflexivity|lia|].
      destruct (Z.eq_dec j 0) as [->|]; [cbn; lia|].
      assert (Z.log2 j < 32) by (apply Z.log2_lt_pow2; lia). lia.
Qed.

(** The sibling stays inside its level. *)
Lemma sib_top i H h : 0 <= i < 2 ^ Z.of_nat H -> (h < H)%nat ->
  Z.lxor (i / 2 ^ Z.of_nat h) 1 < 2 ^ Z.of_nat (H - h).
Proof.
  intros Hl Hh. pose proof (pow2_pos h). set (b := i / 2 ^ Z.of_nat h).
  assert (Hb2 : 0 <= b < 2 ^ Z.of_nat (H - h)).
  { split; [apply Z.div_pos; lia|]. apply Z.div_lt_upper_bound; [lia|]. rewrite <- Z.pow_add_r by lia.
    replace (Z.of_nat h + Z.of_nat (H - h)) with (Z.of_nat H) by lia. lia. }
  replace (H - h)%nat with (S (H - h - 1)) in Hb2 |- * by lia.
  rewrite pow2_S in *. clearbody b. set (M := 2 ^ Z.of_nat (H - h - 1)) in *. clearbody M.
  destruct (Z.even b) eqn:Eb.
  - apply Z.even_spec in Eb. destruct Eb as [q Eq]. rewrite Eq, lxor_1_even. lia.
  - assert (Eo : Z.odd b = true) by (rewrite <- Z.negb_even, Eb; reflexivity).
    apply Z.odd_spec in Eo. destruct Eo as [q Eq]. rewrite Eq, lxor_1_odd. lia.
Qed.

Lemma not_hit_top i H w h : 2 ^ Z.of_nat (H + w - 1) <= i -> (h < H)%nat ->
  1 <= i / 2 ^ Z.of_nat (h + w).
Proof.
  intros Hl Hh. apply Z.div_le_lower_bound; [apply pow2_pos|]. rewrite Z.mul_1_r.
  assert (2 ^ Z.of_nat (h + w) <= 2 ^ Z.of_nat (H + w - 1)) by (apply Z.pow_le_mono_r; lia).
  lia.
Qed.

Lemma lane_sib_lt w x : (1 <= w)%nat -> 0 <= x -> 0 <= Z.lxor (Z.land x (NLz w - 1)) 1 < NLz w.
Proof.
  intros Hw Hx. unfold NLz.
  assert (El : Z.land x (2 ^ Z.of_nat w - 1) = x mod 2 ^ Z.of_nat w).
  { rewrite Z.sub_1_r, <- Z.ones_equiv. apply Z.land_ones. lia. }
  rewrite El. destruct w as [|w]; [lia|]. rewrite !pow2_S.
  pose proof (pow2_pos w). set (M := 2 ^ Z.of_nat w) in *.
  pose proof (Z.mod_pos_bound x (2 * M) ltac:(lia)) as E. set (r := x mod (2 * M)) in *.
  destruct (Z.even r) eqn:Er.
  - apply Z.even_spec in Er. destruct Er as [s Es]. rewrite Es, lxor_1_even. lia.
  - assert (Eo : Z.odd r = true) by (rewrite <- Z.negb_even, Er; reflexivity).
    apply Z.odd_spec in Eo. destruct Eo as [s Es]. rewrite Es, lxor_1_odd. lia.
Qed.

Section Trees.
Variable P : params.
Variable HS : suite.
Variable LX : lane_fns HS.
Variable w : nat.
Variable c : ctx (hs_st HS).
Variable junk : nat -> nat -> Z.
Notation N := (p_n P).
Notation L := (hs_layout HS).
Hypothesis Hn : (1 <= N)%nat.
Hypothesis Hok : suite_ok P HS.
Hypothesis Hlx : lanes_ok P HS LX w.
Hypothesis Hc : ctx_ok P HS c.
Notation T := (codeT P HS c).
Notation lanes := (lanes w).
Notation NL := (NL w).
Notation NLz := (NLz w).

Variables t_layer t_tree t_type t_kp : Z.
Notation A := (fun w1 w2 => mkAdrs t_layer t_tree t_type t_kp w1 w2).
(** The addresses of all lanes; height and index are overwritten by the code. *)
Definition tadr (a : nat -> Z * Z) : list bytes :=
  map (fun j => enc L (A (fst (a j)) (snd (a j)))) lanes.
Variable H : nat.
Variable off : Z.
Variable hash2 : nat -> Z -> bytes -> bytes.
Hypothesis Hhash2 : forall h i x, (1 <= h <= H)%nat ->
  T (A (Z.of_nat h) (i + off / 2 ^ Z.of_nat h)) x = hash2 h i x.
Variable leaf : Z -> bytes.
Hypothesis Hleaf : forall i, length (leaf i) = N.
Notation nd := (node leaf hash2).
Hypothesis Hw : (1 <= w <= H)%nat.
Hypothesis HH : (H <= 31)%nat.
(** The height of the tree of logical nodes. *)
Notation m := (H - w)%nat.
Variable lidx : Z.
Hypothesis Hlidx : 0 <= lidx < 2 ^ Z.of_nat H \/ 2 ^ Z.of_nat (H + w - 1) <= lidx < 2 ^ 32.

Lemma nd_len h i : (h <= H)%nat -> length (nd h i) = N.
Proof. clear - Hn Hok Hc Hhash2 Hleaf.
  apply (node_len P HS c Hn Hok Hc t_layer t_tree t_type t_kp H off hash2 Hhash2 leaf Hleaf).
Qed.

(** Valid lanes at height [h]: the last [nl h] ones. *)
Definition nl (h : nat) : nat := Nat.pow 2 (Nat.min w (H - h)).
Lemma nl_low h : (h <= m)%nat -> nl h = NL.
Proof. clear - Hw. intros. unfold nl, Lanes.NL. now rewrite Nat.min_l by lia. Qed.
Lemma nl_le h : (nl h <= NL)%nat.
Proof. clear. unfold nl, Lanes.NL. apply Nat.pow_le_mono_r; lia. Qed.
Lemma nl_high h : (m <= h)%nat -> nl h = Nat.pow 2 (H - h).
Proof. clear - Hw. intros. unfold nl. now rewrite Nat.min_r by lia. Qed.
Lemma nl_S h : (m <= h < H)%nat -> nl h = (2 * nl (S h))%nat.
Proof. clear - Hw.
  intros. rewrite !nl_high by lia. replace (H - h)%nat with (S (H - S h)) by lia. reflexivity.
Qed.

Lemma adj_val h : (m <= h < H)%nat -> u32 (NLz - 2 ^ Z.of_nat (H - h - 1)) = Z.of_nat (NL - nl (S h)).
Proof. clear - Hw HH.
  intros Hm. rewrite nl_high by lia. replace (H - h - 1)%nat with (H - S h)%nat by lia.
  rewrite (Nat2Z.inj_sub NL) by (unfold Lanes.NL; apply Nat.pow_le_mono_r; lia).
  rewrite NLz_NL, Nat2Z.inj_pow. change (Z.of_nat 2) with 2.
  unfold u32. apply Z.mod_small.
  assert (2 ^ Z.of_nat (H - S h) <= Z.of_nat NL).
  { unfold Lanes.NL. rewrite Nat2Z.inj_pow. change (Z.of_nat 2) with 2.
    apply Z.pow_le_mono_r; lia. }
  assert (Z.of_nat NL <= 2 ^ Z.of_nat H).
  { unfold Lanes.NL. rewrite Nat2Z.inj_pow. change (Z.of_nat 2) with 2.
    apply Z.pow_le_mono_r; lia. }
  assert (2 ^ Z.of_nat H < 2 ^ 32) by (apply Z.pow_lt_mono_r; lia).
  pose proof (pow2_pos (H - S h)). lia.
Qed.

Definition curx (h : nat) (jj : Z) (cs : list bytes) : Prop :=
  chunks_of N cs /\ length cs = NL /\
  forall i, (i < nl h)%nat ->
    nth_error cs (NL - nl h + i) = Some (nd h (Z.of_nat (nl h) * jj + Z.of_nat i)).

Definition adone (h : nat) (k : Z) : bool := done (Nat.min h m) (lidx / 2 ^ Z.of_nat (h + w)) k.

Definition authx_inv (k : Z) (au0 au : list bytes) : Prop :=
  chunks_of N au /\ length au = H /\
  forall h, (h < H)%nat ->
    nth_error au h = if adone h k then Some (nd h (sib lidx h)) else nth_error au0 h.

Definition authx_mid (k : Z) (h : nat) (au0 au : list bytes) : Prop :=
  chunks_of N au /\ length au = H /\
  forall h', (h' < H)%nat ->
    nth_error au h' = if adone h' (if (h' <? h)%nat then k + 1 else k)
                      then Some (nd h' (sib lidx h')) else nth_error au0 h'.

Definition row (h : nat) (jj : Z) : list bytes :=
  map (fun j => nd h (NLz * jj + Z.of_nat j)) lanes.

Definition stackx_inv (k : Z) (st : list bytes) : Prop :=
  chunks_of (NL * N) st /\ length st = H /\
  forall h, (h < m)%nat -> Z.odd (k / 2 ^ Z.of_nat h) = true ->
    nth_error st h = Some (concat (row h (k / 2 ^ Z.of_nat h - 1))).

Inductive climbx_res (k : Z) (au0 st : list bytes) : climbx_out -> Prop :=
| CRootX au a :
    k = 2 ^ Z.of_nat m - 1 -> authx_inv (k + 1) au0 au ->
    climbx_res k au0 st (RootX (nd H 0) (concat au) (tadr a))
| CLeftX h au a :
    k < 2 ^ Z.of_nat m - 1 -> (h < m)%nat -> authx_inv (k + 1) au0 au ->
    stackx_inv (k + 1) (upd h (concat (row h (k / 2 ^ Z.of_nat h))) st) ->
    climbx_res k au0 st
      (LeftX h (concat (row h (k / 2 ^ Z.of_nat h))) (concat au) (tadr a) 0 0).

Lemma row_chunks h jj : (h <= H)%nat -> chunks_of N (row h jj).
Proof. clear - Hn Hok Hc Hhash2 Hleaf.
  intros. apply chunks_map_seq. intros. now apply nd_len. Qed.
Lemma row_length h jj : length (row h jj) = NL.
Proof. clear. unfold row. now rewrite map_length, lanes_length. Qed.

Lemma curx_row h jj cs : (h <= m)%nat -> curx h jj cs -> cs = row h jj.
Proof. clear - Hw.
  intros Hh (C1 & C2 & C3). apply nth_error_ext'.
  - now rewrite row_length.
  - rewrite C2. intros i Hi. rewrite nl_low in C3 by auto.
    specialize (C3 i Hi). replace (NL - NL + i)%nat with i in C3 by lia.
    rewrite C3. unfold row, Lanes.lanes. rewrite nth_error_map_seq by lia.
    now rewrite NLz_NL.
Qed.

Lemma row_curx h jj : (h <= m)%nat -> curx h jj (row h jj).
Proof. clear - Hw Hn Hok Hc Hhash2 Hleaf.
  intros Hh. split; [apply row_chunks; lia|]. split; [apply row_length|].
  rewrite nl_low by auto. intros i Hi. replace (NL - NL + i)%nat with i by lia.
  unfold row, Lanes.lanes. rewrite nth_error_map_seq by lia. now rewrite NLz_NL.
Qed.

Lemma min_div k h : 0 <= k < 2 ^ Z.of_nat m ->
  k / 2 ^ Z.of_nat (Nat.min h m) = k / 2 ^ Z.of_nat h.
Proof. clear - Hw.
  intros Hk. destruct (Nat.le_ge_cases h m) as [Hh|Hh].
  - now rewrite Nat.min_l by lia.
  - rewrite Nat.min_r by lia. rewrite !Z.div_small; auto.
    assert (2 ^ Z.of_nat m <= 2 ^ Z.of_nat h) by (apply Z.pow_le_mono_r; lia). lia.
Qed.

Lemma lvl_bound k h : 0 <= k < 2 ^ Z.of_nat m -> 0 <= k / 2 ^ Z.of_nat h < 2 ^ 32.
Proof. clear - HH.
  intros Hk. pose proof (pow2_pos h) as Hp.
  split; [apply Z.div_pos; lia|].
  assert (2 ^ Z.of_nat m <= 2 ^ 32) by (apply Z.pow_le_mono_r; lia).
  assert (k / 2 ^ Z.of_nat h <= k); [|lia]. apply Z.div_le_upper_bound; [lia|]. nia.
Qed.

Lemma lidx_pos : 0 <= lidx < 2 ^ 32.
Proof. clear - Hlidx HH.
  destruct Hlidx as [Hl|Hl].
  - assert (2 ^ Z.of_nat H <= 2 ^ 32) by (apply Z.pow_le_mono_r; lia). lia.
  - pose proof (pow2_pos (H + w - 1)). lia.
Qed.

(** The authentication path step at height [h]. *)
Lemma authx_step k h cs pl au0 au :
  (h < H)%nat -> 0 <= k < 2 ^ Z.of_nat m ->
  k mod 2 ^ Z.of_nat (Nat.min h m) = 2 ^ Z.of_nat (Nat.min h m) - 1 ->
  curx h (k / 2 ^ Z.of_nat h) cs -> pl = Z.of_nat (NL - nl h) ->
  authx_mid k h au0 au ->
  exists au',
    (if Z.land (Z.lxor (u32 (Z.shiftl (k / 2 ^ Z.of_nat h) (Z.of_nat w))) (lidx / 2 ^ Z.of_nat h))
          (2 ^ 32 - NLz) =? 0
     then x <- rd (concat cs)
                 (Z.to_nat (Z.lxor (Z.land (lidx / 2 ^ Z.of_nat h) (NLz - 1)) 1 + pl) * N) N ;;
          wr (concat au) (h * N) x
     else Some (concat au)) = Some (concat au')
    /\ authx_mid k (S h) au0 au'.
Proof. clear - Hn Hok Hc Hhash2 Hleaf Hw HH Hlidx.
  intros Hh Hk Hlow (C1 & C2 & C3) -> (A1 & A2 & A3).
  pose proof lidx_pos as Hlp. pose proof (pow2_pos h) as Hp2.
  set (jj := k / 2 ^ Z.of_nat h) in *. set (b := lidx / 2 ^ Z.of_nat h).
  assert (Hjj : 0 <= jj) by (apply Z.div_pos; lia).
  assert (Hb : 0 <= b < 2 ^ 32).
  { split; [apply Z.div_pos; lia|]. apply Z.div_lt_upper_bound; [lia|]. nia. }
  assert (HjN : jj * NLz < 2 ^ 32).
  { assert (jj <= k) by (apply Z.div_le_upper_bound; [lia|]; nia).
    assert (2 ^ Z.of_nat m * NLz = 2 ^ Z.of_nat H).
    { unfold Lanes.NLz. rewrite <- Z.pow_add_r by lia. f_equal. lia. }
    assert (2 ^ Z.of_nat H < 2 ^ 32) by (apply Z.pow_lt_mono_r; lia).
    assert (0 < NLz) by (unfold Lanes.NLz; apply pow2_pos). nia. }
  rewrite hit_bits by (auto; lia).
  assert (Ebw : b / NLz = lidx / 2 ^ Z.of_nat (h + w)).
  { unfold b, Lanes.NLz. rewrite Z.div_div by (pose proof (pow2_pos w); lia).
    rewrite <- Z.pow_add_r by lia. now rewrite Nat2Z.inj_add. }
  rewrite Ebw.
  pose proof (succ_j k (Nat.min h m) Hlow) as Hsucc. rewrite min_div in Hsucc by auto. fold jj in Hsucc.
  destruct (done_step (Nat.min h m) (lidx / 2 ^ Z.of_nat (h + w)) jj k Hsucc) as [D1 D2].
  destruct (Z.eqb_spec (lidx / 2 ^ Z.of_nat (h + w)) jj) as [E|E].
  - (* the sibling is one of the lanes *)
    pose proof (lane_sib w b ltac:(lia) ltac:(lia)) as Hsib.
    pose proof (lane_sib_lt w b ltac:(lia) ltac:(lia)) as Hslt.
    remember (Z.lxor (Z.land b (NLz - 1)) 1) as s eqn:Es. clear Es.
    rewrite Ebw, E in Hsib.
    assert (Hs : s < Z.of_nat (nl h) /\ Z.of_nat (nl h) * jj + s = Z.lxor b 1).
    { destruct (Nat.le_gt_cases h m) as [Hm|Hm].
      - rewrite nl_low by auto. rewrite <- NLz_NL. split; [apply Hslt|symmetry; exact Hsib].
      - assert (H0 : jj = 0) by (apply (div_top k m h); [exact Hk|clear - Hm; lia]).
        rewrite H0 in Hsib, E. rewrite H0, Z.mul_0_r, Z.add_0_l in *. split; [|symmetry; exact Hsib].
        destruct Hlidx as [Hl|Hl].
        + rewrite <- Hsib. rewrite nl_high by (apply Nat.lt_le_incl; exact Hm).
          rewrite Nat2Z.inj_pow. apply (sib_top lidx H h Hl Hh).
        + exfalso. pose proof (not_hit_top lidx H w h (proj1 Hl) Hh) as Hq.
          rewrite E in Hq. clear - Hq. lia. }
    destruct Hs as [Hs1 Hs2].
    assert (Hrd : rd (concat cs) (Z.to_nat (s + Z.of_nat (NL - nl h)) * N) N
                  = Some (nd h (sib lidx h))).
    { apply rd_chunk; auto.
      replace (Z.to_nat (s + Z.of_nat (NL - nl h))) with (NL - nl h + Z.to_nat s)%nat
        by (clear - Hslt; lia).
      rewrite C3 by (clear - Hslt Hs1; lia). rewrite Z2Nat.id by apply Hslt. rewrite Hs2.
      unfold b. reflexivity. }
    clear Hslt Hsib Hs1 Hs2 Ebw HjN Hlp Hb.
    rewrite Hrd. cbn [bind].
    exists (upd h (nd h (sib lidx h)) au).
    assert (Hnl : length (nd h (sib lidx h)) = N) by (apply nd_len; clear - Hh; lia).
    assert (D2' : adone h (k + 1) = true) by (unfold adone; rewrite E; exact D2).
    clear - A1 A2 A3 D2' Hnl Hh. split.
    + apply wr_chunk; [exact A1|rewrite A2; exact Hh|exact Hnl].
    + split; [|split].
      * now apply chunks_upd.
      * now rewrite upd_length.
      * intros h' Hh'. destruct (Nat.eq_dec h' h) as [->|Hne].
        -- rewrite nth_error_upd_same by lia.
           replace (h <? S h)%nat with true by (symmetry; apply Nat.ltb_lt; lia).
           rewrite D2'. reflexivity.
        -- rewrite nth_error_upd_other by auto. rewrite A3 by auto.
           destruct (Nat.ltb_spec h' h), (Nat.ltb_spec h' (S h)); auto; lia.
  - exists au. split; [reflexivity|].
    assert (D1' : adone h (k + 1) = adone h k) by (unfold adone; apply D1; exact E).
    clear - A1 A2 A3 D1'. split; [auto|split; [auto|]].
    intros h' Hh'. rewrite A3 by auto.
    destruct (Nat.eq_dec h' h) as [->|Hne].
    + rewrite Nat.ltb_irrefl.
      replace (h <? S h)%nat with true by (symmetry; apply Nat.ltb_lt; lia).
      rewrite D1'. reflexivity.
    + destruct (Nat.ltb_spec h' h), (Nat.ltb_spec h' (S h)); auto; lia.
Qed.

(** The inputs of one multi-lane node hash. *)
Definition inx (bs cs : list bytes) (j : nat) : bytes :=
  if (j <? NL / 2)%nat then nth (2 * j) bs [] ++ nth (2 * j + 1) bs []
  else nth (2 * (j - NL / 2)) cs [] ++ nth (2 * (j - NL / 2) + 1) cs [].

Lemma nth_chunk_len n (cs : list bytes) i : chunks_of n cs -> (i < length cs)%nat ->
  length (nth i cs []) = n.
Proof. clear.
  intros Hc Hi. unfold chunks_of in Hc. rewrite Forall_forall in Hc. apply Hc. now apply nth_In.
Qed.

Lemma inx_len bs cs j : chunks_of N bs -> length bs = NL -> chunks_of N cs -> length cs = NL ->
  (j < NL)%nat -> length (inx bs cs j) = (2 * N)%nat.
Proof. clear - Hw.
  intros B1 B2 C1 C2 Hj. pose proof (NL_half w ltac:(lia)) as E. unfold inx.
  destruct (Nat.ltb_spec j (NL / 2)); rewrite app_length, !(nth_chunk_len N) by (auto; lia); lia.
Qed.

Lemma insx_ok h st bs cs :
  chunks_of (NL * N) st -> nth_error st h = Some (concat bs) ->
  chunks_of N bs -> length bs = NL -> chunks_of N cs -> length cs = NL ->
  mapM (fun j =>
      if (j <? NL / 2)%nat then rd (concat st) (h * NL * N + 2 * j * N) (2 * N)
      else rd (concat cs) (2 * (j - NL / 2) * N) (2 * N)) lanes = Some (map (inx bs cs) lanes).
Proof. clear - Hw.
  intros S1 S2 B1 B2 C1 C2. pose proof (NL_half w ltac:(lia)) as E.
  apply mapM_ok. intros j Hj. apply lanes_in in Hj. unfold inx.
  destruct (Nat.ltb_spec j (NL / 2)) as [Hlt|Hge].
  - rewrite <- Nat.mul_assoc. rewrite (rd_block (NL * N) st h (concat bs)) by (auto; nia).
    apply rd_pair; auto. lia.
  - apply rd_pair; auto. lia.
Qed.

(** Address update of all lanes. *)
Lemma addrsx_ok h i0 la o (a : nat -> Z * Z) :
  mapMi (fun j x =>
      x <- set_tree_height L x (Z.of_nat h + 1) ;;
      set_tree_index L x (u32 (NLz / 2 * i0 + Z.of_nat j - la + o))) 0 (tadr a)
  = Some (tadr (fun j => (Z.of_nat (S h), NLz / 2 * i0 + Z.of_nat j - la + o))).
Proof. clear.
  unfold tadr, Lanes.lanes. apply mapMi_ok. intros j Hj.
  rewrite set_height_enc. cbn [bind]. rewrite set_index_enc, enc_u32.
  unfold with_w2, with_w1; cbn [a_layer a_tree a_type a_kp a_w1 a_w2 fst snd].
  now replace (Z.of_nat h + 1) with (Z.of_nat (S h)) by lia.
Qed.

Lemma land1_even j : (Z.land j 1 =? 0) = Z.even j.
Proof. clear.
  change 1 with (Z.ones 1) at 1. rewrite Z.land_ones by lia. change (2 ^ 1) with 2.
  rewrite Zeven_mod. unfold Zeq_bool, Z.eqb. now destruct (j mod 2).
Qed.

Lemma pow_split h2 h : (S h <= h2)%nat ->
  2 ^ Z.of_nat h2 = 2 ^ Z.of_nat (h2 - S h) * 2 * 2 ^ Z.of_nat h.
Proof. clear.
  intros. rewrite <- (Z.pow_1_r 2) at 3. rewrite <- !Z.pow_add_r by lia. f_equal. lia.
Qed.

Lemma last_odd k h : (h < m)%nat -> k = 2 ^ Z.of_nat m - 1 ->
  (k / 2 ^ Z.of_nat h + 1) * 2 ^ Z.of_nat h = k + 1 -> Z.odd (k / 2 ^ Z.of_nat h) = true.
Proof. clear.
  intros Hm Ek Hsucc. pose proof (pow2_pos h). rewrite <- Z.negb_even.
  set (j := k / 2 ^ Z.of_nat h) in *. clearbody j.
  destruct (Z.even j) eqn:Ej; [exfalso|reflexivity].
  rewrite Ek in Hsucc. replace (2 ^ Z.of_nat m - 1 + 1) with (2 ^ Z.of_nat m) in Hsucc by lia.
  rewrite (pow_split m h Hm) in Hsucc.
  apply Z.mul_reg_r in Hsucc; [|lia]. apply Z.even_spec in Ej. destruct Ej as [q Eq]. lia.
Qed.

Lemma break_auth k h au0 au : (h < m)%nat ->
  (k / 2 ^ Z.of_nat h + 1) * 2 ^ Z.of_nat h = k + 1 -> Z.even (k / 2 ^ Z.of_nat h) = true ->
  authx_mid k (S h) au0 au -> authx_inv (k + 1) au0 au.
Proof. clear.
  intros Hm Hsucc Ej (A1 & A2 & A3). split; [auto|split; [auto|]].
  intros h' Hh'. rewrite A3 by auto.
  destruct (Nat.ltb_spec h' (S h)); auto.
  replace (adone h' (k + 1)) with (adone h' k); [reflexivity|].
  clear A1 A2 A3. unfold adone, done. apply Bool.eq_true_iff_eq. rewrite !Z.leb_le.
  set (h2 := Nat.min h' m). assert (H2 : (S h <= h2)%nat) by lia. clearbody h2.
  set (q := lidx / 2 ^ Z.of_nat (h' + w)). clearbody q.
  pose proof (pow2_pos h). set (j := k / 2 ^ Z.of_nat h) in *. clearbody j.
  assert ((q + 1) * 2 ^ Z.of_nat h2 <> k + 1); [|lia].
  rewrite <- Hsucc. intros E.
  rewrite (pow_split h2 h H2), Z.mul_assoc in E. apply Z.mul_reg_r in E; [|lia].
  apply Z.even_spec in Ej. destruct Ej as [q' Eq]. lia.
Qed.

Lemma break_stack k h st : (h < m)%nat ->
  (k / 2 ^ Z.of_nat h + 1) * 2 ^ Z.of_nat h = k + 1 -> Z.even (k / 2 ^ Z.of_nat h) = true ->
  stackx_inv k st -> stackx_inv (k + 1) (upd h (concat (row h (k / 2 ^ Z.of_nat h))) st).
Proof. clear - Hn Hok Hc Hhash2 Hleaf Hw.
  intros Hm Hsucc Ej (S1 & S2 & S3). split; [|split].
  - apply chunks_upd; auto. rewrite (chunks_length N) by (apply row_chunks; lia).
    now rewrite row_length.
  - now rewrite upd_length.
  - clear - S2 S3 Hm Hsucc Ej.
    pose proof (pow2_pos h) as Hp.
    intros h' Hh' Hodd. destruct (lt_eq_lt_dec h' h) as [[Hlt2|Heq]|Hgt].
    + exfalso. rewrite <- Hsucc in Hodd.
      rewrite (pow_split h h' Hlt2), Z.mul_assoc, Z.div_mul in Hodd by (pose proof (pow2_pos h'); lia).
      rewrite (Z.mul_assoc), Z.mul_comm, Z.odd_mul in Hodd. discriminate.
    + subst h'. rewrite nth_error_upd_same by lia.
      assert (E : (k + 1) / 2 ^ Z.of_nat h - 1 = k / 2 ^ Z.of_nat h).
      { rewrite <- Hsucc, Z.div_mul by lia. lia. }
      now rewrite E.
    + rewrite nth_error_upd_other by lia.
      assert (Eq : (k + 1) / 2 ^ Z.of_nat h' = k / 2 ^ Z.of_nat h').
      { assert (Eh : 2 ^ Z.of_nat h' = 2 ^ Z.of_nat h * (2 * 2 ^ Z.of_nat (h' - S h))).
        { rewrite (pow_split h' h Hgt). ring. }
        rewrite Eh, <- !Z.div_div by (pose proof (pow2_pos (h' - S h)); lia).
        rewrite <- Hsucc, Z.div_mul by lia.
        set (j := k / 2 ^ Z.of_nat h) in *. clearbody j.
        replace ((j + 1) / 2) with (j / 2); [reflexivity|].
        apply Z.even_spec in Ej. destruct Ej as [q ->].
        rewrite (Z.mul_comm 2 q), Z.div_mul, Z.div_add_l by lia.
        rewrite (Z.div_small 1) by lia. lia. }
      rewrite Eq in *. apply S3; auto.
Qed.

Lemma low_S k h : k mod 2 ^ Z.of_nat (Nat.min h m) = 2 ^ Z.of_nat (Nat.min h m) - 1 ->
  ((h < m)%nat -> Z.odd (k / 2 ^ Z.of_nat h) = true) ->
  k mod 2 ^ Z.of_nat (Nat.min (S h) m) = 2 ^ Z.of_nat (Nat.min (S h) m) - 1.
Proof. clear.
  intros Hlow Ho. destruct (Nat.le_gt_cases m h) as [Hm|Hm].
  - rewrite Nat.min_r in * by lia. exact Hlow.
  - specialize (Ho Hm). rewrite Nat.min_l in * by lia. pose proof (pow2_pos h).
    rewrite pow2_S. rewrite (Z.mul_comm 2), Z.rem_mul_r by lia. rewrite Hlow.
    rewrite Zmod_odd, Ho. lia.
Qed.

Lemma get_block k h st : (h < H)%nat -> ((h < m)%nat -> Z.odd (k / 2 ^ Z.of_nat h) = true) ->
  stackx_inv k st ->
  exists bs, chunks_of N bs /\ length bs = NL /\ nth_error st h = Some (concat bs)
    /\ ((h < m)%nat -> bs = row h (k / 2 ^ Z.of_nat h - 1)).
Proof. clear - Hn Hok Hc Hhash2 Hleaf.
  intros Hh Ho (S1 & S2 & S3). destruct (Nat.le_gt_cases m h) as [Hm|Hm].
  - clear Ho S3. assert (Hs : exists b, nth_error st h = Some b).
    { destruct (nth_error st h) eqn:E; [eauto|]. apply nth_error_None in E. lia. }
    destruct Hs as (b & Eb).
    destruct (ex_chunks N NL b) as (bs & B1 & B2 & B3).
    { apply nth_error_In in Eb. unfold chunks_of in S1. rewrite Forall_forall in S1. auto. }
    exists bs. rewrite B3. repeat split; auto; lia.
  - exists (row h (k / 2 ^ Z.of_nat h - 1)). split; [apply row_chunks; lia|].
    split; [apply row_length|]. split; [|auto]. apply S3; auto.
Qed.

(** The lanes after one level. *)
Lemma next_row k h bs cs la : (h < H)%nat -> 0 <= k < 2 ^ Z.of_nat m ->
  curx h (k / 2 ^ Z.of_nat h) cs -> chunks_of N bs -> length bs = NL ->
  ((h < m)%nat -> bs = row h (k / 2 ^ Z.of_nat h - 1)) ->
  ((h < m)%nat -> Z.odd (k / 2 ^ Z.of_nat h) = true) ->
  ((m <= h)%nat -> k / 2 ^ Z.of_nat h = 0 /\ k = 2 ^ Z.of_nat m - 1) ->
  la = Z.of_nat (NL - nl (S h)) ->
  curx (S h) (k / 2 ^ Z.of_nat (S h))
    (map (fun j0 => T (A (Z.of_nat (S h))
            (NLz / 2 * (2 * (k / 2 ^ Z.of_nat h / 2)) + Z.of_nat j0 - la + off / 2 ^ Z.of_nat (S h)))
         (inx bs cs j0)) (seq 0 NL)).
Proof. clear - Hn Hok Hc Hhash2 Hleaf Hw.
  intros Hh Hk (C1 & C2 & C3) B1 B2 B4 Ho Hjm Hla.
  split; [|split; [now rewrite map_length, seq_length|]].
  { apply chunks_map_seq. intros i Hi. apply (codeT_len P HS c Hn Hok Hc 2).
    apply inx_len; auto. clear - Hi. lia. }
  intros i Hi. pose proof (nl_le (S h)) as Hle. pose proof (NL_half w (proj1 Hw)) as Ehalf.
  rewrite nth_error_map_seq by (clear - Hle Hi; lia). cbn [Nat.add]. f_equal.
  assert (Hz : NLz / 2 = Z.of_nat (NL / 2)).
  { rewrite NLz_NL. rewrite Nat2Z.inj_div. reflexivity. }
  rewrite <- (div_pow2_S' k h).
  set (j := k / 2 ^ Z.of_nat h) in *. set (o := off / 2 ^ Z.of_nat (S h)).
  destruct (Nat.le_gt_cases m h) as [Hm|Hm].
  - (* top levels *)
    destruct (Hjm Hm) as [Ej Ek]. rewrite Ej. change (0 / 2) with 0. rewrite !Z.mul_0_r, !Z.add_0_l.
    pose proof (nl_S h (conj Hm Hh)) as EnS. pose proof (nl_le h) as Hle2.
    replace (Z.of_nat (NL - nl (S h) + i) - la + o) with (Z.of_nat i + o) by (clear - Hla; lia).
    unfold o. rewrite Hhash2 by (clear - Hh; lia). cbn [node]. f_equal. unfold inx.
    replace (NL - nl (S h) + i <? NL / 2)%nat with false
      by (symmetry; apply Nat.ltb_ge; clear - EnS Hle2 Ehalf; lia).
    replace (2 * (NL - nl (S h) + i - NL / 2))%nat with (NL - nl h + 2 * i)%nat
      by (clear - EnS Hle2 Ehalf; lia).
    replace (NL - nl h + 2 * i + 1)%nat with (NL - nl h + (2 * i + 1))%nat by (clear; lia).
    assert (I1 : (2 * i < nl h)%nat) by (clear - EnS Hi; lia).
    assert (I2 : (2 * i + 1 < nl h)%nat) by (clear - EnS Hi; lia).
    rewrite (nth_error_nth cs _ [] (C3 _ I1)), (nth_error_nth cs _ [] (C3 _ I2)).
    rewrite Ej. clear. f_equal; f_equal; lia.
  - (* inside the logical tree *)
    specialize (Ho Hm). specialize (B4 Hm). pose proof (div2_odd j Ho) as Ej2.
    rewrite (nl_low (S h)) in * by (clear - Hm; lia). rewrite (nl_low h) in C3 by (clear - Hm; lia).
    rewrite Hla, Nat.sub_diag. cbn [Nat.add].
    change (Z.of_nat 0) with 0. rewrite Z.sub_0_r.
    assert (Eidx : NLz / 2 * (2 * (j / 2)) = Z.of_nat NL * (j / 2)).
    { rewrite Hz. rewrite Ehalf at 2. rewrite Nat2Z.inj_mul. change (Z.of_nat 2) with 2. ring. }
    rewrite Eidx. unfold o. rewrite Hhash2 by (clear - Hh; lia). cbn [node]. f_equal. unfold inx.
    assert (Hrow : forall r, (r < NL)%nat -> nth r (row h (j - 1)) []
                              = nd h (Z.of_nat NL * (j - 1) + Z.of_nat r)).
    { intros r Hr. apply nth_error_nth. unfold row, Lanes.lanes.
      rewrite nth_error_map_seq by exact Hr. cbn [Nat.add]. now rewrite NLz_NL. }
    assert (Hcs : forall r, (r < NL)%nat -> nth r cs [] = nd h (Z.of_nat NL * j + Z.of_nat r)).
    { intros r Hr. apply nth_error_nth. specialize (C3 r Hr). rewrite Nat.sub_diag in C3.
      exact C3. }
    assert (Ej3 : j - 1 = 2 * (j / 2)) by (clear - Ej2; lia).
    set (q := j / 2) in *. clearbody q.
    destruct (Nat.ltb_spec i (NL / 2)) as [Hi2|Hi2].
    + rewrite B4, !Hrow by (clear - Hi2 Ehalf; lia). rewrite Ej3. clear. f_equal; f_equal; lia.
    + rewrite !Hcs by (clear - Hi Hi2 Ehalf; lia). rewrite <- Ej2. clear - Ehalf Hi2.
      set (X := NL) in *. clearbody X. f_equal; f_equal; nia.
Qed.

(** One level: address update, hash, result; [todo] levels remain. *)
Lemma climbx_ok todo : forall h k au0 au st cs la pl a,
  (h + todo = H)%nat -> 0 <= k < 2 ^ Z.of_nat m ->
  k mod 2 ^ Z.of_nat (Nat.min h m) = 2 ^ Z.of_nat (Nat.min h m) - 1 ->
  stackx_inv k st -> authx_mid k h au0 au ->
  curx h (k / 2 ^ Z.of_nat h) cs ->
  la = Z.of_nat (NL - nl h) -> ((h <= m)%nat -> pl = 0) ->
  exists r,
    treehashx_climb P HS LX w c H todo h (k / 2 ^ Z.of_nat h) (lidx / 2 ^ Z.of_nat h)
      (off / 2 ^ Z.of_nat h) k (2 ^ Z.of_nat m - 1) la pl (concat cs)
      (concat st) (concat au) (tadr a) = Some r
    /\ climbx_res k au0 st r.
Proof. clear junk.
  pose proof authx_step as Hastep. clear Hlidx.
  induction todo as [|todo IH]; intros h k au0 au st cs la pl a Hh Hk Hlow Hst Hau Hcur Hla Hpl;
    cbn [treehashx_climb].
  - assert (h = H) as -> by lia.
    assert (Ek : k = 2 ^ Z.of_nat m - 1).
    { rewrite Nat.min_r in Hlow by lia. rewrite Z.mod_small in Hlow; lia. }
    destruct Hcur as (C1 & C2 & C3).
    assert (E1 : nl H = 1%nat) by (rewrite nl_high by lia; now rewrite Nat.sub_diag).
    rewrite E1 in C3. specialize (C3 0%nat ltac:(lia)). rewrite Nat.add_0_r in C3.
    rewrite (rd_chunk N cs (NL - 1) _ C1 C3). cbn [bind].
    assert (E0 : k / 2 ^ Z.of_nat H = 0).
    { apply Z.div_small. assert (2 ^ Z.of_nat m <= 2 ^ Z.of_nat H) by (apply Z.pow_le_mono_r; lia). lia. }
    rewrite E0. change (Z.of_nat 1 * 0 + Z.of_nat 0) with 0.
    eexists. split; [reflexivity|]. constructor; auto.
    destruct Hau as (A1 & A2 & A3). split; [auto|split; [auto|]].
    intros h' Hh'. rewrite A3 by auto.
    destruct (Nat.ltb_spec h' H); auto; lia.
  - assert (Eadj : exists la' pl',
        (if (m <=? h)%nat then (u32 (NLz - 2 ^ Z.of_nat (H - h - 1)), la) else (la, pl)) = (la', pl')
        /\ la' = Z.of_nat (NL - nl (S h)) /\ pl' = Z.of_nat (NL - nl h)
        /\ ((S h <= m)%nat -> pl' = 0)).
    { destruct (Nat.leb_spec m h) as [Hm|Hm].
      - do 2 eexists. split; [reflexivity|]. split; [|split; [auto|lia]].
        apply adj_val. lia.
      - do 2 eexists. split; [reflexivity|]. rewrite Hla, Hpl by lia.
        rewrite !nl_low by lia. rewrite Nat.sub_diag. auto. }
    destruct Eadj as (la' & pl' & -> & Hla' & Hpl' & Hpl2).
    assert (HhH : (h < H)%nat) by (clear - Hh; lia).
    destruct (Hastep k h cs pl' au0 au HhH Hk Hlow Hcur Hpl' Hau) as (au' & Ew & Hau').
    rewrite Ew. cbn [bind]. rewrite land1_even.
    set (j := k / 2 ^ Z.of_nat h) in *.
    pose proof (pow2_pos h) as Hp.
    assert (Hj : 0 <= j < 2 ^ 32).
    { apply lvl_bound. exact Hk. }
    assert (Hjm : (m <= h)%nat -> j = 0 /\ k = 2 ^ Z.of_nat m - 1).
    { intros Hm. split; [exact (div_top k m h Hk Hm)|].
      rewrite Nat.min_r in Hlow by exact Hm. clear - Hlow Hk. rewrite Z.mod_small in Hlow; lia. }
    destruct (Z.even j && (k <? 2 ^ Z.of_nat m - 1)) eqn:Ebr.
    + (* break: a left child *)
      apply andb_prop in Ebr. destruct Ebr as [Ej Elt]. apply Z.ltb_lt in Elt.
      assert (Hm : (h < m)%nat) by (destruct (Nat.le_gt_cases m h) as [Hm|]; [apply Hjm in Hm; lia|auto]).
      rewrite Nat.min_l in Hlow by lia. pose proof (succ_j k h Hlow) as Hsucc. fold j in Hsucc.
      eexists. split; [reflexivity|].
      rewrite (curx_row h j cs) by (auto; lia).
      assert (la' = 0 /\ pl' = 0) as [-> ->].
      { rewrite Hla', Hpl2 by lia. rewrite nl_low by lia. rewrite Nat.sub_diag. auto. }
      constructor; [exact Elt|exact Hm| |].
      * exact (break_auth k h au0 au' Hm Hsucc Ej Hau').
      * exact (break_stack k h st Hm Hsucc Ej Hst).
    + (* climb *)
      assert (Ejd : j / 2 = k / 2 ^ Z.of_nat (S h)) by apply div_pow2_S'.
      rewrite !shiftr1, !div_pow2_S'.
      rewrite land_m2 by auto.
      rewrite addrsx_ok. cbn [bind].
      assert (Ho : (h < m)%nat -> Z.odd j = true).
      { intros Hm. apply Bool.andb_false_iff in Ebr. rewrite <- Z.negb_even.
        destruct Ebr as [->|Ebr]; [reflexivity|]. apply Z.ltb_ge in Ebr.
        rewrite Nat.min_l in Hlow by (clear - Hm; lia). pose proof (succ_j k h Hlow) as Hsucc.
        rewrite Z.negb_even. apply (last_odd k h Hm); [clear - Ebr Hk; lia|exact Hsucc]. }
      destruct (get_block k h st HhH Ho Hst) as (bs & B1 & B2 & B3 & B4).
      destruct Hcur as (C1 & C2 & C3).
      rewrite (insx_ok h st bs cs) by (auto; apply Hst). cbn [bind].
      unfold tadr at 1. rewrite (thashx_enc P HS LX w c Hn Hok Hlx Hc 2) by ((clear; lia) || (intros; apply inx_len; auto)).
      cbn [bind fst snd].
      set (F := fun j0 : nat => T _ (inx bs cs j0)).
      assert (HF : forall i, (i < NL)%nat -> length (F i) = N).
      { intros i Hi. unfold F. apply (codeT_len P HS c Hn Hok Hc 2). apply inx_len; auto. }
      unfold Lanes.lanes at 1 2. rewrite (wrx_all N F NL cs) by auto. cbn [bind].
      assert (Hcur' : curx (S h) (k / 2 ^ Z.of_nat (S h)) (map F (seq 0 NL))).
      { apply (next_row k h bs cs la' HhH Hk (conj C1 (conj C2 C3)) B1 B2 B4 Ho Hjm Hla'). }
      destruct (IH (S h) k au0 au' st (map F (seq 0 NL)) la' pl'
                  (fun j0 => (Z.of_nat (S h), NLz / 2 * (2 * (j / 2)) + Z.of_nat j0 - la'
                                              + off / 2 ^ Z.of_nat (S h))))
        as (r & Er & Hr); [clear - Hh; lia|exact Hk| |exact Hst|exact Hau'|exact Hcur'|exact Hla'
                          |exact Hpl2|].
      { exact (low_S k h Hlow Ho). }
      rewrite <- Ejd in Er. exists r. split; [|exact Hr]. exact Er.
Qed.

Section Loop.
Context {G : Type}.
Variable gen_leafx : G -> Z -> option (bytes * G).
Variable Ginv : Z -> G -> Prop.
Hypothesis Hgen : forall k g, 0 <= k < 2 ^ Z.of_nat m -> Ginv k g ->
  exists g', gen_leafx g (u32 (NLz * k + off)) = Some (concat (row 0 k), g') /\ Ginv (k + 1) g'.

Lemma treehashx_loop_ok fuel k au0 au st a g :
  0 <= k < 2 ^ Z.of_nat m -> Z.of_nat fuel = 2 ^ Z.of_nat m - k ->
  stackx_inv k st -> authx_inv k au0 au -> Ginv k g ->
  exists au' a' g',
    treehashx_loop P HS LX w c gen_leafx lidx off fuel H k (2 ^ Z.of_nat m - 1) 0 0
      (concat st) (concat au) (tadr a) g
    = Some (nd H 0, concat au', tadr a', g')
    /\ authx_inv (2 ^ Z.of_nat m) au0 au' /\ Ginv (2 ^ Z.of_nat m) g'.
Proof.
  revert k au st a g. induction fuel as [|fuel IH];
    intros k au st a g Hk Hf Hst Hau Hg; [lia|]. cbn [treehashx_loop].
  destruct (Hgen k g Hk Hg) as (g1 & Eg & Hg1). rewrite Eg. cbn [bind].
  destruct (climbx_ok H 0 k au0 au st (row 0 k) 0 0 a) as (r & Er & Hr); auto.
  { cbn [Nat.min]. apply Z.mod_1_r. }
  { change (2 ^ Z.of_nat 0) with 1. rewrite Z.div_1_r. apply row_curx. lia. }
  { rewrite nl_low by lia. now rewrite Nat.sub_diag. }
  change (2 ^ Z.of_nat 0) with 1 in Er. rewrite !Z.div_1_r in Er.
  rewrite Er. cbn [bind]. destruct Hr as [au' a' Ek Hau' | h au' a' Hlt Hh Hau' Hst'].
  - do 3 eexists. split; [reflexivity|]. replace (2 ^ Z.of_nat m) with (k + 1) by lia. auto.
  - rewrite <- Nat.mul_assoc. rewrite wr_chunk.
    + cbn [bind]. apply IH; auto; lia.
    + apply Hst.
    + destruct Hst as (_ & -> & _). lia.
    + rewrite (chunks_length N) by (apply row_chunks; lia). now rewrite row_length.
Qed.

Theorem treehashx_ok au0 a g :
  chunks_of N au0 -> length au0 = H -> Ginv 0 g ->
  exists au' a' g',
    treehashx P HS LX w c junk gen_leafx lidx off H (concat au0) (tadr a) g
    = Some (nd H 0, concat au', tadr a', g')
    /\ authx_inv (2 ^ Z.of_nat m) au0 au' /\ Ginv (2 ^ Z.of_nat m) g'.
Proof.
  intros Hc0 Hl0 Hg. unfold treehashx.
  replace (w <=? H)%nat with true by (symmetry; apply Nat.leb_le; lia). cbn [guard bind].
  destruct (ex_chunks (NL * N) H (junk_bytes (junk 11%nat) (H * NL * N))) as (st & S1 & S2 & S3).
  { rewrite junk_length. ring. }
  rewrite <- S3. pose proof (pow2_pos m). apply treehashx_loop_ok; auto.
  - lia.
  - rewrite Nat2Z.inj_pow. lia.
  - split; [auto|split; [auto|]]. intros h _. rewrite Zdiv_0_l. discriminate.
  - split; [auto|split; [auto|]]. intros h Hh. unfold adone, done.
    replace ((lidx / 2 ^ Z.of_nat (h + w) + 1) * 2 ^ Z.of_nat (Nat.min h m) <=? 0) with false; auto.
    symmetry. apply Z.leb_gt. pose proof (pow2_pos (Nat.min h m)).
    assert (0 <= lidx / 2 ^ Z.of_nat (h + w)); [|nia].
    apply Z.div_pos; [apply lidx_pos|apply pow2_pos].
Qed.
End Loop.

Lemma authx_full au0 au :
  0 <= lidx < 2 ^ Z.of_nat H -> authx_inv (2 ^ Z.of_nat m) au0 au ->
  au = auth_path leaf hash2 H lidx.
Proof. clear - Hw.
  intros Hi (A1 & A2 & A3). apply nth_error_ext'.
  - now rewrite auth_path_length.
  - rewrite A2. intros h Hh. rewrite A3 by auto.
    replace (adone h (2 ^ Z.of_nat m)) with true.
    + unfold auth_path. rewrite nth_error_map_seq by lia. cbn [Nat.add].
      now rewrite sib_sibling by lia.
    + symmetry. unfold adone, done. apply Z.leb_le.
      pose proof (pow2_pos (h + w)) as Hp.
      destruct (Nat.le_gt_cases h m) as [Hm|Hm].
      * rewrite Nat.min_l by lia.
        assert (E : 2 ^ Z.of_nat m = 2 ^ Z.of_nat (m - h) * 2 ^ Z.of_nat h).
        { rewrite <- Z.pow_add_r by lia. f_equal. lia. }
        rewrite E. apply Z.mul_le_mono_nonneg_r; [pose proof (pow2_pos h); lia|].
        assert (lidx / 2 ^ Z.of_nat (h + w) < 2 ^ Z.of_nat (m - h)); [|lia].
        apply Z.div_lt_upper_bound; [lia|]. rewrite <- Z.pow_add_r by lia.
        replace (Z.of_nat (h + w) + Z.of_nat (m - h)) with (Z.of_nat H) by lia. lia.
      * rewrite Nat.min_r by lia. rewrite Z.div_small; [lia|].
        assert (2 ^ Z.of_nat H <= 2 ^ Z.of_nat (h + w)) by (apply Z.pow_le_mono_r; lia). lia.
Qed.

Lemma authx_none au0 au :
  2 ^ Z.of_nat (H + w - 1) <= lidx -> length au0 = H ->
  authx_inv (2 ^ Z.of_nat m) au0 au -> au = au0.
Proof. clear - Hw.
  intros Hi Hl (A1 & A2 & A3). apply nth_error_ext'; [congruence|].
  rewrite A2. intros h Hh. rewrite A3 by auto.
  replace (adone h (2 ^ Z.of_nat m)) with false; [reflexivity|].
  symmetry. unfold adone, done. apply Z.leb_gt.
  pose proof (pow2_pos (h + w)) as Hp. pose proof (pow2_pos (Nat.min h m)) as Hp2.
  assert (Hq : 2 ^ Z.of_nat (H - 1 - h) <= lidx / 2 ^ Z.of_nat (h + w)).
  { apply Z.div_le_lower_bound; [lia|]. rewrite <- Z.pow_add_r by lia.
    replace (Z.of_nat (h + w) + Z.of_nat (H - 1 - h)) with (Z.of_nat (H + w - 1)) by lia. lia. }
  destruct (Nat.le_gt_cases h m) as [Hm|Hm].
  - rewrite Nat.min_l in * by lia.
    assert (2 ^ Z.of_nat (H - 1 - h) * 2 ^ Z.of_nat h = 2 ^ Z.of_nat (H - 1)).
    { rewrite <- Z.pow_add_r by lia. f_equal. lia. }
    assert (2 ^ Z.of_nat m <= 2 ^ Z.of_nat (H - 1)) by (apply Z.pow_le_mono_r; lia). nia.
  - rewrite Nat.min_r in * by lia. pose proof (pow2_pos (H - 1 - h)). nia.
Qed.
End Trees.
