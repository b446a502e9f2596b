(** wots.c of the multi-lane code computes the WOTS+ of the specification. *)
From Verif Require Import Base BaseFacts Params Address Suite Wots Spec SpecFacts AdrsEnc
  AddressProofs Refine TreeProofs WotsDigitsProofs WotsProofs Lanes LaneFacts LaneSortProofs
  LaneChainProofs LaneTreeProofs.

Lemma updl_updl {A} cs (pos : A -> nat) f g l :
  NoDup l -> (forall a b, In a l -> In b l -> pos a = pos b -> a = b) ->
  (forall a, In a l -> (pos a < length cs)%nat) ->
  updl (updl cs pos f l) pos g l = updl cs pos g l.
Proof.
  intros Hnd Hinj Hlt. apply nth_error_ext'; [now rewrite !updl_length|].
  rewrite !updl_length. intros p Hp.
  destruct (in_dec Nat.eq_dec p (map pos l)) as [Hin|Hin].
  - apply in_map_iff in Hin. destruct Hin as (a & <- & Ha).
    rewrite !updl_same; auto. intros; rewrite updl_length; auto.
  - rewrite !updl_other; auto; intros a Ha E; apply Hin, in_map_iff; eauto.
Qed.

Lemma updl_ext {A} (pos : A -> nat) f g l : forall cs,
  (forall a, In a l -> f a = g a) -> updl cs pos f l = updl cs pos g l.
Proof.
  unfold updl. induction l as [|a l IH]; intros cs H; cbn [fold_left]; [reflexivity|].
  rewrite (H a) by now left. apply IH. intros; apply H; now right.
Qed.

Lemma concat_concat' {A} (l : list (list (list A))) : concat (concat l) = concat (map (@concat A) l).
Proof. induction l as [|x l IH]; cbn [concat map]; [auto|]. now rewrite concat_app, IH. Qed.

Lemma concat_nil_Forall {A} (l : list (list A)) : Forall (fun x => x = []) l -> concat l = [].
Proof. induction 1 as [|x l -> _ IH]; auto. Qed.

Lemma concat_len {A} n (l : list (list A)) : (forall x, In x l -> length x = n) ->
  length (concat l) = (length l * n)%nat.
Proof.
  induction l as [|x l IH]; intros H; cbn [concat length]; [auto|].
  rewrite app_length, (H x), IH by (try (now left); intros; apply H; now right). lia.
Qed.

Lemma nth_error_concat_u {A} n (l : list (list A)) x : forall j i,
  (forall y, In y l -> length y = n) -> nth_error l j = Some x -> (i < n)%nat ->
  nth_error (concat l) (j * n + i) = nth_error x i.
Proof.
  induction l as [|y l IH]; intros j i H Hj Hi; [destruct j; discriminate|].
  assert (Hy : length y = n) by (apply H; now left). cbn [concat].
  destruct j as [|j]; cbn [nth_error] in Hj.
  - injection Hj as ->. cbn [Nat.mul Nat.add]. now rewrite nth_error_app1 by lia.
  - rewrite nth_error_app2 by (cbn [Nat.mul]; lia).
    replace (S j * n + i - length y)%nat with (j * n + i)%nat by (cbn [Nat.mul]; lia).
    apply IH; auto. intros; apply H; now right.
Qed.

Section Wotsx.
Variable P : params.
Variable HS : suite.
Variable LX : lane_fns HS.
Variable lw : nat.
Variable c : ctx (hs_st HS).
Variable junk : nat -> nat -> Z.
Notation N := (p_n P).
Notation L := (hs_layout HS).
Notation W := (SPX_WOTS_W P).
Notation LEN := (SPX_WOTS_LEN P).
Hypothesis Hwf : wf_params P = true.
Hypothesis Hok : suite_ok P HS.
Hypothesis Hlx : lanes_ok P HS LX lw.
Hypothesis Hc : ctx_ok P HS c.
Notation T := (codeT P HS c).
Notation PRF := (codePRF HS c).
Notation D := (dims_of P).
Notation nl := (NL lw).

Let Hn : (1 <= N)%nat. Proof. pose proof (wf_n P Hwf). lia. Qed.
Let HW : 2 <= W <= 256. Proof. split; [apply (W_pos P Hwf)|apply (W_le_256 P Hwf)]. Qed.

Variables layer tree : Z.

(** shake-avx2/wots.c:163-178 *)
Theorem wots_pk_from_sigx_gen kp ls cs msg w1 w2 :
  chain_lengths P msg = Some ls -> length ls = LEN -> Forall (fun l => 0 <= l < W) ls ->
  chunks_of N cs -> length cs = LEN -> 0 <= w2 < 256 ->
  wots_pk_from_sigx P HS LX lw c junk (concat cs) msg (enc L (mkAdrs layer tree T_WOTS_HASH kp w1 w2))
  = Some (concat (pk_blocks P HS c layer tree kp ls cs),
          enc L (mkAdrs layer tree T_WOTS_HASH kp w1 w2)).
Proof.
  intros Els Hls Hr Hch Hlen Hw2. unfold wots_pk_from_sigx. rewrite Els. cbn [bind].
  assert (Hrn : forall i, (i < LEN)%nat -> 0 <= nth i ls 0 < W).
  { intros i Hi. apply (proj1 (Forall_forall _ _) Hr). apply nth_In. lia. }
  assert (Est : forall i, (i < LEN)%nat ->
            nth i (map (fun s => u32 (W - 1 - s)) ls) 0 = W - 1 - nth i ls 0).
  { intros i Hi. rewrite (nth_indep _ 0 (u32 (W - 1 - 0))) by (rewrite map_length; lia).
    rewrite (map_nth (fun s => u32 (W - 1 - s))). specialize (Hrn i Hi). apply Z.mod_small. lia. }
  rewrite <- (app_nil_r (concat cs)).
  rewrite (gen_chains_ok P HS LX lw c junk Hwf Hok Hlx Hc layer tree kp); auto.
  - cbn [bind]. do 3 f_equal. apply map_ext_in. intros i Hi. apply in_seq in Hi.
    rewrite Est by lia. reflexivity.
  - now rewrite map_length.
  - intros i Hi. rewrite Est by auto. specialize (Hrn i Hi). lia.
Qed.

(** ** wots_gen_leafx4 *)
(** Where lane [j]'s chain [i] is in the buffer. *)
Definition bp (i j : nat) : nat := (j * LEN + i)%nat.

Lemma pkb_bp i j : pkb P i j = (bp i j * N)%nat.
Proof. clear. unfold pkb, bp, SPX_WOTS_BYTES. lia. Qed.
Lemma bp_inj i a b : (i < LEN)%nat -> bp i a = bp i b -> a = b.
Proof. clear. unfold bp. intros. assert (0 < LEN)%nat by lia. nia. Qed.
Lemma bp_lt i j : (i < LEN)%nat -> (j < nl)%nat -> (bp i j < nl * LEN)%nat.
Proof. clear. unfold bp. intros. assert (S j * LEN <= nl * LEN)%nat by (apply Nat.mul_le_mono_r; lia). lia. Qed.
Lemma bp_inj2 i i' j j' : (i < LEN)%nat -> (i' < LEN)%nat -> bp i j = bp i' j' -> i = i'.
Proof. clear. unfold bp. intros H1 H2 E. 
  apply (f_equal (fun x => x mod LEN)%nat) in E.
  rewrite !(Nat.add_comm (_ * LEN)), !Nat.mod_add, !Nat.mod_small in E by lia. auto.
Qed.

Section Leafx.
(** The keypair index of each lane. *)
Variable kf : nat -> Z.
Notation WA := (fun j i w2 => mkAdrs layer tree T_WOTS_HASH (kf j) i w2).
Notation chn := (fun j => chain T layer tree (kf j)).

Lemma wots_leafx_chain_ok fuel i k wk si bs f sg w2 :
  length bs = (nl * LEN)%nat -> chunks_of N bs -> (i < LEN)%nat -> (si < nl)%nat ->
  (forall j, (j < nl)%nat -> length (f j) = N) -> 0 <= w2 < 256 -> 0 <= k < W ->
  Z.of_nat fuel = W - k -> chunks_of N sg -> (i < length sg)%nat ->
  exists w2',
    wots_leafx_chain P HS LX lw c fuel i k wk si (concat (updl bs (bp i) f (lanes lw))) (concat sg)
      (map (fun j => enc L (WA j (Z.of_nat i) w2)) (lanes lw))
    = Some (concat (updl bs (bp i) (fun j => chn j (Z.of_nat i) (f j) k (Z.to_nat (W - 1 - k))) (lanes lw)),
            concat (if (k <=? wk) && (wk <? W)
                    then upd i (chn si (Z.of_nat i) (f si) k (Z.to_nat (wk - k))) sg else sg),
            map (fun j => enc L (WA j (Z.of_nat i) w2')) (lanes lw))
    /\ 0 <= w2' < 256.
Proof. clear junk.
  revert k f sg w2. induction fuel as [|fuel IH]; intros k f sg w2 Hbs Hbc Hi Hsi Hf Hw2 Hk Hfu Hsg Hsl; [lia|].
  cbn [wots_leafx_chain].
  assert (Hinj : forall a b, In a (lanes lw) -> In b (lanes lw) -> bp i a = bp i b -> a = b)
    by (intros a b _ _; apply bp_inj; auto).
  assert (Hlt : forall a, In a (lanes lw) -> (bp i a < length bs)%nat).
  { intros a Ha. apply lanes_in in Ha. rewrite Hbs. apply bp_lt; auto. }
  assert (Hnd : NoDup (lanes lw)) by apply seq_NoDup.
  assert (Hch : chunks_of N (updl bs (bp i) f (lanes lw))).
  { apply updl_chunks; auto. intros j Hj. apply lanes_in in Hj. auto. }
  assert (Hrd : forall j, (j < nl)%nat ->
             rd (concat (updl bs (bp i) f (lanes lw))) (pkb P i j) N = Some (f j)).
  { intros j Hj. rewrite pkb_bp. apply rd_chunk; auto. apply updl_same; auto. now apply lanes_in. }
  set (sg1 := if k =? wk then upd i (f si) sg else sg).
  assert (Ew : (if k =? wk
                then x <- rd (concat (updl bs (bp i) f (lanes lw))) (pkb P i si) N ;; wr (concat sg) (i * N) x
                else Some (concat sg)) = Some (concat sg1)).
  { unfold sg1. destruct (k =? wk); [|reflexivity]. rewrite Hrd by auto. cbn [bind].
    apply wr_chunk; auto. }
  rewrite Ew. cbn [bind].
  assert (Hsg1 : chunks_of N sg1 /\ length sg1 = length sg).
  { unfold sg1. destruct (k =? wk); [split; [apply chunks_upd; auto|apply upd_length]|auto]. }
  destruct Hsg1 as [Hs1 Hs2].
  destruct (Z.eqb_spec k (W - 1)) as [E|E].
  - exists w2. split; auto. do 3 f_equal.
    + f_equal. replace (Z.to_nat (W - 1 - k)) with O by lia. reflexivity.
    + f_equal. unfold sg1. destruct (Z.eqb_spec k wk) as [E'|E'].
      * replace ((k <=? wk) && (wk <? W)) with true by lia.
        now replace (Z.to_nat (wk - k)) with O by lia.
      * now replace ((k <=? wk) && (wk <? W)) with false by lia.
  - rewrite mapM_map, (mapM_ok _ (fun j => enc L (WA j (Z.of_nat i) k))).
    2:{ intros j _. rewrite set_hash_enc by (cbn [a_w2]; lia). reflexivity. }
    cbn [bind]. rewrite (mapM_ok _ f) by (intros j Hj; apply Hrd, lanes_in; auto). cbn [bind].
    rewrite (thashx_enc P HS LX lw c Hn Hok Hlx Hc 1 f (fun j => WA j (Z.of_nat i) k))
      by ((clear; lia) || (intros; rewrite Hf; auto; lia)).
    cbn [bind].
    set (y := fun j => T (WA j (Z.of_nat i) k) (f j)).
    assert (Hy : forall j, (j < nl)%nat -> length (y j) = N).
    { intros j Hj. apply (codeT_len P HS c Hn Hok Hc 1). rewrite Hf by auto. lia. }
    rewrite (map_ext (pkb P i) (fun j => bp i j * N)%nat) by (intros; apply pkb_bp).
    rewrite (wrx_updl N (bp i) y); auto.
    2:{ intros j Hj. rewrite updl_length. split; [auto|]. apply Hy. now apply lanes_in. }
    cbn [bind]. rewrite updl_updl by auto.
    destruct (IH (k + 1) y sg1 k) as (w2' & E' & Hw'); auto; try lia.
    exists w2'. split; auto. rewrite E'. do 3 f_equal.
    + f_equal. apply updl_ext. intros j _.
      replace (Z.to_nat (W - 1 - k)) with (S (Z.to_nat (W - 1 - (k + 1)))) by lia.
      now rewrite chain_front.
    + f_equal. unfold sg1. destruct (Z.eqb_spec k wk) as [E1|E1].
      * replace ((k + 1 <=? wk) && (wk <? W)) with false by lia.
        replace ((k <=? wk) && (wk <? W)) with true by lia.
        now replace (Z.to_nat (wk - k)) with O by lia.
      * destruct ((k <=? wk) && (wk <? W)) eqn:E2.
        -- replace ((k + 1 <=? wk) && (wk <? W)) with true by lia.
           replace (Z.to_nat (wk - k)) with (S (Z.to_nat (wk - (k + 1)))) by lia.
           now rewrite chain_front.
        -- now replace ((k + 1 <=? wk) && (wk <? W)) with false by lia.
Qed.

Definition fullb (j : nat) : list bytes := full_blocks P HS c layer tree (kf j).

Lemma fullb_chunks j : chunks_of N (fullb j).
Proof. clear junk.
  unfold fullb, full_blocks. apply chunks_map_seq. intros i _.
  apply (chain_len P HS c Hwf Hok Hc). apply (codePRF_len P HS c Hok Hc).
Qed.
Lemma fullb_length j : length (fullb j) = LEN.
Proof. clear. unfold fullb, full_blocks. now rewrite map_length, seq_length. Qed.
Lemma fullb_nth j i : (i < LEN)%nat ->
  nth_error (fullb j) i = Some (chn j (Z.of_nat i) (wots_sk PRF layer tree (kf j) i) 0 (Z.to_nat (W - 1))).
Proof. clear. intros. unfold fullb, full_blocks. now rewrite nth_error_map_seq. Qed.

(** The buffer when all chains are done. *)
Lemma buffer_full bs : length bs = (nl * LEN)%nat ->
  (forall j i, (j < nl)%nat -> (i < LEN)%nat -> nth_error bs (bp i j) = nth_error (fullb j) i) ->
  concat bs = concat (map (fun j => concat (fullb j)) (lanes lw)).
Proof. clear.
  intros Hl Hb. rewrite <- (map_map fullb (@concat Z)), <- concat_concat'. f_equal.
  destruct (Nat.eq_dec LEN 0) as [E0|E0].
  - assert (length bs = 0)%nat by (rewrite Hl, E0; lia). destruct bs; [|discriminate].
    symmetry. apply concat_nil_Forall. apply Forall_forall. intros x Hx. apply in_map_iff in Hx.
    destruct Hx as (j & <- & _). apply length_zero_iff_nil. rewrite fullb_length. auto.
  - assert (Hlc : length (concat (map fullb (lanes lw))) = (nl * LEN)%nat).
    { rewrite (concat_len LEN); [now rewrite map_length, lanes_length|].
      intros x Hx. apply in_map_iff in Hx. destruct Hx as (j & <- & _). apply fullb_length. }
    apply nth_error_ext'; [congruence|]. rewrite Hl. intros p Hp.
    assert (Hj : (p / LEN < nl)%nat) by (apply Nat.div_lt_upper_bound; lia).
    assert (Hi : (p mod LEN < LEN)%nat) by (apply Nat.mod_upper_bound; auto).
    assert (Ep : p = bp (p mod LEN) (p / LEN)).
    { unfold bp. rewrite Nat.mul_comm. apply Nat.div_mod; auto. }
    rewrite Ep at 1. rewrite Hb by auto. rewrite Ep at 3.
    unfold bp. symmetry. apply nth_error_concat_u; auto.
    + intros x Hx. apply in_map_iff in Hx. destruct Hx as (j & <- & _). apply fullb_length.
    + unfold lanes. rewrite nth_error_map_seq by auto. reflexivity.
Qed.
End Leafx.

(** What the info structure holds between groups of leaves. *)
Definition infox_ok (sl : Z) (ls : list Z) (sg : list bytes) (g : leaf_infox) : Prop :=
  wx_sig g = concat sg /\ chunks_of N sg /\ length sg = LEN /\
  wx_sign_leaf g = sl /\ wx_steps g = ls /\
  (exists ty (k0 : nat -> Z) w1 w2,
     wx_leaf_addr g = map (fun j => enc L (mkAdrs layer tree ty (k0 j) w1 w2)) (lanes lw)
     /\ 0 <= w2 < 256) /\
  (exists k0 : nat -> Z,
     wx_pk_addr g = map (fun j => enc L (mkAdrs layer tree T_WOTS_PK (k0 j) 0 0)) (lanes lw)).

Lemma land_lane x : 0 <= x -> Z.land x (NLz lw - 1) = x mod NLz lw.
Proof. clear.
  intros Hx. unfold NLz. change (2 ^ Z.of_nat lw - 1) with (Z.pred (2 ^ Z.of_nat lw)).
  rewrite <- Z.ones_equiv. apply Z.land_ones. lia.
Qed.

Lemma wots_gen_leafx_ok sl ls sg g k :
  (lw <= 32)%nat -> 0 <= k -> NLz lw * k + NLz lw <= 2 ^ 32 -> 0 <= sl < 2 ^ 32 ->
  infox_ok sl ls sg g -> length ls = LEN -> Forall (fun l => 0 <= l < W) ls ->
  exists g',
    wots_gen_leafx P HS LX lw c junk g (NLz lw * k)
    = Some (concat (map (fun j => wots_pk D T PRF layer tree (NLz lw * k + Z.of_nat j)) (lanes lw)), g')
    /\ infox_ok sl ls (if sl / NLz lw =? k then sign_blocks P HS c layer tree sl ls else sg) g'.
Proof.
  intros Hlw Hk Hk32 Hsl (G1 & G2 & G3 & G4 & G5 & (ty & k0 & w1 & w2 & G6 & Hw2) & (k1 & G7)) Hls Hr.
  pose proof (NLz_NL lw) as HNL. pose proof (NL_pos lw) as Hpos.
  set (kf := fun j => NLz lw * k + Z.of_nat j).
  unfold wots_gen_leafx. rewrite G4, G5, G6, G7.
  assert (Ehit : (Z.land (Z.lxor (NLz lw * k) sl) (2 ^ 32 - NLz lw) =? 0) = (sl / NLz lw =? k)).
  { rewrite <- (hit_bits lw k sl); auto; [|lia]. do 3 f_equal.
    rewrite Z.shiftl_mul_pow2 by lia. fold (NLz lw). unfold u32. rewrite Z.mod_small by lia. lia. }
  rewrite Ehit. rewrite land_lane by lia. clear Ehit.
  remember (sl / NLz lw =? k) as hit eqn:Ehit. symmetry in Ehit.
  set (si := if hit then Z.to_nat (sl mod NLz lw) else 0%nat).
  assert (Hsi : (si < nl)%nat).
  { unfold si. destruct hit; [|auto]. pose proof (Z.mod_pos_bound sl (NLz lw) ltac:(lia)). lia. }
  assert (Hksi : hit = true -> kf si = sl).
  { intros E. unfold kf, si. rewrite E. rewrite E in Ehit. apply Z.eqb_eq in Ehit.
    pose proof (Z.mod_pos_bound sl (NLz lw) ltac:(lia)). rewrite Z2Nat.id by lia.
    rewrite <- Ehit. symmetry. apply Z.div_mod. lia. }
  assert (Hkf : forall j, (j < nl)%nat -> u32 (NLz lw * k + Z.of_nat j) = kf j).
  { intros j Hj. unfold kf. apply Z.mod_small. lia. }
  unfold lanes at 1 2.
  rewrite (mapMi_ok _ _ (fun j => enc L (mkAdrs layer tree ty (kf j) w1 w2))).
  2:{ intros j Hj. rewrite Hkf by lia. rewrite set_keypair_enc. reflexivity. }
  cbn [bind].
  rewrite (mapMi_ok _ _ (fun j => enc L (mkAdrs layer tree T_WOTS_PK (kf j) 0 0))).
  2:{ intros j Hj. rewrite Hkf by lia. rewrite set_keypair_enc. reflexivity. }
  cbn [bind]. fold (lanes lw). rewrite G1.
  clear G1 G4 G5 G6 G7.
  set (f := fun (i : nat) _ => _).
  destruct (ex_chunks N (nl * LEN) (junk_bytes (junk 14%nat) (nl * SPX_WOTS_BYTES P))) as (js & J1 & J2 & J3).
  { rewrite junk_length. unfold SPX_WOTS_BYTES. lia. }
  destruct (iterM_inv LEN 0 f (fun i (s : bytes * bytes * list bytes) => exists bs ss ty w1 w2,
      s = (concat bs, concat ss, map (fun j => enc L (mkAdrs layer tree ty (kf j) w1 w2)) (lanes lw)) /\
      chunks_of N bs /\ length bs = (nl * LEN)%nat /\ chunks_of N ss /\ length ss = LEN /\ 0 <= w2 < 256
      /\ (forall j i', (j < nl)%nat -> (i' < i)%nat -> nth_error bs (bp i' j) = nth_error (fullb kf j) i')
      /\ (if hit then forall j, (j < i)%nat -> nth_error ss j = nth_error (sign_blocks P HS c layer tree sl ls) j
          else ss = sg))
      (junk_bytes (junk 14%nat) (nl * SPX_WOTS_BYTES P), concat sg,
       map (fun j => enc L (mkAdrs layer tree ty (kf j) w1 w2)) (lanes lw)))
    as (s' & Es & Hs).
  - exists js, sg, ty, w1, w2. rewrite J3.
    destruct hit; repeat split; auto; try lia.
  - intros i s Hi (bs & ss & ty' & v1 & v2 & -> & B1 & B2 & S1 & S2 & Hv & B3 & S3). unfold f.
    destruct (nth_error ls i) as [l|] eqn:El; [|apply nth_error_None in El; lia].
    unfold get. rewrite El. cbn [bind].
    assert (Hl : 0 <= l < W).
    { apply (proj1 (Forall_forall _ _) Hr). eapply nth_error_In; eauto. }
    rewrite mapM_map, (mapM_ok _ (fun j => enc L (mkAdrs layer tree T_WOTS_PRF (kf j) (Z.of_nat i) 0))).
    2:{ intros j _. rewrite set_chain_enc. cbn [bind]. rewrite set_hash_enc by (cbn [a_w2 with_w1]; lia).
        cbn [bind]. rewrite set_type_enc. reflexivity. }
    cbn [bind].
    rewrite (prf_addrx_enc P HS LX lw c Hok Hlx Hc). cbn [bind].
    set (x := fun j => wots_sk PRF layer tree (kf j) i).
    assert (Hx : forall j, length (x j) = N) by (intros; apply (codePRF_len P HS c Hok Hc)).
    rewrite (map_ext (pkb P i) (fun j => bp i j * N)%nat) by (intros; apply pkb_bp).
    change (fun j : nat => codePRF HS c (mkAdrs layer tree T_WOTS_PRF (kf j) (Z.of_nat i) 0)) with x.
    rewrite (wrx_updl N (bp i) x); auto.
    2:{ intros j Hj. apply lanes_in in Hj. split; [rewrite B2; apply bp_lt; lia|auto]. }
    cbn [bind].
    rewrite mapM_map, (mapM_ok _ (fun j => enc L (mkAdrs layer tree T_WOTS_HASH (kf j) (Z.of_nat i) 0))).
    2:{ intros j _. rewrite set_type_enc. reflexivity. }
    cbn [bind].
    rewrite (lor_mask P) by lia.
    set (wk := if hit then l else 2 ^ 32 - 1).
    destruct (wots_leafx_chain_ok kf (Z.to_nat W) i 0 wk si bs x ss 0) as (w2' & E & Hw'); auto; try lia.
    rewrite E. rewrite !Z.sub_0_r.
    set (y := fun j => chain T layer tree (kf j) (Z.of_nat i) (x j) 0 (Z.to_nat (W - 1))).
    assert (Hy : forall j, length (y j) = N) by (intros; apply (chain_len P HS c Hwf Hok Hc); auto).
    eexists. split; [reflexivity|].
    exists (updl bs (bp i) y (lanes lw)),
      (if hit then upd i (chain T layer tree sl (Z.of_nat i) (wots_sk PRF layer tree sl i) 0 (Z.to_nat l)) ss
       else ss), T_WOTS_HASH, (Z.of_nat i), w2'.
    split; [|split; [|split; [|split; [|split; [|split; [|split]]]]]].
    + do 3 f_equal. unfold wk. destruct hit.
      * replace ((0 <=? l) && (l <? W)) with true by lia. unfold x. now rewrite Hksi.
      * now replace ((0 <=? 2 ^ 32 - 1) && (2 ^ 32 - 1 <? W)) with false by lia.
    + apply updl_chunks; auto.
    + now rewrite updl_length.
    + destruct hit; auto. apply chunks_upd; auto. apply (chain_len P HS c Hwf Hok Hc).
      apply (codePRF_len P HS c Hok Hc).
    + destruct hit; auto. now rewrite upd_length.
    + auto.
    + intros j i' Hj Hi'. destruct (Nat.eq_dec i' i) as [->|Hne].
      * rewrite (updl_same (bp i) y (lanes lw) j); auto.
        -- rewrite fullb_nth by lia. reflexivity.
        -- apply seq_NoDup.
        -- intros a b _ _. apply bp_inj. lia.
        -- intros a Ha. apply lanes_in in Ha. rewrite B2. apply bp_lt; lia.
        -- now apply lanes_in.
      * rewrite updl_other; [apply B3; auto; lia|].
        intros a _ Ea. apply bp_inj2 in Ea; lia.
    + destruct hit; auto. intros j Hj. destruct (Nat.eq_dec j i) as [->|].
      * rewrite nth_error_upd_same by lia. unfold sign_blocks. rewrite nth_error_map_seq by lia.
        cbn [Nat.add]. now rewrite (nth_error_nth _ _ 0 El).
      * rewrite nth_error_upd_other by auto. apply S3. lia.
  - destruct Hs as (bs & ss & ty' & v1 & v2 & -> & B1 & B2 & S1 & S2 & Hv & B3 & S3).
    rewrite Es. cbn [bind].
    rewrite (buffer_full kf bs B2) by (intros; apply B3; auto).
    rewrite (mapM_ok _ (fun j => concat (fullb kf j))).
    2:{ intros j Hj. apply lanes_in in Hj. apply rd_chunk.
        - unfold lanes. apply chunks_map_seq. intros a _.
          rewrite (chunks_length N) by apply fullb_chunks. now rewrite fullb_length.
        - unfold lanes. now rewrite nth_error_map_seq. }
    cbn [bind].
    rewrite (thashx_enc P HS LX lw c Hn Hok Hlx Hc LEN (fun j => concat (fullb kf j))
               (fun j => mkAdrs layer tree T_WOTS_PK (kf j) 0 0)).
    2:{ now apply wf_len. }
    2:{ intros j _. rewrite (chunks_length N) by apply fullb_chunks. now rewrite fullb_length. }
    cbn [bind].
    destruct (ex_chunks N nl (junk_bytes (junk 15%nat) (nl * N))) as (js' & J1' & J2' & J3').
    { apply junk_length. }
    rewrite <- J3'. unfold lanes at 1 2. rewrite wrx_all; auto.
    2:{ intros j _. apply (codeT_len P HS c Hn Hok Hc LEN).
        rewrite (chunks_length N) by apply fullb_chunks. now rewrite fullb_length. }
    cbn [bind]. eexists. split; [reflexivity|].
    assert (ss = if hit then sign_blocks P HS c layer tree sl ls else sg) as ->.
    { destruct hit; auto.
      apply nth_error_ext'; [unfold sign_blocks; now rewrite map_length, seq_length|].
      intros j Hj. apply S3. lia. }
    unfold infox_ok. cbn [wx_sig wx_sign_leaf wx_steps wx_leaf_addr wx_pk_addr].
    repeat split; auto.
    + exists ty', kf, v1, v2. auto.
    + exists kf. reflexivity.
Qed.
End Wotsx.
