(** gen_chains of the multi-lane code (shake-avx2/wots.c:22-103) advances every chain by its own
    number of steps, whatever order it works in. *)
From Verif Require Import Base BaseFacts Params Address Suite Wots Spec SpecFacts AdrsEnc
  AddressProofs Refine TreeProofs WotsDigitsProofs WotsProofs Lanes LaneFacts LaneSortProofs.

(** Writes through pointers, some of them to the dummy buffer. *)
Lemma wrp_updl n (v : nat) (pos : nat -> nat) (f : nat -> bytes) l : forall cs e,
  chunks_of n cs -> length e = n ->
  (forall j, In j l -> (j < v)%nat -> (pos j < length cs)%nat) ->
  (forall j, In j l -> length (f j) = n) ->
  exists e', wrp (concat cs) e (map (fun j => if (j <? v)%nat then POut (n * pos j) else PEmpty) l)
               (map f l)
             = Some (concat (updl cs pos f (filter (fun j => (j <? v)%nat) l)), e') /\ length e' = n.
Proof.
  induction l as [|j l IH]; intros cs e Hc He Hp Hf; cbn [map wrp filter]; [eauto|].
  assert (Hfj : length (f j) = n) by (apply Hf; now left).
  destruct (Nat.ltb_spec j v) as [Hj|Hj].
  - rewrite Nat.mul_comm, wr_chunk; auto; [|apply Hp; auto; now left]. cbn [bind].
    destruct (IH (upd (pos j) (f j) cs) e) as (e' & E & He'); auto.
    + apply chunks_upd; auto.
    + intros a Ha Hv. rewrite upd_length. apply Hp; auto. now right.
    + intros; apply Hf; now right.
    + exists e'. split; auto.
  - rewrite wr_ok by lia. cbn [bind firstn app Nat.add].
    rewrite skipn_all2 by lia. rewrite app_nil_r.
    apply IH; auto; intros; [apply Hp; auto|apply Hf]; now right.
Qed.

Section Chains.
Variable P : params.
Variable HS : suite.
Variable LX : lane_fns HS.
Variable lw : nat.
Variable c : ctx (hs_st HS).
Notation N := (p_n P).
Notation L := (hs_layout HS).
Notation W := (SPX_WOTS_W P).
Notation LEN := (SPX_WOTS_LEN P).
Hypothesis Hn : (1 <= N)%nat.
Hypothesis HW : 2 <= W <= 256.
Hypothesis Hok : suite_ok P HS.
Hypothesis Hlx : lanes_ok P HS LX lw.
Hypothesis Hc : ctx_ok P HS c.
Notation T := (codeT P HS c).
Notation nl := (NL lw).
Variables layer tree kp : Z.
Notation WA := (fun i w2 => mkAdrs layer tree T_WOTS_HASH kp i w2).
Notation chn := (chain T layer tree kp).

(** Chain q runs from [t q] for [sg q] steps; [ps q] is its place in the order [pi]. *)
Variables start steps idxs : list Z.
Variable t : nat -> Z.
Variable sg ps pi : nat -> nat.
Hypothesis Hsteps : forall q, (q < LEN)%nat -> get steps q = Some (Z.of_nat (sg q)).
Hypothesis Hstart : forall q, (q < LEN)%nat -> get start q = Some (t q).
Hypothesis Hidxs : forall p, (p < LEN)%nat -> get idxs p = Some (Z.of_nat (pi p)).
Hypothesis Hpi : forall p, (p < LEN)%nat -> (pi p < LEN)%nat.
Hypothesis Hps : forall q, (q < LEN)%nat -> (ps q < LEN)%nat.
Hypothesis Hpp : forall p, (p < LEN)%nat -> ps (pi p) = p.
Hypothesis Hpq : forall q, (q < LEN)%nat -> pi (ps q) = q.
Hypothesis Hsort : forall p q, (p <= q < LEN)%nat -> (sg (pi q) <= sg (pi p))%nat.
Hypothesis Hsg : forall q, (q < LEN)%nat -> (sg q < Z.to_nat W)%nat.
Hypothesis Ht : forall q, (q < LEN)%nat -> 0 <= t q /\ t q + Z.of_nat (sg q) <= 256.
Variable x : nat -> bytes.
Hypothesis Hx : forall q, (q < LEN)%nat -> length (x q) = N.

Definition outv (prog : nat -> nat) : list bytes :=
  map (fun q => chn (Z.of_nat q) (x q) (t q) (prog q)) (seq 0 LEN).
(** Before group [i], and inside it after [k] steps. *)
Definition progb (i q : nat) : nat := if (ps q <? i)%nat then sg q else 0%nat.
Definition prog (i k q : nat) : nat :=
  if (ps q <? i)%nat then sg q else if (ps q <? i + nl)%nat then Nat.min k (sg q) else 0%nat.

Lemma chn_len i q s k : (q < LEN)%nat -> length (chn i (x q) s k) = N.
Proof. clear - Hn Hok Hc Hx.
  intros Hq. induction k as [|k IH]; cbn [chain]; [auto|].
  apply (codeT_len P HS c Hn Hok Hc 1). lia.
Qed.

Lemma outv_chunks pr : chunks_of N (outv pr).
Proof. clear - Hn Hok Hc Hx. apply chunks_map_seq. intros j Hj. apply chn_len. lia. Qed.
Lemma outv_length pr : length (outv pr) = LEN.
Proof. clear. unfold outv. now rewrite map_length, seq_length. Qed.
Lemma outv_nth pr q : (q < LEN)%nat ->
  nth_error (outv pr) q = Some (chn (Z.of_nat q) (x q) (t q) (pr q)).
Proof. clear. intros. unfold outv. now rewrite nth_error_map_seq. Qed.
Lemma outv_ext p1 p2 : (forall q, (q < LEN)%nat -> p1 q = p2 q) -> outv p1 = outv p2.
Proof. clear. intros H. apply map_ext_in. intros q Hq. apply in_seq in Hq. now rewrite H by lia. Qed.

(** The buffers while the first [v] lanes are running. *)
Definition bufn (i v : nat) : list bufptr :=
  map (fun j => if (j <? v)%nat then POut (N * pi (i + j)) else PEmpty) (lanes lw).

Lemma set_buf_bufn i w : (w < nl)%nat -> set_buf (bufn i (S w)) w PEmpty = Some (bufn i w).
Proof. clear.
  intros Hw. unfold set_buf, bufn. rewrite map_length, lanes_length.
  replace (w <? nl)%nat with true by (symmetry; apply Nat.ltb_lt; auto). f_equal.
  unfold lanes. replace nl with (w + S (nl - S w))%nat by lia.
  rewrite seq_app, !map_app. rewrite firstn_app, map_length, seq_length, Nat.sub_diag.
  cbn [firstn seq map Nat.add]. rewrite app_nil_r.
  rewrite firstn_all2 by (rewrite map_length, seq_length; auto).
  rewrite skipn_app, map_length, seq_length.
  rewrite skipn_all2 by (rewrite map_length, seq_length; auto).
  replace (S w - w)%nat with 1%nat by lia. cbn [skipn app].
  replace (w <? w)%nat with false by (symmetry; apply Nat.ltb_ge; auto).
  f_equal; [|f_equal].
  - apply map_ext_in. intros j Hj. apply in_seq in Hj.
    replace (j <? S w)%nat with true by (symmetry; apply Nat.ltb_lt; lia).
    replace (j <? w)%nat with true by (symmetry; apply Nat.ltb_lt; lia). auto.
  - apply map_ext_in. intros j Hj. apply in_seq in Hj.
    replace (j <? S w)%nat with false by (symmetry; apply Nat.ltb_ge; lia).
    replace (j <? w)%nat with false by (symmetry; apply Nat.ltb_ge; lia). auto.
Qed.

Lemma retire_ok i k w : (w < nl)%nat -> (i + w < LEN)%nat ->
  (exists b, retire w (Z.of_nat k) i steps idxs (bufn i (S w)) = Some (0%nat, true, b)
     /\ forall j, (j <= w)%nat -> sg (pi (i + j)) = k)
  \/ (exists w', retire w (Z.of_nat k) i steps idxs (bufn i (S w)) = Some (w', false, bufn i (S w'))
     /\ (w' <= w)%nat /\ sg (pi (i + w')) <> k /\ forall j, (w' < j <= w)%nat -> sg (pi (i + j)) = k).
Proof. clear - Hsteps Hidxs Hpi.
  induction w as [|w IH]; intros Hw Hi; cbn [retire]; rewrite Hidxs by auto; cbn [bind];
    rewrite Nat2Z.id, Hsteps by auto; cbn [bind];
    match goal with |- context [?a =? ?b] => destruct (Z.eqb_spec a b) as [E|E] end.
  - rewrite set_buf_bufn by auto. cbn [bind]. left. eexists. split; [reflexivity|].
    intros j Hj. replace j with 0%nat by lia. lia.
  - right. exists 0%nat. repeat split; auto; lia.
  - rewrite set_buf_bufn by auto. cbn [bind].
    destruct IH as [(b & E1 & H1)|(w' & E1 & H1 & H2 & H3)]; try lia.
    + left. exists b. split; auto. intros j Hj.
      destruct (Nat.eq_dec j (S w)) as [->|]; [lia|]. apply H1. lia.
    + right. exists w'. repeat split; auto; try lia. intros j Hj.
      destruct (Nat.eq_dec j (S w)) as [->|]; [lia|]. apply H3. lia.
  - right. exists (S w). repeat split; auto; lia.
Qed.

(** One step of the running lanes. *)
Lemma outv_step i k v (f : nat -> bytes) :
  (v <= nl)%nat -> (i + v <= LEN)%nat ->
  (forall j, (j < v)%nat -> (k < sg (pi (i + j)))%nat) ->
  (forall j, (v <= j < nl)%nat -> (i + j < LEN)%nat -> (sg (pi (i + j)) <= k)%nat) ->
  (forall j, (j < v)%nat -> let q := pi (i + j) in
     f j = T (WA (Z.of_nat q) (t q + Z.of_nat k)) (chn (Z.of_nat q) (x q) (t q) k)) ->
  updl (outv (prog i k)) (fun j => pi (i + j)) f (filter (fun j => (j <? v)%nat) (lanes lw))
  = outv (prog i (S k)).
Proof. clear - Hpi Hps Hpp Hpq.
  intros Hv Hiv Hrun Hdone Hf. apply nth_error_ext'; [now rewrite updl_length, !outv_length|].
  rewrite updl_length, outv_length. intros q Hq. rewrite outv_nth by auto.
  assert (Hin : forall j, In j (filter (fun j => (j <? v)%nat) (lanes lw)) <-> (j < v)%nat).
  { intros j. rewrite filter_In, lanes_in, Nat.ltb_lt. lia. }
  destruct (le_lt_dec i (ps q)) as [Hge|Hlt].
  - destruct (le_lt_dec (i + v) (ps q)) as [Hge'|Hlt'].
    + rewrite updl_other.
      * rewrite outv_nth by auto. do 2 f_equal. unfold prog.
        destruct (Nat.ltb_spec (ps q) i); auto.
        destruct (Nat.ltb_spec (ps q) (i + nl)); auto.
        assert (sg q <= k)%nat; [|lia].
        rewrite <- (Hpq q Hq). specialize (Hps q Hq).
        replace (ps q) with (i + (ps q - i))%nat by lia. apply Hdone; lia.
      * intros j Hj E. apply Hin in Hj. rewrite <- E, Hpp in Hge' by lia. lia.
    + assert (Eq : pi (i + (ps q - i)) = q)
        by (replace (i + (ps q - i))%nat with (ps q) by lia; auto).
      transitivity (nth_error (updl (outv (prog i k)) (fun j => pi (i + j)) f
          (filter (fun j => (j <? v)%nat) (lanes lw))) (pi (i + (ps q - i)))); [now rewrite Eq|].
      rewrite (updl_same (fun j => pi (i + j)) f _ (ps q - i)%nat).
      * rewrite Hf by lia. cbv zeta. rewrite Eq. f_equal. unfold prog.
        specialize (Hrun (ps q - i)%nat ltac:(lia)). rewrite Eq in Hrun.
        destruct (Nat.ltb_spec (ps q) i); [lia|].
        destruct (Nat.ltb_spec (ps q) (i + nl)); [|lia].
        rewrite Nat.min_l by lia. reflexivity.
      * apply NoDup_filter, seq_NoDup.
      * intros a b Ha Hb E. apply Hin in Ha, Hb. apply (f_equal ps) in E. rewrite !Hpp in E; lia.
      * intros a Ha. apply Hin in Ha. rewrite outv_length. apply Hpi. lia.
      * apply Hin. lia.
  - rewrite updl_other.
    + rewrite outv_nth by auto. do 2 f_equal. unfold prog.
      destruct (Nat.ltb_spec (ps q) i); [auto|lia].
    + intros j Hj E. apply Hin in Hj. rewrite <- E, Hpp in Hlt by lia. lia.
Qed.

Lemma chains_loop_ok i m : m = Nat.min nl (LEN - i) ->
  forall fuel k w a1 a2 e,
  (w < m)%nat -> (i < LEN)%nat ->
  (forall j, (j <= w)%nat -> (k <= sg (pi (i + j)))%nat) ->
  (forall j, (w < j < m)%nat -> (sg (pi (i + j)) <= k)%nat) ->
  (forall j, (j < m)%nat -> a1 j = Z.of_nat (pi (i + j))) ->
  (forall j, 0 <= a2 j < 256) -> length e = N -> (Z.to_nat W <= fuel + k)%nat ->
  exists a2' e',
    chains_loop P HS LX lw c fuel (Z.of_nat k) w i start steps idxs (bufn i (S w))
      (map (fun j => enc L (WA (a1 j) (a2 j))) (lanes lw)) (concat (outv (prog i k))) e
    = Some (concat (outv (progb (i + nl))), e', map (fun j => enc L (WA (a1 j) (a2' j))) (lanes lw))
    /\ (forall j, 0 <= a2' j < 256) /\ length e' = N.
Proof.
  intros Em fuel. induction fuel as [|fuel IH]; intros k w a1 a2 e Hw Hi HA HB Ha1 Ha2 He Hf.
  { exfalso. specialize (HA 0%nat ltac:(lia)). specialize (Hsg (pi (i + 0)) ltac:(apply Hpi; lia)). lia. }
  cbn [chains_loop].
  destruct (retire_ok i k w) as [(b & E & H1)|(w' & E & H1 & H2 & H3)]; try lia.
  - rewrite E. cbn [bind]. exists a2, e. split; [|auto]. do 3 f_equal. f_equal.
    apply outv_ext. intros q Hq. unfold prog, progb.
    destruct (Nat.ltb_spec (ps q) i) as [|Hge];
      destruct (Nat.ltb_spec (ps q) (i + nl)) as [Hlt|]; auto; [lia|].
    assert (sg q <= k)%nat; [|lia]. rewrite <- (Hpq q Hq). specialize (Hps q Hq).
    replace (ps q) with (i + (ps q - i))%nat by lia.
    destruct (le_lt_dec (ps q - i) w); [rewrite H1 by auto; auto|apply HB; lia].
  - rewrite E. cbn [bind].
    assert (Hrun : forall j, (j < S w')%nat -> (k < sg (pi (i + j)))%nat).
    { intros j Hj. specialize (Hsort (i + j)%nat (i + w')%nat ltac:(lia)).
      specialize (HA w' H1). lia. }
    assert (Hdone : forall j, (S w' <= j < m)%nat -> (sg (pi (i + j)) <= k)%nat).
    { intros j Hj. destruct (le_lt_dec j w); [rewrite H3 by lia; auto|apply HB; lia]. }
    set (a2n := fun j => if (j <? w' + 1)%nat then Z.of_nat k + t (pi (i + j)) else a2 j).
    assert (Hb2 : forall j, 0 <= a2n j < 256).
    { intros j. unfold a2n. destruct (Nat.ltb_spec j (w' + 1)) as [Hj|]; [|auto].
      specialize (Ht (pi (i + j)) ltac:(apply Hpi; lia)). specialize (Hrun j ltac:(lia)). lia. }
    unfold lanes at 1.
    rewrite (mapMi_ok _ _ (fun j => enc L (WA (a1 j) (a2n j)))).
    2:{ intros j Hj. unfold a2n. destruct (Nat.ltb_spec j (w' + 1)) as [Hj'|Hj']; [|auto].
        rewrite Hidxs by lia. cbn [bind]. rewrite Nat2Z.id, Hstart by (apply Hpi; lia). cbn [bind].
        specialize (Hb2 j). unfold a2n in Hb2.
        replace (j <? w' + 1)%nat with true in Hb2 by (symmetry; apply Nat.ltb_lt; lia).
        replace (u32 (Z.of_nat k + t (pi (i + j)))) with (Z.of_nat k + t (pi (i + j)))
          by (symmetry; apply Z.mod_small; lia).
        rewrite set_hash_enc by (cbn [a_w2]; auto). reflexivity. }
    cbn [bind]. fold (lanes lw).
    set (inp := fun j => if (j <? S w')%nat
                         then chn (Z.of_nat (pi (i + j))) (x (pi (i + j))) (t (pi (i + j))) k else e).
    assert (Hinp : forall j, length (inp j) = N).
    { intros j. unfold inp. destruct (Nat.ltb_spec j (S w')); [|auto]. apply chn_len. apply Hpi. lia. }
    unfold bufn at 1. rewrite mapM_map, (mapM_ok _ inp).
    2:{ intros j Hj. apply lanes_in in Hj. unfold inp. destruct (Nat.ltb_spec j (S w')) as [Hj'|Hj'].
        - cbn [rdp]. rewrite Nat.mul_comm. apply rd_chunk; [apply outv_chunks|].
          rewrite outv_nth by (apply Hpi; lia). do 2 f_equal. unfold prog.
          rewrite Hpp by lia. specialize (Hrun j Hj').
          destruct (Nat.ltb_spec (i + j) i); [lia|].
          destruct (Nat.ltb_spec (i + j) (i + nl)); lia.
        - cbn [rdp]. now apply rd_all. }
    cbn [bind].
    rewrite (thashx_enc P HS LX lw c Hn Hok Hlx Hc 1 inp (fun j => WA (a1 j) (a2n j)))
      by (try lia; intros; rewrite Hinp; lia).
    cbn [bind].
    destruct (wrp_updl N (S w') (fun j => pi (i + j)) (fun j => T (WA (a1 j) (a2n j)) (inp j)) (lanes lw)
                (outv (prog i k)) e) as (e' & Ew & He'); auto.
    { apply outv_chunks. }
    { intros j _ Hj. rewrite outv_length. apply Hpi. lia. }
    { intros j _. apply (codeT_len P HS c Hn Hok Hc 1). rewrite Hinp. lia. }
    unfold bufn at 1. rewrite Ew. cbn [bind].
    rewrite outv_step; auto; try lia.
    2:{ intros j Hj Hj'. apply Hdone. lia. }
    2:{ intros j Hj. cbv zeta. unfold inp, a2n. rewrite Ha1 by lia.
        replace (j <? w' + 1)%nat with true by (symmetry; apply Nat.ltb_lt; lia).
        replace (j <? S w')%nat with true by (symmetry; apply Nat.ltb_lt; lia).
        now rewrite (Z.add_comm (Z.of_nat k)). }
    replace (Z.of_nat k + 1) with (Z.of_nat (S k)) by lia.
    destruct (IH (S k) w' a1 a2n e') as (a2' & e2 & E2 & H2' & H3'); try exact Ha1; try exact Hb2; try exact He'; try lia.
    { intros j Hj. apply Hrun. lia. }
    { intros j Hj. specialize (Hdone j ltac:(lia)). lia. }
    exists a2', e2. auto.
Qed.

Lemma chains_group_ok i a1 a2 e : (i < LEN)%nat ->
  (forall j, 0 <= a2 j < 256) -> length e = N ->
  exists a1' a2' e',
    chains_group P HS LX lw c start steps idxs i
      (map (fun j => enc L (WA (a1 j) (a2 j))) (lanes lw), concat (outv (progb i)), e)
    = Some (map (fun j => enc L (WA (a1' j) (a2' j))) (lanes lw), concat (outv (progb (i + nl))), e')
    /\ (forall j, 0 <= a2' j < 256) /\ length e' = N.
Proof.
  intros Hi Ha2 He. unfold chains_group. pose proof (NL_pos lw) as Hnl.
  set (a1' := fun j => if (i + j <? LEN)%nat then Z.of_nat (pi (i + j)) else a1 j).
  unfold lanes at 1.
  rewrite (mapMi_ok _ _ (fun j => enc L (WA (a1' j) (a2 j)))).
  2:{ intros j Hj. unfold a1'. destruct (Nat.ltb_spec (i + j) LEN); [|auto].
      rewrite Hidxs by auto. cbn [bind]. rewrite set_chain_enc. reflexivity. }
  cbn [bind]. fold (lanes lw).
  set (m := Nat.min nl (LEN - i)).
  rewrite (mapM_ok _ (fun j => if (j <? m)%nat then POut (N * pi (i + j)) else PEmpty)).
  2:{ intros j Hj. apply lanes_in in Hj. destruct (Nat.ltb_spec (i + j) LEN).
      - rewrite Hidxs by auto. cbn [bind]. rewrite Nat2Z.id.
        replace (j <? m)%nat with true by (symmetry; apply Nat.ltb_lt; lia). auto.
      - replace (j <? m)%nat with false by (symmetry; apply Nat.ltb_ge; lia). auto. }
  cbn [bind]. fold (bufn i m).
  destruct (chains_loop_ok i m eq_refl (S (Z.to_nat W)) 0 (m - 1) a1' a2 e) as (a2' & e' & E & H1 & H2);
    auto; try lia.
  { intros j Hj. unfold a1'. now replace (i + j <? LEN)%nat with true by (symmetry; apply Nat.ltb_lt; lia). }
  rewrite (outv_ext (progb i) (prog i 0)).
  2:{ intros q Hq. unfold progb, prog. destruct (ps q <? i)%nat; [auto|]. now destruct (ps q <? i + nl)%nat. }
  replace (S (m - 1)) with m in E by lia.
  change (Z.of_nat 0) with 0 in E. rewrite E. cbn [bind]. exists a1', a2', e'. auto.
Qed.

Lemma chains_all a1 a2 e :
  (forall j, 0 <= a2 j < 256) -> length e = N ->
  exists a1' a2' e',
    iterM ((LEN + nl - 1) / nl) 0 (fun g s => chains_group P HS LX lw c start steps idxs (g * nl) s)
      (map (fun j => enc L (WA (a1 j) (a2 j))) (lanes lw), concat (outv (fun _ => 0%nat)), e)
    = Some (map (fun j => enc L (WA (a1' j) (a2' j))) (lanes lw), concat (outv sg), e').
Proof.
  intros Ha2 He. pose proof (NL_pos lw) as Hnl.
  assert (HG : forall g, (g < (LEN + nl - 1) / nl)%nat -> (g * nl < LEN)%nat).
  { clear - Hnl. intros g Hg. pose proof (Nat.mul_div_le (LEN + nl - 1) nl ltac:(lia)).
    assert (S g * nl <= (LEN + nl - 1) / nl * nl)%nat by (apply Nat.mul_le_mono_r; lia). lia. }
  assert (HE : (LEN <= (LEN + nl - 1) / nl * nl)%nat).
  { clear - Hnl. pose proof (Nat.div_mod (LEN + nl - 1) nl ltac:(lia)).
    pose proof (Nat.mod_upper_bound (LEN + nl - 1) nl ltac:(lia)). lia. }
  remember ((LEN + nl - 1) / nl)%nat as G eqn:EG. clear EG.
  destruct (iterM_inv G 0 (fun g s => chains_group P HS LX lw c start steps idxs (g * nl) s)
     (fun g s => exists a1 a2 e,
       s = (map (fun j => enc L (WA (a1 j) (a2 j))) (lanes lw), concat (outv (progb (g * nl))), e)
       /\ (forall j, 0 <= a2 j < 256) /\ length e = N)
     (map (fun j => enc L (WA (a1 j) (a2 j))) (lanes lw), concat (outv (fun _ => 0%nat)), e))
     as (s & E & a1' & a2' & e' & -> & H1 & H2).
  - exists a1, a2, e. auto.
  - intros g s Hg (b1 & b2 & e1 & -> & H1 & H2).
    destruct (chains_group_ok (g * nl) b1 b2 e1) as (b1' & b2' & e1' & E & H1' & H2'); auto.
    { apply HG. lia. }
    rewrite E. eexists. split; [reflexivity|]. exists b1', b2', e1'.
    replace (S g * nl)%nat with (g * nl + nl)%nat by lia. auto.
  - rewrite E. exists a1', a2', e'. do 4 f_equal.
    apply outv_ext. intros q Hq. unfold progb. specialize (Hps q Hq).
    replace (ps q <? (0 + G) * nl)%nat with true; [auto|]. symmetry; apply Nat.ltb_lt. cbn [Nat.add]. lia.
Qed.
End Chains.

Lemma wf_len P : wf_params P = true -> (SPX_WOTS_LEN P <= 256)%nat.
Proof. unfold wf_params. lia. Qed.

Section GenChains.
Variable P : params.
Variable HS : suite.
Variable LX : lane_fns HS.
Variable lw : nat.
Variable c : ctx (hs_st HS).
Variable junk : nat -> nat -> Z.
Notation N := (p_n P).
Notation L := (hs_layout HS).
Notation W := (SPX_WOTS_W P).
Notation LEN := (SPX_WOTS_LEN P).
Hypothesis Hwf : wf_params P = true.
Hypothesis Hok : suite_ok P HS.
Hypothesis Hlx : lanes_ok P HS LX lw.
Hypothesis Hc : ctx_ok P HS c.
Variables layer tree kp : Z.
Notation WA := (fun i w2 => mkAdrs layer tree T_WOTS_HASH kp i w2).
Notation chn := (chain (codeT P HS c) layer tree kp).

Theorem gen_chains_ok cs start steps w1 w2 rest :
  chunks_of N cs -> length cs = LEN -> length start = LEN -> length steps = LEN ->
  (forall i, (i < LEN)%nat -> 0 <= nth i steps 0 < W /\ 0 <= nth i start 0
                              /\ nth i start 0 + nth i steps 0 <= W) ->
  0 <= w2 < 256 ->
  gen_chains P HS LX lw c junk (concat cs ++ rest) start steps (enc L (WA w1 w2))
  = Some (concat (map (fun i => chn (Z.of_nat i) (nth i cs []) (nth i start 0)
                                  (Z.to_nat (nth i steps 0))) (seq 0 LEN))).
Proof.
  intros Hcs Hl Hst Hls Hr Hw2.
  assert (Hn : (1 <= N)%nat) by (pose proof (wf_n P Hwf); lia).
  assert (HW : 2 <= W <= 256) by (split; [apply (W_pos P Hwf)|apply (W_le_256 P Hwf)]).
  assert (HLEN : (LEN <= 256)%nat).
  { clear - Hwf. apply (wf_len P Hwf). }
  assert (Hrange : Forall (fun s => 0 <= s < W) steps).
  { apply Forall_forall. intros s Hs. apply In_nth with (d := 0) in Hs.
    destruct Hs as (i & Hi & <-). apply Hr. lia. }
  destruct (sort_ok P HW HLEN steps Hls Hrange junk) as (idxs & Es & Li & Hp).
  unfold gen_chains.
  rewrite rd_app0 by (rewrite (chunks_length N), Hl; auto).
  cbn [bind]. unfold SPX_WOTS_BYTES in *.
  destruct (count_steps P steps) as [c1|] eqn:E1; [|discriminate]. cbn [bind] in Es |- *.
  destruct (prefix_counts P c1) as [c2|] eqn:E2; [|discriminate]. cbn [bind] in Es |- *.
  rewrite Es. cbn [bind].
  set (ps := pos P steps). set (pi := fun p => Z.to_nat (nth p idxs 0)).
  assert (Hpi : forall p, (p < LEN)%nat -> (pi p < LEN)%nat /\ ps (pi p) = p
                                           /\ get idxs p = Some (Z.of_nat (pi p))).
  { intros p Hpl. destruct (Hp p Hpl) as (i & Hi & Ei & En). unfold pi.
    rewrite (nth_error_nth _ _ 0 En), Nat2Z.id. auto. }
  assert (Hps : forall q, (q < LEN)%nat -> (ps q < LEN)%nat).
  { intros q Hq. apply (pos_lt P steps); auto. }
  assert (Hinj : forall a b, (a < LEN)%nat -> (b < LEN)%nat -> ps a = ps b -> a = b).
  { intros a b. apply (pos_inj P steps). }
  destruct (chains_all P HS LX lw c Hn HW Hok Hlx Hc layer tree kp start steps idxs
              (fun q => nth q start 0) (fun q => Z.to_nat (nth q steps 0)) ps pi)
    with (x := fun q => nth q cs []) (a1 := fun _ : nat => w1) (a2 := fun _ : nat => w2)
         (e := junk_bytes (junk 13%nat) N) as (a1' & a2' & e' & E); auto.
  - intros q Hq. destruct (Hr q Hq) as (? & _). rewrite Z2Nat.id by lia. apply nth_error_nth'. lia.
  - intros q Hq. apply nth_error_nth'. lia.
  - intros p Hp'. apply Hpi. auto.
  - intros p Hp'. apply Hpi. auto.
  - intros p Hp'. apply Hpi. auto.
  - intros q Hq. apply Hinj; auto; [apply Hpi; auto|]. apply Hpi; auto.
  - intros p q Hpq. destruct (Hpi p ltac:(lia)) as (P1 & P2 & _).
    destruct (Hpi q ltac:(lia)) as (Q1 & Q2 & _).
    destruct (Hr (pi p) P1) as (? & _). destruct (Hr (pi q) Q1) as (? & _).
    destruct (Z.le_gt_cases (nth (pi q) steps 0) (nth (pi p) steps 0)); [lia|].
    assert (Hlt : (ps (pi q) < ps (pi p))%nat) by (apply (pos_sorted P steps); auto; lia). lia.
  - intros q Hq. destruct (Hr q Hq) as (? & _). lia.
  - intros q Hq. destruct (Hr q Hq) as (? & ? & ?). split; [lia|]. rewrite Z2Nat.id by lia. lia.
  - intros q Hq. apply chunks_nth; auto. lia.
  - apply junk_length.
  - assert (Eo : concat cs = concat (outv P HS c layer tree kp (fun q => nth q start 0)
                   (fun q => nth q cs []) (fun _ => 0%nat))).
    { f_equal. apply nth_error_ext'; [now rewrite outv_length|].
      intros j Hj. rewrite outv_nth by lia. cbn [chain]. apply nth_error_nth'. auto. }
    rewrite Eo, E. reflexivity.
Qed.
End GenChains.
