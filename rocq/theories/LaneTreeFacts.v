(** treehashx2/x4/x8 against treehashx1. *)
From Verif Require Import Base BaseFacts Params Address Suite Utils Spec SpecFacts AdrsEnc
  AddressProofs Refine TreeProofs CoreFacts2 Lanes LaneFacts LaneTreeProofs.

(** treehashx1 never writes the path for an index outside the tree. *)
Lemma sib_outside H i h : 2 ^ Z.of_nat H <= i -> (h < H)%nat ->
  done h (sib i h) (2 ^ Z.of_nat H) = false.
Proof.
  intros Hi Hh. pose proof (pow2_pos H) as HpH. unfold done. apply Z.leb_gt.
  rewrite sib_sibling by lia. unfold sibling.
  set (j := i / 2 ^ Z.of_nat h). pose proof (pow2_pos h).
  assert (E : 2 ^ Z.of_nat H = 2 ^ Z.of_nat (H - S h) * 2 * 2 ^ Z.of_nat h).
  { rewrite <- (Z.pow_1_r 2) at 3. rewrite <- !Z.pow_add_r by lia. f_equal. lia. }
  assert (2 ^ Z.of_nat (H - S h) * 2 <= j).
  { apply Z.div_le_lower_bound; [lia|]. lia. }
  rewrite E. apply Z.mul_lt_mono_pos_r; [lia|].
  destruct (Z.even j) eqn:Ej; [lia|].
  assert (Eo : Z.odd j = true) by (rewrite <- Z.negb_even, Ej; reflexivity).
  apply Z.odd_spec in Eo. destruct Eo as [q Eq]. lia.
Qed.

Lemma wrx_length offs : forall b ds b', wrx b offs ds = Some b' -> length b' = length b.
Proof.
  induction offs as [|o offs IH]; intros b ds b' E; cbn [wrx] in E; [inversion E; auto|].
  destruct ds as [|d ds]; [inversion E; auto|].
  destruct (wr b o d) as [b1|] eqn:E1; cbn [bind] in E; [|discriminate].
  apply wr_length in E1. apply IH in E. congruence.
Qed.

Lemma rd_out b o l : (length b < o + l)%nat -> rd b o l = None.
Proof. intros. unfold rd. destruct (Nat.leb_spec (o + l) (length b)); [lia|reflexivity]. Qed.

Section Agree.
Variable P : params.
Variable HS : suite.
Variable LX : lane_fns HS.
Variable w : nat.
Variable c : ctx (hs_st HS).
Notation N := (p_n P).
Notation L := (hs_layout HS).
Hypothesis Hn : (1 <= N)%nat.
Hypothesis Hok : suite_ok P HS.
Hypothesis Hlx : lanes_ok P HS LX w.
Hypothesis Hc : ctx_ok P HS c.
Variables layer tree type kp off : Z.
Variable H : nat.
Variable leaf : Z -> bytes.
Hypothesis Hleaf : forall i, length (leaf i) = N.
Hypothesis Hw : (1 <= w <= H)%nat.
Hypothesis HH : (H <= 31)%nat.
Notation A w1 w2 := (enc L (mkAdrs layer tree type kp w1 w2)).
Notation hash2 := (node_hash P HS c layer tree type kp off).

(** The leaves of one call, in order. *)
Definition leaves (k : Z) : bytes :=
  concat (map (fun j => leaf (Z.of_nat (NL w) * k + Z.of_nat j)) (seq 0 (NL w))).

Theorem treehashx_agree {G G1} (genx : G -> Z -> option (bytes * G))
    (gen1 : G1 -> Z -> option (bytes * G1)) junk junk' g g1 i auth0 (v : nat -> Z * Z) u1 u2 :
  (forall k g0, 0 <= k < 2 ^ Z.of_nat (H - w) ->
     exists g', genx g0 (u32 (Z.of_nat (NL w) * k + off)) = Some (leaves k, g')) ->
  (forall k g0, 0 <= k < 2 ^ Z.of_nat H ->
     exists g', gen1 g0 (u32 (k + off)) = Some (leaf k, g')) ->
  0 <= i < 2 ^ Z.of_nat H \/ 2 ^ Z.of_nat (H + w - 1) <= i < 2 ^ 32 ->
  length auth0 = (H * N)%nat ->
  exists auth a a1 g' g1',
    treehashx P HS LX w c junk genx i off H auth0
      (map (fun j => A (fst (v j)) (snd (v j))) (lanes w)) g
    = Some (node leaf hash2 H 0, auth, a, g')
    /\ treehashx1 P HS c junk' gen1 i off H auth0 (A u1 u2) g1
       = Some (node leaf hash2 H 0, auth, a1, g1').
Proof.
  intros Hg Hg1 Hi Ha.
  destruct (ex_chunks N H auth0) as (au0 & S1 & S2 & S3); [exact Ha|].
  assert (Hi0 : 0 <= i) by (destruct Hi as [|Hi]; [lia|pose proof (pow2_pos (H + w - 1)); lia]).
  destruct (treehashx1_ok P HS c junk' Hn Hok Hc layer tree type kp H off hash2
              (fun h i x _ => eq_refl) leaf Hleaf gen1 (fun _ _ => True)
              (fun k g0 Hk _ => let '(ex_intro _ g' E) := Hg1 k g0 Hk in ex_intro _ g' (conj E I))
              i au0 u1 u2 g1) as (au1 & w1' & w2' & g1' & E1 & Hau1 & _); auto.
  assert (Hgx : forall k g0, 0 <= k < 2 ^ Z.of_nat (H - w) -> True ->
            exists g', genx g0 (u32 (NLz w * k + off))
              = Some (concat (row w hash2 leaf 0 k), g') /\ True).
  { intros k g0 Hk _. destruct (Hg k g0 Hk) as (g' & E). exists g'. split; [|auto].
    rewrite NLz_NL, E. unfold leaves, row, lanes. do 3 f_equal. apply map_ext. intros j.
    now rewrite NLz_NL. }
  destruct (treehashx_ok P HS LX w c junk Hn Hok Hlx Hc layer tree type kp H off hash2
              (fun h i x _ => eq_refl) leaf Hleaf Hw HH i Hi genx (fun _ _ => True) Hgx
              au0 v g) as (aux & v' & g' & Ex & Haux & _); auto.
  unfold tadr in Ex. rewrite S3 in Ex, E1.
  assert (Eau : aux = au1).
  { destruct Hi as [Hi|Hi].
    - rewrite (auth_inv_full P H hash2 leaf i au0 au1 Hi Hau1).
      apply (authx_full P w H hash2 leaf Hw i au0 aux Hi Haux).
    - rewrite (authx_none P w H hash2 leaf Hw i au0 aux) by (auto; apply Hi).
      symmetry. destruct Hau1 as (A1 & A2 & A3). apply nth_error_ext'; [congruence|].
      rewrite A2. intros h Hh. rewrite A3 by auto. rewrite sib_outside; auto.
      assert (2 ^ Z.of_nat H <= 2 ^ Z.of_nat (H + w - 1)) by (apply Z.pow_le_mono_r; lia). lia. }
  subst aux. do 5 eexists. split; [exact Ex|exact E1].
Qed.

(** Every other index makes the code read past the end of [current]. *)
Section Outside.
Variable i : Z.
Hypothesis Hi : 2 ^ Z.of_nat H <= i < 2 ^ Z.of_nat (H + w - 1).
Hypothesis Hi32 : i < 2 ^ 32.

Lemma lane_out : NLz w <= Z.lxor (Z.land (i / 2 ^ Z.of_nat (H - 1)) (NLz w - 1)) 1 + (NLz w - 2)
  /\ i / 2 ^ Z.of_nat (H - 1) < NLz w /\ 0 <= i / 2 ^ Z.of_nat (H - 1).
Proof. clear - Hi Hw.
  set (x := i / 2 ^ Z.of_nat (H - 1)).
  pose proof (pow2_pos (H - 1)) as Hp. pose proof (pow2_pos H) as HpH.
  assert (Hx : 2 <= x).
  { apply Z.div_le_lower_bound; [lia|]. rewrite Z.mul_comm, <- pow2_S.
    replace (S (H - 1)) with H by lia. lia. }
  assert (Hx2 : x < NLz w).
  { apply Z.div_lt_upper_bound; [lia|]. unfold NLz. rewrite <- Z.pow_add_r by lia.
    replace (Z.of_nat (H - 1) + Z.of_nat w) with (Z.of_nat (H + w - 1)) by lia. lia. }
  clearbody x. split; [|split; [lia|lia]].
  assert (El : Z.land x (NLz w - 1) = x).
  { unfold NLz in *. rewrite Z.sub_1_r, <- Z.ones_equiv, Z.land_ones by lia.
    apply Z.mod_small. lia. }
  rewrite El. assert (2 <= Z.lxor x 1); [|lia].
  destruct (Z.even x) eqn:Ex.
  - apply Z.even_spec in Ex. destruct Ex as [q ->]. rewrite lxor_1_even. lia.
  - assert (Eo : Z.odd x = true) by (rewrite <- Z.negb_even, Ex; reflexivity).
    apply Z.odd_spec in Eo. destruct Eo as [q ->]. rewrite lxor_1_odd. lia.
Qed.

(** No run of the inner loop reaches the root. *)
Lemma climbx_no_root todo : forall h k la pl cur st au ad root au' ad',
  (h + todo = H)%nat -> (1 <= todo)%nat -> 0 <= k < 2 ^ Z.of_nat (H - w) ->
  length cur = (NL w * N)%nat ->
  ((H - w < h)%nat -> la = NLz w - 2 ^ Z.of_nat (H - h)) ->
  treehashx_climb P HS LX w c H todo h (k / 2 ^ Z.of_nat h) (i / 2 ^ Z.of_nat h)
      (off / 2 ^ Z.of_nat h) k (2 ^ Z.of_nat (H - w) - 1) la pl cur st au ad
  <> Some (RootX root au' ad').
Proof. clear - Hi Hw HH Hi32 Hn.
  destruct lane_out as (Hout & Hout2 & Hout3). pose proof (pow2_pos H) as HpH.
  assert (Hw2 : (2 <= w)%nat).
  { destruct (Nat.le_gt_cases 2 w) as [|Hlt]; auto. exfalso.
    replace (H + w - 1)%nat with H in Hi by (clear - Hlt Hw; lia). clear - Hi. lia. }
  assert (HiP : 0 <= i) by (clear - Hi HpH; lia). clear Hi.
  assert (Hrd : forall cur la, length cur = (NL w * N)%nat -> la = NLz w - 2 ->
    rd cur (Z.to_nat (Z.lxor (Z.land (i / 2 ^ Z.of_nat (H - 1)) (NLz w - 1)) 1 + la) * N) N = None).
  { intros cur la Hl ->. apply rd_out. rewrite Hl. rewrite NLz_NL in *. clear - Hout Hn.
    set (z := Z.lxor _ 1 + _) in *. clearbody z. assert (NL w <= Z.to_nat z)%nat by lia. nia. }
  assert (Hq0 : i / 2 ^ Z.of_nat (H - 1) / NLz w = 0) by (apply Z.div_small; split; assumption).
  assert (Hq1 : 0 <= i / 2 ^ Z.of_nat (H - 1) < 2 ^ 32).
  { clear - Hi32 HiP. pose proof (pow2_pos (H - 1)) as Hp. split; [apply Z.div_pos; lia|].
    apply Z.div_lt_upper_bound; [lia|]. nia. }
  clear Hout Hout2 Hout3 Hi32.
  induction todo as [|todo IH]; intros h k la pl cur st au ad root au' ad' Hh Ht Hk Hcur Hla;
    [lia|]. cbn [treehashx_climb].
  destruct (Nat.eq_dec h (H - 1)) as [Eh|Eh].
  - (* the last level: the read is outside *)
    assert (todo = 0)%nat by (clear - Hh Eh Hw; lia). subst todo.
    assert (Hj0 : k / 2 ^ Z.of_nat h = 0) by (apply (div_top k (H - w) h); [exact Hk|clear - Eh Hw; lia]).
    replace (H - w <=? h)%nat with true by (symmetry; apply Nat.leb_le; clear - Eh Hw; lia).
    rewrite Hj0. subst h. rewrite hit_bits; [|clear - Hw HH; lia|reflexivity|rewrite Z.mul_0_l; reflexivity|exact Hq1].
    rewrite Hq0, Z.eqb_refl. rewrite Hrd; [discriminate|exact Hcur|].
    rewrite Hla by (clear - Hw2 Hw; lia).
    now replace (H - (H - 1))%nat with 1%nat by (clear - Hw; lia).
  - assert (Eadj : exists la' pl',
        (if (H - w <=? h)%nat then (u32 (NLz w - 2 ^ Z.of_nat (H - h - 1)), la) else (la, pl)) = (la', pl')
        /\ ((H - w < S h)%nat -> la' = NLz w - 2 ^ Z.of_nat (H - S h))).
    { destruct (Nat.leb_spec (H - w) h) as [Hm|Hm].
      - do 2 eexists. split; [reflexivity|]. intros _.
        rewrite (adj_val w H Hw HH h) by (clear - Hm Eh Hh; lia).
        pose proof (nl_le w H (S h)). rewrite Nat2Z.inj_sub by auto.
        rewrite nl_high by (clear - Hm Hw; lia). rewrite NLz_NL, Nat2Z.inj_pow. reflexivity.
      - do 2 eexists. split; [reflexivity|]. clear - Hm. lia. }
    destruct Eadj as (la' & pl' & -> & Hla').
    match goal with |- context [bind (if ?b then _ else _)] => set (B := if b then _ else _) end.
    destruct B as [au1|]; cbn [bind]; [|discriminate].
    destruct (_ && _); [discriminate|].
    destruct (mapMi _ 0 ad) as [ad1|]; cbn [bind]; [|discriminate].
    destruct (mapM _ _) as [ins|]; cbn [bind]; [|discriminate].
    destruct (thashx _ _ _ _ _ _ _) as [outs|]; cbn [bind]; [|discriminate].
    destruct (wrx cur _ outs) as [cur1|] eqn:Ew; cbn [bind]; [|discriminate].
    rewrite !shiftr1, !div_pow2_S'. apply IH; auto.
    + clear - Hh. lia.
    + clear - Hh Eh. lia.
    + apply wrx_length in Ew. congruence.
Qed.

Lemma treehashx_loop_none {G} (genx : G -> Z -> option (bytes * G)) fuel :
  (forall k g0 x g', 0 <= k < 2 ^ Z.of_nat (H - w) ->
     genx g0 (u32 (NLz w * k + off)) = Some (x, g') -> length x = (NL w * N)%nat) ->
  forall k st au ad g la pl, 0 <= k -> Z.of_nat fuel = 2 ^ Z.of_nat (H - w) - k ->
  treehashx_loop P HS LX w c genx i off fuel H k (2 ^ Z.of_nat (H - w) - 1) la pl st au ad g = None.
Proof. clear - Hi Hw HH Hi32 Hn.
  intros Hg. induction fuel as [|fuel IH]; intros k st au ad g la pl Hk Hf; [reflexivity|].
  cbn [treehashx_loop].
  destruct (genx g _) as [[cur g']|] eqn:Eg; cbn [bind]; [|reflexivity].
  assert (Hcur : length cur = (NL w * N)%nat) by (eapply Hg; [|exact Eg]; lia).
  assert (Hnr : forall r a d,
    treehashx_climb P HS LX w c H H 0 k i off k (2 ^ Z.of_nat (H - w) - 1) la pl cur st au ad
    <> Some (RootX r a d)).
  { intros r a d.
    pose proof (climbx_no_root H 0 k la pl cur st au ad r a d) as E.
    change (2 ^ Z.of_nat 0) with 1 in E. rewrite !Z.div_1_r in E.
    apply E; auto; lia. }
  destruct (treehashx_climb _ _ _ _ _ _ _ _ _ _ _ _ _ _ _ _ _ _ _) as [r|] eqn:Er; cbn [bind];
    [|reflexivity].
  destruct r as [root a d|h cur1 a d la1 pl1]; [exfalso; now eapply Hnr|].
  destruct (wr st _ cur1); cbn [bind]; [|reflexivity].
  apply IH; lia.
Qed.

Theorem treehashx_outside {G} (genx : G -> Z -> option (bytes * G)) junk auth ad g :
  (forall k g0, 0 <= k < 2 ^ Z.of_nat (H - w) ->
     exists g', genx g0 (u32 (Z.of_nat (NL w) * k + off)) = Some (leaves k, g')) ->
  treehashx P HS LX w c junk genx i off H auth ad g = None.
Proof.
  intros Hg. unfold treehashx. destruct (w <=? H)%nat; [cbn [guard bind]|reflexivity].
  apply treehashx_loop_none; [|lia|rewrite Nat2Z.inj_pow; lia].
  intros k g0 x g' Hk E. rewrite NLz_NL in E. destruct (Hg k g0 Hk) as (g2 & E2).
  rewrite E2 in E. injection E as <- <-. unfold leaves.
  rewrite (chunks_length N) by (apply chunks_map_seq; auto).
  now rewrite map_length, seq_length.
Qed.
End Outside.
End Agree.
