(** Proofs about KeccakSnP.v: access by lanes, rounds, absorbing loops. *)
From Verif Require Import Base BaseFacts Fips202 KeccakSpec KeccakProofs ShakeProofs LaneKeccak LaneKeccakProofs LaneHashForms KeccakSnP KeccakSnPSpec KeccakSnPProofs.

Theorem InitializeAll_ok s : length s = 25%nat -> exists s', KeccakP1600times4_InitializeAll s = Some s' /\ states_ok s'
  /\ forall j, instance s' j = repeat 0 200.
Proof.
  intros H. unfold KeccakP1600times4_InitializeAll. rewrite H. cbn [Nat.eqb guard bind]. eexists. split; [reflexivity|]. split.
  - apply states_intro; [reflexivity|]. intros p j Hp Hj. do 25 (destruct p as [|p]; [split; reflexivity + discriminate|]). lia.
  - intros j. reflexivity.
Qed.

(** ** Lanes *)
Lemma by_lanes_ok {S} (one four : nat -> S -> option S) n s (I : nat -> S -> Prop) :
  I 0%nat s ->
  (forall i t, (i < n)%nat -> I i t -> exists t', one i t = Some t' /\ I (i + 1)%nat t') ->
  (forall i t, (i + 4 <= n)%nat -> I i t -> exists t', four i t = Some t' /\ I (i + 4)%nat t') ->
  exists t, by_lanes one four n s = Some t /\ I n t.
Proof.
  intros H0 H1 H4. unfold by_lanes.
  assert (Ones : forall a t, (a <= n)%nat -> I a t -> exists t', iterM (n - a) a one t = Some t' /\ I n t').
  { intros a t Ha Ht. destruct (iterM_inv (n - a) a one (fun i t => I i t) t) as (t' & E & HI); [exact Ht| |].
    - intros i u Hi Hu. replace (Datatypes.S i) with (i + 1)%nat by lia. apply H1; [lia|exact Hu].
    - exists t'. split; [exact E|]. now replace n with (a + (n - a))%nat by lia. }
  destruct (Nat.leb_spec 16 n) as [H16|H16].
  - destruct (H4 0%nat s ltac:(lia) H0) as (s1 & E1 & I1). rewrite E1. cbn [bind].
    destruct (H4 4%nat s1 ltac:(lia) I1) as (s2 & E2 & I2). rewrite E2. cbn [bind].
    destruct (H4 8%nat s2 ltac:(lia) I2) as (s3 & E3 & I3). rewrite E3. cbn [bind].
    destruct (H4 12%nat s3 ltac:(lia) I3) as (s4 & E4 & I4). rewrite E4. cbn [bind].
    destruct (Nat.leb_spec 20 n) as [H20|H20].
    + destruct (H4 16%nat s4 ltac:(lia) I4) as (s5 & E5 & I5). rewrite E5. cbn [bind]. now apply (Ones 20%nat).
    + now apply (Ones 16%nat).
  - pose proof (Ones 0%nat s ltac:(lia) H0) as H. rewrite Nat.sub_0_r in H. exact H.
Qed.
Lemma curData_val lo j : (j < 4)%nat -> Z.of_nat (24 * lo) < 2 ^ 32 -> curData lo j = (8 * lo * j)%nat.
Proof.
  intros Hj H. unfold curData, u32. rewrite Z.mod_small; [|change (2 ^ 32) with 4294967296 in *; split; nia]. nia.
Qed.
(** The word at a byte position. *)
Definition dw (data : bytes) (o : nat) : Z := le_word (firstn 8 (skipn o data)).
Lemma ld64_dw data o : (o + 8 <= length data)%nat -> ld64 data o = Some (dw data o).
Proof. intros H. unfold ld64. rewrite rd_ok by exact H. reflexivity. Qed.
Lemma dw_W data o : (o + 8 <= length data)%nat -> W64 (dw data o).
Proof. intros H. apply W64_le_word. rewrite firstn_length, skipn_length. lia. Qed.
Lemma wb_dw data o i : all_bytes data -> (o + 8 <= length data)%nat -> (i < 8)%nat -> wb (dw data o) i = nth (o + i) data 0.
Proof.
  intros Hd H Hi. destruct (ld64_at data o Hd H) as (w & E & _ & N). rewrite ld64_dw in E by exact H. injection E as ->. now apply N.
Qed.
Lemma ld256_at data o : (o + 32 <= length data)%nat -> exists v, ld256 data o = Some v
  /\ forall m, (m < 4)%nat -> v m = dw data (o + 8 * m).
Proof.
  intros H. unfold ld256. rewrite !ld64_dw by lia. cbn [bind]. eexists. split; [reflexivity|].
  intros m Hm. destruct m as [|[|[|[|m]]]]; [..|lia]; unfold vset; cbn [nth]; f_equal; lia.
Qed.
Lemma load4_at data base lo i : Z.of_nat (24 * lo) < 2 ^ 32 -> (base + 24 * lo + 8 * i + 8 <= length data)%nat ->
  exists v, load4 data base lo i = Some v /\ forall j, (j < 4)%nat -> v j = dw data (base + 8 * lo * j + 8 * i).
Proof.
  intros H1 H2. unfold load4. rewrite !curData_val by (try exact H1; lia). rewrite !ld64_dw by lia. cbn [bind].
  eexists. split; [reflexivity|]. intros j Hj. destruct j as [|[|[|[|j]]]]; [..|lia]; unfold vset; cbn [nth]; f_equal; lia.
Qed.
(** Both macros transpose. *)
Lemma INTLEAVE_at a b c d : exists l0 l1 l2 l3, INTLEAVE a b c d = (l0, l1, l2, l3) /\ forall j, (j < 4)%nat ->
  l0 j = nth j [a; b; c; d] vz 0%nat /\ l1 j = nth j [a; b; c; d] vz 1%nat
  /\ l2 j = nth j [a; b; c; d] vz 2%nat /\ l3 j = nth j [a; b; c; d] vz 3%nat.
Proof.
  do 4 eexists. split; [reflexivity|]. intros j Hj. destruct j as [|[|[|[|j]]]]; [..|lia]; repeat split.
Qed.
Lemma UNINTLEAVE_at a b c d : exists l0 l1 l2 l3, UNINTLEAVE a b c d = (l0, l1, l2, l3) /\ forall j, (j < 4)%nat ->
  l0 j = nth j [a; b; c; d] vz 0%nat /\ l1 j = nth j [a; b; c; d] vz 1%nat
  /\ l2 j = nth j [a; b; c; d] vz 2%nat /\ l3 j = nth j [a; b; c; d] vz 3%nat.
Proof.
  do 4 eexists. split; [reflexivity|]. intros j Hj. destruct j as [|[|[|[|j]]]]; [..|lia]; repeat split.
Qed.

(** The first c words of the instances combined with words of data. *)
Section In.
Variable g : Z -> Z -> Z.
Hypothesis gW : forall a b, W64 a -> W64 b -> W64 (g a b).
Hypothesis gb : forall a b i, wb (g a b) i = g (wb a i) (wb b i).
Variable data : bytes.
Hypothesis Hd : all_bytes data.
Variables base lo n : nat.
Hypothesis Hlo : Z.of_nat (24 * lo) < 2 ^ 32.
Hypothesis Hn : (n <= 25)%nat.
Hypothesis Hlen : (base + 24 * lo + 8 * n <= length data)%nat.
Variable s0 : list vec.
Hypothesis Hs0 : states_ok s0.
Definition QL (c : nat) (s : list vec) : Prop := states_ok s
  /\ forall p j, (j < 4)%nat -> nth p s vz j = if (p <? c)%nat then g (nth p s0 vz j) (dw data (base + 8 * lo * j + 8 * p)) else nth p s0 vz j.
Lemma QL_0 : QL 0 s0.
Proof. clear - Hs0. split; [exact Hs0|]. reflexivity. Qed.
Lemma QL_step c s v : (c < n)%nat -> QL c s -> (forall j, (j < 4)%nat -> v j = g (nth c s vz j) (dw data (base + 8 * lo * j + 8 * c))) ->
  exists s', vput s c v = Some s' /\ QL (c + 1) s'.
Proof.
  intros Hc (Hs & HN) Hv. destruct (vput_at s c v) as (s' & E & L & N); [rewrite (proj1 Hs); lia|].
  exists s'. split; [exact E|]. split.
  - apply states_intro; [rewrite L; apply Hs|]. intros p j Hp Hj. rewrite N. destruct (Nat.eqb_spec p c) as [->|Hne].
    + rewrite Hv by exact Hj. apply gW; [now apply states_nth|]. apply dw_W. nia.
    + now apply states_nth.
  - intros p j Hj. rewrite N. destruct (Nat.eqb_spec p c) as [->|Hne].
    + rewrite Hv by exact Hj. rewrite HN by exact Hj. rewrite Nat.ltb_irrefl.
      now replace (c <? c + 1)%nat with true by (symmetry; apply Nat.ltb_lt; lia).
    + rewrite HN by exact Hj. destruct (Nat.ltb_spec p c), (Nat.ltb_spec p (c + 1)); try lia; reflexivity.
Qed.
Lemma QL_final s : QL n s -> states_ok s /\ forall j, (j < 4)%nat ->
  instance s j = overlay g 0 (slice (base + 8 * lo * j) (8 * n) data) (instance s0 j).
Proof.
  intros (Hs & HN). split; [exact Hs|]. intros j Hj.
  assert (Ls : length (slice (base + 8 * lo * j) (8 * n) data) = (8 * n)%nat) by (apply slice_length; nia).
  apply (list_ext_nth _ _ 200); [apply instance_length, Hs|rewrite overlay_length; [apply instance_length, Hs0|]|].
  { rewrite Ls, instance_length by apply Hs0. lia. }
  intros q Hq. rewrite nth_overlay by (rewrite Ls, instance_length by apply Hs0; lia).
  rewrite !nth_instance by (try apply Hs; try apply Hs0; exact Hq). rewrite Ls.
  pose proof (Nat.div_mod q 8 ltac:(lia)) as Hdv. pose proof (Nat.mod_upper_bound q 8 ltac:(lia)) as Hm.
  unfold ib. rewrite HN by exact Hj. set (d := (q / 8)%nat) in *. set (m := (q mod 8)%nat) in *. clearbody d m.
  cbn [Nat.leb andb Nat.add]. rewrite Nat.sub_0_r.
  destruct (Nat.ltb_spec d n), (Nat.ltb_spec q (8 * n)); try lia.
  rewrite nth_slice by lia.
  match goal with |- u8 (Z.shiftr (g ?a ?b) _) = _ => change (wb (g a b) m = g (wb a m) (nth (base + 8 * lo * j + q) data 0)) end.
  rewrite gb, wb_dw by (try exact Hd; nia). do 2 f_equal. lia.
Qed.
End In.
Lemma ld4 data base lo n i : Z.of_nat (24 * lo) < 2 ^ 32 -> (base + 24 * lo + 8 * n <= length data)%nat -> (i + 4 <= n)%nat ->
  exists l0 l1 l2 l3 k0 k1 k2 k3, ld256 data (base + 8 * i) = Some l0 /\ ld256 data (base + curData lo 1 + 8 * i) = Some l1
  /\ ld256 data (base + curData lo 2 + 8 * i) = Some l2 /\ ld256 data (base + curData lo 3 + 8 * i) = Some l3
  /\ INTLEAVE l0 l1 l2 l3 = (k0, k1, k2, k3)
  /\ forall j, (j < 4)%nat -> k0 j = dw data (base + 8 * lo * j + 8 * i) /\ k1 j = dw data (base + 8 * lo * j + 8 * (i + 1))
       /\ k2 j = dw data (base + 8 * lo * j + 8 * (i + 2)) /\ k3 j = dw data (base + 8 * lo * j + 8 * (i + 3)).
Proof.
  intros H1 H2 H3. rewrite !curData_val by (try exact H1; lia).
  destruct (ld256_at data (base + 8 * i)) as (l0 & E0 & N0); [lia|].
  destruct (ld256_at data (base + 8 * lo * 1 + 8 * i)) as (l1 & E1 & N1); [lia|].
  destruct (ld256_at data (base + 8 * lo * 2 + 8 * i)) as (l2 & E2 & N2); [lia|].
  destruct (ld256_at data (base + 8 * lo * 3 + 8 * i)) as (l3 & E3 & N3); [lia|].
  destruct (INTLEAVE_at l0 l1 l2 l3) as (k0 & k1 & k2 & k3 & EI & NI).
  exists l0, l1, l2, l3, k0, k1, k2, k3. repeat (split; [assumption|]).
  intros j Hj. destruct (NI j Hj) as (-> & -> & -> & ->).
  destruct j as [|[|[|[|j]]]]; [..|lia]; cbn [nth]; rewrite ?N0, ?N1, ?N2, ?N3 by lia; repeat split; f_equal; lia.
Qed.
Lemma lxor_W a b : W64 a -> W64 b -> W64 (Z.lxor a b).
Proof. apply W64_xor. Qed.
Section AddLanes.
Variable data : bytes.
Hypothesis Hd : all_bytes data.
Variables base lo n : nat.
Hypothesis Hlo : Z.of_nat (24 * lo) < 2 ^ 32.
Hypothesis Hn : (n <= 25)%nat.
Hypothesis Hlen : (base + 24 * lo + 8 * n <= length data)%nat.
Variable s0 : list vec.
Hypothesis Hs0 : states_ok s0.
Let Q := QL Z.lxor data base lo s0.
Lemma xor_in_step c s v : (c < n)%nat -> Q c s -> (forall j, (j < 4)%nat -> v j = dw data (base + 8 * lo * j + 8 * c)) ->
  exists s', xor_in s c v = Some s' /\ Q (c + 1)%nat s'.
Proof.
  intros Hc HQ Hv. unfold xor_in. rewrite (get_nth s c vz) by (rewrite (proj1 (proj1 HQ)); lia). cbn [bind].
  apply (QL_step Z.lxor lxor_W data base lo n Hlo Hn Hlen s0); [exact Hc|exact HQ|].
  intros j Hj. unfold vxor. now rewrite Hv.
Qed.
Lemma Xor_In_step c s : (c < n)%nat -> Q c s -> exists s', Xor_In data base lo c s = Some s' /\ Q (c + 1)%nat s'.
Proof.
  intros Hc HQ. unfold Xor_In. destruct (load4_at data base lo c Hlo) as (v & Ev & Nv); [lia|]. rewrite Ev. cbn [bind].
  now apply xor_in_step.
Qed.
Theorem AddLanes_ok : exists s', AddLanesAll_at s0 data base n lo = Some s' /\ states_ok s'
  /\ forall j, (j < 4)%nat -> instance s' j = xor_at 0 (slice (base + 8 * lo * j) (8 * n) data) (instance s0 j).
Proof.
  destruct (by_lanes_ok (Xor_In data base lo) (Xor_In4 data base lo) n s0 Q) as (s' & E & HQ).
  - apply QL_0, Hs0.
  - exact Xor_In_step.
  - intros i t Hi HQ. unfold Xor_In4.
    destruct (ld4 data base lo n i Hlo Hlen Hi) as (l0 & l1 & l2 & l3 & k0 & k1 & k2 & k3 & E0 & E1 & E2 & E3 & EI & NK).
    rewrite E0, E1, E2, E3. cbn [bind]. rewrite EI.
    destruct (xor_in_step i t k0) as (t1 & F1 & Q1); [lia|exact HQ|intros j Hj; now destruct (NK j Hj) as (? & ? & ? & ?)|]. rewrite F1. cbn [bind].
    destruct (xor_in_step (i + 1) t1 k1) as (t2 & F2 & Q2); [lia|exact Q1|intros j Hj; now destruct (NK j Hj) as (? & ? & ? & ?)|]. rewrite F2. cbn [bind].
    replace (i + 1 + 1)%nat with (i + 2)%nat in Q2 by lia.
    destruct (xor_in_step (i + 2) t2 k2) as (t3 & F3 & Q3); [lia|exact Q2|intros j Hj; now destruct (NK j Hj) as (? & ? & ? & ?)|]. rewrite F3. cbn [bind].
    replace (i + 2 + 1)%nat with (i + 3)%nat in Q3 by lia.
    destruct (xor_in_step (i + 3) t3 k3) as (t4 & F4 & Q4); [lia|exact Q3|intros j Hj; now destruct (NK j Hj) as (? & ? & ? & ?)|].
    exists t4. split; [exact F4|]. now replace (i + 4)%nat with (i + 3 + 1)%nat by lia.
  - exists s'. split; [exact E|]. apply (QL_final Z.lxor lxor_W wb_xor data Hd base lo n Hlo Hn Hlen s0 Hs0 s' HQ).
Qed.
(** the body of the loop for 21 lanes *)
Theorem Xor_In_all : exists s', iterM n 0 (Xor_In data base lo) s0 = Some s' /\ states_ok s'
  /\ forall j, (j < 4)%nat -> instance s' j = xor_at 0 (slice (base + 8 * lo * j) (8 * n) data) (instance s0 j).
Proof.
  destruct (iterM_inv n 0 (Xor_In data base lo) (fun i t => Q i t) s0) as (s' & E & HQ).
  - apply QL_0, Hs0.
  - intros i t Hi HQ. replace (Datatypes.S i) with (i + 1)%nat by lia. apply Xor_In_step; [lia|exact HQ].
  - exists s'. split; [exact E|]. apply (QL_final Z.lxor lxor_W wb_xor data Hd base lo n Hlo Hn Hlen s0 Hs0 s' HQ).
Qed.
End AddLanes.
Theorem OverwriteLanesAll_ok s0 data n lo : states_ok s0 -> all_bytes data -> (n <= 25)%nat -> Z.of_nat (24 * lo) < 2 ^ 32 ->
  (24 * lo + 8 * n <= length data)%nat ->
  exists s', KeccakP1600times4_OverwriteLanesAll s0 data n lo = Some s' /\ states_ok s'
  /\ forall j, (j < 4)%nat -> instance s' j = put_at 0 (slice (8 * lo * j) (8 * n) data) (instance s0 j).
Proof.
  intros Hs0 Hd Hn Hlo Hlen. set (g := fun _ y : Z => y).
  assert (St : forall c s v, (c < n)%nat -> QL g data 0 lo s0 c s -> (forall j, (j < 4)%nat -> v j = dw data (0 + 8 * lo * j + 8 * c)) ->
    exists s', vput s c v = Some s' /\ QL g data 0 lo s0 (c + 1) s').
  { intros c s v Hc HQ Hv. apply (QL_step g (fun _ _ _ H => H) data 0 lo n Hlo Hn Hlen s0); [exact Hc|exact HQ|exact Hv]. }
  destruct (by_lanes_ok (OverWr data lo) (OverWr4 data lo) n s0 (QL g data 0 lo s0)) as (s' & E & HQ).
  - apply QL_0, Hs0.
  - intros i t Hi HQ. unfold OverWr. destruct (load4_at data 0 lo i Hlo) as (v & Ev & Nv); [lia|]. rewrite Ev. cbn [bind]. now apply St.
  - intros i t Hi HQ. unfold OverWr4.
    destruct (ld4 data 0 lo n i Hlo Hlen Hi) as (l0 & l1 & l2 & l3 & k0 & k1 & k2 & k3 & E0 & E1 & E2 & E3 & EI & NK).
    cbn [Nat.add] in E0, E1, E2, E3.
    rewrite E0, E1, E2, E3. cbn [bind]. rewrite EI.
    destruct (St i t k0) as (t1 & F1 & Q1); [lia|exact HQ|intros j Hj; now destruct (NK j Hj) as (? & ? & ? & ?)|]. rewrite F1. cbn [bind].
    destruct (St (i + 1)%nat t1 k1) as (t2 & F2 & Q2); [lia|exact Q1|intros j Hj; now destruct (NK j Hj) as (? & ? & ? & ?)|]. rewrite F2. cbn [bind].
    replace (i + 1 + 1)%nat with (i + 2)%nat in Q2 by lia.
    destruct (St (i + 2)%nat t2 k2) as (t3 & F3 & Q3); [lia|exact Q2|intros j Hj; now destruct (NK j Hj) as (? & ? & ? & ?)|]. rewrite F3. cbn [bind].
    replace (i + 2 + 1)%nat with (i + 3)%nat in Q3 by lia.
    destruct (St (i + 3)%nat t3 k3) as (t4 & F4 & Q4); [lia|exact Q3|intros j Hj; now destruct (NK j Hj) as (? & ? & ? & ?)|].
    exists t4. split; [exact F4|]. now replace (i + 4)%nat with (i + 3 + 1)%nat by lia.
  - exists s'. split; [exact E|]. apply (QL_final g (fun _ _ _ H => H) (fun _ _ _ => eq_refl) data Hd 0 lo n Hlo Hn Hlen s0 Hs0 s' HQ).
Qed.

(** ** Lanes out *)
Section Out.
Variable val : nat -> nat -> Z.
Variables out lo n : nat.
Hypothesis Hn : (n <= lo)%nat.
Variable d0 : bytes.
Hypothesis Hlen : (out + 24 * lo + 8 * n <= length d0)%nat.
(** c j bytes of string j written *)
Definition QR (c : nat -> nat) (d : bytes) : Prop :=
  length d = length d0 /\ all_bytes d
  /\ (forall j q, (j < 4)%nat -> (q < c j)%nat -> nth (out + 8 * lo * j + q) d 0 = val j q)
  /\ (forall x, (forall j, (j < 4)%nat -> (x < out + 8 * lo * j \/ out + 8 * lo * j + c j <= x)%nat) -> nth x d 0 = nth x d0 0).
Definition adv (c : nat -> nat) (j0 k : nat) : nat -> nat := fun j => if (j =? j0)%nat then (c j + k)%nat else c j.
Lemma QR_ext c c' d : (forall j, (j < 4)%nat -> c j = c' j) -> QR c d -> QR c' d.
Proof.
  clear. intros H (L & B & A & N). split; [exact L|]. split; [exact B|]. split.
  - intros j q Hj Hq. apply A; [exact Hj|]. now rewrite H.
  - intros x Hx. apply N. intros j Hj. rewrite (H j Hj). now apply Hx.
Qed.
Lemma QR_step c d j0 b k : QR c d -> (j0 < 4)%nat -> (forall j, (j < 4)%nat -> (adv c j0 k j <= 8 * n)%nat) -> length b = k -> all_bytes b ->
  (forall i, (i < k)%nat -> nth i b 0 = val j0 (c j0 + i)%nat) ->
  exists d', wr d (out + 8 * lo * j0 + c j0) b = Some d' /\ QR (adv c j0 k) d'.
Proof.
  clear - Hn Hlen. intros (L & B & A & N) Hj0 Hc Lb Bb Nb.
  pose proof (Hc j0 Hj0) as Hc0. unfold adv in Hc0. rewrite Nat.eqb_refl in Hc0.
  assert (Hmul : (8 * lo * j0 <= 24 * lo)%nat) by nia.
  destruct (wr_at d (out + 8 * lo * j0 + c j0) b) as (d' & E & L' & N'); [lia|].
  exists d'. split; [exact E|]. split; [lia|]. split; [exact (wr_bytes _ _ _ _ B Bb E)|]. split.
  - intros j q Hj Hq. rewrite N', Lb. pose proof (Hc j Hj) as Hcj. unfold adv in Hq, Hcj. destruct (Nat.eqb_spec j j0) as [->|Hne].
    + destruct (Nat.leb_spec (out + 8 * lo * j0 + c j0) (out + 8 * lo * j0 + q)), (Nat.ltb_spec (out + 8 * lo * j0 + q) (out + 8 * lo * j0 + c j0 + k));
        cbn [andb]; try lia.
      * rewrite Nb by lia. f_equal. lia.
      * apply A; lia.
    + assert (Hfar : (8 * lo * j + 8 * lo <= 8 * lo * j0 \/ 8 * lo * j0 + 8 * lo <= 8 * lo * j)%nat) by nia.
      destruct (Nat.leb_spec (out + 8 * lo * j0 + c j0) (out + 8 * lo * j + q)), (Nat.ltb_spec (out + 8 * lo * j + q) (out + 8 * lo * j0 + c j0 + k));
        cbn [andb]; try lia; apply A; lia.
  - intros x Hx. rewrite N', Lb. pose proof (Hx j0 Hj0) as Hx0. unfold adv in Hx0. rewrite Nat.eqb_refl in Hx0.
    destruct (Nat.leb_spec (out + 8 * lo * j0 + c j0) x), (Nat.ltb_spec x (out + 8 * lo * j0 + c j0 + k)); cbn [andb]; try lia;
    (apply N; intros j Hj; specialize (Hx j Hj); unfold adv in Hx; destruct (j =? j0)%nat; lia).
Qed.
Lemma QR_final d part : QR (fun _ => 8 * n)%nat d -> (forall j, (j < 4)%nat -> length (part j) = (8 * n)%nat) ->
  (forall j i, (j < 4)%nat -> (i < 8 * n)%nat -> nth i (part j) 0 = val j i) -> d = put_lanes out lo part d0.
Proof.
  clear - Hn Hlen. intros (L & _ & A & N) Lp Np. unfold put_lanes, put_at. set (g := fun _ y : Z => y).
  assert (L0 : length (overlay g (out + 8 * lo * 0) (part 0%nat) d0) = length d0) by (apply overlay_length; rewrite Lp by lia; lia).
  assert (L1 : length (overlay g (out + 8 * lo * 1) (part 1%nat) (overlay g (out + 8 * lo * 0) (part 0%nat) d0)) = length d0)
    by (rewrite overlay_length; rewrite ?L0, ?Lp by lia; lia).
  assert (L2 : length (overlay g (out + 8 * lo * 2) (part 2%nat) (overlay g (out + 8 * lo * 1) (part 1%nat) (overlay g (out + 8 * lo * 0) (part 0%nat) d0))) = length d0)
    by (rewrite overlay_length; rewrite ?L1, ?Lp by lia; lia).
  apply (list_ext_nth _ _ (length d0)); [exact L|rewrite overlay_length; rewrite ?L2, ?Lp by lia; lia|].
  intros x Hx. rewrite nth_overlay by (rewrite L2, Lp by lia; lia). rewrite nth_overlay by (rewrite L1, Lp by lia; lia).
  rewrite nth_overlay by (rewrite L0, Lp by lia; lia). rewrite nth_overlay by (rewrite Lp by lia; lia).
  rewrite !Lp by lia. unfold g.
  assert (In : forall j, (j < 4)%nat -> (out + 8 * lo * j <= x)%nat -> (x < out + 8 * lo * j + 8 * n)%nat -> nth x d 0 = nth (x - (out + 8 * lo * j)) (part j) 0).
  { intros j Hj H1 H2. rewrite Np by lia. rewrite <- A by lia. f_equal. lia. }
  destruct (Nat.leb_spec (out + 8 * lo * 3) x), (Nat.ltb_spec x (out + 8 * lo * 3 + 8 * n)); cbn [andb]; try (apply In; lia);
  (destruct (Nat.leb_spec (out + 8 * lo * 2) x), (Nat.ltb_spec x (out + 8 * lo * 2 + 8 * n)); cbn [andb]; try (apply In; lia));
  (destruct (Nat.leb_spec (out + 8 * lo * 1) x), (Nat.ltb_spec x (out + 8 * lo * 1 + 8 * n)); cbn [andb]; try (apply In; lia));
  (destruct (Nat.leb_spec (out + 8 * lo * 0) x), (Nat.ltb_spec x (out + 8 * lo * 0 + 8 * n)); cbn [andb]; try (apply In; lia));
  (apply N; intros j Hj; destruct j as [|[|[|[|j]]]]; lia).
Qed.
End Out.
Lemma QR_put val out lo n d0 c d j0 b k pos : (n <= lo)%nat -> (out + 24 * lo + 8 * n <= length d0)%nat ->
  QR val out lo d0 c d -> (j0 < 4)%nat -> (forall j, (j < 4)%nat -> (adv c j0 k j <= 8 * n)%nat) -> length b = k -> all_bytes b ->
  (forall i, (i < k)%nat -> nth i b 0 = val j0 (c j0 + i)%nat) -> pos = (out + 8 * lo * j0 + c j0)%nat ->
  exists d', wr d pos b = Some d' /\ QR val out lo d0 (adv c j0 k) d'.
Proof. intros H1 H2 H3 H4 H5 H6 H7 H8 ->. now apply (QR_step val out lo n H1 d0 H2). Qed.
Lemma QR_start val out lo d0 : all_bytes d0 -> QR val out lo d0 (fun _ => 0%nat) d0.
Proof. intros H. split; [reflexivity|]. split; [exact H|]. split; [lia|reflexivity]. Qed.
Lemma getw_lane s j i : length s = 25%nat -> (j < 4)%nat -> (i < 25)%nat -> getw s (4 * i + j) = Some (nth i s vz j).
Proof. intros L Hj Hi. replace (4 * i + j)%nat with (laneIndex j i) by (unfold laneIndex; lia). now apply getw_at. Qed.
Ltac adv_tac := intros ?j ?Hj; unfold adv; repeat match goal with |- context [(?a =? ?b)%nat] => destruct (Nat.eqb_spec a b) end; lia.
Definition words4 (v : vec) : bytes := store64 (v 0%nat) ++ store64 (v 1%nat) ++ store64 (v 2%nat) ++ store64 (v 3%nat).
Lemma words4_length v : length (words4 v) = 32%nat.
Proof. unfold words4. rewrite !app_length, !store64_length. reflexivity. Qed.
Lemma words4_bytes v : all_bytes (words4 v).
Proof. unfold words4, all_bytes. rewrite !Forall_app. repeat split; apply store64_bytes. Qed.
Lemma nth_words4 v i : (i < 32)%nat -> nth i (words4 v) 0 = wb (v (i / 8)%nat) (i mod 8).
Proof.
  intros H. pose proof (Nat.div_mod i 8 ltac:(lia)) as Hd. pose proof (Nat.mod_upper_bound i 8 ltac:(lia)) as Hm.
  set (q := (i / 8)%nat) in *. set (m := (i mod 8)%nat) in *. clearbody q m. subst i. unfold words4.
  destruct q as [|[|[|[|q]]]]; [..|lia].
  - rewrite app_nth1 by (rewrite store64_length; lia). rewrite nth_store64 by lia. f_equal; lia.
  - rewrite app_nth2 by (rewrite store64_length; lia). rewrite app_nth1 by (rewrite !store64_length; lia).
    rewrite store64_length, nth_store64 by lia. f_equal; lia.
  - rewrite app_nth2 by (rewrite store64_length; lia). rewrite app_nth2 by (rewrite !store64_length; lia).
    rewrite app_nth1 by (rewrite !store64_length; lia). rewrite !store64_length, nth_store64 by lia. f_equal; lia.
  - rewrite app_nth2 by (rewrite store64_length; lia). rewrite app_nth2 by (rewrite !store64_length; lia).
    rewrite app_nth2 by (rewrite !store64_length; lia). rewrite !store64_length, nth_store64 by lia. f_equal; lia.
Qed.
(** vectors taken apart *)
Lemma get4 s i : length s = 25%nat -> (i + 4 <= 25)%nat -> exists a b c d l0 l1 l2 l3,
  get s i = Some a /\ get s (i + 1) = Some b /\ get s (i + 2) = Some c /\ get s (i + 3) = Some d
  /\ UNINTLEAVE a b c d = (l0, l1, l2, l3)
  /\ forall m, (m < 4)%nat -> l0 m = nth (i + m) s vz 0%nat /\ l1 m = nth (i + m) s vz 1%nat
       /\ l2 m = nth (i + m) s vz 2%nat /\ l3 m = nth (i + m) s vz 3%nat.
Proof.
  intros L H. set (a := nth i s vz). set (b := nth (i + 1) s vz). set (c := nth (i + 2) s vz). set (d := nth (i + 3) s vz).
  destruct (UNINTLEAVE_at a b c d) as (l0 & l1 & l2 & l3 & E & N).
  exists a, b, c, d, l0, l1, l2, l3. unfold a, b, c, d in *. rewrite !(get_nth s _ vz) by lia. repeat (split; [first [reflexivity|exact E]|]).
  intros m Hm. destruct (N m Hm) as (-> & -> & -> & ->).
  destruct m as [|[|[|[|m]]]]; [..|lia]; cbn [nth]; rewrite ?Nat.add_0_r; repeat split; reflexivity.
Qed.
Lemma ib_at4 s j i x : ib s j (8 * i + x) = wb (nth (i + x / 8) s vz j) (x mod 8).
Proof.
  rewrite <- ib_at by (apply Nat.mod_upper_bound; lia). f_equal. pose proof (Nat.div_mod x 8 ltac:(lia)). lia.
Qed.
Section Extract.
Variable s : list vec.
Hypothesis Hs : states_ok s.
Variables lo n : nat.
Hypothesis Hn : (n <= 25)%nat.
Hypothesis Hno : (n <= lo)%nat.
Hypothesis Hlo : Z.of_nat (24 * lo) < 2 ^ 32.
Section Plain.
Variable d0 : bytes.
Hypothesis Hd0 : all_bytes d0.
Hypothesis Hlen : (24 * lo + 8 * n <= length d0)%nat.
Let Q := QR (ib s) 0 lo d0.
Lemma Extr_step i d : (i < n)%nat -> Q (fun _ => 8 * i)%nat d -> exists d', Extr s lo i d = Some d' /\ Q (fun _ => 8 * (i + 1))%nat d'.
Proof.
  intros Hi HQ. unfold Extr. rewrite !curData_val by (try exact Hlo; lia).
  replace (getw s (4 * i)) with (getw s (4 * i + 0)) by (f_equal; lia). pose proof (proj1 Hs) as L.
  rewrite !getw_lane by (try exact L; lia). cbn [bind].
  assert (Put : forall c d j0 pos, Q c d -> (j0 < 4)%nat -> c j0 = (8 * i)%nat -> (forall j, (j < 4)%nat -> (adv c j0 8 j <= 8 * n)%nat) ->
    pos = (8 * lo * j0 + 8 * i)%nat -> exists d', wr d pos (store64 (nth i s vz j0)) = Some d' /\ Q (adv c j0 8) d').
  { intros c e j0 pos He Hj Hc Hadv ->. apply (QR_put (ib s) 0 lo n d0); try assumption; try lia; [apply store64_length|apply store64_bytes|].
    intros k Hk. rewrite nth_store64, Hc, ib_at by lia. reflexivity. }
  edestruct (Put (fun _ => 8 * i)%nat d 0%nat (8 * i)%nat HQ) as (d1 & E1 & Q1); [lia|reflexivity|adv_tac|lia|]. rewrite E1. cbn [bind].
  edestruct (Put _ d1 1%nat (8 * lo * 1 + 8 * i)%nat Q1) as (d2 & E2 & Q2); [lia|reflexivity|adv_tac|reflexivity|]. rewrite E2. cbn [bind].
  edestruct (Put _ d2 2%nat (8 * lo * 2 + 8 * i)%nat Q2) as (d3 & E3 & Q3); [lia|reflexivity|adv_tac|reflexivity|]. rewrite E3. cbn [bind].
  edestruct (Put _ d3 3%nat (8 * lo * 3 + 8 * i)%nat Q3) as (d4 & E4 & Q4); [lia|reflexivity|adv_tac|reflexivity|]. rewrite E4.
  exists d4. split; [reflexivity|]. refine (QR_ext _ _ _ _ _ _ _ _ Q4). adv_tac.
Qed.
Lemma Extr4_step i d : (i + 4 <= n)%nat -> Q (fun _ => 8 * i)%nat d -> exists d', Extr4 s lo i d = Some d' /\ Q (fun _ => 8 * (i + 4))%nat d'.
Proof.
  intros Hi HQ. unfold Extr4. rewrite !curData_val by (try exact Hlo; lia).
  destruct (get4 s i (proj1 Hs)) as (a & b & c & d' & l0 & l1 & l2 & l3 & E0 & E1 & E2 & E3 & EU & NU); [lia|].
  rewrite E0, E1, E2, E3. cbn [bind]. rewrite EU. unfold st256. fold (words4 l0) (words4 l1) (words4 l2) (words4 l3).
  assert (Put : forall c d j0 pos l, Q c d -> (j0 < 4)%nat -> c j0 = (8 * i)%nat -> (forall j, (j < 4)%nat -> (adv c j0 32 j <= 8 * n)%nat) ->
    (forall m, (m < 4)%nat -> l m = nth (i + m) s vz j0) ->
    pos = (8 * lo * j0 + 8 * i)%nat -> exists d', wr d pos (words4 l) = Some d' /\ Q (adv c j0 32) d').
  { intros e e' j0 pos l He Hj Hc Hadv Hl ->. apply (QR_put (ib s) 0 lo n d0); try assumption; try lia; [apply words4_length|apply words4_bytes|].
    intros k Hk. rewrite nth_words4, Hc, ib_at4 by lia. rewrite Hl; [reflexivity|]. apply Nat.div_lt_upper_bound; lia. }
  edestruct (Put (fun _ => 8 * i)%nat d 0%nat (8 * i)%nat l0 HQ) as (d1 & F1 & Q1); [lia|reflexivity|adv_tac|intros m Hm; apply (NU m Hm)|lia|]. rewrite F1. cbn [bind].
  edestruct (Put _ d1 1%nat (8 * lo * 1 + 8 * i)%nat l1 Q1) as (d2 & F2 & Q2); [lia|reflexivity|adv_tac|intros m Hm; apply (NU m Hm)|reflexivity|]. rewrite F2. cbn [bind].
  edestruct (Put _ d2 2%nat (8 * lo * 2 + 8 * i)%nat l2 Q2) as (d3 & F3 & Q3); [lia|reflexivity|adv_tac|intros m Hm; apply (NU m Hm)|reflexivity|]. rewrite F3. cbn [bind].
  edestruct (Put _ d3 3%nat (8 * lo * 3 + 8 * i)%nat l3 Q3) as (d4 & F4 & Q4); [lia|reflexivity|adv_tac|intros m Hm; apply (NU m Hm)|reflexivity|]. rewrite F4.
  exists d4. split; [reflexivity|]. refine (QR_ext _ _ _ _ _ _ _ _ Q4). adv_tac.
Qed.
Theorem ExtractLanesAll_ok : KeccakP1600times4_ExtractLanesAll s d0 n lo = Some (put_lanes 0 lo (fun j => firstn (8 * n) (instance s j)) d0).
Proof.
  destruct (by_lanes_ok (Extr s lo) (Extr4 s lo) n d0 (fun i => Q (fun _ => 8 * i)%nat)) as (d & E & HQ).
  - exact (QR_start (ib s) 0 lo d0 Hd0).
  - exact Extr_step.
  - exact Extr4_step.
  - unfold KeccakP1600times4_ExtractLanesAll. rewrite E. f_equal. apply (QR_final (ib s) 0 lo n Hno d0 Hlen d); [exact HQ| |].
    + intros j Hj. rewrite firstn_length, instance_length by apply Hs. lia.
    + intros j i Hj Hi. rewrite nth_firstn', nth_instance by (try apply Hs; lia). now replace (i <? 8 * n)%nat with true by (symmetry; apply Nat.ltb_lt; lia).
Qed.
End Plain.
Section Xored.
Variable d0 : bytes.
Hypothesis Hd0 : all_bytes d0.
Variables inp out : nat.
Hypothesis Hin : (inp + 24 * lo + 8 * n <= length d0)%nat.
Hypothesis Hout : (out + 24 * lo + 8 * n <= length d0)%nat.
Hypothesis Hap : apart inp out (24 * lo + 8 * n).
Let val j q := Z.lxor (nth (inp + 8 * lo * j + q) d0 0) (ib s j q).
Let Q := QR val out lo d0.
(** what is not yet overwritten *)
Lemma unread c d j0 q : Q c d -> (j0 < 4)%nat -> (forall j, (j < 4)%nat -> (c j <= 8 * n)%nat) -> (c j0 <= q < 8 * n)%nat ->
  nth (inp + 8 * lo * j0 + q) d 0 = nth (inp + 8 * lo * j0 + q) d0 0.
Proof.
  intros (_ & _ & _ & N) Hj0 Hc Hq. apply N. intros j Hj. specialize (Hc j Hj).
  assert (H3 : (8 * lo * j0 <= 24 * lo)%nat) by nia. assert (H4 : (8 * lo * j <= 24 * lo)%nat) by nia.
  destruct (Nat.eq_dec j j0) as [->|Hne].
  - unfold apart in Hap. lia.
  - assert (Hfar : (8 * lo * j + 8 * lo <= 8 * lo * j0 \/ 8 * lo * j0 + 8 * lo <= 8 * lo * j)%nat) by nia.
    unfold apart in Hap. lia.
Qed.
Lemma ExtrXor_step i d : (i < n)%nat -> Q (fun _ => 8 * i)%nat d -> exists d', ExtrXor s inp out lo i d = Some d' /\ Q (fun _ => 8 * (i + 1))%nat d'.
Proof.
  intros Hi HQ. unfold ExtrXor. rewrite !curData_val by (try exact Hlo; lia).
  replace (getw s (4 * i)) with (getw s (4 * i + 0)) by (f_equal; lia). pose proof (proj1 Hs) as L.
  rewrite !getw_lane by (try exact L; lia). cbn [bind].
  assert (Put : forall c d j0 ip op, Q c d -> (j0 < 4)%nat -> c j0 = (8 * i)%nat -> (forall j, (j < 4)%nat -> (adv c j0 8 j <= 8 * n)%nat) ->
    ip = (inp + 8 * lo * j0 + 8 * i)%nat -> op = (out + 8 * lo * j0 + 8 * i)%nat ->
    exists w d', ld64 d ip = Some w /\ wr d op (store64 (Z.lxor w (nth i s vz j0))) = Some d' /\ Q (adv c j0 8) d').
  { intros c e j0 ip op He Hj Hc Hadv -> ->. pose proof He as (Le & Be & _).
    assert (H3 : (8 * lo * j0 <= 24 * lo)%nat) by nia.
    destruct (ld64_at e (inp + 8 * lo * j0 + 8 * i) Be) as (w & Ew & _ & Nw); [lia|].
    exists w. edestruct (QR_put val out lo n d0 c e j0 (store64 (Z.lxor w (nth i s vz j0))) 8 (out + 8 * lo * j0 + 8 * i)) as (d' & E' & Q');
      try eassumption; try lia; [apply store64_length|apply store64_bytes| |].
    2: { exists d'. split; [exact Ew|]. split; [exact E'|exact Q']. }
    intros k Hk. rewrite nth_store64, wb_xor, Nw by lia. unfold val. f_equal.
    - replace (inp + 8 * lo * j0 + 8 * i + k)%nat with (inp + 8 * lo * j0 + (c j0 + k))%nat by lia.
      apply (unread c e j0 (c j0 + k) He Hj); [|lia]. intros j Hj'. specialize (Hadv j Hj'). unfold adv in Hadv. destruct (j =? j0)%nat; lia.
    - rewrite Hc, ib_at by lia. reflexivity. }
  edestruct (Put (fun _ => 8 * i)%nat d 0%nat (inp + 8 * i)%nat (out + 8 * i)%nat HQ) as (w1 & d1 & R1 & E1 & Q1); [lia|reflexivity|adv_tac|lia|lia|]. rewrite R1. cbn [bind]. rewrite E1. cbn [bind].
  edestruct (Put _ d1 1%nat (inp + 8 * lo * 1 + 8 * i)%nat (out + 8 * lo * 1 + 8 * i)%nat Q1) as (w2 & d2 & R2 & E2 & Q2); [lia|reflexivity|adv_tac|reflexivity|reflexivity|]. rewrite R2. cbn [bind]. rewrite E2. cbn [bind].
  edestruct (Put _ d2 2%nat (inp + 8 * lo * 2 + 8 * i)%nat (out + 8 * lo * 2 + 8 * i)%nat Q2) as (w3 & d3 & R3 & E3 & Q3); [lia|reflexivity|adv_tac|reflexivity|reflexivity|]. rewrite R3. cbn [bind]. rewrite E3. cbn [bind].
  edestruct (Put _ d3 3%nat (inp + 8 * lo * 3 + 8 * i)%nat (out + 8 * lo * 3 + 8 * i)%nat Q3) as (w4 & d4 & R4 & E4 & Q4); [lia|reflexivity|adv_tac|reflexivity|reflexivity|]. rewrite R4. cbn [bind]. rewrite E4.
  exists d4. split; [reflexivity|]. refine (QR_ext _ _ _ _ _ _ _ _ Q4). adv_tac.
Qed.
Lemma ExtrXor4_step i d : (i + 4 <= n)%nat -> Q (fun _ => 8 * i)%nat d -> exists d', ExtrXor4 s inp out lo i d = Some d' /\ Q (fun _ => 8 * (i + 4))%nat d'.
Proof.
  intros Hi HQ. unfold ExtrXor4. rewrite !curData_val by (try exact Hlo; lia).
  destruct (get4 s i (proj1 Hs)) as (a & b & c & d' & l0 & l1 & l2 & l3 & E0 & E1 & E2 & E3 & EU & NU); [lia|].
  rewrite E0, E1, E2, E3. cbn [bind]. rewrite EU.
  assert (Rd : forall j0 pos, (j0 < 4)%nat -> pos = (inp + 8 * lo * j0 + 8 * i)%nat -> exists v, ld256 d pos = Some v
    /\ forall k, (k < 32)%nat -> wb (v (k / 8)%nat) (k mod 8) = nth (inp + 8 * lo * j0 + (8 * i + k)) d0 0).
  { intros j0 pos Hj0 ->. assert (H3 : (8 * lo * j0 <= 24 * lo)%nat) by nia. pose proof HQ as (Ld & Bd & _).
    destruct (ld256_at d (inp + 8 * lo * j0 + 8 * i)) as (v & Ev & Nv); [lia|]. exists v. split; [exact Ev|].
    intros k Hk. pose proof (Nat.div_mod k 8 ltac:(lia)) as Hd. pose proof (Nat.mod_upper_bound k 8 ltac:(lia)) as Hm.
    set (q := (k / 8)%nat) in *. set (m := (k mod 8)%nat) in *. clearbody q m.
    rewrite Nv by lia. rewrite wb_dw by (try exact Bd; lia).
    replace (inp + 8 * lo * j0 + 8 * i + 8 * q + m)%nat with (inp + 8 * lo * j0 + (8 * i + k))%nat by lia.
    apply (unread (fun _ => 8 * i)%nat d j0 (8 * i + k) HQ Hj0); [|lia]. intros. lia. }
  destruct (Rd 0%nat (inp + 8 * i)%nat) as (v0 & R0 & N0); [lia|lia|]. rewrite R0. cbn [bind].
  destruct (Rd 1%nat _ ltac:(lia) eq_refl) as (v1 & R1 & N1). rewrite R1. cbn [bind].
  destruct (Rd 2%nat _ ltac:(lia) eq_refl) as (v2 & R2 & N2). rewrite R2. cbn [bind].
  destruct (Rd 3%nat _ ltac:(lia) eq_refl) as (v3 & R3 & N3). rewrite R3. cbn [bind].
  unfold st256. fold (words4 (vxor l0 v0)) (words4 (vxor l1 v1)) (words4 (vxor l2 v2)) (words4 (vxor l3 v3)).
  assert (Put : forall c d j0 pos l v, Q c d -> (j0 < 4)%nat -> c j0 = (8 * i)%nat -> (forall j, (j < 4)%nat -> (adv c j0 32 j <= 8 * n)%nat) ->
    (forall m, (m < 4)%nat -> l m = nth (i + m) s vz j0) ->
    (forall k, (k < 32)%nat -> wb (v (k / 8)%nat) (k mod 8) = nth (inp + 8 * lo * j0 + (8 * i + k)) d0 0) ->
    pos = (out + 8 * lo * j0 + 8 * i)%nat -> exists d', wr d pos (words4 (vxor l v)) = Some d' /\ Q (adv c j0 32) d').
  { intros e e' j0 pos l v He Hj Hc Hadv Hl Hv ->. apply (QR_put val out lo n d0); try assumption; try lia; [apply words4_length|apply words4_bytes|].
    intros k Hk. rewrite nth_words4, Hc by lia. unfold vxor, val. rewrite wb_xor, Hv, ib_at4 by lia. rewrite Hl; [apply Z.lxor_comm|]. apply Nat.div_lt_upper_bound; lia. }
  edestruct (Put (fun _ => 8 * i)%nat d 0%nat (out + 8 * i)%nat l0 v0 HQ) as (d1 & F1 & Q1); [lia|reflexivity|adv_tac|intros m Hm; apply (NU m Hm)|exact N0|lia|]. rewrite F1. cbn [bind].
  edestruct (Put _ d1 1%nat (out + 8 * lo * 1 + 8 * i)%nat l1 v1 Q1) as (d2 & F2 & Q2); [lia|reflexivity|adv_tac|intros m Hm; apply (NU m Hm)|exact N1|reflexivity|]. rewrite F2. cbn [bind].
  edestruct (Put _ d2 2%nat (out + 8 * lo * 2 + 8 * i)%nat l2 v2 Q2) as (d3 & F3 & Q3); [lia|reflexivity|adv_tac|intros m Hm; apply (NU m Hm)|exact N2|reflexivity|]. rewrite F3. cbn [bind].
  edestruct (Put _ d3 3%nat (out + 8 * lo * 3 + 8 * i)%nat l3 v3 Q3) as (d4 & F4 & Q4); [lia|reflexivity|adv_tac|intros m Hm; apply (NU m Hm)|exact N3|reflexivity|]. rewrite F4.
  exists d4. split; [reflexivity|]. refine (QR_ext _ _ _ _ _ _ _ _ Q4). adv_tac.
Qed.
Theorem ExtractAndAddLanesAll_ok : KeccakP1600times4_ExtractAndAddLanesAll s d0 inp out n lo
  = Some (put_lanes out lo (fun j => xor_at 0 (firstn (8 * n) (instance s j)) (slice (inp + 8 * lo * j) (8 * n) d0)) d0).
Proof.
  destruct (by_lanes_ok (ExtrXor s inp out lo) (ExtrXor4 s inp out lo) n d0 (fun i => Q (fun _ => 8 * i)%nat)) as (d & E & HQ).
  - exact (QR_start val out lo d0 Hd0).
  - exact ExtrXor_step.
  - exact ExtrXor4_step.
  - unfold KeccakP1600times4_ExtractAndAddLanesAll. rewrite E. f_equal.
    assert (Lf : forall j, length (firstn (8 * n) (instance s j)) = (8 * n)%nat) by (intros j; rewrite firstn_length, instance_length by apply Hs; lia).
    assert (Ls : forall j, (j < 4)%nat -> length (slice (inp + 8 * lo * j) (8 * n) d0) = (8 * n)%nat) by (intros j Hj; apply slice_length; nia).
    apply (QR_final val out lo n Hno d0 Hout d); [exact HQ| |].
    + intros j Hj. unfold xor_at. rewrite overlay_length; rewrite ?Lf, Ls by exact Hj; lia.
    + intros j i Hj Hi. unfold xor_at. rewrite nth_overlay by (rewrite Lf, Ls by exact Hj; lia).
      rewrite Lf. cbn [Nat.leb andb Nat.add]. replace (i <? 8 * n)%nat with true by (symmetry; apply Nat.ltb_lt; lia).
      rewrite nth_slice by exact Hi. rewrite nth_firstn', Nat.sub_0_r, nth_instance by (try apply Hs; lia).
      now replace (i <? 8 * n)%nat with true by (symmetry; apply Nat.ltb_lt; lia).
Qed.
End Xored.
End Extract.

(** ** Rounds *)
Lemma state_of_instance (s : list vec) j : length s = 25%nat -> keq (state_of_bytes (instance s j)) (kbits (lane j s)).
Proof. intros H. rewrite instance_sbytes. apply state_sbytes. now rewrite lane_length. Qed.
Lemma rounds_ok k i0 s : (i0 + S k = 24)%nat -> states_ok s ->
  exists s', (s <- prepareTheta s ;;
    s <- iterM k i0 (fun i s => rc <- get KeccakF1600RoundConstants i ;; thetaRhoPiChiIotaPrepareTheta rc s) s ;;
    rc <- get KeccakF1600RoundConstants 23 ;; thetaRhoPiChiIota rc s) = Some s'
  /\ states_ok s' /\ forall j, (j < 4)%nat -> instance s' j = keccak_p (S k) (instance s j).
Proof.
  intros Hk Hs. pose proof (proj1 Hs) as Hl. destruct (prepare_lane s Hl) as (C & EC & LC & PC). rewrite EC. cbn [bind].
  destruct (iterM_inv k i0 (fun i s => rc <- get KeccakF1600RoundConstants i ;; thetaRhoPiChiIotaPrepareTheta rc s)
    (fun m t => exists t0 Ct, t = t0 ++ Ct /\ length t0 = 25%nat /\ length Ct = 5%nat
       /\ forall j, (j < 4)%nat -> Forall W64 (lane j t0) /\ keq (kbits (lane j t0)) (keccak_from (m - i0) i0 (kbits (lane j s)))
            /\ lane j Ct = parity (lane j t0)) (s ++ C))
    as (t & E & t0 & Ct & -> & L0 & LCt & HL).
  - exists s, C. split; [reflexivity|]. split; [exact Hl|]. split; [exact LC|].
    intros j Hj. split; [now apply states_W|]. split; [|apply PC]. rewrite Nat.sub_diag. intros x y z _ _ _. reflexivity.
  - intros i t Hi (t0 & Ct & -> & L0 & LCt & HL).
    change KeccakF1600RoundConstants with KeccakF_RoundConstants.
    destruct (rc_table i) as (w & Ew & Rw); [lia|]. rewrite Ew. cbn [bind].
    destruct (round4_lane w t0 Ct L0 LCt) as (t1 & C1 & E1 & L1 & LC1 & R1).
    exists (t1 ++ C1). split; [exact E1|]. exists t1, C1. split; [reflexivity|]. split; [exact L1|].
    split; [exact LC1|]. intros j Hj. destruct (HL j Hj) as (Wj & HR & HP).
    destruct (R1 j Hj Wj HP) as [R2 R3].
    destruct (half_A_E w i (lane j t0) Rw) as (u & Eu & Lu & Wu & Ku); [now rewrite lane_length|exact Wj|].
    rewrite R2 in Eu. injection Eu as <-. split; [exact Wu|]. split; [|exact R3].
    replace (S i - i0)%nat with ((i - i0) + 1)%nat by lia. rewrite keccak_from_split. cbn [keccak_from].
    replace (i0 + (i - i0))%nat with i by lia. eapply keq_trans; [exact Ku|]. now apply keq_Rnd.
  - rewrite E. cbn [bind]. change KeccakF1600RoundConstants with KeccakF_RoundConstants.
    destruct (rc_table 23) as (w & Ew & Rw); [lia|]. rewrite Ew. cbn [bind].
    destruct (round4_last w t0 Ct L0 LCt) as (s' & E1 & L1 & R1).
    exists s'. split; [exact E1|].
    assert (Hj4 : forall j, (j < 4)%nat -> Forall W64 (lane j s') /\ keq (kbits (lane j s')) (keccak_from (S k) i0 (kbits (lane j s)))).
    { intros j Hj. destruct (HL j Hj) as (Wj & HR & HP). specialize (R1 j Hj Wj HP).
      destruct (half_A_E w 23 (lane j t0) Rw) as (u & Eu & Lu & Wu & Ku); [now rewrite lane_length|exact Wj|].
      rewrite R1 in Eu. injection Eu as <-. split; [exact Wu|].
      replace (S k) with (k + 1)%nat by lia. rewrite keccak_from_split. cbn [keccak_from].
      replace (i0 + k - i0)%nat with k in HR by lia. replace (i0 + k)%nat with 23%nat by lia.
      eapply keq_trans; [exact Ku|]. now apply keq_Rnd. }
    split.
    + split; [exact L1|]. intros j Hj. destruct (Hj4 j Hj) as [Wj _]. unfold lane in Wj. rewrite Forall_map in Wj. exact Wj.
    + intros j Hj. destruct (Hj4 j Hj) as [_ Kj]. rewrite (instance_sbytes s'), <- bytes_of_kbits by (now rewrite lane_length).
      unfold keccak_p. replace (24 - S k)%nat with i0 by lia. apply bytes_of_keq. eapply keq_trans; [exact Kj|].
      apply keq_from. intros x y z Hx Hy Hz. symmetry. now apply (state_of_instance s j Hl).
Qed.
Definition perm4 (f : list vec -> option (list vec)) (nr : nat) : Prop := forall s, states_ok s ->
  exists s', f s = Some s' /\ states_ok s' /\ forall j, (j < 4)%nat -> instance s' j = keccak_p nr (instance s j).
Lemma rounds12_ok : perm4 rounds12 12.
Proof. intros s Hs. exact (rounds_ok 11 12 s eq_refl Hs). Qed.
Lemma rounds24_ok : perm4 rounds24 24.
Proof. intros s Hs. exact (rounds_ok 23 0 s eq_refl Hs). Qed.
Theorem PermuteAll_12rounds_ok : perm4 KeccakP1600times4_PermuteAll_12rounds 12.
Proof. intros s Hs. unfold KeccakP1600times4_PermuteAll_12rounds. rewrite (proj1 Hs). cbn [Nat.eqb guard bind]. now apply rounds12_ok. Qed.
Theorem PermuteAll_24rounds_ok : perm4 KeccakP1600times4_PermuteAll_24rounds 24.
Proof. intros s Hs. unfold KeccakP1600times4_PermuteAll_24rounds. rewrite (proj1 Hs). cbn [Nat.eqb guard bind]. now apply rounds24_ok. Qed.

(** ** Absorbing loops *)
Lemma loop_count_step L need step : (1 <= step)%nat -> (step <= need)%nat -> (need <= L)%nat -> loop_count L need step = S (loop_count (L - step) need step).
Proof.
  intros H1 H2 H3. unfold loop_count. destruct (Nat.ltb_spec L need); [lia|]. f_equal.
  destruct (Nat.ltb_spec (L - step) need).
  - apply Nat.div_small. lia.
  - replace (L - need)%nat with (L - step - need + 1 * step)%nat by lia. rewrite Nat.div_add by lia. lia.
Qed.
Section Loop.
Variables rounds permute : list vec -> option (list vec).
Variable nr : nat.
Hypothesis Hr : perm4 rounds nr.
Hypothesis Hp : perm4 permute nr.
Variables lc par serial : nat.
Variable data : bytes.
Hypothesis Hd : all_bytes data.
Hypothesis Hlc : (lc <= 25)%nat.
Hypothesis Hser : (1 <= serial <= 3 * par + lc)%nat.
Hypothesis Hover : Z.of_nat (8 * (3 * par + lc)) < 2 ^ 32.
Let blocks pos k j := map (fun i => slice (pos + 8 * serial * i + 8 * par * j) (8 * lc) data) (seq 0 k).
Lemma fast_loop_ok body : (forall pos s, states_ok s -> (pos + 8 * (3 * par + lc) <= length data)%nat -> exists s', body pos s = Some s' /\ states_ok s'
    /\ forall j, (j < 4)%nat -> instance s' j = keccak_p nr (xor_at 0 (slice (pos + 8 * par * j) (8 * lc) data) (instance s j))) ->
  forall fuel pos L s, states_ok s -> (pos + L <= length data)%nat -> Z.of_nat L < 2 ^ 64 -> (loop_count L (8 * (3 * par + lc)) (8 * serial) < fuel)%nat ->
  exists s', fast_loop lc par serial body (8 * serial) fuel pos (Z.of_nat L) s
      = Some (s', (pos + 8 * serial * loop_count L (8 * (3 * par + lc)) (8 * serial))%nat)
    /\ states_ok s'
    /\ forall j, (j < 4)%nat -> instance s' j
         = absorb_blocks (keccak_p nr) (blocks pos (loop_count L (8 * (3 * par + lc)) (8 * serial)) j) (instance s j).
Proof.
  intros Hb. set (need := (8 * (3 * par + lc))%nat) in *.
  assert (Em : loop_min lc par = Z.of_nat need).
  { unfold loop_min, u32. rewrite Z.mod_small; unfold need in *; lia. }
  induction fuel as [|fuel IH]; intros pos L s Hs Hpos HL Hf; [lia|].
  cbn [fast_loop]. rewrite Em. destruct (Z.ltb_spec (Z.of_nat L) (Z.of_nat need)) as [H|H].
  - assert (E0 : loop_count L need (8 * serial) = 0%nat).
    { unfold loop_count. replace (L <? need)%nat with true by (symmetry; apply Nat.ltb_lt; lia). reflexivity. }
    rewrite E0. exists s. split; [repeat f_equal; lia|]. split; [exact Hs|]. intros j _. reflexivity.
  - destruct (Hb pos s Hs) as (s1 & E1 & Hs1 & I1); [lia|]. rewrite E1. cbn [bind].
    assert (E2 : u64 (Z.of_nat L - u32 (Z.of_nat serial * 8)) = Z.of_nat (L - 8 * serial)).
    { unfold u32, u64. rewrite (Z.mod_small (Z.of_nat serial * 8)) by (unfold need in *; lia). rewrite Z.mod_small by (unfold need in *; lia). unfold need in *; lia. }
    rewrite E2. rewrite (loop_count_step L need (8 * serial)) in * by (unfold need in *; lia).
    set (k := loop_count (L - 8 * serial) need (8 * serial)) in *.
    destruct (IH (pos + 8 * serial)%nat (L - 8 * serial)%nat s1 Hs1) as (s' & E' & Hs' & I'); [unfold need in *; lia|lia|fold k; lia|].
    fold k in E', I'. exists s'. split; [|split; [exact Hs'|]].
    + rewrite E'. do 2 f_equal. lia.
    + intros j Hj. rewrite I' by exact Hj. rewrite I1 by exact Hj. unfold blocks at 2. cbn [seq map]. unfold absorb_blocks at 2. cbn [fold_left].
      rewrite <- seq_shift, map_map. unfold absorb_blocks. f_equal; [|repeat f_equal; lia].
      unfold blocks. apply map_ext. intros i. f_equal. lia.
Qed.
Theorem FastLoop_ok fuel L s : states_ok s -> (L <= length data)%nat -> Z.of_nat L < 2 ^ 64 -> (loop_count L (8 * (3 * par + lc)) (8 * serial) < fuel)%nat ->
  exists s', FastLoop_Absorb rounds permute lc par serial data fuel s (Z.of_nat L)
      = Some (s', (8 * serial * loop_count L (8 * (3 * par + lc)) (8 * serial))%nat)
    /\ states_ok s'
    /\ forall j, (j < 4)%nat -> instance s' j
         = absorb_blocks (keccak_p nr) (map (fun i => slice (8 * serial * i + 8 * par * j) (8 * lc) data)
             (seq 0 (loop_count L (8 * (3 * par + lc)) (8 * serial)))) (instance s j).
Proof.
  intros Hs HL HL64 Hf. unfold FastLoop_Absorb. rewrite (proj1 Hs). cbn [Nat.eqb guard bind].
  assert (Hpar : Z.of_nat (24 * par) < 2 ^ 32) by lia.
  destruct (Nat.eqb_spec lc 21) as [H21|H21].
  - refine (fast_loop_ok (body21 rounds par data) _ fuel 0 L s Hs HL HL64 Hf).
    intros pos t Ht Hpos. unfold body21. pose proof (Xor_In_all data Hd pos par lc Hpar Hlc ltac:(lia) t Ht) as HX.
    destruct HX as (t1 & E1 & H1 & I1). rewrite H21 in E1. rewrite E1. cbn [bind]. destruct (Hr t1 H1) as (t2 & E2 & H2 & I2).
    exists t2. split; [exact E2|]. split; [exact H2|]. intros j Hj. rewrite I2, I1 by exact Hj. reflexivity.
  - replace (Z.to_nat (u32 (Z.of_nat serial * 8))) with (8 * serial)%nat by (unfold u32; rewrite Z.mod_small by lia; lia).
    refine (fast_loop_ok (body_any permute lc par data) _ fuel 0 L s Hs HL HL64 Hf).
    intros pos t Ht Hpos. unfold body_any. destruct (AddLanes_ok data Hd pos par lc Hpar Hlc ltac:(lia) t Ht) as (t1 & E1 & H1 & I1).
    rewrite E1. cbn [bind]. destruct (Hp t1 H1) as (t2 & E2 & H2 & I2).
    exists t2. split; [exact E2|]. split; [exact H2|]. intros j Hj. rewrite I2, I1 by exact Hj. reflexivity.
Qed.
End Loop.

(** A step longer than what one iteration needs: the unsigned length wraps and the next iteration reads past the end. *)
Lemma rd_none (b : bytes) o n : (length b < o + n)%nat -> rd b o n = None.
Proof. intros H. unfold rd. now replace (o + n <=? length b)%nat with false by (symmetry; apply Nat.leb_gt; lia). Qed.
Section Wrap.
Variables rounds permute : list vec -> option (list vec).
Variables lc par serial : nat.
Variable data : bytes.
Hypothesis Hlc : (1 <= lc)%nat.
Hypothesis Hser : Z.of_nat (8 * serial) < 2 ^ 32.
Hypothesis Hneed : (8 * (3 * par + lc) <= length data)%nat.
Hypothesis Hlen : (length data < 8 * serial)%nat.
Lemma body_none b s : (b = body21 rounds par data \/ b = body_any permute lc par data) -> b (8 * serial)%nat s = None.
Proof.
  intros Hb.
  assert (N4 : forall i, load4 data (8 * serial) par i = None) by (intros i; unfold load4, ld64; rewrite rd_none by lia; reflexivity).
  assert (N1 : forall i t, Xor_In data (8 * serial) par i t = None) by (intros i t; unfold Xor_In; rewrite N4; reflexivity).
  assert (N3 : forall i t, Xor_In4 data (8 * serial) par i t = None) by (intros i t; unfold Xor_In4, ld256, ld64; rewrite rd_none by lia; reflexivity).
  destruct Hb as [->| ->].
  - unfold body21. change (iterM 21 0 ?f s) with (bind (f 0%nat s) (iterM 20 1 f)). now rewrite N1.
  - unfold body_any, AddLanesAll_at, by_lanes. destruct (16 <=? lc)%nat; [now rewrite N3|].
    destruct lc as [|m]; [lia|]. cbn [iterM]. now rewrite N1.
Qed.
Theorem FastLoop_wraps fuel s : FastLoop_Absorb rounds permute lc par serial data fuel s (Z.of_nat (length data)) = None.
Proof.
  unfold FastLoop_Absorb. destruct (guard _) as [u|]; [|reflexivity]. cbn [bind].
  replace (Z.to_nat (u32 (Z.of_nat serial * 8))) with (8 * serial)%nat by (unfold u32; rewrite Z.mod_small by lia; lia).
  assert (G : forall b, (b = body21 rounds par data \/ b = body_any permute lc par data) ->
    fast_loop lc par serial b (8 * serial) fuel 0 (Z.of_nat (length data)) s = None).
  { intros b Hb. destruct fuel as [|fuel]; [reflexivity|]. cbn [fast_loop].
    assert (Em : loop_min lc par = Z.of_nat (8 * (3 * par + lc))) by (unfold loop_min, u32; rewrite Z.mod_small; lia).
    rewrite Em. destruct (Z.ltb_spec (Z.of_nat (length data)) (Z.of_nat (8 * (3 * par + lc)))); [lia|].
    destruct (b 0%nat s) as [s1|]; [|reflexivity]. cbn [bind]. destruct fuel as [|fuel]; [reflexivity|]. cbn [fast_loop].
    assert (E2 : u64 (Z.of_nat (length data) - u32 (Z.of_nat serial * 8)) = 2 ^ 64 - Z.of_nat (8 * serial) + Z.of_nat (length data)).
    { unfold u32, u64. rewrite (Z.mod_small (Z.of_nat serial * 8)) by lia.
      rewrite <- (Z.mod_add _ 1) by lia. rewrite Z.mod_small by lia. lia. }
    rewrite E2, Em. destruct (Z.ltb_spec (2 ^ 64 - Z.of_nat (8 * serial) + Z.of_nat (length data)) (Z.of_nat (8 * (3 * par + lc)))); [lia|].
    cbn [Nat.add]. now rewrite (body_none b s1 Hb). }
  destruct (lc =? 21)%nat; apply G; auto.
Qed.
End Wrap.
