(** Proofs about KeccakSnP.v. *)
From Verif Require Import Base BaseFacts Fips202 KeccakSpec KeccakProofs ShakeProofs LaneKeccak LaneKeccakProofs LaneHashForms KeccakSnP KeccakSnPSpec.

(** ** Buffers, position by position *)
Lemma nth_firstn' {A} n (l : list A) i d : nth i (firstn n l) d = if (i <? n)%nat then nth i l d else d.
Proof.
  revert l i. induction n as [|n IH]; intros l i; [destruct i; reflexivity|].
  destruct l as [|x l]; [rewrite firstn_nil; destruct (i <? S n)%nat; destruct i; reflexivity|]. destruct i as [|i]; [reflexivity|].
  cbn [firstn nth]. rewrite IH. reflexivity.
Qed.
Lemma nth_skipn' {A} n (l : list A) i d : nth i (skipn n l) d = nth (n + i) l d.
Proof. revert l. induction n as [|n IH]; intros l; [reflexivity|]. destruct l; [destruct i; reflexivity|]. apply IH. Qed.
Lemma rd_at b o n : (o + n <= length b)%nat -> exists d, rd b o n = Some d /\ length d = n
  /\ forall i, (i < n)%nat -> nth i d 0 = nth (o + i) b 0.
Proof.
  intros H. rewrite rd_ok by exact H. eexists. split; [reflexivity|]. split.
  - rewrite firstn_length, skipn_length. lia.
  - intros i Hi. rewrite nth_firstn', nth_skipn'. now replace (i <? n)%nat with true by (symmetry; apply Nat.ltb_lt; lia).
Qed.
Lemma wr_at b o d : (o + length d <= length b)%nat -> exists b', wr b o d = Some b' /\ length b' = length b
  /\ forall i, nth i b' 0 = if ((o <=? i) && (i <? o + length d))%nat then nth (i - o) d 0 else nth i b 0.
Proof.
  intros H. pose proof (wr_ok b o d H) as E. rewrite E. eexists. split; [reflexivity|].
  split; [exact (wr_length _ _ _ _ E)|]. intros i.
  destruct (Nat.leb_spec o i) as [H1|H1]; cbn [andb].
  - rewrite app_nth2 by (rewrite firstn_length; lia). rewrite firstn_length, Nat.min_l by lia.
    destruct (Nat.ltb_spec i (o + length d)) as [H2|H2].
    + now rewrite app_nth1 by lia.
    + rewrite app_nth2 by lia. rewrite nth_skipn'. f_equal. lia.
  - rewrite app_nth1 by (rewrite firstn_length; lia). rewrite nth_firstn'.
    now replace (i <? o)%nat with true by (symmetry; apply Nat.ltb_lt; lia).
Qed.
Lemma overlay_length f off d b : (off + length d <= length b)%nat -> length (overlay f off d b) = length b.
Proof.
  intros H. unfold overlay. rewrite !app_length, map_length, combine_length, firstn_length, !skipn_length. lia.
Qed.
Lemma nth_combine (a d : list Z) : forall i, (i < length a)%nat -> (i < length d)%nat ->
  nth i (combine a d) (0, 0) = (nth i a 0, nth i d 0).
Proof.
  revert d. induction a as [|x a IH]; intros d i H1 H2; [cbn in H1; lia|]. destruct d as [|y d]; [cbn in H2; lia|].
  destruct i as [|i]; [reflexivity|]. cbn [combine nth length] in *. apply IH; lia.
Qed.
Lemma nth_overlay f off d b i : (off + length d <= length b)%nat ->
  nth i (overlay f off d b) 0
  = if ((off <=? i) && (i <? off + length d))%nat then f (nth i b 0) (nth (i - off) d 0) else nth i b 0.
Proof.
  intros H. unfold overlay. set (m := map _ _).
  assert (Lm : length m = length d) by (unfold m; rewrite map_length, combine_length, skipn_length; lia).
  destruct (Nat.leb_spec off i) as [H1|H1]; cbn [andb].
  - rewrite app_nth2 by (rewrite firstn_length; lia). rewrite firstn_length, Nat.min_l by lia.
    destruct (Nat.ltb_spec i (off + length d)) as [H2|H2].
    + rewrite app_nth1 by lia. unfold m.
      rewrite (nth_indep _ 0 (f (fst (0, 0)) (snd (0, 0)))) by (fold m; lia).
      rewrite (map_nth (fun p => f (fst p) (snd p))), nth_combine by (rewrite ?skipn_length; lia).
      cbn [fst snd]. rewrite nth_skipn'. do 2 f_equal. lia.
    + rewrite app_nth2 by lia. rewrite nth_skipn'. f_equal. lia.
  - rewrite app_nth1 by (rewrite firstn_length; lia). rewrite nth_firstn'.
    now replace (i <? off)%nat with true by (symmetry; apply Nat.ltb_lt; lia).
Qed.
Lemma slice_length off n d : (off + n <= length d)%nat -> length (slice off n d) = n.
Proof. intros H. unfold slice. rewrite firstn_length, skipn_length. lia. Qed.
Lemma nth_slice off n d i : (i < n)%nat -> nth i (slice off n d) 0 = nth (off + i) d 0.
Proof.
  intros H. unfold slice. rewrite nth_firstn', nth_skipn'. now replace (i <? n)%nat with true by (symmetry; apply Nat.ltb_lt; lia).
Qed.

(** ** States *)
Definition vz : vec := fun _ => 0.
(** 25 vectors of words *)
Definition states_ok (s : list vec) : Prop := length s = 25%nat /\ forall j, (j < 4)%nat -> Forall (fun v : vec => 0 <= v j < 2 ^ 64) s.
(** byte q of instance j *)
Definition ib (s : list vec) (j q : nat) : Z := u8 (Z.shiftr (nth (q / 8) s vz j) (8 * Z.of_nat (q mod 8))).

Lemma instance_sbytes (s : list vec) j : instance s j = sbytes (lane j s).
Proof.
  unfold instance, sbytes, lane. rewrite !flat_map_concat_map, map_map. f_equal. apply map_ext. intros v.
  apply map_ext. intros i. unfold u8. rewrite Z.shiftr_div_pow2 by lia. rewrite Z.pow_mul_r by lia. reflexivity.
Qed.
Lemma instance_length (s : list vec) j : length s = 25%nat -> length (instance s j) = 200%nat.
Proof. intros H. rewrite instance_sbytes, sbytes_length, lane_length, H. reflexivity. Qed.
Lemma nth_instance (s : list vec) j q : length s = 25%nat -> (q < 200)%nat -> nth q (instance s j) 0 = ib s j q.
Proof.
  intros H Hq. rewrite instance_sbytes, nth_sbytes by (rewrite lane_length, H; lia). unfold ib. now rewrite lane_nth.
Qed.
Lemma states_W s j : states_ok s -> (j < 4)%nat -> Forall W64 (lane j s).
Proof. intros [_ H] Hj. unfold lane. apply Forall_map. exact (H j Hj). Qed.
Lemma states_nth s p j : states_ok s -> (j < 4)%nat -> W64 (nth p s vz j).
Proof.
  intros [_ H] Hj. specialize (H j Hj). destruct (nth_in_or_default p s vz) as [I|E].
  - rewrite Forall_forall in H. exact (H _ I).
  - rewrite E. unfold vz, W64. lia.
Qed.
Lemma states_intro s : length s = 25%nat -> (forall p j, (p < 25)%nat -> (j < 4)%nat -> W64 (nth p s vz j)) -> states_ok s.
Proof.
  intros L H. split; [exact L|]. intros j Hj. apply Forall_forall. intros v Hv.
  destruct (In_nth s v vz Hv) as (p & Hp & <-). apply H; [lia|exact Hj].
Qed.
Lemma list_ext_nth (a b : list Z) n : length a = n -> length b = n -> (forall i, (i < n)%nat -> nth i a 0 = nth i b 0) -> a = b.
Proof. intros La Lb H. apply (nth_ext a b 0 0); [lia|]. intros i Hi. apply H. lia. Qed.

Lemma vput_at s i v : (i < length s)%nat -> exists s', vput s i v = Some s' /\ length s' = length s
  /\ forall p, nth p s' vz = if (p =? i)%nat then v else nth p s vz.
Proof.
  intros H. unfold vput. replace (i <? length s)%nat with true by (symmetry; apply Nat.ltb_lt; lia).
  eexists. split; [reflexivity|]. split.
  - rewrite app_length. cbn [length]. rewrite firstn_length, skipn_length. lia.
  - intros p. destruct (Nat.lt_trichotomy p i) as [H1|[->|H1]].
    + replace (p =? i)%nat with false by (symmetry; apply Nat.eqb_neq; lia).
      rewrite app_nth1 by (rewrite firstn_length; lia). rewrite nth_firstn'.
      now replace (p <? i)%nat with true by (symmetry; apply Nat.ltb_lt; lia).
    + rewrite Nat.eqb_refl, app_nth2 by (rewrite firstn_length; lia). rewrite firstn_length, Nat.min_l, Nat.sub_diag by lia. reflexivity.
    + replace (p =? i)%nat with false by (symmetry; apply Nat.eqb_neq; lia).
      rewrite app_nth2 by (rewrite firstn_length; lia). rewrite firstn_length, Nat.min_l by lia.
      replace (p - i)%nat with (S (p - S i)) by lia. cbn [nth]. rewrite nth_skipn'. f_equal. lia.
Qed.
Lemma laneIndex_div j pos : (j < 4)%nat -> (laneIndex j pos / 4 = pos /\ laneIndex j pos mod 4 = j)%nat.
Proof.
  intros H. unfold laneIndex. rewrite Nat.div_add_l, Nat.div_small by lia. rewrite (Nat.add_comm (pos * 4)), Nat.mod_add, Nat.mod_small by lia. lia.
Qed.
Lemma getw_at s j pos : length s = 25%nat -> (j < 4)%nat -> (pos < 25)%nat -> getw s (laneIndex j pos) = Some (nth pos s vz j).
Proof.
  intros L Hj Hp. unfold getw. destruct (laneIndex_div j pos Hj) as [-> ->].
  rewrite (get_nth s pos vz) by lia. reflexivity.
Qed.
Lemma putw_at s j pos w : length s = 25%nat -> (j < 4)%nat -> (pos < 25)%nat -> exists s', putw s (laneIndex j pos) w = Some s'
  /\ length s' = 25%nat
  /\ forall p k, nth p s' vz k = if ((p =? pos) && (k =? j))%nat then w else nth p s vz k.
Proof.
  intros L Hj Hp. unfold putw. destruct (laneIndex_div j pos Hj) as [-> ->].
  rewrite (get_nth s pos vz) by lia. cbn [bind]. destruct (vput_at s pos (fun k => if (k =? j)%nat then w else nth pos s vz k)) as (s' & E & L' & N); [lia|].
  exists s'. split; [exact E|]. split; [lia|]. intros p k. rewrite N.
  destruct (Nat.eqb_spec p pos) as [->|Hne]; cbn [andb]; reflexivity.
Qed.
(** bytes of a word *)
Definition wb (w : Z) (i : nat) : Z := u8 (Z.shiftr w (8 * Z.of_nat i)).
Lemma wb_xor a b i : wb (Z.lxor a b) i = Z.lxor (wb a i) (wb b i).
Proof. unfold wb. now rewrite Z.shiftr_lxor, u8_xor. Qed.
Lemma wb_le l i : all_bytes l -> wb (le_word l) i = nth i l 0.
Proof. intros H. unfold wb. rewrite le_word_le. change (map u8 l) with (norm l). rewrite norm_bytes by exact H. apply le_byte. exact H. Qed.
Lemma nth_store64 w i : (i < 8)%nat -> nth i (store64 w) 0 = wb w i.
Proof.
  intros H. unfold store64. rewrite (nth_indep _ 0 (wb w 0)) by (rewrite map_length, seq_length; lia).
  rewrite (map_nth (wb w)), seq_nth by lia. reflexivity.
Qed.
Lemma store64_bytes w : all_bytes (store64 w).
Proof. apply Forall_forall. intros x Hx. unfold store64 in Hx. apply in_map_iff in Hx as (i & <- & _). apply u8_byte. Qed.
Lemma all_bytes_intro l : (forall i, (i < length l)%nat -> is_byte (nth i l 0)) -> all_bytes l.
Proof. intros H. apply Forall_forall. intros x Hx. destruct (In_nth l x 0 Hx) as (i & Hi & <-). now apply H. Qed.
Lemma all_bytes_nth l i : all_bytes l -> is_byte (nth i l 0).
Proof.
  intros H. destruct (nth_in_or_default i l 0) as [I|E]; [unfold all_bytes in H; rewrite Forall_forall in H; auto|]. rewrite E. unfold is_byte. lia.
Qed.
Lemma ib_byte s j q : is_byte (ib s j q).
Proof. apply u8_byte. Qed.

(** ** Access by bytes *)
Lemma walk_ok {S} (part : nat -> nat -> nat -> nat -> S -> option S) full off len s (Q : nat -> S -> Prop) :
  Q 0%nat s ->
  (forall pos o n cur s, (1 <= n)%nat -> (o + n <= 8)%nat -> (8 * pos + o = off + cur)%nat -> (cur + n <= len)%nat -> Q cur s ->
     exists s', part pos o n cur s = Some s' /\ Q (cur + n)%nat s') ->
  (forall pos cur s, (8 * pos = off + cur)%nat -> (cur + 8 <= len)%nat -> Q cur s ->
     exists s', full pos cur s = Some s' /\ Q (cur + 8)%nat s') ->
  exists s', walk part full off len s = Some s' /\ Q len s'.
Proof.
  intros Q0 HP HF. unfold walk.
  pose proof (Nat.div_mod off 8 ltac:(lia)) as Ho. pose proof (Nat.mod_upper_bound off 8 ltac:(lia)) as Hm.
  set (q := (off / 8)%nat) in *. set (r := (off mod 8)%nat) in *. clearbody q r.
  assert (Rest : forall s1 pos cur left, Q cur s1 -> (cur + left = len)%nat -> (left = 0 \/ 8 * pos = off + cur)%nat ->
    exists s', (s0 <- iterM (left / 8) 0 (fun i s => full (pos + i)%nat (cur + 8 * i)%nat s) s1 ;;
      if (0 <? left mod 8)%nat then part (pos + left / 8)%nat 0%nat (left mod 8)%nat (cur + 8 * (left / 8))%nat s0 else Some s0) = Some s'
      /\ Q len s').
  { intros s1 pos cur left H1 H2 H3.
    pose proof (Nat.div_mod left 8 ltac:(lia)) as Hd. pose proof (Nat.mod_upper_bound left 8 ltac:(lia)) as Hmm.
    set (d := (left / 8)%nat) in *. set (m := (left mod 8)%nat) in *. clearbody d m.
    destruct (iterM_inv d 0 (fun i s => full (pos + i)%nat (cur + 8 * i)%nat s) (fun i s => Q (cur + 8 * i)%nat s) s1) as (s2 & E2 & Q2).
    - now replace (cur + 8 * 0)%nat with cur by lia.
    - intros i t Hi Ht. replace (cur + 8 * Datatypes.S i)%nat with (cur + 8 * i + 8)%nat by lia. apply HF; [lia|lia|exact Ht].
    - rewrite E2. cbn [bind]. cbn [Nat.add] in Q2. destruct (Nat.ltb_spec 0 m) as [Hm0|Hm0].
      + replace len with (cur + 8 * d + m)%nat by lia. apply HP; [lia|lia|lia|lia|exact Q2].
      + exists s2. split; [reflexivity|]. now replace len with (cur + 8 * d)%nat by lia. }
  destruct (Nat.ltb_spec 0 len) as [Hl|Hl]; cbn [andb].
  - destruct (Nat.eqb_spec r 0) as [Hr|Hr]; cbn [negb bind].
    + apply Rest; [exact Q0|lia|lia].
    + destruct (HP q r (Nat.min (8 - r) len) 0%nat s) as (s1 & E1 & Q1); [lia|lia|lia|lia|exact Q0|].
      rewrite E1. cbn [bind]. apply Rest; [exact Q1|lia|lia].
  - cbn [bind]. apply Rest; [exact Q0|lia|lia].
Qed.

(** The bytes of one instance that have been combined, the others and the other instances unchanged. *)
Definition QS (g : Z -> Z -> Z) (inst off : nat) (data : bytes) (s0 : list vec) (c : nat) (s : list vec) : Prop :=
  states_ok s
  /\ (forall q, (q < 200)%nat ->
        ib s inst q = if ((off <=? q) && (q <? off + c))%nat then g (ib s0 inst q) (nth (q - off) data 0) else ib s0 inst q)
  /\ (forall p j, (j < 4)%nat -> j <> inst -> nth p s vz j = nth p s0 vz j).
Lemma QS_0 g inst off data s0 : states_ok s0 -> QS g inst off data s0 0 s0.
Proof.
  intros H. split; [exact H|]. split; [|reflexivity]. intros q Hq.
  destruct (Nat.leb_spec off q); cbn [andb]; [|reflexivity]. destruct (Nat.ltb_spec q (off + 0)); [lia|reflexivity].
Qed.
Lemma QS_step g inst off data s0 pos o n cur s w : (inst < 4)%nat -> (off + (cur + n) <= 200)%nat ->
  (1 <= n)%nat -> (o + n <= 8)%nat -> (8 * pos + o = off + cur)%nat -> QS g inst off data s0 cur s -> W64 w ->
  (forall i, (i < 8)%nat -> wb w i = if ((o <=? i) && (i <? o + n))%nat
     then g (wb (nth pos s vz inst) i) (nth (cur + (i - o)) data 0) else wb (nth pos s vz inst) i) ->
  exists s', putw s (laneIndex inst pos) w = Some s' /\ QS g inst off data s0 (cur + n) s'.
Proof.
  intros Hi Hlen Hn Hon Hpos (Hs & HQ & HO) Ww Hw.
  destruct (putw_at s inst pos w (proj1 Hs) Hi) as (s' & E & L' & N'); [lia|].
  exists s'. split; [exact E|]. split; [|split].
  - apply states_intro; [exact L'|]. intros p j Hp Hj. rewrite N'.
    destruct ((p =? pos) && (j =? inst))%nat; [exact Ww|]. now apply states_nth.
  - intros q Hq. pose proof (Nat.div_mod q 8 ltac:(lia)) as Hd. pose proof (Nat.mod_upper_bound q 8 ltac:(lia)) as Hm.
    specialize (HQ q Hq). unfold ib at 1. rewrite N', Nat.eqb_refl, Bool.andb_true_r.
    destruct (Nat.eqb_spec (q / 8) pos) as [Hp|Hp].
    + change (u8 (Z.shiftr w (8 * Z.of_nat (q mod 8)))) with (wb w (q mod 8)). rewrite Hw by exact Hm.
      change (wb (nth pos s vz inst) (q mod 8)) with (u8 (Z.shiftr (nth pos s vz inst) (8 * Z.of_nat (q mod 8)))).
      rewrite <- Hp. fold (ib s inst q). rewrite HQ. clear HQ Hw.
      set (d := (q / 8)%nat) in *. set (m := (q mod 8)%nat) in *. clearbody d m.
      destruct (Nat.leb_spec o m), (Nat.ltb_spec m (o + n)), (Nat.leb_spec off q), (Nat.ltb_spec q (off + cur)), (Nat.ltb_spec q (off + (cur + n)));
        cbn [andb]; try lia; try reflexivity. do 2 f_equal. lia.
    + fold (ib s inst q). rewrite HQ. clear HQ Hw. set (d := (q / 8)%nat) in *. set (m := (q mod 8)%nat) in *. clearbody d m.
      destruct (Nat.leb_spec off q), (Nat.ltb_spec q (off + cur)), (Nat.ltb_spec q (off + (cur + n))); cbn [andb]; try lia; reflexivity.
  - intros p j Hj Hne. rewrite N'. destruct (Nat.eqb_spec j inst); [contradiction|]. rewrite Bool.andb_false_r. now apply HO.
Qed.
Lemma QS_final g inst off data s0 len s : (inst < 4)%nat -> (off + len <= 200)%nat -> (len <= length data)%nat -> states_ok s0 ->
  QS g inst off data s0 len s ->
  states_ok s /\ forall j, (j < 4)%nat ->
    instance s j = if (j =? inst)%nat then overlay g off (firstn len data) (instance s0 j) else instance s0 j.
Proof.
  intros Hi Hlen Hd Hs0 (Hs & HQ & HO). split; [exact Hs|]. intros j Hj. destruct (Nat.eqb_spec j inst) as [->|Hne].
  - assert (Lf : length (firstn len data) = len) by (rewrite firstn_length; lia).
    apply (list_ext_nth _ _ 200); [apply instance_length, Hs|rewrite overlay_length; [apply instance_length, Hs0|]|].
    { rewrite Lf, instance_length by apply Hs0. exact Hlen. }
    intros q Hq. rewrite nth_overlay by (rewrite Lf, instance_length by apply Hs0; exact Hlen).
    rewrite !nth_instance by (try apply Hs; try apply Hs0; exact Hq). rewrite Lf, HQ by exact Hq.
    destruct (Nat.leb_spec off q); cbn [andb]; [|reflexivity]. destruct (Nat.ltb_spec q (off + len)); [|reflexivity].
    rewrite nth_firstn'. now replace (q - off <? len)%nat with true by (symmetry; apply Nat.ltb_lt; lia).
  - apply (list_ext_nth _ _ 200); [apply instance_length, Hs|apply instance_length, Hs0|].
    intros q Hq. rewrite !nth_instance by (try apply Hs; try apply Hs0; exact Hq). unfold ib. now rewrite HO.
Qed.
Lemma store64_0 i : nth i (store64 0) 0 = 0.
Proof. do 8 (destruct i as [|i]; [reflexivity|]). destruct i; reflexivity. Qed.
Lemma rd_bytes (b : bytes) o n d : all_bytes b -> rd b o n = Some d -> all_bytes d.
Proof.
  intros Hb H. unfold rd in H. destruct (_ <=? _)%nat; [|discriminate]. injection H as <-.
  apply Forall_forall. intros x Hx. unfold all_bytes in Hb. rewrite Forall_forall in Hb. apply Hb.
  rewrite <- (firstn_skipn o b). apply in_or_app. right. rewrite <- (firstn_skipn n (skipn o b)). apply in_or_app. now left.
Qed.
Lemma ld64_at b o : all_bytes b -> (o + 8 <= length b)%nat -> exists w, ld64 b o = Some w /\ W64 w
  /\ forall i, (i < 8)%nat -> wb w i = nth (o + i) b 0.
Proof.
  intros Hb H. unfold ld64. destruct (rd_at b o 8 H) as (d & E & L & N). rewrite E. cbn [bind].
  eexists. split; [reflexivity|]. split; [now apply W64_le_word|]. intros i Hi.
  rewrite wb_le by (eapply rd_bytes; eassumption). now apply N.
Qed.
Lemma wr_bytes b o d b' : all_bytes b -> all_bytes d -> wr b o d = Some b' -> all_bytes b'.
Proof.
  intros Hb Hd H. unfold wr in H. destruct (_ <=? _)%nat eqn:E; [|discriminate]. apply Nat.leb_le in E.
  assert (H' : wr b o d = Some b') by (unfold wr; rewrite (proj2 (Nat.leb_le _ _) E); exact H).
  destruct (wr_at b o d E) as (b2 & E2 & L2 & N2). rewrite H' in E2. injection E2 as <-.
  apply all_bytes_intro. intros i _. rewrite N2. destruct (_ && _); now apply all_bytes_nth.
Qed.

Ltac use_walk Q s' E HQ :=
  match goal with |- context [walk ?p ?f ?o ?l ?s] => destruct (walk_ok p f o l s Q) as (s' & E & HQ) end.
Theorem AddBytes_ok s inst data off len : states_ok s -> all_bytes data -> (inst < 4)%nat -> (off + len <= 200)%nat ->
  (len <= length data)%nat ->
  exists s', KeccakP1600times4_AddBytes s inst data off len = Some s' /\ states_ok s'
    /\ forall j, (j < 4)%nat -> instance s' j = if (j =? inst)%nat then xor_at off (firstn len data) (instance s j) else instance s j.
Proof.
  intros Hs Hd Hi Hlen Hdl. unfold KeccakP1600times4_AddBytes.
  use_walk (QS Z.lxor inst off data s) s' E HQ; [exact (QS_0 Z.lxor inst off data s Hs)| | |].
  3: { exists s'. split; [exact E|]. exact (QS_final Z.lxor inst off data s len s' Hi Hlen Hdl Hs HQ). }
  - intros pos o n cur t Hn Hon Hpos Hcur HQ. pose proof HQ as (Ht & _).
    destruct (rd_at data cur n) as (d & Ed & Ld & Nd); [lia|]. cbv beta. rewrite Ed. cbn [bind].
    destruct (wr_at (store64 0) o d) as (b & Eb & Lb & Nb); [rewrite store64_length, Ld; lia|]. rewrite Eb. cbn [bind].
    rewrite getw_at by (try apply Ht; lia). cbn [bind].
    assert (Bb : all_bytes b) by (refine (wr_bytes _ _ _ _ _ _ Eb); [apply store64_bytes|exact (rd_bytes _ _ _ _ Hd Ed)]).
    apply (QS_step Z.lxor inst off data s pos o n cur t); try assumption; try lia.
    + apply W64_xor; [now apply states_nth|]. apply W64_le_word. now rewrite Lb, store64_length.
    + intros i Hi8. rewrite wb_xor, wb_le by exact Bb. rewrite Nb, Ld, store64_0.
      destruct (Nat.leb_spec o i), (Nat.ltb_spec i (o + n)); cbn [andb]; rewrite ?Z.lxor_0_r; try reflexivity.
      rewrite Nd by lia. reflexivity.
  - intros pos cur t Hpos Hcur HQ. pose proof HQ as (Ht & _). cbv beta.
    destruct (ld64_at data cur Hd) as (w & Ew & Ww & Nw); [lia|]. rewrite Ew. cbn [bind].
    rewrite getw_at by (try apply Ht; lia). cbn [bind].
    apply (QS_step Z.lxor inst off data s pos 0 8 cur t); try assumption; try lia.
    + apply W64_xor; [now apply states_nth|exact Ww].
    + intros i Hi8. rewrite wb_xor, Nw by exact Hi8.
      replace (0 <=? i)%nat with true by reflexivity. replace (i <? 0 + 8)%nat with true by (symmetry; apply Nat.ltb_lt; lia).
      cbn [andb]. now rewrite Nat.sub_0_r.
Qed.

Theorem OverwriteBytes_ok s inst data off len : states_ok s -> all_bytes data -> (inst < 4)%nat -> (off + len <= 200)%nat ->
  (len <= length data)%nat ->
  exists s', KeccakP1600times4_OverwriteBytes s inst data off len = Some s' /\ states_ok s'
    /\ forall j, (j < 4)%nat -> instance s' j = if (j =? inst)%nat then put_at off (firstn len data) (instance s j) else instance s j.
Proof.
  intros Hs Hd Hi Hlen Hdl. unfold KeccakP1600times4_OverwriteBytes.
  set (g := fun _ y : Z => y).
  use_walk (QS g inst off data s) s' E HQ; [exact (QS_0 g inst off data s Hs)| | |].
  3: { exists s'. split; [exact E|]. exact (QS_final g inst off data s len s' Hi Hlen Hdl Hs HQ). }
  - intros pos o n cur t Hn Hon Hpos Hcur HQ. pose proof HQ as (Ht & _).
    destruct (rd_at data cur n) as (d & Ed & Ld & Nd); [lia|]. cbv beta. rewrite Ed. cbn [bind].
    rewrite getw_at by (try apply Ht; lia). cbn [bind].
    destruct (wr_at (store64 (nth pos t vz inst)) o d) as (b & Eb & Lb & Nb); [rewrite store64_length, Ld; lia|]. rewrite Eb. cbn [bind].
    assert (Bb : all_bytes b) by (refine (wr_bytes _ _ _ _ _ _ Eb); [apply store64_bytes|exact (rd_bytes _ _ _ _ Hd Ed)]).
    apply (QS_step g inst off data s pos o n cur t); try assumption; try lia.
    + apply W64_le_word. now rewrite Lb, store64_length.
    + intros i Hi8. rewrite wb_le by exact Bb. rewrite Nb, Ld, nth_store64 by exact Hi8. unfold g.
      destruct (Nat.leb_spec o i), (Nat.ltb_spec i (o + n)); cbn [andb]; try reflexivity.
      rewrite Nd by lia. reflexivity.
  - intros pos cur t Hpos Hcur HQ. pose proof HQ as (Ht & _). cbv beta.
    destruct (ld64_at data cur Hd) as (w & Ew & Ww & Nw); [lia|]. rewrite Ew. cbn [bind].
    apply (QS_step g inst off data s pos 0 8 cur t); try assumption; try lia.
    intros i Hi8. rewrite Nw by exact Hi8.
    replace (0 <=? i)%nat with true by reflexivity. replace (i <? 0 + 8)%nat with true by (symmetry; apply Nat.ltb_lt; lia).
    cbn [andb]. unfold g. now rewrite Nat.sub_0_r.
Qed.
Lemma nth_zeros n i : nth i (repeat 0 n) 0 = 0.
Proof. revert i. induction n as [|n IH]; intros [|i]; cbn; auto. Qed.
Theorem OverwriteWithZeroes_ok s inst n : states_ok s -> (inst < 4)%nat -> (n <= 200)%nat ->
  exists s', KeccakP1600times4_OverwriteWithZeroes s inst n = Some s' /\ states_ok s'
    /\ forall j, (j < 4)%nat -> instance s' j = if (j =? inst)%nat then put_at 0 (repeat 0 n) (instance s j) else instance s j.
Proof.
  intros Hs Hi Hn. unfold KeccakP1600times4_OverwriteWithZeroes.
  set (g := fun _ y : Z => y). set (data := repeat 0 n).
  assert (Fin : forall s', QS g inst 0 data s n s' -> states_ok s'
    /\ forall j, (j < 4)%nat -> instance s' j = if (j =? inst)%nat then put_at 0 data (instance s j) else instance s j).
  { intros s' HQ. assert (Ld : length data = n) by (unfold data; apply repeat_length).
    pose proof (QS_final g inst 0 data s n s' Hi ltac:(lia) ltac:(lia) Hs HQ) as HF.
    rewrite firstn_all2 in HF by lia. exact HF. }
  assert (Nz : forall i, nth i data 0 = 0) by (intros i; apply nth_zeros).
  clearbody data.
  pose proof (Nat.div_mod n 8 ltac:(lia)) as Hd. pose proof (Nat.mod_upper_bound n 8 ltac:(lia)) as Hm.
  set (d := (n / 8)%nat) in *. set (m := (n mod 8)%nat) in *. clearbody d m.
  destruct (iterM_inv d 0 (fun i s => putw s (laneIndex inst i) 0) (fun i t => QS g inst 0 data s (8 * i) t) s) as (s2 & E2 & Q2).
  - exact (QS_0 g inst 0 data s Hs).
  - intros i t Hlt HQ. replace (8 * S i)%nat with (8 * i + 8)%nat by lia.
    apply (QS_step g inst 0 data s i 0 8 (8 * i) t); try assumption; try lia; [unfold W64; lia|].
    intros k Hk. unfold g. rewrite Nz. replace (0 <=? k)%nat with true by reflexivity.
    replace (k <? 0 + 8)%nat with true by (symmetry; apply Nat.ltb_lt; lia). cbn [andb]. unfold wb. now rewrite Z.shiftr_0_l.
  - rewrite E2. cbn [bind]. cbn [Nat.add] in Q2. pose proof Q2 as (Ht & _).
    destruct (Nat.ltb_spec 0 m) as [Hm0|Hm0].
    + rewrite getw_at by (try apply Ht; lia). cbn [bind].
      destruct (wr_at (store64 (nth d s2 vz inst)) 0 (repeat 0 m)) as (b & Eb & Lb & Nb); [rewrite store64_length, repeat_length; lia|].
      rewrite Eb. cbn [bind]. rewrite repeat_length in Nb.
      assert (Bb : all_bytes b).
      { refine (wr_bytes _ _ _ _ _ _ Eb); [apply store64_bytes|]. apply all_bytes_intro. intros k _. rewrite nth_zeros. unfold is_byte. lia. }
      destruct (QS_step g inst 0 data s d 0 m (8 * d) s2 (le_word b)) as (s' & E & HQ); try assumption; try lia.
      * apply W64_le_word. now rewrite Lb, store64_length.
      * intros i Hi8. rewrite wb_le by exact Bb. rewrite Nb, nth_store64 by exact Hi8. unfold g. rewrite Nz, nth_zeros. reflexivity.
      * exists s'. split; [exact E|]. apply Fin. now replace n with (8 * d + m)%nat by lia.
    + exists s2. split; [reflexivity|]. apply Fin. now replace n with (8 * d)%nat by lia.
Qed.

(** Reading. *)
Definition QE (s : list vec) (inst off : nat) (d0 : bytes) (c : nat) (d : bytes) : Prop :=
  length d = length d0 /\ forall x, nth x d 0 = if (x <? c)%nat then ib s inst (off + x) else nth x d0 0.
Lemma ib_at s j pos i : (i < 8)%nat -> ib s j (8 * pos + i) = wb (nth pos s vz j) i.
Proof.
  intros H. unfold ib, wb. replace ((8 * pos + i) / 8)%nat with pos by (rewrite Nat.mul_comm, Nat.div_add_l, (Nat.div_small i 8); lia).
  replace ((8 * pos + i) mod 8)%nat with i; [reflexivity|].
  rewrite Nat.add_comm, Nat.mul_comm, Nat.mod_add, Nat.mod_small; lia.
Qed.
Theorem ExtractBytes_ok s inst data off len : states_ok s -> (inst < 4)%nat -> (off + len <= 200)%nat -> (len <= length data)%nat ->
  KeccakP1600times4_ExtractBytes s inst data off len = Some (put_at 0 (slice off len (instance s inst)) data).
Proof.
  intros Hs Hi Hlen Hdl. unfold KeccakP1600times4_ExtractBytes.
  use_walk (QE s inst off data) d' E HQ.
  - split; [reflexivity|]. intros x. reflexivity.
  - intros pos o n cur d Hn Hon Hpos Hcur (Ld & Nd). rewrite getw_at by (try apply Hs; lia). cbn [bind].
    destruct (rd_at (store64 (nth pos s vz inst)) o n) as (b & Eb & Lb & Nb); [rewrite store64_length; lia|]. rewrite Eb. cbn [bind].
    destruct (wr_at d cur b) as (d2 & E2 & L2 & N2); [lia|]. exists d2. split; [exact E2|]. split; [lia|].
    intros x. rewrite N2, Nd, Lb.
    destruct (Nat.leb_spec cur x), (Nat.ltb_spec x (cur + n)), (Nat.ltb_spec x cur); cbn [andb]; try lia; try reflexivity.
    rewrite Nb, nth_store64, <- ib_at by lia. f_equal. lia.
  - intros pos cur d Hpos Hcur (Ld & Nd). rewrite getw_at by (try apply Hs; lia). cbn [bind].
    destruct (wr_at d cur (store64 (nth pos s vz inst))) as (d2 & E2 & L2 & N2); [rewrite store64_length; lia|]. exists d2. split; [exact E2|]. split; [lia|].
    intros x. rewrite N2, Nd, store64_length.
    destruct (Nat.leb_spec cur x), (Nat.ltb_spec x (cur + 8)), (Nat.ltb_spec x cur); cbn [andb]; try lia; try reflexivity.
    rewrite nth_store64, <- ib_at by lia. f_equal. lia.
  - rewrite E. f_equal. destruct HQ as (L & N).
    assert (Ls : length (slice off len (instance s inst)) = len) by (apply slice_length; rewrite instance_length by apply Hs; exact Hlen).
    apply (list_ext_nth _ _ (length data)); [exact L|apply overlay_length; lia|].
    intros i Hi'. unfold put_at. rewrite nth_overlay by lia. rewrite N, Ls. cbn [Nat.leb andb Nat.add].
    destruct (Nat.ltb_spec i len); [|reflexivity]. rewrite Nat.sub_0_r, nth_slice, nth_instance by (try apply Hs; lia). reflexivity.
Qed.
(** Reading and adding: the input and the output are the same place or disjoint. *)
Definition apart (inp out len : nat) : Prop := inp = out \/ (inp + len <= out)%nat \/ (out + len <= inp)%nat.
Definition QX (s : list vec) (inst off inp out : nat) (d0 : bytes) (c : nat) (d : bytes) : Prop :=
  length d = length d0 /\ all_bytes d
  /\ forall x, nth x d 0 = if ((out <=? x) && (x <? out + c))%nat
                   then Z.lxor (nth (inp + (x - out)) d0 0) (ib s inst (off + (x - out))) else nth x d0 0.
Lemma lxor_byte a b : is_byte a -> is_byte b -> is_byte (Z.lxor a b).
Proof.
  intros Ha Hb. assert (E : u8 (Z.lxor a b) = Z.lxor a b).
  { rewrite u8_xor. unfold u8, is_byte in *. now rewrite !Z.mod_small by lia. }
  rewrite <- E. apply u8_byte.
Qed.
Lemma xor_out_ok s inst off inp out d0 len : apart inp out len -> (inp + len <= length d0)%nat -> (out + len <= length d0)%nat ->
  forall pos o n cur d, (1 <= n)%nat -> (o + n <= 8)%nat -> (8 * pos + o = off + cur)%nat -> (cur + n <= len)%nat -> QX s inst off inp out d0 cur d ->
  exists d', xor_out (Z.shiftr (nth pos s vz inst) (8 * Z.of_nat o)) (inp + cur) (out + cur) n d = Some d' /\ QX s inst off inp out d0 (cur + n) d'.
Proof.
  intros Hap Hin Hout pos o n cur d Hn Hon Hpos Hcur HQ. unfold xor_out. set (w := nth pos s vz inst).
  match goal with |- context [iterM n 0 ?f ?s0] =>
    destruct (iterM_inv n 0 f (fun i r => QX s inst off inp out d0 (cur + i) (fst r) /\ snd r = Z.shiftr w (8 * Z.of_nat (o + i))) s0) as (r & E & H1 & _) end.
  - cbn [fst snd]. rewrite !Nat.add_0_r. split; [exact HQ|reflexivity].
  - intros i [e l] Hi (HQi & El). cbn [fst snd] in *. subst l. destruct HQi as (Le & Be & Ne).
    rewrite (get_nth e (inp + cur + i) 0) by lia. cbn [bind].
    match goal with |- context [wr e ?p ?x] => destruct (wr_at e p x) as (e2 & E2 & L2 & N2); [cbn [length]; lia|]; pose proof (wr_bytes e p x e2 Be) as B2 end.
    rewrite E2. cbn [bind]. eexists. split; [reflexivity|]. cbn [fst snd]. split.
    + split; [lia|]. split.
      { apply B2; [|exact E2]. constructor; [|constructor]. apply lxor_byte; [now apply all_bytes_nth|apply u8_byte]. }
      intros x. rewrite N2. cbn [length].
      destruct (Nat.leb_spec (out + cur + i) x) as [A1|A1]; cbn [andb].
      * destruct (Nat.ltb_spec x (out + cur + i + 1)) as [A2|A2].
        -- assert (Ex : x = (out + cur + i)%nat) by lia. subst x. rewrite Nat.sub_diag. cbn [nth].
           rewrite (Ne (inp + cur + i)%nat).
           replace ((out <=? inp + cur + i) && (inp + cur + i <? out + (cur + i)))%nat with false.
           2: { unfold apart in Hap. destruct (Nat.leb_spec out (inp + cur + i)), (Nat.ltb_spec (inp + cur + i) (out + (cur + i))); cbn [andb]; try reflexivity; lia. }
           replace ((out <=? out + cur + i) && (out + cur + i <? out + (cur + S i)))%nat with true.
           2: { destruct (Nat.leb_spec out (out + cur + i)), (Nat.ltb_spec (out + cur + i) (out + (cur + S i))); cbn [andb]; try reflexivity; lia. }
           f_equal; [f_equal; lia|].
           replace (off + (out + cur + i - out))%nat with (8 * pos + (o + i))%nat by lia.
           rewrite ib_at by lia. reflexivity.
        -- rewrite Ne. destruct (Nat.leb_spec out x), (Nat.ltb_spec x (out + (cur + i))), (Nat.ltb_spec x (out + (cur + S i))); cbn [andb]; try lia; reflexivity.
      * rewrite Ne. destruct (Nat.leb_spec out x), (Nat.ltb_spec x (out + (cur + i))), (Nat.ltb_spec x (out + (cur + S i))); cbn [andb]; try lia; reflexivity.
    + rewrite Z.shiftr_shiftr by lia. f_equal. lia.
  - rewrite E. cbn [bind]. exists (fst r). split; [reflexivity|exact H1].
Qed.
Lemma QX_final s inst off inp out mem len d : states_ok s -> (off + len <= 200)%nat -> (inp + len <= length mem)%nat -> (out + len <= length mem)%nat ->
  QX s inst off inp out mem len d ->
  d = put_at out (xor_at 0 (slice off len (instance s inst)) (slice inp len mem)) mem.
Proof.
  intros Hs Hlen Hin Hout (L & _ & N).
  assert (Ls : length (slice off len (instance s inst)) = len) by (apply slice_length; rewrite instance_length by apply Hs; exact Hlen).
  assert (Lm : length (slice inp len mem) = len) by (apply slice_length; exact Hin).
  assert (Lx : length (xor_at 0 (slice off len (instance s inst)) (slice inp len mem)) = len) by (unfold xor_at; rewrite overlay_length; lia).
  apply (list_ext_nth _ _ (length mem)); [exact L|apply overlay_length; lia|].
  intros x Hx. unfold put_at. rewrite nth_overlay by lia. rewrite N, Lx.
  destruct (Nat.leb_spec out x); cbn [andb]; [|reflexivity]. destruct (Nat.ltb_spec x (out + len)); [|reflexivity].
  unfold xor_at. rewrite nth_overlay by lia. rewrite Ls. replace (0 <=? x - out)%nat with true by reflexivity.
  replace (x - out <? 0 + len)%nat with true by (symmetry; apply Nat.ltb_lt; lia). cbn [andb].
  rewrite !nth_slice by lia. rewrite nth_instance by (try apply Hs; lia). now rewrite Nat.sub_0_r.
Qed.
Theorem ExtractAndAddBytes_ok s inst mem inp out off len : states_ok s -> all_bytes mem -> (inst < 4)%nat -> (off + len <= 200)%nat ->
  (inp + len <= length mem)%nat -> (out + len <= length mem)%nat -> apart inp out len ->
  KeccakP1600times4_ExtractAndAddBytes s inst mem inp out off len
  = Some (put_at out (xor_at 0 (slice off len (instance s inst)) (slice inp len mem)) mem).
Proof.
  intros Hs Hm Hi Hlen Hin Hout Hap. unfold KeccakP1600times4_ExtractAndAddBytes.
  use_walk (QX s inst off inp out mem) d' E HQ.
  - split; [reflexivity|]. split; [exact Hm|]. intros x.
    destruct (Nat.leb_spec out x), (Nat.ltb_spec x (out + 0)); cbn [andb]; try lia; reflexivity.
  - intros pos o n cur d Hn Hon Hpos Hcur HQ. rewrite getw_at by (try apply Hs; lia). cbn [bind].
    now apply (xor_out_ok s inst off inp out mem len).
  - intros pos cur d Hpos Hcur (Ld & Bd & Nd).
    destruct (ld64_at d (inp + cur) Bd) as (w & Ew & Ww & Nw); [lia|]. rewrite Ew. cbn [bind].
    rewrite getw_at by (try apply Hs; lia). cbn [bind].
    match goal with |- context [wr d ?p ?x] => destruct (wr_at d p x) as (e2 & E2 & L2 & N2); [rewrite store64_length; lia|]; pose proof (wr_bytes d p x e2 Bd (store64_bytes _) E2) as B2 end.
    exists e2. split; [exact E2|]. split; [lia|]. split; [exact B2|].
    intros x. rewrite N2, store64_length.
    destruct (Nat.leb_spec (out + cur) x) as [A1|A1]; cbn [andb].
    + destruct (Nat.ltb_spec x (out + cur + 8)) as [A2|A2].
      * rewrite nth_store64, wb_xor, Nw by lia. rewrite Nd.
        replace ((out <=? inp + cur + (x - (out + cur))) && (inp + cur + (x - (out + cur)) <? out + cur))%nat with false.
        2: { unfold apart in Hap. destruct (Nat.leb_spec out (inp + cur + (x - (out + cur)))), (Nat.ltb_spec (inp + cur + (x - (out + cur))) (out + cur)); cbn [andb]; try reflexivity; lia. }
        replace ((out <=? x) && (x <? out + (cur + 8)))%nat with true.
        2: { destruct (Nat.leb_spec out x), (Nat.ltb_spec x (out + (cur + 8))); cbn [andb]; try reflexivity; lia. }
        f_equal; [f_equal; lia|]. replace (off + (x - out))%nat with (8 * pos + (x - (out + cur)))%nat by lia. rewrite ib_at by lia. reflexivity.
      * rewrite Nd. destruct (Nat.leb_spec out x), (Nat.ltb_spec x (out + cur)), (Nat.ltb_spec x (out + (cur + 8))); cbn [andb]; try lia; reflexivity.
    + rewrite Nd. destruct (Nat.leb_spec out x), (Nat.ltb_spec x (out + cur)), (Nat.ltb_spec x (out + (cur + 8))); cbn [andb]; try lia; reflexivity.
  - rewrite E. f_equal. now apply (QX_final s inst off inp out mem len).
Qed.
