(** The bitsliced Haraka permutations of ref/haraka.c are those of the specification. *)
From Verif Require Import Base BaseFacts KeccakSpec HarakaSpec Haraka ShakeProofs SpongeFacts.

(** ** Words built from masks, shifts and "or" *)
(** An expression over words of w bits; [hits e p] lists the variable bits that bit p depends on. *)
Inductive ex : Type :=
  | X (i : nat) | An (e : ex) (m : Z) | Or (a b : ex) | Sl (e : ex) (k : Z) | Sr (e : ex) (k : Z).
Section Den.
Variables w vb : Z.   (* width of words; the variables have vb <= w bits *)
Fixpoint hits (e : ex) (p : Z) : list (nat * Z) :=
  match e with
  | X i => if p <? vb then [(i, p)] else []
  | An e m => if Z.testbit m p then hits e p else []
  | Or a b => hits a p ++ hits b p
  | Sl e k => if p <? k then [] else hits e (p - k)
  | Sr e k => if p + k <? w then hits e (p + k) else []
  end.
Fixpoint shifts_ok (e : ex) : bool :=
  match e with
  | X _ => true | An e _ => shifts_ok e | Or a b => shifts_ok a && shifts_ok b
  | Sl e k => (0 <=? k) && shifts_ok e | Sr e k => (0 <=? k) && shifts_ok e
  end.
Variable env : nat -> Z.
Fixpoint den (e : ex) : Z :=
  match e with
  | X i => env i
  | An e m => Z.land (den e) m
  | Or a b => Z.lor (den a) (den b)
  | Sl e k => shl w (den e) k
  | Sr e k => Z.shiftr (den e) k
  end.
Hypothesis Hw : 0 <= vb <= w.
Hypothesis Henv : forall i, 0 <= env i < 2 ^ vb.

Lemma bound_bits x n : 0 <= n -> (0 <= x < 2 ^ n <-> forall p, (p < 0 \/ n <= p) -> Z.testbit x p = false /\ 0 <= x).
Proof.
  clear. intros Hn. split.
  - intros H p [Hp|Hp]; [rewrite Z.testbit_neg_r; auto; lia|]. split; [|lia].
    destruct (Z.eq_dec x 0) as [->|]; [apply Z.testbit_0_l|]. apply Z.bits_above_log2; [lia|].
    apply Z.log2_lt_pow2; [lia|]. apply Z.lt_le_trans with (2 ^ n); [lia|]. apply Z.pow_le_mono_r; lia.
  - intros H. assert (0 <= x) by (apply (H (-1)); lia). split; [lia|].
    destruct (Z.eq_dec x 0) as [->|]; [apply Z.pow_pos_nonneg; lia|].
    apply Z.log2_lt_pow2; [lia|]. destruct (Z.lt_ge_cases (Z.log2 x) n) as [|L]; auto.
    destruct (H (Z.log2 x) (or_intror L)) as [E _]. rewrite Z.bit_log2 in E by lia. discriminate.
Qed.
Lemma high_false x n p : 0 <= n -> 0 <= x < 2 ^ n -> n <= p -> Z.testbit x p = false.
Proof. clear. intros Hn H Hp. apply (bound_bits x n); auto. Qed.
Lemma bnd n x : 0 <= n -> 0 <= x -> (forall p, n <= p -> Z.testbit x p = false) -> 0 <= x < 2 ^ n.
Proof.
  clear. intros Hn Hx H. apply bound_bits; auto. intros p [Hp|Hp]; [rewrite Z.testbit_neg_r by lia; auto|auto].
Qed.
Lemma shl_bound x k : 0 <= shl w x k < 2 ^ w.
Proof. clear - Hw. unfold shl. apply Z.mod_pos_bound. apply Z.pow_pos_nonneg; lia. Qed.
Lemma lor_bound n a b : 0 <= n -> 0 <= a < 2 ^ n -> 0 <= b < 2 ^ n -> 0 <= Z.lor a b < 2 ^ n.
Proof.
  clear. intros Hn Ha Hb. apply bnd; auto; [apply Z.lor_nonneg; lia|].
  intros p Hp. now rewrite Z.lor_spec, (high_false a n), (high_false b n).
Qed.
Lemma lxor_bound n a b : 0 <= n -> 0 <= a < 2 ^ n -> 0 <= b < 2 ^ n -> 0 <= Z.lxor a b < 2 ^ n.
Proof.
  clear. intros Hn Ha Hb. apply bnd; auto; [apply Z.lxor_nonneg; lia|].
  intros p Hp. now rewrite Z.lxor_spec, (high_false a n), (high_false b n).
Qed.
Lemma land_bound n a m : 0 <= n -> 0 <= a < 2 ^ n -> 0 <= Z.land a m < 2 ^ n.
Proof.
  clear. intros Hn Ha. apply bnd; auto; [apply Z.land_nonneg; lia|].
  intros p Hp. now rewrite Z.land_spec, (high_false a n).
Qed.
Lemma shiftr_bound n a k : 0 <= n -> 0 <= k -> 0 <= a < 2 ^ n -> 0 <= Z.shiftr a k < 2 ^ n.
Proof.
  clear. intros Hn Hk Ha. apply bnd; auto; [apply Z.shiftr_nonneg; lia|].
  intros p Hp. rewrite Z.shiftr_spec by lia. apply (high_false a n); lia.
Qed.
Lemma den_bound e : shifts_ok e = true -> 0 <= den e < 2 ^ w.
Proof.
  induction e; cbn [den shifts_ok]; intros S.
  - specialize (Henv i). split; [lia|]. apply Z.lt_le_trans with (2 ^ vb); [lia|]. apply Z.pow_le_mono_r; lia.
  - apply land_bound; auto. lia.
  - apply andb_true_iff in S. destruct S. apply lor_bound; auto. lia.
  - apply shl_bound.
  - apply andb_true_iff in S. destruct S as [S1 S]. apply shiftr_bound; auto; lia.
Qed.
Lemma den_bit e : shifts_ok e = true -> forall p, 0 <= p < w ->
  Z.testbit (den e) p = existsb (fun h => Z.testbit (env (fst h)) (snd h)) (hits e p).
Proof.
  induction e; cbn [den hits shifts_ok]; intros S p Hp.
  - destruct (Z.ltb_spec p vb); cbn [existsb fst snd]; [now rewrite orb_false_r|].
    apply (high_false _ vb); auto; lia.
  - rewrite Z.land_spec, IHe by auto. destruct (Z.testbit m p); [apply andb_true_r|apply andb_false_r].
  - apply andb_true_iff in S. destruct S. rewrite Z.lor_spec, existsb_app, IHe1, IHe2 by auto. reflexivity.
  - apply andb_true_iff in S. destruct S as [S1 S]. unfold shl. rewrite Z.mod_pow2_bits_low by lia.
    rewrite Z.shiftl_spec by lia. destruct (Z.ltb_spec p k).
    + now rewrite Z.testbit_neg_r by lia.
    + apply IHe; auto; lia.
  - apply andb_true_iff in S. destruct S as [S1 S]. rewrite Z.shiftr_spec by lia. destruct (Z.ltb_spec (p + k) w).
    + apply IHe; auto; lia.
    + apply (high_false _ w); [lia|now apply den_bound|lia].
Qed.
(** Each (p, (i, j)) of L: bit p is exactly bit j of variable i. *)
Definition chk (e : ex) (L : list (nat * (nat * nat))) : bool :=
  shifts_ok e && forallb (fun '(p, (i, j)) =>
    (Z.of_nat p <? w) &&
    match hits e (Z.of_nat p) with
    | [(i', j')] => (i' =? i)%nat && (j' =? Z.of_nat j)
    | _ => false
    end) L.
Lemma chk_bit e L : chk e L = true -> forall p i j, In (p, (i, j)) L ->
  Z.testbit (den e) (Z.of_nat p) = Z.testbit (env i) (Z.of_nat j).
Proof.
  unfold chk. rewrite !andb_true_iff. intros (S & H) p i j Hp.
  rewrite forallb_forall in H. specialize (H _ Hp). cbv beta iota in H.
  apply andb_true_iff in H. destruct H as [Hl H]. rewrite den_bit by (auto; lia).
  destruct (hits e (Z.of_nat p)) as [|[i' j'] [|? ?]]; try discriminate.
  apply andb_true_iff in H. destruct H as [Hi Hj]. apply Nat.eqb_eq in Hi. apply Z.eqb_eq in Hj. subst.
  cbn [existsb fst snd]. apply orb_false_r.
Qed.
Lemma chk_bound e L : chk e L = true -> 0 <= den e < 2 ^ w.
Proof. unfold chk. rewrite !andb_true_iff. intros (S & _). now apply den_bound. Qed.
End Den.

(** ** The S-box circuit *)
Lemma let_rel {A B C D : Type} (R : A -> B -> Prop) (Q : C -> D -> Prop) a b (f : A -> C) (g : B -> D) :
  R a b -> (forall x y, R x y -> Q (f x) (g y)) -> Q (let x := a in f x) (let y := b in g y).
Proof. intros H K. exact (K a b H). Qed.
Definition orel {A B} (R : A -> B -> Prop) (x : option A) (y : option B) : Prop :=
  match x, y with Some a, Some b => R a b | None, None => True | _, _ => False end.
Section Param.
Variables W1 W2 : Type.
Variables (bx1 ba1 : W1 -> W1 -> W1) (bn1 : W1 -> W1) (bx2 ba2 : W2 -> W2 -> W2) (bn2 : W2 -> W2).
Variable R : W1 -> W2 -> Prop.
Hypothesis Rx : forall a b a' b', R a a' -> R b b' -> R (bx1 a b) (bx2 a' b').
Hypothesis Ra : forall a b a' b', R a a' -> R b b' -> R (ba1 a b) (ba2 a' b').
Hypothesis Rn : forall a a', R a a' -> R (bn1 a) (bn2 a').
Ltac step := match goal with |- orel ?Q0 (let x := ?a in @?f x) (let y := ?b in @?g y) => let Q := constr:(orel Q0) in
   refine (let_rel R Q a b f g _ _); [first [assumption | apply Rx; assumption | apply Ra; assumption
     | apply Rx; [assumption | apply Rn; assumption]] | let H := fresh "H" in intros ? ? H; cbv beta] end.
Lemma sbox_param q1 q2 : Forall2 R q1 q2 -> length q1 = 8%nat ->
  orel (Forall2 R) (sbox W1 bx1 ba1 bn1 q1) (sbox W2 bx2 ba2 bn2 q2).
Proof.
  intros F L. repeat (destruct F as [|? ? ? ? ? F]; cbn [length] in L; try discriminate).
  cbv beta iota delta [sbox]. repeat step. cbn [orel]. repeat (constructor; [assumption|]). constructor.
Qed.
End Param.

(** Bytes and their bits. *)
Lemma byte_cases (P : Z -> bool) : forallb P (map Z.of_nat (seq 0 256)) = true -> forall x, is_byte x -> P x = true.
Proof.
  rewrite forallb_forall. intros H x [H1 H2]. apply H. rewrite <- (Z2Nat.id x) by lia.
  apply in_map, in_seq. lia.
Qed.
Definition bits8 (x : Z) : list bool := map (fun b => Z.testbit x (Z.of_nat b)) (seq 0 8).
Lemma Sbox_circuit x : is_byte x -> sbox bool xorb andb negb (bits8 x) = Some (bits8 (Sbox x)).
Proof.
  intros Hx.
  pose (P := fun x => match sbox bool xorb andb negb (bits8 x) with
                      | Some l => if list_eq_dec bool_dec l (bits8 (Sbox x)) then true else false
                      | None => false end).
  assert (HP : P x = true) by (apply byte_cases; [vm_compute; reflexivity|exact Hx]).
  unfold P in HP. destruct (sbox bool xorb andb negb (bits8 x)) as [l|]; [|discriminate].
  destruct (list_eq_dec bool_dec l (bits8 (Sbox x))); [now subst|discriminate].
Qed.
Lemma Sbox_byte x : is_byte x -> is_byte (Sbox x).
Proof.
  intros Hx. assert (H : ((0 <=? Sbox x) && (Sbox x <? 256)) = true) by
    (revert x Hx; apply (byte_cases (fun x => (0 <=? Sbox x) && (Sbox x <? 256))); vm_compute; reflexivity).
  unfold is_byte. lia.
Qed.
Lemma gmul_bits x : is_byte x -> forall b, (b < 8)%nat ->
  Z.testbit (gmul 2 x) (Z.of_nat b) =
    xorb (match b with O => false | S b' => Z.testbit x (Z.of_nat b') end)
         (match b with 0 | 1 | 3 | 4 => Z.testbit x 7 | _ => false end)%nat
  /\ Z.testbit (gmul 3 x) (Z.of_nat b) = xorb (Z.testbit (gmul 2 x) (Z.of_nat b)) (Z.testbit x (Z.of_nat b)).
Proof.
  intros Hx b Hb.
  pose (P := fun x => forallb (fun b => eqb (Z.testbit (gmul 2 x) (Z.of_nat b))
    (xorb (match b with O => false | S b' => Z.testbit x (Z.of_nat b') end)
         (match b with 0 | 1 | 3 | 4 => Z.testbit x 7 | _ => false end)%nat)
    && eqb (Z.testbit (gmul 3 x) (Z.of_nat b)) (xorb (Z.testbit (gmul 2 x) (Z.of_nat b)) (Z.testbit x (Z.of_nat b)))) (seq 0 8)).
  assert (HP : P x = true) by (apply byte_cases; [vm_compute; reflexivity|exact Hx]).
  unfold P in HP. rewrite forallb_forall in HP. specialize (HP b). rewrite in_seq in HP. specialize (HP ltac:(lia)).
  apply andb_true_iff in HP. destruct HP as [H1 H2]. apply eqb_prop in H1. apply eqb_prop in H2. now split.
Qed.
Lemma gmul_byte x : is_byte x -> is_byte (gmul 2 x) /\ is_byte (gmul 3 x).
Proof.
  intros Hx. pose (P := fun x => (0 <=? gmul 2 x) && (gmul 2 x <? 256) && (0 <=? gmul 3 x) && (gmul 3 x <? 256)).
  assert (HP : P x = true) by (apply byte_cases; [vm_compute; reflexivity|exact Hx]).
  unfold P in HP. unfold is_byte. lia.
Qed.
#[local] Opaque Sbox gmul.

(** ** States in sliced form *)
Definition pos (nb blk c r : nat) : nat := (4 * nb * r + nb * c + blk)%nat.
Definition bitat (SS : list (list Z)) (blk c r b : nat) : bool :=
  Z.testbit (nth (4 * c + r) (nth blk SS []) 0) (Z.of_nat b).
Definition block (s : list Z) : Prop := length s = 16%nat /\ all_bytes s.
Definition wd (nb : nat) : Z := Z.of_nat (16 * nb).
Record sliced (nb : nat) (q : list Z) (SS : list (list Z)) : Prop := {
  sl_q : length q = 8%nat;
  sl_w : Forall (fun x => 0 <= x < 2 ^ wd nb) q;
  sl_n : length SS = nb;
  sl_b : Forall block SS;
  sl_bit : forall blk c r b, (blk < nb)%nat -> (c < 4)%nat -> (r < 4)%nat -> (b < 8)%nat ->
    Z.testbit (nth b q 0) (Z.of_nat (pos nb blk c r)) = bitat SS blk c r b }.
Lemma pos_lt nb blk c r : (blk < nb)%nat -> (c < 4)%nat -> (r < 4)%nat -> (pos nb blk c r < 16 * nb)%nat.
Proof. unfold pos. nia. Qed.

Lemma nth_map {A B} (f : A -> B) l i d d' : (i < length l)%nat -> nth i (map f l) d = f (nth i l d').
Proof. intros H. rewrite (nth_indep _ d (f d')) by (now rewrite map_length). apply map_nth. Qed.
Lemma nth_map_seq {B} (f : nat -> B) n i d : (i < n)%nat -> nth i (map f (seq 0 n)) d = f i.
Proof. intros H. rewrite (nth_map f _ _ _ O) by (now rewrite seq_length). now rewrite seq_nth. Qed.
Lemma Forall_nth' {A} (P : A -> Prop) l i d : Forall P l -> (i < length l)%nat -> P (nth i l d).
Proof. intros F H. rewrite Forall_forall in F. apply F, nth_In, H. Qed.
Lemma block_nth SS blk : Forall block SS -> (blk < length SS)%nat -> block (nth blk SS []).
Proof. apply Forall_nth'. Qed.
Lemma block_byte s i : block s -> is_byte (nth i s 0).
Proof.
  intros [L B]. destruct (Nat.lt_ge_cases i (length s)) as [H|H]; [now apply Forall_nth'|].
  rewrite nth_overflow by lia. unfold is_byte. lia.
Qed.
Lemma seq_block (f : nat -> Z) : (forall j, (j < 16)%nat -> is_byte (f j)) -> block (map f (seq 0 16)).
Proof.
  intros H. split; [now rewrite map_length, seq_length|]. apply Forall_forall. intros x Hx.
  apply in_map_iff in Hx. destruct Hx as (j & <- & Hj). apply in_seq in Hj. apply H. lia.
Qed.
Lemma map_blocks (f : list Z -> list Z) SS : (forall s, block s -> block (f s)) -> Forall block SS -> Forall block (map f SS).
Proof. intros H F. rewrite Forall_map. eapply Forall_impl; [|exact F]. exact H. Qed.
Lemma div4 c r : (r < 4)%nat -> ((4 * c + r) / 4 = c /\ (4 * c + r) mod 4 = r)%nat.
Proof.
  intros H. split; [symmetry; apply (Nat.div_unique _ _ _ r); lia|symmetry; apply (Nat.mod_unique _ _ c); lia].
Qed.

(** SubBytes *)
Lemma SubBytes_block s : block s -> block (SubBytes s).
Proof.
  intros [L B]. split; [unfold SubBytes; now rewrite map_length|]. unfold SubBytes, all_bytes. rewrite Forall_map.
  eapply Forall_impl; [|exact B]. intros x Hx. now apply Sbox_byte.
Qed.
Definition Rp (w p z : Z) (v : bool) : Prop := 0 <= z < 2 ^ w /\ Z.testbit z p = v.
Lemma bnot_ok w p z v : 0 <= p < w -> Rp w p z v -> Rp w p (bnot w z) (negb v).
Proof.
  intros Hp [Hz <-]. unfold bnot. assert (E : 2 ^ w - 1 = Z.ones w) by (rewrite Z.ones_equiv; lia). rewrite E. split.
  - apply lxor_bound; [lia|auto|]. rewrite <- E. lia.
  - rewrite Z.lxor_spec, Z.ones_spec_low by lia. apply xorb_true_r.
Qed.
Lemma sbox_at w p q (l : list bool) : 0 <= p < w -> Forall2 (Rp w p) q l -> length q = 8%nat ->
  orel (Forall2 (Rp w p)) (bitslice_Sbox w q) (sbox bool xorb andb negb l).
Proof.
  intros Hp F L. unfold bitslice_Sbox. apply sbox_param; auto.
  - intros a b a' b' [Ha <-] [Hb <-]. split; [apply lxor_bound; auto; lia|apply Z.lxor_spec].
  - intros a b a' b' [Ha <-] [Hb <-]. split; [apply land_bound; auto; lia|apply Z.land_spec].
  - intros a a'. now apply bnot_ok.
Qed.
Lemma bits8_nth x b : (b < 8)%nat -> nth b (bits8 x) false = Z.testbit x (Z.of_nat b).
Proof. intros H. unfold bits8. now rewrite nth_map_seq. Qed.
Lemma Forall2_nth {A B} (R : A -> B -> Prop) l m i d e : Forall2 R l m -> (i < length l)%nat -> R (nth i l d) (nth i m e).
Proof. intros F. revert i. induction F; intros i Hi; cbn [length] in Hi; [lia|]. destruct i; cbn [nth]; auto. apply IHF. lia. Qed.
Lemma Forall2_len {A B} (R : A -> B -> Prop) l m : Forall2 R l m -> length l = length m.
Proof. induction 1; cbn [length]; auto. Qed.
Lemma Forall2_intro {A B} (R : A -> B -> Prop) l m d e : length l = length m ->
  (forall i, (i < length l)%nat -> R (nth i l d) (nth i m e)) -> Forall2 R l m.
Proof.
  revert m. induction l as [|x l IH]; intros [|y m] L H; cbn [length] in L; try discriminate; constructor.
  - apply (H 0%nat). cbn; lia.
  - apply IH; [lia|]. intros i Hi. apply (H (S i)). cbn; lia.
Qed.
Lemma sbox_sliced nb q SS : (0 < nb)%nat -> sliced nb q SS ->
  exists q', bitslice_Sbox (wd nb) q = Some q' /\ sliced nb q' (map SubBytes SS).
Proof.
  intros Hnb [Lq Wq Ln Bs Hb].
  assert (K : forall blk c r, (blk < nb)%nat -> (c < 4)%nat -> (r < 4)%nat ->
    orel (Forall2 (Rp (wd nb) (Z.of_nat (pos nb blk c r)))) (bitslice_Sbox (wd nb) q)
      (Some (bits8 (nth (4 * c + r) (nth blk (map SubBytes SS) []) 0)))).
  { intros blk c r H1 H2 H3.
    assert (B0 : block (nth blk SS [])) by (apply block_nth; auto; lia).
    rewrite (nth_map SubBytes SS blk [] []) by lia. unfold SubBytes. rewrite (nth_map Sbox _ _ _ 0) by (destruct B0; lia).
    rewrite <- Sbox_circuit by (now apply block_byte).
    apply sbox_at; auto.
    - pose proof (pos_lt nb blk c r H1 H2 H3). unfold wd. lia.
    - apply (Forall2_intro _ _ _ 0 false); [rewrite Lq; reflexivity|]. intros b Hb'. rewrite Lq in Hb'.
      split; [apply (Forall_nth' (fun x => 0 <= x < 2 ^ wd nb)); auto; lia|]. rewrite bits8_nth by auto. now apply Hb. }
  destruct (bitslice_Sbox (wd nb) q) as [q'|]; [|destruct (K 0%nat 0%nat 0%nat); lia].
  exists q'. split; [reflexivity|]. cbn [orel] in K.
  assert (L' : length q' = 8%nat) by (rewrite (Forall2_len _ _ _ (K 0 0 0 ltac:(lia) ltac:(lia) ltac:(lia))%nat); reflexivity).
  constructor; auto.
  - apply Forall_forall. intros x Hx. destruct (In_nth q' x 0 Hx) as (i & Hi & <-).
    apply (Forall2_nth _ _ _ i 0 false (K 0 0 0 ltac:(lia) ltac:(lia) ltac:(lia))%nat Hi).
  - now rewrite map_length.
  - apply map_blocks; auto. apply SubBytes_block.
  - intros blk c r b H1 H2 H3 H4. pose proof (Forall2_nth _ _ _ b 0 false (K blk c r H1 H2 H3) ltac:(lia)) as [_ E].
    rewrite E, bits8_nth by auto. reflexivity.
Qed.

(** ** Permutations of the positions *)
Definition trips (nb : nat) : list (nat * nat * nat) :=
  flat_map (fun blk => flat_map (fun c => map (fun r => (blk, c, r)) (seq 0 4)) (seq 0 4)) (seq 0 nb).
Lemma in_trips nb blk c r : (blk < nb)%nat -> (c < 4)%nat -> (r < 4)%nat -> In (blk, c, r) (trips nb).
Proof.
  intros H1 H2 H3. unfold trips. apply in_flat_map. exists blk. split; [apply in_seq; lia|].
  apply in_flat_map. exists c. split; [apply in_seq; lia|]. apply in_map_iff. exists r. split; [reflexivity|apply in_seq; lia].
Qed.
(** One-variable expression e moves bit g(position) to each position. *)
Definition moves (nb : nat) (e : ex) (g : nat -> nat -> nat -> nat) : bool :=
  chk (wd nb) (wd nb) e (map (fun '(blk, c, r) => (pos nb blk c r, (0%nat, g blk c r))) (trips nb)).
Lemma moves_ok nb e g x : moves nb e g = true -> 0 <= x < 2 ^ wd nb ->
  0 <= den (wd nb) (fun _ => x) e < 2 ^ wd nb /\
  forall blk c r, (blk < nb)%nat -> (c < 4)%nat -> (r < 4)%nat ->
    Z.testbit (den (wd nb) (fun _ => x) e) (Z.of_nat (pos nb blk c r)) = Z.testbit x (Z.of_nat (g blk c r)).
Proof.
  intros H Hx. split.
  - eapply chk_bound; [| |exact H]; [unfold wd; lia|auto].
  - intros blk c r H1 H2 H3.
    apply (chk_bit (wd nb) (wd nb) (fun _ => x) ltac:(unfold wd; lia) (fun _ => Hx) e _ H _ 0%nat).
    apply in_map_iff. exists (blk, c, r). split; [reflexivity|now apply in_trips].
Qed.
Lemma move_sliced nb f g q SS SS' :
  (forall x, 0 <= x < 2 ^ wd nb -> 0 <= f x < 2 ^ wd nb /\ forall blk c r, (blk < nb)%nat -> (c < 4)%nat -> (r < 4)%nat ->
     Z.testbit (f x) (Z.of_nat (pos nb blk c r)) = Z.testbit x (Z.of_nat (g blk c r))) ->
  length SS' = nb -> Forall block SS' ->
  (forall blk c r, (blk < nb)%nat -> (c < 4)%nat -> (r < 4)%nat -> exists blk' c' r',
     (blk' < nb)%nat /\ (c' < 4)%nat /\ (r' < 4)%nat /\ g blk c r = pos nb blk' c' r' /\
     nth (4 * c + r) (nth blk SS' []) 0 = nth (4 * c' + r') (nth blk' SS []) 0) ->
  sliced nb q SS -> sliced nb (map f q) SS'.
Proof.
  intros Hf Ls Bs Hg [Lq Wq Ln B Hb]. constructor; auto.
  - now rewrite map_length.
  - rewrite Forall_map. eapply Forall_impl; [|exact Wq]. intros x Hx. now apply Hf.
  - intros blk c r b H1 H2 H3 H4. rewrite (nth_map f q b 0 0) by lia.
    destruct (Hf (nth b q 0)) as [_ E]; [apply (Forall_nth' (fun x => 0 <= x < 2 ^ wd nb)); auto; lia|].
    rewrite E by auto. destruct (Hg blk c r H1 H2 H3) as (blk' & c' & r' & G1 & G2 & G3 & -> & E2).
    rewrite Hb by auto. unfold bitat. now rewrite E2.
Qed.

(** ShiftRows *)
Lemma ShiftRows_nth s c r : (c < 4)%nat -> (r < 4)%nat -> nth (4 * c + r) (ShiftRows s) 0 = nth (4 * ((c + r) mod 4) + r) s 0.
Proof.
  intros Hc Hr. unfold ShiftRows. rewrite nth_map_seq by lia. cbv zeta. now destruct (div4 c r Hr) as [-> ->].
Qed.
Lemma ShiftRows_block s : block s -> block (ShiftRows s).
Proof. intros H. apply seq_block. intros j _. now apply block_byte. Qed.
Lemma shift_sliced nb f q SS :
  (forall x, 0 <= x < 2 ^ wd nb -> 0 <= f x < 2 ^ wd nb /\ forall blk c r, (blk < nb)%nat -> (c < 4)%nat -> (r < 4)%nat ->
     Z.testbit (f x) (Z.of_nat (pos nb blk c r)) = Z.testbit x (Z.of_nat (pos nb blk ((c + r) mod 4) r))) ->
  sliced nb q SS -> sliced nb (map f q) (map ShiftRows SS).
Proof.
  intros Hf HS. eapply move_sliced; [exact Hf| | | |exact HS].
  - rewrite map_length. apply HS.
  - apply map_blocks; [apply ShiftRows_block|apply HS].
  - intros blk c r H1 H2 H3. exists blk, ((c + r) mod 4)%nat, r.
    assert ((c + r) mod 4 < 4)%nat by (apply Nat.mod_upper_bound; lia). repeat split; auto.
    rewrite (nth_map ShiftRows SS blk [] []) by (rewrite (sl_n _ _ _ HS); auto). now apply ShiftRows_nth.
Qed.
Definition shift64_ex : ex :=
  Or (Or (Or (Or (Or (Or (An (X 0) 0x000000000000FFFF)
    (Sr (An (X 0) 0x00000000FFF00000) 4)) (Sl (An (X 0) 0x00000000000F0000) 12))
    (Sr (An (X 0) 0x0000FF0000000000) 8)) (Sl (An (X 0) 0x000000FF00000000) 8))
    (Sr (An (X 0) 0xF000000000000000) 12)) (Sl (An (X 0) 0x0FFF000000000000) 4).
Lemma shift_row64_moves x : 0 <= x < 2 ^ wd 4 -> 0 <= shift_row64 x < 2 ^ wd 4 /\ forall blk c r, (blk < 4)%nat -> (c < 4)%nat -> (r < 4)%nat ->
     Z.testbit (shift_row64 x) (Z.of_nat (pos 4 blk c r)) = Z.testbit x (Z.of_nat (pos 4 blk ((c + r) mod 4) r)).
Proof.
  assert (E : shift_row64 x = den (wd 4) (fun _ => x) shift64_ex) by (unfold shift64_ex, shift_row64; cbn [den]; change (wd 4) with 64; reflexivity).
  rewrite E. clear E.
  apply (moves_ok 4 shift64_ex (fun blk c r => pos 4 blk ((c + r) mod 4) r)). vm_compute. reflexivity.
Qed.
Definition shift32_ex : ex :=
  Or (Or (Or (Or (Or (Or (An (X 0) 0x000000FF)
    (Sr (An (X 0) 0x0000FC00) 2)) (Sl (An (X 0) 0x00000300) 6))
    (Sr (An (X 0) 0x00F00000) 4)) (Sl (An (X 0) 0x000F0000) 4))
    (Sr (An (X 0) 0xC0000000) 6)) (Sl (An (X 0) 0x3F000000) 2).
Lemma shift_row32_moves x : 0 <= x < 2 ^ wd 2 -> 0 <= shift_row32 x < 2 ^ wd 2 /\ forall blk c r, (blk < 2)%nat -> (c < 4)%nat -> (r < 4)%nat ->
     Z.testbit (shift_row32 x) (Z.of_nat (pos 2 blk c r)) = Z.testbit x (Z.of_nat (pos 2 blk ((c + r) mod 4) r)).
Proof.
  assert (E : shift_row32 x = den (wd 2) (fun _ => x) shift32_ex) by (unfold shift32_ex, shift_row32; cbn [den]; change (wd 2) with 32; reflexivity).
  rewrite E. clear E.
  apply (moves_ok 2 shift32_ex (fun blk c r => pos 2 blk ((c + r) mod 4) r)). vm_compute. reflexivity.
Qed.

(** MixColumns *)
Lemma MixColumns_block s : block s -> block (MixColumns s).
Proof.
  intros H. apply seq_block. intros j _. cbv zeta.
  assert (K : forall a b, is_byte a -> is_byte b -> is_byte (Z.lxor a b)) by (intros a b; apply (lxor_bound 8); lia).
  repeat apply K; try (apply gmul_byte); now apply block_byte.
Qed.
Lemma MixColumns_nth s c r : (c < 4)%nat -> (r < 4)%nat ->
  let a i := nth (4 * c + (r + i) mod 4) s 0 in
  nth (4 * c + r) (MixColumns s) 0 = Z.lxor (Z.lxor (Z.lxor (gmul 2 (a 0%nat)) (gmul 3 (a 1%nat))) (a 2%nat)) (a 3%nat).
Proof.
  intros Hc Hr a. unfold MixColumns. rewrite nth_map_seq by lia. cbv zeta. unfold a. now destruct (div4 c r Hr) as [-> ->].
Qed.
Definition rotates (nb k : nat) (f : Z -> Z) : Prop :=
  forall x, 0 <= x < 2 ^ wd nb -> 0 <= f x < 2 ^ wd nb /\ forall blk c r, (blk < nb)%nat -> (c < 4)%nat -> (r < 4)%nat ->
     Z.testbit (f x) (Z.of_nat (pos nb blk c r)) = Z.testbit x (Z.of_nat (pos nb blk c ((r + k) mod 4))).
Lemma mixcol_sliced nb f ff q SS : rotates nb 1 f -> rotates nb 2 ff -> sliced nb q SS ->
  exists q', mix_columns_w f ff q = Some q' /\ sliced nb q' (map MixColumns SS).
Proof.
  intros Hf Hff [Lq Wq Ln Bs Hb].
  destruct q as [|q0 [|q1 [|q2 [|q3 [|q4 [|q5 [|q6 [|q7 [|? ?]]]]]]]]]; try discriminate Lq.
  assert (W : forall q, In q [q0; q1; q2; q3; q4; q5; q6; q7] -> 0 <= q < 2 ^ wd nb) by (apply Forall_forall; exact Wq).
  assert (w0 := W q0 ltac:(cbn; auto 12)). assert (w1 := W q1 ltac:(cbn; auto 12)).
  assert (w2 := W q2 ltac:(cbn; auto 12)). assert (w3 := W q3 ltac:(cbn; auto 12)).
  assert (w4 := W q4 ltac:(cbn; auto 12)). assert (w5 := W q5 ltac:(cbn; auto 12)).
  assert (w6 := W q6 ltac:(cbn; auto 12)). assert (w7 := W q7 ltac:(cbn; auto 12)). clear W Wq Lq.
  assert (X2 : forall a b, 0 <= a < 2 ^ wd nb -> 0 <= b < 2 ^ wd nb -> 0 <= Z.lxor a b < 2 ^ wd nb)
    by (intros; apply lxor_bound; auto; unfold wd; lia).
  assert (FF : forall x, 0 <= x < 2 ^ wd nb -> 0 <= f x < 2 ^ wd nb) by (intros x Hx; now apply Hf).
  assert (FFF : forall x, 0 <= x < 2 ^ wd nb -> 0 <= ff x < 2 ^ wd nb) by (intros x Hx; now apply Hff).
  eexists. split; [reflexivity|]. constructor.
  - reflexivity.
  - repeat constructor; repeat first [apply X2 | apply FF | apply FFF]; assumption.
  - now rewrite map_length.
  - apply map_blocks; auto. apply MixColumns_block.
  - intros blk c r b H1 H2 H3 H4. unfold bitat. rewrite (nth_map MixColumns SS blk [] []) by lia.
    rewrite MixColumns_nth by auto. cbv zeta.
    assert (B0 : block (nth blk SS [])) by (apply block_nth; auto; lia).
    rewrite !Z.lxor_spec.
    destruct (gmul_bits (nth (4 * c + (r + 0) mod 4) (nth blk SS []) 0) (block_byte _ _ B0) b H4) as [-> _].
    destruct (gmul_bits (nth (4 * c + (r + 1) mod 4) (nth blk SS []) 0) (block_byte _ _ B0) b H4) as [E1 ->]. rewrite E1. clear E1.
    assert (M : forall i, ((r + i) mod 4 < 4)%nat) by (intros; apply Nat.mod_upper_bound; lia).
    assert (Hb' : forall b' i, (b' < 8)%nat -> Z.testbit (nth (4 * c + (r + i) mod 4) (nth blk SS []) 0) (Z.of_nat b')
      = Z.testbit (nth b' [q0; q1; q2; q3; q4; q5; q6; q7] 0) (Z.of_nat (pos nb blk c ((r + i) mod 4)))).
    { intros b' i Hb'. symmetry. apply (Hb blk c ((r + i) mod 4)%nat b' H1 H2 (M i) Hb'). }
    assert (Z7 : forall i, Z.testbit (nth (4 * c + (r + i) mod 4) (nth blk SS []) 0) 7
      = Z.testbit q7 (Z.of_nat (pos nb blk c ((r + i) mod 4)))) by (intros i; exact (Hb' 7%nat i ltac:(lia))).
    assert (E0 : ((r + 0) mod 4)%nat = r) by (rewrite Nat.add_0_r; apply Nat.mod_small; auto).
    assert (RF : forall x, 0 <= x < 2 ^ wd nb -> Z.testbit (f x) (Z.of_nat (pos nb blk c r)) = Z.testbit x (Z.of_nat (pos nb blk c ((r + 1) mod 4))))
      by (intros x Hx; now apply Hf).
    assert (RG : forall x, 0 <= x < 2 ^ wd nb -> Z.testbit (ff (Z.lxor x (f x))) (Z.of_nat (pos nb blk c r))
       = xorb (Z.testbit x (Z.of_nat (pos nb blk c ((r + 2) mod 4)))) (Z.testbit x (Z.of_nat (pos nb blk c ((r + 3) mod 4))))).
    { intros x Hx. rewrite (proj2 (Hff _ (X2 _ _ Hx (FF _ Hx)))) by auto. rewrite Z.lxor_spec. f_equal.
      rewrite (proj2 (Hf x Hx)) by auto. do 3 f_equal.
      rewrite Nat.add_mod_idemp_l by lia. f_equal. lia. }
    rewrite !Z7.
    destruct b as [|[|[|[|[|[|[|[|b]]]]]]]]; [..|lia]; cbn [nth];
      repeat rewrite Hb' by lia; rewrite ?E0; cbn [nth];
      rewrite !Z.lxor_spec, RG, !RF by assumption;
      repeat match goal with |- context [Z.testbit ?a ?b] => destruct (Z.testbit a b) end; reflexivity.
Qed.
Lemma moves_rotates nb e k : moves nb e (fun blk c r => pos nb blk c ((r + k) mod 4)) = true ->
  rotates nb k (fun x => den (wd nb) (fun _ => x) e).
Proof. intros H x Hx. now apply (moves_ok nb e (fun blk c r => pos nb blk c ((r + k) mod 4))). Qed.
Lemma mix_columns_sliced q SS : sliced 4 q SS -> exists q', mix_columns q = Some q' /\ sliced 4 q' (map MixColumns SS).
Proof.
  apply mixcol_sliced.
  - apply (moves_rotates 4 (Or (Sr (X 0) 16) (Sl (X 0) 48))). vm_compute. reflexivity.
  - apply (moves_rotates 4 (Or (Sl (X 0) 32) (Sr (X 0) 32))). vm_compute. reflexivity.
Qed.
Lemma mix_columns32_sliced q SS : sliced 2 q SS -> exists q', mix_columns32 q = Some q' /\ sliced 2 q' (map MixColumns SS).
Proof.
  apply mixcol_sliced.
  - apply (moves_rotates 2 (Or (Sr (X 0) 8) (Sl (X 0) 24))). vm_compute. reflexivity.
  - apply (moves_rotates 2 (Or (Sl (X 0) 16) (Sr (X 0) 16))). vm_compute. reflexivity.
Qed.

(** AddRoundKey *)
Lemma AddRoundKey_block s k : block s -> block k -> block (AddRoundKey s k).
Proof.
  intros H K. apply seq_block. intros j _. apply (lxor_bound 8); [lia| |]; now apply block_byte.
Qed.
Lemma addkey_sliced nb q k SS K : sliced nb q SS -> sliced nb k K ->
  exists q', add_round_key q k = Some q' /\
    sliced nb q' (map (fun i => AddRoundKey (nth i SS []) (nth i K [])) (seq 0 nb)).
Proof.
  intros [Lq Wq Ln Bs Hb] [Lk Wk Lnk Bk Hk].
  destruct q as [|q0 [|q1 [|q2 [|q3 [|q4 [|q5 [|q6 [|q7 [|? ?]]]]]]]]]; try discriminate Lq.
  destruct k as [|k0 [|k1 [|k2 [|k3 [|k4 [|k5 [|k6 [|k7 [|? ?]]]]]]]]]; try discriminate Lk.
  cbn [add_round_key]. eexists. split; [reflexivity|]. constructor.
  - reflexivity.
  - repeat match goal with H : Forall _ (_ :: _) |- _ => inversion H; clear H; subst end.
    repeat (apply Forall_cons; [apply lxor_bound; auto; unfold wd; lia|]). apply Forall_nil.
  - now rewrite map_length, seq_length.
  - apply Forall_forall. intros x Hx. apply in_map_iff in Hx. destruct Hx as (i & <- & Hi). apply in_seq in Hi.
    apply AddRoundKey_block; apply block_nth; auto; lia.
  - intros blk c r b H1 H2 H3 H4. unfold bitat. rewrite nth_map_seq by auto. unfold AddRoundKey. rewrite nth_map_seq by lia.
    rewrite Z.lxor_spec. specialize (Hb blk c r b H1 H2 H3 H4). specialize (Hk blk c r b H1 H2 H3 H4).
    unfold bitat in Hb, Hk. rewrite <- Hb, <- Hk.
    destruct b as [|[|[|[|[|[|[|[|b]]]]]]]]; [..|lia]; cbn [nth]; apply Z.lxor_spec.
Qed.

(** One AES round on every block *)
Lemma aes_layer_ok nb SS K : length SS = nb ->
  map (fun i => AddRoundKey (nth i (map MixColumns (map ShiftRows (map SubBytes SS))) []) (nth i K [])) (seq 0 nb)
  = aes_layer SS K.
Proof.
  intros L. unfold aes_layer. rewrite L. apply map_ext_in. intros i Hi. apply in_seq in Hi. unfold aes_round. f_equal.
  rewrite (nth_map MixColumns _ _ _ []) by (rewrite !map_length; lia).
  rewrite (nth_map ShiftRows _ _ _ []) by (rewrite !map_length; lia).
  rewrite (nth_map SubBytes _ _ _ []) by lia. reflexivity.
Qed.
Definition rc_ok (nb : nat) (rc : list (list Z)) (RC : list (list Z)) : Prop :=
  forall l, (l < 10)%nat -> exists k, get rc l = Some k /\ sliced nb k (keys nb RC l).
Lemma layer512 rc RC l q SS : rc_ok 4 rc RC -> (l < 10)%nat -> sliced 4 q SS ->
  exists q', (q <- bitslice_Sbox 64 q ;; let q := map shift_row64 q in q <- mix_columns q ;; k <- get rc l ;; add_round_key q k) = Some q'
    /\ sliced 4 q' (aes_layer SS (keys 4 RC l)).
Proof.
  intros Hrc Hl H. destruct (Hrc l Hl) as (k & Ek & HK). rewrite Ek.
  destruct (sbox_sliced 4 q SS ltac:(lia) H) as (q1 & E1 & H1). change (wd 4) with 64 in E1. rewrite E1. cbn [bind].
  assert (H2 := shift_sliced 4 shift_row64 q1 _ shift_row64_moves H1).
  destruct (mix_columns_sliced _ _ H2) as (q3 & E3 & H3). cbv zeta. rewrite E3. cbn [bind].
  destruct (addkey_sliced 4 _ _ _ _ H3 HK) as (q4 & E4 & H4). rewrite E4. exists q4. split; [reflexivity|].
  rewrite aes_layer_ok in H4; [exact H4|]. apply (sl_n _ _ _ H).
Qed.
Lemma layer256 rc RC l q SS : rc_ok 2 rc RC -> (l < 10)%nat -> sliced 2 q SS ->
  exists q', (q <- bitslice_Sbox 32 q ;; let q := map shift_row32 q in q <- mix_columns32 q ;; k <- get rc l ;; add_round_key q k) = Some q'
    /\ sliced 2 q' (aes_layer SS (keys 2 RC l)).
Proof.
  intros Hrc Hl H. destruct (Hrc l Hl) as (k & Ek & HK). rewrite Ek.
  destruct (sbox_sliced 2 q SS ltac:(lia) H) as (q1 & E1 & H1). change (wd 2) with 32 in E1. rewrite E1. cbn [bind].
  assert (H2 := shift_sliced 2 shift_row32 q1 _ shift_row32_moves H1).
  destruct (mix_columns32_sliced _ _ H2) as (q3 & E3 & H3). cbv zeta. rewrite E3. cbn [bind].
  destruct (addkey_sliced 2 _ _ _ _ H3 HK) as (q4 & E4 & H4). rewrite E4. exists q4. split; [reflexivity|].
  rewrite aes_layer_ok in H4; [exact H4|]. apply (sl_n _ _ _ H).
Qed.

(** Mixing *)
Lemma column_length SS k : Forall block SS -> (k < 4 * length SS)%nat -> length (column SS k) = 4%nat.
Proof.
  intros B Hk. unfold column. rewrite firstn_length, skipn_length.
  assert (k mod 4 < 4)%nat by (apply Nat.mod_upper_bound; lia).
  assert (k / 4 < length SS)%nat by (apply Nat.div_lt_upper_bound; lia).
  destruct (block_nth SS (k / 4) B H0) as [-> _]. lia.
Qed.
Lemma column_nth SS k r : (r < 4)%nat -> nth r (column SS k) 0 = nth (4 * (k mod 4) + r) (nth (k / 4) SS []) 0.
Proof.
  intros Hr. unfold column.
  set (s := nth (k / 4) SS []). set (a := (4 * (k mod 4))%nat).
  assert (N : forall (l : list Z) i n, (i < n)%nat -> nth i (firstn n l) 0 = nth i l 0).
  { clear. induction l as [|x l IH]; intros [|i] [|n] H; cbn [firstn nth]; auto; try lia. apply IH. lia. }
  rewrite N by auto. clearbody a. clear. revert a.
  induction s as [|x s IH]; intros [|a]; cbn [skipn nth plus]; auto; now destruct r.
Qed.
Lemma mix_nth perm SS blk c r : Forall block SS ->
  (forall j, (j < 4 * length SS)%nat -> (nth j perm 0 < 4 * length SS)%nat) ->
  (blk < length SS)%nat -> (c < 4)%nat -> (r < 4)%nat ->
  let k := nth (4 * blk + c) perm 0%nat in
  nth (4 * c + r) (nth blk (mix_columns_of perm SS) []) 0 = nth (4 * (k mod 4) + r) (nth (k / 4) SS []) 0.
Proof.
  intros B Hp H1 H2 H3 k. unfold mix_columns_of. rewrite nth_map_seq by auto. cbn [flat_map seq]. rewrite app_nil_r.
  assert (L : forall c, (c < 4)%nat -> length (column SS (nth (4 * blk + c) perm 0%nat)) = 4%nat)
    by (intros c' Hc; apply column_length; auto; apply Hp; lia).
  assert (A : forall (a b : list Z) i, length a = 4%nat -> nth (4 + i) (a ++ b) 0 = nth i b 0).
  { clear. intros a b i L. rewrite app_nth2 by lia. f_equal. lia. }
  assert (A0 : forall (a b : list Z), length a = 4%nat -> nth r (a ++ b) 0 = nth r a 0) by (intros; apply app_nth1; lia).
  unfold k. rewrite <- column_nth by auto.
  destruct c as [|[|[|[|c]]]]; [..|lia].
  - change (4 * 0 + r)%nat with r. rewrite A0 by (apply L; lia). reflexivity.
  - change (4 * 1 + r)%nat with (4 + r)%nat. rewrite A, A0 by (apply L; lia). reflexivity.
  - change (4 * 2 + r)%nat with (4 + (4 + r))%nat. rewrite A, A, A0 by (apply L; lia). reflexivity.
  - change (4 * 3 + r)%nat with (4 + (4 + (4 + r)))%nat. rewrite A, A, A by (apply L; lia). reflexivity.
Qed.
Lemma mix_block perm SS : Forall block SS ->
  (forall j, (j < 4 * length SS)%nat -> (nth j perm 0 < 4 * length SS)%nat) ->
  Forall block (mix_columns_of perm SS).
Proof.
  intros B Hp. apply Forall_forall. intros s Hs. unfold mix_columns_of in Hs. apply in_map_iff in Hs.
  destruct Hs as (i & <- & Hi). apply in_seq in Hi.
  assert (L : forall c, (c < 4)%nat -> length (column SS (nth (4 * i + c) perm 0%nat)) = 4%nat)
    by (intros c Hc; apply column_length; auto; apply Hp; lia).
  split.
  - cbn [flat_map seq]. rewrite !app_length, !L by lia. reflexivity.
  - apply Forall_forall. intros x Hx. apply in_flat_map in Hx. destruct Hx as (c & Hc & Hx). apply in_seq in Hc.
    unfold column in Hx. apply In_nth with (d := 0) in Hx. destruct Hx as (j & Hj & <-).
    assert (H3 : length (column SS (nth (4 * i + c) perm 0%nat)) = 4%nat) by (apply L; lia). unfold column in H3. rewrite H3 in Hj.
    fold (column SS (nth (4 * i + c) perm 0%nat)). rewrite column_nth by auto. apply block_byte. apply block_nth; auto.
    apply Nat.div_lt_upper_bound; [lia|]. apply Hp. lia.
Qed.
Lemma mix_sliced nb f perm q SS :
  (forall x, 0 <= x < 2 ^ wd nb -> 0 <= f x < 2 ^ wd nb /\ forall blk c r, (blk < nb)%nat -> (c < 4)%nat -> (r < 4)%nat ->
     Z.testbit (f x) (Z.of_nat (pos nb blk c r)) = Z.testbit x (Z.of_nat (let k := nth (4 * blk + c) perm 0 in pos nb (k / 4) (k mod 4) r)%nat)) ->
  (forall j, (j < 4 * nb)%nat -> (nth j perm 0 < 4 * nb)%nat) ->
  sliced nb q SS -> sliced nb (map f q) (mix_columns_of perm SS).
Proof.
  intros Hf Hp HS. pose proof (sl_n _ _ _ HS) as L. pose proof (sl_b _ _ _ HS) as B.
  eapply move_sliced; [exact Hf| | | |exact HS].
  - unfold mix_columns_of. rewrite map_length, seq_length. exact L.
  - apply mix_block; auto. now rewrite L.
  - intros blk c r H1 H2 H3. cbv zeta. set (k := nth (4 * blk + c) perm 0%nat).
    assert (k < 4 * nb)%nat by (apply Hp; lia).
    exists (k / 4)%nat, (k mod 4)%nat, r. repeat split; auto.
    + apply Nat.div_lt_upper_bound; lia.
    + apply Nat.mod_upper_bound; lia.
    + apply mix_nth; auto; rewrite L; auto.
Qed.
Lemma perm_check (l : list nat) n : forallb (fun j => (nth j l 0 <? n)%nat) (seq 0 n) = true ->
  forall j, (j < n)%nat -> (nth j l 0 < n)%nat.
Proof. intros H j Hj. rewrite forallb_forall in H. apply Nat.ltb_lt, H, in_seq. lia. Qed.
Definition mixst512_ex : ex :=
  Or (Or (Or (Or (Or (Or (Or (Or (Or (Or (Or (Or
    (Sl (An (X 0) 0x0001000100010001) 5) (Sl (An (X 0) 0x0002000200020002) 12))
    (Sr (An (X 0) 0x0004000400040004) 1)) (Sl (An (X 0) 0x0008000800080008) 6))
    (Sl (An (X 0) 0x0020002000200020) 9)) (Sr (An (X 0) 0x0040004000400040) 4))
    (Sl (An (X 0) 0x0080008000800080) 3)) (Sr (An (X 0) 0x2100210021002100) 5))
    (Sl (An (X 0) 0x0210021002100210) 2)) (Sl (An (X 0) 0x0800080008000800) 4))
    (Sr (An (X 0) 0x1000100010001000) 12)) (Sr (An (X 0) 0x4000400040004000) 10))
    (Sr (An (X 0) 0x8400840084008400) 3).
Lemma mix512_sliced q SS : sliced 4 q SS -> sliced 4 (map mix_state512 q) (mix512 SS).
Proof.
  apply mix_sliced; [|apply (perm_check _ 16); vm_compute; reflexivity].
  intros x. assert (E : mix_state512 x = den (wd 4) (fun _ => x) mixst512_ex) by (unfold mixst512_ex, mix_state512; cbn [den]; change (wd 4) with 64; reflexivity).
  rewrite E. clear E.
  refine (moves_ok 4 mixst512_ex (fun blk c r => let k := nth (4 * blk + c) _ 0 in pos 4 (k / 4) (k mod 4) r)%nat x _).
  vm_compute. reflexivity.
Qed.
Definition mixst256_ex : ex :=
  Or (Or (Or (Or (Or (Or
    (An (X 0) 0x81818181) (Sl (An (X 0) 0x02020202) 1)) (Sl (An (X 0) 0x04040404) 2))
    (Sl (An (X 0) 0x08080808) 3)) (Sr (An (X 0) 0x10101010) 3))
    (Sr (An (X 0) 0x20202020) 2)) (Sr (An (X 0) 0x40404040) 1).
Lemma mix256_sliced q SS : sliced 2 q SS -> sliced 2 (map mix_state256 q) (mix256 SS).
Proof.
  apply mix_sliced; [|apply (perm_check _ 8); vm_compute; reflexivity].
  intros x. assert (E : mix_state256 x = den (wd 2) (fun _ => x) mixst256_ex) by (unfold mixst256_ex, mix_state256; cbn [den]; change (wd 2) with 32; reflexivity).
  rewrite E. clear E.
  refine (moves_ok 2 mixst256_ex (fun blk c r => let k := nth (4 * blk + c) _ 0 in pos 2 (k / 4) (k mod 4) r)%nat x _).
  vm_compute. reflexivity.
Qed.

(** ** Between bytes and sliced words *)
Section OrthoEx.
Variables l2 h2 l4 h4 l8 h8 : Z.
Definition sw (cl ch s : Z) (a b : ex) : ex * ex := (Or (An a cl) (Sl (An b cl) s), Or (Sr (An a ch) s) (An b ch)).
Definition ortho_ex (q : list ex) : list ex :=
  match q with
  | [q0; q1; q2; q3; q4; q5; q6; q7] =>
      let '(q0, q1) := sw l2 h2 1 q0 q1 in let '(q2, q3) := sw l2 h2 1 q2 q3 in
      let '(q4, q5) := sw l2 h2 1 q4 q5 in let '(q6, q7) := sw l2 h2 1 q6 q7 in
      let '(q0, q2) := sw l4 h4 2 q0 q2 in let '(q1, q3) := sw l4 h4 2 q1 q3 in
      let '(q4, q6) := sw l4 h4 2 q4 q6 in let '(q5, q7) := sw l4 h4 2 q5 q7 in
      let '(q0, q4) := sw l8 h8 4 q0 q4 in let '(q1, q5) := sw l8 h8 4 q1 q5 in
      let '(q2, q6) := sw l8 h8 4 q2 q6 in let '(q3, q7) := sw l8 h8 4 q3 q7 in
      [q0; q1; q2; q3; q4; q5; q6; q7]
  | _ => []
  end.
Lemma ortho_den w env q : length q = 8%nat ->
  ortho w l2 h2 l4 h4 l8 h8 (map (den w env) q) = Some (map (den w env) (ortho_ex q)).
Proof.
  intros L. destruct q as [|q0 [|q1 [|q2 [|q3 [|q4 [|q5 [|q6 [|q7 [|? ?]]]]]]]]]; try discriminate L.
  cbn [map ortho ortho_ex SWAPN sw den]. reflexivity.
Qed.
End OrthoEx.
Definition ortho64_ex := ortho_ex 0x5555555555555555 0xAAAAAAAAAAAAAAAA 0x3333333333333333 0xCCCCCCCCCCCCCCCC
    0x0F0F0F0F0F0F0F0F 0xF0F0F0F0F0F0F0F0.
Definition ortho32_ex := ortho_ex 0x55555555 0xAAAAAAAA 0x33333333 0xCCCCCCCC 0x0F0F0F0F 0xF0F0F0F0.

(** The 32-bit little-endian word at off. *)
Definition wordat (src : bytes) (off : nat) : Z :=
  let x i := u8 (nth (off + i) src 0) in
  Z.lor (Z.lor (Z.lor (x 0%nat) (Z.shiftl (x 1%nat) 8)) (Z.shiftl (x 2%nat) 16)) (Z.shiftl (x 3%nat) 24).
Lemma get_nth (l : list Z) i d : (i < length l)%nat -> get l i = Some (nth i l d).
Proof. intros H. apply nth_error_nth'. exact H. Qed.
Lemma br_dec32le_ok src off : (off + 4 <= length src)%nat -> br_dec32le src off = Some (wordat src off).
Proof.
  intros H. unfold br_dec32le, wordat. rewrite !(get_nth src _ 0) by lia. cbn [bind]. now rewrite Nat.add_0_r.
Qed.
Definition word_ex : ex := Or (Or (Or (X 0) (Sl (X 1) 8)) (Sl (X 2) 16)) (Sl (X 3) 24).
Lemma shl_small w x k : 0 <= k -> 0 <= x < 256 -> 2 ^ (8 + k) <= 2 ^ w -> shl w x k = Z.shiftl x k.
Proof.
  intros Hk Hx Hw. unfold shl. apply Z.mod_small. rewrite Z.shiftl_mul_pow2 by auto.
  rewrite Z.pow_add_r in Hw by lia. change (2 ^ 8) with 256 in Hw.
  assert (0 < 2 ^ k) by (apply Z.pow_pos_nonneg; lia). nia.
Qed.
Lemma u8_range x : 0 <= u8 x < 256.
Proof. apply u8_byte. Qed.
Lemma wordat_den src off : wordat src off = den 32 (fun i => u8 (nth (off + i) src 0)) word_ex.
Proof.
  unfold wordat, word_ex. cbn [den]. rewrite !shl_small; try reflexivity; try apply u8_range; lia.
Qed.
Lemma wordat_bound src off : 0 <= wordat src off < 2 ^ 32.
Proof.
  rewrite wordat_den. apply (den_bound 32 8); [lia| |reflexivity]. intros i. apply u8_range.
Qed.
Definition pairs : list (nat * nat) := flat_map (fun r => map (fun b => (r, b)) (seq 0 8)) (seq 0 4).
Lemma in_pairs r b : (r < 4)%nat -> (b < 8)%nat -> In (r, b) pairs.
Proof.
  intros H1 H2. unfold pairs. apply in_flat_map. exists r. split; [apply in_seq; lia|].
  apply in_map_iff. exists b. split; [reflexivity|apply in_seq; lia].
Qed.
Lemma wordat_bit src off r b : (r < 4)%nat -> (b < 8)%nat ->
  Z.testbit (wordat src off) (Z.of_nat (8 * r + b)) = Z.testbit (u8 (nth (off + r) src 0)) (Z.of_nat b).
Proof.
  intros Hr Hb. rewrite wordat_den.
  assert (C : chk 32 8 word_ex (map (fun '(r, b) => (8 * r + b, (r, b))%nat) pairs) = true) by (vm_compute; reflexivity).
  apply (chk_bit 32 8 (fun i => u8 (nth (off + i) src 0)) ltac:(lia) (fun i => u8_range _) _ _ C).
  apply in_map_iff. exists (r, b). split; [reflexivity|now apply in_pairs].
Qed.
Lemma br_range_dec32le_ok num : forall src off, (off + 4 * num <= length src)%nat ->
  br_range_dec32le num src off = Some (map (fun k => wordat src (off + 4 * k)) (seq 0 num)).
Proof.
  induction num as [|num IH]; intros src off H; [reflexivity|]. cbn [br_range_dec32le].
  rewrite br_dec32le_ok by lia. cbn [bind]. rewrite IH by lia. cbn [bind seq map].
  rewrite <- seq_shift, map_map. do 2 f_equal; [now rewrite Nat.add_0_r|]. apply map_ext. intros k. f_equal. lia.
Qed.

Lemma skipn_nth (l : list Z) a i : nth i (skipn a l) 0 = nth (a + i) l 0.
Proof. revert a. induction l as [|x l IH]; intros [|a]; cbn [skipn nth plus]; auto; now destruct i. Qed.
Lemma firstn_nth (l : list Z) : forall i n, (i < n)%nat -> nth i (firstn n l) 0 = nth i l 0.
Proof. induction l as [|x l IH]; intros [|i] [|n] H; cbn [firstn nth]; auto; try lia. apply IH. lia. Qed.
Lemma blocks_length nb : forall x, length (blocks nb x) = nb.
Proof. induction nb; intros x; cbn [blocks length]; auto. Qed.
Lemma blocks_nth nb : forall x blk, (blk < nb)%nat -> nth blk (blocks nb x) [] = firstn 16 (skipn (16 * blk) x).
Proof.
  induction nb as [|nb IH]; intros x blk H; [lia|]. cbn [blocks]. destruct blk as [|blk]; [reflexivity|].
  cbn [nth]. rewrite IH by lia. rewrite skipn_skipn. do 2 f_equal. lia.
Qed.
Lemma blocks_nth_nth nb x blk i : (blk < nb)%nat -> (i < 16)%nat -> nth i (nth blk (blocks nb x) []) 0 = nth (16 * blk + i) x 0.
Proof. intros H Hi. rewrite blocks_nth by auto. now rewrite firstn_nth, skipn_nth. Qed.
Lemma Forall_first {A} (P : A -> Prop) n l : Forall P l -> Forall P (firstn n l).
Proof. intros F. rewrite <- (firstn_skipn n l) in F. now apply Forall_app in F. Qed.
Lemma Forall_skip {A} (P : A -> Prop) n l : Forall P l -> Forall P (skipn n l).
Proof. intros F. rewrite <- (firstn_skipn n l) in F. now apply Forall_app in F. Qed.
Lemma blocks_block nb : forall x, length x = (16 * nb)%nat -> all_bytes x -> Forall block (blocks nb x).
Proof.
  induction nb as [|nb IH]; intros x L B; cbn [blocks]; constructor.
  - split; [rewrite firstn_length; lia|]. now apply Forall_first.
  - apply IH; [rewrite skipn_length; lia|]. now apply Forall_skip.
Qed.
Lemma concat_blocks nb : forall x, length x = (16 * nb)%nat -> concat (blocks nb x) = x.
Proof.
  induction nb as [|nb IH]; intros x L; cbn [blocks concat]; [now destruct x|].
  rewrite IH by (rewrite skipn_length; lia). apply firstn_skipn.
Qed.
Lemma blocks_concat SS : Forall block SS -> blocks (length SS) (concat SS) = SS.
Proof.
  induction 1 as [|s SS [L _] _ IH]; [reflexivity|]. cbn [length concat blocks].
  rewrite firstn_app, skipn_app, L, Nat.sub_diag, firstn_all2, (skipn_all2 s) by lia. cbn [firstn skipn app].
  now rewrite app_nil_r, IH.
Qed.
Lemma concat_nth SS : Forall block SS -> forall blk i, (blk < length SS)%nat -> (i < 16)%nat ->
  nth (16 * blk + i) (concat SS) 0 = nth i (nth blk SS []) 0.
Proof. intros B blk i H Hi. rewrite <- (blocks_concat SS B) at 2. now rewrite blocks_nth_nth. Qed.
Lemma concat_blocks_length SS : Forall block SS -> length (concat SS) = (16 * length SS)%nat.
Proof. induction 1 as [|s SS [L _] _ IH]; [reflexivity|]. cbn [concat length]. rewrite app_length. lia. Qed.
Lemma concat_bytes SS : Forall block SS -> all_bytes (concat SS).
Proof. induction 1 as [|s SS [_ B] _ IH]; [constructor|]. cbn [concat]. apply Forall_app. now split. Qed.

(** Loading: bit (blk, c, r) of word b is bit b of byte 16 blk + 4 c + r. *)
Definition loads (nb : nat) (es : list ex) : bool :=
  (length es =? 8)%nat && forallb (fun b => chk (wd nb) 32 (nth b es (X 0))
    (map (fun '(blk, c, r) => (pos nb blk c r, (4 * blk + c, 8 * r + b))%nat) (trips nb))) (seq 0 8).
Lemma load_sliced nb es inp off : loads nb es = true -> (2 <= nb)%nat -> (off + 16 * nb <= length inp)%nat ->
  sliced nb (map (den (wd nb) (fun i => wordat inp (off + 4 * i))) es) (blocks nb (norm (firstn (16 * nb) (skipn off inp)))).
Proof.
  intros H Hnb Hl. apply andb_true_iff in H. destruct H as [L H]. apply Nat.eqb_eq in L. rewrite forallb_forall in H.
  assert (Hw : 0 <= 32 <= wd nb) by (unfold wd; lia).
  assert (He : forall i, 0 <= (fun i => wordat inp (off + 4 * i)) i < 2 ^ 32) by (intros i; apply wordat_bound).
  constructor.
  - now rewrite map_length.
  - apply Forall_forall. intros x Hx. apply in_map_iff in Hx. destruct Hx as (e & <- & He').
    destruct (In_nth _ _ (X 0) He') as (b & Hb & <-). eapply chk_bound; [exact Hw|exact He|apply H, in_seq; lia].
  - apply blocks_length.
  - apply blocks_block; [rewrite map_length, firstn_length, skipn_length; lia|apply norm_all].
  - intros blk c r b H1 H2 H3 H4. rewrite (nth_map _ es b _ (X 0)) by lia.
    assert (Hi : In b (seq 0 8)) by (apply in_seq; lia). specialize (H b Hi).
    rewrite (chk_bit (wd nb) 32 _ Hw He _ _ H _ (4 * blk + c)%nat (8 * r + b)%nat)
      by (apply in_map_iff; exists (blk, c, r); split; [reflexivity|now apply in_trips]).
    rewrite wordat_bit by auto. unfold bitat. rewrite blocks_nth_nth by lia. f_equal.
    rewrite (nth_map u8 _ _ _ 0) by (rewrite firstn_length, skipn_length; lia). rewrite firstn_nth, skipn_nth by lia.
    do 2 f_equal. lia.
Qed.
Definition spread_ex (x : ex) : ex :=
  let x := An (Or x (Sl x 16)) 0x0000FFFF0000FFFF in An (Or x (Sl x 8)) 0x00FF00FF00FF00FF.
Definition ilin_ex (i : nat) : ex * ex :=
  (Or (spread_ex (X i)) (Sl (spread_ex (X (i + 2))) 8), Or (spread_ex (X (i + 1))) (Sl (spread_ex (X (i + 3))) 8)).
Definition load512_ex : list ex :=
  let '(q0, q4) := ilin_ex 0 in let '(q1, q5) := ilin_ex 4 in
  let '(q2, q6) := ilin_ex 8 in let '(q3, q7) := ilin_ex 12 in
  ortho64_ex [q0; q1; q2; q3; q4; q5; q6; q7].
Lemma load512_sliced inp off : (off + 64 <= length inp)%nat ->
  exists q, load512 inp off = Some q /\ sliced 4 q (blocks 4 (norm (firstn 64 (skipn off inp)))).
Proof.
  intros H. exists (map (den (wd 4) (fun i => wordat inp (off + 4 * i))) load512_ex). split.
  - unfold load512. rewrite br_range_dec32le_ok by lia. cbn [bind map seq].
    unfold load512_ex, ilin_ex, br_aes_ct64_interleave_in. cbv beta iota.
    unfold ortho64_ex. rewrite <- ortho_den by reflexivity. cbn [map].
    unfold br_aes_ct64_ortho. change (wd 4) with 64. cbn [den spread_ex plus]. reflexivity.
  - apply (load_sliced 4); [vm_compute; reflexivity|lia|lia].
Qed.
Definition load256_ex : list ex := ortho32_ex [X 0; X 4; X 1; X 5; X 2; X 6; X 3; X 7].
Lemma load256_sliced inp off : (off + 32 <= length inp)%nat ->
  exists q, load256 inp off = Some q /\ sliced 2 q (blocks 2 (norm (firstn 32 (skipn off inp)))).
Proof.
  intros H. exists (map (den (wd 2) (fun i => wordat inp (off + 4 * i))) load256_ex). split.
  - unfold load256. rewrite !br_dec32le_ok by lia. cbn [bind].
    unfold load256_ex, ortho32_ex. rewrite <- ortho_den by reflexivity. cbn [map den].
    unfold br_aes_ct_ortho. change (wd 2) with 32.
    rewrite <- !Nat.add_assoc. cbn [plus mult]. now rewrite Nat.add_0_r.
  - apply (load_sliced 2); [vm_compute; reflexivity|lia|lia].
Qed.

(** Storing *)
Lemma byte_ext x y : is_byte x -> is_byte y ->
  (forall b, (b < 8)%nat -> Z.testbit x (Z.of_nat b) = Z.testbit y (Z.of_nat b)) -> x = y.
Proof.
  intros Hx Hy H. apply Z.bits_inj'. intros n Hn. destruct (Z.lt_ge_cases n 8).
  - rewrite <- (Z2Nat.id n) by lia. apply H. lia.
  - rewrite (high_false x 8), (high_false y 8); auto; lia.
Qed.
Lemma enc_nth L : forall k r, (k < length L)%nat -> (r < 4)%nat ->
  nth (4 * k + r) (br_range_enc32le L) 0 = u8 (Z.shiftr (nth k L 0) (8 * Z.of_nat r)).
Proof.
  unfold br_range_enc32le. induction L as [|x L IH]; intros k r Hk Hr; cbn [length] in Hk; [lia|].
  cbn [flat_map]. destruct k as [|k].
  - cbn [mult plus nth]. destruct r as [|[|[|[|r]]]]; [..|lia]; reflexivity.
  - replace (4 * S k + r)%nat with (4 + (4 * k + r))%nat by lia. cbn [plus br_enc32le app nth].
    apply IH; lia.
Qed.
Lemma enc_length L : length (br_range_enc32le L) = (4 * length L)%nat.
Proof.
  unfold br_range_enc32le. induction L as [|x L IH]; [reflexivity|]. cbn [flat_map]. rewrite app_length, IH. cbn [br_enc32le length]. lia.
Qed.
Definition stores (nb : nat) (es : list ex) : bool :=
  (length es =? 4 * nb)%nat && forallb (fun k => chk (wd nb) (wd nb) (nth k es (X 0))
    (map (fun '(r, b) => (8 * r + b, (b, pos nb (k / 4) (k mod 4) r))%nat) pairs)) (seq 0 (4 * nb)).
Lemma index16 nb i : (i < 16 * nb)%nat -> exists k r, (i = 4 * k + r /\ k < 4 * nb /\ r < 4)%nat.
Proof.
  intros H. exists (i / 4)%nat, (i mod 4)%nat. pose proof (Nat.div_mod i 4 ltac:(lia)).
  pose proof (Nat.mod_upper_bound i 4 ltac:(lia)). repeat split; auto. apply Nat.div_lt_upper_bound; lia.
Qed.
Lemma testbit_u8_shiftr x r b : (b < 8)%nat -> Z.testbit (u8 (Z.shiftr x (8 * Z.of_nat r))) (Z.of_nat b) = Z.testbit x (Z.of_nat (8 * r + b)).
Proof.
  intros Hb. unfold u8. change 256 with (2 ^ 8). rewrite Z.mod_pow2_bits_low by lia. rewrite Z.shiftr_spec by lia.
  f_equal. lia.
Qed.
Lemma store_ok nb es q SS : stores nb es = true -> (0 < nb)%nat -> sliced nb q SS ->
  br_range_enc32le (map (den (wd nb) (fun i => nth i q 0)) es) = concat SS.
Proof.
  intros H Hnb [Lq Wq Ln Bs Hb]. apply andb_true_iff in H. destruct H as [L H]. apply Nat.eqb_eq in L. rewrite forallb_forall in H.
  assert (Hw : 0 <= wd nb <= wd nb) by (unfold wd; lia).
  assert (He : forall i, 0 <= (fun i => nth i q 0) i < 2 ^ wd nb).
  { intros i. cbv beta. destruct (Nat.lt_ge_cases i (length q)) as [Hi|Hi].
    - apply (Forall_nth' (fun x => 0 <= x < 2 ^ wd nb)); auto.
    - rewrite nth_overflow by lia. split; [lia|]. apply Z.pow_pos_nonneg; lia. }
  apply (nth_ext _ _ 0 0).
  - rewrite enc_length, map_length, concat_blocks_length by auto. lia.
  - intros i Hi. rewrite enc_length, map_length in Hi. destruct (index16 nb i) as (k & r & -> & Hk & Hr); [lia|].
    rewrite enc_nth by (rewrite ?map_length; lia). rewrite (nth_map _ es k _ (X 0)) by lia.
    assert (M : (k mod 4 < 4)%nat) by (apply Nat.mod_upper_bound; lia).
    assert (D : (k / 4 < nb)%nat) by (apply Nat.div_lt_upper_bound; lia).
    pose proof (Nat.div_mod k 4 ltac:(lia)) as E.
    replace (4 * k + r)%nat with (16 * (k / 4) + (4 * (k mod 4) + r))%nat by lia.
    rewrite concat_nth by (auto; lia).
    apply byte_ext; [apply u8_byte|apply block_byte, block_nth; auto; lia|].
    intros b Hb'. rewrite testbit_u8_shiftr by auto.
    assert (Hi' : In k (seq 0 (4 * nb))) by (apply in_seq; lia). specialize (H k Hi').
    rewrite (chk_bit (wd nb) (wd nb) _ Hw He _ _ H _ b (pos nb (k / 4) (k mod 4) r))
      by (apply in_map_iff; exists (r, b); split; [reflexivity|now apply in_pairs]).
    apply Hb; auto.
Qed.
Lemma u32_land x : u32 x = Z.land x 0xFFFFFFFF.
Proof. unfold u32. change 0xFFFFFFFF with (Z.ones 32). now rewrite Z.land_ones by lia. Qed.
Definition gather_ex (x : ex) : ex :=
  let x := An (Or x (Sr x 8)) 0x0000FFFF0000FFFF in Or (An x 0xFFFFFFFF) (An (Sr x 16) 0xFFFFFFFF).
Definition ilout_ex (q0 q1 : ex) : list ex :=
  let m := 0x00FF00FF00FF00FF in
  [gather_ex (An q0 m); gather_ex (An q1 m); gather_ex (An (Sr q0 8) m); gather_ex (An (Sr q1 8) m)].
Lemma gather_den w env x : gather (den w env x) = den w env (gather_ex x).
Proof. unfold gather. cbv zeta. rewrite !u32_land. reflexivity. Qed.
Lemma ilout_den w env a b : br_aes_ct64_interleave_out (den w env a) (den w env b) = map (den w env) (ilout_ex a b).
Proof. unfold ilout_ex, br_aes_ct64_interleave_out. cbv zeta. cbn [map]. rewrite <- !gather_den. reflexivity. Qed.
Definition vars8 : list ex := [X 0; X 1; X 2; X 3; X 4; X 5; X 6; X 7].
Definition store512_ex : list ex :=
  match ortho64_ex vars8 with
  | [q0; q1; q2; q3; q4; q5; q6; q7] => ilout_ex q0 q4 ++ ilout_ex q1 q5 ++ ilout_ex q2 q6 ++ ilout_ex q3 q7
  | _ => []
  end.
Lemma vars8_den w q : length q = 8%nat -> q = map (den w (fun i => nth i q 0)) vars8.
Proof.
  intros L. destruct q as [|q0 [|q1 [|q2 [|q3 [|q4 [|q5 [|q6 [|q7 [|? ?]]]]]]]]]; try discriminate L. reflexivity.
Qed.
Lemma store512_sliced q SS : sliced 4 q SS -> store512 q = Some (concat SS).
Proof.
  intros H. rewrite <- (store_ok 4 store512_ex q SS); [|vm_compute; reflexivity|lia|exact H].
  unfold store512. rewrite (vars8_den 64 q) at 1 by apply H. unfold br_aes_ct64_ortho.
  rewrite ortho_den by reflexivity. cbn [bind]. fold ortho64_ex.
  change (wd 4) with 64. unfold store512_ex. set (env := fun i => nth i q 0).
  generalize (eq_refl (ortho64_ex vars8)). generalize (ortho64_ex vars8) at 2 3 4. intros o E.
  assert (L : length o = 8%nat) by (rewrite <- E; reflexivity). clear E.
  destruct o as [|q0 [|q1 [|q2 [|q3 [|q4 [|q5 [|q6 [|q7 [|? ?]]]]]]]]]; try discriminate L.
  cbn [map]. rewrite !map_app, <- !ilout_den. reflexivity.
Qed.
Definition store256_ex : list ex :=
  match ortho32_ex vars8 with
  | [q0; q1; q2; q3; q4; q5; q6; q7] => [q0; q2; q4; q6; q1; q3; q5; q7]
  | _ => []
  end.
Lemma store256_sliced q SS : sliced 2 q SS -> store256 q = Some (concat SS).
Proof.
  intros H. rewrite <- (store_ok 2 store256_ex q SS); [|vm_compute; reflexivity|lia|exact H].
  unfold store256. rewrite (vars8_den 32 q) at 1 by apply H. unfold br_aes_ct_ortho.
  rewrite ortho_den by reflexivity. cbn [bind]. fold ortho32_ex.
  change (wd 2) with 32. unfold store256_ex. set (env := fun i => nth i q 0).
  generalize (eq_refl (ortho32_ex vars8)). generalize (ortho32_ex vars8) at 2 3 4. intros o E.
  assert (L : length o = 8%nat) by (rewrite <- E; reflexivity). clear E.
  destruct o as [|q0 [|q1 [|q2 [|q3 [|q4 [|q5 [|q6 [|q7 [|? ?]]]]]]]]]; try discriminate L.
  reflexivity.
Qed.

(** ** The permutations *)
Lemma iterM_sim {S T : Type} (R : S -> T -> Prop) f (g : T -> nat -> T) n : forall i s t, R s t ->
  (forall j s t, (i <= j < i + n)%nat -> R s t -> exists s', f j s = Some s' /\ R s' (g t j)) ->
  exists s', iterM n i f s = Some s' /\ R s' (fold_left g (seq i n) t).
Proof.
  induction n as [|n IH]; intros i s t H Hf; [exists s; split; [reflexivity|exact H]|].
  cbn [iterM seq fold_left]. destruct (Hf i s t ltac:(lia) H) as (s1 & E1 & H1). rewrite E1. cbn [bind].
  apply (IH (Datatypes.S i)); auto. intros j s2 t2 Hj. apply Hf. lia.
Qed.
Lemma rounds_sliced nb (body : nat -> list Z -> option (list Z)) mixw mix RC q SS :
  (forall l q SS, (l < 10)%nat -> sliced nb q SS -> exists q', body l q = Some q' /\ sliced nb q' (aes_layer SS (keys nb RC l))) ->
  (forall q SS, sliced nb q SS -> sliced nb (map mixw q) (mix SS)) ->
  sliced nb q SS ->
  exists q', iterM 5 0 (fun i q => q <- iterM 2 0 (fun j q => body (2 * i + j)%nat q) q ;; Some (map mixw q)) q = Some q'
    /\ sliced nb q' (hperm nb mix RC SS).
Proof.
  intros Hl Hm HS. unfold hperm. apply (iterM_sim (sliced nb)); auto.
  intros i q1 S1 Hi H1.
  destruct (iterM_sim (sliced nb) (fun j q => body (2 * i + j)%nat q)
     (fun SS j => aes_layer SS (keys nb RC (2 * i + j))) 2 0 q1 S1 H1) as (q2 & E2 & H2).
  - intros j q3 S3 Hj H3. apply Hl; [lia|exact H3].
  - rewrite E2. cbn [bind]. eexists. split; [reflexivity|]. unfold hround.
    cbn [seq fold_left] in H2. rewrite Nat.add_0_r in H2. now apply Hm.
Qed.
Theorem haraka512_perm_sliced rc RC inp : rc_ok 4 rc RC -> (64 <= length inp)%nat ->
  exists SS, haraka512_perm rc inp = Some (concat SS) /\ concat SS = pi512 RC (norm (firstn 64 inp)) /\
    length SS = 4%nat /\ Forall block SS.
Proof.
  intros Hrc L. unfold haraka512_perm.
  destruct (load512_sliced inp 0 ltac:(lia)) as (q & E & H). rewrite E. cbn [bind]. cbn [skipn] in H.
  destruct (rounds_sliced 4 (fun l q => q <- bitslice_Sbox 64 q ;; let q := map shift_row64 q in q <- mix_columns q ;; k <- get rc l ;; add_round_key q k)
     mix_state512 mix512 RC q _ (fun l q SS => layer512 rc RC l q SS Hrc) mix512_sliced H) as (q' & E' & H').
  cbv beta zeta in E'. cbv beta zeta. rewrite E'. cbn [bind]. rewrite (store512_sliced _ _ H'). exists (hperm 4 mix512 RC (blocks 4 (norm (firstn 64 inp)))). split; [reflexivity|]. split; [unfold pi512; reflexivity|].
  split; [exact (sl_n _ _ _ H')|exact (sl_b _ _ _ H')].
Qed.
Theorem haraka512_perm_ok rc RC inp : rc_ok 4 rc RC -> length inp = 64%nat ->
  haraka512_perm rc inp = Some (pi512 RC (norm inp)).
Proof.
  intros Hrc L. destruct (haraka512_perm_sliced rc RC inp Hrc ltac:(lia)) as (SS & E & E2 & _). rewrite E, E2.
  now rewrite firstn_all2 by lia.
Qed.
Theorem haraka256_perm_sliced rc RC inp : rc_ok 2 rc RC -> (32 <= length inp)%nat ->
  exists SS, haraka256_perm rc inp = Some (concat SS) /\ concat SS = pi256 RC (norm (firstn 32 inp)) /\
    length SS = 2%nat /\ Forall block SS.
Proof.
  intros Hrc L. unfold haraka256_perm.
  destruct (load256_sliced inp 0 ltac:(lia)) as (q & E & H). rewrite E. cbn [bind]. cbn [skipn] in H.
  destruct (rounds_sliced 2 (fun l q => q <- bitslice_Sbox 32 q ;; let q := map shift_row32 q in q <- mix_columns32 q ;; k <- get rc l ;; add_round_key q k)
     mix_state256 mix256 RC q _ (fun l q SS => layer256 rc RC l q SS Hrc) mix256_sliced H) as (q' & E' & H').
  cbv beta zeta in E'. cbv beta zeta. rewrite E'. cbn [bind]. rewrite (store256_sliced _ _ H'). exists (hperm 2 mix256 RC (blocks 2 (norm (firstn 32 inp)))). split; [reflexivity|]. split; [unfold pi256; reflexivity|].
  split; [exact (sl_n _ _ _ H')|exact (sl_b _ _ _ H')].
Qed.
Theorem haraka256_perm_ok rc RC inp : rc_ok 2 rc RC -> length inp = 32%nat ->
  haraka256_perm rc inp = Some (pi256 RC (norm inp)).
Proof.
  intros Hrc L. destruct (haraka256_perm_sliced rc RC inp Hrc ltac:(lia)) as (SS & E & E2 & _). rewrite E, E2.
  now rewrite firstn_all2 by lia.
Qed.
