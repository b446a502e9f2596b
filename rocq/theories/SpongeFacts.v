(** The sponge of KeccakSpec.v, byte by byte: the form in which incremental code computes it. *)
From Verif Require Import Base BaseFacts KeccakSpec.

Lemma xor_bytes_length a : forall b, length (xor_bytes a b) = length a.
Proof. induction a as [|x a IH]; intros [|y b]; cbn [xor_bytes length]; auto. Qed.
Lemma xor_bytes_nil a : xor_bytes a [] = a.
Proof. now destruct a. Qed.
Lemma xor_bytes_app_l a1 : forall a2 b, (length b <= length a1)%nat ->
  xor_bytes (a1 ++ a2) b = xor_bytes a1 b ++ a2.
Proof.
  induction a1 as [|x a1 IH]; intros a2 [|y b] H; cbn [xor_bytes app length] in *; try lia.
  - now rewrite !xor_bytes_nil.
  - reflexivity.
  - f_equal. apply IH. lia.
Qed.
Lemma xor_bytes_zeros a : forall k, xor_bytes a (repeat 0 k) = a.
Proof.
  induction a as [|x a IH]; intros [|k]; cbn [repeat xor_bytes]; try reflexivity.
  rewrite Z.lxor_0_r. f_equal. apply IH.
Qed.
Lemma nth_xor_bytes a : forall b i, (i < length a)%nat ->
  nth i (xor_bytes a b) 0 = Z.lxor (nth i a 0) (nth i b 0).
Proof.
  induction a as [|x a IH]; intros [|y b] i Hi; cbn [length] in Hi; try lia.
  - cbn [xor_bytes]. destruct i; cbn [nth]; now rewrite Z.lxor_0_r.
  - cbn [xor_bytes]. destruct i; cbn [nth]; [reflexivity|]. apply IH. lia.
Qed.

(** xor [l] into [st] from position [pos] on. *)
Definition xor_at (st : bytes) (pos : nat) (l : bytes) : bytes :=
  firstn pos st ++ xor_bytes (skipn pos st) l.
Lemma xor_at_length st pos l : length (xor_at st pos l) = length st.
Proof.
  unfold xor_at. rewrite app_length, xor_bytes_length, <- app_length. now rewrite firstn_skipn.
Qed.
Lemma xor_at_0 st l : xor_at st 0 l = xor_bytes st l.
Proof. reflexivity. Qed.
Lemma xor_at_nil st pos : xor_at st pos [] = st.
Proof. unfold xor_at. rewrite xor_bytes_nil. apply firstn_skipn. Qed.
Lemma nth_xor_at st pos l i : (i < length st)%nat ->
  nth i (xor_at st pos l) 0
  = Z.lxor (nth i st 0) (if (pos <=? i)%nat then nth (i - pos) l 0 else 0).
Proof.
  intros Hi. unfold xor_at. destruct (Nat.leb_spec pos i) as [H|H].
  - rewrite app_nth2 by (rewrite firstn_length; lia).
    rewrite firstn_length, Nat.min_l by lia.
    rewrite nth_xor_bytes by (rewrite skipn_length; lia). f_equal.
    rewrite <- (firstn_skipn pos st) at 2. rewrite app_nth2 by (rewrite firstn_length; lia).
    now rewrite firstn_length, Nat.min_l by lia.
  - rewrite app_nth1 by (rewrite firstn_length; lia). rewrite Z.lxor_0_r.
    rewrite <- (firstn_skipn pos st) at 2. now rewrite app_nth1 by (rewrite firstn_length; lia).
Qed.
Lemma xor_at_eq st pos l st' : length st' = length st ->
  (forall i, (i < length st)%nat ->
     nth i st' 0 = Z.lxor (nth i st 0) (if (pos <=? i)%nat then nth (i - pos) l 0 else 0)) ->
  st' = xor_at st pos l.
Proof.
  intros Hl H. apply nth_ext with (d := 0) (d' := 0).
  - now rewrite xor_at_length.
  - intros i Hi. rewrite nth_xor_at by lia. apply H. lia.
Qed.
Lemma xor_at_app st pos a b : xor_at st pos (a ++ b) = xor_at (xor_at st pos a) (pos + length a) b.
Proof.
  symmetry. apply xor_at_eq; [now rewrite !xor_at_length|].
  intros i Hi. rewrite nth_xor_at by (rewrite xor_at_length; lia). rewrite nth_xor_at by lia.
  rewrite Z.lxor_assoc. f_equal.
  destruct (Nat.leb_spec pos i); destruct (Nat.leb_spec (pos + length a) i); try lia.
  - rewrite (nth_overflow a), Z.lxor_0_l by lia. rewrite app_nth2 by lia. f_equal. lia.
  - rewrite Z.lxor_0_r. now rewrite app_nth1 by lia.
  - reflexivity.
Qed.
Lemma xor_at_snoc st pos l b : xor_at st pos (l ++ [b]) = xor_at (xor_at st pos l) (pos + length l) [b].
Proof. apply xor_at_app. Qed.
Lemma xor_at_zeros st pos k : xor_at st pos (repeat 0 k) = st.
Proof. unfold xor_at. rewrite xor_bytes_zeros. apply firstn_skipn. Qed.

Section Sponge.
Variable perm : bytes -> bytes.
Variable width r : nat.
Hypothesis Hr : (0 < r <= width)%nat.
Hypothesis Hperm : forall s, length s = width -> length (perm s) = width.

(** ** Absorbing one byte *)
Definition astep (sp : bytes * nat) (b : Z) : bytes * nat :=
  let '(st, pos) := sp in
  if (S pos =? r)%nat then (perm (xor_at st pos [b]), O) else (xor_at st pos [b], S pos).
Definition afold (m : bytes) (sp : bytes * nat) : bytes * nat := fold_left astep m sp.
Definition ainit : bytes * nat := (repeat 0 width, O).

Lemma afold_app a b sp : afold (a ++ b) sp = afold b (afold a sp).
Proof. apply fold_left_app. Qed.
Lemma afold_short l : forall st pos, (pos + length l < r)%nat ->
  afold l (st, pos) = (xor_at st pos l, (pos + length l)%nat).
Proof.
  induction l as [|b l IH]; intros st pos H; cbn [afold fold_left length] in *.
  - now rewrite xor_at_nil, Nat.add_0_r.
  - unfold astep at 2. destruct (Nat.eqb_spec (S pos) r) as [|_]; [lia|].
    fold (afold l (xor_at st pos [b], S pos)). rewrite IH by lia.
    change (b :: l) with ([b] ++ l). rewrite xor_at_app. cbn [length]. f_equal; [f_equal; lia|lia].
Qed.
Lemma afold_block l : forall st pos, (pos < r)%nat -> (pos + length l = r)%nat ->
  afold l (st, pos) = (perm (xor_at st pos l), O).
Proof.
  intros st pos Hp H.
  destruct (exists_last (l := l)) as (l' & b & ->). { intros ->. cbn in H. lia. }
  rewrite app_length in H. cbn [length] in H.
  rewrite afold_app, afold_short by lia. cbn [afold fold_left astep].
  destruct (Nat.eqb_spec (S (pos + length l')) r) as [_|]; [|lia]. now rewrite xor_at_app.
Qed.
Lemma afold_pos l : forall st pos, (pos < r)%nat -> length st = width ->
  length (fst (afold l (st, pos))) = width /\ snd (afold l (st, pos)) = ((pos + length l) mod r)%nat.
Proof.
  induction l as [|b l IH]; intros st pos Hp Hst; cbn [afold fold_left length].
  - cbn [fst snd]. rewrite Nat.add_0_r, Nat.mod_small by lia. auto.
  - unfold astep at 2 4. destruct (Nat.eqb_spec (S pos) r) as [E|E].
    + destruct (IH (perm (xor_at st pos [b])) O) as [H1 H2]; [lia|apply Hperm; now rewrite xor_at_length|].
      split; [exact H1|]. fold (afold l (perm (xor_at st pos [b]), O)). rewrite H2.
      replace (pos + S (length l))%nat with (length l + 1 * r)%nat by lia. now rewrite Nat.mod_add by lia.
    + destruct (IH (xor_at st pos [b]) (S pos)) as [H1 H2]; [lia|now rewrite xor_at_length|].
      split; [exact H1|]. fold (afold l (xor_at st pos [b], S pos)). rewrite H2. f_equal. lia.
Qed.
Lemma afold_blocks k : forall x st, length x = (k * r)%nat ->
  afold x (st, O) = (fold_left (fun s b => perm (xor_bytes s b)) (cut r k x) st, O).
Proof.
  induction k as [|k IH]; intros x st Hx.
  - destruct x; [reflexivity|cbn in Hx; lia].
  - rewrite <- (firstn_skipn r x) at 1. rewrite afold_app.
    rewrite afold_block by (rewrite ?firstn_length; lia).
    rewrite xor_at_0, IH by (rewrite skipn_length; lia). reflexivity.
Qed.

(** ** Padding *)
Definition finish (p : Z) (sp : bytes * nat) : bytes :=
  xor_at (xor_at (fst sp) (snd sp) [p]) (r - 1) [128].

Lemma pad_length p n : length (pad r p n) = (r - n mod r)%nat.
Proof.
  assert (n mod r < r)%nat by (apply Nat.mod_upper_bound; lia).
  unfold pad. destruct (Nat.eqb_spec (r - n mod r) 1); cbn [length].
  - lia.
  - rewrite app_length, repeat_length. cbn [length]. lia.
Qed.
Lemma lxor_128 p : 0 <= p < 128 -> Z.lxor p 128 = p + 128.
Proof.
  intros Hp. symmetry. apply Z.add_nocarry_lxor. apply Z.bits_inj'. intros i Hi.
  rewrite Z.land_spec, Z.bits_0. change 128 with (2 ^ 7). rewrite Z.pow2_bits_eqb by lia.
  destruct (Z.eqb_spec 7 i) as [<-|]; [|apply andb_false_r].
  rewrite andb_true_r. destruct (Z.eq_dec p 0) as [->|]; [apply Z.testbit_0_l|].
  apply Z.bits_above_log2; [lia|]. apply Z.log2_lt_pow2; lia.
Qed.
Lemma afold_pad p st pos n : 0 <= p < 128 -> pos = (n mod r)%nat -> length st = width ->
  afold (pad r p n) (st, pos) = (perm (finish p (st, pos)), O).
Proof.
  intros Hp Hpos Hst. assert (n mod r < r)%nat by (apply Nat.mod_upper_bound; lia).
  rewrite afold_block by (rewrite ?pad_length; lia). do 2 f_equal.
  unfold finish, pad. cbn [fst snd]. rewrite <- Hpos.
  destruct (Nat.eqb_spec (r - pos) 1) as [E|E].
  - replace (r - 1)%nat with pos by lia. symmetry. apply xor_at_eq; [now rewrite !xor_at_length|].
    intros i Hi. rewrite !nth_xor_at by (rewrite ?xor_at_length; lia). rewrite Z.lxor_assoc. f_equal.
    destruct (pos <=? i)%nat; [|reflexivity].
    destruct (i - pos)%nat as [|[|?]]; cbn [nth]; [now apply lxor_128|reflexivity|reflexivity].
  - change (p :: repeat 0 (r - pos - 2) ++ [128]) with ([p] ++ repeat 0 (r - pos - 2) ++ [128]).
    rewrite !xor_at_app, xor_at_zeros. rewrite repeat_length. cbn [length]. f_equal. lia.
Qed.

Theorem sponge_fold p m n : 0 <= p < 128 ->
  sponge perm width r p m n = squeeze perm r (perm (finish p (afold m ainit))) n.
Proof.
  intros Hp. unfold sponge. f_equal. unfold absorb.
  set (x := m ++ pad r p (length m)).
  assert (Hx : length x = (length x / r * r)%nat).
  { unfold x. rewrite app_length, pad_length.
    assert (length m mod r < r)%nat by (apply Nat.mod_upper_bound; lia).
    pose proof (Nat.div_mod (length m) r).
    replace (length m + (r - length m mod r))%nat with ((length m / r + 1) * r)%nat by lia.
    rewrite Nat.div_mul by lia. reflexivity. }
  pose proof (afold_blocks _ x (repeat 0 width) Hx) as E.
  assert (Hi : length (repeat 0 width) = width) by apply repeat_length.
  unfold x in E at 1. rewrite afold_app in E. unfold ainit.
  destruct (afold_pos m (repeat 0 width) O ltac:(lia) Hi) as [L S].
  destruct (afold m (repeat 0 width, O)) as [st pos]. cbn [fst snd] in L, S.
  rewrite afold_pad in E by auto. now inversion E.
Qed.

(** ** Squeezing *)
Lemma iterate_snoc k : forall s, iterate perm (S k) s = perm (iterate perm k s).
Proof. induction k as [|k IH]; intros s; [reflexivity|]. cbn [iterate] in *. apply IH. Qed.
Lemma iterate_length k : forall s, length s = width -> length (iterate perm k s) = width.
Proof. induction k as [|k IH]; intros s Hs; cbn [iterate]; auto. Qed.

(** Bytes n .. n+len-1 of the output. *)
Definition out_from (S0 : bytes) (n len : nat) : bytes :=
  map (fun i => nth (i mod r) (iterate perm (i / r) S0) 0) (seq n len).
Lemma out_from_squeeze S0 n : squeeze perm r S0 n = out_from S0 0 n.
Proof. reflexivity. Qed.
Lemma out_from_length S0 n len : length (out_from S0 n len) = len.
Proof. unfold out_from. now rewrite map_length, seq_length. Qed.
Lemma out_from_app S0 n a b : out_from S0 n (a + b) = out_from S0 n a ++ out_from S0 (n + a) b.
Proof. unfold out_from. now rewrite seq_app, map_app. Qed.
(** Bytes inside one block. *)
Lemma out_from_block S0 k n len : length S0 = width ->
  (k * r <= n)%nat -> (n + len <= (k + 1) * r)%nat ->
  out_from S0 n len = firstn len (skipn (n - k * r) (iterate perm k S0)).
Proof.
  intros HS H1 H2.
  apply nth_ext with (d := 0) (d' := 0).
  { rewrite out_from_length, firstn_length, skipn_length, iterate_length by auto. lia. }
  rewrite out_from_length. intros i Hi. unfold out_from.
  match goal with |- nth i (map ?f _) 0 = _ =>
    rewrite (nth_indep _ 0 (f O)) by (rewrite map_length, seq_length; lia);
    rewrite (map_nth f), seq_nth by lia end.
  assert (Ed : ((n + i) / r = k)%nat).
  { symmetry. apply (Nat.div_unique _ _ _ (n + i - k * r)); lia. }
  assert (Em : ((n + i) mod r = n + i - k * r)%nat).
  { symmetry. apply (Nat.mod_unique _ _ k); lia. }
  rewrite Ed, Em. clear Ed Em.
  assert (Hf : forall (l : bytes) a b c, (c < b)%nat -> nth c (firstn b (skipn a l)) 0 = nth (a + c) l 0).
  { clear. intros l a b c H. revert l b c H. induction a as [|a IH]; intros l b c H.
    - cbn [skipn Nat.add]. revert b c H. induction l as [|x l IHl]; intros b c H.
      + rewrite firstn_nil. now destruct c.
      + destruct b; [lia|]. destruct c; [reflexivity|]. cbn [firstn nth]. apply IHl. lia.
    - destruct l as [|x l]; cbn [skipn Nat.add nth].
      + rewrite firstn_nil. now destruct c.
      + now apply IH. }
  rewrite Hf by lia. f_equal. lia.
Qed.
End Sponge.
