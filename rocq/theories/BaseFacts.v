(** Facts about checked buffers. *)
From Verif Require Import Base.

Lemma bind_some {A B} (a : A) (f : A -> option B) : bind (Some a) f = f a.
Proof. reflexivity. Qed.

Lemma rd_ok b off len :
  (off + len <= length b)%nat -> rd b off len = Some (firstn len (skipn off b)).
Proof. intros H. unfold rd. apply Nat.leb_le in H. rewrite H. reflexivity. Qed.

Lemma wr_ok b off d :
  (off + length d <= length b)%nat ->
  wr b off d = Some (firstn off b ++ d ++ skipn (off + length d) b).
Proof. intros H. unfold wr. apply Nat.leb_le in H. rewrite H. reflexivity. Qed.

Lemma rd_length b off len d : rd b off len = Some d -> length d = len.
Proof.
  unfold rd. destruct (Nat.leb_spec (off + len) (length b)); intros E; inversion E; subst.
  rewrite firstn_length, skipn_length. lia.
Qed.

Lemma wr_length b off d b' : wr b off d = Some b' -> length b' = length b.
Proof.
  unfold wr. destruct (Nat.leb_spec (off + length d) (length b)); intros E; inversion E; subst.
  rewrite !app_length, firstn_length, skipn_length. lia.
Qed.

(** Region views: a buffer split as [pre ++ mid ++ post]. *)
Lemma rd_app pre mid post :
  rd (pre ++ mid ++ post) (length pre) (length mid) = Some mid.
Proof.
  rewrite rd_ok by (rewrite !app_length; lia).
  rewrite skipn_app, skipn_all, Nat.sub_diag. cbn [skipn app].
  rewrite firstn_app, firstn_all, Nat.sub_diag. cbn [firstn]. now rewrite app_nil_r.
Qed.

Lemma rd_app' pre mid post i n :
  i = length pre -> n = length mid -> rd (pre ++ mid ++ post) i n = Some mid.
Proof. intros -> ->. apply rd_app. Qed.

Lemma rd_app0 mid post n : n = length mid -> rd (mid ++ post) 0 n = Some mid.
Proof. intros ->. apply (rd_app [] mid post). Qed.

Lemma rd_app_r pre mid i n :
  i = length pre -> n = length mid -> rd (pre ++ mid) i n = Some mid.
Proof. intros -> ->. generalize (rd_app pre mid []). now rewrite app_nil_r. Qed.

Lemma rd_all b n : n = length b -> rd b 0 n = Some b.
Proof. intros ->. generalize (rd_app [] b []). cbn. now rewrite app_nil_r. Qed.

Lemma wr_app pre mid post d :
  length d = length mid ->
  wr (pre ++ mid ++ post) (length pre) d = Some (pre ++ d ++ post).
Proof.
  intros H. rewrite wr_ok by (rewrite !app_length; lia).
  f_equal. rewrite firstn_app, firstn_all, Nat.sub_diag. cbn [firstn]. rewrite app_nil_r.
  f_equal. f_equal.
  rewrite skipn_app. rewrite (skipn_all2 pre) by lia. cbn [app].
  replace (length pre + length d - length pre)%nat with (length mid) by lia.
  rewrite skipn_app, skipn_all, Nat.sub_diag. reflexivity.
Qed.

Lemma wr_app' pre mid post d i :
  i = length pre -> length d = length mid ->
  wr (pre ++ mid ++ post) i d = Some (pre ++ d ++ post).
Proof. intros ->. apply wr_app. Qed.

Lemma wr_app0 mid post d :
  length d = length mid -> wr (mid ++ post) 0 d = Some (d ++ post).
Proof. apply (wr_app [] mid post). Qed.

Lemma wr_app_r pre mid d i :
  i = length pre -> length d = length mid -> wr (pre ++ mid) i d = Some (pre ++ d).
Proof.
  intros -> H. generalize (wr_app pre mid [] d H). now rewrite !app_nil_r.
Qed.

Lemma wr_all b d : length d = length b -> wr b 0 d = Some d.
Proof. intros H. generalize (wr_app [] b [] d H). cbn. now rewrite !app_nil_r. Qed.

Lemma skipn_skipn {A} (x y : nat) (l : list A) : skipn x (skipn y l) = skipn (x + y) l.
Proof.
  revert l; induction y as [|y IH]; intros l.
  - now rewrite Nat.add_0_r.
  - rewrite Nat.add_succ_r. destruct l as [|a l]; cbn [skipn]; [now rewrite skipn_nil|apply IH].
Qed.

Lemma app_inj_len {A} (a b c d : list A) :
  length a = length b -> a ++ c = b ++ d -> a = b /\ c = d.
Proof.
  revert b; induction a as [|x a IH]; intros [|y b] Hl E; cbn in *; try lia; auto.
  inversion E; subst. destruct (IH b) as [-> ->]; auto.
Qed.

(** Splitting a list at a position. *)
Lemma split_at {A} (l : list A) (i n : nat) :
  (i + n <= length l)%nat ->
  exists pre mid post, l = pre ++ mid ++ post /\ length pre = i /\ length mid = n
    /\ pre = firstn i l /\ mid = firstn n (skipn i l) /\ post = skipn (i + n) l.
Proof.
  intros H. exists (firstn i l), (firstn n (skipn i l)), (skipn (i + n) l).
  repeat split; try (rewrite ?firstn_length, ?skipn_length; lia).
  rewrite <- (firstn_skipn i l) at 1. f_equal.
  rewrite <- (firstn_skipn n (skipn i l)) at 1. f_equal.
  rewrite skipn_skipn. f_equal. lia.
Qed.

(** Chunked buffers: [concat cs] where every chunk has length [n]. *)
Definition chunks_of (n : nat) (cs : list (list Z)) : Prop := Forall (fun c => length c = n) cs.

Lemma chunks_length n cs : chunks_of n cs -> length (concat cs) = (length cs * n)%nat.
Proof.
  induction 1 as [|c cs Hc _ IH]; cbn [concat length]; [reflexivity|].
  rewrite app_length, Hc, IH. lia.
Qed.

Lemma chunks_app n a b : chunks_of n (a ++ b) <-> chunks_of n a /\ chunks_of n b.
Proof. unfold chunks_of. apply Forall_app. Qed.

(** Replace element [i] of a list. *)
Fixpoint upd {A} (i : nat) (x : A) (l : list A) : list A :=
  match l, i with
  | [], _ => []
  | _ :: l', O => x :: l'
  | y :: l', S i' => y :: upd i' x l'
  end.

Lemma upd_length {A} i (x : A) l : length (upd i x l) = length l.
Proof. revert i; induction l as [|y l IH]; intros [|i]; cbn; auto. Qed.

Lemma nth_error_upd_same {A} i (x : A) l :
  (i < length l)%nat -> nth_error (upd i x l) i = Some x.
Proof. revert i; induction l as [|y l IH]; intros [|i] H; cbn in *; try lia; auto.
  apply IH; lia. Qed.

Lemma nth_error_upd_other {A} i j (x : A) l :
  i <> j -> nth_error (upd i x l) j = nth_error l j.
Proof. revert i j; induction l as [|y l IH]; intros [|i] [|j] H; cbn; auto; try lia. Qed.

Lemma upd_app_mid {A} (pre : list A) y post x :
  upd (length pre) x (pre ++ y :: post) = pre ++ x :: post.
Proof. induction pre as [|z pre IH]; cbn; [reflexivity|]. now rewrite IH. Qed.

Lemma chunks_upd n i c cs : chunks_of n cs -> length c = n -> chunks_of n (upd i c cs).
Proof.
  intros H Hc. revert i. induction H as [|d cs Hd H IH]; intros i.
  - destruct i; constructor.
  - destruct i; constructor; auto. apply IH.
Qed.

Lemma rd_chunk n cs i c :
  chunks_of n cs -> nth_error cs i = Some c -> rd (concat cs) (i * n) n = Some c.
Proof.
  intros H Hi. apply nth_error_split in Hi. destruct Hi as (pre & post & -> & Hl).
  apply chunks_app in H. destruct H as [Hpre H]. inversion H as [|? ? Hc Hpost]; subst.
  rewrite concat_app. cbn [concat].
  apply rd_app'; auto. rewrite (chunks_length _ _ Hpre). reflexivity.
Qed.

Lemma wr_chunk n cs i c :
  chunks_of n cs -> (i < length cs)%nat -> length c = n ->
  wr (concat cs) (i * n) c = Some (concat (upd i c cs)).
Proof.
  intros H Hi Hc. destruct (nth_error cs i) as [d|] eqn:E.
  2:{ apply nth_error_None in E. lia. }
  apply nth_error_split in E. destruct E as (pre & post & -> & Hl).
  apply chunks_app in H. destruct H as [Hpre H]. inversion H as [|? ? Hd Hpost]; subst.
  rewrite upd_app_mid, !concat_app. cbn [concat].
  rewrite (wr_app' _ d); auto; rewrite ?(chunks_length _ _ Hpre); auto.
Qed.

(** Any buffer of length [k*n] is a sequence of [k] chunks. *)
Fixpoint to_chunks (n k : nat) (b : bytes) : list bytes :=
  match k with O => [] | S k' => firstn n b :: to_chunks n k' (skipn n b) end.

Lemma to_chunks_ok n k b :
  length b = (k * n)%nat ->
  chunks_of n (to_chunks n k b) /\ length (to_chunks n k b) = k /\ concat (to_chunks n k b) = b.
Proof.
  revert b; induction k as [|k IH]; intros b H; cbn [to_chunks concat length].
  - destruct b; cbn in H; [|lia]. repeat split; constructor.
  - destruct (IH (skipn n b)) as (A & B & C). { rewrite skipn_length. lia. }
    repeat split.
    + constructor; auto. rewrite firstn_length. lia.
    + now rewrite B.
    + rewrite C. apply firstn_skipn.
Qed.

Lemma ex_chunks n k b :
  length b = (k * n)%nat ->
  exists cs, chunks_of n cs /\ length cs = k /\ concat cs = b.
Proof. intros H. exists (to_chunks n k b). now apply to_chunks_ok. Qed.

Lemma chunks_eq n (a b : list bytes) :
  chunks_of n a -> chunks_of n b -> length a = length b -> concat a = concat b -> a = b.
Proof.
  intros Ha. revert b. induction Ha as [|c a Hc Ha IH]; intros b Hb Hl E.
  - destruct b; [reflexivity|discriminate].
  - destruct b as [|d b]; [discriminate|]. inversion Hb; subst. cbn [concat] in E.
    assert (c = d /\ concat a = concat b) as [-> E'].
    { apply app_inj_len; congruence. }
    f_equal. apply IH; auto.
Qed.

Lemma nth_error_ext' {A} (l1 l2 : list A) :
  length l1 = length l2 ->
  (forall i, (i < length l1)%nat -> nth_error l1 i = nth_error l2 i) -> l1 = l2.
Proof.
  revert l2; induction l1 as [|x l1 IH]; intros [|y l2] Hl H; cbn in Hl; try lia; auto.
  f_equal.
  - specialize (H O ltac:(cbn; lia)). cbn in H. congruence.
  - apply IH; [lia|]. intros i Hi. apply (H (S i)). cbn; lia.
Qed.

Lemma nth_error_map_seq {A} (f : nat -> A) s k i :
  (i < k)%nat -> nth_error (map f (seq s k)) i = Some (f (s + i)%nat).
Proof.
  intros H. erewrite map_nth_error; [reflexivity|].
  rewrite (nth_error_nth' _ O) by (rewrite seq_length; lia).
  now rewrite seq_nth by lia.
Qed.

Lemma junk_length j n : length (junk_bytes j n) = n.
Proof. unfold junk_bytes. now rewrite map_length, seq_length. Qed.

(** Invariant rule for [iterM]. *)
Lemma iterM_inv {S : Type} (k i0 : nat) (f : nat -> S -> option S) (I : nat -> S -> Prop) s :
  I i0 s ->
  (forall i s, (i0 <= i < i0 + k)%nat -> I i s -> exists s', f i s = Some s' /\ I (Datatypes.S i) s') ->
  exists s', iterM k i0 f s = Some s' /\ I (i0 + k)%nat s'.
Proof.
  revert i0 s; induction k as [|k IH]; intros i0 s H0 Hs; cbn [iterM].
  - exists s. split; auto. now rewrite Nat.add_0_r.
  - destruct (Hs i0 s) as (s' & E & H'); [lia|auto|].
    rewrite E. cbn [bind].
    destruct (IH (Datatypes.S i0) s') as (s'' & E' & H''); auto.
    { intros i t Hi Ht. apply Hs; auto; lia. }
    exists s''. split; auto. now replace (i0 + Datatypes.S k)%nat with (Datatypes.S i0 + k)%nat by lia.
Qed.
