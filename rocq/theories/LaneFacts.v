(** Facts about lists of lanes, and the multi-lane calls on encoded addresses. *)
From Verif Require Import Base BaseFacts Params Address Suite Spec AdrsEnc AddressProofs Refine
  TreeProofs Lanes.

Lemma mapM_ok {A B} (f : A -> option B) (g : A -> B) l :
  (forall x, In x l -> f x = Some (g x)) -> mapM f l = Some (map g l).
Proof.
  induction l as [|x l IH]; intros Hx; cbn [mapM map]; [reflexivity|].
  rewrite Hx by now left. cbn [bind]. rewrite IH by (intros; apply Hx; now right). reflexivity.
Qed.

Lemma mapM_map {A B C} (f : B -> option C) (h : A -> B) l :
  mapM f (map h l) = mapM (fun x => f (h x)) l.
Proof. induction l as [|x l IH]; cbn [mapM map]; [reflexivity|]. now rewrite IH. Qed.

Lemma mapMi_ok {A B} (f : nat -> A -> option B) (h : nat -> A) (g : nat -> B) n : forall s,
  (forall j, (s <= j < s + n)%nat -> f j (h j) = Some (g j)) ->
  mapMi f s (map h (seq s n)) = Some (map g (seq s n)).
Proof.
  induction n as [|n IH]; intros s Hx; cbn [mapMi map seq]; [reflexivity|].
  rewrite Hx by lia. cbn [bind]. rewrite IH by (intros; apply Hx; lia). reflexivity.
Qed.

Lemma mapM2_ok {A B C D} (f : B -> C -> option D) (h : A -> B) (h' : A -> C) (g : A -> D) l :
  (forall x, In x l -> f (h x) (h' x) = Some (g x)) ->
  mapM2 f (map h l) (map h' l) = Some (map g l).
Proof.
  induction l as [|x l IH]; intros Hx; cbn [mapM2 map]; [reflexivity|].
  rewrite Hx by now left. cbn [bind]. rewrite IH by (intros; apply Hx; now right). reflexivity.
Qed.

(** Successive updates of a list of chunks. *)
Definition updl {A} (cs : list bytes) (pos : A -> nat) (f : A -> bytes) (l : list A) : list bytes :=
  fold_left (fun cs j => upd (pos j) (f j) cs) l cs.

Lemma updl_length {A} (pos : A -> nat) f l : forall cs, length (updl cs pos f l) = length cs.
Proof.
  unfold updl. induction l as [|j l IH]; intros cs; cbn [fold_left]; [reflexivity|].
  now rewrite IH, upd_length.
Qed.

Lemma updl_chunks {A} n (pos : A -> nat) f l : forall cs,
  chunks_of n cs -> (forall j, In j l -> length (f j) = n) -> chunks_of n (updl cs pos f l).
Proof.
  unfold updl. induction l as [|j l IH]; intros cs Hc Hf; cbn [fold_left]; [auto|].
  apply IH; [|intros; apply Hf; now right]. apply chunks_upd; auto. apply Hf; now left.
Qed.

Lemma updl_other {A} (pos : A -> nat) f l p : forall cs,
  (forall j, In j l -> pos j <> p) -> nth_error (updl cs pos f l) p = nth_error cs p.
Proof.
  unfold updl. induction l as [|j l IH]; intros cs Hp; cbn [fold_left]; [auto|].
  rewrite IH by (intros; apply Hp; now right). apply nth_error_upd_other.
  intros E. apply (Hp j); [now left|congruence].
Qed.

Lemma updl_same {A} (pos : A -> nat) f l j : forall cs,
  NoDup l -> (forall a b, In a l -> In b l -> pos a = pos b -> a = b) ->
  (forall a, In a l -> (pos a < length cs)%nat) -> In j l ->
  nth_error (updl cs pos f l) (pos j) = Some (f j).
Proof.
  unfold updl. induction l as [|x l IH]; intros cs Hnd Hinj Hlt Hj; [contradiction|].
  cbn [fold_left]. inversion Hnd as [|? ? Hx Hnd']; subst. destruct Hj as [->|Hj].
  - change (nth_error (updl (upd (pos j) (f j) cs) pos f l) (pos j) = Some (f j)).
    rewrite updl_other.
    + apply nth_error_upd_same. apply Hlt. now left.
    + intros a Ha E. apply Hx. rewrite <- (Hinj a j); [auto|now right|now left|auto].
  - apply IH; auto.
    + intros; apply Hinj; auto; now right.
    + intros a Ha. rewrite upd_length. apply Hlt. now right.
Qed.

Lemma wrx_updl {A} n (pos : A -> nat) (f : A -> bytes) l : forall cs,
  chunks_of n cs -> (forall j, In j l -> (pos j < length cs)%nat /\ length (f j) = n) ->
  wrx (concat cs) (map (fun j => pos j * n)%nat l) (map f l) = Some (concat (updl cs pos f l)).
Proof.
  induction l as [|j l IH]; intros cs Hc Hj; cbn [map wrx]; [reflexivity|].
  destruct (Hj j) as [H1 H2]; [now left|].
  rewrite wr_chunk by auto. cbn [bind]. rewrite IH.
  - reflexivity.
  - now apply chunks_upd.
  - intros a Ha. rewrite upd_length. apply Hj. now right.
Qed.

(** Writing every chunk. *)
Lemma wrx_all n (f : nat -> bytes) k cs :
  chunks_of n cs -> length cs = k -> (forall j, (j < k)%nat -> length (f j) = n) ->
  wrx (concat cs) (map (fun j => j * n)%nat (seq 0 k)) (map f (seq 0 k))
  = Some (concat (map f (seq 0 k))).
Proof.
  intros Hc Hl Hf. rewrite (wrx_updl n (fun j => j) f); auto.
  - f_equal. f_equal. apply nth_error_ext'.
    + now rewrite updl_length, map_length, seq_length.
    + rewrite updl_length, Hl. intros j Hj.
      rewrite (updl_same (fun j => j) f _ j); auto.
      * rewrite nth_error_map_seq by lia. reflexivity.
      * apply seq_NoDup.
      * intros a Ha. apply in_seq in Ha. lia.
      * apply in_seq. lia.
  - intros j Hj. apply in_seq in Hj. split; [lia|apply Hf; lia].
Qed.

Lemma chunks_map_seq n (f : nat -> bytes) k s :
  (forall j, (s <= j < s + k)%nat -> length (f j) = n) -> chunks_of n (map f (seq s k)).
Proof.
  intros Hf. apply Forall_forall. intros x Hx. apply in_map_iff in Hx.
  destruct Hx as (j & <- & Hj). apply in_seq in Hj. apply Hf. lia.
Qed.

Lemma NL_pos lw : (0 < NL lw)%nat.
Proof. unfold NL. pose proof (Nat.pow_nonzero 2 lw). lia. Qed.
Lemma NLz_NL lw : NLz lw = Z.of_nat (NL lw).
Proof. unfold NLz, NL. now rewrite Nat2Z.inj_pow. Qed.
Lemma NL_half lw : (1 <= lw)%nat -> (NL lw = 2 * (NL lw / 2))%nat.
Proof.
  intros H. unfold NL. destruct lw as [|m]; [lia|]. cbn [Nat.pow].
  rewrite (Nat.mul_comm 2), Nat.div_mul by lia. lia.
Qed.

Lemma lanes_length lw : length (lanes lw) = NL lw.
Proof. apply seq_length. Qed.
Lemma lanes_in lw j : In j (lanes lw) <-> (j < NL lw)%nat.
Proof. unfold lanes. rewrite in_seq. lia. Qed.

Lemma guard_map {A B} (p : B -> bool) (f : A -> B) l :
  (forall x, In x l -> p (f x) = true) -> forallb p (map f l) = true.
Proof.
  intros H. apply forallb_forall. intros y Hy. apply in_map_iff in Hy.
  destruct Hy as (x & <- & Hx). auto.
Qed.

Section Calls.
Variable P : params.
Variable HS : suite.
Variable LX : lane_fns HS.
Variable lw : nat.
Variable c : ctx (hs_st HS).
Notation N := (p_n P).
Notation L := (hs_layout HS).
Hypothesis Hn : (1 <= N)%nat.
Hypothesis Hok : suite_ok P HS.
Hypothesis Hlx : lanes_ok P HS LX lw.
Hypothesis Hc : ctx_ok P HS c.
Notation T := (codeT P HS c).
Notation lanes := (lanes lw).

Lemma thashx_enc k (f : nat -> bytes) (a : nat -> adrs) :
  (k <= 256)%nat -> (forall j, (j < NL lw)%nat -> length (f j) = (k * N)%nat) ->
  thashx P HS LX lw c k (map f lanes) (map (fun j => enc L (a j)) lanes)
  = Some (map (fun j => T (a j) (f j)) lanes).
Proof.
  intros Hk Hf. unfold thashx.
  rewrite !map_length, !lanes_length, Nat.eqb_refl. cbn [andb].
  rewrite guard_map by (intros; apply Nat.eqb_eq, Hf, lanes_in; auto).
  rewrite guard_map by (intros; apply Nat.eqb_eq, enc_length).
  cbn [guard bind].
  rewrite (lok_thash P HS LX lw Hlx);
    rewrite ?map_length, ?lanes_length; auto.
  - apply mapM2_ok. intros j Hj. apply lanes_in in Hj.
    pose proof (thash_enc P HS c Hn Hok Hc k (f j) (a j) (Hf j Hj)) as E.
    unfold thash in E. rewrite (Hf j Hj), enc_length, !Nat.eqb_refl in E. exact E.
  - apply Forall_forall. intros x Hx. apply in_map_iff in Hx. destruct Hx as (j & <- & Hj).
    apply Hf, lanes_in; auto.
  - apply Forall_forall. intros x Hx. apply in_map_iff in Hx. destruct Hx as (j & <- & Hj).
    apply enc_length.
Qed.

Lemma prf_addrx_enc (a : nat -> adrs) :
  prf_addrx HS LX lw c (map (fun j => enc L (a j)) lanes)
  = Some (map (fun j => codePRF HS c (a j)) lanes).
Proof.
  unfold prf_addrx. rewrite !map_length, !lanes_length, Nat.eqb_refl. cbn [andb].
  rewrite guard_map by (intros; apply Nat.eqb_eq, enc_length).
  cbn [guard bind].
  rewrite (lok_prf P HS LX lw Hlx); rewrite ?map_length, ?lanes_length; auto.
  - rewrite mapM_map. apply mapM_ok. intros j Hj.
    pose proof (prf_enc P HS c Hok Hc (a j)) as E.
    unfold prf_addr in E. rewrite enc_length in E. exact E.
  - apply Forall_forall. intros x Hx. apply in_map_iff in Hx. destruct Hx as (j & <- & Hj).
    apply enc_length.
Qed.
End Calls.
