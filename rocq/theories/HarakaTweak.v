(** Haraka-S over the concrete constants, and the constants tweaked with the public seed. *)
From Verif Require Import Base BaseFacts KeccakSpec HarakaSpec Haraka SpongeFacts ShakeProofs HarakaProofs HarakaSponge CoreFacts2.

#[local] Opaque pi512 pi256 haraka512_perm haraka256_perm sponge.
Section Incremental.
Variable hp : bytes -> option bytes.
(** Any absorb calls, finalize, any squeeze calls.  The fuel exceeds the loop's iterations. *)
Fixpoint absorb_all (s : bytes) (chunks : list bytes) : option bytes :=
  match chunks with
  | [] => Some s
  | c :: cs => s <- haraka_S_inc_absorb hp (S (length c)) s c ;; absorb_all s cs
  end.
Fixpoint squeeze_all (s : bytes) (lens : list nat) : option (list bytes) :=
  match lens with
  | [] => Some []
  | n :: ns => ' (h, s) <- haraka_S_inc_squeeze hp n s ;; hs <- squeeze_all s ns ;; Some (h :: hs)
  end.
Definition haraka_S_inc (chunks : list bytes) (lens : list nat) : option (list bytes) :=
  s <- absorb_all haraka_S_inc_init chunks ;;
  s <- haraka_S_inc_finalize s ;;
  squeeze_all s lens.

Variable perm : bytes -> bytes.
Hypothesis Hperm : forall s, length s = 64%nat -> length (perm s) = 64%nat.
Hypothesis perm_st : forall st, st_ok st -> hp st = Some (perm st) /\ st_ok (perm st).
Lemma absorb_all_ok chunks : forall s sp, inc_ok s sp -> (snd sp < 32)%nat ->
  exists s', absorb_all s chunks = Some s'
    /\ inc_ok s' (afold perm 32 (norm (concat chunks)) sp)
    /\ (snd (afold perm 32 (norm (concat chunks)) sp) < 32)%nat.
Proof.
  induction chunks as [|c cs IH]; intros s sp G Hp; cbn [absorb_all concat].
  - exists s. auto.
  - destruct (inc_absorb_ok hp perm Hperm perm_st (S (length c)) c s sp) as (s1 & E1 & G1 & H1); auto.
    rewrite E1. cbn [bind]. destruct (IH s1 _ G1 H1) as (s2 & E2 & G2 & H2).
    exists s2. split; [exact E2|]. rewrite map_app, afold_app. auto.
Qed.
Lemma squeeze_all_ok F lens : st_ok F -> forall n s, sq_ok perm F n s ->
  squeeze_all s lens = Some (pieces (out_from perm 32 (perm F) n (total lens)) lens).
Proof.
  intros HF. induction lens as [|l ls IH]; intros n s G; cbn [squeeze_all]; [reflexivity|].
  destruct (inc_squeeze_ok hp perm Hperm perm_st F n s l HF G) as (s1 & E1 & G1).
  rewrite E1. cbn [bind]. rewrite (IH _ _ G1). cbn [bind pieces total fold_right]. fold (total ls).
  do 2 f_equal.
  - rewrite out_from_app, firstn_app, out_from_length, firstn_all2 by (rewrite out_from_length; lia).
    rewrite Nat.sub_diag. cbn [firstn]. now rewrite app_nil_r.
  - rewrite out_from_app, skipn_app, out_from_length, skipn_all2, Nat.sub_diag by (rewrite out_from_length; lia).
    reflexivity.
Qed.
Theorem gharaka_S_inc_ok chunks lens :
  haraka_S_inc chunks lens = Some (pieces (sponge perm 64 32 0x1F (norm (concat chunks)) (total lens)) lens).
Proof.
  unfold haraka_S_inc.
  destruct (absorb_all_ok chunks haraka_S_inc_init (ainit 64) inc_init_ok) as (s & E & G & H); [cbn; lia|].
  rewrite E. cbn [bind].
  destruct (inc_finalize_ok hp perm Hperm perm_st s _ G H) as (s1 & E1 & G1).
  rewrite E1. cbn [bind]. rewrite (gS_fold hp perm Hperm perm_st). apply squeeze_all_ok.
  - apply G1.
  - now apply (sq_start hp perm Hperm perm_st).
Qed.
End Incremental.

Section Concrete.
Variables rc RC : list (list Z).
Hypothesis Hrc : rc_ok 4 rc RC.
Lemma pi512_st st : st_ok st -> haraka512_perm rc st = Some (pi512 RC st) /\ st_ok (pi512 RC st).
Proof.
  intros [L B]. destruct (perm512 rc RC st Hrc L) as [E H].
  rewrite norm_bytes in E, H by auto. split; [exact E|]. split; [now apply pi512_length|apply H].
Qed.
Theorem haraka_S_norm n m : haraka_S (haraka512_perm rc) n m = Some (HarakaS RC (norm m) n).
Proof. exact (gharaka_S_ok (haraka512_perm rc) (pi512 RC) (pi512_length RC) pi512_st n m). Qed.
Theorem haraka_S_inc_norm chunks lens :
  haraka_S_inc (haraka512_perm rc) chunks lens = Some (pieces (HarakaS RC (norm (concat chunks)) (total lens)) lens).
Proof. exact (gharaka_S_inc_ok (haraka512_perm rc) (pi512 RC) (pi512_length RC) pi512_st chunks lens). Qed.
Theorem haraka_S_ok n m : all_bytes m -> haraka_S (haraka512_perm rc) n m = Some (HarakaS RC m n).
Proof. intros H. rewrite haraka_S_norm. now rewrite norm_bytes. Qed.
Lemma HarakaS_bytes m n : all_bytes m -> all_bytes (HarakaS RC m n).
Proof. exact (gS_bytes (haraka512_perm rc) (pi512 RC) (pi512_length RC) pi512_st m n). Qed.
Theorem haraka_S_inc_oneshot chunks lens :
  exists out, haraka_S (haraka512_perm rc) (total lens) (concat chunks) = Some out
    /\ haraka_S_inc (haraka512_perm rc) chunks lens = Some (pieces out lens).
Proof. eexists. split; [apply haraka_S_norm|apply haraka_S_inc_norm]. Qed.
End Concrete.
Lemma HarakaS_length RC m n : length (HarakaS RC m n) = n.
Proof.
  unfold HarakaS. rewrite (sponge_fold (pi512 RC) 64 32); [apply out_from_length|lia|exact (pi512_length RC)|lia].
Qed.

(** ** The constants *)
Lemma nth_first {A} (d : A) (l : list A) : forall i n, (i < n)%nat -> nth i (firstn n l) d = nth i l d.
Proof. induction l as [|x l IH]; intros [|i] [|n] H; cbn [firstn nth]; auto; try lia. apply IH. lia. Qed.
Lemma blocks_keys nb k l x : (nb * l + nb <= k)%nat ->
  keys nb (blocks k x) l = blocks nb (firstn (16 * nb) (skipn (16 * (nb * l)) x)).
Proof.
  intros H. unfold keys. apply (nth_ext _ _ [] []).
  - rewrite firstn_length, skipn_length, !blocks_length. lia.
  - intros i Hi. rewrite firstn_length, skipn_length, blocks_length in Hi.
    rewrite nth_first by lia. rewrite nth_skipn by lia. rewrite !blocks_nth by lia.
    rewrite skipn_firstn_comm, firstn_firstn, skipn_skipn. f_equal; [lia|f_equal; lia].
Qed.
Definition lists_eqb (a b : list (list Z)) : bool := if list_eq_dec (list_eq_dec Z.eq_dec) a b then true else false.
Lemma lists_eqb_eq a b : lists_eqb a b = true -> a = b.
Proof. unfold lists_eqb. destruct (list_eq_dec _ a b); [auto|discriminate]. Qed.
Lemma standard_check : forallb (fun l =>
  let x := concat (keys 4 standard_RC l) in
  (length x =? 64)%nat
  && (match load512 x 0, get haraka512_rc64 l with Some a, Some b => lists_eqb [a] [b] | _, _ => false end)
  && lists_eqb (blocks 4 (norm (firstn 64 (skipn 0 x)))) (keys 4 standard_RC l)) (seq 0 10) = true.
Proof. vm_compute. reflexivity. Qed.
Theorem standard_rc_ok : rc_ok 4 haraka512_rc64 standard_RC.
Proof.
  intros l Hl. pose proof standard_check as H. rewrite forallb_forall in H.
  specialize (H l ltac:(apply in_seq; lia)). cbv zeta in H. set (x := concat (keys 4 standard_RC l)) in *.
  apply andb_true_iff in H. destruct H as [H H3]. apply andb_true_iff in H. destruct H as [H1 H2].
  apply Nat.eqb_eq in H1. apply lists_eqb_eq in H3.
  destruct (load512_sliced x 0) as (q & E & Q); [lia|]. rewrite E in H2.
  destruct (get haraka512_rc64 l) as [k|]; [|discriminate]. apply lists_eqb_eq in H2.
  injection H2 as <-. exists q. split; [reflexivity|]. rewrite <- H3. exact Q.
Qed.
#[local] Opaque haraka512_rc64 standard_RC.
Theorem interleave_all_ok buf : all_bytes buf -> length buf = 640%nat ->
  exists rc512 rc256, interleave_all buf = Some (rc512, rc256)
    /\ rc_ok 4 rc512 (blocks 40 buf) /\ rc_ok 2 rc256 (blocks 40 buf).
Proof.
  intros B Lb. unfold interleave_all.
  unfold interleave_constant, interleave_constant32.
  match goal with |- context [iterM 10 0 ?f ?s] =>
    destruct (iterM_inv 10 0 f (fun i r => length (fst r) = i /\ length (snd r) = i
      /\ (forall l, (l < i)%nat -> load512 buf (64 * l) = get (fst r) l)
      /\ (forall l, (l < i)%nat -> load256 buf (32 * l) = get (snd r) l)) s) as (r & E & L1 & L2 & F1 & F2) end.
  - cbn. repeat split; intros; lia.
  - intros i [a b] Hi (L1 & L2 & F1 & F2). cbn [fst snd] in *.
    destruct (load256_sliced buf (32 * i)) as (q & E & _); [lia|]. rewrite E. cbn [bind].
    destruct (load512_sliced buf (64 * i)) as (q' & E' & _); [lia|]. rewrite E'. cbn [bind].
    eexists. split; [reflexivity|]. cbn [fst snd]. rewrite !app_length. cbn [length].
    split; [lia|]. split; [lia|].
    split; intros l Hl; (destruct (Nat.eq_dec l i) as [->|Hne]; [rewrite get_app_r by lia; congruence|]).
    + rewrite (get_app_l _ _ _ []) by lia. rewrite F1 by lia. unfold get. apply nth_error_nth'. lia.
    + rewrite (get_app_l _ _ _ []) by lia. rewrite F2 by lia. unfold get. apply nth_error_nth'. lia.
  - rewrite E. destruct r as [a b]. exists a, b. split; [reflexivity|]. cbn [fst snd] in *.
    assert (Hn : forall k o, norm (firstn k (skipn o buf)) = firstn k (skipn o buf))
      by (intros k o; apply norm_bytes; apply all_firstn; now apply Forall_skip).
    split; intros l Hl.
    + destruct (load512_sliced buf (64 * l)) as (q & Eq & Q); [lia|]. rewrite F1 in Eq by lia.
      exists q. split; [exact Eq|]. rewrite blocks_keys by lia. rewrite Hn in Q.
      replace (16 * (4 * l))%nat with (64 * l)%nat by lia. exact Q.
    + destruct (load256_sliced buf (32 * l)) as (q & Eq & Q); [lia|]. rewrite F2 in Eq by lia.
      exists q. split; [exact Eq|]. rewrite blocks_keys by lia. rewrite Hn in Q.
      replace (16 * (2 * l))%nat with (32 * l)%nat by lia. exact Q.
Qed.
Theorem tweak_constants_ok n seed : length seed = n ->
  exists rc512 rc256, tweak_constants n seed = Some (rc512, rc256)
    /\ rc_ok 4 rc512 (tweaked_RC (norm seed)) /\ rc_ok 2 rc256 (tweaked_RC (norm seed)).
Proof.
  intros L. unfold tweak_constants, tweaked_RC. rewrite rd_all by lia. cbn [bind].
  rewrite (haraka_S_norm _ _ standard_rc_ok). cbn [bind].
  apply interleave_all_ok; [|apply HarakaS_length].
  exact (HarakaS_bytes _ _ standard_rc_ok (norm seed) 640 (norm_all seed)).
Qed.

(** The bitsliced code over any 40 constants of 16 bytes. *)
Theorem bitsliced_ok buf : all_bytes buf -> length buf = 640%nat ->
  exists rc512 rc256, interleave_all buf = Some (rc512, rc256)
  /\ (forall x, all_bytes x -> length x = 64%nat -> haraka512_perm rc512 x = Some (pi512 (blocks 40 buf) x))
  /\ (forall x, all_bytes x -> length x = 64%nat -> haraka512 rc512 x = Some (Haraka512 (blocks 40 buf) x))
  /\ (forall x, all_bytes x -> length x = 32%nat -> haraka256 rc256 x = Some (Haraka256 (blocks 40 buf) x)).
Proof.
  intros B L. destruct (interleave_all_ok buf B L) as (r5 & r2 & E & H5 & H2). exists r5, r2. split; [exact E|].
  split; [|split]; intros x Bx Lx.
  - destruct (perm512 r5 _ x H5 Lx) as [F _]. now rewrite norm_bytes in F.
  - rewrite (haraka512_ok r5 _ x H5 Lx). now rewrite norm_bytes.
  - rewrite (haraka256_ok r2 _ x H2 Lx). now rewrite norm_bytes.
Qed.
Theorem bitsliced_S buf : all_bytes buf -> length buf = 640%nat ->
  exists rc512 rc256, interleave_all buf = Some (rc512, rc256)
  /\ (forall n m, all_bytes m -> haraka_S (haraka512_perm rc512) n m = Some (HarakaS (blocks 40 buf) m n))
  /\ (forall chunks lens, exists out, haraka_S (haraka512_perm rc512) (total lens) (concat chunks) = Some out
        /\ haraka_S_inc (haraka512_perm rc512) chunks lens = Some (pieces out lens)).
Proof.
  intros B L. destruct (interleave_all_ok buf B L) as (r5 & r2 & E & H5 & H2). exists r5, r2. split; [exact E|].
  split; intros.
  - now apply (haraka_S_ok r5 _ H5).
  - exact (haraka_S_inc_oneshot r5 _ H5 chunks lens).
Qed.
(** haraka256 with pointers into one memory. *)
Theorem bitsliced_256_mem buf : all_bytes buf -> length buf = 640%nat ->
  exists rc512 rc256, interleave_all buf = Some (rc512, rc256)
  /\ (forall pre mid post, length mid = 32%nat -> forall x, all_bytes x -> length x = 32%nat ->
        haraka256_mem rc256 (pre ++ mid ++ post ++ x) (length pre) (length pre + 32 + length post)
        = Some (pre ++ Haraka256 (blocks 40 buf) x ++ post ++ x))
  /\ (forall pre x post, length x = 32%nat ->
        haraka256_mem rc256 (pre ++ x ++ post) (length pre) (length pre) = Some (pre ++ repeat 0 32 ++ post)).
Proof.
  intros B L. destruct (interleave_all_ok buf B L) as (r5 & r2 & E & H5 & H2). exists r5, r2. split; [exact E|].
  split; intros.
  - rewrite <- (norm_bytes x) at 2 by auto.
    eapply (haraka256_apart r2 _ pre mid (post ++ x)); eauto.
    exists (pre ++ mid ++ post), []. rewrite app_nil_r, !app_length, <- !app_assoc. split; [split; [reflexivity|lia]|lia].
  - exact (haraka256_in_place r2 _ pre x post H2 H).
Qed.
