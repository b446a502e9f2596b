(** The C-typed Haraka over the tables the code makes. *)
From Verif Require Import Base BaseFacts Haraka CInt CCore CIntFacts CCoreProofs CWord CSha2 CSha2Proofs CFips202 CFips202Proofs CHaraka.
From Verif Require Import HarakaSpec HarakaProofs HarakaSponge HarakaTweak ShakeProofs CHarakaProofs CHarakaProofs2 CHarakaProofs3 CHarakaProofs4 CHarakaProofs5.
Local Open Scope Z_scope.
Local Notation Q32 := (Q8 U32).
Local Notation Q64 := (Q8 U64).

Lemma range_dec_firstn s k : forall n o, (o + 4 * n <= k)%nat -> br_range_dec32le n (firstn k s) o = br_range_dec32le n s o.
Proof.
  induction n as [|n IH]; intros o H; [reflexivity|]. cbn [br_range_dec32le]. rewrite IH by lia.
  unfold br_dec32le. now rewrite !get_firstn by lia.
Qed.
Lemma perm_firstn rc s : haraka512_perm rc (firstn 64 s) = haraka512_perm rc s.
Proof. unfold haraka512_perm, load512. now rewrite range_dec_firstn by lia. Qed.
Lemma range_enc_bytes v : all_bytes (br_range_enc32le v).
Proof.
  unfold br_range_enc32le, all_bytes. apply Forall_forall. intros x Hx. apply in_flat_map in Hx. destruct Hx as (y & _ & Hy).
  cbn [br_enc32le In] in Hy. destruct Hy as [<-|[<-|[<-|[<-|[]]]]]; apply u8_range.
Qed.
Lemma store512_st q y : store512 q = Some y -> st_ok y.
Proof.
  unfold store512. destruct (br_aes_ct64_ortho q) as [q'|]; [|discriminate]. cbn [bind].
  do 8 (destruct q' as [|? q']; [discriminate|]). destruct q'; [|discriminate]. intros E. split.
  - injection E as <-. reflexivity.
  - match type of E with Some (br_range_enc32le ?v) = _ => pose proof (range_enc_bytes v) as R; injection E as E; rewrite <- E; exact R end.
Qed.
Lemma perm_st rc x y : haraka512_perm rc x = Some y -> st_ok y.
Proof.
  unfold haraka512_perm. destruct (load512 x 0); [|discriminate]. cbn [bind].
  match goal with |- (q <- ?a ;; _) = _ -> _ => destruct a as [q|]; [|discriminate] end. cbn [bind]. apply store512_st.
Qed.
Lemma rc64_words : Forall Q64 haraka512_rc64.
Proof. unfold haraka512_rc64. repeat (constructor; [split; [reflexivity|repeat constructor]|]). constructor. Qed.

Section Tables.
Variables (J : list Z * list Z) (rc : list (list Z)).
Hypothesis HJ : length (fst J) = 16%nat /\ length (snd J) = 8%nat.
Hypothesis Hrc : Forall Q64 rc.
Notation pc := (haraka512_perm_c J rc).
Notation pm := (haraka512_perm rc).
Lemma H_perm s : (64 <= length s)%nat -> pc s s = (y <- pm (firstn 64 s) ;; wr s 0 y).
Proof. destruct HJ. intros H1. rewrite perm_firstn. apply haraka512_perm_c_ok; assumption. Qed.
Lemma H_st x y : length x = 64%nat -> pm x = Some y -> st_ok y.
Proof. intros _. apply perm_st. Qed.
Lemma S_c_ok t0 s0 n m el : length t0 = 32%nat -> length s0 = 64%nat -> Z.of_nat n < 2 ^ 64 -> Z.of_nat (length m) < 2 ^ 64 ->
  asg U64 el = Some (Z.of_nat (length m)) -> haraka_S_c pc t0 s0 (Z.of_nat n) m el = haraka_S pm n m.
Proof. apply (haraka_S_c_ok pc pm H_perm H_st). Qed.
Lemma absorb_all_c_ok chunks : Forall (fun c => Z.of_nat (length c) + 256 < 2 ^ 64) chunks -> forall s c, (c < 32)%nat -> okh s c ->
  agree (fun s' => exists c', (c' < 32)%nat /\ okh s' c') (absorb_all_c pc s chunks) (HarakaTweak.absorb_all pm s chunks).
Proof.
  induction 1 as [|m cs Hm _ IH]; intros s c Hc K; cbn [absorb_all_c HarakaTweak.absorb_all]; [apply agree_ret; eauto|].
  apply (agree_bind (fun s' => exists c', (c' < 32)%nat /\ okh s' c')).
  - apply (inc_absorb_c_ok pc pm H_perm H_st m s c); [exact Hm|exact Hc|exact K|lia].
  - intros s1 (c1 & Hc1 & K1). exact (IH s1 c1 Hc1 K1).
Qed.
Lemma squeeze_all_c_ok lens : Forall (fun n => Z.of_nat n < 2 ^ 64) lens -> forall s c, (c <= 32)%nat -> okh s c ->
  squeeze_all_c pc s lens = HarakaTweak.squeeze_all pm s lens.
Proof.
  induction 1 as [|n ns Hn _ IH]; intros s c Hc K; cbn [squeeze_all_c HarakaTweak.squeeze_all]; [reflexivity|].
  destruct (inc_squeeze_c_ok pc pm H_perm H_st s c n K Hc Hn) as [-> X]. destruct (haraka_S_inc_squeeze pm n s) as [[h s1]|]; [|reflexivity]. cbn [bind].
  destruct (X _ eq_refl) as (c1 & Hc1 & K1). cbn [snd] in K1. now rewrite (IH s1 c1 Hc1 K1).
Qed.
Lemma init_okh : okh haraka_S_inc_init 0. Proof. exists (repeat 0 64). split; [reflexivity|exact st_init]. Qed.
Lemma S_inc_c_ok s0 chunks lens : length s0 = 65%nat -> Forall (fun c => Z.of_nat (length c) + 256 < 2 ^ 64) chunks -> Forall (fun n => Z.of_nat n < 2 ^ 64) lens ->
  haraka_S_inc_c pc s0 chunks lens = haraka_S_inc pm chunks lens.
Proof.
  intros L Hc Hl. unfold haraka_S_inc_c, haraka_S_inc. rewrite (inc_init_c_ok s0 L). cbn [bind].
  destruct (absorb_all_c_ok chunks Hc haraka_S_inc_init 0%nat ltac:(lia) init_okh) as [-> X]. destruct (HarakaTweak.absorb_all pm haraka_S_inc_init chunks) as [s|]; [|reflexivity]. cbn [bind].
  destruct (X s eq_refl) as (c & C1 & K). destruct (inc_finalize_c_ok s c C1 K) as [-> Y]. destruct (haraka_S_inc_finalize s) as [s1|]; [|reflexivity]. cbn [bind].
  exact (squeeze_all_c_ok lens Hl s1 0%nat ltac:(lia) (Y s1 eq_refl)).
Qed.
End Tables.

(** ** The constants *)
Lemma load512_none inp o : br_range_dec32le 16 inp o = None -> load512 inp o = None. Proof. intros E. unfold load512. now rewrite E. Qed.
Definition rows (i : nat) (r : list (list Z) * list (list Z)) : Prop :=
  length (fst r) = i /\ length (snd r) = i /\ Forall Q64 (fst r) /\ Forall Q32 (snd r).
Lemma ix_mul k i : 0 <= k < 100 -> (i < 10)%nat -> ix (K k * V I32 (Z.of_nat i))%C = Some (Z.to_nat k * i)%nat.
Proof.
  intros Hk Hi. apply (ix_is _ I32 (k * Z.of_nat i)); [|lia].
  apply (ev_bin OMul _ _ I32 I32); [apply ev_K; lia|apply ev_V, in_range_I32; lia|reflexivity|apply in_range_I32; lia|apply in_range_I32; lia|discriminate|].
  intros _. cbn [opz]. apply in_range_I32. nia.
Qed.
Lemma table_loop tmp row512 row256 buf : length tmp = 16%nat -> length row512 = 8%nat -> length row256 = 8%nat ->
  agree (rows 10) (cfor 11 I32 0 (K 10) (fun i r =>
    j <- ix (V I32 i) ;; _ <- guard ((j =? length (fst r)) && (j =? length (snd r)))%nat ;;
    o <- ix (K 32 * V I32 i)%C ;; c256 <- load256_c row256 buf o ;;
    o <- ix (K 64 * V I32 i)%C ;; ' (c512, _) <- load512_c I32 tmp row512 buf o ;;
    Some (fst r ++ [c512], snd r ++ [c256])) ([], [])) (interleave_all buf).
Proof.
  intros Lt L5 L2. unfold interleave_all, interleave_constant, interleave_constant32.
  apply (cfor_K rows I32 10 11); [apply cnt_I32|lia|reflexivity| |repeat split; constructor].
  intros i [a b] Hi (La & Lb & Fa & Fb). cbn [fst snd] in *. rewrite (cnt_ix I32) by (try apply cnt_I32; lia). cbn [bind].
  rewrite La, Lb, Nat.eqb_refl. cbn [andb guard bind]. rewrite !ix_mul by lia. cbn [bind]. change (Z.to_nat 32) with 32%nat. change (Z.to_nat 64) with 64%nat.
  destruct (load256_c_ok row256 buf (32 * i) L2) as [-> X2]. destruct (load256 buf (32 * i)) as [c2|]; [|exact (agree_none _)]. cbn [bind]. specialize (X2 c2 eq_refl).
  destruct (load512_c_ok I32 tmp row512 buf (64 * i) (or_introl eq_refl) Lt L5) as [-> X5].
  pose proof (load512_none buf (64 * i)) as N. destruct (br_range_dec32le 16 buf (64 * i)) as [w|]; [|rewrite N by reflexivity; exact (agree_none _)]. cbn [bind].
  destruct (load512 buf (64 * i)) as [c5|]; [|exact (agree_none _)]. cbn [bind]. specialize (X5 c5 eq_refl).
  apply agree_ret. unfold rows. cbn [fst snd]. rewrite !app_length, !Forall_app. cbn [length].
  split; [lia|]. split; [lia|]. split; (split; [assumption|constructor; [assumption|constructor]]).
Qed.
Theorem tweak_c_ok J t0 s0 tmp row512 row256 seed : length (fst J) = 16%nat -> length (snd J) = 8%nat -> length t0 = 32%nat -> length s0 = 64%nat ->
  length tmp = 16%nat -> length row512 = 8%nat -> length row256 = 8%nat -> Z.of_nat (length seed) < 2 ^ 31 ->
  agree (rows 10) (tweak_constants_c J t0 s0 tmp row512 row256 (length seed) seed) (tweak_constants (length seed) seed).
Proof.
  intros J1 J2 Lt Ls Lp L5 L2 Hn. unfold tweak_constants_c, tweak_constants. rewrite rd_all by reflexivity. cbn [bind].
  assert (El : asg U64 (K (Z.of_nat (length seed))) = Some (Z.of_nat (length seed))) by (apply (ev_asg U64 _ I32); [apply ev_K; lia|apply in_range_U64; lia]).
  pose proof (S_c_ok J haraka512_rc64 (conj J1 J2) rc64_words t0 s0 640 seed _ Lt Ls ltac:(lia) ltac:(lia) El) as E.
  change (Z.of_nat 640) with 640 in E. rewrite E. destruct (haraka_S _ 640 seed) as [buf|]; [|exact (agree_none _)]. cbn [bind].
  apply table_loop; assumption.
Qed.

Lemma wf_rows r5 r2 : rows 10 (r5, r2) -> Forall Q64 r5 /\ Forall Q32 r2. Proof. intros (_ & _ & A & B). auto. Qed.
(** Everything at once: the tables made from a seed, and each function run on them. *)
Theorem haraka_c_all J t0 s0 tmp row512 row256 seed : length (fst J) = 16%nat -> length (snd J) = 8%nat -> length t0 = 32%nat -> length s0 = 64%nat ->
  length tmp = 16%nat -> length row512 = 8%nat -> length row256 = 8%nat -> all_bytes seed -> Z.of_nat (length seed) < 2 ^ 31 ->
  exists rc512 rc256, tweak_constants_c J t0 s0 tmp row512 row256 (length seed) seed = Some (rc512, rc256)
  /\ (forall out x, all_bytes x -> length x = 64%nat -> (64 <= length out)%nat -> haraka512_perm_c J rc512 out x = wr out 0 (pi512 (tweaked_RC seed) x))
  /\ (forall b0 out x, length b0 = 64%nat -> all_bytes x -> length x = 64%nat -> (32 <= length out)%nat ->
        haraka512_c J b0 rc512 out x = wr out 0 (Haraka512 (tweaked_RC seed) x))
  /\ (forall q0 out x, length q0 = 8%nat -> all_bytes x -> length x = 32%nat -> length out = 32%nat ->
        haraka256_c q0 rc256 out x = Some (Haraka256 (tweaked_RC seed) x))
  /\ (forall n m, all_bytes m -> Z.of_nat n < 2 ^ 64 -> Z.of_nat (length m) < 2 ^ 64 ->
        haraka_S_c (haraka512_perm_c J rc512) t0 s0 (Z.of_nat n) m (V U64 (Z.of_nat (length m))) = Some (HarakaS (tweaked_RC seed) m n))
  /\ (forall i0 chunks lens, length i0 = 65%nat -> all_bytes (concat chunks) ->
        Forall (fun c => Z.of_nat (length c) + 256 < 2 ^ 64) chunks -> Forall (fun n => Z.of_nat n < 2 ^ 64) lens ->
        haraka_S_inc_c (haraka512_perm_c J rc512) i0 chunks lens = Some (pieces (HarakaS (tweaked_RC seed) (concat chunks) (total lens)) lens)).
Proof.
  intros J1 J2 Lt Ls Lp L5 L2 Bs Hn.
  destruct (tweak_c_ok J t0 s0 tmp row512 row256 seed J1 J2 Lt Ls Lp L5 L2 Hn) as [-> R].
  destruct (tweak_constants_ok (length seed) seed eq_refl) as (r5 & r2 & E & H5 & H2). rewrite (norm_bytes seed Bs) in H5, H2.
  rewrite E in R |- *. destruct (wf_rows _ _ (R _ eq_refl)) as [F5 F2]. exists r5, r2. split; [reflexivity|].
  split; [|split; [|split; [|split]]].
  - intros out x Bx Lx Lo. rewrite haraka512_perm_c_ok by assumption. destruct (pi512_st r5 _ H5 x (conj Lx Bx)) as [-> _]. reflexivity.
  - intros b0 out x Lb Bx Lx Lo. rewrite haraka512_c_ok by assumption. rewrite (haraka512_ok r5 _ x H5 Lx), (norm_bytes x Bx). reflexivity.
  - intros q0 out x Lq Bx Lx Lo. rewrite haraka256_c_ok by assumption. rewrite (haraka256_ok r2 _ x H2 Lx), (norm_bytes x Bx). reflexivity.
  - intros n m Bm Hn' Hm. assert (El : asg U64 (V U64 (Z.of_nat (length m))) = Some (Z.of_nat (length m))) by (apply (ev_asg U64 _ U64); [apply w_V|]; apply in_range_U64; lia).
    rewrite (S_c_ok J r5 (conj J1 J2) F5 t0 s0 n m _ Lt Ls Hn' Hm El).
    apply (haraka_S_ok r5 _ H5), Bm.
  - intros i0 chunks lens Li Bc Hc Hl. rewrite (S_inc_c_ok J r5 (conj J1 J2) F5) by assumption. rewrite (haraka_S_inc_norm r5 _ H5), (norm_bytes _ Bc). reflexivity.
Qed.
