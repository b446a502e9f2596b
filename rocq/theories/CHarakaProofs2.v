(** The C-typed Haraka permutations are the model's. *)
From Verif Require Import Base BaseFacts Haraka CInt CCore CIntFacts CCoreProofs CWord CSha2 CSha2Proofs CFips202 CFips202Proofs CHaraka.
From Verif Require Import HarakaProofs ShakeProofs CHarakaProofs.
Local Open Scope Z_scope.

Local Notation Q32 := (Q8 U32).
Local Notation Q64 := (Q8 U64).
Lemma ortho32_c_ok q : Q32 q -> agree Q32 (br_aes_ct_ortho_c q) (br_aes_ct_ortho q).
Proof. intros H. apply (ortho_c_ok U32 u32_uns); cbn [width]; try lia. exact H. Qed.
Lemma ortho64_c_ok q : Q64 q -> agree Q64 (br_aes_ct64_ortho_c q) (br_aes_ct64_ortho q).
Proof. intros H. apply (ortho_c_ok U64 u64_uns); cbn [width]; try lia. exact H. Qed.
Ltac evx U := unfold M64; repeat first
  [ apply (w_or _ U) | apply (w_shl' _ U); [|cbn [width]; lia] | apply (w_shr' _ U); [|cbn [width]; lia]
  | apply (w_hexc _ U); [|cbn [width]; lia] | apply (w_hex _ U); [|cbn [width]; lia] | apply w_V; assumption ].
Lemma cnt_I32 : cnt I32. Proof. now left. Qed.
Lemma cnt_U32 : cnt U32. Proof. right; now left. Qed.
Lemma shift32_ok q : Q32 q -> shift_rows32_c q = Some (map shift_row32 q) /\ Q32 (map shift_row32 q).
Proof. apply (each_c_ok U32); [apply cnt_I32|]. intros x R. unfold shift_row32_x, shift_row32. evx u32_uns. Qed.
Lemma shift64_ok q : Q64 q -> shift_rows_c q = Some (map shift_row64 q) /\ Q64 (map shift_row64 q).
Proof. apply (each_c_ok U64); [apply cnt_I32|]. intros x R. unfold shift_row64_x, shift_row64. evx u64_uns. Qed.
Lemma mix256_ok q : Q32 q -> each_c U32 I32 mix_state256_x q = Some (map mix_state256 q) /\ Q32 (map mix_state256 q).
Proof. apply (each_c_ok U32); [apply cnt_I32|]. intros x R. unfold mix_state256_x, mix_state256. evx u32_uns. Qed.
Lemma mix512_ok q : Q64 q -> each_c U64 U32 mix_state512_x q = Some (map mix_state512 q) /\ Q64 (map mix_state512 q).
Proof. apply (each_c_ok U64); [apply cnt_U32|]. intros x R. unfold mix_state512_x, mix_state512. evx u64_uns. Qed.
Lemma mixcol32_ok q : Q32 q -> agree Q32 (mix_columns32_c q) (mix_columns32 q).
Proof. intros H. apply (mix_columns_c_ok U32 u32_uns); cbn [width]; try lia. exact H. Qed.
Lemma mixcol64_ok q : Q64 q -> agree Q64 (mix_columns64_c q) (mix_columns q).
Proof. intros H. apply (mix_columns_c_ok U64 u64_uns); cbn [width]; try lia. exact H. Qed.

(** ** The rounds *)
Lemma round_ix ti i j : cnt ti -> (i < 1000)%nat -> (j < 1000)%nat -> ix (K 2 * V ti (Z.of_nat i) + V ti (Z.of_nat j))%C = Some (2 * i + j)%nat.
Proof.
  intros H Hi Hj. destruct (cnt_common ti H) as (P & C1 & C2 & C3).
  apply (ix_is _ ti (2 * Z.of_nat i + Z.of_nat j)); [|lia].
  apply (cnt_bin OAdd _ _ ti ti ti); try reflexivity; try (cbn [opz]; lia); [exact H|rewrite P; exact C3| |apply cnt_V; [exact H|lia]].
  apply (cnt_bin OMul _ _ I32 ti ti 2 (Z.of_nat i)); try reflexivity; try (cbn [opz]; lia);
    [exact H|rewrite P; exact C2|apply ev_K; lia|apply cnt_V; [exact H|lia]].
Qed.
Section Rounds.
Variables (t ti : cty) (sr mc mc' : list Z -> option (list Z)) (mix : cexp -> cexp) (mix' : Z -> Z) (shiftm : Z -> Z).
Hypothesis Hu : uns t.
Hypothesis Hti : cnt ti.
Hypothesis Hsr : forall q, Q8 t q -> sr q = Some (map shiftm q) /\ Q8 t (map shiftm q).
Hypothesis Hmc : forall q, Q8 t q -> agree (Q8 t) (mc q) (mc' q).
Hypothesis Hmix : forall q, Q8 t q -> each_c t ti mix q = Some (map mix' q) /\ Q8 t (map mix' q).
Lemma rounds_c_ok rc q : Forall (Q8 t) rc -> Q8 t q ->
  agree (Q8 t) (rounds_c t ti sr mc mix rc q)
    (iterM 5 0 (fun i q => q <- iterM 2 0 (fun j q => q <- bitslice_Sbox (width t) q ;; let q := map shiftm q in q <- mc' q ;;
        k <- get rc (2 * i + j) ;; add_round_key q k) q ;; Some (map mix' q)) q).
Proof.
  intros Hrc H. unfold rounds_c.
  apply (cfor_K (fun _ => Q8 t) ti 5); [exact Hti|lia|reflexivity| |exact H]. clear q H. intros i q Hi H.
  apply (agree_bind (Q8 t)).
  - apply (cfor_K (fun _ => Q8 t) ti 2); [exact Hti|lia|reflexivity| |exact H]. clear q H. intros j q Hj H.
    apply (agree_bind (Q8 t)); [apply (sbox_c_ok t Hu), H|]. clear q H. intros q H. cbv zeta.
    destruct (Hsr q H) as [-> H']. cbn [bind]. apply (agree_bind (Q8 t)); [apply Hmc, H'|]. clear q H H'. intros q H.
    rewrite (round_ix ti i j Hti) by lia. cbn [bind].
    apply (agree_same (Q8 t)).
    + intros k E. apply nth_error_In in E. rewrite Forall_forall in Hrc. now apply Hrc.
    + intros k Hk. apply (ark_c_ok t Hu); assumption.
  - clear q H. intros q H. destruct (Hmix q H) as [-> H']. apply agree_ret, H'.
Qed.
End Rounds.

(** ** Loading *)
Lemma dec_c_ok src o : br_dec32le_c src o = br_dec32le src o /\ (forall x, br_dec32le src o = Some x -> inr U32 x).
Proof.
  unfold br_dec32le_c, br_dec32le. destruct (get src o) as [x0|]; [|split; [reflexivity|discriminate]]. cbn [bind].
  destruct (get src (o + 1)) as [x1|]; [|split; [reflexivity|discriminate]]. cbn [bind].
  destruct (get src (o + 2)) as [x2|]; [|split; [reflexivity|discriminate]]. cbn [bind].
  destruct (get src (o + 3)) as [x3|]; [|split; [reflexivity|discriminate]]. cbn [bind].
  match goal with |- asg U32 ?e = Some ?v /\ _ => assert (E : ev e U32 v) end.
  { repeat apply (w_or U32 u32_uns); try (apply (w_shlb U32 _ _ I32); [exact u32_uns|apply w_byte, u32_uns|apply ev_K; lia| |cbn [width]; lia]);
      try (apply w_byte, u32_uns); unfold u8; apply Z.mod_pos_bound; lia. }
  rewrite (w_asg U32 _ _ E). split; [reflexivity|]. intros x [= <-]. apply E.
Qed.
Lemma wr_app_r0 (a : list Z) x y b : wr (a ++ y :: b) (length a) [x] = Some (a ++ x :: b).
Proof.
  unfold wr. rewrite app_length. cbn [length]. replace (length a + 1 <=? length a + S (length b))%nat with true by (symmetry; apply Nat.leb_le; lia).
  rewrite firstn_app, skipn_app, Nat.sub_diag, firstn_all, skipn_all2 by lia. replace (length a + 1 - length a)%nat with 1%nat by lia.
  cbn [firstn skipn app]. rewrite app_nil_r. reflexivity.
Qed.
Lemma wr_next (v : list Z) vo x v' r : wr v vo [x] = Some v' -> wr v' (vo + 1) r = wr v vo (x :: r).
Proof.
  intros E. assert (L : (vo < length v)%nat) by (unfold wr in E; cbn [length] in E; destruct (Nat.leb_spec (vo + 1) (length v)); [lia|discriminate]).
  pose proof (firstn_skipn vo v) as D. assert (La : length (firstn vo v) = vo) by (rewrite firstn_length; lia).
  destruct (skipn vo v) as [|y b] eqn:Eb; [apply (f_equal (@length Z)) in Eb; rewrite skipn_length in Eb; cbn in Eb; lia|].
  rewrite <- D in E |- *. set (a := firstn vo v) in *. clearbody a. clear Eb L D v. subst vo.
  rewrite wr_app_r0 in E. injection E as <-. unfold wr. rewrite !app_length. cbn [length].
  replace (length a + S (length r) <=? length a + S (length b))%nat with (length a + 1 + length r <=? length a + S (length b))%nat
    by (destruct (Nat.leb_spec (length a + S (length r)) (length a + S (length b))); destruct (Nat.leb_spec (length a + 1 + length r) (length a + S (length b))); lia).
  destruct (_ <=? _)%nat; [|reflexivity]. f_equal.
  replace (length a + 1 + length r)%nat with (length a + S (length r))%nat by lia.
  rewrite !firstn_app, !skipn_app, Nat.sub_diag. replace (length a + 1 - length a)%nat with 1%nat by lia.
  replace (length a + S (length r) - length a)%nat with (S (length r)) by lia.
  rewrite firstn_all, firstn_all2, skipn_all2 by lia. cbn [firstn skipn app]. rewrite app_nil_r, <- app_assoc. reflexivity.
Qed.
Lemma gt0 n : 0 <= n < 2 ^ 64 -> cond (K 0 < V U64 n)%C = Some (0 <? n).
Proof.
  intros H. apply (cond_lt _ _ I32); [apply ev_K; lia|]. exists U64. split; [apply ev_V, in_range_U64, H|]. split; apply in_range_U64; lia.
Qed.
Lemma dec1 n : 0 <= n < 2 ^ 64 -> asg U64 (V U64 n - K 1)%C = Some ((n - 1) mod 2 ^ 64).
Proof.
  intros H. pose proof (ev_bin_mod OSub (V U64 n) (K 1) U64 I32 n 1) as E. cbn [promote common opz width] in E.
  apply (w_asg U64). apply E; try reflexivity; try discriminate; [apply ev_V, in_range_U64, H|apply ev_K; lia|apply in_range_U64, H].
Qed.
Lemma range_dec_ok src : forall n fuel v vo o, fuel = S n -> Z.of_nat n < 2 ^ 64 -> (vo + n <= length v)%nat ->
  br_range_dec32le_c fuel v vo (Z.of_nat n) src o = (r <- br_range_dec32le n src o ;; wr v vo r)
  /\ (forall r, br_range_dec32le n src o = Some r -> length r = n /\ Forall (inr U32) r).
Proof.
  induction n as [|n IH]; intros fuel v vo o Ef Hn Hv; (destruct fuel as [|fuel]; [discriminate|]); injection Ef as Ef;
    cbn [br_range_dec32le_c br_range_dec32le]; rewrite gt0, dec1 by lia; cbn [bind].
  - cbn [Z.of_nat Z.ltb Z.compare]. split.
    + unfold wr. cbn [length app]. replace (vo + 0 <=? length v)%nat with true by (symmetry; apply Nat.leb_le; lia).
      rewrite Nat.add_0_r, firstn_skipn. reflexivity.
    + intros r [= <-]. split; [reflexivity|constructor].
  - replace (0 <? Z.of_nat (S n)) with true by lia. replace ((Z.of_nat (S n) - 1) mod 2 ^ 64) with (Z.of_nat n) by (rewrite Z.mod_small; lia).
    destruct (dec_c_ok src o) as [-> Hx]. destruct (br_dec32le src o) as [x|]; [|split; [reflexivity|discriminate]]. cbn [bind].
    destruct (wr v vo [x]) as [v'|] eqn:E.
    2:{ exfalso. revert E. unfold wr. cbn [length]. replace (vo + 1 <=? length v)%nat with true by (symmetry; apply Nat.leb_le; lia). discriminate. }
    cbn [bind]. destruct (IH fuel v' (vo + 1)%nat (o + 4)%nat Ef) as [-> Hr]; [lia|rewrite (wr_length _ _ _ _ E); lia|].
    destruct (br_range_dec32le n src (o + 4)) as [r|]; [|split; [reflexivity|discriminate]]. cbn [bind].
    split; [apply (wr_next _ _ _ _ _ E)|]. intros r' [= <-]. destruct (Hr r eq_refl) as [L F]. split; [cbn [length]; lia|].
    constructor; [apply Hx; reflexivity|exact F].
Qed.
Lemma spread_c_ok x : inr U32 x -> spread_c x = Some (spread x) /\ inr U64 (spread x).
Proof.
  intros R. assert (R' : inr U64 x) by (apply (inr_iff U64 _ u64_uns); apply (inr_iff U32 _ u32_uns) in R; unfold width in *; lia).
  unfold spread_c. rewrite (asg_is U64 _ U32 x x); [|apply ev_V, R|reflexivity|exact R']. cbn [bind]. unfold spread.
  assert (E1 : ev (V U64 x .| (V U64 x << K 16))%C U64 (Z.lor x (shl 64 x 16))) by (evx u64_uns).
  rewrite (w_asg U64 _ _ E1). cbn [bind]. destruct E1 as [_ R1].
  set (y := Z.lor x (shl 64 x 16)) in *. clearbody y.
  assert (E2 : ev (V U64 y .& M64 0x0000FFFF0000FFFF)%C U64 (Z.land y 0x0000FFFF0000FFFF)) by (evx u64_uns).
  rewrite (w_asg U64 _ _ E2). cbn [bind]. destruct E2 as [_ R2]. set (u := Z.land y 0x0000FFFF0000FFFF) in *. clearbody u.
  assert (E3 : ev (V U64 u .| (V U64 u << K 8))%C U64 (Z.lor u (shl 64 u 8))) by (evx u64_uns).
  rewrite (w_asg U64 _ _ E3). cbn [bind]. destruct E3 as [_ R3]. cbv zeta. set (a := Z.lor u (shl 64 u 8)) in *. clearbody a.
  assert (E4 : ev (V U64 a .& M64 0x00FF00FF00FF00FF)%C U64 (Z.land a 0x00FF00FF00FF00FF)) by (evx u64_uns).
  rewrite (w_asg U64 _ _ E4). split; [reflexivity|apply E4].
Qed.
Lemma interleave_in_c_ok w0 w1 w2 w3 : inr U32 w0 -> inr U32 w1 -> inr U32 w2 -> inr U32 w3 ->
  interleave_in_c w0 w1 w2 w3 = Some (br_aes_ct64_interleave_in w0 w1 w2 w3) /\ pairW U64 (br_aes_ct64_interleave_in w0 w1 w2 w3).
Proof.
  intros R0 R1 R2 R3. unfold interleave_in_c, br_aes_ct64_interleave_in.
  destruct (spread_c_ok w0 R0) as [-> S0]. destruct (spread_c_ok w1 R1) as [-> S1]. destruct (spread_c_ok w2 R2) as [-> S2]. destruct (spread_c_ok w3 R3) as [-> S3].
  cbn [bind]. set (spread w0) in *. set (spread w1) in *. set (spread w2) in *. set (spread w3) in *.
  assert (E : ev (V U64 z .| (V U64 z1 << K 8))%C U64 (Z.lor z (shl 64 z1 8))) by (evx u64_uns).
  assert (E' : ev (V U64 z0 .| (V U64 z2 << K 8))%C U64 (Z.lor z0 (shl 64 z2 8))) by (evx u64_uns).
  rewrite (w_asg U64 _ _ E), (w_asg U64 _ _ E'). split; [reflexivity|split; [apply E|apply E']].
Qed.
Lemma ix_small ti i : ti = I32 \/ ti = U32 -> (i < 4)%nat ->
  ix (V ti (Z.of_nat i)) = Some i /\ ix (V ti (Z.of_nat i) + K 4)%C = Some (i + 4)%nat /\ ix (V ti (Z.of_nat i) << K 2)%C = Some (4 * i)%nat.
Proof. intros H Hi. destruct H as [-> | ->]; (destruct i as [|[|[|[|]]]]; [..|lia]); repeat split; reflexivity. Qed.
Lemma ix_small2 i : (i < 4)%nat -> ix (K 4 * V I32 (Z.of_nat i))%C = Some (4 * i)%nat /\ ix (K 2 * V I32 (Z.of_nat i))%C = Some (2 * i)%nat
  /\ ix (K 2 * V I32 (Z.of_nat i) + K 1)%C = Some (2 * i + 1)%nat.
Proof. intros Hi. (destruct i as [|[|[|[|]]]]; [..|lia]); repeat split; reflexivity. Qed.
Lemma list16 {A} (l : list A) : length l = 16%nat -> exists a0 a1 a2 a3 a4 a5 a6 a7 a8 a9 a10 a11 a12 a13 a14 a15,
  l = [a0; a1; a2; a3; a4; a5; a6; a7; a8; a9; a10; a11; a12; a13; a14; a15].
Proof. intros H. do 16 (destruct l as [|? l]; [discriminate|]). destruct l; [|discriminate]. repeat eexists. Qed.
Lemma list8 {A} (l : list A) : length l = 8%nat -> exists a0 a1 a2 a3 a4 a5 a6 a7, l = [a0; a1; a2; a3; a4; a5; a6; a7].
Proof. intros H. do 8 (destruct l as [|? l]; [discriminate|]). destruct l; [|discriminate]. repeat eexists. Qed.
Lemma wr_all (a b : list Z) : length a = length b -> wr a 0 b = Some b.
Proof.
  intros H. unfold wr. cbn [Nat.add]. rewrite H, Nat.leb_refl. cbn [firstn app]. rewrite skipn_all2 by lia. now rewrite app_nil_r.
Qed.
Definition ilstep (wv : list Z) (i : nat) (q : list Z) : option (list Z) :=
  x0 <- get wv (4 * i) ;; x1 <- get wv (4 * i + 1) ;; x2 <- get wv (4 * i + 2) ;; x3 <- get wv (4 * i + 3) ;;
  let p := br_aes_ct64_interleave_in x0 x1 x2 x3 in q <- wr q i [fst p] ;; wr q (i + 4) [snd p].
Lemma load512_c_ok ti w0 q0 inp off : ti = I32 \/ ti = U32 -> length w0 = 16%nat -> length q0 = 8%nat ->
  load512_c ti w0 q0 inp off = (wv <- br_range_dec32le 16 inp off ;; q <- load512 inp off ;; Some (q, wv))
  /\ (forall q, load512 inp off = Some q -> Q64 q).
Proof.
  intros Hti L0 L1. unfold load512_c, load512.
  destruct (range_dec_ok inp 16 17 w0 0 off eq_refl ltac:(lia) ltac:(lia)) as [E Hr]. change (Z.of_nat 16) with 16 in E. rewrite E. clear E.
  destruct (br_range_dec32le 16 inp off) as [wv|]; [|split; [reflexivity|discriminate]]. cbn [bind].
  destruct (Hr wv eq_refl) as [L F]. clear Hr. rewrite wr_all by lia. cbn [bind].
  match goal with |- context [cfor 5 ti 0 (K 4) ?b q0] => assert (X : agree (fun _ => True) (cfor 5 ti 0 (K 4) b q0) (iterM 4 0 (ilstep wv) q0)) end.
  { apply (cfor_K (fun _ _ => True) ti 4 5); [destruct Hti as [->| ->]; [apply cnt_I32|apply cnt_U32]|lia|reflexivity| |exact Logic.I].
    intros i q Hi _. split; [|auto]. destruct (ix_small ti i Hti Hi) as (-> & -> & ->). cbn [bind]. unfold ilstep.
    assert (G : forall k x, get wv k = Some x -> inr U32 x) by (intros k x Ek; apply nth_error_In in Ek; rewrite Forall_forall in F; auto).
    destruct (get wv (4 * i)) as [x0|] eqn:E0; [|reflexivity]. destruct (get wv (4 * i + 1)) as [x1|] eqn:E1; [|reflexivity].
    destruct (get wv (4 * i + 2)) as [x2|] eqn:E2; [|reflexivity]. destruct (get wv (4 * i + 3)) as [x3|] eqn:E3; [|reflexivity]. cbn [bind].
    destruct (interleave_in_c_ok x0 x1 x2 x3) as [-> _]; [eapply G; eassumption..|]. cbn [bind].
    destruct (br_aes_ct64_interleave_in x0 x1 x2 x3) as [a b]. reflexivity. }
  destruct X as [-> _].
  destruct (list16 wv L) as (a0 & a1 & a2 & a3 & a4 & a5 & a6 & a7 & a8 & a9 & a10 & a11 & a12 & a13 & a14 & a15 & ->).
  destruct (list8 q0 L1) as (c0 & c1 & c2 & c3 & c4 & c5 & c6 & c7 & ->). clear L L1.
  cbn [iterM]. unfold ilstep. cbv [get nth_error bind Nat.mul Nat.add wr length firstn skipn app Nat.leb].
  repeat match goal with H : Forall _ (_ :: _) |- _ => inversion H; clear H; subst end.
  destruct (interleave_in_c_ok a0 a1 a2 a3) as [_ [P0 P4]]; [assumption..|]. destruct (interleave_in_c_ok a4 a5 a6 a7) as [_ [P1 P5]]; [assumption..|].
  destruct (interleave_in_c_ok a8 a9 a10 a11) as [_ [P2 P6]]; [assumption..|]. destruct (interleave_in_c_ok a12 a13 a14 a15) as [_ [P3 P7]]; [assumption..|].
  destruct (br_aes_ct64_interleave_in a0 a1 a2 a3) as [b0 b4]. destruct (br_aes_ct64_interleave_in a4 a5 a6 a7) as [b1 b5].
  destruct (br_aes_ct64_interleave_in a8 a9 a10 a11) as [b2 b6]. destruct (br_aes_ct64_interleave_in a12 a13 a14 a15) as [b3 b7]. cbn [fst snd] in *.
  destruct (ortho64_c_ok [b0; b1; b2; b3; b4; b5; b6; b7]) as [-> HQ]; [apply list_Q8; assumption|].
  split; [destruct (br_aes_ct64_ortho _); reflexivity|exact HQ].
Qed.
Definition ldstep (inp : bytes) (off i : nat) (q : list Z) : option (list Z) :=
  x <- br_dec32le inp (off + 4 * i) ;; q <- wr q (2 * i) [x] ;; x <- br_dec32le inp (off + 4 * i + 16) ;; wr q (2 * i + 1) [x].
Lemma load256_c_ok q0 inp off : length q0 = 8%nat -> agree Q32 (load256_c q0 inp off) (load256 inp off).
Proof.
  intros L. unfold load256_c.
  match goal with |- context [cfor 5 I32 0 (K 4) ?b q0] => assert (X : agree (fun _ => True) (cfor 5 I32 0 (K 4) b q0) (iterM 4 0 (ldstep inp off) q0)) end.
  { apply (cfor_K (fun _ _ => True) I32 4 5); [apply cnt_I32|lia|reflexivity| |exact Logic.I].
    intros i q Hi _. split; [|auto]. destruct (ix_small2 i Hi) as (-> & -> & ->). cbn [bind]. unfold ldstep.
    destruct (dec_c_ok inp (off + 4 * i)) as [-> _]. destruct (dec_c_ok inp (off + 4 * i + 16)) as [-> _]. reflexivity. }
  destruct X as [-> _]. destruct (list8 q0 L) as (c0 & c1 & c2 & c3 & c4 & c5 & c6 & c7 & ->). clear L.
  assert (D : forall o, exists r, br_dec32le inp o = r /\ forall x, r = Some x -> inr U32 x).
  { intros o. exists (br_dec32le inp o). split; [reflexivity|apply (dec_c_ok inp o)]. }
  cbn [iterM]. unfold ldstep, load256. cbn [Nat.mul Nat.add]. rewrite !Nat.add_0_r.
  destruct (D off) as (d0 & -> & R0). destruct (D (off + 16)%nat) as (d1 & -> & R1). destruct (D (off + 4)%nat) as (d2 & -> & R2).
  destruct (D (off + 4 + 16)%nat) as (d3 & -> & R3). destruct (D (off + 8)%nat) as (d4 & -> & R4). destruct (D (off + 8 + 16)%nat) as (d5 & -> & R5).
  destruct (D (off + 12)%nat) as (d6 & -> & R6). destruct (D (off + 12 + 16)%nat) as (d7 & -> & R7).
  destruct d0 as [d0|]; [|exact (agree_none _)]. destruct d1 as [d1|]; [|exact (agree_none _)]. destruct d2 as [d2|]; [|exact (agree_none _)].
  destruct d3 as [d3|]; [|exact (agree_none _)]. destruct d4 as [d4|]; [|exact (agree_none _)]. destruct d5 as [d5|]; [|exact (agree_none _)].
  destruct d6 as [d6|]; [|exact (agree_none _)]. destruct d7 as [d7|]; [|exact (agree_none _)].
  cbv [bind wr length firstn skipn app Nat.leb Nat.add].
  apply ortho32_c_ok, list_Q8; auto.
Qed.
