(** The C-typed Haraka: storing, and the permutations. *)
From Verif Require Import Base BaseFacts Haraka CInt CCore CIntFacts CCoreProofs CWord CSha2 CSha2Proofs CFips202 CFips202Proofs CHaraka.
From Verif Require Import HarakaProofs ShakeProofs CHarakaProofs CHarakaProofs2.
Local Open Scope Z_scope.
Local Notation Q32 := (Q8 U32).
Local Notation Q64 := (Q8 U64).
Lemma wr_some (v : list Z) o x : (o + length x <= length v)%nat -> wr v o x = Some (firstn o v ++ x ++ skipn (o + length x) v).
Proof. intros H. unfold wr. apply Nat.leb_le in H. now rewrite H. Qed.
Lemma wr_mid (p u s m : list Z) o : o = length p -> length m = length u -> wr (p ++ u ++ s) o m = Some (p ++ m ++ s).
Proof. intros -> E. now apply wr_app. Qed.
Lemma cut (v : list Z) n : (n <= length v)%nat -> exists a b, v = a ++ b /\ length a = n.
Proof. intros H. exists (firstn n v), (skipn n v). split; [symmetry; apply firstn_skipn|]. rewrite firstn_length. lia. Qed.
Lemma wr_then (v : list Z) o a b : (o + length a + length b <= length v)%nat ->
  (v' <- wr v o a ;; wr v' (o + length a) b) = wr v o (a ++ b).
Proof.
  intros H. destruct (cut v o ltac:(lia)) as (x & v1 & -> & Lx). rewrite app_length in H. destruct (cut v1 (length a) ltac:(lia)) as (y & v2 & -> & Ly).
  rewrite app_length in H. destruct (cut v2 (length b) ltac:(lia)) as (z & t & -> & Lz).
  rewrite (wr_mid x y) by lia. cbn [bind]. replace (x ++ a ++ z ++ t) with ((x ++ a) ++ z ++ t) by now rewrite <- app_assoc.
  rewrite wr_mid by (rewrite ?app_length; lia). replace (x ++ y ++ z ++ t) with (x ++ (y ++ z) ++ t) by now rewrite <- app_assoc.
  rewrite (wr_mid x (y ++ z)) by (rewrite ?app_length; lia). now rewrite <- !app_assoc.
Qed.
Lemma wr_len (v : list Z) o x v' : wr v o x = Some v' -> length v' = length v. Proof. apply wr_length. Qed.
Lemma asg_u8_shr x k : inr U32 x -> 0 <= k < 32 -> asg U8 (Cast U8 (V U32 x >> K k))%C = Some (u8 (Z.shiftr x k)).
Proof.
  intros R Hk. rewrite (asg_is U8 _ U8 (u8 (Z.shiftr x k)) (u8 (Z.shiftr x k))); [reflexivity| |reflexivity|apply in_range_U8, u8_range].
  apply (ev_cast_mod U8 _ U32); [|discriminate]. apply (w_shr' U32 u32_uns); [apply w_V, R|cbn [width]; lia].
Qed.
Lemma enc_c_ok dst o x : inr U32 x -> (o + 4 <= length dst)%nat -> br_enc32le_c dst o x = wr dst o (br_enc32le x).
Proof.
  intros R H. unfold br_enc32le_c.
  assert (E0 : asg U8 (Cast U8 (V U32 x)) = Some (u8 x)).
  { rewrite (asg_is U8 _ U8 (u8 x) (u8 x)); [reflexivity| |reflexivity|apply in_range_U8, u8_range].
    apply (ev_cast_mod U8 _ U32); [apply w_V, R|discriminate]. }
  rewrite E0, !asg_u8_shr by (try exact R; lia). cbn [bind]. unfold br_enc32le.
  set (b0 := u8 x). set (b1 := u8 (Z.shiftr x 8)). set (b2 := u8 (Z.shiftr x 16)). set (b3 := u8 (Z.shiftr x 24)).
  pose proof (wr_then dst o [b0] [b1] ltac:(cbn [length]; lia)) as W1. pose proof (wr_then dst o [b0; b1] [b2] ltac:(cbn [length]; lia)) as W2.
  pose proof (wr_then dst o [b0; b1; b2] [b3] ltac:(cbn [length]; lia)) as W3. cbn [length app] in W1, W2, W3.
  rewrite <- W3, <- W2, <- W1. destruct (wr dst o [b0]); [|reflexivity]. cbn [bind]. destruct (wr l (o + 1) [b1]); [|reflexivity]. cbn [bind].
  destruct (wr l0 (o + 2) [b2]); reflexivity.
Qed.
Lemma range_enc_length v : length (br_range_enc32le v) = (4 * length v)%nat.
Proof. unfold br_range_enc32le. induction v as [|x v IH]; [reflexivity|]. cbn [flat_map]. rewrite app_length, IH. cbn [length br_enc32le]. lia. Qed.
Lemma range_enc_ok v : Forall (inr U32) v -> forall n fuel dst o vo, fuel = S n -> Z.of_nat n < 2 ^ 64 -> (vo + n <= length v)%nat -> (o + 4 * n <= length dst)%nat ->
  br_range_enc32le_c fuel dst o v vo (Z.of_nat n) = wr dst o (br_range_enc32le (firstn n (skipn vo v))).
Proof.
  intros F. induction n as [|n IH]; intros fuel dst o vo Ef Hn Hv Hd; (destruct fuel as [|fuel]; [discriminate|]); injection Ef as Ef;
    cbn [br_range_enc32le_c]; rewrite gt0, dec1 by lia; cbn [bind].
  - cbn [Z.of_nat Z.ltb Z.compare firstn br_range_enc32le flat_map]. rewrite wr_some by (cbn [length]; lia). cbn [length app].
    now rewrite Nat.add_0_r, firstn_skipn.
  - replace (0 <? Z.of_nat (S n)) with true by lia. replace ((Z.of_nat (S n) - 1) mod 2 ^ 64) with (Z.of_nat n) by (rewrite Z.mod_small; lia).
    rewrite (ShakeProofs.get_nth v vo 0) by lia. cbn [bind].
    assert (R : inr U32 (nth vo v 0)) by (rewrite Forall_forall in F; apply F, nth_In; lia).
    rewrite enc_c_ok by (try exact R; lia).
    assert (E : firstn (S n) (skipn vo v) = nth vo v 0 :: firstn n (skipn (vo + 1) v)).
    { destruct (skipn vo v) as [|y b] eqn:Eb; [apply (f_equal (@length Z)) in Eb; rewrite skipn_length in Eb; cbn in Eb; lia|].
      assert (Y : nth vo v 0 = y).
      { assert (X : nth vo (firstn vo v ++ y :: b) 0 = y) by (rewrite app_nth2 by (rewrite firstn_length; lia); rewrite firstn_length;
          replace (vo - Nat.min vo (length v))%nat with 0%nat by lia; reflexivity). rewrite <- Eb, firstn_skipn in X. exact X. }
      rewrite Y, <- skip_skip, Eb. reflexivity. }
    rewrite E. change (br_range_enc32le (nth vo v 0 :: firstn n (skipn (vo + 1) v))) with (br_enc32le (nth vo v 0) ++ br_range_enc32le (firstn n (skipn (vo + 1) v))).
    rewrite <- wr_then by (rewrite range_enc_length, firstn_length, skipn_length; cbn [length br_enc32le]; lia).
    destruct (wr dst o (br_enc32le (nth vo v 0))) as [d|] eqn:Ed; [|reflexivity]. cbn [bind].
    rewrite (IH fuel d (o + 4)%nat (vo + 1)%nat Ef); [reflexivity|lia|lia|rewrite (wr_length _ _ _ _ Ed); lia].
Qed.
Lemma gather_c_ok e v : ev e U64 v -> gather_c e = Some (gather v) /\ inr U32 (gather v).
Proof.
  intros E. unfold gather_c. rewrite (w_asg U64 _ _ E). cbn [bind]. destruct E as [_ R]. unfold gather.
  assert (E1 : ev (V U64 v .| (V U64 v >> K 8))%C U64 (Z.lor v (Z.shiftr v 8))) by (evx u64_uns).
  rewrite (w_asg U64 _ _ E1). cbn [bind]. destruct E1 as [_ R1]. set (y := Z.lor v (Z.shiftr v 8)) in *. clearbody y.
  assert (E2 : ev (V U64 y .& M64 0x0000FFFF0000FFFF)%C U64 (Z.land y 0x0000FFFF0000FFFF)) by (evx u64_uns).
  rewrite (w_asg U64 _ _ E2). cbn [bind]. destruct E2 as [_ R2]. cbv zeta. set (u := Z.land y 0x0000FFFF0000FFFF) in *. clearbody u.
  assert (E3 : ev (Cast U32 (V U64 u) .| Cast U32 (V U64 u >> K 16))%C U32 (Z.lor (u32 u) (u32 (Z.shiftr u 16)))).
  { apply (w_or U32 u32_uns); apply (ev_cast_mod U32 _ U64); try discriminate; [apply w_V, R2|]. apply (w_shr' U64 u64_uns); [apply w_V, R2|cbn [width]; lia]. }
  rewrite (w_asg U32 _ _ E3). split; [reflexivity|apply E3].
Qed.
Lemma interleave_out_c_ok wv o q0 q1 : inr U64 q0 -> inr U64 q1 -> (o + 4 <= length wv)%nat ->
  interleave_out_c wv o q0 q1 = wr wv o (br_aes_ct64_interleave_out q0 q1) /\ Forall (inr U32) (br_aes_ct64_interleave_out q0 q1).
Proof.
  intros R0 R1 H. unfold interleave_out_c, br_aes_ct64_interleave_out. cbv zeta.
  destruct (gather_c_ok (V U64 q0 .& M64 0x00FF00FF00FF00FF)%C (Z.land q0 0x00FF00FF00FF00FF)) as [-> G0]; [evx u64_uns|].
  destruct (gather_c_ok (V U64 q1 .& M64 0x00FF00FF00FF00FF)%C (Z.land q1 0x00FF00FF00FF00FF)) as [-> G1]; [evx u64_uns|].
  destruct (gather_c_ok ((V U64 q0 >> K 8) .& M64 0x00FF00FF00FF00FF)%C (Z.land (Z.shiftr q0 8) 0x00FF00FF00FF00FF)) as [-> G2]; [evx u64_uns|].
  destruct (gather_c_ok ((V U64 q1 >> K 8) .& M64 0x00FF00FF00FF00FF)%C (Z.land (Z.shiftr q1 8) 0x00FF00FF00FF00FF)) as [-> G3]; [evx u64_uns|].
  cbn [bind]. split; [|repeat (constructor; try assumption)].
  set (b0 := gather _). set (b1 := gather _). set (b2 := gather _). set (b3 := gather _).
  pose proof (wr_then wv o [b0] [b1] ltac:(cbn [length]; lia)) as W1. pose proof (wr_then wv o [b0; b1] [b2] ltac:(cbn [length]; lia)) as W2.
  pose proof (wr_then wv o [b0; b1; b2] [b3] ltac:(cbn [length]; lia)) as W3. cbn [length app] in W1, W2, W3.
  rewrite <- W3, <- W2, <- W1. destruct (wr wv o [b0]); [|reflexivity]. cbn [bind]. destruct (wr l (o + 1) [b1]); [|reflexivity]. cbn [bind].
  destruct (wr l0 (o + 2) [b2]); reflexivity.
Qed.
Definition ilout (q : list Z) (i : nat) (wv : list Z) : option (list Z) :=
  a <- get q i ;; b <- get q (i + 4) ;; wr wv (4 * i) (br_aes_ct64_interleave_out a b).
Lemma store512_c_ok q wv out : Q64 q -> length wv = 16%nat -> (64 <= length out)%nat ->
  store512_c q wv out = (y <- store512 q ;; wr out 0 y).
Proof.
  intros HQ Lw Lo. unfold store512_c, store512. destruct (ortho64_c_ok q HQ) as [-> HO]. clear HQ.
  destruct (br_aes_ct64_ortho q) as [q'|]; [|reflexivity]. specialize (HO q' eq_refl). clear q. cbn [bind].
  assert (X : agree (fun v => length v = 16%nat) (cfor 5 U32 0 (K 4) (fun i wv =>
          o <- ix (V U32 i << K 2)%C ;; j0 <- ix (V U32 i) ;; j4 <- ix (V U32 i + K 4)%C ;;
          a <- get q' j0 ;; b <- get q' j4 ;; interleave_out_c wv o a b) wv) (iterM 4 0 (ilout q') wv)).
  { apply (cfor_K (fun _ v => length v = 16%nat) U32 4 5); [apply cnt_U32|lia|reflexivity| |exact Lw].
    intros i v Hi Lv. destruct (ix_small U32 i (or_intror eq_refl) Hi) as (-> & -> & ->). cbn [bind]. unfold ilout. destruct HO as [L8 F8].
    rewrite (ShakeProofs.get_nth q' i 0), (ShakeProofs.get_nth q' (i + 4) 0) by lia. cbn [bind]. rewrite Forall_forall in F8.
    destruct (interleave_out_c_ok v (4 * i) (nth i q' 0) (nth (i + 4) q' 0)) as [-> _]; [apply F8, nth_In; lia|apply F8, nth_In; lia|lia|].
    split; [reflexivity|]. intros s E. rewrite (wr_length _ _ _ _ E). exact Lv. }
  destruct X as [-> _].
  destruct (Q8_list U64 q' HO) as (q0 & q1 & q2 & q3 & q4 & q5 & q6 & q7 & -> & R0 & R1 & R2 & R3 & R4 & R5 & R6 & R7).
  destruct (interleave_out_c_ok wv 0 q0 q4 R0 R4 ltac:(lia)) as [_ F0]. destruct (interleave_out_c_ok wv 0 q1 q5 R1 R5 ltac:(lia)) as [_ F1].
  destruct (interleave_out_c_ok wv 0 q2 q6 R2 R6 ltac:(lia)) as [_ F2]. destruct (interleave_out_c_ok wv 0 q3 q7 R3 R7 ltac:(lia)) as [_ F3].
  cbn [iterM]. unfold ilout. cbn [Nat.add Nat.mul get nth_error bind].
  assert (L : forall a b, length (br_aes_ct64_interleave_out a b) = 4%nat) by reflexivity.
  set (g0 := br_aes_ct64_interleave_out q0 q4) in *. set (g1 := br_aes_ct64_interleave_out q1 q5) in *.
  set (g2 := br_aes_ct64_interleave_out q2 q6) in *. set (g3 := br_aes_ct64_interleave_out q3 q7) in *.
  assert (L0 : length g0 = 4%nat) by apply L. assert (L1 : length g1 = 4%nat) by apply L. assert (L2 : length g2 = 4%nat) by apply L. assert (L3 : length g3 = 4%nat) by apply L.
  clearbody g0 g1 g2 g3. clear L.
  assert (E : (w0 <- wr wv 0 g0 ;; w1 <- wr w0 4 g1 ;; w2 <- wr w1 8 g2 ;; w3 <- wr w2 12 g3 ;; Some w3) = Some (g0 ++ g1 ++ g2 ++ g3)).
  { pose proof (wr_then wv 0 g0 g1 ltac:(lia)) as W1. pose proof (wr_then wv 0 (g0 ++ g1) g2 ltac:(rewrite app_length; lia)) as W2.
    pose proof (wr_then wv 0 ((g0 ++ g1) ++ g2) g3 ltac:(rewrite !app_length; lia)) as W3. rewrite L0 in W1. rewrite app_length, L0, L1 in W2. rewrite !app_length, L0, L1, L2 in W3. cbn [Nat.add] in W1, W2, W3.
    rewrite <- W2, <- W1 in W3. rewrite <- !app_assoc in W3. rewrite (wr_all wv (g0 ++ g1 ++ g2 ++ g3)) in W3 by (rewrite !app_length; lia). rewrite <- W3.
    destruct (wr wv 0 g0); [|reflexivity]. cbn [bind]. destruct (wr l 4 g1); [|reflexivity]. cbn [bind]. destruct (wr l0 8 g2); [|reflexivity]. cbn [bind].
    destruct (wr l1 12 g3); reflexivity. }
  rewrite E. cbn [bind]. rewrite (range_enc_ok (g0 ++ g1 ++ g2 ++ g3)) with (n := 16%nat) (fuel := 17%nat) (vo := 0%nat);
    [|repeat (apply Forall_app; split); assumption|reflexivity|lia|rewrite !app_length; lia|lia].
  cbn [skipn]. rewrite firstn_all2 by (rewrite !app_length; lia). reflexivity.
Qed.
Definition encstep (q : list Z) (i : nat) (out : bytes) : option bytes :=
  x <- get q (2 * i) ;; out <- wr out (4 * i) (br_enc32le x) ;; x <- get q (2 * i + 1) ;; wr out (4 * i + 16) (br_enc32le x).
Lemma store256_c_ok q out : Q32 q -> (32 <= length out)%nat -> store256_c q out = (y <- store256 q ;; wr out 0 y).
Proof.
  intros HQ Lo. unfold store256_c, store256. destruct (ortho32_c_ok q HQ) as [-> HO]. clear HQ.
  destruct (br_aes_ct_ortho q) as [q'|]; [|reflexivity]. specialize (HO q' eq_refl). clear q. cbn [bind].
  match goal with |- context [cfor 5 I32 0 (K 4) ?b out] =>
    assert (X : agree (fun v => length v = length out) (cfor 5 I32 0 (K 4) b out) (iterM 4 0 (encstep q') out)) end.
  { apply (cfor_K (fun _ v => length v = length out) I32 4 5); [apply cnt_I32|lia|reflexivity| |reflexivity].
    intros i v Hi Lv. destruct (ix_small2 i Hi) as (-> & -> & ->). cbn [bind]. unfold encstep. destruct HO as [L8 F8].
    rewrite (ShakeProofs.get_nth q' (2 * i) 0), (ShakeProofs.get_nth q' (2 * i + 1) 0) by lia. cbn [bind]. rewrite Forall_forall in F8.
    rewrite enc_c_ok by (try lia; apply F8, nth_In; lia). destruct (wr v (4 * i) _) as [v'|] eqn:Ev; [|exact (agree_none _)]. cbn [bind].
    pose proof (wr_length _ _ _ _ Ev) as Lv'. rewrite enc_c_ok by (try lia; apply F8, nth_In; lia).
    split; [reflexivity|]. intros s E. rewrite (wr_length _ _ _ _ E). lia. }
  destruct X as [-> _].
  destruct (Q8_list U32 q' HO) as (q0 & q1 & q2 & q3 & q4 & q5 & q6 & q7 & -> & _).
  cbn [iterM]. unfold encstep. cbn [Nat.add Nat.mul get nth_error bind].
  unfold br_range_enc32le. cbn [flat_map]. rewrite app_nil_r.
  assert (L : forall a, length (br_enc32le a) = 4%nat) by reflexivity.
  destruct (cut out 4 ltac:(lia)) as (x0 & o1 & -> & L0). rewrite app_length in Lo.
  destruct (cut o1 4 ltac:(lia)) as (x1 & o2 & -> & L1). rewrite app_length in Lo.
  destruct (cut o2 4 ltac:(lia)) as (x2 & o3 & -> & L2). rewrite app_length in Lo.
  destruct (cut o3 4 ltac:(lia)) as (x3 & o4 & -> & L3). rewrite app_length in Lo.
  destruct (cut o4 4 ltac:(lia)) as (x4 & o5 & -> & L4). rewrite app_length in Lo.
  destruct (cut o5 4 ltac:(lia)) as (x5 & o6 & -> & L5). rewrite app_length in Lo.
  destruct (cut o6 4 ltac:(lia)) as (x6 & o7 & -> & L6). rewrite app_length in Lo.
  destruct (cut o7 4 ltac:(lia)) as (x7 & o8 & -> & L7). clear Lo HO.
  set (g0 := br_enc32le q0) in *. set (g1 := br_enc32le q1) in *. set (g2 := br_enc32le q2) in *. set (g3 := br_enc32le q3) in *.
  set (g4 := br_enc32le q4) in *. set (g5 := br_enc32le q5) in *. set (g6 := br_enc32le q6) in *. set (g7 := br_enc32le q7) in *.
  assert (G0 : length g0 = 4%nat) by apply L. assert (G1 : length g1 = 4%nat) by apply L. assert (G2 : length g2 = 4%nat) by apply L. assert (G3 : length g3 = 4%nat) by apply L.
  assert (G4 : length g4 = 4%nat) by apply L. assert (G5 : length g5 = 4%nat) by apply L. assert (G6 : length g6 = 4%nat) by apply L. assert (G7 : length g7 = 4%nat) by apply L.
  clearbody g0 g1 g2 g3 g4 g5 g6 g7. clear L.
  change (wr (x0 ++ ?s) 0 g0) with (wr ([] ++ x0 ++ s) 0 g0).
  rewrite (wr_mid [] x0 _ g0 0) by (cbn [length]; lia). cbn [bind app].
  replace (g0 ++ x1 ++ x2 ++ x3 ++ x4 ++ x5 ++ x6 ++ x7 ++ o8) with ((g0 ++ x1 ++ x2 ++ x3) ++ x4 ++ x5 ++ x6 ++ x7 ++ o8) by now rewrite <- !app_assoc.
  rewrite wr_mid by (rewrite ?app_length; lia). cbn [bind]. rewrite <- !app_assoc.
  rewrite (wr_mid g0 x1) by lia. cbn [bind].
  replace (g0 ++ g2 ++ x2 ++ x3 ++ g1 ++ x5 ++ x6 ++ x7 ++ o8) with ((g0 ++ g2 ++ x2 ++ x3 ++ g1) ++ x5 ++ x6 ++ x7 ++ o8) by now rewrite <- !app_assoc.
  rewrite wr_mid by (rewrite ?app_length; lia). cbn [bind]. rewrite <- !app_assoc.
  replace (g0 ++ g2 ++ x2 ++ x3 ++ g1 ++ g3 ++ x6 ++ x7 ++ o8) with ((g0 ++ g2) ++ x2 ++ x3 ++ g1 ++ g3 ++ x6 ++ x7 ++ o8) by now rewrite <- !app_assoc.
  rewrite wr_mid by (rewrite ?app_length; lia). cbn [bind]. rewrite <- !app_assoc.
  replace (g0 ++ g2 ++ g4 ++ x3 ++ g1 ++ g3 ++ x6 ++ x7 ++ o8) with ((g0 ++ g2 ++ g4 ++ x3 ++ g1 ++ g3) ++ x6 ++ x7 ++ o8) by now rewrite <- !app_assoc.
  rewrite wr_mid by (rewrite ?app_length; lia). cbn [bind]. rewrite <- !app_assoc.
  replace (g0 ++ g2 ++ g4 ++ x3 ++ g1 ++ g3 ++ g5 ++ x7 ++ o8) with ((g0 ++ g2 ++ g4) ++ x3 ++ g1 ++ g3 ++ g5 ++ x7 ++ o8) by now rewrite <- !app_assoc.
  rewrite wr_mid by (rewrite ?app_length; lia). cbn [bind]. rewrite <- !app_assoc.
  replace (g0 ++ g2 ++ g4 ++ g6 ++ g1 ++ g3 ++ g5 ++ x7 ++ o8) with ((g0 ++ g2 ++ g4 ++ g6 ++ g1 ++ g3 ++ g5) ++ x7 ++ o8) by now rewrite <- !app_assoc.
  rewrite wr_mid by (rewrite ?app_length; lia). cbn [bind]. rewrite <- !app_assoc.
  replace (x0 ++ x1 ++ x2 ++ x3 ++ x4 ++ x5 ++ x6 ++ x7 ++ o8) with ((x0 ++ x1 ++ x2 ++ x3 ++ x4 ++ x5 ++ x6 ++ x7) ++ o8) by now rewrite <- !app_assoc.
  rewrite wr_app0 by (rewrite !app_length; lia). now rewrite <- !app_assoc.
Qed.

(** ** The permutations *)
Lemma haraka512_perm_c_ok J rc out inp : length (fst J) = 16%nat -> length (snd J) = 8%nat -> Forall Q64 rc -> (64 <= length out)%nat ->
  haraka512_perm_c J rc out inp = (y <- haraka512_perm rc inp ;; wr out 0 y).
Proof.
  intros L0 L1 Hrc Lo. unfold haraka512_perm_c, haraka512_perm.
  destruct (load512_c_ok U32 (fst J) (snd J) inp 0 (or_intror eq_refl) L0 L1) as [-> HQ].
  assert (Hn : br_range_dec32le 16 inp 0 = None -> load512 inp 0 = None) by (intros E; unfold load512; now rewrite E).
  destruct (range_dec_ok inp 16 17 (fst J) 0 0 eq_refl ltac:(lia) ltac:(lia)) as [_ Hr].
  destruct (br_range_dec32le 16 inp 0) as [wv|]; [|now rewrite Hn]. clear Hn. cbn [bind] in *. destruct (Hr wv eq_refl) as [Lw _]. clear Hr.
  destruct (load512 inp 0) as [q|]; [|reflexivity]. cbn [bind]. specialize (HQ q eq_refl).
  destruct (rounds_c_ok U64 U32 shift_rows_c mix_columns64_c mix_columns mix_state512_x mix_state512 shift_row64 u64_uns cnt_U32 shift64_ok mixcol64_ok mix512_ok rc q Hrc HQ)
    as [-> HR]. cbn [width] in *.
  match goal with |- (q0 <- ?a ;; _) = (y <- (q1 <- ?b ;; _) ;; _) => change b with a; destruct a as [q'|] end; [|reflexivity]. cbn [bind].
  apply store512_c_ok; [apply HR; reflexivity|exact Lw|exact Lo].
Qed.
Lemma feed_forward_c_ok n x y : 0 <= Z.of_nat n < 2 ^ 31 - 1 -> feed_forward_c (Z.of_nat n) x y = feed_forward n x y.
Proof.
  intros H. unfold feed_forward_c, feed_forward. rewrite Nat2Z.id.
  match goal with |- cfor _ _ _ _ ?b _ = iterM _ _ ?f _ => destruct (cfor_K (fun _ _ => True) I32 n (S n) b f cnt_I32 ltac:(lia) eq_refl) with (s := x) as [E _] end;
    [|exact Logic.I|exact E].
  intros i s Hi _. split; [|auto]. rewrite (cnt_ix I32) by (try apply cnt_I32; lia). cbn [bind].
  destruct (get s i) as [a|]; [|reflexivity]. destruct (get y i) as [b|]; [|reflexivity]. cbn [bind].
  assert (E : ev (B a .^ B b)%C I32 (Z.lxor (u8 a) (u8 b))).
  { apply (ev_bin OXor _ _ U8 U8); try reflexivity; try discriminate; try apply ev_B;
      [| |intros _; cbn [opz]]; apply in_range_I32; pose proof (u8_range a); pose proof (u8_range b); try lia.
    pose proof (lxor_bound 8 (u8 a) (u8 b) ltac:(lia) ltac:(lia) ltac:(lia)). lia. }
  rewrite (ev_asg_mod U8 _ I32 _ E) by discriminate. cbn [bind width]. do 2 f_equal. unfold u8.
  change 256 with (2 ^ 8). rewrite <- !Z.land_ones by lia. rewrite land_lxor_distr, <- !Z.land_assoc, Z.land_diag, <- land_lxor_distr. reflexivity.
Qed.
Lemma haraka512_c_ok J buf0 rc out inp : length (fst J) = 16%nat -> length (snd J) = 8%nat -> length buf0 = 64%nat -> Forall Q64 rc -> (32 <= length out)%nat ->
  haraka512_c J buf0 rc out inp = (y <- haraka512 rc inp ;; wr out 0 y).
Proof.
  intros L0 L1 Lb Hrc Lo. unfold haraka512_c, haraka512. rewrite haraka512_perm_c_ok by (try assumption; lia).
  destruct (haraka512_perm rc inp) as [b|] eqn:E; [|reflexivity]. cbn [bind].
  assert (Lp : length b = 64%nat).
  { unfold haraka512_perm in E. destruct (load512 inp 0); [|discriminate]. cbn [bind] in E.
    match type of E with (q <- ?a ;; _) = _ => destruct a as [q|]; [|discriminate] end. cbn [bind] in E. unfold store512 in E.
    destruct (br_aes_ct64_ortho q) as [q'|]; [|discriminate]. cbn [bind] in E.
    do 8 (destruct q' as [|? q']; [discriminate|]). destruct q'; [|discriminate]. injection E as <-. reflexivity. }
  rewrite wr_all by lia. cbn [bind]. rewrite (feed_forward_c_ok 64) by lia.
  destruct (feed_forward 64 b inp) as [f|]; [|reflexivity]. cbn [bind].
  destruct (rd f 8 8) as [a|] eqn:Ea; [|reflexivity]. destruct (rd f 24 8) as [c|] eqn:Ec; [|cbn [bind]; destruct (wr out 0 a); reflexivity].
  cbn [bind]. destruct (rd f 32 8) as [d|] eqn:Ed; [|cbn [bind]; destruct (wr out 0 a) as [o1|]; cbn [bind]; [destruct (wr o1 8 c)|]; reflexivity].
  cbn [bind]. destruct (rd f 48 8) as [g|] eqn:Eg;
    [|cbn [bind]; destruct (wr out 0 a) as [o1|]; cbn [bind]; [destruct (wr o1 8 c) as [o2|]; cbn [bind]; [destruct (wr o2 16 d)|]|]; reflexivity].
  cbn [bind]. assert (La : length a = 8%nat) by (eapply rd_length; eassumption). assert (Lc : length c = 8%nat) by (eapply rd_length; eassumption).
  assert (Ld : length d = 8%nat) by (eapply rd_length; eassumption). assert (Lg : length g = 8%nat) by (eapply rd_length; eassumption).
  pose proof (wr_then out 0 a c ltac:(lia)) as W1. pose proof (wr_then out 0 (a ++ c) d ltac:(rewrite app_length; lia)) as W2.
  pose proof (wr_then out 0 ((a ++ c) ++ d) g ltac:(rewrite !app_length; lia)) as W3. rewrite La in W1. rewrite app_length, La, Lc in W2. rewrite !app_length, La, Lc, Ld in W3. cbn [Nat.add] in W1, W2, W3.
  rewrite <- W2, <- W1 in W3. rewrite <- !app_assoc in W3. rewrite <- W3.
  destruct (wr out 0 a) as [o1|]; [|reflexivity]. cbn [bind]. destruct (wr o1 8 c) as [o2|]; [|reflexivity]. cbn [bind]. destruct (wr o2 16 d); reflexivity.
Qed.
Lemma store256_length q y : store256 q = Some y -> length y = 32%nat.
Proof.
  unfold store256. destruct (br_aes_ct_ortho q) as [q2|]; [|discriminate]. cbn [bind].
  do 8 (destruct q2 as [|? q2]; [discriminate|]). destruct q2; [|discriminate]. intros [= <-]. reflexivity.
Qed.
Lemma perm256_c_ok q0 rc out inp : length q0 = 8%nat -> Forall Q32 rc -> (32 <= length out)%nat ->
  (q <- load256_c q0 inp 0 ;; q <- rounds_c U32 I32 shift_rows32_c mix_columns32_c mix_state256_x rc q ;; store256_c q out)
  = (y <- haraka256_perm rc inp ;; wr out 0 y).
Proof.
  intros L0 Hrc Lo. unfold haraka256_perm.
  destruct (load256_c_ok q0 inp 0 L0) as [-> HQ]. destruct (load256 inp 0) as [q|]; [|reflexivity]. cbn [bind]. specialize (HQ q eq_refl).
  destruct (rounds_c_ok U32 I32 shift_rows32_c mix_columns32_c mix_columns32 mix_state256_x mix_state256 shift_row32 u32_uns cnt_I32 shift32_ok mixcol32_ok mix256_ok rc q Hrc HQ)
    as [-> HR]. cbn [width] in *.
  match goal with |- (q0 <- ?a ;; _) = _ => destruct a as [q'|] end; [|reflexivity]. cbn [bind].
  apply store256_c_ok; [apply HR; reflexivity|exact Lo].
Qed.
Lemma perm256_length rc inp y : haraka256_perm rc inp = Some y -> length y = 32%nat.
Proof.
  unfold haraka256_perm. destruct (load256 inp 0); [|discriminate]. cbn [bind].
  match goal with |- (q <- ?a ;; _) = _ -> _ => destruct a as [q|]; [|discriminate] end. apply store256_length.
Qed.
Lemma assoc3 {A B C D} (a : option A) (f : A -> option B) (g : B -> option C) (h : C -> option D) :
  (q <- a ;; q <- f q ;; o <- g q ;; h o) = (o <- (q <- a ;; q <- f q ;; g q) ;; h o).
Proof. destruct a as [a|]; [|reflexivity]. cbn [bind]. destruct (f a); reflexivity. Qed.
Lemma haraka256_c_ok q0 rc out inp : length q0 = 8%nat -> Forall Q32 rc -> length out = 32%nat ->
  haraka256_c q0 rc out inp = haraka256 rc inp.
Proof.
  intros L0 Hrc Lo. unfold haraka256_c, haraka256. rewrite assoc3, perm256_c_ok by (try assumption; lia).
  destruct (haraka256_perm rc inp) as [y|] eqn:E; [|cbn [bind]; reflexivity]. apply perm256_length in E. cbn [bind]. rewrite wr_all by lia. cbn [bind].
  exact (feed_forward_c_ok 32 y inp ltac:(clear; lia)).
Qed.
