(** The vector permutations compute Keccak-f[1600] in every lane: they agree with
    KeccakF1600_StatePermute of ref/fips202.c. *)
From Verif Require Import Base BaseFacts Fips202 KeccakSpec KeccakProofs ShakeProofs LaneKeccak.

Definition lane (j : nat) (s : list vec) : list Z := map (fun v => v j) s.
Lemma lane_length j s : length (lane j s) = length s.
Proof. apply map_length. Qed.
Lemma lane_app j a b : lane j (a ++ b) = lane j a ++ lane j b.
Proof. apply map_app. Qed.

(** ** Rotations *)
Lemma lor_rol a o : W64 a -> 0 < o < 64 -> Z.lor (u64 (Z.shiftl a o)) (Z.shiftr a (64 - o)) = ROL a o.
Proof.
  intros Ha Ho. apply W64_bits in Ha. destruct Ha as [A1 A2]. unfold ROL.
  symmetry. apply Z.lxor_lor. apply Z.bits_inj'. intros z Hz. rewrite Z.land_spec, Z.bits_0.
  destruct (Z_lt_le_dec z 64) as [H|H].
  - rewrite u64_bit, Z.shiftl_spec, Z.shiftr_spec by lia.
    destruct (Z_lt_le_dec z o) as [H1|H1]; [rewrite Z.testbit_neg_r by lia; reflexivity|].
    rewrite (A2 (z + (64 - o))) by lia. apply andb_false_r.
  - rewrite Z.shiftr_spec, (A2 (z + (64 - o))) by lia. apply andb_false_r.
Qed.
Lemma vrol_lane a o j : W64 (a j) -> 0 < o < 64 -> vrol a o j = ROL (a j) o.
Proof. intros Ha Ho. apply lor_rol; assumption. Qed.
Lemma vror_lane a k j : W64 (a j) -> 0 < k < 64 -> vror a k j = ROL (a j) (64 - k).
Proof.
  intros Ha Ho. unfold vror, vor, vsll, vsrl. rewrite Z.lor_comm.
  rewrite <- lor_rol by (auto; lia). do 2 f_equal. lia.
Qed.

(** ** Byte shuffles *)
Lemma le_word_le l : le_word l = le (map u8 l).
Proof. induction l as [|x l IH]; cbn [le_word fold_right map le]; [reflexivity|]. fold (le_word l). now rewrite IH. Qed.
Lemma le_bit l q r : all_bytes l -> 0 <= r < 8 ->
  Z.testbit (le l) (8 * Z.of_nat q + r) = Z.testbit (nth q l 0) r.
Proof.
  intros Hl Hr. rewrite <- (le_byte l Hl q), u8_bit, Z.shiftr_spec by lia. f_equal. lia.
Qed.
Lemma word_byte_bit w i r : 0 <= r < 8 ->
  Z.testbit (u8 (Z.shiftr w (8 * Z.of_nat i))) r = Z.testbit w (8 * Z.of_nat i + r).
Proof. intros Hr. rewrite u8_bit, Z.shiftr_spec by lia. f_equal. lia. Qed.
(** The word whose byte k is byte p k of w. *)
Lemma bytes_bits w (p : nat -> nat) z : 0 <= z < 64 ->
  Z.testbit (le_word (map (fun k => u8 (Z.shiftr w (8 * Z.of_nat (p k)))) (seq 0 8))) z
  = Z.testbit w (8 * Z.of_nat (p (Z.to_nat (z / 8))) + z mod 8).
Proof.
  intros Hz. rewrite le_word_le.
  assert (Hq : 0 <= z / 8 < 8) by (split; [apply Z.div_pos; lia|apply Z.div_lt_upper_bound; lia]).
  assert (Hr : 0 <= z mod 8 < 8) by (apply Z.mod_pos_bound; lia).
  rewrite (Z.div_mod z 8) at 1 by lia. rewrite <- (Z2Nat.id (z / 8)) at 1 by lia.
  rewrite le_bit by (try apply norm_all; exact Hr). rewrite map_map.
  rewrite <- (word_byte_bit _ _ _ Hr). f_equal.
  erewrite nth_error_nth; [|rewrite nth_error_map_seq by lia; reflexivity].
  cbn [Nat.add]. unfold u8. apply Z.mod_mod. lia.
Qed.
Lemma W64_le_word l : length l = 8%nat -> W64 (le_word l).
Proof. intros H. rewrite le_word_le. apply le_W64; [apply norm_all|now rewrite map_length]. Qed.
Lemma W64_ext a b : W64 a -> W64 b -> (forall z, 0 <= z < 64 -> Z.testbit a z = Z.testbit b z) -> a = b.
Proof.
  intros Ha Hb H. apply W64_bits in Ha, Hb. apply Z.bits_inj'. intros z Hz.
  destruct (Z_lt_le_dec z 64) as [L|L]; [apply H; lia|]. now rewrite (proj2 Ha), (proj2 Hb).
Qed.
Lemma bytes_rol w o (p : nat -> nat) : W64 w -> 0 < o < 64 ->
  (forall z, 0 <= z < 64 -> 8 * Z.of_nat (p (Z.to_nat (z / 8))) + z mod 8 = (z - o) mod 64) ->
  le_word (map (fun k => u8 (Z.shiftr w (8 * Z.of_nat (p k)))) (seq 0 8)) = ROL w o.
Proof.
  intros Hw Ho Hp. apply W64_ext; [now apply W64_le_word|apply W64_rol; [lia|exact Hw]|].
  intros z Hz. rewrite bytes_bits, rol_bit by (auto; lia). now rewrite Hp.
Qed.
Lemma all64 (Q : Z -> Prop) : (forall k, (k < 64)%nat -> Q (Z.of_nat k)) -> forall z, 0 <= z < 64 -> Q z.
Proof. intros H z Hz. rewrite <- (Z2Nat.id z) by lia. apply H. lia. Qed.
Ltac shuffle_tac tab Hj Ha perm :=
  unfold vshuffle; cbn [map seq];
  repeat match goal with |- context [vbyte (vset tab) ?i] =>
    let v := eval vm_compute in (vbyte (vset tab) i) in change (vbyte (vset tab) i) with v end;
  repeat match goal with |- context [Z.testbit ?v 7] =>
    let b := eval vm_compute in (Z.testbit v 7) in change (Z.testbit v 7) with b end;
  cbn match;
  repeat match goal with |- context [vbyte ?a (?x + ?y)] =>
    let i := eval vm_compute in (x + y)%nat in change (x + y)%nat with i end;
  unfold vbyte;
  repeat match goal with |- context [(?a / 8)%nat] =>
    let i := eval vm_compute in (a / 8)%nat in change (a / 8)%nat with i end;
  repeat match goal with |- context [(?a mod 8)%nat] =>
    let i := eval vm_compute in (a mod 8)%nat in change (a mod 8)%nat with i end;
  apply (bytes_rol _ _ (fun k => nth k perm O)); [exact Ha|lia|];
  apply all64; intros k Hk;
  do 64 (destruct k as [|k]; [vm_compute; reflexivity|]); exfalso; lia.
Lemma vshuffle_rho8 a j : (j < 4)%nat -> W64 (a j) -> vshuffle a (vset rho8) j = ROL (a j) 8.
Proof.
  intros Hj Ha. destruct j as [|[|[|[|j]]]]; [| | | |lia]; shuffle_tac rho8 Hj Ha [7;0;1;2;3;4;5;6]%nat.
Qed.
Lemma vshuffle_rho56 a j : (j < 4)%nat -> W64 (a j) -> vshuffle a (vset rho56) j = ROL (a j) 56.
Proof.
  intros Hj Ha. destruct j as [|[|[|[|j]]]]; [| | | |lia]; shuffle_tac rho56 Hj Ha [1;2;3;4;5;6;7;0]%nat.
Qed.

(** ** The AVX2 rounds *)
Lemma round_same rc s : round_E_to_A rc s = round_A_to_E rc s.
Proof. reflexivity. Qed.
Definition parity (s : list Z) : list Z :=
  map (fun x => Z.lxor (Z.lxor (Z.lxor (Z.lxor (nth x s 0) (nth (5 + x) s 0)) (nth (10 + x) s 0))
                  (nth (15 + x) s 0)) (nth (20 + x) s 0)) (seq 0 5).
Ltac vlane :=
  repeat first
   [ progress cbv beta delta [vxor vandnot vset1]
   | rewrite vrol_lane; [|vw64|lia]
   | rewrite vshuffle_rho8; [|assumption|vw64]
   | rewrite vshuffle_rho56; [|assumption|vw64] ]
with vw64 := cbv beta delta [vxor vandnot vset1]; vlane; w64.

Ltac list25 s H :=
  do 25 (destruct s as [|? s]; [discriminate H|]); destruct s; [clear H|discriminate H].
Ltac list5 s H :=
  do 5 (destruct s as [|? s]; [discriminate H|]); destruct s; [clear H|discriminate H].
Ltac allW H := repeat match type of H with Forall _ (_ :: _) => 
   let H1 := fresh "W" in inversion_clear H as [|? ? H1 H2]; rename H2 into H end.

Lemma prepare_lane s : length s = 25%nat -> exists C, prepareTheta s = Some (s ++ C) /\ length C = 5%nat
  /\ forall j, lane j C = parity (lane j s).
Proof.
  intros H. list25 s H. eexists. split; [reflexivity|]. split; [reflexivity|]. intros j.
  cbv [lane map parity nth seq Nat.add vxor]. rewrite !Z.lxor_assoc. reflexivity.
Qed.

Lemma cons_eq (a b : Z) l m : a = b -> l = m -> a :: l = b :: m.
Proof. intros -> ->. reflexivity. Qed.
Lemma round4_lane rc s C : length s = 25%nat -> length C = 5%nat ->
  exists s' C', thetaRhoPiChiIotaPrepareTheta rc (s ++ C) = Some (s' ++ C')
    /\ length s' = 25%nat /\ length C' = 5%nat
    /\ forall j, (j < 4)%nat -> Forall W64 (lane j s) -> lane j C = parity (lane j s) ->
         round_A_to_E rc (lane j s) = Some (lane j s') /\ lane j C' = parity (lane j s').
Proof.
  intros H HC. list25 s H. list5 C HC.
  match goal with |- exists s' C', ?t = Some (s' ++ C') /\ _ =>
    let r := eval cbv beta iota zeta delta [thetaRhoPiChiIotaPrepareTheta app] in t in
    match r with Some ?l =>
      let l1 := eval cbv [firstn] in (firstn 25 l) in let l2 := eval cbv [skipn] in (skipn 25 l) in
      exists l1, l2 end end.
  split; [reflexivity|]. split; [reflexivity|]. split; [reflexivity|].
  intros j Hj HW HP. split; [|reflexivity].
  cbv [lane map] in HW. allW HW. clear HW.
  cbv [lane map parity nth seq Nat.add] in HP. injection HP as P1 P2 P3 P4 P5.
  cbv beta iota zeta delta [round_A_to_E lane map].
  f_equal.
  rewrite <- P1, <- P2, <- P3, <- P4, <- P5.
  assert (WC1 : W64 (v24 j)) by (rewrite P1; w64). assert (WC2 : W64 (v25 j)) by (rewrite P2; w64).
  assert (WC3 : W64 (v26 j)) by (rewrite P3; w64). assert (WC4 : W64 (v27 j)) by (rewrite P4; w64).
  assert (WC5 : W64 (v28 j)) by (rewrite P5; w64). clear P1 P2 P3 P4 P5.
  repeat (apply cons_eq; [symmetry; vlane; reflexivity|]). reflexivity.
Qed.
Lemma round4_last rc s C : length s = 25%nat -> length C = 5%nat ->
  exists s', thetaRhoPiChiIota rc (s ++ C) = Some s' /\ length s' = 25%nat
    /\ forall j, (j < 4)%nat -> Forall W64 (lane j s) -> lane j C = parity (lane j s) ->
         round_A_to_E rc (lane j s) = Some (lane j s').
Proof.
  intros H HC. destruct (round4_lane rc s C H HC) as (s' & C' & E & L & _ & R).
  exists s'. split; [|split; [exact L|intros j H1 H2 H3; apply R; assumption]].
  clear R. list25 s H. list5 C HC.
  assert (T : forall l : list vec, thetaRhoPiChiIotaPrepareTheta rc (([v; v0; v1; v2; v3; v4; v5; v6; v7; v8; v9; v10; v11; v12; v13; v14; v15; v16; v17; v18; v19; v20; v21; v22; v23] ++ [v24; v25; v26; v27; v28])) = Some l ->
    thetaRhoPiChiIota rc (([v; v0; v1; v2; v3; v4; v5; v6; v7; v8; v9; v10; v11; v12; v13; v14; v15; v16; v17; v18; v19; v20; v21; v22; v23] ++ [v24; v25; v26; v27; v28])) = Some (firstn 25 l)).
  { intros l El. injection El as <-. reflexivity. }
  rewrite (T _ E). f_equal. rewrite firstn_app, L, firstn_all2 by lia. cbn [Nat.sub firstn]. apply app_nil_r.
Qed.

(** What a vector permutation has to do: the permutation of ref/fips202.c in every lane. *)
Definition perm_ok (NLn : nat) (perm : list vec -> option (list vec)) : Prop :=
  forall s, length s = 25%nat -> (forall j, (j < NLn)%nat -> Forall W64 (lane j s)) ->
  exists s', perm s = Some s' /\ length s' = 25%nat
    /\ forall j, (j < NLn)%nat -> Forall W64 (lane j s')
         /\ KeccakF1600_StatePermute (lane j s) = Some (lane j s').

(** The scalar loop, one round at a time. *)
Definition rounds_to (k : nat) (s : list Z) : option (list Z) :=
  iterM k 0 (fun i s => rc <- get KeccakF_RoundConstants i ;; round_A_to_E rc s) s.
Lemma iterM_snoc {S} k f : forall i (s : S), iterM (Datatypes.S k) i f s = (s <- iterM k i f s ;; f (i + k)%nat s).
Proof.
  induction k as [|k IH]; intros i s.
  - cbn [iterM]. rewrite Nat.add_0_r. cbn [bind]. destruct (f i s); reflexivity.
  - cbn [iterM]. cbn [iterM] in IH. destruct (f i s) as [s1|]; cbn [bind]; [|reflexivity].
    rewrite IH. f_equal. replace (Datatypes.S i + k)%nat with (i + Datatypes.S k)%nat by lia. reflexivity.
Qed.
Lemma keccak_rounds_to s : keccak_rounds s = rounds_to 24 s.
Proof.
  unfold keccak_rounds, rounds_to.
  assert (H : forall k i (s : list Z),
    iterM k i (fun k s => rc0 <- get KeccakF_RoundConstants (2 * k) ;; rc1 <- get KeccakF_RoundConstants (2 * k + 1) ;;
       s <- round_A_to_E rc0 s ;; round_E_to_A rc1 s) s = 
    iterM (2 * k) (2 * i) (fun i s => rc <- get KeccakF_RoundConstants i ;; round_A_to_E rc s) s \/ (12 < i + k)%nat).
  { induction k as [|k IH]; intros i s0; [left; reflexivity|].
    destruct (le_lt_dec (i + S k) 12) as [Hle|Hlt]; [|right; lia]. left.
    replace (2 * S k)%nat with (S (S (2 * k))) by lia. cbn [iterM].
    destruct (rc_table (2 * i)) as (w0 & E0 & _); [lia|]. destruct (rc_table (2 * i + 1)) as (w1 & E1 & _); [lia|].
    rewrite E0. replace (S (2 * i)) with (2 * i + 1)%nat by lia. rewrite E1. cbn [bind].
    destruct (round_A_to_E w0 s0) as [s1|]; cbn [bind]; [|reflexivity].
    rewrite round_same. destruct (round_A_to_E w1 s1) as [s2|]; cbn [bind]; [|reflexivity].
    destruct (IH (S i) s2) as [->|]; [|lia]. f_equal. lia. }
  destruct (H 12%nat 0%nat s) as [E|E]; [exact E|lia].
Qed.
Lemma rounds_to_W k s : (k <= 24)%nat -> length s = 25%nat -> Forall W64 s -> forall s', rounds_to k s = Some s' ->
  length s' = 25%nat /\ Forall W64 s'.
Proof.
  intros Hk Hl Hs s' E. unfold rounds_to in E.
  destruct (iterM_inv k 0 (fun i s => rc <- get KeccakF_RoundConstants i ;; round_A_to_E rc s)
    (fun _ s => length s = 25%nat /\ Forall W64 s) s) as (s1 & E1 & H1); [auto| |].
  - intros i t Hi [Lt Wt]. destruct (rc_table i) as (w & Ew & Rw); [lia|].
    rewrite Ew. cbn [bind]. destruct (half_A_E w i t Rw Lt Wt) as (t' & F & L' & W' & _).
    exists t'. auto.
  - rewrite E in E1. injection E1 as ->. exact H1.
Qed.
Lemma permute_rounds s : length s = 25%nat -> KeccakF1600_StatePermute s = rounds_to 24 s.
Proof.
  intros Hl. unfold KeccakF1600_StatePermute. rewrite rd_all by auto. cbn [bind].
  rewrite keccak_rounds_to. destruct (rounds_to 24 s) as [s'|] eqn:E; cbn [bind]; [|reflexivity].
  apply wr_all. assert (length s' = 25%nat); [|lia].
  unfold rounds_to in E. rewrite iterM_snoc in E.
  destruct (iterM 23 0 _ s) as [t|]; [|discriminate]. cbn [bind] in E.
  destruct (get KeccakF_RoundConstants (0 + 23)) as [w|]; [|discriminate]. cbn [bind] in E.
  destruct t as [|x0 t]; [discriminate E|]. do 24 (destruct t as [|? t]; [discriminate E|]).
  destruct t; [|discriminate E]. injection E as <-. reflexivity.
Qed.

Theorem times4_ok : perm_ok 4 KeccakP1600times4_PermuteAll_24rounds.
Proof.
  intros s Hl HW. unfold KeccakP1600times4_PermuteAll_24rounds. rewrite Hl. cbn [Nat.eqb guard bind].
  unfold rounds24. destruct (prepare_lane s Hl) as (C & EC & LC & PC). rewrite EC. cbn [bind].
  destruct (iterM_inv 23 0 (fun i s => rc <- get KeccakF1600RoundConstants i ;; thetaRhoPiChiIotaPrepareTheta rc s)
    (fun k t => exists t0 Ct, t = t0 ++ Ct /\ length t0 = 25%nat /\ length Ct = 5%nat
       /\ forall j, (j < 4)%nat -> rounds_to k (lane j s) = Some (lane j t0) /\ lane j Ct = parity (lane j t0)) (s ++ C))
    as (t & E & t0 & Ct & -> & L0 & LCt & HL).
  - exists s, C. split; [reflexivity|]. split; [exact Hl|]. split; [exact LC|].
    intros j Hj. split; [reflexivity|apply PC].
  - intros i t Hi (t0 & Ct & -> & L0 & LCt & HL).
    change KeccakF1600RoundConstants with KeccakF_RoundConstants.
    destruct (rc_table i) as (w & Ew & _); [lia|]. rewrite Ew. cbn [bind].
    destruct (round4_lane w t0 Ct L0 LCt) as (t1 & C1 & E1 & L1 & LC1 & R1).
    exists (t1 ++ C1). split; [exact E1|]. exists t1, C1. split; [reflexivity|]. split; [exact L1|].
    split; [exact LC1|]. intros j Hj. destruct (HL j Hj) as [HR HP].
    assert (Wj : Forall W64 (lane j t0)).
    { eapply (rounds_to_W i (lane j s)); [lia|now rewrite lane_length|now apply HW|exact HR]. }
    destruct (R1 j Hj Wj HP) as [R2 R3]. split; [|exact R3].
    unfold rounds_to. rewrite iterM_snoc. fold (rounds_to i (lane j s)). rewrite HR. cbn [bind Nat.add].
    rewrite Ew. exact R2.
  - rewrite E. cbn [bind]. change KeccakF1600RoundConstants with KeccakF_RoundConstants.
    destruct (rc_table 23) as (w & Ew & Rw); [lia|]. rewrite Ew. cbn [bind].
    destruct (round4_last w t0 Ct L0 LCt) as (s' & E1 & L1 & R1).
    exists s'. split; [exact E1|]. split; [exact L1|]. intros j Hj.
    cbn [Nat.add] in HL. destruct (HL j Hj) as [HR HP].
    assert (Wj : Forall W64 (lane j t0)).
    { eapply (rounds_to_W 23 (lane j s)); [lia|now rewrite lane_length|now apply HW|exact HR]. }
    specialize (R1 j Hj Wj HP).
    assert (HF : rounds_to 24 (lane j s) = Some (lane j s')).
    { unfold rounds_to. rewrite iterM_snoc. fold (rounds_to 23 (lane j s)). rewrite HR. cbn [bind Nat.add].
      rewrite Ew. exact R1. }
    split; [|now rewrite permute_rounds by (rewrite lane_length; exact Hl)].
    eapply (rounds_to_W 24 (lane j s)); [lia|now rewrite lane_length|now apply HW|exact HF].
Qed.

(** ** The ARMv8 rounds *)
Ltac rlane :=
  repeat first
   [ progress cbv beta delta [vxor vandnot vset1]
   | rewrite vror_lane; [|rw64|lia] ]
with rw64 := cbv beta delta [vxor vandnot vset1]; rlane; w64.
Lemma round_code_lane s t w x1 : length s = 25%nat -> length t = 7%nat ->
  exists s' t', exec_all round_code (s ++ t, w :: x1) = Some (s' ++ t', x1)
  /\ length s' = 25%nat /\ length t' = 7%nat
  /\ forall j, Forall W64 (lane j s) -> round_A_to_E w (lane j s) = Some (lane j s').
Proof.
  intros H Ht. list25 s H.
  do 7 (destruct t as [|? t]; [discriminate Ht|]); destruct t; [clear Ht|discriminate Ht].
  match goal with |- exists s' C', ?t = Some (s' ++ C', x1) /\ _ =>
    let r := eval cbv [exec_all round_code exec app vput get nth_error firstn skipn length Nat.ltb Nat.leb bind] in t in
    match r with Some (?l, _) =>
      let l1 := eval cbv [firstn] in (firstn 25 l) in let l2 := eval cbv [skipn] in (skipn 25 l) in
      exists l1, l2 end end.
  split; [reflexivity|]. split; [reflexivity|]. split; [reflexivity|].
  intros j HW. cbv [lane map] in HW. allW HW. clear HW.
  cbv beta iota zeta delta [round_A_to_E lane map]. f_equal.
  repeat (apply cons_eq; [symmetry; rlane; reflexivity|]). reflexivity.
Qed.
Theorem f1600x2_ok r0 : length r0 = 7%nat -> forall n, perm_ok n (f1600x2 r0).
Proof.
  intros H7 n s Hl HW. unfold f1600x2. rewrite Hl, H7. cbn [Nat.eqb guard bind].
  assert (Hskip : forall i, (i < 24)%nat -> exists w, get f1600_RC i = Some w /\ get KeccakF_RoundConstants i = Some w
            /\ skipn i f1600_RC = w :: skipn (S i) f1600_RC).
  { intros i Hi. do 24 (destruct i as [|i]; [eexists; split; [reflexivity|split; reflexivity]|]). lia. }
  destruct (iterM_inv 24 0 (fun _ st => exec_all round_code st)
    (fun k st => exists t u, st = (t ++ u, skipn k f1600_RC) /\ length t = 25%nat /\ length u = 7%nat
       /\ forall j, (j < n)%nat -> rounds_to k (lane j s) = Some (lane j t)) (s ++ r0, f1600_RC))
    as (st & E & t & u & -> & L & Lu & HR).
  - exists s, r0. auto.
  - intros i st Hi (t & u & -> & L & Lu & HR). destruct (Hskip i) as (w & _ & Ew & Es); [lia|].
    rewrite Es. destruct (round_code_lane t u w (skipn (S i) f1600_RC) L Lu) as (t' & u' & E' & L' & Lu' & R').
    eexists. split; [exact E'|]. exists t', u'. split; [reflexivity|]. split; [exact L'|]. split; [exact Lu'|].
    intros j Hj. unfold rounds_to. rewrite iterM_snoc. fold (rounds_to i (lane j s)). rewrite (HR j Hj).
    cbn [bind Nat.add]. rewrite Ew. cbn [bind]. apply R'.
    eapply (rounds_to_W i (lane j s)); [lia|now rewrite lane_length|now apply HW|now apply HR].
  - rewrite E. cbn [bind]. exists t. split.
    { f_equal. rewrite firstn_app, L, firstn_all2 by lia. cbn [Nat.sub firstn]. apply app_nil_r. }
    split; [exact L|]. intros j Hj. cbn [Nat.add] in HR. specialize (HR j Hj).
    split; [|now rewrite permute_rounds by (rewrite lane_length; exact Hl)].
    eapply (rounds_to_W 24 (lane j s)); [lia|now rewrite lane_length|now apply HW|exact HR].
Qed.
