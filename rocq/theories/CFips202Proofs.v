(** The C-typed Keccak code is defined and computes what the model does. *)
From Verif Require Import Base BaseFacts Fips202 CInt CCore CIntFacts CCoreProofs CWord CSha2 CSha2Proofs CFips202.
From Verif Require Import KeccakSpec KeccakProofs ShakeProofs.
Local Open Scope Z_scope.

Notation words := (Forall (inr U64)).
Lemma ROL_x_ok e a k : ev e U64 a -> 0 < k < 64 -> ev (ROL_x e k) U64 (ROL a k).
Proof.
  intros H Hk. unfold ROL_x, ROL. apply (w_xor U64 u64_uns).
  - apply (w_shl U64 u64_uns _ _ I32); [exact H|apply ev_K; lia|cbn [width]; lia].
  - apply (w_shr U64 u64_uns _ _ I32); [exact H| |cbn [width]; lia].
    apply (ev_bin OSub _ _ I32 I32); [apply ev_K; lia|apply ev_K; lia|reflexivity|apply in_range_I32; lia|apply in_range_I32; lia|discriminate|].
    intros _. apply in_range_I32. cbn [opz]. lia.
Qed.
Lemma chi_ok a b c : inr U64 a -> inr U64 b -> inr U64 c ->
  ev (V U64 a .^ (Not (V U64 b) .& V U64 c))%C U64 (Z.lxor a (Z.land (Z.lnot b) c)).
Proof.
  intros A B C. apply (w_xor U64 u64_uns); [apply w_V, A|]. rewrite <- (land_not U64 u64_uns b c B C).
  apply (w_and U64 u64_uns); [apply (w_not U64 u64_uns), w_V, B|apply w_V, C].
Qed.
Ltac kev := lazymatch goal with
  | |- ev (Bin OXor (V _ _) (Bin OAnd _ _)) _ _ => apply chi_ok; assumption
  | |- ev (Bin OXor _ _) _ _ => apply (w_xor U64 u64_uns); kev
  | |- ev (ROL_x _ _) _ _ => apply ROL_x_ok; [kev|lia]
  | |- ev (V _ _) _ _ => apply w_V; assumption
  end.
Lemma round_A_ok rc s : inr U64 rc -> words s -> agree (fun s' => words s') (round_A_to_E_c rc s) (round_A_to_E rc s).
Proof.
  intros Hrc W.
  do 25 (destruct s as [|? s]; [exact (agree_none _)|]). destruct s as [|? s]; [|exact (agree_none _)].
  repeat match goal with H : Forall _ (_ :: _) |- _ => inversion_clear H end.
  match goal with H : Forall _ [] |- _ => clear H end.
  cbv beta iota delta [round_A_to_E_c round_A_to_E].
  repeat (alet; [kev|intros]).
  apply agree_ret. repeat (constructor; [assumption|]). constructor.
Qed.
Lemma round_E_ok rc s : inr U64 rc -> words s -> agree (fun s' => words s') (round_E_to_A_c rc s) (round_E_to_A rc s).
Proof.
  intros Hrc W.
  do 25 (destruct s as [|? s]; [exact (agree_none _)|]). destruct s as [|? s]; [|exact (agree_none _)].
  repeat match goal with H : Forall _ (_ :: _) |- _ => inversion_clear H end.
  match goal with H : Forall _ [] |- _ => clear H end.
  cbv beta iota delta [round_E_to_A_c round_E_to_A].
  repeat (alet; [kev|intros]).
  apply agree_ret. repeat (constructor; [assumption|]). constructor.
Qed.
Lemma W64_inr z : W64 z <-> inr U64 z.
Proof. unfold W64. rewrite (inr_iff U64) by exact u64_uns. reflexivity. Qed.
Lemma words_W64 s : Forall W64 s <-> words s.
Proof. split; apply Forall_impl; intros a; apply W64_inr. Qed.
Lemma RC_words : words KeccakF_RoundConstants.
Proof. unfold KeccakF_RoundConstants. repeat constructor. Qed.

Local Notation rstep := (fun k s =>
    rc0 <- get KeccakF_RoundConstants (2 * k) ;;
    rc1 <- get KeccakF_RoundConstants (2 * k + 1) ;;
    s <- round_A_to_E rc0 s ;;
    round_E_to_A rc1 s).
Lemma rounds_c_ok : forall k fuel s, fuel = S k -> (k <= 12)%nat -> words s ->
  keccak_rounds_c fuel (Z.of_nat (24 - 2 * k)) s = iterM k (12 - k) rstep s.
Proof.
  induction k as [|k IH]; intros fuel s Hf Hk W; (destruct fuel as [|fuel]; [discriminate|]); injection Hf as Hf; cbn [keccak_rounds_c iterM].
  - reflexivity.
  - rewrite (cond_lt _ _ I32 (Z.of_nat (24 - 2 * S k)) 24);
      [|apply ev_V, in_range_I32; lia|exists I32; split; [apply ev_K; lia|split; apply in_range_I32; lia]].
    cbn [bind]. replace (Z.of_nat (24 - 2 * S k) <? 24) with true by lia.
    rewrite (ev_ix _ I32 (Z.of_nat (24 - 2 * S k))) by (try apply ev_V, in_range_I32; lia). cbn [bind]. rewrite Nat2Z.id.
    assert (X : ev (V I32 (Z.of_nat (24 - 2 * S k)) + K 1)%C I32 (Z.of_nat (24 - 2 * S k) + 1)).
    { apply (ev_bin OAdd _ _ I32 I32); [apply ev_V, in_range_I32; lia|apply ev_K; lia|reflexivity|apply in_range_I32; lia|apply in_range_I32; lia|discriminate|].
      intros _. apply in_range_I32. cbn [opz]. lia. }
    rewrite (ev_ix _ I32 _ X) by lia. cbn [bind].
    assert (Y : ev (V I32 (Z.of_nat (24 - 2 * S k)) + K 2)%C I32 (Z.of_nat (24 - 2 * S k) + 2)).
    { apply (ev_bin OAdd _ _ I32 I32); [apply ev_V, in_range_I32; lia|apply ev_K; lia|reflexivity|apply in_range_I32; lia|apply in_range_I32; lia|discriminate|].
      intros _. apply in_range_I32. cbn [opz]. lia. }
    replace (24 - 2 * S k)%nat with (2 * (12 - S k))%nat in * by lia.
    replace (Z.to_nat (Z.of_nat (2 * (12 - S k)) + 1)) with (2 * (12 - S k) + 1)%nat by lia.
    rewrite (get_nth KeccakF_RoundConstants (2 * (12 - S k)) 0) by (cbn [KeccakF_RoundConstants length]; lia). cbn [bind].
    rewrite (get_nth KeccakF_RoundConstants (2 * (12 - S k) + 1) 0) by (cbn [KeccakF_RoundConstants length]; lia). cbn [bind].
    set (rc0 := nth (2 * (12 - S k)) KeccakF_RoundConstants 0). set (rc1 := nth (2 * (12 - S k) + 1) KeccakF_RoundConstants 0).
    assert (R0 : inr U64 rc0) by (apply W64_inr, Forall_nth_W, words_W64, RC_words).
    assert (R1 : inr U64 rc1) by (apply W64_inr, Forall_nth_W, words_W64, RC_words). clearbody rc0 rc1.
    destruct (round_A_ok rc0 s R0 W) as [-> Q]. destruct (round_A_to_E rc0 s) as [s1|]; [|reflexivity]. cbn [bind].
    specialize (Q s1 eq_refl).
    destruct (round_E_ok rc1 s1 R1 Q) as [-> Q2]. destruct (round_E_to_A rc1 s1) as [s2|]; [|reflexivity]. cbn [bind].
    specialize (Q2 s2 eq_refl).
    rewrite (ev_asg I32 _ I32 _ Y) by apply Y. cbn [bind].
    replace (Z.of_nat (2 * (12 - S k)) + 2) with (Z.of_nat (24 - 2 * k)) by lia. rewrite (IH fuel s2) by (lia || exact Q2).
    f_equal. lia.
Qed.
Lemma permute_c_ok s t : length s = 25%nat -> Forall W64 s ->
  KeccakF1600_StatePermute_c (s ++ t) = KeccakF1600_StatePermute (s ++ t).
Proof.
  intros L W. unfold KeccakF1600_StatePermute_c, KeccakF1600_StatePermute. rewrite (rd_app0 s t 25) by auto. cbn [bind].
  change (keccak_rounds_c 13 0 s) with (keccak_rounds_c 13 (Z.of_nat (24 - 2 * 12)) s).
  rewrite (rounds_c_ok 12 13 s); [reflexivity|reflexivity|lia|apply words_W64, W].
Qed.

(** ** Loops *)
Lemma cloop_uns {S : Type} (Inv : nat -> S -> Prop) n k0 c (body : Z -> S -> option S) (f : nat -> S -> option S) :
  Z.of_nat (k0 + n) < 2 ^ 64 ->
  (forall i s, (k0 <= i <= k0 + n)%nat -> Inv i s -> c (Z.of_nat i) s = Some (Z.of_nat i <? Z.of_nat (k0 + n))) ->
  (forall i s, (k0 <= i < k0 + n)%nat -> Inv i s ->
    body (Z.of_nat i) s = f i s /\ (forall s', f i s = Some s' -> Inv (Datatypes.S i) s')) ->
  forall fuel s, (n < fuel)%nat -> Inv k0 s ->
    cloop fuel U64 (Z.of_nat k0) c body s = (s' <- iterM n k0 f s ;; Some (Z.of_nat (k0 + n), s')).
Proof.
  intros Hn Hb Hstep.
  assert (G : forall k fuel i s, (i + k = k0 + n)%nat -> (k0 <= i)%nat -> (k < fuel)%nat -> Inv i s ->
    cloop fuel U64 (Z.of_nat i) c body s = (s' <- iterM k i f s ;; Some (Z.of_nat (k0 + n), s'))).
  { induction k as [|k IH]; intros fuel i s Hi Hi0 Hf HI; (destruct fuel as [|fuel]; [lia|]); cbn [cloop iterM]; rewrite Hb by (lia || exact HI); cbn [bind].
    - replace (Z.of_nat i <? Z.of_nat (k0 + n)) with false by lia. do 2 f_equal. lia.
    - replace (Z.of_nat i <? Z.of_nat (k0 + n)) with true by lia.
      destruct (Hstep i s ltac:(lia) HI) as [E N]. rewrite E. destruct (f i s) as [s'|]; [|reflexivity]. cbn [bind].
      rewrite (w_asg U64 _ ((Z.of_nat i + 1) mod 2 ^ 64)).
      + cbn [bind]. rewrite Z.mod_small by lia. replace (Z.of_nat i + 1) with (Z.of_nat (Datatypes.S i)) by lia.
        apply (IH fuel (Datatypes.S i) s'); [lia|lia|lia|]. apply N. reflexivity.
      + apply (w_addK U64 u64_uns); [apply w_V, in_range_U64; lia|apply ev_K; lia|lia]. }
  intros fuel s Hf HI. apply (G n fuel k0 s); [lia|lia|exact Hf|exact HI].
Qed.
(** when the state after i iterations is known *)
Lemma cloop_det {S : Type} (st : nat -> S) n c (body : Z -> S -> option S) : Z.of_nat n < 2 ^ 64 ->
  (forall i, (i <= n)%nat -> c (Z.of_nat i) (st i) = Some (Z.of_nat i <? Z.of_nat n)) ->
  (forall i, (i < n)%nat -> body (Z.of_nat i) (st i) = Some (st (Datatypes.S i))) ->
  forall fuel, (n < fuel)%nat -> cloop fuel U64 0 c body (st 0%nat) = Some (Z.of_nat n, st n).
Proof.
  intros Hn Hc Hb fuel Hf.
  rewrite (cloop_uns (fun i s => s = st i) n 0 c body (fun i s => Some (st (Datatypes.S i))) Hn); [|intros i s Hi ->; apply Hc; lia| |exact Hf|reflexivity].
  - cbn [Nat.add]. assert (X : forall k i, (i + k = n)%nat -> iterM k i (fun i s => Some (st (Datatypes.S i))) (st i) = Some (st n)).
    { induction k as [|k IH]; intros i Hi; cbn [iterM]; [f_equal; f_equal; lia|]. cbn [bind]. apply IH. lia. }
    rewrite (X n 0%nat) by lia. reflexivity.
  - intros i s Hi ->. split; [apply Hb; lia|]. intros s' [= <-]. reflexivity.
Qed.
Lemma cfor_cloop {S : Type} t bound (body : Z -> S -> option S) : forall fuel i s,
  cfor fuel t i bound body s = (p <- cloop fuel t i (fun i _ => cond (V t i < bound)%C) body s ;; Some (snd p)).
Proof.
  induction fuel as [|fuel IH]; intros i s; [reflexivity|]. cbn [cfor cloop]. destruct (cond (V t i < bound)%C) as [[]|]; try reflexivity.
  cbn [bind]. destruct (body i s) as [s'|]; [|reflexivity]. cbn [bind]. destruct (asg t (V t i + K 1)%C); [apply IH|reflexivity].
Qed.
Lemma cfor_det {S : Type} (st : nat -> S) n bound (body : Z -> S -> option S) : Z.of_nat n < 2 ^ 64 ->
  (forall i, (i <= n)%nat -> cond (V U64 (Z.of_nat i) < bound)%C = Some (Z.of_nat i <? Z.of_nat n)) ->
  (forall i, (i < n)%nat -> body (Z.of_nat i) (st i) = Some (st (Datatypes.S i))) ->
  forall fuel, (n < fuel)%nat -> cfor fuel U64 0 bound body (st 0%nat) = Some (st n).
Proof. intros Hn Hc Hb fuel Hf. rewrite cfor_cloop, (cloop_det st n) by assumption. reflexivity. Qed.
Lemma cfor_gen {S : Type} (Inv : nat -> S -> Prop) n bound (body : Z -> S -> option S) (f : nat -> S -> option S) :
  Z.of_nat n < 2 ^ 64 ->
  (forall i, (i <= n)%nat -> cond (V U64 (Z.of_nat i) < bound)%C = Some (Z.of_nat i <? Z.of_nat n)) ->
  (forall i s, (i < n)%nat -> Inv i s -> body (Z.of_nat i) s = f i s /\ (forall s', f i s = Some s' -> Inv (Datatypes.S i) s')) ->
  forall fuel s, (n < fuel)%nat -> Inv 0%nat s -> cfor fuel U64 0 bound body s = iterM n 0 f s.
Proof.
  intros Hn Hc Hb fuel s Hf Hi. rewrite cfor_cloop, (cloop_uns Inv n 0 _ body f Hn); [| | |exact Hf|exact Hi].
  - destruct (iterM n 0 f s); reflexivity.
  - intros i s' H _. apply Hc. lia.
  - intros i s' H. apply Hb. lia.
Qed.
Lemma ltK i k : 0 <= i < 2 ^ 64 -> 0 <= k < 2 ^ 31 -> cond (V U64 i < K k)%C = Some (i <? k).
Proof. intros H Hk. apply (cond_lt64 _ _ I32); [right; reflexivity|exact H|apply ev_K; lia|lia]. Qed.
Lemma lt32 i k : 0 <= i < 2 ^ 64 -> 0 <= k < 2 ^ 32 -> cond (V U64 i < V U32 k)%C = Some (i <? k).
Proof. intros H Hk. apply (cond_lt64 _ _ U32); [left; exact u32_uns|exact H|apply w_V, in_range_U32; lia|lia]. Qed.
Lemma lt64 i k : 0 <= i < 2 ^ 64 -> 0 <= k < 2 ^ 64 -> cond (V U64 i < V U64 k)%C = Some (i <? k).
Proof. intros H Hk. apply (cond_lt64 _ _ U64); [left; exact u64_uns|exact H|apply w_V, in_range_U64; lia|lia]. Qed.
Lemma ixn i : Z.of_nat i < 2 ^ 64 -> ix (V U64 (Z.of_nat i)) = Some i.
Proof. intros H. rewrite ix64 by lia. now rewrite Nat2Z.id. Qed.
Lemma get_skip {A} (m : list A) o i : get (skipn o m) i = get m (o + i).
Proof.
  unfold get. revert m. induction o as [|o IH]; intros m; [reflexivity|]. destruct m as [|x m]; [now destruct i|]. cbn [skipn Nat.add nth_error]. apply IH.
Qed.
Lemma get_firstn {A} (m : list A) k i : (i < k)%nat -> get (firstn k m) i = get m i.
Proof.
  unfold get. revert m i. induction k as [|k IH]; intros m i H; [lia|]. destruct m as [|x m]; [reflexivity|]. destruct i as [|i]; [reflexivity|].
  cbn [firstn nth_error]. apply IH. lia.
Qed.
Lemma mulK8 i : 8 * Z.of_nat i < 2 ^ 64 -> ev (K 8 * V U64 (Z.of_nat i))%C U64 (8 * Z.of_nat i).
Proof. intros H. eapply ev_as; [apply mul64; lia|reflexivity|]. apply Z.mod_small. lia. Qed.

Lemma load64_c_ok x o : load64_c x o = load64 (firstn 8 (skipn o x)).
Proof.
  unfold load64_c, load64. apply (cfor_gen (fun _ r => inr U64 r)); [reflexivity| | |lia|reflexivity].
  - intros i Hi. apply ltK; lia.
  - intros i r Hi Hr. rewrite ixn by lia. cbn [bind]. rewrite get_firstn by lia. rewrite get_skip.
    destruct (get x (o + i)) as [v|]; [|split; [reflexivity|discriminate]]. cbn [bind].
    assert (E : ev (V U64 r .| (Cast U64 (B v) << K 8 * V U64 (Z.of_nat i)))%C U64 (Z.lor r (u64 (Z.shiftl (u8 v) (8 * Z.of_nat i))))).
    { apply (w_or U64 u64_uns); [apply w_V, Hr|]. apply (w_shl U64 u64_uns _ _ U64); [apply w_byte, u64_uns|apply mulK8; lia|cbn [width]; lia]. }
    rewrite (w_asg U64 _ _ E). split; [reflexivity|]. intros s' [= <-]. apply E.
Qed.
Lemma put_at h o b : o = length h -> put h o b = Some (h ++ b).
Proof. intros ->. unfold put. now rewrite Nat.eqb_refl. Qed.
Lemma store64_c_ok h o u : o = length h -> W64 u -> store64_c h o u = Some (h ++ store64 u).
Proof.
  intros Ho Hu. unfold store64_c, store64.
  set (f := fun i => u8 (Z.shiftr u (8 * Z.of_nat i))). set (st := fun i => h ++ map f (seq 0 i)).
  assert (E0 : h = st 0%nat) by (unfold st; now rewrite app_nil_r). rewrite E0 at 1.
  apply (cfor_det st); [reflexivity| | |lia].
  - intros i Hi. apply ltK; lia.
  - intros i Hi. rewrite ixn by lia. cbn [bind]. rewrite (asg8 _ U64 (Z.shiftr u (8 * Z.of_nat i))).
    + cbn [bind]. unfold st. rewrite put_at by (rewrite app_length, map_length, seq_length; lia).
      rewrite seq_S, map_app, app_assoc. reflexivity.
    + apply (w_shr U64 u64_uns _ _ U64); [apply w_V, W64_inr, Hu|apply mulK8; lia|cbn [width]; lia].
Qed.
Lemma div8 r : Z.of_nat r < 2 ^ 31 -> ev (V U32 (Z.of_nat r) / K 8)%C U32 (Z.of_nat (r / 8)).
Proof.
  intros H. pose proof (Nat.div_le_upper_bound r 8 r ltac:(lia) ltac:(lia)) as D.
  assert (DD : Z.of_nat r / 8 = Z.of_nat (r / 8)) by (rewrite Nat2Z.inj_div; reflexivity).
  eapply ev_as; [apply (ev_bin ODiv _ _ U32 I32 (Z.of_nat r) 8)|reflexivity|cbn [opz]];
    try reflexivity; try (apply in_range_U32; lia); try (apply ev_K; lia); try discriminate.
  - apply w_V, in_range_U32. lia.
  - intros _. cbn [opz]. rewrite Z.quot_div_nonneg by lia. rewrite DD. apply in_range_U32. lia.
  - rewrite Z.quot_div_nonneg by lia. rewrite DD. reflexivity.
Qed.
(** ** The sponge; the rate *)
Section Rate.
Variable r : nat.
Hypothesis Hr : (0 < r <= 200)%nat.
Lemma r_small : Z.of_nat r < 2 ^ 31. Proof. lia. Qed.
Lemma q_small : (8 * (r / 8) <= r)%nat. Proof. apply Nat.mul_div_le. lia. Qed.
Notation R := (Z.of_nat r).
Lemma xor_words_c_ok m o s : (o + r <= length m)%nat -> words s ->
  xor_words_c R m o s = xor_words (r / 8) (skipn o m) s.
Proof.
  intros Hm Hs. pose proof q_small as Q. unfold xor_words_c, xor_words. rewrite Nat2Z.id.
  apply (cfor_gen (fun _ s => words s)); [lia| | |lia|exact Hs].
  - intros i Hi. apply (cond_lt64 _ _ U32); [left; exact u32_uns|lia|apply div8, r_small|lia].
  - intros i s' Hi Hs'. rewrite (ev_ix _ U64 (8 * Z.of_nat i)) by (try apply mulK8; lia). cbn [bind].
    replace (Z.to_nat (8 * Z.of_nat i)) with (8 * i)%nat by lia. rewrite load64_c_ok, ixn by lia.
    rewrite rd_ok by (rewrite skipn_length; lia). cbn [bind].
    replace (skipn (8 * i) (skipn o m)) with (skipn (o + 8 * i) m).
    2: { clear. revert m. induction o as [|o IH]; intros m; [reflexivity|]. destruct m; [now rewrite !skipn_nil|]. cbn [Nat.add skipn]. apply IH. }
    assert (L : length (firstn 8 (skipn (o + 8 * i) m)) = 8%nat) by (rewrite firstn_length, skipn_length; lia).
    rewrite (load64_ok _ L). cbn [bind].
    assert (Hx : inr U64 (le (map u8 (firstn 8 (skipn (o + 8 * i) m))))) by (apply W64_inr, le_W64; [apply norm_all|now rewrite map_length]).
    set (x := le (map u8 (firstn 8 (skipn (o + 8 * i) m)))) in *. clearbody x.
    destruct (get s' i) as [v|] eqn:G; [|split; [reflexivity|discriminate]]. cbn [bind].
    assert (Hv : inr U64 v) by (apply (get_word U64 s' i v Hs' G)).
    assert (E : ev (V U64 v .^ V U64 x)%C U64 (Z.lxor v x)) by (apply (w_xor U64 u64_uns); apply w_V; assumption).
    rewrite (w_asg U64 _ _ E). cbn [bind]. split; [reflexivity|]. apply (wr_words U64 s' i _ Hs'). apply E.
Qed.
Lemma ge32 a b : 0 <= a < 2 ^ 64 -> 0 <= b < 2 ^ 32 -> cond (V U64 a >= V U32 b)%C = Some (b <=? a).
Proof. clear. intros A B. apply (cond_ge _ _ U64 U32); [apply w_V, in_range_U64, A|apply w_V, in_range_U32, B|apply in_range_U64, A|apply in_range_U64; lia]. Qed.
Lemma sub64 e1 e2 t1 t2 a b : (t1 = U64 \/ t2 = U64) -> ev e1 t1 a -> ev e2 t2 b -> 0 <= b <= a -> a < 2 ^ 64 -> ev (e1 - e2)%C U64 (a - b).
Proof.
  clear. intros T H1 H2 B A. assert (C : common (promote t1) (promote t2) = U64) by (destruct T as [-> | ->]; [reflexivity|destruct t1; reflexivity]).
  pose proof (ev_bin OSub e1 e2 t1 t2 a b H1 H2 eq_refl) as E. cbn zeta in E. rewrite C in E. apply E; [apply in_range_U64; lia|apply in_range_U64; lia|discriminate|].
  intros _. apply in_range_U64. cbn [opz]. lia.
Qed.
Lemma skip_skip {A} (m : list A) a b : skipn b (skipn a m) = skipn (a + b) m.
Proof. clear. revert m. induction a as [|a IH]; intros m; [reflexivity|]. destruct m; [now rewrite !skipn_nil|]. cbn [Nat.add skipn]. apply IH. Qed.
Lemma good_words s : length s = 25%nat -> Forall W64 s -> good s (sbytes s). Proof. clear. intros L W. repeat split; assumption. Qed.

Lemma absorb_loop_c_ok m : forall fuel fuel' o s, fuel' = S fuel -> (o <= length m)%nat -> (length m - o <= fuel)%nat -> Z.of_nat (length m) < 2 ^ 64 ->
  length s = 25%nat -> Forall W64 s ->
  exists s' o', absorb_loop fuel r (skipn o m) s = Some (s', skipn o' m) /\ (o' <= length m)%nat /\ (length m - o' < r)%nat
    /\ absorb_loop_c fuel' R m o (Z.of_nat (length m - o)) s = Some (s', o', Z.of_nat (length m - o')) /\ length s' = 25%nat /\ Forall W64 s'.
Proof.
  induction fuel as [|fuel IH]; intros fuel' o s Ef Ho Hf Hl L W; (destruct fuel' as [|fuel']; [discriminate|]); injection Ef as Ef;
    cbn [absorb_loop absorb_loop_c].
  - rewrite skipn_length, ge32 by lia. cbn [bind].
    replace (length m - o <? r)%nat with true by lia. replace (R <=? Z.of_nat (length m - o)) with false by lia.
    exists s, o. repeat split; auto; lia.
  - rewrite skipn_length, ge32 by lia. cbn [bind].
    destruct (Nat.ltb_spec (length m - o) r) as [C|C].
    + replace (R <=? Z.of_nat (length m - o)) with false by lia. exists s, o. repeat split; auto; lia.
    + replace (R <=? Z.of_nat (length m - o)) with true by lia.
      rewrite (xor_words_c_ok m o s) by (lia || apply words_W64, W). pose proof q_small as Q.
      destruct (xor_words_ok (r / 8) (skipn o m) s [] _ (good_words s L W)) as (s1 & E1 & L1 & W1 & _); [lia|rewrite skipn_length; lia|].
      rewrite !app_nil_r in E1. rewrite E1. cbn [bind].
      destruct (permute_good s1 [] _ (good_words s1 L1 W1)) as (s2 & E2 & L2 & W2 & _).
      rewrite <- (permute_c_ok s1 [] L1 W1) in E2. pose proof (permute_c_ok s1 [] L1 W1) as E3. rewrite !app_nil_r in *.
      rewrite <- E3, E2. cbn [bind].
      rewrite (w_asg U64 _ (Z.of_nat (length m - o) - R)).
      2: { apply (sub64 _ _ U64 U32); [left; reflexivity|apply w_V, in_range_U64; lia|apply w_V, in_range_U32; lia|lia|lia]. }
      cbn [bind]. rewrite Nat2Z.id, skip_skip. replace (Z.of_nat (length m - o) - R) with (Z.of_nat (length m - (o + r))) by lia.
      apply IH; [exact Ef|lia|lia|exact Hl|exact L2|exact W2].
Qed.
Lemma zero_words s : length s = 25%nat ->
  cfor 26 U64 0 (K 25) (fun i s => j <- ix (V U64 i) ;; x <- asg U64 (K 0) ;; wr s j [x]) s = Some (repeat 0 25).
Proof.
  clear. intros L. rewrite (cfor_gen (fun _ _ => True) 25 _ _ (fun j b => wr b j [0])); [|reflexivity| | |lia|exact I].
  - rewrite (iter_set (fun _ => 0)) by lia. rewrite map_seq_const. apply wr_all. now rewrite repeat_length.
  - intros i Hi. apply ltK; lia.
  - intros i b Hi _. split; [|auto]. rewrite ixn by lia. reflexivity.
Qed.
Lemma asg8K k : 0 <= k < 256 -> asg U8 (K k) = Some k.
Proof. clear. intros H. apply (ev_asg U8 _ I32); [apply ev_K; lia|apply in_range_U8; lia]. Qed.
Lemma absorb_c_ok s0 t0 er ep m p : length s0 = 25%nat -> length t0 = 200%nat -> asg U32 er = Some R -> asg U8 ep = Some p -> 0 <= p < 256 ->
  Z.of_nat (length m) < 2 ^ 64 ->
  keccak_absorb_c s0 t0 er m (Z.of_nat (length m)) ep = keccak_absorb t0 r m p.
Proof.
  intros L0 Lt He Hep Hp Hm. unfold keccak_absorb_c, keccak_absorb. rewrite He, Hep. cbn [bind]. rewrite (zero_words s0 L0). cbn [bind]. rewrite Nat2Z.id.
  destruct (absorb_loop_c_ok m (length m) _ 0 (repeat 0 25) eq_refl) as (s & o & E1 & Ho & Hs & E2 & L & W); [lia|lia|exact Hm|reflexivity|apply good_init|].
  cbn [skipn] in E1. rewrite Nat.sub_0_r in E2. rewrite E1, E2. cbn [bind]. rewrite !Nat2Z.id.
  rewrite (cfor_gen (fun _ _ => True) r _ _ (fun j b => wr b j [0])); [|lia| | |lia|exact I].
  2: { intros i Hi. apply lt32; lia. }
  2: { intros i b Hi _. split; [|auto]. rewrite ixn by lia. reflexivity. }
  rewrite (iter_set (fun _ => 0)) by lia. rewrite map_seq_const.
  destruct (split_at t0 0 r) as (pre & t1 & t2 & Et & Hpre & Ht1 & _); [lia|].
  destruct pre; [|cbn in Hpre; lia]. cbn [app] in Et.
  rewrite Et, wr_app0 by (rewrite repeat_length; lia). cbn [bind]. set (l := (length m - o)%nat) in *.
  assert (Lk : length (skipn o m) = l) by apply skipn_length.
  change 0 with (Z.of_nat 0) at 1. rewrite (cloop_uns (fun _ b => length b = length t0) l 0 _ _ (fun j b => wr b j [nth (o + j) m 0])); [|lia| | |lia|].
  2: { intros i b Hi _. apply lt64; lia. }
  2: { intros i b Hi Hb. rewrite ixn by lia. cbn [bind]. rewrite (get_nth m (o + i) 0) by lia. cbn [bind]. split; [reflexivity|].
       intros b' E. rewrite (wr_length _ _ _ _ E). exact Hb. }
  2: { rewrite Et, !app_length, repeat_length. lia. }
  rewrite iter_set by (rewrite app_length, repeat_length; lia).
  rewrite map_seq_slice by lia. rewrite Nat.add_0_r, firstn_all2 by lia.
  assert (Er : repeat 0 r = repeat 0 l ++ repeat 0 1 ++ repeat 0 (r - l - 1)) by (rewrite <- !repeat_app; f_equal; lia).
  rewrite Er, <- !app_assoc. rewrite wr_app0 by (rewrite repeat_length; lia). cbn [bind Nat.add]. rewrite Lk, ixn by lia. cbn [bind].
  rewrite (ev_asg U8 _ U8 p) by (try apply ev_V; apply in_range_U8, Hp). cbn [bind].
  rewrite (wr_app' (skipn o m) (repeat 0 1)) by auto. cbn [bind].
  assert (Ej : ix (V U32 R - K 1)%C = Some (r - 1)%nat).
  { rewrite (ev_ix _ U32 (R - 1)); [f_equal; lia| |lia].
    apply (ev_bin OSub _ _ U32 I32); [apply w_V, in_range_U32; lia|apply ev_K; lia|reflexivity|apply in_range_U32; lia|apply in_range_U32; lia|discriminate|].
    intros _. apply in_range_U32. cbn [opz]. lia. }
  rewrite Ej. cbn [bind]. set (blk := skipn o m ++ [p] ++ repeat 0 (r - l - 1)).
  assert (Lb : length blk = r) by (unfold blk; rewrite !app_length, repeat_length; cbn [length]; lia).
  replace (skipn o m ++ [p] ++ repeat 0 (r - l - 1) ++ t2) with (blk ++ t2) by (unfold blk; now rewrite <- !app_assoc).
  rewrite (get_app_l blk t2 (r - 1) 0) by lia. cbn [bind].
  assert (Hv : 0 <= nth (r - 1) blk 0 < 256).
  { unfold blk. rewrite app_nth2 by lia. destruct (r - 1 - length (skipn o m))%nat as [|j]; [exact Hp|]. cbn [app nth]. rewrite nth_repeat. lia. }
  set (v := nth (r - 1) blk 0) in *. clearbody v.
  rewrite (ev_asg U8 _ I32 (Z.lor v 128)).
  - cbn [bind]. destruct (wr (blk ++ t2) (r - 1) [Z.lor v 128]) as [t|] eqn:Ew; [|reflexivity]. cbn [bind].
    rewrite (xor_words_c_ok t 0 s); [reflexivity| |apply words_W64, W]. rewrite (wr_length _ _ _ _ Ew), app_length. lia.
  - assert (Eu : u8 v = v) by (unfold u8; apply Z.mod_small, Hv). rewrite <- Eu at 2.
    apply (ev_bin OOr _ _ U8 I32); [apply ev_B|apply ev_K; lia|reflexivity|apply in_range_I32; rewrite Eu; lia|apply in_range_I32; lia|discriminate|].
    intros _. apply in_range_I32. cbn [opz]. rewrite Eu. pose proof (Z.lor_nonneg v 128). 
    assert (Z.lor v 128 < 2 ^ 8); [|lia]. destruct (Z.eq_dec (Z.lor v 128) 0) as [->|]; [reflexivity|].
    apply Z.log2_lt_pow2; [lia|]. rewrite Z.log2_lor by lia. apply Z.max_lub_lt; [|reflexivity].
    destruct (Z.eq_dec v 0) as [->|]; [reflexivity|]. apply Z.log2_lt_pow2; lia.
  - apply in_range_U8. pose proof (Z.lor_nonneg v 128).
    assert (Z.lor v 128 < 2 ^ 8); [|lia]. destruct (Z.eq_dec (Z.lor v 128) 0) as [->|]; [reflexivity|].
    apply Z.log2_lt_pow2; [lia|]. rewrite Z.log2_lor by lia. apply Z.max_lub_lt; [|reflexivity].
    destruct (Z.eq_dec v 0) as [->|]; [reflexivity|]. apply Z.log2_lt_pow2; lia.
Qed.

Lemma shr3 : ev (V U32 R >> K 3)%C U32 (Z.of_nat (r / 8)).
Proof.
  eapply ev_as; [apply (w_shr U32 u32_uns _ _ I32); [apply w_V, in_range_U32; lia|apply ev_K; lia|cbn [width]; lia]|reflexivity|].
  rewrite Z.shiftr_div_pow2 by lia. rewrite Nat2Z.inj_div. reflexivity.
Qed.
Lemma firstn_S_nth {A} (l : list A) i d : (i < length l)%nat -> firstn (S i) l = firstn i l ++ [nth i l d].
Proof. clear. apply firstn_snoc. Qed.
Lemma nth_first {A} (l : list A) k i d : (i < k)%nat -> nth i (firstn k l) d = nth i l d.
Proof.
  clear. revert l i. induction k as [|k IH]; intros l i H; [lia|]. destruct l as [|x l]; [now destruct i|]. destruct i as [|i]; [reflexivity|].
  cbn [firstn nth]. apply IH. lia.
Qed.
Hypothesis Hr8 : (r mod 8 = 0)%nat.
Lemma r_8 : (8 * (r / 8) = r)%nat. Proof. rewrite (Nat.div_mod r 8) at 2 by lia. lia. Qed.
Lemma squeezeblocks_c_ok : forall n fuel h s, fuel = S n -> Z.of_nat n < 2 ^ 64 -> length s = 25%nat -> Forall W64 s ->
  exists out s', keccak_squeezeblocks n r s = Some (out, s') /\ length out = (n * r)%nat /\ length s' = 25%nat /\ Forall W64 s'
    /\ keccak_squeezeblocks_c fuel h (length h) (Z.of_nat n) s R = Some (h ++ out, s').
Proof.
  induction n as [|n IH]; intros fuel h s Ef Hn L W; (destruct fuel as [|fuel]; [discriminate|]); injection Ef as Ef;
    cbn [keccak_squeezeblocks keccak_squeezeblocks_c].
  - exists [], s. rewrite app_nil_r. repeat split; auto.
  - rewrite (cond_lt _ _ I32 0 (Z.of_nat (S n)));
      [|apply ev_K; lia|exists U64; split; [apply w_V, in_range_U64; lia|split; apply in_range_U64; lia]].
    cbn [bind]. replace (0 <? Z.of_nat (S n)) with true by lia.
    destruct (permute_good s [] _ (good_words s L W)) as (s2 & E2 & L2 & W2 & _).
    pose proof (permute_c_ok s [] L W) as E3. rewrite !app_nil_r in *. rewrite E3, E2. cbn [bind].
    pose proof r_8 as Q. set (q := (r / 8)%nat) in *.
    rewrite rd_ok by lia. cbn [bind skipn]. set (ws := firstn q s2).
    assert (Lw : length ws = q) by (unfold ws; rewrite firstn_length; lia).
    set (st := fun i => h ++ flat_map store64 (firstn i ws)).
    assert (Lst : forall i, (i <= q)%nat -> length (flat_map store64 (firstn i ws)) = (8 * i)%nat).
    { intros i Hi. assert (X : forall l, length (flat_map store64 l) = (8 * length l)%nat).
      { induction l as [|x l IHl]; [reflexivity|]. cbn [flat_map]. rewrite app_length, IHl. unfold store64. rewrite map_length, seq_length. cbn [length]. lia. }
      rewrite X, firstn_length. lia. }
    assert (E0 : h = st 0%nat) by (unfold st; now rewrite app_nil_r).
    assert (EL : cfor (S (Z.to_nat R)) U64 0 (V U32 R >> K 3)%C (fun i h0 =>
               d <- ix (K 8 * V U64 i)%C ;; j <- ix (V U64 i) ;; x <- get s2 j ;; store64_c h0 (length h + d) x) (st 0%nat) = Some (st q)).
    { apply (cfor_det st); [lia| | |lia].
      - intros i Hi. apply (cond_lt64 _ _ U32); [left; exact u32_uns|lia|apply shr3|lia].
      - intros i Hi. rewrite (ev_ix _ U64 (8 * Z.of_nat i)) by (try apply mulK8; lia). cbn [bind].
        replace (Z.to_nat (8 * Z.of_nat i)) with (8 * i)%nat by lia. rewrite ixn by lia. cbn [bind].
        rewrite (get_nth s2 i 0) by lia. cbn [bind].
        rewrite store64_c_ok; [|unfold st; rewrite app_length, Lst by lia; reflexivity|apply Forall_nth_W, W2].
        unfold st. f_equal. rewrite (firstn_S_nth ws i 0) by lia. rewrite flat_map_app. cbn [flat_map]. rewrite app_nil_r, app_assoc.
        unfold ws at 3. rewrite (nth_first s2 q i 0) by lia. reflexivity. }
    rewrite <- E0 in EL. rewrite EL. cbn [bind].
    rewrite (w_asg U64 _ (Z.of_nat (S n) - 1)).
    2: { apply (sub64 _ _ U64 I32); [left; reflexivity|apply w_V, in_range_U64; lia|apply ev_K; lia|lia|lia]. }
    cbn [bind]. replace (Z.of_nat (S n) - 1) with (Z.of_nat n) by lia. rewrite Nat2Z.id.
    replace (length h + r)%nat with (length (st q)) by (unfold st; rewrite app_length, Lst by lia; lia).
    destruct (IH fuel (st q) s2 Ef ltac:(lia) L2 W2) as (out & s' & F1 & F2 & F3 & F4 & F5).
    rewrite F1. cbn [bind]. exists (flat_map store64 ws ++ out), s'. split; [reflexivity|].
    pose proof (Lst q ltac:(lia)) as Lq. rewrite firstn_all2 in Lq by lia.
    split; [rewrite app_length, Lq, F2; lia|]. split; [exact F3|]. split; [exact F4|]. rewrite F5. unfold st. rewrite firstn_all2 by lia. now rewrite app_assoc.
Qed.

(** The incremental functions: 25 words and the counter *)
Definition okinc (s : list Z) (c : nat) : Prop := exists ws, s = ws ++ [Z.of_nat c] /\ length ws = 25%nat /\ Forall W64 ws.
Lemma okinc_get s c : okinc s c -> get s 25 = Some (Z.of_nat c).
Proof. clear. intros (ws & -> & L & _). apply get_app_r. auto. Qed.
Lemma okinc_words s c : (c <= 200)%nat -> okinc s c -> words s.
Proof. clear. intros Hc (ws & -> & L & W). apply Forall_app. split; [apply words_W64, W|]. repeat constructor. apply in_range_U64. lia. Qed.
Lemma okinc_wr s c c' : okinc s c -> exists s', wr s 25 [Z.of_nat c'] = Some s' /\ okinc s' c'.
Proof.
  clear. intros (ws & -> & L & W). exists (ws ++ [Z.of_nat c']). split; [apply wr_app_r; auto|]. exists ws. auto.
Qed.
Lemma okinc_permute s c : okinc s c -> exists s', KeccakF1600_StatePermute s = Some s' /\ KeccakF1600_StatePermute_c s = Some s' /\ okinc s' c.
Proof.
  clear. intros (ws & -> & L & W). destruct (permute_good ws [Z.of_nat c] _ (good_words ws L W)) as (w2 & E2 & L2 & W2 & _).
  exists (w2 ++ [Z.of_nat c]). rewrite permute_c_ok by assumption. split; [exact E2|]. split; [exact E2|]. exists w2. auto.
Qed.
Lemma okinc_xor s c j b : (j < 200)%nat -> is_byte b -> okinc s c -> exists s', xor_byte s j b = Some s' /\ okinc s' c.
Proof.
  clear. intros Hj Hb (ws & -> & L & W). destruct (xor_byte_ok ws [Z.of_nat c] _ j b (good_words ws L W) Hj Hb) as (w2 & E2 & L2 & W2 & _).
  exists (w2 ++ [Z.of_nat c]). split; [exact E2|]. exists w2. auto.
Qed.
Lemma shr3_nat e t j : uns t -> ev e t (Z.of_nat j) -> ix (e >> K 3)%C = Some (j / 8)%nat.
Proof.
  clear. intros Ht H. assert (X : ev (e >> K 3)%C t (Z.shiftr (Z.of_nat j) 3)).
  { apply (w_shr t Ht _ _ I32); [exact H|apply ev_K; lia|]. destruct Ht as [->| ->]; cbn [width]; lia. }
  assert (E : Z.shiftr (Z.of_nat j) 3 = Z.of_nat (j / 8)) by (rewrite Z.shiftr_div_pow2 by lia; rewrite Nat2Z.inj_div; reflexivity).
  rewrite E in X. rewrite (ev_ix _ t _ X) by lia. now rewrite Nat2Z.id.
Qed.
Lemma and7_nat e t j : uns t -> ev e t (Z.of_nat j) -> ev (K 8 * (e .& K 0x07))%C t (8 * Z.of_nat (j mod 8)).
Proof.
  clear. intros Ht H. assert (X : ev (e .& K 0x07)%C t (Z.land (Z.of_nat j) 7)) by (apply (w_andK t Ht); [exact H|apply ev_K; lia|lia]).
  assert (E : Z.land (Z.of_nat j) 7 = Z.of_nat (j mod 8)).
  { change 7 with (Z.ones 3). rewrite Z.land_ones by lia. rewrite Nat2Z.inj_mod. reflexivity. }
  rewrite E in X. pose proof (Nat.mod_upper_bound j 8 ltac:(lia)) as M.
  assert (C : common (promote I32) (promote t) = t) by (destruct Ht as [->| ->]; reflexivity).
  pose proof (ev_bin OMul (K 8) _ I32 t 8 _ ltac:(apply ev_K; lia) X eq_refl) as F. cbn zeta in F. rewrite C in F.
  apply F; try discriminate; [| |intros _; cbn [opz]]; destruct Ht as [->| ->]; (apply in_range_U32 || apply in_range_U64); lia.
Qed.
Lemma xor_byte_c_ok s e t b j bv : uns t -> words s -> ev e t (Z.of_nat j) -> ev (Cast U64 b) U64 bv ->
  xor_byte_c s e b = xor_byte s j bv.
Proof.
  clear. intros Ht W He Hb. unfold xor_byte_c, xor_byte. rewrite (shr3_nat e t j Ht He). cbn [bind].
  destruct (get s (j / 8)) as [x|] eqn:G; [|reflexivity]. cbn [bind].
  pose proof (Nat.mod_upper_bound j 8 ltac:(lia)) as M.
  rewrite (w_asg U64 _ (Z.lxor x (u64 (Z.shiftl bv (8 * Z.of_nat (j mod 8)))))); [reflexivity|].
  apply (w_xor U64 u64_uns); [apply w_V, (get_word U64 s _ _ W G)|].
  apply (w_shl U64 u64_uns _ _ t); [exact Hb|apply and7_nat; assumption|cbn [width]; lia].
Qed.
Lemma sum64 a b : Z.of_nat a + Z.of_nat b < 2 ^ 64 -> ev (V U64 (Z.of_nat a) + V U64 (Z.of_nat b))%C U64 (Z.of_nat (a + b)).
Proof.
  clear. intros H. eapply ev_as; [apply (w_add U64 u64_uns); apply w_V, in_range_U64; lia|reflexivity|]. cbn [width].
  rewrite Z.mod_small by lia. lia.
Qed.
Lemma inc_xor_c_ok m o i s c : (c + i < 200)%nat -> okinc s c ->
  inc_xor_c m o (Z.of_nat i) s = (b <- get (skipn o m) i ;; xor_byte s (c + i) (u8 b)).
Proof.
  clear. intros H K. unfold inc_xor_c. rewrite (okinc_get s c K). cbn [bind]. rewrite ixn by lia. cbn [bind]. rewrite get_skip.
  destruct (get m (o + i)) as [b|]; [|reflexivity]. cbn [bind].
  apply (xor_byte_c_ok s _ U64); [exact u64_uns|apply (okinc_words s c); [lia|exact K]|apply sum64; lia|apply w_byte, u64_uns].
Qed.
Lemma inc_xor_loop m o s c n fuel cnd : (c + n <= 200)%nat -> (o + n <= length m)%nat -> (n < fuel)%nat -> okinc s c ->
  (forall i s, (i <= n)%nat -> okinc s c -> cnd (Z.of_nat i) s = Some (Z.of_nat i <? Z.of_nat n)) ->
  exists s', cloop fuel U64 0 cnd (inc_xor_c m o) s = Some (Z.of_nat n, s') /\ Fips202.xor_bytes s c n (skipn o m) = Some s' /\ okinc s' c.
Proof.
  clear. intros Hc Hm Hf K Hcnd. change 0 with (Z.of_nat 0) at 1.
  assert (S1 : forall i s, (i < n)%nat -> okinc s c -> exists s', (b <- get (skipn o m) i ;; xor_byte s (c + i) (u8 b)) = Some s' /\ okinc s' c).
  { intros i s1 Hi K1. rewrite (get_nth (skipn o m) i 0) by (rewrite skipn_length; lia). cbn [bind]. apply okinc_xor; [lia|apply u8_byte|exact K1]. }
  rewrite (cloop_uns (fun _ s => okinc s c) n 0 cnd _ (fun i s => b <- get (skipn o m) i ;; xor_byte s (c + i) (u8 b))); [|lia| | |exact Hf|exact K].
  - cbn [Nat.add]. unfold Fips202.xor_bytes.
    destruct (iterM_inv n 0 (fun i s => b <- get (skipn o m) i ;; xor_byte s (c + i) (u8 b)) (fun _ s => okinc s c) s K) as (s' & E & K').
    { intros i s1 Hi K1. apply S1; [lia|exact K1]. }
    rewrite E. exists s'. auto.
  - intros i s1 Hi K1. apply Hcnd; [lia|exact K1].
  - intros i s1 Hi K1. split; [apply inc_xor_c_ok; [lia|exact K1]|]. intros s' E.
    destruct (S1 i s1 ltac:(lia) K1) as (s2 & E2 & K2). rewrite E2 in E. injection E as <-. exact K2.
Qed.
Lemma inc_absorb_loop_c_ok m : forall fuel fuel' o s c, fuel' = S fuel -> (o <= length m)%nat -> (length m - o < fuel)%nat ->
  Z.of_nat (length m) + 200 < 2 ^ 64 -> okinc s c -> (c < r)%nat ->
  exists s' o' c', inc_absorb_loop fuel r (skipn o m) s = Some (s', skipn o' m) /\ (o' <= length m)%nat /\ (length m - o' + c' < r)%nat
    /\ inc_absorb_loop_c fuel' s R m o (Z.of_nat (length m - o)) = Some (s', o', Z.of_nat (length m - o')) /\ okinc s' c'.
Proof.
  clear Hr8. induction fuel as [|fuel IH]; intros fuel' o s c Ef Ho Hf Hl K Hc; [lia|]. destruct fuel' as [|fuel']; [discriminate|]. injection Ef as Ef.
  cbn [inc_absorb_loop inc_absorb_loop_c]. rewrite (okinc_get s c K). cbn [bind]. rewrite Nat2Z.id, skipn_length.
  rewrite (cond_ge _ _ U64 U32 (Z.of_nat (length m - o + c)) R);
    [|apply sum64; lia|apply w_V, in_range_U32; lia|apply in_range_U64; lia|apply in_range_U64; lia]. cbn [bind].
  destruct (Nat.ltb_spec (length m - o + c) r) as [C|C].
  - replace (R <=? Z.of_nat (length m - o + c)) with false by lia. exists s, o, c. auto.
  - replace (R <=? Z.of_nat (length m - o + c)) with true by lia. rewrite Nat2Z.id.
    assert (Sub : ev (V U32 R - V U64 (Z.of_nat c))%C U64 (Z.of_nat (r - c))).
    { replace (Z.of_nat (r - c)) with (R - Z.of_nat c) by lia.
      apply (sub64 _ _ U32 U64); [right; reflexivity|apply w_V, in_range_U32; lia|apply w_V, in_range_U64; lia|lia|lia]. }
    destruct (inc_xor_loop m o s c (r - c) (S r) (fun i s => c <- get s 25 ;; cond (V U64 i < V U32 R - V U64 c)%C)) as (s1 & E1 & E2 & K1);
      [lia|lia|lia|exact K| |].
    { intros i s1 Hi K1. rewrite (okinc_get s1 c K1). cbn [bind]. apply (cond_lt64 _ _ U64); [left; exact u64_uns|lia|exact Sub|lia]. }
    rewrite E1, E2. cbn [bind]. rewrite (okinc_get s1 c K1). cbn [bind].
    assert (SubC : ev (Cast U64 (V U32 R - V U64 (Z.of_nat c)))%C U64 (Z.of_nat (r - c))) by (apply (ev_cast U64 _ U64); [exact Sub|apply Sub]).
    rewrite (w_asg U64 _ (Z.of_nat (length m - o) - Z.of_nat (r - c))).
    2: { apply (sub64 _ _ U64 U64); [left; reflexivity|apply w_V, in_range_U64; lia|exact SubC|lia|lia]. }
    cbn [bind]. rewrite (ev_ix _ U64 _ Sub) by lia. cbn [bind]. rewrite asg64K by lia. cbn [bind]. rewrite Nat2Z.id.
    destruct (okinc_wr s1 c 0 K1) as (s2 & E3 & K2). change (Z.of_nat 0) with 0 in E3. rewrite E3. cbn [bind].
    destruct (okinc_permute s2 0 K2) as (s3 & E4 & E5 & K3). rewrite E4, E5. cbn [bind]. rewrite skip_skip.
    replace (Z.of_nat (length m - o) - Z.of_nat (r - c)) with (Z.of_nat (length m - (o + (r - c)))) by lia.
    apply (IH fuel' (o + (r - c))%nat s3 0%nat); [exact Ef|lia|lia|exact Hl|exact K3|lia].
Qed.
Theorem inc_absorb_c_ok s c er m : okinc s c -> (c < r)%nat -> asg U32 er = Some R -> Z.of_nat (length m) + 200 < 2 ^ 64 ->
  exists s' c', keccak_inc_absorb s r m = Some s' /\ keccak_inc_absorb_c s er m (Z.of_nat (length m)) = Some s' /\ okinc s' c' /\ (c' < r)%nat.
Proof.
  clear Hr8. intros K Hc He Hm. unfold keccak_inc_absorb, keccak_inc_absorb_c. rewrite He. cbn [bind]. rewrite Nat2Z.id.
  destruct (inc_absorb_loop_c_ok m (S (length m)) _ 0 s c eq_refl) as (s1 & o & c1 & E1 & Ho & Hs & E2 & K1); [lia|lia|exact Hm|exact K|exact Hc|].
  rewrite Nat.sub_0_r in E2. cbn [skipn] in E1. rewrite E1, E2. cbn [bind]. rewrite (okinc_get s1 c1 K1). cbn [bind]. rewrite !Nat2Z.id, skipn_length.
  destruct (inc_xor_loop m o s1 c1 (length m - o) (S (length m - o)) (fun i _ => cond (V U64 i < V U64 (Z.of_nat (length m - o)))%C)) as (s2 & E3 & E4 & K2);
    [lia|lia|lia|exact K1|intros; apply lt64; lia|].
  rewrite E3, E4. cbn [bind]. rewrite (okinc_get s2 c1 K2). cbn [bind].
  rewrite (w_asg U64 _ _ (sum64 c1 (length m - o) ltac:(lia))). cbn [bind].
  replace (u64 (Z.of_nat c1 + Z.of_nat (length m - o))) with (Z.of_nat (c1 + (length m - o))) by (unfold u64; rewrite Z.mod_small; lia).
  destruct (okinc_wr s2 c1 (c1 + (length m - o)) K2) as (s3 & E5 & K3). rewrite E5. exists s3, (c1 + (length m - o))%nat. repeat split; auto. lia.
Qed.
Theorem inc_finalize_c_ok s c er ep p : okinc s c -> (c < r)%nat -> asg U32 er = Some R -> asg U8 ep = Some p -> 0 <= p < 256 ->
  exists s', keccak_inc_finalize s r p = Some s' /\ keccak_inc_finalize_c s er ep = Some s' /\ okinc s' 0.
Proof.
  clear Hr8. intros K Hc He Hep Hp. unfold keccak_inc_finalize, keccak_inc_finalize_c. rewrite He, Hep. cbn [bind].
  rewrite (okinc_get s c K). cbn [bind]. rewrite Nat2Z.id.
  rewrite (xor_byte_c_ok s _ U64 _ c p);
    [|exact u64_uns|apply (okinc_words s c); [lia|exact K]|apply w_V, in_range_U64; lia|apply (ev_cast U64 _ U8); [apply ev_V, in_range_U8, Hp|apply in_range_U64; lia]].
  destruct (okinc_xor s c c p ltac:(lia) Hp K) as (s1 & E1 & K1). rewrite E1. cbn [bind].
  rewrite (xor_byte_c_ok s1 _ U32 _ (r - 1) 128);
    [|exact u32_uns|apply (okinc_words s1 c); [lia|exact K1]| |apply (ev_cast U64 _ I32); [apply ev_K; lia|apply in_range_U64; lia]].
  2: { replace (Z.of_nat (r - 1)) with (R - 1) by lia.
       apply (ev_bin OSub _ _ U32 I32); [apply w_V, in_range_U32; lia|apply ev_K; lia|reflexivity|apply in_range_U32; lia|apply in_range_U32; lia|discriminate|].
       intros _. apply in_range_U32. cbn [opz]. lia. }
  destruct (okinc_xor s1 c (r - 1) 128 ltac:(lia) ltac:(unfold is_byte; lia) K1) as (s2 & E2 & K2). rewrite E2. cbn [bind].
  rewrite asg64K by lia. cbn [bind]. destruct (okinc_wr s2 c 0 K2) as (s3 & E3 & K3). change (Z.of_nat 0) with 0 in E3. rewrite E3. exists s3. auto.
Qed.

(** squeezing *)
Definition byte_at (s : list Z) (p : nat) : Z := u8 (Z.shiftr (nth (p / 8) s 0) (8 * Z.of_nat (p mod 8))).
Lemma read_bytes_map s : length s = 26%nat -> forall n pos, (pos + n <= 200)%nat -> read_bytes s pos n = Some (map (byte_at s) (seq pos n)).
Proof.
  clear. intros L. induction n as [|n IH]; intros pos H; [reflexivity|]. cbn [read_bytes seq map].
  assert (Hq : (pos / 8 < 25)%nat) by (apply Nat.div_lt_upper_bound; lia).
  rewrite (get_nth s (pos / 8) 0) by lia. cbn [bind]. rewrite IH by lia. reflexivity.
Qed.
Lemma byte_of_c_ok s c e j : okinc s c -> (c <= 200)%nat -> (j < 200)%nat -> ev e U64 (Z.of_nat j) -> byte_of_c s e = Some (byte_at s j).
Proof.
  clear. intros K Hc Hj He. unfold byte_of_c. rewrite (shr3_nat e U64 j u64_uns He). cbn [bind].
  assert (Hq : (j / 8 < 25)%nat) by (apply Nat.div_lt_upper_bound; lia).
  assert (L : length s = 26%nat) by (destruct K as (ws & -> & L & _); rewrite app_length; cbn [length]; lia).
  rewrite (get_nth s (j / 8) 0) by lia. cbn [bind]. pose proof (Nat.mod_upper_bound j 8 ltac:(lia)) as M.
  apply (asg8 _ U64). apply (w_shr U64 u64_uns _ _ U64); [|apply and7_nat; [exact u64_uns|exact He]|cbn [width]; lia].
  apply w_V, W64_inr, Forall_nth_W, words_W64, (okinc_words s c Hc K).
Qed.
Lemma read_loop s c pos n fuel cnd body h e : okinc s c -> (c <= 200)%nat -> (pos + n <= 200)%nat -> (n < fuel)%nat ->
  (forall i h', (i <= n)%nat -> cnd (Z.of_nat i) h' = Some (Z.of_nat i <? Z.of_nat n)) ->
  (forall i, (i < n)%nat -> ev (e i) U64 (Z.of_nat (pos + i))) ->
  (forall i h', (i < n)%nat -> body (Z.of_nat i) h' = (b <- byte_of_c s (e i) ;; put h' (length h + i) [b])) ->
  exists hs, read_bytes s pos n = Some hs /\ length hs = n /\ cloop fuel U64 0 cnd body h = Some (Z.of_nat n, h ++ hs).
Proof.
  clear. intros K Hc Hp Hf Hcnd He Hb.
  assert (L : length s = 26%nat) by (destruct K as (ws & -> & L & _); rewrite app_length; cbn [length]; lia).
  exists (map (byte_at s) (seq pos n)). rewrite (read_bytes_map s L) by lia. rewrite map_length, seq_length. split; [reflexivity|]. split; [reflexivity|].
  set (st := fun i => h ++ map (byte_at s) (seq pos i)).
  assert (E0 : h = st 0%nat) by (unfold st; now rewrite app_nil_r). rewrite E0 at 1.
  apply (cloop_det st n); [lia|intros; apply Hcnd; lia| |exact Hf].
  intros i Hi. rewrite Hb by lia. rewrite (byte_of_c_ok s c _ (pos + i) K Hc ltac:(lia) (He i Hi)). cbn [bind]. unfold st.
  rewrite put_at by (rewrite app_length, map_length, seq_length; lia). rewrite seq_S, map_app, app_assoc. reflexivity.
Qed.
Lemma lt_and i a b (Hi : 0 <= i < 2 ^ 64) (Ha : 0 <= a < 2 ^ 64) cb : cb = Some (i <? b) ->
  (x <- cond (V U64 i < V U64 a)%C ;; if x : bool then cb else Some false) = Some (i <? Z.min a b).
Proof. clear - Hi Ha. intros ->. rewrite lt64 by assumption. cbn [bind]. destruct (Z.ltb_spec i a); f_equal; lia. Qed.
Lemma inc_squeeze_loop_c_ok : forall fuel fuel' h outlen s c, (outlen < fuel')%nat -> (outlen <= fuel)%nat -> Z.of_nat outlen < 2 ^ 64 ->
  okinc s c -> (c <= r)%nat ->
  exists out s' c', inc_squeeze_loop fuel outlen r s = Some (out, s') /\ inc_squeeze_loop_c fuel' h (length h) (Z.of_nat outlen) s R = Some (h ++ out, s')
    /\ okinc s' c' /\ (c' <= r)%nat.
Proof.
  clear Hr8. induction fuel as [|fuel IH]; intros fuel' h outlen s c Ef Hf Ho K Hc; (destruct fuel' as [|fuel']; [lia|]);
    cbn [inc_squeeze_loop_c];
    (rewrite (cond_lt _ _ I32 0 (Z.of_nat outlen));
      [|apply ev_K; lia|exists U64; split; [apply w_V, in_range_U64; lia|split; apply in_range_U64; lia]]); cbn [bind].
  - assert (outlen = 0%nat) by lia. subst outlen. exists [], s, c. rewrite app_nil_r. auto.
  - destruct outlen as [|l]; [exists [], s, c; rewrite app_nil_r; auto|]. cbn [inc_squeeze_loop]. set (outlen := S l) in *.
    assert (Hpos : (0 < outlen)%nat) by (unfold outlen; lia). clearbody outlen.
    replace (0 <? Z.of_nat outlen) with true by lia.
    destruct (okinc_permute s c K) as (s1 & E1 & E2 & K1). rewrite E1, E2. cbn [bind]. rewrite Nat2Z.id. set (n := Nat.min outlen r).
    match goal with |- context [cloop ?a U64 0 ?b ?d h] =>
      destruct (read_loop s1 c 0 n a b d h (fun i => V U64 (Z.of_nat i)) K1) as (hs & F1 & F2 & F3) end;
      [lia|lia|lia| | | |].
    { intros i h' Hi. rewrite (lt_and (Z.of_nat i) (Z.of_nat outlen) R) by (try lia; apply lt32; lia). do 2 f_equal. lia. }
    { intros i Hi. apply w_V, in_range_U64. lia. }
    { intros i h' Hi. rewrite ixn by lia. reflexivity. }
    rewrite F1, F3. cbn [bind]. rewrite ixn by lia. cbn [bind].
    rewrite (w_asg U64 _ (Z.of_nat outlen - Z.of_nat n))
      by (apply (sub64 _ _ U64 U64); [left; reflexivity|apply w_V, in_range_U64; lia|apply w_V, in_range_U64; lia|lia|lia]). cbn [bind].
    rewrite (w_asg U64 _ (R - Z.of_nat n))
      by (apply (sub64 _ _ U32 U64); [right; reflexivity|apply w_V, in_range_U32; lia|apply w_V, in_range_U64; lia|lia|lia]). cbn [bind].
    replace (R - Z.of_nat n) with (Z.of_nat (r - n)) by lia. replace (Z.of_nat outlen - Z.of_nat n) with (Z.of_nat (outlen - n)) by lia.
    destruct (okinc_wr s1 c (r - n) K1) as (s2 & E3 & K2). rewrite E3. cbn [bind].
    destruct (IH fuel' (h ++ hs) (outlen - n)%nat s2 (r - n)%nat) as (out & s' & c' & G1 & G2 & G3 & G4); [lia|lia|lia|exact K2|lia|].
    rewrite G1. cbn [bind]. rewrite app_length, F2 in G2. rewrite G2. exists (hs ++ out), s', c'. rewrite app_assoc. auto.
Qed.
Theorem inc_squeeze_c_ok s c er outlen : okinc s c -> (c <= r)%nat -> asg U32 er = Some R -> Z.of_nat outlen < 2 ^ 64 ->
  exists out s' c', keccak_inc_squeeze outlen s r = Some (out, s') /\ keccak_inc_squeeze_c (Z.of_nat outlen) s er = Some (out, s')
    /\ okinc s' c' /\ (c' <= r)%nat.
Proof.
  clear Hr8. intros K Hc He Ho. unfold keccak_inc_squeeze, keccak_inc_squeeze_c. rewrite He. cbn [bind]. rewrite (okinc_get s c K). cbn [bind].
  rewrite !Nat2Z.id. set (n := Nat.min outlen c).
  match goal with |- context [cloop ?a U64 0 ?b ?d []] =>
    destruct (read_loop s c (r - c) n a b d [] (fun i => V U32 R - V U64 (Z.of_nat c) + V U64 (Z.of_nat i))%C K) as (hs & F1 & F2 & F3) end;
    [lia|lia|lia| | | |].
  { intros i h' Hi. rewrite (lt_and (Z.of_nat i) (Z.of_nat outlen) (Z.of_nat c)) by (try lia; apply lt64; lia). do 2 f_equal. lia. }
  { intros i Hi. eapply ev_as; [apply (w_add U64 u64_uns); [|apply w_V, in_range_U64; lia];
      apply (sub64 _ _ U32 U64); [right; reflexivity|apply w_V, in_range_U32; lia|apply w_V, in_range_U64; lia|lia|lia]|reflexivity|].
    cbn [width]. rewrite Z.mod_small by lia. lia. }
  { intros i h' Hi. rewrite ixn by lia. reflexivity. }
  rewrite F1, F3. cbn [bind]. rewrite ixn by lia. cbn [bind].
  rewrite (w_asg U64 _ (Z.of_nat outlen - Z.of_nat n))
    by (apply (sub64 _ _ U64 U64); [left; reflexivity|apply w_V, in_range_U64; lia|apply w_V, in_range_U64; lia|lia|lia]). cbn [bind].
  rewrite (w_asg U64 _ (Z.of_nat c - Z.of_nat n))
    by (apply (sub64 _ _ U64 U64); [left; reflexivity|apply w_V, in_range_U64; lia|apply w_V, in_range_U64; lia|lia|lia]). cbn [bind].
  replace (Z.of_nat c - Z.of_nat n) with (Z.of_nat (c - n)) by lia. replace (Z.of_nat outlen - Z.of_nat n) with (Z.of_nat (outlen - n)) by lia.
  destruct (okinc_wr s c (c - n) K) as (s2 & E3 & K2). rewrite E3. cbn [bind]. rewrite Nat2Z.id.
  destruct (inc_squeeze_loop_c_ok outlen (S (outlen - n)) hs (outlen - n) s2 (c - n)) as (out & s' & c' & G1 & G2 & G3 & G4); [lia|lia|lia|exact K2|lia|].
  rewrite G1. cbn [bind]. exists (hs ++ out), s', c'. split; [reflexivity|]. split; [|auto]. cbn [app].
  rewrite F2 in G2. exact G2.
Qed.
End Rate.

(** ** SHAKE256 *)
Lemma rate_ok : (0 < SHAKE256_RATE <= 200)%nat. Proof. unfold SHAKE256_RATE. lia. Qed.
Lemma rate_asg : asg U32 xRATE = Some (Z.of_nat SHAKE256_RATE). Proof. reflexivity. Qed.
Theorem inc_init_c_ok s0 : length s0 = 26%nat -> shake256_inc_init_c s0 = Some shake256_inc_init.
Proof.
  intros L. unfold shake256_inc_init_c, keccak_inc_init_c. 
  rewrite (cfor_gen (fun _ s => length s = 26%nat) 25 _ _ (fun j b => wr b j [0])); [|reflexivity| | |lia|exact L].
  - rewrite (iter_set (fun _ => 0)) by lia. rewrite map_seq_const.
    rewrite <- (firstn_skipn 25 s0). rewrite wr_app0 by (rewrite repeat_length, firstn_length; lia). cbn [bind].
    rewrite asg64K by lia. cbn [bind]. rewrite (wr_app_r (repeat 0 25)); [reflexivity|reflexivity|]. rewrite skipn_length. cbn [length]. lia.
  - intros i Hi. apply ltK; lia.
  - intros i b Hi Hb. split; [rewrite ixn by lia; reflexivity|]. intros b' E. now rewrite (wr_length _ _ _ _ E).
Qed.
Lemma init_okinc : okinc shake256_inc_init 0.
Proof. exists (repeat 0 25). split; [reflexivity|]. split; [reflexivity|apply good_init]. Qed.
Theorem shake256_c_ok s0 t0 outlen inp : length s0 = 25%nat -> length t0 = 200%nat ->
  Z.of_nat outlen < 2 ^ 64 -> Z.of_nat (length inp) < 2 ^ 64 ->
  shake256_c s0 t0 (Z.of_nat outlen) inp (Z.of_nat (length inp)) = shake256 t0 outlen inp.
Proof.
  intros Ls Lt Ho Hi. unfold shake256_c, shake256.
  set (q := (outlen / SHAKE256_RATE)%nat).
  assert (Hq : (q * SHAKE256_RATE <= outlen)%nat) by (unfold q; rewrite Nat.mul_comm; apply Nat.mul_div_le; discriminate).
  assert (Hq2 : (outlen - q * SHAKE256_RATE < SHAKE256_RATE)%nat).
  { unfold q. pose proof (Nat.mod_upper_bound outlen SHAKE256_RATE ltac:(discriminate)) as M. rewrite Nat.mod_eq in M by discriminate. lia. }
  assert (Eq : ev (V U64 (Z.of_nat outlen) / xRATE)%C U64 (Z.of_nat q)).
  { eapply ev_as; [apply (ev_bin ODiv _ _ U64 I32 (Z.of_nat outlen) 136)|reflexivity|cbn [opz]];
      try reflexivity; try (apply in_range_U64; lia); try (apply ev_K; lia); try discriminate.
    - apply w_V, in_range_U64. lia.
    - intros _. cbn [opz]. rewrite Z.quot_div_nonneg by lia. apply in_range_U64. split; [apply Z.div_pos; lia|].
      apply Z.le_lt_trans with (Z.of_nat outlen); [|lia]. apply Z.div_le_upper_bound; lia.
    - rewrite Z.quot_div_nonneg by lia. unfold q. rewrite Nat2Z.inj_div. reflexivity. }
  clearbody q. unfold SHAKE256_RATE in Hq, Hq2. rewrite (w_asg U64 _ _ Eq). cbn [bind]. unfold shake256_absorb_c, shake256_absorb.
  rewrite (absorb_c_ok SHAKE256_RATE rate_ok s0 t0 xRATE (K 0x1F) inp 0x1F Ls Lt rate_asg eq_refl) by (lia || exact Hi).
  destruct (absorb_ok SHAKE256_RATE rate_ok (17%nat) eq_refl t0 inp 0x1F Lt ltac:(lia)) as (s & Es & L & W & _).
  rewrite Es. cbn [bind]. unfold shake256_squeezeblocks_c, shake256_squeezeblocks. rewrite rate_asg. cbn [bind]. rewrite Nat2Z.id.
  destruct (squeezeblocks_c_ok SHAKE256_RATE rate_ok eq_refl q _ [] s eq_refl ltac:(lia) L W) as (out & s' & E1 & Lo & L' & W' & E2).
  cbn [length app] in E2. rewrite E1, E2. cbn [bind].
  assert (Em : ev (V U64 (Z.of_nat q) * xRATE)%C U64 (Z.of_nat (q * 136))).
  { eapply ev_as; [apply (ev_bin OMul _ _ U64 I32 (Z.of_nat q) 136)|reflexivity|cbn [opz]; lia];
      try reflexivity; try (apply in_range_U64; lia); try (apply ev_K; lia); try discriminate.
    - apply w_V, in_range_U64. lia.
    - intros _. cbn [opz]. apply in_range_U64. lia. }
  rewrite (ev_ix _ U64 _ Em) by lia. cbn [bind]. rewrite Nat2Z.id. unfold SHAKE256_RATE in *.
  assert (El : ev (V U64 (Z.of_nat outlen) - V U64 (Z.of_nat q) * xRATE)%C U64 (Z.of_nat (outlen - q * 136))).
  { replace (Z.of_nat (outlen - q * 136)) with (Z.of_nat outlen - Z.of_nat (q * 136)) by lia.
    apply (sub64 _ _ U64 U64); [left; reflexivity|apply w_V, in_range_U64; lia|exact Em|lia|lia]. }
  rewrite (w_asg U64 _ _ El). cbn [bind]. set (l := (outlen - q * 136)%nat) in *. clearbody l.
  rewrite (ev_cond _ U64 (Z.of_nat l)) by (apply w_V, in_range_U64; lia). cbn [bind].
  destruct (Nat.eqb_spec l 0) as [->|Hl]; [reflexivity|]. replace (negb (Z.of_nat l =? 0)) with true by (destruct (Z.eqb_spec (Z.of_nat l) 0); [lia|reflexivity]).
  destruct (squeezeblocks_c_ok 136 rate_ok eq_refl 1 _ [] s' eq_refl ltac:(lia) L' W') as (t & s2 & E3 & Lt2 & _ & _ & E4).
  cbn [length app] in E4. change (Z.of_nat 1) with 1 in E4. change (S (Z.to_nat 1)) with 2%nat. rewrite E3, E4. cbn [bind]. rewrite Nat2Z.id.
  rewrite rd_ok by lia. cbn [bind skipn].
  set (st := fun i => out ++ firstn i t). assert (E0 : st 0%nat = out) by (unfold st; now rewrite app_nil_r).
  assert (X : cfor (S l) U64 0 (V U64 (Z.of_nat l)) (fun i output => j <- ix (V U64 i) ;; x <- get t j ;; put output (q * 136 + j) [x]) (st 0%nat) = Some (st l)).
  { apply (cfor_det st l); [lia|intros; apply lt64; lia| |lia].
    intros i Hi2. rewrite ixn by lia. cbn [bind]. rewrite (get_nth t i 0) by lia. cbn [bind]. unfold st.
    rewrite put_at by (rewrite app_length, firstn_length; lia). rewrite (firstn_snoc t i 0) by lia. now rewrite app_assoc. }
  rewrite E0 in X. exact X.
Qed.
