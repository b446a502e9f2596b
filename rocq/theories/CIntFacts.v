(** Evaluating C expressions whose values stay in range, and the macros of the parameter files. *)
From Verif Require Import Base BaseFacts Params Address Suite Utils CInt CCore.
Local Open Scope Z_scope.

Lemma conv_id t z : in_range t z = true -> conv t z = Some z.
Proof.
  destruct t; unfold conv; intros H; try (rewrite H; reflexivity);
    unfold in_range, width in *; rewrite Z.mod_small by lia; reflexivity.
Qed.
Lemma result_id t z : in_range t z = true -> result t z = Some (t, z).
Proof.
  destruct t; unfold result; intros H; try (rewrite H; reflexivity);
    unfold in_range, width in *; rewrite Z.mod_small by lia; reflexivity.
Qed.
Lemma result_u32 z : result U32 z = Some (U32, u32 z). Proof. reflexivity. Qed.
Lemma result_u64 z : result U64 z = Some (U64, u64 z). Proof. reflexivity. Qed.

(** The value of an expression *)
Definition ev (e : cexp) (t : cty) (z : Z) : Prop := eval e = Some (t, z) /\ in_range t z = true.

Lemma ev_V t z : in_range t z = true -> ev (V t z) t z.
Proof. intros H. split; [|exact H]. cbn [eval]. rewrite H. reflexivity. Qed.
Lemma ev_K z : - 2 ^ 31 <= z < 2 ^ 31 -> ev (K z) I32 z.
Proof. intros H. apply ev_V. unfold in_range. lia. Qed.
Lemma ev_B z : ev (B z) U8 (u8 z).
Proof. split; [reflexivity|]. unfold in_range, width, u8. pose proof (Z.mod_pos_bound z 256). lia. Qed.
Lemma ev_cast t e t' z : ev e t' z -> in_range t z = true -> ev (Cast t e) t z.
Proof. intros [H _] Hr. split; [|exact Hr]. cbn [eval]. rewrite H. cbn [bind]. rewrite conv_id by exact Hr. reflexivity. Qed.
Lemma ev_cast_mod t e t' z : ev e t' z -> t <> I32 -> ev (Cast t e) t (z mod 2 ^ width t).
Proof.
  intros [H _] Hr. split.
  - cbn [eval]. rewrite H. destruct t; try contradiction; reflexivity.
  - assert (0 < 2 ^ width t) by (destruct t; cbn; lia). pose proof (Z.mod_pos_bound z (2 ^ width t) H0).
    destruct t; try contradiction; unfold in_range; lia.
Qed.
Lemma ev_asg t e t' z : ev e t' z -> in_range t z = true -> asg t e = Some z.
Proof. intros [H _] Hr. unfold asg. rewrite H. cbn [bind]. apply conv_id, Hr. Qed.
Lemma ev_asg_mod t e t' z : ev e t' z -> t <> I32 -> asg t e = Some (z mod 2 ^ width t).
Proof. intros [H _] Hr. unfold asg. rewrite H. cbn [bind]. destruct t; try contradiction; reflexivity. Qed.
Lemma ev_cond e t z : ev e t z -> cond e = Some (negb (z =? 0)).
Proof. intros [H _]. unfold cond. rewrite H. reflexivity. Qed.
Lemma ev_ix e t z : ev e t z -> 0 <= z -> ix e = Some (Z.to_nat z).
Proof.
  intros H Hz. unfold ix. rewrite (ev_asg U64 e t z H); [reflexivity|].
  destruct H as [_ H]. destruct t; unfold in_range, width in *; lia.
Qed.

(** Binary operators other than shifts, with both operands representable in the common type *)
Definition opz (o : cop) (a b : Z) : Z :=
  match o with
  | OAdd => a + b | OSub => a - b | OMul => a * b | ODiv => Z.quot a b | OMod => Z.rem a b
  | OAnd => Z.land a b | OOr => Z.lor a b | OXor => Z.lxor a b
  | OShl => Z.shiftl a b | OShr => Z.shiftr a b
  | OLt => if a <? b then 1 else 0 | OGe => if b <=? a then 1 else 0 | OEq => if a =? b then 1 else 0
  end.
Definition is_cmp (o : cop) : bool := match o with OLt | OGe | OEq => true | _ => false end.
Definition is_shift (o : cop) : bool := match o with OShl | OShr => true | _ => false end.
Definition is_div (o : cop) : bool := match o with ODiv | OMod => true | _ => false end.
Lemma ev_bin o e1 e2 t1 t2 a b :
  ev e1 t1 a -> ev e2 t2 b -> is_shift o = false ->
  in_range (common (promote t1) (promote t2)) a = true -> in_range (common (promote t1) (promote t2)) b = true ->
  (is_div o = true -> b <> 0) ->
  let t := common (promote t1) (promote t2) in
  (is_cmp o = false -> in_range t (opz o a b) = true) ->
  ev (Bin o e1 e2) (if is_cmp o then I32 else t) (opz o a b).
Proof.
  intros [H1 _] [H2 _] Hs Ha Hb Hd t Hr. unfold t in *. clear t.
  assert (E : eval (Bin o e1 e2) = arith o (common (promote t1) (promote t2)) a b).
  { cbn [eval]. rewrite H1, H2. cbn [bind]. rewrite conv_id by exact Ha. cbn [bind]. rewrite conv_id by exact Hb.
    destruct o; try discriminate Hs; reflexivity. }
  destruct (is_cmp o) eqn:C.
  - split; [|destruct o; try discriminate C; cbn [opz];
      match goal with |- context [if ?x then _ else _] => destruct x end; reflexivity].
    rewrite E. destruct o; try discriminate C; reflexivity.
  - specialize (Hr eq_refl). split; [|exact Hr]. rewrite E.
    destruct o; try discriminate C; try discriminate Hs; cbn [arith opz] in *;
      try (apply result_id; exact Hr);
      (destruct (Z.eqb_spec b 0) as [->|_]; [exfalso; apply Hd; reflexivity|]; cbn [negb guard bind]; apply result_id; exact Hr).
Qed.
(** Unsigned operators reduce modulo the width *)
Lemma ev_bin_mod o e1 e2 t1 t2 a b :
  ev e1 t1 a -> ev e2 t2 b -> is_shift o = false -> is_cmp o = false -> is_div o = false ->
  let t := common (promote t1) (promote t2) in t <> I32 ->
  in_range t a = true -> in_range t b = true ->
  ev (Bin o e1 e2) t (opz o a b mod 2 ^ width t).
Proof.
  intros [H1 _] [H2 _] Hs Hc Hd t Ht Ha Hb. unfold t in *. clear t. split.
  - cbn [eval]. rewrite H1, H2. cbn [bind]. rewrite conv_id by exact Ha. cbn [bind]. rewrite conv_id by exact Hb.
    destruct o; try discriminate; cbn [bind arith opz]; destruct (common (promote t1) (promote t2)); try contradiction; reflexivity.
  - assert (W : 0 < 2 ^ width (common (promote t1) (promote t2))) by (destruct t1, t2; cbn; lia).
    pose proof (Z.mod_pos_bound (opz o a b) _ W). destruct (common (promote t1) (promote t2)); try contradiction; unfold in_range; lia.
Qed.
Lemma ev_shr e1 e2 t1 t2 a k :
  ev e1 t1 a -> ev e2 t2 k -> 0 <= a -> 0 <= k < width (promote t1) -> ev (Bin OShr e1 e2) (promote t1) (Z.shiftr a k).
Proof.
  intros [H1 R1] [H2 _] Ha Hk.
  assert (Hq : 0 <= a / 2 ^ k <= a).
  { split; [apply Z.div_pos; lia|]. apply Z.div_le_upper_bound; [lia|]. assert (1 <= 2 ^ k) by (apply (Z.pow_le_mono_r 2 0); lia). nia. }
  assert (Hr : in_range (promote t1) (a / 2 ^ k) = true).
  { destruct t1; cbn [promote]; unfold in_range, width in *; lia. }
  rewrite Z.shiftr_div_pow2 by lia. split; [|exact Hr].
  cbn [eval]. rewrite H1, H2. cbn [bind]. unfold shift.
  replace ((0 <=? k) && (k <? width (promote t1))) with true by lia. cbn [guard bind].
  destruct t1; cbn [promote] in *; try (replace (0 <=? a) with true by lia); cbn [guard bind]; apply result_id, Hr.
Qed.
Lemma ev_shl e1 e2 t1 t2 a k :
  ev e1 t1 a -> ev e2 t2 k -> 0 <= a -> 0 <= k < width (promote t1) -> in_range (promote t1) (Z.shiftl a k) = true ->
  ev (Bin OShl e1 e2) (promote t1) (Z.shiftl a k).
Proof.
  intros [H1 R1] [H2 _] Ha Hk Hr. split; [|exact Hr].
  rewrite Z.shiftl_mul_pow2 in * by lia.
  cbn [eval]. rewrite H1, H2. cbn [bind]. unfold shift.
  replace ((0 <=? k) && (k <? width (promote t1))) with true by lia. cbn [guard bind].
  destruct t1; cbn [promote] in *; try (replace (0 <=? a) with true by lia); cbn [guard bind]; apply result_id, Hr.
Qed.
Lemma ev_shl_mod e1 e2 t1 t2 a k :
  ev e1 t1 a -> ev e2 t2 k -> promote t1 <> I32 -> 0 <= k < width (promote t1) ->
  ev (Bin OShl e1 e2) (promote t1) (Z.shiftl a k mod 2 ^ width (promote t1)).
Proof.
  intros [H1 R1] [H2 _] Ht Hk.
  assert (W : 0 < 2 ^ width (promote t1)) by (destruct t1; cbn; lia).
  pose proof (Z.mod_pos_bound (Z.shiftl a k) _ W). split; [|destruct t1; cbn [promote] in *; try contradiction; unfold in_range; lia].
  rewrite Z.shiftl_mul_pow2 in * by lia.
  cbn [eval]. rewrite H1, H2. cbn [bind]. unfold shift.
  replace ((0 <=? k) && (k <? width (promote t1))) with true by lia. cbn [guard bind].
  destruct t1; cbn [promote] in *; try contradiction; reflexivity.
Qed.

(** Converting an operand first: the general case of an int operand in an unsigned operation *)
Lemma in_range_I32 z : - 2 ^ 31 <= z < 2 ^ 31 -> in_range I32 z = true.
Proof. unfold in_range. lia. Qed.
Lemma in_range_U32 z : 0 <= z < 2 ^ 32 -> in_range U32 z = true.
Proof. unfold in_range, width. lia. Qed.
Lemma in_range_U64 z : 0 <= z < 2 ^ 64 -> in_range U64 z = true.
Proof. unfold in_range, width. lia. Qed.
Lemma in_range_U8 z : 0 <= z < 256 -> in_range U8 z = true.
Proof. unfold in_range, width. lia. Qed.

(** ** Loops *)
Lemma cfor_iter {S : Type} (Inv : nat -> S -> Prop) t n bound (body : Z -> S -> option S) (f : nat -> S -> option S) :
  t = U32 ->
  (forall i, (i <= n)%nat -> cond (V t (Z.of_nat i) < bound) = Some (Z.of_nat i <? Z.of_nat n)) ->
  Z.of_nat n < 2 ^ 31 ->
  (forall i s, (i < n)%nat -> Inv i s -> body (Z.of_nat i) s = f i s /\ (forall s', f i s = Some s' -> Inv (Datatypes.S i) s')) ->
  forall s, Inv 0%nat s -> cfor (Datatypes.S n) t 0 bound body s = iterM n 0 f s.
Proof.
  intros -> Hb Hn Hstep.
  assert (G : forall k i s, (i + k = n)%nat -> Inv i s ->
    cfor (Datatypes.S k) U32 (Z.of_nat i) bound body s = iterM k i f s).
  { induction k as [|k IH]; intros i s Hi HI; cbn [cfor iterM]; rewrite Hb by lia; cbn [bind].
    - replace (Z.of_nat i <? Z.of_nat n) with false by lia. reflexivity.
    - replace (Z.of_nat i <? Z.of_nat n) with true by lia.
      destruct (Hstep i s ltac:(lia) HI) as [E N]. rewrite E. destruct (f i s) as [s'|]; [|reflexivity]. cbn [bind].
      rewrite (ev_asg U32 _ U32 (Z.of_nat i + 1)).
      + cbn [bind]. replace (Z.of_nat i + 1) with (Z.of_nat (Datatypes.S i)) by lia.
        apply (IH (Datatypes.S i) s'); [lia|]. apply N. reflexivity.
      + apply (ev_bin OAdd _ _ U32 I32); try reflexivity;
          [apply ev_V, in_range_U32; lia|apply ev_K; lia|apply in_range_U32; lia|discriminate|].
        intros _. apply in_range_U32. cbn [opz]. lia.
      + apply in_range_U32. lia. }
  intros s HI. apply (G n 0%nat s); [lia|exact HI].
Qed.
Lemma iterM_keeps {S : Type} (Inv : nat -> S -> Prop) n (f : nat -> S -> option S) :
  (forall i s s', (i < n)%nat -> Inv i s -> f i s = Some s' -> Inv (Datatypes.S i) s') ->
  forall s s', Inv 0%nat s -> iterM n 0 f s = Some s' -> Inv n s'.
Proof.
  intros Hs. assert (G : forall k i s s', (i + k = n)%nat -> Inv i s -> iterM k i f s = Some s' -> Inv n s').
  { induction k as [|k IH]; intros i s s' Hi HI; cbn [iterM].
    - intros [= <-]. replace n with i by lia. exact HI.
    - destruct (f i s) as [s1|] eqn:E; [|discriminate]. cbn [bind]. intros H.
      apply (IH (Datatypes.S i) s1 s'); [lia| |exact H]. apply (Hs i s s1); [lia|exact HI|exact E]. }
  intros s s' HI. apply (G n 0%nat s s'); [lia|exact HI].
Qed.

(** ** Tactics *)
Ltac rg := cbn [promote common opz is_cmp is_div is_shift width in_range];
  first [reflexivity | discriminate | assumption
        | intros; unfold in_range, width; cbn [opz]; change (2 ^ 32) with 4294967296; change (2 ^ 31) with 2147483648;
          change (2 ^ 64) with 18446744073709551616; change (2 ^ 8) with 256;
          change (2 ^ 32) with 4294967296 in *; change (2 ^ 31) with 2147483648 in *;
          change (2 ^ 64) with 18446744073709551616 in *; lia].
Ltac evs :=
  lazymatch goal with
  | H : ev ?e _ _ |- ev ?e _ _ => exact H
  | |- ev (V _ _) _ _ => apply ev_V; rg
  | |- ev (K _) _ _ => apply ev_K; rg
  | |- ev (B _) _ _ => apply ev_B
  | |- ev (Cast _ _) _ _ => first [eapply ev_cast; [evs|rg] | eapply ev_cast_mod; [evs|rg]]
  | |- ev (Bin OShl _ _) _ _ => first [eapply ev_shl; [evs|evs|rg|rg|rg] | eapply ev_shl_mod; [evs|evs|rg|rg]]
  | |- ev (Bin OShr _ _) _ _ => eapply ev_shr; [evs|evs|rg|rg]
  | |- ev (Bin _ _ _) _ _ =>
      first [eapply ev_bin; [evs|evs|rg|rg|rg|rg|rg] | eapply ev_bin_mod; [evs|evs|rg|rg|rg|rg|rg|rg]]
  end.
Lemma ev_as e t v t' v' : ev e t v -> t = t' -> v = v' -> ev e t' v'. Proof. now intros H <- <-. Qed.
(** for a goal with a given type and value *)
Ltac evc := eapply ev_as; [evs|reflexivity|cbn [opz]].
Lemma asg_is t e t' z v : ev e t' z -> z = v -> in_range t v = true -> asg t e = Some v.
Proof. intros H <- R. exact (ev_asg t e t' z H R). Qed.
Lemma cond_is e t z b : ev e t z -> negb (z =? 0) = b -> cond e = Some b.
Proof. intros H <-. exact (ev_cond e t z H). Qed.
Lemma ix_is e t z n : ev e t z -> z = Z.of_nat n -> ix e = Some n.
Proof. intros H ->. rewrite (ev_ix e t _ H) by lia. now rewrite Nat2Z.id. Qed.
Lemma cond_lt e1 e2 t a b :
  ev e1 t a -> (exists t2, ev e2 t2 b /\ in_range (common (promote t) (promote t2)) a = true
     /\ in_range (common (promote t) (promote t2)) b = true) -> cond (Bin OLt e1 e2) = Some (a <? b).
Proof.
  intros H1 (t2 & H2 & Ra & Rb). rewrite (ev_cond _ I32 (if a <? b then 1 else 0)); [destruct (a <? b); reflexivity|].
  apply (ev_bin OLt e1 e2 t t2); try assumption; try reflexivity; discriminate.
Qed.
Lemma cond_eq e1 e2 t a b :
  ev e1 t a -> (exists t2, ev e2 t2 b /\ in_range (common (promote t) (promote t2)) a = true
     /\ in_range (common (promote t) (promote t2)) b = true) -> cond (Bin OEq e1 e2) = Some (a =? b).
Proof.
  intros H1 (t2 & H2 & Ra & Rb). rewrite (ev_cond _ I32 (if a =? b then 1 else 0)); [destruct (a =? b); reflexivity|].
  apply (ev_bin OEq e1 e2 t t2); try assumption; try reflexivity; discriminate.
Qed.
Ltac casg v := match goal with |- context [asg ?t ?e] => erewrite (asg_is t e _ _ v); [cbn [bind]|evs| |] end.
Ltac cix n := match goal with |- context [ix ?e] => erewrite (ix_is e _ _ n); [cbn [bind]|evs|] end.
Ltac clt := match goal with |- context [cond (Bin OLt ?a ?b)] =>
  erewrite (cond_lt a b); [cbn [bind]|evs|eexists; split; [evs|split; rg]] end.
Ltac ceq := match goal with |- context [cond (Bin OEq ?a ?b)] =>
  erewrite (cond_eq a b); [cbn [bind]|evs|eexists; split; [evs|split; rg]] end.

Lemma ev_quot e1 e2 a b q : ev e1 I32 a -> ev e2 I32 b -> b <> 0 -> Z.quot a b = q -> in_range I32 q = true ->
  ev (Bin ODiv e1 e2) I32 q.
Proof.
  intros H1 H2 Hb <- Hq. exact (ev_bin ODiv e1 e2 I32 I32 a b H1 H2 eq_refl (proj2 H1) (proj2 H2) (fun _ => Hb) (fun _ => Hq)).
Qed.

(** ** The macros *)
Section Macros.
Variable P : params.
Hypothesis Hwf : wf_params P = true.
Hypothesis Hbig : Z.of_nat (SPX_BYTES P) < 2 ^ 31.
Notation N := (p_n P).
Notation z := Z.of_nat.

Lemma bnd_basic : 1 <= z N <= 256 /\ 1 <= z (p_d P) <= 256 /\ 1 <= z (SPX_TREE_HEIGHT P) <= 30
  /\ 1 <= z (p_fh P) <= 30 /\ 1 <= z (p_ft P) /\ (z (p_logw P) = 4 \/ z (p_logw P) = 8)
  /\ z (SPX_WOTS_LEN P) <= 256 /\ z (SPX_TREE_BITS P) <= 64 /\ 0 <= z (SPX_TREE_BITS P).
Proof. clear Hbig. unfold wf_params in Hwf. lia. Qed.
Lemma bnd_full : z (p_full P) = z (SPX_TREE_HEIGHT P) * z (p_d P) /\ 0 <= z (p_full P) <= 7680.
Proof.
  pose proof bnd_basic as B.
  assert (E : (SPX_TREE_HEIGHT P * p_d P = p_full P)%nat) by (clear Hbig B; unfold wf_params in Hwf; lia).
  clear Hwf Hbig. nia.
Qed.
Lemma bnd_fors : z (p_ft P) * 2 ^ z (p_fh P) <= 2 ^ 32.
Proof. clear Hbig. unfold wf_params in Hwf. apply andb_prop in Hwf as [_ H]. lia. Qed.
Lemma bnd_parts : z N + z (SPX_FORS_BYTES P) + z (p_d P * SPX_WOTS_BYTES P) + z (p_full P * N) < 2 ^ 31
  /\ z (SPX_FORS_BYTES P) = (z (p_fh P) + 1) * z (p_ft P) * z N
  /\ z (SPX_WOTS_BYTES P) = z (SPX_WOTS_LEN P) * z N.
Proof. unfold SPX_BYTES in Hbig. unfold SPX_FORS_BYTES, SPX_WOTS_BYTES in *. clear Hwf. nia. Qed.

Lemma e_N : ev (xN P) I32 (z N). Proof. pose proof bnd_basic. apply ev_K. lia. Qed.
Lemma e_D : ev (xD P) I32 (z (p_d P)). Proof. pose proof bnd_basic. apply ev_K. lia. Qed.
Lemma e_FULL : ev (xFULL_HEIGHT P) I32 (z (p_full P)). Proof. pose proof bnd_full. apply ev_K. lia. Qed.
Lemma e_FH : ev (xFORS_HEIGHT P) I32 (z (p_fh P)). Proof. pose proof bnd_basic. apply ev_K. lia. Qed.
Lemma bnd_ft : (z (p_fh P) + 1) * z (p_ft P) < 2 ^ 31 /\ z (p_ft P) * z N < 2 ^ 31 /\ z N * z (p_fh P) < 2 ^ 31 /\ z (p_ft P) < 2 ^ 31
  /\ z (p_fh P) * z (p_ft P) + 7 < 2 ^ 31.
Proof. pose proof bnd_basic. destruct bnd_parts as (H1 & H2 & _). clear Hwf Hbig. nia. Qed.
Lemma e_FT : ev (xFORS_TREES P) I32 (z (p_ft P)).
Proof. pose proof bnd_ft. pose proof bnd_basic. apply ev_K. lia. Qed.
Lemma w_value : SPX_WOTS_W P = 16 \/ SPX_WOTS_W P = 256.
Proof. pose proof bnd_basic as B. unfold SPX_WOTS_W. destruct B as (_ & _ & _ & _ & _ & [->| ->] & _); [left|right]; reflexivity. Qed.
Lemma e_W : ev (xW P) I32 (SPX_WOTS_W P). Proof. pose proof w_value. apply ev_K. lia. Qed.
Lemma e_LOGW : ev (xLOGW P) I32 (z (p_logw P)). Proof. pose proof bnd_basic. apply ev_K. lia. Qed.
Lemma len2_bound : z (SPX_WOTS_LEN2 P) <= 4 /\ z (SPX_WOTS_LEN1 P) <= 512 /\ z (SPX_WOTS_LEN P) = z (SPX_WOTS_LEN1 P) + z (SPX_WOTS_LEN2 P).
Proof.
  pose proof bnd_basic as B. unfold SPX_WOTS_LEN in *. split; [|split; [|lia]].
  - unfold SPX_WOTS_LEN2, wots_len2_table. repeat match goal with |- context [if ?x then _ else _] => destruct x end; cbn; lia.
  - lia.
Qed.
Lemma e_LEN2 : ev (xLEN2 P) I32 (z (SPX_WOTS_LEN2 P)). Proof. pose proof len2_bound. apply ev_K. lia. Qed.
Lemma quot_nat (a b : nat) : (0 < b)%nat -> Z.quot (z a) (z b) = z (a / b).
Proof. clear. intros H. rewrite Z.quot_div_nonneg by lia. now rewrite Nat2Z.inj_div. Qed.
Lemma e_LEN1 : ev (xLEN1 P) I32 (z (SPX_WOTS_LEN1 P)).
Proof.
  pose proof bnd_basic as B. pose proof e_N as HN. pose proof e_LOGW as HL. unfold xLEN1.
  assert (Q : Z.quot (8 * z N) (z (p_logw P)) = z (SPX_WOTS_LEN1 P)).
  { unfold SPX_WOTS_LEN1. rewrite <- quot_nat by lia. f_equal; lia. }
  pose proof len2_bound as B2. eapply ev_quot; [evc; reflexivity|evc; reflexivity|rg|exact Q|rg].
Qed.
Lemma e_LEN : ev (xLEN P) I32 (z (SPX_WOTS_LEN P)).
Proof.
  pose proof len2_bound. pose proof bnd_basic as B. pose proof e_LEN1. pose proof e_LEN2. unfold xLEN.
  evc. lia.
Qed.
Lemma bnd_wots : 0 <= z (SPX_WOTS_BYTES P) <= 65536.
Proof. destruct bnd_parts as (_ & _ & ->). pose proof bnd_basic. clear Hwf Hbig. nia. Qed.
Lemma e_WOTS_BYTES : ev (xWOTS_BYTES P) I32 (z (SPX_WOTS_BYTES P)).
Proof.
  pose proof bnd_wots. destruct bnd_parts as (_ & _ & E). pose proof bnd_basic as B. pose proof e_LEN. pose proof e_N.
  unfold xWOTS_BYTES. rewrite E in *. evc; reflexivity.
Qed.
Lemma e_TH : ev (xTREE_HEIGHT P) I32 (z (SPX_TREE_HEIGHT P)).
Proof.
  pose proof bnd_basic as B. pose proof e_FULL. pose proof e_D. pose proof bnd_full.
  assert (Q : Z.quot (z (p_full P)) (z (p_d P)) = z (SPX_TREE_HEIGHT P)) by (unfold SPX_TREE_HEIGHT; apply quot_nat; lia).
  unfold xTREE_HEIGHT. eapply ev_quot; [evc; reflexivity|evc; reflexivity|rg|exact Q|rg].
Qed.
Lemma div8 (a : nat) : Z.quot (z a + 7) 8 = z ((a + 7) / 8).
Proof. clear. replace (z a + 7) with (z (a + 7)) by lia. apply (quot_nat (a + 7) 8). lia. Qed.
Lemma div8_le (a : nat) : z ((a + 7) / 8) <= z a + 7.
Proof. clear. rewrite <- div8. rewrite Z.quot_div_nonneg by lia. apply Z.div_le_upper_bound; lia. Qed.
Lemma e_div8 e (a : nat) : ev e I32 (z a) -> z a + 7 < 2 ^ 31 -> ev ((e + K 7) / K 8)%C I32 (z ((a + 7) / 8)).
Proof.
  clear. intros H Hs. pose proof (div8_le a). eapply ev_quot; [evc; reflexivity|evc; reflexivity|rg|exact (div8 a)|rg].
Qed.
Lemma e_FORS_MSG : ev (xFORS_MSG_BYTES P) I32 (z (SPX_FORS_MSG_BYTES P)).
Proof.
  pose proof bnd_ft as B. pose proof bnd_basic. unfold xFORS_MSG_BYTES, SPX_FORS_MSG_BYTES. pose proof e_FH. pose proof e_FT.
  apply e_div8; [|lia]. rewrite Nat2Z.inj_mul. evc; reflexivity.
Qed.
Lemma e_FORS_BYTES : ev (xFORS_BYTES P) I32 (z (SPX_FORS_BYTES P)).
Proof.
  destruct bnd_parts as (H1 & E & _). pose proof bnd_ft as B. pose proof bnd_basic. pose proof e_FH. pose proof e_FT. pose proof e_N.
  unfold xFORS_BYTES. rewrite E in *. evc; reflexivity.
Qed.
Lemma e_BYTES : ev (xBYTES P) I32 (z (SPX_BYTES P)).
Proof.
  destruct bnd_parts as (H1 & _). pose proof e_N. pose proof e_FORS_BYTES. pose proof e_D. pose proof e_WOTS_BYTES. pose proof e_FULL.
  rewrite !Nat2Z.inj_mul in H1. pose proof bnd_basic.
  assert (0 <= z (p_d P) * z (SPX_WOTS_BYTES P)) by nia. assert (0 <= z (p_full P) * z N) by nia.
  unfold xBYTES. evc. unfold SPX_BYTES. lia.
Qed.
Lemma e_PK : ev (xPK_BYTES P) I32 (z (SPX_PK_BYTES P)).
Proof. pose proof bnd_basic. pose proof e_N. unfold xPK_BYTES, SPX_PK_BYTES. evc. lia. Qed.
Lemma e_TREE_BITS : ev (xTREE_BITS P) I32 (z (SPX_TREE_BITS P)).
Proof.
  pose proof bnd_basic as B. pose proof e_TH. pose proof e_D. unfold xTREE_BITS.
  assert (E : z (SPX_TREE_BITS P) = z (SPX_TREE_HEIGHT P) * (z (p_d P) - 1)) by (unfold SPX_TREE_BITS; nia).
  rewrite E in *. evc; reflexivity.
Qed.
Lemma e_TREE_BYTES : ev (xTREE_BYTES P) I32 (z (SPX_TREE_BYTES P)).
Proof. pose proof bnd_basic. apply e_div8; [apply e_TREE_BITS|lia]. Qed.
Lemma e_LEAF_BYTES : ev (xLEAF_BYTES P) I32 (z (SPX_LEAF_BYTES P)).
Proof. pose proof bnd_basic. apply e_div8; [apply e_TH|unfold SPX_LEAF_BITS; lia]. Qed.
Lemma e_CSUM : ev (xCSUM_BYTES P) I32 (z ((SPX_WOTS_LEN2 P * p_logw P + 7) / 8)).
Proof.
  pose proof bnd_basic as B. pose proof len2_bound as B2. pose proof e_LEN2. pose proof e_LOGW. apply e_div8; [|nia].
  rewrite Nat2Z.inj_mul. assert (0 <= z (SPX_WOTS_LEN2 P) * z (p_logw P) <= 32) by nia. evc; reflexivity.
Qed.
End Macros.
