(** Evaluating C expressions over words of an unsigned type: no side conditions are left, the operators reduce modulo the
    width.  Also loops over a size_t counter. *)
From Verif Require Import Base BaseFacts CInt CCore CIntFacts.
Local Open Scope Z_scope.

Definition uns (t : cty) : Prop := t = U32 \/ t = U64.
Definition inr (t : cty) (z : Z) : Prop := in_range t z = true.
Lemma inr_iff t z : uns t -> inr t z <-> 0 <= z < 2 ^ width t.
Proof. unfold inr. intros [->| ->]; unfold in_range, width; lia. Qed.
Lemma uns_pos t : uns t -> 0 < 2 ^ width t. Proof. intros [->| ->]; reflexivity. Qed.
Lemma inr_mod t z : uns t -> inr t (z mod 2 ^ width t).
Proof. intros H. apply inr_iff; [exact H|]. apply Z.mod_pos_bound, uns_pos, H. Qed.
Lemma mod_inr t z : uns t -> inr t z -> z mod 2 ^ width t = z.
Proof. intros H R. apply (inr_iff t z H) in R. apply Z.mod_small, R. Qed.
Lemma uns_width t : uns t -> 0 <= width t. Proof. intros [->| ->]; cbn; lia. Qed.
Lemma inr_ones t z : uns t -> Z.land z (Z.ones (width t)) = z -> inr t z.
Proof. intros H E. rewrite Z.land_ones in E by (apply uns_width, H). rewrite <- E. apply inr_mod, H. Qed.
Lemma ones_inr t z : uns t -> inr t z -> Z.land z (Z.ones (width t)) = z.
Proof. intros H E. rewrite Z.land_ones by (apply uns_width, H). apply mod_inr; assumption. Qed.
Lemma inr_land t a b : uns t -> inr t a -> inr t (Z.land a b).
Proof.
  intros H A. apply (ones_inr t a H) in A. apply inr_ones; [exact H|].
  rewrite <- Z.land_assoc, (Z.land_comm b), Z.land_assoc, A. reflexivity.
Qed.
Lemma inr_land_r t a b : uns t -> inr t b -> inr t (Z.land a b).
Proof. intros H A. rewrite Z.land_comm. now apply inr_land. Qed.
Lemma inr_lor t a b : uns t -> inr t a -> inr t b -> inr t (Z.lor a b).
Proof.
  intros H A B. apply (ones_inr t a H) in A. apply (ones_inr t b H) in B. apply inr_ones; [exact H|].
  rewrite Z.land_lor_distr_l, A, B. reflexivity.
Qed.
Lemma land_lxor_distr a b c : Z.land (Z.lxor a b) c = Z.lxor (Z.land a c) (Z.land b c).
Proof. apply Z.bits_inj'. intros n Hn. rewrite !Z.land_spec, !Z.lxor_spec, !Z.land_spec. destruct (Z.testbit a n), (Z.testbit b n), (Z.testbit c n); reflexivity. Qed.
Lemma inr_lxor t a b : uns t -> inr t a -> inr t b -> inr t (Z.lxor a b).
Proof.
  intros H A B. apply (ones_inr t a H) in A. apply (ones_inr t b H) in B. apply inr_ones; [exact H|].
  rewrite land_lxor_distr, A, B. reflexivity.
Qed.
Lemma inr_shiftr t a k : uns t -> inr t a -> 0 <= k -> inr t (Z.shiftr a k).
Proof.
  intros H. rewrite !(inr_iff t) by exact H. intros [A0 A1] K. rewrite Z.shiftr_div_pow2 by exact K.
  assert (0 < 2 ^ k) by (apply Z.pow_pos_nonneg; lia). split; [apply Z.div_pos; lia|].
  apply Z.div_lt_upper_bound; [assumption|]. nia.
Qed.

Section Word.
Variable t : cty.
Hypothesis Hu : uns t.
Lemma uns_not_int : promote t <> I32 /\ promote t = t.
Proof. clear - Hu. destruct Hu as [->| ->]; split; discriminate || reflexivity. Qed.
Lemma common_self : common (promote t) (promote t) = t.
Proof. clear - Hu. destruct Hu as [->| ->]; reflexivity. Qed.
Lemma common_int : common (promote t) (promote I32) = t.
Proof. clear - Hu. destruct Hu as [->| ->]; reflexivity. Qed.

Lemma w_V z : inr t z -> ev (V t z) t z. Proof. apply ev_V. Qed.
Lemma w_bit o e1 e2 a b : is_shift o = false -> is_cmp o = false -> is_div o = false ->
  ev e1 t a -> ev e2 t b -> inr t (opz o a b) -> ev (Bin o e1 e2) t (opz o a b).
Proof.
  clear - Hu. intros S C D H1 H2 R. pose proof (ev_bin o e1 e2 t t a b H1 H2 S) as E. rewrite common_self, C in E.
  apply E; [apply H1|apply H2|rewrite D; discriminate|intros _; exact R].
Qed.
Lemma w_and e1 e2 a b : ev e1 t a -> ev e2 t b -> ev (e1 .& e2)%C t (Z.land a b).
Proof. intros H1 H2. apply (w_bit OAnd); try reflexivity; try assumption. apply inr_land; [exact Hu|apply H1]. Qed.
Lemma w_or e1 e2 a b : ev e1 t a -> ev e2 t b -> ev (e1 .| e2)%C t (Z.lor a b).
Proof. intros H1 H2. apply (w_bit OOr); try reflexivity; try assumption. apply inr_lor; [exact Hu|apply H1|apply H2]. Qed.
Lemma w_xor e1 e2 a b : ev e1 t a -> ev e2 t b -> ev (e1 .^ e2)%C t (Z.lxor a b).
Proof. intros H1 H2. apply (w_bit OXor); try reflexivity; try assumption. apply inr_lxor; [exact Hu|apply H1|apply H2]. Qed.
(** with an int constant on the right *)
Lemma w_bitK o e1 e2 a b : is_shift o = false -> is_cmp o = false -> is_div o = false ->
  ev e1 t a -> ev e2 I32 b -> 0 <= b -> inr t (opz o a b) -> ev (Bin o e1 e2) t (opz o a b).
Proof.
  clear - Hu. intros S C D H1 H2 B R. pose proof (ev_bin o e1 e2 t I32 a b H1 H2 S) as E. rewrite common_int, C in E.
  apply E; [apply H1| |rewrite D; discriminate|intros _; exact R].
  destruct H2 as [_ H2]. apply (inr_iff t b Hu). unfold in_range in H2. destruct Hu as [->| ->]; unfold width; lia.
Qed.
Lemma w_andK e1 e2 a b : ev e1 t a -> ev e2 I32 b -> 0 <= b -> ev (e1 .& e2)%C t (Z.land a b).
Proof. intros H1 H2 B. apply (w_bitK OAnd); try reflexivity; try assumption. apply inr_land; [exact Hu|apply H1]. Qed.
Lemma w_add e1 e2 a b : ev e1 t a -> ev e2 t b -> ev (e1 + e2)%C t ((a + b) mod 2 ^ width t).
Proof.
  clear - Hu. intros H1 H2. pose proof (ev_bin_mod OAdd e1 e2 t t a b H1 H2 eq_refl eq_refl eq_refl) as E. rewrite common_self in E.
  apply E; [intros ->; destruct Hu; discriminate|apply H1|apply H2].
Qed.
Lemma w_addK e1 e2 a b : ev e1 t a -> ev e2 I32 b -> 0 <= b -> ev (e1 + e2)%C t ((a + b) mod 2 ^ width t).
Proof.
  clear - Hu. intros H1 H2 B. pose proof (ev_bin_mod OAdd e1 e2 t I32 a b H1 H2 eq_refl eq_refl eq_refl) as E. rewrite common_int in E.
  apply E; [intros ->; destruct Hu; discriminate|apply H1|].
  destruct H2 as [_ H2]. apply (inr_iff t b Hu). unfold in_range in H2. destruct Hu as [->| ->]; unfold width; lia.
Qed.
Lemma w_not e a : ev e t a -> ev (Not e) t (2 ^ width t - 1 - a).
Proof.
  clear - Hu. intros [H R]. split.
  - cbn [eval]. rewrite H. cbn [bind]. destruct Hu as [->| ->]; reflexivity.
  - apply (inr_iff t a Hu) in R. apply (inr_iff t _ Hu). lia.
Qed.
Lemma w_shr e1 e2 t2 a k : ev e1 t a -> ev e2 t2 k -> 0 <= k < width t -> ev (e1 >> e2)%C t (Z.shiftr a k).
Proof.
  clear - Hu. intros H1 H2 Hk. destruct uns_not_int as [_ P]. pose proof (ev_shr e1 e2 t t2 a k H1 H2) as E. rewrite P in E.
  apply E; [|exact Hk]. destruct H1 as [_ R]. apply (inr_iff t a Hu) in R. lia.
Qed.
Lemma w_shl e1 e2 t2 a k : ev e1 t a -> ev e2 t2 k -> 0 <= k < width t -> ev (e1 << e2)%C t (Z.shiftl a k mod 2 ^ width t).
Proof.
  clear - Hu. intros H1 H2 Hk. destruct uns_not_int as [N P]. pose proof (ev_shl_mod e1 e2 t t2 a k H1 H2 N) as E. rewrite P in E.
  apply E, Hk.
Qed.
Lemma w_asg e a : ev e t a -> asg t e = Some a.
Proof. clear. intros H. apply (ev_asg t e t a H). apply H. Qed.
Lemma w_range e a : ev e t a -> inr t a. Proof. intros H. apply H. Qed.

(** ~x is the complement of x in the word *)
Lemma not_bits a : inr t a -> 2 ^ width t - 1 - a = Z.lnot a mod 2 ^ width t.
Proof.
  clear - Hu. intros R. apply (inr_iff t a Hu) in R. unfold Z.lnot. replace (Z.pred (- a)) with ((2 ^ width t - 1 - a) + (-1) * 2 ^ width t) by lia.
  rewrite Z.mod_add by lia. rewrite Z.mod_small by lia. reflexivity.
Qed.
Lemma land_not a b : inr t a -> inr t b -> Z.land (2 ^ width t - 1 - a) b = Z.land (Z.lnot a) b.
Proof.
  clear - Hu. intros Ra Rb. rewrite (not_bits a Ra), <- Z.land_ones by (apply uns_width, Hu).
  rewrite <- Z.land_assoc, (Z.land_comm (Z.ones _)), (ones_inr t b Hu Rb). reflexivity.
Qed.
Lemma not_lxor a : inr t a -> 2 ^ width t - 1 - a = Z.lxor a (2 ^ width t - 1).
Proof.
  clear - Hu. intros R. rewrite (not_bits a R), <- Z.land_ones by (apply uns_width, Hu).
  replace (2 ^ width t - 1) with (Z.ones (width t)) by (rewrite Z.ones_equiv; lia). apply Z.bits_inj'. intros n Hn.
  rewrite Z.land_spec, Z.lnot_spec, Z.lxor_spec by exact Hn.
  destruct (Z.testbit (Z.ones (width t)) n) eqn:E; [destruct (Z.testbit a n); reflexivity|].
  rewrite <- (ones_inr t a Hu R), Z.land_spec, E, !andb_false_r. reflexivity.
Qed.
End Word.

(** Two computations are the same, and what they give satisfies Q *)
Definition agree {S} (Q : S -> Prop) (r r' : option S) : Prop := r = r' /\ (forall s, r' = Some s -> Q s).
(** Assigning a word and going on *)
Lemma asg_let {S} (Q : S -> Prop) t e v (k b : Z -> option S) :
  ev e t v -> (forall x, inr t x -> agree Q (k x) (b x)) -> agree Q (x <- asg t e ;; k x) (let x := v in b x).
Proof. intros H K. rewrite (w_asg t e v H). cbn [bind]. apply K. apply H. Qed.
Ltac alet := lazymatch goal with |- agree ?Q (bind (asg ?t ?e) ?k) (let x := ?v in @?b x) => apply (asg_let Q t e v k b) end.
Lemma asg_step {S} (Q : S -> Prop) t e v (k : Z -> option S) r :
  ev e t v -> (inr t v -> agree Q (k v) r) -> agree Q (x <- asg t e ;; k x) r.
Proof. intros H K. rewrite (w_asg t e v H). cbn [bind]. apply K. apply H. Qed.
Lemma agree_ret {S} (Q : S -> Prop) (s : S) : Q s -> agree Q (Some s) (Some s).
Proof. intros H. split; [reflexivity|]. intros s' [= <-]. exact H. Qed.
Lemma agree_none {S} (Q : S -> Prop) : agree Q None None.
Proof. split; [reflexivity|discriminate]. Qed.
Lemma agree_bind {S T} (Q : S -> Prop) (R : T -> Prop) r r' k k' :
  agree Q r r' -> (forall s, Q s -> agree R (k s) (k' s)) -> agree R (bind r k) (bind r' k').
Proof. intros [-> H] K. destruct r' as [s|]; [|apply agree_none]. cbn [bind]. apply K, H. reflexivity. Qed.
(** the same read on both sides *)
Lemma agree_same {S T} (Q : S -> Prop) (R : T -> Prop) r k k' :
  (forall s, r = Some s -> Q s) -> (forall s, Q s -> agree R (k s) (k' s)) -> agree R (bind r k) (bind r k').
Proof. intros H. apply agree_bind. split; [reflexivity|exact H]. Qed.
Lemma agree_if {S} (Q : S -> Prop) (c : bool) a b a' b' :
  agree Q a a' -> agree Q b b' -> agree Q (if c then a else b) (if c then a' else b').
Proof. now destruct c. Qed.
Lemma agree_weak {S} (Q R : S -> Prop) r r' : (forall s, Q s -> R s) -> agree Q r r' -> agree R r r'.
Proof. intros H [E K]. split; auto. Qed.

(** A byte in a wider type *)
Lemma w_byte t b : uns t -> ev (Cast t (B b)) t (u8 b).
Proof.
  intros Hu. apply (ev_cast t _ U8); [apply ev_B|]. apply (inr_iff t _ Hu). unfold u8. pose proof (Z.mod_pos_bound b 256).
  destruct Hu as [->| ->]; unfold width; lia.
Qed.
(** A shifted byte that stays in the word *)
Lemma w_shlb t e1 e2 t2 a k : uns t -> ev e1 t a -> ev e2 t2 k -> 0 <= a < 256 -> 0 <= k <= width t - 8 ->
  ev (e1 << e2)%C t (Z.shiftl a k).
Proof.
  intros Hu H1 H2 Ha Hk. eapply ev_as; [apply (w_shl t Hu e1 e2 t2 a k H1 H2); lia|reflexivity|].
  apply Z.mod_small. rewrite Z.shiftl_mul_pow2 by lia. split; [nia|].
  apply Z.lt_le_trans with (256 * 2 ^ k); [nia|]. change 256 with (2 ^ 8). rewrite <- Z.pow_add_r by lia.
  apply Z.pow_le_mono_r; lia.
Qed.

(** ** Loops over a size_t or unsigned counter *)
Lemma cfor_uns {S : Type} (Inv : nat -> S -> Prop) t n k0 bound (body : Z -> S -> option S) (f : nat -> S -> option S) :
  uns t -> Z.of_nat (k0 + n) < 2 ^ width t ->
  (forall i, (k0 <= i <= k0 + n)%nat -> cond (V t (Z.of_nat i) < bound) = Some (Z.of_nat i <? Z.of_nat (k0 + n))) ->
  (forall i s, (k0 <= i < k0 + n)%nat -> Inv i s ->
    body (Z.of_nat i) s = f i s /\ (forall s', f i s = Some s' -> Inv (Datatypes.S i) s')) ->
  forall s, Inv k0 s -> cfor (Datatypes.S n) t (Z.of_nat k0) bound body s = iterM n k0 f s.
Proof.
  intros Hu Hn Hb Hstep.
  assert (G : forall k i s, (i + k = k0 + n)%nat -> (k0 <= i)%nat -> Inv i s ->
    cfor (Datatypes.S k) t (Z.of_nat i) bound body s = iterM k i f s).
  { induction k as [|k IH]; intros i s Hi Hi0 HI; cbn [cfor iterM]; rewrite Hb by lia; cbn [bind].
    - replace (Z.of_nat i <? Z.of_nat (k0 + n)) with false by lia. reflexivity.
    - replace (Z.of_nat i <? Z.of_nat (k0 + n)) with true by lia.
      destruct (Hstep i s ltac:(lia) HI) as [E N]. rewrite E. destruct (f i s) as [s'|]; [|reflexivity]. cbn [bind].
      rewrite (w_asg t _ ((Z.of_nat i + 1) mod 2 ^ width t)).
      + cbn [bind]. rewrite Z.mod_small by lia. replace (Z.of_nat i + 1) with (Z.of_nat (Datatypes.S i)) by lia.
        apply (IH (Datatypes.S i) s'); [lia|lia|]. apply N. reflexivity.
      + apply (w_addK t Hu); [apply w_V, (inr_iff t _ Hu); lia|apply ev_K; lia|lia]. }
  intros s HI. apply (G n k0 s); [lia|lia|exact HI].
Qed.
(** more fuel than needed changes nothing *)
Lemma cfor_fuel {S : Type} t bound (body : Z -> S -> option S) : forall fuel i s r,
  cfor fuel t i bound body s = Some r -> forall fuel', (fuel <= fuel')%nat -> cfor fuel' t i bound body s = Some r.
Proof.
  induction fuel as [|fuel IH]; intros i s r H fuel' Hf; [discriminate|]. destruct fuel' as [|fuel']; [lia|].
  cbn [cfor] in *. destruct (cond (V t i < bound)%C) as [c|]; [|discriminate]. cbn [bind] in *. destruct c; [|exact H].
  destruct (body i s) as [s'|]; [|discriminate]. cbn [bind] in *. destruct (asg t (V t i + K 1)%C) as [i'|]; [|discriminate].
  cbn [bind] in *. apply (IH _ _ _ H). lia.
Qed.
