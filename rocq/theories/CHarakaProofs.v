(** The C-typed Haraka code is defined and computes what the model does. *)
From Verif Require Import Base BaseFacts Haraka CInt CCore CIntFacts CCoreProofs CWord CSha2 CSha2Proofs CFips202 CFips202Proofs CHaraka.
From Verif Require Import HarakaProofs ShakeProofs.
Local Open Scope Z_scope.

(** ** Loops with a constant bound and a counter of any type *)
Definition cnt (t : cty) : Prop := t = I32 \/ uns t.
Lemma cnt_K t z : cnt t -> 0 <= z < 2 ^ 31 -> in_range t z = true.
Proof. intros [->|[->| ->]] H; [apply in_range_I32|apply in_range_U32|apply in_range_U64]; lia. Qed.
Lemma cnt_V t i : cnt t -> 0 <= i < 2 ^ 31 -> ev (V t i) t i.
Proof. intros H R. apply ev_V, cnt_K; assumption. Qed.
Lemma cnt_common t : cnt t -> promote t = t /\ common t I32 = t /\ common I32 t = t /\ common t t = t.
Proof. intros [->|[->| ->]]; repeat split; reflexivity. Qed.
(** arithmetic on small numbers *)
Lemma cnt_bin o e1 e2 t1 t2 t a b : cnt t -> common (promote t1) (promote t2) = t -> is_shift o = false -> is_cmp o = false -> is_div o = false ->
  ev e1 t1 a -> ev e2 t2 b -> 0 <= a < 2 ^ 31 -> 0 <= b < 2 ^ 31 -> 0 <= opz o a b < 2 ^ 31 -> ev (Bin o e1 e2) t (opz o a b).
Proof.
  intros H C S M D H1 H2 A B R. pose proof (ev_bin o e1 e2 t1 t2 a b H1 H2 S) as E. rewrite C, M in E.
  apply E; [apply cnt_K; assumption|apply cnt_K; assumption|rewrite D; discriminate|intros _; apply cnt_K; assumption].
Qed.
Lemma cnt_lt t i k : cnt t -> 0 <= i < 2 ^ 31 -> 0 <= k < 2 ^ 31 -> cond (V t i < K k)%C = Some (i <? k).
Proof.
  intros H I J. apply (cond_lt _ _ t); [apply cnt_V; assumption|]. exists I32. destruct (cnt_common t H) as (P & C & _). rewrite P. cbn [promote].
  rewrite C. split; [apply ev_K; lia|]. split; apply cnt_K; assumption.
Qed.
Lemma cnt_ix t i : cnt t -> Z.of_nat i < 2 ^ 31 -> ix (V t (Z.of_nat i)) = Some i.
Proof. intros H I. apply (ix_is _ t (Z.of_nat i)); [apply cnt_V; [exact H|lia]|reflexivity]. Qed.
Lemma cnt_step t i : cnt t -> 0 <= i < 2 ^ 31 - 1 -> asg t (V t i + K 1)%C = Some (i + 1).
Proof.
  intros H I. destruct (cnt_common t H) as (P & C & _). apply (asg_is t _ t (i + 1)); [|reflexivity|apply cnt_K; [exact H|lia]].
  apply (cnt_bin OAdd _ _ t I32 t i 1); try reflexivity; try lia; [exact H|rewrite P; exact C|apply cnt_V; [exact H|lia]|apply ev_K; lia|cbn [opz]; lia].
Qed.
Lemma cfor_K {S : Type} (Inv : nat -> S -> Prop) t n fuel (body : Z -> S -> option S) (f : nat -> S -> option S) :
  cnt t -> Z.of_nat n < 2 ^ 31 - 1 -> fuel = Datatypes.S n ->
  (forall i s, (i < n)%nat -> Inv i s -> agree (Inv (Datatypes.S i)) (body (Z.of_nat i) s) (f i s)) ->
  forall s, Inv 0%nat s -> agree (Inv n) (cfor fuel t 0 (K (Z.of_nat n)) body s) (iterM n 0 f s).
Proof.
  intros Ht Hn -> Hstep.
  assert (G : forall k i s, (i + k = n)%nat -> Inv i s ->
    agree (Inv n) (cfor (Datatypes.S k) t (Z.of_nat i) (K (Z.of_nat n)) body s) (iterM k i f s)).
  { induction k as [|k IH]; intros i s Hi HI; cbn [cfor iterM]; rewrite cnt_lt by (try exact Ht; lia); cbn [bind].
    - replace (Z.of_nat i <? Z.of_nat n) with false by lia. apply agree_ret. replace n with i by lia. exact HI.
    - replace (Z.of_nat i <? Z.of_nat n) with true by lia.
      apply (agree_bind (Inv (Datatypes.S i))); [apply Hstep; [lia|exact HI]|]. intros s' I'.
      rewrite cnt_step by (try exact Ht; lia). cbn [bind]. replace (Z.of_nat i + 1) with (Z.of_nat (Datatypes.S i)) by lia.
      apply IH; [lia|exact I']. }
  intros s HI. apply (G n 0%nat s); [lia|exact HI].
Qed.

(** ** Words *)
Section Words.
Variable t : cty.
Hypothesis Hu : uns t.
Notation wd := (width t).
Definition Q8 (q : list Z) : Prop := length q = 8%nat /\ Forall (inr t) q.
Lemma w_not' e a : ev e t a -> ev (Not e) t (bnot wd a).
Proof. clear - Hu. intros H. eapply ev_as; [apply (w_not t Hu e a H)|reflexivity|]. apply (not_lxor t Hu), H. Qed.
Lemma Hex_ev k : 0 <= k < 2 ^ 64 -> exists t', ev (Hex k) t' k /\ (t' = I32 /\ 0 <= k < 2 ^ 31 \/ t' = U32 /\ k < 2 ^ 32 \/ t' = U64 /\ 2 ^ 32 <= k).
Proof.
  clear. intros H. unfold Hex, H32. destruct (Z.ltb_spec k (2 ^ 32)); [destruct (Z.ltb_spec k (2 ^ 31))|].
  - exists I32. split; [apply ev_K; lia|left; split; [reflexivity|lia]].
  - exists U32. split; [apply ev_V, in_range_U32; lia|right; left; split; [reflexivity|lia]].
  - exists U64. split; [apply ev_V, in_range_U64; lia|right; right; split; [reflexivity|lia]].
Qed.
Lemma w_hex e a k : ev e t a -> 0 <= k < 2 ^ wd -> ev (e .& Hex k)%C t (Z.land a k).
Proof.
  clear - Hu. intros H Hk. assert (Hk' : 0 <= k < 2 ^ 64) by (destruct Hu as [->| ->]; unfold width in Hk; lia).
  destruct (Hex_ev k Hk') as (t' & E & C). 
  pose proof (ev_bin OAnd e (Hex k) t t' a k H E eq_refl) as X.
  assert (CC : common (promote t) (promote t') = t).
  { destruct C as [[-> _]|[[-> _]|[-> C]]]; destruct Hu as [->| ->]; try reflexivity. unfold width in Hk. lia. }
  rewrite CC in X. apply X; [apply H|apply (inr_iff t k Hu); exact Hk|discriminate|].
  intros _. apply inr_land; [exact Hu|apply H].
Qed.
Lemma w_hexc e a k : ev e t a -> 0 <= k < 2 ^ wd -> ev (e .& Cast t (Hex k))%C t (Z.land a k).
Proof.
  clear - Hu. intros H Hk. assert (Hk' : 0 <= k < 2 ^ 64) by (destruct Hu as [->| ->]; unfold width in Hk; lia).
  destruct (Hex_ev k Hk') as (t' & E & _). apply (w_and t Hu); [exact H|]. apply (ev_cast t _ t'); [exact E|]. apply (inr_iff t k Hu). exact Hk.
Qed.
Lemma w_shl' e a k : ev e t a -> 0 <= k < wd -> ev (e << K k)%C t (shl wd a k).
Proof.
  clear - Hu. intros H Hk. apply (w_shl t Hu e (K k) I32 a k H); [|exact Hk]. apply ev_K. destruct Hu as [->| ->]; unfold width in Hk; lia.
Qed.
Lemma w_shr' e a k : ev e t a -> 0 <= k < wd -> ev (e >> K k)%C t (Z.shiftr a k).
Proof.
  clear - Hu. intros H Hk. apply (w_shr t Hu e (K k) I32 a k H); [|exact Hk]. apply ev_K. destruct Hu as [->| ->]; unfold width in Hk; lia.
Qed.
(** goals [ev e t v] for the expressions of this file *)
Ltac evw := repeat first
  [ apply w_not' | apply w_hexc | apply w_hex | apply w_shl' | apply w_shr' | apply (w_or t Hu) | apply (w_and t Hu) | apply (w_xor t Hu)
  | apply (w_V t); assumption ].
Lemma Q8_list q : Q8 q -> exists q0 q1 q2 q3 q4 q5 q6 q7, q = [q0; q1; q2; q3; q4; q5; q6; q7]
  /\ inr t q0 /\ inr t q1 /\ inr t q2 /\ inr t q3 /\ inr t q4 /\ inr t q5 /\ inr t q6 /\ inr t q7.
Proof.
  clear. intros [L F]. do 8 (destruct q as [|? q]; [discriminate|]). destruct q; [|discriminate].
  do 8 (apply Forall_cons_iff in F; destruct F as [? F]). do 8 eexists. split; [reflexivity|]. repeat split; assumption.
Qed.
Lemma list_Q8 q0 q1 q2 q3 q4 q5 q6 q7 : inr t q0 -> inr t q1 -> inr t q2 -> inr t q3 -> inr t q4 -> inr t q5 -> inr t q6 -> inr t q7 ->
  Q8 [q0; q1; q2; q3; q4; q5; q6; q7].
Proof. clear. intros. split; [reflexivity|repeat constructor; assumption]. Qed.
Lemma sbox_c_ok q : Q8 q -> agree Q8 (sbox_c t q) (bitslice_Sbox wd q).
Proof.
  clear - Hu. intros H. destruct (Q8_list q H) as (q0 & q1 & q2 & q3 & q4 & q5 & q6 & q7 & -> & R0 & R1 & R2 & R3 & R4 & R5 & R6 & R7).
  cbv beta iota delta [sbox_c bitslice_Sbox sbox]. clear H.
  repeat (alet; [evw|intros]). apply agree_ret, list_Q8; assumption.
Qed.
Definition pairW (p : Z * Z) : Prop := inr t (fst p) /\ inr t (snd p).
Lemma SWAPN_c_ok cl ch s a b : 0 <= cl < 2 ^ wd -> 0 <= ch < 2 ^ wd -> 0 <= s < wd -> inr t a -> inr t b ->
  SWAPN_c t cl ch s a b = Some (SWAPN wd cl ch s a b) /\ pairW (SWAPN wd cl ch s a b).
Proof.
  clear - Hu. intros Hl Hh Hs A B. unfold SWAPN_c, SWAPN.
  match goal with |- (x <- asg t ?e ;; y <- asg t ?e' ;; _) = Some (?v, ?v') /\ _ =>
    assert (E : ev e t v) by (evw; assumption); assert (E' : ev e' t v') by (evw; assumption) end.
  rewrite (w_asg t _ _ E), (w_asg t _ _ E'). split; [reflexivity|split; [apply E|apply E']].
Qed.
Lemma ortho_c_ok l2 h2 l4 h4 l8 h8 q : 0 <= l2 < 2 ^ wd -> 0 <= h2 < 2 ^ wd -> 0 <= l4 < 2 ^ wd -> 0 <= h4 < 2 ^ wd ->
  0 <= l8 < 2 ^ wd -> 0 <= h8 < 2 ^ wd -> Q8 q -> agree Q8 (ortho_c t l2 h2 l4 h4 l8 h8 q) (ortho wd l2 h2 l4 h4 l8 h8 q).
Proof.
  clear - Hu. intros A2 B2 A4 B4 A8 B8 H. destruct (Q8_list q H) as (q0 & q1 & q2 & q3 & q4 & q5 & q6 & q7 & -> & R0 & R1 & R2 & R3 & R4 & R5 & R6 & R7).
  unfold ortho_c, ortho. clear H.
  assert (S1 : 0 <= 1 < wd /\ 0 <= 2 < wd /\ 0 <= 4 < wd) by (destruct Hu as [->| ->]; cbn [width]; lia). destruct S1 as (S1 & S2 & S4).
  repeat match goal with |- context [SWAPN_c t ?cl ?ch ?s ?a ?b] =>
    let E := fresh "E" in let X := fresh "X" in let Y := fresh "Y" in
    destruct (SWAPN_c_ok cl ch s a b ltac:(assumption) ltac:(assumption) ltac:(assumption) ltac:(assumption) ltac:(assumption)) as [E [X Y]];
    rewrite E; clear E; destruct (SWAPN wd cl ch s a b); cbn [bind fst snd] in * end.
  apply agree_ret, list_Q8; assumption.
Qed.
Lemma ark_c_ok q k : Q8 q -> Q8 k -> agree Q8 (add_round_key_c t q k) (add_round_key q k).
Proof.
  clear - Hu. intros H H'. destruct (Q8_list q H) as (q0 & q1 & q2 & q3 & q4 & q5 & q6 & q7 & -> & R0 & R1 & R2 & R3 & R4 & R5 & R6 & R7).
  destruct (Q8_list k H') as (k0 & k1 & k2 & k3 & k4 & k5 & k6 & k7 & -> & K0 & K1 & K2 & K3 & K4 & K5 & K6 & K7).
  unfold add_round_key_c, add_round_key. clear H H'.
  do 8 (eapply asg_step; [evw|intros]). apply agree_ret, list_Q8; assumption.
Qed.
Definition rot_w (k l x : Z) : Z := Z.lor (Z.shiftr x k) (shl wd x l).
Definition rotl_w (k x : Z) : Z := Z.lor (shl wd x k) (Z.shiftr x k).
Lemma rotr_c_ok k e a : 0 <= k < wd -> ev e t a -> rotr_c t k e = Some (rotl_w k a) /\ inr t (rotl_w k a).
Proof.
  clear - Hu. intros Hk H. unfold rotr_c, rotl_w. rewrite (w_asg t _ _ H). cbn [bind]. pose proof (proj2 H) as R.
  match goal with |- asg t ?e = Some ?v /\ _ => assert (E : ev e t v) by (evw; assumption) end. rewrite (w_asg t _ _ E). split; [reflexivity|apply E].
Qed.
Lemma mix_columns_c_ok k l h q : 0 <= k < wd -> 0 <= l < wd -> 0 <= h < wd -> Q8 q ->
  agree Q8 (mix_columns_c t k l h q) (mix_columns_w (rot_w k l) (rotl_w h) q).
Proof.
  clear - Hu. intros Hk Hl Hh H. destruct (Q8_list q H) as (q0 & q1 & q2 & q3 & q4 & q5 & q6 & q7 & -> & R0 & R1 & R2 & R3 & R4 & R5 & R6 & R7).
  cbv beta iota delta [mix_columns_c mix_columns_w rot_w]. clear H.
  do 8 (alet; [evw; assumption|intros]). cbv zeta.
  do 8 (match goal with |- context [rotr_c t h (?a .^ ?b)%C] =>
    let E := fresh "E" in let R := fresh "R" in
    match a with V t ?x => match b with V t ?y =>
    assert (E : ev (a .^ b)%C t (Z.lxor x y)) by evw;
    destruct (rotr_c_ok h _ _ Hh E) as [-> R]; clear E; cbn [bind]; set (rotl_w h (Z.lxor x y)) in * end end end;
    eapply asg_step; [evw|intros]).
  apply agree_ret, list_Q8; assumption.
Qed.
Lemma each_c_ok ti e f q : cnt ti -> (forall x, inr t x -> ev (e (V t x)) t (f x)) -> Q8 q -> each_c t ti e q = Some (map f q) /\ Q8 (map f q).
Proof.
  clear - Hu. intros Ht He H. unfold each_c.
  assert (G : agree (fun q => Q8 q) (cfor 9 ti 0 (K (Z.of_nat 8)) (fun i q => j <- ix (V ti i) ;; x <- get q j ;; x <- asg t (V t x) ;;
    y <- asg t (e (V t x)) ;; wr q j [y]) q) (iterM 8 0 (fun i q => x <- get q i ;; wr q i [f x]) q)).
  { apply (cfor_K (fun _ q => Q8 q)); [exact Ht|lia|reflexivity| |exact H]. intros i s Hi [L F].
    rewrite (cnt_ix ti i Ht) by lia. cbn [bind]. rewrite (get_nth s i 0) by lia. cbn [bind].
    assert (R : inr t (nth i s 0)) by (rewrite Forall_forall in F; apply F, nth_In; lia).
    rewrite (w_asg t _ _ (w_V t _ R)). cbn [bind]. rewrite (w_asg t _ _ (He _ R)). cbn [bind]. split; [reflexivity|].
    intros s' E. split.
    - apply wr_length in E. lia.
    - pose proof (wr_words t s i (f (nth i s 0)) F (proj2 (He _ R))) as [_ W]. apply W, E. }
  destruct G as [E G]. change (K 8) with (K (Z.of_nat 8)). rewrite E. clear E. destruct (Q8_list q H) as (q0 & q1 & q2 & q3 & q4 & q5 & q6 & q7 & -> & _).
  assert (X : iterM 8 0 (fun i q => x <- get q i ;; wr q i [f x]) [q0; q1; q2; q3; q4; q5; q6; q7] = Some (map f [q0; q1; q2; q3; q4; q5; q6; q7]))
    by reflexivity.
  rewrite X in G |- *. split; [reflexivity|apply G; reflexivity].
Qed.
End Words.
