(** Forgetting the record of CTLog.v gives the functions of the core model. *)
From Verif Require Import Base Params Address Suite Utils Wots Fors Merkle Sign CTLog.

Definition forget {A} (m : tm A) : option A := option_map fst m.
Lemma fg_ret : forall A (a : A), forget (tret a) = Some a.
Proof. reflexivity. Qed.
Lemma fg_bind : forall A B (o : option A) (f : A -> tm B), forget (bind o f) = bind o (fun x => forget (f x)).
Proof. intros A B [a|] f; reflexivity. Qed.
Lemma fg_tbind : forall A B (m : tm A) (f : A -> tm B), forget (tbind m f) = bind (forget m) (fun x => forget (f x)).
Proof. intros A B [[a l]|] f; cbn; [destruct (f a) as [[b l']|]|]; reflexivity. Qed.
Lemma fg_seen : forall A (o : option A) k, forget (seen o k) = o.
Proof. intros A [a|] k; reflexivity. Qed.
Lemma fg_br : forall A b (f : bool -> tm A), forget (tbind (br b) f) = forget (f b).
Proof. intros A b f. cbn. destruct (f b) as [[x l]|]; reflexivity. Qed.
Lemma fg_root : forall A x k (f : bytes -> tm A), forget (tbind (seen (Some x) k) f) = forget (f x).
Proof. intros A x k f. cbn. destruct (f x) as [[y l]|]; reflexivity. Qed.
Lemma bind_eqT : forall A B (o o' : option A) (f g : A -> option B), o = o' -> (forall a, f a = g a) -> bind o f = bind o' g.
Proof. intros A B o o' f g -> H; destruct o'; [apply H|reflexivity]. Qed.
Lemma fg_iter : forall S k i (f : nat -> S -> tm S) g s, (forall j t, forget (f j t) = g j t) -> forget (iterT k i f s) = iterM k i g s.
Proof.
  intros S; induction k as [|k IH]; intros i f g s H; [reflexivity|].
  cbn [iterT iterM]. rewrite fg_tbind, H. apply bind_eqT; [reflexivity|]. intros a; apply IH, H.
Qed.
Ltac fg1 := first
  [ rewrite fg_ret; reflexivity
  | match goal with |- forget (tbind (br _) _) = _ => rewrite fg_br end
  | match goal with |- forget (tbind (seen (Some _) _) _) = _ => rewrite fg_root end
  | match goal with |- forget (tbind _ _) = _ => rewrite fg_tbind; apply bind_eqT; [|intros ?] end
  | match goal with |- forget (bind _ _) = _ => rewrite fg_bind; apply bind_eqT; [reflexivity|intros ?] end
  | match goal with |- forget (if ?b then _ else _) = _ => destruct b end
  | match goal with |- forget (let '(_, _) := ?x in _) = _ => destruct x end
  | match goal with |- forget (iterT _ _ _ _) = _ => apply fg_iter; intros ? ? end
  | match goal with |- forget (rdT _ _ _) = _ => apply fg_seen end
  | match goal with |- forget (wrT _ _ _) = _ => apply fg_seen end
  | match goal with |- forget (getT _ _) = _ => apply fg_seen end
  | rewrite fg_seen; reflexivity
  | reflexivity ].
Ltac fg := repeat (cbv beta zeta; fg1).

Section Digits.
Variable P : params.
Lemma fg_base_w_loop : forall k inp i t b, forget (base_w_loopT P k inp i t b) = base_w_loop P k inp i t b.
Proof.
  induction k as [|k IH]; intros; [reflexivity|]. cbn [base_w_loopT base_w_loop].
  rewrite fg_br, fg_tbind. apply bind_eqT; [fg|]. intros [[i' t'] b']. fg. apply IH.
Qed.
Lemma fg_checksum : forall m, forget (wots_checksumT P m) = wots_checksum P m.
Proof. intros. unfold wots_checksumT, wots_checksum. fg. apply fg_base_w_loop. Qed.
Lemma fg_chain_lengths : forall m, forget (chain_lengthsT P m) = chain_lengths P m.
Proof. intros. unfold chain_lengthsT, chain_lengths. fg; [apply fg_base_w_loop|apply fg_checksum]. Qed.
Lemma fg_index : forall k j off idx m, forget (message_indexT k j off idx m) = message_index k j off idx m.
Proof. induction k as [|k IH]; intros; [reflexivity|]. cbn [message_indexT message_index]. fg. apply IH. Qed.
Lemma fg_indices_loop : forall h t off m,
  forget (message_to_indices_loopT h t off m) = message_to_indices_loop h t off m.
Proof.
  intros h t; induction t as [|t IH]; intros; [reflexivity|].
  cbn [message_to_indices_loopT message_to_indices_loop]. fg; [apply fg_index|apply IH].
Qed.
Lemma fg_indices : forall m, forget (message_to_indicesT P m) = message_to_indices P m.
Proof. intros. apply fg_indices_loop. Qed.
End Digits.

Section Forget.
Variable P : params.
Variable HS : suite.
Notation CTX := (ctx (hs_st HS)).
Variable junk : nat -> nat -> Z.
Section Ctx.
Variable c : CTX.
Lemma fg_thash : forall k x a, forget (thashT P HS c k x a) = thash P HS c k x a.
Proof. intros. apply fg_seen. Qed.
Lemma fg_prf : forall a, forget (prf_addrT HS c a) = prf_addr HS c a.
Proof. intros. apply fg_seen. Qed.
Section Tree.
Context {G : Type}.
Variable glT : G -> Z -> tm (bytes * G).
Variable gl : G -> Z -> option (bytes * G).
Hypothesis Hgl : forall g i, forget (glT g i) = gl g i.
Variables li io : Z.
Lemma fg_climb : forall todo h ii il off idx mx cur st au a,
  forget (treehashx1_climbT P HS c todo h ii il off idx mx cur st au a) = treehashx1_climb P HS c todo h ii il off idx mx cur st au a.
Proof.
  induction todo as [|t IH]; intros; [reflexivity|].
  cbn [treehashx1_climbT treehashx1_climb]. fg; try apply fg_thash. apply IH.
Qed.
Lemma fg_tree_loop : forall fuel th idx mx st au a g,
  forget (treehashx1_loopT P HS c glT li io fuel th idx mx st au a g) = treehashx1_loop P HS c gl li io fuel th idx mx st au a g.
Proof.
  induction fuel as [|f IH]; intros; [reflexivity|].
  cbn [treehashx1_loopT treehashx1_loop]. fg; try apply Hgl; try apply fg_climb.
  match goal with r : climb_out |- _ => destruct r end; fg. apply IH.
Qed.
Lemma fg_tree : forall th au a g,
  forget (treehashx1T P HS junk c glT li io th au a g) = treehashx1 P HS c junk gl li io th au a g.
Proof. intros. apply fg_tree_loop. Qed.
End Tree.
Lemma fg_leaf_chain : forall fuel i k wk b s a,
  forget (wots_leaf_chainT P HS c fuel i k wk b s a) = wots_leaf_chain P HS c fuel i k wk b s a.
Proof.
  induction fuel as [|f IH]; intros; [reflexivity|]. cbn [wots_leaf_chainT wots_leaf_chain]. fg; try apply fg_thash. apply IH.
Qed.
Lemma fg_wots_leaf : forall info i, forget (wots_gen_leafx1T P HS junk c info i) = wots_gen_leafx1 P HS c junk info i.
Proof.
  intros. unfold wots_gen_leafx1T, wots_gen_leafx1. rewrite fg_br. cbv beta zeta.
  fg; first [apply fg_prf | apply fg_leaf_chain | apply fg_thash].
Qed.
Lemma fg_fors_leaf : forall a i, forget (fors_gen_leafx1T P HS c a i) = fors_gen_leafx1 P HS c a i.
Proof. intros. unfold fors_gen_leafx1T, fors_gen_leafx1. fg; first [apply fg_prf | apply fg_thash]. Qed.
Lemma fg_fors_sign : forall s m a, forget (fors_signT P HS junk c s m a) = fors_sign P HS c junk s m a.
Proof.
  intros. unfold fors_signT, fors_sign. fg; first [apply fg_indices | apply fg_prf | apply fg_thash | apply fg_tree, fg_fors_leaf].
Qed.
Lemma fg_merkle_sign : forall s r wa ta i, forget (merkle_signT P HS junk c s r wa ta i) = merkle_sign P HS c junk s r wa ta i.
Proof. intros. unfold merkle_signT, merkle_sign. fg; first [apply fg_chain_lengths | apply fg_tree, fg_wots_leaf]. Qed.
Lemma fg_gen_root : forall r, forget (merkle_gen_rootT P HS junk c r) = merkle_gen_root P HS c junk r.
Proof. intros. unfold merkle_gen_rootT, merkle_gen_root. fg. apply fg_merkle_sign. Qed.
End Ctx.
Lemma fg_seed_keypair : forall pk sk seed,
  forget (seed_keypairT P HS junk pk sk seed) = crypto_sign_seed_keypair P HS junk pk sk seed.
Proof. intros. unfold seed_keypairT, crypto_sign_seed_keypair. fg. apply fg_gen_root. Qed.
Lemma fg_sign_layer : forall c i s, forget (sign_layerT P HS junk c i s) = sign_layer P HS junk c i s.
Proof. intros. destruct s as [[[[[[? ?] ?] ?] ?] ?] ?]. unfold sign_layerT, sign_layer. fg. apply fg_merkle_sign. Qed.
Lemma fg_hash_message : forall c R pk m, forget (hash_messageT HS c R pk m) = hs_hash_message HS c R pk m.
Proof. intros. unfold hash_messageT. destruct (hs_hash_message HS c R pk m) as [[[d t] l]|]; reflexivity. Qed.
Lemma fg_signature : forall st s m sk,
  forget (signatureT P HS junk st s m sk) = crypto_sign_signature P HS junk st s m sk.
Proof.
  intros. unfold signatureT, crypto_sign_signature. fg; first [apply fg_hash_message | apply fg_fors_sign | apply fg_sign_layer].
Qed.
End Forget.
