(** Forgetting the record of CallLog.v gives the functions of the core model. *)
From Verif Require Import Base Params Address Suite Utils Wots Fors Merkle Sign CallLog.

Definition erase {A} (m : lm A) : option A := option_map fst m.
Lemma erase_ret : forall A (a : A), erase (lret a) = Some a.
Proof. reflexivity. Qed.
Lemma erase_bind : forall A B (o : option A) (f : A -> lm B), erase (bind o f) = bind o (fun x => erase (f x)).
Proof. intros A B [a|] f; reflexivity. Qed.
Lemma erase_lbind : forall A B (m : lm A) (f : A -> lm B), erase (lbind m f) = bind (erase m) (fun x => erase (f x)).
Proof. intros A B [[a l]|] f; cbn; [destruct (f a) as [[b l']|]|]; reflexivity. Qed.
Lemma erase_logged : forall A (o : option A) k, erase (logged o k) = o.
Proof. intros A [a|] k; reflexivity. Qed.
Lemma erase_if : forall A (b : bool) (x y : lm A), erase (if b then x else y) = if b then erase x else erase y.
Proof. intros A [] x y; reflexivity. Qed.
Lemma bind_eq : forall A B (o o' : option A) (f g : A -> option B), o = o' -> (forall a, f a = g a) -> bind o f = bind o' g.
Proof. intros A B o o' f g -> H; destruct o'; [apply H|reflexivity]. Qed.
Lemma erase_iter : forall S k i (f : nat -> S -> lm S) g s, (forall j t, erase (f j t) = g j t) -> erase (iterL k i f s) = iterM k i g s.
Proof.
  intros S; induction k as [|k IH]; intros i f g s H; [reflexivity|].
  cbn [iterL iterM]. rewrite erase_lbind, H. apply bind_eq; [reflexivity|]. intros a; apply IH, H.
Qed.
Ltac er1 := first
  [ rewrite erase_ret; reflexivity
  | match goal with |- erase (lbind _ _) = _ => rewrite erase_lbind; apply bind_eq; [|intros ?] end
  | match goal with |- erase (bind _ _) = _ => rewrite erase_bind; apply bind_eq; [reflexivity|intros ?] end
  | match goal with |- erase (if ?b then _ else _) = _ => destruct b end
  | match goal with |- erase (let '(_, _) := ?x in _) = _ => destruct x end
  | match goal with |- erase (iterL _ _ _ _) = _ => apply erase_iter; intros ? ? end
  | rewrite erase_logged; reflexivity
  | reflexivity ].
Ltac er := repeat (cbv beta zeta; er1).

Section Erase.
Variable P : params.
Variable HS : suite.
Notation CTX := (ctx (hs_st HS)).
Variable junk : nat -> nat -> Z.
Section Ctx.
Variable c : CTX.
Lemma er_thash : forall k x a, erase (thashL P HS c k x a) = thash P HS c k x a.
Proof. intros. apply erase_logged. Qed.
Lemma er_prf : forall a, erase (prf_addrL HS c a) = prf_addr HS c a.
Proof. intros. apply erase_logged. Qed.
Lemma er_root_loop : forall k i li io auth ap b a,
  erase (compute_root_loopL P HS c k i li io auth ap b a) = compute_root_loop P HS c k i li io auth ap b a.
Proof.
  induction k as [|k IH]; intros; [reflexivity|].
  cbn [compute_root_loopL compute_root_loop]. er; try apply er_thash. apply IH.
Qed.
Lemma er_compute_root : forall lf li io auth h a,
  erase (compute_rootL P HS junk c lf li io auth h a) = compute_root P HS c junk lf li io auth h a.
Proof. intros. unfold compute_rootL, compute_root. er; first [apply er_root_loop | apply er_thash]. Qed.
Section Tree.
Context {G : Type}.
Variable glL : G -> Z -> lm (bytes * G).
Variable gl : G -> Z -> option (bytes * G).
Hypothesis Hgl : forall g i, erase (glL g i) = gl g i.
Variables li io : Z.
Lemma er_climb : forall todo h ii il off idx mx cur st au a,
  erase (treehashx1_climbL P HS c todo h ii il off idx mx cur st au a) = treehashx1_climb P HS c todo h ii il off idx mx cur st au a.
Proof.
  induction todo as [|t IH]; intros; [reflexivity|].
  cbn [treehashx1_climbL treehashx1_climb]. er; try apply er_thash. apply IH.
Qed.
Lemma er_tree_loop : forall fuel th idx mx st au a g,
  erase (treehashx1_loopL P HS c glL li io fuel th idx mx st au a g) = treehashx1_loop P HS c gl li io fuel th idx mx st au a g.
Proof.
  induction fuel as [|f IH]; intros; [reflexivity|].
  cbn [treehashx1_loopL treehashx1_loop]. er; try apply Hgl; try apply er_climb.
  match goal with r : climb_out |- _ => destruct r end; er. apply IH.
Qed.
Lemma er_tree : forall th au a g,
  erase (treehashx1L P HS junk c glL li io th au a g) = treehashx1 P HS c junk gl li io th au a g.
Proof. intros. apply er_tree_loop. Qed.
End Tree.
Lemma er_chain_loop : forall fuel i lim out a,
  erase (gen_chain_loopL P HS c fuel i lim out a) = gen_chain_loop P HS c fuel i lim out a.
Proof.
  induction fuel as [|f IH]; intros; cbn [gen_chain_loopL gen_chain_loop]; er; try apply er_thash. apply IH.
Qed.
Lemma er_chain : forall inp s t a, erase (gen_chainL P HS c inp s t a) = gen_chain P HS c inp s t a.
Proof. intros. unfold gen_chainL, gen_chain. er. apply er_chain_loop. Qed.
Lemma er_wots_pk : forall s m a, erase (wots_pk_from_sigL P HS junk c s m a) = wots_pk_from_sig P HS c junk s m a.
Proof. intros. unfold wots_pk_from_sigL, wots_pk_from_sig. er. apply er_chain. Qed.
Lemma er_leaf_chain : forall fuel i k wk b s a,
  erase (wots_leaf_chainL P HS c fuel i k wk b s a) = wots_leaf_chain P HS c fuel i k wk b s a.
Proof.
  induction fuel as [|f IH]; intros; [reflexivity|]. cbn [wots_leaf_chainL wots_leaf_chain]. er; try apply er_thash. apply IH.
Qed.
Lemma er_wots_leaf : forall info i, erase (wots_gen_leafx1L P HS junk c info i) = wots_gen_leafx1 P HS c junk info i.
Proof. intros. unfold wots_gen_leafx1L, wots_gen_leafx1. er; first [apply er_prf | apply er_leaf_chain | apply er_thash]. Qed.
Lemma er_fors_leaf : forall a i, erase (fors_gen_leafx1L P HS c a i) = fors_gen_leafx1 P HS c a i.
Proof. intros. unfold fors_gen_leafx1L, fors_gen_leafx1. er; first [apply er_prf | apply er_thash]. Qed.
Lemma er_fors_sign : forall s m a, erase (fors_signL P HS junk c s m a) = fors_sign P HS c junk s m a.
Proof.
  intros. unfold fors_signL, fors_sign. er; first [apply er_prf | apply er_thash | apply er_tree, er_fors_leaf].
Qed.
Lemma er_fors_pk : forall s m a, erase (fors_pk_from_sigL P HS junk c s m a) = fors_pk_from_sig P HS c junk s m a.
Proof. intros. unfold fors_pk_from_sigL, fors_pk_from_sig. er; first [apply er_thash | apply er_compute_root]. Qed.
Lemma er_merkle_sign : forall s r wa ta i, erase (merkle_signL P HS junk c s r wa ta i) = merkle_sign P HS c junk s r wa ta i.
Proof. intros. unfold merkle_signL, merkle_sign. er. apply er_tree, er_wots_leaf. Qed.
Lemma er_gen_root : forall r, erase (merkle_gen_rootL P HS junk c r) = merkle_gen_root P HS c junk r.
Proof. intros. unfold merkle_gen_rootL, merkle_gen_root. er. apply er_merkle_sign. Qed.
End Ctx.
Lemma er_seed_keypair : forall pk sk seed,
  erase (seed_keypairL P HS junk pk sk seed) = crypto_sign_seed_keypair P HS junk pk sk seed.
Proof. intros. unfold seed_keypairL, crypto_sign_seed_keypair. er. apply er_gen_root. Qed.
Lemma er_sign_layer : forall c i s, erase (sign_layerL P HS junk c i s) = sign_layer P HS junk c i s.
Proof. intros. destruct s as [[[[[[? ?] ?] ?] ?] ?] ?]. unfold sign_layerL, sign_layer. er. apply er_merkle_sign. Qed.
Lemma er_signature : forall st s m sk,
  erase (signatureL P HS junk st s m sk) = crypto_sign_signature P HS junk st s m sk.
Proof.
  intros. unfold signatureL, crypto_sign_signature. er; first [apply er_fors_sign | apply er_sign_layer].
Qed.
Lemma er_verify_layer : forall c sig i s, erase (verify_layerL P HS junk c sig i s) = verify_layer P HS junk c sig i s.
Proof.
  intros. destruct s as [[[[[[? ?] ?] ?] ?] ?] ?]. unfold verify_layerL, verify_layer.
  er; first [apply er_wots_pk | apply er_thash | apply er_compute_root].
Qed.
Lemma er_verify : forall s sl m pk,
  erase (verifyL P HS junk s sl m pk) = crypto_sign_verify P HS junk s sl m pk.
Proof.
  intros. unfold verifyL, crypto_sign_verify. er; first [apply er_fors_pk | apply er_verify_layer].
Qed.
End Erase.
