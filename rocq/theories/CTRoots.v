(** The marked values of a signing run are those of CTSpec.v. *)
From Verif Require Import Base BaseFacts Params Address Suite Utils Wots Fors Merkle Sign Spec SpecFacts SpecExt AdrsEnc
  AddressProofs Refine TreeProofs WotsDigitsProofs WotsProofs MerkleProofs ForsProofs
  SignProofs ApiProofs CTLog CTErase CTProofs CTSpec.

Definition emits {A} (m : tm A) (ms : list event) : Prop := forall a l, m = Some (a, l) -> marks l = ms.
Definition mk {A} (m : tm A) : option (A * list event) := option_map (fun x => (fst x, marks (snd x))) m.
Lemma em_ret : forall A (a : A), emits (tret a) [].
Proof. intros A a b l E. injection E as <- <-. reflexivity. Qed.
Lemma em_bind : forall A B (m : tm A) (f : A -> tm B) ms, emits m [] -> (forall a, emits (f a) ms) -> emits (tbind m f) ms.
Proof.
  intros A B [[a l]|] f ms H K b l' E; cbn in E; [|discriminate].
  destruct (f a) as [[c h]|] eqn:F; [|discriminate]. injection E as <- <-. rewrite marks_app, (H a l eq_refl). exact (K a c h F).
Qed.
Lemma em_obind : forall A B (o : option A) (f : A -> tm B) ms, (forall a, emits (f a) ms) -> emits (bind o f) ms.
Proof. intros A B [a|] f ms H; cbn; [apply H|]. intros ? ? E. discriminate. Qed.
Lemma em_seen : forall A (o : option A) k, emits (seen o k) (marks [k]).
Proof. intros A [a|] k b l E; cbn in E; [|discriminate]. injection E as <- <-. reflexivity. Qed.
Lemma em_br : forall b, emits (br b) [].
Proof. intros b x l E. injection E as <- <-. reflexivity. Qed.
Lemma em_none : forall A ms, emits (None : tm A) ms.
Proof. intros A ms ? ? E. discriminate. Qed.
Lemma em_iter : forall S k i (f : nat -> S -> tm S) s, (forall j t, emits (f j t) []) -> emits (iterT k i f s) [].
Proof.
  intros S; induction k as [|k IH]; intros; cbn [iterT]; [apply em_ret|]. apply em_bind; [apply H|]. intros; now apply IH.
Qed.
Lemma mk_bind : forall A B (m : tm A) (f : A -> tm B) ms, emits m ms ->
  mk (tbind m f) = bind (forget m) (fun a => option_map (fun x => (fst x, ms ++ snd x)) (mk (f a))).
Proof.
  intros A B [[a l]|] f ms H; [|reflexivity]. cbn. destruct (f a) as [[c h]|]; [|reflexivity]. cbn.
  now rewrite marks_app, (H a l eq_refl).
Qed.
Lemma mk_quiet : forall A B (m : tm A) (f : A -> tm B), emits m [] -> mk (tbind m f) = bind (forget m) (fun a => mk (f a)).
Proof.
  intros A B m f H. rewrite (mk_bind _ _ _ _ [] H). destruct (forget m) as [a|]; [cbn|reflexivity].
  destruct (mk (f a)) as [[? ?]|]; reflexivity.
Qed.
Lemma mk_obind : forall A B (o : option A) (f : A -> tm B), mk (bind o f) = bind o (fun a => mk (f a)).
Proof. intros A B [a|] f; reflexivity. Qed.

Lemma mk_last : forall A B (m : tm A) (f : A -> tm B) out ms, mk m = Some (out, ms) -> (forall a, exists b, f a = tret b) ->
  forall r l, mk (tbind m f) = Some (r, l) -> l = ms.
Proof.
  intros A B [[a k]|] f out ms E H r l F; [|discriminate]. injection E as <- <-. cbn in F.
  destruct (H a) as (b & Hb). rewrite Hb in F. cbn in F. rewrite app_nil_r in F. now injection F as _ <-.
Qed.
Ltac em1 := first
  [ apply em_ret | apply em_br | apply em_none
  | match goal with |- emits (tbind _ _) _ => apply em_bind; [|intros ?] end
  | match goal with |- emits (bind _ _) _ => apply em_obind; intros ? end
  | match goal with |- emits (let '(_, _) := ?x in _) _ => destruct x end
  | match goal with |- emits (if ?b then _ else _) _ => destruct b end
  | match goal with |- emits (iterT _ _ _ _) _ => apply em_iter; intros ? ? end
  | match goal with |- emits (rdT _ _ _) _ => apply em_seen end
  | match goal with |- emits (wrT _ _ _) _ => apply em_seen end
  | match goal with |- emits (getT _ _) _ => apply em_seen end
  | match goal with |- emits (thashT _ _ _ _ _ _) _ => apply em_seen end
  | match goal with |- emits (prf_addrT _ _ _) _ => apply em_seen end ].
Ltac em := repeat (cbv beta zeta; em1).

Section Quiet.
Variable P : params.
Variable HS : suite.
Variable junk : nat -> nat -> Z.
Variable c : ctx (hs_st HS).
Lemma em_base_w : forall k inp i t b, emits (base_w_loopT P k inp i t b) [].
Proof. induction k as [|k IH]; intros; cbn [base_w_loopT]; em. apply IH. Qed.
Lemma em_chain_lengths : forall m, emits (chain_lengthsT P m) [].
Proof. intros. unfold chain_lengthsT, wots_checksumT. em; apply em_base_w. Qed.
Lemma em_index : forall k j off idx m, emits (message_indexT k j off idx m) [].
Proof. induction k as [|k IH]; intros; cbn [message_indexT]; em. apply IH. Qed.
Lemma em_indices : forall h t off m, emits (message_to_indices_loopT h t off m) [].
Proof. intros h; induction t as [|t IH]; intros; cbn [message_to_indices_loopT]; em; [apply em_index|apply IH]. Qed.
Lemma em_climb : forall todo h ii il off idx mx cur st au a, emits (treehashx1_climbT P HS c todo h ii il off idx mx cur st au a) [].
Proof. induction todo as [|t IH]; intros; cbn [treehashx1_climbT]; em. apply IH. Qed.
Lemma em_tree : forall G (gl : G -> Z -> tm (bytes * G)) li io th au a g, (forall g i, emits (gl g i) []) ->
  emits (treehashx1T P HS junk c gl li io th au a g) [].
Proof.
  intros G gl li io th au a g H. unfold treehashx1T. generalize (Nat.pow 2 th) as fuel, 0 as idx.
  generalize (junk_bytes (junk 4) (th * p_n P)) as st. intros st fuel; revert st au a g.
  induction fuel as [|f IH]; intros; cbn [treehashx1_loopT]; em; [apply H|apply em_climb|].
  match goal with r : climb_out |- _ => destruct r end; em. apply IH.
Qed.
Lemma em_leaf_chain : forall fuel i k wk b s a, emits (wots_leaf_chainT P HS c fuel i k wk b s a) [].
Proof. induction fuel as [|f IH]; intros; cbn [wots_leaf_chainT]; em. apply IH. Qed.
Lemma em_wots_leaf : forall info i, emits (wots_gen_leafx1T P HS junk c info i) [].
Proof. intros. unfold wots_gen_leafx1T. em. apply em_leaf_chain. Qed.
Lemma em_fors_sign : forall s m a, emits (fors_signT P HS junk c s m a) [].
Proof. intros. unfold fors_signT, message_to_indicesT. em; [apply em_indices|]. apply em_tree. intros. unfold fors_gen_leafx1T. em. Qed.
Lemma em_merkle : forall s r wa ta i, emits (merkle_signT P HS junk c s r wa ta i) [].
Proof. intros. unfold merkle_signT. em; [apply em_chain_lengths|]. apply em_tree, em_wots_leaf. Qed.
Lemma em_layer : forall i s p root wa ta tr il,
  emits (sign_layerT P HS junk c i (s, p, root, wa, ta, tr, il)) [PubRoot root].
Proof.
  intros. unfold sign_layerT. do 4 (apply em_obind; intros ?). apply em_bind; [apply em_seen|intros ?].
  intros res lg E. cbn [seen tbind] in E.
  match type of E with match ?X with _ => _ end = _ => destruct X as [[x l']|] eqn:F; [|discriminate] end.
  injection E as <- <-. cbn. f_equal.
  refine ((_ : emits _ []) _ _ F). em; apply em_merkle.
Qed.
Lemma em_hash : forall R pk m d t l, hs_hash_message HS c R pk m = Some (d, t, l) -> emits (hash_messageT HS c R pk m) [PubIdx d t l].
Proof. intros R pk m d t l E a k F. unfold hash_messageT in F. rewrite E in F. injection F as <- <-. reflexivity. Qed.
Lemma em_gen_root : forall r, emits (merkle_gen_rootT P HS junk c r) [].
Proof. intros. unfold merkle_gen_rootT. em. apply em_merkle. Qed.
End Quiet.
Lemma em_seed_keypair : forall P HS junk pk sk seed, emits (seed_keypairT P HS junk pk sk seed) [].
Proof. intros. unfold seed_keypairT. em. apply em_gen_root. Qed.

Section Roots.
Variable P : params.
Variable HS : suite.
Variable junk : nat -> nat -> Z.
Notation N := (p_n P).
Notation L := (hs_layout HS).
Notation LEN := (SPX_WOTS_LEN P).
Notation TH := (SPX_TREE_HEIGHT P).
Notation D := (dims_of P).
Hypothesis Hwf : wf_params P = true.
Hypothesis Hok : suite_ok P HS.
Section Ctx.
Variable c : ctx (hs_st HS).
Hypothesis Hc : ctx_ok P HS c.
Notation T := (codeT P HS c).
Notation PRF := (codePRF HS c).
Let Hn : (1 <= N)%nat. Proof. pose proof (WotsDigitsProofs.wf_n P Hwf). lia. Qed.

(** The roots of the trees used: [m], then the tree at each layer *)
Fixpoint ht_roots (k : nat) (layer tree : Z) (m : list Z) : list (list Z) :=
  match k with
  | O => []
  | S k' => m :: ht_roots k' (layer + 1) (tree / 2 ^ Z.of_nat TH) (xmss_root D T PRF layer tree)
  end.
Lemma layers_marks k : forall i pre mid tail root l0 t0 k0 u1 u2 tl tt w1 w2 tree idx,
  length mid = (k * (SPX_WOTS_BYTES P + TH * N))%nat ->
  length root = N -> all_bytes root -> 0 <= idx < 2 ^ Z.of_nat TH ->
  exists out,
    mk (iterT k i (sign_layerT P HS junk c)
      (pre ++ mid ++ tail, length pre, root, enc L (mkAdrs l0 t0 T_WOTS_HASH k0 u1 u2),
       enc L (mkAdrs tl tt T_TREE 0 w1 w2), tree, idx))
    = Some (out, map PubRoot (ht_roots k (Z.of_nat i) tree root)).
Proof.
  induction k as [|k IH]; intros i pre mid tail root l0 t0 k0 u1 u2 tl tt w1 w2 tree idx Hm Hr Hb Hi;
    cbn [iterT ht_roots map].
  - eexists. reflexivity.
  - set (B := (SPX_WOTS_BYTES P + TH * N)%nat) in *.
    assert (exists m1 m2, mid = m1 ++ m2 /\ length m1 = B /\ length m2 = (k * B)%nat)
      as (m1 & m2 & -> & Hm1 & Hm2).
    { exists (firstn B mid), (skipn B mid).
      rewrite firstn_skipn, firstn_length, skipn_length. repeat split; lia. }
    rewrite (mk_bind _ _ _ _ _ (em_layer P HS junk c i _ _ _ _ _ _ _)), fg_sign_layer.
    unfold sign_layer at 1.
    rewrite set_layer_enc. cbn [bind]. rewrite set_tree_enc. cbn [bind].
    rewrite copy_subtree_enc. cbn [bind]. rewrite set_keypair_enc. cbn [bind].
    unfold with_layer, with_tree, with_kp; cbn [a_layer a_tree a_type a_kp a_w1 a_w2].
    replace (pre ++ (m1 ++ m2) ++ tail) with (pre ++ m1 ++ (m2 ++ tail)) by now rewrite !app_assoc.
    fold B. rewrite rd_app' by auto. cbn [bind].
    destruct (merkle_sign_ok P HS c junk Hwf Hok Hc (Z.of_nat i) tree m1 root
                T_WOTS_HASH idx u1 u2 T_TREE w1 w2 idx Hm1 Hr Hb Hi) as (w1' & w2' & E).
    rewrite E. cbn [bind].
    set (x := xmss_sign D T PRF (Z.of_nat i) tree idx root).
    assert (Hx : length (concat x) = B).
    { rewrite (chunks_length N).
      - unfold x. rewrite xmss_sign_length. unfold B. apply Nat.mul_add_distr_r.
      - now apply xmss_sign_chunks. }
    rewrite wr_app' by congruence. cbn [bind].
    rewrite shiftr_TH, land_TH.
    destruct (xmss_root_props P HS c Hwf Hok Hc (Z.of_nat i) tree) as (R1 & R2).
    destruct (IH (S i) (pre ++ concat x) m2 tail (xmss_root D T PRF (Z.of_nat i) tree)
                (Z.of_nat i) tree idx u1 u2 (Z.of_nat i) tree w1' w2'
                (tree / 2 ^ Z.of_nat TH) (tree mod 2 ^ Z.of_nat TH) Hm2 R1 R2 (mod_TH P tree))
      as (out & E2).
    exists out. rewrite app_length, Hx, <- !app_assoc in E2. rewrite E2.
    replace (Z.of_nat (S i)) with (Z.of_nat i + 1) by lia. reflexivity.
Qed.
Lemma layer_roots_sign : forall k layer tree idx m, 0 <= idx < 2 ^ Z.of_nat TH ->
  layer_roots D T k layer tree idx m (ht_sign D T PRF k layer tree idx m) = ht_roots k layer tree m.
Proof.
  induction k as [|k IH]; intros layer tree idx m Hi; [reflexivity|]. cbn [layer_roots ht_sign ht_roots]. f_equal.
  assert (Hl : length (xmss_sign D T PRF layer tree idx m) = (s_len D + s_hp D)%nat) by apply xmss_sign_length.
  rewrite firstn_app_len, skipn_app_len by exact Hl. rewrite xmss_complete.
  - change (s_hp D) with TH. apply IH, mod_TH.
  - pose proof (WotsDigitsProofs.W_pos P Hwf). cbn. lia.
  - exact Hi.
Qed.
End Ctx.

Lemma layer_roots_ext : forall T1 T2 : adrs -> list Z -> list Z, (forall a x, T1 a x = T2 a x) ->
  forall k layer tree idx m cs, layer_roots D T1 k layer tree idx m cs = layer_roots D T2 k layer tree idx m cs.
Proof.
  clear. intros T1 T2 H. induction k as [|k IH]; intros; [reflexivity|]. cbn [layer_roots]. f_equal.
  rewrite IH. f_equal. unfold xmss_root_of_sig. rewrite (wots_pk_of_sig_ext D T1 T2 H).
  apply climb_ext. intros; apply H.
Qed.
Theorem signature_marks : forall sig0 ss sp ps root tail optrand rest m sig slen rest' l,
  length ss = N -> length sp = N -> length ps = N -> length root = N -> length optrand = N ->
  (SPX_BYTES P <= length sig0)%nat ->
  signatureT P HS junk (optrand ++ rest) sig0 m (ss ++ sp ++ ps ++ root ++ tail) = Some ((0, sig, slen, rest'), l) ->
  marks l = public_marks P HS ps root m sig.
Proof.
  intros sig0 ss sp ps root tail optrand rest m sig slen rest' l Hs Hp Hu Hr Ho Hsig Run.
  assert (Hsg : forget (signatureT P HS junk (optrand ++ rest) sig0 m (ss ++ sp ++ ps ++ root ++ tail)) = Some (0, sig, slen, rest'))
    by now rewrite Run.
  rewrite fg_signature in Hsg. rewrite (sign_signature_ok P HS junk Hwf Hok) in Hsg by assumption.
  injection Hsg as Esig _ _.
  assert (Hmk : mk (signatureT P HS junk (optrand ++ rest) sig0 m (ss ++ sp ++ ps ++ root ++ tail)) = Some ((0, sig, slen, rest'), marks l))
    by now rewrite Run. clear Run.
  unfold signatureT in Hmk.
  rewrite mk_quiet in Hmk by apply em_seen. unfold rdT at 1 in Hmk. rewrite fg_seen in Hmk.
  rewrite (rd_app' ss sp) in Hmk by lia. cbn [bind] in Hmk.
  rewrite mk_quiet in Hmk by apply em_seen. unfold rdT at 1 in Hmk. rewrite fg_seen in Hmk.
  rewrite (app_assoc ps root), (app_assoc ss sp), rd_app' in Hmk
    by (unfold SPX_PK_BYTES; rewrite ?app_length; lia). cbn [bind] in Hmk.
  rewrite mk_quiet in Hmk by apply em_seen. unfold rdT at 1 in Hmk. rewrite fg_seen in Hmk.
  rewrite <- app_assoc, rd_app0 in Hmk by lia. cbn [bind] in Hmk.
  rewrite mk_quiet in Hmk by apply em_seen. unfold rdT at 1 in Hmk. rewrite fg_seen in Hmk.
  rewrite rd_app0 in Hmk by lia. cbn [bind] in Hmk.
  rewrite !(zero_addr_enc L), !set_type_enc in Hmk. cbn [bind] in Hmk.
  unfold randombytes in Hmk. rewrite rd_app0 in Hmk by lia. cbn [bind] in Hmk.
  rewrite skipn_app_len in Hmk by lia.
  fold (code_ctx HS ps ss) in Hmk.
  pose proof (code_ctx_ok P HS ps ss Hu Hs) as Hc.
  destruct (rnd_ok P HS Hok ps ss sp optrand m Hu Hs Hp Ho) as (ER & HR).
  rewrite mk_quiet in Hmk by apply em_seen. rewrite fg_seen, ER in Hmk. cbn [bind] in Hmk.
  set (R := codeRnd P HS ps sp optrand m) in *.
  pose proof (spx_bytes_eq P) as HB.
  set (BL := (SPX_WOTS_BYTES P + TH * N)%nat) in *.
  assert (exists s1 s2 s3, sig0 = s1 ++ s2 ++ s3 ++ skipn (SPX_BYTES P) sig0
            /\ length s1 = N /\ length s2 = SPX_FORS_BYTES P /\ length s3 = (p_d P * BL)%nat)
    as (s1 & s2 & s3 & E0 & S1 & S2 & S3).
  { exists (firstn N sig0), (firstn (SPX_FORS_BYTES P) (skipn N sig0)),
      (firstn (p_d P * BL) (skipn (SPX_FORS_BYTES P) (skipn N sig0))).
    rewrite !firstn_length, !skipn_length.
    split; [|repeat split; lia].
    replace (skipn (SPX_BYTES P) sig0)
      with (skipn (p_d P * BL) (skipn (SPX_FORS_BYTES P) (skipn N sig0))).
    { now rewrite !firstn_skipn. }
    rewrite !skipn_skipn. f_equal. lia. }
  set (tl := skipn (SPX_BYTES P) sig0) in *.
  rewrite E0 in Hmk. clear E0.
  rewrite mk_quiet in Hmk by apply em_seen. unfold wrT at 1 in Hmk. rewrite fg_seen in Hmk.
  rewrite wr_app0 in Hmk by lia. cbn [bind] in Hmk.
  rewrite mk_quiet in Hmk by apply em_seen. unfold rdT at 1 in Hmk. rewrite fg_seen in Hmk.
  rewrite rd_app0 in Hmk by lia. cbn [bind] in Hmk.
  assert (Hpk : length (ps ++ root) = SPX_PK_BYTES P)
    by (rewrite app_length; unfold SPX_PK_BYTES; lia).
  destruct (hm_ok P HS Hok ps ss R (ps ++ root) m Hu Hs HR Hpk)
    as (md & tree & idx & EH & EH' & Hmd & Hmb & Ht & Hi).
  rewrite (mk_bind _ _ _ _ _ (em_hash HS _ _ _ _ _ _ _ EH)), fg_hash_message, EH in Hmk. cbn [bind] in Hmk.
  rewrite set_tree_enc in Hmk. cbn [bind] in Hmk. rewrite set_keypair_enc in Hmk. cbn [bind] in Hmk.
  unfold with_type, with_tree, with_kp in Hmk; cbn [a_layer a_tree a_type a_kp a_w1 a_w2 adrs0] in Hmk.
  rewrite mk_quiet in Hmk by apply em_seen. unfold rdT at 1 in Hmk. rewrite fg_seen in Hmk.
  rewrite rd_app' in Hmk by lia. cbn [bind] in Hmk.
  rewrite mk_quiet in Hmk by apply em_fors_sign. rewrite fg_fors_sign in Hmk.
  rewrite (fors_sign_ok P HS _ junk Hwf Hok Hc tree idx) in Hmk by auto. cbn [bind] in Hmk.
  set (fs := concat (fors_sign _ _ _ _ _ _)) in Hmk.
  assert (Hfs : length fs = SPX_FORS_BYTES P).
  { unfold fs. rewrite (chunks_length N) by (apply fors_sign_chunks; auto).
    rewrite fors_sign_length. unfold SPX_FORS_BYTES. cbn. ring. }
  rewrite mk_quiet in Hmk by apply em_seen. unfold wrT at 1 in Hmk. rewrite fg_seen in Hmk.
  rewrite wr_app' in Hmk by lia. cbn [bind] in Hmk.
  destruct (fors_pk_props P HS _ Hwf Hok Hc tree idx) as (F1 & F2).
  change SPX_ADDR_TYPE_WOTS with T_WOTS_HASH in Hmk. change SPX_ADDR_TYPE_HASHTREE with T_TREE in Hmk.
  destruct (layers_marks _ Hc (p_d P) 0 (R ++ fs) s3 tl _ 0 tree idx 0 0 0 0 0 0
              tree idx S3 F1 F2 Hi) as (out & E).
  rewrite app_length, HR, Hfs, <- !app_assoc in E.
  set (it := iterT _ _ _ _) in *.
  match type of Hmk with option_map _ (mk ?X) = _ => destruct (mk X) as [[r ml]|] eqn:EX; [|discriminate] end.
  injection Hmk as _ Hl. rewrite <- Hl. clear Hl.
  apply (mk_last _ _ _ _ _ _ E) in EX; [|intros [[[[[[? ?] ?] ?] ?] ?] ?]; eexists; reflexivity]. subst ml. clear E.
  unfold public_marks. rewrite <- Esig. unfold spx_sign. fold R. rewrite EH'.
  rewrite <- app_assoc, firstn_app_len by exact HR. rewrite EH'. cbn [app]. f_equal. f_equal.
  pose proof (body_length P HS Hwf Hok ps ss md tree idx Hu Hs) as Hbl.
  pose proof (body_chunks P HS Hwf Hok ps ss md tree idx Hu Hs) as Hbc.
  set (body := spx_sign_body _ _ _ _ _ _) in *.
  assert (Hbody : blocks N (spx_nblocks D) (skipn N (firstn (SPX_BYTES P) (R ++ concat body ++ tl))) = body).
  { rewrite app_assoc, firstn_app_len by (rewrite app_length, Hbl; specialize (HB Hwf); lia).
    rewrite skipn_app_len by exact HR.
    replace (spx_nblocks D) with (length body) by (apply spx_sign_body_length). now apply blocks_concat. }
  rewrite Hbody. unfold body, public_roots. cbv zeta.
  rewrite (spx_sign_body_ext D _ (codeT P HS (code_ctx HS ps ss)) _ (codePRF HS (code_ctx HS ps ss)))
    by (intros; first [apply (codeT_sk P HS Hok) | reflexivity]).
  unfold spx_sign_body. rewrite firstn_app_len, skipn_app_len by apply fors_sign_length.
  rewrite (fors_pk_of_sig_ext D _ (codeT P HS (code_ctx HS ps ss))) by (intros; apply (codeT_sk P HS Hok)).
  rewrite fors_complete, (layer_roots_ext _ (codeT P HS (code_ctx HS ps ss))) by (intros; apply (codeT_sk P HS Hok)).
  symmetry. now apply layer_roots_sign.
Qed.
End Roots.
