(** FORS for any 32 bytes in place of an address.  fors_sign and fors_pk_from_sig copy the first bytes (layer and
    tree) and the key pair of the address they are given, and never change these first bytes; so what they do is
    what they would do for an address made by set_layer_addr and set_tree_addr, with hash functions that put the
    given first bytes in ([psuite]). *)
From Verif Require Import Base BaseFacts Params Address AdrsEnc Suite Utils Fors Lanes Spec Refine ForsProofs LaneMerkleProofs.

(** Both undefined, or both defined and related. *)
Definition orel {A B} (R : A -> B -> Prop) (x : option A) (y : option B) : Prop :=
  match x, y with Some a, Some b => R a b | None, None => True | _, _ => False end.
Lemma orel_bind {A B C D} (R : A -> B -> Prop) (S : C -> D -> Prop) x y f g :
  orel R x y -> (forall a b, R a b -> orel S (f a) (g b)) -> orel S (bind x f) (bind y g).
Proof. destruct x, y; cbn; try tauto. intros H K. now apply K. Qed.
Lemma orel_refl {A} (x : option A) : orel eq x x.
Proof. now destruct x. Qed.
Lemma orel_some {A B} (R : A -> B -> Prop) a b : R a b -> orel R (Some a) (Some b).
Proof. auto. Qed.
Lemma orel_eq {A} (x y : option A) : orel eq x y -> x = y.
Proof. destruct x, y; cbn; try tauto. now intros ->. Qed.
(** The same computation on both sides. *)
Lemma orel_same {A C D} (S : C -> D -> Prop) (x : option A) f g :
  (forall a, orel S (f a) (g a)) -> orel S (bind x f) (bind x g).
Proof. intros H. destruct x; cbn; auto. Qed.
Lemma orel_iter {A B} (R : A -> B -> Prop) f g : forall k i, (forall j a b, R a b -> orel R (f j a) (g j b)) ->
  forall a b, R a b -> orel R (iterM k i f a) (iterM k i g b).
Proof.
  intros k. induction k as [|k IH]; intros i H a b Hab; cbn [iterM]; [now apply orel_some|].
  apply orel_bind with (R := R); [now apply H|]. intros a' b' H'. now apply IH.
Qed.

Section Patch.
Variable P : params.
Variable HS : suite.
Variable pre : bytes.
Notation L := (hs_layout HS).
Notation N := (p_n P).
Notation p := (SPX_OFFSET_TREE L + 8)%nat.
Hypothesis Lpre : length pre = p.

Definition patch (a : bytes) : bytes := pre ++ skipn p a.
Definition psuite : suite := {|
  hs_layout := hs_layout HS; hs_st := hs_st HS; hs_init := hs_init HS;
  hs_thash := fun c k i a => hs_thash HS c k i (patch a);
  hs_prf_addr := fun c a => hs_prf_addr HS c (patch a);
  hs_gen_message_random := hs_gen_message_random HS; hs_hash_message := hs_hash_message HS |}.
Notation PS := psuite.

Lemma p_le : (p <= SPX_ADDR_BYTES)%nat.
Proof. clear. unfold SPX_ADDR_BYTES. destruct L; cbn; lia. Qed.
Lemma patch_len a : length a = SPX_ADDR_BYTES -> length (patch a) = SPX_ADDR_BYTES.
Proof. intros H. unfold patch. rewrite app_length, skipn_length, Lpre, H. pose proof p_le. lia. Qed.

Lemma psuite_ok : suite_ok P HS -> suite_ok P PS.
Proof.
  intros [H1 H2 H3 H4 H5 H6 H7 H8 H9 H10]. constructor.
  - intros c k i a Hc Hi Ha. apply (H1 c k i (patch a) Hc Hi). now apply patch_len.
  - intros c k i a d E. exact (H2 _ _ _ _ _ E).
  - intros c a Hc Ha. apply (H3 c (patch a) Hc). now apply patch_len.
  - intros c a d E. exact (H4 _ _ _ E).
  - exact H5.
  - exact H6.
  - exact H7.
  - intros ps s1 s2 st k i a. exact (H8 ps s1 s2 st k i (patch a)).
  - exact H9.
  - exact H10.
Qed.

(** ** Addresses on the two sides *)
Definition R (a a' : bytes) : Prop := length a' = SPX_ADDR_BYTES /\ a = patch a'.
Lemma R_len a a' : R a a' -> length a = SPX_ADDR_BYTES /\ length a' = SPX_ADDR_BYTES.
Proof. intros [H ->]. split; [now apply patch_len|exact H]. Qed.
Lemma wr_R a a' off d : R a a' -> (p <= off)%nat -> orel R (wr a off d) (wr a' off d).
Proof.
  intros HR Hoff. destruct (R_len _ _ HR) as [La La']. destruct HR as [_ ->]. unfold wr. rewrite La, La'.
  destruct (Nat.leb_spec (off + length d) SPX_ADDR_BYTES) as [Hb|Hb]; [|exact I]. cbn [orel]. split.
  - rewrite !app_length, firstn_length, skipn_length, La'. lia.
  - unfold patch. rewrite firstn_app, Lpre, firstn_all2 by lia. rewrite skipn_app, Lpre.
    rewrite (skipn_all2 pre) by lia. cbn [app]. rewrite (skipn_app p (firstn off a')).
    rewrite firstn_length, La', Nat.min_l by lia. replace (p - off)%nat with 0%nat by lia. rewrite skipn_O.
    rewrite <- app_assoc. rewrite <- skipn_firstn_comm.
    replace (p + (off - p))%nat with off by lia. rewrite skipn_skipn.
    replace (off + length d - p + p)%nat with (off + length d)%nat by lia. reflexivity.
Qed.
Lemma type_ge : (p <= SPX_OFFSET_TYPE L)%nat. Proof. clear. destruct L; cbn; lia. Qed.
Lemma kp_ge : (p <= SPX_OFFSET_KP_ADDR L)%nat. Proof. clear. destruct L; cbn; lia. Qed.
Lemma hgt_ge : (p <= SPX_OFFSET_TREE_HGT L)%nat. Proof. clear. destruct L; cbn; lia. Qed.
Lemma idx_ge : (p <= SPX_OFFSET_TREE_INDEX L)%nat. Proof. clear. destruct L; cbn; lia. Qed.
Lemma set_type_R a a' v : R a a' -> orel R (set_type L a v) (set_type (hs_layout PS) a' v).
Proof. intros H. apply wr_R; [exact H|apply type_ge]. Qed.
Lemma set_height_R a a' v : R a a' -> orel R (set_tree_height L a v) (set_tree_height (hs_layout PS) a' v).
Proof. intros H. apply wr_R; [exact H|apply hgt_ge]. Qed.
Lemma set_index_R a a' v : R a a' -> orel R (set_tree_index L a v) (set_tree_index (hs_layout PS) a' v).
Proof. intros H. apply wr_R; [exact H|apply idx_ge]. Qed.
Lemma thash_R (c : ctx (hs_st HS)) k x a a' : R a a' -> orel eq (thash P HS c k x a) (thash P PS c k x a').
Proof.
  intros H. destruct (R_len _ _ H) as [La La']. destruct H as [_ ->]. unfold thash. rewrite La, La'.
  destruct (guard _); cbn [bind orel]; auto. cbn. apply orel_refl.
Qed.
Lemma prf_R (c : ctx (hs_st HS)) a a' : R a a' -> orel eq (prf_addr HS c a) (prf_addr PS c a').
Proof.
  intros H. destruct (R_len _ _ H) as [La La']. destruct H as [_ ->]. unfold prf_addr. rewrite La, La'.
  cbn. apply orel_refl.
Qed.

(** ** The scalar code *)
Variable c : ctx (hs_st HS).
Variable junk : nat -> nat -> Z.

Ltac same := apply orel_same; intros ?.
Ltac eqstep t := eapply orel_bind with (R := eq); [t|intros ? ? ->].
Ltac rstep t := eapply orel_bind with (R := R); [t|intros ? ? ?].

Lemma gen_leafx1_R a a' i : R a a' ->
  orel (fun x y => fst x = fst y /\ R (snd x) (snd y)) (fors_gen_leafx1 P HS c a i) (fors_gen_leafx1 P PS c a' i).
Proof.
  intros H. unfold fors_gen_leafx1, fors_gen_sk, fors_sk_to_leaf.
  rstep ltac:(now apply set_index_R). rstep ltac:(now apply set_type_R). eqstep ltac:(now apply prf_R).
  rstep ltac:(now apply set_type_R). eqstep ltac:(now apply thash_R). cbn. auto.
Qed.

Inductive Rclimb : climb_out -> climb_out -> Prop :=
| Rroot r au a a' : R a a' -> Rclimb (Root r au a) (Root r au a')
| Rleft h n au a a' : R a a' -> Rclimb (Left h n au a) (Left h n au a').
Lemma climb_R : forall todo h ii il io idx mx cur stack auth a a', R a a' ->
  orel Rclimb (treehashx1_climb P HS c todo h ii il io idx mx cur stack auth a)
              (treehashx1_climb P PS c todo h ii il io idx mx cur stack auth a').
Proof.
  intros todo. induction todo as [|todo IH]; intros h ii il io idx mx cur stack auth a a' H; cbn [treehashx1_climb].
  - now constructor.
  - same. destruct ((Z.land ii 1 =? 0) && (idx <? mx)); [now constructor|].
    rstep ltac:(now apply set_height_R). rstep ltac:(now apply set_index_R). same.
    eqstep ltac:(now apply thash_R). now apply IH.
Qed.
Notation Rt := (fun x y => fst x = fst y /\ R (snd x) (snd y)).
Lemma loop_R {G : Type} (RG : G -> G -> Prop) gen gen' li io :
  (forall g g' i, RG g g' -> orel (fun x y => fst x = fst y /\ RG (snd x) (snd y)) (gen g i) (gen' g' i)) ->
  forall fuel th idx mx stack auth a a' g g', R a a' -> RG g g' ->
  orel (fun x y => fst (fst (fst x)) = fst (fst (fst y)) /\ snd (fst (fst x)) = snd (fst (fst y)) /\ R (snd (fst x)) (snd (fst y)) /\ RG (snd x) (snd y))
    (treehashx1_loop P HS c gen li io fuel th idx mx stack auth a g)
    (treehashx1_loop P PS c gen' li io fuel th idx mx stack auth a' g').
Proof.
  intros Hg fuel. induction fuel as [|fuel IH]; intros th idx mx stack auth a a' g g' H HG; cbn [treehashx1_loop]; [exact I|].
  eapply orel_bind; [now apply Hg|]. intros [lf g1] [lf' g1'] [E1 HG1]. cbn in E1, HG1. subst lf'.
  same. eapply orel_bind; [now apply climb_R|]. intros r r' [? ? ? ? Ha|? ? ? ? ? Ha].
  - cbn. auto.
  - same. now apply IH.
Qed.
Lemma treehashx1_R {G : Type} (RG : G -> G -> Prop) gen gen' li io :
  (forall g g' i, RG g g' -> orel (fun x y => fst x = fst y /\ RG (snd x) (snd y)) (gen g i) (gen' g' i)) ->
  forall th auth a a' g g', R a a' -> RG g g' ->
  orel (fun x y => fst (fst (fst x)) = fst (fst (fst y)) /\ snd (fst (fst x)) = snd (fst (fst y)) /\ R (snd (fst x)) (snd (fst y)) /\ RG (snd x) (snd y))
    (treehashx1 P HS c junk gen li io th auth a g) (treehashx1 P PS c junk gen' li io th auth a' g').
Proof. intros. now apply loop_R. Qed.

(** The copied address. *)
Lemma copy_R fa fa' : (length fa = SPX_ADDR_BYTES)%nat -> length fa' = SPX_ADDR_BYTES -> firstn p fa = pre ->
  rd fa (SPX_OFFSET_KP_ADDR L) 4 = rd fa' (SPX_OFFSET_KP_ADDR L) 4 ->
  orel R (copy_keypair_addr L zero_addr fa) (copy_keypair_addr (hs_layout PS) zero_addr fa').
Proof.
  intros Lf Lf' Hp Hk. unfold copy_keypair_addr. cbn [psuite hs_layout]. pose proof p_le as Hle.
  assert (Z0 : length zero_addr = SPX_ADDR_BYTES) by (unfold zero_addr; now rewrite repeat_length).
  unfold rd at 1 3. rewrite Lf, Lf'. rewrite (proj2 (Nat.leb_le (0 + p) SPX_ADDR_BYTES)) by lia. cbn [bind skipn].
  rewrite Hp. eapply orel_bind with (R := R).
  - unfold wr. rewrite Lpre, Z0. rewrite firstn_length, Lf', Nat.min_l by lia.
    rewrite (proj2 (Nat.leb_le (0 + p) SPX_ADDR_BYTES)) by lia. cbn [orel firstn app]. split.
    + rewrite app_length, firstn_length, skipn_length, Lf', Z0. lia.
    + unfold patch. f_equal. rewrite skipn_app, firstn_length, Lf', Nat.min_l by lia. rewrite Nat.sub_diag, skipn_O.
      rewrite (skipn_all2 (firstn p fa')) by (rewrite firstn_length; lia). reflexivity.
  - intros a a' Ha. rewrite Hk. same. apply wr_R; [exact Ha|apply kp_ge].
Qed.

Section Copied.
Variables fa fa' : bytes.
Hypothesis Lf : length fa = SPX_ADDR_BYTES.
Hypothesis Lf' : length fa' = SPX_ADDR_BYTES.
Hypothesis Hpre : firstn p fa = pre.
Hypothesis Hkp : rd fa (SPX_OFFSET_KP_ADDR L) 4 = rd fa' (SPX_OFFSET_KP_ADDR L) 4.

Theorem fors_sign_patch sig m : Fors.fors_sign P HS c junk sig m fa = Fors.fors_sign P PS c junk sig m fa'.
Proof.
  apply orel_eq. unfold Fors.fors_sign. pose proof (copy_R fa fa' Lf Lf' Hpre Hkp) as HC.
  rstep ltac:(exact HC). rstep ltac:(exact HC). rstep ltac:(exact HC). rstep ltac:(now apply set_type_R). same.
  eapply orel_bind with (R := fun x y => fst (fst (fst (fst x))) = fst (fst (fst (fst y)))
     /\ snd (fst (fst (fst x))) = snd (fst (fst (fst y))) /\ R (snd (fst (fst x))) (snd (fst (fst y)))
     /\ R (snd (fst x)) (snd (fst y)) /\ snd x = snd y).
  - apply orel_iter; [|cbn; auto].
    intros i [[[[s1 r1] t1] l1] q1] [[[[s2 r2] t2] l2] q2] (E1 & E2 & E3 & E4 & E5). cbn in E1, E2, E3, E4, E5. subst s2 r2 q2.
    same. rstep ltac:(now apply set_height_R). rstep ltac:(now apply set_index_R). rstep ltac:(now apply set_type_R).
    unfold fors_gen_sk. eqstep ltac:(now apply prf_R). same. rstep ltac:(now apply set_type_R). same.
    eapply orel_bind; [apply treehashx1_R with (RG := R); [|eassumption|exact E4]|].
    + intros g g' j Hg. now apply gen_leafx1_R.
    + intros [[[x1 x2] x3] x4] [[[y1 y2] y3] y4] (F1 & F2 & F3 & F4). cbn in F1, F2, F3, F4. subst y1 y2.
      same. same. cbn. auto.
  - intros [[[[s1 r1] t1] l1] q1] [[[[s2 r2] t2] l2] q2] (E1 & E2 & E3 & E4 & E5). cbn in E1, E2, E3, E4, E5. subst s2 r2 q2.
    eqstep ltac:(now apply thash_R). reflexivity.
Qed.
Lemma compute_root_loop_R : forall k i li io auth ap buf a a', R a a' ->
  orel Rt (compute_root_loop P HS c k i li io auth ap buf a) (compute_root_loop P PS c k i li io auth ap buf a').
Proof.
  intros k. induction k as [|k IH]; intros i li io auth ap buf a a' H; cbn [compute_root_loop]; [cbn; auto|].
  rstep ltac:(now apply set_height_R). rstep ltac:(now apply set_index_R). same. eqstep ltac:(now apply thash_R).
  same. same. now apply IH.
Qed.
Lemma compute_root_R leaf li io auth th a a' : R a a' ->
  orel Rt (compute_root P HS c junk leaf li io auth th a) (compute_root P PS c junk leaf li io auth th a').
Proof.
  intros H. unfold compute_root. same. same. same. same.
  eapply orel_bind; [now apply compute_root_loop_R|].
  intros [[[x1 x2] x3] x4] [[[y1 y2] y3] y4] [E H4]. cbn in E, H4. injection E as -> -> ->.
  rstep ltac:(now apply set_height_R). rstep ltac:(now apply set_index_R). same. eqstep ltac:(now apply thash_R). cbn. auto.
Qed.
Theorem fors_pk_from_sig_patch sig m : fors_pk_from_sig P HS c junk sig m fa = fors_pk_from_sig P PS c junk sig m fa'.
Proof.
  apply orel_eq. unfold fors_pk_from_sig. pose proof (copy_R fa fa' Lf Lf' Hpre Hkp) as HC.
  rstep ltac:(exact HC). rstep ltac:(exact HC). rstep ltac:(now apply set_type_R). rstep ltac:(now apply set_type_R). same.
  eapply orel_bind with (R := fun x y => fst (fst x) = fst (fst y) /\ R (snd (fst x)) (snd (fst y)) /\ snd x = snd y).
  - apply orel_iter; [|cbn; auto].
    intros i [[r1 t1] q1] [[r2 t2] q2] (E2 & E3 & E5). cbn in E2, E3, E5. subst r2 q2.
    same. rstep ltac:(now apply set_height_R). rstep ltac:(now apply set_index_R). same.
    unfold fors_sk_to_leaf. eqstep ltac:(now apply thash_R). same.
    eapply orel_bind; [now apply compute_root_R|].
    intros [x1 x2] [y1 y2] [F1 F2]. cbn in F1, F2. subst y1. same. cbn. auto.
  - intros [[r1 t1] q1] [[r2 t2] q2] (E2 & E3 & E5). cbn in E2, E3, E5. subst r2 q2. now apply thash_R.
Qed.

(** ** The multi-lane code *)
Variable LX : lane_fns HS.
Variable lw : nat.
Definition planes : lane_fns PS := @mkLanes PS
  (fun c k ins addrs => lx_thash LX c k ins (map patch addrs)) (fun c addrs => lx_prf_addr LX c (map patch addrs)).
Notation PX := planes.
Lemma mapM2_patch {A} (f : A -> bytes -> option bytes) : forall l m,
  mapM2 f l (map patch m) = mapM2 (fun x a => f x (patch a)) l m.
Proof. clear. intros l. induction l as [|x l IH]; intros [|y m]; cbn [mapM2 map]; auto. now rewrite IH. Qed.
Lemma mapM_patch (f : bytes -> option bytes) : forall m, mapM f (map patch m) = mapM (fun a => f (patch a)) m.
Proof. clear. intros m. induction m as [|y m IH]; cbn [mapM map]; auto. now rewrite IH. Qed.
Lemma planes_ok : lanes_ok P HS LX lw -> lanes_ok P PS PX lw.
Proof.
  intros [H1 H2]. assert (HF : forall addrs, Forall (fun a => length a = SPX_ADDR_BYTES) addrs ->
    Forall (fun a => length a = SPX_ADDR_BYTES) (map patch addrs)).
  { intros addrs F. apply Forall_map. eapply Forall_impl; [|exact F]. intros a Ha. now apply patch_len. }
  constructor.
  - intros c0 k ins addrs Hc Hk Li La Fi Fa. cbn [planes lx_thash psuite hs_thash].
    rewrite H1; auto; [|now rewrite map_length]. rewrite mapM2_patch. reflexivity.
  - intros c0 addrs Hc La Fa. cbn [planes lx_prf_addr psuite hs_prf_addr].
    rewrite H2; auto; [|now rewrite map_length]. rewrite mapM_patch. reflexivity.
Qed.

Notation Rs := (Forall2 R).
Ltac rsstep t := eapply orel_bind with (R := Rs); [t|intros ? ? ?].
Lemma Rs_patch l l' : Rs l l' -> l = map patch l' /\ length l = length l'
  /\ forallb (fun a => length a =? SPX_ADDR_BYTES)%nat l = true /\ forallb (fun a => length a =? SPX_ADDR_BYTES)%nat l' = true.
Proof.
  induction 1 as [|a a' l l' H F (IH1 & IH2 & IH3 & IH4)]; cbn [map length forallb]; auto.
  destruct (R_len _ _ H) as [La La']. rewrite La, La', Nat.eqb_refl, IH3, IH4. destruct H as [_ ->]. rewrite IH1 at 1.
  rewrite IH2. auto.
Qed.
Lemma mapMi_R f g : (forall j a a', R a a' -> orel R (f j a) (g j a')) ->
  forall l l' j, Rs l l' -> orel Rs (mapMi f j l) (mapMi g j l').
Proof.
  intros H l l' j F. revert j. induction F as [|a a' l l' Ha F IH]; intros j; cbn [mapMi]; [now constructor|].
  rstep ltac:(now apply H). rsstep ltac:(apply IH). cbn. now constructor.
Qed.
Lemma mapM_R f g : (forall a a', R a a' -> orel R (f a) (g a')) -> forall l l', Rs l l' -> orel Rs (mapM f l) (mapM g l').
Proof.
  intros H l l' F. induction F as [|a a' l l' Ha F IH]; cbn [mapM]; [now constructor|].
  rstep ltac:(now apply H). rsstep ltac:(apply IH). cbn. now constructor.
Qed.
Lemma mapM_const {A} x y : orel R x y -> forall l : list A, orel Rs (mapM (fun _ => x) l) (mapM (fun _ => y) l).
Proof.
  intros H l. induction l as [|a l IH]; cbn [mapM]; [now constructor|].
  rstep ltac:(exact H). rsstep ltac:(apply IH). cbn. now constructor.
Qed.
Lemma thashx_R k ins l l' : Rs l l' -> orel eq (thashx P HS LX lw c k ins l) (thashx P PS PX lw c k ins l').
Proof.
  intros H. destruct (Rs_patch _ _ H) as (E & El & F & F'). unfold thashx. rewrite El, F, F'. same. same.
  rewrite E. apply orel_refl.
Qed.
Lemma prf_addrx_R l l' : Rs l l' -> orel eq (prf_addrx HS LX lw c l) (prf_addrx PS PX lw c l').
Proof.
  intros H. destruct (Rs_patch _ _ H) as (E & El & F & F'). unfold prf_addrx. rewrite El, F, F'. same.
  rewrite E. apply orel_refl.
Qed.
Lemma gen_leafx_R l l' i : Rs l l' ->
  orel (fun x y => fst x = fst y /\ Rs (snd x) (snd y)) (fors_gen_leafx P HS LX lw c junk l i) (fors_gen_leafx P PS PX lw c junk l' i).
Proof.
  intros H. unfold fors_gen_leafx.
  rsstep ltac:(apply mapMi_R; [|exact H]; intros j a a' Ha; rstep ltac:(now apply set_index_R); now apply set_type_R).
  eqstep ltac:(now apply prf_addrx_R). same.
  rsstep ltac:(apply mapM_R; [|eassumption]; intros a' a'' Ha; now apply set_type_R).
  same. eqstep ltac:(now apply thashx_R). same. cbn. auto.
Qed.
Inductive Rclimbx : climbx_out -> climbx_out -> Prop :=
| Rrootx r au a a' : Rs a a' -> Rclimbx (RootX r au a) (RootX r au a')
| Rleftx h n au a a' la pl : Rs a a' -> Rclimbx (LeftX h n au a la pl) (LeftX h n au a' la pl).
Lemma climbx_R : forall th todo h ii il io idx mx la pl cur stack auth a a', Rs a a' ->
  orel Rclimbx (treehashx_climb P HS LX lw c th todo h ii il io idx mx la pl cur stack auth a)
               (treehashx_climb P PS PX lw c th todo h ii il io idx mx la pl cur stack auth a').
Proof.
  intros th todo. induction todo as [|todo IH]; intros h ii il io idx mx la pl cur stack auth a a' H; cbn [treehashx_climb].
  - same. now constructor.
  - destruct (if (th - lw <=? h)%nat then _ else _) as [la1 pl1].
    same. destruct ((Z.land ii 1 =? 0) && (idx <? mx)); [now constructor|].
    rsstep ltac:(apply mapMi_R; [|exact H]; intros j x x' Hx; rstep ltac:(now apply set_height_R); now apply set_index_R).
    same. eqstep ltac:(now apply thashx_R). same. now apply IH.
Qed.
Notation Rout RG := (fun x y => fst (fst (fst x)) = fst (fst (fst y)) /\ snd (fst (fst x)) = snd (fst (fst y)) /\ Rs (snd (fst x)) (snd (fst y)) /\ RG (snd x) (snd y)).
Lemma loopx_R {G : Type} (RG : G -> G -> Prop) gen gen' li io :
  (forall g g' i, RG g g' -> orel (fun x y => fst x = fst y /\ RG (snd x) (snd y)) (gen g i) (gen' g' i)) ->
  forall fuel th idx mx la pl stack auth a a' g g', Rs a a' -> RG g g' ->
  orel (Rout RG) (treehashx_loop P HS LX lw c gen li io fuel th idx mx la pl stack auth a g)
    (treehashx_loop P PS PX lw c gen' li io fuel th idx mx la pl stack auth a' g').
Proof.
  intros Hg fuel. induction fuel as [|fuel IH]; intros th idx mx la pl stack auth a a' g g' H HG; cbn [treehashx_loop]; [exact I|].
  eapply orel_bind; [now apply Hg|]. intros [lf g1] [lf' g1'] [E1 HG1]. cbn in E1, HG1. subst lf'.
  eapply orel_bind; [now apply climbx_R|]. intros r r' [? ? ? ? Ha|? ? ? ? ? ? ? Ha].
  - cbn. auto.
  - same. now apply IH.
Qed.
Lemma treehashx_R {G : Type} (RG : G -> G -> Prop) gen gen' li io :
  (forall g g' i, RG g g' -> orel (fun x y => fst x = fst y /\ RG (snd x) (snd y)) (gen g i) (gen' g' i)) ->
  forall th auth a a' g g', Rs a a' -> RG g g' ->
  orel (Rout RG) (treehashx P HS LX lw c junk gen li io th auth a g) (treehashx P PS PX lw c junk gen' li io th auth a' g').
Proof. intros. unfold treehashx. same. now apply loopx_R. Qed.
Lemma on_lane0_R f g l l' : (forall a a', R a a' -> orel R (f a) (g a')) -> Rs l l' -> orel Rs (on_lane0 f l) (on_lane0 g l').
Proof.
  intros H F. destruct F as [|a a' l l' Ha F]; cbn [on_lane0]; [exact I|]. rstep ltac:(now apply H). cbn. now constructor.
Qed.
Lemma get0_R l l' : Rs l l' -> orel R (get l 0) (get l' 0).
Proof. intros [|a a' l0 l0' Ha F]; cbn; auto. Qed.
Theorem fors_signx_patch sig m : fors_signx P HS LX lw c junk sig m fa = fors_signx P PS PX lw c junk sig m fa'.
Proof.
  apply orel_eq. unfold fors_signx. pose proof (copy_R fa fa' Lf Lf' Hpre Hkp) as HC.
  rsstep ltac:(apply mapM_const; rstep ltac:(exact HC); now apply set_type_R). rsstep ltac:(apply mapM_const; exact HC).
  rstep ltac:(exact HC). rstep ltac:(now apply set_type_R). same.
  eapply orel_bind with (R := fun x y => fst (fst (fst (fst x))) = fst (fst (fst (fst y)))
     /\ snd (fst (fst (fst x))) = snd (fst (fst (fst y))) /\ Rs (snd (fst (fst x))) (snd (fst (fst y)))
     /\ Rs (snd (fst x)) (snd (fst y)) /\ snd x = snd y).
  - apply orel_iter; [|cbn; auto].
    intros i [[[[s1 r1] t1] l1] q1] [[[[s2 r2] t2] l2] q2] (E1 & E2 & E3 & E4 & E5). cbn in E1, E2, E3, E4, E5. subst s2 r2 q2.
    same.
    rsstep ltac:(apply on_lane0_R; [|exact E3]; intros x x' Hx; rstep ltac:(now apply set_height_R);
                 rstep ltac:(now apply set_index_R); now apply set_type_R).
    rstep ltac:(now apply get0_R). unfold fors_gen_sk. eqstep ltac:(now apply prf_R). same.
    rsstep ltac:(apply on_lane0_R; [|eassumption]; intros x x' Hx; now apply set_type_R). same.
    eapply orel_bind; [apply treehashx_R with (RG := Rs); [|eassumption|exact E4]|].
    + intros g g' j Hg. now apply gen_leafx_R.
    + intros [[[x1 x2] x3] x4] [[[y1 y2] y3] y4] (F1 & F2 & F3 & F4). cbn in F1, F2, F3, F4. subst y1 y2.
      same. same. cbn. auto.
  - intros [[[[s1 r1] t1] l1] q1] [[[[s2 r2] t2] l2] q2] (E1 & E2 & E3 & E4 & E5). cbn in E1, E2, E3, E4, E5. subst s2 r2 q2.
    eqstep ltac:(now apply thash_R). reflexivity.
Qed.
End Copied.
End Patch.
