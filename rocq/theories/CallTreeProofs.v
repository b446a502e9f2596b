(** The calls compute_root and treehashx1 make. *)
From Verif Require Import Base BaseFacts Params Address Suite Utils Spec SpecFacts AdrsEnc
  AddressProofs Refine TreeProofs CallLog CallSpec.

(** ** Runs with a record *)
Definition run {A} (l : list call) (m : lm A) : lm A :=
  match m with Some (a, l') => Some (a, l ++ l') | None => None end.
Lemma lbind_some : forall A B (a : A) l (f : A -> lm B), lbind (Some (a, l)) f = run l (f a).
Proof. reflexivity. Qed.
Lemma run_lret : forall A l (a : A), run l (lret a) = Some (a, l).
Proof. intros. unfold run, lret. now rewrite app_nil_r. Qed.
Lemma run_run : forall A l l' (m : lm A), run l (run l' m) = run (l ++ l') m.
Proof. intros A l l' [[a k]|]; cbn [run]; [|reflexivity]. now rewrite app_assoc. Qed.
Lemma run_some : forall A l (a : A) k, run l (Some (a, k)) = Some (a, l ++ k).
Proof. reflexivity. Qed.
Lemma iterL_inv : forall S k i (f : nat -> S -> lm S) (I : nat -> S -> Prop) (g : nat -> list call) s,
  I i s ->
  (forall j t, (i <= j < i + k)%nat -> I j t -> exists t', f j t = Some (t', g j) /\ I (Datatypes.S j) t') ->
  exists s', iterL k i f s = Some (s', flat_map g (seq i k)) /\ I (i + k)%nat s'.
Proof.
  intros S; induction k as [|k IH]; intros i f I g s Hs Hstep; cbn [iterL seq flat_map].
  - exists s. rewrite Nat.add_0_r. split; auto.
  - destruct (Hstep i s ltac:(lia) Hs) as (t & Et & Ht). rewrite Et, lbind_some.
    destruct (IH (Datatypes.S i) f I g t Ht) as (s' & Es & Hs').
    { intros j u Hj. apply Hstep. lia. }
    rewrite Es, run_some. exists s'. split; [reflexivity|]. now replace (i + Datatypes.S k)%nat with (Datatypes.S i + k)%nat by lia.
Qed.

Definition enc_call (l : layout) (c : scall) : call :=
  match c with STh k a x => Thash k x (enc l a) | SPrf a => Prf (enc l a) end.

(** ** Leaves in order, each with the nodes it completes, are the tree in post-order *)
Fixpoint zr (k : Z) (n : nat) : list Z := match n with O => [] | S n' => k :: zr (k + 1) n' end.
Lemma zr_app : forall m n k, zr k (m + n) = zr k m ++ zr (k + Z.of_nat m) n.
Proof.
  induction m as [|m IH]; intros n k; cbn [zr Nat.add app]; [now rewrite Z.add_0_r|].
  rewrite IH. do 3 f_equal. lia.
Qed.
Section Post.
Variable leaf : Z -> bytes.
Variable hash2 : nat -> Z -> bytes -> bytes.
Variable lc : Z -> list scall.
Variable na : nat -> Z -> adrs.
Notation nd := (node leaf hash2).
Notation tc := (tree_calls leaf hash2 lc na).
Fixpoint up_calls (todo h : nat) (k : Z) : list scall :=
  match todo with
  | O => []
  | S todo' =>
      if Z.odd (k / 2 ^ Z.of_nat h)
      then STh 2 (na (S h) (k / 2 ^ Z.of_nat (S h))) (nd h (k / 2 ^ Z.of_nat h - 1) ++ nd h (k / 2 ^ Z.of_nat h))
           :: up_calls todo' (S h) k
      else []
  end.
Lemma last_div : forall h j, (j + 1) * 2 ^ Z.of_nat h - 1 = j * 2 ^ Z.of_nat h + (2 ^ Z.of_nat h - 1).
Proof. intros. ring. Qed.
Lemma last_div' : forall h j, ((j + 1) * 2 ^ Z.of_nat h - 1) / 2 ^ Z.of_nat h = j.
Proof.
  intros h j. pose proof (pow2_pos h). rewrite last_div, Z.div_add_l by lia. rewrite Z.div_small; lia.
Qed.
Lemma post_order : forall H h, (h <= H)%nat -> forall i,
  flat_map (fun k => lc k ++ up_calls H 0 k) (zr (i * 2 ^ Z.of_nat h) (Nat.pow 2 h))
  = tc h i ++ up_calls (H - h) h ((i + 1) * 2 ^ Z.of_nat h - 1).
Proof.
  intros H; induction h as [|h IH]; intros Hh i.
  - cbn [Nat.pow zr flat_map tree_calls Z.of_nat]. change (2 ^ 0) with 1. rewrite app_nil_r, Nat.sub_0_r, !Z.mul_1_r.
    do 2 f_equal. lia.
  - cbn [tree_calls]. replace (2 ^ S h)%nat with (2 ^ h + 2 ^ h)%nat by (cbn [Nat.pow]; lia). rewrite zr_app, flat_map_app.
    assert (E1 : i * 2 ^ Z.of_nat (S h) = (2 * i) * 2 ^ Z.of_nat h) by (rewrite pow2_S; ring).
    assert (E2 : i * 2 ^ Z.of_nat (S h) + Z.of_nat (2 ^ h) = (2 * i + 1) * 2 ^ Z.of_nat h).
    { rewrite Nat2Z.inj_pow, pow2_S. change (Z.of_nat 2) with 2. ring. }
    rewrite E2, E1, !IH by lia.
    assert (E3 : up_calls (H - h) h ((2 * i + 1) * 2 ^ Z.of_nat h - 1) = []).
    { destruct (H - h)%nat; [reflexivity|]. cbn [up_calls]. rewrite last_div'. rewrite Z.odd_mul. reflexivity. }
    rewrite E3, app_nil_r.
    assert (E4 : (H - h)%nat = S (H - S h)) by lia. rewrite E4. cbn [up_calls].
    replace (2 * i + 1 + 1) with (2 * i + 2) by ring.
    assert (E5 : ((2 * i + 2) * 2 ^ Z.of_nat h - 1) / 2 ^ Z.of_nat h = 2 * i + 1).
    { replace (2 * i + 2) with (2 * i + 1 + 1) by ring. apply last_div'. }
    rewrite E5.
    assert (E6 : Z.odd (2 * i + 1) = true) by (rewrite Z.add_comm, Z.odd_add_mul_2; reflexivity).
    rewrite E6. rewrite <- !app_assoc. cbn [app].
    assert (E7 : (2 * i + 2) * 2 ^ Z.of_nat h - 1 = (i + 1) * 2 ^ Z.of_nat (S h) - 1) by (rewrite pow2_S; ring).
    rewrite E7. rewrite last_div'. now replace (2 * i + 1 - 1) with (2 * i) by ring.
Qed.
Lemma post_order_root : forall H,
  flat_map (fun k => lc k ++ up_calls H 0 k) (zr 0 (Nat.pow 2 H)) = tc H 0.
Proof.
  intros H. pose proof (post_order H H (le_n H) 0) as E. rewrite Z.mul_0_l in E. rewrite E.
  rewrite Nat.sub_diag. cbn [up_calls]. apply app_nil_r.
Qed.
End Post.

Section Calls.
Variable P : params.
Variable HS : suite.
Variable c : ctx (hs_st HS).
Notation N := (p_n P).
Notation L := (hs_layout HS).
Hypothesis Hn : (1 <= N)%nat.
Hypothesis Hok : suite_ok P HS.
Hypothesis Hc : ctx_ok P HS c.
Notation T := (codeT P HS c).
Lemma thash_encL k x a : length x = (k * N)%nat ->
  thashL P HS c k x (enc L a) = Some (T a x, [enc_call L (STh k a x)]).
Proof. intros H. unfold thashL. rewrite (thash_enc P HS c Hn Hok Hc) by exact H. reflexivity. Qed.
Lemma prf_encL a : prf_addrL HS c (enc L a) = Some (codePRF HS c a, [enc_call L (SPrf a)]).
Proof. unfold prf_addrL. rewrite (prf_enc P HS c Hok Hc). reflexivity. Qed.
End Calls.

Section Trees.
Variable P : params.
Variable HS : suite.
Variable c : ctx (hs_st HS).
Variable junk : nat -> nat -> Z.
Notation N := (p_n P).
Notation L := (hs_layout HS).
Hypothesis Hn : (1 <= N)%nat.
Hypothesis Hok : suite_ok P HS.
Hypothesis Hc : ctx_ok P HS c.
Notation T := (codeT P HS c).
Notation E := (enc_call L).
Variables t_layer t_tree t_type t_kp : Z.
Notation A := (fun w1 w2 => mkAdrs t_layer t_tree t_type t_kp w1 w2).
Variable H : nat.
Variable off : Z.
Variable hash2 : nat -> Z -> bytes -> bytes.
Variable na : nat -> Z -> adrs.
Hypothesis Hhash2 : forall h i x, (1 <= h <= H)%nat ->
  T (A (Z.of_nat h) (i + off / 2 ^ Z.of_nat h)) x = hash2 h i x.
Hypothesis Hna : forall h i, (1 <= h <= H)%nat -> A (Z.of_nat h) (i + off / 2 ^ Z.of_nat h) = na h i.

Notation pb := (pair_buf).
Lemma climb_calls_cons h i x s p :
  climb_calls hash2 na h i x (s :: p)
  = STh 2 (na (S h) (i / 2)) (pb i x s) :: climb_calls hash2 na (S h) (i / 2) (hash2 (S h) (i / 2) (pb i x s)) p.
Proof. clear. cbn [climb_calls]. unfold pair_buf. rewrite <- Z.negb_even. destruct (Z.even i); reflexivity. Qed.

Lemma compute_root_loop_okL rest pre i li x s w1 w2 o :
  length x = N -> length s = N -> chunks_of N (pre ++ rest) ->
  (i + length rest < H)%nat -> o = off / 2 ^ Z.of_nat i ->
  exists li' o' x' s' w1' w2' l,
    compute_root_loopL P HS c (length rest) i li o (concat (pre ++ rest)) (length pre * N)
      (pair_buf li x s) (enc L (A w1 w2))
    = Some ((li', o', pair_buf li' x' s', enc L (A w1' w2')), l)
    /\ length x' = N /\ length s' = N
    /\ o' = off / 2 ^ Z.of_nat (i + length rest)
    /\ climb hash2 i li x (s :: rest) = climb hash2 (i + length rest) li' x' [s']
    /\ map E (climb_calls hash2 na i li x (s :: rest)) = l ++ map E (climb_calls hash2 na (i + length rest) li' x' [s']).
Proof. clear junk.
  revert pre i li x s w1 w2 o. induction rest as [|r rest IH];
    intros pre i li x s w1 w2 o Hx Hs Hch Hi ->; cbn [length compute_root_loopL].
  - exists li, (off / 2 ^ Z.of_nat i), x, s, w1, w2, []. rewrite Nat.add_0_r. repeat split; auto.
  - rewrite !shiftr1.
    pose proof (pair_buf_len P li x s Hx Hs) as Hb.
    rewrite set_height_enc. cbn [bind]. rewrite set_index_enc. cbn [bind].
    rewrite rd_all by auto. cbn [bind]. rewrite enc_u32.
    rewrite (thash_encL P HS c Hn Hok Hc 2) by auto. rewrite lbind_some.
    unfold with_w2, with_w1; cbn [a_layer a_tree a_type a_kp a_w1 a_w2].
    replace (Z.of_nat i + 1) with (Z.of_nat (S i)) by lia.
    rewrite div_pow2_S'.
    rewrite Hhash2 by (cbn [length] in Hi; lia). rewrite (Hna (S i)) by (cbn [length] in Hi; lia).
    set (y := hash2 (S i) (li / 2) (pair_buf li x s)).
    assert (Hy : length y = N). { apply (hash2_len P HS c Hn Hok Hc _ _ _ _ H off _ Hhash2); auto. cbn [length] in Hi; lia. }
    rewrite (rd_chunk N _ (length pre) r Hch)
      by (rewrite nth_error_app2, Nat.sub_diag by lia; reflexivity).
    assert (Hr : length r = N).
    { apply chunks_app in Hch. destruct Hch as [_ Hch]. now inversion Hch. }
    cbn [bind].
    assert (Hwr : (if Z.odd (li / 2)
                   then b <- wr (pair_buf li x s) N y ;; wr b 0 r
                   else b <- wr (pair_buf li x s) 0 y ;; wr b N r) = Some (pair_buf (li / 2) y r)).
    { unfold pair_buf at 3.
      assert (exists p q, pair_buf li x s = p ++ q /\ length p = N /\ length q = N)
        as (p & q & Eq & Hp & Hq).
      { unfold pair_buf. destruct (Z.odd li); eauto. }
      rewrite Eq. destruct (Z.odd (li / 2)).
      - rewrite wr_app_r by congruence. cbn [bind]. apply wr_app0. congruence.
      - rewrite wr_app0 by congruence. cbn [bind]. apply wr_app_r; congruence. }
    rewrite Hwr. cbn [bind].
    destruct (IH (pre ++ [r]) (S i) (li / 2) y r (Z.of_nat (S i)) (li / 2 + off / 2 ^ Z.of_nat (S i))
                (off / 2 ^ Z.of_nat (S i)))
      as (li' & o' & x' & s' & w1' & w2' & l & Eq & Hx' & Hs' & Ho' & Ec & El); auto.
    { rewrite <- app_assoc. exact Hch. }
    { cbn [length] in Hi. lia. }
    rewrite <- app_assoc in Eq. cbn [app] in Eq.
    replace (length (pre ++ [r]) * N)%nat with (length pre * N + N)%nat in Eq
      by (rewrite app_length; cbn; lia).
    rewrite (Hna (S i)) in Eq by (cbn [length] in Hi; lia).
    rewrite Eq, run_some.
    exists li', o', x', s', w1', w2'. eexists. split; [reflexivity|].
    replace (i + S (length rest))%nat with (S i + length rest)%nat by lia.
    repeat split; auto.
    + rewrite climb_cons. exact Ec.
    + rewrite climb_calls_cons. cbn [map app]. fold y. rewrite El. reflexivity.
Qed.

Lemma compute_root_okL path i leaf w1 w2 :
  length leaf = N -> chunks_of N path -> length path = H -> (1 <= H)%nat ->
  exists w1' w2',
    compute_rootL P HS junk c leaf i off (concat path) H (enc L (A w1 w2))
    = Some ((climb hash2 0 i leaf path, enc L (A w1' w2')), map E (climb_calls hash2 na 0 i leaf path)).
Proof.
  intros Hl Hch Hlen HH. unfold compute_rootL.
  replace (1 <=? H)%nat with true by (symmetry; now apply Nat.leb_le). cbn [guard bind].
  rewrite rd_all by auto. cbn [bind].
  destruct path as [|s rest]; [cbn in Hlen; lia|].
  assert (Hs : length s = N) by now inversion Hch.
  cbn [concat]. rewrite rd_app0 by auto. cbn [bind].
  pose proof (junk_length (junk 1%nat) (2 * N)) as Hj.
  assert (exists p q, junk_bytes (junk 1%nat) (2 * N) = p ++ q /\ length p = N /\ length q = N)
    as (p & q & Ej & Hp & Hq).
  { destruct (split_at (junk_bytes (junk 1%nat) (2 * N)) N N) as (p & q & r & Eq & E1 & E2 & _);
      [lia|]. exists p, q. rewrite Eq in Hj |- *. rewrite !app_length in Hj.
    destruct r; [|cbn in Hj; lia]. now rewrite app_nil_r. }
  rewrite Ej.
  assert (Hwr : (if Z.odd i then b <- wr (p ++ q) N leaf ;; wr b 0 s
                 else b <- wr (p ++ q) 0 leaf ;; wr b N s) = Some (pair_buf i leaf s)).
  { unfold pair_buf. destruct (Z.odd i).
    - rewrite wr_app_r by congruence. cbn [bind]. apply wr_app0; congruence.
    - rewrite wr_app0 by congruence. cbn [bind]. apply wr_app_r; congruence. }
  rewrite Hwr. cbn [bind].
  destruct (compute_root_loop_okL rest [s] 0 i leaf s w1 w2 off)
    as (li' & o' & x' & s' & w1' & w2' & l & Eq & Hx' & Hs' & Ho' & Ec & El); auto.
  { cbn [length] in Hlen. cbn. lia. }
  { now rewrite Z.div_1_r. }
  cbn [app concat length] in Eq. rewrite Nat.mul_1_l in Eq.
  cbn [length] in Hlen. replace (H - 1)%nat with (length rest) by lia.
  rewrite Eq, lbind_some. rewrite !shiftr1.
  rewrite set_height_enc. cbn [bind]. rewrite set_index_enc. cbn [bind].
  rewrite rd_all by (now rewrite (pair_buf_len P)). cbn [bind]. rewrite enc_u32.
  rewrite (thash_encL P HS c Hn Hok Hc 2) by (now apply (pair_buf_len P)). rewrite lbind_some, run_lret, run_some.
  unfold with_w2, with_w1; cbn [a_layer a_tree a_type a_kp a_w1 a_w2].
  rewrite Ho', div_pow2_S'. cbn [Nat.add] in *.
  replace (S (length rest)) with H by lia.
  rewrite Hhash2 by lia.
  exists (Z.of_nat H), (li' / 2 + off / 2 ^ Z.of_nat H).
  rewrite El, Ec, climb_cons, climb_calls_cons. cbn [climb climb_calls map].
  replace (S (length rest)) with H by lia. rewrite (Hna H) by lia. reflexivity.
Qed.

Variable leaf : Z -> bytes.
Hypothesis Hleaf : forall i, length (leaf i) = N.
Notation nd := (node leaf hash2).
Variable lc : Z -> list scall.
Notation up := (up_calls leaf hash2 na).
Notation Node_len := (node_len P HS c Hn Hok Hc t_layer t_tree t_type t_kp H off hash2 Hhash2 leaf Hleaf).
Notation CR := (climb_res P HS t_layer t_tree t_type t_kp H hash2 leaf).
Notation Auth_mid := (auth_mid P H hash2 leaf).
Notation Auth_inv := (auth_inv P H hash2 leaf).
Notation Stack_inv := (stack_inv P H hash2 leaf).

Lemma climb_okL todo h k leaf_idx au0 au st w1 w2 :
  (h + todo = H)%nat -> 0 <= k < 2 ^ Z.of_nat H -> 0 <= leaf_idx ->
  k mod 2 ^ Z.of_nat h = 2 ^ Z.of_nat h - 1 ->
  Stack_inv k st -> Auth_mid leaf_idx k h au0 au ->
  exists r,
    treehashx1_climbL P HS c todo h (k / 2 ^ Z.of_nat h) (leaf_idx / 2 ^ Z.of_nat h)
      (off / 2 ^ Z.of_nat h) k (2 ^ Z.of_nat H - 1) (nd h (k / 2 ^ Z.of_nat h))
      (concat st) (concat au) (enc L (A w1 w2)) = Some (r, map E (up todo h k))
    /\ CR leaf_idx k au0 st r.
Proof. clear junk.
  revert h au w1 w2.
  induction todo as [|todo IH]; intros h au w1 w2 Hh Hk Hl Hlow Hst Hau; cbn [treehashx1_climbL up_calls].
  - assert (h = H) as -> by lia.
    eexists. split; [reflexivity|].
    assert (Ek : k = 2 ^ Z.of_nat H - 1) by (rewrite Z.mod_small in Hlow; lia).
    rewrite Z.div_small by lia. constructor; auto.
    apply auth_mid_full with H; auto. intros; lia.
  - set (j := k / 2 ^ Z.of_nat h) in *.
    pose proof (pow2_pos h) as Hp.
    assert (Hj : 0 <= j) by (apply Z.div_pos; lia).
    assert (Hs : 0 <= leaf_idx / 2 ^ Z.of_nat h) by (apply Z.div_pos; lia).
    rewrite lxor_1_eq by auto. fold (sib leaf_idx h).
    destruct Hau as (A1 & A2 & A3).
    pose proof (succ_j k h Hlow) as Hsucc. fold j in Hsucc.
    assert (exists au', (if j =? sib leaf_idx h then wr (concat au) (h * N) (nd h j)
                         else Some (concat au)) = Some (concat au')
              /\ Auth_mid leaf_idx k (S h) au0 au') as (au' & Ew & Hau').
    { destruct (done_step h (sib leaf_idx h) j k Hsucc) as [D1 D2].
      destruct (Z.eqb_spec j (sib leaf_idx h)) as [E0|E0].
      - exists (upd h (nd h j) au). split.
        + apply wr_chunk; auto; [lia|]. apply Node_len; lia.
        + split; [|split].
          * apply chunks_upd; auto. apply Node_len; lia.
          * now rewrite upd_length.
          * intros h' Hh'. destruct (Nat.eq_dec h' h) as [->|Hne].
            -- rewrite nth_error_upd_same by lia.
               replace (h <? S h)%nat with true by (symmetry; apply Nat.ltb_lt; lia).
               now rewrite <- E0, D2.
            -- rewrite nth_error_upd_other by auto. rewrite A3 by auto.
               destruct (Nat.ltb_spec h' h), (Nat.ltb_spec h' (S h)); auto; lia.
      - exists au. split; [reflexivity|]. split; [auto|split; [auto|]].
        intros h' Hh'. rewrite A3 by auto.
        destruct (Nat.eq_dec h' h) as [->|Hne].
        + rewrite Nat.ltb_irrefl.
          replace (h <? S h)%nat with true by (symmetry; apply Nat.ltb_lt; lia).
          rewrite D1 by congruence. reflexivity.
        + destruct (Nat.ltb_spec h' h), (Nat.ltb_spec h' (S h)); auto; lia. }
    rewrite Ew. cbn [bind].
    assert (HpS : 2 ^ Z.of_nat (S h) = 2 * 2 ^ Z.of_nat h) by apply pow2_S.
    assert (Hland : (Z.land j 1 =? 0) = Z.even j).
    { change 1 with (Z.ones 1) at 1. rewrite Z.land_ones by lia. change (2 ^ 1) with 2.
      rewrite Zeven_mod. unfold Zeq_bool, Z.eqb. now destruct (j mod 2). }
    rewrite Hland.
    assert (Hmax : k < 2 ^ Z.of_nat H - 1 \/ k = 2 ^ Z.of_nat H - 1) by lia.
    destruct (Z.even j) eqn:Ej; cbn [andb].
    + (* left child *)
      assert (Hnodd : Z.odd j = false) by (rewrite <- Z.negb_even, Ej; reflexivity). rewrite Hnodd.
      assert (k < 2 ^ Z.of_nat H - 1) as Hlt.
      { destruct Hmax as [|Hmax]; auto. exfalso.
        assert ((j + 1) * 2 ^ Z.of_nat h = 2 ^ Z.of_nat todo * 2 * 2 ^ Z.of_nat h) as Eq.
        { rewrite Hsucc, Hmax. rewrite <- (Z.pow_1_r 2) at 3. rewrite <- !Z.pow_add_r by lia.
          replace (Z.of_nat todo + 1 + Z.of_nat h) with (Z.of_nat H) by lia. lia. }
        apply Z.mul_reg_r in Eq; [|lia]. apply Z.even_spec in Ej. destruct Ej as [q Eq2]. lia. }
      replace (k <? 2 ^ Z.of_nat H - 1) with true by (symmetry; now apply Z.ltb_lt).
      eexists. split; [reflexivity|]. constructor; auto; [lia| |].
      * apply auth_mid_full with (S h); auto. intros h' Hh'.
        unfold done. apply Bool.eq_true_iff_eq. rewrite !Z.leb_le.
        assert ((sib leaf_idx h' + 1) * 2 ^ Z.of_nat h' <> k + 1); [|lia].
        rewrite <- Hsucc. intros Eq.
        assert (Eh : 2 ^ Z.of_nat h' = 2 ^ Z.of_nat (h' - S h) * 2 * 2 ^ Z.of_nat h).
        { rewrite <- (Z.pow_1_r 2) at 3. rewrite <- !Z.pow_add_r by lia. f_equal. lia. }
        rewrite Eh, Z.mul_assoc in Eq. apply Z.mul_reg_r in Eq; [|lia].
        apply Z.even_spec in Ej. destruct Ej as [q Eq2]. lia.
      * (* stack *)
        destruct Hst as (S1 & S2 & S3). split; [|split].
        -- apply chunks_upd; auto. apply Node_len; lia.
        -- now rewrite upd_length.
        -- intros h' Hh' Hodd. destruct (lt_eq_lt_dec h' h) as [[Hlt2|Heq]|Hgt].
           ++ exfalso. rewrite <- Hsucc in Hodd.
              assert (Eh : 2 ^ Z.of_nat h = 2 ^ Z.of_nat (h - S h') * 2 * 2 ^ Z.of_nat h').
              { rewrite <- (Z.pow_1_r 2) at 3. rewrite <- !Z.pow_add_r by lia. f_equal. lia. }
              rewrite Eh, Z.mul_assoc, Z.div_mul in Hodd by (pose proof (pow2_pos h'); lia).
              rewrite (Z.mul_assoc), Z.mul_comm, Z.odd_mul in Hodd. discriminate.
           ++ subst h'. rewrite nth_error_upd_same by lia. rewrite <- Hsucc, Z.div_mul by lia.
              do 2 f_equal. lia.
           ++ rewrite nth_error_upd_other by lia.
              assert (Eq : (k + 1) / 2 ^ Z.of_nat h' = k / 2 ^ Z.of_nat h').
              { assert (Eh : 2 ^ Z.of_nat h' = 2 ^ Z.of_nat h * (2 * 2 ^ Z.of_nat (h' - S h))).
                { rewrite <- (Z.pow_1_r 2) at 3. rewrite <- !Z.pow_add_r by lia. f_equal. lia. }
                rewrite Eh, <- !Z.div_div by (pose proof (pow2_pos (h' - S h)); lia).
                fold j. rewrite <- Hsucc, Z.div_mul by lia.
                replace ((j + 1) / 2) with (j / 2); [reflexivity|].
                apply Z.even_spec in Ej. destruct Ej as [q ->].
                rewrite (Z.mul_comm 2 q), Z.div_mul, Z.div_add_l by lia.
                rewrite (Z.div_small 1) by lia. lia. }
              rewrite Eq in *. apply S3; auto.
    + (* right child *)
      assert (Hodd : Z.odd j = true) by (rewrite <- Z.negb_even, Ej; reflexivity). rewrite Hodd.
      rewrite shiftr1, div_pow2_S'.
      replace (Z.of_nat h + 1) with (Z.of_nat (S h)) by lia.
      rewrite set_height_enc. cbn [bind]. rewrite set_index_enc. cbn [bind]. rewrite enc_u32.
      destruct Hst as (S1 & S2 & S3).
      rewrite (rd_chunk N st h (nd h (j - 1)) S1) by (apply S3; auto; lia). cbn [bind].
      rewrite (thash_encL P HS c Hn Hok Hc 2) by (rewrite app_length, !Node_len by lia; lia). rewrite lbind_some.
      unfold with_w2, with_w1; cbn [a_layer a_tree a_type a_kp a_w1 a_w2].
      rewrite Hhash2 by lia.
      pose proof (div2_odd j Hodd) as Ej2.
      assert (Enode : hash2 (S h) (j / 2) (nd h (j - 1) ++ nd h j) = nd (S h) (k / 2 ^ Z.of_nat (S h))).
      { cbn [node]. rewrite <- div_pow2_S'. fold j. f_equal. f_equal; f_equal; lia. }
      rewrite Enode, !shiftr1. unfold j. rewrite !div_pow2_S'.
      destruct (IH (S h) au' (Z.of_nat (S h)) (k / 2 ^ Z.of_nat (S h) + off / 2 ^ Z.of_nat (S h)))
        as (r & Er & Hr); auto; [lia| | |].
      * rewrite HpS. rewrite (Z.mul_comm 2), Z.rem_mul_r by lia. fold j. rewrite Hlow.
        rewrite Zmod_odd, Hodd. lia.
      * split; auto.
      * rewrite Er, run_some. exists r. split; [|exact Hr].
        rewrite (Hna (S h)) by lia. reflexivity.
Qed.

Section Loop.
Context {G : Type}.
Variable gen_leaf : G -> Z -> lm (bytes * G).
Variable Ginv : Z -> G -> Prop.
Hypothesis Hgen : forall k g, 0 <= k < 2 ^ Z.of_nat H -> Ginv k g ->
  exists g', gen_leaf g (u32 (k + off)) = Some ((leaf k, g'), map E (lc k)) /\ Ginv (k + 1) g'.

Lemma treehashx1_loop_okL fuel k leaf_idx au0 au st w1 w2 g :
  0 <= k < 2 ^ Z.of_nat H -> Z.of_nat fuel = 2 ^ Z.of_nat H - k -> 0 <= leaf_idx ->
  Stack_inv k st -> Auth_inv leaf_idx k au0 au -> Ginv k g ->
  exists au' w1' w2' g',
    treehashx1_loopL P HS c gen_leaf leaf_idx off fuel H k (2 ^ Z.of_nat H - 1)
      (concat st) (concat au) (enc L (A w1 w2)) g
    = Some ((nd H 0, concat au', enc L (A w1' w2'), g'), map E (flat_map (fun k => lc k ++ up H 0 k) (zr k fuel)))
    /\ Auth_inv leaf_idx (2 ^ Z.of_nat H) au0 au' /\ Ginv (2 ^ Z.of_nat H) g'.
Proof.
  revert k au st w1 w2 g. induction fuel as [|fuel IH];
    intros k au st w1 w2 g Hk Hf Hl Hst Hau Hg; [lia|]. cbn [treehashx1_loopL zr flat_map].
  destruct (Hgen k g Hk Hg) as (g1 & Eg & Hg1). rewrite Eg, lbind_some.
  rewrite rd_all by (now rewrite Hleaf). cbn [bind].
  destruct (climb_okL H 0 k leaf_idx au0 au st w1 w2) as (r & Er & Hr); auto.
  { cbn. apply Z.mod_1_r. }
  cbn [Z.of_nat node] in Er. change (2 ^ 0) with 1 in Er. rewrite !Z.div_1_r in Er.
  rewrite Er, lbind_some. destruct Hr as [au' w1' w2' Ek Hau' | h au' w1' w2' Hlt Hh Hau' Hst'].
  - rewrite run_lret, run_some. do 4 eexists. split.
    + replace fuel with O by lia. cbn [zr flat_map]. rewrite app_nil_r, map_app. reflexivity.
    + replace (2 ^ Z.of_nat H) with (k + 1) by lia. auto.
  - rewrite wr_chunk.
    + cbn [bind]. destruct (IH (k + 1) au' (upd h (nd h (k / 2 ^ Z.of_nat h)) st) w1' w2' g1)
        as (au2 & v1 & v2 & g2 & E2 & H2); auto; try lia.
      rewrite E2, !run_some. exists au2, v1, v2, g2. split; [|exact H2].
      rewrite !map_app, <- !app_assoc. reflexivity.
    + apply Hst.
    + destruct Hst as (_ & -> & _). exact Hh.
    + apply Node_len. lia.
Qed.

Theorem treehashx1_okL leaf_idx au0 w1 w2 g :
  0 <= leaf_idx -> chunks_of N au0 -> length au0 = H -> Ginv 0 g ->
  exists au' w1' w2' g',
    treehashx1L P HS junk c gen_leaf leaf_idx off H (concat au0) (enc L (A w1 w2)) g
    = Some ((nd H 0, concat au', enc L (A w1' w2'), g'), map E (tree_calls leaf hash2 lc na H 0))
    /\ Auth_inv leaf_idx (2 ^ Z.of_nat H) au0 au' /\ Ginv (2 ^ Z.of_nat H) g'.
Proof.
  intros Hl Hc0 Hl0 Hg. unfold treehashx1L.
  destruct (ex_chunks N H (junk_bytes (junk 4%nat) (H * N))) as (st & S1 & S2 & S3).
  { apply junk_length. }
  rewrite <- S3, <- post_order_root. apply treehashx1_loop_okL; auto.
  - pose proof (pow2_pos H). lia.
  - rewrite Nat2Z.inj_pow. lia.
  - split; [auto|split; [auto|]]. intros h _. rewrite Zdiv_0_l. discriminate.
  - split; [auto|split; [auto|]]. intros h Hh. unfold done.
    replace ((sib leaf_idx h + 1) * 2 ^ Z.of_nat h <=? 0) with false; auto.
    symmetry. apply Z.leb_gt. pose proof (pow2_pos h).
    assert (0 <= sib leaf_idx h); [|nia]. unfold sib. apply Z.lxor_nonneg.
    split; intros; [lia|]. apply Z.div_pos; lia.
Qed.
End Loop.
End Trees.
