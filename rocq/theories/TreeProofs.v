(** compute_root and treehashx1 compute the specification's climb, node and auth_path. *)
From Verif Require Import Base BaseFacts Params Address Suite Utils Spec SpecFacts AdrsEnc
  AddressProofs Refine.

Lemma div_pow2_S x k : x / 2 / 2 ^ Z.of_nat k = x / 2 ^ Z.of_nat (S k).
Proof.
  rewrite Z.div_div by (try apply Z.pow_pos_nonneg; lia).
  rewrite Nat2Z.inj_succ, Z.pow_succ_r by lia. reflexivity.
Qed.

Lemma div_pow2_S' x k : x / 2 ^ Z.of_nat k / 2 = x / 2 ^ Z.of_nat (S k).
Proof.
  rewrite Z.div_div by (try apply Z.pow_nonzero; lia).
  rewrite Nat2Z.inj_succ, Z.pow_succ_r, Z.mul_comm by lia. reflexivity.
Qed.

Lemma shiftr1 x : Z.shiftr x 1 = x / 2.
Proof. rewrite Z.shiftr_div_pow2 by lia. reflexivity. Qed.

Lemma div2_even j : Z.even j = true -> 2 * (j / 2) = j.
Proof.
  intros E. apply Z.even_spec in E. destruct E as [q ->].
  rewrite (Z.mul_comm 2 q), Z.div_mul by lia. lia.
Qed.
Lemma div2_odd j : Z.odd j = true -> 2 * (j / 2) + 1 = j.
Proof.
  intros E. apply Z.odd_spec in E. destruct E as [q ->].
  rewrite (Z.mul_comm 2 q), Z.div_add_l by lia. rewrite (Z.div_small 1) by lia. lia.
Qed.

Lemma pow2_pos k : 0 < 2 ^ Z.of_nat k.
Proof. apply Z.pow_pos_nonneg; lia. Qed.

Lemma pow2_S k : 2 ^ Z.of_nat (S k) = 2 * 2 ^ Z.of_nat k.
Proof. rewrite Nat2Z.inj_succ, Z.pow_succ_r by lia. reflexivity. Qed.

Section Calls.
Variable P : params.
Variable HS : suite.
Variable c : ctx (hs_st HS).
Notation N := (p_n P).
Notation L := (hs_layout HS).
Hypothesis Hn : (1 <= N)%nat.
Hypothesis Hok : suite_ok P HS.
Hypothesis Hc : ctx_ok P HS c.
Notation T := (codeT P HS c).

Lemma thash_enc k x a : length x = (k * N)%nat -> thash P HS c k x (enc L a) = Some (T a x).
Proof.
  intros H. unfold thash. rewrite enc_length, H, !Nat.eqb_refl. cbn [guard bind].
  unfold codeT. rewrite H, Nat.div_mul by lia.
  destruct (ok_thash P HS Hok c k x (enc L a) Hc H (enc_length L a)) as (d & -> & _). reflexivity.
Qed.

Lemma codeT_len k x a : length x = (k * N)%nat -> length (T a x) = N.
Proof.
  intros H. unfold codeT. rewrite H, Nat.div_mul by lia.
  destruct (ok_thash P HS Hok c k x (enc L a) Hc H (enc_length L a)) as (d & -> & E). exact E.
Qed.

Lemma codeT_bytes x a : all_bytes (T a x).
Proof.
  unfold codeT. destruct (hs_thash HS c _ x _) eqn:E; cbn; [|constructor].
  apply (ok_thash_bytes P HS Hok) in E. exact E.
Qed.

Lemma enc_u32 (l : layout) (a : adrs) v : enc l (with_w2 a (u32 v)) = enc l (with_w2 a v).
Proof. unfold enc, with_w2, u32; cbn [a_w2]. now rewrite <- be4_mod. Qed.

Lemma codeT_u32 a v x : T (with_w2 a (u32 v)) x = T (with_w2 a v) x.
Proof. unfold codeT. now rewrite enc_u32. Qed.

Lemma prf_enc a : prf_addr HS c (enc L a) = Some (codePRF HS c a).
Proof.
  unfold prf_addr, codePRF. rewrite enc_length. cbn [guard bind Nat.eqb].
  destruct (ok_prf P HS Hok c (enc L a) Hc (enc_length L a)) as (d & -> & E). reflexivity.
Qed.

Lemma codePRF_len a : length (codePRF HS c a) = N.
Proof.
  unfold codePRF.
  destruct (ok_prf P HS Hok c (enc L a) Hc (enc_length L a)) as (d & -> & E). exact E.
Qed.
End Calls.

Section Trees.
Variable P : params.
Variable HS : suite.
Variable c : ctx (hs_st HS).
Variable junk : nat -> nat -> Z.
Notation N := (p_n P).
Notation L := (hs_layout HS).
Hypothesis Hn : (1 <= N)%nat.
Hypothesis Hok : suite_ok P HS.
Hypothesis Hc : ctx_ok P HS c.
Notation T := (codeT P HS c).

(** The address of the tree: height and index are overwritten by the code. *)
Variables t_layer t_tree t_type t_kp : Z.
Notation A := (fun w1 w2 => mkAdrs t_layer t_tree t_type t_kp w1 w2).
Variable H : nat.
Variable off : Z.
Variable hash2 : nat -> Z -> bytes -> bytes.
(** How node addresses are formed: index plus the shifted offset. *)
Hypothesis Hhash2 : forall h i x, (1 <= h <= H)%nat ->
  T (A (Z.of_nat h) (i + off / 2 ^ Z.of_nat h)) x = hash2 h i x.

Lemma hash2_len h i x : (1 <= h <= H)%nat -> length x = (2 * N)%nat -> length (hash2 h i x) = N.
Proof. clear junk.
  intros Hh Hx. rewrite <- Hhash2 by auto. apply (codeT_len P HS c Hn Hok Hc 2); auto.
Qed.

(** The address update and hash of one internal node. *)
Lemma node_step w1 w2 h i o x :
  (1 <= h <= H)%nat -> o = off / 2 ^ Z.of_nat h -> length x = (2 * N)%nat ->
  (addr <- set_tree_height L (enc L (A w1 w2)) (Z.of_nat h) ;;
   addr <- set_tree_index L addr (u32 (i + o)) ;;
   d <- thash P HS c 2 x addr ;; Some (d, addr))
  = Some (hash2 h i x, enc L (A (Z.of_nat h) (i + o))).
Proof. clear junk.
  intros Hh -> Hx. rewrite set_height_enc. cbn [bind]. rewrite set_index_enc. cbn [bind].
  rewrite enc_u32. rewrite (thash_enc P HS c Hn Hok Hc 2) by auto. cbn [bind].
  unfold with_w2, with_w1; cbn [a_layer a_tree a_type a_kp a_w1 a_w2]. now rewrite Hhash2.
Qed.

(** ** compute_root *)
Definition pair_buf (i : Z) (x s : bytes) : bytes := if Z.odd i then s ++ x else x ++ s.

Lemma pair_buf_len i x s : length x = N -> length s = N -> length (pair_buf i x s) = (2 * N)%nat.
Proof. clear. intros. unfold pair_buf. destruct (Z.odd i); rewrite app_length; lia. Qed.

Lemma climb_cons h i x s p :
  climb hash2 h i x (s :: p) = climb hash2 (S h) (i / 2) (hash2 (S h) (i / 2) (pair_buf i x s)) p.
Proof. clear. cbn [climb]. unfold pair_buf. rewrite <- Z.negb_even. destruct (Z.even i); reflexivity. Qed.

Lemma climb_len p h i x :
  chunks_of N p -> (h + length p <= H)%nat -> length x = N ->
  length (Spec.climb hash2 h i x p) = N.
Proof. clear junk.
  intros Hp. revert h i x. induction Hp as [|s p Hs Hp IH]; intros h i x Hh Hx; cbn [climb]; auto.
  cbn [length] in Hh. apply IH; [lia|]. apply hash2_len; [lia|].
  destruct (Z.even i); rewrite app_length; lia.
Qed.

Lemma compute_root_loop_ok rest pre i li x s w1 w2 o :
  length x = N -> length s = N -> chunks_of N (pre ++ rest) ->
  (i + length rest < H)%nat -> o = off / 2 ^ Z.of_nat i ->
  exists li' o' x' s' w1' w2',
    compute_root_loop P HS c (length rest) i li o (concat (pre ++ rest)) (length pre * N)
      (pair_buf li x s) (enc L (A w1 w2))
    = Some (li', o', pair_buf li' x' s', enc L (A w1' w2'))
    /\ length x' = N /\ length s' = N
    /\ o' = off / 2 ^ Z.of_nat (i + length rest)
    /\ climb hash2 i li x (s :: rest) = climb hash2 (i + length rest) li' x' [s'].
Proof. clear junk.
  revert pre i li x s w1 w2 o. induction rest as [|r rest IH];
    intros pre i li x s w1 w2 o Hx Hs Hch Hi ->; cbn [length compute_root_loop].
  - exists li, (off / 2 ^ Z.of_nat i), x, s, w1, w2. rewrite Nat.add_0_r. repeat split; auto.
  - rewrite !shiftr1.
    pose proof (pair_buf_len li x s Hx Hs) as Hb.
    rewrite set_height_enc. cbn [bind]. rewrite set_index_enc. cbn [bind].
    rewrite rd_all by auto. cbn [bind]. rewrite enc_u32.
    rewrite (thash_enc P HS c Hn Hok Hc 2) by auto. cbn [bind].
    unfold with_w2, with_w1; cbn [a_layer a_tree a_type a_kp a_w1 a_w2].
    replace (Z.of_nat i + 1) with (Z.of_nat (S i)) by lia.
    rewrite div_pow2_S'.
    rewrite Hhash2 by (cbn [length] in Hi; lia).
    set (y := hash2 (S i) (li / 2) (pair_buf li x s)).
    assert (Hy : length y = N). { apply hash2_len; auto. cbn [length] in Hi; lia. }
    rewrite (rd_chunk N _ (length pre) r Hch)
      by (rewrite nth_error_app2, Nat.sub_diag by lia; reflexivity).
    assert (Hr : length r = N).
    { apply chunks_app in Hch. destruct Hch as [_ Hch]. now inversion Hch. }
    cbn [bind].
    assert (Hwr : (if Z.odd (li / 2)
                   then b <- wr (pair_buf li x s) N y ;; wr b 0 r
                   else b <- wr (pair_buf li x s) 0 y ;; wr b N r) = Some (pair_buf (li / 2) y r)).
    { unfold pair_buf at 3.
      assert (exists p q, pair_buf li x s = p ++ q /\ length p = N /\ length q = N)
        as (p & q & E & Hp & Hq).
      { unfold pair_buf. destruct (Z.odd li); eauto. }
      rewrite E. destruct (Z.odd (li / 2)).
      - rewrite wr_app_r by congruence. cbn [bind]. apply wr_app0. congruence.
      - rewrite wr_app0 by congruence. cbn [bind]. apply wr_app_r; congruence. }
    rewrite Hwr. cbn [bind].
    destruct (IH (pre ++ [r]) (S i) (li / 2) y r (Z.of_nat (S i)) (li / 2 + off / 2 ^ Z.of_nat (S i))
                (off / 2 ^ Z.of_nat (S i)))
      as (li' & o' & x' & s' & w1' & w2' & E & Hx' & Hs' & Ho' & Ec); auto.
    { rewrite <- app_assoc. exact Hch. }
    { cbn [length] in Hi. lia. }
    rewrite <- app_assoc in E. cbn [app] in E.
    replace (length (pre ++ [r]) * N)%nat with (length pre * N + N)%nat in E
      by (rewrite app_length; cbn; lia).
    exists li', o', x', s', w1', w2'.
    replace (i + S (length rest))%nat with (S i + length rest)%nat by lia.
    repeat split; auto.
    rewrite climb_cons. exact Ec.
Qed.

Lemma compute_root_ok path i leaf w1 w2 :
  length leaf = N -> chunks_of N path -> length path = H -> (1 <= H)%nat ->
  exists w1' w2',
    compute_root P HS c junk leaf i off (concat path) H (enc L (A w1 w2))
    = Some (climb hash2 0 i leaf path, enc L (A w1' w2')).
Proof.
  intros Hl Hch Hlen HH. unfold compute_root.
  replace (1 <=? H)%nat with true by (symmetry; now apply Nat.leb_le). cbn [guard bind].
  rewrite rd_all by auto. cbn [bind].
  destruct path as [|s rest]; [cbn in Hlen; lia|].
  assert (Hs : length s = N) by now inversion Hch.
  cbn [concat]. rewrite rd_app0 by auto. cbn [bind].
  pose proof (junk_length (junk 1%nat) (2 * N)) as Hj.
  assert (exists p q, junk_bytes (junk 1%nat) (2 * N) = p ++ q /\ length p = N /\ length q = N)
    as (p & q & Ej & Hp & Hq).
  { destruct (split_at (junk_bytes (junk 1%nat) (2 * N)) N N) as (p & q & r & E & E1 & E2 & _);
      [lia|]. exists p, q. rewrite E in Hj |- *. rewrite !app_length in Hj.
    destruct r; [|cbn in Hj; lia]. now rewrite app_nil_r. }
  rewrite Ej.
  assert (Hwr : (if Z.odd i then b <- wr (p ++ q) N leaf ;; wr b 0 s
                 else b <- wr (p ++ q) 0 leaf ;; wr b N s) = Some (pair_buf i leaf s)).
  { unfold pair_buf. destruct (Z.odd i).
    - rewrite wr_app_r by congruence. cbn [bind]. apply wr_app0; congruence.
    - rewrite wr_app0 by congruence. cbn [bind]. apply wr_app_r; congruence. }
  rewrite Hwr. cbn [bind].
  destruct (compute_root_loop_ok rest [s] 0 i leaf s w1 w2 off)
    as (li' & o' & x' & s' & w1' & w2' & E & Hx' & Hs' & Ho' & Ec); auto.
  { cbn [length] in Hlen. cbn. lia. }
  { now rewrite Z.div_1_r. }
  cbn [app concat length] in E. rewrite Nat.mul_1_l in E.
  cbn [length] in Hlen. replace (H - 1)%nat with (length rest) by lia.
  rewrite E. cbn [bind]. rewrite !shiftr1.
  rewrite set_height_enc. cbn [bind]. rewrite set_index_enc. cbn [bind].
  rewrite rd_all by (now rewrite pair_buf_len). cbn [bind]. rewrite enc_u32.
  rewrite (thash_enc P HS c Hn Hok Hc 2) by (now apply pair_buf_len). cbn [bind].
  unfold with_w2, with_w1; cbn [a_layer a_tree a_type a_kp a_w1 a_w2].
  rewrite Ho', div_pow2_S'. cbn [Nat.add] in *.
  replace (S (length rest)) with H by lia.
  rewrite Hhash2 by lia.
  do 2 eexists. f_equal. f_equal. rewrite Ec, climb_cons. cbn [climb].
  now replace (S (length rest)) with H by lia.
Qed.

(** ** treehashx1 *)
Variable leaf : Z -> bytes.
Hypothesis Hleaf : forall i, length (leaf i) = N.
Notation nd := (node leaf hash2).

Lemma node_len h i : (h <= H)%nat -> length (nd h i) = N.
Proof. clear junk.
  revert i; induction h as [|h IH]; intros i Hh; cbn [node]; [apply Hleaf|].
  apply hash2_len; [lia|]. rewrite app_length, !IH by lia. lia.
Qed.

(** Sibling index as the code computes it. *)
Definition sib (leaf_idx : Z) (h : nat) : Z := Z.lxor (leaf_idx / 2 ^ Z.of_nat h) 1.

(** Node [j] at height [h] is complete once leaves 0 .. k-1 have been processed. *)
Definition done (h : nat) (j k : Z) : bool := (j + 1) * 2 ^ Z.of_nat h <=? k.

(** The authentication path after k leaves, starting from [au0]. *)
Definition auth_inv (leaf_idx k : Z) (au0 au : list bytes) : Prop :=
  chunks_of N au /\ length au = H /\
  forall h, (h < H)%nat ->
    nth_error au h = if done h (sib leaf_idx h) k then Some (nd h (sib leaf_idx h))
                     else nth_error au0 h.

Definition stack_inv (k : Z) (st : list bytes) : Prop :=
  chunks_of N st /\ length st = H /\
  forall h, (h < H)%nat -> Z.odd (k / 2 ^ Z.of_nat h) = true ->
    nth_error st h = Some (nd h (k / 2 ^ Z.of_nat h - 1)).

(** During the climb of leaf k, at height h: lower heights are up to date for k+1. *)
Definition auth_mid (leaf_idx k : Z) (h : nat) (au0 au : list bytes) : Prop :=
  chunks_of N au /\ length au = H /\
  forall h', (h' < H)%nat ->
    nth_error au h' = if done h' (sib leaf_idx h') (if (h' <? h)%nat then k + 1 else k)
                      then Some (nd h' (sib leaf_idx h')) else nth_error au0 h'.

Lemma lxor_1_eq j s : 0 <= j -> 0 <= s -> (Z.lxor j s =? 1) = (j =? Z.lxor s 1).
Proof. clear.
  intros. apply Bool.eq_true_iff_eq. rewrite !Z.eqb_eq. split; intros E.
  - rewrite <- E. rewrite (Z.lxor_comm j s), <- Z.lxor_assoc, Z.lxor_nilpotent. now rewrite Z.lxor_0_l.
  - subst. rewrite (Z.lxor_comm s 1), Z.lxor_assoc, Z.lxor_nilpotent. now rewrite Z.lxor_0_r.
Qed.

Lemma done_step h j s k :
  (s + 1) * 2 ^ Z.of_nat h = k + 1 -> (j <> s -> done h j (k + 1) = done h j k)
  /\ done h s (k + 1) = true.
Proof. clear.
  intros E. unfold done. pose proof (pow2_pos h) as Hp. split.
  - intros Hj. apply Bool.eq_true_iff_eq. rewrite !Z.leb_le.
    assert ((j + 1) * 2 ^ Z.of_nat h <> k + 1) by (rewrite <- E; intros E'; apply Hj; nia). lia.
  - apply Z.leb_le. lia.
Qed.

Inductive climb_res (leaf_idx k : Z) (au0 st : list bytes) : climb_out -> Prop :=
| CRoot au w1 w2 :
    k = 2 ^ Z.of_nat H - 1 -> auth_inv leaf_idx (k + 1) au0 au ->
    climb_res leaf_idx k au0 st (Root (nd H 0) (concat au) (enc L (A w1 w2)))
| CLeft h au w1 w2 :
    k < 2 ^ Z.of_nat H - 1 -> (h < H)%nat -> auth_inv leaf_idx (k + 1) au0 au ->
    stack_inv (k + 1) (upd h (nd h (k / 2 ^ Z.of_nat h)) st) ->
    climb_res leaf_idx k au0 st
      (Left h (nd h (k / 2 ^ Z.of_nat h)) (concat au) (enc L (A w1 w2))).

Lemma auth_mid_full leaf_idx k h au0 au :
  auth_mid leaf_idx k h au0 au ->
  (forall h', (h <= h' < H)%nat -> done h' (sib leaf_idx h') (k + 1) = done h' (sib leaf_idx h') k) ->
  auth_inv leaf_idx (k + 1) au0 au.
Proof. clear.
  intros (A1 & A2 & A3) Hd. split; [auto|split; [auto|]].
  intros h' Hh'. rewrite A3 by auto.
  destruct (Nat.ltb_spec h' h); auto. rewrite <- Hd by lia. reflexivity.
Qed.

(** k + 1 = (j+1) 2^h with j = k / 2^h. *)
Lemma succ_j k h : k mod 2 ^ Z.of_nat h = 2 ^ Z.of_nat h - 1 ->
  (k / 2 ^ Z.of_nat h + 1) * 2 ^ Z.of_nat h = k + 1.
Proof. clear.
  intros E. pose proof (pow2_pos h). pose proof (Z.div_mod k (2 ^ Z.of_nat h)). lia.
Qed.

(** Climbing from height h: all lower bits of k are set. *)
Lemma climb_ok todo h k leaf_idx au0 au st w1 w2 :
  (h + todo = H)%nat -> 0 <= k < 2 ^ Z.of_nat H -> 0 <= leaf_idx ->
  k mod 2 ^ Z.of_nat h = 2 ^ Z.of_nat h - 1 ->
  stack_inv k st -> auth_mid leaf_idx k h au0 au ->
  exists r,
    treehashx1_climb P HS c todo h (k / 2 ^ Z.of_nat h) (leaf_idx / 2 ^ Z.of_nat h)
      (off / 2 ^ Z.of_nat h) k (2 ^ Z.of_nat H - 1) (nd h (k / 2 ^ Z.of_nat h))
      (concat st) (concat au) (enc L (A w1 w2)) = Some r
    /\ climb_res leaf_idx k au0 st r.
Proof. clear junk.
  revert h au w1 w2.
  induction todo as [|todo IH]; intros h au w1 w2 Hh Hk Hl Hlow Hst Hau; cbn [treehashx1_climb].
  - assert (h = H) as -> by lia.
    eexists. split; [reflexivity|].
    assert (Ek : k = 2 ^ Z.of_nat H - 1) by (rewrite Z.mod_small in Hlow; lia).
    rewrite Z.div_small by lia. constructor; auto.
    apply auth_mid_full with H; auto. intros; lia.
  - set (j := k / 2 ^ Z.of_nat h) in *.
    pose proof (pow2_pos h) as Hp.
    assert (Hj : 0 <= j) by (apply Z.div_pos; lia).
    assert (Hs : 0 <= leaf_idx / 2 ^ Z.of_nat h) by (apply Z.div_pos; lia).
    rewrite lxor_1_eq by auto. fold (sib leaf_idx h).
    destruct Hau as (A1 & A2 & A3).
    pose proof (succ_j k h Hlow) as Hsucc. fold j in Hsucc.
    (* the possible write to the authentication path *)
    assert (exists au', (if j =? sib leaf_idx h then wr (concat au) (h * N) (nd h j)
                         else Some (concat au)) = Some (concat au')
              /\ auth_mid leaf_idx k (S h) au0 au') as (au' & Ew & Hau').
    { destruct (done_step h (sib leaf_idx h) j k Hsucc) as [D1 D2].
      destruct (Z.eqb_spec j (sib leaf_idx h)) as [E|E].
      - exists (upd h (nd h j) au). split.
        + apply wr_chunk; auto; [lia|]. apply node_len; lia.
        + split; [|split].
          * apply chunks_upd; auto. apply node_len; lia.
          * now rewrite upd_length.
          * intros h' Hh'. destruct (Nat.eq_dec h' h) as [->|Hne].
            -- rewrite nth_error_upd_same by lia.
               replace (h <? S h)%nat with true by (symmetry; apply Nat.ltb_lt; lia).
               now rewrite <- E, D2.
            -- rewrite nth_error_upd_other by auto. rewrite A3 by auto.
               destruct (Nat.ltb_spec h' h), (Nat.ltb_spec h' (S h)); auto; lia.
      - exists au. split; [reflexivity|]. split; [auto|split; [auto|]].
        intros h' Hh'. rewrite A3 by auto.
        destruct (Nat.eq_dec h' h) as [->|Hne].
        + rewrite Nat.ltb_irrefl.
          replace (h <? S h)%nat with true by (symmetry; apply Nat.ltb_lt; lia).
          rewrite D1 by congruence. reflexivity.
        + destruct (Nat.ltb_spec h' h), (Nat.ltb_spec h' (S h)); auto; lia. }
    rewrite Ew. cbn [bind].
    assert (HpS : 2 ^ Z.of_nat (S h) = 2 * 2 ^ Z.of_nat h) by apply pow2_S.
    assert (Hland : (Z.land j 1 =? 0) = Z.even j).
    { change 1 with (Z.ones 1) at 1. rewrite Z.land_ones by lia. change (2 ^ 1) with 2.
      rewrite Zeven_mod. unfold Zeq_bool, Z.eqb. now destruct (j mod 2). }
    rewrite Hland.
    assert (Hmax : k < 2 ^ Z.of_nat H - 1 \/ k = 2 ^ Z.of_nat H - 1) by lia.
    destruct (Z.even j) eqn:Ej; cbn [andb].
    + (* left child *)
      assert (k < 2 ^ Z.of_nat H - 1) as Hlt.
      { destruct Hmax as [|Hmax]; auto. exfalso.
        assert ((j + 1) * 2 ^ Z.of_nat h = 2 ^ Z.of_nat todo * 2 * 2 ^ Z.of_nat h) as E.
        { rewrite Hsucc, Hmax. rewrite <- (Z.pow_1_r 2) at 3. rewrite <- !Z.pow_add_r by lia.
          replace (Z.of_nat todo + 1 + Z.of_nat h) with (Z.of_nat H) by lia. lia. }
        apply Z.mul_reg_r in E; [|lia]. apply Z.even_spec in Ej. destruct Ej as [q Eq]. lia. }
      replace (k <? 2 ^ Z.of_nat H - 1) with true by (symmetry; now apply Z.ltb_lt).
      eexists. split; [reflexivity|]. constructor; auto; [lia| |].
      * apply auth_mid_full with (S h); auto. intros h' Hh'.
        unfold done. apply Bool.eq_true_iff_eq. rewrite !Z.leb_le.
        assert ((sib leaf_idx h' + 1) * 2 ^ Z.of_nat h' <> k + 1); [|lia].
        rewrite <- Hsucc. intros E.
        assert (Eh : 2 ^ Z.of_nat h' = 2 ^ Z.of_nat (h' - S h) * 2 * 2 ^ Z.of_nat h).
        { rewrite <- (Z.pow_1_r 2) at 3. rewrite <- !Z.pow_add_r by lia. f_equal. lia. }
        rewrite Eh, Z.mul_assoc in E. apply Z.mul_reg_r in E; [|lia].
        apply Z.even_spec in Ej. destruct Ej as [q Eq]. lia.
      * (* stack *)
        destruct Hst as (S1 & S2 & S3). split; [|split].
        -- apply chunks_upd; auto. apply node_len; lia.
        -- now rewrite upd_length.
        -- intros h' Hh' Hodd. destruct (lt_eq_lt_dec h' h) as [[Hlt2|Heq]|Hgt].
           ++ (* lower bits of k+1 are zero *)
              exfalso. rewrite <- Hsucc in Hodd.
              assert (Eh : 2 ^ Z.of_nat h = 2 ^ Z.of_nat (h - S h') * 2 * 2 ^ Z.of_nat h').
              { rewrite <- (Z.pow_1_r 2) at 3. rewrite <- !Z.pow_add_r by lia. f_equal. lia. }
              rewrite Eh, Z.mul_assoc, Z.div_mul in Hodd by (pose proof (pow2_pos h'); lia).
              rewrite (Z.mul_assoc), Z.mul_comm, Z.odd_mul in Hodd. discriminate.
           ++ subst h'. rewrite nth_error_upd_same by lia. rewrite <- Hsucc, Z.div_mul by lia.
              do 2 f_equal. lia.
           ++ rewrite nth_error_upd_other by lia.
              assert (Eq : (k + 1) / 2 ^ Z.of_nat h' = k / 2 ^ Z.of_nat h').
              { assert (Eh : 2 ^ Z.of_nat h' = 2 ^ Z.of_nat h * (2 * 2 ^ Z.of_nat (h' - S h))).
                { rewrite <- (Z.pow_1_r 2) at 3. rewrite <- !Z.pow_add_r by lia. f_equal. lia. }
                rewrite Eh, <- !Z.div_div by (pose proof (pow2_pos (h' - S h)); lia).
                fold j. rewrite <- Hsucc, Z.div_mul by lia.
                replace ((j + 1) / 2) with (j / 2); [reflexivity|].
                apply Z.even_spec in Ej. destruct Ej as [q ->].
                rewrite (Z.mul_comm 2 q), Z.div_mul, Z.div_add_l by lia.
                rewrite (Z.div_small 1) by lia. lia. }
              rewrite Eq in *. apply S3; auto.
    + (* right child *)
      assert (Hodd : Z.odd j = true) by (rewrite <- Z.negb_even, Ej; reflexivity).
      rewrite shiftr1, div_pow2_S'.
      replace (Z.of_nat h + 1) with (Z.of_nat (S h)) by lia.
      rewrite set_height_enc. cbn [bind]. rewrite set_index_enc. cbn [bind]. rewrite enc_u32.
      destruct Hst as (S1 & S2 & S3).
      rewrite (rd_chunk N st h (nd h (j - 1)) S1) by (apply S3; auto; lia). cbn [bind].
      rewrite (thash_enc P HS c Hn Hok Hc 2) by (rewrite app_length, !node_len by lia; lia). cbn [bind].
      unfold with_w2, with_w1; cbn [a_layer a_tree a_type a_kp a_w1 a_w2].
      rewrite Hhash2 by lia.
      pose proof (div2_odd j Hodd) as Ej2.
      assert (Enode : hash2 (S h) (j / 2) (nd h (j - 1) ++ nd h j) = nd (S h) (k / 2 ^ Z.of_nat (S h))).
      { cbn [node]. rewrite <- div_pow2_S'. fold j. f_equal. f_equal; f_equal; lia. }
      rewrite Enode, !shiftr1. unfold j. rewrite !div_pow2_S'.
      apply IH; auto; [lia| |].
      * rewrite HpS. rewrite (Z.mul_comm 2), Z.rem_mul_r by lia. fold j. rewrite Hlow.
        rewrite Zmod_odd, Hodd. lia.
      * split; auto.
Qed.

Section Loop.
Context {G : Type}.
Variable gen_leaf : G -> Z -> option (bytes * G).
Variable Ginv : Z -> G -> Prop.
Hypothesis Hgen : forall k g, 0 <= k < 2 ^ Z.of_nat H -> Ginv k g ->
  exists g', gen_leaf g (u32 (k + off)) = Some (leaf k, g') /\ Ginv (k + 1) g'.

Lemma treehashx1_loop_ok fuel k leaf_idx au0 au st w1 w2 g :
  0 <= k < 2 ^ Z.of_nat H -> Z.of_nat fuel = 2 ^ Z.of_nat H - k -> 0 <= leaf_idx ->
  stack_inv k st -> auth_inv leaf_idx k au0 au -> Ginv k g ->
  exists au' w1' w2' g',
    treehashx1_loop P HS c gen_leaf leaf_idx off fuel H k (2 ^ Z.of_nat H - 1)
      (concat st) (concat au) (enc L (A w1 w2)) g
    = Some (nd H 0, concat au', enc L (A w1' w2'), g')
    /\ auth_inv leaf_idx (2 ^ Z.of_nat H) au0 au' /\ Ginv (2 ^ Z.of_nat H) g'.
Proof.
  revert k au st w1 w2 g. induction fuel as [|fuel IH];
    intros k au st w1 w2 g Hk Hf Hl Hst Hau Hg; [lia|]. cbn [treehashx1_loop].
  destruct (Hgen k g Hk Hg) as (g1 & Eg & Hg1). rewrite Eg. cbn [bind].
  rewrite rd_all by (now rewrite Hleaf). cbn [bind].
  destruct (climb_ok H 0 k leaf_idx au0 au st w1 w2) as (r & Er & Hr); auto.
  { cbn. apply Z.mod_1_r. }
  cbn [Z.of_nat node] in Er. change (2 ^ 0) with 1 in Er. rewrite !Z.div_1_r in Er.
  rewrite Er. cbn [bind]. destruct Hr as [au' w1' w2' Ek Hau' | h au' w1' w2' Hlt Hh Hau' Hst'].
  - do 4 eexists. split; [reflexivity|]. replace (2 ^ Z.of_nat H) with (k + 1) by lia. auto.
  - rewrite wr_chunk.
    + cbn [bind]. apply IH; auto; lia.
    + apply Hst.
    + destruct Hst as (_ & -> & _). exact Hh.
    + apply node_len. lia.
Qed.

Theorem treehashx1_ok leaf_idx au0 w1 w2 g :
  0 <= leaf_idx -> chunks_of N au0 -> length au0 = H -> Ginv 0 g ->
  exists au' w1' w2' g',
    treehashx1 P HS c junk gen_leaf leaf_idx off H (concat au0) (enc L (A w1 w2)) g
    = Some (nd H 0, concat au', enc L (A w1' w2'), g')
    /\ auth_inv leaf_idx (2 ^ Z.of_nat H) au0 au' /\ Ginv (2 ^ Z.of_nat H) g'.
Proof.
  intros Hl Hc0 Hl0 Hg. unfold treehashx1.
  destruct (ex_chunks N H (junk_bytes (junk 4%nat) (H * N))) as (st & S1 & S2 & S3).
  { apply junk_length. }
  rewrite <- S3. apply treehashx1_loop_ok; auto.
  - pose proof (pow2_pos H). lia.
  - rewrite Nat2Z.inj_pow. lia.
  - split; [auto|split; [auto|]]. intros h _. rewrite Zdiv_0_l. discriminate.
  - split; [auto|split; [auto|]]. intros h Hh. unfold done.
    replace ((sib leaf_idx h + 1) * 2 ^ Z.of_nat h <=? 0) with false; auto.
    symmetry. apply Z.leb_gt. pose proof (pow2_pos h).
    assert (0 <= sib leaf_idx h); [|nia]. unfold sib. apply Z.lxor_nonneg.
    split; intros; [lia|]. apply Z.div_pos; lia.
Qed.
End Loop.

(** The code's sibling is the specification's. *)
Lemma lxor_1_even q : Z.lxor (2 * q) 1 = 2 * q + 1.
Proof. clear.
  apply Z.bits_inj'. intros n Hn0. rewrite Z.lxor_spec.
  destruct (Z.eq_dec n 0) as [->|].
  - rewrite Z.testbit_odd_0, Z.testbit_even_0. reflexivity.
  - replace (Z.testbit 1 n) with false by (symmetry; apply Z.bits_above_log2; cbn; lia).
    rewrite xorb_false_r. replace n with (Z.succ (n - 1)) by lia.
    now rewrite Z.testbit_odd_succ, Z.testbit_even_succ by lia.
Qed.

Lemma sib_sibling i h : 0 <= i -> sib i h = sibling i h.
Proof. clear.
  intros Hi. unfold sib, sibling. set (j := i / 2 ^ Z.of_nat h).
  destruct (Z.even j) eqn:E.
  - apply Z.even_spec in E. destruct E as [q ->]. apply lxor_1_even.
  - assert (O : Z.odd j = true) by (rewrite <- Z.negb_even, E; reflexivity).
    apply Z.odd_spec in O. destruct O as [q ->].
    replace (2 * q + 1 - 1) with (2 * q) by lia.
    rewrite <- lxor_1_even, Z.lxor_assoc, Z.lxor_nilpotent. apply Z.lxor_0_r.
Qed.

Lemma sib_small i h : 0 <= i < 2 ^ Z.of_nat H -> (h < H)%nat ->
  done h (sib i h) (2 ^ Z.of_nat H) = true.
Proof. clear.
  intros Hi Hh. unfold done. apply Z.leb_le. rewrite sib_sibling by lia. unfold sibling.
  set (j := i / 2 ^ Z.of_nat h). pose proof (pow2_pos h).
  assert (E : 2 ^ Z.of_nat H = 2 ^ Z.of_nat (H - S h) * 2 * 2 ^ Z.of_nat h).
  { rewrite <- (Z.pow_1_r 2) at 3. rewrite <- !Z.pow_add_r by lia. f_equal. lia. }
  assert (j < 2 ^ Z.of_nat (H - S h) * 2).
  { apply Z.div_lt_upper_bound; [lia|]. lia. }
  rewrite E. apply Z.mul_le_mono_nonneg_r; [lia|].
  destruct (Z.even j) eqn:Ej; [|lia]. apply Z.even_spec in Ej. destruct Ej as [q Eq]. lia.
Qed.

Lemma sib_big i h : (H <= 31)%nat -> i = 2 ^ 32 - 1 -> (h < H)%nat ->
  done h (sib i h) (2 ^ Z.of_nat H) = false.
Proof. clear.
  intros HH -> Hh. unfold done. apply Z.leb_gt. rewrite sib_sibling by lia. unfold sibling.
  set (j := (2 ^ 32 - 1) / 2 ^ Z.of_nat h). pose proof (pow2_pos h) as Hp.
  assert (E : 2 ^ 32 = 2 ^ Z.of_nat (32 - h) * 2 ^ Z.of_nat h).
  { rewrite <- Z.pow_add_r by lia. f_equal. lia. }
  assert (Hj : j = 2 ^ Z.of_nat (32 - h) - 1).
  { unfold j. rewrite E. symmetry. apply Z.div_unique with (2 ^ Z.of_nat h - 1); lia. }
  assert (E2 : 2 ^ Z.of_nat H = 2 ^ Z.of_nat (H - h) * 2 ^ Z.of_nat h).
  { rewrite <- Z.pow_add_r by lia. f_equal. lia. }
  rewrite E2. apply Z.mul_lt_mono_pos_r; [lia|].
  assert (2 ^ Z.of_nat (H - h) < 2 ^ Z.of_nat (32 - h) - 1).
  { assert (2 ^ Z.of_nat (32 - h) = 2 ^ Z.of_nat (32 - H) * 2 ^ Z.of_nat (H - h)) as ->.
    { rewrite <- Z.pow_add_r by lia. f_equal. lia. }
    assert (2 ^ 1 <= 2 ^ Z.of_nat (32 - H)) by (apply Z.pow_le_mono_r; lia).
    assert (2 ^ 1 <= 2 ^ Z.of_nat (H - h)) by (apply Z.pow_le_mono_r; lia). nia. }
  destruct (Z.even j); lia.
Qed.

Lemma auth_inv_full i au0 au :
  0 <= i < 2 ^ Z.of_nat H -> auth_inv i (2 ^ Z.of_nat H) au0 au ->
  au = auth_path leaf hash2 H i.
Proof. clear.
  intros Hi (A1 & A2 & A3). apply nth_error_ext'.
  - now rewrite auth_path_length.
  - rewrite A2. intros h Hh. rewrite A3 by auto. rewrite sib_small by auto.
    unfold auth_path. rewrite nth_error_map_seq by lia. cbn [Nat.add].
    now rewrite sib_sibling by lia.
Qed.

Lemma auth_inv_none au0 au :
  (H <= 31)%nat -> length au0 = H ->
  auth_inv (2 ^ 32 - 1) (2 ^ Z.of_nat H) au0 au -> au = au0.
Proof. clear.
  intros HH Hl (A1 & A2 & A3). apply nth_error_ext'; [congruence|].
  rewrite A2. intros h Hh. rewrite A3 by auto. now rewrite sib_big by auto.
Qed.
End Trees.
