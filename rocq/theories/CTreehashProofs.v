(** The typed treehash computes what the model of treehash computes. *)
From Verif Require Import Base BaseFacts Params Address Suite Utils CInt CCore CIntFacts CCoreProofs CCoreProofs2 CTreehash.
Local Open Scope Z_scope.

Lemma get_wr1 (l : list Z) i v l' j : wr l i [v] = Some l' -> get l' j = if (j =? i)%nat then Some v else get l j.
Proof.
  unfold wr, get. cbn [length]. destruct (Nat.leb_spec (i + 1) (length l)) as [H|]; intros E; inversion E; subst. clear E.
  assert (Lf : length (firstn i l) = i) by (rewrite firstn_length; lia).
  destruct (Nat.eqb_spec j i) as [->|Hj].
  - rewrite nth_error_app2 by lia. now rewrite Lf, Nat.sub_diag.
  - destruct (Nat.lt_ge_cases j i).
    + rewrite nth_error_app1 by lia. rewrite <- (firstn_skipn i l) at 2. rewrite nth_error_app1 by lia. reflexivity.
    + rewrite nth_error_app2 by lia. rewrite Lf. destruct (j - i)%nat as [|k] eqn:Ek; [lia|]. cbn [app nth_error].
      rewrite <- (firstn_skipn (i + 1) l) at 2. rewrite nth_error_app2; rewrite firstn_length; [|lia]. f_equal. lia.
Qed.

Section Treehash.
Variable P : params.
Variable HS : suite.
Hypothesis Hwf : wf_params P = true.
Notation N := (p_n P).
Notation L := (hs_layout HS).
Variable c : ctx (hs_st HS).
Variable junk : nat -> nat -> Z.
Variables gen_leaf_c gen_leaf : Z -> bytes -> option bytes.
Hypothesis Hgen : forall a ad, 0 <= a < 2 ^ 32 -> gen_leaf_c a ad = gen_leaf a ad.
Variables leaf_idx idx_offset : Z.
Variable th : nat.
Hypothesis Hleaf : 0 <= leaf_idx < 2 ^ 32.
Hypothesis Hoff : 0 <= idx_offset < 2 ^ 32.
Hypothesis Hth : (th <= 30)%nat.

Lemma ix_sub o k : (k <= o)%nat -> (o <= 100)%nat -> ix (V U32 (z o) - K (z k))%C = Some (o - k)%nat.
Proof. clear. intros H1 H2. cix (o - k)%nat; [reflexivity|cbn [opz]; lia]. Qed.
Lemma off_sub o k : (k <= o)%nat -> (o <= 100)%nat -> ix ((V U32 (z o) - K (z k)) * xN P)%C = Some ((o - k) * N)%nat.
Proof.
  clear - Hwf. intros H1 H2. pose proof (e_N P Hwf). pose proof (bnd_basic P Hwf) as Bd.
  assert (0 <= (z o - z k) * z N <= 25600) by nia. cix ((o - k) * N)%nat; [reflexivity|cbn [opz]; nia].
Qed.
Definition heights_ok (hs : list Z) (o : nat) : Prop :=
  length hs = S th /\ (o <= S th)%nat /\ forall i h, (i < o)%nat -> get hs i = Some h -> 0 <= h <= z th + 1.
Notation st := (bytes * list Z * nat * bytes * bytes)%type.
Definition up (r : st) : bytes * list Z * Z * bytes * bytes := let '(s, hs, o, au, ad) := r in (s, hs, z o, au, ad).

Lemma while_c_ok : forall fuel idx stack hs o auth addr, 0 <= idx < 2 ^ 32 -> (1 <= o)%nat -> (fuel <= S th)%nat -> heights_ok hs o ->
  get hs (o - 1) = Some (z (S th - fuel)) ->
  treehash_while_c P HS c leaf_idx idx_offset fuel idx stack hs (z o) auth addr
  = option_map up (treehash_while P HS c leaf_idx idx_offset fuel idx stack hs o auth addr)
  /\ forall s' hs' o' au' ad', treehash_while P HS c leaf_idx idx_offset fuel idx stack hs o auth addr = Some (s', hs', o', au', ad') ->
     (1 <= o')%nat /\ heights_ok hs' o'.
Proof.
  clear Hgen. pose proof (bnd_basic P Hwf) as Bd.
  assert (Two : forall o, (o <= 100)%nat -> cond (V U32 (z o) >= K 2)%C = Some (2 <=? o)%nat).
  { intros o Ho. rewrite (cond_is _ I32 (if 2 <=? z o then 1 else 0) (2 <=? o)%nat); [reflexivity|evc; reflexivity|].
    destruct (Nat.leb_spec 2 o); destruct (Z.leb_spec 2 (z o)); try reflexivity; lia. }
  induction fuel as [|fuel IH]; intros idx stack hs o auth addr Hi Ho Hf (Lh & Ol & Hh) Htop;
    cbn [treehash_while_c treehash_while]; rewrite Two by lia; cbn [bind].
  all: (destruct (Nat.leb_spec 2 o) as [O2|O2]; cbn [bind];
    [|split; [reflexivity|]; intros s' hs' o' au' ad' [= <- <- <- <- <-]; split; [lia|split; [|split]; assumption]]).
  all: change (K 1) with (K (z 1)); change (K 2) with (K (z 2)); rewrite !ix_sub by lia; cbn [bind]; rewrite Htop; cbn [bind].
  all: (destruct (get hs (o - 2)) as [h2|] eqn:E2; cbn [bind]; [|split; [reflexivity|discriminate]]).
  all: pose proof (Hh (o - 2)%nat h2 ltac:(lia) E2) as R2; pose proof (Hh (o - 1)%nat _ ltac:(lia) Htop) as R1.
  all: ceq; (match goal with |- context [Z.eqb ?x ?y] => destruct (Z.eqb_spec x y) as [<-|Hne] end;
    [|split; [reflexivity|]; intros s' hs' o' au' ad' [= <- <- <- <- <-]; split; [lia|split; [|split]; assumption]]).
  - split; [reflexivity|discriminate].
  - remember (S th - S fuel)%nat as h eqn:Eh.
    change (K (z 1)) with (K 1).
    assert (Rt : 0 <= Z.shiftr idx (z h + 1) < 2 ^ 32) by (apply shiftr_range; lia).
    assert (Ro : 0 <= Z.shiftr idx_offset (z h + 1) < 2 ^ 32) by (apply shiftr_range; lia).
    casg (Z.shiftr idx (z h + 1)); [|reflexivity|rg].
    rewrite (set_tree_height_c_ok L addr _ (z h + 1)) by (apply arg_succ; lia).
    destruct (set_tree_height L addr (z h + 1)) as [ad1|]; cbn [bind]; [|split; [reflexivity|discriminate]].
    rewrite (set_tree_index_c_ok L ad1 _ (u32 (Z.shiftr idx (z h + 1) + Z.shiftr idx_offset (z h + 1)))).
    2:{ apply (arg32_ev _ U32); [|apply u32_range].
        apply (ev_bin_mod OAdd _ _ U32 U32 (Z.shiftr idx (z h + 1)) (Z.shiftr idx_offset (z h + 1))); try reflexivity; try discriminate;
          [evc; reflexivity|evc; reflexivity|rg|rg]. }
    destruct (set_tree_index L ad1 _) as [ad2|]; cbn [bind]; [|split; [reflexivity|discriminate]].
    rewrite off_sub by lia. cbn [bind].
    destruct (rd stack ((o - 2) * N) (2 * N)) as [inp|]; cbn [bind]; [|split; [reflexivity|discriminate]].
    destruct (thash P HS c 2 inp ad2) as [d|]; cbn [bind]; [|split; [reflexivity|discriminate]].
    destruct (wr stack ((o - 2) * N) d) as [stack'|]; cbn [bind]; [|split; [reflexivity|discriminate]].
    casg (z (o - 1)); [|cbn [opz]; lia|rg].
    change (K 1) with (K (z 1)). rewrite !ix_sub by lia. cbn [bind]. replace (o - 1 - 1)%nat with (o - 2)%nat by lia. rewrite E2. cbn [bind].
    change (K (z 1)) with (K 1). casg (z h + 1); [|reflexivity|rg].
    destruct (wr hs (o - 2) [z h + 1]) as [hs'|] eqn:Ew; cbn [bind]; [|split; [reflexivity|discriminate]].
    pose proof (get_wr1 _ _ _ _ (o - 2)%nat Ew) as G. rewrite Nat.eqb_refl in G. rewrite G. cbn [bind].
    assert (Rl : 0 <= Z.shiftr leaf_idx (z h + 1) < 2 ^ 32) by (apply shiftr_range; lia).
    pose proof (lxor_range P Hwf (Z.shiftr leaf_idx (z h + 1)) 1 32 ltac:(lia) Rl ltac:(lia)) as XR.
    rewrite (cond_eq _ _ U32 (Z.lxor (Z.shiftr leaf_idx (z h + 1)) 1) (Z.shiftr idx (z h + 1)));
      [cbn [bind]| |exists U32; split; [evc; reflexivity|split; rg]].
    2:{ apply (ev_bin OXor _ _ U32 I32); [evc; reflexivity|evc; reflexivity|reflexivity|rg|rg|discriminate|]. intros _. cbn [opz promote common]. rg. }
    change (K 1) with (K (z 1)). rewrite !off_sub by lia. cbn [bind]. replace (o - 1 - 1)%nat with (o - 2)%nat by lia.
    replace (z h + 1) with (z (S h)) by lia. rewrite !(off_n P Hwf junk (S h)) by nia. rewrite Nat2Z.id.
    destruct (if Z.lxor (Z.shiftr leaf_idx (z (S h))) 1 =? Z.shiftr idx (z (S h)) then _ else _) as [au|]; cbn [bind]; [|split; [reflexivity|discriminate]].
    apply IH; try assumption; try lia.
    + split; [|split; [lia|]].
      * now rewrite (wr_length _ _ _ _ Ew).
      * intros i v Hiv. rewrite (get_wr1 _ _ _ _ i Ew). destruct (Nat.eqb_spec i (o - 2)) as [->|].
        -- intros [= <-]. lia.
        -- intros X. apply (Hh i v); [lia|exact X].
    + replace (o - 1 - 1)%nat with (o - 2)%nat by lia. rewrite G. f_equal. lia.
Qed.

Notation body := (fun (idx : Z) (s : bytes * list Z * Z * bytes * bytes) =>
    let '(stack, heights, offset, auth, addr) := s in
    o <- ix (V U32 offset * xN P)%C ;;
    a <- asg U32 (V U32 idx + V U32 idx_offset)%C ;;
    lf <- gen_leaf_c a addr ;;
    stack <- wr stack o lf ;;
    offset <- asg U32 (V U32 offset + K 1)%C ;;
    i <- ix (V U32 offset - K 1)%C ;;
    heights <- wr heights i [0%Z] ;;
    b <- cond ((V U32 leaf_idx .^ K 1) == V U32 idx)%C ;;
    auth <-
      (if b : bool then
         o <- ix ((V U32 offset - K 1) * xN P)%C ;; top <- rd stack o N ;; wr auth 0 top
       else Some auth) ;;
    treehash_while_c P HS c leaf_idx idx_offset (S (Z.to_nat (z th))) idx stack heights offset auth addr).

Lemma bound_ok i : 0 <= i <= 2 ^ 30 -> cond (V U32 i < Cast U32 (K 1 << V U32 (z th)))%C = Some (i <? 2 ^ z th).
Proof.
  clear - Hth. intros Hi.
  assert (P30 : 1 <= 2 ^ z th <= 2 ^ 30) by (split; [apply (Z.pow_le_mono_r 2 0); lia|apply Z.pow_le_mono_r; lia]).
  assert (Sh : Z.shiftl 1 (z th) = 2 ^ z th) by (rewrite Z.shiftl_mul_pow2 by lia; lia).
  apply (cond_lt _ _ U32); [evc; reflexivity|]. exists U32. split; [|split; rg].
  apply (ev_cast U32 _ I32); [|rg]. rewrite <- Sh.
  apply (ev_shl _ _ I32 U32); [evc; reflexivity|evc; reflexivity|lia|cbn [promote width]; lia|rewrite Sh; cbn [promote]; rg].
Qed.
Definition fin (r : bytes * list Z * Z * bytes * bytes) : bytes * bytes * bytes := let '(s, _, _, au, ad) := r in (s, au, ad).
Lemma for_c_ok : forall k idx stack hs o auth addr, 0 <= idx -> idx + z k = 2 ^ z th -> heights_ok hs o ->
  option_map fin (treehash_for_c P HS c gen_leaf_c leaf_idx idx_offset (z th) (S k) idx (stack, hs, z o, auth, addr))
  = treehash_for P HS c gen_leaf leaf_idx idx_offset th k idx stack hs o auth addr.
Proof.
  assert (P30 : 1 <= 2 ^ z th <= 2 ^ 30) by (split; [apply (Z.pow_le_mono_r 2 0); lia|apply Z.pow_le_mono_r; lia]).
  pose proof (bnd_basic P Hwf) as Bd.
  induction k as [|k IH]; intros idx stack hs o auth addr Hi Hk (Lh & Ol & Hh); unfold treehash_for_c; cbn [cfor treehash_for];
    rewrite bound_ok by lia; cbn [bind].
  - replace (idx <? 2 ^ z th) with false by lia. reflexivity.
  - replace (idx <? 2 ^ z th) with true by lia.
    rewrite (off_n P Hwf junk o) by nia. cbn [bind].
    destruct (sum32 idx idx_offset ltac:(lia) Hoff) as [-> SR]. cbn [bind].
    rewrite Hgen by exact SR. destruct (gen_leaf (u32 (idx + idx_offset)) addr) as [lf|]; [|reflexivity]. cbn [bind].
    destruct (wr stack (o * N) lf) as [stack'|]; [|reflexivity]. cbn [bind].
    casg (z (S o)); [|cbn [opz]; lia|rg].
    change (K 1) with (K (z 1)) at 1. rewrite ix_sub by lia. cbn [bind].
    destruct (wr hs (S o - 1) [0]) as [hs'|] eqn:Ew; [|reflexivity]. cbn [bind].
    pose proof (lxor_range P Hwf leaf_idx 1 32 ltac:(lia) Hleaf ltac:(lia)) as XR.
    rewrite (cond_eq _ _ U32 (Z.lxor leaf_idx 1) idx);
      [cbn [bind]| |exists U32; split; [evc; reflexivity|split; rg]].
    2:{ apply (ev_bin OXor _ _ U32 I32); [evc; reflexivity|evc; reflexivity|reflexivity|rg|rg|discriminate|]. intros _. cbn [opz promote common]. rg. }
    change (K 1) with (K (z 1)) at 1. rewrite off_sub by lia. cbn [bind].
    destruct (if Z.lxor leaf_idx 1 =? idx then _ else _) as [au|]; [|reflexivity]. cbn [bind].
    rewrite Nat2Z.id.
    assert (So : (S o <= S th)%nat).
    { unfold wr in Ew. cbn [length] in Ew. destruct (Nat.leb_spec (S o - 1 + 1) (length hs)); [lia|discriminate]. }
    assert (Hok : heights_ok hs' (S o)).
    { split; [now rewrite (wr_length _ _ _ _ Ew)|split; [exact So|]]. intros i v Hiv. rewrite (get_wr1 _ _ _ _ i Ew).
      destruct (Nat.eqb_spec i (S o - 1)) as [->|]; [intros [= <-]; lia|]. intros X. apply (Hh i v); [lia|exact X]. }
    destruct (while_c_ok (S th) idx stack' hs' (S o) au addr) as [E Inv]; try assumption; try lia.
    { rewrite (get_wr1 _ _ _ _ _ Ew), Nat.eqb_refl. f_equal. lia. }
    rewrite E. destruct (treehash_while P HS c leaf_idx idx_offset (S th) idx stack' hs' (S o) au addr) as [[[[[s2 h2] o2] au2] ad2]|]; [|reflexivity].
    cbn [option_map up bind]. destruct (Inv _ _ _ _ _ eq_refl) as [_ Hok2].
    casg (idx + 1); [|reflexivity|rg].
    specialize (IH (idx + 1) s2 h2 o2 au2 ad2 ltac:(lia) ltac:(lia) Hok2). unfold treehash_for_c in IH. rewrite Nat2Z.id in IH. exact IH.
Qed.
Theorem treehash_c_ok e1 e2 e3 auth addr : arg32 e1 leaf_idx -> arg32 e2 idx_offset -> arg32 e3 (z th) ->
  treehash_c P HS c junk gen_leaf_c e1 e2 e3 auth addr = treehash P HS c junk gen_leaf leaf_idx idx_offset th auth addr.
Proof.
  intros [H1 _] [H2 _] [H3 _]. pose proof (bnd_basic P Hwf) as Bd. pose proof (e_N P Hwf) as EN.
  unfold treehash_c, treehash. rewrite H1, H2, H3. cbn [bind].
  assert (X : 0 <= (z th + 1) * z N <= 10000) by nia.
  cix ((th + 1) * N)%nat; [|cbn [opz]; nia]. cix (th + 1)%nat; [|cbn [opz]; lia].
  rewrite Nat2Z.id. change 0 with (z 0) at 2.
  pose proof (for_c_ok (Nat.pow 2 th) 0 (junk_bytes (junk 2%nat) ((th + 1) * N)) (junk_bytes (junk 3%nat) (th + 1)) 0 auth addr) as F.
  rewrite <- F.
  - destruct (treehash_for_c _ _ _ _ _ _ _ _ _ _) as [[[[[? ?] ?] ?] ?]|]; reflexivity.
  - lia.
  - rewrite Nat2Z.inj_pow. change (z 2) with 2. lia.
  - split; [unfold junk_bytes; rewrite map_length, seq_length; lia|split; [lia|]]. intros; lia.
Qed.
End Treehash.
(** From height 31 on, 1 << tree_height is undefined. *)
Lemma for_c_31 P HS c gen a b k s : treehash_for_c P HS c gen a b 31 (S k) 0 s = None.
Proof. reflexivity. Qed.
Lemma treehash_c_31 P HS c junk gen e1 e2 auth addr : treehash_c P HS c junk gen e1 e2 (K 31) auth addr = None.
Proof.
  unfold treehash_c. destruct (asg U32 e1) as [a|]; [|reflexivity]. destruct (asg U32 e2) as [b|]; [|reflexivity]. cbn [bind].
  assert (E : asg U32 (K 31) = Some 31) by reflexivity. rewrite E. cbn [bind].
  destruct (ix ((V U32 31 + K 1) * xN P)%C); [|reflexivity]. cbn [bind]. destruct (ix (V U32 31 + K 1)%C); [|reflexivity]. cbn [bind].
  rewrite for_c_31. reflexivity.
Qed.
Theorem treehash_typed P HS : wf_params P = true -> forall c junk gen_c gen,
  (forall a ad, 0 <= a < 2 ^ 32 -> gen_c a ad = gen a ad) -> forall i off th auth addr,
  0 <= i < 2 ^ 32 -> 0 <= off < 2 ^ 32 -> (th <= 30)%nat ->
  treehash_c P HS c junk gen_c (V U32 i) (V U32 off) (V U32 (Z.of_nat th)) auth addr = treehash P HS c junk gen i off th auth addr.
Proof.
  intros Hwf c junk gc g Hg i off th auth addr Hi Ho Ht. apply treehash_c_ok; try assumption; try (apply arg_V; try assumption). lia.
Qed.
