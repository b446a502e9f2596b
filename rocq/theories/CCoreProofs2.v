(** The C-typed core computes what the model computes: chains, trees, FORS, the hypertree and the public functions. *)
From Verif Require Import Base BaseFacts Params Address Suite Utils Wots Fors Merkle Sign HashShake CInt CCore CIntFacts CCoreProofs.
Local Open Scope Z_scope.
Notation z := Z.of_nat.

(** Loops whose C state has more in it than the model's *)
Lemma cfor_sim {S S' : Type} (abs : nat -> S' -> S) (Inv : nat -> S' -> Prop) n bound (body : Z -> S -> option S) (f : nat -> S' -> option S') :
  (forall i, (i <= n)%nat -> cond (V U32 (z i) < bound) = Some (z i <? z n)) ->
  z n < 2 ^ 31 ->
  (forall i s, (i < n)%nat -> Inv i s -> body (z i) (abs i s) = option_map (abs (Datatypes.S i)) (f i s)
     /\ (forall s', f i s = Some s' -> Inv (Datatypes.S i) s')) ->
  forall s, Inv 0%nat s -> cfor (Datatypes.S n) U32 0 bound body (abs 0%nat s) = option_map (abs n) (iterM n 0 f s).
Proof.
  intros Hb Hn Hstep.
  assert (G : forall k i s fuel, (k < fuel)%nat -> (i + k = n)%nat -> Inv i s ->
    cfor fuel U32 (z i) bound body (abs i s) = option_map (abs n) (iterM k i f s)).
  { induction k as [|k IH]; intros i s fuel Hf Hi HI; (destruct fuel as [|fuel]; [lia|]); cbn [cfor iterM]; rewrite Hb by lia; cbn [bind].
    - replace (z i <? z n) with false by lia. cbn [option_map]. now replace n with i by lia.
    - replace (z i <? z n) with true by lia.
      destruct (Hstep i s ltac:(lia) HI) as [E N]. rewrite E. destruct (f i s) as [s'|]; [|reflexivity]. cbn [bind option_map].
      casg (z (Datatypes.S i)); [|cbn [opz]; lia|rg].
      apply IH; [lia|lia|]. apply N. reflexivity. }
  intros s HI. apply (G n 0%nat s); [lia|lia|exact HI].
Qed.

Ltac bs := match goal with |- bind ?x _ = bind ?x _ => destruct x eqn:?; cbn [bind]; [|reflexivity] end.

Lemma odd_land l : negb (Z.land l 1 =? 0) = Z.odd l.
Proof. rewrite <- Z.bit0_odd. change 1 with (Z.ones 1). rewrite Z.land_ones by lia. change (2 ^ 1) with 2. rewrite <- Z.bit0_mod. now destruct (Z.testbit l 0). Qed.

Section Core.
Variable P : params.
Variable HS : suite.
Hypothesis Hwf : wf_params P = true.
Hypothesis Hbig : z (SPX_BYTES P) < 2 ^ 31.
Notation CTX := (ctx (hs_st HS)).
Notation L := (hs_layout HS).
Notation N := (p_n P).
Notation W := (SPX_WOTS_W P).
Variable c : CTX.
Variable junk : nat -> nat -> Z.

Lemma bnd_w : 0 <= W <= 256. Proof. clear Hbig. destruct (w_value P Hwf) as [-> | ->]; lia. Qed.
Lemma bit0 a : 0 <= a < 2 ^ 32 -> cond (V U32 a .& K 1)%C = Some (Z.odd a).
Proof.
  clear. intros Ha. rewrite <- odd_land. apply (cond_is _ U32 (Z.land a 1)); [|reflexivity].
  pose proof (bit_range a). apply (ev_bin OAnd _ _ U32 I32); [evc; reflexivity|evc; reflexivity|reflexivity|rg|rg|discriminate|].
  intros _. cbn [opz promote common]. rg.
Qed.
Lemma half a : 0 <= a < 2 ^ 32 -> asg U32 (V U32 a >> K 1)%C = Some (Z.shiftr a 1) /\ 0 <= Z.shiftr a 1 < 2 ^ 32.
Proof. clear. intros Ha. pose proof (shiftr_range a 1 (2 ^ 32) ltac:(lia) Ha). split; [|assumption]. casg (Z.shiftr a 1); [|reflexivity|rg]. reflexivity. Qed.
Lemma sum32 a b : 0 <= a < 2 ^ 32 -> 0 <= b < 2 ^ 32 -> arg32 (V U32 a + V U32 b)%C (u32 (a + b)).
Proof.
  clear. intros Ha Hb. apply (arg32_ev _ U32); [|apply u32_range].
  apply (ev_bin_mod OAdd _ _ U32 U32 a b); try reflexivity; try discriminate; [evc; reflexivity|evc; reflexivity|rg|rg].
Qed.
Lemma arg_V a : 0 <= a < 2 ^ 32 -> arg32 (V U32 a) a.
Proof. clear. intros Ha. apply (arg32_ev _ U32); [evc; reflexivity|exact Ha]. Qed.
Lemma arg_K a : 0 <= a < 2 ^ 31 -> arg32 (K a) a.
Proof. clear. intros Ha. apply (arg32_ev _ I32); [evc; reflexivity|lia]. Qed.
Lemma arg_succ i : z i < 2 ^ 31 -> arg32 (V U32 (z i) + K 1)%C (z i + 1).
Proof. clear. intros Hi. apply (arg32_ev _ U32); [evc; reflexivity|lia]. Qed.
Lemma off_n i : z i * z N < 2 ^ 31 -> z i < 2 ^ 31 -> ix (V U32 (z i) * xN P)%C = Some (i * N)%nat.
Proof.
  clear Hbig. intros Hi Hi2. pose proof (e_N P Hwf). pose proof (bnd_basic P Hwf).
  assert (0 <= z i * z N) by nia. cix (i * N)%nat; [reflexivity|cbn [opz]; lia].
Qed.

(** ** Chains *)
Lemma gen_chain_loop_c_ok fuel : forall i start steps out addr, 0 <= i < 2 ^ 32 -> 0 <= start < 2 ^ 32 -> 0 <= steps < 2 ^ 32 ->
  gen_chain_loop_c P HS c fuel i start steps out addr = gen_chain_loop P HS c fuel i (u32 (start + steps)) out addr.
Proof.
  pose proof bnd_w as BW. pose proof (e_W P Hwf) as HW. clear Hbig.
  induction fuel as [|fuel IH]; intros i start steps out addr Hi Hs Ht; cbn [gen_chain_loop_c gen_chain_loop];
    pose proof (u32_range (start + steps)) as UR;
    (assert (Hsum : ev (V U32 start + V U32 steps)%C U32 (u32 (start + steps)))
       by (apply (ev_bin_mod OAdd _ _ U32 U32 start steps); try reflexivity; try discriminate; [evc; reflexivity|evc; reflexivity|rg|rg]));
    (rewrite (cond_lt _ _ U32 i (u32 (start + steps))); [|evc; reflexivity|exists U32; split; [exact Hsum|split; rg]]); cbn [bind];
    (destruct (i <? u32 (start + steps)) eqn:E1; cbn [andb]; [|reflexivity]);
    clt; (destruct (i <? W) eqn:E2; [|reflexivity]); [reflexivity|].
  rewrite (set_hash_addr_c_ok L addr _ i) by (apply arg_V; exact Hi). bs. bs.
  casg (i + 1); [|reflexivity|rg]. apply IH; lia.
Qed.
Lemma gen_chain_c_ok inp e1 e2 v1 v2 addr : arg32 e1 v1 -> arg32 e2 v2 ->
  gen_chain_c P HS c inp e1 e2 addr = gen_chain P HS c inp v1 v2 addr.
Proof.
  intros [H1 R1] [H2 R2]. unfold gen_chain_c, gen_chain. rewrite H1, H2. cbn [bind]. bs.
  casg v1; [|reflexivity|rg]. apply gen_chain_loop_c_ok; assumption.
Qed.
Lemma get_forall {A} (Q : A -> Prop) l i x : Forall Q l -> get l i = Some x -> Q x.
Proof. clear. intros H E. rewrite Forall_forall in H. apply H. exact (nth_error_In l i E). Qed.
Theorem wots_pk_from_sig_c_ok sig msg addr :
  wots_pk_from_sig_c P HS c junk sig msg addr = wots_pk_from_sig P HS c junk sig msg addr.
Proof.
  pose proof bnd_w as BW. pose proof (e_W P Hwf) as HW. pose proof (e_LEN P Hwf) as HL. pose proof (bnd_basic P Hwf) as Bd.
  unfold wots_pk_from_sig_c, wots_pk_from_sig. rewrite (chain_lengths_c_ok P Hwf).
  destruct (chain_lengths P msg) as [l|] eqn:El; [|reflexivity]. cbn [bind].
  pose proof (chain_lengths_range P Hwf msg l El) as Hl. clear El.
  apply (cfor_iter (fun _ _ => True) U32); [reflexivity| | | |exact I].
  - intros i Hi. clt. reflexivity.
  - lia.
  - intros i [pk a] Hi _. split; [|easy].
    rewrite (set_chain_addr_c_ok L a _ (z i)) by (apply arg_V; lia). bs.
    cix i; [|reflexivity]. destruct (get l i) as [d|] eqn:Ed; [|reflexivity]. cbn [bind].
    pose proof (get_forall _ _ _ _ Hl Ed) as Hd. cbv beta in Hd.
    assert (z i * z N < 2 ^ 31) by nia.
    rewrite off_n by lia. cbn [bind]. bs.
    rewrite (gen_chain_c_ok _ _ _ d (u32 (W - 1 - d))).
    + reflexivity.
    + apply arg_V. lia.
    + rewrite u32_small by lia. apply (arg32_ev _ U32); [evc; reflexivity|lia].
Qed.

(** ** wots_gen_leafx1 *)
Lemma wots_leaf_chain_c_ok fuel : forall i k wk buf sig addr, z i * z N < 2 ^ 31 -> z i < 2 ^ 31 -> 0 <= k < W -> 0 <= wk < 2 ^ 32 ->
  wots_leaf_chain_c P HS c fuel (z i) k wk buf sig addr = wots_leaf_chain P HS c fuel i k wk buf sig addr.
Proof.
  pose proof bnd_w as BW. pose proof (e_W P Hwf) as HW. clear Hbig.
  induction fuel as [|fuel IH]; intros i k wk buf sig addr Hi Hi2 Hk Hwk; cbn [wots_leaf_chain_c wots_leaf_chain]; [reflexivity|].
  ceq. rewrite off_n by assumption. cbn [bind].
  bs. ceq. cbn [opz]. destruct (k =? W - 1) eqn:Ek; [reflexivity|].
  rewrite (set_hash_addr_c_ok L addr _ k) by (apply arg_V; lia). bs. bs.
  casg (k + 1); [|reflexivity|rg]. apply IH; try assumption; lia.
Qed.
Definition info_ok (g : leaf_info) : Prop := 0 <= wi_sign_leaf g < 2 ^ 32 /\ Forall (fun d => 0 <= d < W) (wi_steps g).
Lemma gen_leafx1_keeps g a r g' : info_ok g -> wots_gen_leafx1 P HS c junk g a = Some (r, g') -> info_ok g'.
Proof.
  clear. intros Hg. unfold wots_gen_leafx1.
  repeat match goal with |- bind ?x _ = _ -> _ => destruct x as [?|]; cbn [bind]; [|discriminate] end.
  repeat match goal with |- context [let '(_, _) := ?x in _] => destruct x end.
  match goal with |- bind ?x _ = _ -> _ => destruct x as [?|]; cbn [bind]; [|discriminate] end.
  intros [= _ <-]. exact Hg.
Qed.
Lemma lor_range d m : 0 <= d < 2 ^ 32 -> 0 <= m < 2 ^ 32 -> 0 <= Z.lor d m < 2 ^ 32.
Proof.
  clear. intros Hd Hm. assert (E : Z.lor d m = Z.lor d m mod 2 ^ 32).
  { rewrite <- Z.land_ones by lia. apply Z.bits_inj. intros i. rewrite Z.land_spec, Z.lor_spec.
    destruct (Z.neg_nonneg_cases i) as [Hi|Hi]; [now rewrite !Z.testbit_neg_r by exact Hi|].
    destruct (Z.lt_ge_cases i 32) as [H|H]; [rewrite Z.ones_spec_low by lia; now rewrite andb_true_r|].
    rewrite Z.ones_spec_high by lia. rewrite andb_false_r.
    assert (T : forall x, 0 <= x < 2 ^ 32 -> Z.testbit x i = false).
    { intros x Hx. rewrite <- (Z.mod_small x (2 ^ 32)) by exact Hx. apply Z.mod_pow2_bits_high. lia. }
    now rewrite !T by assumption. }
  rewrite E. apply Z.mod_pos_bound. reflexivity.
Qed.
Lemma all_ones : asg U32 (Cast U32 (Not (K 0))) = Some (2 ^ 32 - 1). Proof. reflexivity. Qed.
Theorem wots_gen_leafx1_c_ok g a : info_ok g -> 0 <= a < 2 ^ 32 ->
  wots_gen_leafx1_c P HS c junk g a = wots_gen_leafx1 P HS c junk g a.
Proof.
  intros [Hsl Hst] Ha. pose proof bnd_w as BW. pose proof (e_LEN P Hwf) as HL. pose proof (bnd_basic P Hwf) as Bd.
  unfold wots_gen_leafx1_c, wots_gen_leafx1. ceq.
  set (mask := if a =? wi_sign_leaf g then 0 else 2 ^ 32 - 1).
  assert (Em : (if a =? wi_sign_leaf g then asg U32 (K 0) else asg U32 (Cast U32 (Not (K 0)))) = Some mask /\ 0 <= mask < 2 ^ 32)
    by (unfold mask; destruct (a =? wi_sign_leaf g); [split; [reflexivity|lia]|split; [exact all_ones|lia]]).
  clearbody mask. destruct Em as [-> Hm]. cbn [bind].
  rewrite !(set_keypair_addr_c_ok L _ (V U32 a) a) by (apply arg_V; exact Ha). bs. bs.
  pose (lift := fun (i : nat) (q : bytes * bytes * bytes) => let '(pb, sg, ad) := q in (pb, (i * N)%nat, sg, ad)).
  match goal with |- context [cfor _ _ _ _ _ (?j, 0%nat, ?sg0, ?ad0)] =>
    change (j, 0%nat, sg0, ad0) with (lift 0%nat (j, sg0, ad0)) end.
  match goal with |- _ = bind (iterM _ _ ?f _) _ => rewrite (cfor_sim lift (fun _ _ => True) (SPX_WOTS_LEN P) (xLEN P) _ f) end.
  - match goal with |- context [option_map ?h ?x] => change (option_map h x) with (bind x (fun q => Some (h q))) end.
    match goal with |- bind (bind ?x _) _ = bind ?x _ => destruct x as [[[pb sg] ad]|]; [|reflexivity] end.
    cbn [bind]. cix (SPX_WOTS_LEN P); [|reflexivity]. reflexivity.
  - intros i Hi. clt. reflexivity.
  - lia.
  - intros i [[pb sg] ad] Hi _. split; [|easy]. unfold lift. cbv beta iota.
    cix i; [|reflexivity]. cbv beta iota zeta.
    destruct (get (wi_steps g) i) as [d|] eqn:Ed; [|reflexivity]. cbn [bind].
    pose proof (get_forall _ _ _ _ Hst Ed) as Hd. cbv beta in Hd.
    pose proof (lor_range d mask ltac:(lia) Hm) as LR.
    rewrite (asg_is U32 _ U32 (Z.lor d mask) (Z.lor d mask)); [cbn [bind]| |reflexivity|rg].
    2:{ apply (ev_bin OOr _ _ U32 U32); [evc; reflexivity|evc; reflexivity|reflexivity|rg|rg|discriminate|]. intros _. cbn [opz promote common]. rg. }
    rewrite (set_chain_addr_c_ok L ad _ (z i)) by (apply arg_V; lia).
    destruct (set_chain_addr L ad (z i)) as [a1|]; [|reflexivity]. cbn [bind].
    rewrite (set_hash_addr_c_ok L a1 _ 0) by (apply arg_K; lia).
    destruct (set_hash_addr L a1 0) as [a2|]; [|reflexivity]. cbn [bind].
    rewrite (set_type_c_ok L a2 _ SPX_ADDR_TYPE_WOTSPRF) by (apply arg_K; split; [discriminate|reflexivity]).
    destruct (set_type L a2 SPX_ADDR_TYPE_WOTSPRF) as [a3|]; [|reflexivity]. cbn [bind].
    destruct (prf_addr HS c a3) as [b3|]; [|reflexivity]. cbn [bind].
    rewrite (set_type_c_ok L a3 _ SPX_ADDR_TYPE_WOTS) by (apply arg_K; split; [discriminate|reflexivity]).
    destruct (set_type L a3 SPX_ADDR_TYPE_WOTS) as [a4|]; [|reflexivity]. cbn [bind].
    assert (0 < W) by (destruct (w_value P Hwf) as [-> | ->]; lia).
    rewrite wots_leaf_chain_c_ok by (first [assumption | lia | nia]).
    destruct (wots_leaf_chain P HS c (Z.to_nat W) i 0 (Z.lor d mask) b3 sg a4) as [[[b5 s5] a5]|]; [|reflexivity]. cbn [bind].
    destruct (wr pb (i * N) b5) as [p6|]; [|reflexivity]. cbn [bind option_map]. do 4 f_equal. lia.
  - exact I.
Qed.

(** ** compute_root *)
Lemma compute_root_loop_c_ok auth th : z th < 2 ^ 31 -> forall k fuel i leaf off ap buffer addr,
  (k < fuel)%nat -> (i + k + 1 = th)%nat -> 0 <= leaf < 2 ^ 32 -> 0 <= off < 2 ^ 32 ->
  cfor fuel U32 (z i) (V U32 (z th) - K 1)%C (fun i s =>
      let '(leaf_idx, idx_offset, ap, buffer, addr) := s in
      leaf_idx <- asg U32 (V U32 leaf_idx >> K 1) ;;
      idx_offset <- asg U32 (V U32 idx_offset >> K 1) ;;
      addr <- set_tree_height_c L addr (V U32 i + K 1) ;;
      addr <- set_tree_index_c L addr (V U32 leaf_idx + V U32 idx_offset) ;;
      b <- cond (V U32 leaf_idx .& K 1) ;;
      inp <- rd buffer 0 (2 * N) ;;
      h <- thash P HS c 2 inp addr ;;
      a <- rd auth ap N ;;
      buffer <-
        (if b : bool then b <- wr buffer N h ;; wr b 0 a
         else b <- wr buffer 0 h ;; wr b N a) ;;
      Some (leaf_idx, idx_offset, (ap + N)%nat, buffer, addr)) (leaf, off, ap, buffer, addr)
  = (' (l, o, b, a) <- compute_root_loop P HS c k i leaf off auth ap buffer addr ;; Some (l, o, (ap + k * N)%nat, b, a)).
Proof.
  clear Hwf Hbig. intros Hth. induction k as [|k IH]; intros fuel i leaf off ap buffer addr Hf Hi Hl Ho; (destruct fuel as [|fuel]; [lia|]);
    cbn [cfor compute_root_loop]; clt; cbn [opz].
  - replace (z i <? z th - 1) with false by lia. cbn [bind Nat.mul]. now rewrite Nat.add_0_r.
  - replace (z i <? z th - 1) with true by lia.
    destruct (half leaf Hl) as [-> R1]. cbn [bind]. destruct (half off Ho) as [-> R2]. cbn [bind].
    rewrite (set_tree_height_c_ok L addr _ (z i + 1)) by (apply arg_succ; lia).
    destruct (set_tree_height L addr (z i + 1)) as [a1|]; [|reflexivity]. cbn [bind].
    rewrite (set_tree_index_c_ok L a1 _ (u32 (Z.shiftr leaf 1 + Z.shiftr off 1))) by (apply sum32; assumption).
    destruct (set_tree_index L a1 _) as [a2|]; [|reflexivity]. cbn [bind].
    rewrite bit0 by exact R1. cbn [bind].
    destruct (rd buffer 0 (2 * N)) as [inp|]; [|reflexivity]. cbn [bind].
    destruct (thash P HS c 2 inp a2) as [h|]; [|reflexivity]. cbn [bind].
    destruct (rd auth ap N) as [a|]; [|reflexivity]. cbn [bind].
    match goal with |- context [if Z.odd ?x then ?p else ?q] => destruct (if Z.odd x then p else q) as [bf|]; [|reflexivity] end. cbn [bind].
    casg (z (S i)); [|cbn [opz]; lia|rg].
    rewrite IH by (first [assumption|lia]).
    destruct (compute_root_loop P HS c k (S i) _ _ auth (ap + N) bf a2) as [[[[l o] b] ad]|]; [|reflexivity]. cbn [bind].
    do 4 f_equal. cbn [Nat.mul]. lia.
Qed.
Lemma compute_root_range auth : forall k i leaf off ap buffer addr l o b a, 0 <= leaf < 2 ^ 32 -> 0 <= off < 2 ^ 32 ->
  compute_root_loop P HS c k i leaf off auth ap buffer addr = Some (l, o, b, a) -> 0 <= l < 2 ^ 32 /\ 0 <= o < 2 ^ 32.
Proof.
  clear Hwf Hbig. induction k as [|k IH]; intros i leaf off ap buffer addr l o b a Hl Ho; cbn [compute_root_loop].
  - intros [= <- <- _ _]. split; assumption.
  - repeat match goal with |- bind ?x _ = _ -> _ => destruct x as [?|]; cbn [bind]; [|discriminate] end.
    apply IH; apply half; assumption.
Qed.
Theorem compute_root_c_ok leaf e1 e2 e3 l o th auth addr : arg32 e1 l -> arg32 e2 o -> arg32 e3 (z th) -> (1 <= th)%nat -> z th < 2 ^ 31 ->
  compute_root_c P HS c junk leaf e1 e2 auth e3 addr = compute_root P HS c junk leaf l o auth th addr.
Proof.
  clear Hwf Hbig. intros [H1 R1] [H2 R2] [H3 _] Hth Hth2. unfold compute_root_c, compute_root. rewrite H1, H2, H3. cbn [bind].
  replace (1 <=? th)%nat with true by lia. cbn [guard bind].
  rewrite bit0 by exact R1. cbn [bind]. bs. bs. bs.
  rewrite Nat2Z.id. change 0 with (z 0) at 1.
  rewrite (compute_root_loop_c_ok auth th Hth2 (th - 1)) by (first [assumption|lia]).
  destruct (compute_root_loop P HS c (th - 1) 0 l o auth N _ addr) as [[[[l' o'] b'] a']|] eqn:E; [|reflexivity]. cbn [bind].
  destruct (compute_root_range auth _ _ _ _ _ _ _ _ _ _ _ R1 R2 E) as [Rl Ro].
  destruct (half l' Rl) as [-> R1']. cbn [bind]. destruct (half o' Ro) as [-> R2']. cbn [bind].
  rewrite (set_tree_height_c_ok L a' _ (z th)) by (apply arg_V; lia). bs.
  match goal with |- context [set_tree_index_c L ?a _] => rewrite (set_tree_index_c_ok L a _ (u32 (Z.shiftr l' 1 + Z.shiftr o' 1))) by (apply sum32; assumption) end.
  reflexivity.
Qed.

(** ** treehashx1 *)
Section Treehash.
Context {G : Type}.
Variables gen_leaf_c gen_leaf : G -> Z -> option (bytes * G).
Variable IG : G -> Prop.
Hypothesis Hgen : forall g a, IG g -> 0 <= a < 2 ^ 32 -> gen_leaf_c g a = gen_leaf g a.
Hypothesis Hkeep : forall g a r g', IG g -> gen_leaf g a = Some (r, g') -> IG g'.
Variables leaf_idx idx_offset : Z.
Variable th : nat.
Hypothesis Hleaf : 0 <= leaf_idx < 2 ^ 32.
Hypothesis Hoff : 0 <= idx_offset < 2 ^ 32.
Hypothesis Hth : (1 <= th <= 30)%nat.

Lemma climb_c_ok : forall todo fuel h ii il io idx mx cur stack auth addr,
  (todo < fuel)%nat -> (h + todo = th)%nat -> 0 <= ii < 2 ^ 32 -> 0 <= il < 2 ^ 32 -> 0 <= io < 2 ^ 32 -> 0 <= idx < 2 ^ 32 -> 0 <= mx < 2 ^ 32 ->
  climb_c P HS c (z th) fuel (z h) ii il io idx mx cur stack auth addr = treehashx1_climb P HS c todo h ii il io idx mx cur stack auth addr.
Proof.
  clear Hgen Hkeep Hleaf Hoff Hbig. pose proof (bnd_basic P Hwf) as Bd.
  induction todo as [|todo IH]; intros fuel h ii il io idx mx cur stack auth addr Hf Hh Hii Hil Hio Hidx Hmx; (destruct fuel as [|fuel]; [lia|]);
    cbn [climb_c treehashx1_climb]; ceq.
  - replace (z h =? z th) with true by lia. reflexivity.
  - replace (z h =? z th) with false by lia.
    pose proof (lxor_range P Hwf ii il 32 ltac:(lia) Hii Hil) as XR.
    rewrite (cond_eq _ _ U32 (Z.lxor ii il) 1); [cbn [bind]| |exists I32; split; [evc; reflexivity|split; rg]].
    2:{ apply (ev_bin OXor _ _ U32 U32); [evc; reflexivity|evc; reflexivity|reflexivity|rg|rg|discriminate|]. intros _. cbn [opz promote common]. rg. }
    rewrite !off_n by nia. cbn [bind]. bs.
    pose proof (bit_range ii) as BR.
    rewrite (cond_eq _ _ U32 (Z.land ii 1) 0); [cbn [bind]| |exists I32; split; [evc; reflexivity|split; rg]].
    2:{ apply (ev_bin OAnd _ _ U32 I32); [evc; reflexivity|evc; reflexivity|reflexivity|rg|rg|discriminate|]. intros _. cbn [opz promote common]. rg. }
    assert (E2 : (if Z.land ii 1 =? 0 then cond (V U32 idx < V U32 mx)%C else Some false) = Some ((Z.land ii 1 =? 0) && (idx <? mx)))
      by (destruct (Z.land ii 1 =? 0); [clt|]; reflexivity).
    rewrite E2. cbn [bind]. destruct ((Z.land ii 1 =? 0) && (idx <? mx)).
    + cix h; [|reflexivity]. reflexivity.
    + destruct (half io Hio) as [-> R1]. cbn [bind].
      rewrite (set_tree_height_c_ok L addr _ (z h + 1)) by (apply arg_succ; lia). bs.
      assert (HR : 0 <= ii / 2 < 2 ^ 32) by (split; [apply Z.div_pos; lia|apply Z.div_lt_upper_bound; lia]).
      match goal with |- context [set_tree_index_c L ?a _] => rewrite (set_tree_index_c_ok L a _ (u32 (ii / 2 + Z.shiftr io 1))) end.
      2:{ apply (arg32_ev _ U32); [|apply u32_range].
          apply (ev_bin_mod OAdd _ _ U32 U32 (ii / 2) (Z.shiftr io 1)); try reflexivity; try discriminate; [|evc; reflexivity|rg|rg].
          rewrite <- (Z.quot_div_nonneg ii 2) in * by lia.
          apply (ev_bin ODiv _ _ U32 I32 ii 2); [evc; reflexivity|evc; reflexivity|reflexivity|rg|rg|discriminate|]. intros _. cbn [opz promote common]. rg. }
      bs. bs. bs.
      casg (z (S h)); [|cbn [opz]; lia|rg].
      destruct (half ii Hii) as [-> R2]. cbn [bind]. destruct (half il Hil) as [-> R3]. cbn [bind].
      apply IH; try assumption; lia.
Qed.
Lemma climb_left : forall todo h ii il io idx mx cur stack auth addr h' nd au ad,
  treehashx1_climb P HS c todo h ii il io idx mx cur stack auth addr = Some (Left h' nd au ad) -> (h' < h + todo)%nat.
Proof.
  clear. induction todo as [|todo IH]; intros h ii il io idx mx cur stack auth addr h' nd au ad; cbn [treehashx1_climb]; [discriminate|].
  match goal with |- bind ?x _ = _ -> _ => destruct x as [?|]; cbn [bind]; [|discriminate] end.
  destruct ((Z.land ii 1 =? 0) && (idx <? mx)); [intros [= <- _ _ _]; lia|].
  repeat match goal with |- bind ?x _ = _ -> _ => destruct x as [?|]; cbn [bind]; [|discriminate] end.
  intros H. apply IH in H. lia.
Qed.
Lemma treehashx1_loop_c_ok mx : 0 <= mx < 2 ^ 32 -> forall fuel idx stack auth addr g, IG g -> 0 <= idx -> idx + z fuel <= 2 ^ 30 ->
  treehashx1_loop_c P HS c gen_leaf_c leaf_idx idx_offset (z th) fuel idx mx stack auth addr g
  = treehashx1_loop P HS c gen_leaf leaf_idx idx_offset fuel th idx mx stack auth addr g.
Proof.
  intros Hmx. pose proof (bnd_basic P Hwf) as Bd. clear Hbig.
  induction fuel as [|fuel IH]; intros idx stack auth addr g Hg Hi Hf; cbn [treehashx1_loop_c treehashx1_loop]; [reflexivity|].
  destruct (sum32 idx idx_offset ltac:(lia) Hoff) as [-> SR]. cbn [bind].
  rewrite Hgen by (first [assumption|exact SR]).
  destruct (gen_leaf g (u32 (idx + idx_offset))) as [[lf g']|] eqn:Eg; [|reflexivity]. cbn [bind]. bs.
  rewrite Nat2Z.id. change 0 with (z 0) at 1.
  rewrite (climb_c_ok th) by (first [assumption|lia]).
  match goal with |- bind ?x _ = bind ?x _ => destruct x as [[r au ad|h nd au ad]|] eqn:Er; cbn [bind]; [reflexivity| |reflexivity] end.
  apply climb_left in Er. rewrite off_n by nia. cbn [bind]. bs.
  casg (idx + 1); [|reflexivity|rg]. apply IH; [exact (Hkeep _ _ _ _ Hg Eg)|lia|lia].
Qed.
Theorem treehashx1_c_ok e1 e2 e3 auth addr g : arg32 e1 leaf_idx -> arg32 e2 idx_offset -> arg32 e3 (z th) -> IG g ->
  treehashx1_c P HS c junk gen_leaf_c e1 e2 e3 auth addr g = treehashx1 P HS c junk gen_leaf leaf_idx idx_offset th auth addr g.
Proof.
  intros [H1 _] [H2 _] [H3 _] Hg. pose proof (bnd_basic P Hwf) as Bd. unfold treehashx1_c, treehashx1. rewrite H1, H2, H3. cbn [bind].
  rewrite off_n by nia. cbn [bind].
  assert (P30 : 1 <= 2 ^ z th <= 2 ^ 30) by (split; [apply (Z.pow_le_mono_r 2 0); lia|apply Z.pow_le_mono_r; lia]).
  assert (Sh : Z.shiftl 1 (z th) = 2 ^ z th) by (rewrite Z.shiftl_mul_pow2 by lia; lia).
  rewrite (asg_is U32 _ U32 (2 ^ z th - 1) (2 ^ z th - 1)); [cbn [bind]| |reflexivity|rg].
  2:{ apply (ev_cast U32 _ I32); [|rg]. apply (ev_bin OSub _ _ I32 I32 (2 ^ z th) 1); [|evc; reflexivity|reflexivity|rg|rg|discriminate|].
      - rewrite <- Sh. apply (ev_shl _ _ I32 U32); [evc; reflexivity|evc; reflexivity|lia|cbn [promote width]; lia|rewrite Sh; cbn [promote]; rg].
      - intros _. cbn [opz promote common]. rg. }
  rewrite Nat2Z.id. apply treehashx1_loop_c_ok; [lia|exact Hg|lia|].
  rewrite Nat2Z.inj_pow. change (z 2) with 2. lia.
Qed.
End Treehash.

(** ** fors.c *)
Lemma fors_gen_leafx1_c_ok ad a : 0 <= a < 2 ^ 32 -> fors_gen_leafx1_c P HS c ad a = fors_gen_leafx1 P HS c ad a.
Proof.
  clear Hwf Hbig. intros Ha. unfold fors_gen_leafx1_c, fors_gen_leafx1. rewrite (set_tree_index_c_ok L ad _ a) by (apply arg_V; exact Ha). bs.
  rewrite (set_type_c_ok L _ _ SPX_ADDR_TYPE_FORSPRF) by (apply arg_K; split; [discriminate|reflexivity]). bs. bs.
  rewrite (set_type_c_ok L _ _ SPX_ADDR_TYPE_FORSTREE) by (apply arg_K; split; [discriminate|reflexivity]). reflexivity.
Qed.
Lemma idx_offset_ok i : z i < 2 ^ 31 -> asg U32 (V U32 (z i) * (K 1 << xFORS_HEIGHT P))%C = Some (u32 (z i * 2 ^ z (p_fh P))).
Proof.
  intros Hi. pose proof (bnd_basic P Hwf) as Bd. pose proof (e_FH P Hwf) as HF. clear Hbig.
  assert (P30 : 1 <= 2 ^ z (p_fh P) <= 2 ^ 30) by (split; [apply (Z.pow_le_mono_r 2 0); lia|apply Z.pow_le_mono_r; lia]).
  assert (Sh : Z.shiftl 1 (z (p_fh P)) = 2 ^ z (p_fh P)) by (rewrite Z.shiftl_mul_pow2 by lia; lia).
  rewrite (asg_is U32 _ U32 (u32 (z i * 2 ^ z (p_fh P))) (u32 (z i * 2 ^ z (p_fh P)))); [reflexivity| |reflexivity|apply in_range_U32, u32_range].
  apply (ev_bin_mod OMul _ _ U32 I32 (z i) (2 ^ z (p_fh P))); try reflexivity; try discriminate; [evc; reflexivity| |rg|rg].
  rewrite <- Sh. apply (ev_shl _ _ I32 I32); [evc; reflexivity|exact HF|lia|cbn [promote width]; lia|rewrite Sh; cbn [promote]; rg].
Qed.
Lemma fh_bytes : ix (xN P * xFORS_HEIGHT P)%C = Some (N * p_fh P)%nat.
Proof.
  pose proof (bnd_basic P Hwf) as Bd. pose proof (e_N P Hwf). pose proof (e_FH P Hwf).
  assert (0 <= z N * z (p_fh P) < 2 ^ 31) by nia. cix (N * p_fh P)%nat; [reflexivity|cbn [opz]; lia].
Qed.
Lemma pow30 i : (i <= 30)%nat -> 2 ^ z i <= 2 ^ 30. Proof. clear. intros H. apply Z.pow_le_mono_r; lia. Qed.
Theorem fors_sign_c_ok sig m ad : fors_sign_c P HS c junk sig m ad = fors_sign P HS c junk sig m ad.
Proof.
  pose proof (bnd_basic P Hwf) as Bd. pose proof (bnd_ft P Hwf Hbig) as BF. pose proof (e_FT P Hwf Hbig) as HF. pose proof (e_FH P Hwf) as HH.
  unfold fors_sign_c, fors_sign. rewrite !copy_keypair_addr_c_ok. bs. cbn [bind].
  rewrite (set_type_c_ok L _ _ SPX_ADDR_TYPE_FORSPK) by (apply arg_K; split; [discriminate|reflexivity]). bs.
  rewrite (message_to_indices_c_ok P Hwf Hbig). destruct (message_to_indices P m) as [dl|] eqn:El; [|reflexivity]. cbn [bind].
  pose proof (indices_range P Hwf m dl El) as Hl. clear El. pose proof (pow30 (p_fh P) ltac:(lia)) as P30.
  match goal with |- bind (cfor _ _ _ _ _ ?s) _ = bind (iterM _ _ ?f ?s) _ =>
    rewrite (cfor_iter (fun _ _ => True) U32 (p_ft P) (xFORS_TREES P) _ f eq_refl) end.
  - bs. repeat match goal with |- context [let '(_, _) := ?x in _] => destruct x end. cix (p_ft P); [|reflexivity]. reflexivity.
  - intros i Hi. clt. reflexivity.
  - lia.
  - intros i [[[[sg rt] ta] la] sp] Hi _. split; [|easy]. cbv beta iota zeta.
    rewrite idx_offset_ok by lia. cbn [bind]. pose proof (u32_range (z i * 2 ^ z (p_fh P))) as OR. set (off := u32 (z i * 2 ^ z (p_fh P))) in *. clearbody off.
    cix i; [|reflexivity]. destruct (get dl i) as [d|] eqn:Ed; [|reflexivity]. cbn [bind].
    pose proof (get_forall _ _ _ _ Hl Ed) as Hd. cbv beta in Hd. assert (Hd2 : 0 <= d < 2 ^ 32) by lia.
    rewrite (set_tree_height_c_ok L ta _ 0) by (apply arg_K; lia). bs.
    rewrite (set_tree_index_c_ok L _ _ (u32 (d + off))) by (apply sum32; assumption). bs.
    rewrite (set_type_c_ok L _ _ SPX_ADDR_TYPE_FORSPRF) by (apply arg_K; split; [discriminate|reflexivity]). bs. bs. bs.
    rewrite (set_type_c_ok L _ _ SPX_ADDR_TYPE_FORSTREE) by (apply arg_K; split; [discriminate|reflexivity]). bs.
    assert (z i * z N < 2 ^ 31) by nia.
    rewrite off_n by lia. cbn [bind]. rewrite fh_bytes. cbn [bind]. bs.
    rewrite (treehashx1_c_ok _ (fors_gen_leafx1 P HS c) (fun _ => True)) with (leaf_idx := d) (idx_offset := off) (th := p_fh P).
    + reflexivity.
    + intros g a _ Ha. apply fors_gen_leafx1_c_ok, Ha.
    + easy.
    + exact Hd2.
    + exact OR.
    + lia.
    + apply arg_V, Hd2.
    + apply arg_V, OR.
    + apply (arg32_ev _ I32); [exact HH|lia].
    + exact I.
  - exact I.
Qed.
Theorem fors_pk_from_sig_c_ok sig m ad : fors_pk_from_sig_c P HS c junk sig m ad = fors_pk_from_sig P HS c junk sig m ad.
Proof.
  pose proof (bnd_basic P Hwf) as Bd. pose proof (bnd_ft P Hwf Hbig) as BF. pose proof (e_FT P Hwf Hbig) as HF. pose proof (e_FH P Hwf) as HH.
  unfold fors_pk_from_sig_c, fors_pk_from_sig. rewrite !copy_keypair_addr_c_ok. bs. cbn [bind].
  rewrite (set_type_c_ok L _ _ SPX_ADDR_TYPE_FORSTREE) by (apply arg_K; split; [discriminate|reflexivity]). bs.
  rewrite (set_type_c_ok L _ _ SPX_ADDR_TYPE_FORSPK) by (apply arg_K; split; [discriminate|reflexivity]). bs.
  rewrite (message_to_indices_c_ok P Hwf Hbig). destruct (message_to_indices P m) as [dl|] eqn:El; [|reflexivity]. cbn [bind].
  pose proof (indices_range P Hwf m dl El) as Hl. clear El. pose proof (pow30 (p_fh P) ltac:(lia)) as P30.
  match goal with |- bind (cfor _ _ _ _ _ ?s) _ = bind (iterM _ _ ?f ?s) _ =>
    rewrite (cfor_iter (fun _ _ => True) U32 (p_ft P) (xFORS_TREES P) _ f eq_refl) end.
  - bs. repeat match goal with |- context [let '(_, _) := ?x in _] => destruct x end. cix (p_ft P); [|reflexivity]. reflexivity.
  - intros i Hi. clt. reflexivity.
  - lia.
  - intros i [[rt ta] sp] Hi _. split; [|easy]. cbv beta iota zeta.
    rewrite idx_offset_ok by lia. cbn [bind]. pose proof (u32_range (z i * 2 ^ z (p_fh P))) as OR. set (off := u32 (z i * 2 ^ z (p_fh P))) in *. clearbody off.
    cix i; [|reflexivity]. destruct (get dl i) as [d|] eqn:Ed; [|reflexivity]. cbn [bind].
    pose proof (get_forall _ _ _ _ Hl Ed) as Hd. cbv beta in Hd. assert (Hd2 : 0 <= d < 2 ^ 32) by lia.
    rewrite (set_tree_height_c_ok L ta _ 0) by (apply arg_K; lia). bs.
    rewrite (set_tree_index_c_ok L _ _ (u32 (d + off))) by (apply sum32; assumption). bs. bs. bs.
    assert (z i * z N < 2 ^ 31) by nia.
    rewrite off_n by lia. cbn [bind]. rewrite fh_bytes. cbn [bind]. bs.
    rewrite (compute_root_c_ok _ _ _ _ d off (p_fh P)).
    + reflexivity.
    + apply arg_V, Hd2.
    + apply arg_V, OR.
    + apply (arg32_ev _ I32); [exact HH|lia].
    + lia.
    + lia.
  - exact I.
Qed.

(** ** merkle.c *)
Lemma wots_bytes_ix : ix (xWOTS_BYTES P) = Some (SPX_WOTS_BYTES P).
Proof. pose proof (e_WOTS_BYTES P Hwf Hbig). cix (SPX_WOTS_BYTES P); reflexivity. Qed.
Lemma th_bytes : ix (xTREE_HEIGHT P * xN P)%C = Some (SPX_TREE_HEIGHT P * N)%nat.
Proof.
  pose proof (bnd_basic P Hwf) as Bd. pose proof (e_TH P Hwf). pose proof (e_N P Hwf).
  assert (0 <= z (SPX_TREE_HEIGHT P) * z N < 2 ^ 31) by nia. cix (SPX_TREE_HEIGHT P * N)%nat; [reflexivity|cbn [opz]; lia].
Qed.
Theorem merkle_sign_c_ok sig root wa ta e v : arg32 e v ->
  merkle_sign_c P HS c junk sig root wa ta e = merkle_sign P HS c junk sig root wa ta v.
Proof.
  intros [H R]. pose proof (bnd_basic P Hwf) as Bd. pose proof (e_TH P Hwf) as HT.
  unfold merkle_sign_c, merkle_sign. rewrite H. cbn [bind]. rewrite wots_bytes_ix, th_bytes. cbn [bind]. bs. bs.
  rewrite (chain_lengths_c_ok P Hwf). destruct (chain_lengths P root) as [st|] eqn:El; [|reflexivity]. cbn [bind].
  pose proof (chain_lengths_range P Hwf root st El) as Hl.
  rewrite (set_type_c_ok L _ _ SPX_ADDR_TYPE_HASHTREE) by (apply arg_K; split; [discriminate|reflexivity]). bs.
  rewrite (set_type_c_ok L _ _ SPX_ADDR_TYPE_WOTSPK) by (apply arg_K; split; [discriminate|reflexivity]). bs.
  rewrite !copy_subtree_addr_c_ok. bs. bs.
  casg v; [|reflexivity|rg].
  rewrite (treehashx1_c_ok _ (wots_gen_leafx1 P HS c junk) info_ok) with (leaf_idx := v) (idx_offset := 0) (th := SPX_TREE_HEIGHT P).
  - reflexivity.
  - intros g a Hg Ha. apply wots_gen_leafx1_c_ok; assumption.
  - intros g a r g' Hg E. exact (gen_leafx1_keeps g a r g' Hg E).
  - exact R.
  - lia.
  - lia.
  - apply arg_V, R.
  - apply arg_K. lia.
  - apply (arg32_ev _ I32); [exact HT|lia].
  - split; [exact R|exact Hl].
Qed.
Theorem merkle_gen_root_c_ok root : merkle_gen_root_c P HS c junk root = merkle_gen_root P HS c junk root.
Proof.
  pose proof (bnd_basic P Hwf) as Bd. unfold merkle_gen_root_c, merkle_gen_root.
  assert (E : ix (xTREE_HEIGHT P * xN P + xWOTS_BYTES P)%C = Some (SPX_TREE_HEIGHT P * N + SPX_WOTS_BYTES P)%nat).
  { pose proof (e_TH P Hwf). pose proof (e_N P Hwf). pose proof (e_WOTS_BYTES P Hwf Hbig). pose proof (bnd_wots P Hwf Hbig).
    assert (0 <= z (SPX_TREE_HEIGHT P) * z N <= 7680) by nia.
    cix (SPX_TREE_HEIGHT P * N + SPX_WOTS_BYTES P)%nat; [reflexivity|cbn [opz]; lia]. }
  rewrite E. cbn [bind]. pose proof (e_D P Hwf) as HD.
  rewrite !(set_layer_addr_c_ok L _ (xD P - K 1)%C (z (p_d P) - 1)) by (apply (arg32_ev _ I32); [evc; reflexivity|lia]).
  bs. cbn [bind].
  rewrite (merkle_sign_c_ok _ _ _ _ _ (2 ^ 32 - 1)) by (split; [exact all_ones|lia]). reflexivity.
Qed.

(** ** sign.c *)
Lemma next_leaf t : 0 <= t < 2 ^ 64 ->
  asg U32 (V U64 t .& ((K 1 << xTREE_HEIGHT P) - K 1))%C = Some (Z.land t (2 ^ z (SPX_TREE_HEIGHT P) - 1))
  /\ 0 <= Z.land t (2 ^ z (SPX_TREE_HEIGHT P) - 1) < 2 ^ 32
  /\ asg U64 (V U64 t >> xTREE_HEIGHT P)%C = Some (Z.shiftr t (z (SPX_TREE_HEIGHT P)))
  /\ 0 <= Z.shiftr t (z (SPX_TREE_HEIGHT P)) < 2 ^ 64.
Proof.
  intros Ht. pose proof (bnd_basic P Hwf) as Bd. pose proof (e_TH P Hwf) as HT. clear Hbig.
  set (th := z (SPX_TREE_HEIGHT P)) in *. clearbody th.
  assert (P30 : 1 <= 2 ^ th <= 2 ^ 30) by (split; [apply (Z.pow_le_mono_r 2 0); lia|apply Z.pow_le_mono_r; lia]).
  assert (Sh : Z.shiftl 1 th = 2 ^ th) by (rewrite Z.shiftl_mul_pow2 by lia; lia).
  pose proof (land_range t th ltac:(lia)) as LR. pose proof (shiftr_range t th (2 ^ 64) ltac:(lia) Ht) as SR.
  split; [|split; [lia|split; [|exact SR]]].
  - rewrite (asg_is U32 _ U64 (Z.land t (2 ^ th - 1)) (Z.land t (2 ^ th - 1))); [reflexivity| |reflexivity|rg].
    apply (ev_bin OAnd _ _ U64 I32 t (2 ^ th - 1)); [evc; reflexivity| |reflexivity|rg|rg|discriminate|intros _; cbn [opz promote common]; rg].
    apply (ev_bin OSub _ _ I32 I32 (2 ^ th) 1); [|evc; reflexivity|reflexivity|rg|rg|discriminate|intros _; cbn [opz promote common]; rg].
    rewrite <- Sh. apply (ev_shl _ _ I32 I32); [evc; reflexivity|exact HT|lia|cbn [promote width]; lia|rewrite Sh; cbn [promote]; rg].
  - casg (Z.shiftr t th); [|reflexivity|rg]. reflexivity.
Qed.
Lemma layer_bytes : ix (xWOTS_BYTES P + xTREE_HEIGHT P * xN P)%C = Some (SPX_WOTS_BYTES P + SPX_TREE_HEIGHT P * N)%nat.
Proof.
  pose proof (bnd_basic P Hwf) as Bd. pose proof (e_TH P Hwf). pose proof (e_N P Hwf). pose proof (e_WOTS_BYTES P Hwf Hbig). pose proof (bnd_wots P Hwf Hbig).
  assert (0 <= z (SPX_TREE_HEIGHT P) * z N <= 7680) by nia.
  cix (SPX_WOTS_BYTES P + SPX_TREE_HEIGHT P * N)%nat; [reflexivity|cbn [opz]; lia].
Qed.
Definition idx_ok (t l : Z) : Prop := 0 <= t < 2 ^ 64 /\ 0 <= l < 2 ^ 32.
Lemma sign_layer_c_ok i s : (i < 256)%nat -> (let '(_, _, _, _, _, t, l) := s in idx_ok t l) ->
  sign_layer_c P HS c junk (z i) s = sign_layer P HS junk c i s
  /\ (forall s', sign_layer P HS junk c i s = Some s' -> let '(_, _, _, _, _, t, l) := s' in idx_ok t l).
Proof.
  destruct s as [[[[[[sig sp] root] wa] ta] t] l]. intros Hi [Ht Hl]. destruct (next_leaf t Ht) as (E1 & R1 & E2 & R2). split.
  - unfold sign_layer_c, sign_layer.
    rewrite (set_layer_addr_c_ok L ta _ (z i)) by (apply arg_V; lia). bs.
    rewrite set_tree_addr_c_ok by exact Ht. bs. rewrite copy_subtree_addr_c_ok. bs.
    rewrite (set_keypair_addr_c_ok L _ _ l) by (apply arg_V; exact Hl). bs.
    rewrite layer_bytes. cbn [bind]. bs.
    rewrite (merkle_sign_c_ok _ _ _ _ _ l) by (apply arg_V; exact Hl).
    match goal with |- bind ?x _ = bind ?x _ => destruct x as [[[pt rt] ta']|]; cbn [bind]; [|reflexivity] end. bs.
    rewrite E1, E2. reflexivity.
  - intros s'. unfold sign_layer.
    repeat match goal with |- bind ?x _ = _ -> _ => destruct x as [?|]; cbn [bind]; [|discriminate] end.
    repeat match goal with |- context [let '(_, _) := ?x in _] => destruct x end.
    match goal with |- bind ?x _ = _ -> _ => destruct x as [?|]; cbn [bind]; [|discriminate] end. intros E. injection E. intros. subst. split; assumption.
Qed.
Lemma verify_layer_c_ok sig i s : (i < 256)%nat -> (let '(_, _, _, _, _, t, l) := s in idx_ok t l) ->
  verify_layer_c P HS c junk sig (z i) s = verify_layer P HS junk c sig i s
  /\ (forall s', verify_layer P HS junk c sig i s = Some s' -> let '(_, _, _, _, _, t, l) := s' in idx_ok t l).
Proof.
  destruct s as [[[[[[sp root] wa] ta] pa] t] l]. intros Hi [Ht Hl]. destruct (next_leaf t Ht) as (E1 & R1 & E2 & R2).
  pose proof (bnd_basic P Hwf) as Bd. split.
  - unfold verify_layer_c, verify_layer.
    rewrite (set_layer_addr_c_ok L ta _ (z i)) by (apply arg_V; lia). bs.
    rewrite set_tree_addr_c_ok by exact Ht. bs. rewrite copy_subtree_addr_c_ok. bs.
    rewrite (set_keypair_addr_c_ok L _ _ l) by (apply arg_V; exact Hl). bs.
    rewrite copy_keypair_addr_c_ok. bs. rewrite wots_bytes_ix. cbn [bind]. bs.
    rewrite wots_pk_from_sig_c_ok.
    match goal with |- bind ?x _ = bind ?x _ => destruct x as [[pk wa']|]; cbn [bind]; [|reflexivity] end.
    pose proof (e_LEN P Hwf) as HL. pose proof (e_TH P Hwf) as HT. cix (SPX_WOTS_LEN P); [|reflexivity]. bs.
    rewrite th_bytes. cbn [bind]. bs.
    rewrite (compute_root_c_ok _ _ _ _ l 0 (SPX_TREE_HEIGHT P)).
    + match goal with |- bind ?x _ = bind ?x _ => destruct x as [[rt ta']|]; cbn [bind]; [|reflexivity] end.
      rewrite E1, E2. reflexivity.
    + apply arg_V, Hl.
    + apply arg_K. lia.
    + apply (arg32_ev _ I32); [exact HT|lia].
    + lia.
    + lia.
  - intros s'. unfold verify_layer.
    repeat match goal with
    | |- bind ?x _ = _ -> _ => destruct x as [?|]; cbn [bind]; [|discriminate]
    | |- context [let '(_, _) := ?x in _] => destruct x
    end.
    intros E. injection E. intros. subst. split; assumption.
Qed.
End Core.

(** ** The public functions *)
Section Api.
Variable P : params.
Variable HS : suite.
Hypothesis Hwf : wf_params P = true.
Hypothesis Hbig : z (SPX_BYTES P) < 2 ^ 31.
Hypothesis Hok : suite_ok P HS.
Variable junk : nat -> nat -> Z.
Notation N := (p_n P).
Notation L := (hs_layout HS).

Lemma mult_n k : 0 <= k <= 3 -> ix (K k * xN P)%C = Some (Z.to_nat k * N)%nat.
Proof.
  clear Hok Hbig. intros Hk. pose proof (bnd_basic P Hwf) as Bd. pose proof (e_N P Hwf). assert (0 <= k * z N <= 768) by nia.
  cix (Z.to_nat k * N)%nat; [reflexivity|]. cbn [opz]. rewrite Nat2Z.inj_mul, Z2Nat.id by lia. reflexivity.
Qed.
Theorem seed_keypair_c_ok pk sk seed :
  crypto_sign_seed_keypair_c P HS junk pk sk seed = crypto_sign_seed_keypair P HS junk pk sk seed.
Proof.
  clear Hok. unfold crypto_sign_seed_keypair_c, crypto_sign_seed_keypair, xSEEDBYTES. rewrite !mult_n by lia.
  change (Z.to_nat 3) with 3%nat. change (Z.to_nat 2) with 2%nat. cbn [bind]. unfold CRYPTO_SEEDBYTES. bs. bs. bs. bs. bs. bs. bs.
  rewrite (merkle_gen_root_c_ok P HS Hwf Hbig). reflexivity.
Qed.
(** what hash_message returns *)
Lemma msg_idx c R pk m d t l : ctx_ok P HS c -> length R = N -> length pk = SPX_PK_BYTES P ->
  hs_hash_message HS c R pk m = Some (d, t, l) -> idx_ok t l.
Proof.
  intros Hc HR Hp E. destruct (ok_msg P HS Hok c R pk m Hc HR Hp) as (d' & t' & l' & E' & _ & _ & Ht & Hl).
  rewrite E in E'. injection E' as <- <- <-. pose proof (bnd_basic P Hwf) as Bd. unfold SPX_LEAF_BITS in Hl.
  assert (2 ^ z (SPX_TREE_BITS P) <= 2 ^ 64) by (apply Z.pow_le_mono_r; lia).
  assert (2 ^ z (SPX_TREE_HEIGHT P) <= 2 ^ 32) by (apply Z.pow_le_mono_r; lia). split; lia.
Qed.
Theorem signature_c_ok stream sig m sk :
  crypto_sign_signature_c P HS junk stream sig m sk = crypto_sign_signature P HS junk stream sig m sk.
Proof.
  pose proof (bnd_basic P Hwf) as Bd. unfold crypto_sign_signature_c, crypto_sign_signature, xPK_BYTES. rewrite !mult_n by lia.
  change (Z.to_nat 2) with 2%nat. cbn [bind]. fold (SPX_PK_BYTES P). bs. bs. bs. bs.
  rewrite (set_type_c_ok L _ _ SPX_ADDR_TYPE_WOTS) by (apply arg_K; split; [discriminate|reflexivity]). bs.
  rewrite (set_type_c_ok L _ _ SPX_ADDR_TYPE_HASHTREE) by (apply arg_K; split; [discriminate|reflexivity]). bs.
  match goal with |- bind ?x _ = bind ?x _ => destruct x as [[optrand st']|]; cbn [bind]; [|reflexivity] end. bs. bs.
  destruct (rd _ 0 N) as [R|] eqn:ER in |- *; cbn [bind]; [|reflexivity].
  match goal with |- bind (hs_hash_message HS ?c0 R ?pk0 m) _ = _ => set (c := c0); set (pk := pk0) in * end.
  destruct (hs_hash_message HS c R pk m) as [[[md tr] lf]|] eqn:Em; cbn [bind]; [|reflexivity].
  assert (Hi : idx_ok tr lf).
  { apply (msg_idx c R pk m md tr lf); [|exact (rd_length _ _ _ _ ER)| |exact Em].
    - unfold c, ctx_ok. cbn [c_pub_seed c_sk_seed c_state]. split; [|split; [|reflexivity]]; eapply rd_length; eassumption.
    - eapply rd_length. eassumption. }
  destruct Hi as [Ht Hl].
  rewrite set_tree_addr_c_ok by exact Ht. bs.
  rewrite (set_keypair_addr_c_ok L _ _ lf) by (apply arg_V; exact Hl). bs.
  pose proof (e_FORS_BYTES P Hwf Hbig). cix (SPX_FORS_BYTES P); [|reflexivity]. bs.
  rewrite (fors_sign_c_ok P HS Hwf Hbig).
  match goal with |- bind ?x _ = bind ?x _ => destruct x as [[fsig root]|]; cbn [bind]; [|reflexivity] end. bs.
  pose proof (e_D P Hwf) as HD.
  rewrite (cfor_iter (fun _ s => let '(_, _, _, _, _, t, l) := s in idx_ok t l) U32 (p_d P) (xD P) _ (sign_layer P HS junk c) eq_refl).
  - bs. pose proof (e_BYTES P Hwf Hbig) as HB. casg (z (SPX_BYTES P)); [|reflexivity|rg]. reflexivity.
  - intros i Hi. clt. reflexivity.
  - lia.
  - intros i s Hi Hs. apply (sign_layer_c_ok P HS Hwf Hbig); [lia|exact Hs].
  - split; assumption.
Qed.
Theorem verify_c_ok sig siglen m pk : 0 <= siglen < 2 ^ 64 ->
  crypto_sign_verify_c P HS junk sig siglen m pk = crypto_sign_verify P HS junk sig siglen m pk.
Proof.
  intros Hs. pose proof (bnd_basic P Hwf) as Bd. unfold crypto_sign_verify_c, crypto_sign_verify, xPK_BYTES.
  pose proof (e_BYTES P Hwf Hbig) as HB. ceq. destruct (siglen =? z (SPX_BYTES P)); cbn [negb]; [|reflexivity].
  rewrite !mult_n by lia. change (Z.to_nat 2) with 2%nat. cbn [bind]. fold (SPX_PK_BYTES P). bs.
  rewrite (set_type_c_ok L _ _ SPX_ADDR_TYPE_WOTS) by (apply arg_K; split; [discriminate|reflexivity]). bs.
  rewrite (set_type_c_ok L _ _ SPX_ADDR_TYPE_HASHTREE) by (apply arg_K; split; [discriminate|reflexivity]). bs.
  rewrite (set_type_c_ok L _ _ SPX_ADDR_TYPE_WOTSPK) by (apply arg_K; split; [discriminate|reflexivity]). bs.
  destruct (rd sig 0 N) as [R|] eqn:ER in |- *; cbn [bind]; [|reflexivity].
  destruct (rd pk 0 (SPX_PK_BYTES P)) as [pk2|] eqn:EP; cbn [bind]; [|reflexivity].
  match goal with |- bind (hs_hash_message HS ?c0 R pk2 m) _ = _ => set (c := c0) end.
  destruct (hs_hash_message HS c R pk2 m) as [[[md tr] lf]|] eqn:Em; cbn [bind]; [|reflexivity].
  assert (Hi : idx_ok tr lf).
  { apply (msg_idx c R pk2 m md tr lf); [|exact (rd_length _ _ _ _ ER)|exact (rd_length _ _ _ _ EP)|exact Em].
    unfold c, ctx_ok. cbn [c_pub_seed c_sk_seed c_state]. split; [|split; [|reflexivity]]; [eapply rd_length; eassumption|apply junk_length]. }
  destruct Hi as [Ht Hl].
  rewrite set_tree_addr_c_ok by exact Ht. bs.
  rewrite (set_keypair_addr_c_ok L _ _ lf) by (apply arg_V; exact Hl). bs.
  pose proof (e_FORS_BYTES P Hwf Hbig). cix (SPX_FORS_BYTES P); [|reflexivity]. bs.
  rewrite (fors_pk_from_sig_c_ok P HS Hwf Hbig). bs.
  pose proof (e_D P Hwf) as HD.
  rewrite (cfor_iter (fun _ s => let '(_, _, _, _, _, t, l) := s in idx_ok t l) U32 (p_d P) (xD P) _ (verify_layer P HS junk c sig) eq_refl).
  - reflexivity.
  - intros i Hi. clt. reflexivity.
  - lia.
  - intros i s Hi Hs'. apply (verify_layer_c_ok P HS Hwf Hbig); [lia|exact Hs'].
  - split; assumption.
Qed.
Lemma bytes_ix : ix (xBYTES P) = Some (SPX_BYTES P).
Proof. clear Hok. pose proof (e_BYTES P Hwf Hbig). cix (SPX_BYTES P); reflexivity. Qed.
Theorem sign_c_ok stream sm m sk : z (length m) < 2 ^ 64 ->
  crypto_sign_c P HS junk stream sm m sk = crypto_sign P HS junk stream sm m sk.
Proof.
  intros Hm. unfold crypto_sign_c, crypto_sign. rewrite bytes_ix. cbn [bind]. bs. rewrite signature_c_ok.
  destruct (crypto_sign_signature P HS junk stream _ m sk) as [[[[r sig] len] st]|] eqn:E; [|reflexivity]. cbn [bind]. bs. bs.
  assert (El : len = z (SPX_BYTES P)).
  { revert E. unfold crypto_sign_signature.
    repeat match goal with
    | |- bind ?x _ = _ -> _ => destruct x as [?|]; cbn [bind]; [|discriminate]
    | |- context [let '(_, _) := ?x in _] => destruct x
    end. intros [= _ _ <- _]. reflexivity. }
  subst len.
  rewrite (asg_is U64 _ U64 (u64 (z (SPX_BYTES P) + z (length m))) (u64 (z (SPX_BYTES P) + z (length m))));
    [reflexivity| |reflexivity|apply in_range_U64, Z.mod_pos_bound; reflexivity].
  apply (ev_bin_mod OAdd _ _ U64 U64); try reflexivity; try discriminate; [evc; reflexivity|evc; reflexivity|rg|rg].
Qed.
Theorem open_c_ok m sm smlen pk : 0 <= smlen < 2 ^ 64 ->
  crypto_sign_open_c P HS junk m sm smlen pk = crypto_sign_open P HS junk m sm smlen pk.
Proof.
  intros Hs. unfold crypto_sign_open_c, crypto_sign_open. pose proof (e_BYTES P Hwf Hbig) as HB. clt.
  destruct (smlen <? z (SPX_BYTES P)) eqn:E; [reflexivity|].
  casg (smlen - z (SPX_BYTES P)); [|reflexivity|rg]. rewrite bytes_ix. cbn [bind]. bs.
  cix (Z.to_nat (smlen - z (SPX_BYTES P))); [|lia]. bs.
  casg (z (SPX_BYTES P)); [|reflexivity|rg]. rewrite verify_c_ok by lia. reflexivity.
Qed.
End Api.
