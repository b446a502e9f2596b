(** treehash (ref/utils.c) computes the root and authentication path of the recursive tree. *)
From Verif Require Import Base BaseFacts Params Address Suite Utils Spec SpecFacts AdrsEnc
  AddressProofs Refine TreeProofs.

(** The set bits of k at positions h .. h+n-1, highest first: the heights on the stack. *)
Fixpoint ups (n h : nat) (k : Z) : list nat :=
  match n with
  | O => []
  | S n' => ups n' (S h) k ++ (if Z.odd (k / 2 ^ Z.of_nat h) then [h] else [])
  end.

Lemma ups_length n h k : (length (ups n h k) <= n)%nat.
Proof.
  revert h; induction n as [|n IH]; intros h; cbn [ups]; [auto|].
  rewrite app_length. specialize (IH (S h)). destruct (Z.odd _); cbn; lia.
Qed.

Lemma ups_ge n h k : Forall (fun x => (h <= x < h + n)%nat) (ups n h k).
Proof.
  revert h; induction n as [|n IH]; intros h; cbn [ups]; [constructor|].
  apply Forall_app. split.
  - eapply Forall_impl; [|apply IH]. cbn. intros. lia.
  - destruct (Z.odd _); repeat constructor; lia.
Qed.

Lemma div_pow_le k k' h h' :
  (h <= h')%nat -> k / 2 ^ Z.of_nat h = k' / 2 ^ Z.of_nat h ->
  k / 2 ^ Z.of_nat h' = k' / 2 ^ Z.of_nat h'.
Proof.
  intros Hh E. replace h' with (h + (h' - h))%nat by lia.
  rewrite Nat2Z.inj_add, Z.pow_add_r by lia.
  pose proof (pow2_pos h). pose proof (pow2_pos (h' - h)).
  rewrite <- !Z.div_div by lia. now rewrite E.
Qed.

Lemma ups_ext n h k k' : k / 2 ^ Z.of_nat h = k' / 2 ^ Z.of_nat h -> ups n h k = ups n h k'.
Proof.
  revert h; induction n as [|n IH]; intros h E; cbn [ups]; [auto|].
  rewrite E. f_equal. apply IH. apply div_pow_le with h; auto.
Qed.

(** Top bit clear. *)
Lemma ups_top n h k : Z.odd (k / 2 ^ Z.of_nat (h + n)) = false -> ups (S n) h k = ups n h k.
Proof.
  revert h; induction n as [|n IH]; intros h E.
  - cbn. rewrite Nat.add_0_r in E. now rewrite E.
  - change (ups (S (S n)) h k) with
      (ups (S n) (S h) k ++ (if Z.odd (k / 2 ^ Z.of_nat h) then [h] else [])).
    rewrite IH; [reflexivity|]. now replace (S h + n)%nat with (h + S n)%nat by lia.
Qed.

(** Low bits clear. *)
Lemma ups_low m n h k :
  (forall x, (h <= x < h + m)%nat -> Z.odd (k / 2 ^ Z.of_nat x) = false) ->
  ups (m + n) h k = ups n (h + m) k.
Proof.
  revert h; induction m as [|m IH]; intros h E; cbn [Nat.add ups].
  - now rewrite Nat.add_0_r.
  - rewrite E by lia. rewrite app_nil_r, IH.
    + f_equal. lia.
    + intros. apply E. lia.
Qed.

Lemma ups_0 n h : ups n h 0 = [].
Proof.
  revert h; induction n as [|n IH]; intros h; cbn [ups]; [auto|].
  rewrite IH, Z.div_0_l by (pose proof (pow2_pos h); lia). reflexivity.
Qed.

(** Incrementing k: the low h bits set, bit h clear. *)
Lemma ups_succ n h k :
  k mod 2 ^ Z.of_nat h = 2 ^ Z.of_nat h - 1 -> Z.odd (k / 2 ^ Z.of_nat h) = false ->
  ups (h + S n) 0 (k + 1) = ups n (S h) k ++ [h].
Proof.
  intros Hlow Hev. pose proof (succ_j k h Hlow) as E. pose proof (pow2_pos h) as Hp.
  set (j := k / 2 ^ Z.of_nat h) in *.
  rewrite ups_low.
  - cbn [Nat.add ups]. rewrite <- E, Z.div_mul by lia.
    rewrite Z.odd_add, Hev. cbn [xorb Z.odd]. f_equal. apply ups_ext. rewrite E.
    rewrite <- !div_pow2_S'. rewrite <- E, Z.div_mul by lia. fold j.
    assert (Z.even j = true) as Ee by (rewrite <- Z.negb_odd, Hev; reflexivity).
    apply Z.even_spec in Ee. destruct Ee as [q ->].
    rewrite (Z.mul_comm 2 q), Z.div_mul, Z.div_add_l by lia. rewrite (Z.div_small 1) by lia. lia.
  - intros x Hx. rewrite <- E.
    assert (Eh : 2 ^ Z.of_nat h = 2 ^ Z.of_nat (h - S x) * 2 * 2 ^ Z.of_nat x).
    { rewrite <- (Z.pow_1_r 2) at 3. rewrite <- !Z.pow_add_r by lia. f_equal. lia. }
    rewrite Eh, Z.mul_assoc, Z.div_mul by (pose proof (pow2_pos x); lia).
    rewrite Z.mul_assoc, Z.mul_comm, Z.odd_mul. reflexivity.
Qed.

Lemma bit_small k H : 0 <= k < 2 ^ Z.of_nat H -> Z.odd (k / 2 ^ Z.of_nat H) = false.
Proof. intros. now rewrite Z.div_small. Qed.

Lemma get_mid {A} (l : list A) x r i : i = length l -> get (l ++ x :: r) i = Some x.
Proof. intros ->. unfold get. now rewrite nth_error_app2, Nat.sub_diag by lia. Qed.

Section Treehash.
Variable P : params.
Variable HS : suite.
Variable c : ctx (hs_st HS).
Variable junk : nat -> nat -> Z.
Notation N := (p_n P).
Notation L := (hs_layout HS).
Hypothesis Hn : (1 <= N)%nat.
Hypothesis Hok : suite_ok P HS.
Hypothesis Hc : ctx_ok P HS c.
Notation T := (codeT P HS c).
Variables t_layer t_tree t_type t_kp : Z.
Notation A := (fun w1 w2 => mkAdrs t_layer t_tree t_type t_kp w1 w2).
Variable H : nat.
Variable off : Z.
Variable hash2 : nat -> Z -> bytes -> bytes.
Hypothesis Hhash2 : forall h i x, (1 <= h <= H)%nat ->
  T (A (Z.of_nat h) (i + off / 2 ^ Z.of_nat h)) x = hash2 h i x.
Variable leaf : Z -> bytes.
Hypothesis Hleaf : forall i, length (leaf i) = N.
Notation nd := (node leaf hash2).

Notation nlen := (node_len P HS c Hn Hok Hc t_layer t_tree t_type t_kp H off hash2 Hhash2 leaf Hleaf).
Notation ainv := (auth_inv P H hash2 leaf).
Notation amid := (auth_mid P H hash2 leaf).

(** Contents of the stack below height h when k leaves are done. *)
Definition cells (k : Z) (es : list nat) : list bytes :=
  map (fun h => nd h (k / 2 ^ Z.of_nat h - 1)) es.

Lemma cells_chunks k es : Forall (fun h => (h <= H)%nat) es -> chunks_of N (cells k es).
Proof.
  clear junk. intros E. unfold cells, chunks_of. apply Forall_map. eapply Forall_impl; [|exact E].
  intros h Hh. now apply nlen.
Qed.

(** The conditional write at height h < H. *)
Lemma auth_write leaf_idx k h au0 au :
  (h < H)%nat -> 0 <= k -> 0 <= leaf_idx -> k mod 2 ^ Z.of_nat h = 2 ^ Z.of_nat h - 1 ->
  amid leaf_idx k h au0 au ->
  exists au', (if sib leaf_idx h =? k / 2 ^ Z.of_nat h
               then wr (concat au) (h * N) (nd h (k / 2 ^ Z.of_nat h))
               else Some (concat au)) = Some (concat au')
    /\ amid leaf_idx k (S h) au0 au'.
Proof.
  clear junk. intros Hh Hk Hl Hlow (A1 & A2 & A3).
  set (j := k / 2 ^ Z.of_nat h).
  pose proof (succ_j k h Hlow) as Hsucc. fold j in Hsucc.
  destruct (done_step h (sib leaf_idx h) j k Hsucc) as [D1 D2].
  destruct (Z.eqb_spec (sib leaf_idx h) j) as [E|E].
  - exists (upd h (nd h j) au). split.
    + apply wr_chunk; auto; [lia|]. apply nlen; lia.
    + split; [|split].
      * apply chunks_upd; auto. apply nlen; lia.
      * now rewrite upd_length.
      * intros h' Hh'. destruct (Nat.eq_dec h' h) as [->|Hne].
        -- rewrite nth_error_upd_same by lia.
           replace (h <? S h)%nat with true by (symmetry; apply Nat.ltb_lt; lia).
           now rewrite E, D2.
        -- rewrite nth_error_upd_other by auto. rewrite A3 by auto.
           destruct (Nat.ltb_spec h' h), (Nat.ltb_spec h' (S h)); auto; lia.
  - exists au. split; [reflexivity|]. split; [auto|split; [auto|]].
    intros h' Hh'. rewrite A3 by auto.
    destruct (Nat.eq_dec h' h) as [->|Hne].
    + rewrite Nat.ltb_irrefl.
      replace (h <? S h)%nat with true by (symmetry; apply Nat.ltb_lt; lia).
      rewrite D1 by congruence. reflexivity.
    + destruct (Nat.ltb_spec h' h), (Nat.ltb_spec h' (S h)); auto; lia.
Qed.

(** At the root height nothing is written, provided the leaf index is not in the next tree; before
    the last leaf the root height is not reached. *)
Definition fits (leaf_idx k : Z) : Prop :=
  leaf_idx / 2 ^ Z.of_nat H <> 1 \/ k + 1 < 2 ^ Z.of_nat H.
Lemma auth_write_top leaf_idx k h au0 au :
  (h <= H)%nat -> 0 <= k < 2 ^ Z.of_nat H -> 0 <= leaf_idx -> fits leaf_idx k ->
  k mod 2 ^ Z.of_nat h = 2 ^ Z.of_nat h - 1 ->
  amid leaf_idx k h au0 au ->
  exists au', (if sib leaf_idx h =? k / 2 ^ Z.of_nat h
               then wr (concat au) (h * N) (nd h (k / 2 ^ Z.of_nat h))
               else Some (concat au)) = Some (concat au')
    /\ amid leaf_idx k (S h) au0 au'.
Proof.
  clear junk. intros Hh Hk Hl Hne Hlow Hm. destruct (Nat.eq_dec h H) as [->|Hlt].
  - rewrite Z.mod_small in Hlow by exact Hk.
    destruct Hne as [Hne|Hne]; [|clear - Hne Hlow; lia].
    exists au. rewrite Z.div_small by lia.
    destruct (Z.eqb_spec (sib leaf_idx H) 0) as [E|E].
    + exfalso. apply Hne. unfold sib in E. apply Z.lxor_eq in E. exact E.
    + split; [reflexivity|]. destruct Hm as (A1 & A2 & A3). split; [auto|split; [auto|]].
      intros h' Hh'. rewrite A3 by auto.
      destruct (Nat.ltb_spec h' H), (Nat.ltb_spec h' (S H)); auto; lia.
  - apply auth_write; auto; lia.
Qed.

Lemma while_ok n h fuel k leaf_idx au0 au rest hrest w1 w2 :
  (h + n = H)%nat -> (n <= fuel)%nat -> 0 <= k < 2 ^ Z.of_nat H -> 0 <= leaf_idx ->
  fits leaf_idx k ->
  k mod 2 ^ Z.of_nat h = 2 ^ Z.of_nat h - 1 ->
  amid leaf_idx k (S h) au0 au ->
  exists es au' rest' hrest' w1' w2',
    es = ups (S H) 0 (k + 1)
    /\ treehash_while P HS c leaf_idx off fuel k
         (concat (cells k (ups n h k)) ++ nd h (k / 2 ^ Z.of_nat h) ++ rest)
         (map Z.of_nat (ups n h k) ++ Z.of_nat h :: hrest)
         (S (length (ups n h k))) (concat au) (enc L (A w1 w2))
       = Some (concat (cells (k + 1) es) ++ rest', map Z.of_nat es ++ hrest', length es,
               concat au', enc L (A w1' w2'))
    /\ ainv leaf_idx (k + 1) au0 au'
    /\ (length (concat (cells (k + 1) es) ++ rest')
        = length (concat (cells k (ups n h k)) ++ nd h (k / 2 ^ Z.of_nat h) ++ rest))%nat
    /\ (length (map Z.of_nat es ++ hrest')
        = length (map Z.of_nat (ups n h k) ++ Z.of_nat h :: hrest))%nat.
Proof.
  clear junk. revert h fuel au rest hrest w1 w2.
  induction n as [|n IH]; intros h fuel au rest hrest w1 w2 Hh Hf Hk Hl Hne Hlow Hm.
  - (* root height *)
    assert (h = H) as -> by lia. cbn [ups length map cells concat app].
    assert (Ek : k = 2 ^ Z.of_nat H - 1) by (rewrite Z.mod_small in Hlow; lia).
    assert (Ees : ups (S H) 0 (k + 1) = [H]).
    { replace (S H) with (H + 1)%nat by lia. rewrite ups_succ; auto. now apply bit_small. }
    exists [H], au, rest, hrest, w1, w2. cbn [map cells concat app length].
    assert (Enode : (k + 1) / 2 ^ Z.of_nat H - 1 = k / 2 ^ Z.of_nat H).
    { replace (k + 1) with (1 * 2 ^ Z.of_nat H) by lia. pose proof (pow2_pos H).
      rewrite Z.div_mul, Z.div_small by lia. lia. }
    rewrite Enode, app_nil_r. repeat split; auto.
    + destruct fuel; reflexivity.
    + apply Hm.
    + apply Hm.
    + apply (auth_mid_full P H hash2 leaf leaf_idx k (S H) au0 au Hm). intros; lia.
  - cbn [ups]. set (j := k / 2 ^ Z.of_nat h).
    set (up := ups n (S h) k).
    assert (Hup : Forall (fun x => (S h <= x < S h + n)%nat) up) by apply ups_ge.
    destruct (Z.odd j) eqn:Ej.
    + (* merge *)
      destruct fuel as [|fuel]; [lia|].
      rewrite app_length. cbn [length]. unfold cells. rewrite !map_app, concat_app. cbn [map concat].
      rewrite app_nil_r. fold (cells k up). fold j.
      cbn [treehash_while].
      replace (2 <=? S (length up + 1))%nat with true by (symmetry; apply Nat.leb_le; lia).
      rewrite get_mid by (rewrite app_length, map_length; cbn; lia). cbn [bind].
      rewrite <- app_assoc. cbn [app].
      rewrite get_mid by (rewrite map_length; cbn; lia). cbn [bind].
      rewrite Z.eqb_refl.
      replace (Z.of_nat h + 1) with (Z.of_nat (S h)) by lia.
      rewrite !Z.shiftr_div_pow2 by lia.
      rewrite set_height_enc. cbn [bind]. rewrite set_index_enc. cbn [bind]. rewrite enc_u32.
      assert (Hcl : length (concat (cells k up)) = (length up * N)%nat).
      { rewrite (chunks_length N). { unfold cells. now rewrite map_length. }
        apply cells_chunks. eapply Forall_impl; [|exact Hup]. cbn. lia. }
      assert (HhH : (h <= H)%nat) by lia.
      pose proof (nlen h (j - 1) HhH) as Nl. pose proof (nlen h j HhH) as Nr.
      rewrite <- app_assoc. rewrite (app_assoc (nd h (j - 1))).
      rewrite rd_app'; [|rewrite Hcl; f_equal; lia|rewrite app_length; lia]. cbn [bind].
      rewrite (thash_enc P HS c Hn Hok Hc 2) by (rewrite app_length; lia). cbn [bind].
      unfold with_w2, with_w1; cbn [a_layer a_tree a_type a_kp a_w1 a_w2].
      rewrite Hhash2 by lia.
      pose proof (div2_odd j Ej) as Ej2.
      assert (Enode : hash2 (S h) (k / 2 ^ Z.of_nat (S h)) (nd h (j - 1) ++ nd h j)
                      = nd (S h) (k / 2 ^ Z.of_nat (S h))).
      { cbn [node]. rewrite <- div_pow2_S'. fold j. f_equal. f_equal; f_equal; lia. }
      rewrite Enode.
      assert (HSH : (S h <= H)%nat) by lia.
      pose proof (nlen (S h) (k / 2 ^ Z.of_nat (S h)) HSH) as NS.
      rewrite <- app_assoc. rewrite wr_app'; [|rewrite Hcl; f_equal; lia|lia]. cbn [bind].
      replace (S (length up + 1) - 1 - 1)%nat with (length up) by lia.
      change (Z.of_nat h :: Z.of_nat h :: hrest) with ([Z.of_nat h] ++ Z.of_nat h :: hrest).
      rewrite wr_app' by (rewrite ?map_length; reflexivity). cbn [bind].
      rewrite rd_app'; [|now rewrite Hcl|auto]. cbn [bind]. rewrite Nat2Z.id.
      assert (Hlow' : k mod 2 ^ Z.of_nat (S h) = 2 ^ Z.of_nat (S h) - 1).
      { rewrite pow2_S. pose proof (pow2_pos h). rewrite (Z.mul_comm 2), Z.rem_mul_r by lia. fold j.
        rewrite Hlow. rewrite Zmod_odd, Ej. lia. }
      destruct (auth_write_top leaf_idx k (S h) au0 au) as (au1 & Ew & Hm'); auto.
      fold (sib leaf_idx (S h)). rewrite Ew. cbn [bind].
      replace (S (length up + 1) - 1)%nat with (S (length up)) by lia.
      destruct (IH (S h) fuel au1 (nd h j ++ rest) (Z.of_nat h :: hrest) (Z.of_nat (S h))
                  (k / 2 ^ Z.of_nat (S h) + off / 2 ^ Z.of_nat (S h)))
        as (es & au' & rest' & hrest' & w1' & w2' & E1 & E2 & E3 & E4 & E5);
        [clear - Hh; lia|clear - Hf; lia|exact Hk|exact Hl|exact Hne|exact Hlow'|exact Hm'|].
      exists es, au', rest', hrest', w1', w2'.
      split; [exact E1|]. split; [exact E2|]. split; [exact E3|]. split.
      * fold (cells (k + 1) es). rewrite E4. fold up. rewrite !app_length. clear - Nl NS. lia.
      * rewrite E5. fold up. rewrite !app_length. cbn [length]. clear. lia.
    + (* stop *)
      rewrite app_nil_r.
      assert (Ees : ups (S H) 0 (k + 1) = up ++ [h]).
      { replace (S H) with (h + S (S n))%nat by lia. rewrite ups_succ; auto. f_equal.
        apply ups_top. replace (S h + n)%nat with H by lia. now apply bit_small. }
      exists (up ++ [h]), au, rest, hrest, w1, w2.
      assert (Ecell : concat (cells (k + 1) (up ++ [h])) ++ rest
                      = concat (cells k up) ++ nd h j ++ rest).
      { unfold cells. rewrite map_app, concat_app, <- app_assoc. cbn [map concat].
        rewrite app_nil_r. pose proof (pow2_pos h).
        pose proof (succ_j k h Hlow) as Hsucc. fold j in Hsucc.
        f_equal; [f_equal|].
        - apply map_ext_in. intros x Hx. rewrite Forall_forall in Hup. specialize (Hup x Hx).
          do 2 f_equal. apply div_pow_le with (S h); [lia|].
          rewrite <- !div_pow2_S'. rewrite <- Hsucc, Z.div_mul by lia. fold j.
          assert (Z.even j = true) as Ee by (rewrite <- Z.negb_odd, Ej; reflexivity).
          apply Z.even_spec in Ee. destruct Ee as [q ->].
          rewrite (Z.mul_comm 2 q), Z.div_mul, Z.div_add_l by lia.
          rewrite (Z.div_small 1) by lia. lia.
        - f_equal. f_equal. rewrite <- Hsucc, Z.div_mul by lia. lia. }
      rewrite Ecell. rewrite map_app, <- app_assoc. cbn [map app].
      rewrite app_length. cbn [length]. replace (length up + 1)%nat with (S (length up)) by lia.
      split; [symmetry; exact Ees|]. split; [|split; [|split; reflexivity]].
      * assert (Hstop : (if (2 <=? S (length up))%nat
                         then h1 <- get (map Z.of_nat up ++ Z.of_nat h :: hrest) (S (length up) - 1) ;;
                              h2 <- get (map Z.of_nat up ++ Z.of_nat h :: hrest) (S (length up) - 2) ;;
                              Some (h1 =? h2)
                         else Some false) = Some false).
        { destruct (Nat.leb_spec 2 (S (length up))) as [H2|]; [|reflexivity].
          rewrite get_mid by (rewrite map_length; lia). cbn [bind].
          destruct (exists_last (l := up)) as (up' & x & Eup).
          { intros E. rewrite E in H2. cbn in H2. lia. }
          rewrite Eup in Hup |- *. apply Forall_app in Hup. destruct Hup as [_ Hx].
          inversion Hx; subst. rewrite map_app, <- app_assoc. cbn [map app].
          rewrite get_mid by (rewrite map_length, app_length; cbn; lia). cbn [bind].
          f_equal. apply Z.eqb_neq. lia. }
        destruct fuel as [|fuel]; [lia|]. cbn [treehash_while].
        destruct (2 <=? S (length up))%nat; [|reflexivity].
        destruct (get _ (S (length up) - 1)) as [h1|]; cbn [bind] in *; [|discriminate].
        destruct (get _ (S (length up) - 2)) as [h2|]; cbn [bind] in *; [|discriminate].
        destruct (h1 =? h2); [discriminate|reflexivity].
      * apply (auth_mid_full P H hash2 leaf leaf_idx k (S h) au0 au Hm). intros h' Hh'.
        unfold done. apply Bool.eq_true_iff_eq. rewrite !Z.leb_le.
        assert ((sib leaf_idx h' + 1) * 2 ^ Z.of_nat h' <> k + 1); [|lia].
        pose proof (pow2_pos h).
        pose proof (succ_j k h Hlow) as Hsucc. fold j in Hsucc. rewrite <- Hsucc. intros E.
        assert (Eh : 2 ^ Z.of_nat h' = 2 ^ Z.of_nat (h' - S h) * 2 * 2 ^ Z.of_nat h).
        { rewrite <- (Z.pow_1_r 2) at 3. rewrite <- !Z.pow_add_r by lia. f_equal. lia. }
        rewrite Eh, Z.mul_assoc in E. apply Z.mul_reg_r in E; [|lia].
        assert (Z.even j = true) as Ee by (rewrite <- Z.negb_odd, Ej; reflexivity).
        apply Z.even_spec in Ee. destruct Ee as [q Eq]. lia.
Qed.

(** A leaf index in the next tree: merging up to the root writes outside the path buffer. *)
Lemma while_none n h fuel k leaf_idx au0 au rest hrest w1 w2 :
  (h + n = H)%nat -> (1 <= n)%nat -> k = 2 ^ Z.of_nat H - 1 -> 0 <= leaf_idx ->
  leaf_idx / 2 ^ Z.of_nat H = 1 ->
  k mod 2 ^ Z.of_nat h = 2 ^ Z.of_nat h - 1 ->
  amid leaf_idx k (S h) au0 au ->
  treehash_while P HS c leaf_idx off fuel k
    (concat (cells k (ups n h k)) ++ nd h (k / 2 ^ Z.of_nat h) ++ rest)
    (map Z.of_nat (ups n h k) ++ Z.of_nat h :: hrest)
    (S (length (ups n h k))) (concat au) (enc L (A w1 w2)) = None.
Proof.
  clear junk. revert h fuel au rest hrest w1 w2.
  induction n as [|n IH]; intros h fuel au rest hrest w1 w2 Hh Hn1 Ek Hl Heq Hlow Hm; [lia|].
  pose proof (pow2_pos H) as HpH.
  assert (Hk : 0 <= k < 2 ^ Z.of_nat H) by (clear - Ek HpH; lia).
  assert (Ej : Z.odd (k / 2 ^ Z.of_nat h) = true).
  { subst k. clear - Hh. pose proof (pow2_pos h). pose proof (pow2_pos n).
    assert (E : 2 ^ Z.of_nat H = 2 ^ Z.of_nat n * 2 * 2 ^ Z.of_nat h).
    { rewrite <- (Z.pow_1_r 2) at 3. rewrite <- !Z.pow_add_r by lia. f_equal. lia. }
    replace (2 ^ Z.of_nat H - 1)
      with ((2 * (2 ^ Z.of_nat n - 1) + 1) * 2 ^ Z.of_nat h + (2 ^ Z.of_nat h - 1)) by (rewrite E; ring).
    rewrite Z.div_add_l, (Z.div_small (_ - 1)) by lia. rewrite Z.add_0_r.
    apply Z.odd_spec. eexists. reflexivity. }
  cbn [ups]. set (j := k / 2 ^ Z.of_nat h) in *.
  set (up := ups n (S h) k).
  assert (Hup : Forall (fun x => (S h <= x < S h + n)%nat) up) by apply ups_ge.
  rewrite Ej.
  destruct fuel as [|fuel].
  { cbn [treehash_while]. destruct (2 <=? _)%nat eqn:E2.
    - rewrite app_length. cbn [length].
      rewrite get_mid by (rewrite map_length, app_length; cbn; lia). cbn [bind].
      rewrite map_app, <- app_assoc. cbn [map app].
      rewrite get_mid by (rewrite map_length; cbn; lia). cbn [bind]. now rewrite Z.eqb_refl.
    - apply Nat.leb_gt in E2. rewrite app_length in E2. cbn in E2. lia. }
  rewrite app_length. cbn [length]. unfold cells. rewrite !map_app, concat_app. cbn [map concat].
  rewrite app_nil_r. fold (cells k up). fold j.
  cbn [treehash_while].
  replace (2 <=? S (length up + 1))%nat with true by (symmetry; apply Nat.leb_le; lia).
  rewrite get_mid by (rewrite app_length, map_length; cbn; lia). cbn [bind].
  rewrite <- app_assoc. cbn [app].
  rewrite get_mid by (rewrite map_length; cbn; lia). cbn [bind].
  rewrite Z.eqb_refl.
  replace (Z.of_nat h + 1) with (Z.of_nat (S h)) by lia.
  rewrite !Z.shiftr_div_pow2 by lia.
  rewrite set_height_enc. cbn [bind]. rewrite set_index_enc. cbn [bind]. rewrite enc_u32.
  assert (Hcl : length (concat (cells k up)) = (length up * N)%nat).
  { rewrite (chunks_length N). { unfold cells. now rewrite map_length. }
    apply cells_chunks. eapply Forall_impl; [|exact Hup]. cbn. lia. }
  assert (HhH : (h <= H)%nat) by lia.
  pose proof (nlen h (j - 1) HhH) as Nl. pose proof (nlen h j HhH) as Nr.
  rewrite <- app_assoc. rewrite (app_assoc (nd h (j - 1))).
  rewrite rd_app'; [|rewrite Hcl; f_equal; lia|rewrite app_length; lia]. cbn [bind].
  rewrite (thash_enc P HS c Hn Hok Hc 2) by (rewrite app_length; lia). cbn [bind].
  unfold with_w2, with_w1; cbn [a_layer a_tree a_type a_kp a_w1 a_w2].
  rewrite Hhash2 by lia.
  pose proof (div2_odd j Ej) as Ej2.
  assert (Enode : hash2 (S h) (k / 2 ^ Z.of_nat (S h)) (nd h (j - 1) ++ nd h j)
                  = nd (S h) (k / 2 ^ Z.of_nat (S h))).
  { cbn [node]. rewrite <- div_pow2_S'. fold j. f_equal. f_equal; f_equal; lia. }
  rewrite Enode.
  assert (HSH : (S h <= H)%nat) by lia.
  pose proof (nlen (S h) (k / 2 ^ Z.of_nat (S h)) HSH) as NS.
  rewrite <- app_assoc. rewrite wr_app'; [|rewrite Hcl; f_equal; lia|lia]. cbn [bind].
  replace (S (length up + 1) - 1 - 1)%nat with (length up) by lia.
  change (Z.of_nat h :: Z.of_nat h :: hrest) with ([Z.of_nat h] ++ Z.of_nat h :: hrest).
  rewrite wr_app' by (rewrite ?map_length; reflexivity). cbn [bind].
  rewrite rd_app'; [|now rewrite Hcl|auto]. cbn [bind]. rewrite Nat2Z.id.
  assert (Hlow' : k mod 2 ^ Z.of_nat (S h) = 2 ^ Z.of_nat (S h) - 1).
  { rewrite pow2_S. pose proof (pow2_pos h). rewrite (Z.mul_comm 2), Z.rem_mul_r by lia. fold j.
    rewrite Hlow. rewrite Zmod_odd, Ej. lia. }
  destruct (Nat.eq_dec (S h) H) as [Eh|Eh].
  - (* the root *)
    replace (Z.lxor (leaf_idx / 2 ^ Z.of_nat (S h)) 1 =? k / 2 ^ Z.of_nat (S h)) with true.
    2:{ symmetry. apply Z.eqb_eq. rewrite Eh, Heq, Z.div_small by exact Hk. reflexivity. }
    destruct Hm as (A1 & A2 & A3).
    unfold wr. rewrite (chunks_length N) by exact A1. rewrite A2, Eh.
    match goal with |- context [(?a <=? ?b)%nat] => replace (a <=? b)%nat with false end.
    2:{ symmetry. apply Nat.leb_gt. rewrite <- Eh. rewrite NS. clear - Hn. lia. }
    reflexivity.
  - destruct (auth_write leaf_idx k (S h) au0 au) as (au1 & Ew & Hm'); auto;
      [clear - Hh Eh; lia|clear - Hk; lia|].
    fold (sib leaf_idx (S h)). rewrite Ew. cbn [bind].
    replace (S (length up + 1) - 1)%nat with (S (length up)) by lia.
    apply IH; auto; clear - Hh Eh; lia.
Qed.

Variable gen_leaf : Z -> bytes -> option bytes.
Hypothesis Hgen : forall k w1 w2, 0 <= k < 2 ^ Z.of_nat H ->
  gen_leaf (u32 (k + off)) (enc L (A w1 w2)) = Some (leaf k).

Lemma for_ok m k leaf_idx au0 au rest hrest w1 w2 :
  0 <= k -> k + Z.of_nat m = 2 ^ Z.of_nat H -> 0 <= leaf_idx -> leaf_idx / 2 ^ Z.of_nat H <> 1 ->
  ainv leaf_idx k au0 au ->
  length (concat (cells k (ups (S H) 0 k)) ++ rest) = ((H + 1) * N)%nat ->
  length (map Z.of_nat (ups (S H) 0 k) ++ hrest) = (H + 1)%nat ->
  exists rest' au' w1' w2',
    treehash_for P HS c gen_leaf leaf_idx off H m k (concat (cells k (ups (S H) 0 k)) ++ rest)
      (map Z.of_nat (ups (S H) 0 k) ++ hrest) (length (ups (S H) 0 k)) (concat au)
      (enc L (A w1 w2))
    = Some (nd H 0 ++ rest', concat au', enc L (A w1' w2'))
    /\ ainv leaf_idx (2 ^ Z.of_nat H) au0 au'.
Proof.
  clear junk. revert k au rest hrest w1 w2.
  induction m as [|m IH]; intros k au rest hrest w1 w2 Hk Hm Hl Hne Hau Hst Hhs;
    cbn [treehash_for].
  - assert (k = 2 ^ Z.of_nat H) as -> by lia.
    assert (Ees : ups (S H) 0 (2 ^ Z.of_nat H) = [H]).
    { replace (2 ^ Z.of_nat H) with (2 ^ Z.of_nat H - 1 + 1) by lia. pose proof (pow2_pos H).
      replace (S H) with (H + 1)%nat by lia. rewrite ups_succ; auto.
      - rewrite Z.mod_small; lia.
      - apply bit_small. lia. }
    rewrite Ees. cbn [cells map concat]. rewrite app_nil_r.
    replace (2 ^ Z.of_nat H / 2 ^ Z.of_nat H - 1) with 0.
    2:{ rewrite Z.div_same; [lia|]. pose proof (pow2_pos H). lia. }
    do 4 eexists. split; [reflexivity|]. exact Hau.
  - assert (Hk2 : 0 <= k < 2 ^ Z.of_nat H) by lia.
    assert (Eup : ups (S H) 0 k = ups H 0 k) by (apply ups_top; now apply bit_small).
    rewrite Eup in *. set (up := ups H 0 k) in *.
    assert (Hupl : (length up <= H)%nat) by apply ups_length.
    assert (Hup : Forall (fun x => (0 <= x < 0 + H)%nat) up) by apply ups_ge.
    assert (Hcl : length (concat (cells k up)) = (length up * N)%nat).
    { rewrite (chunks_length N). { unfold cells. now rewrite map_length. }
      apply cells_chunks. eapply Forall_impl; [|exact Hup]. cbn. lia. }
    rewrite app_length, Hcl in Hst. rewrite app_length, map_length in Hhs.
    rewrite Hgen by auto. cbn [bind].
    destruct hrest as [|h0 hrest]; [cbn in Hhs; lia|]. cbn [length] in Hhs.
    assert (exists r1 r2, rest = r1 ++ r2 /\ length r1 = N) as (r1 & r2 & -> & Hr1).
    { exists (firstn N rest), (skipn N rest). rewrite firstn_skipn. split; auto.
      rewrite firstn_length. nia. }
    rewrite wr_app' by (rewrite ?Hcl, ?Hleaf; auto). cbn [bind].
    change (h0 :: hrest) with ([h0] ++ hrest).
    replace (S (length up) - 1)%nat with (length up) by lia.
    rewrite wr_app' by (rewrite ?map_length; reflexivity). cbn [bind].
    rewrite rd_app' by (rewrite ?Hcl, ?Hleaf; auto). cbn [bind].
    assert (Hmod : k mod 2 ^ Z.of_nat 0 = 2 ^ Z.of_nat 0 - 1) by (cbn; apply Z.mod_1_r).
    assert (Hm0 : amid leaf_idx k 0 au0 au).
    { destruct Hau as (A1 & A2 & A3). split; [auto|split; [auto|]]. intros h' Hh'. now apply A3. }
    assert (Hfit : fits leaf_idx k) by (left; exact Hne).
    destruct (auth_write_top leaf_idx k 0 au0 au) as (au1 & Ew & Hm1); auto; [lia|].
    unfold sib in Ew. change (2 ^ Z.of_nat 0) with 1 in Ew. rewrite !Z.div_1_r in Ew.
    cbn [Nat.mul node] in Ew. rewrite Ew. cbn [bind].
    destruct (while_ok H 0 (S H) k leaf_idx au0 au1 r2 hrest w1 w2)
      as (es & au' & rest' & hrest' & w1' & w2' & E1 & E2 & E3 & E4 & E5);
      [lia|lia|exact Hk2|exact Hl|exact Hfit|exact Hmod|exact Hm1|].
    fold up in E2, E4, E5. change (2 ^ Z.of_nat 0) with 1 in E2, E4. rewrite Z.div_1_r in E2, E4.
    cbn [node] in E2, E4. change ([0] ++ hrest) with (Z.of_nat 0 :: hrest). rewrite E2. cbn [bind].
    subst es. apply IH; auto; try lia.
    + rewrite E4, !app_length, Hcl, Hleaf. rewrite app_length in Hst. lia.
    + rewrite E5, app_length, map_length. cbn [length]. lia.
Qed.

Lemma for_none m k leaf_idx au0 au rest hrest w1 w2 :
  0 <= k -> k + Z.of_nat m = 2 ^ Z.of_nat H -> (1 <= m)%nat -> 0 <= leaf_idx ->
  leaf_idx / 2 ^ Z.of_nat H = 1 ->
  ainv leaf_idx k au0 au ->
  length (concat (cells k (ups (S H) 0 k)) ++ rest) = ((H + 1) * N)%nat ->
  length (map Z.of_nat (ups (S H) 0 k) ++ hrest) = (H + 1)%nat ->
  treehash_for P HS c gen_leaf leaf_idx off H m k (concat (cells k (ups (S H) 0 k)) ++ rest)
    (map Z.of_nat (ups (S H) 0 k) ++ hrest) (length (ups (S H) 0 k)) (concat au)
    (enc L (A w1 w2)) = None.
Proof.
  clear junk. revert k au rest hrest w1 w2.
  induction m as [|m IH]; intros k au rest hrest w1 w2 Hk Hm Hm1' Hl Heq Hau Hst Hhs;
    cbn [treehash_for]; [lia|].
  assert (Hk2 : 0 <= k < 2 ^ Z.of_nat H) by lia.
  assert (Eup : ups (S H) 0 k = ups H 0 k) by (apply ups_top; now apply bit_small).
  rewrite Eup in *. set (up := ups H 0 k) in *.
  assert (Hupl : (length up <= H)%nat) by apply ups_length.
  assert (Hup : Forall (fun x => (0 <= x < 0 + H)%nat) up) by apply ups_ge.
  assert (Hcl : length (concat (cells k up)) = (length up * N)%nat).
  { rewrite (chunks_length N). { unfold cells. now rewrite map_length. }
    apply cells_chunks. eapply Forall_impl; [|exact Hup]. cbn. lia. }
  rewrite app_length, Hcl in Hst. rewrite app_length, map_length in Hhs.
  rewrite Hgen by auto. cbn [bind].
  destruct hrest as [|h0 hrest]; [cbn in Hhs; lia|]. cbn [length] in Hhs.
  assert (exists r1 r2, rest = r1 ++ r2 /\ length r1 = N) as (r1 & r2 & -> & Hr1).
  { exists (firstn N rest), (skipn N rest). rewrite firstn_skipn. split; auto.
    rewrite firstn_length. nia. }
  rewrite wr_app' by (rewrite ?Hcl, ?Hleaf; auto). cbn [bind].
  change (h0 :: hrest) with ([h0] ++ hrest).
  replace (S (length up) - 1)%nat with (length up) by lia.
  rewrite wr_app' by (rewrite ?map_length; reflexivity). cbn [bind].
  rewrite rd_app' by (rewrite ?Hcl, ?Hleaf; auto). cbn [bind].
  assert (Hmod : k mod 2 ^ Z.of_nat 0 = 2 ^ Z.of_nat 0 - 1) by (cbn; apply Z.mod_1_r).
  assert (Hm0 : amid leaf_idx k 0 au0 au).
  { destruct Hau as (A1 & A2 & A3). split; [auto|split; [auto|]]. intros h' Hh'. now apply A3. }
  destruct (Nat.eq_dec m 0) as [->|Hm2].
  - (* the last leaf *)
    assert (Ek : k = 2 ^ Z.of_nat H - 1) by (clear - Hm; lia).
    destruct (Nat.eq_dec H 0) as [E0|E0].
    + assert (Ew : (Z.lxor leaf_idx 1 =? k) = true).
      { apply Z.eqb_eq. rewrite E0 in Ek, Heq. change (2 ^ Z.of_nat 0) with 1 in Ek, Heq.
        rewrite Z.div_1_r in Heq. subst. reflexivity. }
      rewrite Ew. destruct Hau as (A1 & A2 & A3). unfold wr at 1.
      rewrite (chunks_length N) by exact A1. rewrite A2.
      match goal with |- context [(?a <=? ?b)%nat] => replace (a <=? b)%nat with false end.
      2:{ symmetry. apply Nat.leb_gt. rewrite Hleaf. clear - Hn E0. subst H. lia. }
      reflexivity.
    + destruct (auth_write leaf_idx k 0 au0 au) as (au1 & Ew & Hm1); auto; [clear - E0; lia|].
      unfold sib in Ew. change (2 ^ Z.of_nat 0) with 1 in Ew. rewrite !Z.div_1_r in Ew.
      cbn [Nat.mul node] in Ew. rewrite Ew. cbn [bind].
      pose proof (while_none H 0 (S H) k leaf_idx au0 au1 r2 hrest w1 w2) as E2.
      fold up in E2. change (2 ^ Z.of_nat 0) with 1 in E2. rewrite Z.div_1_r in E2.
      cbn [node] in E2. change ([0] ++ hrest) with (Z.of_nat 0 :: hrest).
      rewrite E2; [reflexivity|reflexivity|clear - E0; lia|exact Ek|exact Hl|exact Heq|exact Hmod|exact Hm1].
  - assert (Hfit : fits leaf_idx k) by (right; clear - Hm Hm2; lia).
    destruct (auth_write_top leaf_idx k 0 au0 au) as (au1 & Ew & Hm1); auto; [lia|].
    unfold sib in Ew. change (2 ^ Z.of_nat 0) with 1 in Ew. rewrite !Z.div_1_r in Ew.
    cbn [Nat.mul node] in Ew. rewrite Ew. cbn [bind].
    destruct (while_ok H 0 (S H) k leaf_idx au0 au1 r2 hrest w1 w2)
      as (es & au' & rest' & hrest' & w1' & w2' & E1 & E2 & E3 & E4 & E5);
      [lia|lia|exact Hk2|exact Hl|exact Hfit|exact Hmod|exact Hm1|].
    fold up in E2, E4, E5. change (2 ^ Z.of_nat 0) with 1 in E2, E4. rewrite Z.div_1_r in E2, E4.
    cbn [node] in E2, E4. change ([0] ++ hrest) with (Z.of_nat 0 :: hrest). rewrite E2. cbn [bind].
    subst es. apply IH; auto; try (clear - Hk Hm Hm2; lia).
    + rewrite E4, !app_length, Hcl, Hleaf. rewrite app_length in Hst. lia.
    + rewrite E5, app_length, map_length. cbn [length]. lia.
Qed.

Theorem treehash_ok leaf_idx au0 w1 w2 :
  0 <= leaf_idx -> leaf_idx / 2 ^ Z.of_nat H <> 1 ->
  chunks_of N au0 -> length au0 = H ->
  exists au' w1' w2',
    treehash P HS c junk gen_leaf leaf_idx off H (concat au0) (enc L (A w1 w2))
    = Some (nd H 0, concat au', enc L (A w1' w2'))
    /\ ainv leaf_idx (2 ^ Z.of_nat H) au0 au'.
Proof.
  intros Hl Hne Hc0 Hl0. unfold treehash.
  destruct (for_ok (Nat.pow 2 H) 0 leaf_idx au0 au0 (junk_bytes (junk 2%nat) ((H + 1) * N))
              (junk_bytes (junk 3%nat) (H + 1)) w1 w2) as (rest' & au' & w1' & w2' & E & Ha); auto.
  - lia.
  - rewrite Nat2Z.inj_pow. reflexivity.
  - split; [auto|split; [auto|]]. intros h Hh. unfold done.
    replace ((sib leaf_idx h + 1) * 2 ^ Z.of_nat h <=? 0) with false; auto.
    symmetry. apply Z.leb_gt. pose proof (pow2_pos h).
    assert (0 <= sib leaf_idx h); [|nia]. unfold sib. apply Z.lxor_nonneg.
    split; intros; [lia|]. apply Z.div_pos; lia.
  - rewrite ups_0. cbn [cells map concat app]. apply junk_length.
  - rewrite ups_0. cbn [cells map concat app]. apply junk_length.
  - rewrite ups_0 in E. cbn [cells map concat app length] in E. rewrite E. cbn [bind].
    rewrite rd_app0 by (symmetry; apply nlen; lia). cbn [bind].
    do 3 eexists. split; [reflexivity|]. exact Ha.
Qed.

(** A leaf index whose quotient by 2^H is 1 is the only case in which treehash is undefined. *)
Theorem treehash_none leaf_idx au0 w1 w2 :
  0 <= leaf_idx -> leaf_idx / 2 ^ Z.of_nat H = 1 ->
  chunks_of N au0 -> length au0 = H ->
  treehash P HS c junk gen_leaf leaf_idx off H (concat au0) (enc L (A w1 w2)) = None.
Proof.
  intros Hl Heq Hc0 Hl0. unfold treehash.
  pose proof (for_none (Nat.pow 2 H) 0 leaf_idx au0 au0 (junk_bytes (junk 2%nat) ((H + 1) * N))
              (junk_bytes (junk 3%nat) (H + 1)) w1 w2) as E.
  rewrite ups_0 in E. cbn [cells map concat app length] in E. rewrite E; [reflexivity|lia| | | | | | |].
  - rewrite Nat2Z.inj_pow. reflexivity.
  - clear. induction H; cbn; lia.
  - exact Hl.
  - exact Heq.
  - split; [auto|split; [auto|]]. intros h Hh. unfold done.
    replace ((sib leaf_idx h + 1) * 2 ^ Z.of_nat h <=? 0) with false; auto.
    symmetry. apply Z.leb_gt. pose proof (pow2_pos h).
    assert (0 <= sib leaf_idx h); [|nia]. unfold sib. apply Z.lxor_nonneg.
    split; intros; [lia|]. apply Z.div_pos; lia.
  - apply junk_length.
  - apply junk_length.
Qed.
End Treehash.
