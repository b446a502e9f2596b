(** The typed randombytes.c. *)
From Verif Require Import Base BaseFacts CInt CCore CIntFacts CCoreProofs Rng RngSpec RngProofs CRng CRngProofs CRandombytes.
Local Open Scope Z_scope.

Definition is_int (a : Z) : Prop := - 2 ^ 31 <= a < 2 ^ 31.

Lemma c_go xlen : 0 <= xlen < 2 ^ 64 -> cond (K 0 < V U64 xlen)%C = Some (0 <? xlen).
Proof.
  intros H. unfold cond, K. cbn [eval]. replace (in_range U64 xlen) with true by (symmetry; rg). cbn.
  rewrite Z.mod_small by (cbn; lia). destruct (0 <? xlen); reflexivity.
Qed.
Lemma c_lt a k : 0 <= a < 2 ^ 64 -> 0 <= k < 2 ^ 31 -> cond (V U64 a < K k)%C = Some (a <? k).
Proof.
  intros H Hk. unfold cond, K. cbn [eval]. replace (in_range U64 a) with true by (symmetry; rg).
  replace (in_range I32 k) with true by (symmetry; rg). cbn [guard bind promote common].
  rewrite !conv_id by rg. cbn [bind arith]. destruct (a <? k); reflexivity.
Qed.
Lemma c_sub a b : 0 <= a < 2 ^ 64 -> 0 <= b < 2 ^ 64 -> asg U64 (V U64 a - V U64 b)%C = Some (u64 (a - b)).
Proof.
  intros Ha Hb. unfold asg. cbn [eval]. replace (in_range U64 a) with true by (symmetry; rg).
  replace (in_range U64 b) with true by (symmetry; rg). cbn [guard bind promote common].
  rewrite !conv_id by rg. cbn [bind arith]. unfold result. cbn [bind width]. unfold conv, width, u64.
  rewrite Z.mod_mod by (cbn; lia). reflexivity.
Qed.
Lemma c_val t a : in_range t a = true -> asg t (V t a) = Some a.
Proof. intros H. unfold asg. cbn [eval]. rewrite H. cbn [guard bind]. apply conv_id, H. Qed.
Lemma c_minus a : is_int a -> cond (V I32 a == (K 0 - K 1))%C = Some (a =? -1).
Proof.
  intros H. unfold is_int in H. unfold cond, K. cbn [eval]. replace (in_range I32 a) with true by (symmetry; rg).
  cbn [guard bind]. change (in_range I32 0) with true. change (in_range I32 1) with true. cbn [guard bind promote common].
  rewrite !conv_id by (unfold in_range; lia). cbn [bind arith]. change (result I32 (0 - 1)) with (Some (I32, -1)).
  cbn [bind promote common]. rewrite !conv_id by (unfold in_range; lia). cbn [bind arith]. destruct (a =? -1); reflexivity.
Qed.
Lemma c_res r : is_int r -> asg U64 (Cast U64 (V I32 r)) = Some (u64 r).
Proof.
  intros H. unfold is_int in H. unfold asg. cbn [eval]. replace (in_range I32 r) with true by (symmetry; rg).
  cbn [guard bind]. unfold conv, width, u64. cbn [bind]. rewrite Z.mod_mod by (cbn; lia). reflexivity.
Qed.
Lemma c_portion xlen : 0 <= xlen < 2 ^ 64 ->
  (small <- cond (V U64 xlen < K 1048576)%C ;; if small : bool then asg U64 (V U64 xlen) else asg U64 (K 1048576))
  = Some (if xlen <? 1048576 then xlen else 1048576).
Proof.
  intros H. rewrite c_lt by lia. cbn [bind]. destruct (xlen <? 1048576); [apply c_val; rg|reflexivity].
Qed.

(** Without failing reads, and with a buffer inside its object: what the model computes, and nothing undefined. *)
Lemma rb_loop_c_ok : forall reads fd opens mem x xlen,
  0 <= xlen < 2 ^ 64 -> Z.of_nat x + xlen <= Z.of_nat (length mem) -> Forall no_error reads ->
  rb_loop_c reads fd opens mem x xlen = Some (rb_loop reads fd opens mem (Z.of_nat x) xlen).
Proof.
  induction reads as [|ev reads IH]; intros fd opens mem x xlen Hl Hm Hn; cbn [rb_loop_c rb_loop]; rewrite c_go by exact Hl; cbn [bind].
  - destruct (Z.ltb_spec 0 xlen); [replace (xlen <=? 0) with false by lia|replace (xlen <=? 0) with true by lia]; reflexivity.
  - destruct (Z.ltb_spec 0 xlen); [replace (xlen <=? 0) with false by lia|replace (xlen <=? 0) with true by lia; reflexivity].
    rewrite c_lt by lia. cbn [bind].
    assert (P : (if xlen <? 1048576 then asg U64 (V U64 xlen) else asg U64 (K 1048576)) = Some (if xlen <? 1048576 then xlen else 1048576)).
    { destruct (xlen <? 1048576); [apply c_val; rg|reflexivity]. }
    rewrite P. cbn [bind]. clear P.
    inversion Hn as [|? ? He Hn']; subst. destruct ev as [|d]; [exfalso; (contradiction || discriminate || now destruct He)|].
    set (i := if xlen <? 1048576 then xlen else 1048576).
    assert (Hi : 0 < i <= xlen /\ i <= 1048576) by (unfold i; destruct (Z.ltb_spec xlen 1048576); lia).
    cbn [os_read]. set (d' := firstn (Z.to_nat i) d).
    assert (Ld : Z.of_nat (length d') <= i) by (unfold d'; rewrite firstn_length; lia).
    assert (W : wr mem x d' = Some (firstn x mem ++ d' ++ skipn (x + length d') mem)).
    { unfold wr. replace (x + length d' <=? length mem)%nat with true by (symmetry; apply Nat.leb_le; lia). reflexivity. }
    rewrite W. cbn [bind]. rewrite c_res by (unfold is_int; lia).
    assert (U : u64 (Z.of_nat (length d')) = Z.of_nat (length d')) by (apply Z.mod_small; lia). rewrite U. cbn [bind].
    rewrite c_lt by lia. cbn [bind].
    destruct (Z.ltb_spec (Z.of_nat (length d')) 1) as [Hz|Hz].
    + destruct d' as [|? ?] eqn:Ed; [|cbn [length] in Hz; lia].
      cbn [length app]. rewrite Nat.add_0_r, firstn_skipn. apply IH; assumption.
    + replace (Z.of_nat x <? 0) with false by lia. rewrite Nat2Z.id, W.
      assert (Lm : length (firstn x mem ++ d' ++ skipn (x + length d') mem) = length mem).
      { rewrite !app_length, firstn_length, skipn_length. lia. }
      unfold padd. rewrite Lm. replace (Z.of_nat x + Z.of_nat (length d') <=? Z.of_nat (length mem)) with true by lia.
      cbn [guard bind]. rewrite c_sub by lia. cbn [bind].
      assert (U2 : u64 (xlen - Z.of_nat (length d')) = xlen - Z.of_nat (length d')) by (apply Z.mod_small; lia). rewrite U2.
      rewrite IH; [|lia|rewrite Lm; lia|exact Hn']. rewrite Z2Nat.id by lia. reflexivity.
Qed.
Lemma rb_open_c_ok : forall opens, Forall is_int opens -> rb_open_c opens = Some (rb_open opens (-1)).
Proof.
  induction opens as [|r opens IH]; intros H; [reflexivity|]. inversion H as [|? ? Hr Ho]; subst. cbn [rb_open_c rb_open].
  rewrite c_val by (unfold is_int in Hr; rg). cbn [bind]. rewrite c_minus by exact Hr. cbn [bind].
  destruct (Z.eqb_spec r (-1)) as [->|]; cbn [negb]; [|reflexivity]. rewrite IH by exact Ho. reflexivity.
Qed.
Lemma rb_open_open : forall opens fd, fd <> -1 -> rb_open opens fd = Some (fd, opens).
Proof. intros opens fd H. apply Z.eqb_neq in H. destruct opens; cbn [rb_open]; rewrite H; reflexivity. Qed.
Lemma os_randombytes_c_model fd opens reads mem x xlen :
  is_int fd -> Forall is_int opens ->
  0 <= xlen < 2 ^ 64 -> Z.of_nat x + xlen <= Z.of_nat (length mem) -> Forall no_error reads ->
  os_randombytes_c fd opens reads mem x xlen = Some (os_randombytes fd opens reads mem x xlen).
Proof.
  intros Hf Ho Hl Hm Hn. unfold os_randombytes_c, os_randombytes. rewrite c_minus by exact Hf. cbn [bind].
  destruct (Z.eqb_spec fd (-1)) as [->|N].
  - rewrite rb_open_c_ok by exact Ho. cbn [bind]. destruct (rb_open opens (-1)) as [[f o]|]; [|reflexivity]. now apply rb_loop_c_ok.
  - rewrite rb_open_open by exact N. cbn [bind]. now apply rb_loop_c_ok.
Qed.
Lemma c_randombytes fd opens reads mem x xlen :
  is_int fd -> Forall is_int opens ->
  0 <= xlen < 2 ^ 64 -> Z.of_nat x + xlen <= Z.of_nat (length mem) -> Forall no_error reads ->
  match os_randombytes_c fd opens reads mem x xlen with
  | None | Some Fault => False
  | Some (Waiting mem') => exists out, Z.of_nat (length out) <= xlen
      /\ mem' = firstn x mem ++ out ++ skipn (x + length out) mem
  | Some (Returned mem' fd' opens' rest) => fd' <> -1 /\ exists used out, reads = used ++ rest
      /\ drawn used out /\ Z.of_nat (length out) = xlen
      /\ mem' = firstn x mem ++ out ++ skipn (x + length out) mem
  end.
Proof.
  intros Hf Ho Hl Hm Hn. rewrite os_randombytes_c_model by assumption.
  pose proof (os_randombytes_ok fd opens reads mem x xlen Hl Hm Hn) as H.
  destruct (os_randombytes fd opens reads mem x xlen); exact H.
Qed.

(** A failing read that is reached moves the pointer out of every object. *)
Lemma os_read_len ev mem x i mem' r : os_read ev mem x i = Some (mem', r) -> length mem' = length mem.
Proof.
  destruct ev as [|d]; cbn [os_read]; [now intros [= <- _]|]. unfold wr. destruct (_ <=? _)%nat eqn:L; [|discriminate].
  cbn [bind]. intros [= <- _]. apply Nat.leb_le in L. rewrite !app_length, skipn_length, firstn_length. rewrite firstn_length in *. lia.
Qed.
Lemma rb_loop_c_error : forall used rest fd opens mem x xlen m, Z.of_nat (length mem) < 2 ^ 64 - 1 ->
  rb_loop_c used fd opens mem x xlen = Some (Waiting m) ->
  rb_loop_c (used ++ RError :: rest) fd opens mem x xlen = None.
Proof.
  induction used as [|ev used IH]; intros rest fd opens mem x xlen m Hm; cbn [rb_loop_c app];
    (destruct (cond (K 0 < V U64 xlen)%C) as [[]|] eqn:G; cbn [bind]; try discriminate).
  - intros _. destruct (cond (V U64 xlen < K 1048576)%C) as [s|]; cbn [bind]; [|reflexivity].
    destruct (if s then _ else _) as [i|]; cbn [bind]; [|reflexivity]. cbn [os_read bind].
    change (asg U64 (Cast U64 (V I32 (-1)))) with (Some (2 ^ 64 - 1)). cbn [bind].
    rewrite c_lt by (split; lia). cbn [bind]. unfold padd.
    replace (Z.of_nat x + (2 ^ 64 - 1) <=? Z.of_nat (length mem)) with false by lia. reflexivity.
  - destruct (cond (V U64 xlen < K 1048576)%C) as [s|]; cbn [bind]; [|discriminate].
    destruct (if s then _ else _) as [i|]; cbn [bind]; [|discriminate].
    destruct (os_read ev mem x i) as [[mem' r]|] eqn:R; cbn [bind]; [|discriminate].
    apply os_read_len in R.
    destruct (asg U64 (Cast U64 (V I32 r))) as [j|]; cbn [bind]; [|discriminate].
    destruct (cond (V U64 j < K 1)%C) as [[]|]; cbn [bind]; [|clear G|discriminate].
    + apply IH. lia.
    + destruct (padd (length mem') x j) as [x'|]; cbn [bind]; [|discriminate].
      destruct (asg U64 (V U64 xlen - V U64 j)%C) as [l|]; cbn [bind]; [|discriminate]. apply IH. lia.
Qed.
Lemma c_read_error used rest fd opens mem x xlen m : is_int fd -> fd <> -1 -> Z.of_nat (length mem) < 2 ^ 64 - 1 ->
  os_randombytes_c fd opens used mem x xlen = Some (Waiting m) ->
  os_randombytes_c fd opens (used ++ RError :: rest) mem x xlen = None.
Proof.
  intros Hf N Hm. unfold os_randombytes_c. rewrite c_minus by exact Hf. cbn [bind]. apply Z.eqb_neq in N. rewrite N. cbn [bind].
  now apply rb_loop_c_error.
Qed.
Lemma c_returns reads fd opens mem x xlen :
  is_int fd -> fd <> -1 -> 0 <= xlen < 2 ^ 64 -> Z.of_nat x + xlen <= Z.of_nat (length mem) ->
  Forall (fun r => exists b d, r = RData (b :: d)) reads -> xlen <= Z.of_nat (length reads) ->
  exists mem' rest, os_randombytes_c fd opens reads mem x xlen = Some (Returned mem' fd opens rest).
Proof.
  intros Hf N Hl Hm Hr Hn.
  destruct (rb_loop_returns reads fd opens mem (Z.of_nat x) xlen) as (mem' & rest & H); [lia|exact Hl|exact Hm|exact Hr|exact Hn|].
  exists mem', rest. unfold os_randombytes_c. rewrite c_minus by exact Hf. cbn [bind]. apply Z.eqb_neq in N. rewrite N. cbn [bind].
  rewrite rb_loop_c_ok; [now rewrite H|exact Hl|exact Hm|].
  apply Forall_forall. intros r I. pose proof (proj1 (Forall_forall _ _) Hr r I) as (b & d & ->). discriminate.
Qed.
