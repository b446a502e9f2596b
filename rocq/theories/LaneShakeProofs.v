(** The multi-lane SHAKE code computes SHAKE in every lane. *)
From Verif Require Import Base BaseFacts Params Address Suite Fips202 KeccakSpec KeccakProofs SpongeFacts
  ShakeProofs Lanes LaneFacts LaneKeccak LaneKeccakProofs HashSpec HashShake HashShakeProofs LaneShake.

#[local] Opaque keccak_bytes.

(** ** Lanes of lists *)
Lemma vput_ok s i v : (i < length s)%nat -> vput s i v = Some (upd i v s).
Proof.
  intros H. unfold vput. apply Nat.ltb_lt in H. rewrite H. f_equal. apply Nat.ltb_lt in H.
  revert i H. induction s as [|x s IH]; intros [|i] H; cbn [length] in H; try lia; [reflexivity|].
  cbn [firstn skipn upd app]. f_equal. apply IH. lia.
Qed.
Lemma lane_upd j i v s : lane j (upd i v s) = upd i (v j) (lane j s).
Proof.
  revert i; induction s as [|x s IH]; intros [|i]; cbn [upd lane map]; try reflexivity.
  f_equal. apply IH.
Qed.
Lemma lane_nth j i s : (i < length s)%nat -> nth i (lane j s) 0 = nth i s (fun _ => 0) j.
Proof.
  revert i; induction s as [|x s IH]; intros [|i] H; cbn [length] in H; try lia; [reflexivity|].
  cbn [lane map nth]. apply IH. lia.
Qed.
Lemma wr_one (s : list Z) i x : (i < length s)%nat -> wr s i [x] = Some (upd i x s).
Proof. intros H. pose proof (wr_upd s [] i x H) as E. now rewrite !app_nil_r in E. Qed.

Section Sponge.
Variable nl : nat.
Variable perm : list vec -> option (list vec).
Hypothesis Hperm : perm_ok nl perm.
Variable junk : nat -> nat -> Z.

Lemma lanesM_ok {A} (f : nat -> option A) g :
  (forall j, (j < nl)%nat -> f j = Some (g j)) -> lanesM nl f = Some (map g (seq 0 nl)).
Proof. clear. intros H. apply mapM_ok. intros j Hj. apply in_seq in Hj. apply H. lia. Qed.
Lemma nth_lanes {A} (g : nat -> A) j d : (j < nl)%nat -> nth j (map g (seq 0 nl)) d = g j.
Proof. clear. intros H. apply nth_error_nth. now rewrite nth_error_map_seq. Qed.
Lemma vlanes_ok f g : (forall j, (j < nl)%nat -> f j = Some (g j)) ->
  exists v, vlanes nl f = Some v /\ forall j, (j < nl)%nat -> v j = g j.
Proof.
  clear. intros H. unfold vlanes. rewrite (lanesM_ok f g H). cbn [bind]. eexists. split; [reflexivity|].
  intros j Hj. unfold vset. now apply nth_lanes.
Qed.

Definition inv (s : list vec) : Prop :=
  length s = 25%nat /\ forall j, (j < nl)%nat -> Forall W64 (lane j s).
Lemma perm_inv s : inv s -> exists s', perm s = Some s' /\ inv s'
  /\ forall j, (j < nl)%nat -> KeccakF1600_StatePermute (lane j s) = Some (lane j s').
Proof.
  intros [L W]. destruct (Hperm s L W) as (s' & E & L' & H'). exists s'. split; [exact E|].
  split; [split; [exact L'|]|]; intros j Hj; apply (H' j Hj).
Qed.

Lemma load_word_ok x i : (8 * i + 8 <= length x)%nat ->
  load_word x i = Some (le (norm (firstn 8 (skipn (8 * i) x)))).
Proof.
  clear. intros H. unfold load_word. rewrite rd_ok by lia. cbn [bind]. apply load64_ok.
  rewrite firstn_length, skipn_length. lia.
Qed.

Lemma xor_wordsx_sim k ms s : inv s -> (k <= 25)%nat -> length ms = nl ->
  (forall j, (j < nl)%nat -> (8 * k <= length (nth j ms []))%nat) ->
  exists s', xor_wordsx nl k ms s = Some s' /\ inv s'
    /\ forall j, (j < nl)%nat -> xor_words k (nth j ms []) (lane j s) = Some (lane j s').
Proof.
  clear Hperm. intros Hi Hk Hms Hm. unfold xor_wordsx.
  destruct (iterM_inv k 0 (fun i s =>
    x <- vlanes nl (fun j => m <- get ms j ;; load_word m i) ;; v <- get s i ;; vput s i (vxor v x))
    (fun i t => inv t /\ forall j, (j < nl)%nat -> xor_words i (nth j ms []) (lane j s) = Some (lane j t)) s)
    as (s' & E & H1 & H2).
  - split; [exact Hi|reflexivity].
  - intros i t Hik [[Lt Wt] Ht].
    destruct (vlanes_ok (fun j => m <- get ms j ;; load_word m i)
       (fun j => le (norm (firstn 8 (skipn (8 * i) (nth j ms []))))) ) as (x & Ex & Hx).
    { intros j Hj. rewrite (get_nth ms j []) by lia. cbn [bind]. specialize (Hm j Hj).
      apply load_word_ok. lia. }
    rewrite Ex. cbn [bind]. rewrite (get_nth t i (fun _ => 0)) by lia. cbn [bind].
    rewrite vput_ok by lia. eexists. split; [reflexivity|].
    assert (Hlen : forall j, (j < nl)%nat -> length (firstn 8 (skipn (8 * i) (nth j ms []))) = 8%nat).
    { intros j Hj. specialize (Hm j Hj). rewrite firstn_length, skipn_length. lia. }
    split.
    + split; [now rewrite upd_length|]. intros j Hj. rewrite lane_upd.
      apply Forall_upd; [apply Wt; exact Hj|]. unfold vxor. rewrite Hx by exact Hj.
      apply W64_xor.
      * rewrite <- lane_nth by lia. apply Forall_nth_W, Wt, Hj.
      * apply le_W64; [apply norm_all|rewrite map_length; auto].
    + intros j Hj. unfold xor_words. rewrite iterM_snoc. fold (xor_words i (nth j ms []) (lane j s)).
      rewrite (Ht j Hj). cbn [bind Nat.add]. specialize (Hm j Hj). rewrite rd_ok by lia. cbn [bind].
      rewrite load64_ok by auto. cbn [bind]. rewrite (get_nth _ i 0) by (rewrite lane_length; lia). cbn [bind].
      rewrite wr_one by (rewrite lane_length; lia). rewrite lane_upd. unfold vxor. rewrite Hx by exact Hj.
      rewrite lane_nth by lia. reflexivity.
  - exists s'. split; [exact E|]. split; [exact H1|]. exact H2.
Qed.

Lemma nth_skipn r ms j : (j < length ms)%nat -> nth j (map (skipn r) ms) [] = skipn r (nth j ms ([] : bytes)).
Proof.
  clear. intros H. rewrite (nth_indep _ [] (skipn r [])) by (rewrite map_length; lia). apply map_nth.
Qed.

Section Rate.
Variables r q : nat.
Hypothesis Hr : (0 < r <= 200)%nat.
Hypothesis Hq : r = (8 * q)%nat.
Lemma Hdiv : (r / 8 = q)%nat.
Proof. clear - Hq. rewrite Hq, Nat.mul_comm. apply Nat.div_mul. lia. Qed.

Lemma absorb_loopx_sim fuel : forall mlen ms s, inv s -> length ms = nl -> (mlen <= fuel)%nat ->
  (forall j, (j < nl)%nat -> length (nth j ms []) = mlen) ->
  exists s' mlen' ms', absorb_loopx nl perm fuel r mlen ms s = Some (s', mlen', ms')
    /\ inv s' /\ length ms' = nl /\ (mlen' < r)%nat
    /\ (forall j, (j < nl)%nat -> length (nth j ms' []) = mlen')
    /\ forall j, (j < nl)%nat -> absorb_loop fuel r (nth j ms []) (lane j s) = Some (lane j s', nth j ms' []).
Proof.
  induction fuel as [|fuel IH]; intros mlen ms s Hi Hms Hf Hl; cbn [absorb_loopx].
  - destruct (Nat.ltb_spec mlen r) as [Hs|Hs]; [|lia].
    exists s, mlen, ms. do 5 (split; [auto|]). intros j Hj. cbn [absorb_loop]. rewrite Hl by exact Hj.
    apply Nat.ltb_lt in Hs. now rewrite Hs.
  - destruct (Nat.ltb_spec mlen r) as [Hs|Hs].
    + exists s, mlen, ms. do 5 (split; [auto|]). intros j Hj. cbn [absorb_loop]. rewrite Hl by exact Hj.
      apply Nat.ltb_lt in Hs. now rewrite Hs.
    + destruct (xor_wordsx_sim (r / 8) ms s Hi) as (s1 & E1 & I1 & S1);
        [lia|exact Hms|intros j Hj; rewrite Hl by exact Hj; lia|].
      rewrite E1. cbn [bind]. destruct (perm_inv s1 I1) as (s2 & E2 & I2 & S2). rewrite E2. cbn [bind].
      destruct (IH (mlen - r)%nat (map (skipn r) ms) s2 I2) as (s' & mlen' & ms' & E3 & I3 & M3 & R3 & L3 & S3);
        [now rewrite map_length|lia|intros j Hj; rewrite nth_skipn, skipn_length, Hl by lia; lia|].
      exists s', mlen', ms'. split; [exact E3|]. split; [exact I3|]. split; [exact M3|]. split; [exact R3|].
      split; [exact L3|]. intros j Hj. cbn [absorb_loop]. rewrite Hl by exact Hj.
      destruct (Nat.ltb_spec mlen r) as [|_]; [lia|]. rewrite (S1 j Hj). cbn [bind]. rewrite (S2 j Hj). cbn [bind].
      rewrite <- (S3 j Hj). now rewrite nth_skipn by lia.
Qed.

Lemma pad_block_length t0 mlen m p t : pad_block t0 r mlen m p = Some t -> length t = length t0.
Proof.
  clear. unfold pad_block. intros E.
  destruct (wr t0 0 (repeat 0 r)) as [t1|] eqn:E1; [cbn [bind] in E|discriminate].
  destruct (rd m 0 mlen) as [x|]; [cbn [bind] in E|discriminate].
  destruct (wr t1 0 x) as [t2|] eqn:E2; [cbn [bind] in E|discriminate].
  destruct (wr t2 mlen [p]) as [t3|] eqn:E3; [cbn [bind] in E|discriminate].
  destruct (get t3 (r - 1)) as [y|]; [cbn [bind] in E|discriminate].
  apply wr_length in E, E1, E2, E3. lia.
Qed.
Lemma pad_block_ok t0 m p : length t0 = 200%nat -> (length m < r)%nat ->
  exists t, pad_block t0 r (length m) m p = Some t.
Proof.
  clear - Hr. intros Ht Hm. unfold pad_block.
  rewrite wr_ok by (rewrite repeat_length; lia). cbn [bind].
  match goal with |- context [wr ?a 0 _] => set (t1 := a) end.
  assert (L1 : length t1 = 200%nat).
  { unfold t1. rewrite !app_length, firstn_length, repeat_length, skipn_length. lia. }
  rewrite rd_all by auto. cbn [bind]. clearbody t1.
  destruct (wr t1 0 m) as [t2|] eqn:E2; [|unfold wr in E2; rewrite (proj2 (Nat.leb_le _ _)) in E2 by lia; discriminate].
  cbn [bind]. apply wr_length in E2.
  destruct (wr t2 (length m) [p]) as [t3|] eqn:E3;
    [|unfold wr in E3; rewrite (proj2 (Nat.leb_le _ _)) in E3 by (cbn [length]; lia); discriminate].
  cbn [bind]. apply wr_length in E3.
  rewrite (get_nth t3 _ 0) by lia. cbn [bind]. rewrite wr_one by lia. eexists. reflexivity.
Qed.

Lemma absorbx_sim ms mlen p s : inv s -> length ms = nl ->
  (forall j, (j < nl)%nat -> length (nth j ms []) = mlen) ->
  (forall j, (j < nl)%nat -> lane j s = repeat 0 25) ->
  exists s', keccak_absorbx nl perm junk r ms mlen p s = Some s' /\ inv s'
    /\ forall j, (j < nl)%nat ->
         keccak_absorb (junk_bytes (junk (300 + j)) 200) r (nth j ms []) p = Some (lane j s').
Proof.
  intros Hi Hms Hl H0. unfold keccak_absorbx.
  destruct (absorb_loopx_sim mlen mlen ms s Hi Hms (le_n _) Hl) as (s1 & mlen' & ms' & E & I1 & M1 & R1 & L1 & S1).
  rewrite E. cbn [bind].
  set (g := fun j => match pad_block (junk_bytes (junk (300 + j)) 200) r mlen' (nth j ms' []) p with Some t => t | None => [] end).
  assert (Hg : forall j, (j < nl)%nat ->
     pad_block (junk_bytes (junk (300 + j)) 200) r mlen' (nth j ms' []) p = Some (g j)).
  { intros j Hj. unfold g. rewrite <- (L1 j Hj).
    destruct (pad_block_ok (junk_bytes (junk (300 + j)) 200) (nth j ms' []) p) as (t & ->);
      [apply junk_length|rewrite L1 by exact Hj; lia|reflexivity]. }
  rewrite (lanesM_ok _ g) by (intros j Hj; rewrite (get_nth ms' j []) by lia; cbn [bind]; now apply Hg).
  cbn [bind].
  destruct (xor_wordsx_sim (r / 8) (map g (seq 0 nl)) s1 I1) as (s2 & E2 & I2 & S2);
    [lia|now rewrite map_length, seq_length| |].
  { intros j Hj. rewrite nth_lanes by exact Hj. pose proof (pad_block_length _ _ _ _ _ (Hg j Hj)) as L.
    rewrite junk_length in L. lia. }
  exists s2. split; [exact E2|]. split; [exact I2|]. intros j Hj.
  unfold keccak_absorb. rewrite Hl by exact Hj. rewrite <- (H0 j Hj). rewrite (S1 j Hj). cbn [bind].
  specialize (S2 j Hj). rewrite nth_lanes in S2 by exact Hj. specialize (Hg j Hj). unfold pad_block in Hg.
  destruct (wr (junk_bytes (junk (300 + j)) 200) 0 (repeat 0 r)) as [t1|]; [cbn [bind] in *|discriminate].
  rewrite rd_all in Hg by (symmetry; now apply L1). cbn [bind] in Hg.
  destruct (wr t1 0 (nth j ms' [])) as [t2|]; [cbn [bind] in *|discriminate].
  rewrite (L1 j Hj). destruct (wr t2 mlen' [p]) as [t3|]; [cbn [bind] in *|discriminate].
  destruct (get t3 (r - 1)) as [y|]; [cbn [bind] in *|discriminate].
  rewrite Hg. cbn [bind]. exact S2.
Qed.

Lemma getM (s : list vec) k : (k <= length s)%nat -> mapM (get s) (seq 0 k) = Some (firstn k s).
Proof.
  clear. intros Hk. rewrite (mapM_ok _ (fun i => nth i s (fun _ => 0))).
  - f_equal. apply nth_ext with (d := fun _ => 0) (d' := fun _ => 0).
    + rewrite map_length, seq_length, firstn_length. lia.
    + rewrite map_length, seq_length. intros i Hi.
      erewrite nth_error_nth; [|rewrite nth_error_map_seq by exact Hi; reflexivity]. cbn [Nat.add].
      rewrite <- (firstn_skipn k s) at 1. rewrite app_nth1; [reflexivity|]. rewrite firstn_length. lia.
  - intros i Hi. apply in_seq in Hi. apply get_nth. lia.
Qed.
Lemma lane_firstn j k s : lane j (firstn k s) = firstn k (lane j s).
Proof. clear. symmetry. apply firstn_map. Qed.
Lemma out_bytes_nth vs j : (j < nl)%nat -> nth j (out_bytes nl vs) [] = sbytes (lane j vs).
Proof.
  clear. intros Hj. unfold out_bytes. rewrite nth_lanes by exact Hj. unfold sbytes, lane.
  rewrite flat_map_concat_map, flat_map_concat_map, map_map. reflexivity.
Qed.
Lemma out_bytes_length vs : length (out_bytes nl vs) = nl.
Proof. unfold out_bytes. now rewrite map_length, seq_length. Qed.
Lemma nth_zip (a b : list bytes) j : length a = length b ->
  nth j (map (fun p => fst p ++ snd p) (combine a b)) [] = nth j a [] ++ nth j b [].
Proof.
  clear. revert b j; induction a as [|x a IH]; intros [|y b] j H; cbn [length] in H; try lia.
  - now destruct j.
  - destruct j as [|j]; [reflexivity|]. cbn [combine map nth]. apply IH. lia.
Qed.

Lemma squeezeblocksx_sim nb : forall s, inv s ->
  exists outs s', keccak_squeezeblocksx nl perm nb r s = Some (outs, s') /\ inv s' /\ length outs = nl
    /\ forall j, (j < nl)%nat -> keccak_squeezeblocks nb r (lane j s) = Some (nth j outs [], lane j s').
Proof.
  induction nb as [|nb IH]; intros s Hi; cbn [keccak_squeezeblocksx].
  - exists (repeat [] nl), s. split; [reflexivity|]. split; [exact Hi|]. split; [apply repeat_length|].
    intros j Hj. cbn [keccak_squeezeblocks]. now rewrite nth_repeat.
  - destruct (perm_inv s Hi) as (s1 & E1 & I1 & S1). rewrite E1. cbn [bind].
    assert (L1 := proj1 I1). rewrite getM by (rewrite Hdiv; lia). cbn [bind].
    destruct (IH s1 I1) as (outs & s' & E2 & I2 & L2 & S2). rewrite E2. cbn [bind].
    eexists _, s'. split; [reflexivity|]. split; [exact I2|].
    split; [rewrite map_length, combine_length, out_bytes_length; lia|].
    intros j Hj. cbn [keccak_squeezeblocks]. rewrite (S1 j Hj). cbn [bind].
    rewrite rd_ok by (rewrite lane_length, Hdiv; lia). cbn [bind skipn]. rewrite (S2 j Hj). cbn [bind].
    rewrite nth_zip by (now rewrite out_bytes_length). rewrite out_bytes_nth by exact Hj.
    now rewrite lane_firstn.
Qed.

(** The one-shot function of ref/fips202.c for any rate. *)
Definition shake_at (t0 : bytes) (outlen : nat) (inp : bytes) : option bytes :=
  s <- keccak_absorb t0 r inp 0x1F ;;
  ' (out, s) <- keccak_squeezeblocks (outlen / r) r s ;;
  if (outlen mod r =? 0)%nat then Some out else
  ' (t, _) <- keccak_squeezeblocks 1 r s ;;
  t <- rd t 0 (outlen mod r) ;;
  Some (out ++ t).
Lemma out_firstn S0 n k len : (k <= len)%nat ->
  firstn k (skipn 0 (out_from keccak_bytes r S0 n len)) = out_from keccak_bytes r S0 n k.
Proof.
  clear. intros H. replace len with (k + (len - k))%nat by lia. rewrite out_from_app. cbn [skipn].
  rewrite firstn_app, out_from_length, firstn_all2 by (rewrite out_from_length; lia).
  rewrite Nat.sub_diag. cbn [firstn]. apply app_nil_r.
Qed.
Lemma shake_at_ok t0 n m : length t0 = 200%nat ->
  shake_at t0 n m = Some (sponge keccak_bytes 200 r 0x1F (norm m) n).
Proof.
  clear junk. intros Ht. unfold shake_at.
  destruct (absorb_ok r Hr q Hq t0 m 0x1F Ht ltac:(lia)) as (s & E & G).
  rewrite E. cbn [bind].
  rewrite (sponge_fold keccak_bytes 200 r); [|lia|intros; apply keccak_bytes_length|lia].
  rewrite out_from_squeeze.
  set (F := finish r 31 (afold keccak_bytes r (norm m) (ainit 200))) in *.
  assert (LF : length F = 200%nat) by apply (good_length _ _ G).
  destruct (squeezeblocks_ok r Hr q Hq (n / r) F 0 s LF G) as (s1 & E1 & G1).
  rewrite E1. cbn [bind].
  assert (Hn : (n = n / r * r + n mod r /\ n mod r < r)%nat).
  { pose proof (Nat.div_mod n r ltac:(lia)). pose proof (Nat.mod_upper_bound n r ltac:(lia)). lia. }
  set (nb := (n / r)%nat) in *. set (md := (n mod r)%nat) in *. clearbody nb md.
  destruct (Nat.eqb_spec md 0) as [Hz|Hz].
  - do 2 f_equal. lia.
  - destruct (squeezeblocks_ok r Hr q Hq 1 F (0 + nb) s1 LF G1) as (s2 & E2 & _).
    rewrite E2. cbn [bind]. rewrite rd_ok by (rewrite out_from_length; lia). cbn [bind].
    f_equal. destruct Hn as [Hn1 Hn2]. rewrite Hn1. rewrite out_from_app. f_equal.
    rewrite out_firstn by lia. reflexivity.
Qed.

Lemma shakex_exact s0 n ins inlen : length s0 = 25%nat -> (forall j, (j < nl)%nat -> lane j s0 = repeat 0 25) ->
  length ins = nl -> (forall j, (j < nl)%nat -> length (nth j ins []) = inlen) ->
  shakex nl perm junk s0 r n ins inlen
  = Some (map (fun m => sponge keccak_bytes 200 r 0x1F (norm m) n) ins).
Proof.
  intros L0 H0 Hms Hl. unfold shakex.
  rewrite (mapM_ok _ (fun x => x)).
  2:{ intros x Hx. apply (In_nth _ _ []) in Hx. destruct Hx as (j & Hj & <-). apply rd_all. symmetry.
      apply Hl. lia. }
  rewrite map_id. cbn [bind].
  assert (I0 : inv s0).
  { split; [exact L0|]. intros j Hj. rewrite H0 by exact Hj. apply good_init. }
  destruct (absorbx_sim ins inlen 0x1F s0 I0 Hms Hl H0) as (s1 & E1 & I1 & S1). rewrite E1. cbn [bind].
  destruct (squeezeblocksx_sim (n / r) s1 I1) as (outs & s2 & E2 & I2 & L2 & S2). rewrite E2. cbn [bind].
  assert (Hall : exists os, (if (n mod r =? 0)%nat then Some outs else
      ' (ts, _) <- keccak_squeezeblocksx nl perm 1 r s2 ;;
      lanesM nl (fun j => o <- get outs j ;; t <- get ts j ;; x <- rd t 0 (n mod r) ;; Some (o ++ x))) = Some os
      /\ length os = nl /\ forall j, (j < nl)%nat ->
           shake_at (junk_bytes (junk (300 + j)) 200) n (nth j ins []) = Some (nth j os [])).
  { destruct (Nat.eqb_spec (n mod r) 0) as [Hz|Hz].
    - exists outs. split; [reflexivity|]. split; [exact L2|]. intros j Hj. unfold shake_at.
      rewrite (S1 j Hj). cbn [bind]. rewrite (S2 j Hj). cbn [bind]. now rewrite Hz.
    - destruct (squeezeblocksx_sim 1 s2 I2) as (ts & s3 & E3 & I3 & L3 & S3). rewrite E3. cbn [bind].
      assert (Lt : forall j, (j < nl)%nat -> (n mod r <= length (nth j ts []))%nat).
      { intros j Hj. specialize (S3 j Hj). cbn [keccak_squeezeblocks] in S3.
        destruct (KeccakF1600_StatePermute (lane j s2)) as [w|]; [cbn [bind] in S3|discriminate].
        destruct (rd w 0 (r / 8)) as [ws|] eqn:Er; [cbn [bind] in S3|discriminate].
        injection S3 as <- _. apply rd_length in Er. rewrite app_nil_r.
        fold (sbytes ws). rewrite sbytes_length, Er, Hdiv.
        pose proof (Nat.mod_upper_bound n r). lia. }
      rewrite (lanesM_ok _ (fun j => nth j outs [] ++ firstn (n mod r) (nth j ts []))).
      + eexists. split; [reflexivity|]. split; [now rewrite map_length, seq_length|]. intros j Hj.
        rewrite nth_lanes by exact Hj. unfold shake_at. rewrite (S1 j Hj). cbn [bind]. rewrite (S2 j Hj). cbn [bind].
        destruct (Nat.eqb_spec (n mod r) 0) as [|_]; [lia|]. rewrite (S3 j Hj). cbn [bind].
        rewrite rd_ok by (rewrite Nat.add_0_l; now apply Lt). reflexivity.
      + intros j Hj. rewrite (get_nth outs j []) by lia. rewrite (get_nth ts j []) by lia. cbn [bind].
        rewrite rd_ok by (rewrite Nat.add_0_l; now apply Lt). reflexivity. }
  destruct Hall as (os & Eos & Los & Sos). rewrite Eos. f_equal.
  apply nth_ext with (d := []) (d' := sponge keccak_bytes 200 r 0x1F (norm []) n).
  - rewrite map_length. lia.
  - rewrite Los. intros j Hj. rewrite (map_nth (fun m => sponge keccak_bytes 200 r 31 (norm m) n)).
    specialize (Sos j Hj). rewrite shake_at_ok in Sos by apply junk_length. now injection Sos as <-.
Qed.
Theorem shakex_ok s0 n ins inlen : length s0 = 25%nat -> (forall j, (j < nl)%nat -> lane j s0 = repeat 0 25) ->
  length ins = nl -> (forall j, (j < nl)%nat -> (inlen <= length (nth j ins []))%nat) ->
  shakex nl perm junk s0 r n ins inlen
  = Some (map (fun m => sponge keccak_bytes 200 r 0x1F (norm (firstn inlen m)) n) ins).
Proof.
  intros L0 H0 Hms Hl.
  assert (E : forall x, In x ins -> (inlen <= length x)%nat).
  { intros x Hx. apply (In_nth _ _ []) in Hx. destruct Hx as (j & Hj & <-). apply Hl. lia. }
  assert (Ef : forall j, (j < nl)%nat ->
    nth j (map (firstn inlen) ins) [] = firstn inlen (nth j ins [])).
  { intros j Hj. rewrite (nth_indep _ [] (firstn inlen [])) by (rewrite map_length; lia). apply map_nth. }
  pose proof (shakex_exact s0 n (map (firstn inlen) ins) inlen L0 H0) as X.
  rewrite map_length, map_map in X. rewrite <- X.
  - unfold shakex. rewrite (mapM_ok _ (firstn inlen)) by (intros x Hx; rewrite rd_ok by (apply E in Hx; lia); reflexivity).
    rewrite (mapM_ok _ (fun x => x)).
    2:{ intros x Hx. apply in_map_iff in Hx. destruct Hx as (y & <- & Hy). apply rd_all.
        rewrite firstn_length. apply E in Hy. lia. }
    now rewrite map_id.
  - exact Hms.
  - intros j Hj. rewrite Ef by exact Hj. rewrite firstn_length. specialize (Hl j Hj). lia.
Qed.
End Rate.
End Sponge.
