(** shake-avx2 and shake-a64: the multi-lane functions agree with the one-lane ones ([lanes_ok]), and
    shake-a64's own thash with the reference's. *)
From Verif Require Import Base BaseFacts Params Address Suite Fips202 KeccakSpec KeccakProofs
  ShakeProofs Lanes LaneFacts LaneKeccak LaneKeccakProofs HashSpec HashShake HashShakeProofs LaneShake
  LaneShakeProofs LaneThashShake.
#[local] Opaque keccak_bytes SHAKE256.

Lemma mapM2_lanes {A B C} (f : A -> B -> option C) (g : nat -> C) nl ins addrs d d' :
  length ins = nl -> length addrs = nl ->
  (forall j, (j < nl)%nat -> f (nth j ins d) (nth j addrs d') = Some (g j)) ->
  mapM2 f ins addrs = Some (map g (seq 0 nl)).
Proof.
  intros <-. revert addrs g; induction ins as [|x ins IH]; intros [|y addrs] g L H; cbn [length] in L; try lia.
  - reflexivity.
  - cbn [mapM2 length seq map]. pose proof (H 0%nat ltac:(cbn; lia)) as H0. cbn [nth] in H0. rewrite H0. cbn [bind].
    rewrite (IH addrs (fun j => g (S j))); [|lia|intros j Hj; apply (H (S j)); cbn [length]; lia].
    cbn [bind]. now rewrite <- seq_shift, map_map.
Qed.
Lemma mapM_lanes {A C} (f : A -> option C) (g : nat -> C) nl addrs d' :
  length addrs = nl ->
  (forall j, (j < nl)%nat -> f (nth j addrs d') = Some (g j)) ->
  mapM f addrs = Some (map g (seq 0 nl)).
Proof.
  intros <-. revert g; induction addrs as [|y addrs IH]; intros g H.
  - reflexivity.
  - cbn [mapM length seq map]. pose proof (H 0%nat ltac:(cbn; lia)) as H0. cbn [nth] in H0. rewrite H0. cbn [bind].
    rewrite (IH (fun j => g (S j))); [|intros j Hj; apply (H (S j)); cbn [length]; lia].
    cbn [bind]. now rewrite <- seq_shift, map_map.
Qed.
Lemma Forall_nth_len {A} (Q : list A -> Prop) l j : Forall Q l -> (j < length l)%nat -> Q (nth j l []).
Proof. intros H Hj. rewrite Forall_forall in H. apply H. now apply nth_In. Qed.

(** The block sizes the fast paths are written for. *)
Definition words_n (P : params) : Prop := (8 <= p_n P <= 32)%nat /\ (p_n P mod 8 = 0)%nat.
Lemma words_n_q P : words_n P -> exists q, (1 <= q <= 4)%nat /\ p_n P = (8 * q)%nat.
Proof.
  intros [H1 H2]. exists (p_n P / 8)%nat. pose proof (Nat.div_mod (p_n P) 8 ltac:(lia)). lia.
Qed.

Section Thash.
Variable nl : nat.
Variable perm : list vec -> option (list vec).
Hypothesis Hperm : perm_ok nl perm.
Variable junk : nat -> nat -> Z.
Variable P : params.
Notation N := (p_n P).
Hypothesis HN : words_n P.
Variable s0 state0 : list vec.
Hypothesis Hs0 : length s0 = 25%nat.
Hypothesis Hs0z : forall j, (j < nl)%nat -> lane j s0 = repeat 0 25.
Hypothesis Hst : length state0 = 25%nat.
Variable four : bool.
Hypothesis Hz : four = false -> forall j, (j < nl)%nat -> lane j state0 = repeat 0 25.
Variable robust : bool.

Theorem thashx_shake_ok : forall (c : ctx unit) k ins addrs,
  length (c_pub_seed c) = N -> length ins = nl -> length addrs = nl ->
  Forall (fun x => length x = (k * N)%nat) ins -> Forall (fun a => length a = SPX_ADDR_BYTES) addrs ->
  thashx_shake nl perm junk P s0 state0 four robust c k ins addrs
  = Some (map (fun j => shake_T N robust (norm (c_pub_seed c)) (norm (nth j addrs [])) (norm (nth j ins [])))
            (seq 0 nl)).
Proof.
  intros [pub sk st] k ins addrs Hp Li La Fi Fa. cbn [c_pub_seed] in *.
  destruct (words_n_q P HN) as (q & Hq & Eq).
  assert (Hin : forall j, (j < nl)%nat -> length (nth j ins []) = (k * N)%nat)
    by (intros j Hj; apply (Forall_nth_len _ ins j Fi); lia).
  assert (Had : forall j, (j < nl)%nat -> length (nth j addrs []) = 32%nat)
    by (intros j Hj; apply (Forall_nth_len _ addrs j Fa); lia).
  unfold thashx_shake. destruct ((k =? 1)%nat || (k =? 2)%nat) eqn:Ek.
  - assert (Hk : (1 <= k <= 2)%nat).
    { apply orb_true_iff in Ek. rewrite !Nat.eqb_eq in Ek. lia. }
    destruct robust.
    + apply robust_fast with (q := q); auto.
    + apply simple_fast with (q := q); auto.
  - destruct robust.
    + apply robust_slow; auto.
    + apply simple_slow; auto.
Qed.
Theorem prf_addrx_shake_ok : forall (c : ctx unit) addrs,
  length (c_pub_seed c) = N -> length (c_sk_seed c) = N -> length addrs = nl ->
  Forall (fun a => length a = SPX_ADDR_BYTES) addrs ->
  prf_addrx_shake nl perm P state0 four c addrs
  = Some (map (fun j => shake_PRF N (norm (c_pub_seed c)) (norm (c_sk_seed c)) (norm (nth j addrs []))) (seq 0 nl)).
Proof.
  clear s0 Hs0 Hs0z robust. intros [pub sk st] addrs Hp Hsk La Fa. cbn [c_pub_seed c_sk_seed] in *.
  destruct (words_n_q P HN) as (q & Hq & Eq).
  apply (prf_fast nl perm Hperm junk P q); auto.
  intros j Hj; apply (Forall_nth_len _ addrs j Fa); lia.
Qed.
End Thash.

Section Builds.
Variable P : params.
Variable junk vj : nat -> nat -> Z.
Variable robust : bool.
Hypothesis HN : words_n P.
Notation N := (p_n P).

Lemma avx2_zero j : lane j (avx2_s0 vj) = repeat 0 25.
Proof. unfold lane, avx2_s0, junk_vecs, vxor. cbn [map seq]. now rewrite !Z.lxor_nilpotent. Qed.
Lemma zero_zero j : lane j zero_vecs = repeat 0 25.
Proof. reflexivity. Qed.

Theorem avx2_thashx : forall (c : ctx unit) k ins addrs,
  length (c_pub_seed c) = N -> length ins = 4%nat -> length addrs = 4%nat ->
  Forall (fun x => length x = (k * N)%nat) ins -> Forall (fun a => length a = SPX_ADDR_BYTES) addrs ->
  lx_thash (shake_avx2_lanes P junk vj robust) c k ins addrs
  = Some (map (fun j => shake_T N robust (norm (c_pub_seed c)) (norm (nth j addrs [])) (norm (nth j ins []))) (seq 0 4)).
Proof.
  apply thashx_shake_ok; auto; [apply times4_ok|intros; apply avx2_zero|discriminate].
Qed.
Theorem avx2_prfx : forall (c : ctx unit) addrs,
  length (c_pub_seed c) = N -> length (c_sk_seed c) = N -> length addrs = 4%nat ->
  Forall (fun a => length a = SPX_ADDR_BYTES) addrs ->
  lx_prf_addr (shake_avx2_lanes P junk vj robust) c addrs
  = Some (map (fun j => shake_PRF N (norm (c_pub_seed c)) (norm (c_sk_seed c)) (norm (nth j addrs []))) (seq 0 4)).
Proof.
  apply prf_addrx_shake_ok; auto; [apply times4_ok|discriminate].
Qed.
Theorem shake_avx2_lanes_ok : wf_params P = true ->
  lanes_ok P (shake_suite P junk robust) (shake_avx2_lanes P junk vj robust) 2.
Proof.
  intros Hwf. constructor.
  - intros c k ins addrs (H1 & H2 & _) _ Li La Fi Fa. rewrite avx2_thashx by auto. symmetry.
    apply mapM2_lanes with (d := []) (d' := []); auto. intros j Hj. apply shake_hs_thash; auto.
    + apply (Forall_nth_len _ addrs j Fa). rewrite La. exact Hj.
    + apply (Forall_nth_len _ ins j Fi). rewrite Li. exact Hj.
  - intros c addrs (H1 & H2 & _) La Fa. rewrite avx2_prfx by auto. symmetry.
    apply mapM_lanes with (d' := []); auto. intros j Hj. apply shake_prf_ok; auto.
    apply (Forall_nth_len _ addrs j Fa). rewrite La. exact Hj.
Qed.

Theorem a64_thashx_ok : forall (c : ctx unit) k ins addrs,
  length (c_pub_seed c) = N -> length ins = 2%nat -> length addrs = 2%nat ->
  Forall (fun x => length x = (k * N)%nat) ins -> Forall (fun a => length a = SPX_ADDR_BYTES) addrs ->
  a64_thashx P junk vj robust c k ins addrs
  = Some (map (fun j => shake_T N robust (norm (c_pub_seed c)) (norm (nth j addrs [])) (norm (nth j ins []))) (seq 0 2)).
Proof.
  apply thashx_shake_ok; auto; [apply f1600x2_ok; reflexivity].
Qed.
Theorem a64_prfx : forall (c : ctx unit) addrs,
  length (c_pub_seed c) = N -> length (c_sk_seed c) = N -> length addrs = 2%nat ->
  Forall (fun a => length a = SPX_ADDR_BYTES) addrs ->
  lx_prf_addr (shake_a64_lanes P junk vj robust) c addrs
  = Some (map (fun j => shake_PRF N (norm (c_pub_seed c)) (norm (c_sk_seed c)) (norm (nth j addrs []))) (seq 0 2)).
Proof.
  apply prf_addrx_shake_ok; auto. apply f1600x2_ok; reflexivity.
Qed.
(** shake-a64 hashes one input as the reference does. *)
Theorem a64_thash_ok : forall (c : ctx unit) k i a,
  length (c_pub_seed c) = N -> length a = SPX_ADDR_BYTES -> length i = (k * N)%nat ->
  a64_thash P junk vj robust c k i a = Some (shake_T N robust (norm (c_pub_seed c)) (norm a) (norm i)).
Proof.
  intros c k i a H1 H2 H3. unfold a64_thash. rewrite a64_thashx_ok by auto. reflexivity.
Qed.
Theorem shake_a64_lanes_ok : wf_params P = true ->
  lanes_ok P (shake_a64_suite P junk vj robust) (shake_a64_lanes P junk vj robust) 1.
Proof.
  intros Hwf. constructor.
  - intros c k ins addrs (H1 & H2 & _) _ Li La Fi Fa. cbn [shake_a64_lanes lx_thash].
    rewrite a64_thashx_ok by auto. symmetry.
    apply mapM2_lanes with (d := []) (d' := []); auto. intros j Hj. apply a64_thash_ok; auto.
    + apply (Forall_nth_len _ addrs j Fa). rewrite La. exact Hj.
    + apply (Forall_nth_len _ ins j Fi). rewrite Li. exact Hj.
  - intros c addrs (H1 & H2 & _) La Fa. rewrite a64_prfx by auto. symmetry.
    apply mapM_lanes with (d' := []); auto. intros j Hj. apply shake_prf_ok; auto.
    apply (Forall_nth_len _ addrs j Fa). rewrite La. exact Hj.
Qed.

(** Whatever thashx2 returns are bytes. *)
Lemma out_bytes_bytes nl vs : Forall all_bytes (out_bytes nl vs).
Proof.
  apply Forall_forall. intros x Hx. apply in_map_iff in Hx. destruct Hx as (j & <- & _).
  apply Forall_forall. intros y Hy. apply in_flat_map in Hy. destruct Hy as (v & _ & Hy).
  unfold store64 in Hy. apply in_map_iff in Hy. destruct Hy as (i & <- & _). apply u8_byte.
Qed.
Lemma squeezex_bytes nl perm r nb : forall s outs s',
  keccak_squeezeblocksx nl perm nb r s = Some (outs, s') -> Forall all_bytes outs.
Proof.
  induction nb as [|nb IH]; intros s outs s' E; cbn [keccak_squeezeblocksx] in E.
  - injection E as <- _. apply Forall_forall. intros x Hx. apply repeat_spec in Hx. subst. constructor.
  - destruct (perm s) as [s1|]; [cbn [bind] in E|discriminate].
    destruct (mapM (get s1) (seq 0 (r / 8))) as [vs|]; [cbn [bind] in E|discriminate].
    destruct (keccak_squeezeblocksx nl perm nb r s1) as [[o s2]|] eqn:E2; [cbn [bind] in E|discriminate].
    injection E as <- _. apply IH in E2. pose proof (out_bytes_bytes nl vs) as Hv.
    apply Forall_forall. intros x Hx. apply in_map_iff in Hx. destruct Hx as ([u v] & <- & Hx). cbn [fst snd].
    rewrite Forall_forall in E2, Hv. apply Forall_app. split.
    + apply Hv. now apply in_combine_l in Hx.
    + apply E2. now apply in_combine_r in Hx.
Qed.
Lemma mapM_Forall {A B} (f : A -> option B) (Q : B -> Prop) l : forall r,
  (forall x y, f x = Some y -> Q y) -> mapM f l = Some r -> Forall Q r.
Proof.
  induction l as [|x l IH]; intros r H E; cbn [mapM] in E.
  - injection E as <-. constructor.
  - destruct (f x) as [y|] eqn:Ex; [cbn [bind] in E|discriminate].
    destruct (mapM f l) as [r'|]; [cbn [bind] in E|discriminate]. injection E as <-. constructor; eauto.
Qed.
Lemma rd_bytes x o n y : all_bytes x -> rd x o n = Some y -> all_bytes y.
Proof.
  intros H E. unfold rd in E. destruct (o + n <=? length x)%nat; [|discriminate]. injection E as <-.
  unfold all_bytes in *. rewrite Forall_forall in *. intros z Hz. apply H.
  rewrite <- (firstn_skipn o x). apply in_or_app. right.
  rewrite <- (firstn_skipn n (skipn o x)). apply in_or_app. now left.
Qed.
Lemma shakex_bytes nl perm jk s0 r n ins inlen outs :
  shakex nl perm jk s0 r n ins inlen = Some outs -> Forall all_bytes outs.
Proof.
  unfold shakex. intros E.
  destruct (mapM (fun x => rd x 0 inlen) ins) as [i|]; [cbn [bind] in E|discriminate].
  destruct (keccak_absorbx nl perm jk r i inlen 31 s0) as [s|]; [cbn [bind] in E|discriminate].
  destruct (keccak_squeezeblocksx nl perm (n / r) r s) as [[o s']|] eqn:E1; [cbn [bind] in E|discriminate].
  apply squeezex_bytes in E1. destruct (n mod r =? 0)%nat.
  - now injection E as <-.
  - destruct (keccak_squeezeblocksx nl perm 1 r s') as [[t s2]|] eqn:E2; [cbn [bind] in E|discriminate].
    apply squeezex_bytes in E2. unfold lanesM in E. eapply mapM_Forall; [|exact E].
    intros j y Ey. cbv beta in Ey. destruct (get o j) as [oj|] eqn:Eo; [cbn [bind] in Ey|discriminate].
    destruct (get t j) as [tj|] eqn:Et; [cbn [bind] in Ey|discriminate].
    destruct (rd tj 0 (n mod r)) as [x|] eqn:Ex; [cbn [bind] in Ey|discriminate]. injection Ey as <-.
    unfold get in Eo, Et. apply nth_error_In in Eo, Et. rewrite Forall_forall in E1, E2.
    apply Forall_app. split; [now apply E1|]. eapply rd_bytes; [|exact Ex]. now apply E2.
Qed.
Ltac opt E := match type of E with bind ?o _ = _ =>
  let e := fresh "e" in destruct o eqn:e; [|discriminate]; cbn [bind] in E end.
Lemma thashx_bytes nl perm jk s0 st four c k ins addrs outs :
  thashx_shake nl perm jk P s0 st four robust c k ins addrs = Some outs -> Forall all_bytes outs.
Proof.
  clear HN. unfold thashx_shake, thashx_simple, thashx_robust, extract, shake256x. intros E.
  destruct robust, ((k =? 1)%nat || (k =? 2)%nat); cbv zeta in E; repeat opt E;
    try (eapply shakex_bytes; exact E); injection E as <-; apply out_bytes_bytes.
Qed.
Theorem shake_a64_suite_ok : wf_params P = true -> suite_ok P (shake_a64_suite P junk vj robust).
Proof.
  intros Hwf. pose proof (shake_suite_ok P junk Hwf robust) as S. constructor.
  - intros c k i a (H1 & H2 & _) H3 H4. eexists. split; [now apply a64_thash_ok|apply shake_T_length].
  - intros c k i a d E. cbn [shake_a64_suite hs_thash] in E. unfold a64_thash in E.
    destruct (a64_thashx P junk vj robust c k [i; i] [a; a]) as [outs|] eqn:Eo; [cbn [bind] in E|discriminate].
    apply thashx_bytes in Eo. unfold get in E. apply nth_error_In in E. rewrite Forall_forall in Eo. now apply Eo.
  - exact (ok_prf _ _ S).
  - exact (ok_prf_bytes _ _ S).
  - exact (ok_rand _ _ S).
  - exact (ok_rand_bytes _ _ S).
  - exact (ok_msg _ _ S).
  - intros. cbn [shake_a64_suite hs_thash]. unfold a64_thash, a64_thashx, thashx_shake. destruct robust; reflexivity.
  - exact (ok_msg_sk _ _ S).
  - exact (ok_rand_sk _ _ S).
Qed.
End Builds.
