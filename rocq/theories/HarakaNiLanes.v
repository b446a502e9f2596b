(** haraka-aesni: the four-lane hash functions agree with the one-lane ones ([lanes_ok]). *)
From Verif Require Import Base BaseFacts Params Address Suite Utils Spec HashSpec HarakaSpec HarakaHashSpec Haraka SpongeFacts
  ShakeProofs HarakaProofs HarakaSponge HarakaTweak HashShake HashShakeProofs HashSha2Proofs HashHaraka HashHarakaProofs
  Lanes LaneFacts HarakaNi HarakaNiProofs HarakaNiSponge.
#[local] Opaque HarakaS Haraka512 Haraka256 tweaked_RC pi512 pi256 load_haraka_constants standard_RC
  ni_512x4 ni_256x4 ni_Sx4 ni_tweak_constants.

(** A loop over the four lanes of a buffer, lane j in chunk j of [w] bytes. *)
Lemma iter4 (F : nat -> bytes -> option bytes) w s0 s1 s2 s3 t0 t1 t2 t3 rest :
  length t0 = w -> length t1 = w -> length t2 = w ->
  (forall j pre post, length pre = (w * j)%nat -> (j < 4)%nat ->
    F j (pre ++ nth j [s0; s1; s2; s3] [] ++ post) = Some (pre ++ nth j [t0; t1; t2; t3] [] ++ post)) ->
  iterM 4 0 F (concat [s0; s1; s2; s3] ++ rest) = Some (concat [t0; t1; t2; t3] ++ rest).
Proof.
  intros L0 L1 L2 H. cbn [iterM concat]. rewrite !app_nil_r, <- !app_assoc.
  pose proof (H 0%nat [] (s1 ++ s2 ++ s3 ++ rest) ltac:(cbn; lia) ltac:(lia)) as E0. cbn [nth app] in E0. rewrite E0. cbn [bind].
  pose proof (H 1%nat t0 (s2 ++ s3 ++ rest) ltac:(lia) ltac:(lia)) as E1. cbn [nth] in E1. rewrite E1. cbn [bind].
  pose proof (H 2%nat (t0 ++ t1) (s3 ++ rest) ltac:(rewrite app_length; lia) ltac:(lia)) as E2. cbn [nth] in E2.
  rewrite <- !app_assoc in E2. rewrite E2. cbn [bind].
  pose proof (H 3%nat (t0 ++ t1 ++ t2) rest ltac:(rewrite !app_length; lia) ltac:(lia)) as E3. cbn [nth] in E3.
  rewrite <- !app_assoc in E3. rewrite E3. cbn [bind]. reflexivity.
Qed.
Lemma lane_cases (Q : nat -> Prop) : Q 0%nat -> Q 1%nat -> Q 2%nat -> Q 3%nat -> forall j, (j < 4)%nat -> Q j.
Proof. intros H0 H1 H2 H3 [|[|[|[|j]]]] Hj; auto; lia. Qed.

Ltac four_lanes := match goal with |- forall j, (j < 4)%nat -> @?Q j => apply (lane_cases Q) end; cbv beta.
Lemma zeros_norm k : norm (repeat 0 k) = repeat 0 k.
Proof. induction k as [|k IH]; cbn [repeat map]; [reflexivity|]. now rewrite IH. Qed.
Section Lanes.
Variable P : params.
Notation N := (p_n P).
Variable junk : nat -> nat -> Z.
Hypothesis HN : (1 <= N <= 32)%nat.
Hypothesis Hwf : wf_params P = true.
Lemma outs32_ok o0 o1 o2 o3 : length o0 = 32%nat -> length o1 = 32%nat -> length o2 = 32%nat -> length o3 = 32%nat ->
  outs32 P (o0 ++ o1 ++ o2 ++ o3) = Some (map (firstn N) [o0; o1; o2; o3]).
Proof.
  clear Hwf junk. intros L0 L1 L2 L3. unfold outs32. cbn [seq mapM].
  assert (G : forall j pre o post, length o = 32%nat -> length pre = (32 * j)%nat -> rd (pre ++ o ++ post) (32 * j) N = Some (firstn N o)).
  { intros j pre o post Lo Lp. rewrite rd_ok by (rewrite !app_length; lia). f_equal.
    rewrite skipn_app, skipn_all2, Lp, Nat.sub_diag by lia. cbn [app skipn].
    rewrite firstn_app. replace (N - length o)%nat with O by lia. now rewrite firstn_O, app_nil_r. }
  pose proof (G 0%nat [] o0 (o1 ++ o2 ++ o3) L0 eq_refl) as E0. cbn [app] in E0. rewrite E0. cbn [bind].
  rewrite (G 1%nat o0 o1) by auto. cbn [bind].
  pose proof (G 2%nat (o0 ++ o1) o2 o3 L2 ltac:(rewrite app_length; lia)) as E2. rewrite <- app_assoc in E2. rewrite E2. cbn [bind].
  pose proof (G 3%nat (o0 ++ o1 ++ o2) o3 [] L3 ltac:(rewrite !app_length; lia)) as E3. rewrite <- !app_assoc, app_nil_r in E3.
  rewrite E3. reflexivity.
Qed.
(** a_j followed by x_j, of N bytes, and zeros *)
Definition blk (a x : bytes) : bytes := (a ++ x) ++ repeat 0 (64 - (32 + N)).
Lemma blk_len a x : length a = 32%nat -> length x = N -> length (blk a x) = 64%nat.
Proof. intros La Lx. unfold blk. rewrite !app_length, repeat_length. lia. Qed.
Lemma blk_norm a x : length a = 32%nat -> length x = N -> norm (blk a x) = pad64 (norm a ++ norm x).
Proof.
  clear Hwf junk. intros La Lx. unfold blk, pad64. rewrite !map_app, zeros_norm. f_equal. f_equal. rewrite app_length, !map_length. lia.
Qed.
Lemma final512 RC a0 a1 a2 a3 x0 x1 x2 x3 : rc_good RC ->
  length a0 = 32%nat -> length a1 = 32%nat -> length a2 = 32%nat -> length a3 = 32%nat ->
  length x0 = N -> length x1 = N -> length x2 = N -> length x3 = N ->
  (o <- ni_512x4 RC (concat [blk a0 x0; blk a1 x1; blk a2 x2; blk a3 x3]) ;; outs32 P o)
  = Some [firstn N (Haraka512 RC (pad64 (norm a0 ++ norm x0))); firstn N (Haraka512 RC (pad64 (norm a1 ++ norm x1)));
          firstn N (Haraka512 RC (pad64 (norm a2 ++ norm x2))); firstn N (Haraka512 RC (pad64 (norm a3 ++ norm x3)))].
Proof.
  intros (LR & B5 & _) A0 A1 A2 A3 X0 X1 X2 X3. rewrite cat4. rewrite (ni_512x4_ok RC LR B5) by now apply blk_len. cbn [bind].
  assert (E : forall a x, length a = 32%nat -> length x = N -> length (Haraka512 RC (norm (blk a x))) = 32%nat)
    by (intros a x La Lx; apply Haraka512_length; rewrite map_length; now apply blk_len).
  rewrite outs32_ok by now apply E. cbn [map]. now rewrite !blk_norm.
Qed.
Lemma z256 : repeat 0 (4 * 64) = concat [blk (repeat 0 32) (repeat 0 N); blk (repeat 0 32) (repeat 0 N);
  blk (repeat 0 32) (repeat 0 N); blk (repeat 0 32) (repeat 0 N)] ++ [].
Proof.
  assert (E : blk (repeat 0 32) (repeat 0 N) = repeat 0 64) by (unfold blk; rewrite <- !repeat_app; f_equal; lia).
  rewrite E. reflexivity.
Qed.
Lemma put_addr pre x y post a o : length x = 32%nat -> length a = 32%nat -> length y = N -> o = length pre ->
  memcpy (pre ++ blk x y ++ post) o a 0 32 = Some (pre ++ blk a y ++ post).
Proof. clear. intros Lx La Ly ->. unfold blk. rewrite <- !app_assoc. now rewrite memcpy_mid by auto. Qed.
Lemma put_in pre x y post a o : length x = 32%nat -> length y = N -> length a = N -> o = (length pre + 32)%nat ->
  memcpy (pre ++ blk x y ++ post) o a 0 N = Some (pre ++ blk x a ++ post).
Proof.
  clear. intros Lx Ly La ->. unfold blk. rewrite <- !app_assoc. rewrite app_assoc.
  rewrite memcpy_mid by (rewrite ?app_length; auto; lia). now rewrite <- app_assoc.
Qed.
Lemma rl (n : nat) : length (repeat 0 n) = n.
Proof. apply repeat_length. Qed.

Variable robust : bool.
Notation HS := (ni_suite P junk robust).
Lemma ni_state (c : ctx ni_st) : ctx_ok P HS c ->
  c_state c = Some (tweaked_RC (norm (c_pub_seed c))) /\ length (c_pub_seed c) = N /\ length (c_sk_seed c) = N.
Proof.
  clear HN Hwf. intros (H1 & H2 & H3). split; [|auto]. transitivity (ni_tweak_constants N (c_pub_seed c)); [exact H3|].
  now apply ni_tweak_ok.
Qed.
Lemma ni_gctx (c : ctx ni_st) : ctx_ok P HS c -> gctx P ni_st ni_fns c.
Proof. intros H. exact (hk_ctx P junk ni_st ni_fns _ (ni_init N) robust c H). Qed.
Theorem ni_prf_lanes c addrs : ctx_ok P HS c -> length addrs = 4%nat ->
  Forall (fun a => length a = SPX_ADDR_BYTES) addrs ->
  prf_addrx_haraka P c addrs = mapM (hs_prf_addr HS c) addrs.
Proof.
  intros Hc L F. destruct (ni_state c Hc) as (Es & Lp & Ls). assert (G := ni_gctx c Hc).
  destruct addrs as [|a0 [|a1 [|a2 [|a3 [|]]]]]; try discriminate L. destruct (Forall4 _ _ _ _ _ F) as (A0 & A1 & A2 & A3).
  cbn [mapM]. change (hs_prf_addr HS c) with (hk_prf_addr P ni_st ni_fns c).
  rewrite !(hk_prf_ok P junk HN ni_st ni_fns c) by assumption. cbn [bind].
  unfold prf_addrx_haraka. rewrite Es. cbn [bind]. rewrite z256.
  unfold SPX_ADDR_BYTES in *. set (sk := c_sk_seed c) in *.
  rewrite (iter4 _ 64 _ _ _ _ (blk a0 sk) (blk a1 sk) (blk a2 sk) (blk a3 sk));
    [|now apply blk_len|now apply blk_len|now apply blk_len|].
  - rewrite app_nil_r. cbn [bind]. rewrite final512 by (auto; apply good_tweaked). reflexivity.
  - intros j pre post Lj Hj. revert pre post Lj.
    revert j Hj. four_lanes; intros pre post Lj; cbn [get nth_error nth bind];
      (rewrite put_addr by (rewrite ?rl; auto; lia)); cbn [bind]; apply put_in; rewrite ?rl; auto; lia.
Qed.
Lemma T_one (c : ctx ni_st) a x : length x = N ->
  haraka_T N robust (norm (c_pub_seed c)) (norm a) (norm x)
  = firstn N (Haraka512 (tweaked_RC (norm (c_pub_seed c))) (pad64 (norm a ++
      if robust then xor_str (norm x) (firstn N (Haraka256 (tweaked_RC (norm (c_pub_seed c))) (norm a))) else norm x))).
Proof. intros L. unfold haraka_T, haraka_T_of. now rewrite map_length, L, Nat.eqb_refl. Qed.
Lemma T_more (c : ctx ni_st) a x k : k <> 1%nat -> length x = (k * N)%nat ->
  haraka_T N robust (norm (c_pub_seed c)) (norm a) (norm x)
  = HarakaS (tweaked_RC (norm (c_pub_seed c))) (norm a ++
      if robust then xor_str (norm x) (HarakaS (tweaked_RC (norm (c_pub_seed c))) (norm a) (k * N)) else norm x) N.
Proof.
  intros Hk L. unfold haraka_T, haraka_T_of. rewrite map_length, L.
  replace (k * N =? N)%nat with false by (symmetry; apply Nat.eqb_neq; nia). reflexivity.
Qed.
(** The inputs of all lanes. *)
Section Thash.
Variable c : ctx ni_st.
Hypothesis Hc : ctx_ok P HS c.
Variable k : nat.
Variables a0 a1 a2 a3 x0 x1 x2 x3 : bytes.
Hypothesis A0 : length a0 = 32%nat.
Hypothesis A1 : length a1 = 32%nat.
Hypothesis A2 : length a2 = 32%nat.
Hypothesis A3 : length a3 = 32%nat.
Hypothesis X0 : length x0 = (k * N)%nat.
Hypothesis X1 : length x1 = (k * N)%nat.
Hypothesis X2 : length x2 = (k * N)%nat.
Hypothesis X3 : length x3 = (k * N)%nat.
Notation RC := (tweaked_RC (norm (c_pub_seed c))).
Notation T a x := (haraka_T N robust (norm (c_pub_seed c)) (norm a) (norm x)).
Lemma scalar : mapM2 (hs_thash HS c k) [x0; x1; x2; x3] [a0; a1; a2; a3] = Some [T a0 x0; T a1 x1; T a2 x2; T a3 x3].
Proof.
  assert (G := ni_gctx c Hc). cbn [mapM2]. unfold ni_suite.
  rewrite !(hk_hs_thash P junk HN ni_st ni_fns Hwf (ni_tweak_constants N) robust c k) by assumption. reflexivity.
Qed.
Lemma simple_lanes : robust = false -> thashx_haraka_simple P junk c k [x0; x1; x2; x3] [a0; a1; a2; a3]
  = Some [T a0 x0; T a1 x1; T a2 x2; T a3 x3].
Proof.
  intros Hr. destruct (ni_state c Hc) as (Es & Lp & Ls). unfold thashx_haraka_simple. rewrite Es. cbn [bind].
  unfold SPX_ADDR_BYTES. destruct (Nat.eqb_spec k 1) as [K1|K1].
  - rewrite K1, Nat.mul_1_l in *. change (64 * 4)%nat with (4 * 64)%nat. rewrite z256.
    rewrite (iter4 _ 64 _ _ _ _ (blk a0 (repeat 0 N)) (blk a1 (repeat 0 N)) (blk a2 (repeat 0 N)) (blk a3 (repeat 0 N)));
      [|apply blk_len; rewrite ?rl; auto|apply blk_len; rewrite ?rl; auto|apply blk_len; rewrite ?rl; auto|].
    2:{ intros j pre post Lj Hj. revert pre post Lj. revert j Hj.
        four_lanes; intros pre post Lj; cbn [get nth_error nth bind]; apply put_addr; rewrite ?rl; auto; lia. }
    cbn [bind].
    rewrite (iter4 _ 64 _ _ _ _ (blk a0 x0) (blk a1 x1) (blk a2 x2) (blk a3 x3));
      [|now apply blk_len|now apply blk_len|now apply blk_len|].
    2:{ intros j pre post Lj Hj. revert pre post Lj. revert j Hj.
        four_lanes; intros pre post Lj; cbn [get nth_error nth bind]; apply put_in; rewrite ?rl; auto; lia. }
    cbn [bind]. rewrite app_nil_r. rewrite final512 by (auto; apply good_tweaked). rewrite !T_one by auto. rewrite Hr. reflexivity.
  - assert (G : forall j a x, length a = 32%nat -> length x = (k * N)%nat ->
      (b <- memcpy (junk_bytes (junk (330 + j)) (32 + k * N)) 0 a 0 32 ;; memcpy b 32 x 0 (k * N)) = Some (a ++ x)).
    { clear. intros j a x La Lx. set (J := junk_bytes _ _). assert (LJ : length J = (32 + k * N)%nat) by apply junk_length. clearbody J.
      destruct (split_at J 0 32) as (y & j1 & j2 & -> & L0 & L1 & _); [lia|].
      destruct y; [|discriminate L0]. cbn [app] in *. rewrite app_length in LJ.
      rewrite memcpy_all by lia. cbn [bind]. rewrite <- (app_nil_r j2). rewrite memcpy_mid by lia. now rewrite app_nil_r. }
    cbn [mapM seq get nth_error bind]. cbn [Nat.add] in G |- *.
    pose proof (G 0%nat a0 x0 A0 X0) as E0. pose proof (G 1%nat a1 x1 A1 X1) as E1.
    pose proof (G 2%nat a2 x2 A2 X2) as E2. pose proof (G 3%nat a3 x3 A3 X3) as E3. clear G.
    cbv zeta. rewrite E0, E1, E2, E3. cbn [bind].
    destruct (good_tweaked (c_pub_seed c)) as (LR & B5 & _).
    rewrite (ni_Sx4_ok RC LR B5) by (try reflexivity; apply Forall4i; rewrite app_length; lia). cbn [map].
    rewrite !firstn_all2 by (rewrite app_length; lia). rewrite !map_app.
    rewrite !(T_more c _ _ k K1) by assumption. rewrite Hr. reflexivity.
Qed.
(** The robust lane of a block after i bytes of the loop. *)
Definition xi (x o : bytes) (i : nat) : bytes := xor_str (norm (firstn i x)) (norm (firstn i o)).
Definition lx (a x o : bytes) (i : nat) : bytes := a ++ xi x o i ++ repeat 0 (32 - i).
Lemma xi_len x o i : (i <= length x)%nat -> (i <= length o)%nat -> length (xi x o i) = i.
Proof. clear. intros. unfold xi. rewrite xor_str_length; rewrite !map_length, !firstn_length; lia. Qed.
Lemma xi_bytes x o i : all_bytes (xi x o i).
Proof. clear. unfold xi. apply xor_str_bytes; apply norm_all. Qed.
Lemma lx_step a x o i pre post m j off : length a = 32%nat -> length x = N -> length o = 32%nat -> (i < N)%nat -> (j < 4)%nat ->
  length pre = (64 * j)%nat -> get m off = get o i -> off = (i + 32 * j)%nat ->
  (u <- get x i ;; v <- get m off ;; wr (pre ++ lx a x o i ++ post) (32 + i + 64 * j) [Z.lxor (u8 u) (u8 v)])
  = Some (pre ++ lx a x o (S i) ++ post).
Proof.
  clear - HN. intros La Lx Lo Hi Hj Lp Hg _. rewrite Hg. rewrite (get_nth x i 0), (get_nth o i 0) by lia. cbn [bind].
  unfold lx. replace (32 - i)%nat with (S (32 - S i)) by lia. cbn [repeat].
  change (0 :: repeat 0 (32 - S i)) with ([0] ++ repeat 0 (32 - S i)).
  rewrite <- !app_assoc. rewrite (app_assoc pre), (app_assoc (pre ++ a)).
  rewrite (wr_app' ((pre ++ a) ++ xi x o i)); [|rewrite !app_length, xi_len by lia; lia|reflexivity].
  f_equal. rewrite <- !app_assoc. do 2 f_equal. rewrite app_assoc. f_equal.
  unfold xi. rewrite (firstn_snoc x i 0), (firstn_snoc o i 0) by lia. rewrite !map_app.
  cbn [map]. rewrite xor_str_snoc by (rewrite !map_length, !firstn_length; lia). reflexivity.
Qed.
Lemma memcpy_self D pre mid post p m q i off n : D = pre ++ mid ++ post -> D = p ++ m ++ q ->
  i = length pre -> n = length mid -> off = length p -> n = length m -> memcpy D i D off n = Some (pre ++ m ++ post).
Proof.
  clear. intros E1 E2 -> Hn -> Hm. unfold memcpy.
  assert (Er : rd D (length p) n = Some m) by (rewrite E2; apply rd_app'; lia).
  rewrite Er. cbn [bind]. rewrite E1. apply wr_app'; lia.
Qed.
Lemma robust_lanes : robust = true -> thashx_haraka_robust P junk c k [x0; x1; x2; x3] [a0; a1; a2; a3]
  = Some [T a0 x0; T a1 x1; T a2 x2; T a3 x3].
Proof.
  intros Hr. destruct (ni_state c Hc) as (Es & Lp & Ls). unfold thashx_haraka_robust. rewrite Es. cbn [bind].
  destruct (good_tweaked (c_pub_seed c)) as (LR & B5 & B2).
  unfold SPX_ADDR_BYTES. destruct (Nat.eqb_spec k 1) as [K1|K1].
  - rewrite K1, Nat.mul_1_l in *.
    set (z := repeat 0 32). assert (Lz : length z = 32%nat) by reflexivity.
    change (repeat 0 (64 * 4)) with (concat [z; z; z; z] ++ (z ++ z ++ z ++ z)).
    rewrite (iter4 _ 32 _ _ _ _ a0 a1 a2 a3) by
      (auto; intros j pre post Lj Hj; revert pre post Lj; revert j Hj;
       four_lanes; intros pre post Lj; cbn [get nth_error nth bind]; apply memcpy_mid; auto).
    cbn [bind]. rewrite cat4. rewrite (ni_256x4_ok RC LR B5 B2) by auto. cbn [bind].
    set (o0 := Haraka256 RC (norm a0)). set (o1 := Haraka256 RC (norm a1)).
    set (o2 := Haraka256 RC (norm a2)). set (o3 := Haraka256 RC (norm a3)).
    assert (LO : forall a, length a = 32%nat -> length (Haraka256 RC (norm a)) = 32%nat)
      by (intros a La; apply Haraka256_length; now rewrite map_length).
    assert (BO : forall a, length a = 32%nat -> all_bytes (Haraka256 RC (norm a)))
      by (intros a La; apply (Haraka256_byte RC B2); [now rewrite map_length|apply norm_all]).
    assert (O0 : length o0 = 32%nat) by exact (LO a0 A0). assert (O1 : length o1 = 32%nat) by exact (LO a1 A1). assert (O2 : length o2 = 32%nat) by exact (LO a2 A2). assert (O3 : length o3 = 32%nat) by exact (LO a3 A3).
    assert (D0 : all_bytes o0) by exact (BO a0 A0). assert (D1 : all_bytes o1) by exact (BO a1 A1). assert (D2 : all_bytes o2) by exact (BO a2 A2). assert (D3 : all_bytes o3) by exact (BO a3 A3).
    clear LO BO. rewrite <- !app_assoc.
    rewrite (memcpy_self _ (a0 ++ a1 ++ a2 ++ a3 ++ z ++ z) z z (a0 ++ a1 ++ a2) a3 (z ++ z ++ z ++ z));
      [|rewrite <- ?app_assoc; reflexivity|rewrite <- ?app_assoc; reflexivity|rewrite !app_length; lia|lia|rewrite !app_length; lia|lia].
    cbn [bind]. rewrite <- !app_assoc.
    rewrite (memcpy_self _ (a0 ++ a1 ++ a2 ++ a3) z (z ++ a3 ++ z) (a0 ++ a1) a2 (a3 ++ z ++ z ++ a3 ++ z));
      [|rewrite <- ?app_assoc; reflexivity|rewrite <- ?app_assoc; reflexivity|rewrite !app_length; lia|lia|rewrite !app_length; lia|lia].
    cbn [bind]. rewrite <- !app_assoc.
    rewrite (memcpy_self _ (a0 ++ a1) a2 (a3 ++ a2 ++ z ++ a3 ++ z) a0 a1 (a2 ++ a3 ++ a2 ++ z ++ a3 ++ z));
      [|rewrite <- ?app_assoc; reflexivity|rewrite <- ?app_assoc; reflexivity|rewrite !app_length; lia|lia|lia|lia].
    cbn [bind]. rewrite <- !app_assoc.
    rewrite (wr_app' a0 a1) by auto. cbn [bind]. fold z.
    pose proof (wr_app' (a0 ++ z ++ a1) a3 (a2 ++ z ++ a3 ++ z) z 96) as W. rewrite <- !app_assoc in W.
    rewrite W by (rewrite ?app_length; lia). clear W. cbn [bind].
    replace (a0 ++ z ++ a1 ++ z ++ a2 ++ z ++ a3 ++ z) with (concat [lx a0 x0 o0 0; lx a1 x1 o1 0; lx a2 x2 o2 0; lx a3 x3 o3 0])
      by (rewrite cat4; unfold lx, xi; cbn [firstn map xor_str combine app Nat.sub]; now rewrite <- !app_assoc).
    assert (GO : forall i j, (i < 32)%nat -> (j < 4)%nat -> get (o0 ++ o1 ++ o2 ++ o3) (i + 32 * j) = get (nth j [o0; o1; o2; o3] []) i).
    { intros i j Hi Hj. revert j Hj. four_lanes; cbn [nth]; unfold get.
      - rewrite nth_error_app1 by lia. f_equal. lia.
      - rewrite nth_error_app2 by lia. rewrite nth_error_app1 by lia. f_equal. lia.
      - rewrite nth_error_app2 by lia. rewrite nth_error_app2 by lia. rewrite nth_error_app1 by lia. f_equal. lia.
      - rewrite nth_error_app2 by lia. rewrite nth_error_app2 by lia. rewrite nth_error_app2 by lia. f_equal. lia. }
    match goal with |- context [iterM N 0 ?f ?s] =>
      destruct (iterM_inv N 0 f (fun i b => b = concat [lx a0 x0 o0 i; lx a1 x1 o1 i; lx a2 x2 o2 i; lx a3 x3 o3 i]) s)
        as (b' & Eb & Hb) end.
    { reflexivity. }
    { intros i b Hi ->. eexists. split; [|reflexivity].
      assert (LL : forall a x o, length a = 32%nat -> length x = N -> length o = 32%nat -> length (lx a x o (S i)) = 64%nat).
      { intros a x o La Lx Lo. unfold lx. rewrite !app_length, xi_len, repeat_length by lia. lia. }
      rewrite <- (app_nil_r (concat [lx a0 x0 o0 i; _; _; _])).
      rewrite (iter4 _ 64 _ _ _ _ (lx a0 x0 o0 (S i)) (lx a1 x1 o1 (S i)) (lx a2 x2 o2 (S i)) (lx a3 x3 o3 (S i))) by
       (auto; intros j pre post Lj Hj; pose proof (GO i j ltac:(lia) Hj) as Gj; clear GO; revert pre post Lj Gj; revert j Hj;
        four_lanes; intros pre post Lj Gj; cbn [nth] in Gj; cbn [get nth_error nth bind] in *;
        apply lx_step; auto; lia).
      now rewrite app_nil_r. }
    rewrite Eb, Hb. cbn [bind Nat.add].
    assert (EB : forall a x o, lx a x o N = blk a (xi x o N)).
    { intros a x o. unfold lx, blk. rewrite <- app_assoc. do 2 f_equal. }
    rewrite !EB. rewrite final512 by (auto; try apply good_tweaked; apply xi_len; lia).
    rewrite !T_one by auto. rewrite Hr. rewrite !(norm_bytes (xi _ _ _)) by apply xi_bytes.
    assert (EX : forall a x o, length x = N -> o = Haraka256 RC (norm a) -> all_bytes o ->
      xi x o N = xor_str (norm x) (firstn N (Haraka256 RC (norm a)))).
    { intros a x o Lx -> Bo. unfold xi. rewrite (firstn_all2 x) by lia. f_equal. apply norm_bytes. now apply all_firstn. }
    rewrite (EX a0 x0 o0), (EX a1 x1 o1), (EX a2 x2 o2), (EX a3 x3 o3) by auto. reflexivity.
  - set (J := fun j => junk_bytes (junk (340 + j)) (32 + k * N)).
    assert (SJ : forall j, exists j1 j2, J j = j1 ++ j2 /\ length j1 = 32%nat /\ length j2 = (k * N)%nat).
    { intros j. assert (LJ : length (J j) = (32 + k * N)%nat) by apply junk_length.
      exists (firstn 32 (J j)), (skipn 32 (J j)). rewrite firstn_skipn, firstn_length, skipn_length. split; [reflexivity|lia]. }
    destruct (SJ 0%nat) as (j0 & t0 & EJ0 & J0 & T0). destruct (SJ 1%nat) as (j1 & t1 & EJ1 & J1 & T1).
    destruct (SJ 2%nat) as (j2 & t2 & EJ2 & J2 & T2). destruct (SJ 3%nat) as (j3 & t3 & EJ3 & J3 & T3). clear SJ.
    cbn [mapM seq get nth_error bind]. cbv zeta.
    change (junk_bytes (junk (340 + 0)) (32 + k * N)) with (J 0%nat). change (junk_bytes (junk (340 + 1)) (32 + k * N)) with (J 1%nat).
    change (junk_bytes (junk (340 + 2)) (32 + k * N)) with (J 2%nat). change (junk_bytes (junk (340 + 3)) (32 + k * N)) with (J 3%nat).
    rewrite EJ0, EJ1, EJ2, EJ3. rewrite !memcpy_all by auto. cbn [bind].
    rewrite (ni_Sx4_ok RC LR B5) by (try reflexivity; apply Forall4i; rewrite app_length; lia). cbn [map bind].
    assert (FA : forall (a t : bytes), length a = 32%nat -> firstn 32 (a ++ t) = a).
    { intros a t La. rewrite firstn_app, <- La, firstn_all, Nat.sub_diag. cbn [firstn]. apply app_nil_r. }
    rewrite !FA by assumption. cbn [mapM nth_error bind].
    set (MK := fun a => HarakaS RC (norm a) (k * N)).
    assert (XL : forall a t x, length a = 32%nat -> length t = (k * N)%nat -> length x = (k * N)%nat ->
      xor_loop (k * N) (a ++ t) 32 x 0 (HarakaS RC (norm a) (k * N)) = Some (a ++ xor_str (norm x) (MK a))).
    { intros a t x La Lt Lx. rewrite <- (app_nil_r t). rewrite xor_loop_ok by (rewrite ?HarakaS_length; lia).
      rewrite app_nil_r. cbn [skipn]. rewrite !firstn_all2 by (rewrite ?HarakaS_length; lia).
      rewrite (norm_bytes (HarakaS _ _ _)); [reflexivity|]. apply (ho_S_bytes _ _ (good_ok RC (good_tweaked _))). apply norm_all. }
    rewrite !XL by assumption. cbn [bind].
    assert (LM : forall a x, length x = (k * N)%nat -> length (xor_str (norm x) (MK a)) = (k * N)%nat).
    { intros a x Lx. rewrite xor_str_length; rewrite map_length; [exact Lx|]. unfold MK. rewrite HarakaS_length. exact Lx. }
    rewrite (ni_Sx4_ok RC LR B5) by (try reflexivity; apply Forall4i; rewrite app_length, LM by assumption; lia). cbn [map].
    rewrite !firstn_all2 by (rewrite app_length, LM by assumption; lia). rewrite !map_app.
    assert (BM : forall a x, norm (xor_str (norm x) (MK a)) = xor_str (norm x) (MK a)).
    { intros a x. apply norm_bytes. apply xor_str_bytes; [apply norm_all|].
      apply (ho_S_bytes _ _ (good_ok RC (good_tweaked _))). apply norm_all. }
    rewrite !BM. rewrite !(T_more c _ _ k K1) by assumption. rewrite Hr. reflexivity.
Qed.
End Thash.
Theorem ni_thash_lanes c k ins addrs : ctx_ok P HS c -> length ins = 4%nat -> length addrs = 4%nat ->
  Forall (fun x => length x = (k * N)%nat) ins -> Forall (fun a => length a = SPX_ADDR_BYTES) addrs ->
  lx_thash (ni_lanes P junk robust) c k ins addrs = mapM2 (hs_thash HS c k) ins addrs.
Proof.
  intros Hc Li La Fi Fa.
  destruct ins as [|x0 [|x1 [|x2 [|x3 [|]]]]]; try discriminate Li. destruct addrs as [|a0 [|a1 [|a2 [|a3 [|]]]]]; try discriminate La.
  destruct (Forall4 _ _ _ _ _ Fi) as (X0 & X1 & X2 & X3). destruct (Forall4 _ _ _ _ _ Fa) as (A0 & A1 & A2 & A3).
  rewrite (scalar c Hc k) by assumption. cbn [ni_lanes lx_thash].
  destruct (Bool.bool_dec robust true) as [Hr|Hr]; [|apply Bool.not_true_is_false in Hr].
  - transitivity (thashx_haraka_robust P junk c k [x0; x1; x2; x3] [a0; a1; a2; a3]); [clear - Hr; now rewrite Hr|].
    apply robust_lanes; assumption.
  - transitivity (thashx_haraka_simple P junk c k [x0; x1; x2; x3] [a0; a1; a2; a3]); [clear - Hr; now rewrite Hr|].
    apply simple_lanes; assumption.
Qed.
Theorem ni_lanes_ok : lanes_ok P HS (ni_lanes P junk robust) 2.
Proof.
  constructor.
  - intros c k ins addrs Hc _ Li La Fi Fa. now apply ni_thash_lanes.
  - intros c addrs Hc La Fa. exact (ni_prf_lanes c addrs Hc La Fa).
Qed.
End Lanes.
