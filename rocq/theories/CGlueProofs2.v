(** The typed hash_sha2.c, thash_sha2_*.c and seed_state equal the model's. *)
From Verif Require Import Base BaseFacts Params Address Suite Utils Sha2 HashShake HashSha2 CInt CCore CIntFacts CCoreProofs CCoreProofs3 CWord.
From Verif Require Import HarakaSponge CSha2 CSha2Proofs CHarakaProofs CHarakaProofs3 CGlue CGlueProofs HashSha2Proofs.
Local Open Scope Z_scope.

Lemma copy_iter (g : nat -> option Z) : forall l k0 b, (k0 + length l <= length b)%nat -> (forall i, (i < length l)%nat -> g (k0 + i)%nat = Some (nth i l 0)) ->
  iterM (length l) k0 (fun j b => x <- g j ;; wr b j [x]) b = wr b k0 l.
Proof.
  induction l as [|x l IH]; intros k0 b H G; cbn [length iterM] in *.
  - rewrite wr_ok by (cbn [length]; lia). cbn [length app]. rewrite Nat.add_0_r. now rewrite firstn_skipn.
  - pose proof (G 0%nat ltac:(lia)) as G0. rewrite Nat.add_0_r in G0. cbn [nth] in G0. rewrite G0. cbn [bind].
    change (x :: l) with ([x] ++ l). rewrite <- wr_then by (cbn [length]; lia). rewrite !(wr_ok b k0 [x]) by (cbn [length]; lia). cbn [bind length].
    rewrite Nat.add_1_r. apply IH.
    + rewrite !app_length, firstn_length, skipn_length. cbn [length]. lia.
    + intros i Hi. specialize (G (S i) ltac:(lia)). cbn [nth] in G. rewrite <- G. f_equal. lia.
Qed.
Lemma add64 e a b : ev e I32 (Z.of_nat a) -> Z.of_nat a < 2 ^ 31 -> Z.of_nat (a + b) < 2 ^ 64 -> ev (e + V U64 (Z.of_nat b))%C U64 (Z.of_nat (a + b)).
Proof.
  intros H A L. eapply ev_as; [apply (ev_bin OAdd _ _ I32 U64 _ (Z.of_nat b) H); [apply ev_V, in_range_U64; lia|..]|reflexivity|cbn [opz]; lia];
    try reflexivity; try discriminate; try (apply in_range_U64; lia). intros _. apply in_range_U64. cbn [opz]. lia.
Qed.
Lemma add64' e a b : ev e I32 (Z.of_nat a) -> Z.of_nat a < 2 ^ 31 -> Z.of_nat (b + a) < 2 ^ 64 -> ev (V U64 (Z.of_nat b) + e)%C U64 (Z.of_nat (b + a)).
Proof.
  intros H A L. assert (EV : ev (V U64 (Z.of_nat b)) U64 (Z.of_nat b)) by (apply ev_V, in_range_U64; lia).
  eapply ev_as; [apply (ev_bin OAdd _ _ U64 I32 _ _ EV H)|reflexivity|cbn [opz]; lia];
    try reflexivity; try discriminate; try (apply in_range_U64; lia). intros _. apply in_range_U64. cbn [opz]. lia.
Qed.
Lemma sub64' e a b : ev e I32 (Z.of_nat a) -> Z.of_nat a < 2 ^ 31 -> (a <= b)%nat -> Z.of_nat b < 2 ^ 64 -> asg U64 (V U64 (Z.of_nat b) - e)%C = Some (Z.of_nat (b - a)).
Proof.
  intros H A L Lb. apply (ev_asg U64 _ U64); [|apply in_range_U64; lia].
  assert (EV : ev (V U64 (Z.of_nat b)) U64 (Z.of_nat b)) by (apply ev_V, in_range_U64; lia).
  eapply ev_as; [apply (ev_bin OSub _ _ U64 I32 _ _ EV H)|reflexivity|cbn [opz]; lia];
    try reflexivity; try discriminate; try (apply in_range_U64; lia). intros _. apply in_range_U64. cbn [opz]. lia.
Qed.

Section Sha2.
Variable P : params.
Variable junk : nat -> nat -> Z.
Hypothesis Hwf : wf_params P = true.
Hypothesis Hbig : Z.of_nat (SPX_BYTES P) < 2 ^ 31.
Hypothesis HN : (p_n P <= 32)%nat.
Notation N := (p_n P).
Notation z := Z.of_nat.
Notation n_ := (xN P).
Notation jp := (junk 200%nat).
Notation BS := (SPX_SHAX_BLOCK_BYTES P).
Notation OB := (SPX_SHAX_OUTPUT_BYTES P).
Lemma N1 : (1 <= N)%nat. Proof. pose proof (bN P Hwf). lia. Qed.
Ltac small := pose proof N1; clear Hbig; unfold xINBLOCKS, xPK_BYTES, xBLOCK, xOUT, xN, SPX_INBLOCKS, SPX_SHAX_BLOCK_BYTES, SPX_SHAX_OUTPUT_BYTES, SPX_PK_BYTES, useX;
  revert HN; clear Hwf; revert dependent P; intros p; generalize (p_n p) as n; clear p; intros n ? ?;
  do 33 (destruct n as [|n]; [try lia; vm_compute; try split; reflexivity|]); lia.
Lemma e_22N : ev (xADDR22 + n_)%C I32 (z (SPX_SHA256_ADDR_BYTES + N)). Proof. small. Qed.
Lemma e_N22 : ev (n_ + xADDR22)%C I32 (z (N + SPX_SHA256_ADDR_BYTES)). Proof. small. Qed.
Lemma e_NO : ev (n_ + xOUT256)%C I32 (z (N + SPX_SHA256_OUTPUT_BYTES)). Proof. small. Qed.
Lemma e_BS : ev (xBLOCK P) I32 (z BS). Proof. small. Qed.
Lemma e_BO : ev (xBLOCK P + xOUT P)%C I32 (z (BS + OB)). Proof. small. Qed.
Lemma e_BN : ev (xBLOCK P - n_)%C I32 (z (BS - N)). Proof. small. Qed.
Lemma e_2N : ev (K 2 * n_)%C I32 (z (2 * N)). Proof. small. Qed.
Lemma e_2NO : ev (K 2 * n_ + xOUT P)%C I32 (z (2 * N + OB)). Proof. small. Qed.
Lemma e_NPK : ev (n_ + xPK_BYTES P)%C I32 (z (N + SPX_PK_BYTES P)). Proof. small. Qed.
Lemma e_IB : ev (xINBLOCKS P) I32 (z (SPX_INBLOCKS P)). Proof. small. Qed.
Lemma e_IBB : ev (xINBLOCKS P * xBLOCK P)%C I32 (z (SPX_INBLOCKS P * BS)). Proof. small. Qed.
Lemma e_fill : ev (xINBLOCKS P * xBLOCK P - n_ - xPK_BYTES P)%C I32 (z (SPX_INBLOCKS P * BS - N - SPX_PK_BYTES P)). Proof. small. Qed.
Lemma sizes : (64 <= BS <= 128)%nat /\ (OB <= 64)%nat /\ (N <= BS)%nat /\ (SPX_INBLOCKS P <= 2)%nat /\ (N + SPX_PK_BYTES P <= SPX_INBLOCKS P * BS <= 128)%nat.
Proof.
  assert (E : ((64 <=? BS) && (BS <=? 128) && (OB <=? 64) && (N <=? BS) && (SPX_INBLOCKS P <=? 2) && (N + SPX_PK_BYTES P <=? SPX_INBLOCKS P * BS) && (SPX_INBLOCKS P * BS <=? 128))%nat = true) by small.
  repeat (apply andb_prop in E as [E ?]). repeat match goal with H : (_ <=? _)%nat = true |- _ => apply Nat.leb_le in H end. lia.
Qed.
Ltac xi e := exact (ix_is _ _ _ _ e eq_refl).

Lemma call_blocks_ok b st inp e k : ix e = Some k -> (k <= 2)%nat ->
  call_blocks b st inp e = (if b then sha512_inc_blocks else sha256_inc_blocks) st inp k.
Proof.
  clear. intros H Hk. unfold call_blocks. rewrite (proj1 (asg_ix _ _ H)). cbn [bind].
  destruct b; [apply sha512_inc_blocks_ok|apply sha256_inc_blocks_ok]; lia.
Qed.
Lemma call_finalize_ok b st inp off e l : ix e = Some l ->
  call_finalize junk b st inp off e = (x <- rd inp off l ;; (if b then sha512_inc_finalize jp else sha256_inc_finalize jp) st x).
Proof.
  clear. intros H. destruct (asg_ix _ _ H) as [E L]. unfold call_finalize. rewrite E. cbn [bind]. rewrite Nat2Z.id.
  destruct (rd inp off l) as [x|] eqn:R; [|reflexivity]. cbn [bind]. apply rd_length in R. subst l.
  destruct b; [apply sha512_inc_finalize_ok|apply sha256_inc_finalize_ok]; exact L.
Qed.
Lemma call_sha_ok b inp e l : ix e = Some l -> call_sha junk b inp e = (x <- rd inp 0 l ;; (if b then sha512 jp else sha256 jp) x).
Proof.
  clear. intros H. destruct (asg_ix _ _ H) as [E L]. unfold call_sha. rewrite H. cbn [bind].
  destruct (rd inp 0 l) as [x|] eqn:R; [|reflexivity]. cbn [bind]. apply rd_length in R. subst l.
  destruct b; [apply sha512_c_ok|apply sha256_c_ok]; assumption.
Qed.
Lemma call_mgf1_ok b eo n inp e l : ix eo = Some n -> ix e = Some l -> z n + 64 < 2 ^ 64 -> z l + 4 < 2 ^ 64 ->
  call_mgf1 junk b eo inp e = (x <- rd inp 0 l ;; (if b then mgf1_512 jp else mgf1_256 jp) n x).
Proof.
  clear. intros Ho H Ln Ll. unfold call_mgf1. rewrite (proj1 (asg_ix _ _ Ho)), (proj1 (asg_ix _ _ H)). cbn [bind]. rewrite Nat2Z.id.
  destruct (rd inp 0 l) as [x|] eqn:R; [|reflexivity]. cbn [bind]. apply rd_length in R. subst l.
  destruct b; [apply mgf1_512_c_ok|apply mgf1_256_c_ok]; assumption.
Qed.

(** ** seed_state *)
Theorem seed_state_c_ok ps : length ps = N -> seed_state_c P junk ps = seed_state P junk ps.
Proof.
  intros Hl. unfold seed_state_c, seed_state. cbv zeta. rewrite (array_ok junk 201 xBLOCK512 128 eq_refl). cbn [bind].
  rewrite (ix_N P Hwf). cbn [bind]. rewrite (rd_all ps) by lia. cbn [bind].
  set (J := junk_bytes (junk 201%nat) 128). change (junk_bytes (junk 201%nat) SPX_SHA512_BLOCK_BYTES) with J. assert (LJ : length J = 128%nat) by apply junk_length. clearbody J.
  pose proof (eN P Hwf) as EN. pose proof (bN P Hwf) as BN.
  assert (E1 : cfor (S N) U64 0 n_ (fun i block => j <- ix (V U64 i) ;; x <- get ps j ;; wr block j [x]) J = wr J 0 ps).
  { rewrite <- (copy_iter (get ps) ps 0 J) by (try (intros i Hi; apply ShakeProofs.get_nth); lia). rewrite Hl.
    destruct (cfor_K (fun _ _ => True) U64 N (S N) (fun i block => j <- ix (V U64 i) ;; x <- get ps j ;; wr block j [x]) (fun j b => x <- get ps j ;; wr b j [x])
      ltac:(right; right; reflexivity) ltac:(lia) eq_refl) with (s := J) as [E _]; [|exact I|exact E].
    intros i s Hi _. rewrite (cnt_ix U64 i) by (try lia; right; right; reflexivity). cbn [bind]. split; [reflexivity|auto]. }
  rewrite E1. clear E1. rewrite wr_ok by lia. cbn [bind firstn app Nat.add].
  set (b1 := ps ++ skipn (length ps) J). assert (Lb : length b1 = 128%nat) by (unfold b1; rewrite app_length, skipn_length; lia). clearbody b1.
  rewrite (proj1 (asg_ix _ _ (ix_N P Hwf))). cbn [bind].
  assert (E2 : cfor (S (128 - N)) U64 (z N) xBLOCK512 (fun i block => j <- ix (V U64 i) ;; y <- asg U8 (K 0) ;; wr block j [y]) b1 = wr b1 N (repeat 0 (SPX_SHA512_BLOCK_BYTES - N))).
  { change SPX_SHA512_BLOCK_BYTES with 128%nat.
    rewrite <- (copy_iter (fun _ => Some 0) (repeat 0 (128 - N)) N b1) by (rewrite ?repeat_length; try lia; intros i Hi; f_equal; symmetry; apply nth_repeat).
    rewrite repeat_length. apply (cfor_uns (fun _ _ => True) U64 (128 - N) N); [right; reflexivity|cbn [width]; lia| | |exact I].
    - intros i Hi. replace (N + (128 - N))%nat with 128%nat by lia. apply (cond_lt _ _ U64); [apply ev_V, in_range_U64; lia|].
      exists I32. split; [apply ev_K; lia|]. split; apply in_range_U64; lia.
    - intros i s Hi _. split; [|auto]. rewrite (cnt_ix U64 i) by (try lia; right; right; reflexivity). reflexivity. }
  rewrite E2. destruct (wr b1 N _) as [b2|]; [|reflexivity]. cbn [bind].
  rewrite (call_blocks_ok false _ _ (K 1) 1 eq_refl) by lia. destruct (sha256_inc_blocks _ b2 1) as [s1|]; [|reflexivity]. cbn [bind].
  rewrite (call_blocks_ok true _ _ (K 1) 1 eq_refl) by lia. reflexivity.
Qed.

Lemma ix40 (b : bool) : ix ((if b then K 72 else K 40) * V U64 1)%C = Some (if b then 72 else 40)%nat. Proof. now destruct b. Qed.
Lemma ix_22 : ix xADDR22 = Some SPX_SHA256_ADDR_BYTES. Proof. reflexivity. Qed.
Lemma ix_0 : ix (K 0) = Some 0%nat. Proof. reflexivity. Qed.
Ltac nx := repeat match goal with |- bind ?o _ = bind ?o _ => destruct o as [?|]; cbn [bind]; [|reflexivity] | |- bind (bind ?o _) _ = bind ?o _ => destruct o as [?|]; cbn [bind]; [|reflexivity] end.
Theorem sha2_prf_c_ok c a : sha2_prf_addr_c P junk c a = sha2_prf_addr P junk c a.
Proof.
  unfold sha2_prf_addr_c, sha2_prf_addr. cbv zeta. assert (E : ix (xADDR22 + n_)%C = Some (SPX_SHA256_ADDR_BYTES + N)%nat) by xi e_22N.
  rewrite (array_ok junk 202 _ _ E). cbn [bind]. destruct (c_state c) as [[s1 s2]|]; [|reflexivity]. cbn [bind].
  rewrite (ix40 false). cbn [bind]. nx. rewrite (memcpy_c_ok _ _ _ _ _ _ _ ix_0 ix_22). nx. rewrite (memcpy_c_ok _ _ _ _ _ _ _ ix_22 (ix_N P Hwf)). nx.
  rewrite (call_finalize_ok _ _ _ _ _ _ E). nx. rewrite (ix_N P Hwf). reflexivity.
Qed.

(** ** thash *)
Section Th.
Variable k : nat.
Hypothesis Hk : z (k * N) + 300 < 2 ^ 32.
Notation kN_ := (V U32 (z k) * n_)%C.
Lemma ix_22kN : ix (xADDR22 + kN_)%C = Some (SPX_SHA256_ADDR_BYTES + k * N)%nat.
Proof. pose proof (e_plus_kN P Hwf k Hk xADDR22 22 ltac:(apply ev_K; lia) ltac:(lia)) as E. xi E. Qed.
Lemma simple_c_ok b c a mem out inp : sha2_simple_c P junk b c (z k) a mem out inp
  = (if b then thash_simple_512 else thash_simple_256) P junk c k a mem out inp.
Proof.
  unfold sha2_simple_c, thash_simple_512, thash_simple_256. cbv zeta. pose proof ix_22kN as E. pose proof (ix_kN P Hwf k Hk) as EK.
  destruct b; rewrite (array_ok junk _ _ _ E); cbn [bind]; (destruct (c_state c) as [[s1 s2]|]; [|reflexivity]); cbn [bind].
  - rewrite (ix40 true). cbn [bind]. nx. rewrite (memcpy_c_ok _ _ _ _ _ _ _ ix_0 ix_22). nx. rewrite (memcpy_c_ok _ _ _ _ _ _ _ ix_22 EK). nx.
    rewrite (call_finalize_ok _ _ _ _ _ _ E). nx. rewrite (ix_N P Hwf). reflexivity.
  - rewrite (ix40 false). cbn [bind]. nx. rewrite (memcpy_c_ok _ _ _ _ _ _ _ ix_0 ix_22). nx. rewrite (memcpy_c_ok _ _ _ _ _ _ _ ix_22 EK). nx.
    rewrite (call_finalize_ok _ _ _ _ _ _ E). nx. rewrite (ix_N P Hwf). reflexivity.
Qed.
Lemma robust_c_ok b c a mem out inp : sha2_robust_c P junk b c (z k) a mem out inp
  = (if b then thash_robust_512 else thash_robust_256) P junk c k a mem out inp.
Proof.
  unfold sha2_robust_c, thash_robust_512, thash_robust_256. cbv zeta. pose proof ix_22kN as E. pose proof (ix_kN P Hwf k Hk) as EK.
  assert (E3 : ix (n_ + xADDR22)%C = Some (N + SPX_SHA256_ADDR_BYTES)%nat) by xi e_N22.
  assert (A1 : ix (n_ + xADDR22 + kN_)%C = Some (N + SPX_SHA256_ADDR_BYTES + k * N)%nat).
  { pose proof (e_plus_kN P Hwf k Hk _ _ e_N22 ltac:(unfold SPX_SHA256_ADDR_BYTES; lia)) as X. xi X. }
  assert (A2 : ix (n_ + xOUT256 + kN_)%C = Some (N + SPX_SHA256_OUTPUT_BYTES + k * N)%nat).
  { pose proof (e_plus_kN P Hwf k Hk _ _ e_NO ltac:(unfold SPX_SHA256_OUTPUT_BYTES; lia)) as X. xi X. }
  assert (L1 : z (k * N) + 64 < 2 ^ 64) by lia. assert (L2 : z (N + SPX_SHA256_ADDR_BYTES) + 4 < 2 ^ 64) by (unfold SPX_SHA256_ADDR_BYTES; lia).
  destruct b; rewrite ?(array_ok junk _ _ _ A1), ?(array_ok junk _ _ _ A2); cbn [bind]; rewrite (memcpy_c_ok _ _ _ _ _ _ _ ix_0 (ix_N P Hwf)); nx;
    rewrite (memcpy_c_ok _ _ _ _ _ _ _ (ix_N P Hwf) ix_22); nx; rewrite (call_mgf1_ok _ _ _ _ _ _ EK E3 L1 L2); nx;
    match goal with p : (list Z * list Z)%type |- _ => destruct p as [s1 s2] end; cbn [bind]; [rewrite (ix40 true)|rewrite (ix40 false)]; cbn [bind]; nx;
    rewrite (xor_loop_c_ok P Hwf k Hk _ _ _ _ _ _ e_N22) by (unfold SPX_SHA256_ADDR_BYTES; lia); nx; rewrite (ix_N P Hwf); cbn [bind];
    rewrite (call_finalize_ok _ _ _ _ _ _ E); nx; reflexivity.
Qed.
Theorem sha2_thash_c_ok robust c a mem out inp : sha2_thash_c P junk robust c (z k) a mem out inp = sha2_thash P junk robust c k a mem out inp.
Proof.
  pose proof (k_small P Hwf k Hk) as Hks. unfold sha2_thash_c, sha2_thash.
  assert (E : cond (K 1 < V U32 (z k))%C = Some (1 <? k)%nat).
  { replace (1 <? k)%nat with (1 <? z k) by (destruct (Nat.ltb_spec 1 k); [apply Z.ltb_lt|apply Z.ltb_ge]; lia).
    apply (cond_lt _ _ I32); [apply ev_K; lia|]. exists U32. split; [apply ev_V, in_range_U32; lia|]. split; apply in_range_U32; lia. }
  rewrite E. destruct (SPX_SHA512 P); cbn [bind andb]; destruct robust.
  - rewrite robust_c_ok. destruct (1 <? k)%nat; reflexivity.
  - rewrite simple_c_ok. destruct (1 <? k)%nat; reflexivity.
  - apply (robust_c_ok false).
  - apply (simple_c_ok false).
Qed.
End Th.

(** ** gen_message_random *)
Lemma xor_key_c_ok v buf key : 0 <= v < 256 -> xor_key_c P v buf key = xor_key P v buf key.
Proof.
  intros Hv. pose proof (bN P Hwf). unfold xor_key_c, xor_key. rewrite (ix_N P Hwf). cbn [bind].
  destruct (cfor_K (fun _ _ => True) I32 N (S N) (fun i buf => j <- ix (V I32 i) ;; x <- get key j ;; x <- asg U8 (K v .^ B x)%C ;; wr buf j [x])
     (fun i buf => k <- get key i ;; wr buf i [Z.lxor v (u8 k)]) ltac:(left; reflexivity) ltac:(lia) eq_refl) with (s := buf) as [E _]; [|exact I|exact E].
  intros i s Hi _. rewrite (cnt_ix I32 i) by (try lia; left; reflexivity). cbn [bind]. split; [|auto].
  destruct (get key i) as [x|]; [|reflexivity]. cbn [bind].
  assert (R : 0 <= Z.lxor v (u8 x) < 256).
  { apply (HarakaSponge.lxor_byte v (u8 x)); [exact Hv|apply u8_range]. }
  assert (E : asg U8 (K v .^ B x)%C = Some (Z.lxor v (u8 x))).
  { pose proof (u8_range x) as A. unfold is_byte in A. apply (ev_asg U8 _ I32); [|apply in_range_U8; exact R].
    apply (ev_bin OXor _ _ I32 U8); [apply ev_K; lia|apply ev_B|reflexivity|apply in_range_I32; lia|apply in_range_I32; lia|discriminate|].
    intros _. apply in_range_I32. cbn [opz]. lia. }
  now rewrite E.
Qed.
Theorem sha2_rand_c_ok c k o m : z (length m) + 200 < 2 ^ 64 ->
  sha2_gen_message_random_c P junk c k o m (z (length m)) = sha2_gen_message_random P junk c k o m.
Proof.
  intros Hm. destruct sizes as (S1 & S2 & S3 & _). pose proof (eN P Hwf) as EN. pose proof (ix_N P Hwf) as IN. pose proof (ix_mlen m ltac:(lia)) as IM.
  assert (IBO : ix (xBLOCK P + xOUT P)%C = Some (BS + OB)%nat) by xi e_BO. assert (IBN : ix (xBLOCK P - n_)%C = Some (BS - N)%nat) by xi e_BN.
  assert (IB : ix (xBLOCK P) = Some BS) by xi e_BS.
  unfold sha2_gen_message_random_c, sha2_gen_message_random. cbv zeta. rewrite (array_ok junk 203 _ _ IBO). cbn [bind].
  replace (N <=? BS)%nat with true by (symmetry; apply Nat.leb_le; lia). cbn [guard bind].
  rewrite xor_key_c_ok by lia. nx. rewrite (memset_c_ok _ _ _ _ _ _ IN IBN). nx.
  rewrite (call_blocks_ok _ _ _ (K 1) 1 eq_refl) by lia. unfold shaX_inc_blocks, shaX_inc_finalize, HashSha2.shaX. nx. rewrite (memcpy_c_ok _ _ _ _ _ _ _ ix_0 IN). nx.
  assert (EA : ev (n_ + V U64 (z (length m)))%C U64 (z (N + length m))) by (apply add64; [exact EN|lia|lia]).
  assert (EC : cond (n_ + V U64 (z (length m)) < xBLOCK P)%C = Some (N + length m <? BS)%nat).
  { replace (N + length m <? BS)%nat with (z (N + length m) <? z BS) by (destruct (Nat.ltb_spec (N + length m) BS); [apply Z.ltb_lt|apply Z.ltb_ge]; lia).
    apply (cond_lt _ _ U64); [exact EA|]. exists I32. split; [apply e_BS|]. split; apply in_range_U64; lia. }
  rewrite EC. cbn [bind].
  match goal with |- bind ?a ?f = bind ?b ?g => assert (Eab : a = b) end.
  { destruct (Nat.ltb_spec (N + length m) BS).
    - rewrite (memcpy_c_ok _ _ _ _ _ _ _ IN IM). nx.
      assert (I2 : ix (V U64 (z (length m)) + n_)%C = Some (length m + N)%nat) by (apply (ix_is _ U64 (z (length m + N))); [apply add64'; [exact EN|lia|lia]|reflexivity]).
      rewrite (call_finalize_ok _ _ _ _ _ _ I2). nx. rewrite IB. reflexivity.
    - rewrite (memcpy_c_ok _ _ _ _ _ _ _ IN IBN). nx. rewrite (call_blocks_ok _ _ _ (K 1) 1 eq_refl) by lia. nx. rewrite IBN. cbn [bind].
      rewrite (sub64' _ _ _ e_BN) by lia. cbn [bind].
      assert (I2 : ix (V U64 (z (length m - (BS - N)))) = Some (length m - (BS - N))%nat) by (apply (ix_is _ U64 (z (length m - (BS - N)))); [apply ev_V, in_range_U64; lia|reflexivity]).
      rewrite (call_finalize_ok _ _ _ _ _ _ I2). nx. rewrite IB. reflexivity. }
  rewrite Eab. clear Eab. nx. rewrite xor_key_c_ok by lia. nx. rewrite (memset_c_ok _ _ _ _ _ _ IN IBN). nx.
  rewrite (call_sha_ok _ _ _ _ IBO). nx. rewrite IN. reflexivity.
Qed.
(** ** hash_message *)
Lemma mgfX_bytes n x d : mgf1_X P junk n x = Some d -> all_bytes d.
Proof.
  rewrite X_mgf. intros [= <-]. apply mgf1_of_all. apply shaXu_all.
Qed.
Theorem sha2_msg_c_ok c R pk m : z (length m) + 200 < 2 ^ 64 ->
  sha2_hash_message_c P junk c R pk m (z (length m)) = sha2_hash_message P junk c R pk m.
Proof.
  intros Hm. destruct sizes as (S1 & S2 & S3 & S4 & S5). pose proof (ix_N P Hwf) as IN. pose proof (ix_mlen m ltac:(lia)) as IM. pose proof (ix_PK P Hwf) as IPK.
  assert (I2NO : ix (K 2 * n_ + xOUT P)%C = Some (2 * N + OB)%nat) by xi e_2NO. assert (IIBB : ix (xINBLOCKS P * xBLOCK P)%C = Some (SPX_INBLOCKS P * BS)%nat) by xi e_IBB.
  assert (IF : ix (xINBLOCKS P * xBLOCK P - n_ - xPK_BYTES P)%C = Some (SPX_INBLOCKS P * BS - N - SPX_PK_BYTES P)%nat) by xi e_fill.
  assert (INP : ix (n_ + xPK_BYTES P)%C = Some (N + SPX_PK_BYTES P)%nat) by xi e_NPK. assert (I2N : ix (K 2 * n_)%C = Some (2 * N)%nat) by xi e_2N.
  assert (IIB : ix (xINBLOCKS P) = Some (SPX_INBLOCKS P)) by xi e_IB.
  unfold sha2_hash_message_c, sha2_hash_message. cbv zeta. rewrite (array_ok junk 204 _ _ I2NO), (array_ok junk 205 _ _ IIBB). cbn [bind].
  rewrite (memcpy_c_ok _ _ _ _ _ _ _ ix_0 IN). nx. rewrite (memcpy_c_ok _ _ _ _ _ _ _ IN IPK). nx.
  assert (EA : ev (n_ + xPK_BYTES P + V U64 (z (length m)))%C U64 (z (N + SPX_PK_BYTES P + length m))) by (apply add64; [apply e_NPK|lia|lia]).
  assert (IA : ix (n_ + xPK_BYTES P + V U64 (z (length m)))%C = Some (N + SPX_PK_BYTES P + length m)%nat) by xi EA.
  assert (EC : cond (n_ + xPK_BYTES P + V U64 (z (length m)) < xINBLOCKS P * xBLOCK P)%C = Some (N + SPX_PK_BYTES P + length m <? SPX_INBLOCKS P * BS)%nat).
  { set (A := (N + SPX_PK_BYTES P + length m)%nat) in *. set (T := (SPX_INBLOCKS P * BS)%nat) in *.
    replace (A <? T)%nat with (z A <? z T) by (destruct (Nat.ltb_spec A T); [apply Z.ltb_lt|apply Z.ltb_ge]; lia).
    apply (cond_lt _ _ U64); [exact EA|]. exists I32. split; [apply e_IBB|]. split; apply in_range_U64; unfold A; lia. }
  rewrite EC. cbn [bind]. unfold shaX_inc_blocks, shaX_inc_finalize.
  match goal with |- bind ?a ?f = bind ?b ?g => assert (Eab : a = b) end.
  { set (T := (SPX_INBLOCKS P * BS)%nat) in *. destruct (Nat.ltb_spec (N + SPX_PK_BYTES P + length m) T).
    - rewrite (memcpy_c_ok _ _ _ _ _ _ _ INP IM). nx. rewrite (call_finalize_ok _ _ _ _ _ _ IA). nx. reflexivity.
    - rewrite (memcpy_c_ok _ _ _ _ _ _ _ INP IF). nx. rewrite (call_blocks_ok _ _ _ _ _ IIB) by lia. nx. rewrite IF. cbn [bind].
      rewrite (sub64' _ _ _ e_fill) by (fold T; lia). fold T. cbn [bind].
      assert (I2 : ix (V U64 (z (length m - (T - N - SPX_PK_BYTES P)))) = Some (length m - (T - N - SPX_PK_BYTES P))%nat)
        by (apply (ix_is _ U64 (z (length m - (T - N - SPX_PK_BYTES P)))); [apply ev_V, in_range_U64; lia|reflexivity]).
      rewrite (call_finalize_ok _ _ _ _ _ _ I2). nx. reflexivity. }
  rewrite Eab. clear Eab. nx. rewrite I2N. cbn [bind]. nx. rewrite (memcpy_c_ok _ _ _ _ _ _ _ ix_0 IN). nx. rewrite (memcpy_c_ok _ _ _ _ _ _ _ IN IN). nx.
  destruct (eDGST P Hwf Hbig) as [ED LD]. rewrite (call_mgf1_ok _ _ _ _ _ _ (ix_DGST P Hwf Hbig) I2NO) by lia. nx.
  change (if useX P then mgf1_512 jp else mgf1_256 jp) with (mgf1_X P junk). destruct (mgf1_X P junk _ _) as [buf|] eqn:E; [|reflexivity]. cbn [bind].
  apply split_digest_c_ok; [assumption|assumption|]. exact (mgfX_bytes _ _ _ E).
Qed.
End Sha2.
