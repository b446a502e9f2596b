(** The thash and FORS test programs: proofs. *)
From Verif Require Import Base BaseFacts Params Address AdrsEnc Suite Utils Fors Spec Refine Sign Lanes LaneFacts LaneMerkleProofs HashSpec BuildSpec BuildProofs OptBuild OptProofs
  AddressProofs SpecFacts CoreFacts ForsProofs AnyAddr TestPrograms.

Lemma memcmp_same x : memcmp_differs x x = false.
Proof. unfold memcmp_differs. destruct (list_eq_dec Z.eq_dec x x); [reflexivity|tauto]. Qed.
Lemma fill_ok stream buf k : length buf = k -> (k <= length stream)%nat ->
  fill stream buf k = Some (firstn k stream, skipn k stream).
Proof.
  intros Lb Ls. unfold fill, randombytes. rewrite rd_ok by lia. cbn [bind skipn].
  rewrite wr_all; [reflexivity|]. rewrite firstn_length. lia.
Qed.
Lemma random_ok stream k : (k <= length stream)%nat -> randombytes stream k = Some (firstn k stream, skipn k stream).
Proof. intros Ls. unfold randombytes. now rewrite rd_ok by lia. Qed.

(** Writing all the blocks of an array. *)
Section Blocks.
Variable n : nat.
Variable h : nat -> bytes.
Hypothesis Lh : forall j, length (h j) = n.
Lemma map_h_len s k : length (concat (map h (seq s k))) = (k * n)%nat.
Proof. revert s. induction k as [|k IH]; intros s; cbn [seq map concat]; [reflexivity|]. rewrite app_length, Lh, IH. lia. Qed.
Lemma wr_next s pre rest : length pre = (s * n)%nat -> (n <= length rest)%nat ->
  wr (pre ++ rest) (s * n) (h s) = Some ((pre ++ h s) ++ skipn n rest).
Proof.
  intros Lp Lr. rewrite wr_ok by (rewrite app_length, Lh; lia). f_equal. rewrite Lh.
  rewrite firstn_app, firstn_all2, (proj2 (Nat.sub_0_le _ _)) by lia. cbn [firstn]. rewrite app_nil_r.
  rewrite skipn_app, (skipn_all2 pre) by lia. cbn [app]. rewrite <- app_assoc. do 3 f_equal. lia.
Qed.
Lemma iter_all : forall k s pre rest, length pre = (s * n)%nat -> length rest = (k * n)%nat ->
  iterM k s (fun j a => wr a (j * n) (h j)) (pre ++ rest) = Some (pre ++ concat (map h (seq s k))).
Proof.
  intros k. induction k as [|k IH]; intros s pre rest Lp Lr; cbn [iterM seq map concat].
  - destruct rest; [now rewrite app_nil_r|discriminate].
  - rewrite wr_next by lia. cbn [bind]. rewrite IH; [now rewrite <- app_assoc|rewrite app_length, Lh; lia|rewrite skipn_length; lia].
Qed.
Lemma wrx_all' : forall k s pre rest, length pre = (s * n)%nat -> length rest = (k * n)%nat ->
  wrx (pre ++ rest) (map (fun j => j * n)%nat (seq s k)) (map h (seq s k)) = Some (pre ++ concat (map h (seq s k))).
Proof.
  intros k. induction k as [|k IH]; intros s pre rest Lp Lr; cbn [wrx seq map concat].
  - destruct rest; [now rewrite app_nil_r|discriminate].
  - rewrite wr_next by lia. cbn [bind]. rewrite IH; [now rewrite <- app_assoc|rewrite app_length, Lh; lia|rewrite skipn_length; lia].
Qed.
End Blocks.
Lemma iterM_ext {S} (f g : nat -> S -> option S) : forall k i, (forall j s, (i <= j < i + k)%nat -> f j s = g j s) ->
  forall s, iterM k i f s = iterM k i g s.
Proof.
  intros k. induction k as [|k IH]; intros i H s; cbn [iterM]; [reflexivity|]. rewrite H by lia.
  destruct (g i s); cbn [bind]; [|reflexivity]. apply IH. intros j s' Hj. apply H. lia.
Qed.

(** Any lane functions that return for every lane n bytes. *)
Definition lanes_total (P : params) (HS : suite) (LX : lane_fns HS) (lw : nat) : Prop :=
  forall c k ins addrs, ctx_ok P HS c -> length ins = NL lw -> length addrs = NL lw ->
  Forall (fun x => length x = (k * p_n P)%nat) ins -> Forall (fun a => length a = SPX_ADDR_BYTES) addrs ->
  exists hs, lx_thash LX c k ins addrs = Some hs /\ length hs = NL lw /\ Forall (fun h => length h = p_n P) hs.
(** The lane function gives for lane j what thash gives for the j-th k blocks of the input and the j-th address. *)
Definition lanes_same (P : params) (HS : suite) (LX : lane_fns HS) (lw : nat) (c : ctx (hs_st HS)) (k : nat) (input addr : bytes) : Prop :=
  let ins := map (fun j => firstn (k * p_n P) (skipn (k * j * p_n P) input)) (seq 0 (NL lw)) in
  let ads := map (fun j => firstn SPX_ADDR_BYTES (skipn (j * SPX_ADDR_BYTES) addr)) (seq 0 (NL lw)) in
  lx_thash LX c k ins ads = mapM2 (hs_thash HS c k) ins ads.
Lemma map_inj_concat n : forall (xs ys : list bytes), length xs = length ys -> Forall (fun x => length x = n) xs ->
  Forall (fun x => length x = n) ys -> concat xs = concat ys -> xs = ys.
Proof.
  induction xs as [|x xs IH]; intros [|y ys] L Fx Fy E; cbn in L; try discriminate; [reflexivity|].
  inversion_clear Fx. inversion_clear Fy. cbn [concat] in E.
  assert (x = y). { apply (f_equal (firstn n)) in E. rewrite !firstn_app in E.
    replace (n - length x)%nat with 0%nat in E by lia. replace (n - length y)%nat with 0%nat in E by lia.
    cbn [firstn] in E. rewrite !app_nil_r, !firstn_all2 in E by lia. exact E. }
  subst y. f_equal. apply IH; auto. now apply app_inv_head in E.
Qed.
Lemma seq_nth_map (l : list bytes) : l = map (fun j => nth j l []) (seq 0 (length l)).
Proof.
  apply (nth_ext _ _ [] []); [now rewrite map_length, seq_length|]. intros i Hi.
  rewrite (nth_indep (map _ _) _ (nth 0 l [])) by (now rewrite map_length, seq_length).
  rewrite (map_nth (fun j => nth j l []) (seq 0 (length l)) 0%nat i), seq_nth by lia. reflexivity.
Qed.

Section ThashTest.
Variable P : params.
Variable HS : suite.
Variable LX : lane_fns HS.
Variable lw : nat.
Variable junk : nat -> nat -> Z.
Notation N := (p_n P).
Notation nl := (NL lw).
Hypothesis Hwf : wf_params P = true.
Hypothesis Hok : suite_ok P HS.
Hypothesis HL : lanes_total P HS LX lw.

Lemma differs_ok c k input addr a b : ctx_ok P HS c ->
  (k * nl * N <= length input)%nat -> length addr = (nl * SPX_ADDR_BYTES)%nat ->
  length a = (nl * N)%nat -> length b = (nl * N)%nat ->
  exists d x y, thash_differs P HS LX lw c k input addr a b = Some (d, x, y) /\ length x = (nl * N)%nat /\ length y = (nl * N)%nat
    /\ (d = false <-> lanes_same P HS LX lw c k input addr).
Proof.
  intros Hc Li Lad La Lb. unfold lanes_same.
  set (x := fun j => firstn (k * N) (skipn (k * j * N) input)).
  set (ad := fun j => firstn SPX_ADDR_BYTES (skipn (j * SPX_ADDR_BYTES) addr)).
  assert (Hx : forall j, (j < nl)%nat -> rd input (k * j * N) (k * N) = Some (x j) /\ length (x j) = (k * N)%nat).
  { intros j Hj. assert (k * j * N + k * N <= k * nl * N)%nat by nia.
    unfold x. rewrite rd_ok by lia. rewrite firstn_length, skipn_length. split; [reflexivity|lia]. }
  assert (Had : forall j, (j < nl)%nat -> rd addr (j * SPX_ADDR_BYTES) SPX_ADDR_BYTES = Some (ad j) /\ length (ad j) = SPX_ADDR_BYTES).
  { intros j Hj. assert (j * SPX_ADDR_BYTES + SPX_ADDR_BYTES <= nl * SPX_ADDR_BYTES)%nat by nia.
    unfold ad. rewrite rd_ok by lia. rewrite firstn_length, skipn_length. split; [reflexivity|lia]. }
  set (h := fun j => match hs_thash HS c k (x j) (ad j) with Some d => if (length d =? N)%nat then d else repeat 0 N | None => repeat 0 N end).
  assert (Lh : forall j, length (h j) = N).
  { intros j. unfold h. destruct (hs_thash _ _ _ _ _) as [d|]; [|apply repeat_length].
    destruct (Nat.eqb_spec (length d) N); [assumption|apply repeat_length]. }
  assert (Hh : forall j, (j < nl)%nat -> hs_thash HS c k (x j) (ad j) = Some (h j)).
  { intros j Hj. destruct (ok_thash P HS Hok c k (x j) (ad j) Hc (proj2 (Hx j Hj)) (proj2 (Had j Hj))) as (d & Ed & Ld).
    unfold h. rewrite Ed, Ld, Nat.eqb_refl. reflexivity. }
  clearbody h x ad.
  assert (F1 : Forall (fun v => length v = (k * N)%nat) (map x (seq 0 nl))).
  { apply Forall_forall. intros v Hv. apply in_map_iff in Hv. destruct Hv as (j & <- & Hj). apply in_seq in Hj. apply Hx. lia. }
  assert (F2 : Forall (fun v => length v = SPX_ADDR_BYTES) (map ad (seq 0 nl))).
  { apply Forall_forall. intros v Hv. apply in_map_iff in Hv. destruct Hv as (j & <- & Hj). apply in_seq in Hj. apply Had. lia. }
  destruct (HL c k (map x (seq 0 nl)) (map ad (seq 0 nl)) Hc) as (hs & Ehs & Lhs & Fhs);
    [now rewrite map_length, seq_length|now rewrite map_length, seq_length|exact F1|exact F2|].
  set (g := fun j => if (j <? nl)%nat then nth j hs [] else repeat 0 N).
  assert (Eg : hs = map g (seq 0 nl)).
  { rewrite (seq_nth_map hs), Lhs. apply map_ext_in. intros j Hj. apply in_seq in Hj. unfold g.
    rewrite (proj2 (Nat.ltb_lt _ _)) by lia. reflexivity. }
  assert (Lg : forall j, length (g j) = N).
  { intros j. unfold g. destruct (Nat.ltb_spec j nl); [|apply repeat_length].
    rewrite Forall_forall in Fhs. apply Fhs. apply nth_In. lia. }
  exists (memcmp_differs (concat (map h (seq 0 nl))) (concat (map g (seq 0 nl)))), (concat (map h (seq 0 nl))), (concat (map g (seq 0 nl))).
  split; [|split; [apply (map_h_len N h Lh)|split; [apply (map_h_len N g Lg)|]]].
  - unfold thash_differs.
    rewrite (iterM_ext _ (fun j a => wr a (j * N) (h j))).
    2:{ intros j s Hj. destruct (Hx j) as [E1 L1]; [lia|]. destruct (Had j) as [E2 L2]; [lia|]. rewrite E1. cbn [bind].
        rewrite E2. cbn [bind]. unfold thash. rewrite L1, L2, !Nat.eqb_refl. cbn [guard bind].
        rewrite Hh by lia. reflexivity. }
    pose proof (iter_all N h Lh nl 0 [] a eq_refl La) as EA. cbn [app] in EA. rewrite EA. cbn [bind]. clear EA.
    rewrite (mapM_ok _ x) by (intros j Hj; apply in_seq in Hj; apply Hx; lia). cbn [bind].
    unfold lane_addrs. rewrite (mapM_ok _ ad) by (intros j Hj; apply in_seq in Hj; apply Had; lia). cbn [bind].
    unfold thashx. rewrite !map_length, !seq_length, !Nat.eqb_refl. cbn [andb].
    assert (G1 : forallb (fun v => length v =? k * N)%nat (map x (seq 0 nl)) = true).
    { apply forallb_forall. intros v Hv. apply Nat.eqb_eq. rewrite Forall_forall in F1. now apply F1. }
    assert (G2 : forallb (fun v => length v =? SPX_ADDR_BYTES)%nat (map ad (seq 0 nl)) = true).
    { apply forallb_forall. intros v Hv. apply Nat.eqb_eq. rewrite Forall_forall in F2. now apply F2. }
    rewrite G1, G2. cbn [guard bind]. rewrite Ehs, Eg. cbn [bind].
    pose proof (wrx_all' N g Lg nl 0 [] b eq_refl Lb) as EB. cbn [app] in EB. rewrite EB. cbn [bind].
    rewrite !rd_all by (symmetry; apply map_h_len; auto). cbn [bind]. reflexivity.
  - rewrite Ehs, Eg. rewrite (mapM2_ok _ x ad h) by (intros j Hj; apply in_seq in Hj; apply Hh; lia).
    unfold memcmp_differs. split.
    + destruct (list_eq_dec Z.eq_dec _ _) as [E|]; [intros _|discriminate].
      f_equal. symmetry. apply (map_inj_concat N); [now rewrite !map_length| | |exact E];
      apply Forall_forall; intros v Hv; apply in_map_iff in Hv; destruct Hv as (j & <- & _); auto.
    + intros E. injection E as E. rewrite E. destruct (list_eq_dec Z.eq_dec _ _); [reflexivity|tauto].
Qed.
Lemma compare_ok c input addr : ctx_ok P HS c -> length addr = (nl * SPX_ADDR_BYTES)%nat ->
  forall ks a b, Forall (fun k => (k * nl * N <= length input)%nat) ks ->
  length a = (nl * N)%nat -> length b = (nl * N)%nat ->
  (compare_all P HS LX lw c ks input addr a b = Some 0 /\ Forall (fun k => lanes_same P HS LX lw c k input addr) ks)
  \/ (compare_all P HS LX lw c ks input addr a b = Some (-1) /\ Exists (fun k => ~ lanes_same P HS LX lw c k input addr) ks).
Proof.
  intros Hc Lad ks. induction ks as [|k ks IH]; intros a b F La Lb; cbn [compare_all]; [left; now split|].
  inversion_clear F as [|? ? K2 F']. destruct (differs_ok c k input addr a b Hc K2 Lad La Lb) as (d & y & z & -> & Ly & Lz & Hd).
  cbn [bind]. destruct d.
  - right. split; [reflexivity|]. apply Exists_cons_hd. intros C. apply Hd in C. discriminate.
  - destruct (IH y z F' Ly Lz) as [[E G]|[E G]]; [left|right]; (split; [exact E|]).
    + constructor; [now apply Hd|exact G].
    + now apply Exists_cons_tl.
Qed.
Theorem program_verdict isize ks stream : Forall (fun k => (k * nl <= isize)%nat) ks ->
  (N + isize * N + nl * SPX_ADDR_BYTES <= length stream)%nat ->
  let c := code_ctx HS (firstn N stream) (junk_bytes (junk 602%nat) N) in
  let input := firstn (isize * N) (skipn N stream) in
  let addr := firstn (nl * SPX_ADDR_BYTES) (skipn (N + isize * N) stream) in
  (thash_program P HS LX lw junk isize isize ks stream = Some 0 /\ Forall (fun k => lanes_same P HS LX lw c k input addr) ks)
  \/ (thash_program P HS LX lw junk isize isize ks stream = Some (-1) /\ Exists (fun k => ~ lanes_same P HS LX lw c k input addr) ks).
Proof.
  intros F Ls c input addr. unfold thash_program. rewrite random_ok by lia. cbn [bind].
  rewrite fill_ok; [|unfold junk_bytes; now rewrite map_length, seq_length|rewrite skipn_length; lia]. cbn [bind].
  rewrite fill_ok; [|now rewrite repeat_length|rewrite !skipn_length; lia]. cbn [bind].
  unfold addr. rewrite (Nat.add_comm N), <- skipn_skipn. fold input.
  apply compare_ok.
  - apply code_ctx_ok; [rewrite firstn_length; lia|unfold junk_bytes; now rewrite map_length, seq_length].
  - rewrite firstn_length, !skipn_length. lia.
  - eapply Forall_impl; [|exact F]. intros k K2. unfold input. rewrite firstn_length, skipn_length, Nat.min_l by lia. now apply Nat.mul_le_mono_r.
  - unfold junk_bytes. now rewrite map_length, seq_length.
  - unfold junk_bytes. now rewrite map_length, seq_length.
Qed.
Theorem program_ub isize irand ks stream : (isize < irand)%nat -> thash_program P HS LX lw junk isize irand ks stream = None.
Proof.
  clear Hok HL. intros Hlt. pose proof (N_pos P Hwf) as Hp. unfold thash_program.
  destruct (randombytes stream N) as [[ps s1]|]; [|reflexivity]. cbn [bind]. unfold fill.
  destruct (randombytes s1 (irand * N)) as [[d s2]|] eqn:E; [|reflexivity]. cbn [bind].
  assert (Ld : length d = (irand * N)%nat).
  { unfold randombytes in E. destruct (rd s1 0 (irand * N)) eqn:Er; [|discriminate]. cbn [bind] in E. injection E as <- _.
    eapply rd_length. exact Er. }
  unfold wr. rewrite Ld. unfold junk_bytes. rewrite map_length, seq_length.
  rewrite (proj2 (Nat.leb_gt _ _)); [reflexivity|]. nia.
Qed.
End ThashTest.
(** The lane functions of the directories: only 256 blocks at most are specified, which is enough. *)
Section ThashOpt.
Variable o : opt_build.
Variable robust : bool.
Variable P : params.
Variable u : uninit.
Notation HS := (o_suite o robust P u).
Notation LX := (o_lanes o robust P u).
Notation N := (p_n P).
Notation nl := (NL (o_lw o)).
Hypothesis Hwf : wf_params P = true.
Hypothesis Hn : o_n o P.
Notation Hok := (cp_ok _ _ _ _ (o_computes o robust P u Hwf Hn)).
(** The same functions, and thash lane by lane for more than 256 blocks. *)
Let LX' : lane_fns HS := {| lx_thash := fun c k ins ads => if (k <=? 256)%nat then lx_thash LX c k ins ads else mapM2 (hs_thash HS c k) ins ads;
  lx_prf_addr := lx_prf_addr LX |}.
Lemma lx'_eq c k ins ads : ctx_ok P HS c -> length ins = nl -> length ads = nl ->
  Forall (fun x => length x = (k * N)%nat) ins -> Forall (fun a => length a = SPX_ADDR_BYTES) ads ->
  lx_thash LX' c k ins ads = mapM2 (hs_thash HS c k) ins ads.
Proof.
  intros Hc L1 L2 F1 F2. cbn [LX' lx_thash]. destruct (Nat.leb_spec k 256); [|reflexivity].
  now apply (lok_thash _ _ _ _ (o_lanes_ok o robust P u Hwf Hn)).
Qed.
Lemma mapM2_total c k : ctx_ok P HS c -> forall ins ads, length ins = length ads ->
  Forall (fun x => length x = (k * N)%nat) ins -> Forall (fun a => length a = SPX_ADDR_BYTES) ads ->
  exists hs, mapM2 (hs_thash HS c k) ins ads = Some hs /\ length hs = length ins /\ Forall (fun h => length h = N) hs.
Proof.
  intros Hc. induction ins as [|x ins IH]; intros [|a ads] L F1 F2; cbn in L; try discriminate.
  - exists []. repeat split. constructor.
  - inversion_clear F1. inversion_clear F2. destruct (ok_thash P HS Hok c k x a Hc) as (d & Ed & Ld); auto.
    destruct (IH ads) as (hs & Eh & Lh & Fh); auto. cbn [mapM2]. rewrite Ed. cbn [bind]. rewrite Eh. cbn [bind].
    exists (d :: hs). repeat split; [cbn; now rewrite Lh|now constructor].
Qed.
Lemma lx'_total : lanes_total P HS LX' (o_lw o).
Proof.
  intros c k ins ads Hc L1 L2 F1 F2. rewrite lx'_eq by assumption.
  destruct (mapM2_total c k Hc ins ads) as (hs & E & L & F); auto; [congruence|]. exists hs. rewrite L. auto.
Qed.
Lemma compare_same c input addr : forall ks a b, Forall (fun k => (k <= 256)%nat) ks ->
  compare_all P HS LX (o_lw o) c ks input addr a b = compare_all P HS LX' (o_lw o) c ks input addr a b.
Proof.
  induction ks as [|k ks IH]; intros a b F; cbn [compare_all]; [reflexivity|]. inversion_clear F.
  replace (thash_differs P HS LX (o_lw o) c k input addr a b) with (thash_differs P HS LX' (o_lw o) c k input addr a b).
  2:{ unfold thash_differs, thashx. cbn [LX' lx_thash]. rewrite (proj2 (Nat.leb_le _ _)) by assumption. reflexivity. }
  destruct (thash_differs P HS LX' (o_lw o) c k input addr a b) as [[[d x] y]|]; cbn [bind]; [|reflexivity].
  destruct d; [reflexivity|]. now apply IH.
Qed.
Theorem o_program_ok isize ks stream : Forall (fun k => (k <= 256)%nat /\ (k * nl <= isize)%nat) ks ->
  (N + isize * N + nl * SPX_ADDR_BYTES <= length stream)%nat -> o_thash_program o robust P u isize isize ks stream = Some 0.
Proof.
  intros F Ls.
  assert (F1 : Forall (fun k => (k <= 256)%nat) ks) by (eapply Forall_impl; [|exact F]; intros k [? ?]; assumption).
  assert (F2 : Forall (fun k => (k * nl <= isize)%nat) ks) by (eapply Forall_impl; [|exact F]; intros k [? ?]; assumption).
  assert (E : o_thash_program o robust P u isize isize ks stream = thash_program P HS LX' (o_lw o) (u_core u) isize isize ks stream).
  { unfold o_thash_program, thash_program. destruct (randombytes stream N) as [[ps s]|]; cbn [bind]; [|reflexivity].
    destruct (fill _ _ _) as [[inp s']|]; cbn [bind]; [|reflexivity].
    destruct (fill _ _ _) as [[ad s'']|]; cbn [bind]; [|reflexivity]. now apply compare_same. }
  rewrite E. destruct (program_verdict P HS LX' (o_lw o) (u_core u) Hwf Hok lx'_total isize ks stream F2 Ls) as [[E' _]|[_ X]]; [exact E'|].
  exfalso. apply Exists_exists in X. destruct X as (k & Hk & X). apply X. unfold lanes_same.
  rewrite Forall_forall in F2. specialize (F2 k Hk).
  set (input := firstn (isize * N) (skipn N stream)). set (addr := firstn (nl * SPX_ADDR_BYTES) (skipn (N + isize * N) stream)).
  assert (Li : length input = (isize * N)%nat) by (unfold input; rewrite firstn_length, skipn_length; lia).
  assert (La : length addr = (nl * SPX_ADDR_BYTES)%nat) by (unfold addr; rewrite firstn_length, skipn_length; lia).
  apply lx'_eq; try (now rewrite map_length, seq_length).
  - apply code_ctx_ok; [rewrite firstn_length; lia|unfold junk_bytes; now rewrite map_length, seq_length].
  - apply Forall_forall. intros v Hv. apply in_map_iff in Hv. destruct Hv as (j & <- & Hj). apply in_seq in Hj.
    assert (k * j * N + k * N <= isize * N)%nat by nia. rewrite firstn_length, skipn_length. lia.
  - apply Forall_forall. intros v Hv. apply in_map_iff in Hv. destruct Hv as (j & <- & Hj). apply in_seq in Hj.
    assert (j * SPX_ADDR_BYTES + SPX_ADDR_BYTES <= nl * SPX_ADDR_BYTES)%nat by nia. rewrite firstn_length, skipn_length. lia.
Qed.
End ThashOpt.
Theorem thashx4_passes robust P u stream : wf_params P = true -> o_n ShakeAvx2 P -> (5 * p_n P + 128 <= length stream)%nat ->
  thashx4_test robust P u stream = Some 0.
Proof.
  intros Hwf Hn Ls. apply o_program_ok; [exact Hwf|exact Hn| |unfold SPX_ADDR_BYTES; cbn [NL o_lw Nat.pow]; cbn; lia].
  repeat constructor; cbn; lia.
Qed.
Theorem thashx8_passes robust P u stream : wf_params P = true -> o_n Sha2Avx2 P -> (17 * p_n P + 256 <= length stream)%nat ->
  thashx8_test robust P u stream = Some 0.
Proof.
  intros Hwf Hn Ls. apply o_program_ok; [exact Hwf|exact Hn| |unfold SPX_ADDR_BYTES; cbn [NL o_lw Nat.pow]; cbn; lia].
  repeat constructor; cbn; lia.
Qed.
Theorem thashx2_fixed_passes robust P u stream : wf_params P = true -> o_n ShakeA64 P -> (3 * p_n P + 64 <= length stream)%nat ->
  thashx2_fixed robust P u stream = Some 0.
Proof.
  intros Hwf Hn Ls. apply o_program_ok; [exact Hwf|exact Hn| |unfold SPX_ADDR_BYTES; cbn [NL o_lw Nat.pow]; cbn; lia].
  repeat constructor; cbn; lia.
Qed.
Theorem thashx2_undefined robust P u stream : wf_params P = true -> thashx2_test robust P u stream = None.
Proof. intros Hwf. apply program_ub; [exact Hwf|]. lia. Qed.

(** ** FORS for any address *)
Lemma be_val_be4 v : 0 <= v < 2 ^ 32 -> be_val (be4 v) = v.
Proof.
  intros H. rewrite (be4_val v H) at 2. unfold be4. cbn [be_val length].
  change (256 ^ Z.of_nat 3) with (2 ^ 24). change (256 ^ Z.of_nat 2) with (2 ^ 16). change (256 ^ Z.of_nat 1) with (2 ^ 8).
  change (256 ^ Z.of_nat 0) with 1. ring.
Qed.
Lemma be4_be_val b : all_bytes b -> length b = 4%nat -> be4 (be_val b) = b.
Proof.
  intros Hb Lb. pose proof (be_val_bound _ Hb) as B. rewrite Lb in B. change (256 ^ Z.of_nat 4) with (2 ^ 32) in B.
  apply be_val_inj; auto.
  - unfold be4. repeat constructor; apply byte_of_range.
  - now apply be_val_be4.
Qed.

Section ForsAny.
Variable P : params.
Variable HS : suite.
Variables ps ss : bytes.
Notation L := (hs_layout HS).
Notation N := (p_n P).
Notation p := (SPX_OFFSET_TREE L + 8)%nat.
Notation c := (code_ctx HS ps ss).
Hypothesis Hwf : wf_params P = true.
Hypothesis Hok : suite_ok P HS.
Hypothesis Lps : length ps = N.
Hypothesis Lss : length ss = N.
Variable fa : bytes.
Hypothesis Lf : length fa = SPX_ADDR_BYTES.
Hypothesis Hfa : all_bytes fa.
(** The key pair; the hash functions with the first bytes of [fa] in place of the layer and the tree. *)
Definition kp_of : Z := be_val (firstn 4 (skipn (SPX_OFFSET_KP_ADDR L) fa)).
Definition any_T (a : adrs) (x : bytes) : bytes :=
  opt_bytes (hs_thash HS c (length x / N)%nat x (firstn p fa ++ skipn p (enc L a))).
Definition any_PRF (a : adrs) : bytes := opt_bytes (hs_prf_addr HS c (firstn p fa ++ skipn p (enc L a))).
Notation pre := (firstn p fa).
Notation PS := (psuite HS pre).
Notation fa' := (enc L (mkAdrs 0 0 0 kp_of 0 0)).
Lemma kp_rd : rd fa (SPX_OFFSET_KP_ADDR L) 4 = rd fa' (SPX_OFFSET_KP_ADDR L) 4.
Proof.
  clear - Lf Hfa. assert (Hle : (SPX_OFFSET_KP_ADDR L + 4 <= SPX_ADDR_BYTES)%nat) by (unfold SPX_ADDR_BYTES; destruct L; cbn; lia).
  rewrite rd_ok by lia.
  transitivity (Some (be4 kp_of)).
  - f_equal. unfold kp_of. symmetry. apply be4_be_val.
    + rewrite <- (firstn_skipn (SPX_OFFSET_KP_ADDR L)) in Hfa. apply Forall_app in Hfa. destruct Hfa as [_ Hb].
      rewrite <- (firstn_skipn 4) in Hb. apply Forall_app in Hb. apply Hb.
    + rewrite firstn_length, skipn_length. lia.
  - generalize kp_of. intros k. destruct L; reflexivity.
Qed.
Lemma pre_len : length pre = p.
Proof. rewrite firstn_length, Lf. assert (p <= SPX_ADDR_BYTES)%nat by apply p_le. lia. Qed.
Notation D := (dims_of P).
Notation SIG md := (Spec.fors_sign D any_T any_PRF 0 kp_of md).
Notation Hok' := (psuite_ok P HS pre pre_len Hok).
Notation Hc := (code_ctx_ok P HS ps ss Lps Lss).
Lemma any_sign junk sig0 md : length sig0 = SPX_FORS_BYTES P -> all_bytes md -> length md = SPX_FORS_MSG_BYTES P ->
  Fors.fors_sign P HS c junk sig0 md fa = Some (concat (SIG md), fors_pk D any_T any_PRF 0 kp_of).
Proof.
  intros Ls Hb Lm.
  etransitivity; [exact (fors_sign_patch P HS pre pre_len c junk fa fa' Lf (enc_length _ _) eq_refl kp_rd sig0 md)|].
  exact (fors_sign_ok P PS c junk Hwf Hok' Hc 0 _ sig0 md 0 0 0 Ls Hb Lm).
Qed.
Lemma any_signx LX lw junk sig0 md : lanes_ok P HS LX lw -> lanes_fit P lw ->
  length sig0 = SPX_FORS_BYTES P -> all_bytes md -> length md = SPX_FORS_MSG_BYTES P ->
  fors_signx P HS LX lw c junk sig0 md fa = Some (concat (SIG md), fors_pk D any_T any_PRF 0 kp_of).
Proof.
  intros Hlx Hfit Ls Hb Lm.
  etransitivity; [exact (fors_signx_patch P HS pre pre_len c junk fa fa' Lf (enc_length _ _) eq_refl kp_rd LX lw sig0 md)|].
  exact (fors_signx_ok P PS (planes HS pre LX) lw c junk Hwf Hok' (planes_ok P HS pre pre_len LX lw Hlx) Hc Hfit 0 _ sig0 md 0 0 0 Ls Hb Lm).
Qed.
Lemma any_sig_ok md : chunks_of N (SIG md) /\ length (SIG md) = (p_ft P * (p_fh P + 1))%nat.
Proof.
  split; [exact (fors_sign_chunks P PS c Hwf Hok' Hc 0 kp_of md)|].
  exact (fors_sign_length D any_T any_PRF 0 kp_of md).
Qed.
Lemma any_pk_from junk cs md : chunks_of N cs -> length cs = (p_ft P * (p_fh P + 1))%nat ->
  all_bytes md -> length md = SPX_FORS_MSG_BYTES P ->
  fors_pk_from_sig P HS c junk (concat cs) md fa = Some (fors_pk_of_sig D any_T 0 kp_of md cs).
Proof.
  intros Hcs Ls Hb Lm.
  etransitivity; [exact (fors_pk_from_sig_patch P HS pre pre_len c junk fa fa' Lf (enc_length _ _) eq_refl kp_rd (concat cs) md)|].
  exact (fors_pk_from_sig_ok P PS c junk Hwf Hok' Hc 0 _ cs md 0 0 0 Hcs Ls Hb Lm).
Qed.
Lemma any_round junk md : all_bytes md -> length md = SPX_FORS_MSG_BYTES P ->
  fors_pk_from_sig P HS c junk (concat (SIG md)) md fa = Some (fors_pk D any_T any_PRF 0 kp_of).
Proof. intros Hb Lm. destruct (any_sig_ok md) as [Hcs Hl]. rewrite any_pk_from; auto. now rewrite fors_complete. Qed.
Lemma any_pk_len : length (fors_pk D any_T any_PRF 0 kp_of) = N.
Proof. exact (proj1 (fors_pk_props P PS c Hwf Hok' Hc 0 kp_of)). Qed.
End ForsAny.

(** Only the first bytes and the key pair of the address matter. *)
Definition same_fors_addr (l : layout) (a b : bytes) : Prop :=
  firstn (SPX_OFFSET_TREE l + 8) a = firstn (SPX_OFFSET_TREE l + 8) b
  /\ firstn 4 (skipn (SPX_OFFSET_KP_ADDR l) a) = firstn 4 (skipn (SPX_OFFSET_KP_ADDR l) b).

Section ForsImpl.
Variable im : impl.
Variable robust : bool.
Variable P : params.
Variable u : uninit.
Hypothesis Hi : i_ok im P.
Notation HS := (i_suite im robust P u).
Notation N := (p_n P).
Variables ps ss : bytes.
Hypothesis Lps : length ps = N.
Hypothesis Lss : length ss = N.
Lemma i_any_sign fa sig0 md : length fa = SPX_ADDR_BYTES -> all_bytes fa ->
  length sig0 = SPX_FORS_BYTES P -> all_bytes md -> length md = SPX_FORS_MSG_BYTES P ->
  i_fors_sign im robust P u ps ss sig0 md fa
  = Some (concat (Spec.fors_sign (dims_of P) (any_T P HS ps ss fa) (any_PRF HS ps ss fa) 0 (kp_of HS fa) md),
          fors_pk (dims_of P) (any_T P HS ps ss fa) (any_PRF HS ps ss fa) 0 (kp_of HS fa)).
Proof.
  intros Lf Hf Ls Hb Lm. destruct Hi as [Hwf H]. pose proof (cp_ok _ _ _ _ (i_computes im robust P u Hi)) as Hok.
  destruct im as [f|o]; cbn [i_fors_sign i_suite] in *.
  - apply any_sign; auto.
  - destruct H as [Hn Hfit]. apply any_signx; auto. now apply o_lanes_ok.
Qed.
Theorem i_fors_round fa fa2 sig0 md core : length fa = SPX_ADDR_BYTES -> all_bytes fa -> length fa2 = SPX_ADDR_BYTES -> all_bytes fa2 ->
  same_fors_addr (hs_layout HS) fa fa2 ->
  length sig0 = SPX_FORS_BYTES P -> all_bytes md -> length md = SPX_FORS_MSG_BYTES P ->
  exists sig pk, i_fors_sign im robust P u ps ss sig0 md fa = Some (sig, pk)
    /\ length sig = SPX_FORS_BYTES P /\ length pk = N
    /\ sig = concat (Spec.fors_sign (dims_of P) (any_T P HS ps ss fa) (any_PRF HS ps ss fa) 0 (kp_of HS fa) md)
    /\ pk = fors_pk (dims_of P) (any_T P HS ps ss fa) (any_PRF HS ps ss fa) 0 (kp_of HS fa)
    /\ i_fors_pk_from_sig im robust P u core ps ss sig md fa2 = Some pk.
Proof.
  intros Lf Hf Lf2 Hf2 [S1 S2] Ls Hb Lm. pose proof (proj1 Hi) as Hwf. pose proof (cp_ok _ _ _ _ (i_computes im robust P u Hi)) as Hok.
  do 2 eexists. split; [now apply i_any_sign|].
  destruct (any_sig_ok P HS ps ss Hwf Hok Lps Lss fa Lf md) as [Hcs Hl].
  split. { rewrite (chunks_length _ _ Hcs), Hl. unfold SPX_FORS_BYTES. lia. }
  split. { now apply any_pk_len. }
  split; [reflexivity|]. split; [reflexivity|].
  unfold any_T, any_PRF, kp_of. rewrite S1, S2. unfold i_fors_pk_from_sig.
  exact (any_round P HS ps ss Hwf Hok Lps Lss fa2 Lf2 Hf2 core md Hb Lm).
Qed.
End ForsImpl.

Theorem fors_test_passes im robust P u junk junk' stream : i_ok im P -> all_bytes stream ->
  (2 * p_n P + SPX_FORS_MSG_BYTES P + 32 <= length stream)%nat -> fors_test im robust P u junk junk' stream = Some 0.
Proof.
  intros Hi Hb Ls. unfold fors_test.
  assert (Sk : forall k l, all_bytes l -> all_bytes (skipn k l)).
  { intros k l H. rewrite <- (firstn_skipn k) in H. apply Forall_app in H. apply H. }
  assert (Fk : forall k l, all_bytes l -> all_bytes (firstn k l)).
  { intros k l H. rewrite <- (firstn_skipn k) in H. apply Forall_app in H. apply H. }
  rewrite random_ok by lia. cbn [bind]. rewrite random_ok by (rewrite skipn_length; lia). cbn [bind].
  rewrite fill_ok; [|unfold junk_bytes; now rewrite map_length, seq_length|rewrite !skipn_length; lia]. cbn [bind].
  rewrite fill_ok; [|now rewrite repeat_length|rewrite !skipn_length; unfold SPX_ADDR_BYTES; lia]. cbn [bind].
  match goal with |- context [i_fors_sign im robust P u ?xp ?xs ?x0 ?xm ?xa] =>
    destruct (fun A B => i_fors_round im robust P u Hi xp xs A B xa xa x0 xm junk')
      as (sig & pk & E1 & _ & Lpk & _ & _ & E2) end.
  - rewrite firstn_length, skipn_length. lia.
  - rewrite firstn_length. lia.
  - rewrite firstn_length, !skipn_length. unfold SPX_ADDR_BYTES. lia.
  - auto.
  - rewrite firstn_length, !skipn_length. unfold SPX_ADDR_BYTES. lia.
  - auto.
  - split; reflexivity.
  - unfold junk_bytes. now rewrite map_length, seq_length.
  - auto.
  - rewrite firstn_length, !skipn_length. lia.
  - rewrite E1. cbn [bind]. rewrite E2. cbn [bind]. rewrite rd_all by auto. cbn [bind]. now rewrite memcmp_same.
Qed.
