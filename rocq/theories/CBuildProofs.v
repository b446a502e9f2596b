(** The typed builds compute the specification's functions. *)
From Verif Require Import Base BaseFacts Params Address Suite AdrsEnc Spec SpecFacts SpecExtW Refine
  HashSpec HarakaHashSpec KeccakSpec SpongeFacts ShakeProofs HashShake HashShakeProofs Sha2Spec Sha2Proofs HashSha2 HashSha2Proofs
  HarakaSpec Haraka HarakaTweak HashHaraka HashHarakaProofs BuildSpec Sign SignProofs ApiProofs ApiProofs2 BuildProofs.
From Verif Require Import CInt CCore CSha2 CFips202 CHaraka CGlue CGlueProofs4 CBuild.
#[local] Opaque SHAKE256 SHA256 SHA512 SHA512u HarakaS Haraka512 Haraka256 tweaked_RC tweak_constants seed_state.

Lemma cells_id b : all_bytes b -> cells b = b. Proof. apply norm_bytes. Qed.
Lemma cells_all b : all_bytes (cells b). Proof. apply norm_all. Qed.
Lemma cells_len b : length (cells b) = length b. Proof. apply map_length. Qed.

(** The functions on the bytes of an address *)
Section Raw.
Variable f : family.
Variable robust : bool.
Variable P : params.
Notation N := (p_n P).
Definition lay : layout := match f with SHA2 => LSha2 | _ => LShake end.
Definition rawT (ps a x : bytes) : bytes :=
  match f with SHA2 => sha2_T N robust ps (firstn 22 a) x | SHAKE => shake_T N robust ps a x | HARAKA => haraka_T N robust ps a x end.
Definition rawPRF (ps ss a : bytes) : bytes :=
  match f with SHA2 => sha2_PRF N ps ss (firstn 22 a) | SHAKE => shake_PRF N ps ss a | HARAKA => haraka_PRF N ps ss a end.
Definition rawMsg (ps R pk m : bytes) : bytes * Z * Z :=
  match f with
  | SHA2 => sha2_Hmsg N (dims_of P) R (firstn N pk) (skipn N pk) m
  | SHAKE => split_digest_spec (dims_of P) (SHAKE256 (R ++ pk ++ m) (SPX_DGST_BYTES P))
  | HARAKA => split_digest_spec (dims_of P) (HarakaS (tweaked_RC ps) (R ++ skipn N pk ++ m) (SPX_DGST_BYTES P))
  end.
Hypothesis Hwf : wf_params P = true.
Hypothesis HN : (N <= 32)%nat.
Notation HS := (build f robust P (fun _ _ => 0)).

Lemma raw_T (ps ss : bytes) k (a x : bytes) : length ps = N -> length ss = N -> all_bytes ps -> length a = SPX_ADDR_BYTES -> all_bytes a -> length x = (k * N)%nat ->
  all_bytes x -> Z.of_nat (k * N) + 300 < 2 ^ 32 -> length (rawT ps a x) = N /\ all_bytes (rawT ps a x).
Proof.
  intros Lp Ls Bp Le Be Lx Bx Hk. pose proof (N_pos P Hwf) as Hp.
  pose proof (code_ctx_ok P HS ps ss Lp Ls) as Hc.
  assert (E : hs_thash HS (code_ctx HS ps ss) k x a = Some (rawT ps a x)).
  { unfold rawT. destruct f; cbn [build] in *.
    - rewrite (sha2_hs_thash P _ HN Hwf robust (code_ctx (sha2_suite P _ robust) ps ss) k x a Hc Le Lx). cbn [code_ctx c_pub_seed].
      rewrite !norm_bytes by (try apply all_firstn; auto). f_equal. apply sha2_T_eq; [exact HN|exact Lp|rewrite firstn_length, Le; reflexivity|]. rewrite Lx. change (2 ^ 63) with 9223372036854775808. change (2 ^ 32) with 4294967296 in Hk. lia.
    - rewrite (shake_hs_thash P _ Hwf robust (code_ctx (shake_suite P _ robust) ps ss) k x a Lp Le Lx). cbn [code_ctx c_pub_seed].
      now rewrite !norm_bytes by auto.
    - apply haraka_ctx in Hc.
      rewrite (haraka_hs_thash P _ (conj Hp HN) Hwf robust (code_ctx (haraka_suite P _ robust) ps ss) k x a Hc Le Lx). cbn [code_ctx c_pub_seed].
      now rewrite !norm_bytes by auto. }
  pose proof (build_ok f robust P (fun _ _ => 0) Hwf HN) as Hok.
  destruct (ok_thash _ _ Hok _ k x a Hc Lx Le) as (d & Ed & Ld). rewrite E in Ed. injection Ed as <-.
  split; [exact Ld|]. exact (ok_thash_bytes _ _ Hok _ _ _ _ _ E).
Qed.
Lemma raw_PRF (ps ss a : bytes) : length ps = N -> length ss = N -> all_bytes ps -> all_bytes ss -> length a = SPX_ADDR_BYTES -> all_bytes a ->
  length (rawPRF ps ss a) = N /\ all_bytes (rawPRF ps ss a).
Proof.
  intros Lp Ls Bp Bs Le Be. pose proof (N_pos P Hwf) as Hp.
  pose proof (code_ctx_ok P HS ps ss Lp Ls) as Hc.
  assert (E : hs_prf_addr HS (code_ctx HS ps ss) a = Some (rawPRF ps ss a)).
  { unfold rawPRF. destruct f; cbn [build] in *.
    - exact (sha2_prf_bytes P _ HN robust (code_ctx (sha2_suite P _ robust) ps ss) a Hc Le Bp Bs Be).
    - exact (shake_prf_bytes P _ (code_ctx (shake_suite P _ robust) ps ss) a Lp Ls Le Bp Bs Be).
    - apply haraka_ctx in Hc. exact (haraka_prf_bytes P (fun _ _ => 0) (conj Hp HN) (code_ctx (haraka_suite P _ robust) ps ss) a Hc Ls Le Bp Bs Be). }
  pose proof (build_ok f robust P (fun _ _ => 0) Hwf HN) as Hok.
  destruct (ok_prf _ _ Hok _ a Hc Le) as (d & Ed & Ld). rewrite E in Ed. injection Ed as <-.
  split; [exact Ld|]. exact (ok_prf_bytes _ _ Hok _ _ _ E).
Qed.
Lemma raw_Rnd (ps ss k o m : bytes) : length ps = N -> length ss = N -> all_bytes ps -> length k = N -> length o = N -> all_bytes k -> all_bytes o ->
  all_bytes m -> Z.of_nat (length m) < 2 ^ 63 -> length (spec_Rnd f N ps k o m) = N /\ all_bytes (spec_Rnd f N ps k o m).
Proof.
  intros Lp Ls Bp Lk Lo Bk Bo Bm Lm. pose proof (N_pos P Hwf) as Hp.
  pose proof (code_ctx_ok P HS ps ss Lp Ls) as Hc.
  assert (E : hs_gen_message_random HS (code_ctx HS ps ss) k o m = Some (spec_Rnd f N ps k o m)).
  { destruct f; cbn [build spec_Rnd] in *.
    - cbn [sha2_suite hs_gen_message_random]. now rewrite sha2_rand_bytes by auto.
    - cbn [shake_suite hs_gen_message_random]. now rewrite shake_rand_bytes by auto.
    - apply haraka_ctx in Hc. change (hs_gen_message_random (haraka_suite P (fun _ _ => 0) robust)) with (haraka_gen_message_random P).
      now rewrite (haraka_rand_bytes P (conj Hp HN) (code_ctx (haraka_suite P _ robust) ps ss) k o m Hc Lk Lo Bp Bk Bo Bm). }
  pose proof (build_ok f robust P (fun _ _ => 0) Hwf HN) as Hok.
  destruct (ok_rand _ _ Hok _ k o m Hc Lk Lo) as (d & Ed & Ld). rewrite E in Ed. injection Ed as <-.
  split; [exact Ld|]. exact (ok_rand_bytes _ _ Hok _ _ _ _ _ E).
Qed.
Lemma raw_Msg (ps ss R pk m : bytes) : length ps = N -> length ss = N -> all_bytes ps -> length R = N -> length pk = SPX_PK_BYTES P -> all_bytes R -> all_bytes pk ->
  all_bytes m -> Z.of_nat (length m) < 2 ^ 63 ->
  exists d t l, rawMsg ps R pk m = (d, t, l) /\ length d = SPX_FORS_MSG_BYTES P /\ all_bytes d
      /\ 0 <= t < 2 ^ Z.of_nat (SPX_TREE_BITS P) /\ 0 <= l < 2 ^ Z.of_nat (SPX_LEAF_BITS P).
Proof.
  intros Lp Ls Bp LR Lpk BR Bpk Bm Lm. pose proof (N_pos P Hwf) as Hp.
  pose proof (code_ctx_ok P HS ps ss Lp Ls) as Hc.
  assert (E : hs_hash_message HS (code_ctx HS ps ss) R pk m = Some (rawMsg ps R pk m)).
  { unfold rawMsg. destruct f; cbn [build] in *.
    - cbn [sha2_suite hs_hash_message]. now rewrite sha2_msg_bytes by auto.
    - cbn [shake_suite hs_hash_message]. now rewrite shake_msg_bytes by auto.
    - apply haraka_ctx in Hc. change (hs_hash_message (haraka_suite P (fun _ _ => 0) robust)) with (haraka_hash_message P).
      now rewrite (haraka_msg_bytes P (conj Hp HN) Hwf (code_ctx (haraka_suite P _ robust) ps ss) R pk m Hc LR Lpk Bp BR Bpk Bm). }
  pose proof (build_ok f robust P (fun _ _ => 0) Hwf HN) as Hok.
  destruct (ok_msg _ _ Hok _ R pk m Hc LR Lpk) as (d & t & l & Ed & H). rewrite E in Ed. injection Ed as Ed.
  exists d, t, l. split; [exact Ed|exact H].
Qed.
End Raw.

(** ** A suite of typed functions that return these values *)
Section WrapProofs.
Variable f : family.
Variable robust : bool.
Variable P : params.
Variable junk : nat -> nat -> Z.
Notation N := (p_n P).
Hypothesis Hwf : wf_params P = true.
Hypothesis HN : (N <= 32)%nat.
Hypothesis Hbig : Z.of_nat (SPX_BYTES P) < 2 ^ 31.
Variable St : Type.
Variable init : bytes -> St.
Variable th : ctx St -> Z -> bytes -> bytes -> nat -> nat -> option bytes.
Variable prf : ctx St -> bytes -> option bytes.
Variable rnd : ctx St -> bytes -> bytes -> bytes -> Z -> option bytes.
Variable msg : ctx St -> bytes -> bytes -> bytes -> Z -> option (bytes * Z * Z).
Notation HS := (typed_suite P junk (lay f) St init th prf rnd msg).
Hypothesis Hth : forall ps ss k a mem out inp, length ps = N -> length ss = N -> all_bytes ps -> all_bytes ss ->
  length a = SPX_ADDR_BYTES -> all_bytes a -> all_bytes mem -> Z.of_nat (k * N) + 300 < 2 ^ 32 ->
  (inp + k * N <= length mem)%nat -> (out + N <= length mem)%nat ->
  th (mkCtx ps ss (init ps)) (Z.of_nat k) a mem out inp
  = Some (firstn out mem ++ rawT f robust P ps a (firstn (k * N) (skipn inp mem)) ++ skipn (out + N) mem).
Hypothesis Hprf : forall ps ss a, length ps = N -> length ss = N -> all_bytes ps -> all_bytes ss -> length a = SPX_ADDR_BYTES -> all_bytes a ->
  prf (mkCtx ps ss (init ps)) a = Some (rawPRF f P ps ss a).
Hypothesis Hrnd : forall ps ss k o m, length ps = N -> length ss = N -> all_bytes ps -> all_bytes ss -> length k = N -> length o = N ->
  all_bytes k -> all_bytes o -> all_bytes m -> Z.of_nat (length m) < 2 ^ 63 ->
  rnd (mkCtx ps ss (init ps)) k o m (Z.of_nat (length m)) = Some (spec_Rnd f N ps k o m).
Hypothesis Hmsg : forall ps ss R pk m, length ps = N -> length ss = N -> all_bytes ps -> all_bytes ss -> length R = N -> length pk = SPX_PK_BYTES P ->
  all_bytes R -> all_bytes pk -> all_bytes m -> Z.of_nat (length m) < 2 ^ 63 ->
  msg (mkCtx ps ss (init ps)) R pk m (Z.of_nat (length m)) = Some (rawMsg f P ps R pk m).
Hypothesis Hth_sk : forall ps s1 s2 st k a mem out inp, th (mkCtx ps s1 st) k a mem out inp = th (mkCtx ps s2 st) k a mem out inp.
Hypothesis Hrnd_sk : forall ps s1 s2 st k o m l, rnd (mkCtx ps s1 st) k o m l = rnd (mkCtx ps s2 st) k o m l.
Hypothesis Hmsg_sk : forall ps s1 s2 st R pk m l, msg (mkCtx ps s1 st) R pk m l = msg (mkCtx ps s2 st) R pk m l.

Lemma cctx_ok c : ctx_ok P HS c -> cctx St c = mkCtx (cells (c_pub_seed c)) (cells (c_sk_seed c)) (init (cells (c_pub_seed c))).
Proof. intros (_ & _ & E). unfold cctx. f_equal. exact E. Qed.
Lemma typed_th c k x a : ctx_ok P HS c -> length x = (k * N)%nat -> length a = SPX_ADDR_BYTES -> Z.of_nat (k * N) + 300 < 2 ^ 32 ->
  hs_thash HS c k x a = Some (rawT f robust P (cells (c_pub_seed c)) (cells a) (cells x)).
Proof.
  intros Hc Lx La Hk. pose proof Hc as (Lp & Ls & _). cbn [hs_thash typed_suite]. unfold small_in. rewrite (proj2 (Z.ltb_lt _ _) Hk), (cctx_ok c Hc).
  set (o0 := cells (map (junk 400%nat) (seq 0 N))).
  assert (Lo : length o0 = N) by (unfold o0; now rewrite cells_len, map_length, seq_length).
  assert (Bo : all_bytes o0) by apply cells_all.
  assert (Bm : all_bytes (o0 ++ cells x)) by (apply Forall_app; split; [exact Bo|apply cells_all]).
  assert (Lm : length (o0 ++ cells x) = (N + k * N)%nat) by (rewrite app_length, cells_len; lia).
  rewrite Hth; try (rewrite ?cells_len, ?Lm; first [assumption|apply cells_all|lia]).
  rewrite skipn_app, skipn_all2 by lia. rewrite Lo, Nat.sub_diag. cbn [skipn app].
  rewrite (firstn_all2 (cells x)) by (rewrite cells_len; lia). cbn [bind firstn app Nat.add].
  destruct (raw_T f robust P Hwf HN (cells (c_pub_seed c)) (cells (c_sk_seed c)) k (cells a) (cells x)) as [Lr Br];
    rewrite ?cells_len; auto using cells_all.
  rewrite rd_ok by (rewrite app_length; lia). cbn [skipn bind]. rewrite firstn_app, Lr, Nat.sub_diag. cbn [firstn]. rewrite app_nil_r.
  rewrite firstn_all2 by lia. now rewrite cells_id.
Qed.
Lemma typed_prf c a : ctx_ok P HS c -> length a = SPX_ADDR_BYTES ->
  hs_prf_addr HS c a = Some (rawPRF f P (cells (c_pub_seed c)) (cells (c_sk_seed c)) (cells a)).
Proof.
  intros Hc La. pose proof Hc as (Lp & Ls & _). cbn [hs_prf_addr typed_suite]. rewrite (cctx_ok c Hc).
  rewrite Hprf by (rewrite ?cells_len; auto using cells_all). cbn [bind]. f_equal. apply cells_id.
  apply (raw_PRF f robust P Hwf HN); rewrite ?cells_len; auto using cells_all.
Qed.
Lemma typed_rnd c k o m : ctx_ok P HS c -> length k = N -> length o = N -> Z.of_nat (length m) < 2 ^ 63 ->
  hs_gen_message_random HS c k o m = Some (spec_Rnd f N (cells (c_pub_seed c)) (cells k) (cells o) (cells m)).
Proof.
  intros Hc Lk Lo Lm. pose proof Hc as (Lp & Ls & _). cbn [hs_gen_message_random typed_suite]. unfold small_msg. rewrite (proj2 (Z.ltb_lt _ _) Lm), (cctx_ok c Hc).
  rewrite <- (cells_len m). rewrite Hrnd by (rewrite ?cells_len; auto using cells_all). cbn [bind]. f_equal. apply cells_id.
  apply (raw_Rnd f robust P Hwf HN _ (cells (c_sk_seed c))); rewrite ?cells_len; auto using cells_all.
Qed.
Lemma typed_msg c R pk m : ctx_ok P HS c -> length R = N -> length pk = SPX_PK_BYTES P -> Z.of_nat (length m) < 2 ^ 63 ->
  hs_hash_message HS c R pk m = Some (rawMsg f P (cells (c_pub_seed c)) (cells R) (cells pk) (cells m)).
Proof.
  intros Hc LR Lpk Lm. pose proof Hc as (Lp & Ls & _). cbn [hs_hash_message typed_suite]. unfold small_msg. rewrite (proj2 (Z.ltb_lt _ _) Lm), (cctx_ok c Hc).
  rewrite <- (cells_len m). apply Hmsg; rewrite ?cells_len; auto using cells_all.
Qed.
Lemma zeros_bytes k : all_bytes (repeat 0 k).
Proof. apply Forall_forall. intros x Hx. apply repeat_spec in Hx. subst. unfold is_byte. lia. Qed.

Theorem typed_ok : suite_ok P HS.
Proof.
  constructor.
  - intros c k x a Hc Lx La. destruct (Z.ltb_spec (Z.of_nat (k * N) + 300) (2 ^ 32)) as [Hk|Hk].
    + rewrite typed_th by assumption. eexists. split; [reflexivity|]. destruct Hc as (Lp & Ls & _).
      apply (raw_T f robust P Hwf HN _ (cells (c_sk_seed c)) k); rewrite ?cells_len; auto using cells_all.
    + cbn [hs_thash typed_suite]. unfold small_in. rewrite (proj2 (Z.ltb_ge _ _) Hk). eexists. split; [reflexivity|apply repeat_length].
  - intros c k x a d E. cbn [hs_thash typed_suite] in E. destruct (small_in P k).
    + destruct (th _ _ _ _ _ _) as [mem|]; [|discriminate]. cbn [bind] in E. destruct (rd mem 0 N); [|discriminate]. injection E as <-. apply cells_all.
    + injection E as <-. apply zeros_bytes.
  - intros c a Hc La. rewrite typed_prf by assumption. eexists. split; [reflexivity|]. destruct Hc as (Lp & Ls & _).
    apply (raw_PRF f robust P Hwf HN); rewrite ?cells_len; auto using cells_all.
  - intros c a d E. cbn [hs_prf_addr typed_suite] in E. destruct (prf _ _); [|discriminate]. injection E as <-. apply cells_all.
  - intros c k o m Hc Lk Lo. destruct (Z.ltb_spec (Z.of_nat (length m)) (2 ^ 63)) as [Lm|Lm].
    + rewrite typed_rnd by assumption. eexists. split; [reflexivity|]. destruct Hc as (Lp & Ls & _).
      apply (raw_Rnd f robust P Hwf HN _ (cells (c_sk_seed c))); rewrite ?cells_len; auto using cells_all.
    + cbn [hs_gen_message_random typed_suite]. unfold small_msg. rewrite (proj2 (Z.ltb_ge _ _) Lm). eexists. split; [reflexivity|apply repeat_length].
  - intros c k o m d E. cbn [hs_gen_message_random typed_suite] in E. destruct (small_msg m).
    + destruct (rnd _ _ _ _ _); [|discriminate]. injection E as <-. apply cells_all.
    + injection E as <-. apply zeros_bytes.
  - intros c R pk m Hc LR Lpk. destruct (Z.ltb_spec (Z.of_nat (length m)) (2 ^ 63)) as [Lm|Lm].
    + rewrite typed_msg by assumption. destruct Hc as (Lp & Ls & _).
      destruct (raw_Msg f robust P Hwf HN (cells (c_pub_seed c)) (cells (c_sk_seed c)) (cells R) (cells pk) (cells m)) as (d & t & l & E & H);
        rewrite ?cells_len; auto using cells_all. exists d, t, l. rewrite E. split; [reflexivity|exact H].
    + cbn [hs_hash_message typed_suite]. unfold small_msg. rewrite (proj2 (Z.ltb_ge _ _) Lm).
      exists (repeat 0 (SPX_FORS_MSG_BYTES P)), 0, 0. split; [reflexivity|]. split; [apply repeat_length|]. split; [apply zeros_bytes|].
      split; (split; [lia|apply Z.pow_pos_nonneg; lia]).
  - intros. cbn [hs_thash typed_suite]. destruct (small_in P k); [|reflexivity]. unfold cctx. cbn [c_pub_seed c_sk_seed c_state].
    now rewrite (Hth_sk _ (cells s1) (cells s2)).
  - intros. cbn [hs_hash_message typed_suite]. destruct (small_msg m); [|reflexivity]. apply Hmsg_sk.
  - intros. cbn [hs_gen_message_random typed_suite]. destruct (small_msg m); [|reflexivity]. unfold cctx. cbn [c_pub_seed c_sk_seed c_state].
    now rewrite (Hrnd_sk _ (cells s1) (cells s2)).
Qed.
(** The core's numbers of blocks are small. *)
Lemma small_blocks k : (k <= KK P)%nat -> Z.of_nat (k * N) + 300 < 2 ^ 32.
Proof.
  clear - Hwf HN Hbig. intros Hk. unfold KK in Hk. destruct (wf_ft P Hwf) as [_ Hl].
  assert (H : (p_ft P * N <= SPX_BYTES P)%nat).
  { unfold SPX_BYTES, SPX_FORS_BYTES. nia. }
  assert (k * N <= 258 * 32 + p_ft P * N)%nat by nia.
  change (2 ^ 31) with 2147483648 in Hbig. change (2 ^ 32) with 4294967296. lia.
Qed.
Theorem typed_computes : computes f robust P HS.
Proof.
  constructor.
  - exact typed_ok.
  - intros ps a x [Lp Bp] G. destruct G as (xs & -> & W & Lxs).
    assert (G : goodW (wordN P) (KK P) (concat xs)) by (exists xs; auto).
    destruct (good_facts P Hwf HN _ G) as (Bx & k & Lx & _). pose proof (N_pos P Hwf) as Hp.
    assert (Ek : (length (concat xs) / N = k)%nat) by (rewrite Lx; apply Nat.div_mul; lia).
    assert (Hk : (k = length xs)%nat).
    { enough (length (concat xs) = length xs * N)%nat by nia. clear - W. induction W as [|y l [Ly _] _ IH]; [reflexivity|].
      cbn [concat length]. rewrite app_length, IH, Ly. lia. }
    unfold codeTh, codeT. rewrite Ek.
    rewrite (typed_th (code_ctx HS ps (zero_seed P)) k (concat xs) (enc (hs_layout HS) a));
      [|apply code_ctx_ok; auto using zero_len|exact Lx|apply enc_len|apply small_blocks; lia].
    cbn [code_ctx c_pub_seed opt_bytes hs_layout typed_suite]. rewrite !cells_id by (auto using enc_bytes).
    unfold rawT, spec_T, lay. destruct f; reflexivity.
  - intros ps ss a [Lp Bp] [Ls Bs]. unfold codePrf, codePRF.
    rewrite (typed_prf (code_ctx HS ps ss)); [|apply code_ctx_ok; auto|apply enc_len].
    cbn [code_ctx c_pub_seed c_sk_seed opt_bytes hs_layout typed_suite]. rewrite !cells_id by (auto using enc_bytes).
    unfold rawPRF, spec_PRF, lay. destruct f; reflexivity.
  - intros ps k o m [Lp Bp] [Lk Bk] [Lo Bo] Bm Lm. unfold codeRnd.
    rewrite (typed_rnd (code_ctx HS ps (zero_seed P))); auto; [|apply code_ctx_ok; auto using zero_len].
    cbn [code_ctx c_pub_seed opt_bytes]. now rewrite !cells_id by auto.
  - intros ps root R m [Lp Bp] [Lr Br] [LR BR] Bm Lm. unfold codeHm.
    rewrite (typed_msg (code_ctx HS ps (zero_seed P))); auto; [|apply code_ctx_ok; auto using zero_len|rewrite app_length; unfold SPX_PK_BYTES; lia].
    cbn [code_ctx c_pub_seed]. rewrite !cells_id by (auto; apply Forall_app; auto).
    unfold rawMsg, spec_Hm. destruct f; [reflexivity| |].
    + unfold shake_Hmsg. do 2 f_equal. symmetry. apply digest_len_P.
    + unfold haraka_Hmsg, haraka_Hmsg_of. do 2 f_equal. symmetry. apply digest_len_P.
Qed.
End WrapProofs.

Theorem build_c_computes f robust P junk : wf_params P = true -> (p_n P <= 32)%nat -> Z.of_nat (SPX_BYTES P) < 2 ^ 31 ->
  computes f robust P (build_c f robust P junk).
Proof.
  intros Hwf HN Hbig. destruct f; cbn [build_c].
  - apply (typed_computes SHA2 robust P junk Hwf HN Hbig).
    + intros ps ss k a mem out inp Lp Ls Bp Bs La Ba Bm Hk Hi Ho.
      destruct (sha2_c_all P junk Hwf Hbig (mkCtx ps ss (seed_state_c P junk ps)) HN Lp Ls Bp Bs eq_refl) as (_ & _ & _ & H). now apply H.
    + intros ps ss a Lp Ls Bp Bs La Ba.
      destruct (sha2_c_all P junk Hwf Hbig (mkCtx ps ss (seed_state_c P junk ps)) HN Lp Ls Bp Bs eq_refl) as (H & _). now apply H.
    + intros ps ss k o m Lp Ls Bp Bs Lk Lo Bk Bo Bm Lm.
      destruct (sha2_c_all P junk Hwf Hbig (mkCtx ps ss (seed_state_c P junk ps)) HN Lp Ls Bp Bs eq_refl) as (_ & H & _). now apply H.
    + intros ps ss R pk m Lp Ls Bp Bs LR Lpk BR Bpk Bm Lm.
      destruct (sha2_c_all P junk Hwf Hbig (mkCtx ps ss (seed_state_c P junk ps)) HN Lp Ls Bp Bs eq_refl) as (_ & _ & H & _). now apply H.
    + intros. unfold sha2_thash_c, sha2_robust_c, sha2_simple_c. destruct robust; reflexivity.
    + intros. reflexivity.
    + intros. reflexivity.
  - apply (typed_computes SHAKE robust P junk Hwf HN Hbig).
    + intros ps ss k a mem out inp Lp Ls Bp Bs La Ba Bm Hk Hi Ho.
      destruct (shake_c_all P junk Hwf Hbig (mkCtx ps ss tt) Lp Bp) as (_ & _ & _ & H). now apply H.
    + intros ps ss a Lp Ls Bp Bs La Ba.
      destruct (shake_c_all P junk Hwf Hbig (mkCtx ps ss tt) Lp Bp) as (H & _). now apply H.
    + intros ps ss k o m Lp Ls Bp Bs Lk Lo Bk Bo Bm Lm.
      destruct (shake_c_all P junk Hwf Hbig (mkCtx ps ss tt) Lp Bp) as (_ & H & _). apply H; auto. lia.
    + intros ps ss R pk m Lp Ls Bp Bs LR Lpk BR Bpk Bm Lm.
      destruct (shake_c_all P junk Hwf Hbig (mkCtx ps ss tt) Lp Bp) as (_ & _ & H & _). apply H; auto. lia.
    + intros. unfold shake_thash_c, shake_thash_robust_c, shake_thash_simple_c. destruct robust; reflexivity.
    + intros. reflexivity.
    + intros. reflexivity.
  - apply (typed_computes HARAKA robust P junk Hwf HN Hbig).
    + intros ps ss k a mem out inp Lp Ls Bp Bs La Ba Bm Hk Hi Ho.
      destruct (haraka_glue_all P junk Hwf Hbig (mkCtx ps ss (haraka_init_c P junk ps)) HN Lp Bp eq_refl) as (_ & _ & _ & H). now apply H.
    + intros ps ss a Lp Ls Bp Bs La Ba.
      destruct (haraka_glue_all P junk Hwf Hbig (mkCtx ps ss (haraka_init_c P junk ps)) HN Lp Bp eq_refl) as (H & _). now apply H.
    + intros ps ss k o m Lp Ls Bp Bs Lk Lo Bk Bo Bm Lm.
      destruct (haraka_glue_all P junk Hwf Hbig (mkCtx ps ss (haraka_init_c P junk ps)) HN Lp Bp eq_refl) as (_ & H & _). apply H; auto. lia.
    + intros ps ss R pk m Lp Ls Bp Bs LR Lpk BR Bpk Bm Lm.
      destruct (haraka_glue_all P junk Hwf Hbig (mkCtx ps ss (haraka_init_c P junk ps)) HN Lp Bp eq_refl) as (_ & _ & H & _). apply H; auto. lia.
    + intros. unfold haraka_thash_c, haraka_thash_robust_c, haraka_thash_simple_c. destruct robust; reflexivity.
    + intros. reflexivity.
    + intros. reflexivity.
Qed.
