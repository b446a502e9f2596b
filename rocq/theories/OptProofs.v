(** The vector builds compute the specification. *)
From Verif Require Import Base BaseFacts Params Address Suite AdrsEnc Spec SpecFacts SpecExtW Refine
  KeccakSpec Sha2Spec HarakaSpec HashSpec HarakaHashSpec ShakeProofs HashShake HashShakeProofs HashSha2 HashSha2Proofs Haraka HarakaTweak HashHaraka HashHarakaProofs
  Sign SignProofs ApiProofs ApiProofs2 Lanes LaneMerkleProofs LaneAgree SignX SignXProofs
  LaneShake LaneShakeOk LaneSha2 LaneSha2Thash HarakaNi HarakaNiSponge HarakaNiLanes
  BuildSpec BuildProofs OptBuild.
#[local] Opaque SHAKE256 SHA256 SHA512 HarakaS Haraka512 Haraka256 tweaked_RC tweak_constants seed_state.

(** shake-a64: one-lane thash is the two-lane one. *)
Lemma a64_computes robust P junk vj : wf_params P = true -> words_n P ->
  computes SHAKE robust P (shake_a64_suite P junk vj robust).
Proof.
  intros Hwf HN. assert (H32 : (p_n P <= 32)%nat) by (destruct HN; lia).
  pose proof (build_computes SHAKE robust P junk Hwf H32) as C. constructor.
  - now apply shake_a64_suite_ok.
  - intros ps a x [Lp Bp] G. destruct (good_facts P Hwf H32 _ G) as (Bx & k & Lx & Hk).
    pose proof (N_pos P Hwf) as Hp.
    assert (Ek : (length x / p_n P = k)%nat) by (rewrite Lx; apply Nat.div_mul; lia).
    unfold codeTh, codeT. rewrite Ek. cbn [shake_a64_suite hs_thash hs_layout].
    assert (Be := enc_bytes LShake a). assert (Le := enc_len LShake a).
    rewrite (a64_thash_ok P junk vj robust HN (code_ctx (shake_a64_suite P junk vj robust) ps (zero_seed P)) k x (enc LShake a) Lp Le Lx).
    cbn [opt_bytes code_ctx c_pub_seed]. now rewrite !norm_bytes by auto.
  - exact (cp_PRF _ _ _ _ C).
  - exact (cp_Rnd _ _ _ _ C).
  - exact (cp_Hm _ _ _ _ C).
Qed.

(** haraka-aesni: the AES-NI code in place of the portable one. *)
Lemma ni_computes robust P junk : wf_params P = true -> (p_n P <= 32)%nat ->
  computes HARAKA robust P (ni_suite P junk robust).
Proof.
  intros Hwf H32. pose proof (N_pos P Hwf) as Hp. assert (HN : (1 <= p_n P <= 32)%nat) by lia.
  assert (G : forall ps ss, length ps = p_n P -> length ss = p_n P ->
    gctx P ni_st ni_fns (code_ctx (ni_suite P junk robust) ps ss)).
  { intros ps ss Lp Ls. apply ni_gctx with (junk := junk) (robust := robust). now apply code_ctx_ok. }
  constructor.
  - now apply ni_suite_ok.
  - intros ps a x [Lp Bp] Gx. destruct (good_facts P Hwf H32 _ Gx) as (Bx & k & Lx & Hk).
    assert (Ek : (length x / p_n P = k)%nat) by (rewrite Lx; apply Nat.div_mul; lia).
    unfold codeTh, codeT. rewrite Ek. change (hs_layout (ni_suite P junk robust)) with LShake.
    assert (Be := enc_bytes LShake a). assert (Le := enc_len LShake a).
    unfold ni_suite at 1. rewrite (hk_hs_thash P junk HN ni_st ni_fns Hwf _ robust _ k x (enc LShake a)) by (auto using zero_len).
    cbn [opt_bytes code_ctx c_pub_seed]. now rewrite !norm_bytes by auto.
  - intros ps ss a [Lp Bp] [Ls Bs]. unfold codePrf, codePRF. change (hs_layout (ni_suite P junk robust)) with LShake.
    change (hs_prf_addr (ni_suite P junk robust)) with (hk_prf_addr P ni_st ni_fns).
    assert (Be := enc_bytes LShake a). assert (Le := enc_len LShake a).
    rewrite (hk_prf_ok P junk HN ni_st ni_fns _ (enc LShake a)) by auto.
    cbn [opt_bytes code_ctx c_pub_seed c_sk_seed]. now rewrite !norm_bytes by auto.
  - intros ps k o m [Lp Bp] [Lk Bk] [Lo Bo] Bm Lm. unfold codeRnd.
    change (hs_gen_message_random (ni_suite P junk robust)) with (hk_gen_message_random P ni_st ni_fns).
    rewrite (hk_rand_ok P HN ni_st ni_fns) by (auto using zero_len).
    cbn [opt_bytes code_ctx c_pub_seed]. now rewrite !norm_bytes by auto.
  - intros ps root R m [Lp Bp] [Lr Br] [LR BR] Bm Lm. unfold codeHm.
    change (hs_hash_message (ni_suite P junk robust)) with (hk_hash_message P ni_st ni_fns).
    assert (Lpk : length (ps ++ root) = SPX_PK_BYTES P) by (rewrite app_length; unfold SPX_PK_BYTES; lia).
    assert (Bpk : all_bytes (ps ++ root)) by (apply Forall_app; auto).
    rewrite (hk_msg_ok P HN ni_st ni_fns Hwf) by (auto using zero_len).
    cbn [code_ctx c_pub_seed]. rewrite !norm_bytes by (auto; now apply all_skipn'). reflexivity.
Qed.

Lemma o_n_32 o P : o_n o P -> (p_n P <= 32)%nat.
Proof. destruct o; cbn [o_n]; [intros [H _]; lia|intros [H _]; lia|auto|auto]. Qed.
Theorem o_computes o robust P u : wf_params P = true -> o_n o P -> computes (o_family o) robust P (o_suite o robust P u).
Proof.
  intros Hwf Hn. pose proof (o_n_32 o P Hn) as H32. destruct o; cbn [o_family o_suite o_n] in *.
  - exact (build_computes SHAKE robust P (u_hash u) Hwf H32).
  - now apply a64_computes.
  - exact (build_computes SHA2 robust P (u_hash u) Hwf H32).
  - now apply ni_computes.
Qed.
Theorem o_lanes_ok o robust P u : wf_params P = true -> o_n o P ->
  lanes_ok P (o_suite o robust P u) (o_lanes o robust P u) (o_lw o).
Proof.
  intros Hwf Hn. pose proof (o_n_32 o P Hn) as H32. pose proof (N_pos P Hwf) as Hp.
  destruct o; cbn [o_suite o_lanes o_lw o_n] in *.
  - now apply shake_avx2_lanes_ok.
  - now apply shake_a64_lanes_ok.
  - now apply sha2_avx2_lanes_ok.
  - apply ni_lanes_ok; auto; lia.
Qed.

(** ** Lane-wise hashing, against the reference build *)
(** The reference build's context for the same seeds. *)
Definition ref_ctx {HS'} (HS : suite) (c : ctx (hs_st HS')) : ctx (hs_st HS) := code_ctx HS (c_pub_seed c) (c_sk_seed c).
Lemma mapM2_ext {A B C} (Qa : A -> Prop) (Qb : B -> Prop) (f g : A -> B -> option C) : (forall x y, Qa x -> Qb y -> f x y = g x y) ->
  forall l m, Forall Qa l -> Forall Qb m -> mapM2 f l m = mapM2 g l m.
Proof.
  intros H l. induction l as [|x l IH]; intros [|y m] Fl Fm; cbn [mapM2]; try reflexivity.
  inversion_clear Fl. inversion_clear Fm. rewrite H by auto. destruct (g x y); [|reflexivity]. cbn [bind]. now rewrite IH.
Qed.
Lemma mapM_ext {A B} (Q : A -> Prop) (f g : A -> option B) : (forall x, Q x -> f x = g x) ->
  forall l, Forall Q l -> mapM f l = mapM g l.
Proof.
  intros H l F. induction F as [|x l Hx F IH]; cbn [mapM]; [reflexivity|]. rewrite H by exact Hx.
  destruct (g x); [|reflexivity]. cbn [bind]. now rewrite IH.
Qed.
Lemma ref_haraka_thash P jh robust ps ss k i a : wf_params P = true -> (1 <= p_n P <= 32)%nat ->
  length ps = p_n P -> length ss = p_n P -> length a = SPX_ADDR_BYTES -> length i = (k * p_n P)%nat ->
  hs_thash (haraka_suite P jh robust) (code_ctx (haraka_suite P jh robust) ps ss) k i a
  = Some (haraka_T (p_n P) robust (norm ps) (norm a) (norm i)).
Proof.
  intros Hwf HN Lp Ls La Li. pose proof (code_ctx_ok P (haraka_suite P jh robust) ps ss Lp Ls) as Hc. apply haraka_ctx in Hc.
  now rewrite (haraka_hs_thash P jh HN Hwf robust (code_ctx (haraka_suite P jh robust) ps ss) k i a Hc La Li).
Qed.
Lemma ref_haraka_prf P jh robust ps ss a : (1 <= p_n P <= 32)%nat ->
  length ps = p_n P -> length ss = p_n P -> length a = SPX_ADDR_BYTES ->
  hs_prf_addr (haraka_suite P jh robust) (code_ctx (haraka_suite P jh robust) ps ss) a
  = Some (haraka_PRF (p_n P) (norm ps) (norm ss) (norm a)).
Proof.
  intros HN Lp Ls La. pose proof (code_ctx_ok P (haraka_suite P jh robust) ps ss Lp Ls) as Hc. apply haraka_ctx in Hc.
  change (hs_prf_addr (haraka_suite P jh robust)) with (haraka_prf_addr P).
  now rewrite (haraka_prf_ok P jh HN (code_ctx (haraka_suite P jh robust) ps ss) a Hc Ls La).
Qed.
Section LaneWise.
Variable o : opt_build.
Variable robust : bool.
Variable P : params.
Variable u : uninit.
Notation N := (p_n P).
Notation HS := (o_suite o robust P u).
Hypothesis Hwf : wf_params P = true.
Hypothesis Hn : o_n o P.
Variable c : ctx (hs_st HS).
Hypothesis Hc : ctx_ok P HS c.
Variable jh : nat -> nat -> Z.
Notation RS := (build (o_family o) robust P jh).
Notation rc := (ref_ctx RS c).

(** One lane: the directory's one-lane functions are the reference ones. *)
Theorem o_thash_ref k i a : length a = SPX_ADDR_BYTES -> length i = (k * N)%nat ->
  hs_thash HS c k i a = hs_thash RS rc k i a.
Proof.
  intros La Li. pose proof (o_n_32 o P Hn) as H32. pose proof (N_pos P Hwf) as Hp.
  assert (Hr : ctx_ok P RS rc) by (apply code_ctx_ok; [apply Hc|destruct Hc as (_ & H & _); exact H]).
  pose proof Hc as (H1 & H2 & H3). destruct o; cbn [o_suite o_family build o_n] in *.
  - rewrite (shake_hs_thash P (u_hash u) Hwf robust c k i a H1 La Li).
    now rewrite (shake_hs_thash P jh Hwf robust (ref_ctx (shake_suite P jh robust) c) k i a H1 La Li).
  - transitivity (Some (shake_T N robust (norm (c_pub_seed c)) (norm a) (norm i))).
    + exact (a64_thash_ok P (u_hash u) (u_vec u) robust Hn c k i a H1 La Li).
    + symmetry. exact (shake_hs_thash P jh Hwf robust (ref_ctx (shake_suite P jh robust) c) k i a H1 La Li).
  - rewrite (sha2_hs_thash P (u_hash u) H32 Hwf robust c k i a Hc La Li).
    now rewrite (sha2_hs_thash P jh H32 Hwf robust (ref_ctx (sha2_suite P jh robust) c) k i a Hr La Li).
  - transitivity (Some (haraka_T N robust (norm (c_pub_seed c)) (norm a) (norm i))).
    + assert (G := ni_gctx P (u_hash u) robust c Hc).
      exact (hk_hs_thash P (u_hash u) (conj Hp H32) ni_st ni_fns Hwf _ robust c k i a G La Li).
    + symmetry. unfold ref_ctx. apply ref_haraka_thash; auto.
Qed.
Theorem o_prf_ref a : length a = SPX_ADDR_BYTES -> hs_prf_addr HS c a = hs_prf_addr RS rc a.
Proof.
  intros La. pose proof (o_n_32 o P Hn) as H32. pose proof (N_pos P Hwf) as Hp.
  assert (Hr : ctx_ok P RS rc) by (apply code_ctx_ok; [apply Hc|destruct Hc as (_ & H & _); exact H]).
  pose proof Hc as (H1 & H2 & H3). destruct o; cbn [o_suite o_family build o_n] in *.
  - transitivity (Some (shake_PRF N (norm (c_pub_seed c)) (norm (c_sk_seed c)) (norm a)));
      [now apply shake_prf_ok|symmetry].
    exact (shake_prf_ok P jh (ref_ctx (shake_suite P jh robust) c) a H1 H2 La).
  - transitivity (Some (shake_PRF N (norm (c_pub_seed c)) (norm (c_sk_seed c)) (norm a)));
      [now apply shake_prf_ok|symmetry].
    exact (shake_prf_ok P jh (ref_ctx (shake_suite P jh robust) c) a H1 H2 La).
  - transitivity (Some (sha2_PRF N (norm (c_pub_seed c)) (norm (c_sk_seed c)) (norm (firstn 22 a)))).
    + destruct (seed_state_ok P (u_hash u) H32 _ H1) as (s1 & s2 & E & S1 & S2).
      apply (sha2_prf_ok P (u_hash u) H32 c a s1 s2); auto. now rewrite <- E.
    + symmetry. destruct (seed_state_ok P jh H32 _ H1) as (s1 & s2 & E & S1 & S2).
      apply (sha2_prf_ok P jh H32 (ref_ctx (sha2_suite P jh robust) c) a s1 s2); auto.
  - transitivity (Some (haraka_PRF N (norm (c_pub_seed c)) (norm (c_sk_seed c)) (norm a))).
    + exact (hk_prf_ok P jh (conj Hp H32) ni_st ni_fns c a (ni_gctx P (u_hash u) robust c Hc) H2 La).
    + symmetry. unfold ref_ctx. apply ref_haraka_prf; auto.
Qed.
Lemma o_thashx_own k ins addrs : Z.of_nat (k * N) < 2 ^ 31 ->
  length ins = NL (o_lw o) -> length addrs = NL (o_lw o) ->
  Forall (fun x => length x = (k * N)%nat) ins -> Forall (fun a => length a = SPX_ADDR_BYTES) addrs ->
  lx_thash (o_lanes o robust P u) c k ins addrs = mapM2 (hs_thash HS c k) ins addrs.
Proof.
  intros Hk Li La Fi Fa. pose proof (o_n_32 o P Hn) as H32. pose proof (N_pos P Hwf) as Hp.
  pose proof Hc as (H1 & H2 & H3). destruct o; cbn [o_suite o_lanes o_lw o_n] in *.
  - rewrite avx2_thashx by auto. symmetry. apply mapM2_lanes with (d := []) (d' := []); auto.
    intros j Hj. apply shake_hs_thash; auto.
    + apply (Forall_nth_len _ addrs j Fa). rewrite La. exact Hj.
    + apply (Forall_nth_len _ ins j Fi). rewrite Li. exact Hj.
  - cbn [shake_a64_lanes lx_thash]. rewrite a64_thashx_ok by auto. symmetry.
    apply mapM2_lanes with (d := []) (d' := []); auto. intros j Hj. apply a64_thash_ok; auto.
    + apply (Forall_nth_len _ addrs j Fa). rewrite La. exact Hj.
    + apply (Forall_nth_len _ ins j Fi). rewrite Li. exact Hj.
  - now apply sha2_thash_lanes.
  - apply ni_thash_lanes; auto; lia.
Qed.
Theorem o_thashx_ref k ins addrs : Z.of_nat (k * N) < 2 ^ 31 ->
  length ins = NL (o_lw o) -> length addrs = NL (o_lw o) ->
  Forall (fun x => length x = (k * N)%nat) ins -> Forall (fun a => length a = SPX_ADDR_BYTES) addrs ->
  lx_thash (o_lanes o robust P u) c k ins addrs = mapM2 (hs_thash RS rc k) ins addrs.
Proof.
  intros Hk Li La Fi Fa. rewrite o_thashx_own by auto.
  eapply mapM2_ext; [|exact Fi|exact Fa]. intros x a Hx Ha. now apply o_thash_ref.
Qed.
Theorem o_prfx_ref addrs : length addrs = NL (o_lw o) -> Forall (fun a => length a = SPX_ADDR_BYTES) addrs ->
  lx_prf_addr (o_lanes o robust P u) c addrs = mapM (hs_prf_addr RS rc) addrs.
Proof.
  intros La Fa. rewrite (lok_prf _ _ _ _ (o_lanes_ok o robust P u Hwf Hn)) by auto.
  eapply mapM_ext; [|exact Fa]. intros a Ha. now apply o_prf_ref.
Qed.
End LaneWise.

(** ** The API *)
Lemma i_ok_32 i P : i_ok i P -> (p_n P <= 32)%nat.
Proof. intros [_ H]. destruct i; [exact H|]. apply (o_n_32 o), H. Qed.
Theorem i_computes i robust P u : i_ok i P -> computes (i_family i) robust P (i_suite i robust P u).
Proof.
  intros [Hwf H]. destruct i as [f|o]; cbn [i_family i_suite].
  - now apply build_computes.
  - now apply o_computes.
Qed.

(** The multi-lane API is the one-lane API of the same directory. *)
Section Plain.
Variable i : impl.
Variable robust : bool.
Variable P : params.
Variable u : uninit.
Hypothesis Hi : i_ok i P.
Notation HS := (i_suite i robust P u).
Lemma i_seed_keypair_plain pk0 sk0 seed : length seed = CRYPTO_SEEDBYTES P ->
  (SPX_PK_BYTES P <= length pk0)%nat -> (SPX_SK_BYTES P <= length sk0)%nat ->
  i_seed_keypair i robust P u pk0 sk0 seed = crypto_sign_seed_keypair P HS (u_core u) pk0 sk0 seed.
Proof.
  intros. pose proof (cp_ok _ _ _ _ (i_computes i robust P u Hi)) as Hok.
  destruct Hi as [Hwf Hx]. destruct i as [f|o]; [reflexivity|]. destruct Hx as [Hn Hf].
  apply (seed_keypairx_agree P _ _ (o_lw o) Hwf Hok (o_lanes_ok o robust P u Hwf Hn) Hf); auto.
Qed.
Lemma i_keypair_plain stream pk0 sk0 :
  (SPX_PK_BYTES P <= length pk0)%nat -> (SPX_SK_BYTES P <= length sk0)%nat ->
  i_keypair i robust P u stream pk0 sk0 = crypto_sign_keypair P HS (u_core u) stream pk0 sk0.
Proof.
  intros. pose proof (cp_ok _ _ _ _ (i_computes i robust P u Hi)) as Hok.
  destruct Hi as [Hwf Hx]. destruct i as [f|o]; [reflexivity|]. destruct Hx as [Hn Hf].
  apply (keypairx_agree P _ _ (o_lw o) Hwf Hok (o_lanes_ok o robust P u Hwf Hn) Hf); auto.
Qed.
Lemma i_signature_plain stream sig0 m sk :
  (SPX_SK_BYTES P <= length sk)%nat -> (p_n P <= length stream)%nat -> (SPX_BYTES P <= length sig0)%nat ->
  i_signature i robust P u stream sig0 m sk = crypto_sign_signature P HS (u_core u) stream sig0 m sk.
Proof.
  intros. pose proof (cp_ok _ _ _ _ (i_computes i robust P u Hi)) as Hok.
  destruct Hi as [Hwf Hx]. destruct i as [f|o]; [reflexivity|]. destruct Hx as [Hn Hf].
  apply (signaturex_agree P _ _ (o_lw o) Hwf Hok (o_lanes_ok o robust P u Hwf Hn) Hf); auto.
Qed.
Lemma i_verify_plain sig siglen m pk :
  (siglen = Z.of_nat (SPX_BYTES P) -> (SPX_BYTES P <= length sig)%nat) -> (SPX_PK_BYTES P <= length pk)%nat ->
  i_verify i robust P u sig siglen m pk = crypto_sign_verify P HS (u_core u) sig siglen m pk.
Proof.
  intros. pose proof (cp_ok _ _ _ _ (i_computes i robust P u Hi)) as Hok.
  destruct Hi as [Hwf Hx]. destruct i as [f|o]; [reflexivity|]. destruct Hx as [Hn Hf].
  apply (verifyx_agree P _ _ (o_lw o) Hwf Hok (o_lanes_ok o robust P u Hwf Hn)); auto.
Qed.
Lemma i_sign_plain stream sm0 m sk :
  (SPX_SK_BYTES P <= length sk)%nat -> (p_n P <= length stream)%nat ->
  i_sign i robust P u stream sm0 m sk = crypto_sign P HS (u_core u) stream sm0 m sk.
Proof.
  intros. pose proof (cp_ok _ _ _ _ (i_computes i robust P u Hi)) as Hok.
  destruct Hi as [Hwf Hx]. destruct i as [f|o]; [reflexivity|]. destruct Hx as [Hn Hf].
  apply (crypto_signx_agree P _ _ (o_lw o) Hwf Hok (o_lanes_ok o robust P u Hwf Hn) Hf); auto.
Qed.
Lemma i_open_plain m0 sm smlen pk : (SPX_PK_BYTES P <= length pk)%nat ->
  i_open i robust P u m0 sm smlen pk = crypto_sign_open P HS (u_core u) m0 sm smlen pk.
Proof.
  intros. pose proof (cp_ok _ _ _ _ (i_computes i robust P u Hi)) as Hok.
  destruct Hi as [Hwf Hx]. destruct i as [f|o]; [reflexivity|]. destruct Hx as [Hn Hf].
  apply (openx_agree P _ _ (o_lw o) Hwf Hok (o_lanes_ok o robust P u Hwf Hn)); auto.
Qed.

(** The specification. *)
Notation N := (p_n P).
Notation D := (dims_of P).
Notation f := (i_family i).
Theorem i_keygen seed : length seed = CRYPTO_SEEDBYTES P -> all_bytes seed ->
  let ss := firstn N seed in
  let ps := skipn (2 * N) seed in
  let root := ht_root D (spec_T f N robust ps) (spec_PRF f N ps ss) in
  length root = N /\ forall pk0 sk0,
    (SPX_PK_BYTES P <= length pk0)%nat -> (SPX_SK_BYTES P <= length sk0)%nat ->
    i_seed_keypair i robust P u pk0 sk0 seed
    = Some (0, ps ++ root ++ skipn (SPX_PK_BYTES P) pk0, seed ++ root ++ skipn (SPX_SK_BYTES P) sk0).
Proof.
  intros L B ss ps root.
  destruct (any_keygen f robust P HS (proj1 Hi) (i_ok_32 i P Hi) (i_computes i robust P u Hi) seed L B) as [Lr K].
  split; [exact Lr|]. intros pk0 sk0 H1 H2. rewrite i_seed_keypair_plain by auto. now apply K.
Qed.
Theorem i_signature_spec stream sig0 m sk :
  (SPX_SK_BYTES P <= length sk)%nat -> (N <= length stream)%nat -> (SPX_BYTES P <= length sig0)%nat ->
  all_bytes sk -> all_bytes stream -> all_bytes m -> Z.of_nat (length m) < 2 ^ 63 ->
  let s := spx_sign D (spec_T f N robust) (spec_PRF f N) (spec_Rnd f N) (spec_Hm f N D)
             (firstn N sk) (firstn N (skipn N sk)) (firstn N (skipn (2 * N) sk))
             (firstn N (skipn (3 * N) sk)) (firstn N stream) m in
  i_signature i robust P u stream sig0 m sk
  = Some (0, s ++ skipn (SPX_BYTES P) sig0, Z.of_nat (SPX_BYTES P), skipn N stream)
  /\ length s = SPX_BYTES P.
Proof.
  intros. rewrite i_signature_plain by auto.
  apply (any_signature f robust P HS (proj1 Hi) (i_ok_32 i P Hi) (i_computes i robust P u Hi)); auto.
Qed.
Theorem i_verification sig siglen m pk :
  (siglen = Z.of_nat (SPX_BYTES P) -> (SPX_BYTES P <= length sig)%nat) -> (SPX_PK_BYTES P <= length pk)%nat ->
  all_bytes sig -> all_bytes pk -> all_bytes m -> Z.of_nat (length m) < 2 ^ 63 ->
  exists r, i_verify i robust P u sig siglen m pk = Some r /\ (r = 0 \/ r = -1)
    /\ (r = 0 <-> siglen = Z.of_nat (SPX_BYTES P)
          /\ spx_verify D (spec_T f N robust) (spec_Hm f N D) (firstn N pk) (firstn N (skipn N pk)) m
               (firstn (SPX_BYTES P) sig)).
Proof.
  intros. rewrite i_verify_plain by auto.
  apply (any_verification f robust P HS (proj1 Hi) (i_ok_32 i P Hi) (i_computes i robust P u Hi)); auto.
Qed.
End Plain.

(** ** Two implementations of one family *)
Section Two.
Variables i1 i2 : impl.
Variable robust : bool.
Variable P : params.
Variables u1 u2 : uninit.
Hypothesis H1 : i_ok i1 P.
Hypothesis H2 : i_ok i2 P.
Hypothesis Hf : i_family i1 = i_family i2.

Theorem two_seed_keypair pk0 sk0 seed : length seed = CRYPTO_SEEDBYTES P -> all_bytes seed ->
  (SPX_PK_BYTES P <= length pk0)%nat -> (SPX_SK_BYTES P <= length sk0)%nat ->
  i_seed_keypair i1 robust P u1 pk0 sk0 seed = i_seed_keypair i2 robust P u2 pk0 sk0 seed.
Proof.
  intros L B L1 L2. rewrite (proj2 (i_keygen i1 robust P u1 H1 seed L B)), (proj2 (i_keygen i2 robust P u2 H2 seed L B)) by auto.
  now rewrite Hf.
Qed.
Lemma random_parts stream n r s : randombytes stream n = Some (r, s) -> all_bytes stream -> length r = n /\ all_bytes r.
Proof.
  unfold randombytes. intros E B. destruct (rd stream 0 n) as [x|] eqn:Ex; [|discriminate]. cbn [bind] in E.
  injection E as -> _. unfold rd in Ex. destruct (0 + n <=? length stream)%nat eqn:El; [|discriminate].
  injection Ex as <-. apply Nat.leb_le in El. split; [rewrite firstn_length; cbn [skipn]; lia|apply all_firstn, B].
Qed.
Theorem two_keypair stream pk0 sk0 : all_bytes stream ->
  (SPX_PK_BYTES P <= length pk0)%nat -> (SPX_SK_BYTES P <= length sk0)%nat ->
  i_keypair i1 robust P u1 stream pk0 sk0 = i_keypair i2 robust P u2 stream pk0 sk0.
Proof.
  intros B L1 L2. rewrite !i_keypair_plain by auto. unfold crypto_sign_keypair.
  destruct (randombytes stream (CRYPTO_SEEDBYTES P)) as [[seed st]|] eqn:E; [|reflexivity]. cbn [bind].
  destruct (random_parts _ _ _ _ E B) as [Ls Bs].
  rewrite <- (i_seed_keypair_plain i1), <- (i_seed_keypair_plain i2), two_seed_keypair by auto. reflexivity.
Qed.
Theorem two_signature stream sig0 m sk :
  (SPX_SK_BYTES P <= length sk)%nat -> (p_n P <= length stream)%nat -> (SPX_BYTES P <= length sig0)%nat ->
  all_bytes sk -> all_bytes stream -> all_bytes m -> Z.of_nat (length m) < 2 ^ 63 ->
  i_signature i1 robust P u1 stream sig0 m sk = i_signature i2 robust P u2 stream sig0 m sk.
Proof.
  intros. rewrite (proj1 (i_signature_spec i1 robust P u1 H1 stream sig0 m sk ltac:(auto) ltac:(auto) ltac:(auto) ltac:(auto) ltac:(auto) ltac:(auto) ltac:(auto))).
  rewrite (proj1 (i_signature_spec i2 robust P u2 H2 stream sig0 m sk ltac:(auto) ltac:(auto) ltac:(auto) ltac:(auto) ltac:(auto) ltac:(auto) ltac:(auto))).
  now rewrite Hf.
Qed.
Theorem two_verify sig siglen m pk :
  (siglen = Z.of_nat (SPX_BYTES P) -> (SPX_BYTES P <= length sig)%nat) -> (SPX_PK_BYTES P <= length pk)%nat ->
  all_bytes sig -> all_bytes pk -> all_bytes m -> Z.of_nat (length m) < 2 ^ 63 ->
  i_verify i1 robust P u1 sig siglen m pk = i_verify i2 robust P u2 sig siglen m pk.
Proof.
  intros L1 L2 B1 B2 B3 Lm.
  destruct (i_verification i1 robust P u1 H1 sig siglen m pk L1 L2 B1 B2 B3 Lm) as (r1 & E1 & R1 & I1).
  destruct (i_verification i2 robust P u2 H2 sig siglen m pk L1 L2 B1 B2 B3 Lm) as (r2 & E2 & R2 & I2).
  rewrite E1, E2. f_equal. rewrite Hf in I1. clear - R1 R2 I1 I2.
  destruct R1 as [-> | ->], R2 as [-> | ->]; auto.
  - assert (-1 = 0) by (apply I2, I1; reflexivity). discriminate.
  - assert (-1 = 0) by (apply I1, I2; reflexivity). discriminate.
Qed.
Theorem two_sign stream sm0 m sk :
  (SPX_SK_BYTES P <= length sk)%nat -> (p_n P <= length stream)%nat ->
  all_bytes sk -> all_bytes stream -> all_bytes m -> Z.of_nat (length m) < 2 ^ 63 ->
  i_sign i1 robust P u1 stream sm0 m sk = i_sign i2 robust P u2 stream sm0 m sk.
Proof.
  intros L1 L2 B1 B2 B3 Lm. rewrite !i_sign_plain by auto. unfold crypto_sign.
  destruct (rd sm0 0 (SPX_BYTES P)) as [sig|] eqn:E; [|reflexivity]. cbn [bind].
  assert (Ls : length sig = SPX_BYTES P) by (eapply rd_length; exact E).
  rewrite <- (i_signature_plain i1), <- (i_signature_plain i2), two_signature by (auto; lia). reflexivity.
Qed.
Theorem two_open m0 sm smlen pk :
  (SPX_PK_BYTES P <= length pk)%nat -> all_bytes sm -> all_bytes pk -> smlen < 2 ^ 63 ->
  i_open i1 robust P u1 m0 sm smlen pk = i_open i2 robust P u2 m0 sm smlen pk.
Proof.
  intros L1 B1 B2 Lm. rewrite !i_open_plain by auto. unfold crypto_sign_open.
  destruct (smlen <? Z.of_nat (SPX_BYTES P)) eqn:Es; [reflexivity|]. apply Z.ltb_ge in Es. cbv zeta.
  destruct (rd sm 0 (SPX_BYTES P)) as [sig|] eqn:E; [|reflexivity]. cbn [bind].
  destruct (rd sm (SPX_BYTES P) (Z.to_nat (smlen - Z.of_nat (SPX_BYTES P)))) as [msg|] eqn:Em; [|reflexivity]. cbn [bind].
  assert (Ls : length sig = SPX_BYTES P) by (eapply rd_length; exact E).
  assert (Lg : length msg = Z.to_nat (smlen - Z.of_nat (SPX_BYTES P))) by (eapply rd_length; exact Em).
  rewrite <- (i_verify_plain i1), <- (i_verify_plain i2), two_verify; try reflexivity; auto; try lia.
  - eapply rd_bytes; [exact B1|exact E].
  - eapply rd_bytes; [exact B1|exact Em].
Qed.
End Two.

(** Keys, signature and verification by three implementations. *)
Theorem three_honest i1 i2 i3 robust P u1 u2 u3 : i_ok i1 P -> i_ok i2 P -> i_ok i3 P ->
  i_family i1 = i_family i2 -> i_family i2 = i_family i3 ->
  forall pk0 sk0 sig0 seed stream m,
  length seed = CRYPTO_SEEDBYTES P -> (p_n P <= length stream)%nat ->
  (SPX_PK_BYTES P <= length pk0)%nat -> (SPX_SK_BYTES P <= length sk0)%nat -> (SPX_BYTES P <= length sig0)%nat ->
  all_bytes seed -> all_bytes stream -> all_bytes sk0 -> all_bytes m -> Z.of_nat (length m) < 2 ^ 63 ->
  exists pk sk sig stream',
    i_seed_keypair i1 robust P u1 pk0 sk0 seed = Some (0, pk, sk)
    /\ i_signature i2 robust P u2 stream sig0 m sk = Some (0, sig, crypto_sign_bytes P, stream')
    /\ i_verify i3 robust P u3 sig (crypto_sign_bytes P) m pk = Some 0.
Proof.
  intros H1 H2 H3 F1 F2 pk0 sk0 sig0 seed stream m L1 L2 L3 L4 L5 B1 B2 B3 B4 Lm.
  pose proof (i_computes i1 robust P u1 H1) as C1. pose proof (i_computes i2 robust P u2 H2) as C2.
  pose proof (i_computes i3 robust P u3 H3) as C3. rewrite F1, F2 in C1. rewrite F2 in C2.
  destruct (any_honest (i_family i3) robust P (proj1 H1) (i_ok_32 i1 P H1) _ _ _ C1 C2 C3 (u_core u1) (u_core u2) (u_core u3)
    pk0 sk0 sig0 seed stream m L1 L2 L3 L4 L5 B1 B2 B3 B4 Lm) as (pk & sk & sig & st & E1 & E2 & E3).
  pose proof (any_keygen (i_family i3) robust P _ (proj1 H1) (i_ok_32 i1 P H1) C1 seed L1 B1) as [Lr K].
  specialize (K (u_core u1) pk0 sk0 L3 L4). rewrite E1 in K.
  assert (Hsk : length sk = length sk0 /\ length pk = length pk0).
  { match type of Lr with length ?x = _ => set (root := x) in * end. clearbody root.
    assert (Es : sk = seed ++ root ++ skipn (SPX_SK_BYTES P) sk0) by congruence.
    assert (Ep : pk = skipn (2 * p_n P) seed ++ root ++ skipn (SPX_PK_BYTES P) pk0) by congruence.
    rewrite Es, Ep, !app_length, !skipn_length, Lr, L1.
    unfold CRYPTO_SEEDBYTES, SPX_SK_BYTES, SPX_PK_BYTES in *. lia. }
  exists pk, sk, sig, st. rewrite i_seed_keypair_plain by auto. split; [exact E1|].
  rewrite i_signature_plain by (auto; lia). split; [exact E2|].
  assert (Ls : (SPX_BYTES P <= length sig)%nat).
  { destruct (signature_spec P (i_suite i2 robust P u2) (proj1 H1) (cp_ok _ _ _ _ C2) (u_core u2) stream sig0 m sk) as [E L]; auto; [lia|].
    rewrite E in E2. match type of L with length ?x = _ => set (s := x) in * end.
    assert (Eg : sig = s ++ skipn (SPX_BYTES P) sig0) by congruence. rewrite Eg, app_length, L. clear. lia. }
  rewrite i_verify_plain by (auto; lia). exact E3.
Qed.
