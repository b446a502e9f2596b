(** The self-test run on any implementation. *)
From Verif Require Import Base BaseFacts Params Suite Sign Spec Refine BuildSpec BuildProofs ApiProofs OptBuild OptProofs
  SignBytes KatProofs Selftest SelftestSpec SelftestProofs.

Lemma i_open_disjoint im robust P us k m sm smlen pk :
  i_open im robust P (us k) m sm smlen pk = open_disjoint P (fun k => i_verify im robust P (us k)) k m sm smlen pk.
Proof. destruct im; reflexivity. Qed.

Section Impl.
Variable im : impl.
Variable robust : bool.
Variable P : params.
Hypothesis Hi : i_ok im P.
Notation N := (p_n P).
Notation D := (dims_of P).
Notation SB := (SPX_BYTES P).
Notation f := (i_family im).

Lemma run_keys u ks rest pk0 sk0 : length ks = (3 * N)%nat -> all_bytes ks ->
  length pk0 = SPX_PK_BYTES P -> length sk0 = SPX_SK_BYTES P ->
  let ps := skipn (2 * N) ks in
  let root := ht_root D (spec_T f N robust ps) (spec_PRF f N ps (firstn N ks)) in
  i_keypair im robust P u (ks ++ rest) pk0 sk0 = Some (0, ps ++ root, ks ++ root, rest).
Proof.
  intros Lks Bks Lpk Lsk ps root. assert (Lseed : length ks = CRYPTO_SEEDBYTES P) by (rewrite Lks; reflexivity).
  rewrite i_keypair_plain by (auto; lia). unfold crypto_sign_keypair, randombytes.
  rewrite rd_ok by (rewrite app_length; lia). cbn [skipn bind].
  rewrite firstn_app, <- Lseed, Nat.sub_diag, firstn_O, app_nil_r, firstn_all. cbn [bind].
  rewrite <- i_seed_keypair_plain by (auto; lia).
  destruct (i_keygen im robust P u Hi ks Lseed Bks) as [_ K]. rewrite K by lia. cbn [bind]. fold ps. fold root.
  rewrite (skipn_all2 pk0), (skipn_all2 sk0), !app_nil_r by lia.
  rewrite skipn_app, Nat.sub_diag, skipn_all. reflexivity.
Qed.
Lemma run_sign u optrand rest sm0 msg sk : length sk = SPX_SK_BYTES P -> all_bytes sk -> length optrand = N -> all_bytes (optrand ++ rest) ->
  all_bytes msg -> (length msg <= 3300)%nat -> length sm0 = (SB + length msg)%nat ->
  let s := spx_sign D (spec_T f N robust) (spec_PRF f N) (spec_Rnd f N) (spec_Hm f N D)
    (firstn N sk) (firstn N (skipn N sk)) (firstn N (skipn (2 * N) sk)) (firstn N (skipn (3 * N) sk)) optrand msg in
  i_sign im robust P u (optrand ++ rest) sm0 msg sk = Some (0, s ++ msg, Z.of_nat (SB + length msg), rest) /\ length s = SB.
Proof.
  intros Lsk Bsk Lo Bo Bm Lm Lsm s. pose proof (proj1 Hi) as Hwf. pose proof (spx_bytes_small P Hwf) as HS.
  assert (Fo : firstn N (optrand ++ rest) = optrand) by (rewrite firstn_app, <- Lo, Nat.sub_diag, firstn_O, app_nil_r; apply firstn_all).
  assert (So : skipn N (optrand ++ rest) = rest) by (rewrite skipn_app, <- Lo, Nat.sub_diag, skipn_all; reflexivity).
  rewrite i_sign_plain by (auto; rewrite ?app_length; lia).
  destruct (crypto_sign_spec P (i_suite im robust P u) Hwf (cp_ok _ _ _ _ (i_computes im robust P u Hi))
      (u_core u) (optrand ++ rest) sm0 msg sk) as (s' & C & Ls' & S'); try (rewrite ?app_length; lia).
  rewrite <- i_signature_plain in S' by (auto; rewrite ?app_length, ?firstn_length; lia).
  destruct (i_signature_spec im robust P u Hi (optrand ++ rest) (firstn SB sm0) msg sk) as [S Ls]; auto; try (rewrite ?app_length, ?firstn_length; lia).
  rewrite Fo in S, Ls. fold s in S, Ls. rewrite (skipn_all2 (firstn SB sm0)), app_nil_r in S by (rewrite firstn_length; lia).
  rewrite S' in S. assert (s' = s) as -> by congruence.
  split; [|exact Ls]. rewrite C, So, (skipn_all2 sm0), app_nil_r by lia. reflexivity.
Qed.

Notation root_of := (root_of f robust P).
Notation signature_of := (signature_of f robust P).
Notation accepted := (accepted f robust P).

Section Run.
Variables ks optrand rest : bytes.
Hypothesis Lks : length ks = (3 * N)%nat.
Hypothesis Bks : all_bytes ks.
Hypothesis Lo : length optrand = N.
Hypothesis Bo : all_bytes (optrand ++ rest).
Let ps := skipn (2 * N) ks.
Let pk := ps ++ root_of ks.
Let sk := ks ++ root_of ks.

Lemma key_facts : length ps = N /\ all_bytes ps /\ length (root_of ks) = N /\ all_bytes (root_of ks)
  /\ length pk = SPX_PK_BYTES P /\ all_bytes pk /\ length sk = SPX_SK_BYTES P /\ all_bytes sk.
Proof. clear Lo Bo.
  pose proof (proj1 Hi) as Hwf. pose proof (i_ok_32 im P Hi) as HN. set (u := mkUninit (fun _ _ => 0) (fun _ _ => 0) (fun _ _ => 0)).
  assert (Wss : wordN P (firstn N ks)) by (apply head_word; [exact Bks|lia]).
  assert (Wps : wordN P ps) by (split; [unfold ps; rewrite skipn_length; lia|apply Forall_forall; intros x Hx; eapply Forall_forall; [exact Bks|]; rewrite <- (firstn_skipn (2 * N)); apply in_or_app; now right]).
  assert (Wroot : wordN P (root_of ks)) by (apply (any_root_word f robust P _ Hwf HN (i_computes im robust P u Hi)); auto).
  destruct Wroot as [Lr Br]. destruct Wps as [Lp Bp].
  assert (length pk = SPX_PK_BYTES P) by (unfold pk, SPX_PK_BYTES; rewrite app_length; lia).
  assert (length sk = SPX_SK_BYTES P) by (unfold sk, SPX_SK_BYTES, SPX_PK_BYTES; rewrite app_length; lia).
  repeat split; auto; apply Forall_app; auto.
Qed.
Lemma sk_parts : firstn N sk = firstn N ks /\ firstn N (skipn N sk) = firstn N (skipn N ks)
  /\ firstn N (skipn (2 * N) sk) = ps /\ firstn N (skipn (3 * N) sk) = root_of ks.
Proof. clear Lo Bo.
  destruct key_facts as (Lp & _ & Lr & _). unfold sk. split; [|split; [|split]].
  - rewrite firstn_app. replace (N - length ks)%nat with 0%nat by lia. now rewrite firstn_O, app_nil_r.
  - rewrite skipn_app, firstn_app, skipn_length. replace (N - (length ks - N))%nat with 0%nat by lia. now rewrite firstn_O, app_nil_r.
  - rewrite skipn_app, firstn_app, skipn_length. replace (N - (length ks - 2 * N))%nat with 0%nat by lia.
    rewrite firstn_O, app_nil_r. fold ps. rewrite <- Lp. apply firstn_all.
  - rewrite skipn_app, skipn_all2 by lia. replace (3 * N - length ks)%nat with 0%nat by lia. cbn [skipn app]. rewrite <- Lr. apply firstn_all.
Qed.
Lemma pk_parts : firstn N pk = ps /\ firstn N (skipn N pk) = root_of ks.
Proof. clear Lo Bo.
  destruct key_facts as (Lp & _ & Lr & _). unfold pk. split.
  - rewrite firstn_app, Lp, Nat.sub_diag, firstn_O, app_nil_r, <- Lp. apply firstn_all.
  - rewrite skipn_app, <- Lp, skipn_all, Nat.sub_diag. cbn [skipn app]. rewrite Lp, <- Lr. apply firstn_all.
Qed.
Lemma keys_run u pk0 sk0 : length pk0 = SPX_PK_BYTES P -> length sk0 = SPX_SK_BYTES P ->
  i_keypair im robust P u (ks ++ optrand ++ rest) pk0 sk0 = Some (0, pk, sk, optrand ++ rest).
Proof. intros. now apply run_keys. Qed.
Lemma sign_run u sm0 msg : all_bytes msg -> (length msg <= 3300)%nat -> length sm0 = (SB + length msg)%nat ->
  i_sign im robust P u (optrand ++ rest) sm0 msg sk
  = Some (0, signature_of ks optrand msg ++ msg, Z.of_nat (SB + length msg), rest)
  /\ length (signature_of ks optrand msg) = SB /\ all_bytes (signature_of ks optrand msg).
Proof.
  intros Bm Lm Ls0. destruct key_facts as (Lp & Bp & Lr & Br & Lpk & Bpk & Lsk & Bsk). destruct sk_parts as (E1 & E2 & E3 & E4).
  destruct (run_sign u optrand rest sm0 msg sk Lsk Bsk Lo Bo Bm Lm Ls0) as [R L]. cbv zeta in R, L.
  rewrite E1, E2, E3, E4 in R, L.
  assert (Es : signature_of ks optrand msg = spx_sign D (spec_T f N robust) (spec_PRF f N) (spec_Rnd f N) (spec_Hm f N D)
    (firstn N ks) (firstn N (skipn N ks)) ps (root_of ks) optrand msg) by reflexivity.
  rewrite Es. split; [exact R|]. split; [exact L|].
  pose proof (proj1 Hi) as Hwf. pose proof (i_ok_32 im P Hi) as HN.
  apply (sign_all_bytes f robust P _ Hwf HN (i_computes im robust P u Hi)).
  - apply head_word; [exact Bks|lia].
  - apply part_word; [exact Bks|lia].
  - split; assumption.
  - split; assumption.
  - split; [exact Lo|]. apply Forall_app in Bo. apply Bo.
  - exact Bm.
  - lia.
Qed.
Lemma verify_run u sig msg : length sig = SB -> all_bytes sig -> all_bytes msg -> Z.of_nat (length msg) < 2 ^ 63 ->
  exists r, i_verify im robust P u sig (Z.of_nat SB) msg pk = Some r /\ (r = 0 \/ r = -1) /\ (r = 0 <-> accepted ks sig msg).
Proof. clear Lo Bo.
  intros Ls Bs Bm Lm. destruct key_facts as (Lp & Bp & Lr & Br & Lpk & Bpk & _). destruct pk_parts as [E1 E2].
  destruct (i_verification im robust P u Hi sig (Z.of_nat SB) msg pk) as (r & V & R & I); auto; try lia.
  exists r. split; [exact V|]. split; [exact R|]. rewrite I, E1, E2. rewrite <- Ls, firstn_all. unfold accepted, SelftestSpec.accepted. tauto.
Qed.
Lemma honest_accepted msg : all_bytes msg -> (length msg <= 3300)%nat -> accepted ks (signature_of ks optrand msg) msg.
Proof.
  intros Bm Lm. destruct key_facts as (Lp & Bp & Lr & Br & Lpk & Bpk & Lsk & Bsk).
  set (u := mkUninit (fun _ _ => 0) (fun _ _ => 0) (fun _ _ => 0)).
  pose proof (sign_run u (repeat 0 (SB + length msg)) msg Bm Lm (repeat_length _ _)) as (R & L & B).
  assert (Lseed : length ks = CRYPTO_SEEDBYTES P) by (rewrite Lks; reflexivity).
  assert (Bo' : all_bytes optrand) by (apply Forall_app in Bo; apply Bo).
  assert (O : i_open im robust P u (repeat 0 (SB + length msg)) (KatSpec.entry_signed f robust P sk optrand msg)
      (Z.of_nat (length (KatSpec.entry_signed f robust P sk optrand msg))) pk
      = Some (0, msg ++ skipn (length msg) (repeat 0 (SB + length msg)), Z.of_nat (length msg))).
  { refine (proj1 (proj2 (proj2 (impl_run im robust P Hi u u u ks optrand msg (repeat 0 (SPX_PK_BYTES P)) (repeat 0 (SPX_SK_BYTES P))
    (repeat 0 (SB + length msg)) (repeat 0 (SB + length msg)) Lks Bks Lo Bo' Bm Lm _ _ _ _)))); apply repeat_length. }
  assert (Esm : KatSpec.entry_signed f robust P sk optrand msg = signature_of ks optrand msg ++ msg).
  { unfold KatSpec.entry_signed. destruct sk_parts as (E1 & E2 & E3 & E4). rewrite E1, E2, E3, E4. reflexivity. }
  rewrite Esm in O. clear Esm R. rewrite (i_open_disjoint im robust P (fun _ => u) 0) in O. unfold open_disjoint in O.
  destruct (verify_run u (signature_of ks optrand msg) msg L B Bm) as (r & V & Rr & I); [lia|].
  apply I. set (s := signature_of ks optrand msg) in *. clearbody s pk.
  rewrite app_length, L in O. replace (Z.of_nat (SB + length msg) <? Z.of_nat SB) with false in O by lia.
  rewrite !rd_ok in O by (rewrite app_length; lia). cbn [bind skipn] in O.
  rewrite firstn_app, L, Nat.sub_diag, firstn_O, app_nil_r, <- L, firstn_all in O.
  rewrite skipn_app, Nat.sub_diag, skipn_all in O. cbn [app skipn] in O.
  rewrite firstn_all2 in O by lia. rewrite L in O.
  rewrite V in O. cbn [bind] in O. destruct Rr as [-> | ->]; [reflexivity|].
  cbn [Z.eqb negb] in O. destruct (wr _ _ _) in O; discriminate.
Qed.
End Run.

Notation nb := (1 + spx_nblocks D)%nat.
Variable us : nat -> uninit.
Variable junk : nat -> nat -> Z.
Variable invalid : bool.
Hypothesis HSB : (SPX_MLEN <= SB)%nat.
Hypothesis HSB31 : Z.of_nat SB < 2 ^ 31.

Lemma forallb_false_iff {A} (V : A -> bool) l : forallb (fun x => negb (V x)) l = true <-> forall x, In x l -> V x = false.
Proof. clear. rewrite forallb_forall. split; intros H x Hx; specialize (H x Hx); now destruct (V x). Qed.

Lemma verdict_iff (V : bytes -> bytes -> bool) (acc : bytes -> bytes -> Prop) s m y z :
  V s m = true ->
  (forall sig msg, length sig = SB -> length msg = SPX_MLEN -> all_bytes sig -> all_bytes msg -> (V sig msg = true <-> acc sig msg)) ->
  length z = SB -> all_bytes z -> length m = SPX_MLEN -> all_bytes m -> length y = SPX_MLEN -> all_bytes y -> (0 < N)%nat ->
  let b := V s m && negb (V z y) && (negb invalid || forallb (fun i => negb (V (flip_at z (i * N)) m)) (seq 0 nb)) in
  let r := if b then 0 else -1 in
  (r = 0 \/ r = -1)
  /\ (r = 0 <-> ~ acc z y /\ (invalid = true -> forall i, (i < nb)%nat -> ~ acc (flip_at z (i * N)) m)).
Proof.
  intros Vs A Lz Bz Lm Bm Ly By HN b r. split; [unfold r; destruct b; auto|].
  assert (Hb : b = true <-> ~ acc z y /\ (invalid = true -> forall i, (i < nb)%nat -> ~ acc (flip_at z (i * N)) m)).
  2:{ unfold r. destruct b; split; intros H; [apply Hb; reflexivity|reflexivity|discriminate H|apply Hb in H; discriminate H]. }
  unfold b. rewrite Vs. cbn [andb]. rewrite andb_true_iff.
  assert (H1 : negb (V z y) = true <-> ~ acc z y).
  { rewrite <- (A z y) by auto. destruct (V z y); cbn; intuition congruence. }
  rewrite H1. assert (H2 : negb invalid || forallb (fun i => negb (V (flip_at z (i * N)) m)) (seq 0 nb) = true
    <-> (invalid = true -> forall i, (i < nb)%nat -> ~ acc (flip_at z (i * N)) m)); [|tauto].
  assert (Hlt : forall i, (i < nb)%nat -> (i * N < length z)%nat).
  { intros i Hi'. rewrite Lz. rewrite <- (sig_bytes_eq P (proj1 Hi)). unfold spx_sig_bytes. cbn [dims_of s_n]. nia. }
  assert (H3 : forallb (fun i => negb (V (flip_at z (i * N)) m)) (seq 0 nb) = true <-> forall i, (i < nb)%nat -> ~ acc (flip_at z (i * N)) m).
  { rewrite (forallb_false_iff (fun i => V (flip_at z (i * N)) m)). split.
    - intros H i Hi'. rewrite <- (A (flip_at z (i * N)) m); auto.
      + rewrite H; [discriminate|]. apply in_seq. lia.
      + rewrite flip_at_length; auto.
      + apply flip_at_bytes; auto.
    - intros H i Hi'. apply in_seq in Hi'. destruct (V (flip_at z (i * N)) m) eqn:E; [|reflexivity]. exfalso. apply (H i); [lia|].
      apply (A (flip_at z (i * N)) m); auto.
      + rewrite flip_at_length; auto. apply Hlt. lia.
      + apply flip_at_bytes; auto. apply Hlt. lia. }
  rewrite orb_true_iff, H3. destruct invalid; cbn; intuition congruence.
Qed.

Lemma pos_N : (0 < N)%nat.
Proof. pose proof (proj1 Hi) as H. unfold wf_params in H. lia. Qed.
Lemma sb_blocks : SB = (nb * N)%nat.
Proof. rewrite <- (sig_bytes_eq P (proj1 Hi)). unfold spx_sig_bytes. cbn [dims_of s_n]. lia. Qed.
Lemma stream_parts (m l : bytes) : length m = SPX_MLEN -> firstn SPX_MLEN (m ++ l) = m /\ skipn SPX_MLEN (m ++ l) = l.
Proof. clear. intros <-. split; [now rewrite firstn_app, Nat.sub_diag, firstn_O, app_nil_r, firstn_all|now rewrite skipn_app, Nat.sub_diag, skipn_all]. Qed.
Lemma after_bytes (m s : bytes) : length m = SPX_MLEN -> length s = SB -> all_bytes m -> all_bytes s ->
  length (m ++ skipn SPX_MLEN s) = SB /\ all_bytes (m ++ skipn SPX_MLEN s).
Proof.
  clear - HSB. intros Lm Ls Bm Bs. split; [rewrite app_length, skipn_length; lia|]. apply Forall_app. split; [exact Bm|].
  rewrite <- (firstn_skipn SPX_MLEN) in Bs. apply Forall_app in Bs. apply Bs.
Qed.

Theorem impl_verdict m ks optrand rest : length m = 32%nat -> length ks = (3 * N)%nat -> length optrand = N ->
  all_bytes (m ++ ks ++ optrand ++ rest) ->
  let s := signature_of ks optrand m in
  let s' := m ++ skipn 32 s in
  exists r, impl_self_test im robust P us junk invalid (m ++ ks ++ optrand ++ rest) = Some r /\ (r = 0 \/ r = -1)
    /\ (r = 0 <-> ~ accepted ks s' (flip_at m 31)
         /\ (invalid = true -> forall i, (i < nb)%nat -> ~ accepted ks (flip_at s' (i * N)) m)).
Proof.
  intros Lm Lks Lo B s s'. apply Forall_app in B. destruct B as [Bm B]. pose proof B as B'. apply Forall_app in B. destruct B as [Bks Bo].
  change 32%nat with SPX_MLEN in *.
  destruct (sign_run ks optrand rest Lks Bks Lo Bo (us 1%nat) (junk_bytes (junk 503%nat) (SB + SPX_MLEN)) m Bm) as (S1 & Ls & Bs).
  { rewrite Lm. change SPX_MLEN with 32%nat. lia. } { unfold junk_bytes. rewrite map_length, seq_length, Lm. reflexivity. }
  rewrite Lm in S1. fold s in S1, Ls, Bs.
  assert (Hacc : accepted ks s m).
  { apply (honest_accepted ks optrand rest Lks Bks Lo Bo); auto. rewrite Lm. change SPX_MLEN with 32%nat. lia. }
  destruct (after_bytes m s Lm Ls Bm Bs) as [Ls' Bs'].
  set (pk := skipn (2 * N) ks ++ root_of ks) in *.
  set (V := fun sig msg => match i_verify im robust P (us 2%nat) sig (Z.of_nat SB) msg pk with Some 0 => true | _ => false end).
  assert (H63 : Z.of_nat SPX_MLEN < 2 ^ 63) by reflexivity.
  assert (A : forall sig msg, length sig = SB -> length msg = SPX_MLEN -> all_bytes sig -> all_bytes msg -> (V sig msg = true <-> accepted ks sig msg)).
  { intros sig msg L1 L2 B1 B2. destruct (verify_run ks Lks Bks (us 2%nat) sig msg L1 B1 B2) as (r & E & R & I); [rewrite L2; exact H63|].
    fold pk in E. unfold V. rewrite E, <- I. destruct R as [-> | ->]; intuition congruence. }
  assert (HV : forall k sig msg, length sig = SB -> length msg = SPX_MLEN -> all_bytes sig -> all_bytes msg ->
     i_verify im robust P (us (2 + k)%nat) sig (Z.of_nat SB) msg pk = Some (if V sig msg then 0 else -1)).
  { intros k sig msg L1 L2 B1 B2. specialize (A sig msg L1 L2 B1 B2).
    destruct (verify_run ks Lks Bks (us (2 + k)%nat) sig msg L1 B1 B2) as (r & E & R & I); [rewrite L2; exact H63|].
    fold pk in E. rewrite E. f_equal. rewrite <- A in I. clear - R I.
    destruct R as [-> | ->]; destruct (V sig msg); auto; [discriminate (proj1 I eq_refl)|discriminate (proj2 I eq_refl)]. }
  assert (Hs : V s m = true) by (apply A; auto).
  destruct (stream_parts m (ks ++ optrand ++ rest) Lm) as [F1 F2].
  pose proof (verdict P nb sb_blocks pos_N HSB HSB31 (i_keypair im robust P (us 0%nat)) (i_sign im robust P (us 1%nat))
    (fun k => i_verify im robust P (us (2 + k)%nat)) junk pk (ks ++ root_of ks) V HV invalid (m ++ ks ++ optrand ++ rest) 0 s (optrand ++ rest) rest) as W.
  cbv zeta in W. rewrite F1, F2 in W.
  unfold impl_self_test. rewrite W; clear W.
  - eexists. split; [reflexivity|].
    apply (verdict_iff V (accepted ks)); auto using pos_N.
    + rewrite flip_at_length; [exact Lm|]. rewrite Lm. change SPX_MLEN with 32%nat. lia.
    + apply flip_at_bytes; auto. rewrite Lm. change SPX_MLEN with 32%nat. lia.
  - rewrite app_length. lia.
  - apply Forall_app. auto.
  - apply keys_run; auto; unfold junk_bytes; rewrite map_length; apply seq_length.
  - exact S1.
  - exact Ls.
  - exact Bs.
Qed.

(** ** The variant that ignores a bit of the message *)
Lemma clear_facts m : length m = SPX_MLEN -> all_bytes m ->
  length (clear_last m) = SPX_MLEN /\ all_bytes (clear_last m) /\ clear_last (flip_at m 31) = clear_last m.
Proof.
  clear. intros L B. assert (H : (31 < length m)%nat) by (rewrite L; change SPX_MLEN with 32%nat; lia).
  destruct (split_at m 31 H) as (a & x & b & -> & La). rewrite flip_split by auto. unfold clear_last.
  rewrite app_length in L. cbn [length] in L. change SPX_MLEN with 32%nat in *. assert (b = []) as -> by (apply length_zero_iff_nil; lia).
  apply Forall_app in B. destruct B as [B1 B2]. inversion B2 as [|? ? Bx]; subst.
  rewrite !firstn_app, La, Nat.sub_diag, !firstn_O, app_nil_r, <- La, firstn_all, !app_nth2, !Nat.sub_diag by lia. cbn [nth].
  split; [rewrite app_length; cbn; lia|]. split.
  - apply Forall_app. split; [exact B1|]. constructor; [|constructor]. unfold is_byte in *. pose proof (Z.div_mod x 2). pose proof (Z.mod_pos_bound x 2). lia.
  - assert (Hd : Z.lxor x 1 / 2 = x / 2).
    { apply Z.bits_inj'. intros k Hk. rewrite !Z.div2_bits, Z.lxor_spec by auto.
      replace (Z.testbit 1 (Z.succ k)) with false; [apply xorb_false_r|]. symmetry. apply Z.bits_above_log2; cbn; lia. }
    rewrite Hd. reflexivity.
Qed.

Theorem blind_verdict m ks optrand rest : length m = 32%nat -> length ks = (3 * N)%nat -> length optrand = N ->
  all_bytes (m ++ ks ++ optrand ++ rest) ->
  let s := signature_of ks optrand (clear_last m) in
  let s' := m ++ skipn 32 s in
  (forall u, blind_verify im robust P u s (Z.of_nat SB) (flip_at m 31) (skipn (2 * N) ks ++ root_of ks) = Some 0)
  /\ exists r, blind_self_test im robust P us junk invalid (m ++ ks ++ optrand ++ rest) = Some r /\ (r = 0 \/ r = -1)
    /\ (r = 0 <-> ~ accepted ks s' (clear_last m)
         /\ (invalid = true -> forall i, (i < nb)%nat -> ~ accepted ks (flip_at s' (i * N)) (clear_last m))).
Proof.
  intros Lm Lks Lo B s s'. apply Forall_app in B. destruct B as [Bm B]. pose proof B as B'. apply Forall_app in B. destruct B as [Bks Bo].
  change 32%nat with SPX_MLEN in *.
  assert (H63 : Z.of_nat SPX_MLEN < 2 ^ 63) by reflexivity.
  assert (H31 : (31 < length m)%nat) by (rewrite Lm; change SPX_MLEN with 32%nat; lia).
  destruct (clear_facts m Lm Bm) as (Lc & Bc & Ec).
  destruct (sign_run ks optrand rest Lks Bks Lo Bo (us 1%nat) (junk_bytes (junk 503%nat) (SB + SPX_MLEN)) (clear_last m) Bc) as (S1 & Ls & Bs).
  { rewrite Lc. change SPX_MLEN with 32%nat. lia. } { unfold junk_bytes. rewrite map_length, seq_length, Lc. reflexivity. }
  rewrite Lc in S1. fold s in S1, Ls, Bs.
  assert (Hacc : accepted ks s (clear_last m)).
  { apply (honest_accepted ks optrand rest Lks Bks Lo Bo); auto. rewrite Lc. change SPX_MLEN with 32%nat. lia. }
  destruct (after_bytes m s Lm Ls Bm Bs) as [Ls' Bs'].
  set (pk := skipn (2 * N) ks ++ root_of ks) in *.
  split.
  { intros u. unfold blind_verify. rewrite Ec.
    destruct (verify_run ks Lks Bks u s (clear_last m) Ls Bs Bc) as (r & E & R & I); [rewrite Lc; exact H63|].
    fold pk in E. rewrite E. f_equal. now apply I. }
  set (V := fun sig msg => match i_verify im robust P (us 2%nat) sig (Z.of_nat SB) (clear_last msg) pk with Some 0 => true | _ => false end).
  assert (A : forall sig msg, length sig = SB -> length msg = SPX_MLEN -> all_bytes sig -> all_bytes msg -> (V sig msg = true <-> accepted ks sig (clear_last msg))).
  { intros sig msg L1 L2 B1 B2. destruct (clear_facts msg L2 B2) as (L3 & B3 & _).
    destruct (verify_run ks Lks Bks (us 2%nat) sig (clear_last msg) L1 B1 B3) as (r & E & R & I); [rewrite L3; exact H63|].
    fold pk in E. unfold V. rewrite E, <- I. destruct R as [-> | ->]; intuition congruence. }
  assert (HV : forall k sig msg, length sig = SB -> length msg = SPX_MLEN -> all_bytes sig -> all_bytes msg ->
     blind_verify im robust P (us (2 + k)%nat) sig (Z.of_nat SB) msg pk = Some (if V sig msg then 0 else -1)).
  { intros k sig msg L1 L2 B1 B2. specialize (A sig msg L1 L2 B1 B2). destruct (clear_facts msg L2 B2) as (L3 & B3 & _). unfold blind_verify.
    destruct (verify_run ks Lks Bks (us (2 + k)%nat) sig (clear_last msg) L1 B1 B3) as (r & E & R & I); [rewrite L3; exact H63|].
    fold pk in E. rewrite E. f_equal. rewrite <- A in I. clear - R I.
    destruct R as [-> | ->]; destruct (V sig msg); auto; [discriminate (proj1 I eq_refl)|discriminate (proj2 I eq_refl)]. }
  assert (Hs : V s m = true) by (apply A; auto).
  assert (S2 : blind_sign im robust P (us 1%nat) (optrand ++ rest) (junk_bytes (junk 503%nat) (SB + SPX_MLEN)) m (ks ++ root_of ks)
    = Some (0, s ++ m, Z.of_nat (SB + SPX_MLEN), rest)).
  { unfold blind_sign. rewrite S1. cbn [bind]. rewrite wr_ok by (rewrite app_length; lia). cbn [bind].
    rewrite firstn_app, <- Ls, Nat.sub_diag, firstn_O, app_nil_r, firstn_all.
    rewrite skipn_all2 by (rewrite app_length; lia). rewrite app_nil_r. reflexivity. }
  destruct (stream_parts m (ks ++ optrand ++ rest) Lm) as [F1 F2].
  pose proof (verdict P nb sb_blocks pos_N HSB HSB31 (i_keypair im robust P (us 0%nat)) (blind_sign im robust P (us 1%nat))
    (fun k => blind_verify im robust P (us (2 + k)%nat)) junk pk (ks ++ root_of ks) V HV invalid (m ++ ks ++ optrand ++ rest) 0 s (optrand ++ rest) rest) as W.
  cbv zeta in W. rewrite F1, F2 in W.
  unfold blind_self_test. rewrite W; clear W.
  - eexists. split; [reflexivity|].
    assert (F31 : length (flip_at m 31) = SPX_MLEN) by (rewrite flip_at_length; auto).
    assert (B31 : all_bytes (flip_at m 31)) by (apply flip_at_bytes; auto).
    pose proof (verdict_iff V (fun sig msg => accepted ks sig (clear_last msg)) s m (flip_at m 31) s' Hs A Ls' Bs' Lm Bm F31 B31 pos_N) as Z0.
    cbv beta zeta in Z0. rewrite Ec in Z0. exact Z0.
  - rewrite app_length. lia.
  - apply Forall_app. auto.
  - apply keys_run; auto; unfold junk_bytes; rewrite map_length; apply seq_length.
  - exact S2.
  - exact Ls.
  - exact Bs.
Qed.
End Impl.
