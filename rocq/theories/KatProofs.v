(** The known-answer program writes the files of KatSpec.v. *)
From Coq Require Import String.
From Verif Require Import Base BaseFacts Params Suite Sign Spec Refine BuildSpec BuildProofs ApiProofs OptBuild OptProofs
  Rng RngSpec RngProofs SignBytes Kat Text KatSpec KatIo.

Lemma spx_bytes_small P : wf_params P = true -> Z.of_nat (SPX_BYTES P) < 2 ^ 50.
Proof.
  intros H. unfold wf_params in H. repeat (apply andb_prop in H; destruct H as [H ?]).
  repeat match goal with H : (_ && _)%bool = true |- _ => apply andb_prop in H; destruct H end.
  repeat match goal with H : (_ <=? _)%nat = true |- _ => apply Nat.leb_le in H end. apply Nat.eqb_eq in H9.
  apply Z.leb_le in H0.
  assert (2 <= 2 ^ Z.of_nat (p_fh P)) by (change 2 with (2 ^ 1) at 1; apply Z.pow_le_mono_r; lia).
  change (2 ^ 32) with 4294967296 in H0. change (2 ^ 50) with 1125899906842624.
  assert (Hft : Z.of_nat (p_ft P) <= 2147483648) by nia. clear H0 H13 H2.
  unfold SPX_BYTES, SPX_FORS_BYTES, SPX_WOTS_BYTES. rewrite <- H9. clear H9 H6.
  set (n := p_n P) in *. set (d := p_d P) in *. set (a := p_fh P) in *. set (t := p_ft P) in *.
  set (l := SPX_WOTS_LEN P) in *. set (th := SPX_TREE_HEIGHT P) in *. clearbody n d a t l th.
  rewrite !Nat2Z.inj_add, !Nat2Z.inj_mul, !Nat2Z.inj_add.
  assert (A1 : 0 <= (Z.of_nat a + Z.of_nat 1) * Z.of_nat t <= 31 * 2147483648) by nia.
  assert (A2 : 0 <= (Z.of_nat a + Z.of_nat 1) * Z.of_nat t * Z.of_nat n <= 31 * 2147483648 * 256) by nia.
  assert (A3 : 0 <= Z.of_nat l * Z.of_nat n <= 65536) by nia.
  assert (A4 : 0 <= Z.of_nat d * (Z.of_nat l * Z.of_nat n) <= 256 * 65536) by nia.
  assert (A5 : 0 <= Z.of_nat th * Z.of_nat d <= 30 * 256) by nia.
  assert (A6 : 0 <= Z.of_nat th * Z.of_nat d * Z.of_nat n <= 30 * 256 * 256) by nia.
  lia.
Qed.

(** ** The generator *)
Section Gen.
Variable E : bytes -> bytes -> bytes.
Hypothesis HE : forall k b, length (E k b) = 16%nat.
Hypothesis HB : forall k b, all_bytes (E k b).

Lemma gen_step key V r temp x n : length key = 32%nat -> r + 1 < 2 ^ 31 -> length temp = 48%nat ->
  Z.of_nat n < 2 ^ 31 -> (n <= length x)%nat ->
  exists out k' V', spec_generate E key V n = (out, (k', V')) /\ length out = n /\ all_bytes out /\ length k' = 32%nat
    /\ drbg_randombytes E (mkDrbg key (be_bytes 16 V) r) temp x (Z.of_nat n)
       = Some (0, mkDrbg k' (be_bytes 16 V') (r + 1), out ++ skipn n x).
Proof.
  intros Lk Hr Lt Hn Lx.
  pose proof (generate_ok E HE HB (mkDrbg key (be_bytes 16 V) r) V temp x (Z.of_nat n) Lk eq_refl Hr Lt ltac:(lia) ltac:(lia)) as G.
  rewrite Nat2Z.id in G. cbn [g_key g_v g_reseed] in G.
  destruct (spec_generate E key V n) as [out [k' V']] eqn:S. exists out, k', V'. destruct G as [G L].
  unfold spec_generate in S. injection S as So _ .
  split; [reflexivity|]. split; [subst; apply stream_length|]. split; [subst; now apply stream_bytes|]. auto.
Qed.
Lemma init_step g sm temp entropy : length (g_key g) = 32%nat -> length (g_v g) = 16%nat -> length sm = 48%nat ->
  length temp = 48%nat -> length entropy = 48%nat -> all_bytes entropy ->
  exists k V, spec_instantiate E entropy (repeat 0 48) = (k, V) /\ length k = 32%nat
    /\ randombytes_init E g sm temp entropy None = Some (mkDrbg k (be_bytes 16 V) 1).
Proof.
  intros. pose proof (instantiate_ok E HE HB g sm temp entropy None) as G. cbn [provided_data] in G.
  destruct (spec_instantiate E entropy (repeat 0 48)) as [k V]. exists k, V.
  destruct G as [G L]; auto. discriminate.
Qed.

(** ** The request file *)
Variable junk : nat -> nat -> Z.
Definition entry_ok (e : nat * bytes * bytes) : Prop :=
  let '(i, seed, msg) := e in
  (i < 100)%nat /\ length seed = 48%nat /\ all_bytes seed /\ length msg = (33 * (i + 1))%nat /\ all_bytes msg.

Lemma small_decimal n : (n <= 3300)%nat -> print_dec (Z.of_nat n) = decimal (Z.of_nat n).
Proof. clear. intros H. apply print_decimal. change (10 ^ 20) with 100000000000000000000. lia. Qed.
Lemma req_step i key V r seed msg out : (i < 100)%nat -> length key = 32%nat -> r + 2 < 2 ^ 31 ->
  length seed = 48%nat -> length msg = 3300%nat ->
  exists key' V' sd ms msg', req_entry E junk i (mkDrbg key (be_bytes 16 V) r, seed, msg, out)
     = Some (mkDrbg key' (be_bytes 16 V') (r + 2), sd, msg', out ++ req_text (i, sd, ms))
   /\ length msg' = 3300%nat /\ length key' = 32%nat /\ entry_ok (i, sd, ms)
   /\ forall n, draws E (S n) i key V = (i, sd, ms) :: draws E n (S i) key' V'.
Proof.
  intros Hi Lk Hr Ls Lm. unfold req_entry.
  destruct (gen_step key V r (junk_bytes (junk 401) 48) seed 48) as (sd & k1 & V1 & S1 & L1 & B1 & K1 & G1);
    [exact Lk|lia|apply junk_length|lia|lia|].
  change (Z.of_nat 48) with 48 in G1. rewrite G1. cbn [bind]. rewrite (skipn_all2 seed), app_nil_r by lia.
  assert (F1 : firstn (Z.to_nat 48) sd = sd) by (apply firstn_all2; lia).
  rewrite print_bstr by (rewrite ?F1; auto; lia). rewrite F1. change (48 =? 0) with false. cbv iota. cbn [bind].
  assert (Em : u64 (33 * (Z.of_nat i + 1)) = Z.of_nat (33 * (i + 1))).
  { unfold u64. rewrite Z.mod_small by lia. lia. }
  rewrite Em. set (n := (33 * (i + 1))%nat) in *.
  assert (Hn : (33 <= n <= 3300)%nat) by (unfold n; lia).
  destruct (gen_step k1 V1 (r + 1) (junk_bytes (junk 401) 48) msg n) as (ms & k2 & V2 & S2 & L2 & B2 & K2 & G2);
    [exact K1|lia|apply junk_length|lia|lia|].
  rewrite G2. cbn [bind].
  assert (F2 : firstn (Z.to_nat (Z.of_nat n)) (ms ++ skipn n msg) = ms).
  { rewrite Nat2Z.id, <- L2, firstn_app, firstn_all, Nat.sub_diag, firstn_O, app_nil_r. reflexivity. }
  rewrite print_bstr by (rewrite ?F2, ?Nat2Z.id, ?app_length; auto; lia). rewrite F2.
  replace (Z.of_nat n =? 0) with false by (symmetry; apply Z.eqb_neq; lia). cbn [bind].
  exists k2, V2, sd, ms, (ms ++ skipn n msg). split; [|split; [|split; [exact K2|split]]].
  - rewrite !small_decimal by lia. replace (r + 1 + 1) with (r + 2) by lia.
    unfold req_text, inputs_text. rewrite L2. unfold line. cbn [app]. rewrite <- ?app_assoc. cbn [app]. reflexivity.
  - rewrite app_length, skipn_length. lia.
  - unfold entry_ok. auto.
  - intros n'. cbn [draws]. rewrite S1. fold n. rewrite S2. reflexivity.
Qed.
Lemma req_loop n : forall i key V r seed msg out, (i + n <= 100)%nat -> length key = 32%nat -> r + 2 * Z.of_nat n < 2 ^ 31 ->
  length seed = 48%nat -> length msg = 3300%nat ->
  exists g seed' msg', iterM n i (req_entry E junk) (mkDrbg key (be_bytes 16 V) r, seed, msg, out)
     = Some (g, seed', msg', out ++ flat_map req_text (draws E n i key V))
   /\ length (g_key g) = 32%nat /\ length (g_v g) = 16%nat /\ length seed' = 48%nat /\ Forall entry_ok (draws E n i key V).
Proof.
  induction n as [|n IH]; intros i key V r seed msg out Hi Lk Hr Ls Lm.
  - cbn [iterM draws flat_map]. rewrite app_nil_r. eexists _, seed, msg. split; [reflexivity|]. cbn [g_key g_v].
    repeat split; auto.
  - destruct (req_step i key V r seed msg out) as (k' & V' & sd & ms & msg' & S & L1 & L2 & Ok & Dr); auto; [lia|lia|].
    cbn [iterM]. rewrite S. cbn [bind].
    destruct (IH (Datatypes.S i) k' V' (r + 2) sd msg' (out ++ req_text (i, sd, ms))) as (g & seed' & m' & R & A1 & A2 & A3 & A4);
      [lia|exact L2|lia|apply Ok|exact L1|].
    exists g, seed', m'. rewrite R, Dr. cbn [flat_map]. rewrite <- app_assoc. repeat split; auto.
Qed.
End Gen.

(** ** Keys, signing and opening with any implementation *)
Section Crypto.
Variable im : impl.
Variable robust : bool.
Variable P : params.
Hypothesis Hi : i_ok im P.
Notation N := (p_n P).
Notation D := (dims_of P).
Notation f := (i_family im).

Lemma impl_run u0 u1 u2 ks optrand msg pk0 sk0 sm0 m0 :
  length ks = (3 * N)%nat -> all_bytes ks -> length optrand = N -> all_bytes optrand ->
  all_bytes msg -> (length msg <= 3300)%nat ->
  length pk0 = SPX_PK_BYTES P -> length sk0 = SPX_SK_BYTES P ->
  length sm0 = (SPX_BYTES P + length msg)%nat -> length m0 = (SPX_BYTES P + length msg)%nat ->
  let ps := skipn (2 * N) ks in
  let root := ht_root D (spec_T f N robust ps) (spec_PRF f N ps (firstn N ks)) in
  let pk := ps ++ root in
  let sk := ks ++ root in
  let sm := entry_signed f robust P sk optrand msg in
  i_keypair im robust P u0 ks pk0 sk0 = Some (0, pk, sk, [])
  /\ i_sign im robust P u1 optrand sm0 msg sk = Some (0, sm, Z.of_nat (length sm), [])
  /\ i_open im robust P u2 m0 sm (Z.of_nat (length sm)) pk
     = Some (0, msg ++ skipn (length msg) m0, Z.of_nat (length msg))
  /\ length pk = SPX_PK_BYTES P /\ length sk = SPX_SK_BYTES P /\ all_bytes pk /\ all_bytes sk /\ all_bytes sm
  /\ length sm = (SPX_BYTES P + length msg)%nat.
Proof.
  intros Lks Bks Lo Bo Bm Lm Lpk Lsk Lsm Lm0 ps root pk sk sm.
  pose proof (proj1 Hi) as Hwf. pose proof (i_ok_32 im P Hi) as HN. pose proof (spx_bytes_small P Hwf) as HS.
  assert (Lseed : length ks = CRYPTO_SEEDBYTES P) by (rewrite Lks; reflexivity).
  assert (Wss : wordN P (firstn N ks)) by (apply head_word; [exact Bks|lia]).
  assert (Wps : wordN P ps) by (split; [unfold ps; rewrite skipn_length; lia|apply all_skipn', Bks]).
  assert (Wroot : wordN P root) by (apply (any_root_word f robust P _ Hwf HN (i_computes im robust P u0 Hi)); auto).
  destruct Wroot as [Lr Br].
  assert (Lpk' : length pk = SPX_PK_BYTES P) by (unfold pk, SPX_PK_BYTES; rewrite app_length; destruct Wps; lia).
  assert (Lsk' : length sk = SPX_SK_BYTES P) by (unfold sk, SPX_SK_BYTES, SPX_PK_BYTES; rewrite app_length; lia).
  assert (Bpk : all_bytes pk) by (apply Forall_app; split; [apply Wps|exact Br]).
  assert (Bsk : all_bytes sk) by (apply Forall_app; split; [exact Bks|exact Br]).
  assert (KG : forall u, i_seed_keypair im robust P u pk0 sk0 ks = Some (0, pk, sk)).
  { intros u. destruct (i_keygen im robust P u Hi ks Lseed Bks) as [_ K]. rewrite K by lia.
    fold ps. fold root. rewrite (skipn_all2 pk0), (skipn_all2 sk0), !app_nil_r by lia. reflexivity. }
  set (s := spx_sign D (spec_T f N robust) (spec_PRF f N) (spec_Rnd f N) (spec_Hm f N D)
    (firstn N sk) (firstn N (skipn N sk)) (firstn N (skipn (2 * N) sk)) (firstn N (skipn (3 * N) sk)) optrand msg).
  assert (Esm : sm = s ++ msg) by reflexivity.
  assert (SG : forall u sig0, length sig0 = SPX_BYTES P ->
    i_signature im robust P u optrand sig0 msg sk = Some (0, s, Z.of_nat (SPX_BYTES P), []) /\ length s = SPX_BYTES P).
  { intros u sig0 L0.
    destruct (i_signature_spec im robust P u Hi optrand sig0 msg sk) as [S Ls]; auto; try lia.
    rewrite (firstn_all2 optrand) in S, Ls by lia. fold s in S, Ls. split; [|exact Ls]. rewrite S.
    rewrite (skipn_all2 sig0), (skipn_all2 optrand), app_nil_r by lia. reflexivity. }
  assert (Lsig : length s = SPX_BYTES P) by (apply (SG u0 (firstn (SPX_BYTES P) sm0)); rewrite firstn_length; lia).
  assert (Lsm' : length sm = (SPX_BYTES P + length msg)%nat) by (rewrite Esm, app_length; lia).
  assert (CS : forall u, crypto_sign P (i_suite im robust P u) (u_core u) optrand sm0 msg sk = Some (0, sm, Z.of_nat (length sm), [])).
  { intros u. destruct (crypto_sign_spec P (i_suite im robust P u) Hwf (cp_ok _ _ _ _ (i_computes im robust P u Hi))
      (u_core u) optrand sm0 msg sk) as (s' & C & Ls' & S'); try lia.
    rewrite <- i_signature_plain in S' by (auto; rewrite ?firstn_length; lia).
    destruct (SG u (firstn (SPX_BYTES P) sm0)) as [S'' _]; [rewrite firstn_length; lia|].
    rewrite S'' in S'. assert (s' = s) as -> by congruence. rewrite C, Lsm', (skipn_all2 sm0), (skipn_all2 optrand), app_nil_r by lia. reflexivity. }
  split; [|split; [|split; [|split; [exact Lpk'|split; [exact Lsk'|split; [exact Bpk|split; [exact Bsk|split; [|exact Lsm']]]]]]]].
  - rewrite i_keypair_plain by (auto; lia). unfold crypto_sign_keypair, randombytes.
    rewrite rd_all by (symmetry; exact Lseed). cbn [bind]. rewrite <- i_seed_keypair_plain by (auto; lia).
    rewrite KG. cbn [bind]. rewrite skipn_all2 by lia. reflexivity.
  - rewrite i_sign_plain by (auto; lia). apply CS.
  - rewrite i_open_plain by (auto; lia).
    destruct (sign_open_roundtrip P (i_suite im robust P u2) Hwf (cp_ok _ _ _ _ (i_computes im robust P u2 Hi))
      (u_core u2) (u_core u2) (u_core u2) pk0 sk0 sm0 m0 ks optrand msg) as (pk' & sk' & sm' & st & E1 & E2 & E3); try lia.
    rewrite <- i_seed_keypair_plain, KG in E1 by (auto; lia). injection E1 as <- <-.
    rewrite CS in E2. injection E2 as <- E2' _. rewrite Lsm'. rewrite Nat2Z.inj_add. exact E3.
  - rewrite Esm. apply Forall_app. split; [|exact Bm].
    assert (Lskn : length sk = (4 * N)%nat) by (unfold sk; rewrite app_length; lia).
    apply (sign_all_bytes f robust P _ Hwf HN (i_computes im robust P u0 Hi)); auto; try lia.
    + apply head_word; [exact Bsk|lia].
    + apply part_word; [exact Bsk|lia].
    + apply part_word; [exact Bsk|lia].
    + apply part_word; [exact Bsk|lia].
    + split; assumption.
Qed.
End Crypto.

(** ** The response file *)
(** What follows the message in an entry of the request file. *)
Definition req_tail : bytes := line (str "pk =") [] ++ line (str "sk =") [] ++ line (str "smlen =") [] ++ line (str "sm =") [] ++ nl.
Definition before (pre : bytes) : Prop := pre = [] \/ pre = req_tail.

Lemma fscanf_d_ok n r old : (n <= 3300)%nat -> fscanf_d (decimal (Z.of_nat n) ++ nl ++ r) old = Some (Z.of_nat n, nl ++ r).
Proof.
  intros H. unfold fscanf_d. rewrite scan_decimal; [|change (10 ^ 20) with 100000000000000000000; lia|reflexivity].
  unfold guard. replace ((- 2 ^ 31 <=? Z.of_nat n) && (Z.of_nat n <? 2 ^ 31)) with true by lia. reflexivity.
Qed.
Lemma fscanf_llu_ok n r old : (n <= 3300)%nat -> fscanf_llu (decimal (Z.of_nat n) ++ nl ++ r) old = Some (Z.of_nat n, nl ++ r).
Proof.
  intros H. unfold fscanf_llu. rewrite scan_decimal; [|change (10 ^ 20) with 100000000000000000000; lia|reflexivity].
  unfold guard. replace ((- 2 ^ 64 <? Z.of_nat n) && (Z.of_nat n <? 2 ^ 64)) with true by lia. cbn [bind].
  unfold u64. rewrite Z.mod_small by lia. reflexivity.
Qed.
Lemma str_ok s : forallb (fun c => negb (c =? 0)) (str s) = true -> Forall (fun c => c <> 0) (str s).
Proof. intros H. apply Forall_forall. intros c Hc. rewrite forallb_forall in H. specialize (H c Hc). lia. Qed.
Lemma print_full s v L : Z.of_nat (length v) = L -> 0 < L -> all_bytes v -> fprintBstr s v L = Some (line s (hex v)).
Proof.
  intros EL HL B. rewrite print_bstr by (try rewrite firstn_all2; auto; lia).
  rewrite firstn_all2 by lia. replace (L =? 0) with false by (symmetry; apply Z.eqb_neq; lia). reflexivity.
Qed.
Lemma same_bytes a : memcmp_differs a a = false.
Proof. unfold memcmp_differs. destruct (list_eq_dec _ _ _); [reflexivity|congruence]. Qed.

Section Rsp.
Variable E : bytes -> bytes -> bytes.
Hypothesis HE : forall k b, length (E k b) = 16%nat.
Hypothesis HB : forall k b, all_bytes (E k b).
Variable im : impl.
Variable robust : bool.
Variable P : params.
Hypothesis Hi : i_ok im P.
Variable us : nat -> nat -> uninit.
Variable junk : nat -> nat -> Z.
Notation N := (p_n P).
Notation fam := (i_family im).

Lemma rsp_step j e pre f' g seed0 pk0 sk0 count mlen out : before pre -> entry_ok e ->
  length (g_key g) = 32%nat -> length (g_v g) = 16%nat -> length seed0 = 48%nat ->
  length pk0 = SPX_PK_BYTES P -> length sk0 = SPX_SK_BYTES P ->
  exists g' seed pk sk count' mlen',
    rsp_entry E im robust P us junk j (pre ++ req_text e ++ f', g, seed0, pk0, sk0, count, mlen, out)
    = Some (Next (req_tail ++ f', g', seed, pk, sk, count', mlen', out ++ rsp_text E fam robust P e))
    /\ length (g_key g') = 32%nat /\ length (g_v g') = 16%nat /\ length seed = 48%nat
    /\ length pk = SPX_PK_BYTES P /\ length sk = SPX_SK_BYTES P.
Proof.
  destruct e as [[i seed] msg]. intros Hpre (Hi100 & Ls & Bs & Lm & Bm) Lk Lv Ls0 Lpk Lsk.
  pose proof (proj1 Hi) as Hwf. pose proof (i_ok_32 im P Hi) as HN. pose proof (spx_bytes_small P Hwf) as HSB.
  pose proof (N_pos P Hwf) as HN1.
  assert (LJ : length (junk_bytes (junk 400) MAX_MARKER_LEN) = 50%nat) by apply junk_length.
  set (n := length msg) in *. assert (Hn : (1 <= n <= 3300)%nat) by lia.
  assert (Ein : inputs_text (i, seed, msg) =
    str "count = " ++ decimal (Z.of_nat i) ++ nl ++ line (str "seed = ") (hex seed) ++ str "mlen = " ++ decimal (Z.of_nat n)
    ++ nl ++ line (str "msg = ") (hex msg)).
  { unfold inputs_text. unfold line. fold n. rewrite <- !app_assoc. reflexivity. }
  assert (Efile : pre ++ req_text (i, seed, msg) ++ f' = pre ++ str "count = " ++ decimal (Z.of_nat i) ++ nl
    ++ line (str "seed = ") (hex seed) ++ str "mlen = " ++ decimal (Z.of_nat n)
    ++ nl ++ line (str "msg = ") (hex msg) ++ req_tail ++ f').
  { unfold req_text. fold req_tail. rewrite Ein, <- !app_assoc. reflexivity. }
  rewrite Efile. clear Efile. unfold rsp_entry.
  rewrite find_here; [|exact LJ|cbn; lia|reflexivity|destruct Hpre as [-> | ->]; vm_compute; reflexivity].
  cbn [bind]. change (1 =? 0) with false. cbv iota.
  rewrite fscanf_d_ok by lia. cbn [bind].
  rewrite (read_back _ _ seed0 48 (str "seed = ") seed LJ); [|now apply str_ok|cbn; lia|lia|lia|exact Ls|exact Bs|vm_compute; reflexivity].
  cbn [bind]. change (1 =? 0) with false. cbv iota. rewrite (skipn_all2 seed0), app_nil_r by lia.
  rewrite print_full by (auto; lia). cbn [bind].
  destruct (init_step E HE HB g (junk_bytes (junk 404) 48) (junk_bytes (junk 401) 48) seed) as (k0 & V0 & I0 & Lk0 & G0);
    auto using junk_length.
  rewrite G0. cbn [bind].
  match goal with |- context [FindMarker ?l (str "mlen = " ++ ?r) (str "mlen = ")] =>
    change (FindMarker l (str "mlen = " ++ r)) with (FindMarker l ([] ++ str "mlen = " ++ r)) end.
  rewrite (find_here _ (str "mlen = ") []); [|exact LJ|cbn; lia|reflexivity|reflexivity].
  cbn [bind]. change (1 =? 0) with false. cbv iota.
  rewrite fscanf_llu_ok by lia. cbn [bind]. unfold guard at 1.
  replace (Z.of_nat n <? 2 ^ 31) with true by (symmetry; apply Z.ltb_lt; lia). cbn [bind].
  rewrite Nat2Z.id. assert (Eu : Z.to_nat (u64 (Z.of_nat n + Z.of_nat (SPX_BYTES P))) = (SPX_BYTES P + n)%nat).
  { unfold u64. rewrite Z.mod_small by lia. lia. }
  rewrite Eu.
  rewrite (read_back _ _ (repeat 0 n) (Z.of_nat n) (str "msg = ") msg LJ);
    [|now apply str_ok|cbn; lia|lia|rewrite repeat_length; lia|fold n; lia|exact Bm|vm_compute; reflexivity].
  cbn [bind]. change (1 =? 0) with false. cbv iota.
  rewrite (skipn_all2 (repeat 0 n)), app_nil_r by (rewrite repeat_length; lia).
  rewrite print_full by (auto; fold n; lia). cbn [bind].
  (* keys *)
  unfold kat_keypair.
  destruct (gen_step E HE HB k0 V0 1 (junk_bytes (junk 401) 48) (junk_bytes (junk 402) (3 * N)) (3 * N))
    as (ks & k1 & V1 & S1 & L1 & B1 & K1 & G1); [exact Lk0|lia|apply junk_length|lia|rewrite junk_length; lia|].
  rewrite G1. cbn [bind]. rewrite (skipn_all2 (junk_bytes _ _)), app_nil_r by (rewrite junk_length; lia).
  destruct (gen_step E HE HB k1 V1 (1 + 1) (junk_bytes (junk 401) 48) (junk_bytes (junk 403) N) N)
    as (optrand & k2 & V2 & S2 & L2 & B2 & K2 & G2); [exact K1|lia|apply junk_length|lia|rewrite junk_length; lia|].
  destruct (impl_run im robust P Hi (us j 0%nat) (us j 1%nat) (us j 2%nat) ks optrand msg pk0 sk0
    (repeat 0 (SPX_BYTES P + n)) (repeat 0 (SPX_BYTES P + n)) L1 B1 L2 B2 Bm) as (R1 & R2 & R3 & A1 & A2 & A3 & A4 & A5 & A6);
    [lia|exact Lpk|exact Lsk|now rewrite repeat_length|now rewrite repeat_length|].
  set (root := ht_root (dims_of P) (spec_T fam N robust (skipn (2 * N) ks)) (spec_PRF fam N (skipn (2 * N) ks) (firstn N ks))) in *.
  set (pk := skipn (2 * N) ks ++ root) in *. set (sk := ks ++ root) in *.
  assert (EK : entry_keys E fam robust P seed = (pk, sk, optrand)).
  { unfold entry_keys. rewrite I0, S1, S2. reflexivity. }
  assert (ER : rsp_text E fam robust P (i, seed, msg) = inputs_text (i, seed, msg) ++ line (str "pk = ") (hex pk) ++ line (str "sk = ") (hex sk)
    ++ line (str "smlen = ") (decimal (Z.of_nat (length (entry_signed fam robust P sk optrand msg))))
    ++ line (str "sm = ") (hex (entry_signed fam robust P sk optrand msg)) ++ nl).
  { unfold rsp_text. rewrite EK. reflexivity. }
  set (sm := entry_signed fam robust P sk optrand msg) in *. clearbody sm pk sk. clear root EK S1 S2 I0.
  rewrite R1. cbn [bind]. change (negb (0 =? 0)) with false. cbv iota.
  rewrite print_full by (auto; unfold SPX_PK_BYTES in *; lia). cbn [bind].
  rewrite print_full by (auto; unfold SPX_SK_BYTES, SPX_PK_BYTES in *; lia). cbn [bind].
  unfold kat_sign. rewrite G2. cbn [bind]. rewrite (skipn_all2 (junk_bytes _ _)), app_nil_r by (rewrite junk_length; lia).
  rewrite R2. cbn [bind]. change (negb (0 =? 0)) with false. cbv iota.
  rewrite print_full by (auto; fold n in A6; lia). cbn [bind].
  rewrite R3. cbn [bind]. change (negb (0 =? 0)) with false. cbv iota. fold n. rewrite Z.eqb_refl. cbn [negb].
  rewrite rd_all by reflexivity. cbn [bind]. rewrite rd_app0 by reflexivity. cbn [bind]. rewrite same_bytes.
  exists (mkDrbg k2 (be_bytes 16 V2) (1 + 1 + 1)), seed, pk, sk, (Z.of_nat i), (Z.of_nat n). split; [|cbn [g_key g_v]; repeat split; auto using be_bytes_length].
  apply (f_equal Some), (f_equal Next), f_equal2; [reflexivity|]. rewrite ER, Ein. fold n in A6.
  rewrite (small_decimal i), (small_decimal n) by lia.
  rewrite print_decimal by (change (10 ^ 20) with 100000000000000000000; change (2 ^ 50) with 1125899906842624 in HSB; lia).
  unfold line. rewrite <- !app_assoc. reflexivity.
Qed.

Lemma rsp_loop_ok : forall es fuel j pre g seed pk sk count mlen out, Forall entry_ok es -> before pre -> (length es < fuel)%nat ->
  length (g_key g) = 32%nat -> length (g_v g) = 16%nat -> length seed = 48%nat ->
  length pk = SPX_PK_BYTES P -> length sk = SPX_SK_BYTES P ->
  rsp_loop E im robust P us junk fuel j (pre ++ flat_map req_text es, g, seed, pk, sk, count, mlen, out)
  = Some (KAT_SUCCESS, out ++ flat_map (rsp_text E fam robust P) es).
Proof.
  intros es. induction es as [|e es IH]; intros fuel j pre g seed pk sk count mlen out Ok Hpre Hf Lk Lv Ls Lp Lsk;
    (destruct fuel as [|fuel]; [cbn in Hf; lia|]); cbn [rsp_loop flat_map].
  - assert (LJ : length (junk_bytes (junk 400) MAX_MARKER_LEN) = 50%nat) by apply junk_length.
    rewrite !app_nil_r. unfold rsp_entry.
    rewrite find_none; [reflexivity|exact LJ|cbn; lia|reflexivity|destruct Hpre as [-> | ->]; vm_compute; reflexivity].
  - inversion Ok as [|? ? Oe Oes]; subst.
    destruct (rsp_step j e pre (flat_map req_text es) g seed pk sk count mlen out) as (g' & sd & pk' & sk' & c' & m' & S & A1 & A2 & A3 & A4 & A5); auto.
    rewrite S. cbn [bind]. rewrite IH; auto; [|now right|cbn in Hf; lia]. now rewrite <- app_assoc.
Qed.
End Rsp.

(** ** The program *)
Opaque draws iterM junk_bytes rsp_loop drbg_randombytes randombytes_init str.
Theorem kat_files E im robust P us junk : (forall k b, length (E k b) = 16%nat) -> (forall k b, all_bytes (E k b)) -> i_ok im P ->
  kat_main E im robust P us junk true true true
  = Some (0, kat_req E, kat_rsp E (i_family im) robust P).
Proof.
  intros HE HB Hi. unfold kat_main. cbn [negb].
  destruct (init_step E HE HB (mkDrbg (repeat 0 32) (repeat 0 16) 0) (junk_bytes (junk 404%nat) 48) (junk_bytes (junk 401%nat) 48) (map Z.of_nat (seq 0 48)))
    as (k & V & S & Lk & G); auto using junk_length.
  { apply Forall_forall. intros x Hx. apply in_map_iff in Hx. destruct Hx as (i & <- & Hin). apply in_seq in Hin. red. lia. }
  rewrite G. cbn [bind].
  destruct (req_loop E HE HB junk 100 0 k V 1 (junk_bytes (junk 405%nat) 48) (junk_bytes (junk 406%nat) 3300) [])
    as (g & seed & msg & R & A1 & A2 & A3 & A4); [lia|exact Lk|lia|apply junk_length|apply junk_length|].
  rewrite R. cbn [bind app]. clear R.
  assert (EI : kat_inputs E = draws E 100 0 k V) by (unfold kat_inputs; rewrite S; cbv beta iota; reflexivity).
  assert (ER : kat_req E = flat_map req_text (draws E 100 0 k V)) by (unfold kat_req; rewrite EI; reflexivity).
  assert (ES : kat_rsp E (i_family im) robust P = str "# SPHINCS+" ++ nl ++ nl ++ flat_map (rsp_text E (i_family im) robust P) (draws E 100 0 k V))
    by (unfold kat_rsp; rewrite EI; reflexivity).
  rewrite ER, ES. clear ER ES EI S G.
  set (es := draws E 100 0 k V) in *. clearbody es.
  assert (Lf : (length es <= length (flat_map req_text es))%nat).
  { clear. induction es as [|e es IH]; [reflexivity|]. cbn [flat_map length]. rewrite app_length.
    assert (1 <= length (req_text e))%nat; [|lia]. destruct e as [[i s] m]. unfold req_text, inputs_text, line.
    rewrite !app_length. change (length (str "count = ")) with 8%nat. lia. }
  pose proof (rsp_loop_ok E HE HB im robust P Hi us junk es (Datatypes.S (length (flat_map req_text es))) 0 [] g seed
    (junk_bytes (junk 407%nat) (SPX_PK_BYTES P)) (junk_bytes (junk 408%nat) (SPX_SK_BYTES P)) (junk 409%nat 0%nat) (junk 409%nat 1%nat)
    (str "# " ++ str "SPHINCS+" ++ nl ++ nl)) as L. cbn [app] in L.
  rewrite L; [|exact A4|left; reflexivity|lia|exact A1|exact A2|exact A3|apply junk_length|apply junk_length]. cbn [bind]. rewrite <- !app_assoc. reflexivity.
Qed.
Transparent draws iterM junk_bytes rsp_loop drbg_randombytes randombytes_init str.
Theorem kat_open_fails E im robust P us junk o2 o3 : 
  kat_main E im robust P us junk false o2 o3 = Some (-1, [], [])
  /\ kat_main E im robust P us junk true false o3 = Some (-1, [], []).
Proof. split; reflexivity. Qed.
Opaque draws iterM junk_bytes rsp_loop drbg_randombytes randombytes_init str.
Theorem kat_reopen_fails E im robust P us junk : (forall k b, length (E k b) = 16%nat) -> (forall k b, all_bytes (E k b)) ->
  kat_main E im robust P us junk true true false = Some (-1, kat_req E, []).
Proof.
  intros HE HB. unfold kat_main. cbn [negb].
  destruct (init_step E HE HB (mkDrbg (repeat 0 32) (repeat 0 16) 0) (junk_bytes (junk 404%nat) 48) (junk_bytes (junk 401%nat) 48) (map Z.of_nat (seq 0 48)))
    as (k & V & S & Lk & G); auto using junk_length.
  { apply Forall_forall. intros x Hx. apply in_map_iff in Hx. destruct Hx as (i & <- & Hin). apply in_seq in Hin. red. lia. }
  rewrite G. cbn [bind].
  destruct (req_loop E HE HB junk 100 0 k V 1 (junk_bytes (junk 405%nat) 48) (junk_bytes (junk 406%nat) 3300) [])
    as (g & seed & msg & R & A1 & A2 & A3 & A4); [lia|exact Lk|lia|apply junk_length|apply junk_length|].
  rewrite R. cbn [bind app].
  assert (EI : kat_inputs E = draws E 100 0 k V) by (unfold kat_inputs; rewrite S; cbv beta iota; reflexivity).
  unfold kat_req. rewrite EI. reflexivity.
Qed.
Transparent draws iterM junk_bytes rsp_loop drbg_randombytes randombytes_init str.

Theorem kat_same E i1 i2 robust P us1 us2 junk1 junk2 o1 o2 o3 :
  (forall k b, length (E k b) = 16%nat) -> (forall k b, all_bytes (E k b)) -> i_ok i1 P -> i_ok i2 P -> i_family i1 = i_family i2 ->
  kat_main E i1 robust P us1 junk1 o1 o2 o3 = kat_main E i2 robust P us2 junk2 o1 o2 o3.
Proof.
  intros HE HB H1 H2 Hf. destruct o1; [|reflexivity]. destruct o2; [|reflexivity]. destruct o3.
  - rewrite (kat_files E i1), (kat_files E i2) by auto. rewrite Hf. reflexivity.
  - rewrite !kat_reopen_fails by auto. reflexivity.
Qed.

(** ** A field of length 0 *)
Theorem read_empty line0 f A s : ReadHex line0 f A 0 s = match A with [] => None | _ :: A' => Some (1, 0 :: A', f) end.
Proof. unfold ReadHex. destruct A; reflexivity. Qed.
Theorem decimal_round_trip n r : 0 <= n < 2 ^ 64 -> starts_with (fun c => c < 48 \/ 57 < c) r ->
  print_dec n = decimal n /\ (forall old, fscanf_llu (decimal n ++ r) old = Some (n, r))
  /\ (n < 2 ^ 31 -> forall old, fscanf_d (decimal n ++ r) old = Some (n, r)).
Proof.
  intros Hn Hr'. assert (Hr : starts_with (fun c => isdigit c = false) r) by (destruct r; [exact I|]; cbn in *; unfold isdigit; destruct Hr'; lia). assert (H20 : 0 <= n < 10 ^ 20) by (change (10 ^ 20) with 100000000000000000000; change (2 ^ 64) with 18446744073709551616 in Hn; lia).
  split; [now apply print_decimal|]. split.
  - intros old. unfold fscanf_llu. rewrite scan_decimal by auto. unfold guard.
    replace ((- 2 ^ 64 <? n) && (n <? 2 ^ 64)) with true by lia. cbn [bind]. unfold u64. rewrite Z.mod_small by lia. reflexivity.
  - intros H31 old. unfold fscanf_d. rewrite scan_decimal by auto. unfold guard.
    replace ((- 2 ^ 31 <=? n) && (n <? 2 ^ 31)) with true by lia. reflexivity.
Qed.
Theorem write_read line0 t A L s v : length line0 = 50%nat -> Forall (fun c => c <> 0) s -> (length s <= 49)%nat ->
  0 < L -> (Z.to_nat L <= length A)%nat -> (Z.to_nat L <= length v)%nat -> all_bytes v ->
  exists x, fprintBstr s v L = Some x /\ x = line s (hex (firstn (Z.to_nat L) v))
    /\ ReadHex line0 (x ++ t) A L s = Some (1, firstn (Z.to_nat L) v ++ skipn (Z.to_nat L) A, t).
Proof.
  intros L0 Hz Ls HL LA Lv B. exists (line s (hex (firstn (Z.to_nat L) v))).
  assert (Bf : all_bytes (firstn (Z.to_nat L) v)) by (rewrite <- (firstn_skipn (Z.to_nat L)) in B; apply Forall_app in B; apply B).
  rewrite print_bstr by (auto; lia). replace (L =? 0) with false by (symmetry; apply Z.eqb_neq; lia).
  split; [reflexivity|]. split; [reflexivity|].
  apply (read_back line0 t A L s (firstn (Z.to_nat L) v)) with (a := []); auto. rewrite firstn_length. lia.
Qed.
