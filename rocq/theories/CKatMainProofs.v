(** The typed known-answer program writes the specified files. *)
From Coq Require Import String.
From Verif Require Import Base BaseFacts Params Suite Sign Spec Refine BuildSpec BuildProofs ApiProofs OptBuild OptProofs
  CInt CCore CIntFacts CCoreProofs Rng RngSpec RngProofs SignBytes CRng CRngProofs CRandombytes CRandombytesProofs
  Kat Text KatSpec KatIo KatProofs CKat CKatProofs CKatMain.
Local Open Scope Z_scope.
Local Open Scope list_scope.

(** ** Texts are bytes *)
Lemma str_bytes s : all_bytes (str s).
Proof.
  apply Forall_forall. intros c H. apply in_map_iff in H. destruct H as (a & <- & _). pose proof (Ascii.N_ascii_bounded a). unfold is_byte. lia.
Qed.
Lemma nth_bytes i l : all_bytes l -> is_byte (nth i l 0).
Proof.
  intros H. destruct (nth_in_or_default i l 0) as [I | ->]; [exact (proj1 (Forall_forall _ _) H _ I)|split; lia].
Qed.
Lemma decimal_bytes n : all_bytes (decimal n).
Proof. apply Forall_forall. intros c H. apply in_map_iff in H. destruct H as (a & <- & _). apply nth_bytes, str_bytes. Qed.
Lemma hex_bytes v : all_bytes (hex v).
Proof.
  induction v as [|x v IH]; [constructor|]. cbn [hex flat_map]. apply Forall_app. split; [|exact IH].
  constructor; [apply nth_bytes, str_bytes|]. constructor; [apply nth_bytes, str_bytes|constructor].
Qed.
Lemma nl_bytes : all_bytes nl. Proof. constructor; [split; lia|constructor]. Qed.
Lemma app_bytes a b : all_bytes a -> all_bytes b -> all_bytes (a ++ b).
Proof. intros. apply Forall_app. now split. Qed.
Lemma line_bytes a b : all_bytes a -> all_bytes b -> all_bytes (line a b).
Proof. intros. unfold line. auto using app_bytes, nl_bytes. Qed.
Lemma nil_bytes : all_bytes []. Proof. constructor. Qed.
Lemma tail_bytes : all_bytes req_tail.
Proof. unfold req_tail. repeat first [apply nil_bytes | apply nl_bytes | apply str_bytes | apply line_bytes | apply app_bytes]. Qed.
Lemma before_bytes pre : before pre -> all_bytes pre.
Proof. intros [-> | ->]; [apply nil_bytes|apply tail_bytes]. Qed.
Lemma req_bytes e : all_bytes (req_text e).
Proof.
  destruct e as [[i sd] m]. unfold req_text. fold req_tail. apply app_bytes; [|apply tail_bytes].
  unfold inputs_text. repeat first [apply str_bytes | apply decimal_bytes | apply hex_bytes | apply line_bytes | apply app_bytes].
Qed.
Lemma reqs_bytes es : all_bytes (flat_map req_text es).
Proof. induction es as [|e es IH]; [apply nil_bytes|]. cbn [flat_map]. apply app_bytes; [apply req_bytes|exact IH]. Qed.
Ltac bts := repeat first [assumption | apply nil_bytes | apply nl_bytes | apply str_bytes | apply decimal_bytes | apply hex_bytes | apply tail_bytes
  | apply before_bytes; assumption | apply line_bytes | apply app_bytes].

(** ** The steps *)
Lemma find_here_c line0 m a rest : length line0 = 50%nat -> (length m <= 49)%nat ->
  forallb (fun c => negb (c =? 0)) m = true -> absent m a = true -> all_bytes (a ++ m ++ rest) ->
  FindMarker_c line0 (a ++ m ++ rest) m = Some (1, rest).
Proof. intros. rewrite FindMarker_c_ok by (assumption || lia). now apply find_here. Qed.
Lemma find_none_c line0 m a : length line0 = 50%nat -> (length m <= 49)%nat ->
  forallb (fun c => negb (c =? 0)) m = true ->
  forallb (fun q => if list_eq_dec Z.eq_dec (firstn (length m) (skipn q a)) m then false else true) (seq 0 (S (length a))) = true -> all_bytes a ->
  FindMarker_c line0 a m = Some (0, []).
Proof. intros. rewrite FindMarker_c_ok by (assumption || lia). now apply find_none. Qed.
Lemma read_back_c line0 t A L s v : length line0 = 50%nat -> Forall (fun c => c <> 0) s -> (length s <= 49)%nat ->
  0 < L < 2 ^ 31 -> length A = Z.to_nat L -> length v = Z.to_nat L -> all_bytes v ->
  forall a, absent s a = true -> all_bytes (a ++ line s (hex v) ++ t) ->
  ReadHex_c line0 (a ++ line s (hex v) ++ t) A L s = Some (1, v ++ skipn (Z.to_nat L) A, t).
Proof.
  intros L0 Hs Ls HL LA Lv Bv a Ha B. rewrite ReadHex_c_ok; [|exact L0|lia|exact B| |unfold is_int; lia|lia].
  - apply read_back; (assumption || lia).
  - rewrite skipn_all2 by lia. constructor.
Qed.
Lemma print_bstr_c s A L : 0 <= L < 2 ^ 63 -> (Z.to_nat L <= length A)%nat -> Z.of_nat (length A) < 2 ^ 63 -> all_bytes (firstn (Z.to_nat L) A) ->
  fprintBstr_c s A L = Some (line s (if L =? 0 then str "00" else hex (firstn (Z.to_nat L) A))).
Proof. intros. rewrite fprintBstr_c_ok by lia. apply print_bstr; (assumption || lia). Qed.
Lemma print_full_c s v L : Z.of_nat (length v) = L -> 0 < L < 2 ^ 63 -> all_bytes v -> fprintBstr_c s v L = Some (line s (hex v)).
Proof. intros. rewrite fprintBstr_c_ok by lia. apply print_full; (assumption || lia). Qed.
Lemma mlen_c i : (i < 100)%nat -> asg U64 (Cast U64 (K 33 * (V I32 (Z.of_nat i) + K 1)))%C = Some (Z.of_nat (33 * (i + 1))).
Proof. intros H. casg (Z.of_nat (33 * (i + 1))); [reflexivity|cbn [opz]; lia|rg]. Qed.

Lemma size_c n k : Z.of_nat n < 2 ^ 31 -> Z.of_nat (SPX_BYTES k) < 2 ^ 31 -> asg U64 (V U64 (Z.of_nat n) + CB k)%C = Some (Z.of_nat (SPX_BYTES k + n)).
Proof. intros H1 H2. unfold CB. generalize dependent (SPX_BYTES k). intros m H2. casg (Z.of_nat (m + n)); [reflexivity|cbn [opz]; lia|rg]. Qed.
Lemma int_c n : Z.of_nat n < 2 ^ 31 -> asg I32 (Cast I32 (V U64 (Z.of_nat n))) = Some (Z.of_nat n).
Proof. intros H. casg (Z.of_nat n); [reflexivity|reflexivity|rg]. Qed.
Lemma three_c n : (n <= 1000)%nat -> asg U64 (K 3 * K (Z.of_nat n))%C = Some (Z.of_nat (3 * n)).
Proof. intros H. casg (Z.of_nat (3 * n)); [reflexivity|cbn [opz]; lia|rg]. Qed.
Lemma const_c n : (n <= 1000)%nat -> asg U64 (K (Z.of_nat n)) = Some (Z.of_nat n).
Proof. intros H. casg (Z.of_nat n); [reflexivity|reflexivity|rg]. Qed.
Lemma same_c n : Z.of_nat n < 2 ^ 31 -> cond (V U64 (Z.of_nat n) == V U64 (Z.of_nat n))%C = Some true.
Proof. intros H. ceq. now rewrite Z.eqb_refl. Qed.

Section Gen.
Variable E : bytes -> bytes -> bytes.
Hypothesis HE : forall k b, length (E k b) = 16%nat.
Hypothesis HB : forall k b, all_bytes (E k b).
Lemma gen_step_c key V r temp x n : length key = 32%nat -> 0 <= r -> r + 1 < 2 ^ 31 -> length temp = 48%nat ->
  Z.of_nat n < 2 ^ 31 -> (n <= length x)%nat ->
  exists out k' V', spec_generate E key V n = (out, (k', V')) /\ length out = n /\ all_bytes out /\ length k' = 32%nat
    /\ drbg_randombytes_c E (mkDrbg key (be_bytes 16 V) r) temp x (Z.of_nat n)
       = Some (0, mkDrbg k' (be_bytes 16 V') (r + 1), out ++ skipn n x).
Proof.
  intros Lk Hr0 Hr Lt Hn Lx. destruct (gen_step E HE HB key V r temp x n Lk Hr Lt Hn Lx) as (out & k' & V' & A & B & C & D & G).
  exists out, k', V'. split; [exact A|]. split; [exact B|]. split; [exact C|]. split; [exact D|].
  rewrite (randombytes_c_ok E HE HB); [exact G|exact Lt|apply be_bytes_all|cbn [g_reseed]; lia|lia].
Qed.
Lemma init_step_c g sm temp entropy : length (g_key g) = 32%nat -> length (g_v g) = 16%nat -> length sm = 48%nat ->
  length temp = 48%nat -> length entropy = 48%nat -> all_bytes entropy ->
  exists k V, spec_instantiate E entropy (repeat 0 48) = (k, V) /\ length k = 32%nat
    /\ randombytes_init_c E g sm temp entropy None = Some (mkDrbg k (be_bytes 16 V) 1).
Proof.
  intros Lk Lv Ls Lt Le Be. destruct (init_step E HE HB g sm temp entropy Lk Lv Ls Lt Le Be) as (k & V & A & B & G).
  exists k, V. split; [exact A|]. split; [exact B|]. rewrite (init_c_ok E HE HB); [exact G|assumption..|discriminate].
Qed.
Variable junk : nat -> nat -> Z.
Lemma req_step_c i key V r seed msg out : (i < 100)%nat -> length key = 32%nat -> 0 <= r -> r + 2 < 2 ^ 31 ->
  length seed = 48%nat -> length msg = 3300%nat ->
  exists key' V' sd ms msg', req_entry_c E junk (Z.of_nat i) (mkDrbg key (be_bytes 16 V) r, seed, msg, out)
     = Some (mkDrbg key' (be_bytes 16 V') (r + 2), sd, msg', out ++ req_text (i, sd, ms))
   /\ length msg' = 3300%nat /\ length key' = 32%nat /\ entry_ok (i, sd, ms)
   /\ forall n, draws E (S n) i key V = (i, sd, ms) :: draws E n (S i) key' V'.
Proof.
  intros Hi Lk Hr0 Hr Ls Lm. unfold req_entry_c. change (asg U64 (K 48)) with (Some 48). cbn [bind].
  destruct (gen_step_c key V r (junk_bytes (junk 401) 48) seed 48) as (sd & k1 & V1 & S1 & L1 & B1 & K1 & G1);
    [exact Lk|lia|lia|apply junk_length|lia|lia|].
  change (Z.of_nat 48) with 48 in G1. rewrite G1. cbn [bind]. rewrite (skipn_all2 seed), app_nil_r by lia.
  assert (F1 : firstn (Z.to_nat 48) sd = sd) by (apply firstn_all2; lia).
  rewrite print_bstr_c by (rewrite ?F1; auto; lia). rewrite F1. change (48 =? 0) with false. cbv iota. cbn [bind].
  rewrite mlen_c by exact Hi. cbn [bind]. set (n := (33 * (i + 1))%nat) in *.
  assert (Hn : (33 <= n <= 3300)%nat) by (unfold n; lia).
  destruct (gen_step_c k1 V1 (r + 1) (junk_bytes (junk 401) 48) msg n) as (ms & k2 & V2 & S2 & L2 & B2 & K2 & G2);
    [exact K1|lia|lia|apply junk_length|lia|lia|].
  rewrite G2. cbn [bind].
  assert (F2 : firstn (Z.to_nat (Z.of_nat n)) (ms ++ skipn n msg) = ms).
  { rewrite Nat2Z.id, <- L2, firstn_app, firstn_all, Nat.sub_diag, firstn_O, app_nil_r. reflexivity. }
  rewrite print_bstr_c by (rewrite ?F2, ?Nat2Z.id, ?app_length, ?skipn_length; auto; lia). rewrite F2.
  replace (Z.of_nat n =? 0) with false by (symmetry; apply Z.eqb_neq; lia). cbn [bind].
  exists k2, V2, sd, ms, (ms ++ skipn n msg). split; [|split; [|split; [exact K2|split]]].
  - rewrite !small_decimal by lia. replace (r + 1 + 1) with (r + 2) by lia.
    unfold req_text, inputs_text. rewrite L2. unfold line. cbn [app]. rewrite <- ?app_assoc. cbn [app]. reflexivity.
  - rewrite app_length, skipn_length. lia.
  - unfold entry_ok. auto.
  - intros n'. cbn [draws]. rewrite S1. fold n. rewrite S2. reflexivity.
Qed.
Lemma req_loop_c n : forall i key V r seed msg out, (i + n <= 100)%nat -> length key = 32%nat -> 0 <= r -> r + 2 * Z.of_nat n < 2 ^ 31 ->
  length seed = 48%nat -> length msg = 3300%nat ->
  exists g seed' msg', iterM n i (fun i => req_entry_c E junk (Z.of_nat i)) (mkDrbg key (be_bytes 16 V) r, seed, msg, out)
     = Some (g, seed', msg', out ++ flat_map req_text (draws E n i key V))
   /\ length (g_key g) = 32%nat /\ length (g_v g) = 16%nat /\ length seed' = 48%nat /\ Forall entry_ok (draws E n i key V).
Proof.
  induction n as [|n IH]; intros i key V r seed msg out Hi Lk Hr0 Hr Ls Lm.
  - cbn [iterM draws flat_map]. rewrite app_nil_r. eexists _, seed, msg. split; [reflexivity|]. cbn [g_key g_v].
    repeat split; auto.
  - destruct (req_step_c i key V r seed msg out) as (k' & V' & sd & ms & msg' & S & L1 & L2 & Ok & Dr); try assumption; [lia|lia|].
    cbn [iterM]. rewrite S. cbn [bind].
    destruct (IH (Datatypes.S i) k' V' (r + 2) sd msg' (out ++ req_text (i, sd, ms))) as (g & seed' & m' & R & A1 & A2 & A3 & A4);
      [lia|exact L2|lia|lia|apply Ok|exact L1|].
    exists g, seed', m'. rewrite R, Dr. cbn [flat_map]. rewrite <- app_assoc. repeat split; auto.
Qed.
End Gen.

Section Rsp.
Variable E : bytes -> bytes -> bytes.
Hypothesis HE : forall k b, length (E k b) = 16%nat.
Hypothesis HB : forall k b, all_bytes (E k b).
Variable im : impl.
Variable robust : bool.
Variable P : params.
Hypothesis Hi : i_ok im P.
Hypothesis Hsmall : Z.of_nat (SPX_BYTES P) < 2 ^ 31.
Variable us : nat -> nat -> uninit.
Variable junk : nat -> nat -> Z.
Notation N := (p_n P).
Notation fam := (i_family im).

Lemma rsp_step_c j e pre f' g seed0 pk0 sk0 count mlen out : before pre -> entry_ok e -> all_bytes f' ->
  length (g_key g) = 32%nat -> length (g_v g) = 16%nat -> length seed0 = 48%nat ->
  length pk0 = SPX_PK_BYTES P -> length sk0 = SPX_SK_BYTES P ->
  exists g' seed pk sk count' mlen',
    rsp_entry_c E im robust P us junk j (pre ++ req_text e ++ f', g, seed0, pk0, sk0, count, mlen, out)
    = Some (Next (req_tail ++ f', g', seed, pk, sk, count', mlen', out ++ rsp_text E fam robust P e))
    /\ length (g_key g') = 32%nat /\ length (g_v g') = 16%nat /\ length seed = 48%nat
    /\ length pk = SPX_PK_BYTES P /\ length sk = SPX_SK_BYTES P.
Proof.
  destruct e as [[i seed] msg]. intros Hpre (Hi100 & Ls & Bs & Lm & Bm) Bf' Lk Lv Ls0 Lpk Lsk.
  pose proof (proj1 Hi) as Hwf. pose proof (i_ok_32 im P Hi) as HN. pose proof (spx_bytes_small P Hwf) as HSB.
  pose proof (N_pos P Hwf) as HN1.
  assert (LJ : length (junk_bytes (junk 400) MAX_MARKER_LEN) = 50%nat) by apply junk_length.
  set (n := length msg) in *. assert (Hn : (1 <= n <= 3300)%nat) by lia.
  assert (Ein : inputs_text (i, seed, msg) =
    str "count = " ++ decimal (Z.of_nat i) ++ nl ++ line (str "seed = ") (hex seed) ++ str "mlen = " ++ decimal (Z.of_nat n)
    ++ nl ++ line (str "msg = ") (hex msg)).
  { unfold inputs_text. unfold line. fold n. rewrite <- !app_assoc. reflexivity. }
  assert (Efile : pre ++ req_text (i, seed, msg) ++ f' = pre ++ str "count = " ++ decimal (Z.of_nat i) ++ nl
    ++ line (str "seed = ") (hex seed) ++ str "mlen = " ++ decimal (Z.of_nat n)
    ++ nl ++ line (str "msg = ") (hex msg) ++ req_tail ++ f').
  { unfold req_text. fold req_tail. rewrite Ein, <- !app_assoc. reflexivity. }
  rewrite Efile. clear Efile. unfold rsp_entry_c.
  rewrite find_here_c; [|exact LJ|cbn; lia|reflexivity|destruct Hpre as [-> | ->]; vm_compute; reflexivity|bts].
  cbn [bind]. change (cond (V I32 1)) with (Some true). cbn [bind negb].
  rewrite fscanf_d_ok by lia. cbn [bind]. change (asg I32 (K 48)) with (Some 48). change (asg U64 (K 48)) with (Some 48). cbn [bind].
  rewrite (read_back_c _ _ seed0 48 (str "seed = ") seed LJ); [|now apply str_ok|cbn; lia|lia|lia|exact Ls|exact Bs|vm_compute; reflexivity|bts].
  cbn [bind]. change (cond (V I32 1)) with (Some true). cbn [bind negb]. rewrite (skipn_all2 seed0), app_nil_r by lia.
  rewrite print_full_c by (auto; lia). cbn [bind].
  destruct (init_step_c E HE HB g (junk_bytes (junk 404) 48) (junk_bytes (junk 401) 48) seed) as (k0 & V0 & I0 & Lk0 & G0);
    auto using junk_length.
  rewrite G0. cbn [bind].
  match goal with |- context [FindMarker_c ?l (str "mlen = " ++ ?r) (str "mlen = ")] =>
    change (FindMarker_c l (str "mlen = " ++ r)) with (FindMarker_c l ([] ++ str "mlen = " ++ r)) end.
  rewrite (find_here_c _ (str "mlen = ") []); [|exact LJ|cbn; lia|reflexivity|reflexivity|bts].
  cbn [bind]. change (cond (V I32 1)) with (Some true). cbn [bind negb].
  rewrite fscanf_llu_ok by lia. cbn [bind]. rewrite c_val by rg. cbn [bind].
  rewrite size_c by (exact Hsmall || lia). cbn [bind]. rewrite int_c by lia. cbn [bind]. rewrite !Nat2Z.id.
  rewrite (read_back_c _ _ (repeat 0 n) (Z.of_nat n) (str "msg = ") msg LJ);
    [|now apply str_ok|cbn; lia|lia|rewrite repeat_length; lia|fold n; lia|exact Bm|vm_compute; reflexivity|bts].
  cbn [bind]. change (cond (V I32 1)) with (Some true). cbn [bind negb].
  rewrite (skipn_all2 (repeat 0 n)), app_nil_r by (rewrite repeat_length; lia).
  rewrite print_full_c by (auto; fold n; lia). cbn [bind].
  (* keys *)
  unfold kat_keypair_c. rewrite three_c by lia. cbn [bind].
  destruct (gen_step_c E HE HB k0 V0 1 (junk_bytes (junk 401) 48) (junk_bytes (junk 402) (3 * N)) (3 * N))
    as (ks & k1 & V1 & S1 & L1 & B1 & K1 & G1); [exact Lk0|lia|lia|apply junk_length|lia|rewrite junk_length; lia|].
  rewrite G1. cbn [bind]. rewrite (skipn_all2 (junk_bytes _ _)), app_nil_r by (rewrite junk_length; lia).
  destruct (gen_step_c E HE HB k1 V1 (1 + 1) (junk_bytes (junk 401) 48) (junk_bytes (junk 403) N) N)
    as (optrand & k2 & V2 & S2 & L2 & B2 & K2 & G2); [exact K1|lia|lia|apply junk_length|lia|rewrite junk_length; lia|].
  destruct (impl_run im robust P Hi (us j 0%nat) (us j 1%nat) (us j 2%nat) ks optrand msg pk0 sk0
    (repeat 0 (SPX_BYTES P + n)) (repeat 0 (SPX_BYTES P + n)) L1 B1 L2 B2 Bm) as (R1 & R2 & R3 & A1 & A2 & A3 & A4 & A5 & A6);
    [lia|exact Lpk|exact Lsk|now rewrite repeat_length|now rewrite repeat_length|].
  set (root := ht_root (dims_of P) (spec_T fam N robust (skipn (2 * N) ks)) (spec_PRF fam N (skipn (2 * N) ks) (firstn N ks))) in *.
  set (pk := skipn (2 * N) ks ++ root) in *. set (sk := ks ++ root) in *.
  assert (EK : entry_keys E fam robust P seed = (pk, sk, optrand)).
  { unfold entry_keys. rewrite I0, S1, S2. reflexivity. }
  assert (ER : rsp_text E fam robust P (i, seed, msg) = inputs_text (i, seed, msg) ++ line (str "pk = ") (hex pk) ++ line (str "sk = ") (hex sk)
    ++ line (str "smlen = ") (decimal (Z.of_nat (length (entry_signed fam robust P sk optrand msg))))
    ++ line (str "sm = ") (hex (entry_signed fam robust P sk optrand msg)) ++ nl).
  { unfold rsp_text. rewrite EK. reflexivity. }
  set (sm := entry_signed fam robust P sk optrand msg) in *. clearbody sm pk sk. clear root EK S1 S2 I0.
  rewrite R1. cbn [bind]. change (cond (V I32 0)) with (Some false). cbn [bind].
  unfold CPK, CSK. rewrite const_c by (unfold SPX_PK_BYTES; lia). cbn [bind]. rewrite print_full_c by (auto; unfold SPX_PK_BYTES in *; lia). cbn [bind].
  rewrite const_c by (unfold SPX_SK_BYTES, SPX_PK_BYTES; lia). cbn [bind]. rewrite print_full_c by (auto; unfold SPX_SK_BYTES, SPX_PK_BYTES in *; lia). cbn [bind].
  unfold kat_sign_c. rewrite const_c by lia. cbn [bind]. rewrite G2. cbn [bind]. rewrite (skipn_all2 (junk_bytes _ _)), app_nil_r by (rewrite junk_length; lia).
  rewrite R2. cbn [bind]. change (cond (V I32 0)) with (Some false). cbn [bind].
  rewrite print_full_c by (auto; fold n in A6; lia). cbn [bind].
  rewrite R3. cbn [bind]. change (cond (V I32 0)) with (Some false). cbn [bind]. fold n. rewrite same_c by lia. cbn [bind negb].
  rewrite rd_all by reflexivity. cbn [bind]. rewrite rd_app0 by reflexivity. cbn [bind]. rewrite same_bytes.
  exists (mkDrbg k2 (be_bytes 16 V2) (1 + 1 + 1)), seed, pk, sk, (Z.of_nat i), (Z.of_nat n). split; [|cbn [g_key g_v]; repeat split; auto using be_bytes_length].
  apply (f_equal Some), (f_equal Next), f_equal2; [reflexivity|]. rewrite ER, Ein. fold n in A6.
  rewrite (small_decimal i), (small_decimal n) by lia.
  rewrite print_decimal by (change (10 ^ 20) with 100000000000000000000; change (2 ^ 50) with 1125899906842624 in HSB; lia).
  unfold line. rewrite <- !app_assoc. reflexivity.
Qed.

Lemma rsp_loop_c_ok : forall es fuel j pre g seed pk sk count mlen out, Forall entry_ok es -> before pre -> (length es < fuel)%nat ->
  length (g_key g) = 32%nat -> length (g_v g) = 16%nat -> length seed = 48%nat ->
  length pk = SPX_PK_BYTES P -> length sk = SPX_SK_BYTES P ->
  rsp_loop_c E im robust P us junk fuel j (pre ++ flat_map req_text es, g, seed, pk, sk, count, mlen, out)
  = Some (KAT_SUCCESS, out ++ flat_map (rsp_text E fam robust P) es).
Proof.
  intros es. induction es as [|e es IH]; intros fuel j pre g seed pk sk count mlen out Ok Hpre Hf Lk Lv Ls Lp Lsk;
    (destruct fuel as [|fuel]; [cbn in Hf; lia|]); cbn [rsp_loop_c flat_map].
  - assert (LJ : length (junk_bytes (junk 400) MAX_MARKER_LEN) = 50%nat) by apply junk_length.
    rewrite !app_nil_r. unfold rsp_entry_c.
    rewrite find_none_c; [reflexivity|exact LJ|cbn; lia|reflexivity|destruct Hpre as [-> | ->]; vm_compute; reflexivity|bts].
  - inversion Ok as [|? ? Oe Oes]; subst.
    destruct (rsp_step_c j e pre (flat_map req_text es) g seed pk sk count mlen out) as (g' & sd & pk' & sk' & c' & m' & S & A1 & A2 & A3 & A4 & A5); auto using reqs_bytes.
    rewrite S. cbn [bind]. rewrite IH; auto; [|now right|cbn in Hf; lia]. now rewrite <- app_assoc.
Qed.
End Rsp.
