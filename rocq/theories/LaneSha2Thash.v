(** The multi-lane MGF1, thash and prf_addr of sha2-avx2 are the scalar ones in every lane. *)
From Verif Require Import Base BaseFacts Params Address Suite Fips202 ShakeProofs Sha2Spec Sha2 Sha2Facts Sha2Proofs
  Utils HashSpec HashShake HashShakeProofs HashSha2 HashSha2Proofs Lanes LaneFacts LaneKeccak LaneKeccakProofs LaneShake
  LaneShakeProofs LaneShakeOk LaneSha2 LaneSha2Proofs LaneSha2Ok.
#[local] Opaque sha2 hash_from chain_blocks.

Lemma combine_map {A B C} (f : A -> B) (g : A -> C) l : combine (map f l) (map g l) = map (fun x => (f x, g x)) l.
Proof. induction l as [|x l IH]; cbn [map combine]; [reflexivity|]. now rewrite IH. Qed.

(** ** MGF1 *)
Section Mgf.
Variable nl inlen ob : nat.
Variable sha : list bytes -> nat -> option (list bytes).
Variable h : list Z -> list Z.
Notation L := (seq 0 nl).
Hypothesis Hob : (0 < ob)%nat.
Hypothesis Hlen : forall x, length (h x) = ob.
Hypothesis Hsha : forall b : nat -> bytes, (forall j, (j < nl)%nat -> length (b j) = (inlen + 4)%nat) ->
  sha (map b L) (inlen + 4)%nat = Some (map (fun j => h (norm (b j))) L).
Variable x : nat -> bytes.
Hypothesis Hx : forall j, (j < nl)%nat -> length (x j) = inlen.
Definition mf (j i : nat) : list Z := h (norm (x j) ++ be_bytes 4 (Z.of_nat i)).
Definition cnt (i : nat) : bytes := u32_to_bytes (u32 (Z.of_nat i)).

Lemma mgf_step_ok i (c : nat -> bytes) : (forall j, (j < nl)%nat -> length (c j) = 4%nat) ->
  mgf_step sha inlen i (map (fun j => x j ++ c j) L)
  = Some (map (fun j => x j ++ cnt i) L, map (fun j => mf j i) L).
Proof.
  clear Hob Hlen ob. intros Hc. unfold mgf_step. rewrite mapM_map.
  rewrite (mapM_ok _ (fun j => x j ++ cnt i)).
  2:{ intros j Hj. apply in_seq in Hj. apply wr_app_r; [rewrite Hx; lia|rewrite Hc; [reflexivity|lia]]. }
  cbn [bind]. rewrite Hsha by (intros j Hj; rewrite app_length, Hx by lia; reflexivity).
  cbn [bind]. f_equal. f_equal. apply map_ext. intros j. unfold mf, cnt. now rewrite map_app, u32_be.
Qed.
Lemma mgf_put_ok (A R hv : nat -> bytes) off n : (forall j, (j < nl)%nat -> length (A j) = off) ->
  (forall j, (j < nl)%nat -> (n <= length (R j))%nat) -> (forall j, (j < nl)%nat -> (n <= length (hv j))%nat) ->
  mgf_put (map (fun j => A j ++ R j) L) (map hv L) off n
  = Some (map (fun j => (A j ++ firstn n (hv j)) ++ skipn n (R j)) L).
Proof.
  clear - A. intros HA HR Hh. unfold mgf_put. rewrite combine_map, mapM_map. cbn [fst snd].
  apply mapM_ok. intros j Hj. apply in_seq in Hj. rewrite rd_ok by (apply Hh; lia). cbn [bind skipn].
  rewrite <- (firstn_skipn n (R j)) at 1. pose proof (HR j ltac:(lia)) as E1. pose proof (Hh j ltac:(lia)) as E2.
  rewrite wr_app' by (rewrite ?firstn_length, ?HA; lia). now rewrite app_assoc.
Qed.
Lemma firstn_more (a b : list Z) n : (length a <= n)%nat -> firstn n (a ++ b) = a ++ firstn (n - length a) b.
Proof. clear. intros H. rewrite firstn_app. now rewrite firstn_all2 by lia. Qed.
Lemma firstn_less (a b : list Z) n : (n <= length a)%nat -> firstn n (a ++ b) = firstn n a.
Proof. clear. intros H. rewrite firstn_app. replace (n - length a)%nat with O by lia. cbn [firstn]. apply app_nil_r. Qed.
End Mgf.

Section Sha2x.
Variable junk : nat -> nat -> Z.
Variable vj : nat -> vec.

Lemma lanes_map {A} (l : list A) d n : length l = n -> l = map (fun j => nth j l d) (seq 0 n).
Proof. intros <-. symmetry. apply map_nth_seq. Qed.

Lemma sha256x8_map inlen (b : nat -> bytes) : Z.of_nat inlen < 2 ^ 32 -> (forall j, (j < 8)%nat -> length (b j) = (inlen + 4)%nat) ->
  sha256x8 junk vj (map b (seq 0 8)) (inlen + 4)%nat = Some (map (fun j => SHA256 (norm (b j))) (seq 0 8)).
Proof.
  intros Hm Hb. rewrite sha256x8_ok.
  - apply (f_equal Some), map_ext_in. intros j Hj. apply in_seq in Hj. now rewrite nth_lanes by lia.
  - now rewrite map_length, seq_length.
  - intros j Hj. rewrite nth_lanes by exact Hj. now apply Hb.
  - lia.
Qed.
Lemma sha512x4_map inlen (b : nat -> bytes) : Z.of_nat inlen + 4 < 2 ^ 32 -> (forall j, (j < 4)%nat -> length (b j) = (inlen + 4)%nat) ->
  sha512x4 junk vj (map b (seq 0 4)) (inlen + 4)%nat = Some (map (fun j => SHA512 (norm (b j))) (seq 0 4)).
Proof.
  intros Hm Hb. rewrite sha512x4_ok.
  - apply (f_equal Some), map_ext_in. intros j Hj. apply in_seq in Hj. now rewrite nth_lanes by lia.
  - now rewrite map_length, seq_length.
  - intros j Hj. rewrite nth_lanes by exact Hj. now apply Hb.
  - lia.
Qed.
Lemma SHA512_length m : length (SHA512 m) = 64%nat.
Proof. unfold SHA512. rewrite sha2_from_0 by (cbn; lia).
  rewrite hash_from_length; [reflexivity|cbn; lia|reflexivity|apply H0_value_512]. Qed.
Lemma SHA512_all m : all_bytes (SHA512 m).
Proof. unfold SHA512. rewrite sha2_from_0 by (cbn; lia). apply hash_from_all. Qed.

(** The loop of mgf1x8 and what follows it, from block [i] on. *)
Lemma mgf1x8_rest inlen (x : nat -> bytes) outlen : Z.of_nat inlen < 2 ^ 32 -> (forall j, (j < 8)%nat -> length (x j) = inlen) ->
  forall fuel i m (c A R : nat -> bytes),
  (outlen < 32 * i + 32 * fuel)%nat -> (32 * i <= outlen <= 32 * i + 32 * m)%nat ->
  (forall j, (j < 8)%nat -> length (c j) = 4%nat) -> (forall j, (j < 8)%nat -> length (A j) = (32 * i)%nat) ->
  (forall j, (j < 8)%nat -> length (R j) = (outlen - 32 * i)%nat) ->
  (' (i, inbufs, outs) <- mgf1x8_loop junk vj fuel i outlen inlen (map (fun j => x j ++ c j) (seq 0 8)) (map (fun j => A j ++ R j) (seq 0 8)) ;;
   ' (_, hs) <- mgf_step (sha256x8 junk vj) inlen i inbufs ;;
   mgf_put outs hs (32 * i) (outlen - i * 32))
  = Some (map (fun j => A j ++ firstn (outlen - 32 * i) (flat_map (mf SHA256 x j) (seq i m))) (seq 0 8)).
Proof.
  intros Hm Hx. pose proof (mgf_step_ok 8 inlen (sha256x8 junk vj) SHA256 (fun b => sha256x8_map inlen b Hm) x Hx) as ST.
  assert (LF : forall j i, length (mf SHA256 x j i) = 32%nat) by (intros; apply SHA256_length).
  induction fuel as [|fuel IH]; intros i m c A R Hf Hi Hc HA HR; [lia|].
  cbn [mgf1x8_loop]. destruct (Nat.ltb_spec outlen ((i + 1) * 32)) as [E|E].
  - cbn [bind]. rewrite ST by exact Hc. cbn [bind].
    rewrite mgf_put_ok; [|exact HA|intros j Hj; rewrite HR by exact Hj; lia|intros j Hj; rewrite LF; lia].
    apply (f_equal Some), map_ext_in. intros j Hj. apply in_seq in Hj.
    rewrite skipn_all2 by (rewrite HR by lia; lia). rewrite app_nil_r. f_equal.
    replace (outlen - i * 32)%nat with (outlen - 32 * i)%nat by lia.
    destruct m as [|m]; cbn [seq flat_map].
    + replace (outlen - 32 * i)%nat with O by lia. reflexivity.
    + symmetry. apply firstn_less. rewrite LF. lia.
  - rewrite ST by exact Hc. cbn [bind].
    rewrite mgf_put_ok; [|exact HA|intros j Hj; rewrite HR by exact Hj; lia|intros j Hj; rewrite LF; lia].
    cbn [bind]. destruct m as [|m]; [lia|].
    assert (F32 : forall j, firstn 32 (mf SHA256 x j i) = mf SHA256 x j i) by (intros j; apply firstn_all2; rewrite LF; lia).
    rewrite (map_ext (fun j => (A j ++ firstn 32 (mf SHA256 x j i)) ++ skipn 32 (R j)) (fun j => (A j ++ mf SHA256 x j i) ++ skipn 32 (R j))) by (intros j; now rewrite F32).
    rewrite (IH (S i) m (fun _ => cnt i) (fun j => A j ++ mf SHA256 x j i) (fun j => skipn 32 (R j))).
    + apply (f_equal Some), map_ext. intros j. rewrite <- app_assoc. f_equal. cbn [seq flat_map].
      rewrite firstn_more by (rewrite LF; lia). rewrite LF. do 2 f_equal. lia.
    + lia.
    + lia.
    + reflexivity.
    + intros j Hj. rewrite app_length, HA, LF by exact Hj. lia.
    + intros j Hj. rewrite skipn_length, HR by exact Hj. lia.
Qed.
Lemma mgf_inbufs nl jn inlen (ins : list bytes) : length ins = nl -> (forall j, (j < nl)%nat -> (inlen <= length (nth j ins []))%nat) ->
  exists c : nat -> bytes, (forall j, (j < nl)%nat -> length (c j) = 4%nat) /\
  lanesM nl (fun j => x <- get ins j ;; x <- rd x 0 inlen ;; wr (junk_bytes (junk (jn + j)%nat) (inlen + 4)) 0 x)
  = Some (map (fun j => firstn inlen (nth j ins []) ++ c j) (seq 0 nl)).
Proof.
  intros Li Hi. exists (fun j => skipn inlen (junk_bytes (junk (jn + j)%nat) (inlen + 4))). split.
  - intros j Hj. rewrite skipn_length, junk_length. lia.
  - apply lanesM_ok. intros j Hj. rewrite (ShakeProofs.get_nth ins j []) by lia. cbn [bind].
    rewrite rd_ok by (apply Hi; exact Hj). cbn [bind skipn]. pose proof (Hi j Hj) as E.
    rewrite wr_ok by (rewrite firstn_length, junk_length; lia). cbn [firstn app].
    rewrite firstn_length, Nat.min_l by lia. reflexivity.
Qed.
Lemma ceil_blocks outlen ob : (0 < ob)%nat -> (outlen <= ob * ((outlen + ob - 1) / ob))%nat.
Proof.
  intros H. pose proof (Nat.div_mod (outlen + ob - 1) ob ltac:(lia)) as E.
  pose proof (Nat.mod_upper_bound (outlen + ob - 1) ob ltac:(lia)). lia.
Qed.
Theorem mgf1x8_ok outlen ins inlen : length ins = 8%nat -> (forall j, (j < 8)%nat -> (inlen <= length (nth j ins []))%nat) ->
  Z.of_nat inlen < 2 ^ 32 ->
  mgf1x8 junk vj outlen ins inlen
  = Some (map (fun j => mgf1_of SHA256 32 (norm (firstn inlen (nth j ins []))) outlen) (seq 0 8)).
Proof.
  intros Li Hi Hm. unfold mgf1x8.
  destruct (mgf_inbufs 8 340 inlen ins Li Hi) as (c & Hc & ->). cbn [bind]. cbv zeta.
  assert (LX : forall j, (j < 8)%nat -> length (firstn inlen (nth j ins [])) = inlen).
  { intros j Hj. rewrite firstn_length. specialize (Hi j Hj). lia. }
  etransitivity.
  { apply (mgf1x8_rest inlen (fun j => firstn inlen (nth j ins [])) outlen Hm LX (S outlen) 0 ((outlen + 32 - 1) / 32) c (fun _ => [])
      (fun j => junk_bytes (junk (350 + j)%nat) outlen)).
    - lia.
    - pose proof (ceil_blocks outlen 32 ltac:(lia)). lia.
    - exact Hc.
    - reflexivity.
    - intros j _. rewrite junk_length. lia. }
  apply (f_equal Some), map_ext. intros j. cbn [app]. unfold mgf1_of. f_equal. lia.
Qed.
(** mgf1x4_512 from block [i] on. *)
Lemma mgf1x4_rest inlen (x : nat -> bytes) : Z.of_nat inlen + 4 < 2 ^ 32 -> (forall j, (j < 4)%nat -> length (x j) = inlen) ->
  forall fuel i m rem off (c A R : nat -> bytes),
  (rem <= fuel)%nat -> (rem <= 64 * m)%nat ->
  (forall j, (j < 4)%nat -> length (c j) = 4%nat) -> (forall j, (j < 4)%nat -> length (A j) = off) ->
  (forall j, (j < 4)%nat -> length (R j) = rem) ->
  mgf1x4_loop junk vj fuel i rem off inlen (map (fun j => x j ++ c j) (seq 0 4)) (map (fun j => A j ++ R j) (seq 0 4))
  = Some (map (fun j => A j ++ firstn rem (flat_map (mf SHA512 x j) (seq i m))) (seq 0 4)).
Proof.
  intros Hm Hx. pose proof (mgf_step_ok 4 inlen (sha512x4 junk vj) SHA512 (fun b => sha512x4_map inlen b Hm) x Hx) as ST.
  assert (LF : forall j i, length (mf SHA512 x j i) = 64%nat) by (intros; apply SHA512_length).
  assert (Z0 : forall (A R : nat -> bytes) i m, (forall j, (j < 4)%nat -> length (R j) = 0%nat) ->
    Some (map (fun j => A j ++ R j) (seq 0 4)) = Some (map (fun j => A j ++ firstn 0 (flat_map (mf SHA512 x j) (seq i m))) (seq 0 4))).
  { intros A R i m HR. apply (f_equal Some), map_ext_in. intros j Hj. apply in_seq in Hj. f_equal.
    cbn [firstn]. apply length_zero_iff_nil, HR. lia. }
  induction fuel as [|fuel IH]; intros i m rem off c A R Hf Hi Hc HA HR.
  - assert (rem = 0)%nat by lia. subst rem. cbn [mgf1x4_loop Nat.eqb]. now apply Z0.
  - cbn [mgf1x4_loop]. destruct (Nat.eqb_spec rem 0) as [E|E].
    { subst rem. now apply Z0. }
    rewrite ST by exact Hc. cbn [bind]. set (ts := if (rem <? 64)%nat then rem else 64%nat).
    assert (Hts : (1 <= ts <= 64 /\ ts <= rem /\ (rem < 64 -> ts = rem) /\ (64 <= rem -> ts = 64))%nat).
    { unfold ts. destruct (Nat.ltb_spec rem 64); lia. }
    clearbody ts. destruct Hts as (T1 & T2 & T3 & T4).
    rewrite mgf_put_ok; [|exact HA|intros j Hj; rewrite HR by exact Hj; lia|intros j Hj; rewrite LF; lia].
    cbn [bind]. destruct m as [|m]; [lia|].
    rewrite (IH (S i) m (rem - ts)%nat (off + ts)%nat (fun _ => cnt i) (fun j => A j ++ firstn ts (mf SHA512 x j i)) (fun j => skipn ts (R j))).
    + apply (f_equal Some), map_ext. intros j. rewrite <- app_assoc. f_equal. cbn [seq flat_map].
      destruct (Nat.lt_ge_cases rem 64) as [Q|Q].
      * rewrite (T3 Q), Nat.sub_diag. cbn [firstn]. rewrite app_nil_r. symmetry. apply firstn_less. rewrite LF. lia.
      * rewrite (T4 Q). rewrite firstn_more by (rewrite LF; lia). rewrite LF. f_equal. apply firstn_all2. rewrite LF. lia.
    + lia.
    + lia.
    + reflexivity.
    + intros j Hj. rewrite app_length, firstn_length, HA, LF by exact Hj. lia.
    + intros j Hj. rewrite skipn_length, HR by exact Hj. lia.
Qed.
Theorem mgf1x4_512_ok outlen ins inlen : length ins = 4%nat -> (forall j, (j < 4)%nat -> (inlen <= length (nth j ins []))%nat) ->
  Z.of_nat inlen + 4 < 2 ^ 32 ->
  mgf1x4_512 junk vj outlen ins inlen
  = Some (map (fun j => mgf1_of SHA512 64 (norm (firstn inlen (nth j ins []))) outlen) (seq 0 4)).
Proof.
  intros Li Hi Hm. unfold mgf1x4_512.
  destruct (mgf_inbufs 4 340 inlen ins Li Hi) as (c & Hc & ->). cbn [bind]. cbv zeta.
  assert (LX : forall j, (j < 4)%nat -> length (firstn inlen (nth j ins [])) = inlen).
  { intros j Hj. rewrite firstn_length. specialize (Hi j Hj). lia. }
  etransitivity.
  { apply (mgf1x4_rest inlen (fun j => firstn inlen (nth j ins [])) Hm LX outlen 0 ((outlen + 64 - 1) / 64) outlen 0 c (fun _ => [])
      (fun j => junk_bytes (junk (350 + j)%nat) outlen)).
    - lia.
    - apply (ceil_blocks outlen 64). lia.
    - exact Hc.
    - reflexivity.
    - intros j _. apply junk_length. }
  reflexivity.
Qed.
End Sha2x.

(** ** prf_addr and thash *)
Section Thash.
Variable junk : nat -> nat -> Z.
Variable vj : nat -> vec.
Variable P : params.
Notation N := (p_n P).
Notation Bg := (SPX_SHA512 P).
Hypothesis Hn32 : (1 <= N <= 32)%nat.
Variable c : ctx seeds.
Variable s256 s512 : bytes.
Hypothesis Hst : c_state c = Some (s256, s512).
Notation ps := (c_pub_seed c).
Hypothesis S1 : seeded SHA256p s256 (norm ps ++ repeat 0 (64 - N)).
Hypothesis S2 : Bg = true -> seeded SHA512p s512 (norm ps ++ repeat 0 (128 - N)).
Hypothesis Hps : length ps = N.
Notation L8 := (seq 0 8).

Lemma outs_n_ok nl ob (g : nat -> bytes) : (32 <= ob)%nat -> (forall j, length (g j) = ob) ->
  outs_n P (map g (seq 0 nl)) = Some (map (fun j => firstn N (g j)) (seq 0 nl)).
Proof.
  clear - Hn32. intros Ho Hg. unfold outs_n. rewrite mapM_map. apply mapM_ok. intros j _. now rewrite rd_ok by (rewrite Hg; lia).
Qed.
Lemma seed256 len (b : nat -> bytes) : Z.of_nat len < 2 ^ 32 -> (forall j, (j < 8)%nat -> length (b j) = len) ->
  (outs <- sha256x8_seeded junk vj s256 512 (map b L8) len ;; outs_n P outs)
  = Some (map (fun j => firstn N (SHA256 (norm ps ++ repeat 0 (64 - N) ++ norm (b j)))) L8).
Proof.
  clear S2 Hst. intros Hl Hb. replace 512 with (8 * Z.of_nat (length (norm ps ++ repeat 0 (64 - N)))).
  2:{ rewrite app_length, map_length, repeat_length, Hps. clear - Hn32. lia. }
  rewrite (sha256x8_seeded_ok junk vj _ _ _ _ S1).
  - cbn [bind]. rewrite (outs_n_ok 8 32); [|lia|intros; apply SHA256_length].
    apply (f_equal Some), map_ext_in. intros j Hj. apply in_seq in Hj. rewrite nth_lanes, <- app_assoc by lia. reflexivity.
  - now rewrite map_length, seq_length.
  - intros j Hj. rewrite nth_lanes by exact Hj. now apply Hb.
  - clear - Hl. lia.
Qed.
Lemma seed512 len (b : nat -> bytes) : Bg = true -> Z.of_nat len < 2 ^ 32 -> (forall j, (j < 4)%nat -> length (b j) = len) ->
  (outs <- sha512x4_seeded junk vj s512 1024 (map b (seq 0 4)) len ;; outs_n P outs)
  = Some (map (fun j => firstn N (SHA512 (norm ps ++ repeat 0 (128 - N) ++ norm (b j)))) (seq 0 4)).
Proof.
  intros HB Hl Hb. specialize (S2 HB).
  assert (LP : length (norm ps ++ repeat 0 (128 - N)) = 128%nat).
  { rewrite app_length, map_length, repeat_length, Hps. clear - Hn32. lia. }
  replace 1024 with (8 * Z.of_nat (length (norm ps ++ repeat 0 (128 - N)))) by (rewrite LP; reflexivity).
  rewrite (sha512x4_seeded_ok junk vj _ _ _ _ S2).
  - cbn [bind]. rewrite (outs_n_ok 4 64); [|lia|intros; apply SHA512_length].
    apply (f_equal Some), map_ext_in. intros j Hj. apply in_seq in Hj. rewrite nth_lanes, <- app_assoc by lia. reflexivity.
  - now rewrite map_length, seq_length.
  - intros j Hj. rewrite nth_lanes by exact Hj. now apply Hb.
  - clear - Hl. lia.
  - rewrite LP. reflexivity.
Qed.
Lemma seed512_twice len (b : nat -> bytes) : Bg = true -> Z.of_nat len < 2 ^ 32 -> (forall j, (j < 8)%nat -> length (b j) = len) ->
  seeded_512_twice junk vj P s512 (map b L8) len
  = Some (map (fun j => firstn N (SHA512 (norm ps ++ repeat 0 (128 - N) ++ norm (b j)))) L8).
Proof.
  intros HB Hl Hb. unfold seeded_512_twice.
  change (firstn 4 (map b L8)) with (map b (seq 0 4)).
  change (skipn 4 (map b L8)) with (map (fun j => b (4 + j)%nat) (seq 0 4)).
  pose proof (seed512 len b HB Hl ltac:(intros; apply Hb; lia)) as E1.
  pose proof (seed512 len (fun j => b (4 + j)%nat) HB Hl ltac:(intros; apply Hb; lia)) as E2.
  destruct (sha512x4_seeded junk vj s512 1024 (map b (seq 0 4)) len) as [o1|]; [|discriminate E1].
  destruct (sha512x4_seeded junk vj s512 1024 (map (fun j => b (4 + j)%nat) (seq 0 4)) len) as [o2|]; [|discriminate E2].
  cbn [bind] in E1, E2 |- *. rewrite E1. cbn [bind]. rewrite E2. reflexivity.
Qed.

Theorem prf_addrx8_ok addrs : length addrs = 8%nat -> length (c_sk_seed c) = N ->
  (forall j, (j < 8)%nat -> length (nth j addrs []) = 32%nat) ->
  prf_addrx8_sha2 junk vj P c addrs
  = Some (map (fun j => sha2_PRF N (norm ps) (norm (c_sk_seed c)) (norm (firstn 22 (nth j addrs [])))) L8).
Proof.
  clear S2. intros La Hsk Ha. unfold prf_addrx8_sha2.
  rewrite (lanesM_ok 8 _ (fun j => firstn 22 (nth j addrs []) ++ c_sk_seed c)).
  - cbn [bind]. rewrite Hst. cbn [bind]. rewrite (seed256 (SPX_SHA256_ADDR_BYTES + N)).
    + apply (f_equal Some), map_ext. intros j. unfold sha2_PRF, sha2_PRF_of. now rewrite map_app.
    + clear - Hn32. change SPX_SHA256_ADDR_BYTES with 22%nat. lia.
    + intros j Hj. rewrite app_length, firstn_length, Ha, Hsk by exact Hj. reflexivity.
  - intros j Hj. rewrite (ShakeProofs.get_nth addrs j []) by lia. cbn [bind]. change SPX_SHA256_ADDR_BYTES with 22%nat.
    set (J := junk_bytes _ _). assert (LJ : length J = (N + 22)%nat) by apply junk_length. clearbody J.
    rewrite (addr22_0 P junk ltac:(lia) J _ N) by (rewrite ?Ha by exact Hj; lia). cbn [bind].
    rewrite <- (app_nil_r (skipn 22 J)). rewrite memcpy_mid; rewrite ?firstn_length, ?skipn_length, ?Ha by exact Hj; try lia.
    now rewrite app_nil_r.
Qed.

Section Blocks.
Variable k : nat.
Variable ins addrs : list bytes.
Hypothesis Hk : Z.of_nat (k * N) < 2 ^ 31.
Hypothesis Li : length ins = 8%nat.
Hypothesis La : length addrs = 8%nat.
Hypothesis Hi : forall j, (j < 8)%nat -> length (nth j ins []) = (k * N)%nat.
Hypothesis Ha : forall j, (j < 8)%nat -> length (nth j addrs []) = 32%nat.
Notation a22 j := (firstn 22 (nth j addrs [])).
Notation x j := (nth j ins []).

Lemma a22_length j : (j < 8)%nat -> length (a22 j) = 22%nat.
Proof. clear - Ha. intros Hj. rewrite firstn_length, Ha by exact Hj. reflexivity. Qed.
Lemma simple_bufs_ok : simple_bufs junk P k ins addrs = Some (map (fun j => a22 j ++ x j) L8).
Proof.
  clear Hst S1 S2 Hps Hk. unfold simple_bufs. apply lanesM_ok. intros j Hj.
  rewrite (ShakeProofs.get_nth addrs j []), (ShakeProofs.get_nth ins j []) by lia. cbn [bind]. change SPX_SHA256_ADDR_BYTES with 22%nat.
  set (J := junk_bytes _ _). assert (LJ : length J = (22 + k * N)%nat) by apply junk_length. clearbody J.
  rewrite (addr22_0 P junk ltac:(lia) J _ (k * N)) by (rewrite ?Ha by exact Hj; lia). cbn [bind].
  rewrite <- (app_nil_r (skipn 22 J)).
  rewrite memcpy_mid; rewrite ?a22_length, ?skipn_length, ?Hi by exact Hj; try lia.
  now rewrite app_nil_r.
Qed.
Lemma simple_len j : (j < 8)%nat -> length (a22 j ++ x j) = (SPX_SHA256_ADDR_BYTES + k * N)%nat.
Proof. clear - Ha Hi. intros Hj. rewrite app_length, a22_length, Hi by exact Hj. reflexivity. Qed.
Lemma len_ok : Z.of_nat (SPX_SHA256_ADDR_BYTES + k * N) < 2 ^ 32.
Proof. clear - Hk. change SPX_SHA256_ADDR_BYTES with 22%nat. revert Hk. generalize (k * N)%nat. intros q. lia. Qed.
Lemma robust_bufs_ok : exists r : nat -> bytes, (forall j, (j < 8)%nat -> length (r j) = (k * N)%nat) /\
  robust_bufs junk P c k addrs = Some (map (fun j => (ps ++ a22 j) ++ r j) L8).
Proof.
  clear Hst S1 S2 Hk. unfold robust_bufs.
  exists (fun j => skipn 22 (skipn N (junk_bytes (junk (380 + j)%nat) (N + SPX_SHA256_ADDR_BYTES + k * N)))). split.
  - intros j _. rewrite !skipn_length, junk_length. change SPX_SHA256_ADDR_BYTES with 22%nat. lia.
  - apply lanesM_ok. intros j Hj. rewrite (ShakeProofs.get_nth addrs j []) by lia. cbn [bind].
    set (J := junk_bytes _ _). assert (LJ : length J = (N + 22 + k * N)%nat) by apply junk_length. clearbody J.
    change SPX_SHA256_ADDR_BYTES with 22%nat.
    rewrite <- (firstn_skipn N J) at 1. rewrite memcpy_all by (rewrite ?firstn_length; lia). cbn [bind].
    rewrite <- Hps at 2. rewrite (addr22 P junk ltac:(lia) (skipn N J) _ (k * N)) by (rewrite ?skipn_length, ?Ha by exact Hj; lia).
    now rewrite <- app_assoc.
Qed.
Lemma xor_masks_ok (sel : nat -> nat) nl (r m : nat -> bytes) : (forall j, (j < nl)%nat -> (sel j < 8)%nat) ->
  (forall j, (j < 8)%nat -> length (r j) = (k * N)%nat) ->
  (forall j, length (m j) = (k * N)%nat) -> (forall j, all_bytes (m j)) ->
  xor_masks P k (map (fun j => x (sel j)) (seq 0 nl)) (map (fun j => (ps ++ a22 (sel j)) ++ r (sel j)) (seq 0 nl)) (map m (seq 0 nl))
  = Some (map (fun j => ps ++ a22 (sel j) ++ xor_str (norm (x (sel j))) (m j)) (seq 0 nl)).
Proof.
  clear Hst S1 S2 Hk. intros Hs Hr Hm Am. unfold xor_masks. rewrite combine_map, combine_map, mapM_map.
  apply mapM_ok. intros j Hj. apply in_seq in Hj. pose proof (Hs j ltac:(lia)) as Hj'.
  rewrite <- (app_nil_r (r (sel j))).
  rewrite xor_loop_ok.
  - rewrite app_nil_r. cbn [skipn]. rewrite (firstn_all2 (x (sel j))), (firstn_all2 (m j)), (norm_bytes (m j)), app_assoc;
      [reflexivity|apply Am|rewrite Hm; lia|rewrite Hi by exact Hj'; lia].
  - rewrite app_length, Hps, a22_length by exact Hj'. reflexivity.
  - now rewrite Hr.
  - rewrite Hi by exact Hj'. lia.
  - rewrite Hm. lia.
Qed.
Lemma skip_seed (b : nat -> bytes) nl : after_seed P (map (fun j => ps ++ b j) (seq 0 nl)) = map b (seq 0 nl).
Proof.
  clear - Hps. unfold after_seed. rewrite map_map. apply map_ext. intros j. rewrite skipn_app, Hps, Nat.sub_diag.
  rewrite skipn_all2 by lia. reflexivity.
Qed.
Lemma mgf_in j : (j < 8)%nat -> forall r, norm (firstn (N + SPX_SHA256_ADDR_BYTES) ((ps ++ a22 j) ++ r)) = norm ps ++ norm (a22 j).
Proof.
  clear - Ha Hps. intros Hj r. rewrite firstn_more by (rewrite app_length, Hps, a22_length by exact Hj; reflexivity || lia).
  rewrite app_length, Hps, a22_length, Nat.sub_diag by exact Hj. cbn [firstn]. now rewrite app_nil_r, map_app.
Qed.
Theorem thashx8_sha2_ok robust :
  thashx8_sha2 junk vj P robust c k ins addrs
  = Some (map (fun j => sha2_T N robust (norm ps) (norm (a22 j)) (norm (x j))) L8).
Proof.
  assert (BT : forall j, (j < 8)%nat -> (N <? length (norm (x j)))%nat = (1 <? k)%nat).
  { intros j Hj. rewrite map_length, Hi by exact Hj. clear - Hn32. destruct (Nat.ltb_spec 1 k); [apply Nat.ltb_lt|apply Nat.ltb_ge]; nia. }
  assert (LI : Z.of_nat (N + SPX_SHA256_ADDR_BYTES) < 2 ^ 31).
  { clear - Hn32. change SPX_SHA256_ADDR_BYTES with 22%nat. lia. }
  unfold thashx8_sha2. destruct (Bg && (1 <? k)%nat) eqn:Eb.
  - assert (HB : Bg = true) by (now apply andb_true_iff in Eb). destruct robust.
    + unfold thashx8_robust_512. destruct robust_bufs_ok as (r & Hr & ->). cbn [bind].
      set (mk := fun j => mgf1_of SHA512 64 (norm ps ++ norm (a22 j)) (k * N)).
      assert (Lmk : forall j, length (mk j) = (k * N)%nat) by (intros; apply mgf1_of_length; [lia|apply SHA512_length]).
      assert (Amk : forall j, all_bytes (mk j)) by (intros; apply mgf1_of_all, SHA512_all).
      assert (MG : forall sel, (forall j, (j < 4)%nat -> (sel j < 8)%nat) ->
        mgf1x4_512 junk vj (k * N) (map (fun j => (ps ++ a22 (sel j)) ++ r (sel j)) (seq 0 4)) (N + SPX_SHA256_ADDR_BYTES)
        = Some (map (fun j => mk (sel j)) (seq 0 4))).
      { intros sel Hsel. rewrite mgf1x4_512_ok.
        - apply (f_equal Some), map_ext_in. intros j Hj. apply in_seq in Hj. rewrite nth_lanes by lia.
          rewrite mgf_in by (apply Hsel; lia). reflexivity.
        - now rewrite map_length, seq_length.
        - intros j Hj. rewrite nth_lanes by exact Hj. rewrite !app_length, Hps, a22_length by (now apply Hsel).
          change SPX_SHA256_ADDR_BYTES with 22%nat. lia.
        - clear - LI. lia. }
      change (firstn 4 (map (fun j => (ps ++ a22 j) ++ r j) L8)) with (map (fun j => (ps ++ a22 j) ++ r j) (seq 0 4)).
      change (skipn 4 (map (fun j => (ps ++ a22 j) ++ r j) L8))
        with (map (fun j => (ps ++ a22 (4 + j)) ++ r (4 + j)%nat) (seq 0 4)).
      rewrite (MG (fun j => j)) by (intros; lia). cbn [bind].
      assert (I1 : firstn 4 ins = map (fun j => x j) (seq 0 4)) by (rewrite (lanes_map ins [] 8 Li) at 1; reflexivity).
      assert (I2 : skipn 4 ins = map (fun j => x (4 + j)) (seq 0 4)) by (rewrite (lanes_map ins [] 8 Li) at 1; reflexivity).
      rewrite I1, I2.
      rewrite (xor_masks_ok (fun j => j) 4 r (fun j => mk j)); [|intros; lia|exact Hr|exact Lmk|exact Amk]. cbn [bind].
      rewrite (MG (fun j => 4 + j)%nat) by (intros; lia). cbn [bind].
      rewrite (xor_masks_ok (fun j => 4 + j)%nat 4 r (fun j => mk (4 + j)%nat)); [|intros; lia|exact Hr|intros; apply Lmk|intros; apply Amk].
      cbn [bind]. rewrite Hst. cbn [bind].
      change (map (fun j => ps ++ a22 j ++ xor_str (norm (x j)) (mk j)) (seq 0 4)
        ++ map (fun j => ps ++ a22 (4 + j) ++ xor_str (norm (x (4 + j))) (mk (4 + j)%nat)) (seq 0 4))
        with (map (fun j => ps ++ a22 j ++ xor_str (norm (x j)) (mk j)) L8).
      rewrite skip_seed. rewrite seed512_twice; [|exact HB|exact len_ok|].
      * apply (f_equal Some), map_ext_in. intros j Hj. apply in_seq in Hj. unfold sha2_T, sha2_T_of.
        change (big N) with Bg. rewrite BT, Eb by lia. cbv zeta. cbn [HashSpec.shaX obX bsX].
        rewrite map_app, (norm_bytes (xor_str _ _)) by (apply xor_str_bytes; [apply norm_all|apply Amk]).
        rewrite map_length, Hi by lia. reflexivity.
      * intros j Hj. rewrite app_length, a22_length, xor_str_length; rewrite ?map_length, ?Hi, ?Lmk by exact Hj; try reflexivity; exact Hj.
    + unfold thashx8_simple_512. rewrite simple_bufs_ok. cbn [bind]. rewrite Hst. cbn [bind].
      rewrite seed512_twice; [|exact HB|exact len_ok|exact simple_len].
      apply (f_equal Some), map_ext_in. intros j Hj. apply in_seq in Hj. unfold sha2_T, sha2_T_of.
      change (big N) with Bg. rewrite BT, Eb by lia. cbv zeta. cbn [HashSpec.shaX bsX]. now rewrite map_app.
  - destruct robust.
    + unfold thashx8_robust_256. destruct robust_bufs_ok as (r & Hr & ->). cbn [bind].
      set (mk := fun j => mgf1_of SHA256 32 (norm ps ++ norm (a22 j)) (k * N)).
      assert (Lmk : forall j, length (mk j) = (k * N)%nat) by (intros; apply mgf1_of_length; [lia|apply SHA256_length]).
      assert (Amk : forall j, all_bytes (mk j)) by (intros; apply mgf1_of_all, SHA256_all).
      rewrite mgf1x8_ok.
      2:{ now rewrite map_length, seq_length. }
      2:{ intros j Hj. rewrite nth_lanes by exact Hj. rewrite !app_length, Hps, a22_length by exact Hj.
          change SPX_SHA256_ADDR_BYTES with 22%nat. lia. }
      2:{ clear - LI. lia. }
      rewrite (map_ext_in _ (fun j => mk j)).
      2:{ intros j Hj. apply in_seq in Hj. rewrite nth_lanes by lia. rewrite mgf_in by lia. reflexivity. }
      cbn [bind].
      assert (I1 : ins = map (fun j => x j) L8) by exact (lanes_map ins [] 8 Li).
      rewrite I1 at 1.
      rewrite (xor_masks_ok (fun j => j) 8 r (fun j => mk j)); [|intros; lia|exact Hr|exact Lmk|exact Amk]. cbn [bind].
      rewrite Hst. cbn [bind]. rewrite skip_seed. rewrite seed256; [|exact len_ok|].
      * apply (f_equal Some), map_ext_in. intros j Hj. apply in_seq in Hj. unfold sha2_T, sha2_T_of.
        change (big N) with Bg. rewrite BT, Eb by lia. cbv zeta. cbn [HashSpec.shaX obX bsX].
        rewrite map_app, (norm_bytes (xor_str _ _)) by (apply xor_str_bytes; [apply norm_all|apply Amk]).
        rewrite map_length, Hi by lia. reflexivity.
      * intros j Hj. rewrite app_length, a22_length, xor_str_length; rewrite ?map_length, ?Hi, ?Lmk by exact Hj; try reflexivity; exact Hj.
    + unfold thashx8_simple_256. rewrite simple_bufs_ok. cbn [bind]. rewrite Hst. cbn [bind].
      rewrite seed256; [|exact len_ok|exact simple_len].
      apply (f_equal Some), map_ext_in. intros j Hj. apply in_seq in Hj. unfold sha2_T, sha2_T_of.
      change (big N) with Bg. rewrite BT, Eb by lia. cbv zeta. cbn [HashSpec.shaX bsX]. now rewrite map_app.
Qed.
End Blocks.
End Thash.

(** sha2-avx2: the multi-lane functions agree with the one-lane ones. *)
Theorem sha2_thash_lanes P junk vj robust : wf_params P = true -> (p_n P <= 32)%nat ->
  forall c k ins addrs, ctx_ok P (sha2_suite P junk robust) c -> Z.of_nat (k * p_n P) < 2 ^ 31 ->
  length ins = 8%nat -> length addrs = 8%nat ->
  Forall (fun x => length x = (k * p_n P)%nat) ins -> Forall (fun a => length a = SPX_ADDR_BYTES) addrs ->
  lx_thash (sha2_avx2_lanes junk vj P robust) c k ins addrs
  = mapM2 (hs_thash (sha2_suite P junk robust) c k) ins addrs.
Proof.
  intros Hwf Hn. assert (Hn1 : (1 <= p_n P <= 32)%nat) by (unfold wf_params in Hwf; clear - Hwf Hn; lia).
  intros c k ins addrs Hc Hkn Li La Fi Fa.
  pose proof Hc as (H1 & H2 & Hst). cbn [sha2_suite hs_init hs_st] in *.
  destruct (seed_state_ok P junk Hn _ H1) as (s1 & s2 & E & S1 & S2). rewrite E in Hst.
  assert (Hin : forall j, (j < 8)%nat -> length (nth j ins []) = (k * p_n P)%nat)
    by (intros j Hj; apply (Forall_nth_len _ ins j Fi); rewrite Li; exact Hj).
  assert (Had : forall j, (j < 8)%nat -> length (nth j addrs []) = 32%nat)
    by (intros j Hj; apply (Forall_nth_len _ addrs j Fa); rewrite La; exact Hj).
  cbn [sha2_avx2_lanes lx_thash].
  rewrite (thashx8_sha2_ok junk vj P Hn1 c s1 s2 Hst S1 S2 H1 k ins addrs Hkn Li La Hin Had robust). symmetry.
  apply mapM2_lanes with (d := []) (d' := []); auto. intros j Hj.
  rewrite (sha2_hs_thash P junk Hn Hwf robust c k _ _ Hc (Had j Hj) (Hin j Hj)). f_equal. apply sha2_T_eq.
  - exact Hn.
  - now rewrite map_length.
  - rewrite map_length, firstn_length, Had by exact Hj. reflexivity.
  - rewrite map_length, Hin by exact Hj. clear - Hkn. lia.
Qed.
Theorem sha2_avx2_lanes_ok P junk vj robust : wf_params P = true -> (p_n P <= 32)%nat ->
  lanes_ok P (sha2_suite P junk robust) (sha2_avx2_lanes junk vj P robust) 3.
Proof.
  intros Hwf Hn. assert (Hn1 : (1 <= p_n P <= 32)%nat) by (unfold wf_params in Hwf; clear - Hwf Hn; lia).
  constructor.
  - intros c k ins addrs Hc Hk Li La Fi Fa. change (NL 3) with 8%nat in *.
    apply sha2_thash_lanes; auto. clear - Hk Hn; nia.
  - intros c addrs (H1 & H2 & Hst) La Fa. change (NL 3) with 8%nat in *. cbn [sha2_suite hs_init hs_st] in *.
    destruct (seed_state_ok P junk Hn _ H1) as (s1 & s2 & E & S1 & S2). rewrite E in Hst.
    assert (Had : forall j, (j < 8)%nat -> length (nth j addrs []) = 32%nat)
      by (intros j Hj; apply (Forall_nth_len _ addrs j Fa); rewrite La; exact Hj).
    cbn [sha2_avx2_lanes lx_prf_addr].
    rewrite (prf_addrx8_ok junk vj P Hn1 c s1 s2 Hst S1 H1 addrs La H2 Had). symmetry.
    apply mapM_lanes with (d' := []); auto. intros j Hj.
    apply (sha2_prf_ok P junk Hn c _ s1 s2 Hst S1 H2). now apply Had.
Qed.
