(** sha256x8, sha256x8_seeded, sha512x4_seeded and the multi-lane MGF1 compute in every lane what sha2.c
    computes; the multi-lane thash and prf_addr of sha2-avx2 agree with the scalar ones. *)
From Verif Require Import Base BaseFacts Params Address Suite Fips202 ShakeProofs Sha2Spec Sha2 Sha2Facts Sha2Proofs
  Utils HashShake HashSha2 HashSha2Proofs Lanes LaneFacts LaneKeccak LaneKeccakProofs LaneShake LaneShakeProofs LaneShakeOk
  LaneSha2 LaneSha2Proofs.

Lemma bits_high x w i : 0 <= x < 2 ^ w -> 0 <= w <= i -> Z.testbit x i = false.
Proof.
  intros Hx Hi. destruct (Z.eq_dec x 0) as [->|Hn]; [apply Z.bits_0|].
  apply Z.bits_above_log2; [lia|]. apply Z.lt_le_trans with w; [|lia]. apply Z.log2_lt_pow2; lia.
Qed.
Lemma ones_bit w i : 0 <= w -> 0 <= i -> Z.testbit (2 ^ w - 1) i = (i <? w).
Proof.
  intros Hw Hi. rewrite Z.sub_1_r, <- Z.ones_equiv. destruct (Z.ltb_spec i w); [apply Z.ones_spec_low|apply Z.ones_spec_high]; lia.
Qed.
Lemma not_word w x : 0 <= w -> 0 <= x < 2 ^ w -> Z.lxor x (2 ^ w - 1) = Z.ldiff (2 ^ w - 1) x.
Proof.
  intros Hw Hx. apply Z.bits_inj'. intros i Hi. rewrite Z.lxor_spec, Z.ldiff_spec, ones_bit by lia.
  destruct (Z.ltb_spec i w) as [L|L]; [now destruct (Z.testbit x i)|]. rewrite (bits_high x w i) by lia. reflexivity.
Qed.
Lemma ch_word w x y z : 0 <= w -> 0 <= x < 2 ^ w -> 0 <= z < 2 ^ w ->
  Z.lxor z (Z.land x (Z.lxor y z)) = Z.lxor (Z.land x y) (Z.land (Z.ldiff (2 ^ w - 1) x) z).
Proof.
  intros Hw Hx Hz. apply Z.bits_inj'. intros i Hi.
  rewrite !Z.lxor_spec, !Z.land_spec, Z.lxor_spec, Z.ldiff_spec, ones_bit by lia.
  destruct (Z.ltb_spec i w) as [L|L].
  - now destruct (Z.testbit x i), (Z.testbit y i), (Z.testbit z i).
  - rewrite (bits_high x w i), (bits_high z w i) by lia. reflexivity.
Qed.
Lemma maj_eq x y z : Z.lxor z (Z.land (Z.lxor x z) (Z.lxor y z)) = Maj x y z.
Proof.
  unfold Maj. apply Z.bits_inj'. intros i Hi. rewrite !Z.lxor_spec, !Z.land_spec, !Z.lxor_spec.
  now destruct (Z.testbit x i), (Z.testbit y i), (Z.testbit z i).
Qed.
Lemma add3 B a b c : add B (add B a b) c = (a + b + c) mod 2 ^ sw B.
Proof. unfold add. apply Zplus_mod_idemp_l. Qed.
Lemma add4 B a b c d : add B (add B (add B a b) c) d = (a + b + c + d) mod 2 ^ sw B.
Proof. rewrite (add3 B a b c). unfold add. apply Zplus_mod_idemp_l. Qed.
Lemma add5 B a b c d e : add B (add B (add B (add B a b) c) d) e = (a + b + c + d + e) mod 2 ^ sw B.
Proof. rewrite (add4 B a b c d). unfold add. apply Zplus_mod_idemp_l. Qed.

Tactic Notation "transp" integer(n) := intros s Ls; do n (destruct s as [|? s]; cbn [length] in Ls; try discriminate Ls);
  destruct s as [|? ?]; cbn [length] in Ls; try discriminate Ls;
  eexists; split; [reflexivity|]; split; [reflexivity|]; intros i j Hi Hj;
  do n (destruct i as [|i]; [do n (destruct j as [|j]; [reflexivity|]); exfalso; cbn in Hj; lia|]); exfalso; cbn in Hi; lia.
Ltac mask32 := intros b Lb; do 32 (destruct b as [|? b]; cbn [length] in Lb; try discriminate Lb);
  destruct b as [|? ?]; cbn [length] in Lb; try discriminate Lb; vm_compute; reflexivity.


Lemma vadd_32 a b j : vadd 4 a b j = add SHA256p (a j) (b j).
Proof. unfold vadd, add. change (8 * Z.of_nat 4) with 32. change (sw SHA256p) with 32. reflexivity. Qed.
Lemma vadd_64 a b j : vadd 8 a b j = add SHA512p (a j) (b j).
Proof. unfold vadd, add. change (8 * Z.of_nat 8) with 64. change (sw SHA512p) with 64. reflexivity. Qed.
Lemma vrotr_32 a y j : vrotr 4 a y j = rotr SHA256p y (a j).
Proof. unfold vrotr, vor, vshr, vshl, rotr. change (8 * Z.of_nat 4) with 32. change (sw SHA256p) with 32. reflexivity. Qed.
Lemma vrotr_64 a y j : vrotr 8 a y j = rotr SHA512p y (a j).
Proof. unfold vrotr, vor, vshr, vshl, rotr. change (8 * Z.of_nat 8) with 64. change (sw SHA512p) with 64. reflexivity. Qed.
Lemma vxor3_lane a b c j : vxor3 a b c j = Z.lxor (Z.lxor (a j) (b j)) (c j).
Proof. reflexivity. Qed.

Lemma T0_256 e f g h rc w j : 0 <= e j < 2 ^ 32 -> 0 <= f j < 2 ^ 32 -> 0 <= g j < 2 ^ 32 ->
  vi_T0 impl256 e f g h rc w j
  = add SHA256p (add SHA256p (add SHA256p (add SHA256p (h j) (Sig SHA256p (sS1 SHA256p) (e j)))
      (Sha2Spec.Ch SHA256p (e j) (f j) (g j))) rc) (w j).
Proof.
  intros He Hf Hg. unfold impl256, vi_T0, vadd5. rewrite !vadd_32, vxor3_lane, !vrotr_32.
  unfold Sha2Spec.Ch. change (sw SHA256p) with 32. rewrite <- (not_word 32 (e j)); [|lia|exact He]. reflexivity.
Qed.
Lemma T1_256 a b c j : vi_T1 impl256 a b c j = add SHA256p (Sig SHA256p (sS0 SHA256p) (a j)) (Maj (a j) (b j) (c j)).
Proof. unfold impl256, vi_T1. rewrite vadd_32, !vxor3_lane, !vrotr_32. reflexivity. Qed.
Lemma next_256 w2 w16 w7 w15 j : vi_next impl256 w2 w16 w7 w15 j
  = add SHA256p (add SHA256p (add SHA256p (sig SHA256p (ss1 SHA256p) (w2 j)) (w7 j)) (sig SHA256p (ss0 SHA256p) (w15 j))) (w16 j).
Proof.
  unfold impl256, vi_next, vadd4. rewrite !vadd_32, !vxor3_lane, !vrotr_32, !add4.
  change (sig SHA256p (ss1 SHA256p) (w2 j)) with
    (Z.lxor (Z.lxor (rotr SHA256p 17 (w2 j)) (rotr SHA256p 19 (w2 j))) (vshr w2 10 j)).
  change (sig SHA256p (ss0 SHA256p) (w15 j)) with
    (Z.lxor (Z.lxor (rotr SHA256p 7 (w15 j)) (rotr SHA256p 18 (w15 j))) (vshr w15 3 j)).
  f_equal. ring.
Qed.
Lemma transpose8_ok : forall s, length s = 8%nat -> exists t, transpose8 s = Some t /\ length t = 8%nat
  /\ forall i j, (i < 8)%nat -> (j < 8)%nat -> nth i t v0 j = nth j s v0 i.
Proof. transp 8. Qed.
Lemma mask256_ok : forall b, length b = 32%nat ->
  shuffle_epi8 b (vi_mask impl256) = flat_map (fun j => rev (chunk 4 j b)) (seq 0 8).
Proof. mask32. Qed.
Lemma vagree256 : vagree impl256 SHA256p.
Proof.
  constructor.
  - reflexivity.
  - cbn. lia.
  - reflexivity.
  - reflexivity.
  - reflexivity.
  - reflexivity.
  - exists 8%nat. reflexivity.
  - exact T0_256.
  - exact T1_256.
  - exact next_256.
  - vm_compute. reflexivity.
  - vm_compute. reflexivity.
  - cbn. lia.
  - vm_compute. reflexivity.
  - exact transpose8_ok.
  - exact mask256_ok.
  - cbn. lia.
  - reflexivity.
  - reflexivity.
Qed.
Lemma T0_512 e f g h rc w j : 0 <= e j < 2 ^ 64 -> 0 <= f j < 2 ^ 64 -> 0 <= g j < 2 ^ 64 ->
  vi_T0 impl512 e f g h rc w j
  = add SHA512p (add SHA512p (add SHA512p (add SHA512p (h j) (Sig SHA512p (sS1 SHA512p) (e j)))
      (Sha2Spec.Ch SHA512p (e j) (f j) (g j))) rc) (w j).
Proof.
  intros He Hf Hg. unfold impl512, vi_T0, vadd5. rewrite !vadd_64, vxor3_lane, !vrotr_64, !add5.
  unfold Sha2Spec.Ch. change (sw SHA512p) with 64. rewrite <- (ch_word 64 (e j)); [|lia|exact He|exact Hg].
  change (Sig SHA512p (sS1 SHA512p) (e j)) with
    (Z.lxor (Z.lxor (rotr SHA512p 14 (e j)) (rotr SHA512p 18 (e j))) (rotr SHA512p 41 (e j))).
  unfold vxor, vand, vset1. f_equal. ring.
Qed.
Lemma T1_512 a b c j : vi_T1 impl512 a b c j = add SHA512p (Sig SHA512p (sS0 SHA512p) (a j)) (Maj (a j) (b j) (c j)).
Proof. unfold impl512, vi_T1. rewrite vadd_64, !vxor3_lane, !vrotr_64, <- maj_eq. reflexivity. Qed.
Lemma next_512 w2 w16 w7 w15 j : vi_next impl512 w2 w16 w7 w15 j
  = add SHA512p (add SHA512p (add SHA512p (sig SHA512p (ss1 SHA512p) (w2 j)) (w7 j)) (sig SHA512p (ss0 SHA512p) (w15 j))) (w16 j).
Proof. unfold impl512, vi_next, vadd4. rewrite !vadd_64, !vxor3_lane, !vrotr_64. reflexivity. Qed.
Lemma transpose4_ok : forall s, length s = 4%nat -> exists t, transpose4 s = Some t /\ length t = 4%nat
  /\ forall i j, (i < 4)%nat -> (j < 4)%nat -> nth i t v0 j = nth j s v0 i.
Proof. transp 4. Qed.
Lemma mask512_ok : forall b, length b = 32%nat ->
  shuffle_epi8 b (vi_mask impl512) = flat_map (fun j => rev (chunk 8 j b)) (seq 0 4).
Proof. mask32. Qed.
Lemma len512_ok c : (true = true -> 0 <= 8 * c < 2 ^ 64) -> be_bytes 16 (8 * c) = repeat 0 8 ++ be_bytes 8 (8 * c).
Proof.
  intros Hc. specialize (Hc eq_refl).
  change 16%nat with (8 + 8)%nat. rewrite be_bytes_wide. f_equal. change (256 ^ Z.of_nat 8) with (2 ^ 64).
  rewrite Z.div_small by exact Hc. apply be_bytes_0.
Qed.
Lemma vagree512 : vagree impl512 SHA512p.
Proof.
  constructor.
  - reflexivity.
  - cbn. lia.
  - reflexivity.
  - reflexivity.
  - reflexivity.
  - reflexivity.
  - exists 10%nat. reflexivity.
  - exact T0_512.
  - exact T1_512.
  - exact next_512.
  - vm_compute. reflexivity.
  - vm_compute. reflexivity.
  - cbn. lia.
  - vm_compute. reflexivity.
  - exact transpose4_ok.
  - exact mask512_ok.
  - cbn. lia.
  - reflexivity.
  - exact len512_ok.
Qed.

(** ** The hash functions *)
Section Hash.
Variable V : vimpl.
Variable B : sha_params.
Hypothesis AG : vagree V B.
Variable junk : nat -> nat -> Z.
Variable vj : nat -> vec.
Notation nl := (vi_nl V).

Lemma lane_vset1 H j : lane j (map vset1 H) = H.
Proof. clear. unfold lane. rewrite map_map. apply map_id. Qed.
Lemma sval_vset1 H : hash_value B H -> sval V B (map vset1 H).
Proof.
  clear. intros HV. split; [rewrite map_length; apply HV|]. intros j _. now rewrite lane_vset1.
Qed.
Lemma shax_ok ins inlen : hash_value B (H0 B) -> length ins = nl ->
  (forall j, (j < nl)%nat -> length (nth j ins []) = inlen) -> Z.of_nat inlen < vi_imod V ->
  (vi_clear V = true -> 8 * Z.of_nat inlen < 2 ^ 64) ->
  shax V junk vj ins inlen
  = Some (map (fun j => hash_from B (H0 B) (Z.of_nat inlen) (norm (nth j ins []))) (seq 0 nl)).
Proof.
  intros HV Li Hi Hm Hc. unfold shax. rewrite (va_iv _ _ AG). change 0 with (8 * 0) at 1.
  rewrite (hashx_ok V B AG junk vj); [|now apply sval_vset1|exact Li|exact Hi|exact Hm|].
  - apply (f_equal Some), map_ext. intros j. now rewrite lane_vset1.
  - clear - Hc. intros Q. specialize (Hc Q). lia.
Qed.
Lemma mapM_load (load : bytes -> nat -> option Z) seed wb :
  (forall x o, (o + wb <= length x)%nat -> load x o = Some (be_num (norm (firstn wb (skipn o x))))) -> wb = swb B ->
  forall k o, (wb * (o + k) <= length seed)%nat ->
  mapM (fun i => t <- load seed (wb * i)%nat ;; Some (vset1 t)) (seq o k)
  = Some (map vset1 (words B k (norm (skipn (wb * o) seed)))).
Proof.
  clear. intros Hl Ew. induction k as [|k IH]; intros o Ho; cbn [seq mapM words map]; [reflexivity|].
  rewrite Hl by lia. cbn [bind]. rewrite IH by lia. cbn [bind]. f_equal. f_equal.
  - now rewrite firstn_map, <- Ew.
  - rewrite skipn_map, skipn_skipn, <- Ew. do 4 f_equal. lia.
Qed.
Lemma shax_seeded_ok load seed p ins inlen : hash_value B (H0 B) -> (0 < swb B)%nat -> sw B = 8 * Z.of_nat (swb B) ->
  (forall x o, (o + swb B <= length x)%nat -> load x o = Some (be_num (norm (firstn (swb B) (skipn o x))))) ->
  seeded B seed p -> length ins = nl -> (forall j, (j < nl)%nat -> length (nth j ins []) = inlen) ->
  Z.of_nat inlen < vi_imod V ->
  (vi_clear V = true -> 8 * (Z.of_nat (length p) + Z.of_nat inlen) < 2 ^ 64) ->
  exists k, length p = (k * bsz B)%nat /\
  shax_seeded V junk vj load seed (8 * Z.of_nat (length p)) ins inlen
  = Some (map (fun j => hash_from B (chain_blocks B k (H0 B) p) (Z.of_nat (length p) + Z.of_nat inlen) (norm (nth j ins [])))
       (seq 0 nl)).
Proof.
  intros HV H1 H2 Hl S Li Hi Hm Hc. pose proof (seeded_length B seed p HV H1 H2 S) as Ls.
  destruct S as (k & Hk & Es). exists k. split; [exact Hk|]. unfold shax_seeded.
  rewrite (va_wb _ _ AG). rewrite (mapM_load load seed (swb B) Hl eq_refl) by (rewrite Ls; clear; lia). cbn [bind].
  rewrite Nat.mul_0_r. change (skipn 0 seed) with seed.
  assert (CV : hash_value B (chain_blocks B k (H0 B) p)) by (apply chain_value; assumption).
  assert (EW : words B 8 (norm seed) = chain_blocks B k (H0 B) p).
  { rewrite Es. unfold inc_state. rewrite map_app, (norm_bytes (unwords B _)) by apply unwords_all.
    destruct CV as [CL CW]. rewrite <- CL at 1. now apply words_unwords. }
  rewrite EW.
  rewrite (hashx_ok V B AG junk vj); [|now apply sval_vset1|exact Li|exact Hi|exact Hm|].
  - apply (f_equal Some), map_ext. intros j. now rewrite lane_vset1.
  - clear - Hc. intros Q. specialize (Hc Q). lia.
Qed.
End Hash.

#[local] Opaque sha2 hash_from chain_blocks.
Section Sha2x.
Variable junk : nat -> nat -> Z.
Variable vj : nat -> vec.
Theorem sha256x8_ok ins inlen : length ins = 8%nat -> (forall j, (j < 8)%nat -> length (nth j ins []) = inlen) ->
  Z.of_nat inlen < 2 ^ 64 ->
  sha256x8 junk vj ins inlen = Some (map (fun j => SHA256 (norm (nth j ins []))) (seq 0 8)).
Proof.
  intros Li Hi Hm. unfold sha256x8.
  rewrite (shax_ok impl256 SHA256p vagree256); [|exact H0_value_256|exact Li|exact Hi|exact Hm|discriminate].
  f_equal. apply map_ext_in. intros j Hj. apply in_seq in Hj. unfold SHA256. rewrite sha2_from_0 by (cbn; lia).
  rewrite map_length, Hi by lia. reflexivity.
Qed.
Theorem sha256x8_seeded_ok st p ins inlen : seeded SHA256p st p -> length ins = 8%nat ->
  (forall j, (j < 8)%nat -> length (nth j ins []) = inlen) -> Z.of_nat inlen < 2 ^ 64 ->
  sha256x8_seeded junk vj st (8 * Z.of_nat (length p)) ins inlen
  = Some (map (fun j => SHA256 (p ++ norm (nth j ins []))) (seq 0 8)).
Proof.
  intros S Li Hi Hm. unfold sha256x8_seeded.
  destruct (shax_seeded_ok impl256 SHA256p vagree256 junk vj load_bigendian_32 st p ins inlen H0_value_256 ltac:(cbn; lia) eq_refl
    load32_ok S Li Hi Hm ltac:(discriminate)) as (k & Hk & ->).
  f_equal. apply map_ext_in. intros j Hj. apply in_seq in Hj. unfold SHA256.
  rewrite (sha2_from SHA256p ltac:(cbn; lia) p _ k Hk), app_length, map_length, Hi, Nat2Z.inj_add by lia. reflexivity.
Qed.
Theorem sha512x4_ok ins inlen : length ins = 4%nat -> (forall j, (j < 4)%nat -> length (nth j ins []) = inlen) ->
  Z.of_nat inlen < 2 ^ 32 ->
  sha512x4 junk vj ins inlen = Some (map (fun j => SHA512 (norm (nth j ins []))) (seq 0 4)).
Proof.
  intros Li Hi Hm. unfold sha512x4.
  rewrite (shax_ok impl512 SHA512p vagree512); [|exact H0_value_512|exact Li|exact Hi|exact Hm|lia].
  f_equal. apply map_ext_in. intros j Hj. apply in_seq in Hj. unfold SHA512. rewrite sha2_from_0 by (cbn; lia).
  rewrite map_length, Hi by lia. reflexivity.
Qed.
Theorem sha512x4_seeded_ok st p ins inlen : seeded SHA512p st p -> length ins = 4%nat ->
  (forall j, (j < 4)%nat -> length (nth j ins []) = inlen) -> Z.of_nat inlen < 2 ^ 32 ->
  Z.of_nat (length p) < 2 ^ 60 ->
  sha512x4_seeded junk vj st (8 * Z.of_nat (length p)) ins inlen
  = Some (map (fun j => SHA512 (p ++ norm (nth j ins []))) (seq 0 4)).
Proof.
  intros S Li Hi Hm Hp. unfold sha512x4_seeded.
  destruct (shax_seeded_ok impl512 SHA512p vagree512 junk vj load_bigendian_64 st p ins inlen H0_value_512 ltac:(cbn; lia) eq_refl
    load64_be S Li Hi Hm ltac:(clear - Hm Hp; lia)) as (k & Hk & ->).
  f_equal. apply map_ext_in. intros j Hj. apply in_seq in Hj. unfold SHA512.
  rewrite (sha2_from SHA512p ltac:(cbn; lia) p _ k Hk), app_length, map_length, Hi, Nat2Z.inj_add by lia. reflexivity.
Qed.
End Sha2x.
