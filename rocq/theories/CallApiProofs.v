(** The recorded calls of the API: what Prop_Calls.v states. *)
From Verif Require Import Base BaseFacts Params Address Suite Utils Sign Spec SpecFacts AdrsEnc AddressProofs
  Refine TreeProofs WotsDigitsProofs ForsProofs MerkleProofs SignProofs ApiProofs LaneChainProofs
  CallLog CallErase CallSpec CallSpecFacts CallInputFacts CallTreeProofs CallSignProofs.

Section Api.
Variable P : params.
Variable HS : suite.
Notation N := (p_n P).
Notation L := (hs_layout HS).
Notation D := (dims_of P).
Notation TH := (SPX_TREE_HEIGHT P).
Hypothesis Hwf : wf_params P = true.
Hypothesis Hok : suite_ok P HS.
Notation Th := (codeTh P HS).
Notation Pr := (codePrf HS).
Notation Rnd := (codeRnd P HS).
Notation Hm := (codeHm P HS).
Notation E := (enc_call L).
Definition ek (ka : nat * adrs) : nat * bytes := (fst ka, enc L (snd ka)).

Lemma thashes_enc l : thashes (map E l) = map ek (th_keys l).
Proof. clear.
  induction l as [|[k a x|a] l IH]; [reflexivity| |exact IH].
  change (thashes (map E (STh k a x :: l))) with ((k, enc L a) :: thashes (map E l)). rewrite IH. reflexivity.
Qed.
Lemma prfs_enc l : prfs (map E l) = map (enc L) (prf_keys l).
Proof. clear.
  induction l as [|[k a x|a] l IH]; [reflexivity|exact IH|].
  change (prfs (map E (SPrf a :: l))) with (enc L a :: prfs (map E l)). rewrite IH. reflexivity.
Qed.
Lemma in_map_E k x A l : In (Thash k x A) (map E l) -> exists a, A = enc L a /\ In (STh k a x) l.
Proof. clear.
  intros H. apply in_map_iff in H. destruct H as ([k' a x'|a] & Ec & H); [|discriminate]. injection Ec as E1 E2 E3. subst.
  exists a. split; [reflexivity|exact H].
Qed.

Lemma count_split l : (length (map E l) = length (thashes (map E l)) + length (prfs (map E l)))%nat.
Proof. clear.
  induction l as [|[k a x|a] l IH]; [reflexivity| |].
  - change (thashes (map E (STh k a x :: l))) with ((k, enc L a) :: thashes (map E l)).
    change (prfs (map E (STh k a x :: l))) with (prfs (map E l)). cbn [map length]. lia.
  - change (thashes (map E (SPrf a :: l))) with (thashes (map E l)).
    change (prfs (map E (SPrf a :: l))) with (enc L a :: prfs (map E l)). cbn [map length]. lia.
Qed.
Lemma W2 : 2 <= s_w D. Proof. exact (W_pos P Hwf). Qed.
Lemma Wle : s_w D <= 256.
Proof. clear - Hwf. cbn. unfold wf_params, SPX_WOTS_W in *. 
  assert (p_logw P = 4 \/ p_logw P = 8)%nat as [E|E] by lia; rewrite E; cbn; lia. Qed.
Lemma tree_fits t : 0 <= t < 2 ^ Z.of_nat (SPX_TREE_BITS P) -> 0 <= t < 2 ^ 64.
Proof. clear - Hwf.
  intros H. assert ((SPX_TREE_BITS P <= 64)%nat) by (destruct (wf_tree P Hwf) as (_ & _ & _ & Q); exact Q).
  assert (2 ^ Z.of_nat (SPX_TREE_BITS P) <= 2 ^ 64) by (apply Z.pow_le_mono_r; lia). lia.
Qed.
Lemma sign_adrs_wf tr lf k a : 0 <= tr < 2 ^ Z.of_nat (SPX_TREE_BITS P) -> 0 <= lf < 2 ^ Z.of_nat TH ->
  In (k, a) (sign_keys D tr lf) -> adrs_wf a.
Proof. clear - Hwf.
  intros Ht Hl. destruct (wf_tree P Hwf) as (H1 & _ & H2 & _). destruct (wf_fors P Hwf) as (H3 & H4).
  pose proof (wf_len P Hwf) as H5. pose proof W2. pose proof Wle.
  apply (sign_wf D W2 ltac:(cbn; lia) ltac:(cbn; lia) H5 Wle ltac:(cbn; lia) ltac:(cbn; lia) tr lf k a); [now apply tree_fits|exact Hl].
Qed.
Lemma keygen_adrs_wf T PRF k a : In (k, a) (th_keys (keygen_calls D T PRF)) -> adrs_wf a.
Proof. clear - Hwf.
  destruct (wf_tree P Hwf) as (H1 & _ & H2 & _). destruct (wf_fors P Hwf) as (H3 & H4).
  pose proof (wf_len P Hwf) as H5. pose proof W2. pose proof Wle.
  apply (keygen_wf D W2 T PRF ltac:(cbn; lia) ltac:(cbn; lia) H5 Wle ltac:(cbn; lia) k a). cbn. lia.
Qed.
Lemma NoDup_enc (l : list (nat * adrs)) : (forall k a, In (k, a) l -> adrs_wf a) ->
  NoDup (adrs_keys l) -> NoDup (map snd (map ek l)).
Proof. clear.
  intros Hw H. rewrite map_map. cbn [ek snd]. rewrite <- (map_map snd (enc L)). apply NoDup_map_inj; [|exact H].
  intros x y Hx Hy Exy. apply adrs_keys_in in Hx, Hy. destruct Hx as (kx & Hx), Hy as (ky & Hy).
  apply (enc_inj L); eauto.
Qed.
Lemma Hm_range ps R pk m : length ps = N -> length R = N -> length pk = SPX_PK_BYTES P ->
  exists d t l, Hm ps R pk m = (d, t, l) /\ 0 <= t < 2 ^ Z.of_nat (SPX_TREE_BITS P) /\ 0 <= l < 2 ^ Z.of_nat TH.
Proof. clear - Hok.
  intros Hp HR Hpk. destruct (hm_ok P HS Hok ps ps R pk m Hp Hp HR Hpk) as (d & t & l & _ & E & _ & _ & Ht & Hl).
  exists d, t, l. split; [exact E|]. split; [exact Ht|exact Hl].
Qed.
Lemma Rnd_len ps sp o m : length ps = N -> length sp = N -> length o = N -> length (Rnd ps sp o m) = N.
Proof. clear - Hok.
  intros Hp Hs Ho. destruct (rnd_ok P HS Hok ps ps sp o m Hp Hp Hs Ho) as (_ & H). exact H.
Qed.

(** ** The records *)
Section Key.
Variables ss sp ps : bytes.
Hypothesis Hs : length ss = N.
Hypothesis Hp : length sp = N.
Hypothesis Hu : length ps = N.
Theorem keygen_log junk pk0 sk0 : (SPX_PK_BYTES P <= length pk0)%nat -> (SPX_SK_BYTES P <= length sk0)%nat ->
  exists out, crypto_sign_seed_keypair P HS junk pk0 sk0 (ss ++ sp ++ ps) = Some out
    /\ seed_keypairL P HS junk pk0 sk0 (ss ++ sp ++ ps) = Some (out, map E (keygen_calls D (Th ps) (Pr ps ss))).
Proof.
  intros H1 H2. pose proof (seed_keypair_okL P HS junk Hwf Hok pk0 sk0 ss sp ps Hs Hp Hu H1 H2) as EL.
  eexists. split; [|exact EL]. rewrite <- er_seed_keypair, EL. reflexivity.
Qed.
Theorem sign_log junk sig0 m root tail optrand rest :
  length root = N -> length optrand = N -> (SPX_BYTES P <= length sig0)%nat ->
  let R := Rnd ps sp optrand m in
  exists out md tree leaf, Hm ps R (ps ++ root) m = (md, tree, leaf)
    /\ 0 <= tree < 2 ^ Z.of_nat (SPX_TREE_BITS P) /\ 0 <= leaf < 2 ^ Z.of_nat TH
    /\ crypto_sign_signature P HS junk (optrand ++ rest) sig0 m (ss ++ sp ++ ps ++ root ++ tail) = Some out
    /\ signatureL P HS junk (optrand ++ rest) sig0 m (ss ++ sp ++ ps ++ root ++ tail)
       = Some (out, MsgRandom sp optrand m :: MsgHash R (ps ++ root) m
                    :: map E (sign_calls D (Th ps) (Pr ps ss) md tree leaf)).
Proof.
  intros H1 H2 H3 R.
  pose proof (sign_signature_okL P HS junk Hwf Hok sig0 ss sp ps root tail optrand rest m Hs Hp Hu H1 H2 H3) as EL.
  assert (HR : length R = N) by (now apply Rnd_len).
  destruct (Hm_range ps R (ps ++ root) m Hu HR) as (md & tree & leaf & EH & Ht & Hl).
  { rewrite app_length. unfold SPX_PK_BYTES. lia. }
  cbv zeta in EL. fold R in EL. rewrite EH in EL. eexists _, md, tree, leaf.
  split; [exact EH|]. split; [exact Ht|]. split; [exact Hl|]. split; [|exact EL].
  rewrite <- er_signature, EL. reflexivity.
Qed.
End Key.
Theorem verify_log junk sig m pk :
  (SPX_BYTES P <= length sig)%nat -> (SPX_PK_BYTES P <= length pk)%nat ->
  let R := firstn N sig in let ps := firstn N pk in
  let cs := blocks N (spx_nblocks D) (skipn N (firstn (SPX_BYTES P) sig)) in
  exists r md tree leaf, Hm ps R (firstn (2 * N) pk) m = (md, tree, leaf)
    /\ 0 <= tree < 2 ^ Z.of_nat (SPX_TREE_BITS P) /\ 0 <= leaf < 2 ^ Z.of_nat TH
    /\ length cs = spx_nblocks D
    /\ crypto_sign_verify P HS junk sig (Z.of_nat (SPX_BYTES P)) m pk = Some r
    /\ verifyL P HS junk sig (Z.of_nat (SPX_BYTES P)) m pk
       = Some (r, MsgHash R (firstn (2 * N) pk) m :: map E (verify_calls D (Th ps) md tree leaf cs)).
Proof.
  intros Hs Hpk R ps cs. unfold SPX_PK_BYTES in Hpk.
  set (s := firstn (SPX_BYTES P) sig) in *.
  assert (Ls : length s = SPX_BYTES P) by (unfold s; rewrite firstn_length; lia).
  pose proof (sig_bytes_eq P Hwf) as HB.
  assert (HN : (N <= SPX_BYTES P)%nat).
  { rewrite <- HB. unfold spx_sig_bytes. cbn [s_n dims_of]. rewrite Nat.mul_add_distr_l. lia. }
  destruct (blocks_chunks N (spx_nblocks D) (skipn N s)) as (B1 & B2 & B3).
  { rewrite skipn_length, Ls, <- HB. unfold spx_sig_bytes. cbn [s_n dims_of]. lia. }
  assert (ER : firstn N s = R) by (unfold s, R; rewrite firstn_firstn; f_equal; lia).
  destruct (verify_okL P HS junk Hwf Hok (firstn N s) cs
              (skipn (SPX_BYTES P) sig) m ps (firstn N (skipn N pk))
              (skipn N (skipn N pk))) as (r & EL).
  - rewrite firstn_length. lia.
  - exact B1.
  - unfold cs. rewrite B3, skipn_length. lia.
  - unfold ps. rewrite firstn_length. lia.
  - rewrite firstn_length, skipn_length. lia.
  - unfold cs in EL at 1. rewrite B3 in EL. rewrite (app_assoc (firstn N s)), (firstn_skipn N s) in EL.
    unfold s in EL at 1. rewrite firstn_skipn in EL. unfold ps in EL at 1. rewrite !firstn_skipn in EL.
    assert (E2 : firstn (2 * N) pk = ps ++ firstn N (skipn N pk)).
    { unfold ps. rewrite firstn_skipn_comm. replace (N + N)%nat with (2 * N)%nat by lia.
      rewrite <- (firstn_skipn N (firstn (2 * N) pk)) at 1. rewrite firstn_firstn.
      replace (Nat.min N (2 * N)) with N by lia. reflexivity. }
    destruct (Hm_range ps R (firstn (2 * N) pk) m) as (md & tree & leaf & EH & Ht & Hl).
    { unfold ps. rewrite firstn_length. lia. }
    { unfold R. rewrite firstn_length. lia. }
    { rewrite firstn_length. unfold SPX_PK_BYTES. lia. }
    rewrite ER, <- E2, EH in EL. exists r, md, tree, leaf. split; [exact EH|]. split; [exact Ht|]. split; [exact Hl|].
    split; [exact B2|]. split; [|exact EL]. rewrite <- er_verify, EL. reflexivity.
Qed.
Theorem verify_log_length junk sig siglen m pk : siglen <> Z.of_nat (SPX_BYTES P) ->
  verifyL P HS junk sig siglen m pk = Some (-1, []).
Proof. clear. intros H. unfold verifyL. apply Z.eqb_neq in H. rewrite H. reflexivity. Qed.

(** ** How many calls *)
Theorem keygen_count junk pk0 sk0 ss sp ps out log :
  length ss = N -> length sp = N -> length ps = N ->
  (SPX_PK_BYTES P <= length pk0)%nat -> (SPX_SK_BYTES P <= length sk0)%nat ->
  seed_keypairL P HS junk pk0 sk0 (ss ++ sp ++ ps) = Some (out, log) ->
  (length (thashes log) + 1 = 2 ^ TH * (SPX_WOTS_LEN P * Z.to_nat (SPX_WOTS_W P - 1) + 2)
   /\ length (prfs log) = 2 ^ TH * SPX_WOTS_LEN P
   /\ length log = length (thashes log) + length (prfs log))%nat.
Proof.
  intros Hs Hp Hu H1 H2 EL. destruct (keygen_log ss sp ps Hs Hp Hu junk pk0 sk0 H1 H2) as (o & _ & EL').
  rewrite EL in EL'. injection EL' as _ ->.
  rewrite thashes_enc, prfs_enc, !map_length. split; [|split].
  - rewrite th_keys_keygen. apply (xmss_keys_length D).
  - rewrite prf_keys_keygen. apply (xmss_prf_keys_length D).
  - rewrite <- (map_length E), count_split, thashes_enc, prfs_enc, !map_length. reflexivity.
Qed.
Theorem sign_count junk sig0 m ss sp ps root tail optrand rest out log :
  length ss = N -> length sp = N -> length ps = N -> length root = N -> length optrand = N -> (SPX_BYTES P <= length sig0)%nat ->
  signatureL P HS junk (optrand ++ rest) sig0 m (ss ++ sp ++ ps ++ root ++ tail) = Some (out, log) ->
  (length (thashes log) + p_d P
     = p_ft P * (2 ^ p_fh P * 2 - 1) + 1 + p_d P * (2 ^ TH * (SPX_WOTS_LEN P * Z.to_nat (SPX_WOTS_W P - 1) + 2))
   /\ length (prfs log) = p_ft P * (2 ^ p_fh P + 1) + p_d P * (2 ^ TH * SPX_WOTS_LEN P)
   /\ length log = 2 + length (thashes log) + length (prfs log))%nat.
Proof.
  intros Hs Hp Hu H1 H2 H3 EL.
  destruct (sign_log ss sp ps Hs Hp Hu junk sig0 m root tail optrand rest H1 H2 H3) as (o & md & tree & leaf & _ & _ & _ & _ & EL').
  rewrite EL in EL'. injection EL' as _ ->.
  change (thashes (MsgRandom ?a ?b ?c :: MsgHash ?d ?e ?f :: ?l)) with (thashes l).
  change (prfs (MsgRandom ?a ?b ?c :: MsgHash ?d ?e ?f :: ?l)) with (prfs l). cbn [length]. rewrite thashes_enc, prfs_enc, !map_length. split; [|split].
  - rewrite th_keys_sign. apply (sign_keys_length D).
  - rewrite prf_keys_sign. apply (sign_prf_keys_length D).
  - rewrite <- (map_length E), count_split, thashes_enc, prfs_enc, !map_length. reflexivity.
Qed.
Theorem verify_count junk sig siglen m pk out log :
  (SPX_BYTES P <= length sig)%nat -> (SPX_PK_BYTES P <= length pk)%nat ->
  verifyL P HS junk sig siglen m pk = Some (out, log) ->
  (length (thashes log) <= p_ft P * (p_fh P + 1) + 1 + p_d P * (SPX_WOTS_LEN P * Z.to_nat (SPX_WOTS_W P - 1) + 1 + TH)
   /\ prfs log = [] /\ length log <= 1 + length (thashes log))%nat.
Proof.
  intros H1 H2 EL. destruct (Z.eq_dec siglen (Z.of_nat (SPX_BYTES P))) as [->|Hne].
  - destruct (verify_log junk sig m pk H1 H2) as (r & md & tree & leaf & _ & _ & Hl & Hc & _ & EL').
    rewrite EL in EL'. injection EL' as _ ->.
    change (thashes (MsgHash ?d ?e ?f :: ?l)) with (thashes l).
    change (prfs (MsgHash ?d ?e ?f :: ?l)) with (prfs l). cbn [length].
    rewrite count_split, thashes_enc, prfs_enc, verify_no_prf, map_length. cbn [map length].
    destruct (verify_keys_facts D W2 (Th (firstn N pk)) md tree leaf _ Hc Hl) as (_ & _ & Le).
    split; [exact Le|]. split; [reflexivity|lia].
  - rewrite verify_log_length in EL by exact Hne. injection EL as _ <-. split; [apply Nat.le_0_l|]. split; [reflexivity|apply Nat.le_0_l].
Qed.

(** ** Addresses *)
Theorem keygen_nodup junk pk0 sk0 ss sp ps out log :
  length ss = N -> length sp = N -> length ps = N ->
  (SPX_PK_BYTES P <= length pk0)%nat -> (SPX_SK_BYTES P <= length sk0)%nat ->
  seed_keypairL P HS junk pk0 sk0 (ss ++ sp ++ ps) = Some (out, log) -> NoDup (map snd (thashes log)).
Proof.
  intros Hs Hp Hu H1 H2 EL. destruct (keygen_log ss sp ps Hs Hp Hu junk pk0 sk0 H1 H2) as (o & _ & EL').
  rewrite EL in EL'. injection EL' as _ ->. rewrite thashes_enc. apply NoDup_enc.
  - intros k a. apply keygen_adrs_wf.
  - rewrite th_keys_keygen. apply xmss_keys_NoDup.
Qed.
Theorem sign_nodup junk sig0 m ss sp ps root tail optrand rest out log :
  length ss = N -> length sp = N -> length ps = N -> length root = N -> length optrand = N -> (SPX_BYTES P <= length sig0)%nat ->
  signatureL P HS junk (optrand ++ rest) sig0 m (ss ++ sp ++ ps ++ root ++ tail) = Some (out, log) ->
  NoDup (map snd (thashes log)).
Proof.
  intros Hs Hp Hu H1 H2 H3 EL.
  destruct (sign_log ss sp ps Hs Hp Hu junk sig0 m root tail optrand rest H1 H2 H3) as (o & md & tree & leaf & _ & Ht & Hl & _ & EL').
  rewrite EL in EL'. injection EL' as _ ->.
  change (thashes (MsgRandom ?a ?b ?c :: MsgHash ?d ?e ?f :: ?l)) with (thashes l).
  rewrite thashes_enc, th_keys_sign. apply NoDup_enc.
  - intros k a. now apply sign_adrs_wf.
  - apply sign_keys_NoDup.
Qed.
Theorem verify_nodup junk sig siglen m pk out log :
  (SPX_BYTES P <= length sig)%nat -> (SPX_PK_BYTES P <= length pk)%nat ->
  verifyL P HS junk sig siglen m pk = Some (out, log) -> NoDup (map snd (thashes log)).
Proof.
  intros H1 H2 EL. destruct (Z.eq_dec siglen (Z.of_nat (SPX_BYTES P))) as [->|Hne].
  - destruct (verify_log junk sig m pk H1 H2) as (r & md & tree & leaf & _ & Ht & Hl & Hc & _ & EL').
    rewrite EL in EL'. injection EL' as _ ->. change (thashes (MsgHash ?d ?e ?f :: ?l)) with (thashes l). rewrite thashes_enc.
    destruct (verify_keys_facts D W2 (Th (firstn N pk)) md tree leaf _ Hc Hl) as (Hi & Hn & _).
    apply NoDup_enc; [|exact Hn]. intros k a H. apply Hi in H. now apply (sign_adrs_wf tree leaf k a) in H.
  - rewrite verify_log_length in EL by exact Hne. injection EL as _ <-. constructor.
Qed.

(** ** One input per address *)
Lemma signer_calls ss ps log : length ss = N -> length ps = N -> signer_run P HS ss ps log ->
  exists pre l, log = pre ++ map E l /\ thashes pre = []
    /\ (forall k a x, In (STh k a x) l -> asked D (Th ps) (Pr ps ss) a = (k, x) /\ adrs_wf a).
Proof.
  intros Hs Hu [junk pk0 sk0 sp out lg Hp H1 H2 EL|junk sig0 m sp root tail optrand rest out lg Hp H1 H2 H3 EL].
  - destruct (keygen_log ss sp ps Hs Hp Hu junk pk0 sk0 H1 H2) as (o & _ & EL').
    rewrite EL in EL'. injection EL' as _ ->. exists [], (keygen_calls D (Th ps) (Pr ps ss)).
    split; [reflexivity|]. split; [reflexivity|]. intros k a x H. split; [now apply asked_keygen in H|].
    apply th_keys_in in H. now apply keygen_adrs_wf in H.
  - destruct (sign_log ss sp ps Hs Hp Hu junk sig0 m root tail optrand rest H1 H2 H3) as (o & md & tree & leaf & _ & Ht & Hl & _ & EL').
    rewrite EL in EL'. injection EL' as _ ->.
    exists [MsgRandom sp optrand m; MsgHash (Rnd ps sp optrand m) (ps ++ root) m], (sign_calls D (Th ps) (Pr ps ss) md tree leaf).
    split; [reflexivity|]. split; [reflexivity|]. intros k a x H. split; [now apply asked_sign in H|].
    apply th_keys_in in H. rewrite th_keys_sign in H. now apply (sign_adrs_wf tree leaf k a) in H.
Qed.
Lemma in_log k x A pre l : thashes pre = [] -> In (Thash k x A) (pre ++ map E l) -> exists a, A = enc L a /\ In (STh k a x) l.
Proof. clear.
  intros Hpre H. apply in_app_or in H. destruct H as [H|H]; [|now apply in_map_E].
  exfalso. assert (Q : In (k, A) (thashes pre)) by (apply in_flat_map; exists (Thash k x A); split; [exact H|now left]).
  rewrite Hpre in Q. destruct Q.
Qed.
Theorem one_input ss ps log1 log2 k1 k2 x1 x2 A : length ss = N -> length ps = N ->
  signer_run P HS ss ps log1 -> signer_run P HS ss ps log2 ->
  In (Thash k1 x1 A) log1 -> In (Thash k2 x2 A) log2 -> k1 = k2 /\ x1 = x2.
Proof.
  intros Hs Hu R1 R2 I1 I2.
  destruct (signer_calls ss ps log1 Hs Hu R1) as (p1 & l1 & -> & T1 & A1).
  destruct (signer_calls ss ps log2 Hs Hu R2) as (p2 & l2 & -> & T2 & A2).
  destruct (in_log _ _ _ _ _ T1 I1) as (a1 & -> & J1). destruct (in_log _ _ _ _ _ T2 I2) as (a2 & Ea & J2).
  destruct (A1 _ _ _ J1) as (Q1 & W1). destruct (A2 _ _ _ J2) as (Q2 & W2').
  apply (enc_inj L) in Ea; [|assumption..]. subst a2. rewrite Q1 in Q2. injection Q2 as -> ->. split; reflexivity.
Qed.

(** ** Verifying one's own signature repeats calls of the signing run *)
Theorem own_verify junk junk' pk0 sk0 sig0 m ss sp ps optrand rest pk sk sig slen rest' log r vlog :
  length ss = N -> length sp = N -> length ps = N -> length optrand = N ->
  (SPX_PK_BYTES P <= length pk0)%nat -> (SPX_SK_BYTES P <= length sk0)%nat -> (SPX_BYTES P <= length sig0)%nat ->
  crypto_sign_seed_keypair P HS junk pk0 sk0 (ss ++ sp ++ ps) = Some (0, pk, sk) ->
  signatureL P HS junk (optrand ++ rest) sig0 m sk = Some ((0, sig, slen, rest'), log) ->
  verifyL P HS junk' sig (Z.of_nat (SPX_BYTES P)) m pk = Some (r, vlog) ->
  incl vlog log.
Proof.
  intros Hs Hp Hu Ho H1 H2 H3 EK ES EV.
  pose proof (seed_keypair_okL P HS junk Hwf Hok pk0 sk0 ss sp ps Hs Hp Hu H1 H2) as EK'.
  rewrite <- er_seed_keypair, EK' in EK. cbn [erase option_map fst] in EK. injection EK as <- <-.
  set (root := spx_root D Th Pr ss ps).
  assert (Lr : length root = N).
  { unfold root. apply (root_length P HS Hwf Hok); assumption. }
  unfold spx_sk in ES. fold root in ES. rewrite <- !app_assoc in ES.
  destruct (sign_log ss sp ps Hs Hp Hu junk sig0 m root (skipn (SPX_SK_BYTES P) sk0) optrand rest Lr Ho H3)
    as (o & md & tree & leaf & EH & Ht & Hl & _ & EL').
  pose proof (sign_signature_okL P HS junk Hwf Hok sig0 ss sp ps root (skipn (SPX_SK_BYTES P) sk0) optrand rest m Hs Hp Hu Lr Ho H3) as EL.
  rewrite ES in EL'. injection EL' as _ ->. rewrite ES in EL. injection EL as Esig _ _ _.
  set (R := Rnd ps sp optrand m) in *.
  assert (HR : length R = N) by (now apply Rnd_len).
  unfold spx_sign in Esig. fold R in Esig. rewrite EH in Esig. rewrite <- app_assoc in Esig.
  set (cs := spx_sign_body D (Th ps) (Pr ps ss) md tree leaf) in *.
  assert (Ccs : chunks_of N cs /\ length (concat cs) = (SPX_BYTES P - N)%nat).
  { split; [apply (body_chunks P HS Hwf Hok)|apply (body_length P HS Hwf Hok)]; assumption. }
  destruct Ccs as (Ccs & Lcs).
  unfold spx_pk in EV. fold root in EV. rewrite <- app_assoc in EV.
  destruct (verify_okL P HS junk' Hwf Hok R cs (skipn (SPX_BYTES P) sig0) m ps root (skipn (SPX_PK_BYTES P) pk0) HR Ccs Lcs Hu Lr) as (r' & EV').
  rewrite <- Esig, EV in EV'. injection EV' as _ ->. rewrite EH.
  apply incl_cons; [right; now left|]. do 2 apply incl_tl. apply incl_map.
  apply (sign_own D W2). exact Hl.
Qed.
End Api.

(** ** What is called, and at which address, does not depend on secrets *)
Section Shape.
Definition sshape (c : scall) : scall := match c with STh k a _ => STh k a [] | SPrf a => SPrf a end.
Variable D : dims.
Variables T T' : adrs -> list Z -> list Z.
Variables PRF PRF' : adrs -> list Z.
Lemma tree_keys_map {K K'} (g : K -> K') lk nk h : forall i,
  map g (tree_keys lk nk h i) = tree_keys (fun j => map g (lk j)) (fun k j => map g (nk k j)) h i.
Proof. clear. induction h as [|h IH]; intros i; cbn [tree_keys]; [reflexivity|]. now rewrite !map_app, !IH. Qed.
Lemma tree_shape leaf leaf' hash2 hash2' lc lc' na h i : (forall j, map sshape (lc j) = map sshape (lc' j)) ->
  map sshape (tree_calls leaf hash2 lc na h i) = map sshape (tree_calls leaf' hash2' lc' na h i).
Proof. clear.
  intros H. rewrite !tree_calls_keys, !tree_keys_map. apply tree_keys_ext; [exact H|reflexivity].
Qed.
Lemma wots_shape ly tr kp : map sshape (wots_pk_calls D T PRF ly tr kp) = map sshape (wots_pk_calls D T' PRF' ly tr kp).
Proof.
  unfold wots_pk_calls. rewrite !map_app, !map_flat_map'. f_equal. apply flat_map_ext. intros i. cbn [map sshape]. f_equal.
  unfold chain_calls. rewrite !map_map. reflexivity.
Qed.
Lemma xmss_shape ly tr : map sshape (xmss_calls D T PRF ly tr) = map sshape (xmss_calls D T' PRF' ly tr).
Proof. apply tree_shape. intros; apply wots_shape. Qed.
Lemma ht_shape k : forall ly tr, map sshape (ht_calls D T PRF k ly tr) = map sshape (ht_calls D T' PRF' k ly tr).
Proof. induction k as [|k IH]; intros; cbn [ht_calls]; [reflexivity|]. now rewrite !map_app, xmss_shape, IH. Qed.
Lemma sign_shape md tr lf : map sshape (sign_calls D T PRF md tr lf) = map sshape (sign_calls D T' PRF' md tr lf).
Proof.
  unfold sign_calls, fors_calls. rewrite !map_app, ht_shape, !map_flat_map'. f_equal. f_equal.
  apply flat_map_ext. intros t. unfold fors_tree_calls. cbn [map sshape]. f_equal. apply tree_shape. reflexivity.
Qed.
End Shape.
Lemma shape_enc l s : map shape (map (enc_call l) s) = map (enc_call l) (map sshape s).
Proof. rewrite !map_map. apply map_ext. intros [k a x|a]; reflexivity. Qed.

Section Traces.
Variable P : params.
Variables HS HS' : suite.
Hypothesis Hwf : wf_params P = true.
Hypothesis Hok : suite_ok P HS.
Hypothesis Hok' : suite_ok P HS'.
Hypothesis HL : hs_layout HS = hs_layout HS'.
Notation N := (p_n P).
Theorem keygen_trace junk junk' pk0 sk0 pk0' sk0' ss sp ps ss' sp' ps' out log out' log' :
  length ss = N -> length sp = N -> length ps = N -> length ss' = N -> length sp' = N -> length ps' = N ->
  (SPX_PK_BYTES P <= length pk0)%nat -> (SPX_SK_BYTES P <= length sk0)%nat ->
  (SPX_PK_BYTES P <= length pk0')%nat -> (SPX_SK_BYTES P <= length sk0')%nat ->
  seed_keypairL P HS junk pk0 sk0 (ss ++ sp ++ ps) = Some (out, log) ->
  seed_keypairL P HS' junk' pk0' sk0' (ss' ++ sp' ++ ps') = Some (out', log') ->
  map shape log = map shape log'.
Proof.
  intros Hs Hp Hu Hs' Hp' Hu' H1 H2 H1' H2' EL EL'.
  destruct (keygen_log P HS Hwf Hok ss sp ps Hs Hp Hu junk pk0 sk0 H1 H2) as (o & _ & Q).
  rewrite EL in Q. injection Q as _ ->.
  destruct (keygen_log P HS' Hwf Hok' ss' sp' ps' Hs' Hp' Hu' junk' pk0' sk0' H1' H2') as (o' & _ & Q).
  rewrite EL' in Q. injection Q as _ ->.
  rewrite !shape_enc, HL. f_equal. apply xmss_shape.
Qed.
Section Sign.
Variables junk junk' : nat -> nat -> Z.
Variables sig0 sig0' m m' ss sp ps root tail optrand rest ss' sp' ps' root' tail' optrand' rest' : bytes.
Variables (out out' : Z * bytes * Z * bytes) (log log' : list call).
Hypothesis Hlen : length ss = N /\ length sp = N /\ length ps = N /\ length root = N /\ length optrand = N.
Hypothesis Hlen' : length ss' = N /\ length sp' = N /\ length ps' = N /\ length root' = N /\ length optrand' = N.
Hypothesis Hsig : (SPX_BYTES P <= length sig0)%nat.
Hypothesis Hsig' : (SPX_BYTES P <= length sig0')%nat.
Hypothesis EL : signatureL P HS junk (optrand ++ rest) sig0 m (ss ++ sp ++ ps ++ root ++ tail) = Some (out, log).
Hypothesis EL' : signatureL P HS' junk' (optrand' ++ rest') sig0' m' (ss' ++ sp' ++ ps' ++ root' ++ tail') = Some (out', log').
Let hm := codeHm P HS ps (codeRnd P HS ps sp optrand m) (ps ++ root) m.
Let hm' := codeHm P HS' ps' (codeRnd P HS' ps' sp' optrand' m') (ps' ++ root') m'.
Theorem sign_trace : hm = hm' -> map shape log = map shape log'.
Proof.
  intros Eh. destruct Hlen as (Hs & Hp & Hu & Hr & Ho). destruct Hlen' as (Hs' & Hp' & Hu' & Hr' & Ho').
  destruct (sign_log P HS Hwf Hok ss sp ps Hs Hp Hu junk sig0 m root tail optrand rest Hr Ho Hsig)
    as (o & md & tree & leaf & EH & _ & _ & _ & Q).
  rewrite EL in Q. injection Q as _ ->.
  destruct (sign_log P HS' Hwf Hok' ss' sp' ps' Hs' Hp' Hu' junk' sig0' m' root' tail' optrand' rest' Hr' Ho' Hsig')
    as (o' & md' & tree' & leaf' & EH' & _ & _ & _ & Q).
  rewrite EL' in Q. injection Q as _ ->.
  unfold hm, hm' in Eh. rewrite EH, EH' in Eh. injection Eh as <- <- <-.
  cbn [map shape]. do 2 f_equal. rewrite !shape_enc, HL. f_equal. apply sign_shape.
Qed.
Theorem sign_trace_th : snd (fst hm) = snd (fst hm') -> snd hm = snd hm' -> thashes log = thashes log'.
Proof.
  intros E1 E2. destruct Hlen as (Hs & Hp & Hu & Hr & Ho). destruct Hlen' as (Hs' & Hp' & Hu' & Hr' & Ho').
  destruct (sign_log P HS Hwf Hok ss sp ps Hs Hp Hu junk sig0 m root tail optrand rest Hr Ho Hsig)
    as (o & md & tree & leaf & EH & _ & _ & _ & Q).
  rewrite EL in Q. injection Q as _ ->.
  destruct (sign_log P HS' Hwf Hok' ss' sp' ps' Hs' Hp' Hu' junk' sig0' m' root' tail' optrand' rest' Hr' Ho' Hsig')
    as (o' & md' & tree' & leaf' & EH' & _ & _ & _ & Q).
  rewrite EL' in Q. injection Q as _ ->.
  unfold hm, hm' in E1, E2. rewrite EH, EH' in E1, E2. cbn [fst snd] in E1, E2. subst tree' leaf'.
  change (thashes (MsgRandom ?a ?b ?c :: MsgHash ?d ?e ?f :: ?l)) with (thashes l).
  rewrite !thashes_enc, !th_keys_sign. unfold ek. rewrite HL. reflexivity.
Qed.
End Sign.
End Traces.
