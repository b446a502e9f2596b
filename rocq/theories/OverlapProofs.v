(** Signing and opening with overlapping buffers. *)
From Verif Require Import Base BaseFacts Params Address Suite Utils Wots Fors Merkle Sign Overlap
  Spec SpecFacts SpecExt AdrsEnc
  AddressProofs Refine TreeProofs WotsDigitsProofs WotsProofs ForsProofs MerkleProofs SignProofs ApiProofs.

(** [n] bytes at [i], and the memory with [d] put at [i]. *)
Definition part (mem : bytes) (i n : nat) : bytes := firstn n (skipn i mem).
Definition put (mem : bytes) (i : nat) (d : bytes) : bytes := firstn i mem ++ d ++ skipn (i + length d) mem.
Lemma rd_part mem i n : (i + n <= length mem)%nat -> rd mem i n = Some (part mem i n).
Proof. apply rd_ok. Qed.
Lemma wr_put mem i d : (i + length d <= length mem)%nat -> wr mem i d = Some (put mem i d).
Proof. apply wr_ok. Qed.
Lemma put_length mem i d : (i + length d <= length mem)%nat -> length (put mem i d) = length mem.
Proof. intros L. unfold put. rewrite !app_length, firstn_length, skipn_length. lia. Qed.
Lemma part_length mem i n : (i + n <= length mem)%nat -> length (part mem i n) = n.
Proof. intros L. unfold part. rewrite firstn_length, skipn_length. lia. Qed.
Lemma firstn_app_le {A} (a b : list A) n : (n <= length a)%nat -> firstn n (a ++ b) = firstn n a.
Proof. intros L. rewrite firstn_app. replace (n - length a)%nat with 0%nat by lia. now rewrite firstn_O, app_nil_r. Qed.
Lemma skipn_app_ge {A} (a b : list A) n : (length a <= n)%nat -> skipn n (a ++ b) = skipn (n - length a) b.
Proof. intros L. rewrite skipn_app. now rewrite skipn_all2. Qed.
Lemma part_put_disjoint mem i d j n : (i + length d <= length mem)%nat -> (j + n <= length mem)%nat ->
  (j + n <= i \/ i + length d <= j)%nat -> part (put mem i d) j n = part mem j n.
Proof.
  intros L1 L2 [H|H]; unfold part, put.
  - rewrite skipn_app. rewrite firstn_app_le by (rewrite skipn_length, firstn_length; lia).
    rewrite skipn_firstn_comm, firstn_firstn. f_equal. lia.
  - rewrite app_assoc, skipn_app_ge by (rewrite app_length, firstn_length; lia).
    rewrite skipn_skipn. do 2 f_equal. rewrite app_length, firstn_length. lia.
Qed.
Lemma part_put_same mem i d : (i + length d <= length mem)%nat -> part (put mem i d) i (length d) = d.
Proof.
  intros L. unfold part, put. rewrite skipn_app_len by (rewrite firstn_length; lia).
  apply firstn_app_len. reflexivity.
Qed.
Lemma put_put mem i d j e : j = (i + length d)%nat -> (i + length d + length e <= length mem)%nat ->
  put (put mem i d) j e = put mem i (d ++ e).
Proof.
  intros -> L. unfold put at 1 3.
  replace (firstn (i + length d) (put mem i d)) with (firstn i mem ++ d).
  2:{ unfold put. rewrite app_assoc. rewrite firstn_app_len; [reflexivity|]. rewrite app_length, firstn_length. lia. }
  replace (skipn (i + length d + length e) (put mem i d)) with (skipn (i + length (d ++ e)) mem).
  2:{ unfold put. rewrite app_assoc, skipn_app_ge by (rewrite app_length, firstn_length; lia).
      rewrite skipn_skipn. f_equal. rewrite !app_length, firstn_length. lia. }
  now rewrite <- !app_assoc.
Qed.

Section Overlap.
Variable P : params.
Variable HS : suite.
Notation N := (p_n P).
Notation L := (hs_layout HS).
Notation TH := (SPX_TREE_HEIGHT P).
Notation D := (dims_of P).
Hypothesis Hwf : wf_params P = true.
Hypothesis Hok : suite_ok P HS.
Notation Th := (codeTh P HS).
Notation Prf := (codePrf HS).
Notation Rnd := (codeRnd P HS).
Notation Hm := (codeHm P HS).

(** The signature with randomiser [R] and message digest [dg]. *)
Definition sig_of (ps ss R : bytes) (dg : bytes * Z * Z) : bytes :=
  let '(md, t, l) := dg in R ++ concat (spx_sign_body D (Th ps) (Prf ps ss) md t l).
Lemma spx_sign_sig_of ss sp ps root o m :
  spx_sign D Th Prf Rnd Hm ss sp ps root o m
  = let R := Rnd ps sp o m in sig_of ps ss R (Hm ps R (ps ++ root) m).
Proof. unfold spx_sign, sig_of. cbv zeta. destruct (Hm ps _ _ m) as [[md t] l]. reflexivity. Qed.

Lemma part_pk mem sk : (sk + 4 * N <= length mem)%nat ->
  part mem (sk + 2 * N) (SPX_PK_BYTES P) = part mem (sk + 2 * N) N ++ part mem (sk + 3 * N) N.
Proof. clear.
  intros Hsk. unfold part, SPX_PK_BYTES. replace (skipn (sk + 3 * N) mem) with (skipn N (skipn (sk + 2 * N) mem)) by (rewrite skipn_skipn; f_equal; lia).
  set (l := skipn (sk + 2 * N) mem). rewrite <- (firstn_skipn N l) at 1.
  assert (N <= length l)%nat by (unfold l; rewrite skipn_length; lia).
  rewrite firstn_app, firstn_firstn, firstn_length. replace (Nat.min (2 * N) N) with N by lia.
  f_equal. f_equal. lia.
Qed.
(** For all positions of the three buffers. *)
Theorem sign_mem_ok junk stream mem sig m mlen sk :
  (N <= length stream)%nat -> (sig + SPX_BYTES P <= length mem)%nat -> (m + mlen <= length mem)%nat ->
  (sk + SPX_SK_BYTES P <= length mem)%nat ->
  let ss := part mem sk N in
  let sp := part mem (sk + N) N in
  let ps := part mem (sk + 2 * N) N in
  let R := Rnd ps sp (firstn N stream) (part mem m mlen) in
  let mem1 := put mem sig R in
  let s := sig_of ps ss R (Hm ps R (part mem1 (sk + 2 * N) (SPX_PK_BYTES P)) (part mem1 m mlen)) in
  sign_signature_mem P HS junk stream mem sig m mlen sk
  = Some (0, put mem sig s, Z.of_nat (SPX_BYTES P), skipn N stream)
  /\ length s = SPX_BYTES P /\ firstn N s = R.
Proof.
  intros Hst Hsig Hm' Hsk. unfold SPX_SK_BYTES, SPX_PK_BYTES in Hsk.
  assert (HN : (N <= SPX_BYTES P)%nat) by (rewrite (spx_bytes_eq P Hwf); lia).
  intros ss sp ps R mem1 s. unfold sign_signature_mem.
  rewrite rd_part by lia. cbn [bind]. fold ss. rewrite rd_part by lia. cbn [bind]. fold ps.
  rewrite !(zero_addr_enc L), !set_type_enc. cbn [bind].
  unfold randombytes. rewrite rd_ok by lia. cbn [bind skipn].
  rewrite rd_part by lia. cbn [bind]. fold sp. rewrite rd_part by lia. cbn [bind].
  fold (code_ctx HS ps ss).
  assert (Hs : length ss = N) by (apply part_length; lia).
  assert (Hu : length ps = N) by (apply part_length; lia).
  assert (Hp : length sp = N) by (apply part_length; lia).
  assert (Ho : length (firstn N stream) = N) by (rewrite firstn_length; lia).
  pose proof (code_ctx_ok P HS ps ss Hu Hs) as Hc.
  destruct (rnd_ok P HS Hok ps ss sp (firstn N stream) (part mem m mlen) Hu Hs Hp Ho) as (ER & HR).
  rewrite ER. cbn [bind]. fold R in HR |- *.
  rewrite wr_put by lia. cbn [bind]. fold mem1.
  assert (L1 : length mem1 = length mem) by (apply put_length; lia).
  rewrite rd_part by lia. cbn [bind].
  assert (ER1 : part mem1 sig (length R) = R) by (apply part_put_same; lia). rewrite HR in ER1. rewrite ER1.
  rewrite rd_part by (unfold SPX_PK_BYTES; lia). cbn [bind]. rewrite rd_part by lia. cbn [bind].
  set (pk := part mem1 (sk + 2 * N) (SPX_PK_BYTES P)) in *. set (msg := part mem1 m mlen) in *.
  assert (Hpk : length pk = SPX_PK_BYTES P) by (apply part_length; unfold SPX_PK_BYTES; lia).
  destruct (hm_ok P HS Hok ps ss R pk msg Hu Hs HR Hpk) as (md & tree & idx & EH & EH' & Hmd & Hmb & Ht & Hi).
  rewrite EH. cbn [bind].
  rewrite set_tree_enc. cbn [bind]. rewrite set_keypair_enc. cbn [bind].
  unfold with_type, with_tree, with_kp; cbn [a_layer a_tree a_type a_kp a_w1 a_w2 adrs0].
  pose proof (spx_bytes_eq P Hwf) as HB. set (BL := (SPX_WOTS_BYTES P + TH * N)%nat) in *.
  rewrite rd_part by lia. cbn [bind].
  assert (Lfp : length (part mem1 (sig + N) (SPX_FORS_BYTES P)) = SPX_FORS_BYTES P) by (apply part_length; lia).
  rewrite (fors_sign_ok P HS _ junk Hwf Hok Hc tree idx) by auto. cbn [bind].
  set (fs := concat _).
  assert (Hfs : length fs = SPX_FORS_BYTES P).
  { unfold fs. rewrite (chunks_length N) by now apply fors_sign_chunks.
    rewrite fors_sign_length. unfold SPX_FORS_BYTES. cbn. ring. }
  rewrite wr_put by lia. cbn [bind]. unfold mem1. rewrite put_put by lia.
  set (mem2 := put mem sig (R ++ fs)).
  destruct (fors_pk_props P HS _ Hwf Hok Hc tree idx) as (F1 & F2).
  change SPX_ADDR_TYPE_WOTS with T_WOTS_HASH. change SPX_ADDR_TYPE_HASHTREE with T_TREE.
  assert (LR : length (R ++ fs) = (N + SPX_FORS_BYTES P)%nat) by (rewrite app_length; lia).
  assert (L2 : length mem2 = length mem) by (apply put_length; lia).
  set (pre := firstn (sig + N + SPX_FORS_BYTES P) mem2).
  assert (Lpre : length pre = (sig + N + SPX_FORS_BYTES P)%nat) by (unfold pre; rewrite firstn_length; lia).
  set (mid := firstn (p_d P * BL) (skipn (sig + N + SPX_FORS_BYTES P) mem2)).
  assert (Lmid : length mid = (p_d P * BL)%nat) by (unfold mid; rewrite firstn_length, skipn_length; lia).
  set (tail := skipn (sig + SPX_BYTES P) mem2).
  assert (E2 : mem2 = pre ++ mid ++ tail).
  { unfold pre, mid, tail.
    replace (skipn (sig + SPX_BYTES P) mem2) with (skipn (p_d P * BL) (skipn (sig + N + SPX_FORS_BYTES P) mem2))
      by (rewrite skipn_skipn; f_equal; lia).
    now rewrite !firstn_skipn. }
  destruct (sign_layers P HS _ junk Hwf Hok Hc (p_d P) 0 pre mid tail _ 0 tree idx 0 0 0 0 0 0
              tree idx Lmid F1 F2 Hi) as (sp' & r & wa & ta & t' & i' & E).
  rewrite <- E2, Lpre in E. rewrite E. cbn [bind]. clear E.
  set (hs := concat (ht_sign _ _ _ _ _ _ _ _)).
  assert (Es : s = (R ++ fs) ++ hs).
  { unfold s, sig_of. rewrite EH'. rewrite <- app_assoc. f_equal.
    rewrite (spx_sign_body_ext D _ (codeT P HS (code_ctx HS ps ss)) _ (Prf ps ss))
      by (intros; first [apply (codeT_sk P HS Hok) | reflexivity]).
    unfold spx_sign_body. rewrite concat_app. reflexivity. }
  assert (Ls : length s = SPX_BYTES P).
  { unfold s, sig_of. rewrite EH'. rewrite app_length, (body_length P HS Hwf Hok), HR by auto. lia. }
  split; [|split; [exact Ls|]].
  - do 3 f_equal. f_equal. rewrite Es.
    assert (Lh : length hs = (p_d P * BL)%nat) by (rewrite Es, app_length in Ls; lia).
    rewrite <- (put_put mem sig (R ++ fs) (sig + N + SPX_FORS_BYTES P) hs) by lia. fold mem2.
    unfold put. fold pre. rewrite Lh. unfold tail. do 3 f_equal. lia.
  - rewrite Es, <- app_assoc. apply firstn_app_len. auto.
Qed.

(** crypto_sign: the message anywhere outside the SPX_BYTES bytes of the signature. *)
Theorem crypto_sign_mem_ok junk stream mem sm m mlen sk :
  (N <= length stream)%nat -> (sm + SPX_BYTES P + mlen <= length mem)%nat -> (m + mlen <= length mem)%nat ->
  (sk + SPX_SK_BYTES P <= length mem)%nat -> Z.of_nat (SPX_BYTES P + mlen) < 2 ^ 64 ->
  (m + mlen <= sm \/ sm + SPX_BYTES P <= m)%nat ->
  (sk + SPX_SK_BYTES P <= sm \/ sm + N <= sk + 2 * N)%nat ->
  let msg := part mem m mlen in
  let s := spx_sign D Th Prf Rnd Hm (part mem sk N) (part mem (sk + N) N) (part mem (sk + 2 * N) N)
             (part mem (sk + 3 * N) N) (firstn N stream) msg in
  crypto_sign_mem P HS junk stream mem sm m mlen sk
  = Some (0, put mem sm (s ++ msg), Z.of_nat (SPX_BYTES P + mlen), skipn N stream)
  /\ length s = SPX_BYTES P.
Proof.
  intros Hst Hsm Hmb Hsk H64 Hd Hdk msg s. unfold crypto_sign_mem.
  assert (HN : (N <= SPX_BYTES P)%nat) by (rewrite (spx_bytes_eq P Hwf); lia).
  destruct (sign_mem_ok junk stream mem sm m mlen sk Hst) as (E & Ls & _); [lia|lia|lia|].
  cbv zeta in E, Ls. fold msg in E, Ls.
  set (ss := part mem sk N) in *. set (sp := part mem (sk + N) N) in *. set (ps := part mem (sk + 2 * N) N) in *.
  set (R := codeRnd P HS ps sp (firstn N stream) msg) in *.
  unfold SPX_SK_BYTES, SPX_PK_BYTES in Hsk, Hdk.
  assert (HR : length R = N).
  { apply (rnd_ok P HS Hok ps ss sp (firstn N stream) msg); try (apply part_length; lia). rewrite firstn_length. lia. }
  rewrite (part_put_disjoint mem sm R m mlen) in E, Ls by lia. fold msg in E, Ls.
  rewrite (part_put_disjoint mem sm R (sk + 2 * N)) in E, Ls by (unfold SPX_PK_BYTES; lia).
  rewrite (part_pk mem sk) in E, Ls by lia. fold ps in E, Ls.
  assert (Es : s = sig_of ps ss R (codeHm P HS ps R (ps ++ part mem (sk + 3 * N) N) msg)) by (apply spx_sign_sig_of).
  rewrite <- Es in E, Ls. rewrite E. cbn [bind].
  assert (Lm : length msg = mlen) by (apply part_length; lia).
  rewrite rd_part by (rewrite put_length; lia). cbn [bind].
  rewrite part_put_disjoint by lia. fold msg.
  rewrite wr_put by (rewrite put_length; lia). cbn [bind].
  rewrite put_put by lia. split; [|exact Ls]. do 3 f_equal. unfold u64. rewrite Z.mod_small; lia.
Qed.

(** With [m] = [sm] the message is overwritten: what comes out is the signature of something else, followed
    by its own first bytes. *)
Theorem crypto_sign_same junk stream mem sm mlen sk :
  (N <= length stream)%nat -> (sm + SPX_BYTES P + mlen <= length mem)%nat ->
  (sk + SPX_SK_BYTES P <= length mem)%nat -> Z.of_nat (SPX_BYTES P + mlen) < 2 ^ 64 ->
  (sk + SPX_SK_BYTES P <= sm \/ sm + N <= sk + 2 * N)%nat -> (N <= mlen <= SPX_BYTES P)%nat ->
  let msg := part mem sm mlen in
  let ps := part mem (sk + 2 * N) N in
  let R := Rnd ps (part mem (sk + N) N) (firstn N stream) msg in
  let s := sig_of ps (part mem sk N) R
             (Hm ps R (part mem (sk + 2 * N) (SPX_PK_BYTES P)) (R ++ skipn N msg)) in
  crypto_sign_mem P HS junk stream mem sm sm mlen sk
  = Some (0, put mem sm (s ++ firstn mlen s), Z.of_nat (SPX_BYTES P + mlen), skipn N stream)
  /\ length s = SPX_BYTES P /\ firstn N s = R.
Proof.
  intros Hst Hsm Hsk H64 Hdk Hml msg ps R s. unfold crypto_sign_mem.
  destruct (sign_mem_ok junk stream mem sm sm mlen sk Hst) as (E & Ls & Ef); [lia|lia|lia|].
  cbv zeta in E, Ls, Ef. fold msg ps in E, Ls, Ef. fold R in E, Ls, Ef.
  unfold SPX_SK_BYTES, SPX_PK_BYTES in Hsk, Hdk.
  assert (HR : length R = N).
  { apply (rnd_ok P HS Hok ps (part mem sk N) (part mem (sk + N) N) (firstn N stream) msg); try (apply part_length; lia). rewrite firstn_length. lia. }
  rewrite (part_put_disjoint mem sm R (sk + 2 * N)) in E, Ls, Ef by (unfold SPX_PK_BYTES; lia).
  assert (Em : part (put mem sm R) sm mlen = R ++ skipn N msg).
  { unfold part at 1, put. rewrite skipn_app_len by (rewrite firstn_length; lia).
    rewrite firstn_app, firstn_all2 by lia. f_equal. unfold msg, part. rewrite skipn_firstn_comm, skipn_skipn.
    rewrite HR. f_equal. f_equal. lia. }
  rewrite Em in E, Ls, Ef. fold s in E, Ls, Ef. rewrite E. cbn [bind].
  rewrite rd_part by (rewrite put_length; lia). cbn [bind].
  assert (Em2 : part (put mem sm s) sm mlen = firstn mlen s).
  { unfold part, put. rewrite skipn_app_len by (rewrite firstn_length; lia). apply firstn_app_le. lia. }
  rewrite Em2. assert (Lf : length (firstn mlen s) = mlen) by (rewrite firstn_length; lia).
  rewrite wr_put by (rewrite put_length; lia). cbn [bind].
  rewrite put_put by lia. split; [|auto]. do 3 f_equal. unfold u64. rewrite Z.mod_small; lia.
Qed.

(** crypto_sign_open: every position of the buffers. *)
Theorem open_mem_ok junk mem m sm smlen pk :
  0 <= smlen -> Z.of_nat sm + smlen <= Z.of_nat (length mem) -> Z.of_nat m + smlen <= Z.of_nat (length mem) ->
  (pk + SPX_PK_BYTES P <= length mem)%nat ->
  let SB := SPX_BYTES P in
  let msg := part mem (sm + SB) (Z.to_nat smlen - SB) in
  let good := Z.of_nat SB <= smlen
    /\ crypto_sign_verify P HS junk (part mem sm SB) (Z.of_nat SB) msg (part mem pk (SPX_PK_BYTES P)) = Some 0 in
  (good -> crypto_sign_open_mem P HS junk mem m sm smlen pk = Some (0, put mem m msg, smlen - Z.of_nat SB))
  /\ (~ good -> crypto_sign_open_mem P HS junk mem m sm smlen pk
           = Some (-1, put mem m (repeat 0 (Z.to_nat smlen)), 0)).
Proof.
  intros H0 H1 H2 Hpk SB msg good. unfold good, crypto_sign_open_mem. fold SB.
  assert (Hfail : wr mem m (repeat 0 (Z.to_nat smlen)) = Some (put mem m (repeat 0 (Z.to_nat smlen))))
    by (apply wr_put; rewrite repeat_length; lia).
  destruct (Z.ltb_spec smlen (Z.of_nat SB)) as [Hlt|Hge].
  - split; [intros (? & _); lia|intros _]. rewrite Hfail. reflexivity.
  - replace (Z.to_nat (smlen - Z.of_nat SB)) with (Z.to_nat smlen - SB)%nat by lia.
    rewrite rd_part by lia. cbn [bind]. rewrite rd_part by lia. cbn [bind]. fold msg.
    rewrite rd_part by lia. cbn [bind].
    destruct (verify_spec P HS Hwf Hok junk (part mem sm SB) msg (part mem pk (SPX_PK_BYTES P))) as (r & E & Hr & _).
    { rewrite part_length by lia. unfold SB. lia. }
    { rewrite part_length by lia. lia. }
    fold SB in E. rewrite E. cbn [bind].
    destruct Hr as [Hr|Hr]; subst r; cbn [Z.eqb negb].
    + split; [intros _|intros C; exfalso; apply C; auto].
      assert (Lm : length msg = (Z.to_nat smlen - SB)%nat) by (apply part_length; lia).
      cbn [bind]. rewrite wr_put by lia. reflexivity.
    + split; [intros (_ & C); discriminate|intros _]. rewrite Hfail. reflexivity.
Qed.

(** Signing and opening in one memory: the opener may use any destination, and any pointer to the public
    key. *)
Theorem sign_open_mem junk1 junk2 stream mem sm m mlen sk m' pk :
  (N <= length stream)%nat -> (sm + SPX_BYTES P + mlen <= length mem)%nat -> (m + mlen <= length mem)%nat ->
  (sk + SPX_SK_BYTES P <= length mem)%nat -> Z.of_nat (SPX_BYTES P + mlen) < 2 ^ 64 ->
  (m + mlen <= sm \/ sm + SPX_BYTES P <= m)%nat ->
  (sk + SPX_SK_BYTES P <= sm \/ sm + N <= sk + 2 * N)%nat ->
  (m' + SPX_BYTES P + mlen <= length mem)%nat -> (pk + SPX_PK_BYTES P <= length mem)%nat ->
  (pk + SPX_PK_BYTES P <= sm \/ sm + SPX_BYTES P + mlen <= pk)%nat ->
  part mem (sk + 3 * N) N = spx_root D Th Prf (part mem sk N) (part mem (sk + 2 * N) N) ->
  part mem pk (SPX_PK_BYTES P) = part mem (sk + 2 * N) (SPX_PK_BYTES P) ->
  exists mem1, crypto_sign_mem P HS junk1 stream mem sm m mlen sk
      = Some (0, mem1, Z.of_nat (SPX_BYTES P + mlen), skipn N stream)
    /\ crypto_sign_open_mem P HS junk2 mem1 m' sm (Z.of_nat (SPX_BYTES P + mlen)) pk
      = Some (0, put mem1 m' (part mem m mlen), Z.of_nat mlen).
Proof.
  intros Hst Hsm Hmb Hsk H64 Hd Hdk Hm' Hpk Hdp Hroot Epk.
  destruct (crypto_sign_mem_ok junk1 stream mem sm m mlen sk Hst Hsm Hmb Hsk H64 Hd Hdk) as (E & Ls).
  set (msg := part mem m mlen) in *. cbv zeta in E, Ls.
  set (s := spx_sign _ _ _ _ _ _ _ _ _ _ _) in *.
  eexists. split; [exact E|].
  assert (Lm : length msg = mlen) by (apply part_length; lia).
  assert (Lsm : length (s ++ msg) = (SPX_BYTES P + mlen)%nat) by (rewrite app_length; lia).
  assert (L1 : length (put mem sm (s ++ msg)) = length mem) by (apply put_length; lia).
  destruct (open_mem_ok junk2 (put mem sm (s ++ msg)) m' sm (Z.of_nat (SPX_BYTES P + mlen)) pk) as [G _];
    try (rewrite ?L1; lia).
  assert (E1 : part (put mem sm (s ++ msg)) sm (SPX_BYTES P) = s).
  { unfold part, put. rewrite skipn_app_len by (rewrite firstn_length; lia). rewrite <- app_assoc. apply firstn_app_len. auto. }
  assert (E2 : part (put mem sm (s ++ msg)) (sm + SPX_BYTES P) (Z.to_nat (Z.of_nat (SPX_BYTES P + mlen)) - SPX_BYTES P) = msg).
  { replace (Z.to_nat (Z.of_nat (SPX_BYTES P + mlen)) - SPX_BYTES P)%nat with (length msg) by lia.
    rewrite <- (put_put mem sm s (sm + SPX_BYTES P) msg) by lia. apply part_put_same. rewrite put_length; lia. }
  rewrite E1, E2 in G. rewrite part_put_disjoint in G by lia.
  rewrite G. { do 2 f_equal. lia. }
  split; [lia|]. unfold SPX_SK_BYTES, SPX_PK_BYTES in Hsk.
  pose proof (honest_accepts P HS Hwf Hok junk2 (part mem sk N) (part mem (sk + N) N) (part mem (sk + 2 * N) N)
    (firstn N stream) msg [] []) as HA. rewrite !app_nil_r in HA.
  rewrite <- Hroot in HA. fold s in HA.
  replace (part mem pk (SPX_PK_BYTES P)) with (spx_pk D Th Prf (part mem sk N) (part mem (sk + 2 * N) N)).
  { apply HA; try (apply part_length; lia). rewrite firstn_length. lia. }
  unfold spx_pk. rewrite <- Hroot. rewrite Epk. symmetry. apply part_pk. lia.
Qed.
End Overlap.
