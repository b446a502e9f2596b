(** CTProofs.v and CTRoots.v put together. *)
From Verif Require Import Base BaseFacts Params Suite Sign Spec SpecFacts Refine SignProofs ApiProofs CTLog CTErase CTProofs CTSpec CTRoots.

Section Api.
Variable P : params.
Notation N := (p_n P).
Notation SB := (SPX_BYTES P).
Hypothesis Hwf : wf_params P = true.

Lemma run_of : forall A (m : tm A) a, forget m = Some a -> exists l, m = Some (a, l).
Proof. clear. intros A [[b l]|] a E; [|discriminate]. injection E as <-. eauto. Qed.
Lemma same_apply : forall A B (R : A -> B -> Prop) m1 m2 a1 l1 a2 l2, same R m1 m2 -> m1 = Some (a1, l1) -> m2 = Some (a2, l2) ->
  marks l1 = marks l2 -> l1 = l2.
Proof. clear. intros A B R m1 m2 a1 l1 a2 l2 H E1 E2 E. apply (H a1 l1 a2 l2 [] [] E1 E2). now rewrite E. Qed.

Lemma keygen_same : forall HS1 HS2 junk1 junk2 pk1 pk2 sk1 sk2 seed1 seed2 out1 out2 l1 l2,
  suite_ok P HS1 -> suite_ok P HS2 -> length pk1 = length pk2 -> length sk1 = length sk2 ->
  seed_keypairT P HS1 junk1 pk1 sk1 seed1 = Some (out1, l1) -> seed_keypairT P HS2 junk2 pk2 sk2 seed2 = Some (out2, l2) ->
  l1 = l2 /\ marks l1 = [].
Proof.
  intros HS1 HS2 junk1 junk2 pk1 pk2 sk1 sk2 seed1 seed2 out1 out2 l1 l2 Hok1 Hok2 Hp Hs E1 E2.
  pose proof (em_seed_keypair _ _ _ _ _ _ _ _ E1) as M1. pose proof (em_seed_keypair _ _ _ _ _ _ _ _ E2) as M2.
  split; [|exact M1].
  eapply same_apply; [|exact E1|exact E2|congruence]. now apply same_seed_keypair.
Qed.
Lemma sign_same : forall HS1 HS2 junk1 junk2 st1 st2 sig1 sig2 m1 m2 sk1 sk2 out1 out2 l1 l2,
  suite_ok P HS1 -> suite_ok P HS2 -> length sig1 = length sig2 -> length m1 = length m2 ->
  signatureT P HS1 junk1 st1 sig1 m1 sk1 = Some (out1, l1) -> signatureT P HS2 junk2 st2 sig2 m2 sk2 = Some (out2, l2) ->
  marks l1 = marks l2 -> l1 = l2.
Proof.
  intros HS1 HS2 junk1 junk2 st1 st2 sig1 sig2 m1 m2 sk1 sk2 out1 out2 l1 l2 Hok1 Hok2 Hs Hm E1 E2 E.
  eapply same_apply; [|exact E1|exact E2|exact E]. now apply same_signature.
Qed.
(** Only the first SPX_BYTES bytes of the buffer matter *)
Lemma public_marks_sig : forall HS ps root m sig1 sig2, firstn SB sig1 = firstn SB sig2 ->
  public_marks P HS ps root m sig1 = public_marks P HS ps root m sig2.
Proof.
  intros HS ps root m sig1 sig2 E. unfold public_marks.
  assert (En : firstn N sig1 = firstn N sig2).
  { assert (HN : (N <= SB)%nat) by (rewrite (spx_bytes_eq P Hwf); lia).
    replace N with (min N SB) by lia. rewrite <- !firstn_firstn, E. reflexivity. }
  now rewrite En, E.
Qed.
Section One.
Variable HS : suite.
Hypothesis Hok : suite_ok P HS.
Lemma sign_public : forall junk1 junk2 sig1 sig2 m ss1 sp1 ps root tail1 o1 rest1 ss2 sp2 tail2 o2 rest2
    s1 n1 e1 l1 s2 n2 e2 l2,
  length ss1 = N -> length sp1 = N -> length o1 = N -> length ss2 = N -> length sp2 = N -> length o2 = N ->
  length ps = N -> length root = N -> (SB <= length sig1)%nat -> length sig1 = length sig2 ->
  signatureT P HS junk1 (o1 ++ rest1) sig1 m (ss1 ++ sp1 ++ ps ++ root ++ tail1) = Some ((0, s1, n1, e1), l1) ->
  signatureT P HS junk2 (o2 ++ rest2) sig2 m (ss2 ++ sp2 ++ ps ++ root ++ tail2) = Some ((0, s2, n2, e2), l2) ->
  firstn SB s1 = firstn SB s2 -> l1 = l2.
Proof.
  intros junk1 junk2 sig1 sig2 m ss1 sp1 ps root tail1 o1 rest1 ss2 sp2 tail2 o2 rest2 s1 n1 e1 l1 s2 n2 e2 l2
    A1 A2 A3 A4 A5 A6 A7 A8 A9 A10 E1 E2 E.
  apply (sign_same HS HS junk1 junk2 _ _ sig1 sig2 m m _ _ _ _ l1 l2 Hok Hok A10 eq_refl E1 E2).
  rewrite (signature_marks P HS junk1 Hwf Hok sig1 ss1 sp1 ps root tail1 o1 rest1 m s1 n1 e1 l1) by assumption.
  rewrite (signature_marks P HS junk2 Hwf Hok sig2 ss2 sp2 ps root tail2 o2 rest2 m s2 n2 e2 l2) by (assumption || lia).
  now apply public_marks_sig.
Qed.
End One.
Lemma keygen_one : forall np ns, (SPX_PK_BYTES P <= np)%nat -> (SPX_SK_BYTES P <= ns)%nat ->
  forall HS0, suite_ok P HS0 ->
  exists l, marks l = [] /\ forall HS junk pk0 sk0 seed, suite_ok P HS -> length pk0 = np -> length sk0 = ns ->
    length seed = CRYPTO_SEEDBYTES P ->
    exists out, crypto_sign_seed_keypair P HS junk pk0 sk0 seed = Some out /\ seed_keypairT P HS junk pk0 sk0 seed = Some (out, l).
Proof.
  intros np ns Hp Hs HS0 Hok0.
  assert (Hrun : forall HS junk pk0 sk0 seed, suite_ok P HS -> length pk0 = np -> length sk0 = ns -> length seed = CRYPTO_SEEDBYTES P ->
    exists out l, crypto_sign_seed_keypair P HS junk pk0 sk0 seed = Some out /\ seed_keypairT P HS junk pk0 sk0 seed = Some (out, l)).
  { intros HS junk pk0 sk0 seed Hok Lp Ls Lseed. unfold CRYPTO_SEEDBYTES in Lseed.
    assert (exists a b c, seed = a ++ b ++ c /\ length a = N /\ length b = N /\ length c = N) as (a & b & c & -> & La & Lb & Lc).
    { exists (firstn N seed), (firstn N (skipn N seed)), (skipn N (skipn N seed)).
      rewrite !firstn_skipn, !firstn_length, !skipn_length. repeat split; lia. }
    pose proof (seed_keypair_ok P HS junk Hwf Hok) as K.
    eexists. assert (F : crypto_sign_seed_keypair P HS junk pk0 sk0 (a ++ b ++ c) = Some _) by (apply K; lia).
    pose proof F as F'. rewrite <- fg_seed_keypair in F'. destruct (run_of _ _ _ F') as (l & E). exists l. split; [exact F|exact E]. }
  destruct (Hrun HS0 (fun _ _ => 0) (repeat 0 np) (repeat 0 ns) (repeat 0 (CRYPTO_SEEDBYTES P)) Hok0) as (o0 & l & _ & E0);
    try apply repeat_length.
  exists l. split; [exact (em_seed_keypair _ _ _ _ _ _ _ _ E0)|].
  intros HS junk pk0 sk0 seed Hok Lp Ls Lseed. destruct (Hrun HS junk pk0 sk0 seed Hok Lp Ls Lseed) as (out & l' & F & E).
  exists out. split; [exact F|]. rewrite E. f_equal. f_equal.
  apply (keygen_same HS HS0 junk (fun _ _ => 0) pk0 (repeat 0 np) sk0 (repeat 0 ns) seed (repeat 0 (CRYPTO_SEEDBYTES P)) out o0 l' l);
    auto; now rewrite repeat_length.
Qed.
Lemma sign_run : forall HS junk sig0 ss sp ps root tail o rest m, suite_ok P HS ->
  length ss = N -> length sp = N -> length ps = N -> length root = N -> length o = N -> (SB <= length sig0)%nat ->
  exists out l, crypto_sign_signature P HS junk (o ++ rest) sig0 m (ss ++ sp ++ ps ++ root ++ tail) = Some out
    /\ signatureT P HS junk (o ++ rest) sig0 m (ss ++ sp ++ ps ++ root ++ tail) = Some (out, l).
Proof.
  intros HS junk sig0 ss sp ps root tail o rest m Hok H1 H2 H3 H4 H5 H6.
  eexists. pose proof (sign_signature_ok P HS junk Hwf Hok sig0 ss sp ps root tail o rest m H1 H2 H3 H4 H5 H6) as F.
  pose proof F as F'. rewrite <- fg_signature in F'. destruct (run_of _ _ _ F') as (l & E). exists l. split; [exact F|exact E].
Qed.
Lemma same_R : forall HS junk1 junk2 sig1 sig2 ss sp1 sp2 ps root tail1 tail2 o1 o2 rest1 rest2 m, suite_ok P HS ->
  length ss = N -> length sp1 = N -> length sp2 = N -> length ps = N -> length root = N -> length o1 = N -> length o2 = N ->
  (SB <= length sig1)%nat -> length sig1 = length sig2 ->
  codeRnd P HS ps sp1 o1 m = codeRnd P HS ps sp2 o2 m ->
  exists out1 out2 l,
    signatureT P HS junk1 (o1 ++ rest1) sig1 m (ss ++ sp1 ++ ps ++ root ++ tail1) = Some (out1, l)
    /\ signatureT P HS junk2 (o2 ++ rest2) sig2 m (ss ++ sp2 ++ ps ++ root ++ tail2) = Some (out2, l).
Proof.
  intros HS junk1 junk2 sig1 sig2 ss sp1 sp2 ps root tail1 tail2 o1 o2 rest1 rest2 m Hok H1 H2 H3 H4 H5 H6 H7 H8 H9 HR.
  pose proof (sign_signature_ok P HS junk1 Hwf Hok sig1 ss sp1 ps root tail1 o1 rest1 m H1 H2 H4 H5 H6 H8) as F1.
  pose proof (sign_signature_ok P HS junk2 Hwf Hok sig2 ss sp2 ps root tail2 o2 rest2 m H1 H3 H4 H5 H7 ltac:(lia)) as F2.
  rewrite <- fg_signature in F1, F2. destruct (run_of _ _ _ F1) as (l1 & E1). destruct (run_of _ _ _ F2) as (l2 & E2).
  do 2 eexists. exists l1. split; [exact E1|]. rewrite E2. f_equal. f_equal. symmetry.
  refine (sign_public HS Hok _ _ _ _ _ _ _ _ _ _ _ _ _ _ _ _ _ _ _ _ _ _ _ _ _ _ _ _ _ _ _ _ _ _ _ E1 E2 _); try assumption.
  assert (E : spx_sign (dims_of P) (codeTh P HS) (codePrf HS) (codeRnd P HS) (codeHm P HS) ss sp1 ps root o1 m
    = spx_sign (dims_of P) (codeTh P HS) (codePrf HS) (codeRnd P HS) (codeHm P HS) ss sp2 ps root o2 m)
    by (unfold spx_sign; now rewrite HR).
  rewrite <- E. rewrite !firstn_app.
  assert (L : length (spx_sign (dims_of P) (codeTh P HS) (codePrf HS) (codeRnd P HS) (codeHm P HS) ss sp1 ps root o1 m) = SB).
  { unfold spx_sign. destruct (rnd_ok P HS Hok ps ss sp1 o1 m H4 H1 H2 H6) as (_ & LR).
    destruct (codeHm P HS ps (codeRnd P HS ps sp1 o1 m) (ps ++ root) m) as [[md t] lf].
    rewrite app_length, LR, (body_length P HS Hwf Hok ps ss md t lf H4 H1). rewrite (spx_bytes_eq P Hwf). lia. }
  now rewrite L, Nat.sub_diag.
Qed.
End Api.
