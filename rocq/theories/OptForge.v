(** Forgeries accepted by any of the modelled implementations; the shipped parameters. *)
From Verif Require Import Base BaseFacts Params Suite Sign Spec Refine HashSpec BuildSpec BuildProofs ForgeSpec ForgeCode Lanes LaneMerkleProofs
  LaneShakeOk OptBuild OptProofs.
#[local] Opaque spec_T spec_PRF spec_Hm spx_sign_body ht_root.

Theorem i_params i P : In P all_params -> i_ok i P.
Proof.
  intros HP. assert (words_n P /\ (p_n P <= 32)%nat) as [Hw H32].
  { cbn [all_params In] in HP. unfold words_n.
    repeat destruct HP as [<-|HP]; try contradiction; cbn; intuition lia. }
  destruct i as [f|o].
  - split; [|exact H32]. apply (lanes_fit_shipped P 1 HP). lia.
  - destruct (lanes_fit_shipped P (o_lw o) HP) as [Hwf Hf]; [destruct o; cbn; lia|].
    split; [exact Hwf|]. split; [destruct o; assumption|exact Hf].
Qed.

Section Forge.
Variables i1 i2 : impl.
Variable robust : bool.
Variable P : params.
Variables u1 u2 : uninit.
Notation N := (p_n P).
Notation D := (dims_of P).
Notation SB := (SPX_BYTES P).
Hypothesis H1 : i_ok i1 P.
Hypothesis H2 : i_ok i2 P.
Hypothesis Hf : i_family i1 = i_family i2.
Notation f := (i_family i2).

Theorem i_forgery pk0 sk0 pk sk seed sig siglen m :
  length seed = CRYPTO_SEEDBYTES P ->
  (SPX_PK_BYTES P <= length pk0)%nat -> (SPX_SK_BYTES P <= length sk0)%nat ->
  all_bytes seed -> all_bytes sig -> all_bytes m -> Z.of_nat (length m) < 2 ^ 63 ->
  i_seed_keypair i1 robust P u1 pk0 sk0 seed = Some (0, pk, sk) ->
  (siglen = Z.of_nat SB -> (SB <= length sig)%nat) ->
  i_verify i2 robust P u2 sig siglen m pk = Some 0 ->
  let T := spec_T f N robust (skipn (2 * N) seed) in
  let PRF := spec_PRF f N (skipn (2 * N) seed) (firstn N seed) in
  exists md tree leaf,
    spec_Hm f N D (skipn (2 * N) seed) (firstn N sig) (firstn (2 * N) pk) m = (md, tree, leaf)
    /\ (firstn SB sig = firstn N sig ++ concat (spx_sign_body D T PRF md tree leaf)
        \/ break_in D T PRF (verify_calls D T md tree leaf (sig_body P sig))).
Proof.
  intros Ls L1 L2 Bseed Bs Bm Lm Ek Lg Ev.
  pose proof (i_computes i1 robust P u1 H1) as C1. rewrite Hf in C1.
  pose proof (i_computes i2 robust P u2 H2) as C2.
  rewrite (i_seed_keypair_plain i1 robust P u1 H1) in Ek by auto.
  assert (Lpk : (SPX_PK_BYTES P <= length pk)%nat).
  { pose proof (any_keygen f robust P _ (proj1 H1) (i_ok_32 i1 P H1) C1 seed Ls Bseed) as [Lr K].
    specialize (K (u_core u1) pk0 sk0 L1 L2). rewrite Ek in K.
    match type of Lr with length ?x = _ => set (root := x) in * end. clearbody root.
    assert (Ep : pk = skipn (2 * N) seed ++ root ++ skipn (SPX_PK_BYTES P) pk0) by congruence.
    rewrite Ep, !app_length, !skipn_length, Lr, Ls. unfold CRYPTO_SEEDBYTES, SPX_PK_BYTES in *. lia. }
  rewrite (i_verify_plain i2 robust P u2 H2) in Ev by auto.
  exact (any_forgery f robust P (proj1 H1) (i_ok_32 i1 P H1) _ _ C1 C2 (u_core u1) (u_core u2)
    pk0 sk0 pk sk seed sig siglen m Ls L1 L2 Bseed Bs Bm Lm Ek Lg Ev).
Qed.
End Forge.
