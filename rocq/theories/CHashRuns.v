(** Sequences of calls of the typed incremental functions, and the typed functions against FIPS 180-4,
    RFC 8017 and FIPS 202 (for C73). *)
From Verif Require Import Base CInt CCore CWord Sha2Spec Sha2 HashSpec Sha2Proofs KeccakSpec Fips202 KeccakProofs ShakeProofs
  CSha2 CSha2Proofs CFips202 CFips202Proofs.

(** ** SHA-2 *)
(** sha256_inc_blocks / sha512_inc_blocks with the number of blocks as a size_t. *)
Definition blocks256 (st x : bytes) (k : nat) := sha256_inc_blocks_c st x (Z.of_nat k).
Definition blocks512 (st x : bytes) (k : nat) := sha512_inc_blocks_c st x (Z.of_nat k).
Lemma run_ext f g (B : Z) l : (forall st x k, B * Z.of_nat k < 2 ^ 64 -> f st x k = g st x k) ->
  Forall (fun p => B * Z.of_nat (snd p) < 2 ^ 64) l -> forall st, run_blocks f st l = run_blocks g st l.
Proof.
  intros E. induction 1 as [|[x k] l H _ IH]; intros st; [reflexivity|]. cbn [run_blocks]. cbn [snd] in H.
  rewrite (E st x k H). destruct (g st x k) as [st'|]; [apply IH|reflexivity].
Qed.
Theorem sha256_c_bytes junk inp e : all_bytes inp -> asg U64 e = Some (Z.of_nat (length inp)) -> Z.of_nat (length inp) < 2 ^ 64 ->
  sha256_c junk inp e = Some (SHA256 inp).
Proof. intros B He Hl. rewrite sha256_c_ok by assumption. now apply sha256_bytes. Qed.
Theorem sha512_c_bytes junk inp e : all_bytes inp -> asg U64 e = Some (Z.of_nat (length inp)) -> Z.of_nat (length inp) < 2 ^ 64 ->
  sha512_c junk inp e = Some (SHA512 inp).
Proof. intros B He Hl. rewrite sha512_c_ok by assumption. now apply sha512_bytes. Qed.
Theorem sha256_inc_c_bytes junk calls m :
  Forall (fun p => (64 * snd p <= length (fst p))%nat) calls -> Forall (fun p => 64 * Z.of_nat (snd p) < 2 ^ 64) calls ->
  Forall (fun p => all_bytes (fst p)) calls -> all_bytes m -> Z.of_nat (length m) < 2 ^ 64 ->
  (st <- run_blocks blocks256 sha256_inc_init calls ;; sha256_inc_finalize_c junk st m (Z.of_nat (length m)))
  = Some (SHA256 (flat_map (fun p => firstn (64 * snd p) (fst p)) calls ++ m)).
Proof.
  intros H1 H2 H3 H4 H5. rewrite (run_ext blocks256 sha256_inc_blocks 64 calls); [|intros; now apply sha256_inc_blocks_ok|exact H2].
  etransitivity; [|exact (sha256_inc_bytes junk calls m H1 H3 H4)]. destruct (run_blocks sha256_inc_blocks _ calls) as [st|]; [|reflexivity].
  cbn [bind]. now apply sha256_inc_finalize_ok.
Qed.
Theorem sha512_inc_c_bytes junk calls m :
  Forall (fun p => (128 * snd p <= length (fst p))%nat) calls -> Forall (fun p => 128 * Z.of_nat (snd p) < 2 ^ 64) calls ->
  Forall (fun p => all_bytes (fst p)) calls -> all_bytes m ->
  Z.of_nat (length (flat_map (fun p => firstn (128 * snd p) (fst p)) calls ++ m)) < 2 ^ 64 ->
  (st <- run_blocks blocks512 sha512_inc_init calls ;; sha512_inc_finalize_c junk st m (Z.of_nat (length m)))
  = Some (SHA512 (flat_map (fun p => firstn (128 * snd p) (fst p)) calls ++ m)).
Proof.
  intros H1 H2 H3 H4 H5. rewrite (run_ext blocks512 sha512_inc_blocks 128 calls); [|intros; now apply sha512_inc_blocks_ok|exact H2].
  etransitivity; [|exact (sha512_inc_bytes junk calls m H1 H3 H4 H5)]. destruct (run_blocks sha512_inc_blocks _ calls) as [st|]; [|reflexivity].
  cbn [bind]. apply sha512_inc_finalize_ok. rewrite app_length in H5. lia.
Qed.
Theorem mgf1_256_c_bytes junk outlen inp : all_bytes inp -> Z.of_nat outlen + 64 < 2 ^ 64 -> Z.of_nat (length inp) + 4 < 2 ^ 64 ->
  mgf1_256_c junk (Z.of_nat outlen) inp (Z.of_nat (length inp)) = Some (mgf1_of SHA256 32 inp outlen).
Proof. intros. rewrite mgf1_256_c_ok by assumption. now apply mgf1_256_bytes. Qed.
Theorem mgf1_512_c_bytes junk outlen inp : all_bytes inp -> Z.of_nat outlen + 64 < 2 ^ 64 -> Z.of_nat (length inp) + 4 < 2 ^ 64 ->
  mgf1_512_c junk (Z.of_nat outlen) inp (Z.of_nat (length inp)) = Some (mgf1_of SHA512 64 inp outlen).
Proof. intros. rewrite mgf1_512_c_ok by assumption. now apply mgf1_512_bytes. Qed.

(** ** SHAKE256 *)
Theorem shake256_c_bytes s0 t0 outlen inp : length s0 = 25%nat -> length t0 = 200%nat -> all_bytes inp ->
  Z.of_nat outlen < 2 ^ 64 -> Z.of_nat (length inp) < 2 ^ 64 ->
  shake256_c s0 t0 (Z.of_nat outlen) inp (Z.of_nat (length inp)) = Some (SHAKE256 inp outlen).
Proof. intros. rewrite shake256_c_ok by assumption. now apply shake256_ok. Qed.
(** init on an array of any content, absorb each chunk, finalize, squeeze each length. *)
Fixpoint absorb_all_c (s : list Z) (chunks : list bytes) : option (list Z) :=
  match chunks with
  | [] => Some s
  | m :: ms => s <- shake256_inc_absorb_c s m (Z.of_nat (length m)) ;; absorb_all_c s ms
  end.
Fixpoint squeeze_all_c (s : list Z) (lens : list nat) : option (list bytes) :=
  match lens with
  | [] => Some []
  | n :: ns => ' (h, s) <- shake256_inc_squeeze_c (Z.of_nat n) s ;; hs <- squeeze_all_c s ns ;; Some (h :: hs)
  end.
Definition shake256_run_c (s0 : list Z) (chunks : list bytes) (lens : list nat) : option (list bytes) :=
  s <- shake256_inc_init_c s0 ;;
  s <- absorb_all_c s chunks ;;
  s <- shake256_inc_finalize_c s ;;
  squeeze_all_c s lens.
Lemma absorb_all_c_ok chunks : Forall (fun m => Z.of_nat (length m) + 200 < 2 ^ 64) chunks ->
  forall s c, okinc s c -> (c < SHAKE256_RATE)%nat ->
  exists s' c', absorb_all s chunks = Some s' /\ absorb_all_c s chunks = Some s' /\ okinc s' c' /\ (c' < SHAKE256_RATE)%nat.
Proof.
  induction 1 as [|m ms Hm _ IH]; intros s c K Hc; [exists s, c; auto|]. cbn [absorb_all absorb_all_c].
  destruct (inc_absorb_c_ok SHAKE256_RATE rate_ok s c xRATE m K Hc rate_asg Hm) as (s1 & c1 & E1 & E2 & K1 & H1).
  unfold shake256_inc_absorb, shake256_inc_absorb_c. rewrite E1, E2. cbn [bind]. exact (IH s1 c1 K1 H1).
Qed.
Lemma squeeze_all_c_ok lens : Forall (fun n => Z.of_nat n < 2 ^ 64) lens -> forall s c, okinc s c -> (c <= SHAKE256_RATE)%nat ->
  squeeze_all_c s lens = squeeze_all s lens.
Proof.
  induction 1 as [|n ns Hn _ IH]; intros s c K Hc; [reflexivity|]. cbn [squeeze_all squeeze_all_c].
  destruct (inc_squeeze_c_ok SHAKE256_RATE rate_ok s c xRATE n K Hc rate_asg Hn) as (h & s1 & c1 & E1 & E2 & K1 & H1).
  unfold shake256_inc_squeeze, shake256_inc_squeeze_c. rewrite E1, E2. cbn [bind]. rewrite (IH s1 c1 K1 H1). reflexivity.
Qed.
Theorem shake256_run_c_bytes s0 chunks lens : length s0 = 26%nat -> Forall all_bytes chunks ->
  Forall (fun m => Z.of_nat (length m) + 200 < 2 ^ 64) chunks -> Forall (fun n => Z.of_nat n < 2 ^ 64) lens ->
  shake256_run_c s0 chunks lens = Some (pieces (SHAKE256 (concat chunks) (total lens)) lens).
Proof.
  intros L B Hm Hn. rewrite <- shake256_inc_ok by exact B. unfold shake256_run_c, shake256_inc.
  rewrite (inc_init_c_ok s0 L). cbn [bind].
  destruct (absorb_all_c_ok chunks Hm shake256_inc_init 0 init_okinc) as (s1 & c1 & E1 & E2 & K1 & H1); [apply rate_ok|].
  rewrite E1, E2. cbn [bind].
  destruct (inc_finalize_c_ok SHAKE256_RATE rate_ok s1 c1 xRATE (K 0x1F) 0x1F K1 H1 rate_asg eq_refl) as (s2 & E3 & E4 & K2); [lia|].
  unfold shake256_inc_finalize, shake256_inc_finalize_c. rewrite E3, E4. cbn [bind].
  apply (squeeze_all_c_ok lens Hn s2 0 K2). lia.
Qed.
