(** haraka-aesni/haraka.c computes Haraka v2: the AES-instruction code against the specification. *)
From Verif Require Import Base BaseFacts KeccakSpec HarakaSpec Haraka ShakeProofs SpongeFacts HarakaProofs
  HarakaSponge HarakaTweak HashShake HashHaraka HashHarakaProofs CoreFacts2 HarakaNi.
Local Notation xor_bytes := KeccakSpec.xor_bytes.

Definition is16 (v : bytes) : Prop := length v = 16%nat.
Lemma is16_ex v : is16 v -> exists a b c d e f g h i j k l m n o p,
  v = [a; b; c; d; e; f; g; h; i; j; k; l; m; n; o; p].
Proof.
  intros H. unfold is16 in H. do 16 (destruct v as [|? v]; [discriminate H|]). destruct v; [|discriminate H].
  do 16 eexists. reflexivity.
Qed.
(** SubBytes and ShiftRows commute. *)
Lemma aesenc_ok s k : is16 s -> aesenc s k = aes_round s k.
Proof.
  intros H. unfold aesenc, aes_round. replace (SubBytes (ShiftRows s)) with (ShiftRows (SubBytes s)); [reflexivity|].
  destruct (is16_ex s H) as (?&?&?&?&?&?&?&?&?&?&?&?&?&?&?&?&->). unfold SubBytes. generalize Sbox. intros S. reflexivity.
Qed.
Lemma aes_round16 s k : is16 (aes_round s k).
Proof. reflexivity. Qed.
Lemma aesenc16 s k : is16 (aesenc s k).
Proof. reflexivity. Qed.
#[local] Opaque aes_round aesenc.
Lemma mix2_ok a b : is16 a -> is16 b -> let '(x, y) := MIX2 (a, b) in mix256 [a; b] = [x; y] /\ is16 x /\ is16 y.
Proof.
  intros Ha Hb. destruct (is16_ex a Ha) as (?&?&?&?&?&?&?&?&?&?&?&?&?&?&?&?&->).
  destruct (is16_ex b Hb) as (?&?&?&?&?&?&?&?&?&?&?&?&?&?&?&?&->). repeat split.
Qed.
Lemma mix4_ok a b c d : is16 a -> is16 b -> is16 c -> is16 d ->
  let '(w, x, y, z) := MIX4 (a, b, c, d) in mix512 [a; b; c; d] = [w; x; y; z] /\ is16 w /\ is16 x /\ is16 y /\ is16 z.
Proof.
  intros Ha Hb Hc Hd. destruct (is16_ex a Ha) as (?&?&?&?&?&?&?&?&?&?&?&?&?&?&?&?&->).
  destruct (is16_ex b Hb) as (?&?&?&?&?&?&?&?&?&?&?&?&?&?&?&?&->).
  destruct (is16_ex c Hc) as (?&?&?&?&?&?&?&?&?&?&?&?&?&?&?&?&->).
  destruct (is16_ex d Hd) as (?&?&?&?&?&?&?&?&?&?&?&?&?&?&?&?&->). repeat split.
Qed.
Lemma xor128_ok a b : is16 a -> is16 b -> XOR128 a b = xor_bytes a b.
Proof.
  intros Ha Hb. destruct (is16_ex a Ha) as (?&?&?&?&?&?&?&?&?&?&?&?&?&?&?&?&->).
  destruct (is16_ex b Hb) as (?&?&?&?&?&?&?&?&?&?&?&?&?&?&?&?&->). reflexivity.
Qed.
Definition l2 (s : v2) : list bytes := let '(a, b) := s in [a; b].
Definition l4 (s : v4) : list bytes := let '(a, b, c, d) := s in [a; b; c; d].

Section Ni.
Variable RC : list (list Z).
Hypothesis LRC : length RC = 40%nat.
Lemma get_rc i : (i < 40)%nat -> get RC i = Some (nth i RC []).
Proof. intros H. unfold get. apply nth_error_nth'. lia. Qed.
Lemma key_nth nb l i : (i < nb)%nat -> nth i (keys nb RC l) [] = nth (nb * l + i) RC [].
Proof. clear LRC. intros H. unfold keys. rewrite nth_first by exact H. apply nth_skipn. Qed.
Lemma layer2 K a b : aes_layer [a; b] K = [aes_round a (nth 0 K []); aes_round b (nth 1 K [])].
Proof. reflexivity. Qed.
Lemma layer4 K a b c d : aes_layer [a; b; c; d] K
  = [aes_round a (nth 0 K []); aes_round b (nth 1 K []); aes_round c (nth 2 K []); aes_round d (nth 3 K [])].
Proof. reflexivity. Qed.
Definition all2 (s : v2) : Prop := let '(a, b) := s in is16 a /\ is16 b.
Definition all4 (s : v4) : Prop := let '(a, b, c, d) := s in is16 a /\ is16 b /\ is16 c /\ is16 d.
Lemma round2_ok s t : (t < 5)%nat -> all2 s ->
  exists s', AES2 RC s (4 * t) = Some s' /\ all2 (MIX2 s') /\ l2 (MIX2 s') = hround 2 mix256 RC (l2 s) t.
Proof.
  destruct s as [a b]. intros Ht (Ha & Hb). cbn [AES2 l2].
  rewrite !get_rc by lia. cbn [bind]. rewrite !aesenc_ok by (auto using aes_round16, aesenc16).
  eexists. split; [reflexivity|].
  match goal with |- context [MIX2 (?x, ?y)] => pose proof (mix2_ok x y (aes_round16 _ _) (aes_round16 _ _)) as M end.
  destruct (MIX2 _) as [x y]. destruct M as (M & Hx & Hy). split; [split; assumption|].
  cbn [l2]. rewrite <- M. unfold hround. rewrite layer2, layer2, !key_nth by lia.
  replace (2 * (2 * t) + 0)%nat with (4 * t)%nat by lia. replace (2 * (2 * t) + 1)%nat with (4 * t + 1)%nat by lia.
  replace (2 * (2 * t + 1) + 0)%nat with (4 * t + 2)%nat by lia. replace (2 * (2 * t + 1) + 1)%nat with (4 * t + 3)%nat by lia.
  reflexivity.
Qed.
Lemma round4_ok s t : (t < 5)%nat -> all4 s ->
  exists s', AES4 RC s (8 * t) = Some s' /\ all4 (MIX4 s') /\ l4 (MIX4 s') = hround 4 mix512 RC (l4 s) t.
Proof.
  destruct s as [[[a b] c] d]. intros Ht (Ha & Hb & Hc & Hd). cbn [AES4 l4].
  rewrite !get_rc by lia. cbn [bind]. rewrite !aesenc_ok by (auto using aes_round16, aesenc16).
  eexists. split; [reflexivity|].
  match goal with |- context [MIX4 (?x, ?y, ?z, ?w)] =>
    pose proof (mix4_ok x y z w (aes_round16 _ _) (aes_round16 _ _) (aes_round16 _ _) (aes_round16 _ _)) as M end.
  destruct (MIX4 _) as [[[x y] z] w]. destruct M as (M & Hx & Hy & Hz & Hw). split; [repeat split; assumption|].
  cbn [l4]. rewrite <- M. unfold hround. rewrite layer4, layer4, !key_nth by lia.
  replace (4 * (2 * t) + 0)%nat with (8 * t)%nat by lia. replace (4 * (2 * t) + 1)%nat with (8 * t + 1)%nat by lia.
  replace (4 * (2 * t) + 2)%nat with (8 * t + 2)%nat by lia. replace (4 * (2 * t) + 3)%nat with (8 * t + 3)%nat by lia.
  replace (4 * (2 * t + 1) + 0)%nat with (8 * t + 4)%nat by lia. replace (4 * (2 * t + 1) + 1)%nat with (8 * t + 5)%nat by lia.
  replace (4 * (2 * t + 1) + 2)%nat with (8 * t + 6)%nat by lia. replace (4 * (2 * t + 1) + 3)%nat with (8 * t + 7)%nat by lia.
  reflexivity.
Qed.
#[local] Opaque AES2 AES4 MIX2 MIX4 hround.
Lemma rounds2_ok s : all2 s ->
  exists s', rounds2 RC s = Some s' /\ all2 s' /\ l2 s' = hperm 2 mix256 RC (l2 s).
Proof.
  intros H. unfold rounds2, hperm. cbn [seq fold_left].
  destruct (round2_ok s 0 ltac:(lia) H) as (s1 & E1 & A1 & F1). cbn [Nat.mul Nat.add] in E1. rewrite E1. cbn [bind].
  destruct (round2_ok (MIX2 s1) 1 ltac:(lia) A1) as (s2 & E2 & A2 & F2). cbn [Nat.mul Nat.add] in E2. rewrite E2. cbn [bind].
  destruct (round2_ok (MIX2 s2) 2 ltac:(lia) A2) as (s3 & E3 & A3 & F3). cbn [Nat.mul Nat.add] in E3. rewrite E3. cbn [bind].
  destruct (round2_ok (MIX2 s3) 3 ltac:(lia) A3) as (s4 & E4 & A4 & F4). cbn [Nat.mul Nat.add] in E4. rewrite E4. cbn [bind].
  destruct (round2_ok (MIX2 s4) 4 ltac:(lia) A4) as (s5 & E5 & A5 & F5). cbn [Nat.mul Nat.add] in E5. rewrite E5. cbn [bind].
  eexists. split; [reflexivity|]. split; [exact A5|]. now rewrite F5, F4, F3, F2, F1.
Qed.
Lemma rounds4_ok s : all4 s ->
  exists s', rounds4 RC s = Some s' /\ all4 s' /\ l4 s' = hperm 4 mix512 RC (l4 s).
Proof.
  intros H. unfold rounds4, hperm. cbn [seq fold_left].
  destruct (round4_ok s 0 ltac:(lia) H) as (s1 & E1 & A1 & F1). cbn [Nat.mul Nat.add] in E1. rewrite E1. cbn [bind].
  destruct (round4_ok (MIX4 s1) 1 ltac:(lia) A1) as (s2 & E2 & A2 & F2). cbn [Nat.mul Nat.add] in E2. rewrite E2. cbn [bind].
  destruct (round4_ok (MIX4 s2) 2 ltac:(lia) A2) as (s3 & E3 & A3 & F3). cbn [Nat.mul Nat.add] in E3. rewrite E3. cbn [bind].
  destruct (round4_ok (MIX4 s3) 3 ltac:(lia) A3) as (s4 & E4 & A4 & F4). cbn [Nat.mul Nat.add] in E4. rewrite E4. cbn [bind].
  destruct (round4_ok (MIX4 s4) 4 ltac:(lia) A4) as (s5 & E5 & A5 & F5). cbn [Nat.mul Nat.add] in E5. rewrite E5. cbn [bind].
  eexists. split; [reflexivity|]. split; [exact A5|]. now rewrite F5, F4, F3, F2, F1.
Qed.
(** The four-lane rounds are the rounds of each lane. *)
Lemma rounds4_4x_ok a b c d a' b' c' d' :
  rounds4 RC a = Some a' -> rounds4 RC b = Some b' -> rounds4 RC c = Some c' -> rounds4 RC d = Some d' ->
  rounds4_4x RC (a, b, c, d) = Some (a', b', c', d').
Proof.
  unfold rounds4, rounds4_4x, round4_4x. intros Ea Eb Ec Ed.
  do 4 (repeat match goal with
  | E : bind (AES4 RC ?s ?i) _ = Some _ |- _ => let F := fresh "F" in
      destruct (AES4 RC s i) eqn:F in E; [|discriminate E]; cbn [bind] in E; try rewrite F; cbn [bind]
  end).
  repeat match goal with H : Some _ = Some _ |- _ => injection H as H end. subst.
  repeat match goal with F : AES4 RC _ _ = Some _ |- _ => rewrite F; clear F; cbn [bind] end. reflexivity.
Qed.
Lemma rounds2_4x_ok a b c d a' b' c' d' :
  rounds2 RC a = Some a' -> rounds2 RC b = Some b' -> rounds2 RC c = Some c' -> rounds2 RC d = Some d' ->
  rounds2_4x RC (a, b, c, d) = Some (a', b', c', d').
Proof.
  unfold rounds2, rounds2_4x, round2_4x. intros Ea Eb Ec Ed.
  do 4 (repeat match goal with
  | E : bind (AES2 RC ?s ?i) _ = Some _ |- _ => let F := fresh "F" in
      destruct (AES2 RC s i) eqn:F in E; [|discriminate E]; cbn [bind] in E; try rewrite F; cbn [bind]
  end).
  repeat match goal with H : Some _ = Some _ |- _ => injection H as H end. subst.
  repeat match goal with F : AES2 RC _ _ = Some _ |- _ => rewrite F; clear F; cbn [bind] end. reflexivity.
Qed.

(** ** Loads and stores *)
Lemma LOAD_ok p o : (o + 16 <= length p)%nat ->
  LOAD p o = Some (norm (firstn 16 (skipn o p))) /\ is16 (norm (firstn 16 (skipn o p))).
Proof.
  clear. intros H. unfold LOAD. rewrite rd_ok by exact H. split; [reflexivity|].
  unfold is16. rewrite map_length, firstn_length, skipn_length. lia.
Qed.
Lemma LOAD_mid pre x post o : (o + 16 <= length x)%nat -> LOAD (pre ++ x ++ post) (length pre + o) = LOAD x o.
Proof.
  clear. intros H. destruct (split_at x o 16) as (a & b & c & -> & La & Lb & _); [exact H|].
  unfold LOAD. rewrite (rd_app' a b c) by auto. rewrite <- !app_assoc, app_assoc.
  rewrite (rd_app' (pre ++ a) b (c ++ post)); [reflexivity|rewrite app_length; lia|auto].
Qed.
Lemma load4_ok x : length x = 64%nat ->
  exists s, load4 x 0 = Some s /\ all4 s /\ l4 s = HarakaSpec.blocks 4 (norm x).
Proof.
  clear. intros L. unfold load4.
  destruct (LOAD_ok x 0 ltac:(lia)) as [E0 H0]. destruct (LOAD_ok x 16 ltac:(lia)) as [E1 H1].
  destruct (LOAD_ok x 32 ltac:(lia)) as [E2 H2]. destruct (LOAD_ok x 48 ltac:(lia)) as [E3 H3].
  cbn [Nat.add]. rewrite E0, E1, E2, E3. cbn [bind]. eexists. split; [reflexivity|]. split; [repeat split; assumption|].
  cbn [l4 HarakaSpec.blocks]. rewrite !skipn_map, !firstn_map, !skipn_skipn. reflexivity.
Qed.
Lemma load2_ok x : length x = 32%nat ->
  exists s, load2 x 0 = Some s /\ all2 s /\ l2 s = HarakaSpec.blocks 2 (norm x).
Proof.
  clear. intros L. unfold load2.
  destruct (LOAD_ok x 0 ltac:(lia)) as [E0 H0]. destruct (LOAD_ok x 16 ltac:(lia)) as [E1 H1].
  cbn [Nat.add]. rewrite E0, E1. cbn [bind]. eexists. split; [reflexivity|]. split; [repeat split; assumption|].
  cbn [l2 HarakaSpec.blocks]. rewrite !skipn_map, !firstn_map. reflexivity.
Qed.
Lemma blocks_concat nb : forall x, length x = (16 * nb)%nat -> concat (HarakaSpec.blocks nb x) = x.
Proof.
  clear. induction nb as [|nb IH]; intros x L; cbn [HarakaSpec.blocks concat].
  - destruct x; [reflexivity|discriminate].
  - rewrite IH by (rewrite skipn_length; lia). apply firstn_skipn.
Qed.
Lemma store4_norm s : store4 s = norm (concat (l4 s)).
Proof. clear. destruct s as [[[a b] c] d]. cbn [store4 l4 concat]. now rewrite !map_app, app_nil_r. Qed.
Lemma store2_norm s : store2 s = norm (concat (l2 s)).
Proof. clear. destruct s as [a b]. cbn [store2 l2 concat]. now rewrite !map_app, app_nil_r. Qed.
Lemma xor_bytes_app2 a : forall b c d, length a = length c -> xor_bytes (a ++ b) (c ++ d) = xor_bytes a c ++ xor_bytes b d.
Proof.
  clear. induction a as [|x a IH]; intros b [|y c] d L; cbn [length] in L; try lia; [reflexivity|].
  cbn [app KeccakSpec.xor_bytes]. now rewrite IH by lia.
Qed.
Lemma xor_in4_ok s x : all4 s -> length x = 64%nat ->
  exists s', xor_in4 s x 0 = Some s' /\ all4 s' /\ concat (l4 s') = xor_bytes (concat (l4 s)) (norm x).
Proof.
  clear. destruct s as [[[a b] c] d]. intros (Ha & Hb & Hc & Hd) L. unfold xor_in4.
  destruct (LOAD_ok x 0 ltac:(lia)) as [E0 H0]. destruct (LOAD_ok x 16 ltac:(lia)) as [E1 H1].
  destruct (LOAD_ok x 32 ltac:(lia)) as [E2 H2]. destruct (LOAD_ok x 48 ltac:(lia)) as [E3 H3].
  cbn [Nat.add]. rewrite E0, E1, E2, E3. cbn [bind]. eexists. split; [reflexivity|].
  rewrite !xor128_ok by assumption. split.
  { repeat split; unfold is16; rewrite xor_bytes_length; assumption. }
  rewrite <- (blocks_concat 4 (norm x)) by (rewrite map_length; exact L).
  cbn [HarakaSpec.blocks l4 concat]. rewrite !skipn_map, !firstn_map, !skipn_skipn. cbn [Nat.add].
  rewrite !app_nil_r. unfold is16 in *. cbn [skipn] in H0.
  rewrite !xor_bytes_app2 by congruence. reflexivity.
Qed.
Lemma xor_in2_ok s x : all2 s -> length x = 32%nat ->
  exists s', xor_in2 s x 0 = Some s' /\ all2 s' /\ concat (l2 s') = xor_bytes (concat (l2 s)) (norm x).
Proof.
  clear. destruct s as [a b]. intros (Ha & Hb) L. unfold xor_in2.
  destruct (LOAD_ok x 0 ltac:(lia)) as [E0 H0]. destruct (LOAD_ok x 16 ltac:(lia)) as [E1 H1].
  cbn [Nat.add]. rewrite E0, E1. cbn [bind]. eexists. split; [reflexivity|].
  rewrite !xor128_ok by assumption. split.
  { repeat split; unfold is16; rewrite xor_bytes_length; assumption. }
  rewrite <- (blocks_concat 2 (norm x)) by (rewrite map_length; exact L).
  cbn [HarakaSpec.blocks l2 concat]. rewrite !skipn_map, !firstn_map.
  rewrite !app_nil_r. unfold is16 in *. cbn [skipn] in H0.
  rewrite !xor_bytes_app2 by congruence. reflexivity.
Qed.
Lemma truncstore_norm s : all4 s -> TRUNCSTORE s = norm (haraka512_trunc (concat (l4 s))).
Proof.
  clear. destruct s as [[[a b] c] d]. intros (Ha & Hb & Hc & Hd).
  destruct (is16_ex a Ha) as (?&?&?&?&?&?&?&?&?&?&?&?&?&?&?&?&->).
  destruct (is16_ex b Hb) as (?&?&?&?&?&?&?&?&?&?&?&?&?&?&?&?&->).
  destruct (is16_ex c Hc) as (?&?&?&?&?&?&?&?&?&?&?&?&?&?&?&?&->).
  destruct (is16_ex d Hd) as (?&?&?&?&?&?&?&?&?&?&?&?&?&?&?&?&->). reflexivity.
Qed.

(** ** The functions, for constants that keep states bytes *)
Hypothesis Hb5 : forall x, length x = 64%nat -> all_bytes x -> all_bytes (pi512 RC x).
Hypothesis Hb2 : forall x, length x = 32%nat -> all_bytes x -> all_bytes (pi256 RC x).
Lemma norm_len x : length (norm x) = length x.
Proof. apply map_length. Qed.
(** The result of the rounds on a 64-byte input. *)
Lemma perm_run x : length x = 64%nat ->
  exists s s', load4 x 0 = Some s /\ rounds4 RC s = Some s' /\ all4 s' /\ concat (l4 s') = pi512 RC (norm x).
Proof.
  intros L. destruct (load4_ok x L) as (s & E & A & B). destruct (rounds4_ok s A) as (s' & E' & A' & B').
  exists s, s'. repeat split; auto. rewrite B', B. reflexivity.
Qed.
Lemma perm_run2 x : length x = 32%nat ->
  exists s s', load2 x 0 = Some s /\ rounds2 RC s = Some s' /\ all2 s' /\ concat (l2 s') = pi256 RC (norm x).
Proof.
  intros L. destruct (load2_ok x L) as (s & E & A & B). destruct (rounds2_ok s A) as (s' & E' & A' & B').
  exists s, s'. repeat split; auto. rewrite B', B. reflexivity.
Qed.
Theorem ni_perm512_ok x : length x = 64%nat -> ni_perm512 RC x = Some (pi512 RC (norm x)).
Proof.
  intros L. unfold ni_perm512. destruct (perm_run x L) as (s & s' & E1 & E2 & A & B).
  rewrite E1. cbn [bind]. rewrite E2. cbn [bind]. rewrite store4_norm, B. f_equal. apply norm_bytes.
  apply Hb5; [now rewrite norm_len|apply norm_all].
Qed.
Lemma Haraka512_byte x : length x = 64%nat -> all_bytes x -> all_bytes (Haraka512 RC x).
Proof.
  intros L B. assert (B2 : all_bytes (xor_bytes (pi512 RC x) x)) by (apply xor_bytes_bytes; auto).
  unfold Haraka512, haraka512_trunc.
  assert (F : forall a b, all_bytes (firstn a (skipn b (xor_bytes (pi512 RC x) x)))) by (intros; now apply all_firstn, Forall_skip).
  apply Forall_app. split; [apply F|]. apply Forall_app. split; [apply F|]. apply Forall_app. split; apply F.
Qed.
Lemma Haraka256_byte x : length x = 32%nat -> all_bytes x -> all_bytes (Haraka256 RC x).
Proof. intros L B. apply xor_bytes_bytes; auto. Qed.
Theorem ni_512_ok x : length x = 64%nat -> ni_512 RC x = Some (Haraka512 RC (norm x)).
Proof.
  intros L. unfold ni_512. destruct (perm_run x L) as (s & s' & E1 & E2 & A & B).
  rewrite E1. cbn [bind]. rewrite E2. cbn [bind]. destruct (xor_in4_ok s' x A L) as (s2 & E3 & A3 & B3).
  rewrite E3. cbn [bind]. rewrite truncstore_norm by exact A3. rewrite B3, B. f_equal. apply norm_bytes.
  apply Haraka512_byte; [now rewrite norm_len|apply norm_all].
Qed.
Theorem ni_256_ok x : length x = 32%nat -> ni_256 RC x = Some (Haraka256 RC (norm x)).
Proof.
  intros L. unfold ni_256. destruct (perm_run2 x L) as (s & s' & E1 & E2 & A & B).
  rewrite E1. cbn [bind]. rewrite E2. cbn [bind]. destruct (xor_in2_ok s' x A L) as (s2 & E3 & A3 & B3).
  rewrite E3. cbn [bind]. rewrite store2_norm. rewrite B3, B. f_equal. apply norm_bytes.
  apply Haraka256_byte; [now rewrite norm_len|apply norm_all].
Qed.

(** ** Four lanes *)
Lemma load4_mid pre x post : length x = 64%nat -> load4 (pre ++ x ++ post) (length pre) = load4 x 0.
Proof.
  clear. intros L. unfold load4. rewrite <- (Nat.add_0_r (length pre)) at 1.
  rewrite !LOAD_mid by lia. reflexivity.
Qed.
Lemma load2_mid pre x post : length x = 32%nat -> load2 (pre ++ x ++ post) (length pre) = load2 x 0.
Proof.
  clear. intros L. unfold load2. rewrite <- (Nat.add_0_r (length pre)) at 1.
  rewrite !LOAD_mid by lia. reflexivity.
Qed.
Lemma xor_in4_mid s pre x post : length x = 64%nat -> xor_in4 s (pre ++ x ++ post) (length pre) = xor_in4 s x 0.
Proof.
  clear. intros L. unfold xor_in4. destruct s as [[[a b] c] d]. rewrite <- (Nat.add_0_r (length pre)) at 1.
  rewrite !LOAD_mid by lia. reflexivity.
Qed.
Lemma xor_in2_mid s pre x post : length x = 32%nat -> xor_in2 s (pre ++ x ++ post) (length pre) = xor_in2 s x 0.
Proof.
  clear. intros L. unfold xor_in2. destruct s as [a b]. rewrite <- (Nat.add_0_r (length pre)) at 1.
  rewrite !LOAD_mid by lia. reflexivity.
Qed.
Section Four.
Variables x0 x1 x2 x3 : bytes.
Notation X := (x0 ++ x1 ++ x2 ++ x3).
Lemma at_lanes n {A} (f : bytes -> nat -> A) (g : bytes -> A) :
  length x0 = n -> length x1 = n -> length x2 = n -> length x3 = n ->
  (forall pre x post, length x = n -> f (pre ++ x ++ post) (length pre) = g x) ->
  f X 0%nat = g x0 /\ f X n = g x1 /\ f X (2 * n)%nat = g x2 /\ f X (3 * n)%nat = g x3.
Proof.
  clear. intros L0 L1 L2 L3 H. split; [|split; [|split]].
  - exact (H [] x0 _ L0).
  - rewrite <- L0 at 1. apply H; auto.
  - replace (2 * n)%nat with (length (x0 ++ x1)) by (rewrite app_length; lia).
    rewrite <- (H (x0 ++ x1) x2 x3 L2). now rewrite <- app_assoc.
  - replace (3 * n)%nat with (length (x0 ++ x1 ++ x2)) by (rewrite !app_length; lia).
    rewrite <- (H (x0 ++ x1 ++ x2) x3 [] L3). now rewrite <- !app_assoc, app_nil_r.
Qed.
Theorem ni_perm512_x4_ok : length x0 = 64%nat -> length x1 = 64%nat -> length x2 = 64%nat -> length x3 = 64%nat ->
  ni_perm512_x4 RC X
  = Some (pi512 RC (norm x0) ++ pi512 RC (norm x1) ++ pi512 RC (norm x2) ++ pi512 RC (norm x3)).
Proof.
  intros L0 L1 L2 L3. unfold ni_perm512_x4, load4_4x.
  destruct (at_lanes 64 load4 (fun x => load4 x 0) L0 L1 L2 L3 load4_mid) as (M0 & M1 & M2 & M3).
  cbn [Nat.mul Nat.add] in M2, M3. rewrite M0, M1, M2, M3.
  destruct (perm_run x0 L0) as (s0 & t0 & E0 & F0 & A0 & B0). destruct (perm_run x1 L1) as (s1 & t1 & E1 & F1 & A1 & B1).
  destruct (perm_run x2 L2) as (s2 & t2 & E2 & F2 & A2 & B2). destruct (perm_run x3 L3) as (s3 & t3 & E3 & F3 & A3 & B3).
  rewrite E0, E1, E2, E3. cbn [bind]. rewrite (rounds4_4x_ok _ _ _ _ _ _ _ _ F0 F1 F2 F3). cbn [bind].
  rewrite !store4_norm, B0, B1, B2, B3.
  rewrite !(norm_bytes (pi512 _ _)) by (apply Hb5; [now rewrite norm_len|apply norm_all]). reflexivity.
Qed.
Theorem ni_512x4_ok : length x0 = 64%nat -> length x1 = 64%nat -> length x2 = 64%nat -> length x3 = 64%nat ->
  ni_512x4 RC X
  = Some (Haraka512 RC (norm x0) ++ Haraka512 RC (norm x1) ++ Haraka512 RC (norm x2) ++ Haraka512 RC (norm x3)).
Proof.
  intros L0 L1 L2 L3. unfold ni_512x4, load4_4x.
  destruct (at_lanes 64 load4 (fun x => load4 x 0) L0 L1 L2 L3 load4_mid) as (M0 & M1 & M2 & M3).
  cbn [Nat.mul Nat.add] in M2, M3. rewrite M0, M1, M2, M3.
  destruct (perm_run x0 L0) as (s0 & t0 & E0 & F0 & A0 & B0). destruct (perm_run x1 L1) as (s1 & t1 & E1 & F1 & A1 & B1).
  destruct (perm_run x2 L2) as (s2 & t2 & E2 & F2 & A2 & B2). destruct (perm_run x3 L3) as (s3 & t3 & E3 & F3 & A3 & B3).
  rewrite E0, E1, E2, E3. cbn [bind]. rewrite (rounds4_4x_ok _ _ _ _ _ _ _ _ F0 F1 F2 F3). cbn [bind].
  destruct (at_lanes 64 (xor_in4 t0) (fun x => xor_in4 t0 x 0) L0 L1 L2 L3 (xor_in4_mid t0)) as (N0 & _).
  destruct (at_lanes 64 (xor_in4 t1) (fun x => xor_in4 t1 x 0) L0 L1 L2 L3 (xor_in4_mid t1)) as (_ & N1 & _).
  destruct (at_lanes 64 (xor_in4 t2) (fun x => xor_in4 t2 x 0) L0 L1 L2 L3 (xor_in4_mid t2)) as (_ & _ & N2 & _).
  destruct (at_lanes 64 (xor_in4 t3) (fun x => xor_in4 t3 x 0) L0 L1 L2 L3 (xor_in4_mid t3)) as (_ & _ & _ & N3).
  cbn [Nat.mul Nat.add] in N2, N3. rewrite N0, N1, N2, N3.
  destruct (xor_in4_ok t0 x0 A0 L0) as (u0 & G0 & C0 & D0). destruct (xor_in4_ok t1 x1 A1 L1) as (u1 & G1 & C1 & D1).
  destruct (xor_in4_ok t2 x2 A2 L2) as (u2 & G2 & C2 & D2). destruct (xor_in4_ok t3 x3 A3 L3) as (u3 & G3 & C3 & D3).
  rewrite G0, G1, G2, G3. cbn [bind]. rewrite !truncstore_norm by assumption. rewrite D0, D1, D2, D3, B0, B1, B2, B3.
  change (haraka512_trunc (xor_bytes (pi512 RC (norm x0)) (norm x0))) with (Haraka512 RC (norm x0)).
  change (haraka512_trunc (xor_bytes (pi512 RC (norm x1)) (norm x1))) with (Haraka512 RC (norm x1)).
  change (haraka512_trunc (xor_bytes (pi512 RC (norm x2)) (norm x2))) with (Haraka512 RC (norm x2)).
  change (haraka512_trunc (xor_bytes (pi512 RC (norm x3)) (norm x3))) with (Haraka512 RC (norm x3)).
  rewrite !(norm_bytes (Haraka512 _ _)) by (apply Haraka512_byte; [now rewrite norm_len|apply norm_all]). reflexivity.
Qed.
Theorem ni_256x4_ok post : length x0 = 32%nat -> length x1 = 32%nat -> length x2 = 32%nat -> length x3 = 32%nat ->
  ni_256x4 RC (X ++ post)
  = Some (Haraka256 RC (norm x0) ++ Haraka256 RC (norm x1) ++ Haraka256 RC (norm x2) ++ Haraka256 RC (norm x3)).
Proof.
  intros L0 L1 L2 L3. unfold ni_256x4, load2_4x.
  set (Y := X ++ post).
  assert (at2 : forall A (f : bytes -> nat -> A) (g : bytes -> A),
    (forall pre x post, length x = 32%nat -> f (pre ++ x ++ post) (length pre) = g x) ->
    f Y 0%nat = g x0 /\ f Y 32%nat = g x1 /\ f Y 64%nat = g x2 /\ f Y 96%nat = g x3).
  { intros A f g H. unfold Y. rewrite <- !app_assoc. split; [|split; [|split]].
    - exact (H [] x0 _ L0).
    - replace 32%nat with (length x0). apply H; auto.
    - replace 64%nat with (length (x0 ++ x1)) by (rewrite app_length; lia).
      rewrite <- (H (x0 ++ x1) x2 (x3 ++ post) L2). now rewrite <- app_assoc.
    - replace 96%nat with (length (x0 ++ x1 ++ x2)) by (rewrite !app_length; lia).
      rewrite <- (H (x0 ++ x1 ++ x2) x3 post L3). now rewrite <- !app_assoc. }
  clearbody Y.
  destruct (at2 _ load2 (fun x => load2 x 0) load2_mid) as (M0 & M1 & M2 & M3).
  rewrite M0, M1, M2, M3.
  destruct (perm_run2 x0 L0) as (s0 & t0 & E0 & F0 & A0 & B0). destruct (perm_run2 x1 L1) as (s1 & t1 & E1 & F1 & A1 & B1).
  destruct (perm_run2 x2 L2) as (s2 & t2 & E2 & F2 & A2 & B2). destruct (perm_run2 x3 L3) as (s3 & t3 & E3 & F3 & A3 & B3).
  rewrite E0, E1, E2, E3. cbn [bind]. rewrite (rounds2_4x_ok _ _ _ _ _ _ _ _ F0 F1 F2 F3). cbn [bind].
  destruct (at2 _ (xor_in2 t0) (fun x => xor_in2 t0 x 0) (xor_in2_mid t0)) as (N0 & _).
  destruct (at2 _ (xor_in2 t1) (fun x => xor_in2 t1 x 0) (xor_in2_mid t1)) as (_ & N1 & _).
  destruct (at2 _ (xor_in2 t2) (fun x => xor_in2 t2 x 0) (xor_in2_mid t2)) as (_ & _ & N2 & _).
  destruct (at2 _ (xor_in2 t3) (fun x => xor_in2 t3 x 0) (xor_in2_mid t3)) as (_ & _ & _ & N3).
  rewrite N0, N1, N2, N3.
  destruct (xor_in2_ok t0 x0 A0 L0) as (u0 & G0 & C0 & D0). destruct (xor_in2_ok t1 x1 A1 L1) as (u1 & G1 & C1 & D1).
  destruct (xor_in2_ok t2 x2 A2 L2) as (u2 & G2 & C2 & D2). destruct (xor_in2_ok t3 x3 A3 L3) as (u3 & G3 & C3 & D3).
  rewrite G0, G1, G2, G3. cbn [bind]. rewrite !store2_norm. rewrite D0, D1, D2, D3, B0, B1, B2, B3.
  change (xor_bytes (pi256 RC (norm x0)) (norm x0)) with (Haraka256 RC (norm x0)).
  change (xor_bytes (pi256 RC (norm x1)) (norm x1)) with (Haraka256 RC (norm x1)).
  change (xor_bytes (pi256 RC (norm x2)) (norm x2)) with (Haraka256 RC (norm x2)).
  change (xor_bytes (pi256 RC (norm x3)) (norm x3)) with (Haraka256 RC (norm x3)).
  rewrite !(norm_bytes (Haraka256 _ _)) by (apply Haraka256_byte; [now rewrite norm_len|apply norm_all]). reflexivity.
Qed.
End Four.
End Ni.
