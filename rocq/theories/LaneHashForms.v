(** The multi-lane primitives in the form of the properties: one output per input, on bytes. *)
From Verif Require Import Base BaseFacts Params Suite KeccakSpec KeccakProofs SpongeFacts Fips202 ShakeProofs HashSpec Sha2Spec Sha2 Sha2Proofs
  HarakaSpec HarakaTweak HashHarakaProofs Lanes LaneKeccak LaneKeccakProofs LaneShake LaneShakeProofs LaneShakeOk LaneSha2 LaneSha2Ok LaneSha2Thash
  HarakaNi HarakaNiProofs HarakaNiSponge.
#[local] Opaque SHA256 SHA512 sha256_inc_blocks sha512_inc_blocks sha256_inc_init sha512_inc_init HarakaS Haraka512 Haraka256 pi512 pi256.

(** [map] over the lane numbers is [map] over the inputs. *)
Lemma map_lanes {A B} (g h : A -> B) (l : list A) (d : A) n : length l = n -> (forall x, In x l -> g x = h x) ->
  map (fun j => g (nth j l d)) (seq 0 n) = map h l.
Proof.
  intros <- H. rewrite <- (map_ext_in g h l H). clear. 
  induction l as [|x l IH]; [reflexivity|]. cbn [length seq map nth]. f_equal.
  rewrite <- seq_shift, map_map. cbn [nth]. exact IH.
Qed.
Lemma same_length (l : list bytes) len : Forall (fun x => length x = len) l -> forall j, (j < length l)%nat -> length (nth j l []) = len.
Proof. intros F j Hj. rewrite Forall_forall in F. apply F. now apply nth_In. Qed.
Lemma norm_in (l : list bytes) x : Forall all_bytes l -> In x l -> norm x = x.
Proof. intros F H. rewrite Forall_forall in F. apply norm_bytes. now apply F. Qed.

Section Sha2.
Variable junk vj : nat -> nat -> Z.
Theorem sha256x8_form ins inlen : length ins = 8%nat -> Forall (fun x => length x = inlen) ins -> Forall all_bytes ins ->
  Z.of_nat inlen < 2 ^ 64 -> sha256x8 junk vj ins inlen = Some (map SHA256 ins).
Proof.
  intros L F B H. rewrite sha256x8_ok; [|exact L|rewrite <- L; now apply same_length|exact H].
  apply (f_equal Some). refine (map_lanes (fun x => SHA256 (norm x)) _ ins [] 8 L _). intros x Hx. now rewrite (norm_in ins) by auto.
Qed.
Theorem sha512x4_form ins inlen : length ins = 4%nat -> Forall (fun x => length x = inlen) ins -> Forall all_bytes ins ->
  Z.of_nat inlen < 2 ^ 32 -> sha512x4 junk vj ins inlen = Some (map SHA512 ins).
Proof.
  intros L F B H. rewrite sha512x4_ok; [|exact L|rewrite <- L; now apply same_length|exact H].
  apply (f_equal Some). refine (map_lanes (fun x => SHA512 (norm x)) _ ins [] 4 L _). intros x Hx. now rewrite (norm_in ins) by auto.
Qed.
Theorem sha256x8_seeded_form k pre st ins inlen : length pre = (64 * k)%nat -> all_bytes pre ->
  sha256_inc_blocks sha256_inc_init pre k = Some st ->
  length ins = 8%nat -> Forall (fun x => length x = inlen) ins -> Forall all_bytes ins -> Z.of_nat inlen < 2 ^ 64 ->
  sha256x8_seeded junk vj st (512 * Z.of_nat k) ins inlen = Some (map (fun x => SHA256 (pre ++ x)) ins).
Proof.
  intros Lp Bp E L F B H.
  destruct (seeded_blocks256 sha256_inc_init [] pre k seeded_init256) as (st' & E' & S); [lia|].
  assert (st' = st) as -> by congruence. cbn [app] in S. rewrite firstn_all2, norm_bytes in S by (auto; lia).
  replace (512 * Z.of_nat k) with (8 * Z.of_nat (length pre)) by lia.
  rewrite (sha256x8_seeded_ok junk vj st pre); [|exact S|exact L|rewrite <- L; now apply same_length|exact H].
  apply (f_equal Some). refine (map_lanes (fun x => SHA256 (pre ++ norm x)) _ ins [] 8 L _).
  intros x Hx. now rewrite (norm_in ins) by auto.
Qed.
Theorem sha512x4_seeded_form k pre st ins inlen : length pre = (128 * k)%nat -> all_bytes pre -> Z.of_nat (length pre) < 2 ^ 60 ->
  sha512_inc_blocks sha512_inc_init pre k = Some st ->
  length ins = 4%nat -> Forall (fun x => length x = inlen) ins -> Forall all_bytes ins -> Z.of_nat inlen < 2 ^ 32 ->
  sha512x4_seeded junk vj st (1024 * Z.of_nat k) ins inlen = Some (map (fun x => SHA512 (pre ++ x)) ins).
Proof.
  intros Lp Bp Hp E L F B H.
  destruct (seeded_blocks512 sha512_inc_init [] pre k seeded_init512) as (st' & E' & S); [lia|].
  assert (st' = st) as -> by congruence. cbn [app] in S. rewrite firstn_all2, norm_bytes in S by (auto; lia).
  replace (1024 * Z.of_nat k) with (8 * Z.of_nat (length pre)) by lia.
  rewrite (sha512x4_seeded_ok junk vj st pre); [|exact S|exact L|rewrite <- L; now apply same_length|exact H|exact Hp].
  apply (f_equal Some). refine (map_lanes (fun x => SHA512 (pre ++ norm x)) _ ins [] 4 L _).
  intros x Hx. now rewrite (norm_in ins) by auto.
Qed.
Theorem mgf1x8_form outlen ins inlen : length ins = 8%nat -> Forall (fun x => inlen <= length x)%nat ins -> Forall all_bytes ins ->
  Z.of_nat inlen < 2 ^ 32 ->
  mgf1x8 junk vj outlen ins inlen = Some (map (fun x => mgf1_of SHA256 32 (firstn inlen x) outlen) ins).
Proof.
  intros L F B H. rewrite mgf1x8_ok; [|exact L| |exact H].
  - apply (f_equal Some). refine (map_lanes (fun x => mgf1_of SHA256 32 (norm (firstn inlen x)) outlen) _ ins [] 8 L _).
    intros x Hx. rewrite norm_bytes; [reflexivity|]. apply all_firstn. rewrite Forall_forall in B. now apply B.
  - intros j Hj. rewrite Forall_forall in F. apply F, nth_In. lia.
Qed.
Theorem mgf1x4_512_form outlen ins inlen : length ins = 4%nat -> Forall (fun x => inlen <= length x)%nat ins -> Forall all_bytes ins ->
  Z.of_nat inlen + 4 < 2 ^ 32 ->
  mgf1x4_512 junk vj outlen ins inlen = Some (map (fun x => mgf1_of SHA512 64 (firstn inlen x) outlen) ins).
Proof.
  intros L F B H. rewrite mgf1x4_512_ok; [|exact L| |exact H].
  - apply (f_equal Some). refine (map_lanes (fun x => mgf1_of SHA512 64 (norm (firstn inlen x)) outlen) _ ins [] 4 L _).
    intros x Hx. rewrite norm_bytes; [reflexivity|]. apply all_firstn. rewrite Forall_forall in B. now apply B.
  - intros j Hj. rewrite Forall_forall in F. apply F, nth_In. lia.
Qed.
End Sha2.

(** ** Keccak *)
(** Word i of lane j of an array of vectors. *)
Lemma lane_nth j i (s : list vec) : nth i (lane j s) 0 = nth i s (fun _ => 0) j.
Proof. unfold lane. exact (map_nth (fun v : vec => v j) s (fun _ => 0) i). Qed.
Lemma perm_bits_form nl perm : perm_ok nl perm -> forall s, length s = 25%nat ->
  (forall j, (j < nl)%nat -> Forall (fun v : vec => 0 <= v j < 2 ^ 64) s) ->
  exists s', perm s = Some s' /\ length s' = 25%nat
    /\ forall j, (j < nl)%nat -> Forall (fun v : vec => 0 <= v j < 2 ^ 64) s'
    /\ forall x y z, (x < 5)%nat -> (y < 5)%nat -> 0 <= z < 64 ->
         Z.testbit (nth (5 * y + x) s' (fun _ => 0) j) z
         = keccak_f (fun x y z => Z.testbit (nth (5 * y + x) s (fun _ => 0) j) z) x y z.
Proof.
  intros Hp s L H. destruct (Hp s L) as (s' & E & L' & Q).
  { intros j Hj. unfold lane. apply Forall_map. exact (H j Hj). }
  exists s'. split; [exact E|]. split; [exact L'|]. intros j Hj. destruct (Q j Hj) as [W K]. split.
  { unfold lane in W. exact (proj1 (Forall_map _ _ _) W). }
  destruct (permute_bits (lane j s) []) as (t & Et & Lt & Wt & Bt).
  { unfold lane. now rewrite map_length. }
  { unfold lane. apply Forall_map. exact (H j Hj). }
  rewrite !app_nil_r in Et. assert (Es : t = lane j s') by congruence. subst t.
  intros x y z Hx Hy Hz. specialize (Bt x y z Hx Hy Hz). rewrite lane_nth in Bt. rewrite Bt.
  apply (keq_from 24 0); auto. intros x' y' z' _ _ _. now rewrite lane_nth.
Qed.

Lemma shakex_form nl perm junk s0 (r : nat) : perm_ok nl perm -> length s0 = 25%nat -> (forall j, (j < nl)%nat -> lane j s0 = repeat 0 25) ->
  (0 < r)%nat -> (r mod 8 = 0)%nat -> (r <= 200)%nat -> forall n ins inlen,
  length ins = nl -> Forall (fun x => inlen <= length x)%nat ins -> Forall all_bytes ins ->
  shakex nl perm junk s0 r n ins inlen = Some (map (fun x => sponge keccak_bytes 200 r 0x1F (firstn inlen x) n) ins).
Proof.
  intros Hp L0 H0 R1 R2 R3 n ins inlen L F B.
  assert (R4 : r = (8 * (r / 8))%nat) by (apply Nat.div_exact; [discriminate|exact R2]).
  rewrite (@shakex_ok nl perm Hp junk r (r / 8)%nat (conj R1 R3) R4 s0 n ins inlen L0 H0 L).
  - apply (f_equal Some), map_ext_in.
    intros x Hx. rewrite norm_bytes; [reflexivity|].
    apply all_firstn. rewrite Forall_forall in B. now apply B.
  - intros j Hj. rewrite Forall_forall in F. apply F, nth_In. lia.
Qed.

(** ** Haraka with AES instructions *)
Theorem ni_forms buf : all_bytes buf -> length buf = 640%nat -> let RC := HarakaSpec.blocks 40 buf in
  (forall x, length x = 64%nat -> all_bytes x -> ni_512 RC x = Some (Haraka512 RC x))
  /\ (forall x, length x = 32%nat -> all_bytes x -> ni_256 RC x = Some (Haraka256 RC x))
  /\ (forall n m, all_bytes m -> ni_S RC n m = Some (HarakaS RC m n)).
Proof.
  intros B L RC. destruct (good_blocks buf B L) as (L40 & B5 & B2). fold RC in L40, B5, B2. split; [|split].
  - intros x Lx Bx. rewrite (ni_512_ok RC L40 B5 x Lx). do 2 f_equal. exact (norm_bytes x Bx).
  - intros x Lx Bx. rewrite (ni_256_ok RC L40 B2 x Lx). do 2 f_equal. exact (norm_bytes x Bx).
  - intros n m Bm. rewrite (ni_S_ok RC L40 B5 n m). apply (f_equal (fun y => Some (HarakaS RC y n))). exact (norm_bytes m Bm).
Qed.
Lemma four_list {A} (l : list (list A)) : length l = 4%nat -> exists a b c d, l = [a; b; c; d].
Proof.
  destruct l as [|a [|b [|c [|d [|e l]]]]]; cbn; try discriminate. intros _. now exists a, b, c, d.
Qed.
Theorem ni_x4_forms buf : all_bytes buf -> length buf = 640%nat -> let RC := HarakaSpec.blocks 40 buf in
  (forall ins, length ins = 4%nat -> Forall (fun x => length x = 64%nat) ins -> Forall all_bytes ins ->
     ni_512x4 RC (concat ins) = Some (concat (map (Haraka512 RC) ins)))
  /\ (forall ins, length ins = 4%nat -> Forall (fun x => length x = 32%nat) ins -> Forall all_bytes ins ->
     ni_256x4 RC (concat ins) = Some (concat (map (Haraka256 RC) ins)))
  /\ (forall n ins inlen, length ins = 4%nat -> Forall (fun x => inlen <= length x)%nat ins -> Forall all_bytes ins ->
     ni_Sx4 RC n ins inlen = Some (map (fun x => HarakaS RC (firstn inlen x) n) ins)).
Proof.
  intros B L RC. destruct (good_blocks buf B L) as (L40 & B5 & B2). fold RC in L40, B5, B2. split; [|split].
  - intros ins L4 F Bs. destruct (four_list ins L4) as (a & b & c & d & ->).
    rewrite !Forall_cons_iff in F, Bs. destruct F as (La & Lb & Lc & Ld & _), Bs as (Ba & Bb & Bc & Bd & _).
    cbn [concat map]. rewrite !app_nil_r, (ni_512x4_ok RC L40 B5) by assumption.
    change (map u8 a) with (norm a). change (map u8 b) with (norm b). change (map u8 c) with (norm c). change (map u8 d) with (norm d).
    now rewrite !norm_bytes.
  - intros ins L4 F Bs. destruct (four_list ins L4) as (a & b & c & d & ->).
    rewrite !Forall_cons_iff in F, Bs. destruct F as (La & Lb & Lc & Ld & _), Bs as (Ba & Bb & Bc & Bd & _).
    cbn [concat map]. pose proof (ni_256x4_ok RC L40 B5 B2 a b c d [] La Lb Lc Ld) as E.
    rewrite app_nil_r in E. rewrite !app_nil_r. rewrite E.
    change (map u8 a) with (norm a). change (map u8 b) with (norm b). change (map u8 c) with (norm c). change (map u8 d) with (norm d).
    now rewrite !norm_bytes.
  - intros n ins inlen L4 F Bs. rewrite (ni_Sx4_ok RC L40 B5 n ins inlen L4 F). apply (f_equal Some), map_ext_in. intros x Hx.
    apply (f_equal (fun y => HarakaS RC y n)). apply (norm_bytes (firstn inlen x)). apply all_firstn.
    rewrite Forall_forall in Bs. now apply Bs.
Qed.
