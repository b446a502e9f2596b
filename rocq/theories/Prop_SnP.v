(** C69: the functions of keccak4x that give access to the four states by bytes and by lanes change exactly the bytes they
    name of exactly the instances they name, the permutations are Keccak-p[1600, 12] and [1600, 24] of each instance, and
    the absorbing loops absorb the blocks of the instances.  A loop step longer than an iteration reads past the end. *)
From Verif Require Import Base Fips202 KeccakSpec LaneKeccak KeccakSnP KeccakSnPSpec KeccakSnPProofs KeccakSnPLanes.

(** The state: 25 vectors of four 64-bit words. *)
Definition ok4 (s : list vec) : Prop :=
  length s = 25%nat /\ forall j, (j < 4)%nat -> Forall (fun v : vec => 0 <= v j < 2 ^ 64) s.

Theorem C69_initialize : forall s, length s = 25%nat ->
  exists s', KeccakP1600times4_InitializeAll s = Some s' /\ ok4 s' /\ forall j, instance s' j = repeat 0 200.
Proof. exact InitializeAll_ok. Qed.
Print Assumptions C69_initialize.

(** Bytes *)
Theorem C69_add_bytes : forall s inst data off len, ok4 s -> Forall (fun x => 0 <= x < 256) data -> (inst < 4)%nat -> (off + len <= 200)%nat ->
  (len <= length data)%nat ->
  exists s', KeccakP1600times4_AddBytes s inst data off len = Some s' /\ ok4 s'
    /\ forall j, (j < 4)%nat -> instance s' j = if (j =? inst)%nat then xor_at off (firstn len data) (instance s j) else instance s j.
Proof. exact AddBytes_ok. Qed.
Print Assumptions C69_add_bytes.
Theorem C69_overwrite_bytes : forall s inst data off len, ok4 s -> Forall (fun x => 0 <= x < 256) data -> (inst < 4)%nat -> (off + len <= 200)%nat ->
  (len <= length data)%nat ->
  exists s', KeccakP1600times4_OverwriteBytes s inst data off len = Some s' /\ ok4 s'
    /\ forall j, (j < 4)%nat -> instance s' j = if (j =? inst)%nat then put_at off (firstn len data) (instance s j) else instance s j.
Proof. exact OverwriteBytes_ok. Qed.
Print Assumptions C69_overwrite_bytes.
Theorem C69_overwrite_zeroes : forall s inst n, ok4 s -> (inst < 4)%nat -> (n <= 200)%nat ->
  exists s', KeccakP1600times4_OverwriteWithZeroes s inst n = Some s' /\ ok4 s'
    /\ forall j, (j < 4)%nat -> instance s' j = if (j =? inst)%nat then put_at 0 (repeat 0 n) (instance s j) else instance s j.
Proof. exact OverwriteWithZeroes_ok. Qed.
Print Assumptions C69_overwrite_zeroes.
Theorem C69_extract_bytes : forall s inst data off len, ok4 s -> (inst < 4)%nat -> (off + len <= 200)%nat -> (len <= length data)%nat ->
  KeccakP1600times4_ExtractBytes s inst data off len = Some (put_at 0 (slice off len (instance s inst)) data).
Proof. exact ExtractBytes_ok. Qed.
Print Assumptions C69_extract_bytes.
Theorem C69_extract_and_add_bytes : forall s inst mem inp out off len, ok4 s -> Forall (fun x => 0 <= x < 256) mem -> (inst < 4)%nat ->
  (off + len <= 200)%nat -> (inp + len <= length mem)%nat -> (out + len <= length mem)%nat ->
  inp = out \/ (inp + len <= out)%nat \/ (out + len <= inp)%nat ->
  KeccakP1600times4_ExtractAndAddBytes s inst mem inp out off len
  = Some (put_at out (xor_at 0 (slice off len (instance s inst)) (slice inp len mem)) mem).
Proof. exact ExtractAndAddBytes_ok. Qed.
Print Assumptions C69_extract_and_add_bytes.

(** Lanes: string j begins 8*lo*j bytes after the first. *)
Theorem C69_add_lanes : forall s data n lo, ok4 s -> Forall (fun x => 0 <= x < 256) data -> (n <= 25)%nat -> Z.of_nat (24 * lo) < 2 ^ 32 ->
  (24 * lo + 8 * n <= length data)%nat ->
  exists s', KeccakP1600times4_AddLanesAll s data n lo = Some s' /\ ok4 s'
    /\ forall j, (j < 4)%nat -> instance s' j = xor_at 0 (slice (8 * lo * j) (8 * n) data) (instance s j).
Proof. exact (fun s data n lo Hs Hd Hn Hlo Hlen => AddLanes_ok data Hd 0 lo n Hlo Hn Hlen s Hs). Qed.
Print Assumptions C69_add_lanes.
Theorem C69_overwrite_lanes : forall s data n lo, ok4 s -> Forall (fun x => 0 <= x < 256) data -> (n <= 25)%nat -> Z.of_nat (24 * lo) < 2 ^ 32 ->
  (24 * lo + 8 * n <= length data)%nat ->
  exists s', KeccakP1600times4_OverwriteLanesAll s data n lo = Some s' /\ ok4 s'
    /\ forall j, (j < 4)%nat -> instance s' j = put_at 0 (slice (8 * lo * j) (8 * n) data) (instance s j).
Proof. exact OverwriteLanesAll_ok. Qed.
Print Assumptions C69_overwrite_lanes.
Theorem C69_extract_lanes : forall s data n lo, ok4 s -> Forall (fun x => 0 <= x < 256) data -> (n <= 25)%nat -> (n <= lo)%nat ->
  Z.of_nat (24 * lo) < 2 ^ 32 -> (24 * lo + 8 * n <= length data)%nat ->
  KeccakP1600times4_ExtractLanesAll s data n lo = Some (put_lanes 0 lo (fun j => firstn (8 * n) (instance s j)) data).
Proof. exact (fun s data n lo Hs Hd Hn Hno Hlo Hlen => ExtractLanesAll_ok s Hs lo n Hn Hno Hlo data Hd Hlen). Qed.
Print Assumptions C69_extract_lanes.
Theorem C69_extract_and_add_lanes : forall s mem inp out n lo, ok4 s -> Forall (fun x => 0 <= x < 256) mem -> (n <= 25)%nat -> (n <= lo)%nat ->
  Z.of_nat (24 * lo) < 2 ^ 32 -> (inp + 24 * lo + 8 * n <= length mem)%nat -> (out + 24 * lo + 8 * n <= length mem)%nat ->
  inp = out \/ (inp + (24 * lo + 8 * n) <= out)%nat \/ (out + (24 * lo + 8 * n) <= inp)%nat ->
  KeccakP1600times4_ExtractAndAddLanesAll s mem inp out n lo
  = Some (put_lanes out lo (fun j => xor_at 0 (firstn (8 * n) (instance s j)) (slice (inp + 8 * lo * j) (8 * n) mem)) mem).
Proof. exact (fun s mem inp out n lo Hs Hm Hn Hno Hlo Hin Hout Hap => ExtractAndAddLanesAll_ok s Hs lo n Hn Hno Hlo mem Hm inp out Hin Hout Hap). Qed.
Print Assumptions C69_extract_and_add_lanes.

(** Rounds *)
Theorem C69_permute12 : forall s, ok4 s -> exists s', KeccakP1600times4_PermuteAll_12rounds s = Some s' /\ ok4 s'
  /\ forall j, (j < 4)%nat -> instance s' j = keccak_p 12 (instance s j).
Proof. exact PermuteAll_12rounds_ok. Qed.
Print Assumptions C69_permute12.
Theorem C69_permute24 : forall s, ok4 s -> exists s', KeccakP1600times4_PermuteAll_24rounds s = Some s' /\ ok4 s'
  /\ forall j, (j < 4)%nat -> instance s' j = keccak_p 24 (instance s j).
Proof. exact PermuteAll_24rounds_ok. Qed.
Print Assumptions C69_permute24.

(** Absorbing: k iterations, block i of instance j at 8*serial*i + 8*par*j. *)
Theorem C69_absorb24 : forall s lc par serial data L fuel, ok4 s -> Forall (fun x => 0 <= x < 256) data -> (lc <= 25)%nat ->
  (1 <= serial <= 3 * par + lc)%nat -> Z.of_nat (8 * (3 * par + lc)) < 2 ^ 32 -> (L <= length data)%nat -> Z.of_nat L < 2 ^ 64 ->
  let k := loop_count L (8 * (3 * par + lc)) (8 * serial) in (k < fuel)%nat ->
  exists s', KeccakF1600times4_FastLoop_Absorb fuel s lc par serial data (Z.of_nat L) = Some (s', (8 * serial * k)%nat) /\ ok4 s'
    /\ forall j, (j < 4)%nat -> instance s' j
         = absorb_blocks (keccak_p 24) (map (fun i => slice (8 * serial * i + 8 * par * j) (8 * lc) data) (seq 0 k)) (instance s j).
Proof.
  exact (fun s lc par serial data L fuel Hs Hd Hlc Hser Ho HL H64 Hk =>
    FastLoop_ok _ _ 24 rounds24_ok PermuteAll_24rounds_ok lc par serial data Hd Hlc Hser Ho fuel L s Hs HL H64 Hk).
Qed.
Print Assumptions C69_absorb24.
Theorem C69_absorb12 : forall s lc par serial data L fuel, ok4 s -> Forall (fun x => 0 <= x < 256) data -> (lc <= 25)%nat ->
  (1 <= serial <= 3 * par + lc)%nat -> Z.of_nat (8 * (3 * par + lc)) < 2 ^ 32 -> (L <= length data)%nat -> Z.of_nat L < 2 ^ 64 ->
  let k := loop_count L (8 * (3 * par + lc)) (8 * serial) in (k < fuel)%nat ->
  exists s', KeccakP1600times4_12rounds_FastLoop_Absorb fuel s lc par serial data (Z.of_nat L) = Some (s', (8 * serial * k)%nat) /\ ok4 s'
    /\ forall j, (j < 4)%nat -> instance s' j
         = absorb_blocks (keccak_p 12) (map (fun i => slice (8 * serial * i + 8 * par * j) (8 * lc) data) (seq 0 k)) (instance s j).
Proof.
  exact (fun s lc par serial data L fuel Hs Hd Hlc Hser Ho HL H64 Hk =>
    FastLoop_ok _ _ 12 rounds12_ok PermuteAll_12rounds_ok lc par serial data Hd Hlc Hser Ho fuel L s Hs HL H64 Hk).
Qed.
Print Assumptions C69_absorb12.
(** Without [serial <= 3*par + lc] the loops are wrong: if the data is enough for one iteration but shorter than the step, the
    length wraps around and the second iteration reads behind the data (or the fuel is used up before it). *)
Theorem C69_absorb_refuted : forall s lc par serial data fuel, (1 <= lc)%nat -> Z.of_nat (8 * serial) < 2 ^ 32 ->
  (8 * (3 * par + lc) <= length data)%nat -> (length data < 8 * serial)%nat ->
  KeccakF1600times4_FastLoop_Absorb fuel s lc par serial data (Z.of_nat (length data)) = None
  /\ KeccakP1600times4_12rounds_FastLoop_Absorb fuel s lc par serial data (Z.of_nat (length data)) = None.
Proof.
  exact (fun s lc par serial data fuel H1 H2 H3 H4 =>
    conj (FastLoop_wraps _ _ lc par serial data H1 H2 H3 H4 fuel s) (FastLoop_wraps _ _ lc par serial data H1 H2 H3 H4 fuel s)).
Qed.
Print Assumptions C69_absorb_refuted.

(** ** Cases *)
(** word k of instance j is 100*j + k *)
Definition s_ex : list vec := map (fun k => fun j => Z.of_nat (100 * j + k)) (seq 0 25).
Lemma s_ex_ok : ok4 s_ex.
Proof.
  split; [reflexivity|]. intros j Hj. apply Forall_forall. intros v Hv. apply in_map_iff in Hv as (k & <- & Hk).
  apply in_seq in Hk. lia.
Qed.
(** Three bytes across the border of words 0 and 1 of instance 2 (bytes 200, 0, ... and 201, 0, ...). *)
Example ex_add_bytes : exists s', KeccakP1600times4_AddBytes s_ex 2 [255; 254; 253; 9] 6 3 = Some s'
  /\ firstn 10 (instance s' 2) = [200; 0; 0; 0; 0; 0; 255; 254; 52; 0] /\ instance s' 3 = instance s_ex 3.
Proof.
  destruct (C69_add_bytes s_ex 2 [255; 254; 253; 9] 6 3 s_ex_ok) as (s' & E & _ & H).
  - repeat constructor; lia.
  - lia.
  - lia.
  - cbn; lia.
  - exists s'. split; [exact E|]. rewrite (H 2%nat), (H 3%nat) by lia. split; reflexivity.
Qed.
Example ex_extract_and_add_bytes : (* in place, 10 bytes from byte 5 of instance 1 on: 100, 0..., 101, ... *)
  KeccakP1600times4_ExtractAndAddBytes s_ex 1 (repeat 255 12) 1 1 5 10
  = Some [255; 255; 255; 255; 154; 255; 255; 255; 255; 255; 255; 255].
Proof.
  rewrite C69_extract_and_add_bytes; [reflexivity|exact s_ex_ok| |lia|lia|cbn; lia|cbn; lia|auto].
  repeat constructor; lia.
Qed.
(** Lanes far enough apart to be separate, 17 lanes (four groups of four and one more). *)
Example ex_add_lanes : exists s', KeccakP1600times4_AddLanesAll s_ex (repeat 7 (24 * 20 + 8 * 17)) 17 20 = Some s' /\ ok4 s'.
Proof.
  destruct (C69_add_lanes s_ex (repeat 7 (24 * 20 + 8 * 17)) 17 20 s_ex_ok) as (s' & E & H & _).
  - apply Forall_forall. intros x Hx. apply repeat_spec in Hx. lia.
  - lia.
  - reflexivity.
  - rewrite repeat_length. lia.
  - exists s'. auto.
Qed.
Example ex_extract_lanes : KeccakP1600times4_ExtractLanesAll s_ex (repeat 9 40) 1 1
  = Some ([0;0;0;0;0;0;0;0] ++ [100;0;0;0;0;0;0;0] ++ [200;0;0;0;0;0;0;0] ++ [44;1;0;0;0;0;0;0] ++ repeat 9 8).
Proof.
  rewrite C69_extract_lanes; [reflexivity|exact s_ex_ok| |lia|lia|reflexivity|cbn; lia].
  apply Forall_forall. intros x Hx. apply repeat_spec in Hx. lia.
Qed.
(** Four adjacent blocks of 17 lanes per iteration, two iterations. *)
Example ex_absorb : exists s', KeccakF1600times4_FastLoop_Absorb 3 s_ex 17 17 68 (repeat 7 1100) (Z.of_nat 1100) = Some (s', 1088%nat).
Proof.
  destruct (C69_absorb24 s_ex 17 17 68 (repeat 7 1100) 1100 3 s_ex_ok) as (s' & E & _).
  - apply Forall_forall. intros x Hx. apply repeat_spec in Hx. lia.
  - lia.
  - lia.
  - reflexivity.
  - rewrite repeat_length. lia.
  - reflexivity.
  - apply Nat.ltb_lt. reflexivity.
  - exists s'. exact E.
Qed.
Example ex_absorb_refuted : forall fuel, KeccakF1600times4_FastLoop_Absorb fuel s_ex 1 1 5 (repeat 7 32) 32 = None.
Proof.
  intros fuel. apply (C69_absorb_refuted s_ex 1 1 5 (repeat 7 32) fuel); [lia|reflexivity|cbn; lia|cbn; lia].
Qed.
