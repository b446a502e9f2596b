(** The rest of shake-avx2/keccak4x/KeccakP-1600-times4-SIMD256.c: access to the four states by bytes and by lanes, the
    12-round permutation and the absorbing loops.  The 24-round permutation is in LaneKeccak.v.

    [states] (800 bytes) is the list of 25 vectors of LaneKeccak.v: the 64-bit word with index k of the array is lane
    k mod 4 of vector k / 4, its bytes least significant first (the file refuses to compile on other platforms, lines
    28-30).  A data buffer is a list of bytes; a 64-bit or 256-bit access to it reads or writes its bytes at the
    byte offset. *)
From Verif Require Import Base LaneKeccak Fips202.

(** ** Words of the states *)
(** line 37 *)
Definition laneIndex (instanceIndex lanePosition : nat) : nat := lanePosition * 4 + instanceIndex.
(** statesAsLanes[k] *)
Definition getw (s : list vec) (k : nat) : option Z :=
  v <- get s (k / 4) ;; Some (v (k mod 4)%nat).
(** statesAsLanes[k] = w *)
Definition putw (s : list vec) (k : nat) (w : Z) : option (list vec) :=
  v <- get s (k / 4) ;; vput s (k / 4) (fun j => if (j =? k mod 4)%nat then w else v j).
(** *((const UINT64* )p), p at byte offset o of the buffer *)
Definition ld64 (b : bytes) (o : nat) : option Z := x <- rd b o 8 ;; Some (le_word x).

(** memset, lines 83-86: states becomes 800 zero bytes *)
Definition KeccakP1600times4_InitializeAll (states : list vec) : option (list vec) :=
  _ <- guard (length states =? 25)%nat ;; Some (repeat (vset1 0) 25).

(** ** Access by bytes
    The five functions walk over the lanes in the same way, for example lines 88-121: a first part that does not start at
    the beginning of a lane (if the length is not 0 and the offset no multiple of 8), whole lanes (the while loop subtracts 8
    from sizeLeft, so it runs sizeLeft / 8 times), a last part at the beginning of a lane.  [part lanePosition offsetInLane
    count cur] is what is done to [count] bytes, [cur] the number of bytes before; [full lanePosition cur] for a whole lane. *)
Definition walk {S : Type} (part : nat -> nat -> nat -> nat -> S -> option S) (full : nat -> nat -> S -> option S)
    (offset len : nat) (s : S) : option S :=
  let lanePosition := (offset / 8)%nat in
  let offsetInLane := (offset mod 8)%nat in
  ' (s, lanePosition, cur, sizeLeft) <-
    (if (0 <? len)%nat && negb (offsetInLane =? 0)%nat then
       let bytesInLane := Nat.min (8 - offsetInLane) len in
       s <- part lanePosition offsetInLane bytesInLane 0%nat s ;;
       Some (s, (lanePosition + 1)%nat, bytesInLane, (len - bytesInLane)%nat)
     else Some (s, lanePosition, 0%nat, len)) ;;
  s <- iterM (sizeLeft / 8) 0 (fun i s => full (lanePosition + i)%nat (cur + 8 * i)%nat s) s ;;
  let lanePosition := (lanePosition + sizeLeft / 8)%nat in
  let cur := (cur + 8 * (sizeLeft / 8))%nat in
  let sizeLeft := (sizeLeft mod 8)%nat in
  if (0 <? sizeLeft)%nat then part lanePosition 0%nat sizeLeft cur s else Some s.

(** lines 88-121; the local variable lane is 0 before memcpy *)
Definition KeccakP1600times4_AddBytes (states : list vec) (instanceIndex : nat) (data : bytes) (offset len : nat) :=
  walk
    (fun pos o n cur s =>
       d <- rd data cur n ;;
       lane <- wr (store64 0) o d ;;
       w <- getw s (laneIndex instanceIndex pos) ;;
       putw s (laneIndex instanceIndex pos) (Z.lxor w (le_word lane)))
    (fun pos cur s =>
       lane <- ld64 data cur ;;
       w <- getw s (laneIndex instanceIndex pos) ;;
       putw s (laneIndex instanceIndex pos) (Z.lxor w lane))
    offset len states.

(** lines 168-197; memcpy into the bytes of a word of states *)
Definition KeccakP1600times4_OverwriteBytes (states : list vec) (instanceIndex : nat) (data : bytes) (offset len : nat) :=
  walk
    (fun pos o n cur s =>
       d <- rd data cur n ;;
       w <- getw s (laneIndex instanceIndex pos) ;;
       b <- wr (store64 w) o d ;;
       putw s (laneIndex instanceIndex pos) (le_word b))
    (fun pos cur s =>
       lane <- ld64 data cur ;;
       putw s (laneIndex instanceIndex pos) lane)
    offset len states.

(** lines 244-259 *)
Definition KeccakP1600times4_OverwriteWithZeroes (states : list vec) (instanceIndex : nat) (byteCount : nat) :=
  s <- iterM (byteCount / 8) 0 (fun i s => putw s (laneIndex instanceIndex i) 0) states ;;
  let lanePosition := (byteCount / 8)%nat in
  let sizeLeft := (byteCount mod 8)%nat in
  if (0 <? sizeLeft)%nat then
    w <- getw s (laneIndex instanceIndex lanePosition) ;;
    b <- wr (store64 w) 0 (repeat 0 sizeLeft) ;;
    putw s (laneIndex instanceIndex lanePosition) (le_word b)
  else Some s.

(** lines 261-289; the state threaded through is the buffer data *)
Definition KeccakP1600times4_ExtractBytes (states : list vec) (instanceIndex : nat) (data : bytes) (offset len : nat) :=
  walk
    (fun pos o n cur data =>
       w <- getw states (laneIndex instanceIndex pos) ;;
       b <- rd (store64 w) o n ;;
       wr data cur b)
    (fun pos cur data =>
       w <- getw states (laneIndex instanceIndex pos) ;;
       wr data cur (store64 w))
    offset len data.

(** The do-while loops of lines 356-359 and 373-376: n >= 1 bytes, one at a time. *)
Definition xor_out (lane : Z) (inp out n : nat) (mem : bytes) : option bytes :=
  r <- iterM n 0 (fun i r =>
         b <- get (fst r) (inp + i) ;;
         m <- wr (fst r) (out + i) [Z.lxor b (u8 (snd r))] ;;
         Some (m, Z.shiftr (snd r) 8)) (mem, lane) ;;
  Some (fst r).
(** lines 341-378; input and output are offsets into one memory *)
Definition KeccakP1600times4_ExtractAndAddBytes (states : list vec) (instanceIndex : nat) (mem : bytes) (input output : nat)
    (offset len : nat) :=
  walk
    (fun pos o n cur mem =>
       w <- getw states (laneIndex instanceIndex pos) ;;
       xor_out (Z.shiftr w (8 * Z.of_nat o)) (input + cur) (output + cur) n mem)
    (fun pos cur mem =>
       x <- ld64 mem (input + cur) ;;
       w <- getw states (laneIndex instanceIndex pos) ;;
       wr mem (output + cur) (store64 (Z.lxor x w)))
    offset len mem.

(** ** Access by lanes *)
(** _mm256_permute2f128_ps: the halves of the result are selected by bits 0-1 and 4-5 of c (a low, a high, b low, b high),
    or 0 if bit 3, bit 7 is set *)
Definition vperm128 (a b : vec) (c : Z) : vec := fun j =>
  let c := if (j <? 2)%nat then c else Z.shiftr c 4 in
  if Z.testbit c 3 then 0 else
  match Z.land c 3 with
  | 0 => a (j mod 2)%nat
  | 1 => a (2 + j mod 2)%nat
  | 2 => b (j mod 2)%nat
  | _ => b (2 + j mod 2)%nat
  end.
(** _mm256_shuffle_pd: word j of the result is from a (j even) or b (j odd), same half, the upper word of the half if bit
    j of c is set *)
Definition vshuffle64 (a b : vec) (c : Z) : vec := fun j =>
  (if (j mod 2 =? 0)%nat then a else b) (2 * (j / 2) + (if Z.testbit c (Z.of_nat j) then 1 else 0))%nat.
(** _mm256_unpacklo_epi64, _mm256_unpackhi_epi64 *)
Definition vunpackl (a b : vec) : vec := fun j => (if (j mod 2 =? 0)%nat then a else b) (2 * (j / 2))%nat.
Definition vunpackh (a b : vec) : vec := fun j => (if (j mod 2 =? 0)%nat then a else b) (2 * (j / 2) + 1)%nat.

(** lines 61-68 *)
Definition UNINTLEAVE (lanes0 lanes1 lanes2 lanes3 : vec) : vec * vec * vec * vec :=
  let lanesL01 := vunpackl lanes0 lanes1 in
  let lanesH01 := vunpackh lanes0 lanes1 in
  let lanesL23 := vunpackl lanes2 lanes3 in
  let lanesH23 := vunpackh lanes2 lanes3 in
  let lanes0 := vperm128 lanesL01 lanesL23 0x20 in
  let lanes2 := vperm128 lanesL01 lanesL23 0x31 in
  let lanes1 := vperm128 lanesH01 lanesH23 0x20 in
  let lanes3 := vperm128 lanesH01 lanesH23 0x31 in
  (lanes0, lanes1, lanes2, lanes3).
(** lines 70-77 *)
Definition INTLEAVE (lanes0 lanes1 lanes2 lanes3 : vec) : vec * vec * vec * vec :=
  let lanesL01 := vperm128 lanes0 lanes2 0x20 in
  let lanesH01 := vperm128 lanes1 lanes3 0x20 in
  let lanesL23 := vperm128 lanes0 lanes2 0x31 in
  let lanesH23 := vperm128 lanes1 lanes3 0x31 in
  let lanes0 := vshuffle64 lanesL01 lanesH01 0x00 in
  let lanes1 := vshuffle64 lanesL01 lanesH01 0x0F in
  let lanes2 := vshuffle64 lanesL23 lanesH23 0x00 in
  let lanes3 := vshuffle64 lanesL23 lanesH23 0x0F in
  (lanes0, lanes1, lanes2, lanes3).

(** curData_j - data: laneOffset*j*SnP_laneLengthInBytes is an unsigned int *)
Definition curData (laneOffset j : nat) : nat := Z.to_nat (u32 (Z.of_nat laneOffset * Z.of_nat j * 8)).
(** LOAD256u( curData_j[argIndex] ): four words *)
Definition ld256 (b : bytes) (o : nat) : option vec :=
  w0 <- ld64 b o ;; w1 <- ld64 b (o + 8) ;; w2 <- ld64 b (o + 16) ;; w3 <- ld64 b (o + 24) ;;
  Some (vset [w0; w1; w2; w3]).
(** STORE256u *)
Definition st256 (b : bytes) (o : nat) (v : vec) : option bytes :=
  wr b o (store64 (v 0%nat) ++ store64 (v 1%nat) ++ store64 (v 2%nat) ++ store64 (v 3%nat)).

(** The branches on laneCount, lines 145-163 (and 221-239, 318-336, 421-439): four or five groups of four lanes, the rest
    one by one. *)
Definition by_lanes {S : Type} (one four : nat -> S -> option S) (laneCount : nat) (s : S) : option S :=
  if (16 <=? laneCount)%nat then
    s <- four 0%nat s ;; s <- four 4%nat s ;; s <- four 8%nat s ;; s <- four 12%nat s ;;
    if (20 <=? laneCount)%nat then
      s <- four 16%nat s ;; iterM (laneCount - 20) 20 one s
    else iterM (laneCount - 16) 16 one s
  else iterM laneCount 0 one s.

(** LOAD4_64(curData3[i], curData2[i], curData1[i], curData0[i]); [base] is the pointer [data] *)
Definition load4 (data : bytes) (base laneOffset i : nat) : option vec :=
  d3 <- ld64 data (base + curData laneOffset 3 + 8 * i) ;;
  d2 <- ld64 data (base + curData laneOffset 2 + 8 * i) ;;
  d1 <- ld64 data (base + curData laneOffset 1 + 8 * i) ;;
  d0 <- ld64 data (base + 8 * i) ;;
  Some (vset [d0; d1; d2; d3]).
(** XOReq256(stateAsLanes[i], v) *)
Definition xor_in (s : list vec) (i : nat) (v : vec) : option (list vec) :=
  x <- get s i ;; vput s i (vxor x v).

(** lines 123-166 *)
Definition Xor_In (data : bytes) (base laneOffset : nat) (i : nat) (s : list vec) : option (list vec) :=
  v <- load4 data base laneOffset i ;; xor_in s i v.
Definition Xor_In4 (data : bytes) (base laneOffset : nat) (i : nat) (s : list vec) : option (list vec) :=
  lanes0 <- ld256 data (base + 8 * i) ;;
  lanes1 <- ld256 data (base + curData laneOffset 1 + 8 * i) ;;
  lanes2 <- ld256 data (base + curData laneOffset 2 + 8 * i) ;;
  lanes3 <- ld256 data (base + curData laneOffset 3 + 8 * i) ;;
  let '(lanes0, lanes1, lanes2, lanes3) := INTLEAVE lanes0 lanes1 lanes2 lanes3 in
  s <- xor_in s i lanes0 ;; s <- xor_in s (i + 1) lanes1 ;;
  s <- xor_in s (i + 2) lanes2 ;; xor_in s (i + 3) lanes3.
Definition AddLanesAll_at (states : list vec) (data : bytes) (base laneCount laneOffset : nat) : option (list vec) :=
  by_lanes (Xor_In data base laneOffset) (Xor_In4 data base laneOffset) laneCount states.
Definition KeccakP1600times4_AddLanesAll (states : list vec) (data : bytes) (laneCount laneOffset : nat) :=
  AddLanesAll_at states data 0 laneCount laneOffset.

(** lines 199-242 *)
Definition OverWr (data : bytes) (laneOffset : nat) (i : nat) (s : list vec) : option (list vec) :=
  v <- load4 data 0 laneOffset i ;; vput s i v.
Definition OverWr4 (data : bytes) (laneOffset : nat) (i : nat) (s : list vec) : option (list vec) :=
  lanes0 <- ld256 data (8 * i) ;;
  lanes1 <- ld256 data (curData laneOffset 1 + 8 * i) ;;
  lanes2 <- ld256 data (curData laneOffset 2 + 8 * i) ;;
  lanes3 <- ld256 data (curData laneOffset 3 + 8 * i) ;;
  let '(lanes0, lanes1, lanes2, lanes3) := INTLEAVE lanes0 lanes1 lanes2 lanes3 in
  s <- vput s i lanes0 ;; s <- vput s (i + 1) lanes1 ;;
  s <- vput s (i + 2) lanes2 ;; vput s (i + 3) lanes3.
Definition KeccakP1600times4_OverwriteLanesAll (states : list vec) (data : bytes) (laneCount laneOffset : nat) :=
  by_lanes (OverWr data laneOffset) (OverWr4 data laneOffset) laneCount states.

(** lines 291-339 *)
Definition Extr (states : list vec) (laneOffset : nat) (i : nat) (data : bytes) : option bytes :=
  w <- getw states (4 * i) ;; data <- wr data (8 * i) (store64 w) ;;
  w <- getw states (4 * i + 1) ;; data <- wr data (curData laneOffset 1 + 8 * i) (store64 w) ;;
  w <- getw states (4 * i + 2) ;; data <- wr data (curData laneOffset 2 + 8 * i) (store64 w) ;;
  w <- getw states (4 * i + 3) ;; wr data (curData laneOffset 3 + 8 * i) (store64 w).
Definition Extr4 (states : list vec) (laneOffset : nat) (i : nat) (data : bytes) : option bytes :=
  lanes0 <- get states i ;; lanes1 <- get states (i + 1) ;; lanes2 <- get states (i + 2) ;; lanes3 <- get states (i + 3) ;;
  let '(lanes0, lanes1, lanes2, lanes3) := UNINTLEAVE lanes0 lanes1 lanes2 lanes3 in
  data <- st256 data (8 * i) lanes0 ;;
  data <- st256 data (curData laneOffset 1 + 8 * i) lanes1 ;;
  data <- st256 data (curData laneOffset 2 + 8 * i) lanes2 ;;
  st256 data (curData laneOffset 3 + 8 * i) lanes3.
Definition KeccakP1600times4_ExtractLanesAll (states : list vec) (data : bytes) (laneCount laneOffset : nat) :=
  by_lanes (Extr states laneOffset) (Extr4 states laneOffset) laneCount data.

(** lines 380-442; input and output are offsets into one memory *)
Definition ExtrXor (states : list vec) (inp out laneOffset : nat) (i : nat) (mem : bytes) : option bytes :=
  x <- ld64 mem (inp + 8 * i) ;; w <- getw states (4 * i) ;;
  mem <- wr mem (out + 8 * i) (store64 (Z.lxor x w)) ;;
  x <- ld64 mem (inp + curData laneOffset 1 + 8 * i) ;; w <- getw states (4 * i + 1) ;;
  mem <- wr mem (out + curData laneOffset 1 + 8 * i) (store64 (Z.lxor x w)) ;;
  x <- ld64 mem (inp + curData laneOffset 2 + 8 * i) ;; w <- getw states (4 * i + 2) ;;
  mem <- wr mem (out + curData laneOffset 2 + 8 * i) (store64 (Z.lxor x w)) ;;
  x <- ld64 mem (inp + curData laneOffset 3 + 8 * i) ;; w <- getw states (4 * i + 3) ;;
  wr mem (out + curData laneOffset 3 + 8 * i) (store64 (Z.lxor x w)).
Definition ExtrXor4 (states : list vec) (inp out laneOffset : nat) (i : nat) (mem : bytes) : option bytes :=
  lanes0 <- get states i ;; lanes1 <- get states (i + 1) ;; lanes2 <- get states (i + 2) ;; lanes3 <- get states (i + 3) ;;
  let '(lanes0, lanes1, lanes2, lanes3) := UNINTLEAVE lanes0 lanes1 lanes2 lanes3 in
  lanesL01 <- ld256 mem (inp + 8 * i) ;;
  lanesH01 <- ld256 mem (inp + curData laneOffset 1 + 8 * i) ;;
  lanesL23 <- ld256 mem (inp + curData laneOffset 2 + 8 * i) ;;
  lanesH23 <- ld256 mem (inp + curData laneOffset 3 + 8 * i) ;;
  mem <- st256 mem (out + 8 * i) (vxor lanes0 lanesL01) ;;
  mem <- st256 mem (out + curData laneOffset 1 + 8 * i) (vxor lanes1 lanesH01) ;;
  mem <- st256 mem (out + curData laneOffset 2 + 8 * i) (vxor lanes2 lanesL23) ;;
  st256 mem (out + curData laneOffset 3 + 8 * i) (vxor lanes3 lanesH23).
Definition KeccakP1600times4_ExtractAndAddLanesAll (states : list vec) (mem : bytes) (input output laneCount laneOffset : nat) :=
  by_lanes (ExtrXor states input output laneOffset) (ExtrXor4 states input output laneOffset) laneCount mem.

(** ** Twelve rounds *)
(** KeccakP-1600-unrolling.macros:44-57 *)
Definition rounds12 (s : list vec) : option (list vec) :=
  s <- prepareTheta s ;;
  s <- iterM 11 12 (fun i s =>
         rc <- get KeccakF1600RoundConstants i ;;
         thetaRhoPiChiIotaPrepareTheta rc s) s ;;
  rc <- get KeccakF1600RoundConstants 23 ;;
  thetaRhoPiChiIota rc s.
(** lines 815-826 *)
Definition KeccakP1600times4_PermuteAll_12rounds (states : list vec) : option (list vec) :=
  _ <- guard (length states =? 25)%nat ;;
  rounds12 states.

(** ** Absorbing loops, lines 828-928 and 930-1030
    [rounds]: the macro rounds24 or rounds12, [permute]: the function.  The loop ends when dataByteLen is less than
    (laneOffsetParallel*3 + laneCount)*8 (an unsigned int); it decreases by laneOffsetSerial*8 (an unsigned int) and wraps
    modulo 2^64.  [pos] is curData0 - data (or the growth of data); the result is the states and the number returned. *)
Section FastLoop.
Variables rounds permute : list vec -> option (list vec).
Variables laneCount laneOffsetParallel laneOffsetSerial : nat.
Variable data : bytes.
Definition loop_min : Z := u32 ((Z.of_nat laneOffsetParallel * 3 + Z.of_nat laneCount) * 8).
(** the body for laneCount = 21: XOR_In for 21 lanes, then the rounds (lines 881-905) *)
Definition body21 (pos : nat) (s : list vec) : option (list vec) :=
  s <- iterM 21 0 (Xor_In data pos laneOffsetParallel) s ;; rounds s.
(** the body otherwise (lines 921-922) *)
Definition body_any (pos : nat) (s : list vec) : option (list vec) :=
  s <- AddLanesAll_at s data pos laneCount laneOffsetParallel ;; permute s.
(** curData0 += laneOffsetSerial (UINT64 pointers): laneOffsetSerial*8 bytes; data += laneOffsetSerial*8 *)
Fixpoint fast_loop (body : nat -> list vec -> option (list vec)) (step : nat) (fuel : nat) (pos : nat) (dataByteLen : Z)
    (s : list vec) : option (list vec * nat) :=
  match fuel with
  | O => None
  | S fuel =>
      if dataByteLen <? loop_min then Some (s, pos)
      else
        s <- body pos s ;;
        fast_loop body step fuel (pos + step) (u64 (dataByteLen - u32 (Z.of_nat laneOffsetSerial * 8))) s
  end.
Definition FastLoop_Absorb (fuel : nat) (states : list vec) (dataByteLen : Z) : option (list vec * nat) :=
  _ <- guard (length states =? 25)%nat ;;
  if (laneCount =? 21)%nat
  then fast_loop body21 (8 * laneOffsetSerial) fuel 0 dataByteLen states
  else fast_loop body_any (Z.to_nat (u32 (Z.of_nat laneOffsetSerial * 8))) fuel 0 dataByteLen states.
End FastLoop.
Definition KeccakF1600times4_FastLoop_Absorb (fuel : nat) (states : list vec) (laneCount laneOffsetParallel laneOffsetSerial : nat)
    (data : bytes) (dataByteLen : Z) :=
  FastLoop_Absorb rounds24 KeccakP1600times4_PermuteAll_24rounds laneCount laneOffsetParallel laneOffsetSerial data fuel states dataByteLen.
Definition KeccakP1600times4_12rounds_FastLoop_Absorb (fuel : nat) (states : list vec)
    (laneCount laneOffsetParallel laneOffsetSerial : nat) (data : bytes) (dataByteLen : Z) :=
  FastLoop_Absorb rounds12 KeccakP1600times4_PermuteAll_12rounds laneCount laneOffsetParallel laneOffsetSerial data fuel states dataByteLen.
