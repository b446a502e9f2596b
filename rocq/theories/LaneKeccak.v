(** Keccak-f[1600] on several states at once: shake-avx2/keccak4x/KeccakP-1600-times4-SIMD256.c (four
    states, AVX2) and shake-a64/f1600x2.s (two states, ARMv8 with the SHA-3 instructions).

    A vector register holds one 64-bit word per state.  It is a function from the lane to the word; a
    lane-wise instruction acts on the words of each lane, and [vshuffle] (vpshufb) on the bytes of the
    whole 256-bit register.  The array of 25 vectors, or of 25 * lanes words with word i of lane j at
    index lanes*i + j, is a list of 25 vectors.  The transcriptions are mechanical. *)
From Verif Require Import Base.

(** ** Vectors *)
Definition vec := nat -> Z.
(** _mm256_set1_epi64x, CONST256_64 (_mm256_broadcast_sd), ld1r *)
Definition vset1 (x : Z) : vec := fun _ => x.
(** _mm256_set_epi64x with the arguments in lane order; also a 256-bit load of an array of words *)
Definition vset (l : list Z) : vec := fun j => nth j l 0.
(** _mm256_xor_si256, eor *)
Definition vxor (a b : vec) : vec := fun j => Z.lxor (a j) (b j).
(** _mm256_andnot_si256: (NOT a) AND b *)
Definition vandnot (a b : vec) : vec := fun j => Z.land (Z.lnot (a j)) (b j).
Definition vor (a b : vec) : vec := fun j => Z.lor (a j) (b j).
(** _mm256_slli_epi64, _mm256_srli_epi64 *)
Definition vsll (a : vec) (k : Z) : vec := fun j => u64 (Z.shiftl (a j) k).
Definition vsrl (a : vec) (k : Z) : vec := fun j => Z.shiftr (a j) k.
(** Byte b of the register: byte b mod 8 of lane b / 8. *)
Definition vbyte (a : vec) (b : nat) : Z := u8 (Z.shiftr (a (b / 8)%nat) (8 * Z.of_nat (b mod 8))).
(** The word of eight bytes, least significant first. *)
Definition le_word (l : bytes) : Z := fold_right (fun x acc => u8 x + 256 * acc) 0 l.
(** _mm256_shuffle_epi8: in each 128-bit half, byte i of the result is the byte of the half selected by
    the low four bits of byte i of the mask, or 0 if bit 7 of the mask byte is set *)
Definition vshuffle (a m : vec) : vec := fun j =>
  le_word (map (fun k =>
    let i := (8 * j + k)%nat in
    let s := vbyte m i in
    if Z.testbit s 7 then 0 else vbyte a (16 * (i / 16) + Z.to_nat (Z.land s 15))) (seq 0 8)).

(** A store to element i of an array of vectors. *)
Definition vput (s : list vec) (i : nat) (v : vec) : option (list vec) :=
  if (i <? length s)%nat then Some (firstn i s ++ v :: skipn (S i) s) else None.

(** ** KeccakP-1600-times4-SIMD256.c *)
(** line 46 *)
Definition vrol (a : vec) (o : Z) : vec := vor (vsll a o) (vsrl a (64 - o)).
(** lines 49-50; used by lines 47-48 *)
Definition rho8 : list Z := [0x0605040302010007; 0x0E0D0C0B0A09080F; 0x1615141312111017; 0x1E1D1C1B1A19181F].
Definition rho56 : list Z := [0x0007060504030201; 0x080F0E0D0C0B0A09; 0x1017161514131211; 0x181F1E1D1C1B1A19].

(** lines 464-469, from the A words to the A and C words *)
Definition prepareTheta (s : list vec) : option (list vec) :=
  match s with
  | [Aba; Abe; Abi; Abo; Abu; Aga; Age; Agi; Ago; Agu; Aka; Ake; Aki; Ako; Aku; Ama; Ame; Ami; Amo; Amu; Asa; Ase; Asi; Aso; Asu] =>
    let Ca := vxor Aba (vxor Aga (vxor Aka (vxor Ama Asa))) in
    let Ce := vxor Abe (vxor Age (vxor Ake (vxor Ame Ase))) in
    let Ci := vxor Abi (vxor Agi (vxor Aki (vxor Ami Asi))) in
    let Co := vxor Abo (vxor Ago (vxor Ako (vxor Amo Aso))) in
    let Cu := vxor Abu (vxor Agu (vxor Aku (vxor Amu Asu))) in
    Some [Aba; Abe; Abi; Abo; Abu; Aga; Age; Agi; Ago; Agu; Aka; Ake; Aki; Ako; Aku; Ama; Ame; Ami; Amo; Amu; Asa; Ase; Asi; Aso; Asu; Ca; Ce; Ci; Co; Cu]
  | _ => None
  end.

(** lines 473-590, the macro with parameters (i, A, E): [rc] is KeccakF1600RoundConstants[i]; the
    instance (i, E, A) is the same function with the two sets of variables exchanged. *)
Definition thetaRhoPiChiIotaPrepareTheta (rc : Z) (s : list vec) : option (list vec) :=
  match s with
  | [Aba; Abe; Abi; Abo; Abu; Aga; Age; Agi; Ago; Agu; Aka; Ake; Aki; Ako; Aku; Ama; Ame; Ami; Amo; Amu; Asa; Ase; Asi; Aso; Asu; Ca; Ce; Ci; Co; Cu] =>
    let Ce1 := vrol Ce 1 in
    let Da := vxor Cu Ce1 in
    let Ci1 := vrol Ci 1 in
    let De := vxor Ca Ci1 in
    let Co1 := vrol Co 1 in
    let Di := vxor Ce Co1 in
    let Cu1 := vrol Cu 1 in
    let Do_ := vxor Ci Cu1 in
    let Ca1 := vrol Ca 1 in
    let Du := vxor Co Ca1 in
    let Aba := vxor Aba Da in
    let Bba := Aba in
    let Age := vxor Age De in
    let Bbe := vrol Age 44 in
    let Aki := vxor Aki Di in
    let Bbi := vrol Aki 43 in
    let Eba := vxor Bba (vandnot Bbe Bbi) in
    let Eba := vxor Eba (vset1 rc) in
    let Ca := Eba in
    let Amo := vxor Amo Do_ in
    let Bbo := vrol Amo 21 in
    let Ebe := vxor Bbe (vandnot Bbi Bbo) in
    let Ce := Ebe in
    let Asu := vxor Asu Du in
    let Bbu := vrol Asu 14 in
    let Ebi := vxor Bbi (vandnot Bbo Bbu) in
    let Ci := Ebi in
    let Ebo := vxor Bbo (vandnot Bbu Bba) in
    let Co := Ebo in
    let Ebu := vxor Bbu (vandnot Bba Bbe) in
    let Cu := Ebu in
    let Abo := vxor Abo Do_ in
    let Bga := vrol Abo 28 in
    let Agu := vxor Agu Du in
    let Bge := vrol Agu 20 in
    let Aka := vxor Aka Da in
    let Bgi := vrol Aka 3 in
    let Ega := vxor Bga (vandnot Bge Bgi) in
    let Ca := vxor Ca Ega in
    let Ame := vxor Ame De in
    let Bgo := vrol Ame 45 in
    let Ege := vxor Bge (vandnot Bgi Bgo) in
    let Ce := vxor Ce Ege in
    let Asi := vxor Asi Di in
    let Bgu := vrol Asi 61 in
    let Egi := vxor Bgi (vandnot Bgo Bgu) in
    let Ci := vxor Ci Egi in
    let Ego := vxor Bgo (vandnot Bgu Bga) in
    let Co := vxor Co Ego in
    let Egu := vxor Bgu (vandnot Bga Bge) in
    let Cu := vxor Cu Egu in
    let Abe := vxor Abe De in
    let Bka := vrol Abe 1 in
    let Agi := vxor Agi Di in
    let Bke := vrol Agi 6 in
    let Ako := vxor Ako Do_ in
    let Bki := vrol Ako 25 in
    let Eka := vxor Bka (vandnot Bke Bki) in
    let Ca := vxor Ca Eka in
    let Amu := vxor Amu Du in
    let Bko := vshuffle Amu (vset rho8) in
    let Eke := vxor Bke (vandnot Bki Bko) in
    let Ce := vxor Ce Eke in
    let Asa := vxor Asa Da in
    let Bku := vrol Asa 18 in
    let Eki := vxor Bki (vandnot Bko Bku) in
    let Ci := vxor Ci Eki in
    let Eko := vxor Bko (vandnot Bku Bka) in
    let Co := vxor Co Eko in
    let Eku := vxor Bku (vandnot Bka Bke) in
    let Cu := vxor Cu Eku in
    let Abu := vxor Abu Du in
    let Bma := vrol Abu 27 in
    let Aga := vxor Aga Da in
    let Bme := vrol Aga 36 in
    let Ake := vxor Ake De in
    let Bmi := vrol Ake 10 in
    let Ema := vxor Bma (vandnot Bme Bmi) in
    let Ca := vxor Ca Ema in
    let Ami := vxor Ami Di in
    let Bmo := vrol Ami 15 in
    let Eme := vxor Bme (vandnot Bmi Bmo) in
    let Ce := vxor Ce Eme in
    let Aso := vxor Aso Do_ in
    let Bmu := vshuffle Aso (vset rho56) in
    let Emi := vxor Bmi (vandnot Bmo Bmu) in
    let Ci := vxor Ci Emi in
    let Emo := vxor Bmo (vandnot Bmu Bma) in
    let Co := vxor Co Emo in
    let Emu := vxor Bmu (vandnot Bma Bme) in
    let Cu := vxor Cu Emu in
    let Abi := vxor Abi Di in
    let Bsa := vrol Abi 62 in
    let Ago := vxor Ago Do_ in
    let Bse := vrol Ago 55 in
    let Aku := vxor Aku Du in
    let Bsi := vrol Aku 39 in
    let Esa := vxor Bsa (vandnot Bse Bsi) in
    let Ca := vxor Ca Esa in
    let Ama := vxor Ama Da in
    let Bso := vrol Ama 41 in
    let Ese := vxor Bse (vandnot Bsi Bso) in
    let Ce := vxor Ce Ese in
    let Ase := vxor Ase De in
    let Bsu := vrol Ase 2 in
    let Esi := vxor Bsi (vandnot Bso Bsu) in
    let Ci := vxor Ci Esi in
    let Eso := vxor Bso (vandnot Bsu Bsa) in
    let Co := vxor Co Eso in
    let Esu := vxor Bsu (vandnot Bsa Bse) in
    let Cu := vxor Cu Esu in
    Some [Eba; Ebe; Ebi; Ebo; Ebu; Ega; Ege; Egi; Ego; Egu; Eka; Eke; Eki; Eko; Eku; Ema; Eme; Emi; Emo; Emu; Esa; Ese; Esi; Eso; Esu; Ca; Ce; Ci; Co; Cu]
  | _ => None
  end.

(** lines 594-686, the last round: the same without the column parities of the next one *)
Definition thetaRhoPiChiIota (rc : Z) (s : list vec) : option (list vec) :=
  match s with
  | [Aba; Abe; Abi; Abo; Abu; Aga; Age; Agi; Ago; Agu; Aka; Ake; Aki; Ako; Aku; Ama; Ame; Ami; Amo; Amu; Asa; Ase; Asi; Aso; Asu; Ca; Ce; Ci; Co; Cu] =>
    let Ce1 := vrol Ce 1 in
    let Da := vxor Cu Ce1 in
    let Ci1 := vrol Ci 1 in
    let De := vxor Ca Ci1 in
    let Co1 := vrol Co 1 in
    let Di := vxor Ce Co1 in
    let Cu1 := vrol Cu 1 in
    let Do_ := vxor Ci Cu1 in
    let Ca1 := vrol Ca 1 in
    let Du := vxor Co Ca1 in
    let Aba := vxor Aba Da in
    let Bba := Aba in
    let Age := vxor Age De in
    let Bbe := vrol Age 44 in
    let Aki := vxor Aki Di in
    let Bbi := vrol Aki 43 in
    let Eba := vxor Bba (vandnot Bbe Bbi) in
    let Eba := vxor Eba (vset1 rc) in
    let Amo := vxor Amo Do_ in
    let Bbo := vrol Amo 21 in
    let Ebe := vxor Bbe (vandnot Bbi Bbo) in
    let Asu := vxor Asu Du in
    let Bbu := vrol Asu 14 in
    let Ebi := vxor Bbi (vandnot Bbo Bbu) in
    let Ebo := vxor Bbo (vandnot Bbu Bba) in
    let Ebu := vxor Bbu (vandnot Bba Bbe) in
    let Abo := vxor Abo Do_ in
    let Bga := vrol Abo 28 in
    let Agu := vxor Agu Du in
    let Bge := vrol Agu 20 in
    let Aka := vxor Aka Da in
    let Bgi := vrol Aka 3 in
    let Ega := vxor Bga (vandnot Bge Bgi) in
    let Ame := vxor Ame De in
    let Bgo := vrol Ame 45 in
    let Ege := vxor Bge (vandnot Bgi Bgo) in
    let Asi := vxor Asi Di in
    let Bgu := vrol Asi 61 in
    let Egi := vxor Bgi (vandnot Bgo Bgu) in
    let Ego := vxor Bgo (vandnot Bgu Bga) in
    let Egu := vxor Bgu (vandnot Bga Bge) in
    let Abe := vxor Abe De in
    let Bka := vrol Abe 1 in
    let Agi := vxor Agi Di in
    let Bke := vrol Agi 6 in
    let Ako := vxor Ako Do_ in
    let Bki := vrol Ako 25 in
    let Eka := vxor Bka (vandnot Bke Bki) in
    let Amu := vxor Amu Du in
    let Bko := vshuffle Amu (vset rho8) in
    let Eke := vxor Bke (vandnot Bki Bko) in
    let Asa := vxor Asa Da in
    let Bku := vrol Asa 18 in
    let Eki := vxor Bki (vandnot Bko Bku) in
    let Eko := vxor Bko (vandnot Bku Bka) in
    let Eku := vxor Bku (vandnot Bka Bke) in
    let Abu := vxor Abu Du in
    let Bma := vrol Abu 27 in
    let Aga := vxor Aga Da in
    let Bme := vrol Aga 36 in
    let Ake := vxor Ake De in
    let Bmi := vrol Ake 10 in
    let Ema := vxor Bma (vandnot Bme Bmi) in
    let Ami := vxor Ami Di in
    let Bmo := vrol Ami 15 in
    let Eme := vxor Bme (vandnot Bmi Bmo) in
    let Aso := vxor Aso Do_ in
    let Bmu := vshuffle Aso (vset rho56) in
    let Emi := vxor Bmi (vandnot Bmo Bmu) in
    let Emo := vxor Bmo (vandnot Bmu Bma) in
    let Emu := vxor Bmu (vandnot Bma Bme) in
    let Abi := vxor Abi Di in
    let Bsa := vrol Abi 62 in
    let Ago := vxor Ago Do_ in
    let Bse := vrol Ago 55 in
    let Aku := vxor Aku Du in
    let Bsi := vrol Aku 39 in
    let Esa := vxor Bsa (vandnot Bse Bsi) in
    let Ama := vxor Ama Da in
    let Bso := vrol Ama 41 in
    let Ese := vxor Bse (vandnot Bsi Bso) in
    let Ase := vxor Ase De in
    let Bsu := vrol Ase 2 in
    let Esi := vxor Bsi (vandnot Bso Bsu) in
    let Eso := vxor Bso (vandnot Bsu Bsa) in
    let Esu := vxor Bsu (vandnot Bsa Bse) in
    Some [Eba; Ebe; Ebi; Ebo; Ebu; Ega; Ege; Egi; Ego; Egu; Eka; Eke; Eki; Eko; Eku; Ema; Eme; Emi; Emo; Emu; Esa; Ese; Esi; Eso; Esu]
  | _ => None
  end.
(** lines 688-712 *)
Definition KeccakF1600RoundConstants : list Z :=
  [0x0000000000000001; 0x0000000000008082;
   0x800000000000808a; 0x8000000080008000;
   0x000000000000808b; 0x0000000080000001;
   0x8000000080008081; 0x8000000000008009;
   0x000000000000008a; 0x0000000000000088;
   0x0000000080008009; 0x000000008000000a;
   0x000000008000808b; 0x800000000000008b;
   0x8000000000008089; 0x8000000000008003;
   0x8000000000008002; 0x8000000000000080;
   0x000000000000800a; 0x800000008000000a;
   0x8000000080008081; 0x8000000000008080;
   0x0000000080000001; 0x8000000080008008].

(** KeccakP-1600-unrolling.macros:17-42: rounds24, fully unrolled *)
Definition rounds24 (s : list vec) : option (list vec) :=
  s <- prepareTheta s ;;
  s <- iterM 23 0 (fun i s =>
         rc <- get KeccakF1600RoundConstants i ;;
         thetaRhoPiChiIotaPrepareTheta rc s) s ;;
  rc <- get KeccakF1600RoundConstants 23 ;;
  thetaRhoPiChiIota rc s.
(** lines 802-813: copyFromState, rounds24, copyToState *)
Definition KeccakP1600times4_PermuteAll_24rounds (states : list vec) : option (list vec) :=
  _ <- guard (length states =? 25)%nat ;;
  rounds24 states.

(** ** f1600x2.s *)
(** The instructions used, on the vector registers v0 .. v31. *)
Inductive instr :=
| EOR3 (d n m a : nat) | RAX1 (d n m : nat) | XAR (d n m : nat) (r : Z) | BCAX (d n m a : nat)
| EOR (d n m : nat) | MOV (d n : nat)
| LD1R (d : nat).   (* ld1r {vd.2d}, [x1], #8 *)
(** rotation of each 64-bit word right by k, 0 < k < 64 *)
Definition vror (a : vec) (k : Z) : vec := vor (vsrl a k) (vsll a (64 - k)).
(** The Arm architecture's definition of the instructions; [r] is the list of the 32 registers, [x1]
    what x1 points to. *)
Definition exec (i : instr) (st : list vec * list Z) : option (list vec * list Z) :=
  let (r, x1) := st in
  match i with
  | EOR3 d n m a =>
      x <- get r n ;; y <- get r m ;; z <- get r a ;;
      r <- vput r d (vxor (vxor x y) z) ;; Some (r, x1)
  | RAX1 d n m =>
      x <- get r n ;; y <- get r m ;;
      r <- vput r d (vxor x (vror y 63)) ;; Some (r, x1)
  | XAR d n m k =>
      x <- get r n ;; y <- get r m ;;
      r <- vput r d (vror (vxor x y) k) ;; Some (r, x1)
  | BCAX d n m a =>
      x <- get r n ;; y <- get r m ;; z <- get r a ;;
      r <- vput r d (vxor x (vandnot z y)) ;; Some (r, x1)
  | EOR d n m =>
      x <- get r n ;; y <- get r m ;;
      r <- vput r d (vxor x y) ;; Some (r, x1)
  | MOV d n =>
      x <- get r n ;;
      r <- vput r d x ;; Some (r, x1)
  | LD1R d =>
      match x1 with
      | w :: x1' => r <- vput r d (vset1 w) ;; Some (r, x1')
      | [] => None
      end
  end.
Fixpoint exec_all (l : list instr) (st : list vec * list Z) : option (list vec * list Z) :=
  match l with [] => Some st | i :: l' => st <- exec i st ;; exec_all l' st end.

(** f1600x2.s:3-102, the macro [round] *)
Definition round_code : list instr := [
  EOR3 25 0 5 10; EOR3 26 1 6 11; EOR3 27 2 7 12; EOR3 28 3 8 13;
  EOR3 29 4 9 14; EOR3 25 25 15 20; EOR3 26 26 16 21; EOR3 27 27 17 22;
  EOR3 28 28 18 23; EOR3 29 29 19 24; RAX1 30 29 26; RAX1 29 27 29;
  RAX1 27 25 27; RAX1 25 28 25; RAX1 28 26 28; EOR 0 0 30;
  MOV 31 1; XAR 1 6 27 20; XAR 6 9 25 44; XAR 9 22 28 3;
  XAR 22 14 25 25; XAR 14 20 30 46; XAR 20 2 28 2; XAR 2 12 28 21;
  XAR 12 13 29 39; XAR 13 19 25 56; XAR 19 23 29 8; XAR 23 15 30 23;
  XAR 15 4 25 37; XAR 4 24 25 50; XAR 24 21 27 62; XAR 21 8 29 9;
  XAR 8 16 27 19; XAR 16 5 30 28; XAR 5 3 29 36; XAR 3 18 29 43;
  XAR 18 17 28 49; XAR 17 11 27 54; XAR 11 7 28 58; XAR 7 10 30 61;
  XAR 10 31 27 63; BCAX 25 0 2 1; BCAX 26 1 3 2; BCAX 2 2 4 3;
  BCAX 3 3 0 4; BCAX 4 4 1 0; MOV 0 25; MOV 1 26;
  BCAX 25 5 7 6; BCAX 26 6 8 7; BCAX 7 7 9 8; BCAX 8 8 5 9;
  BCAX 9 9 6 5; MOV 5 25; MOV 6 26; BCAX 25 10 12 11;
  BCAX 26 11 13 12; BCAX 12 12 14 13; BCAX 13 13 10 14; BCAX 14 14 11 10;
  MOV 10 25; MOV 11 26; BCAX 25 15 17 16; BCAX 26 16 18 17;
  BCAX 17 17 19 18; BCAX 18 18 15 19; BCAX 19 19 16 15; MOV 15 25;
  MOV 16 26; BCAX 25 20 22 21; BCAX 26 21 23 22; BCAX 22 22 24 23;
  BCAX 23 23 20 24; BCAX 24 24 21 20; MOV 20 25; MOV 21 26;
  LD1R 25; EOR 0 0 25
].
(** shake-a64/f1600x2_const.c:3-28 *)
Definition f1600_RC : list Z :=
  [0x0000000000000001; 0x0000000000008082;
   0x800000000000808A; 0x8000000080008000;
   0x000000000000808B; 0x0000000080000001;
   0x8000000080008081; 0x8000000000008009;
   0x000000000000008A; 0x0000000000000088;
   0x0000000080008009; 0x000000008000000A;
   0x000000008000808B; 0x800000000000008B;
   0x8000000000008089; 0x8000000000008003;
   0x8000000000008002; 0x8000000000000080;
   0x000000000000800A; 0x800000008000000A;
   0x8000000080008081; 0x8000000000008080;
   0x0000000080000001; 0x8000000080008008].

(** f1600x2.s:105-143: load v0 .. v24 from [x0], 24 times the macro, store v0 .. v24.  v25 .. v31 hold
    [r0] at the start.  The counter x3 and the saving of d8 .. d15 are left out. *)
Definition f1600x2 (r0 : list vec) (a : list vec) : option (list vec) :=
  _ <- guard (length a =? 25)%nat ;;
  _ <- guard (length r0 =? 7)%nat ;;
  ' (r, _) <- iterM 24 0 (fun _ st => exec_all round_code st) (a ++ r0, f1600_RC) ;;
  Some (firstn 25 r).
