(** ref/fips202.c with every integer expression written as in the C text (CInt.v) and every variable of its declared type.
    Suffix _c: the C-typed version.  uint32_t is unsigned int; uint64_t, size_t and unsigned long long are 64 bits.  Pointers are
    offsets.  An output pointer that is written once from its start on is the list of bytes written so far ([put]). *)
From Verif Require Import Base Fips202 CInt CCore.
Local Open Scope Z_scope.

Local Notation w := (V U64).
(** Writing at offset j of an output that has been written up to there *)
Definition put (h : bytes) (j : nat) (b : bytes) : option bytes := if (j =? length h)%nat then Some (h ++ b) else None.
(** for (; cond(i); i++): the value of the counter at the end too *)
Fixpoint cloop {S : Type} (fuel : nat) (t : cty) (i : Z) (c : Z -> S -> option bool) (body : Z -> S -> option S) (s : S) : option (Z * S) :=
  match fuel with
  | O => None
  | Datatypes.S fuel' =>
      b <- c i s ;;
      if b : bool then
        s <- body i s ;;
        i <- asg t (V t i + K 1)%C ;;
        cloop fuel' t i c body s
      else Some (i, s)
  end.

(** lines 25-32, reading from offset o *)
Definition load64_c (x : bytes) (o : nat) : option Z :=
  cfor 9 U64 0 (K 8) (fun i r =>
    j <- ix (w i) ;; v <- get x (o + j) ;;
    asg U64 (w r .| (Cast U64 (B v) << K 8 * w i))%C) 0.
(** lines 42-46 *)
Definition store64_c (h : bytes) (o : nat) (u : Z) : option bytes :=
  cfor 9 U64 0 (K 8) (fun i h =>
    j <- ix (w i) ;; b <- asg U8 (Cast U8 (w u >> K 8 * w i)) ;; put h (o + j) [b]) h.
(** line 14 *)
Definition ROL_x (a : cexp) (offset : Z) : cexp := ((a << K offset) .^ (a >> (K 64 - K offset)))%C.

(** lines 115-208: from the A words to the E words *)
Definition round_A_to_E_c (rc : Z) (s : list Z) : option (list Z) :=
  match s with
  | [Aba; Abe; Abi; Abo; Abu; Aga; Age; Agi; Ago; Agu; Aka; Ake; Aki; Ako; Aku; Ama; Ame; Ami; Amo; Amu; Asa; Ase; Asi; Aso; Asu] =>
    (* prepareTheta *)
    BCa <- asg U64 (w Aba .^ w Aga .^ w Aka .^ w Ama .^ w Asa)%C ;;
    BCe <- asg U64 (w Abe .^ w Age .^ w Ake .^ w Ame .^ w Ase)%C ;;
    BCi <- asg U64 (w Abi .^ w Agi .^ w Aki .^ w Ami .^ w Asi)%C ;;
    BCo <- asg U64 (w Abo .^ w Ago .^ w Ako .^ w Amo .^ w Aso)%C ;;
    BCu <- asg U64 (w Abu .^ w Agu .^ w Aku .^ w Amu .^ w Asu)%C ;;
    (* thetaRhoPiChiIotaPrepareTheta(round  , A, E) *)
    Da <- asg U64 (w BCu .^ ROL_x (w BCe) 1)%C ;;
    De <- asg U64 (w BCa .^ ROL_x (w BCi) 1)%C ;;
    Di <- asg U64 (w BCe .^ ROL_x (w BCo) 1)%C ;;
    Do_ <- asg U64 (w BCi .^ ROL_x (w BCu) 1)%C ;;
    Du <- asg U64 (w BCo .^ ROL_x (w BCa) 1)%C ;;
    Aba <- asg U64 (w Aba .^ w Da)%C ;;
    BCa <- asg U64 (w Aba)%C ;;
    Age <- asg U64 (w Age .^ w De)%C ;;
    BCe <- asg U64 (ROL_x (w Age) 44)%C ;;
    Aki <- asg U64 (w Aki .^ w Di)%C ;;
    BCi <- asg U64 (ROL_x (w Aki) 43)%C ;;
    Amo <- asg U64 (w Amo .^ w Do_)%C ;;
    BCo <- asg U64 (ROL_x (w Amo) 21)%C ;;
    Asu <- asg U64 (w Asu .^ w Du)%C ;;
    BCu <- asg U64 (ROL_x (w Asu) 14)%C ;;
    Eba <- asg U64 (w BCa .^ ((Not (w BCe)) .& w BCi))%C ;;
    Eba <- asg U64 (w Eba .^ w rc)%C ;;
    Ebe <- asg U64 (w BCe .^ ((Not (w BCi)) .& w BCo))%C ;;
    Ebi <- asg U64 (w BCi .^ ((Not (w BCo)) .& w BCu))%C ;;
    Ebo <- asg U64 (w BCo .^ ((Not (w BCu)) .& w BCa))%C ;;
    Ebu <- asg U64 (w BCu .^ ((Not (w BCa)) .& w BCe))%C ;;
    Abo <- asg U64 (w Abo .^ w Do_)%C ;;
    BCa <- asg U64 (ROL_x (w Abo) 28)%C ;;
    Agu <- asg U64 (w Agu .^ w Du)%C ;;
    BCe <- asg U64 (ROL_x (w Agu) 20)%C ;;
    Aka <- asg U64 (w Aka .^ w Da)%C ;;
    BCi <- asg U64 (ROL_x (w Aka) 3)%C ;;
    Ame <- asg U64 (w Ame .^ w De)%C ;;
    BCo <- asg U64 (ROL_x (w Ame) 45)%C ;;
    Asi <- asg U64 (w Asi .^ w Di)%C ;;
    BCu <- asg U64 (ROL_x (w Asi) 61)%C ;;
    Ega <- asg U64 (w BCa .^ ((Not (w BCe)) .& w BCi))%C ;;
    Ege <- asg U64 (w BCe .^ ((Not (w BCi)) .& w BCo))%C ;;
    Egi <- asg U64 (w BCi .^ ((Not (w BCo)) .& w BCu))%C ;;
    Ego <- asg U64 (w BCo .^ ((Not (w BCu)) .& w BCa))%C ;;
    Egu <- asg U64 (w BCu .^ ((Not (w BCa)) .& w BCe))%C ;;
    Abe <- asg U64 (w Abe .^ w De)%C ;;
    BCa <- asg U64 (ROL_x (w Abe) 1)%C ;;
    Agi <- asg U64 (w Agi .^ w Di)%C ;;
    BCe <- asg U64 (ROL_x (w Agi) 6)%C ;;
    Ako <- asg U64 (w Ako .^ w Do_)%C ;;
    BCi <- asg U64 (ROL_x (w Ako) 25)%C ;;
    Amu <- asg U64 (w Amu .^ w Du)%C ;;
    BCo <- asg U64 (ROL_x (w Amu) 8)%C ;;
    Asa <- asg U64 (w Asa .^ w Da)%C ;;
    BCu <- asg U64 (ROL_x (w Asa) 18)%C ;;
    Eka <- asg U64 (w BCa .^ ((Not (w BCe)) .& w BCi))%C ;;
    Eke <- asg U64 (w BCe .^ ((Not (w BCi)) .& w BCo))%C ;;
    Eki <- asg U64 (w BCi .^ ((Not (w BCo)) .& w BCu))%C ;;
    Eko <- asg U64 (w BCo .^ ((Not (w BCu)) .& w BCa))%C ;;
    Eku <- asg U64 (w BCu .^ ((Not (w BCa)) .& w BCe))%C ;;
    Abu <- asg U64 (w Abu .^ w Du)%C ;;
    BCa <- asg U64 (ROL_x (w Abu) 27)%C ;;
    Aga <- asg U64 (w Aga .^ w Da)%C ;;
    BCe <- asg U64 (ROL_x (w Aga) 36)%C ;;
    Ake <- asg U64 (w Ake .^ w De)%C ;;
    BCi <- asg U64 (ROL_x (w Ake) 10)%C ;;
    Ami <- asg U64 (w Ami .^ w Di)%C ;;
    BCo <- asg U64 (ROL_x (w Ami) 15)%C ;;
    Aso <- asg U64 (w Aso .^ w Do_)%C ;;
    BCu <- asg U64 (ROL_x (w Aso) 56)%C ;;
    Ema <- asg U64 (w BCa .^ ((Not (w BCe)) .& w BCi))%C ;;
    Eme <- asg U64 (w BCe .^ ((Not (w BCi)) .& w BCo))%C ;;
    Emi <- asg U64 (w BCi .^ ((Not (w BCo)) .& w BCu))%C ;;
    Emo <- asg U64 (w BCo .^ ((Not (w BCu)) .& w BCa))%C ;;
    Emu <- asg U64 (w BCu .^ ((Not (w BCa)) .& w BCe))%C ;;
    Abi <- asg U64 (w Abi .^ w Di)%C ;;
    BCa <- asg U64 (ROL_x (w Abi) 62)%C ;;
    Ago <- asg U64 (w Ago .^ w Do_)%C ;;
    BCe <- asg U64 (ROL_x (w Ago) 55)%C ;;
    Aku <- asg U64 (w Aku .^ w Du)%C ;;
    BCi <- asg U64 (ROL_x (w Aku) 39)%C ;;
    Ama <- asg U64 (w Ama .^ w Da)%C ;;
    BCo <- asg U64 (ROL_x (w Ama) 41)%C ;;
    Ase <- asg U64 (w Ase .^ w De)%C ;;
    BCu <- asg U64 (ROL_x (w Ase) 2)%C ;;
    Esa <- asg U64 (w BCa .^ ((Not (w BCe)) .& w BCi))%C ;;
    Ese <- asg U64 (w BCe .^ ((Not (w BCi)) .& w BCo))%C ;;
    Esi <- asg U64 (w BCi .^ ((Not (w BCo)) .& w BCu))%C ;;
    Eso <- asg U64 (w BCo .^ ((Not (w BCu)) .& w BCa))%C ;;
    Esu <- asg U64 (w BCu .^ ((Not (w BCa)) .& w BCe))%C ;;
    Some [Eba; Ebe; Ebi; Ebo; Ebu; Ega; Ege; Egi; Ego; Egu; Eka; Eke; Eki; Eko; Eku; Ema; Eme; Emi; Emo; Emu; Esa; Ese; Esi; Eso; Esu]
  | _ => None
  end.

(** lines 210-303: from the E words to the A words *)
Definition round_E_to_A_c (rc : Z) (s : list Z) : option (list Z) :=
  match s with
  | [Eba; Ebe; Ebi; Ebo; Ebu; Ega; Ege; Egi; Ego; Egu; Eka; Eke; Eki; Eko; Eku; Ema; Eme; Emi; Emo; Emu; Esa; Ese; Esi; Eso; Esu] =>
    (* prepareTheta *)
    BCa <- asg U64 (w Eba .^ w Ega .^ w Eka .^ w Ema .^ w Esa)%C ;;
    BCe <- asg U64 (w Ebe .^ w Ege .^ w Eke .^ w Eme .^ w Ese)%C ;;
    BCi <- asg U64 (w Ebi .^ w Egi .^ w Eki .^ w Emi .^ w Esi)%C ;;
    BCo <- asg U64 (w Ebo .^ w Ego .^ w Eko .^ w Emo .^ w Eso)%C ;;
    BCu <- asg U64 (w Ebu .^ w Egu .^ w Eku .^ w Emu .^ w Esu)%C ;;
    (* thetaRhoPiChiIotaPrepareTheta(round+1, E, A) *)
    Da <- asg U64 (w BCu .^ ROL_x (w BCe) 1)%C ;;
    De <- asg U64 (w BCa .^ ROL_x (w BCi) 1)%C ;;
    Di <- asg U64 (w BCe .^ ROL_x (w BCo) 1)%C ;;
    Do_ <- asg U64 (w BCi .^ ROL_x (w BCu) 1)%C ;;
    Du <- asg U64 (w BCo .^ ROL_x (w BCa) 1)%C ;;
    Eba <- asg U64 (w Eba .^ w Da)%C ;;
    BCa <- asg U64 (w Eba)%C ;;
    Ege <- asg U64 (w Ege .^ w De)%C ;;
    BCe <- asg U64 (ROL_x (w Ege) 44)%C ;;
    Eki <- asg U64 (w Eki .^ w Di)%C ;;
    BCi <- asg U64 (ROL_x (w Eki) 43)%C ;;
    Emo <- asg U64 (w Emo .^ w Do_)%C ;;
    BCo <- asg U64 (ROL_x (w Emo) 21)%C ;;
    Esu <- asg U64 (w Esu .^ w Du)%C ;;
    BCu <- asg U64 (ROL_x (w Esu) 14)%C ;;
    Aba <- asg U64 (w BCa .^ ((Not (w BCe)) .& w BCi))%C ;;
    Aba <- asg U64 (w Aba .^ w rc)%C ;;
    Abe <- asg U64 (w BCe .^ ((Not (w BCi)) .& w BCo))%C ;;
    Abi <- asg U64 (w BCi .^ ((Not (w BCo)) .& w BCu))%C ;;
    Abo <- asg U64 (w BCo .^ ((Not (w BCu)) .& w BCa))%C ;;
    Abu <- asg U64 (w BCu .^ ((Not (w BCa)) .& w BCe))%C ;;
    Ebo <- asg U64 (w Ebo .^ w Do_)%C ;;
    BCa <- asg U64 (ROL_x (w Ebo) 28)%C ;;
    Egu <- asg U64 (w Egu .^ w Du)%C ;;
    BCe <- asg U64 (ROL_x (w Egu) 20)%C ;;
    Eka <- asg U64 (w Eka .^ w Da)%C ;;
    BCi <- asg U64 (ROL_x (w Eka) 3)%C ;;
    Eme <- asg U64 (w Eme .^ w De)%C ;;
    BCo <- asg U64 (ROL_x (w Eme) 45)%C ;;
    Esi <- asg U64 (w Esi .^ w Di)%C ;;
    BCu <- asg U64 (ROL_x (w Esi) 61)%C ;;
    Aga <- asg U64 (w BCa .^ ((Not (w BCe)) .& w BCi))%C ;;
    Age <- asg U64 (w BCe .^ ((Not (w BCi)) .& w BCo))%C ;;
    Agi <- asg U64 (w BCi .^ ((Not (w BCo)) .& w BCu))%C ;;
    Ago <- asg U64 (w BCo .^ ((Not (w BCu)) .& w BCa))%C ;;
    Agu <- asg U64 (w BCu .^ ((Not (w BCa)) .& w BCe))%C ;;
    Ebe <- asg U64 (w Ebe .^ w De)%C ;;
    BCa <- asg U64 (ROL_x (w Ebe) 1)%C ;;
    Egi <- asg U64 (w Egi .^ w Di)%C ;;
    BCe <- asg U64 (ROL_x (w Egi) 6)%C ;;
    Eko <- asg U64 (w Eko .^ w Do_)%C ;;
    BCi <- asg U64 (ROL_x (w Eko) 25)%C ;;
    Emu <- asg U64 (w Emu .^ w Du)%C ;;
    BCo <- asg U64 (ROL_x (w Emu) 8)%C ;;
    Esa <- asg U64 (w Esa .^ w Da)%C ;;
    BCu <- asg U64 (ROL_x (w Esa) 18)%C ;;
    Aka <- asg U64 (w BCa .^ ((Not (w BCe)) .& w BCi))%C ;;
    Ake <- asg U64 (w BCe .^ ((Not (w BCi)) .& w BCo))%C ;;
    Aki <- asg U64 (w BCi .^ ((Not (w BCo)) .& w BCu))%C ;;
    Ako <- asg U64 (w BCo .^ ((Not (w BCu)) .& w BCa))%C ;;
    Aku <- asg U64 (w BCu .^ ((Not (w BCa)) .& w BCe))%C ;;
    Ebu <- asg U64 (w Ebu .^ w Du)%C ;;
    BCa <- asg U64 (ROL_x (w Ebu) 27)%C ;;
    Ega <- asg U64 (w Ega .^ w Da)%C ;;
    BCe <- asg U64 (ROL_x (w Ega) 36)%C ;;
    Eke <- asg U64 (w Eke .^ w De)%C ;;
    BCi <- asg U64 (ROL_x (w Eke) 10)%C ;;
    Emi <- asg U64 (w Emi .^ w Di)%C ;;
    BCo <- asg U64 (ROL_x (w Emi) 15)%C ;;
    Eso <- asg U64 (w Eso .^ w Do_)%C ;;
    BCu <- asg U64 (ROL_x (w Eso) 56)%C ;;
    Ama <- asg U64 (w BCa .^ ((Not (w BCe)) .& w BCi))%C ;;
    Ame <- asg U64 (w BCe .^ ((Not (w BCi)) .& w BCo))%C ;;
    Ami <- asg U64 (w BCi .^ ((Not (w BCo)) .& w BCu))%C ;;
    Amo <- asg U64 (w BCo .^ ((Not (w BCu)) .& w BCa))%C ;;
    Amu <- asg U64 (w BCu .^ ((Not (w BCa)) .& w BCe))%C ;;
    Ebi <- asg U64 (w Ebi .^ w Di)%C ;;
    BCa <- asg U64 (ROL_x (w Ebi) 62)%C ;;
    Ego <- asg U64 (w Ego .^ w Do_)%C ;;
    BCe <- asg U64 (ROL_x (w Ego) 55)%C ;;
    Eku <- asg U64 (w Eku .^ w Du)%C ;;
    BCi <- asg U64 (ROL_x (w Eku) 39)%C ;;
    Ema <- asg U64 (w Ema .^ w Da)%C ;;
    BCo <- asg U64 (ROL_x (w Ema) 41)%C ;;
    Ese <- asg U64 (w Ese .^ w De)%C ;;
    BCu <- asg U64 (ROL_x (w Ese) 2)%C ;;
    Asa <- asg U64 (w BCa .^ ((Not (w BCe)) .& w BCi))%C ;;
    Ase <- asg U64 (w BCe .^ ((Not (w BCi)) .& w BCo))%C ;;
    Asi <- asg U64 (w BCi .^ ((Not (w BCo)) .& w BCu))%C ;;
    Aso <- asg U64 (w BCo .^ ((Not (w BCu)) .& w BCa))%C ;;
    Asu <- asg U64 (w BCu .^ ((Not (w BCa)) .& w BCe))%C ;;
    Some [Aba; Abe; Abi; Abo; Abu; Aga; Age; Agi; Ago; Agu; Aka; Ake; Aki; Ako; Aku; Ama; Ame; Ami; Amo; Amu; Asa; Ase; Asi; Aso; Asu]
  | _ => None
  end.

(** lines 114-304: for (round = 0; round < NROUNDS; round += 2) *)
Fixpoint keccak_rounds_c (fuel : nat) (round : Z) (s : list Z) : option (list Z) :=
  match fuel with
  | O => None
  | S fuel' =>
      c <- cond (V I32 round < K 24)%C ;;
      if c : bool then
        k <- ix (V I32 round) ;; rc <- get KeccakF_RoundConstants k ;;
        s <- round_A_to_E_c rc s ;;
        k <- ix (V I32 round + K 1)%C ;; rc <- get KeccakF_RoundConstants k ;;
        s <- round_E_to_A_c rc s ;;
        round <- asg I32 (V I32 round + K 2)%C ;;
        keccak_rounds_c fuel' round s
      else Some s
  end.
(** lines 71-332 *)
Definition KeccakF1600_StatePermute_c (state : list Z) : option (list Z) :=
  a <- rd state 0 25 ;;
  a <- keccak_rounds_c 13 0 a ;;
  wr state 0 a.

(** for (i = 0; i < r / 8; ++i) s[i] ^= load64(m + 8 * i), lines 358-360 and 375-377; m at offset o *)
Definition xor_words_c (r : Z) (m : bytes) (o : nat) (s : list Z) : option (list Z) :=
  cfor (S (Z.to_nat r)) U64 0 (V U32 r / K 8)%C (fun i s =>
    d <- ix (K 8 * w i)%C ;; x <- load64_c m (o + d) ;;
    j <- ix (w i) ;; v <- get s j ;; v <- asg U64 (w v .^ w x)%C ;; wr s j [v]) s.
(** lines 357-365 *)
Fixpoint absorb_loop_c (fuel : nat) (r : Z) (m : bytes) (o : nat) (mlen : Z) (s : list Z) : option (list Z * nat * Z) :=
  match fuel with
  | O => None
  | S fuel' =>
      c <- cond (w mlen >= V U32 r)%C ;;
      if c : bool then
        s <- xor_words_c r m o s ;;
        s <- KeccakF1600_StatePermute_c s ;;
        mlen <- asg U64 (w mlen - V U32 r)%C ;;
        absorb_loop_c fuel' r m (o + Z.to_nat r) mlen s
      else Some (s, o, mlen)
  end.
(** lines 347-378.  [s0], [t0]: what the state and t[200] hold before *)
Definition keccak_absorb_c (s0 : list Z) (t0 : bytes) (r : cexp) (m : bytes) (mlen : Z) (p : cexp) : option (list Z) :=
  r <- asg U32 r ;; p <- asg U8 p ;;
  s <- cfor 26 U64 0 (K 25) (fun i s => j <- ix (w i) ;; x <- asg U64 (K 0) ;; wr s j [x]) s0 ;;
  ' (s, o, mlen) <- absorb_loop_c (S (Z.to_nat mlen)) r m 0 mlen s ;;
  t <- cfor (S (Z.to_nat r)) U64 0 (V U32 r) (fun i t => j <- ix (w i) ;; x <- asg U8 (K 0) ;; wr t j [x]) t0 ;;
  ' (i, t) <- cloop (S (Z.to_nat mlen)) U64 0 (fun i _ => cond (w i < w mlen)%C) (fun i t =>
     j <- ix (w i) ;; x <- get m (o + j) ;; wr t j [x]) t ;;
  j <- ix (w i) ;; x <- asg U8 (V U8 p) ;; t <- wr t j [x] ;;
  j <- ix (V U32 r - K 1)%C ;; x <- get t j ;; x <- asg U8 (B x .| K 128)%C ;; t <- wr t j [x] ;;
  xor_words_c r t 0 s.

(** lines 393-403; o: how far h has moved *)
Fixpoint keccak_squeezeblocks_c (fuel : nat) (h : bytes) (o : nat) (nblocks : Z) (s : list Z) (r : Z) : option (bytes * list Z) :=
  match fuel with
  | O => None
  | S fuel' =>
      c <- cond (K 0 < w nblocks)%C ;;
      if c : bool then
        s <- KeccakF1600_StatePermute_c s ;;
        h <- cfor (S (Z.to_nat r)) U64 0 (V U32 r >> K 3)%C (fun i h =>
               d <- ix (K 8 * w i)%C ;; j <- ix (w i) ;; x <- get s j ;; store64_c h (o + d) x) h ;;
        nblocks <- asg U64 (w nblocks - K 1)%C ;;
        keccak_squeezeblocks_c fuel' h (o + Z.to_nat r) nblocks s r
      else Some (h, s)
  end.

(** lines 415-422 *)
Definition keccak_inc_init_c (s0 : list Z) : option (list Z) :=
  s <- cfor 26 U64 0 (K 25) (fun i s => j <- ix (w i) ;; x <- asg U64 (K 0) ;; wr s j [x]) s0 ;;
  x <- asg U64 (K 0) ;; wr s 25 [x].

(** s_inc[e >> 3] ^= (uint64_t)b << (8 * (e & 0x07)) *)
Definition xor_byte_c (s : list Z) (e b : cexp) : option (list Z) :=
  j <- ix (e >> K 3)%C ;; x <- get s j ;;
  v <- asg U64 (w x .^ (Cast U64 b << K 8 * (e .& K 0x07)))%C ;; wr s j [v].
(** one iteration of the loops of lines 444-448 and 456-458 *)
Definition inc_xor_c (m : bytes) (o : nat) (i : Z) (s : list Z) : option (list Z) :=
  c <- get s 25 ;; j <- ix (w i) ;; x <- get m (o + j) ;; xor_byte_c s (w c + w i)%C (B x).
(** lines 443-454 *)
Fixpoint inc_absorb_loop_c (fuel : nat) (s : list Z) (r : Z) (m : bytes) (o : nat) (mlen : Z) : option (list Z * nat * Z) :=
  match fuel with
  | O => None
  | S fuel' =>
      c <- get s 25 ;; b <- cond (w mlen + w c >= V U32 r)%C ;;
      if b : bool then
        ' (_, s) <- cloop (S (Z.to_nat r)) U64 0 (fun i s => c <- get s 25 ;; cond (w i < V U32 r - w c)%C) (inc_xor_c m o) s ;;
        c <- get s 25 ;;
        mlen <- asg U64 (w mlen - Cast U64 (V U32 r - w c))%C ;;
        d <- ix (V U32 r - w c)%C ;;
        x <- asg U64 (K 0) ;; s <- wr s 25 [x] ;;
        s <- KeccakF1600_StatePermute_c s ;;
        inc_absorb_loop_c fuel' s r m (o + d) mlen
      else Some (s, o, mlen)
  end.
(** lines 438-460 *)
Definition keccak_inc_absorb_c (s : list Z) (r : cexp) (m : bytes) (mlen : Z) : option (list Z) :=
  r <- asg U32 r ;;
  ' (s, o, mlen) <- inc_absorb_loop_c (S (S (Z.to_nat mlen))) s r m 0 mlen ;;
  ' (_, s) <- cloop (S (Z.to_nat mlen)) U64 0 (fun i s => cond (w i < w mlen)%C) (inc_xor_c m o) s ;;
  c <- get s 25 ;; x <- asg U64 (w c + w mlen)%C ;; wr s 25 [x].
(** lines 475-481 *)
Definition keccak_inc_finalize_c (s : list Z) (r p : cexp) : option (list Z) :=
  r <- asg U32 r ;; p <- asg U8 p ;;
  c <- get s 25 ;; s <- xor_byte_c s (w c) (V U8 p) ;;
  s <- xor_byte_c s (V U32 r - K 1)%C (K 128) ;;
  x <- asg U64 (K 0) ;; wr s 25 [x].

(** (uint8_t)(s_inc[e >> 3] >> (8 * (e & 0x07))) *)
Definition byte_of_c (s : list Z) (e : cexp) : option Z :=
  j <- ix (e >> K 3)%C ;; x <- get s j ;; asg U8 (Cast U8 (w x >> K 8 * (e .& K 0x07))).
(** lines 511-520 *)
Fixpoint inc_squeeze_loop_c (fuel : nat) (h : bytes) (o : nat) (outlen : Z) (s : list Z) (r : Z) : option (bytes * list Z) :=
  match fuel with
  | O => None
  | S fuel' =>
      c <- cond (K 0 < w outlen)%C ;;
      if c : bool then
        s <- KeccakF1600_StatePermute_c s ;;
        ' (i, h) <- cloop (S (Z.to_nat outlen)) U64 0 (fun i _ =>
              b <- cond (w i < w outlen)%C ;; if b : bool then cond (w i < V U32 r)%C else Some false)
            (fun i h => j <- ix (w i) ;; b <- byte_of_c s (w i) ;; put h (o + j) [b]) h ;;
        d <- ix (w i) ;;
        outlen <- asg U64 (w outlen - w i)%C ;;
        x <- asg U64 (V U32 r - w i)%C ;; s <- wr s 25 [x] ;;
        inc_squeeze_loop_c fuel' h (o + d) outlen s r
      else Some (h, s)
  end.
(** lines 496-521 *)
Definition keccak_inc_squeeze_c (outlen : Z) (s : list Z) (r : cexp) : option (bytes * list Z) :=
  r <- asg U32 r ;;
  ' (i, h) <- cloop (S (Z.to_nat outlen)) U64 0 (fun i _ =>
        b <- cond (w i < w outlen)%C ;; if b : bool then c <- get s 25 ;; cond (w i < w c)%C else Some false)
      (fun i h => j <- ix (w i) ;; c <- get s 25 ;; b <- byte_of_c s (V U32 r - w c + w i)%C ;; put h j [b]) [] ;;
  o <- ix (w i) ;;
  outlen <- asg U64 (w outlen - w i)%C ;;
  c <- get s 25 ;; x <- asg U64 (w c - w i)%C ;; s <- wr s 25 [x] ;;
  inc_squeeze_loop_c (S (Z.to_nat outlen)) h o outlen s r.

(** lines 523-537; SHAKE256_RATE is the int constant 136 (fips202.h:7) *)
Definition xRATE : cexp := K 136.
Definition shake256_inc_init_c := keccak_inc_init_c.
Definition shake256_inc_absorb_c (s : list Z) (m : bytes) (inlen : Z) := keccak_inc_absorb_c s xRATE m inlen.
Definition shake256_inc_finalize_c (s : list Z) := keccak_inc_finalize_c s xRATE (K 0x1F).
Definition shake256_inc_squeeze_c (outlen : Z) (s : list Z) := keccak_inc_squeeze_c outlen s xRATE.
(** lines 550-568 *)
Definition shake256_absorb_c (s0 : list Z) (t0 m : bytes) (inlen : Z) := keccak_absorb_c s0 t0 xRATE m inlen (K 0x1F).
Definition shake256_squeezeblocks_c (h : bytes) (nblocks : Z) (s : list Z) :=
  r <- asg U32 xRATE ;; keccak_squeezeblocks_c (S (Z.to_nat nblocks)) h 0 nblocks s r.
(** lines 580-598.  [s0], [t0]: the uninitialised local arrays; t is the list of what is written to it *)
Definition shake256_c (s0 : list Z) (t0 : bytes) (outlen : Z) (inp : bytes) (inlen : Z) : option bytes :=
  nblocks <- asg U64 (w outlen / xRATE)%C ;;
  s <- shake256_absorb_c s0 t0 inp inlen ;;
  ' (output, s) <- shake256_squeezeblocks_c [] nblocks s ;;
  o <- ix (w nblocks * xRATE)%C ;;
  outlen <- asg U64 (w outlen - w nblocks * xRATE)%C ;;
  c <- cond (w outlen) ;;
  if c : bool then
    ' (t, _) <- shake256_squeezeblocks_c [] 1 s ;;
    cfor (S (Z.to_nat outlen)) U64 0 (w outlen) (fun i output =>
      j <- ix (w i) ;; x <- get t j ;; put output (o + j) [x]) output
  else Some output.
