(** ref/fips202.c: Keccak-f[1600] and SHAKE256.

    The state is the list of its 25 words (26 for the incremental functions, the last being the
    byte counter s_inc[25]); words are [Z] below 2^64.  An element read through a [uint8_t *] is a
    byte, hence the [u8] where input is loaded.  Output pointers: the functions return the
    bytes they write.  Message lengths are those of real objects, so [mlen + s_inc[25]] does not wrap.
     The two halves of the round loop are a mechanical transcription of the C text. *)
From Verif Require Import Base.

Definition SHAKE256_RATE : nat := 136.

(** lines 25-32 *)
Definition load64 (x : bytes) : option Z :=
  iterM 8 0 (fun i r => v <- get x i ;; Some (Z.lor r (u64 (Z.shiftl (u8 v) (8 * Z.of_nat i))))) 0.
(** lines 42-46 *)
Definition store64 (u : Z) : bytes := map (fun i => u8 (Z.shiftr u (8 * Z.of_nat i))) (seq 0 8).

(** lines 49-62 *)
Definition KeccakF_RoundConstants : list Z :=
  [0x0000000000000001; 0x0000000000008082;
   0x800000000000808a; 0x8000000080008000;
   0x000000000000808b; 0x0000000080000001;
   0x8000000080008081; 0x8000000000008009;
   0x000000000000008a; 0x0000000000000088;
   0x0000000080008009; 0x000000008000000a;
   0x000000008000808b; 0x800000000000008b;
   0x8000000000008089; 0x8000000000008003;
   0x8000000000008002; 0x8000000000000080;
   0x000000000000800a; 0x800000008000000a;
   0x8000000080008081; 0x8000000000008080;
   0x0000000080000001; 0x8000000080008008].

Local Notation "a ^^ b" := (Z.lxor a b) (at level 50, left associativity).
(** line 14; the operand is a uint64_t and the offset is between 1 and 63 *)
Definition ROL (a offset : Z) : Z := Z.lxor (u64 (Z.shiftl a offset)) (Z.shiftr a (64 - offset)).

(** lines 115-208: theta, rho, pi, chi, iota from the A words to the E words *)
Definition round_A_to_E (rc : Z) (s : list Z) : option (list Z) :=
  match s with
  | [Aba; Abe; Abi; Abo; Abu; Aga; Age; Agi; Ago; Agu; Aka; Ake; Aki; Ako; Aku; Ama; Ame; Ami; Amo; Amu; Asa; Ase; Asi; Aso; Asu] =>
    (* prepareTheta *)
    let BCa := Aba ^^ Aga ^^ Aka ^^ Ama ^^ Asa in
    let BCe := Abe ^^ Age ^^ Ake ^^ Ame ^^ Ase in
    let BCi := Abi ^^ Agi ^^ Aki ^^ Ami ^^ Asi in
    let BCo := Abo ^^ Ago ^^ Ako ^^ Amo ^^ Aso in
    let BCu := Abu ^^ Agu ^^ Aku ^^ Amu ^^ Asu in
    (* thetaRhoPiChiIotaPrepareTheta(round  , A, E) *)
    let Da := BCu ^^ ROL BCe 1 in
    let De := BCa ^^ ROL BCi 1 in
    let Di := BCe ^^ ROL BCo 1 in
    let Do_ := BCi ^^ ROL BCu 1 in
    let Du := BCo ^^ ROL BCa 1 in
    let Aba := Aba ^^ Da in
    let BCa := Aba in
    let Age := Age ^^ De in
    let BCe := ROL Age 44 in
    let Aki := Aki ^^ Di in
    let BCi := ROL Aki 43 in
    let Amo := Amo ^^ Do_ in
    let BCo := ROL Amo 21 in
    let Asu := Asu ^^ Du in
    let BCu := ROL Asu 14 in
    let Eba := BCa ^^ (Z.land (Z.lnot BCe) BCi) in
    let Eba := Eba ^^ rc in
    let Ebe := BCe ^^ (Z.land (Z.lnot BCi) BCo) in
    let Ebi := BCi ^^ (Z.land (Z.lnot BCo) BCu) in
    let Ebo := BCo ^^ (Z.land (Z.lnot BCu) BCa) in
    let Ebu := BCu ^^ (Z.land (Z.lnot BCa) BCe) in
    let Abo := Abo ^^ Do_ in
    let BCa := ROL Abo 28 in
    let Agu := Agu ^^ Du in
    let BCe := ROL Agu 20 in
    let Aka := Aka ^^ Da in
    let BCi := ROL Aka 3 in
    let Ame := Ame ^^ De in
    let BCo := ROL Ame 45 in
    let Asi := Asi ^^ Di in
    let BCu := ROL Asi 61 in
    let Ega := BCa ^^ (Z.land (Z.lnot BCe) BCi) in
    let Ege := BCe ^^ (Z.land (Z.lnot BCi) BCo) in
    let Egi := BCi ^^ (Z.land (Z.lnot BCo) BCu) in
    let Ego := BCo ^^ (Z.land (Z.lnot BCu) BCa) in
    let Egu := BCu ^^ (Z.land (Z.lnot BCa) BCe) in
    let Abe := Abe ^^ De in
    let BCa := ROL Abe 1 in
    let Agi := Agi ^^ Di in
    let BCe := ROL Agi 6 in
    let Ako := Ako ^^ Do_ in
    let BCi := ROL Ako 25 in
    let Amu := Amu ^^ Du in
    let BCo := ROL Amu 8 in
    let Asa := Asa ^^ Da in
    let BCu := ROL Asa 18 in
    let Eka := BCa ^^ (Z.land (Z.lnot BCe) BCi) in
    let Eke := BCe ^^ (Z.land (Z.lnot BCi) BCo) in
    let Eki := BCi ^^ (Z.land (Z.lnot BCo) BCu) in
    let Eko := BCo ^^ (Z.land (Z.lnot BCu) BCa) in
    let Eku := BCu ^^ (Z.land (Z.lnot BCa) BCe) in
    let Abu := Abu ^^ Du in
    let BCa := ROL Abu 27 in
    let Aga := Aga ^^ Da in
    let BCe := ROL Aga 36 in
    let Ake := Ake ^^ De in
    let BCi := ROL Ake 10 in
    let Ami := Ami ^^ Di in
    let BCo := ROL Ami 15 in
    let Aso := Aso ^^ Do_ in
    let BCu := ROL Aso 56 in
    let Ema := BCa ^^ (Z.land (Z.lnot BCe) BCi) in
    let Eme := BCe ^^ (Z.land (Z.lnot BCi) BCo) in
    let Emi := BCi ^^ (Z.land (Z.lnot BCo) BCu) in
    let Emo := BCo ^^ (Z.land (Z.lnot BCu) BCa) in
    let Emu := BCu ^^ (Z.land (Z.lnot BCa) BCe) in
    let Abi := Abi ^^ Di in
    let BCa := ROL Abi 62 in
    let Ago := Ago ^^ Do_ in
    let BCe := ROL Ago 55 in
    let Aku := Aku ^^ Du in
    let BCi := ROL Aku 39 in
    let Ama := Ama ^^ Da in
    let BCo := ROL Ama 41 in
    let Ase := Ase ^^ De in
    let BCu := ROL Ase 2 in
    let Esa := BCa ^^ (Z.land (Z.lnot BCe) BCi) in
    let Ese := BCe ^^ (Z.land (Z.lnot BCi) BCo) in
    let Esi := BCi ^^ (Z.land (Z.lnot BCo) BCu) in
    let Eso := BCo ^^ (Z.land (Z.lnot BCu) BCa) in
    let Esu := BCu ^^ (Z.land (Z.lnot BCa) BCe) in
    Some [Eba; Ebe; Ebi; Ebo; Ebu; Ega; Ege; Egi; Ego; Egu; Eka; Eke; Eki; Eko; Eku; Ema; Eme; Emi; Emo; Emu; Esa; Ese; Esi; Eso; Esu]
  | _ => None
  end.

(** lines 210-303: the same from the E words to the A words *)
Definition round_E_to_A (rc : Z) (s : list Z) : option (list Z) :=
  match s with
  | [Eba; Ebe; Ebi; Ebo; Ebu; Ega; Ege; Egi; Ego; Egu; Eka; Eke; Eki; Eko; Eku; Ema; Eme; Emi; Emo; Emu; Esa; Ese; Esi; Eso; Esu] =>
    (* prepareTheta *)
    let BCa := Eba ^^ Ega ^^ Eka ^^ Ema ^^ Esa in
    let BCe := Ebe ^^ Ege ^^ Eke ^^ Eme ^^ Ese in
    let BCi := Ebi ^^ Egi ^^ Eki ^^ Emi ^^ Esi in
    let BCo := Ebo ^^ Ego ^^ Eko ^^ Emo ^^ Eso in
    let BCu := Ebu ^^ Egu ^^ Eku ^^ Emu ^^ Esu in
    (* thetaRhoPiChiIotaPrepareTheta(round+1, E, A) *)
    let Da := BCu ^^ ROL BCe 1 in
    let De := BCa ^^ ROL BCi 1 in
    let Di := BCe ^^ ROL BCo 1 in
    let Do_ := BCi ^^ ROL BCu 1 in
    let Du := BCo ^^ ROL BCa 1 in
    let Eba := Eba ^^ Da in
    let BCa := Eba in
    let Ege := Ege ^^ De in
    let BCe := ROL Ege 44 in
    let Eki := Eki ^^ Di in
    let BCi := ROL Eki 43 in
    let Emo := Emo ^^ Do_ in
    let BCo := ROL Emo 21 in
    let Esu := Esu ^^ Du in
    let BCu := ROL Esu 14 in
    let Aba := BCa ^^ (Z.land (Z.lnot BCe) BCi) in
    let Aba := Aba ^^ rc in
    let Abe := BCe ^^ (Z.land (Z.lnot BCi) BCo) in
    let Abi := BCi ^^ (Z.land (Z.lnot BCo) BCu) in
    let Abo := BCo ^^ (Z.land (Z.lnot BCu) BCa) in
    let Abu := BCu ^^ (Z.land (Z.lnot BCa) BCe) in
    let Ebo := Ebo ^^ Do_ in
    let BCa := ROL Ebo 28 in
    let Egu := Egu ^^ Du in
    let BCe := ROL Egu 20 in
    let Eka := Eka ^^ Da in
    let BCi := ROL Eka 3 in
    let Eme := Eme ^^ De in
    let BCo := ROL Eme 45 in
    let Esi := Esi ^^ Di in
    let BCu := ROL Esi 61 in
    let Aga := BCa ^^ (Z.land (Z.lnot BCe) BCi) in
    let Age := BCe ^^ (Z.land (Z.lnot BCi) BCo) in
    let Agi := BCi ^^ (Z.land (Z.lnot BCo) BCu) in
    let Ago := BCo ^^ (Z.land (Z.lnot BCu) BCa) in
    let Agu := BCu ^^ (Z.land (Z.lnot BCa) BCe) in
    let Ebe := Ebe ^^ De in
    let BCa := ROL Ebe 1 in
    let Egi := Egi ^^ Di in
    let BCe := ROL Egi 6 in
    let Eko := Eko ^^ Do_ in
    let BCi := ROL Eko 25 in
    let Emu := Emu ^^ Du in
    let BCo := ROL Emu 8 in
    let Esa := Esa ^^ Da in
    let BCu := ROL Esa 18 in
    let Aka := BCa ^^ (Z.land (Z.lnot BCe) BCi) in
    let Ake := BCe ^^ (Z.land (Z.lnot BCi) BCo) in
    let Aki := BCi ^^ (Z.land (Z.lnot BCo) BCu) in
    let Ako := BCo ^^ (Z.land (Z.lnot BCu) BCa) in
    let Aku := BCu ^^ (Z.land (Z.lnot BCa) BCe) in
    let Ebu := Ebu ^^ Du in
    let BCa := ROL Ebu 27 in
    let Ega := Ega ^^ Da in
    let BCe := ROL Ega 36 in
    let Eke := Eke ^^ De in
    let BCi := ROL Eke 10 in
    let Emi := Emi ^^ Di in
    let BCo := ROL Emi 15 in
    let Eso := Eso ^^ Do_ in
    let BCu := ROL Eso 56 in
    let Ama := BCa ^^ (Z.land (Z.lnot BCe) BCi) in
    let Ame := BCe ^^ (Z.land (Z.lnot BCi) BCo) in
    let Ami := BCi ^^ (Z.land (Z.lnot BCo) BCu) in
    let Amo := BCo ^^ (Z.land (Z.lnot BCu) BCa) in
    let Amu := BCu ^^ (Z.land (Z.lnot BCa) BCe) in
    let Ebi := Ebi ^^ Di in
    let BCa := ROL Ebi 62 in
    let Ego := Ego ^^ Do_ in
    let BCe := ROL Ego 55 in
    let Eku := Eku ^^ Du in
    let BCi := ROL Eku 39 in
    let Ema := Ema ^^ Da in
    let BCo := ROL Ema 41 in
    let Ese := Ese ^^ De in
    let BCu := ROL Ese 2 in
    let Asa := BCa ^^ (Z.land (Z.lnot BCe) BCi) in
    let Ase := BCe ^^ (Z.land (Z.lnot BCi) BCo) in
    let Asi := BCi ^^ (Z.land (Z.lnot BCo) BCu) in
    let Aso := BCo ^^ (Z.land (Z.lnot BCu) BCa) in
    let Asu := BCu ^^ (Z.land (Z.lnot BCa) BCe) in
    Some [Aba; Abe; Abi; Abo; Abu; Aga; Age; Agi; Ago; Agu; Aka; Ake; Aki; Ako; Aku; Ama; Ame; Ami; Amo; Amu; Asa; Ase; Asi; Aso; Asu]
  | _ => None
  end.

(** lines 114-303: round = 0, 2, .., 22 *)
Definition keccak_rounds (s : list Z) : option (list Z) :=
  iterM 12 0 (fun k s =>
    rc0 <- get KeccakF_RoundConstants (2 * k) ;;
    rc1 <- get KeccakF_RoundConstants (2 * k + 1) ;;
    s <- round_A_to_E rc0 s ;;
    round_E_to_A rc1 s) s.

(** lines 71-332: reads and writes the first 25 words of [state] *)
Definition KeccakF1600_StatePermute (state : list Z) : option (list Z) :=
  a <- rd state 0 25 ;;
  a <- keccak_rounds a ;;
  wr state 0 a.

(** s[i] ^= load64(m + 8*i) for i < k *)
Definition xor_words (k : nat) (m : bytes) (s : list Z) : option (list Z) :=
  iterM k 0 (fun i s =>
    x <- rd m (8 * i) 8 ;;
    v <- load64 x ;;
    w <- get s i ;;
    wr s i [Z.lxor w v]) s.

(** lines 357-365: the whole blocks; returns the state and what is left of the message *)
Fixpoint absorb_loop (fuel r : nat) (m : bytes) (s : list Z) : option (list Z * bytes) :=
  if (length m <? r)%nat then Some (s, m) else
  match fuel with
  | O => None
  | S fuel' =>
      s <- xor_words (r / 8) m s ;;
      s <- KeccakF1600_StatePermute s ;;
      absorb_loop fuel' r (skipn r m) s
  end.

(** lines 347-378.  [t0] is the uninitialised local array t[200]. *)
Definition keccak_absorb (t0 : bytes) (r : nat) (m : bytes) (p : Z) : option (list Z) :=
  let s := repeat 0 25 in
  ' (s, m) <- absorb_loop (length m) r m s ;;
  t <- wr t0 0 (repeat 0 r) ;;
  t <- wr t 0 m ;;
  t <- wr t (length m) [p] ;;
  x <- get t (r - 1) ;;
  t <- wr t (r - 1) [Z.lor x 128] ;;
  xor_words (r / 8) t s.

(** lines 393-403: returns the bytes written and the state *)
Fixpoint keccak_squeezeblocks (nblocks r : nat) (s : list Z) : option (bytes * list Z) :=
  match nblocks with
  | O => Some ([], s)
  | S n' =>
      s <- KeccakF1600_StatePermute s ;;
      ws <- rd s 0 (r / 8) ;;
      ' (out, s) <- keccak_squeezeblocks n' r s ;;
      Some (flat_map store64 ws ++ out, s)
  end.

(** lines 415-422 *)
Definition keccak_inc_init : list Z := repeat 0 25 ++ [0].

(** s[j >> 3] ^= (uint64_t)b << (8 * (j & 7)) *)
Definition xor_byte (s : list Z) (j : nat) (b : Z) : option (list Z) :=
  w <- get s (j / 8) ;;
  wr s (j / 8) [Z.lxor w (u64 (Z.shiftl b (8 * Z.of_nat (j mod 8))))].
(** for (i = 0; i < k; i++): xor m[i] into byte pos + i of the state *)
Definition xor_bytes (s : list Z) (pos k : nat) (m : bytes) : option (list Z) :=
  iterM k 0 (fun i s => b <- get m i ;; xor_byte s (pos + i) (u8 b)) s.

(** lines 443-454 *)
Fixpoint inc_absorb_loop (fuel r : nat) (m : bytes) (s : list Z) : option (list Z * bytes) :=
  c <- get s 25 ;;
  let pos := Z.to_nat c in
  if (length m + pos <? r)%nat then Some (s, m) else
  match fuel with
  | O => None
  | S fuel' =>
      s <- xor_bytes s pos (r - pos) m ;;
      s <- wr s 25 [0] ;;
      s <- KeccakF1600_StatePermute s ;;
      inc_absorb_loop fuel' r (skipn (r - pos) m) s
  end.
(** lines 438-460 *)
Definition keccak_inc_absorb (s : list Z) (r : nat) (m : bytes) : option (list Z) :=
  ' (s, m) <- inc_absorb_loop (S (length m)) r m s ;;
  c <- get s 25 ;;
  s <- xor_bytes s (Z.to_nat c) (length m) m ;;
  wr s 25 [u64 (c + Z.of_nat (length m))].

(** lines 475-481 *)
Definition keccak_inc_finalize (s : list Z) (r : nat) (p : Z) : option (list Z) :=
  c <- get s 25 ;;
  s <- xor_byte s (Z.to_nat c) p ;;
  s <- xor_byte s (r - 1) 128 ;;
  wr s 25 [0].

(** h[i] = (uint8_t)(s[(pos + i) >> 3] >> (8 * ((pos + i) & 7))) for i < k *)
Fixpoint read_bytes (s : list Z) (pos k : nat) : option bytes :=
  match k with
  | O => Some []
  | S k' =>
      w <- get s (pos / 8) ;;
      rest <- read_bytes s (S pos) k' ;;
      Some (u8 (Z.shiftr w (8 * Z.of_nat (pos mod 8))) :: rest)
  end.

(** lines 511-520 *)
Fixpoint inc_squeeze_loop (fuel outlen r : nat) (s : list Z) : option (bytes * list Z) :=
  match outlen with
  | O => Some ([], s)
  | _ =>
      match fuel with
      | O => None
      | S fuel' =>
          s <- KeccakF1600_StatePermute s ;;
          let i := Nat.min outlen r in
          h <- read_bytes s 0 i ;;
          s <- wr s 25 [Z.of_nat (r - i)] ;;
          ' (h', s) <- inc_squeeze_loop fuel' (outlen - i) r s ;;
          Some (h ++ h', s)
      end
  end.
(** lines 496-521 *)
Definition keccak_inc_squeeze (outlen : nat) (s : list Z) (r : nat) : option (bytes * list Z) :=
  c <- get s 25 ;;
  let i := Nat.min outlen (Z.to_nat c) in
  h <- read_bytes s (r - Z.to_nat c) i ;;
  s <- wr s 25 [c - Z.of_nat i] ;;
  ' (h', s) <- inc_squeeze_loop outlen (outlen - i) r s ;;
  Some (h ++ h', s).

(** lines 523-537 *)
Definition shake256_inc_init : list Z := keccak_inc_init.
Definition shake256_inc_absorb (s : list Z) (m : bytes) := keccak_inc_absorb s SHAKE256_RATE m.
Definition shake256_inc_finalize (s : list Z) := keccak_inc_finalize s SHAKE256_RATE 0x1F.
Definition shake256_inc_squeeze (outlen : nat) (s : list Z) :=
  keccak_inc_squeeze outlen s SHAKE256_RATE.

(** lines 550-568 *)
Definition shake256_absorb (t0 m : bytes) := keccak_absorb t0 SHAKE256_RATE m 0x1F.
Definition shake256_squeezeblocks (nblocks : nat) (s : list Z) :=
  keccak_squeezeblocks nblocks SHAKE256_RATE s.

(** lines 580-598.  [t0] is keccak_absorb's uninitialised t[200]; this function's own t is
    overwritten before it is read. *)
Definition shake256 (t0 : bytes) (outlen : nat) (inp : bytes) : option bytes :=
  let nblocks := (outlen / SHAKE256_RATE)%nat in
  s <- shake256_absorb t0 inp ;;
  ' (out, s) <- shake256_squeezeblocks nblocks s ;;
  let outlen := (outlen - nblocks * SHAKE256_RATE)%nat in
  if (outlen =? 0)%nat then Some out else
  ' (t, _) <- shake256_squeezeblocks 1 s ;;
  t <- rd t 0 outlen ;;
  Some (out ++ t).
