(** Haraka v2 (Koelbl, Lauridsen, Mendel, Rechberger, ToSC 2016/2) over the AES round of FIPS 197, as
    mathematics.  Nothing here uses the model. *)
From Coq Require Import List ZArith Bool.
From Verif Require Import KeccakSpec.
Import ListNotations.
Open Scope Z_scope.

(** ** FIPS 197 *)
(** Section 4.2: GF(2^8) modulo x^8+x^4+x^3+x+1. *)
Definition xtime (x : Z) : Z := if Z.testbit x 7 then Z.lxor (2 * x) 0x11b else 2 * x.
Fixpoint gmul_from (k : nat) (a b : Z) : Z :=
  match k with
  | O => 0
  | S k' => Z.lxor (if Z.odd a then b else 0) (gmul_from k' (Z.div2 a) (xtime b))
  end.
Definition gmul (a b : Z) : Z := gmul_from 8 a b.
(** Section 5.1.1: the inverse (0 to 0) is the 254th power; then the affine map. *)
Definition ginv (x : Z) : Z :=
  let x2 := gmul x x in let x4 := gmul x2 x2 in let x8 := gmul x4 x4 in let x16 := gmul x8 x8 in
  let x32 := gmul x16 x16 in let x64 := gmul x32 x32 in let x128 := gmul x64 x64 in
  gmul x128 (gmul x64 (gmul x32 (gmul x16 (gmul x8 (gmul x4 x2))))).
Definition affine (b : Z) : Z :=
  let bit i := Z.testbit b (i mod 8) in
  fold_right (fun i acc =>
    (if xorb (xorb (xorb (xorb (xorb (bit i) (bit (i + 4))) (bit (i + 5))) (bit (i + 6))) (bit (i + 7))) (Z.testbit 0x63 i)
     then 2 ^ i else 0) + acc) 0 [0; 1; 2; 3; 4; 5; 6; 7].
Definition Sbox (x : Z) : Z := affine (ginv x).

(** A state is 16 bytes, byte 4c + r in row r, column c (section 3.4). *)
Definition SubBytes (s : list Z) : list Z := map Sbox s.
Definition ShiftRows (s : list Z) : list Z :=
  map (fun j => let c := (j / 4)%nat in let r := (j mod 4)%nat in nth (4 * ((c + r) mod 4) + r) s 0) (seq 0 16).
Definition MixColumns (s : list Z) : list Z :=
  map (fun j => let c := (j / 4)%nat in let r := (j mod 4)%nat in
    let a i := nth (4 * c + (r + i) mod 4) s 0 in
    Z.lxor (Z.lxor (Z.lxor (gmul 2 (a 0%nat)) (gmul 3 (a 1%nat))) (a 2%nat)) (a 3%nat)) (seq 0 16).
Definition AddRoundKey (s k : list Z) : list Z := map (fun j => Z.lxor (nth j s 0) (nth j k 0)) (seq 0 16).
Definition aes_round (s k : list Z) : list Z := AddRoundKey (MixColumns (ShiftRows (SubBytes s))) k.

(** ** Haraka *)
(** A state is a list of blocks of 16 bytes (4 for Haraka-512, 2 for Haraka-256). *)
Fixpoint blocks (nb : nat) (b : list Z) : list (list Z) :=
  match nb with O => [] | S nb' => firstn 16 b :: blocks nb' (skipn 16 b) end.
Definition aes_layer (S K : list (list Z)) : list (list Z) :=
  map (fun i => aes_round (nth i S []) (nth i K [])) (seq 0 (length S)).
(** The mixing layer permutes the 32-bit columns; column k is column k mod 4 of block k / 4. *)
Definition column (S : list (list Z)) (k : nat) : list Z := firstn 4 (skipn (4 * (k mod 4)) (nth (k / 4) S [])).
Definition mix_columns_of (perm : list nat) (S : list (list Z)) : list (list Z) :=
  map (fun i => flat_map (fun c => column S (nth (4 * i + c) perm 0%nat)) (seq 0 4)) (seq 0 (length S)).
Definition mix512 : list (list Z) -> list (list Z) :=
  mix_columns_of [3; 11; 7; 15; 8; 0; 12; 4; 9; 1; 13; 5; 2; 10; 6; 14]%nat.
Definition mix256 : list (list Z) -> list (list Z) := mix_columns_of [0; 4; 1; 5; 2; 6; 3; 7]%nat.

(** Five rounds of two AES layers and a mixing layer; round key i of layer l is constant nb*l + i. *)
Section Perm.
Variable nb : nat.
Variable mix : list (list Z) -> list (list Z).
Variable RC : list (list Z).   (* 16-byte constants *)
Definition keys (l : nat) : list (list Z) := firstn nb (skipn (nb * l) RC).
Definition hround (S : list (list Z)) (t : nat) : list (list Z) :=
  mix (aes_layer (aes_layer S (keys (2 * t))) (keys (2 * t + 1))).
Definition hperm (S : list (list Z)) : list (list Z) := fold_left hround (seq 0 5) S.
End Perm.
Definition pi512 (RC : list (list Z)) (x : list Z) : list Z := concat (hperm 4 mix512 RC (blocks 4 x)).
Definition pi256 (RC : list (list Z)) (x : list Z) : list Z := concat (hperm 2 mix256 RC (blocks 2 x)).

(** Feed-forward and, for Haraka-512, truncation to columns 2,3, 6,7, 8,9, 12,13. *)
Definition haraka512_trunc (x : list Z) : list Z :=
  firstn 8 (skipn 8 x) ++ firstn 8 (skipn 24 x) ++ firstn 8 (skipn 32 x) ++ firstn 8 (skipn 48 x).
Definition Haraka512 (RC : list (list Z)) (x : list Z) : list Z := haraka512_trunc (xor_bytes (pi512 RC x) x).
Definition Haraka256 (RC : list (list Z)) (x : list Z) : list Z := xor_bytes (pi256 RC x) x.

(** The standard constants (haraka-aesni/haraka.c:74-116 lists the same 40 values; byte 0 is the least
    significant). *)
Definition le_bytes (n : nat) (v : Z) : list Z := map (fun i => Z.shiftr v (8 * Z.of_nat i) mod 256) (seq 0 n).
Definition standard_constants : list Z :=
  [0x0684704ce620c00ab2c5fef075817b9d;
   0x8b66b4e188f3a06b640f6ba42f08f717;
   0x3402de2d53f28498cf029d609f029114;
   0x0ed6eae62e7b4f08bbf3bcaffd5b4f79;
   0xcbcfb0cb4872448b79eecd1cbe397044;
   0x7eeacdee6e9032b78d5335ed2b8a057b;
   0x67c28f435e2e7cd0e2412761da4fef1b;
   0x2924d9b0afcacc07675ffde21fc70b3b;
   0xab4d63f1e6867fe9ecdb8fcab9d465ee;
   0x1c30bf84d4b7cd645b2a404fad037e33;
   0xb2cc0bb9941723bf69028b2e8df69800;
   0xfa0478a6de6f55724aaa9ec85c9d2d8a;
   0xdfb49f2b6b772a120efa4f2e29129fd4;
   0x1ea10344f449a23632d611aebb6a12ee;
   0xaf0449884b0500845f9600c99ca8eca6;
   0x21025ed89d199c4f78a2c7e327e593ec;
   0xbf3aaaf8a759c9b7b9282ecd82d40173;
   0x6260700d6186b01737f2efd910307d6b;
   0x5aca45c22130044381c29153f6fc9ac6;
   0x9223973c226b68bb2caf92e836d1943a;
   0xd3bf9238225886eb6cbab958e51071b4;
   0xdb863ce5aef0c677933dfddd24e1128d;
   0xbb606268ffeba09c83e48de3cb2212b1;
   0x734bd3dce2e4d19c2db91a4ec72bf77d;
   0x43bb47c361301b434b1415c42cb3924e;
   0xdba775a8e707eff603b231dd16eb6899;
   0x6df3614b3c7559778e5e23027eca472c;
   0xcda75a17d6de7d776d1be5b9b88617f9;
   0xec6b43f06ba8e9aa9d6c069da946ee5d;
   0xcb1e6950f957332ba25311593bf327c1;
   0x2cee0c7500da619ce4ed0353600ed0d9;
   0xf0b1a5a196e90cab80bbbabc63a4a350;
   0xae3db1025e962988ab0dde30938dca39;
   0x17bb8f38d554a40b8814f3a82e75b442;
   0x34bb8a5b5f427fd7aeb6b779360a16f6;
   0x26f65241cbe5543843ce5918ffbaafde;
   0x4ce99a54b9f3026aa2ca9cf7839ec978;
   0xae51a51a1bdff7be40c06e2822901235;
   0xa0c1613cba7ed22bc173bc0f48a659cf;
   0x756acc03022882884ad6bdfde9c59da1].
Definition standard_RC : list (list Z) := map (le_bytes 16) standard_constants.

(** ** Haraka-S of SPHINCS+: the sponge over pi512 with a rate of 32 bytes, domain byte 0x1F. *)
Definition HarakaS (RC : list (list Z)) (m : list Z) (n : nat) : list Z := sponge (pi512 RC) 64 32 0x1F m n.
(** The constants tweaked with the public seed: 40 blocks of Haraka-S with the standard ones. *)
Definition tweaked_RC (pk_seed : list Z) : list (list Z) := blocks 40 (HarakaS standard_RC pk_seed 640).
