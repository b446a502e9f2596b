(** sha2-avx2: sha256avx.h, sha256avx.c, sha256x8.c (eight lanes of SHA-256), sha512x4.c (four lanes of
    SHA-512), hash_sha2x8.c, thash_sha2_simplex8.c, thash_sha2_robustx8.c.

    A 256-bit register is a function from the lane to the word, eight words of 32 bits in the SHA-256
    files and four of 64 bits in sha512x4.c ([LaneKeccak.vec]); instructions that cross the lanes are given
    by what they do to the words, and _mm256_shuffle_epi8, loads and stores by what they do to the 32
    bytes.  The two sets of files have the same text in places, with other constants; there is one
    definition then, over a record [vimpl] of what differs.  The tables of rounds are transcribed
    mechanically.  Message and output pointers come in lists, one per lane; outputs are returned. *)
From Verif Require Import Base Params Address Suite Utils Sha2 HashShake HashSha2 Lanes LaneKeccak LaneShake.

(** ** Instructions *)
(** _mm256_and_si256; xor and or are vxor and vor *)
Definition vand (a b : vec) : vec := fun j => Z.land (a j) (b j).
Section Words.
(** bytes per word *)
Variable wb : nat.
Notation bits := (8 * Z.of_nat wb).
(** _mm256_add_epi32, _mm256_add_epi64 *)
Definition vadd (a b : vec) : vec := fun j => (a j + b j) mod 2 ^ bits.
(** _mm256_srli_epi32/64, _mm256_slli_epi32/64 *)
Definition vshr (a : vec) (k : Z) : vec := fun j => Z.shiftr (a j) k.
Definition vshl (a : vec) (k : Z) : vec := fun j => Z.shiftl (a j) k mod 2 ^ bits.
(** a word as bytes, least significant first *)
Definition word_bytes (x : Z) : bytes := map (fun i => u8 (Z.shiftr x (8 * Z.of_nat i))) (seq 0 wb).
(** _mm256_storeu_si256, _mm256_loadu_si256 *)
Definition vstore (v : vec) : bytes := flat_map (fun j => word_bytes (v j)) (seq 0 (32 / wb)).
Definition vload (b : bytes) : vec := fun j => le_word (firstn wb (skipn (wb * j) b)).
(** _mm256_shuffle_epi8 on the 32 bytes: byte i of the result is the byte of the same 128-bit half
    selected by the low four bits of byte i of the mask, or 0 if bit 7 of the mask byte is set *)
Definition shuffle_epi8 (b m : bytes) : bytes :=
  map (fun i => let s := nth i m 0 in
    if Z.testbit s 7 then 0 else nth (16 * (i / 16) + Z.to_nat (Z.land s 15)) b 0) (seq 0 32).
(** the macro ROTR32 (sha256avx.h:42) / ROTR64 (sha512x4.c:80), XOR3, ADD4, ADD5 (sha256avx.h:45-49;
    sha512x4.c:82-88) *)
Definition vrotr (x : vec) (y : Z) : vec := vor (vshr x y) (vshl x (bits - y)).
Definition vxor3 (a b c : vec) : vec := vxor (vxor a b) c.
Definition vadd4 (a b c d : vec) : vec := vadd (vadd (vadd a b) c) d.
Definition vadd5 (a b c d e : vec) : vec := vadd (vadd (vadd (vadd a b) c) d) e.
End Words.
(** _mm256_set_epi8: the arguments from byte 31 down to byte 0 *)
Definition set_epi8 (l : list Z) : bytes := rev l.

(** _mm256_unpacklo_epi32, _mm256_unpackhi_epi32, _mm256_unpacklo_epi64, _mm256_unpackhi_epi64,
    _mm256_permute2x128_si256 with 0x20 and 0x31, on eight words of 32 bits *)
Definition unpacklo_epi32 (a b : vec) : vec := vset [a 0; b 0; a 1; b 1; a 4; b 4; a 5; b 5]%nat.
Definition unpackhi_epi32 (a b : vec) : vec := vset [a 2; b 2; a 3; b 3; a 6; b 6; a 7; b 7]%nat.
Definition unpacklo_epi64 (a b : vec) : vec := vset [a 0; a 1; b 0; b 1; a 4; a 5; b 4; b 5]%nat.
Definition unpackhi_epi64 (a b : vec) : vec := vset [a 2; a 3; b 2; b 3; a 6; a 7; b 6; b 7]%nat.
Definition permute2x128_20 (a b : vec) : vec := vset [a 0; a 1; a 2; a 3; b 0; b 1; b 2; b 3]%nat.
Definition permute2x128_31 (a b : vec) : vec := vset [a 4; a 5; a 6; a 7; b 4; b 5; b 6; b 7]%nat.
(** The last four on four words of 64 bits *)
Definition unpacklo_epi64q (a b : vec) : vec := vset [a 0; b 0; a 2; b 2]%nat.
Definition unpackhi_epi64q (a b : vec) : vec := vset [a 1; b 1; a 3; b 3]%nat.
Definition permute2x128_20q (a b : vec) : vec := vset [a 0; a 1; b 0; b 1]%nat.
Definition permute2x128_31q (a b : vec) : vec := vset [a 2; a 3; b 2; b 3]%nat.

(** sha256avx.c:8-35 *)
Definition transpose8 (s : list vec) : option (list vec) :=
  match s with
  | [s0; s1; s2; s3; s4; s5; s6; s7] =>
      let tmp00 := unpacklo_epi32 s0 s1 in
      let tmp01 := unpackhi_epi32 s0 s1 in
      let tmp02 := unpacklo_epi32 s2 s3 in
      let tmp03 := unpackhi_epi32 s2 s3 in
      let tmp04 := unpacklo_epi32 s4 s5 in
      let tmp05 := unpackhi_epi32 s4 s5 in
      let tmp06 := unpacklo_epi32 s6 s7 in
      let tmp07 := unpackhi_epi32 s6 s7 in
      let tmp10 := unpacklo_epi64 tmp00 tmp02 in
      let tmp11 := unpackhi_epi64 tmp00 tmp02 in
      let tmp12 := unpacklo_epi64 tmp01 tmp03 in
      let tmp13 := unpackhi_epi64 tmp01 tmp03 in
      let tmp14 := unpacklo_epi64 tmp04 tmp06 in
      let tmp15 := unpackhi_epi64 tmp04 tmp06 in
      let tmp16 := unpacklo_epi64 tmp05 tmp07 in
      let tmp17 := unpackhi_epi64 tmp05 tmp07 in
      Some [permute2x128_20 tmp10 tmp14; permute2x128_20 tmp11 tmp15;
            permute2x128_20 tmp12 tmp16; permute2x128_20 tmp13 tmp17;
            permute2x128_31 tmp10 tmp14; permute2x128_31 tmp11 tmp15;
            permute2x128_31 tmp12 tmp16; permute2x128_31 tmp13 tmp17]
  | _ => None
  end.
(** sha512x4.c:36-51 *)
Definition transpose4 (s : list vec) : option (list vec) :=
  match s with
  | [s0; s1; s2; s3] =>
      let tmp0 := unpacklo_epi64q s0 s1 in
      let tmp1 := unpackhi_epi64q s0 s1 in
      let tmp2 := unpacklo_epi64q s2 s3 in
      let tmp3 := unpackhi_epi64q s2 s3 in
      Some [permute2x128_20q tmp0 tmp2; permute2x128_20q tmp1 tmp3;
            permute2x128_31q tmp0 tmp2; permute2x128_31q tmp1 tmp3]
  | _ => None
  end.

(** ** The rounds *)
(** One line of sha256_transform8x / sha512_transform4x: a round with the variables in the order a .. h, the
    index of the round constant and of the message word; or the computation of the message word [t]
    from the words [t - 2], [t - 16], [t - 7], [t - 15] (indices as written in the text). *)
Inductive vstep := RND (v : list nat) (rc w : nat) | NEXT (t i2 i16 i7 i15 : nat).

(** sha256avx.h:6-23 *)
Definition RC256 : list Z := [
  0x428a2f98; 0x71374491; 0xb5c0fbcf; 0xe9b5dba5; 0x3956c25b; 0x59f111f1; 0x923f82a4; 0xab1c5ed5; 0xd807aa98;
  0x12835b01; 0x243185be; 0x550c7dc3; 0x72be5d74; 0x80deb1fe; 0x9bdc06a7; 0xc19bf174; 0xe49b69c1; 0xefbe4786;
  0x0fc19dc6; 0x240ca1cc; 0x2de92c6f; 0x4a7484aa; 0x5cb0a9dc; 0x76f988da; 0x983e5152; 0xa831c66d; 0xb00327c8;
  0xbf597fc7; 0xc6e00bf3; 0xd5a79147; 0x06ca6351; 0x14292967; 0x27b70a85; 0x2e1b2138; 0x4d2c6dfc; 0x53380d13;
  0x650a7354; 0x766a0abb; 0x81c2c92e; 0x92722c85; 0xa2bfe8a1; 0xa81a664b; 0xc24b8b70; 0xc76c51a3; 0xd192e819;
  0xd6990624; 0xf40e3585; 0x106aa070; 0x19a4c116; 0x1e376c08; 0x2748774c; 0x34b0bcb5; 0x391c0cb3; 0x4ed8aa4a;
  0x5b9cca4f; 0x682e6ff3; 0x748f82ee; 0x78a5636f; 0x84c87814; 0x8cc70208; 0x90befffa; 0xa4506ceb; 0xbef9a3f7;
  0xc67178f2].
(** sha512x4.c:115-156 *)
Definition RC512 : list Z := [
  0x428a2f98d728ae22; 0x7137449123ef65cd; 0xb5c0fbcfec4d3b2f; 0xe9b5dba58189dbbc; 0x3956c25bf348b538;
  0x59f111f1b605d019; 0x923f82a4af194f9b; 0xab1c5ed5da6d8118; 0xd807aa98a3030242; 0x12835b0145706fbe;
  0x243185be4ee4b28c; 0x550c7dc3d5ffb4e2; 0x72be5d74f27b896f; 0x80deb1fe3b1696b1; 0x9bdc06a725c71235;
  0xc19bf174cf692694; 0xe49b69c19ef14ad2; 0xefbe4786384f25e3; 0x0fc19dc68b8cd5b5; 0x240ca1cc77ac9c65;
  0x2de92c6f592b0275; 0x4a7484aa6ea6e483; 0x5cb0a9dcbd41fbd4; 0x76f988da831153b5; 0x983e5152ee66dfab;
  0xa831c66d2db43210; 0xb00327c898fb213f; 0xbf597fc7beef0ee4; 0xc6e00bf33da88fc2; 0xd5a79147930aa725;
  0x06ca6351e003826f; 0x142929670a0e6e70; 0x27b70a8546d22ffc; 0x2e1b21385c26c926; 0x4d2c6dfc5ac42aed;
  0x53380d139d95b3df; 0x650a73548baf63de; 0x766a0abb3c77b2a8; 0x81c2c92e47edaee6; 0x92722c851482353b;
  0xa2bfe8a14cf10364; 0xa81a664bbc423001; 0xc24b8b70d0f89791; 0xc76c51a30654be30; 0xd192e819d6ef5218;
  0xd69906245565a910; 0xf40e35855771202a; 0x106aa07032bbd1b8; 0x19a4c116b8d2d0c8; 0x1e376c085141ab53;
  0x2748774cdf8eeb99; 0x34b0bcb5e19b48a8; 0x391c0cb3c5c95a63; 0x4ed8aa4ae3418acb; 0x5b9cca4f7763e373;
  0x682e6ff3d6b2b8a3; 0x748f82ee5defb2fc; 0x78a5636f43172f60; 0x84c87814a1f0ab72; 0x8cc702081a6439ec;
  0x90befffa23631e28; 0xa4506cebde82bde9; 0xbef9a3f7b2c67915; 0xc67178f2e372532b; 0xca273eceea26619c;
  0xd186b8c721c0c207; 0xeada7dd6cde0eb1e; 0xf57d4f7fee6ed178; 0x06f067aa72176fba; 0x0a637dc5a2c898a6;
  0x113f9804bef90dae; 0x1b710b35131c471b; 0x28db77f523047d84; 0x32caab7b40c72493; 0x3c9ebe0a15c9bebc;
  0x431d67c49c100d4c; 0x4cc5d4becb3e42b6; 0x597f299cfc657e2a; 0x5fcb6fab3ad6faec; 0x6c44198c4a475817].
(** sha256avx.c:172-283 *)
Definition prog8x : list vstep := ([
  RND [0; 1; 2; 3; 4; 5; 6; 7] 0 0; RND [7; 0; 1; 2; 3; 4; 5; 6] 1 1; RND [6; 7; 0; 1; 2; 3; 4; 5] 2 2;
  RND [5; 6; 7; 0; 1; 2; 3; 4] 3 3; RND [4; 5; 6; 7; 0; 1; 2; 3] 4 4; RND [3; 4; 5; 6; 7; 0; 1; 2] 5 5;
  RND [2; 3; 4; 5; 6; 7; 0; 1] 6 6; RND [1; 2; 3; 4; 5; 6; 7; 0] 7 7; RND [0; 1; 2; 3; 4; 5; 6; 7] 8 8;
  RND [7; 0; 1; 2; 3; 4; 5; 6] 9 9; RND [6; 7; 0; 1; 2; 3; 4; 5] 10 10; RND [5; 6; 7; 0; 1; 2; 3; 4] 11 11;
  RND [4; 5; 6; 7; 0; 1; 2; 3] 12 12; RND [3; 4; 5; 6; 7; 0; 1; 2] 13 13; RND [2; 3; 4; 5; 6; 7; 0; 1] 14 14;
  RND [1; 2; 3; 4; 5; 6; 7; 0] 15 15; NEXT 16 14 0 9 1; RND [0; 1; 2; 3; 4; 5; 6; 7] 16 16;
  NEXT 17 15 1 10 2; RND [7; 0; 1; 2; 3; 4; 5; 6] 17 17; NEXT 18 16 2 11 3;
  RND [6; 7; 0; 1; 2; 3; 4; 5] 18 18; NEXT 19 17 3 12 4; RND [5; 6; 7; 0; 1; 2; 3; 4] 19 19;
  NEXT 20 18 4 13 5; RND [4; 5; 6; 7; 0; 1; 2; 3] 20 20; NEXT 21 19 5 14 6;
  RND [3; 4; 5; 6; 7; 0; 1; 2] 21 21; NEXT 22 20 6 15 7; RND [2; 3; 4; 5; 6; 7; 0; 1] 22 22;
  NEXT 23 21 7 16 8; RND [1; 2; 3; 4; 5; 6; 7; 0] 23 23; NEXT 24 22 8 17 9;
  RND [0; 1; 2; 3; 4; 5; 6; 7] 24 24; NEXT 25 23 9 18 10; RND [7; 0; 1; 2; 3; 4; 5; 6] 25 25;
  NEXT 26 24 10 19 11; RND [6; 7; 0; 1; 2; 3; 4; 5] 26 26; NEXT 27 25 11 20 12;
  RND [5; 6; 7; 0; 1; 2; 3; 4] 27 27; NEXT 28 26 12 21 13; RND [4; 5; 6; 7; 0; 1; 2; 3] 28 28;
  NEXT 29 27 13 22 14; RND [3; 4; 5; 6; 7; 0; 1; 2] 29 29; NEXT 30 28 14 23 15;
  RND [2; 3; 4; 5; 6; 7; 0; 1] 30 30; NEXT 31 29 15 24 16; RND [1; 2; 3; 4; 5; 6; 7; 0] 31 31;
  NEXT 32 30 16 25 17; RND [0; 1; 2; 3; 4; 5; 6; 7] 32 32; NEXT 33 31 17 26 18;
  RND [7; 0; 1; 2; 3; 4; 5; 6] 33 33; NEXT 34 32 18 27 19; RND [6; 7; 0; 1; 2; 3; 4; 5] 34 34;
  NEXT 35 33 19 28 20; RND [5; 6; 7; 0; 1; 2; 3; 4] 35 35; NEXT 36 34 20 29 21;
  RND [4; 5; 6; 7; 0; 1; 2; 3] 36 36; NEXT 37 35 21 30 22; RND [3; 4; 5; 6; 7; 0; 1; 2] 37 37;
  NEXT 38 36 22 31 23; RND [2; 3; 4; 5; 6; 7; 0; 1] 38 38; NEXT 39 37 23 32 24;
  RND [1; 2; 3; 4; 5; 6; 7; 0] 39 39; NEXT 40 38 24 33 25; RND [0; 1; 2; 3; 4; 5; 6; 7] 40 40;
  NEXT 41 39 25 34 26; RND [7; 0; 1; 2; 3; 4; 5; 6] 41 41; NEXT 42 40 26 35 27;
  RND [6; 7; 0; 1; 2; 3; 4; 5] 42 42; NEXT 43 41 27 36 28; RND [5; 6; 7; 0; 1; 2; 3; 4] 43 43;
  NEXT 44 42 28 37 29; RND [4; 5; 6; 7; 0; 1; 2; 3] 44 44; NEXT 45 43 29 38 30;
  RND [3; 4; 5; 6; 7; 0; 1; 2] 45 45; NEXT 46 44 30 39 31; RND [2; 3; 4; 5; 6; 7; 0; 1] 46 46;
  NEXT 47 45 31 40 32; RND [1; 2; 3; 4; 5; 6; 7; 0] 47 47; NEXT 48 46 32 41 33;
  RND [0; 1; 2; 3; 4; 5; 6; 7] 48 48; NEXT 49 47 33 42 34; RND [7; 0; 1; 2; 3; 4; 5; 6] 49 49;
  NEXT 50 48 34 43 35; RND [6; 7; 0; 1; 2; 3; 4; 5] 50 50; NEXT 51 49 35 44 36;
  RND [5; 6; 7; 0; 1; 2; 3; 4] 51 51; NEXT 52 50 36 45 37; RND [4; 5; 6; 7; 0; 1; 2; 3] 52 52;
  NEXT 53 51 37 46 38; RND [3; 4; 5; 6; 7; 0; 1; 2] 53 53; NEXT 54 52 38 47 39;
  RND [2; 3; 4; 5; 6; 7; 0; 1] 54 54; NEXT 55 53 39 48 40; RND [1; 2; 3; 4; 5; 6; 7; 0] 55 55;
  NEXT 56 54 40 49 41; RND [0; 1; 2; 3; 4; 5; 6; 7] 56 56; NEXT 57 55 41 50 42;
  RND [7; 0; 1; 2; 3; 4; 5; 6] 57 57; NEXT 58 56 42 51 43; RND [6; 7; 0; 1; 2; 3; 4; 5] 58 58;
  NEXT 59 57 43 52 44; RND [5; 6; 7; 0; 1; 2; 3; 4] 59 59; NEXT 60 58 44 53 45;
  RND [4; 5; 6; 7; 0; 1; 2; 3] 60 60; NEXT 61 59 45 54 46; RND [3; 4; 5; 6; 7; 0; 1; 2] 61 61;
  NEXT 62 60 46 55 47; RND [2; 3; 4; 5; 6; 7; 0; 1] 62 62; NEXT 63 61 47 56 48;
  RND [1; 2; 3; 4; 5; 6; 7; 0] 63 63])%nat.
(** sha512x4.c:203-218 *)
Definition prog4x_first : list vstep := ([
  RND [0; 1; 2; 3; 4; 5; 6; 7] 0 0; RND [7; 0; 1; 2; 3; 4; 5; 6] 1 1; RND [6; 7; 0; 1; 2; 3; 4; 5] 2 2;
  RND [5; 6; 7; 0; 1; 2; 3; 4] 3 3; RND [4; 5; 6; 7; 0; 1; 2; 3] 4 4; RND [3; 4; 5; 6; 7; 0; 1; 2] 5 5;
  RND [2; 3; 4; 5; 6; 7; 0; 1] 6 6; RND [1; 2; 3; 4; 5; 6; 7; 0] 7 7; RND [0; 1; 2; 3; 4; 5; 6; 7] 8 8;
  RND [7; 0; 1; 2; 3; 4; 5; 6] 9 9; RND [6; 7; 0; 1; 2; 3; 4; 5] 10 10; RND [5; 6; 7; 0; 1; 2; 3; 4] 11 11;
  RND [4; 5; 6; 7; 0; 1; 2; 3] 12 12; RND [3; 4; 5; 6; 7; 0; 1; 2] 13 13; RND [2; 3; 4; 5; 6; 7; 0; 1] 14 14;
  RND [1; 2; 3; 4; 5; 6; 7; 0] 15 15])%nat.
(** sha512x4.c:220-222 *)
Definition M (i : Z) : nat := Z.to_nat (Z.land (i + 16) 0xf).
Definition NextW (i : Z) : vstep := NEXT (M i) (M (i - 2)) (M (i - 16)) (M (i - 7)) (M (i - 15)).
(** sha512x4.c:226-257; nw is the word just stored by NextW *)
Definition prog4x_body (i : nat) : list vstep := ([
  NextW 0; RND [0; 1; 2; 3; 4; 5; 6; 7] (i + 0) (M 0); NextW 1; RND [7; 0; 1; 2; 3; 4; 5; 6] (i + 1) (M 1);
  NextW 2; RND [6; 7; 0; 1; 2; 3; 4; 5] (i + 2) (M 2); NextW 3; RND [5; 6; 7; 0; 1; 2; 3; 4] (i + 3) (M 3);
  NextW 4; RND [4; 5; 6; 7; 0; 1; 2; 3] (i + 4) (M 4); NextW 5; RND [3; 4; 5; 6; 7; 0; 1; 2] (i + 5) (M 5);
  NextW 6; RND [2; 3; 4; 5; 6; 7; 0; 1] (i + 6) (M 6); NextW 7; RND [1; 2; 3; 4; 5; 6; 7; 0] (i + 7) (M 7);
  NextW 8; RND [0; 1; 2; 3; 4; 5; 6; 7] (i + 8) (M 8); NextW 9; RND [7; 0; 1; 2; 3; 4; 5; 6] (i + 9) (M 9);
  NextW 10; RND [6; 7; 0; 1; 2; 3; 4; 5] (i + 10) (M 10); NextW 11;
  RND [5; 6; 7; 0; 1; 2; 3; 4] (i + 11) (M 11); NextW 12; RND [4; 5; 6; 7; 0; 1; 2; 3] (i + 12) (M 12);
  NextW 13; RND [3; 4; 5; 6; 7; 0; 1; 2] (i + 13) (M 13); NextW 14;
  RND [2; 3; 4; 5; 6; 7; 0; 1] (i + 14) (M 14); NextW 15; RND [1; 2; 3; 4; 5; 6; 7; 0] (i + 15) (M 15)])%nat.
(** sha512x4.c:203-258 *)
Definition prog4x : list vstep := prog4x_first ++ flat_map prog4x_body [16; 32; 48; 64]%nat.

(** What differs between the SHA-256 and the SHA-512 files. *)
Record vimpl := {
  vi_nl : nat;                       (* lanes *)
  vi_wb : nat;                       (* bytes per word *)
  vi_transpose : list vec -> option (list vec);
  vi_mask : bytes;                   (* the mask of BYTESWAP *)
  vi_T0 : vec -> vec -> vec -> vec -> Z -> vec -> vec;    (* of e, f, g, h, the round constant, w *)
  vi_T1 : vec -> vec -> vec -> vec;                       (* of a, b, c *)
  vi_next : vec -> vec -> vec -> vec -> vec;              (* of the words t - 2, t - 16, t - 7, t - 15 *)
  vi_rc : list Z;
  vi_prog : list vstep;
  vi_wlen : nat;                     (* the size of the array w *)
  vi_iv : list Z;
  vi_imod : Z;                       (* the range of the variable i of _sha256x8 / _sha512x4 *)
  vi_clear : bool                    (* whether the eight bytes before the length are cleared *)
}.

(** sha256avx.h:29-64 *)
Definition impl256 : vimpl :=
  let ROTR := vrotr 4 in
  let NOT x := vxor x (vset1 (2 ^ 32 - 1)) in
  let MAJ_AVX a b c := vxor3 (vand a b) (vand a c) (vand b c) in
  let CH_AVX a b c := vxor (vand a b) (vand (NOT a) c) in
  let SIGMA1_AVX x := vxor3 (ROTR x 6) (ROTR x 11) (ROTR x 25) in
  let SIGMA0_AVX x := vxor3 (ROTR x 2) (ROTR x 13) (ROTR x 22) in
  let WSIGMA1_AVX x := vxor3 (ROTR x 17) (ROTR x 19) (vshr x 10) in
  let WSIGMA0_AVX x := vxor3 (ROTR x 7) (ROTR x 18) (vshr x 3) in
  {| vi_nl := 8; vi_wb := 4; vi_transpose := transpose8;
     vi_mask := set_epi8 [0xc; 0xd; 0xe; 0xf; 0x8; 0x9; 0xa; 0xb; 0x4; 0x5; 0x6; 0x7; 0x0; 0x1; 0x2; 0x3; 0xc; 0xd; 0xe; 0xf; 0x8; 0x9; 0xa; 0xb; 0x4; 0x5; 0x6; 0x7; 0x0; 0x1; 0x2; 0x3];
     vi_T0 := fun e f g h rc w => vadd5 4 h (SIGMA1_AVX e) (CH_AVX e f g) (vset1 rc) w;
     vi_T1 := fun a b c => vadd 4 (SIGMA0_AVX a) (MAJ_AVX a b c);
     vi_next := fun w2 w16 w7 w15 => vadd4 4 (WSIGMA1_AVX w2) w16 w7 (WSIGMA0_AVX w15);
     vi_rc := RC256; vi_prog := prog8x; vi_wlen := 64;
     (* sha256avx.c:37-45 *)
     vi_iv := [0x6a09e667; 0xbb67ae85; 0x3c6ef372; 0xa54ff53a; 0x510e527f; 0x9b05688c; 0x1f83d9ab; 0x5be0cd19];
     vi_imod := 2 ^ 64; vi_clear := false |}.
(** sha512x4.c:21, 70-113, 220-222 *)
Definition impl512 : vimpl :=
  let ROTR := vrotr 8 in
  let MAJ_AVX a b c := vxor c (vand (vxor a c) (vxor b c)) in
  let CH_AVX a b c := vxor c (vand a (vxor b c)) in
  let SIGMA0_AVX x := vxor3 (ROTR x 28) (ROTR x 34) (ROTR x 39) in
  let SIGMA1_AVX x := vxor3 (ROTR x 14) (ROTR x 18) (ROTR x 41) in
  let GAMMA0_AVX x := vxor3 (ROTR x 1) (ROTR x 8) (vshr x 7) in
  let GAMMA1_AVX x := vxor3 (ROTR x 19) (ROTR x 61) (vshr x 6) in
  {| vi_nl := 4; vi_wb := 8; vi_transpose := transpose4;
     vi_mask := set_epi8 [0x8; 0x9; 0xa; 0xb; 0xc; 0xd; 0xe; 0xf; 0x0; 0x1; 0x2; 0x3; 0x4; 0x5; 0x6; 0x7; 0x8; 0x9; 0xa; 0xb; 0xc; 0xd; 0xe; 0xf; 0x0; 0x1; 0x2; 0x3; 0x4; 0x5; 0x6; 0x7];
     vi_T0 := fun e f g h rc w => vadd5 8 h w (SIGMA1_AVX e) (CH_AVX e f g) (vset1 rc);
     vi_T1 := fun a b c => vadd 8 (SIGMA0_AVX a) (MAJ_AVX a b c);
     vi_next := fun w2 w16 w7 w15 => vadd4 8 (GAMMA1_AVX w2) w7 (GAMMA0_AVX w15) w16;
     vi_rc := RC512; vi_prog := prog4x; vi_wlen := 16;
     (* sha512x4.c:54-64 *)
     vi_iv := [0x6a09e667f3bcc908; 0xbb67ae8584caa73b; 0x3c6ef372fe94f82b; 0xa54ff53a5f1d36f1; 0x510e527fade682d1; 0x9b05688c2b3e6c1f; 0x1f83d9abfb41bd6b; 0x5be0cd19137e2179];
     vi_imod := 2 ^ 32; vi_clear := true |}.

Section Impl.
Variable V : vimpl.
Notation nl := (vi_nl V).
Notation wb := (vi_wb V).
(** Uninitialised arrays of bytes and of vectors. *)
Variable junk : nat -> nat -> Z.
Variable vj : nat -> vec.

(** 64 / 128 *)
Definition vbs : nat := (16 * wb)%nat.
(** 56 / 112 *)
Definition vthr : nat := (14 * wb)%nat.
(** sha256avx.h:37 / sha512x4.c:21 *)
Definition BYTESWAP (v : vec) : vec := vload wb (shuffle_epi8 (vstore wb v) (vi_mask V)).

(** SHA256ROUND_AVX, sha256avx.h:60-64 / SHA512ROUND_AVX, sha512x4.c:109-113, and the lines that compute
    message words *)
Definition vline (x : vstep) (s w : list vec) : option (list vec * list vec) :=
  match x with
  | RND v rc wi =>
      r <- mapM (get s) v ;;
      k <- get (vi_rc V) rc ;;
      m <- get w wi ;;
      match r, v with
      | [a; b; c; d; e; f; g; h], [_; _; _; id; _; _; _; ih] =>
          let T0 := vi_T0 V e f g h k m in
          let T1 := vi_T1 V a b c in
          s <- vput s id (vadd wb d T0) ;;
          s <- vput s ih (vadd wb T0 T1) ;;
          Some (s, w)
      | _, _ => None
      end
  | NEXT t i2 i16 i7 i15 =>
      w2 <- get w i2 ;; w16 <- get w i16 ;; w7 <- get w i7 ;; w15 <- get w i15 ;;
      w <- vput w t (vi_next V w2 w16 w7 w15) ;;
      Some (s, w)
  end.
Fixpoint vexec (p : list vstep) (s w : list vec) : option (list vec) :=
  match p with
  | [] => Some s
  | x :: p' => ' (s, w) <- vline x s w ;; vexec p' s w
  end.

(** transpose(s), transpose(s + nl), ..: [k] of them *)
Fixpoint transpose_rows (k : nat) (s : list vec) : option (list vec) :=
  match k with
  | O => Some []
  | S k' => t <- vi_transpose V (firstn nl s) ;; r <- transpose_rows k' (skipn nl s) ;; Some (t ++ r)
  end.
(** sha256avx.c:142-160 / sha512x4.c:167-190: w[j + nl*c] is loaded from data_j + 32*c; the rest of w is
    uninitialised.  [ds]: for each lane a buffer and the offset data_j points at. *)
Definition load_block (ds : list (bytes * nat)) : option (list vec) :=
  rows <- mapM (fun c => mapM (fun d => x <- rd (fst d) (snd d + 32 * c) 32 ;; Some (BYTESWAP (vload wb x))) ds)
            (seq 0 (16 / nl)) ;;
  w <- transpose_rows (16 / nl) (concat rows) ;;
  Some (w ++ map vj (seq 16 (vi_wlen V - 16))).
(** sha256_transform8x, sha256avx.c:130-294 / sha512_transform4x, sha512x4.c:158-269 *)
Definition transform (s : list vec) (ds : list (bytes * nat)) : option (list vec) :=
  w <- load_block ds ;;
  s' <- vexec (vi_prog V) s w ;;
  Some (map (fun p => vadd wb (fst p) (snd p)) (combine s' s)).

(** while(inlen - i >= 64), sha256x8.c:31-45 / while(inlen - i >= 128), sha512x4.c:282-294; the state,
    msglen and i *)
Fixpoint blocks_loop (fuel : nat) (s : list vec) (msglen : Z) (ins : list bytes) (inlen : nat) (i : Z)
  : option (list vec * Z * Z) :=
  if u64 (Z.of_nat inlen - i) <? Z.of_nat vbs then Some (s, msglen, i) else
  match fuel with
  | O => None
  | S fuel' =>
      s <- transform s (map (fun x => (x, Z.to_nat i)) ins) ;;
      blocks_loop fuel' s (u64 (msglen + 8 * Z.of_nat vbs)) ins inlen ((i + Z.of_nat vbs) mod vi_imod V)
  end.
(** the transform of the nl blocks of msgblocks *)
Definition transform_mb (s : list vec) (mb : bytes) : option (list vec) :=
  transform s (map (fun j => (mb, vbs * j)%nat) (seq 0 nl)).
(** ctx->msglen, .., ctx->msglen >> 56 *)
Definition msglen_bytes (n : Z) : bytes :=
  [u8 (Z.shiftr n 56); u8 (Z.shiftr n 48); u8 (Z.shiftr n 40); u8 (Z.shiftr n 32);
   u8 (Z.shiftr n 24); u8 (Z.shiftr n 16); u8 (Z.shiftr n 8); u8 n].
(** The padding and the last transforms, sha256avx.c:63-114 / sha512x4.c:302-349 *)
Definition finish (s : list vec) (mb : bytes) (datalen : nat) (msglen : Z) : option (list vec) :=
  mb <- iterM nl 0 (fun i mb =>
          mb <- wr mb (vbs * i + datalen) [0x80] ;;
          wr mb (vbs * i + datalen + 1) (repeat 0 (vbs - (datalen + 1)))) mb ;;
  ' (s, mb) <- (if (datalen <? vthr)%nat then Some (s, mb)
                else s <- transform_mb s mb ;; mb <- wr mb 0 (repeat 0 (nl * vbs)) ;; Some (s, mb)) ;;
  let msglen := u64 (msglen + Z.of_nat datalen * 8) in
  mb <- iterM nl 0 (fun i mb =>
          mb <- wr mb (vbs * i + vbs - 8) (msglen_bytes msglen) ;;
          if vi_clear V then wr mb (vbs * i + vthr) (repeat 0 8) else Some mb) mb ;;
  transform_mb s mb.
(** The output of each lane, sha256avx.c:116-127 / sha512x4.c:351-371 *)
Definition outputs (s : list vec) : option (list bytes) :=
  s <- transpose_rows (8 / nl) s ;;
  mapM (fun j => rs <- mapM (fun c => v <- get s (nl * c + j) ;; Some (vstore wb (BYTESWAP v))) (seq 0 (8 / nl)) ;;
                 Some (concat rs)) (seq 0 nl).
(** _sha256x8, sha256x8.c:13-59 / _sha512x4, sha512x4.c:271-372, on a context with state [s] and the given
    msglen; msgblocks is uninitialised *)
Definition hashx (s : list vec) (msglen : Z) (ins : list bytes) (inlen : nat) : option (list bytes) :=
  let mb := junk_bytes (junk 330) (nl * vbs) in
  ' (s, msglen, i) <- blocks_loop (S inlen) s msglen ins inlen 0 ;;
  let i := Z.to_nat i in
  let datalen := (inlen - i)%nat in
  mb <- iterM nl 0 (fun j mb => x <- get ins j ;; x <- rd x i datalen ;; wr mb (vbs * j) x) mb ;;
  s <- finish s mb datalen msglen ;;
  outputs s.
(** sha256x8, sha256x8.c:96-119 (with sha256_init8x) / sha512_init4x and _sha512x4 in mgf1x4_512 *)
Definition shax (ins : list bytes) (inlen : nat) : option (list bytes) :=
  hashx (map vset1 (vi_iv V)) 0 ins inlen.
(** sha256x8_seeded, sha256x8.c:61-93 / sha512x4_seeded, sha512x4.c:431-462 *)
Definition shax_seeded (load : bytes -> nat -> option Z) (seed : bytes) (seedlen : Z) (ins : list bytes)
  (inlen : nat) : option (list bytes) :=
  s <- mapM (fun i => t <- load seed (wb * i)%nat ;; Some (vset1 t)) (seq 0 8) ;;
  hashx s seedlen ins inlen.
End Impl.

Section Sha2x.
Variable junk : nat -> nat -> Z.
Variable vj : nat -> vec.

(** sha256x8.c:8-11 is the same text as sha2.c:12-15; sha512x4.c:447-450 as sha2.c:17-22 *)
Definition sha256x8 : list bytes -> nat -> option (list bytes) := shax impl256 junk vj.
Definition sha256x8_seeded := shax_seeded impl256 junk vj load_bigendian_32.
Definition sha512x4 : list bytes -> nat -> option (list bytes) := shax impl512 junk vj.
Definition sha512x4_seeded := shax_seeded impl512 junk vj load_bigendian_64.

(** u32_to_bytes(inbuf_j + inlen, i) and the hash of all inbuf_j *)
Definition mgf_step (sha : list bytes -> nat -> option (list bytes)) (inlen i : nat) (inbufs : list bytes)
  : option (list bytes * list bytes) :=
  inbufs <- mapM (fun b => wr b inlen (u32_to_bytes (u32 (Z.of_nat i)))) inbufs ;;
  hs <- sha inbufs (inlen + 4)%nat ;;
  Some (inbufs, hs).
(** memcpy(out_j + off, h_j, n) for every lane *)
Definition mgf_put (outs hs : list bytes) (off n : nat) : option (list bytes) :=
  mapM (fun p => x <- rd (snd p) 0 n ;; wr (fst p) off x) (combine outs hs).

(** mgf1x8, sha256x8.c:126-218; inbufx8 and outx8 are eight buffers *)
Fixpoint mgf1x8_loop (fuel i outlen inlen : nat) (inbufs outs : list bytes) : option (nat * list bytes * list bytes) :=
  if (outlen <? (i + 1) * 32)%nat then Some (i, inbufs, outs)
  else match fuel with
  | O => None
  | S fuel' =>
      ' (inbufs, hs) <- mgf_step sha256x8 inlen i inbufs ;;
      outs <- mgf_put outs hs (32 * i) 32 ;;
      mgf1x8_loop fuel' (S i) outlen inlen inbufs outs
  end.
Definition mgf1x8 (outlen : nat) (ins : list bytes) (inlen : nat) : option (list bytes) :=
  inbufs <- lanesM 8 (fun j => x <- get ins j ;; x <- rd x 0 inlen ;; wr (junk_bytes (junk (340 + j)) (inlen + 4)) 0 x) ;;
  let outs := map (fun j => junk_bytes (junk (350 + j)) outlen) (seq 0 8) in
  ' (i, inbufs, outs) <- mgf1x8_loop (S outlen) 0 outlen inlen inbufs outs ;;
  ' (_, hs) <- mgf_step sha256x8 inlen i inbufs ;;
  mgf_put outs hs (32 * i) (outlen - i * 32).
(** mgf1x4_512, sha512x4.c:380-429; [off] is how far outx4 has moved *)
Fixpoint mgf1x4_loop (fuel i remaining off inlen : nat) (inbufs outs : list bytes) : option (list bytes) :=
  if (remaining =? 0)%nat then Some outs
  else match fuel with
  | O => None
  | S fuel' =>
      let this_step := if (remaining <? 64)%nat then remaining else 64%nat in
      let remaining := (remaining - this_step)%nat in
      ' (inbufs, hs) <- mgf_step sha512x4 inlen i inbufs ;;
      outs <- mgf_put outs hs off this_step ;;
      mgf1x4_loop fuel' (S i) remaining (off + this_step) inlen inbufs outs
  end.
Definition mgf1x4_512 (outlen : nat) (ins : list bytes) (inlen : nat) : option (list bytes) :=
  inbufs <- lanesM 4 (fun j => x <- get ins j ;; x <- rd x 0 inlen ;; wr (junk_bytes (junk (340 + j)) (inlen + 4)) 0 x) ;;
  let outs := map (fun j => junk_bytes (junk (350 + j)) outlen) (seq 0 4) in
  mgf1x4_loop outlen 0 outlen 0 inlen inbufs outs.

(** ** prf_addr and thash *)
Variable P : params.
Notation N := (p_n P).
Notation CTX := (ctx seeds).

(** The first N bytes of every output. *)
Definition outs_n (outs : list bytes) : option (list bytes) := mapM (fun o => rd o 0 N) outs.

(** prf_addrx8, hash_sha2x8.c:15-74; the eight parts of bufx8 are eight buffers, here and below *)
Definition prf_addrx8_sha2 (c : CTX) (addrs : list bytes) : option (list bytes) :=
  bufs <- lanesM 8 (fun j =>
    a <- get addrs j ;;
    buf <- memcpy (junk_bytes (junk (360 + j)) (N + SPX_SHA256_ADDR_BYTES)) 0 a 0 SPX_SHA256_ADDR_BYTES ;;
    memcpy buf SPX_SHA256_ADDR_BYTES (c_sk_seed c) 0 N) ;;
  ' (state_seeded, _) <- c_state c ;;
  outs <- sha256x8_seeded state_seeded 512 bufs (SPX_SHA256_ADDR_BYTES + N) ;;
  outs_n outs.

(** thash_sha2_simplex8.c:72-93 (and 160-181): the buffers of the eight lanes *)
Definition simple_bufs (k : nat) (ins addrs : list bytes) : option (list bytes) :=
  lanesM 8 (fun j =>
    a <- get addrs j ;; x <- get ins j ;;
    buf <- memcpy (junk_bytes (junk (370 + j)) (SPX_SHA256_ADDR_BYTES + k * N)) 0 a 0 SPX_SHA256_ADDR_BYTES ;;
    memcpy buf SPX_SHA256_ADDR_BYTES x 0 (k * N)).
(** thash_sha2_simplex8.c:68-128 *)
Definition thashx8_simple_256 (c : CTX) (k : nat) (ins addrs : list bytes) : option (list bytes) :=
  bufs <- simple_bufs k ins addrs ;;
  ' (state_seeded, _) <- c_state c ;;
  outs <- sha256x8_seeded state_seeded 512 bufs (SPX_SHA256_ADDR_BYTES + k * N) ;;
  outs_n outs.
(** sha512x4_seeded on lanes 0-3 and then on lanes 4-7 *)
Definition seeded_512_twice (state : bytes) (bufs : list bytes) (len : nat) : option (list bytes) :=
  outs <- sha512x4_seeded state 1024 (firstn 4 bufs) len ;;
  outs1 <- outs_n outs ;;
  outs <- sha512x4_seeded state 1024 (skipn 4 bufs) len ;;
  outs2 <- outs_n outs ;;
  Some (outs1 ++ outs2).
(** thashx8_512, thash_sha2_simplex8.c:135-219 *)
Definition thashx8_simple_512 (c : CTX) (k : nat) (ins addrs : list bytes) : option (list bytes) :=
  bufs <- simple_bufs k ins addrs ;;
  ' (_, state_seeded_512) <- c_state c ;;
  seeded_512_twice state_seeded_512 bufs (SPX_SHA256_ADDR_BYTES + k * N).

(** thash_sha2_robustx8.c:72-78 (and 186-192) *)
Definition robust_bufs (c : CTX) (k : nat) (addrs : list bytes) : option (list bytes) :=
  lanesM 8 (fun j =>
    a <- get addrs j ;;
    buf <- memcpy (junk_bytes (junk (380 + j)) (N + SPX_SHA256_ADDR_BYTES + k * N)) 0 (c_pub_seed c) 0 N ;;
    memcpy buf N a 0 SPX_SHA256_ADDR_BYTES).
(** thash_sha2_robustx8.c:92-117: buf_j[N + 22 + i] = in_j[i] ^ bitmask_j[i] *)
Definition xor_masks (k : nat) (ins bufs masks : list bytes) : option (list bytes) :=
  mapM (fun p => let '((x, buf), mask) := p in xor_loop (k * N) buf (N + SPX_SHA256_ADDR_BYTES) x 0 mask)
    (combine (combine ins bufs) masks).
(** bufx8 + SPX_N + .. *)
Definition after_seed (bufs : list bytes) : list bytes := map (skipn N) bufs.
(** thash_sha2_robustx8.c:67-152 *)
Definition thashx8_robust_256 (c : CTX) (k : nat) (ins addrs : list bytes) : option (list bytes) :=
  bufs <- robust_bufs c k addrs ;;
  masks <- mgf1x8 (k * N) bufs (N + SPX_SHA256_ADDR_BYTES) ;;
  bufs <- xor_masks k ins bufs masks ;;
  ' (state_seeded, _) <- c_state c ;;
  outs <- sha256x8_seeded state_seeded 512 (after_seed bufs) (SPX_SHA256_ADDR_BYTES + k * N) ;;
  outs_n outs.
(** thashx8_512, thash_sha2_robustx8.c:160-275 *)
Definition thashx8_robust_512 (c : CTX) (k : nat) (ins addrs : list bytes) : option (list bytes) :=
  bufs <- robust_bufs c k addrs ;;
  masks <- mgf1x4_512 (k * N) (firstn 4 bufs) (N + SPX_SHA256_ADDR_BYTES) ;;
  bufs1 <- xor_masks k (firstn 4 ins) (firstn 4 bufs) masks ;;
  masks <- mgf1x4_512 (k * N) (skipn 4 bufs) (N + SPX_SHA256_ADDR_BYTES) ;;
  bufs2 <- xor_masks k (skipn 4 ins) (skipn 4 bufs) masks ;;
  ' (_, state_seeded_512) <- c_state c ;;
  seeded_512_twice state_seeded_512 (after_seed (bufs1 ++ bufs2)) (SPX_SHA256_ADDR_BYTES + k * N).

(** thashx8: thash_sha2_simplex8.c:41-67, thash_sha2_robustx8.c:41-66 *)
Definition thashx8_sha2 (robust : bool) (c : CTX) (k : nat) (ins addrs : list bytes) : option (list bytes) :=
  if SPX_SHA512 P && (1 <? k)%nat
  then (if robust then thashx8_robust_512 else thashx8_simple_512) c k ins addrs
  else (if robust then thashx8_robust_256 else thashx8_simple_256) c k ins addrs.

(** sha2-avx2/Makefile: the scalar files are links to ref/ *)
Definition sha2_avx2_lanes (robust : bool) : lane_fns (sha2_suite P junk robust) :=
  @mkLanes (sha2_suite P junk robust) (thashx8_sha2 robust) prf_addrx8_sha2.
End Sha2x.
