(** ref/haraka.c: the bitsliced Haraka permutations and the Haraka sponge.

    The round constants are in the C context; here they are an argument, [rc512] for
    ctx->tweaked512_rc64 and [rc256] for ctx->tweaked256_rc32. *)
From Verif Require Import Base.

(** haraka.c:41-52 *)
Definition haraka512_rc64 : list (list Z) :=
  [[0x24cf0ab9086f628b; 0xbdd6eeecc83b8382; 0xd96fb0306cdad0a7; 0xaace082ac8f95f89; 0x449d8e8870d7041f; 0x49bb2f80b2b3e2f8; 0x0569ae98d93bb258; 0x23dc9691e7d6a4b1];
   [0xd8ba10ede0fe5b6e; 0x7ecf7dbe424c7b8e; 0x6ea9949c6df62a31; 0xbf3f3c97ec9c313e; 0x241d03a196a1861e; 0xead3a51116e5a2ea; 0x77d479fcad9574e3; 0x18657a1af894b7a0];
   [0x10671e1a7f595522; 0xd9a00ff675d28c7b; 0x2f1edf0d2b9ba661; 0xb8ff58b8e3de45f9; 0xee29261da9865c02; 0xd1532aa4b50bdf43; 0x8bf858159b231bb1; 0xdf17439d22d4f599];
   [0xdd4b2f0870b918c0; 0x757a81f3b39b1bb6; 0x7a5c556898952e3f; 0x7dd70a16d915d87a; 0x3ae61971982b8301; 0xc3ab319e030412be; 0x17c0033ac094a8cb; 0x5a0630fc1a8dc4ef];
   [0x17708988c1632f73; 0xf92ddae090b44f4f; 0x11ac0285c43aa314; 0x509059941936b8ba; 0xd03e152fa2ce9b69; 0x3fbcbcb63a32998b; 0x6204696d692254f7; 0x915542ed93ec59b4];
   [0xf4ed94aa8879236e; 0xff6cb41cd38e03c0; 0x069b38602368aeab; 0x669495b820f0ddba; 0xf42013b1b8bf9e3d; 0xcf935efe6439734d; 0xbc1dcf42ca29e3f8; 0x7e6d3ed29f78ad67];
   [0xf3b0f6837ffcddaa; 0x3a76faef934ddf41; 0xcec7ae583a9c8e35; 0xe4dd18c68f0260af; 0x2c0e5df1ad398eaa; 0x478df5236ae22e8c; 0xfb944c46fe865f39; 0xaa48f82f028132ba];
   [0x231b9ae2b76aca77; 0x292a76a712db0b40; 0x5850625dc8134491; 0x73137dd469810fb5; 0x8a12a6a202a474fd; 0xd36fd9daa78bdb80; 0xb34c5e733505706f; 0xbaf1cdca818d9d96];
   [0x2e99781335e8c641; 0xbddfe5cce47d560e; 0xf74e9bf32e5e040c; 0x1d7a709d65996be9; 0x670df36a9cf66cdd; 0xd05ef84a176a2875; 0x0f888e828cb1c44e; 0x1a79e9c9727b052c];
   [0x83497348628d84de; 0x2e9387d51f22a754; 0xb000068da2f852d6; 0x378c9e1190fd6fe5; 0x870027c316de7293; 0xe51a9d4462e047bb; 0x90ecf7f8c6251195; 0x655953bfbed90a9c]].

(** haraka.c:54-60 (br_dec32le at src + off) *)
Definition br_dec32le (src : bytes) (off : nat) : option Z :=
  x0 <- get src off ;; x1 <- get src (off + 1) ;; x2 <- get src (off + 2) ;; x3 <- get src (off + 3) ;;
  Some (Z.lor (Z.lor (Z.lor (u8 x0) (Z.shiftl (u8 x1) 8)) (Z.shiftl (u8 x2) 16)) (Z.shiftl (u8 x3) 24)).
(** haraka.c:62-68 *)
Fixpoint br_range_dec32le (num : nat) (src : bytes) (off : nat) : option (list Z) :=
  match num with
  | O => Some []
  | S num' => v <- br_dec32le src off ;; r <- br_range_dec32le num' src (off + 4) ;; Some (v :: r)
  end.
(** haraka.c:70-76, 79-85: the bytes written. *)
Definition br_enc32le (x : Z) : bytes :=
  [u8 x; u8 (Z.shiftr x 8); u8 (Z.shiftr x 16); u8 (Z.shiftr x 24)].
Definition br_range_enc32le (v : list Z) : bytes := flat_map br_enc32le v.

(** haraka.c:87-259 (br_aes_ct64_bitslice_Sbox) and 261-434 (br_aes_ct_bitslice_Sbox); the two bodies
    are the same text, one on uint64_t and one on uint32_t, so it is written over the operations. *)
Section Circuit.
Variable W : Type.
Variables bx ba : W -> W -> W.   (* ^ and & *)
Variable bn : W -> W.            (* ~ *)
Definition sbox (q : list W) : option (list W) :=
  match q with
  | [q_0; q_1; q_2; q_3; q_4; q_5; q_6; q_7] =>
      let x0 := q_7 in let x1 := q_6 in let x2 := q_5 in let x3 := q_4 in let x4 := q_3 in
      let x5 := q_2 in let x6 := q_1 in let x7 := q_0 in let y14 := bx x3 x5 in let y13 := bx x0 x6 in
      let y9 := bx x0 x3 in let y8 := bx x0 x5 in let t0 := bx x1 x2 in let y1 := bx t0 x7 in
      let y4 := bx y1 x3 in let y12 := bx y13 y14 in let y2 := bx y1 x0 in let y5 := bx y1 x6 in
      let y3 := bx y5 y8 in let t1 := bx x4 y12 in let y15 := bx t1 x5 in let y20 := bx t1 x1 in
      let y6 := bx y15 x7 in let y10 := bx y15 t0 in let y11 := bx y20 y9 in let y7 := bx x7 y11 in
      let y17 := bx y10 y11 in let y19 := bx y10 y8 in let y16 := bx t0 y11 in let y21 := bx y13 y16 in
      let y18 := bx x0 y16 in let t2 := ba y12 y15 in let t3 := ba y3 y6 in let t4 := bx t3 t2 in
      let t5 := ba y4 x7 in let t6 := bx t5 t2 in let t7 := ba y13 y16 in let t8 := ba y5 y1 in
      let t9 := bx t8 t7 in let t10 := ba y2 y7 in let t11 := bx t10 t7 in let t12 := ba y9 y11 in
      let t13 := ba y14 y17 in let t14 := bx t13 t12 in let t15 := ba y8 y10 in let t16 := bx t15 t12 in
      let t17 := bx t4 t14 in let t18 := bx t6 t16 in let t19 := bx t9 t14 in let t20 := bx t11 t16 in
      let t21 := bx t17 y20 in let t22 := bx t18 y19 in let t23 := bx t19 y21 in let t24 := bx t20 y18 in
      let t25 := bx t21 t22 in let t26 := ba t21 t23 in let t27 := bx t24 t26 in let t28 := ba t25 t27 in
      let t29 := bx t28 t22 in let t30 := bx t23 t24 in let t31 := bx t22 t26 in let t32 := ba t31 t30 in
      let t33 := bx t32 t24 in let t34 := bx t23 t33 in let t35 := bx t27 t33 in let t36 := ba t24 t35 in
      let t37 := bx t36 t34 in let t38 := bx t27 t36 in let t39 := ba t29 t38 in let t40 := bx t25 t39 in
      let t41 := bx t40 t37 in let t42 := bx t29 t33 in let t43 := bx t29 t40 in let t44 := bx t33 t37 in
      let t45 := bx t42 t41 in let z0 := ba t44 y15 in let z1 := ba t37 y6 in let z2 := ba t33 x7 in
      let z3 := ba t43 y16 in let z4 := ba t40 y1 in let z5 := ba t29 y7 in let z6 := ba t42 y11 in
      let z7 := ba t45 y17 in let z8 := ba t41 y10 in let z9 := ba t44 y12 in let z10 := ba t37 y3 in
      let z11 := ba t33 y4 in let z12 := ba t43 y13 in let z13 := ba t40 y5 in let z14 := ba t29 y2 in
      let z15 := ba t42 y9 in let z16 := ba t45 y14 in let z17 := ba t41 y8 in let t46 := bx z15 z16 in
      let t47 := bx z10 z11 in let t48 := bx z5 z13 in let t49 := bx z9 z10 in let t50 := bx z2 z12 in
      let t51 := bx z2 z5 in let t52 := bx z7 z8 in let t53 := bx z0 z3 in let t54 := bx z6 z7 in
      let t55 := bx z16 z17 in let t56 := bx z12 t48 in let t57 := bx t50 t53 in let t58 := bx z4 t46 in
      let t59 := bx z3 t54 in let t60 := bx t46 t57 in let t61 := bx z14 t57 in let t62 := bx t52 t58 in
      let t63 := bx t49 t58 in let t64 := bx z4 t59 in let t65 := bx t61 t62 in let t66 := bx z1 t63 in
      let s0 := bx t59 t63 in let s6 := bx t56 (bn t62) in let s7 := bx t48 (bn t60) in
      let t67 := bx t64 t65 in let s3 := bx t53 t66 in let s4 := bx t51 t66 in let s5 := bx t47 t65 in
      let s1 := bx t64 (bn s3) in let s2 := bx t55 (bn t67) in
      Some [s7; s6; s5; s4; s3; s2; s1; s0]
  | _ => None
  end.
End Circuit.

(** Words of w bits: x << k and ~x. *)
Section Word.
Variable w : Z.
Definition shl (x k : Z) : Z := Z.shiftl x k mod 2 ^ w.
Definition bnot (x : Z) : Z := Z.lxor x (2 ^ w - 1).
Definition bitslice_Sbox : list Z -> option (list Z) := sbox Z Z.lxor Z.land bnot.

(** SWAPN, haraka.c:438-444 and 532-538: the new x and y. *)
Definition SWAPN (cl ch s a b : Z) : Z * Z :=
  (Z.lor (Z.land a cl) (shl (Z.land b cl) s), Z.lor (Z.shiftr (Z.land a ch) s) (Z.land b ch)).
(** br_aes_ct_ortho and br_aes_ct64_ortho, haraka.c:450-463 and 544-557, over the masks of SWAP2/4/8. *)
Definition ortho (l2 h2 l4 h4 l8 h8 : Z) (q : list Z) : option (list Z) :=
  match q with
  | [q0; q1; q2; q3; q4; q5; q6; q7] =>
      let '(q0, q1) := SWAPN l2 h2 1 q0 q1 in
      let '(q2, q3) := SWAPN l2 h2 1 q2 q3 in
      let '(q4, q5) := SWAPN l2 h2 1 q4 q5 in
      let '(q6, q7) := SWAPN l2 h2 1 q6 q7 in
      let '(q0, q2) := SWAPN l4 h4 2 q0 q2 in
      let '(q1, q3) := SWAPN l4 h4 2 q1 q3 in
      let '(q4, q6) := SWAPN l4 h4 2 q4 q6 in
      let '(q5, q7) := SWAPN l4 h4 2 q5 q7 in
      let '(q0, q4) := SWAPN l8 h8 4 q0 q4 in
      let '(q1, q5) := SWAPN l8 h8 4 q1 q5 in
      let '(q2, q6) := SWAPN l8 h8 4 q2 q6 in
      let '(q3, q7) := SWAPN l8 h8 4 q3 q7 in
      Some [q0; q1; q2; q3; q4; q5; q6; q7]
  | _ => None
  end.
(** mix_columns32 and mix_columns, haraka.c:498-528 and 647-677, over r = rotation by a quarter and
    rr = rotation by a half. *)
Definition mix_columns_w (r rr : Z -> Z) (q : list Z) : option (list Z) :=
  match q with
  | [q0; q1; q2; q3; q4; q5; q6; q7] =>
      let r0 := r q0 in let r1 := r q1 in let r2 := r q2 in let r3 := r q3 in
      let r4 := r q4 in let r5 := r q5 in let r6 := r q6 in let r7 := r q7 in
      let x := Z.lxor in
      Some [x (x (x q7 r7) r0) (rr (x q0 r0));
            x (x (x (x (x q0 r0) q7) r7) r1) (rr (x q1 r1));
            x (x (x q1 r1) r2) (rr (x q2 r2));
            x (x (x (x (x q2 r2) q7) r7) r3) (rr (x q3 r3));
            x (x (x (x (x q3 r3) q7) r7) r4) (rr (x q4 r4));
            x (x (x q4 r4) r5) (rr (x q5 r5));
            x (x (x q5 r5) r6) (rr (x q6 r6));
            x (x (x q6 r6) r7) (rr (x q7 r7))]
  | _ => None
  end.
(** add_round_key32, add_round_key, haraka.c:466-476, 612-622 *)
Definition add_round_key (q sk : list Z) : option (list Z) :=
  match q, sk with
  | [q0; q1; q2; q3; q4; q5; q6; q7], k0 :: k1 :: k2 :: k3 :: k4 :: k5 :: k6 :: k7 :: _ =>
      Some [Z.lxor q0 k0; Z.lxor q1 k1; Z.lxor q2 k2; Z.lxor q3 k3;
            Z.lxor q4 k4; Z.lxor q5 k5; Z.lxor q6 k6; Z.lxor q7 k7]
  | _, _ => None
  end.
End Word.

(** ** 32-bit version *)
Definition br_aes_ct_ortho : list Z -> option (list Z) :=
  ortho 32 0x55555555 0xAAAAAAAA 0x33333333 0xCCCCCCCC 0x0F0F0F0F 0xF0F0F0F0.
(** haraka.c:478-491: one q[i] *)
Definition shift_row32 (x : Z) : Z :=
  Z.lor (Z.lor (Z.lor (Z.lor (Z.lor (Z.lor (Z.land x 0x000000FF)
    (Z.shiftr (Z.land x 0x0000FC00) 2)) (shl 32 (Z.land x 0x00000300) 6))
    (Z.shiftr (Z.land x 0x00F00000) 4)) (shl 32 (Z.land x 0x000F0000) 4))
    (Z.shiftr (Z.land x 0xC0000000) 6)) (shl 32 (Z.land x 0x3F000000) 2).
Definition rotr16 (x : Z) : Z := Z.lor (shl 32 x 16) (Z.shiftr x 16).
Definition mix_columns32 : list Z -> option (list Z) :=
  mix_columns_w (fun x => Z.lor (Z.shiftr x 8) (shl 32 x 24)) rotr16.

(** ** 64-bit version *)
Definition br_aes_ct64_ortho : list Z -> option (list Z) :=
  ortho 64 0x5555555555555555 0xAAAAAAAAAAAAAAAA 0x3333333333333333 0xCCCCCCCCCCCCCCCC
    0x0F0F0F0F0F0F0F0F 0xF0F0F0F0F0F0F0F0.
(** haraka.c:561-587: the two words, from w[0..3] *)
Definition spread (x : Z) : Z :=
  let x := Z.land (Z.lor x (shl 64 x 16)) 0x0000FFFF0000FFFF in
  Z.land (Z.lor x (shl 64 x 8)) 0x00FF00FF00FF00FF.
Definition br_aes_ct64_interleave_in (w0 w1 w2 w3 : Z) : Z * Z :=
  (Z.lor (spread w0) (shl 64 (spread w2) 8), Z.lor (spread w1) (shl 64 (spread w3) 8)).
(** haraka.c:590-610: w[0..3] *)
Definition gather (x : Z) : Z :=
  let x := Z.land (Z.lor x (Z.shiftr x 8)) 0x0000FFFF0000FFFF in
  Z.lor (u32 x) (u32 (Z.shiftr x 16)).
Definition br_aes_ct64_interleave_out (q0 q1 : Z) : list Z :=
  let m := 0x00FF00FF00FF00FF in
  [gather (Z.land q0 m); gather (Z.land q1 m);
   gather (Z.land (Z.shiftr q0 8) m); gather (Z.land (Z.shiftr q1 8) m)].
(** haraka.c:624-640: one q[i] *)
Definition shift_row64 (x : Z) : Z :=
  Z.lor (Z.lor (Z.lor (Z.lor (Z.lor (Z.lor (Z.land x 0x000000000000FFFF)
    (Z.shiftr (Z.land x 0x00000000FFF00000) 4)) (shl 64 (Z.land x 0x00000000000F0000) 12))
    (Z.shiftr (Z.land x 0x0000FF0000000000) 8)) (shl 64 (Z.land x 0x000000FF00000000) 8))
    (Z.shiftr (Z.land x 0xF000000000000000) 12)) (shl 64 (Z.land x 0x0FFF000000000000) 4).
Definition rotr32 (x : Z) : Z := Z.lor (shl 64 x 32) (Z.shiftr x 32).
Definition mix_columns : list Z -> option (list Z) :=
  mix_columns_w (fun x => Z.lor (Z.shiftr x 16) (shl 64 x 48)) rotr32.

(** The loop filling q[i], q[i + 4] from w + 4i and br_aes_ct64_ortho, haraka.c:684-688 and 862-866. *)
Definition load512 (inp : bytes) (off : nat) : option (list Z) :=
  w <- br_range_dec32le 16 inp off ;;
  match w with
  | [w0; w1; w2; w3; w4; w5; w6; w7; w8; w9; w10; w11; w12; w13; w14; w15] =>
      let '(q0, q4) := br_aes_ct64_interleave_in w0 w1 w2 w3 in
      let '(q1, q5) := br_aes_ct64_interleave_in w4 w5 w6 w7 in
      let '(q2, q6) := br_aes_ct64_interleave_in w8 w9 w10 w11 in
      let '(q3, q7) := br_aes_ct64_interleave_in w12 w13 w14 w15 in
      br_aes_ct64_ortho [q0; q1; q2; q3; q4; q5; q6; q7]
  | _ => None
  end.
(** haraka.c:895-899: the 64 bytes written. *)
Definition store512 (q : list Z) : option bytes :=
  q <- br_aes_ct64_ortho q ;;
  match q with
  | [q0; q1; q2; q3; q4; q5; q6; q7] =>
      Some (br_range_enc32le (br_aes_ct64_interleave_out q0 q4 ++ br_aes_ct64_interleave_out q1 q5
        ++ br_aes_ct64_interleave_out q2 q6 ++ br_aes_ct64_interleave_out q3 q7))
  | _ => None
  end.
(** interleave_constant, haraka.c:679-689 *)
Definition interleave_constant : bytes -> nat -> option (list Z) := load512.
(** The loop filling q[2i], q[2i+1], haraka.c:928-932, and interleave_constant32, 691-699. *)
Definition load256 (inp : bytes) (off : nat) : option (list Z) :=
  q0 <- br_dec32le inp off ;; q1 <- br_dec32le inp (off + 16) ;;
  q2 <- br_dec32le inp (off + 4) ;; q3 <- br_dec32le inp (off + 4 + 16) ;;
  q4 <- br_dec32le inp (off + 8) ;; q5 <- br_dec32le inp (off + 8 + 16) ;;
  q6 <- br_dec32le inp (off + 12) ;; q7 <- br_dec32le inp (off + 12 + 16) ;;
  br_aes_ct_ortho [q0; q1; q2; q3; q4; q5; q6; q7].
Definition interleave_constant32 : bytes -> nat -> option (list Z) := load256.
(** haraka.c:956-960: out[4i..] from q[2i], out[4i+16..] from q[2i+1]. *)
Definition store256 (q : list Z) : option bytes :=
  q <- br_aes_ct_ortho q ;;
  match q with
  | [q0; q1; q2; q3; q4; q5; q6; q7] => Some (br_range_enc32le [q0; q2; q4; q6; q1; q3; q5; q7])
  | _ => None
  end.

(** Mix states, haraka.c:877-893: one q[j] *)
Definition mix_state512 (x : Z) : Z :=
  Z.lor (Z.lor (Z.lor (Z.lor (Z.lor (Z.lor (Z.lor (Z.lor (Z.lor (Z.lor (Z.lor (Z.lor
    (shl 64 (Z.land x 0x0001000100010001) 5) (shl 64 (Z.land x 0x0002000200020002) 12))
    (Z.shiftr (Z.land x 0x0004000400040004) 1)) (shl 64 (Z.land x 0x0008000800080008) 6))
    (shl 64 (Z.land x 0x0020002000200020) 9)) (Z.shiftr (Z.land x 0x0040004000400040) 4))
    (shl 64 (Z.land x 0x0080008000800080) 3)) (Z.shiftr (Z.land x 0x2100210021002100) 5))
    (shl 64 (Z.land x 0x0210021002100210) 2)) (shl 64 (Z.land x 0x0800080008000800) 4))
    (Z.shiftr (Z.land x 0x1000100010001000) 12)) (Z.shiftr (Z.land x 0x4000400040004000) 10))
    (Z.shiftr (Z.land x 0x8400840084008400) 3).
(** haraka.c:944-953: one q[j] *)
Definition mix_state256 (x : Z) : Z :=
  Z.lor (Z.lor (Z.lor (Z.lor (Z.lor (Z.lor
    (Z.land x 0x81818181) (shl 32 (Z.land x 0x02020202) 1)) (shl 32 (Z.land x 0x04040404) 2))
    (shl 32 (Z.land x 0x08080808) 3)) (Z.shiftr (Z.land x 0x10101010) 3))
    (Z.shiftr (Z.land x 0x20202020) 2)) (Z.shiftr (Z.land x 0x40404040) 1).

(** haraka.c:855-900 *)
Definition haraka512_perm (rc512 : list (list Z)) (inp : bytes) : option bytes :=
  q <- load512 inp 0 ;;
  q <- iterM 5 0 (fun i q =>
         q <- iterM 2 0 (fun j q =>
                q <- bitslice_Sbox 64 q ;;
                let q := map shift_row64 q in
                q <- mix_columns q ;;
                k <- get rc512 (2 * i + j) ;;
                add_round_key q k) q ;;
         Some (map mix_state512 q)) q ;;
  store512 q.

(** for (i = 0; i < 64; i++) buf[i] = buf[i] ^ in[i], haraka.c:909-912, and 962-964 *)
Definition feed_forward (n : nat) (buf inp : bytes) : option bytes :=
  iterM n 0 (fun i buf => b <- get buf i ;; x <- get inp i ;; wr buf i [u8 (Z.lxor b x)]) buf.

(** haraka.c:902-919: the 32 bytes written to out. *)
Definition haraka512 (rc512 : list (list Z)) (inp : bytes) : option bytes :=
  buf <- haraka512_perm rc512 inp ;;
  buf <- feed_forward 64 buf inp ;;
  a <- rd buf 8 8 ;; b <- rd buf 24 8 ;; c <- rd buf 32 8 ;; d <- rd buf 48 8 ;;
  Some (a ++ b ++ c ++ d).

(** The permutation part of haraka256, haraka.c:928-960 *)
Definition haraka256_perm (rc256 : list (list Z)) (inp : bytes) : option bytes :=
  q <- load256 inp 0 ;;
  q <- iterM 5 0 (fun i q =>
         q <- iterM 2 0 (fun j q =>
                q <- bitslice_Sbox 32 q ;;
                let q := map shift_row32 q in
                q <- mix_columns32 q ;;
                k <- get rc256 (2 * i + j) ;;
                add_round_key q k) q ;;
         Some (map mix_state256 q)) q ;;
  store256 q.
(** haraka.c:922-965, in and out disjoint. *)
Definition haraka256 (rc256 : list (list Z)) (inp : bytes) : option bytes :=
  out <- haraka256_perm rc256 inp ;;
  feed_forward 32 out inp.
(** The same with out and in pointers into one memory (the feed-forward reads in after out has been
    written). *)
Definition haraka256_mem (rc256 : list (list Z)) (mem : bytes) (out inp : nat) : option bytes :=
  x <- rd mem inp 32 ;;
  o <- haraka256_perm rc256 x ;;
  mem <- wr mem out o ;;
  iterM 32 0 (fun i mem => b <- get mem (out + i) ;; x <- get mem (inp + i) ;; wr mem (out + i) [u8 (Z.lxor b x)]) mem.

(** ** The sponge *)
Definition HARAKAS_RATE : nat := 32.

Section Sponge.
(** haraka512_perm(out, in, ctx) for the constants in ctx.  The bitsliced one here; haraka-aesni/haraka.c has
    the incremental functions in the same text over its own. *)
Variable perm512 : bytes -> option bytes.

(** for (i = 0; i < r; ++i) s[i] ^= x[i] *)
Definition xor_block (r : nat) (s x : bytes) : option bytes :=
  iterM r 0 (fun i s => a <- get s i ;; b <- get x i ;; wr s i [u8 (Z.lxor a b)]) s.

(** haraka.c:717-745; the loop takes fuel, and m is what m points to from here on. *)
Fixpoint haraka_S_absorb (fuel : nat) (r : nat) (s m : bytes) (p : Z) : option bytes :=
  let mlen := length m in
  if (mlen <? r)%nat then
    let t := repeat 0 r in
    t <- wr t 0 (map u8 m) ;;
    t <- wr t mlen [p] ;;
    x <- get t (r - 1) ;;
    t <- wr t (r - 1) [Z.lor x 128] ;;
    xor_block r s t
  else
    match fuel with
    | O => None
    | S fuel' =>
        s <- xor_block r s m ;;
        s <- perm512 s ;;
        haraka_S_absorb fuel' r s (skipn r m) p
    end.

(** haraka.c:747-757: the bytes written to h, and s.  Always called with r = HARAKAS_RATE. *)
Fixpoint haraka_S_squeezeblocks (nblocks : nat) (s : bytes) : option (bytes * bytes) :=
  match nblocks with
  | O => Some ([], s)
  | S n =>
      s <- perm512 s ;;
      h <- rd s 0 HARAKAS_RATE ;;
      ' (r, s) <- haraka_S_squeezeblocks n s ;;
      Some (h ++ r, s)
  end.

(** haraka.c:759-767 *)
Definition haraka_S_inc_init : bytes := repeat 0 64 ++ [0].

(** for (i = 0; i < k; i++) s_inc[s_inc[64] + i] ^= m[i] *)
Definition inc_xor (k : nat) (s_inc m : bytes) : option bytes :=
  iterM k 0 (fun i s_inc =>
    c <- get s_inc 64 ;; a <- get s_inc (Z.to_nat c + i) ;; b <- get m i ;;
    wr s_inc (Z.to_nat c + i) [u8 (Z.lxor a b)]) s_inc.
(** haraka512_perm(s_inc, s_inc, ctx) *)
Definition inc_perm (s_inc : bytes) : option bytes :=
  x <- rd s_inc 0 64 ;; y <- perm512 x ;; wr s_inc 0 y.

(** haraka.c:769-792; mlen + s_inc[64] in size_t (wrap not modelled). *)
Fixpoint haraka_S_inc_absorb (fuel : nat) (s_inc m : bytes) : option bytes :=
  c <- get s_inc 64 ;;
  let mlen := length m in
  if (mlen + Z.to_nat c <? HARAKAS_RATE)%nat then
    s_inc <- inc_xor mlen s_inc m ;;
    c <- get s_inc 64 ;;
    wr s_inc 64 [u8 (c + u8 (Z.of_nat mlen))]
  else
    match fuel with
    | O => None
    | S fuel' =>
        let k := (HARAKAS_RATE - Z.to_nat c)%nat in
        s_inc <- inc_xor k s_inc m ;;
        s_inc <- wr s_inc 64 [0] ;;
        s_inc <- inc_perm s_inc ;;
        haraka_S_inc_absorb fuel' s_inc (skipn k m)
    end.

(** haraka.c:794-801 *)
Definition haraka_S_inc_finalize (s_inc : bytes) : option bytes :=
  c <- get s_inc 64 ;;
  a <- get s_inc (Z.to_nat c) ;;
  s_inc <- wr s_inc (Z.to_nat c) [u8 (Z.lxor a 0x1F)] ;;
  a <- get s_inc (HARAKAS_RATE - 1) ;;
  s_inc <- wr s_inc (HARAKAS_RATE - 1) [u8 (Z.lxor a 128)] ;;
  wr s_inc 64 [0].

(** haraka.c:803-829: the bytes written to out, and s_inc. *)
Fixpoint inc_squeeze_loop (fuel : nat) (outlen : nat) (s_inc : bytes) : option (bytes * bytes) :=
  match outlen with
  | O => Some ([], s_inc)
  | S _ =>
    match fuel with
    | O => None
    | S fuel' =>
        s_inc <- inc_perm s_inc ;;
        let i := Nat.min outlen HARAKAS_RATE in
        o <- rd s_inc 0 i ;;
        s_inc <- wr s_inc 64 [u8 (Z.of_nat (HARAKAS_RATE - i))] ;;
        ' (r, s_inc) <- inc_squeeze_loop fuel' (outlen - i) s_inc ;;
        Some (o ++ r, s_inc)
    end
  end.
Definition haraka_S_inc_squeeze (outlen : nat) (s_inc : bytes) : option (bytes * bytes) :=
  c <- get s_inc 64 ;;
  let i := Nat.min outlen (Z.to_nat c) in
  o <- rd s_inc (HARAKAS_RATE - Z.to_nat c) i ;;
  s_inc <- wr s_inc 64 [u8 (c - u8 (Z.of_nat i))] ;;
  ' (r, s_inc) <- inc_squeeze_loop (outlen - i) (outlen - i) s_inc ;;
  Some (o ++ r, s_inc).

(** haraka.c:831-853 *)
Definition haraka_S (outlen : nat) (inp : bytes) : option bytes :=
  let s := repeat 0 64 in
  s <- haraka_S_absorb (length inp) 32 s inp 0x1F ;;
  ' (out, s) <- haraka_S_squeezeblocks (outlen / 32) s ;;
  if (outlen mod 32 =? 0)%nat then Some out
  else
    ' (d, _) <- haraka_S_squeezeblocks 1 s ;;
    o <- rd d 0 (outlen mod 32) ;;
    Some (out ++ o).
End Sponge.

(** The loop of tweak_constants, haraka.c:710-714: both tables from the 40 constants in buf. *)
Definition interleave_all (buf : bytes) : option (list (list Z) * list (list Z)) :=
  iterM 10 0 (fun i r =>
    c256 <- interleave_constant32 buf (32 * i) ;;
    c512 <- interleave_constant buf (64 * i) ;;
    Some (fst r ++ [c512], snd r ++ [c256])) ([], []).
(** haraka.c:701-715: tweaked512_rc64 and tweaked256_rc32. *)
Definition tweak_constants (n : nat) (pub_seed : bytes) : option (list (list Z) * list (list Z)) :=
  s <- rd pub_seed 0 n ;;
  buf <- haraka_S (haraka512_perm haraka512_rc64) 640 s ;;
  interleave_all buf.
