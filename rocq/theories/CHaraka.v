(** ref/haraka.c with every integer expression written as in the C text (CInt.v) and every variable of its declared type.
    Suffix _c: the C-typed version.  uint32_t is unsigned int; uint64_t, size_t and unsigned long long are 64 bits.  Pointers are
    offsets.  The functions that exist once on uint32_t and once on uint64_t with the same text are written over the type. *)
From Verif Require Import Base Haraka CInt CCore CSha2 CFips202.
Local Open Scope Z_scope.

Local Notation w := (V U64).
(** An unsuffixed hexadecimal constant.  One that needs more than 32 bits is a long or an unsigned long; all of these stand
    next to a uint64_t or under a cast to it, so that the value is converted to uint64_t, which does not change it. *)
Definition Hex (k : Z) : cexp := if k <? 2 ^ 32 then H32 k else V U64 k.

(** lines 54-60, at src + o *)
Definition br_dec32le_c (src : bytes) (o : nat) : option Z :=
  x0 <- get src o ;; x1 <- get src (o + 1) ;; x2 <- get src (o + 2) ;; x3 <- get src (o + 3) ;;
  asg U32 (Cast U32 (B x0) .| (Cast U32 (B x1) << K 8) .| (Cast U32 (B x2) << K 16) .| (Cast U32 (B x3) << K 24))%C.
(** lines 62-68 *)
Fixpoint br_range_dec32le_c (fuel : nat) (v : list Z) (vo : nat) (num : Z) (src : bytes) (o : nat) : option (list Z) :=
  match fuel with
  | O => None
  | S fuel' =>
      c <- cond (K 0 < w num)%C ;;
      num <- asg U64 (w num - K 1)%C ;;
      if c : bool then
        x <- br_dec32le_c src o ;;
        v <- wr v vo [x] ;;
        br_range_dec32le_c fuel' v (vo + 1) num src (o + 4)
      else Some v
  end.
(** lines 70-76, at dst + o *)
Definition br_enc32le_c (dst : bytes) (o : nat) (x : Z) : option bytes :=
  b <- asg U8 (Cast U8 (V U32 x)) ;; dst <- wr dst o [b] ;;
  b <- asg U8 (Cast U8 (V U32 x >> K 8))%C ;; dst <- wr dst (o + 1) [b] ;;
  b <- asg U8 (Cast U8 (V U32 x >> K 16))%C ;; dst <- wr dst (o + 2) [b] ;;
  b <- asg U8 (Cast U8 (V U32 x >> K 24))%C ;; wr dst (o + 3) [b].
(** lines 79-85 *)
Fixpoint br_range_enc32le_c (fuel : nat) (dst : bytes) (o : nat) (v : list Z) (vo : nat) (num : Z) : option bytes :=
  match fuel with
  | O => None
  | S fuel' =>
      c <- cond (K 0 < w num)%C ;;
      num <- asg U64 (w num - K 1)%C ;;
      if c : bool then
        x <- get v vo ;;
        dst <- br_enc32le_c dst o x ;;
        br_range_enc32le_c fuel' dst (o + 4) v (vo + 1) num
      else Some dst
  end.

Section Words.
Variable t : cty.
Local Notation v := (V t).
(** lines 87-259 and 261-434 *)
Definition sbox_c (q : list Z) : option (list Z) :=
  match q with
  | [q_0; q_1; q_2; q_3; q_4; q_5; q_6; q_7] =>
      x0 <- asg t (v q_7)%C ;; x1 <- asg t (v q_6)%C ;; x2 <- asg t (v q_5)%C ;; x3 <- asg t (v q_4)%C ;;
      x4 <- asg t (v q_3)%C ;; x5 <- asg t (v q_2)%C ;; x6 <- asg t (v q_1)%C ;; x7 <- asg t (v q_0)%C ;;
      y14 <- asg t (v x3 .^ v x5)%C ;; y13 <- asg t (v x0 .^ v x6)%C ;; y9 <- asg t (v x0 .^ v x3)%C ;;
      y8 <- asg t (v x0 .^ v x5)%C ;; t0 <- asg t (v x1 .^ v x2)%C ;; y1 <- asg t (v t0 .^ v x7)%C ;;
      y4 <- asg t (v y1 .^ v x3)%C ;; y12 <- asg t (v y13 .^ v y14)%C ;; y2 <- asg t (v y1 .^ v x0)%C ;;
      y5 <- asg t (v y1 .^ v x6)%C ;; y3 <- asg t (v y5 .^ v y8)%C ;; t1 <- asg t (v x4 .^ v y12)%C ;;
      y15 <- asg t (v t1 .^ v x5)%C ;; y20 <- asg t (v t1 .^ v x1)%C ;; y6 <- asg t (v y15 .^ v x7)%C ;;
      y10 <- asg t (v y15 .^ v t0)%C ;; y11 <- asg t (v y20 .^ v y9)%C ;; y7 <- asg t (v x7 .^ v y11)%C ;;
      y17 <- asg t (v y10 .^ v y11)%C ;; y19 <- asg t (v y10 .^ v y8)%C ;; y16 <- asg t (v t0 .^ v y11)%C ;;
      y21 <- asg t (v y13 .^ v y16)%C ;; y18 <- asg t (v x0 .^ v y16)%C ;; t2 <- asg t (v y12 .& v y15)%C ;;
      t3 <- asg t (v y3 .& v y6)%C ;; t4 <- asg t (v t3 .^ v t2)%C ;; t5 <- asg t (v y4 .& v x7)%C ;;
      t6 <- asg t (v t5 .^ v t2)%C ;; t7 <- asg t (v y13 .& v y16)%C ;; t8 <- asg t (v y5 .& v y1)%C ;;
      t9 <- asg t (v t8 .^ v t7)%C ;; t10 <- asg t (v y2 .& v y7)%C ;; t11 <- asg t (v t10 .^ v t7)%C ;;
      t12 <- asg t (v y9 .& v y11)%C ;; t13 <- asg t (v y14 .& v y17)%C ;; t14 <- asg t (v t13 .^ v t12)%C ;;
      t15 <- asg t (v y8 .& v y10)%C ;; t16 <- asg t (v t15 .^ v t12)%C ;; t17 <- asg t (v t4 .^ v t14)%C ;;
      t18 <- asg t (v t6 .^ v t16)%C ;; t19 <- asg t (v t9 .^ v t14)%C ;; t20 <- asg t (v t11 .^ v t16)%C ;;
      t21 <- asg t (v t17 .^ v y20)%C ;; t22 <- asg t (v t18 .^ v y19)%C ;; t23 <- asg t (v t19 .^ v y21)%C ;;
      t24 <- asg t (v t20 .^ v y18)%C ;; t25 <- asg t (v t21 .^ v t22)%C ;; t26 <- asg t (v t21 .& v t23)%C ;;
      t27 <- asg t (v t24 .^ v t26)%C ;; t28 <- asg t (v t25 .& v t27)%C ;; t29 <- asg t (v t28 .^ v t22)%C ;;
      t30 <- asg t (v t23 .^ v t24)%C ;; t31 <- asg t (v t22 .^ v t26)%C ;; t32 <- asg t (v t31 .& v t30)%C ;;
      t33 <- asg t (v t32 .^ v t24)%C ;; t34 <- asg t (v t23 .^ v t33)%C ;; t35 <- asg t (v t27 .^ v t33)%C ;;
      t36 <- asg t (v t24 .& v t35)%C ;; t37 <- asg t (v t36 .^ v t34)%C ;; t38 <- asg t (v t27 .^ v t36)%C ;;
      t39 <- asg t (v t29 .& v t38)%C ;; t40 <- asg t (v t25 .^ v t39)%C ;; t41 <- asg t (v t40 .^ v t37)%C ;;
      t42 <- asg t (v t29 .^ v t33)%C ;; t43 <- asg t (v t29 .^ v t40)%C ;; t44 <- asg t (v t33 .^ v t37)%C ;;
      t45 <- asg t (v t42 .^ v t41)%C ;; z0 <- asg t (v t44 .& v y15)%C ;; z1 <- asg t (v t37 .& v y6)%C ;;
      z2 <- asg t (v t33 .& v x7)%C ;; z3 <- asg t (v t43 .& v y16)%C ;; z4 <- asg t (v t40 .& v y1)%C ;;
      z5 <- asg t (v t29 .& v y7)%C ;; z6 <- asg t (v t42 .& v y11)%C ;; z7 <- asg t (v t45 .& v y17)%C ;;
      z8 <- asg t (v t41 .& v y10)%C ;; z9 <- asg t (v t44 .& v y12)%C ;; z10 <- asg t (v t37 .& v y3)%C ;;
      z11 <- asg t (v t33 .& v y4)%C ;; z12 <- asg t (v t43 .& v y13)%C ;; z13 <- asg t (v t40 .& v y5)%C ;;
      z14 <- asg t (v t29 .& v y2)%C ;; z15 <- asg t (v t42 .& v y9)%C ;; z16 <- asg t (v t45 .& v y14)%C ;;
      z17 <- asg t (v t41 .& v y8)%C ;; t46 <- asg t (v z15 .^ v z16)%C ;; t47 <- asg t (v z10 .^ v z11)%C ;;
      t48 <- asg t (v z5 .^ v z13)%C ;; t49 <- asg t (v z9 .^ v z10)%C ;; t50 <- asg t (v z2 .^ v z12)%C ;;
      t51 <- asg t (v z2 .^ v z5)%C ;; t52 <- asg t (v z7 .^ v z8)%C ;; t53 <- asg t (v z0 .^ v z3)%C ;;
      t54 <- asg t (v z6 .^ v z7)%C ;; t55 <- asg t (v z16 .^ v z17)%C ;; t56 <- asg t (v z12 .^ v t48)%C ;;
      t57 <- asg t (v t50 .^ v t53)%C ;; t58 <- asg t (v z4 .^ v t46)%C ;; t59 <- asg t (v z3 .^ v t54)%C ;;
      t60 <- asg t (v t46 .^ v t57)%C ;; t61 <- asg t (v z14 .^ v t57)%C ;; t62 <- asg t (v t52 .^ v t58)%C ;;
      t63 <- asg t (v t49 .^ v t58)%C ;; t64 <- asg t (v z4 .^ v t59)%C ;; t65 <- asg t (v t61 .^ v t62)%C ;;
      t66 <- asg t (v z1 .^ v t63)%C ;; s0 <- asg t (v t59 .^ v t63)%C ;; s6 <- asg t (v t56 .^ Not (v t62))%C ;;
      s7 <- asg t (v t48 .^ Not (v t60))%C ;; t67 <- asg t (v t64 .^ v t65)%C ;; s3 <- asg t (v t53 .^ v t66)%C ;;
      s4 <- asg t (v t51 .^ v t66)%C ;; s5 <- asg t (v t47 .^ v t65)%C ;; s1 <- asg t (v t64 .^ Not (v s3))%C ;;
      s2 <- asg t (v t55 .^ Not (v t67))%C ;;
      Some [s7; s6; s5; s4; s3; s2; s1; s0]
  | _ => None
  end.
(** SWAPN_32 and SWAPN, lines 438-444 and 532-538: the new x and y *)
Definition SWAPN_c (cl ch s a b : Z) : option (Z * Z) :=
  x <- asg t ((v a .& Cast t (Hex cl)) .| ((v b .& Cast t (Hex cl)) << K s))%C ;;
  y <- asg t (((v a .& Cast t (Hex ch)) >> K s) .| (v b .& Cast t (Hex ch)))%C ;;
  Some (x, y).
(** lines 446-463 and 540-557, over the constants *)
Definition ortho_c (l2 h2 l4 h4 l8 h8 : Z) (q : list Z) : option (list Z) :=
  match q with
  | [q0; q1; q2; q3; q4; q5; q6; q7] =>
      ' (q0, q1) <- SWAPN_c l2 h2 1 q0 q1 ;;
      ' (q2, q3) <- SWAPN_c l2 h2 1 q2 q3 ;;
      ' (q4, q5) <- SWAPN_c l2 h2 1 q4 q5 ;;
      ' (q6, q7) <- SWAPN_c l2 h2 1 q6 q7 ;;
      ' (q0, q2) <- SWAPN_c l4 h4 2 q0 q2 ;;
      ' (q1, q3) <- SWAPN_c l4 h4 2 q1 q3 ;;
      ' (q4, q6) <- SWAPN_c l4 h4 2 q4 q6 ;;
      ' (q5, q7) <- SWAPN_c l4 h4 2 q5 q7 ;;
      ' (q0, q4) <- SWAPN_c l8 h8 4 q0 q4 ;;
      ' (q1, q5) <- SWAPN_c l8 h8 4 q1 q5 ;;
      ' (q2, q6) <- SWAPN_c l8 h8 4 q2 q6 ;;
      ' (q3, q7) <- SWAPN_c l8 h8 4 q3 q7 ;;
      Some [q0; q1; q2; q3; q4; q5; q6; q7]
  | _ => None
  end.
(** lines 466-476 and 612-622 *)
Definition add_round_key_c (q sk : list Z) : option (list Z) :=
  match q, sk with
  | [q0; q1; q2; q3; q4; q5; q6; q7], k0 :: k1 :: k2 :: k3 :: k4 :: k5 :: k6 :: k7 :: _ =>
      q0 <- asg t (v q0 .^ v k0)%C ;; q1 <- asg t (v q1 .^ v k1)%C ;; q2 <- asg t (v q2 .^ v k2)%C ;; q3 <- asg t (v q3 .^ v k3)%C ;;
      q4 <- asg t (v q4 .^ v k4)%C ;; q5 <- asg t (v q5 .^ v k5)%C ;; q6 <- asg t (v q6 .^ v k6)%C ;; q7 <- asg t (v q7 .^ v k7)%C ;;
      Some [q0; q1; q2; q3; q4; q5; q6; q7]
  | _, _ => None
  end.
(** rotr16, rotr32: lines 493-496 and 642-645, k = 16 and 32 *)
Definition rotr_c (k : Z) (x : cexp) : option Z :=
  x <- asg t x ;; asg t ((v x << K k) .| (v x >> K k))%C.
(** lines 498-528 (k = 8, l = 24, h = 16) and 647-677 (k = 16, l = 48, h = 32) *)
Definition mix_columns_c (k l h : Z) (q : list Z) : option (list Z) :=
  match q with
  | [q0; q1; q2; q3; q4; q5; q6; q7] =>
      r0 <- asg t ((v q0 >> K k) .| (v q0 << K l))%C ;;
      r1 <- asg t ((v q1 >> K k) .| (v q1 << K l))%C ;;
      r2 <- asg t ((v q2 >> K k) .| (v q2 << K l))%C ;;
      r3 <- asg t ((v q3 >> K k) .| (v q3 << K l))%C ;;
      r4 <- asg t ((v q4 >> K k) .| (v q4 << K l))%C ;;
      r5 <- asg t ((v q5 >> K k) .| (v q5 << K l))%C ;;
      r6 <- asg t ((v q6 >> K k) .| (v q6 << K l))%C ;;
      r7 <- asg t ((v q7 >> K k) .| (v q7 << K l))%C ;;
      y <- rotr_c h (v q0 .^ v r0)%C ;; p0 <- asg t (v q7 .^ v r7 .^ v r0 .^ v y)%C ;;
      y <- rotr_c h (v q1 .^ v r1)%C ;; p1 <- asg t (v q0 .^ v r0 .^ v q7 .^ v r7 .^ v r1 .^ v y)%C ;;
      y <- rotr_c h (v q2 .^ v r2)%C ;; p2 <- asg t (v q1 .^ v r1 .^ v r2 .^ v y)%C ;;
      y <- rotr_c h (v q3 .^ v r3)%C ;; p3 <- asg t (v q2 .^ v r2 .^ v q7 .^ v r7 .^ v r3 .^ v y)%C ;;
      y <- rotr_c h (v q4 .^ v r4)%C ;; p4 <- asg t (v q3 .^ v r3 .^ v q7 .^ v r7 .^ v r4 .^ v y)%C ;;
      y <- rotr_c h (v q5 .^ v r5)%C ;; p5 <- asg t (v q4 .^ v r4 .^ v r5 .^ v y)%C ;;
      y <- rotr_c h (v q6 .^ v r6)%C ;; p6 <- asg t (v q5 .^ v r5 .^ v r6 .^ v y)%C ;;
      y <- rotr_c h (v q7 .^ v r7)%C ;; p7 <- asg t (v q6 .^ v r6 .^ v r7 .^ v y)%C ;;
      Some [p0; p1; p2; p3; p4; p5; p6; p7]
  | _ => None
  end.
(** for (i = 0; i < 8; i++) { x = q[i]; q[i] = ...x...; }, i of type ti *)
Definition each_c (ti : cty) (f : cexp -> cexp) (q : list Z) : option (list Z) :=
  cfor 9 ti 0 (K 8) (fun i q =>
    j <- ix (V ti i) ;; x <- get q j ;; x <- asg t (v x) ;;
    y <- asg t (f (v x)) ;; wr q j [y]) q.
End Words.

(** lines 446-448, 540-542 *)
Definition br_aes_ct_ortho_c : list Z -> option (list Z) :=
  ortho_c U32 0x55555555 0xAAAAAAAA 0x33333333 0xCCCCCCCC 0x0F0F0F0F 0xF0F0F0F0.
Definition br_aes_ct64_ortho_c : list Z -> option (list Z) :=
  ortho_c U64 0x5555555555555555 0xAAAAAAAAAAAAAAAA 0x3333333333333333 0xCCCCCCCCCCCCCCCC 0x0F0F0F0F0F0F0F0F 0xF0F0F0F0F0F0F0F0.
(** lines 478-491 *)
Definition shift_row32_x (x : cexp) : cexp := ((x .& Hex 0x000000FF)
            .| ((x .& Hex 0x0000FC00) >> K 2) .| ((x .& Hex 0x00000300) << K 6)
            .| ((x .& Hex 0x00F00000) >> K 4) .| ((x .& Hex 0x000F0000) << K 4)
            .| ((x .& Hex 0xC0000000) >> K 6) .| ((x .& Hex 0x3F000000) << K 2))%C.
Definition shift_rows32_c : list Z -> option (list Z) := each_c U32 I32 shift_row32_x.
(** lines 624-640 *)
Definition M64 (k : Z) : cexp := Cast U64 (Hex k).
Definition shift_row64_x (x : cexp) : cexp := ((x .& M64 0x000000000000FFFF)
               .| ((x .& M64 0x00000000FFF00000) >> K 4)
               .| ((x .& M64 0x00000000000F0000) << K 12)
               .| ((x .& M64 0x0000FF0000000000) >> K 8)
               .| ((x .& M64 0x000000FF00000000) << K 8)
               .| ((x .& M64 0xF000000000000000) >> K 12)
               .| ((x .& M64 0x0FFF000000000000) << K 4))%C.
Definition shift_rows_c : list Z -> option (list Z) := each_c U64 I32 shift_row64_x.
Definition mix_columns32_c : list Z -> option (list Z) := mix_columns_c U32 8 24 16.
Definition mix_columns64_c : list Z -> option (list Z) := mix_columns_c U64 16 48 32.
(** lines 944-953; << and >> bind tighter than | *)
Definition mix_state256_x (x : cexp) : cexp := ((x .& Hex 0x81818181) .|
                   (x .& Hex 0x02020202) << K 1 .|
                   (x .& Hex 0x04040404) << K 2 .|
                   (x .& Hex 0x08080808) << K 3 .|
                   (x .& Hex 0x10101010) >> K 3 .|
                   (x .& Hex 0x20202020) >> K 2 .|
                   (x .& Hex 0x40404040) >> K 1)%C.
(** lines 877-892 *)
Definition mix_state512_x (x : cexp) : cexp := ((x .& Hex 0x0001000100010001) << K 5 .|
                   (x .& Hex 0x0002000200020002) << K 12 .|
                   (x .& Hex 0x0004000400040004) >> K 1 .|
                   (x .& Hex 0x0008000800080008) << K 6 .|
                   (x .& Hex 0x0020002000200020) << K 9 .|
                   (x .& Hex 0x0040004000400040) >> K 4 .|
                   (x .& Hex 0x0080008000800080) << K 3 .|
                   (x .& Hex 0x2100210021002100) >> K 5 .|
                   (x .& Hex 0x0210021002100210) << K 2 .|
                   (x .& Hex 0x0800080008000800) << K 4 .|
                   (x .& Hex 0x1000100010001000) >> K 12 .|
                   (x .& Hex 0x4000400040004000) >> K 10 .|
                   (x .& Hex 0x8400840084008400) >> K 3)%C.

(** lines 569-584 for one of the four *)
Definition spread_c (x : Z) : option Z :=
  x <- asg U64 (V U32 x) ;;
  x <- asg U64 (w x .| (w x << K 16))%C ;;
  x <- asg U64 (w x .& M64 0x0000FFFF0000FFFF)%C ;;
  x <- asg U64 (w x .| (w x << K 8))%C ;;
  asg U64 (w x .& M64 0x00FF00FF00FF00FF)%C.
(** lines 561-587 *)
Definition interleave_in_c (w0 w1 w2 w3 : Z) : option (Z * Z) :=
  x0 <- spread_c w0 ;; x1 <- spread_c w1 ;; x2 <- spread_c w2 ;; x3 <- spread_c w3 ;;
  q0 <- asg U64 (w x0 .| (w x2 << K 8))%C ;;
  q1 <- asg U64 (w x1 .| (w x3 << K 8))%C ;;
  Some (q0, q1).
(** lines 594-609 for one of the four: x0 = e; .. w[0] = .. *)
Definition gather_c (e : cexp) : option Z :=
  x <- asg U64 e ;;
  x <- asg U64 (w x .| (w x >> K 8))%C ;;
  x <- asg U64 (w x .& M64 0x0000FFFF0000FFFF)%C ;;
  asg U32 (Cast U32 (w x) .| Cast U32 (w x >> K 16))%C.
(** lines 590-610, at w + o *)
Definition interleave_out_c (wv : list Z) (o : nat) (q0 q1 : Z) : option (list Z) :=
  y0 <- gather_c (w q0 .& M64 0x00FF00FF00FF00FF)%C ;;
  y1 <- gather_c (w q1 .& M64 0x00FF00FF00FF00FF)%C ;;
  y2 <- gather_c ((w q0 >> K 8) .& M64 0x00FF00FF00FF00FF)%C ;;
  y3 <- gather_c ((w q1 >> K 8) .& M64 0x00FF00FF00FF00FF)%C ;;
  wv <- wr wv o [y0] ;; wv <- wr wv (o + 1) [y1] ;; wv <- wr wv (o + 2) [y2] ;; wr wv (o + 3) [y3].

(** lines 862-866 (i of type unsigned int) and 684-688 (int).  [w0], [q0]: what the arrays hold before; the words too *)
Definition load512_c (ti : cty) (w0 q0 : list Z) (inp : bytes) (off : nat) : option (list Z * list Z) :=
  wv <- br_range_dec32le_c 17 w0 0 16 inp off ;;
  q <- cfor 5 ti 0 (K 4) (fun i q =>
         j0 <- ix (V ti i) ;; j4 <- ix (V ti i + K 4)%C ;; o <- ix (V ti i << K 2)%C ;;
         x0 <- get wv o ;; x1 <- get wv (o + 1) ;; x2 <- get wv (o + 2) ;; x3 <- get wv (o + 3) ;;
         ' (a, b) <- interleave_in_c x0 x1 x2 x3 ;;
         q <- wr q j0 [a] ;; wr q j4 [b]) q0 ;;
  q <- br_aes_ct64_ortho_c q ;;
  Some (q, wv).
(** lines 895-899 *)
Definition store512_c (q wv : list Z) (out : bytes) : option bytes :=
  q <- br_aes_ct64_ortho_c q ;;
  wv <- cfor 5 U32 0 (K 4) (fun i wv =>
          o <- ix (V U32 i << K 2)%C ;; j0 <- ix (V U32 i) ;; j4 <- ix (V U32 i + K 4)%C ;;
          a <- get q j0 ;; b <- get q j4 ;; interleave_out_c wv o a b) wv ;;
  br_range_enc32le_c 17 out 0 wv 0 16.
(** lines 928-932 and 691-699 *)
Definition load256_c (q0 : list Z) (inp : bytes) (off : nat) : option (list Z) :=
  q <- cfor 5 I32 0 (K 4) (fun i q =>
         o <- ix (K 4 * V I32 i)%C ;; x <- br_dec32le_c inp (off + o) ;;
         j <- ix (K 2 * V I32 i)%C ;; q <- wr q j [x] ;;
         o <- ix (K 4 * V I32 i)%C ;; x <- br_dec32le_c inp (off + o + 16) ;;
         j <- ix (K 2 * V I32 i + K 1)%C ;; wr q j [x]) q0 ;;
  br_aes_ct_ortho_c q.
(** lines 956-960 *)
Definition store256_c (q : list Z) (out : bytes) : option bytes :=
  q <- br_aes_ct_ortho_c q ;;
  cfor 5 I32 0 (K 4) (fun i out =>
    o <- ix (K 4 * V I32 i)%C ;;
    j <- ix (K 2 * V I32 i)%C ;; x <- get q j ;; out <- br_enc32le_c out o x ;;
    j <- ix (K 2 * V I32 i + K 1)%C ;; x <- get q j ;; br_enc32le_c out (o + 16) x) out.

(** The rounds, lines 869-893 (t = uint64_t, ti = unsigned int) and 935-954 (t = uint32_t, ti = int) *)
Definition rounds_c (t ti : cty) (shift_rows mix_cols : list Z -> option (list Z)) (mix : cexp -> cexp) (rc : list (list Z)) (q : list Z)
  : option (list Z) :=
  cfor 6 ti 0 (K 5) (fun i q =>
    q <- cfor 3 ti 0 (K 2) (fun j q =>
           q <- sbox_c t q ;;
           q <- shift_rows q ;;
           q <- mix_cols q ;;
           n <- ix (K 2 * V ti i + V ti j)%C ;;
           k <- get rc n ;;
           add_round_key_c t q k) q ;;
    each_c t ti mix q) q.
(** lines 855-900.  [J]: what w[16] and q[8] hold before *)
Definition haraka512_perm_c (J : list Z * list Z) (rc512 : list (list Z)) (out inp : bytes) : option bytes :=
  ' (q, wv) <- load512_c U32 (fst J) (snd J) inp 0 ;;
  q <- rounds_c U64 U32 shift_rows_c mix_columns64_c mix_state512_x rc512 q ;;
  store512_c q wv out.
(** x[i] = x[i] ^ y[i] for i < n, i of type int: lines 910-912, 962-964 *)
Definition feed_forward_c (n : Z) (x y : bytes) : option bytes :=
  cfor (S (Z.to_nat n)) I32 0 (K n) (fun i x =>
    j <- ix (V I32 i) ;; a <- get x j ;; b <- get y j ;; z <- asg U8 (B a .^ B b)%C ;; wr x j [z]) x.
(** lines 902-919.  [buf0]: what buf[64] holds before *)
Definition haraka512_c (J : list Z * list Z) (buf0 : bytes) (rc512 : list (list Z)) (out inp : bytes) : option bytes :=
  buf <- haraka512_perm_c J rc512 buf0 inp ;;
  buf <- feed_forward_c 64 buf inp ;;
  a <- rd buf 8 8 ;; out <- wr out 0 a ;;
  a <- rd buf 24 8 ;; out <- wr out 8 a ;;
  a <- rd buf 32 8 ;; out <- wr out 16 a ;;
  a <- rd buf 48 8 ;; wr out 24 a.
(** lines 922-965, out and in disjoint.  [q0]: what q[8] holds before *)
Definition haraka256_c (q0 : list Z) (rc256 : list (list Z)) (out inp : bytes) : option bytes :=
  q <- load256_c q0 inp 0 ;;
  q <- rounds_c U32 I32 shift_rows32_c mix_columns32_c mix_state256_x rc256 q ;;
  out <- store256_c q out ;;
  feed_forward_c 32 out inp.

(** ** The sponge *)
(** #define HARAKAS_RATE 32, line 39 *)
Definition xHRATE : cexp := K 32.
Section Sponge.
(** haraka512_perm(out, in, ctx) *)
Variable perm_c : bytes -> bytes -> option bytes.

(** for (i = 0; i < r; ++i) s[i] ^= x[o + i] *)
Definition xor_block_c (r : Z) (s x : bytes) (o : nat) : option bytes :=
  cfor (S (Z.to_nat r)) U64 0 (V U32 r) (fun i s =>
    j <- ix (w i) ;; a <- get s j ;; b <- get x (o + j) ;; z <- asg U8 (B a .^ B b)%C ;; wr s j [z]) s.
(** lines 724-732 *)
Fixpoint haraka_absorb_loop_c (fuel : nat) (r : Z) (m : bytes) (o : nat) (mlen : Z) (s : bytes) : option (bytes * nat * Z) :=
  match fuel with
  | O => None
  | S fuel' =>
      c <- cond (w mlen >= V U32 r)%C ;;
      if c : bool then
        s <- xor_block_c r s m o ;;
        s <- perm_c s s ;;
        mlen <- asg U64 (w mlen - V U32 r)%C ;;
        haraka_absorb_loop_c fuel' r m (o + Z.to_nat r) mlen s
      else Some (s, o, mlen)
  end.
(** lines 717-745.  [t0]: what t[r] holds before *)
Definition haraka_S_absorb_c (t0 s : bytes) (r : cexp) (m : bytes) (mlen : Z) (p : cexp) : option bytes :=
  r <- asg U32 r ;; p <- asg U8 p ;;
  ' (s, o, mlen) <- haraka_absorb_loop_c (S (Z.to_nat mlen)) r m 0 mlen s ;;
  t <- cfor (S (Z.to_nat r)) U64 0 (V U32 r) (fun i t => j <- ix (w i) ;; x <- asg U8 (K 0) ;; wr t j [x]) t0 ;;
  ' (i, t) <- cloop (S (Z.to_nat mlen)) U64 0 (fun i _ => cond (w i < w mlen)%C) (fun i t =>
     j <- ix (w i) ;; x <- get m (o + j) ;; x <- asg U8 (B x) ;; wr t j [x]) t ;;
  j <- ix (w i) ;; x <- asg U8 (V U8 p) ;; t <- wr t j [x] ;;
  j <- ix (V U32 r - K 1)%C ;; x <- get t j ;; x <- asg U8 (B x .| K 128)%C ;; t <- wr t j [x] ;;
  xor_block_c r s t 0.
(** lines 747-757; h has moved by o *)
Fixpoint haraka_S_squeezeblocks_c (fuel : nat) (h : bytes) (o : nat) (nblocks : Z) (s : bytes) (r : Z) : option (bytes * bytes) :=
  match fuel with
  | O => None
  | S fuel' =>
      c <- cond (K 0 < w nblocks)%C ;;
      if c : bool then
        s <- perm_c s s ;;
        n <- ix xHRATE ;; x <- rd s 0 n ;; h <- put h o x ;;
        nblocks <- asg U64 (w nblocks - K 1)%C ;;
        haraka_S_squeezeblocks_c fuel' h (o + Z.to_nat r) nblocks s r
      else Some (h, s)
  end.
(** lines 759-767 *)
Definition haraka_S_inc_init_c (s0 : bytes) : option bytes :=
  s <- cfor 65 U64 0 (K 64) (fun i s => j <- ix (w i) ;; x <- asg U8 (K 0) ;; wr s j [x]) s0 ;;
  x <- asg U8 (K 0) ;; wr s 64 [x].
(** s_inc[s_inc[64] + i] ^= m[i] *)
Definition hinc_xor_c (m : bytes) (o : nat) (i : Z) (s : bytes) : option bytes :=
  c <- get s 64 ;; j <- ix (B c + w i)%C ;; a <- get s j ;; k <- ix (w i) ;; b <- get m (o + k) ;;
  z <- asg U8 (B a .^ B b)%C ;; wr s j [z].
(** lines 775-786 *)
Fixpoint hinc_absorb_loop_c (fuel : nat) (s m : bytes) (o : nat) (mlen : Z) : option (bytes * nat * Z) :=
  match fuel with
  | O => None
  | S fuel' =>
      c <- get s 64 ;;
      g <- cond (w mlen + B c >= xHRATE)%C ;;
      if g : bool then
        ' (_, s) <- cloop 34 U64 0 (fun i s => c <- get s 64 ;; cond (w i < Cast U64 (xHRATE - B c))%C) (hinc_xor_c m o) s ;;
        c <- get s 64 ;;
        mlen <- asg U64 (w mlen - Cast U64 (xHRATE - B c))%C ;;
        d <- ix (xHRATE - Cast U8 (B c))%C ;;
        x <- asg U8 (K 0) ;; s <- wr s 64 [x] ;;
        s <- perm_c s s ;;
        hinc_absorb_loop_c fuel' s m (o + d) mlen
      else Some (s, o, mlen)
  end.
(** lines 769-792 *)
Definition haraka_S_inc_absorb_c (s m : bytes) (mlen : Z) : option bytes :=
  ' (s, o, mlen) <- hinc_absorb_loop_c (S (S (Z.to_nat mlen))) s m 0 mlen ;;
  ' (_, s) <- cloop (S (Z.to_nat mlen)) U64 0 (fun i s => cond (w i < w mlen)%C) (hinc_xor_c m o) s ;;
  c <- get s 64 ;; x <- asg U8 (B c + Cast U8 (w mlen))%C ;; wr s 64 [x].
(** lines 794-801 *)
Definition haraka_S_inc_finalize_c (s : bytes) : option bytes :=
  c <- get s 64 ;; j <- ix (B c) ;; a <- get s j ;; x <- asg U8 (B a .^ Hex 0x1F)%C ;; s <- wr s j [x] ;;
  j <- ix (xHRATE - K 1)%C ;; a <- get s j ;; x <- asg U8 (B a .^ K 128)%C ;; s <- wr s j [x] ;;
  x <- asg U8 (K 0) ;; wr s 64 [x].
(** i < outlen && i < e *)
Definition and_lt (i outlen : Z) (e : cexp) : option bool :=
  b <- cond (w i < w outlen)%C ;; if b : bool then cond (w i < e)%C else Some false.
(** lines 819-828; out has moved by o *)
Fixpoint hinc_squeeze_loop_c (fuel : nat) (h : bytes) (o : nat) (outlen : Z) (s : bytes) : option (bytes * bytes) :=
  match fuel with
  | O => None
  | S fuel' =>
      g <- cond (K 0 < w outlen)%C ;;
      if g : bool then
        s <- perm_c s s ;;
        ' (i, h) <- cloop 34 U64 0 (fun i _ => and_lt i outlen xHRATE) (fun i h =>
           j <- ix (w i) ;; x <- get s j ;; x <- asg U8 (B x) ;; put h (o + j) [x]) h ;;
        d <- ix (w i) ;;
        outlen <- asg U64 (w outlen - w i)%C ;;
        x <- asg U8 (Cast U8 (xHRATE - w i))%C ;; s <- wr s 64 [x] ;;
        hinc_squeeze_loop_c fuel' h (o + d) outlen s
      else Some (h, s)
  end.
(** lines 803-829 *)
Definition haraka_S_inc_squeeze_c (outlen : Z) (s : bytes) : option (bytes * bytes) :=
  ' (i, h) <- cloop 257 U64 0 (fun i _ => c <- get s 64 ;; and_lt i outlen (B c)) (fun i h =>
     c <- get s 64 ;; k <- ix (xHRATE - B c + w i)%C ;; x <- get s k ;; x <- asg U8 (Cast U8 (B x)) ;;
     j <- ix (w i) ;; put h j [x]) [] ;;
  o <- ix (w i) ;;
  outlen <- asg U64 (w outlen - w i)%C ;;
  c <- get s 64 ;; x <- asg U8 (B c - Cast U8 (w i))%C ;; s <- wr s 64 [x] ;;
  hinc_squeeze_loop_c (S (Z.to_nat outlen)) h o outlen s.
(** lines 831-853.  [t0], [s0]: what t[32] of the absorb call and s[64] hold before; d[32] is written from its start *)
Definition haraka_S_c (t0 s0 : bytes) (outlen : Z) (inp : bytes) (inlen : cexp) : option bytes :=
  inlen <- asg U64 inlen ;;
  s <- cfor 65 U64 0 (K 64) (fun i s => j <- ix (w i) ;; x <- asg U8 (K 0) ;; wr s j [x]) s0 ;;
  s <- haraka_S_absorb_c t0 s (K 32) inp inlen (Hex 0x1F) ;;
  n <- asg U64 (w outlen / K 32)%C ;;
  ' (h, s) <- haraka_S_squeezeblocks_c (S (Z.to_nat n)) [] 0 n s 32 ;;
  o <- ix (w outlen / K 32 * K 32)%C ;;
  g <- cond (w outlen %% K 32)%C ;;
  if g : bool then
    n <- asg U64 (K 1) ;;
    ' (d, s) <- haraka_S_squeezeblocks_c 2 [] 0 n s 32 ;;
    cfor 33 U64 0 (w outlen %% K 32)%C (fun i h => j <- ix (w i) ;; x <- get d j ;; x <- asg U8 (B x) ;; put h (o + j) [x]) h
  else Some h.
End Sponge.

(** lines 701-715.  The standard constants are copied in first; pub_seed has n bytes.  The tables are the rows written so far;
    [row512], [row256] is what a row holds before.  [J], [t0], [s0], [tmp]: uninitialised locals, [tmp] tmp_32_constant[16]. *)
Definition tweak_constants_c (J : list Z * list Z) (t0 s0 : bytes) (tmp row512 row256 : list Z) (n : nat) (pub_seed : bytes)
  : option (list (list Z) * list (list Z)) :=
  buf <- haraka_S_c (haraka512_perm_c J haraka512_rc64) t0 s0 640 pub_seed (K (Z.of_nat n)) ;;
  cfor 11 I32 0 (K 10) (fun i r =>
    j <- ix (V I32 i) ;; _ <- guard ((j =? length (fst r)) && (j =? length (snd r)))%nat ;;
    o <- ix (K 32 * V I32 i)%C ;; c256 <- load256_c row256 buf o ;;
    o <- ix (K 64 * V I32 i)%C ;; ' (c512, _) <- load512_c I32 tmp row512 buf o ;;
    Some (fst r ++ [c512], snd r ++ [c256])) ([], []).

(** A caller's run: init, absorb calls, finalize, squeeze calls.  [s0]: what s_inc[65] holds before *)
Section Run.
Variable perm_c : bytes -> bytes -> option bytes.
Fixpoint absorb_all_c (s : bytes) (chunks : list bytes) : option bytes :=
  match chunks with
  | [] => Some s
  | c :: cs => s <- haraka_S_inc_absorb_c perm_c s c (Z.of_nat (length c)) ;; absorb_all_c s cs
  end.
Fixpoint squeeze_all_c (s : bytes) (lens : list nat) : option (list bytes) :=
  match lens with
  | [] => Some []
  | n :: ns => ' (h, s) <- haraka_S_inc_squeeze_c perm_c (Z.of_nat n) s ;; hs <- squeeze_all_c s ns ;; Some (h :: hs)
  end.
Definition haraka_S_inc_c (s0 : bytes) (chunks : list bytes) (lens : list nat) : option (list bytes) :=
  s <- haraka_S_inc_init_c s0 ;;
  s <- absorb_all_c s chunks ;;
  s <- haraka_S_inc_finalize_c s ;;
  squeeze_all_c s lens.
End Run.
