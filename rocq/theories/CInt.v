(** Integer expressions of C (C11 6.3.1, 6.5.3-6.5.12) on an ABI with 8-bit char, 32-bit int and 64-bit long long / size_t.
    [None]: signed overflow, a shift by a negative or too large count, a division by zero.  Also [None], though only
    implementation-defined: conversion of a too large value to int, right shift of a negative value. *)
From Verif Require Import Base.

(** unsigned char; int; unsigned int = uint32_t; unsigned long long = uint64_t = size_t *)
Inductive cty := U8 | I32 | U32 | U64.
Definition width (t : cty) : Z := match t with U8 => 8 | I32 | U32 => 32 | U64 => 64 end.
Definition in_range (t : cty) (z : Z) : bool :=
  match t with I32 => (- 2 ^ 31 <=? z) && (z <? 2 ^ 31) | _ => (0 <=? z) && (z <? 2 ^ width t) end.
(** 6.3.1.3 *)
Definition conv (t : cty) (z : Z) : option Z :=
  match t with I32 => _ <- guard (in_range I32 z) ;; Some z | _ => Some (z mod 2 ^ width t) end.
(** 6.3.1.1: integer promotions *)
Definition promote (t : cty) : cty := match t with U8 => I32 | _ => t end.
(** 6.3.1.8: usual arithmetic conversions, of promoted types *)
Definition common (t1 t2 : cty) : cty :=
  match t1, t2 with
  | U64, _ | _, U64 => U64
  | U32, _ | _, U32 => U32
  | _, _ => I32
  end.

Inductive cop := OAdd | OSub | OMul | ODiv | OMod | OAnd | OOr | OXor | OShl | OShr | OLt | OGe | OEq.
Inductive cexp :=
| V (t : cty) (z : Z)             (** a variable or constant of type t with value z *)
| B (z : Z)                       (** an element of an array of unsigned char *)
| Cast (t : cty) (e : cexp)
| Not (e : cexp)
| Bin (o : cop) (e1 e2 : cexp).
(** an integer constant of type int *)
Definition K (z : Z) : cexp := V I32 z.

(** the result of an arithmetic operator of type t (6.5p5, 6.2.5p9) *)
Definition result (t : cty) (z : Z) : option (cty * Z) :=
  match t with I32 => _ <- guard (in_range I32 z) ;; Some (I32, z) | _ => Some (t, z mod 2 ^ width t) end.
Definition arith (o : cop) (t : cty) (a b : Z) : option (cty * Z) :=
  match o with
  | OAdd => result t (a + b)
  | OSub => result t (a - b)
  | OMul => result t (a * b)
  | ODiv => _ <- guard (negb (b =? 0)) ;; result t (Z.quot a b)
  | OMod => _ <- guard (negb (b =? 0)) ;; result t (Z.rem a b)
  | OAnd => result t (Z.land a b)
  | OOr => result t (Z.lor a b)
  | OXor => result t (Z.lxor a b)
  | OLt => Some (I32, if a <? b then 1 else 0)
  | OGe => Some (I32, if b <=? a then 1 else 0)
  | OEq => Some (I32, if a =? b then 1 else 0)
  | OShl | OShr => None
  end.
(** 6.5.7: the type is that of the promoted left operand *)
Definition shift (o : cop) (t : cty) (a k : Z) : option (cty * Z) :=
  _ <- guard ((0 <=? k) && (k <? width t)) ;;
  match o, t with
  | OShl, I32 => _ <- guard (0 <=? a) ;; result I32 (a * 2 ^ k)
  | OShl, _ => result t (a * 2 ^ k)
  | _, I32 => _ <- guard (0 <=? a) ;; result I32 (a / 2 ^ k)
  | _, _ => result t (a / 2 ^ k)
  end.
Fixpoint eval (e : cexp) : option (cty * Z) :=
  match e with
  | V t z => _ <- guard (in_range t z) ;; Some (t, z)
  | B z => Some (U8, z mod 256)
  | Cast t e => ' (_, z) <- eval e ;; z <- conv t z ;; Some (t, z)
  | Not e => ' (t, z) <- eval e ;; match promote t with I32 => Some (I32, - z - 1) | t => Some (t, 2 ^ width t - 1 - z) end
  | Bin o e1 e2 =>
      ' (t1, a) <- eval e1 ;; ' (t2, b) <- eval e2 ;;
      match o with
      | OShl | OShr => shift o (promote t1) a b
      | _ => let t := common (promote t1) (promote t2) in
             a <- conv t a ;; b <- conv t b ;; arith o t a b
      end
  end.
(** Assignment to an object of type t, or passing to a parameter of that type (6.5.16.1) *)
Definition asg (t : cty) (e : cexp) : option Z := ' (_, z) <- eval e ;; conv t z.
(** A controlling expression *)
Definition cond (e : cexp) : option bool := ' (_, z) <- eval e ;; Some (negb (z =? 0)).
(** An array index *)
Definition ix (e : cexp) : option nat := z <- asg U64 e ;; Some (Z.to_nat z).

Declare Scope c_scope.
Delimit Scope c_scope with C.
Bind Scope c_scope with cexp.
Notation "a + b" := (Bin OAdd a b) : c_scope.
Notation "a - b" := (Bin OSub a b) : c_scope.
Notation "a * b" := (Bin OMul a b) : c_scope.
Notation "a / b" := (Bin ODiv a b) : c_scope.
Notation "a %% b" := (Bin OMod a b) (at level 40) : c_scope.
Notation "a << b" := (Bin OShl a b) (at level 55) : c_scope.
Notation "a >> b" := (Bin OShr a b) (at level 55) : c_scope.
Notation "a .& b" := (Bin OAnd a b) (at level 57) : c_scope.
Notation "a .^ b" := (Bin OXor a b) (at level 58) : c_scope.
Notation "a .| b" := (Bin OOr a b) (at level 59) : c_scope.
Notation "a < b" := (Bin OLt a b) : c_scope.
Notation "a >= b" := (Bin OGe a b) : c_scope.
Notation "a == b" := (Bin OEq a b) (at level 70) : c_scope.
