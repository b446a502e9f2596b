(** Order statistics and digit groups.  Specification only. *)
From Coq Require Import List ZArith.
From Verif Require Import Base Text KatSpec.
Import ListNotations.
Open Scope Z_scope.

(** x is the element with index k of l in increasing order: it is in l, at most k elements are less, more than k are not greater. *)
Definition order_stat (l : list Z) (k : nat) (x : Z) : Prop :=
  In x l /\ (length (filter (fun y => y <? x)%Z l) <= k)%nat /\ (k < length (filter (fun y => y <=? x)%Z l))%nat.
(** t is the numeral of n with a comma before each group of three digits. *)
Definition grouped (n : Z) (t : bytes) : Prop :=
  filter (fun c => negb (c =? 44)) t = decimal n
  /\ forall p, (p < length t)%nat -> (nth p (rev t) 0 = 44 <-> (p mod 4 = 3)%nat).
