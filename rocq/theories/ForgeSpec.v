(** What a forgery gives away: the hash calls an honest key pair fixes, the hash calls the verifier
    makes on a given signature, and the two kinds of break.  Specification only; nothing here uses
    the model of the code. *)
From Coq Require Import List ZArith.
From Verif Require Import Spec.
Import ListNotations.
Open Scope Z_scope.

Section Forge.
Variable D : dims.
Variable T : adrs -> list Z -> list Z.
Variable PRF : adrs -> list Z.

(** ** The verifier's calls, from the signature alone (no secret enters) *)
Definition call := (adrs * list Z)%type.
Fixpoint climb_calls (ad : nat -> Z -> adrs) (h : nat) (i : Z) (x : list Z) (path : list (list Z))
  : list call :=
  match path with
  | [] => []
  | s :: path' =>
      let q := if Z.even i then x ++ s else s ++ x in
      (ad (S h) (i / 2), q) :: climb_calls ad (S h) (i / 2) (T (ad (S h) (i / 2)) q) path'
  end.
Fixpoint chain_calls (layer tree kp i : Z) (x : list Z) (start : Z) (steps : nat) : list call :=
  match steps with
  | O => []
  | S s => (wots_adrs layer tree kp i (start + Z.of_nat s), chain T layer tree kp i x start s)
           :: chain_calls layer tree kp i x start s
  end.
Definition wots_ends (layer tree kp : Z) (m : list Z) (sig : list (list Z)) : list (list Z) :=
  map (fun i => chain T layer tree kp (Z.of_nat i) (nth i sig []) (nth i (wots_lengths D m) 0)
                  (Z.to_nat (s_w D - 1 - nth i (wots_lengths D m) 0))) (seq 0 (s_len D)).
Definition wots_calls (layer tree kp : Z) (m : list Z) (sig : list (list Z)) : list call :=
  flat_map (fun i => chain_calls layer tree kp (Z.of_nat i) (nth i sig []) (nth i (wots_lengths D m) 0)
                       (Z.to_nat (s_w D - 1 - nth i (wots_lengths D m) 0))) (seq 0 (s_len D))
  ++ [(mkAdrs layer tree T_WOTS_PK kp 0 0, concat (wots_ends layer tree kp m sig))].
Definition tree_adrs (layer tree : Z) (h : nat) (i : Z) : adrs := mkAdrs layer tree T_TREE 0 (Z.of_nat h) i.
Definition xmss_calls (layer tree idx : Z) (m : list Z) (sig : list (list Z)) : list call :=
  wots_calls layer tree idx m (firstn (s_len D) sig)
  ++ climb_calls (tree_adrs layer tree) 0 idx
       (wots_pk_of_sig D T layer tree idx m (firstn (s_len D) sig)) (skipn (s_len D) sig).
Fixpoint ht_calls (k : nat) (layer tree idx : Z) (m : list Z) (sig : list (list Z)) : list call :=
  match k with
  | O => []
  | S k' =>
      xmss_calls layer tree idx m (firstn (s_len D + s_hp D) sig)
      ++ ht_calls k' (layer + 1) (tree / 2 ^ Z.of_nat (s_hp D)) (tree mod 2 ^ Z.of_nat (s_hp D))
           (xmss_root_of_sig D T layer tree idx m (firstn (s_len D + s_hp D) sig))
           (skipn (s_len D + s_hp D) sig)
  end.
Definition fors_leaf_adrs (tree kp t i : Z) : adrs :=
  mkAdrs 0 tree T_FORS_TREE kp 0 (t * 2 ^ Z.of_nat (s_a D) + i).
Definition fors_node_adrs (tree kp t : Z) (h : nat) (i : Z) : adrs :=
  mkAdrs 0 tree T_FORS_TREE kp (Z.of_nat h) (t * 2 ^ Z.of_nat (s_a D - h) + i).
Definition fors_tree_calls (tree kp : Z) (md : list Z) (t : nat) (sig : list (list Z)) : list call :=
  let i := fors_index D md t in
  (fors_leaf_adrs tree kp (Z.of_nat t) i, hd [] sig)
  :: climb_calls (fors_node_adrs tree kp (Z.of_nat t)) 0 i
       (fors_leaf_of D T tree kp (Z.of_nat t) i (hd [] sig)) (tl sig).
Definition fors_block (t : nat) (sig : list (list Z)) : list (list Z) :=
  firstn (s_a D + 1) (skipn (t * (s_a D + 1)) sig).
Definition fors_calls (tree kp : Z) (md : list Z) (sig : list (list Z)) : list call :=
  flat_map (fun t => fors_tree_calls tree kp md t (fors_block t sig)) (seq 0 (s_k D))
  ++ [(mkAdrs 0 tree T_FORS_ROOTS kp 0 0,
       concat (map (fun t => fors_root_of_sig D T tree kp md t (fors_block t sig)) (seq 0 (s_k D))))].
Definition verify_calls (md : list Z) (tree leaf : Z) (sig : list (list Z)) : list call :=
  let nf := (s_k D * (s_a D + 1))%nat in
  fors_calls tree leaf md (firstn nf sig)
  ++ ht_calls (s_d D) 0 tree leaf (fors_pk_of_sig D T tree leaf md (firstn nf sig)) (skipn nf sig).

(** Tree [tree] of layer [layer] exists and [kp] is one of its leaves. *)
Definition in_ht (layer tree kp : Z) : Prop :=
  0 <= layer < Z.of_nat (s_d D)
  /\ 0 <= tree < 2 ^ (Z.of_nat (s_hp D) * (Z.of_nat (s_d D) - 1 - layer))
  /\ 0 <= kp < 2 ^ Z.of_nat (s_hp D).
(** ** The calls an honest key pair fixes: address and the one honest input at that address *)
Inductive honest_call : adrs -> list Z -> Prop :=
| honest_chain layer tree kp (i pos : nat) :
    in_ht layer tree kp -> (i < s_len D)%nat -> Z.of_nat pos < s_w D - 1 ->
    honest_call (wots_adrs layer tree kp (Z.of_nat i) (Z.of_nat pos))
      (chain T layer tree kp (Z.of_nat i) (wots_sk PRF layer tree kp i) 0 pos)
| honest_wots_pk layer tree kp :
    in_ht layer tree kp ->
    honest_call (mkAdrs layer tree T_WOTS_PK kp 0 0)
      (concat (map (fun i => chain T layer tree kp (Z.of_nat i) (wots_sk PRF layer tree kp i) 0
                               (Z.to_nat (s_w D - 1))) (seq 0 (s_len D))))
| honest_node layer tree (h : nat) i :
    in_ht layer tree 0 -> (h < s_hp D)%nat -> 0 <= i < 2 ^ Z.of_nat (s_hp D - S h) ->
    honest_call (tree_adrs layer tree (S h) i)
      (xmss_node D T PRF layer tree h (2 * i) ++ xmss_node D T PRF layer tree h (2 * i + 1))
| honest_fors_leaf tree kp (t : nat) i :
    in_ht 0 tree kp -> (t < s_k D)%nat -> 0 <= i < 2 ^ Z.of_nat (s_a D) ->
    honest_call (fors_leaf_adrs tree kp (Z.of_nat t) i) (fors_sk D PRF tree kp (Z.of_nat t) i)
| honest_fors_node tree kp (t h : nat) i :
    in_ht 0 tree kp -> (t < s_k D)%nat -> (h < s_a D)%nat -> 0 <= i < 2 ^ Z.of_nat (s_a D - S h) ->
    honest_call (fors_node_adrs tree kp (Z.of_nat t) (S h) i)
      (node (fors_leaf D T PRF tree kp (Z.of_nat t)) (fors_hash2 D T tree kp (Z.of_nat t)) h (2 * i)
       ++ node (fors_leaf D T PRF tree kp (Z.of_nat t)) (fors_hash2 D T tree kp (Z.of_nat t)) h (2 * i + 1))
| honest_fors_roots tree kp :
    in_ht 0 tree kp ->
    honest_call (mkAdrs 0 tree T_FORS_ROOTS kp 0 0)
      (concat (map (fun t => fors_root D T PRF tree kp (Z.of_nat t)) (seq 0 (s_k D)))).

(** The one value the WOTS+ key pair [kp] of tree [tree] of layer [layer] ever signs: the FORS public
    key below it, or the root of the tree below it. *)
Definition signed_by (layer tree kp : Z) : list Z :=
  if layer =? 0 then fors_pk D T PRF tree kp
  else xmss_root D T PRF (layer - 1) (tree * 2 ^ Z.of_nat (s_hp D) + kp).

(** ** Breaks found among a list of calls *)
(** A second preimage: one of the calls is made at an honest address, with the honest output, on a
    different input of the same length. *)
Definition collision_in (cs : list call) : Prop :=
  exists a x x', In (a, x') cs /\ honest_call a x /\ x' <> x /\ length x' = length x /\ T a x' = T a x.
(** An unreleased chain value: one of the calls has as input the value at position [pos] of an honest
    WOTS+ chain, although every signature releases that chain only from a later position on. *)
Definition unreleased_in (cs : list call) : Prop :=
  exists layer tree kp (i pos : nat),
    in_ht layer tree kp /\ (i < s_len D)%nat
    /\ Z.of_nat pos < nth i (wots_lengths D (signed_by layer tree kp)) 0
    /\ In (wots_adrs layer tree kp (Z.of_nat i) (Z.of_nat pos),
           chain T layer tree kp (Z.of_nat i) (wots_sk PRF layer tree kp i) 0 pos) cs.
Definition break_in (cs : list call) : Prop := collision_in cs \/ unreleased_in cs.
End Forge.
