(** The multi-lane WOTS functions against the reference ones; lane functions by definition. *)
From Verif Require Import Base BaseFacts Params Address Suite Utils Wots Spec SpecFacts AdrsEnc
  Refine WotsDigitsProofs WotsProofs Lanes LaneChainProofs LaneWotsProofs Toy.

Theorem gen_chains_agree P HS LX lw c junk :
  wf_params P = true -> suite_ok P HS -> lanes_ok P HS LX lw -> ctx_ok P HS c ->
  forall layer tree kp cs start steps w1 w2 rest,
  chunks_of (p_n P) cs -> length cs = SPX_WOTS_LEN P ->
  length start = SPX_WOTS_LEN P -> length steps = SPX_WOTS_LEN P ->
  (forall i, (i < SPX_WOTS_LEN P)%nat ->
     0 <= nth i steps 0 < SPX_WOTS_W P /\ 0 <= nth i start 0
     /\ nth i start 0 + nth i steps 0 <= SPX_WOTS_W P) ->
  0 <= w2 < 256 ->
  exists ys,
    gen_chains P HS LX lw c junk (concat cs ++ rest) start steps
      (enc (hs_layout HS) (mkAdrs layer tree T_WOTS_HASH kp w1 w2)) = Some (concat ys)
    /\ length ys = SPX_WOTS_LEN P /\ chunks_of (p_n P) ys
    /\ forall i u2, (i < SPX_WOTS_LEN P)%nat -> 0 <= u2 < 256 ->
       exists a', gen_chain P HS c (nth i cs []) (nth i start 0) (nth i steps 0)
         (enc (hs_layout HS) (mkAdrs layer tree T_WOTS_HASH kp (Z.of_nat i) u2))
       = Some (nth i ys [], a').
Proof.
  intros Hwf Hok Hlx Hc layer tree kp cs start steps w1 w2 rest Hcs Hl Hst Hls Hr Hw2.
  pose proof (wf_n P Hwf) as Hn. pose proof (W_le_256 P Hwf) as HW.
  rewrite (gen_chains_ok P HS LX lw c junk Hwf Hok Hlx Hc layer tree kp cs start steps w1 w2 rest
             Hcs Hl Hst Hls Hr Hw2).
  eexists. split; [reflexivity|]. split; [now rewrite map_length, seq_length|].
  assert (Hx : forall i, (i < SPX_WOTS_LEN P)%nat -> length (nth i cs []) = p_n P).
  { intros i Hi. apply (proj1 (Forall_forall _ _) Hcs). apply nth_In. lia. }
  split.
  - apply Forall_forall. intros y Hy. apply in_map_iff in Hy. destruct Hy as (i & <- & Hi).
    apply in_seq in Hi. apply chain_len; auto; try lia. apply Hx; lia.
  - intros i u2 Hi Hu. destruct (Hr i Hi) as (R1 & R2 & R3).
    destruct (gen_chain_ok P HS c Hwf Hok Hc layer tree kp (Z.of_nat i) (nth i cs []) (nth i start 0)
                (nth i steps 0) u2 (Hx i Hi) Hu R2 (proj1 R1)) as (w2' & E & _); [lia|].
    rewrite E. eexists. f_equal. f_equal.
    symmetry. erewrite (nth_error_nth (map _ (seq 0 _))); [|rewrite nth_error_map_seq by exact Hi; reflexivity].
    cbn [Nat.add]. f_equal. clear - R1 R3. lia.
Qed.

Theorem wots_pk_from_sigx_agree P HS LX lw c junk junk' :
  wf_params P = true -> suite_ok P HS -> lanes_ok P HS LX lw -> ctx_ok P HS c ->
  forall layer tree kp sig msg w1 w2,
  length sig = SPX_WOTS_BYTES P -> length msg = p_n P -> all_bytes msg -> 0 <= w2 < 256 ->
  exists pk a',
    wots_pk_from_sigx P HS LX lw c junk sig msg
      (enc (hs_layout HS) (mkAdrs layer tree T_WOTS_HASH kp w1 w2))
    = Some (pk, enc (hs_layout HS) (mkAdrs layer tree T_WOTS_HASH kp w1 w2))
    /\ wots_pk_from_sig P HS c junk' sig msg
         (enc (hs_layout HS) (mkAdrs layer tree T_WOTS_HASH kp w1 w2)) = Some (pk, a').
Proof.
  intros Hwf Hok Hlx Hc layer tree kp sig msg w1 w2 Hs Hm Hb Hw2.
  pose proof (wf_n P Hwf) as Hn.
  destruct (ex_chunks (p_n P) (SPX_WOTS_LEN P) sig) as (cs & J1 & J2 & J3); [exact Hs|]. subst sig.
  assert (Els : chain_lengths P msg = Some (wots_lengths (dims_of P) msg))
    by (apply chain_lengths_ok; auto).
  assert (Hl : length (wots_lengths (dims_of P) msg) = SPX_WOTS_LEN P)
    by apply (wots_lengths_length (dims_of P)).
  assert (Hr : Forall (fun l => 0 <= l < SPX_WOTS_W P) (wots_lengths (dims_of P) msg)).
  { apply (wots_lengths_range (dims_of P)). cbn. pose proof (W_pos P Hwf). lia. }
  destruct (wots_pk_from_sig_gen P HS c junk' Hwf Hok Hc layer tree kp _ cs msg w1 w2 Els Hl Hr J1 J2
              Hw2) as (w1' & w2' & E & _).
  rewrite (wots_pk_from_sigx_gen P HS LX lw c junk Hwf Hok Hlx Hc layer tree kp _ cs msg w1 w2 Els Hl
             Hr J1 J2 Hw2), E. do 2 eexists. split; reflexivity.
Qed.

(** Lane functions that run the single-lane functions one after the other: they satisfy
    [lanes_ok] for every suite and every number of lanes. *)
Definition plain_lanes (HS : suite) : lane_fns HS :=
  mkLanes (fun c k ins addrs => mapM2 (hs_thash HS c k) ins addrs)
          (fun c addrs => mapM (hs_prf_addr HS c) addrs).
Lemma plain_lanes_ok P HS lw : lanes_ok P HS (plain_lanes HS) lw.
Proof. constructor; reflexivity. Qed.
