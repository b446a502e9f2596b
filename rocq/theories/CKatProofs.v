(** The typed FindMarker, ReadHex and fprintBstr compute what their models compute. *)
From Coq Require Import String.
From Verif Require Import Base BaseFacts Params Spec CInt CCore CIntFacts CCoreProofs Rng RngSpec RngProofs CRng CRngProofs CRandombytes CRandombytesProofs
  Kat Text KatSpec KatIo KatProofs CKat.
Local Open Scope Z_scope.
Local Open Scope list_scope.
Notation z := Z.of_nat.

Lemma cfor_gen {S : Type} (Inv : S -> Prop) t n bound (body : Z -> S -> option S) (f : nat -> S -> option S) fuel : (n < fuel)%nat ->
  (forall i, (i <= n)%nat -> cond (V t (z i) < bound) = Some (z i <? z n)) ->
  (forall i, (i < n)%nat -> asg t (V t (z i) + K 1)%C = Some (z (Datatypes.S i))) ->
  (forall i s, (i < n)%nat -> Inv s -> body (z i) s = f i s /\ (forall s', f i s = Some s' -> Inv s')) ->
  forall s, Inv s -> cfor fuel t 0 bound body s = iterM n 0 f s.
Proof.
  intros Hf Hb Hi Hstep.
  assert (G : forall k i fuel s, (k < fuel)%nat -> (i + k = n)%nat -> Inv s -> cfor fuel t (z i) bound body s = iterM k i f s).
  { induction k as [|k IH]; intros i fl s Hfl Hik HI; (destruct fl as [|fl]; [lia|]); cbn [cfor iterM]; rewrite Hb by lia; cbn [bind].
    - replace (z i <? z n) with false by lia. reflexivity.
    - replace (z i <? z n) with true by lia.
      destruct (Hstep i s ltac:(lia) HI) as [Eq Nx]. rewrite Eq. destruct (f i s) as [s'|]; cbn [bind]; [|reflexivity].
      rewrite Hi by lia. cbn [bind]. apply IH; [lia|lia|]. now apply Nx. }
  intros s HI. apply (G n 0%nat fuel s); [exact Hf|lia|exact HI].
Qed.
Lemma u64_next i : z i < 2 ^ 63 -> asg U64 (V U64 (z i) + K 1)%C = Some (z (S i)).
Proof. intros H. casg (z (S i)); [reflexivity|cbn [opz]; lia|rg]. Qed.
Lemma char_u8 c : is_byte c -> asg U8 (V I32 c) = Some c.
Proof.
  intros H. unfold is_byte in H. rewrite (asg_u8 _ I32 c); [|apply ev_V; rg]. now rewrite u8_byte.
Qed.
Lemma eof_byte c : is_byte c -> cond (V I32 c == EOF_c)%C = Some false.
Proof.
  intros H. unfold EOF_c. rewrite c_minus by (unfold is_byte in H; unfold is_int; lia).
  replace (c =? -1) with false by (unfold is_byte in H; lia). reflexivity.
Qed.
Lemma wr_some (b : bytes) i d : (i + length d <= length b)%nat -> exists b', wr b i d = Some b'.
Proof. intros H. unfold wr. apply Nat.leb_le in H. rewrite H. eexists. reflexivity. Qed.

(** ** FindMarker *)
Lemma fm_fill_c_ok : forall k i len line f fuel, (k < fuel)%nat -> (i + k = len)%nat -> (len <= 50)%nat -> all_bytes f ->
  fm_fill_c fuel (z i) (z len) line f = fm_fill k i line f.
Proof.
  induction k as [|k IH]; intros i len line f fuel Hf Hi Hl Bf; (destruct fuel as [|fuel]; [lia|]); cbn [fm_fill_c fm_fill]; clt.
  - replace (z i <? z len) with false by lia. reflexivity.
  - replace (z i <? z len) with true by lia. destruct f as [|c f]; cbn [fgetc]; (cix i; [|reflexivity]).
    + change (asg U8 (V I32 (-1))) with (Some (u8 (-1))). cbn [bind]. destruct (wr line i [u8 (-1)]); cbn [bind]; reflexivity.
    + inversion Bf as [|? ? Bc Bf']; subst. rewrite char_u8 by exact Bc. cbn [bind].
      destruct (wr line i [c]) as [line'|]; cbn [bind]; [|reflexivity]. rewrite eof_byte by exact Bc. cbn [bind].
      rewrite u64_next by lia. cbn [bind]. apply IH; [lia|lia|lia|exact Bf'].
Qed.
Lemma fm_fill_len : forall k i line f e line' f', fm_fill k i line f = Some (e, line', f') -> length line' = length line /\ (all_bytes f -> all_bytes f').
Proof.
  induction k as [|k IH]; intros i line f e line' f'; cbn [fm_fill]; [now intros [= <- <- <-]|].
  destruct f as [|c f].
  - destruct (wr line i [u8 (-1)]) eqn:W; [|discriminate]. cbn [bind]. intros [= <- <- <-]. split; [exact (wr_length _ _ _ _ W)|auto].
  - destruct (wr line i [c]) eqn:W; [|discriminate]. cbn [bind]. intros H. apply IH in H. destruct H as [-> H].
    split; [exact (wr_length _ _ _ _ W)|]. intros B. apply H. now inversion B.
Qed.
Lemma move_c line len : (1 <= len <= 49)%nat -> length line = 50%nat ->
  cfor 51 U64 0 (V U64 (z len) - K 1)%C (fun i l =>
        j <- ix (V U64 i + K 1)%C ;; x <- get l j ;; k <- ix (V U64 i) ;; wr l k [x]) line
  = iterM (len - 1) 0 (fun i l => x <- get l (i + 1) ;; wr l i [x]) line.
Proof.
  intros Hl L. apply (cfor_gen (fun _ => True)); [lia| | | |exact I].
  - intros i Hi. clt. cbn [opz]. f_equal. replace (z (len - 1)) with (z len - 1) by lia. reflexivity.
  - intros i Hi. apply u64_next. lia.
  - intros i s Hi _. cix (i + 1)%nat; [|cbn [opz]; lia]. split; [|auto].
    destruct (get s (i + 1)) as [x|]; cbn [bind]; [|reflexivity]. cix i; [|reflexivity]. reflexivity.
Qed.
Lemma move_len k : forall i line line', iterM k i (fun i l => x <- get l (i + 1) ;; wr l i [x]) line = Some line' -> length line' = length line.
Proof.
  induction k as [|k IH]; intros i line line'; cbn [iterM]; [now intros [= <-]|].
  destruct (get line (i + 1)) as [x|]; cbn [bind]; [|discriminate]. destruct (wr line i [x]) as [l|] eqn:W; cbn [bind]; [|discriminate].
  intros H. apply IH in H. rewrite H. exact (wr_length _ _ _ _ W).
Qed.
Lemma fm_search_c_ok : forall f line marker len fuel, (length f < fuel)%nat -> (len <= 49)%nat -> length line = 50%nat -> all_bytes f ->
  fm_search_c fuel f line marker (z len) = fm_search f line marker len.
Proof.
  induction f as [|c f IH]; intros line marker len fuel Hf Hl L Bf; (destruct fuel as [|fuel]; [cbn in Hf; lia|]);
    cbn [fm_search_c fm_search]; rewrite Nat2Z.id;
    (destruct (strncmp_eq line marker len 0) as [[]|] eqn:Q; cbn [bind]; [reflexivity| |reflexivity]);
    (assert (L1 : (1 <= len)%nat) by (destruct len; [discriminate Q|lia]));
    (rewrite move_c; [|lia|exact L]);
    (destruct (iterM (len - 1) 0 _ line) as [line1|] eqn:M; cbn [bind]; [|reflexivity]);
    apply move_len in M; cbn [fgetc]; (cix (len - 1)%nat; [|cbn [opz]; lia]).
  - change (asg U8 (V I32 (-1))) with (Some (u8 (-1))). cbn [bind].
    destruct (wr_some line1 (len - 1) [u8 (-1)]) as [l2 ->]; [cbn [length]; lia|]. reflexivity.
  - inversion Bf as [|? ? Bc Bf']; subst. rewrite char_u8 by exact Bc. cbn [bind].
    destruct (wr line1 (len - 1) [c]) as [l2|] eqn:W; cbn [bind]; [|reflexivity]. rewrite eof_byte by exact Bc. cbn [bind].
    cix len; [|reflexivity]. destruct (wr l2 len [0]) as [l3|] eqn:W3; cbn [bind]; [|reflexivity].
    apply IH; [cbn in Hf; lia|exact Hl| |exact Bf'].
    apply wr_length in W. apply wr_length in W3. lia.
Qed.
Lemma FindMarker_c_ok line0 f marker : length line0 = 50%nat -> z (length marker) < 2 ^ 64 -> all_bytes f ->
  FindMarker_c line0 f marker = FindMarker line0 f marker.
Proof.
  intros L Hm Bf. unfold FindMarker_c, FindMarker. rewrite c_val by rg. cbn [bind].
  assert (Hb : cond ((K 50 - K 1) < V U64 (z (length marker)))%C = Some (49 <? z (length marker))).
  { clt. reflexivity. }
  rewrite Hb. cbn [bind]. clear Hb.
  set (len := if (MAX_MARKER_LEN - 1 <? length marker)%nat then (MAX_MARKER_LEN - 1)%nat else length marker).
  assert (Hl : (if 49 <? z (length marker) then asg U64 (K 50 - K 1)%C else Some (z (length marker))) = Some (z len)).
  { unfold len, MAX_MARKER_LEN. change (50 - 1)%nat with 49%nat. destruct (Nat.ltb_spec 49 (length marker)).
    - replace (49 <? z (length marker)) with true by lia. reflexivity.
    - replace (49 <? z (length marker)) with false by lia. reflexivity. }
  rewrite Hl. cbn [bind]. clear Hl.
  assert (Hlen : (len <= 49)%nat) by (unfold len, MAX_MARKER_LEN; change (50 - 1)%nat with 49%nat; destruct (Nat.ltb_spec 49 (length marker)); lia).
  clearbody len. rewrite (fm_fill_c_ok len 0) by (lia || exact Bf).
  destruct (fm_fill len 0 line0 f) as [[[[] line] f']|] eqn:Q; cbn [bind]; [reflexivity| |reflexivity].
  apply fm_fill_len in Q. destruct Q as [Ll Bf']. cix len; [|reflexivity].
  destruct (wr line len [0]) as [l2|] eqn:W; cbn [bind]; [|reflexivity]. apply wr_length in W.
  apply fm_search_c_ok; [lia|exact Hlen|lia|now apply Bf'].
Qed.

(** ** ReadHex *)
Lemma cond_ge' a b : is_int a -> is_int b -> cond (V I32 a >= V I32 b)%C = Some (b <=? a).
Proof.
  intros Ha Hb. unfold is_int in *. rewrite (cond_ge _ _ I32 a b); [reflexivity|apply ev_V; rg|].
  exists I32. split; [apply ev_V; rg|split; rg].
Qed.
Lemma between_c_ok lo ch hi : is_int lo -> is_int ch -> is_int hi -> between_c lo ch hi = Some ((lo <=? ch) && (ch <=? hi)).
Proof.
  intros Hl Hc Hh. unfold between_c, K. rewrite cond_ge' by assumption. cbn [bind]. destruct (lo <=? ch); cbn [andb]; [|reflexivity].
  now apply cond_ge'.
Qed.
Lemma hex_value_c_ok ch : is_byte ch -> hex_value_c ch = Some (hex_value ch).
Proof.
  intros H. unfold is_byte in H. unfold hex_value_c, hex_value. rewrite !between_c_ok by (unfold is_int; lia). cbn [bind].
  destruct ((48 <=? ch) && (ch <=? 57)) eqn:E1.
  - casg (u8 (ch - 48)); [reflexivity|cbn [opz width]; try reflexivity; unfold u8; rewrite Z.mod_small by lia; reflexivity|apply in_range_U8, u8_range].
  - destruct ((65 <=? ch) && (ch <=? 70)) eqn:E2.
    + casg (u8 (ch - 65 + 10)); [reflexivity|cbn [opz width]; try reflexivity; unfold u8; rewrite Z.mod_small by lia; reflexivity|apply in_range_U8, u8_range].
    + destruct ((97 <=? ch) && (ch <=? 102)) eqn:E3; [|reflexivity].
      casg (u8 (ch - 97 + 10)); [reflexivity|cbn [opz width]; try reflexivity; unfold u8; rewrite Z.mod_small by lia; reflexivity|apply in_range_U8, u8_range].
Qed.
Lemma hex_value_byte ch : is_byte (hex_value ch).
Proof.
  unfold hex_value. repeat (match goal with |- is_byte (if ?c then _ else _) => destruct c end; [apply byte_u8|]). split; lia.
Qed.
Lemma lor_small a b k : 0 < k -> 0 <= a < 2 ^ k -> 0 <= b < 2 ^ k -> 0 <= Z.lor a b < 2 ^ k.
Proof.
  intros Hk Ha Hb. assert (N : 0 <= Z.lor a b) by (apply Z.lor_nonneg; lia). split; [exact N|].
  destruct (Z.eq_dec (Z.lor a b) 0) as [->|]; [lia|].
  apply Z.log2_lt_pow2; [lia|]. rewrite Z.log2_lor by lia.
  apply Z.max_lub_lt; [destruct (Z.eq_dec a 0) as [->|]|destruct (Z.eq_dec b 0) as [->|]];
    (exact Hk || (apply Z.log2_lt_pow2; lia)).
Qed.
Lemma pair_c x e y t : is_byte x -> ev e t y -> is_byte y -> promote t = I32 ->
  asg U8 (Cast U8 ((B x << K 4) .| e))%C = Some (u8 (Z.lor (Z.shiftl x 4) y)).
Proof.
  intros Hx He Hy Pt. unfold is_byte in *.
  assert (Sx : 0 <= Z.shiftl x 4 < 2 ^ 12) by (rewrite Z.shiftl_mul_pow2 by lia; change (2 ^ 4) with 16; change (2 ^ 12) with 4096; lia).
  assert (Lo : 0 <= Z.lor (Z.shiftl x 4) y < 2 ^ 12) by (apply lor_small; [lia|exact Sx|change (2 ^ 12) with 4096; lia]).
  change (2 ^ 12) with 4096 in *.
  assert (E1 : ev (B x << K 4)%C I32 (Z.shiftl x 4)).
  { rewrite <- (u8_byte x) at 2 by exact Hx. change I32 with (promote U8).
    apply (ev_shl _ _ U8 I32); [apply ev_B|apply ev_K; lia|rewrite u8_byte by exact Hx; lia|cbn; lia|].
    rewrite u8_byte by exact Hx. rg. }
  assert (E2 : ev ((B x << K 4) .| e)%C I32 (Z.lor (Z.shiftl x 4) y)).
  { change (Z.lor (Z.shiftl x 4) y) with (opz OOr (Z.shiftl x 4) y).
    pose proof (ev_bin OOr _ _ I32 t (Z.shiftl x 4) y E1 He eq_refl) as H. rewrite Pt in H. cbn [promote common is_cmp] in H.
    apply H; [rg|rg|discriminate|]. intros _. cbn [opz]. rg. }
  rewrite (asg_is U8 _ U8 (u8 (Z.lor (Z.shiftl x 4) y)) (u8 (Z.lor (Z.shiftl x 4) y))); [reflexivity| |reflexivity|apply in_range_U8, u8_range].
  exact (ev_cast_mod U8 _ I32 _ E2 ltac:(discriminate)).
Qed.
Lemma shr_c y : is_byte y -> ev (B y >> K 4)%C I32 (Z.shiftr y 4) /\ is_byte (Z.shiftr y 4).
Proof.
  intros Hy. split.
  - rewrite <- (u8_byte y) at 2 by exact Hy. change I32 with (promote U8).
    apply (ev_shr _ _ U8 I32); [apply ev_B|apply ev_K; lia|apply u8_range|cbn; lia].
  - unfold is_byte in *. rewrite Z.shiftr_div_pow2 by lia. change (2 ^ 4) with 16.
    split; [apply Z.div_pos; lia|apply Z.div_lt_upper_bound; lia].
Qed.
Lemma shift_in_c_ok A L ich : (1 <= L)%nat -> z L < 2 ^ 31 -> all_bytes A -> is_byte ich ->
  shift_in_c A (z L) ich = shift_in A L ich.
Proof.
  intros HL Hm BA Bi. unfold shift_in_c, shift_in. rewrite Nat2Z.id.
  rewrite (cfor_gen all_bytes I32 (L - 1) _ _ (fun i A =>
         x <- get A i ;; y <- get A (i + 1) ;; wr A i [u8 (Z.lor (Z.shiftl x 4) (Z.shiftr y 4))])); [|lia| | | |exact BA].
  - destruct (iterM (L - 1) 0 _ A) as [A1|] eqn:It; cbn [bind]; [|reflexivity].
    assert (B1 : all_bytes A1).
    { revert It. apply (iterM_keeps (fun _ => all_bytes)); [|exact BA]. intros i s s' _ Bs.
      destruct (get s i) as [x|]; [|discriminate]. cbn [bind]. destruct (get s (i + 1)) as [y|]; [|discriminate]. cbn [bind].
      intros W. apply (wr_bytes _ _ _ _ Bs) in W; [exact W|]. apply one_byte, byte_u8. }
    cix (L - 1)%nat; [|cbn [opz]; lia]. destruct (get A1 (L - 1)) as [x|] eqn:G; cbn [bind]; [|reflexivity].
    rewrite (pair_c x (V U8 ich) ich U8); [reflexivity|exact (get_byte _ _ _ B1 G)|apply ev_V; unfold is_byte in Bi; rg|exact Bi|reflexivity].
  - intros i Hi. clt. cbn [opz]. replace (z (L - 1)) with (z L - 1) by lia. reflexivity.
  - intros i Hi. casg (z (S i)); [reflexivity|cbn [opz]; lia|rg].
  - intros i s Hi Bs. cix i; [|reflexivity]. destruct (get s i) as [x|] eqn:Gx; cbn [bind]; [|split; [reflexivity|discriminate]].
    cix (i + 1)%nat; [|cbn [opz]; lia]. destruct (get s (i + 1)) as [y|] eqn:Gy; cbn [bind]; [|split; [reflexivity|discriminate]].
    pose proof (shr_c y (get_byte _ _ _ Bs Gy)) as [Ey By].
    rewrite (pair_c x _ (Z.shiftr y 4) I32); [|exact (get_byte _ _ _ Bs Gx)|exact Ey|exact By|reflexivity]. cbn [bind].
    split; [reflexivity|]. intros s' W. apply (wr_bytes _ _ _ _ Bs) in W; [exact W|]. apply one_byte, byte_u8.
Qed.
Lemma shift_in_bytes A L ich A' : all_bytes A -> shift_in A L ich = Some A' -> all_bytes A'.
Proof.
  intros BA. unfold shift_in. destruct (iterM (L - 1) 0 _ A) as [A1|] eqn:It; cbn [bind]; [|discriminate].
  assert (B1 : all_bytes A1).
  { revert It. apply (iterM_keeps (fun _ => all_bytes)); [|exact BA]. intros i s s' _ Bs.
    destruct (get s i) as [x|]; [|discriminate]. cbn [bind]. destruct (get s (i + 1)) as [y|]; [|discriminate]. cbn [bind].
    intros W. apply (wr_bytes _ _ _ _ Bs) in W; [exact W|]. apply one_byte, byte_u8. }
  destruct (get A1 (L - 1)) as [x|]; cbn [bind]; [|discriminate].
  intros W. apply (wr_bytes _ _ _ _ B1) in W; [exact W|]. apply one_byte, byte_u8.
Qed.
Lemma rh_loop_c_ok : forall f A L started fuel, (length f < fuel)%nat -> (1 <= L)%nat -> z L < 2 ^ 31 -> all_bytes f -> all_bytes A ->
  rh_loop_c fuel f A (z L) (if started : bool then 1 else 0) = rh_loop f A L started.
Proof.
  induction f as [|c f IH]; intros A L started fuel Hf HL Hm Bf BA; (destruct fuel as [|fuel]; [cbn in Hf; lia|]); cbn [rh_loop_c rh_loop fgetc].
  - reflexivity.
  - inversion Bf as [|? ? Bc Bf']; subst. rewrite eof_byte by exact Bc. cbn [bind].
    cbn [length] in Hf. destruct (isxdigit c); cbn [negb].
    + change (asg I32 (K 1)) with (Some 1). cbn [bind]. rewrite hex_value_c_ok by exact Bc. cbn [bind].
      rewrite shift_in_c_ok by (assumption || apply hex_value_byte).
      destruct (shift_in A L (hex_value c)) as [A'|] eqn:Sh; cbn [bind]; [|reflexivity].
      apply (IH A' L true); [lia|exact HL|exact Hm|exact Bf'|exact (shift_in_bytes _ _ _ _ BA Sh)].
    + destruct started; cbn [negb].
      * reflexivity.
      * change (cond (V I32 0)) with (Some false). cbn [bind].
        assert (Hn : cond (V I32 c == K 10)%C = Some (c =? 10)) by (unfold is_byte in Bc; ceq; reflexivity).
        rewrite Hn. cbn [bind]. destruct (c =? 10); [reflexivity|]. apply (IH A L false); [lia|exact HL|exact Hm|exact Bf'|exact BA].
Qed.
Lemma fm_search_file : forall f line marker len r f', all_bytes f -> fm_search f line marker len = Some (r, f') -> all_bytes f' /\ (r = 0 \/ r = 1).
Proof.
  induction f as [|c f IH]; intros line marker len r f' Bf; cbn [fm_search];
    (destruct (strncmp_eq line marker len 0) as [[]|]; cbn [bind]; [intros [= <- <-]; auto| |discriminate]);
    (destruct (iterM (len - 1) 0 _ line) as [l1|]; cbn [bind]; [|discriminate]); [intros [= <- <-]; auto|].
  destruct (wr l1 (len - 1) [c]) as [l2|]; cbn [bind]; [|discriminate]. destruct (wr l2 len [0]) as [l3|]; cbn [bind]; [|discriminate].
  apply IH. now inversion Bf.
Qed.
Lemma FindMarker_file line0 f marker r f' : all_bytes f -> FindMarker line0 f marker = Some (r, f') -> all_bytes f' /\ (r = 0 \/ r = 1).
Proof.
  intros Bf. unfold FindMarker. destruct (fm_fill _ 0 line0 f) as [[[[] l1] f1]|] eqn:Q; cbn [bind]; [| |discriminate];
    apply fm_fill_len in Q; destruct Q as [_ B1].
  - intros [= <- <-]. auto.
  - destruct (wr l1 _ [0]) as [l2|]; cbn [bind]; [|discriminate]. apply fm_search_file. auto.
Qed.
Lemma ReadHex_c_ok line0 f A L s : length line0 = 50%nat -> z (length s) < 2 ^ 64 -> all_bytes f -> all_bytes (skipn (Z.to_nat L) A) ->
  is_int L -> z (length A) < 2 ^ 63 ->
  ReadHex_c line0 f A L s = ReadHex line0 f A L s.
Proof.
  intros L0 Hs Bf BA HL HA. unfold is_int in HL. unfold ReadHex_c, ReadHex.
  assert (Hz : cond (V I32 L == K 0)%C = Some (L =? 0)) by (ceq; reflexivity).
  rewrite Hz. cbn [bind]. destruct (Z.eqb_spec L 0) as [->|N]; [reflexivity|].
  rewrite c_res by exact HL. cbn [bind]. unfold memset0. destruct (Z.ltb_spec 0 L) as [P|P].
  - assert (U : u64 L = L) by (apply Z.mod_small; lia). rewrite U. cbn [guard bind].
    assert (W : (_ <- guard (L <=? z (length A)) ;; wr A 0 (repeat 0 (Z.to_nat L))) = wr A 0 (repeat 0 (Z.to_nat L))).
    { destruct (Z.leb_spec L (z (length A))); [reflexivity|]. cbn [guard bind]. unfold wr. rewrite repeat_length.
      replace (0 + Z.to_nat L <=? length A)%nat with false by (symmetry; apply Nat.leb_gt; lia). reflexivity. }
    rewrite W. clear W. destruct (wr A 0 (repeat 0 (Z.to_nat L))) as [A1|] eqn:W1; cbn [bind]; [|reflexivity].
    assert (B1 : all_bytes A1).
    { unfold wr in W1. destruct (_ <=? _)%nat; [|discriminate W1]. injection W1 as <-. rewrite repeat_length. cbn [firstn app Nat.add].
      apply Forall_app. split; [|exact BA]. apply Forall_forall. intros x Hx. apply repeat_spec in Hx. subst. split; lia. }
    rewrite FindMarker_c_ok by assumption.
    destruct (FindMarker line0 f s) as [[r f']|] eqn:F; cbn [bind]; [|reflexivity].
    apply FindMarker_file in F; [|exact Bf]. destruct F as [Bf' [->| ->]].
    + reflexivity.
    + change (cond (V I32 1)) with (Some true). cbn [bind]. change (1 =? 0) with false. cbn iota.
      pose proof (rh_loop_c_ok f' A1 (Z.to_nat L) false (S (length f'))) as R. rewrite Z2Nat.id in R by lia. rewrite R by (lia || assumption). reflexivity.
  - cbn [guard bind].
    assert (U : u64 L = L + 2 ^ 64).
    { unfold u64. rewrite <- (Z.mod_small (L + 2 ^ 64) (2 ^ 64)) by lia. rewrite <- (Z.mul_1_l (2 ^ 64)) at 2. now rewrite Z.mod_add by lia. }
    rewrite U. replace (L + 2 ^ 64 <=? z (length A)) with false by lia. reflexivity.
Qed.

(** ** fprintBstr *)
Lemma print_iter A : forall k i out, (i + k <= length A)%nat ->
  iterM k i (fun i out => x <- get A i ;; Some (out ++ print_hex x)) out = Some (out ++ flat_map print_hex (firstn k (skipn i A))).
Proof.
  induction k as [|k IH]; intros i out H; cbn [iterM]; [cbn; now rewrite app_nil_r|].
  destruct (get A i) as [x|] eqn:G; [|apply nth_error_None in G; lia]. cbn [bind]. rewrite IH by lia.
  unfold get in G. apply nth_error_split in G. destruct G as (a & b & -> & <-).
  replace (skipn (length a) (a ++ x :: b)) with (x :: b) by (now rewrite skipn_app, skipn_all, Nat.sub_diag).
  replace (skipn (S (length a)) (a ++ x :: b)) with b by (rewrite skipn_app, skipn_all2 by lia; replace (S (length a) - length a)%nat with 1%nat by lia; reflexivity).
  cbn [firstn flat_map]. now rewrite <- app_assoc.
Qed.
Lemma fprintBstr_c_ok s A L : 0 <= L <= z (length A) -> z (length A) < 2 ^ 63 -> fprintBstr_c s A L = fprintBstr s A L.
Proof.
  intros HL HA. unfold fprintBstr_c, fprintBstr.
  rewrite (cfor_gen (fun _ => True) U64 (Z.to_nat L) _ _ (fun i out => x <- get A i ;; Some (out ++ print_hex x))); [|lia| | | |exact I].
  - rewrite print_iter by lia. cbn [bind skipn]. unfold rd. rewrite (proj2 (Nat.leb_le (0 + Z.to_nat L) (length A))) by lia.
    cbn [bind skipn]. assert (Hz : cond (V U64 L == K 0)%C = Some (L =? 0)) by (ceq; reflexivity). rewrite Hz. cbn [bind]. now rewrite <- app_assoc.
  - intros i Hi. clt. now rewrite Z2Nat.id by lia.
  - intros i Hi. apply u64_next. lia.
  - intros i o Hi _. cix i; [|reflexivity]. split; [reflexivity|auto].
Qed.

(** ** Against the specification *)
Lemma c_find_marker : forall line0 f marker, length line0 = 50%nat -> all_bytes f -> Forall (fun c => c <> 0) marker -> z (length marker) < 2 ^ 64 ->
  let m := firstn 49 marker in
  (exists p, first_at m f p /\ FindMarker_c line0 f marker = Some (1, skipn (p + length m) f))
  \/ ((forall p, ~ occurs_at m f p) /\ FindMarker_c line0 f marker = Some (0, [])).
Proof. intros line0 f marker L Bf Hm Hl. rewrite FindMarker_c_ok by assumption. now apply find_marker. Qed.
Lemma c_read_hex : forall line0 f A L s, length line0 = 50%nat -> all_bytes f -> all_bytes A -> Forall (fun c => c <> 0) s -> z (length s) < 2 ^ 64 ->
  0 < L < 2 ^ 31 -> L <= z (length A) < 2 ^ 63 ->
  (forall p vs rem, first_at (firstn 49 s) f p -> hex_field (skipn (p + length (firstn 49 s)) f) vs rem ->
     ReadHex_c line0 f A L s = Some (1, be_bytes (Z.to_nat L) (number 16 vs) ++ skipn (Z.to_nat L) A, rem))
  /\ ((forall p, ~ occurs_at (firstn 49 s) f p) ->
     ReadHex_c line0 f A L s = Some (0, repeat 0 (Z.to_nat L) ++ skipn (Z.to_nat L) A, [])).
Proof.
  intros line0 f A L s L0 Bf BA Hs Hl HL HA. rewrite ReadHex_c_ok; [|assumption|assumption|assumption|apply all_skipn', BA|unfold is_int; lia|lia].
  apply read_hex; [exact L0|exact Hs|lia|lia].
Qed.
Lemma c_read_bad : forall line0 f A L s, length line0 = 50%nat -> all_bytes f -> all_bytes A -> z (length s) < 2 ^ 64 ->
  - 2 ^ 31 <= L < 2 ^ 31 -> z (length A) < 2 ^ 63 -> L < 0 \/ z (length A) < L ->
  ReadHex_c line0 f A L s = None.
Proof.
  intros line0 f A L s L0 Bf BA Hl HL HA Hb. rewrite ReadHex_c_ok by (assumption || apply all_skipn', BA). unfold ReadHex.
  replace (L =? 0) with false by lia. destruct (Z.ltb_spec 0 L); cbn [guard bind]; [|reflexivity].
  unfold wr. rewrite repeat_length. rewrite (proj2 (Nat.leb_gt (0 + Z.to_nat L) (length A))) by lia. reflexivity.
Qed.
Lemma c_write_read : forall line0 t A L s v, length line0 = 50%nat -> all_bytes t -> all_bytes A -> all_bytes s ->
  Forall (fun c => c <> 0) s -> (length s <= 49)%nat ->
  0 < L < 2 ^ 31 -> L <= z (length A) < 2 ^ 63 -> L <= z (length v) < 2 ^ 63 -> all_bytes v ->
  exists x, fprintBstr_c s v L = Some x /\ x = line s (hex (firstn (Z.to_nat L) v))
    /\ ReadHex_c line0 (x ++ t) A L s = Some (1, firstn (Z.to_nat L) v ++ skipn (Z.to_nat L) A, t).
Proof.
  intros line0 t A L s v L0 Bt BA Bs Hs Ls HL HA Hv Bv.
  destruct (write_read line0 t A L s v) as (x & H1 & H2 & H3); [exact L0|exact Hs|exact Ls|lia|lia|lia|exact Bv|].
  exists x. rewrite fprintBstr_c_ok by lia. split; [exact H1|]. split; [exact H2|].
  rewrite ReadHex_c_ok; [exact H3|exact L0|lia| |apply all_skipn', BA|unfold is_int; lia|lia].
  apply Forall_app. split; [|exact Bt].
  unfold fprintBstr in H1. destruct (rd v 0 (Z.to_nat L)) as [y|] eqn:R; [|discriminate]. cbn [bind] in H1. injection H1 as <-.
  pose proof (rd_bytes _ _ _ _ Bv R) as By.
  apply Forall_app. split; [exact Bs|]. apply Forall_app. split.
  - apply Forall_flat_map. apply Forall_forall. intros c Hc. pose proof (proj1 (Forall_forall _ _) By c Hc) as Hb.
    unfold print_hex, hex_digit, is_byte in *.
    assert (0 <= Z.shiftr c 4 < 16) by (rewrite Z.shiftr_div_pow2 by lia; change (2 ^ 4) with 16; split; [apply Z.div_pos; lia|apply Z.div_lt_upper_bound; lia]).
    assert (0 <= Z.land c 15 < 16) by (change 15 with (Z.ones 4); rewrite Z.land_ones by lia; apply Z.mod_pos_bound; reflexivity).
    constructor; [destruct (Z.shiftr c 4 <? 10); lia|]. constructor; [destruct (Z.land c 15 <? 10); lia|constructor].
  - replace (L =? 0) with false by lia. cbn. constructor; [split; lia|constructor].
Qed.
