(** Reading and writing of the known-answer program: searching, numerals, hexadecimal fields. *)
From Coq Require Import String.
From Verif Require Import Base BaseFacts Params Spec Rng RngSpec RngProofs Kat Text KatSpec.

(** ** FindMarker *)
Lemma get_app {A} (a : list A) x b : get (a ++ x :: b) (length a) = Some x.
Proof. unfold get. rewrite nth_error_app2, Nat.sub_diag by lia. reflexivity. Qed.
Lemma get_app' {A} (a : list A) x b i : i = length a -> get (a ++ x :: b) i = Some x.
Proof. intros ->. apply get_app. Qed.

Lemma strncmp_ok : forall m lp mp line' m', Forall (fun c => c <> 0) m -> length lp = length mp ->
  forall w, length w = length m ->
  strncmp_eq (lp ++ w ++ line') (mp ++ m ++ m') (length m) (length lp)
  = Some (if list_eq_dec Z.eq_dec w m then true else false).
Proof.
  induction m as [|c m IH]; intros lp mp line' m' Hm Ll w Lw; destruct w as [|a w]; try discriminate; [reflexivity|].
  cbn [length strncmp_eq]. cbn [app]. rewrite get_app. cbn [bind].
  rewrite <- app_assoc. cbn [app]. rewrite (get_app' mp) by exact Ll. cbn [bind].
  inversion Hm as [|? ? Hc Hm']; subst. destruct (Z.eqb_spec a c) as [->|Hne]; cbn [negb].
  - replace (c =? 0) with false by (symmetry; apply Z.eqb_neq, Hc).
    specialize (IH (lp ++ [c]) (mp ++ [c]) line' m' Hm'). rewrite !app_length in IH. cbn [length] in IH.
    specialize (IH ltac:(lia) w ltac:(cbn in Lw; lia)). rewrite <- !app_assoc in IH. cbn [app] in IH.
    replace (length lp + 1)%nat with (S (length lp)) in IH by lia. rewrite IH.
    destruct (list_eq_dec Z.eq_dec w m) as [Hw|Hw], (list_eq_dec Z.eq_dec (c :: w) (c :: m)) as [E|E]; congruence.
  - destruct (list_eq_dec Z.eq_dec (a :: w) (c :: m)) as [E|E]; congruence.
Qed.

Lemma shift_left_ok k : forall pre x ys, (k <= length ys)%nat ->
  exists z, iterM k (length pre) (fun i l => x <- get l (i + 1) ;; wr l i [x]) (pre ++ x :: ys)
    = Some (pre ++ firstn k ys ++ z :: skipn k ys).
Proof.
  induction k as [|k IH]; intros pre x ys Hk; cbn [iterM firstn skipn app].
  - exists x. reflexivity.
  - destruct ys as [|y ys]; [cbn in Hk; lia|].
    replace (get (pre ++ x :: y :: ys) (length pre + 1)) with (Some y).
    2: { symmetry. change (pre ++ x :: y :: ys) with (pre ++ [x] ++ y :: ys). rewrite app_assoc.
         apply get_app'. rewrite app_length. reflexivity. }
    cbn [bind]. change (x :: y :: ys) with ([x] ++ y :: ys). rewrite wr_app by reflexivity. cbn [bind].
    destruct (IH (pre ++ [y]) y ys ltac:(cbn in Hk; lia)) as [z Ez].
    rewrite app_length in Ez. cbn [length] in Ez. replace (length pre + 1)%nat with (S (length pre)) in Ez by lia.
    rewrite <- !app_assoc in Ez. cbn [app] in *. rewrite Ez. exists z. cbn [firstn skipn].
    reflexivity.
Qed.

Section Search.
Variable m : bytes.
Hypothesis Hm : Forall (fun c => c <> 0) m.
Variable mp : bytes.   (* the rest of the marker *)

Lemma search_ok : forall f w rest, length w = length m -> m <> [] ->
  (exists p, first_at m (w ++ f) p /\ fm_search f (w ++ 0 :: rest) (m ++ mp) (length m) = Some (1, skipn (p + length m) (w ++ f)))
  \/ ((forall p, ~ occurs_at m (w ++ f) p) /\ fm_search f (w ++ 0 :: rest) (m ++ mp) (length m) = Some (0, [])).
Proof.
  intros f. induction f as [|c f IH]; intros w rest Lw Hne; unfold fm_search; fold fm_search.
  - assert (Sc := strncmp_ok m [] [] (0 :: rest) mp Hm eq_refl w Lw). cbn [app length] in Sc.
    replace (strncmp_eq (w ++ 0 :: rest) (m ++ mp) (length m) 0)
      with (Some (if list_eq_dec Z.eq_dec w m then true else false)). cbn [bind].
    destruct (list_eq_dec Z.eq_dec w m) as [->|Hw].
    + left. exists 0%nat. split.
      * split; [exists []; reflexivity|intros; lia].
      * cbn [plus]. rewrite skipn_app, skipn_all, Nat.sub_diag. reflexivity.
    + right. split.
      * intros p (r & E). assert (length (skipn p (w ++ [])) = length (m ++ r)) as L by now rewrite E.
        rewrite skipn_length, !app_length in L. cbn [length] in L.
        destruct m as [|c0 m0]; [congruence|]. cbn [length] in *.
        assert (p = 0%nat) by lia. subst. cbn [skipn] in E. rewrite app_nil_r in E.
        destruct r; [rewrite app_nil_r in E; congruence|cbn in L; lia].
      * destruct w as [|x w]; [destruct m; [congruence|discriminate]|].
        destruct (shift_left_ok (length m - 1) [] x (w ++ 0 :: rest)) as [z Ez].
        { rewrite app_length. cbn [length] in *. lia. }
        cbn [app length] in *. rewrite Ez. reflexivity.
  - assert (Sc := strncmp_ok m [] [] (0 :: rest) mp Hm eq_refl w Lw). cbn [app length] in Sc.
    replace (strncmp_eq (w ++ 0 :: rest) (m ++ mp) (length m) 0)
      with (Some (if list_eq_dec Z.eq_dec w m then true else false)). cbn [bind].
    destruct (list_eq_dec Z.eq_dec w m) as [->|Hw].
    + left. exists 0%nat. split.
      * split; [exists (c :: f); reflexivity|intros; lia].
      * cbn [plus]. rewrite skipn_app, skipn_all, Nat.sub_diag. reflexivity.
    + destruct w as [|x w]; [destruct m; [congruence|discriminate]|].
      destruct (shift_left_ok (length m - 1) [] x (w ++ 0 :: rest)) as [z Ez].
      { rewrite app_length. cbn [length] in *. lia. }
      cbn [app length] in *. rewrite Ez. cbn [bind]. clear Ez.
      assert (Lm : (length m - 1)%nat = length w) by lia. rewrite Lm.
      rewrite firstn_app, firstn_all, Nat.sub_diag, firstn_O, app_nil_r.
      rewrite skipn_app, skipn_all, Nat.sub_diag. cbn [skipn app].
      change (z :: 0 :: rest) with ([z] ++ 0 :: rest). rewrite wr_app by reflexivity. cbn [bind].
      replace (w ++ [c] ++ 0 :: rest) with ((w ++ [c]) ++ [0] ++ rest) by now rewrite <- app_assoc.
      rewrite wr_app' by (try reflexivity; rewrite app_length; cbn [length]; lia). cbn [bind].
      destruct (IH (w ++ [c]) rest) as [(p & [(r & O) N] & E)|[N E]].
      { rewrite app_length. cbn [length]. lia. } { exact Hne. }
      * left. exists (S p). rewrite <- !app_assoc in O, N, E. rewrite <- ?app_assoc. cbn [app] in *.
        rewrite E. split; [split|rewrite <- ?app_assoc; reflexivity].
        -- exists r. exact O.
        -- intros [|q] Hq.
           ++ intros (r' & E'). cbn [skipn] in E'. apply Hw.
              assert (E'' : (x :: w) ++ c :: f = m ++ r') by exact E'.
              apply app_inj_len in E''; [exact (proj1 E'')|cbn [length]; lia].
           ++ apply N. lia.
      * right. rewrite <- !app_assoc in N, E. rewrite <- ?app_assoc. cbn [app] in *. rewrite E. split; [|reflexivity].
        intros [|p].
        -- intros (r' & E'). cbn [skipn] in E'. apply Hw.
           assert (E'' : (x :: w) ++ c :: f = m ++ r') by exact E'.
           apply app_inj_len in E''; [exact (proj1 E'')|cbn [length]; lia].
        -- apply N.
Qed.
End Search.

Lemma fill_ok k : forall pre line f, (k < length line)%nat ->
  fm_fill k (length pre) (pre ++ line) f
  = if (k <=? length f)%nat then Some (false, pre ++ firstn k f ++ skipn k line, skipn k f)
    else Some (true, pre ++ f ++ [255] ++ skipn (length f + 1) line, []).
Proof.
  induction k as [|k IH]; intros pre line f Hk; cbn [fm_fill]; [reflexivity|].
  destruct line as [|x line]; [cbn in Hk; lia|]. change (x :: line) with ([x] ++ line).
  destruct f as [|c f].
  - rewrite wr_app by reflexivity. reflexivity.
  - rewrite wr_app by reflexivity. cbn [bind].
    specialize (IH (pre ++ [c]) line f ltac:(cbn in Hk; lia)). rewrite app_length in IH. cbn [length] in IH.
    replace (length pre + 1)%nat with (S (length pre)) in IH by lia. rewrite <- !app_assoc in IH. cbn [app length] in *.
    rewrite IH. cbn [firstn skipn app plus]. reflexivity.
Qed.

(** What the program looks for: at most 49 bytes. *)
Definition marker_of (marker : bytes) : bytes := firstn 49 marker.

Theorem find_marker line0 f marker : length line0 = 50%nat -> Forall (fun c => c <> 0) marker ->
  (exists p, first_at (marker_of marker) f p
     /\ FindMarker line0 f marker = Some (1, skipn (p + length (marker_of marker)) f))
  \/ ((forall p, ~ occurs_at (marker_of marker) f p) /\ FindMarker line0 f marker = Some (0, [])).
Proof.
  intros L Hz. set (m := marker_of marker).
  assert (Lm : length m = if (MAX_MARKER_LEN - 1 <? length marker)%nat then (MAX_MARKER_LEN - 1)%nat else length marker).
  { unfold m, marker_of. rewrite firstn_length. unfold MAX_MARKER_LEN. destruct (50 - 1 <? length marker)%nat eqn:E; lia. }
  assert (Bm : (length m <= 49)%nat) by (unfold m, marker_of; rewrite firstn_length; lia).
  assert (Sp : marker = m ++ skipn 49 marker) by (unfold m, marker_of; now rewrite firstn_skipn).
  assert (Hm : Forall (fun c => c <> 0) m) by (rewrite Sp in Hz; apply Forall_app in Hz; apply Hz).
  clearbody m. unfold FindMarker. rewrite <- Lm. clear Lm.
  assert (Fl := fill_ok (length m) [] line0 f ltac:(lia)). cbn [app length] in Fl. rewrite Fl. clear Fl.
  destruct (length m <=? length f)%nat eqn:E.
  - apply Nat.leb_le in E. cbn [bind].
    assert (exists y rest, skipn (length m) line0 = y :: rest) as (y & rest & Es).
    { destruct (skipn (length m) line0) eqn:Q; [|eauto]. apply (f_equal (@length Z)) in Q. rewrite skipn_length in Q. cbn [length] in Q. lia. }
    rewrite Es. change (y :: rest) with ([y] ++ rest).
    rewrite wr_app' by (try reflexivity; rewrite firstn_length; lia). cbn [bind app].
    destruct (Nat.eq_dec (length m) 0) as [Z|NZ].
    + left. exists 0%nat. destruct m as [|? ?]; [|discriminate]. split; [split; [exists f; reflexivity|intros; lia]|].
      cbn [length firstn skipn app plus]. destruct f; reflexivity.
    + rewrite Sp. replace (length m) with (length m) by reflexivity.
      destruct (search_ok m Hm (skipn 49 marker) (skipn (length m) f) (firstn (length m) f) rest) as [(p & F & S)|[N S]].
      * rewrite firstn_length. lia.
      * intros ->. now apply NZ.
      * rewrite firstn_skipn in F, S. left. exists p. rewrite S. auto.
      * rewrite firstn_skipn in N. right. rewrite S. auto.
  - apply Nat.leb_gt in E. cbn [bind]. right. split; [|reflexivity].
    intros p (r & O). apply (f_equal (@length Z)) in O. rewrite skipn_length, app_length in O. lia.
Qed.

Lemma first_unique m f p q : first_at m f p -> first_at m f q -> p = q.
Proof.
  intros [O N] [O' N']. destruct (Nat.lt_trichotomy p q) as [H|[H|H]]; [|exact H|].
  - destruct (N' _ H O).
  - destruct (N _ H O').
Qed.
(** Literal text before the marker. *)
Definition absent (m a : bytes) : bool :=
  forallb (fun q => if list_eq_dec Z.eq_dec (firstn (length m) (skipn q (a ++ m))) m then false else true) (seq 0 (length a)).
Lemma first_here m a rest : absent m a = true -> first_at m (a ++ m ++ rest) (length a).
Proof.
  intros H. split.
  - exists rest. rewrite skipn_app, skipn_all, Nat.sub_diag. reflexivity.
  - intros q Hq (r & E). unfold absent in H. rewrite forallb_forall in H. specialize (H q).
    destruct (list_eq_dec _ _ _) as [_|Ne]; [specialize (H ltac:(apply in_seq; lia)); discriminate|].
    apply Ne. apply (f_equal (firstn (length m))) in E.
    rewrite (firstn_app (length m) m), firstn_all, Nat.sub_diag, firstn_O, app_nil_r in E.
    rewrite app_assoc, (skipn_app q (a ++ m)), firstn_app in E.
    replace (length m - length (skipn q (a ++ m)))%nat with 0%nat in E by (rewrite skipn_length, app_length; lia).
    rewrite firstn_O, app_nil_r in E. exact E.
Qed.
Lemma find_here line0 m a rest : length line0 = 50%nat -> (length m <= 49)%nat ->
  forallb (fun c => negb (c =? 0)) m = true -> absent m a = true ->
  FindMarker line0 (a ++ m ++ rest) m = Some (1, rest).
Proof.
  intros L Lm Z A. pose proof (first_here m a rest A) as F.
  assert (Em : marker_of m = m) by (apply firstn_all2; lia).
  destruct (find_marker line0 (a ++ m ++ rest) m L) as [(p & F' & E)|[N E]]; rewrite ?Em in *.
  - apply Forall_forall. intros c Hc. rewrite forallb_forall in Z. specialize (Z c Hc). lia.
  - rewrite (first_unique _ _ _ _ F' F) in E. rewrite E. do 2 f_equal.
    rewrite app_assoc, <- app_length, skipn_app, skipn_all, Nat.sub_diag. reflexivity.
  - destruct F as [O _]. destruct (N _ O).
Qed.
Lemma find_none line0 m a : length line0 = 50%nat -> (length m <= 49)%nat ->
  forallb (fun c => negb (c =? 0)) m = true ->
  forallb (fun q => if list_eq_dec Z.eq_dec (firstn (length m) (skipn q a)) m then false else true) (seq 0 (S (length a))) = true ->
  FindMarker line0 a m = Some (0, []).
Proof.
  intros L Lm Z A. assert (Em : marker_of m = m) by (apply firstn_all2; lia).
  destruct (find_marker line0 a m L) as [(p & F' & E)|[N E]]; rewrite ?Em in *; [| |exact E].
  - apply Forall_forall. intros c Hc. rewrite forallb_forall in Z. specialize (Z c Hc). lia.
  - exfalso. destruct F' as [(r & O) _]. rewrite forallb_forall in A.
    destruct (Nat.le_gt_cases p (length a)) as [Hp|Hp].
    + specialize (A p ltac:(apply in_seq; lia)). rewrite O in A.
      rewrite firstn_app, firstn_all, Nat.sub_diag, firstn_O, app_nil_r in A.
      destruct (list_eq_dec _ _ _); [discriminate|congruence].
    + specialize (A (length a) ltac:(apply in_seq; lia)). rewrite skipn_all in A. rewrite skipn_all2 in O by lia.
      destruct m; [|discriminate]. cbn in A. discriminate.
Qed.

(** ** Hexadecimal fields *)
Lemma be_val_bound A : all_bytes A -> 0 <= be_val A < 256 ^ Z.of_nat (length A).
Proof.
  induction A as [|x A IH]; intros B; cbn [be_val length]; [lia|]. inversion B as [|? ? Bx BA]; subst.
  specialize (IH BA). red in Bx. rewrite Nat2Z.inj_succ, Z.pow_succ_r by lia. nia.
Qed.
(** A array shifted by one digit. *)
Fixpoint sh (A : bytes) (d : Z) : bytes :=
  match A with
  | [] => []
  | x :: A' => u8 (Z.lor (Z.shiftl x 4) (match A' with [] => d | y :: _ => Z.shiftr y 4 end)) :: sh A' d
  end.
Lemma sh_length A d : length (sh A d) = length A.
Proof. induction A; cbn; congruence. Qed.
Lemma sh_byte x d : 0 <= x < 256 -> 0 <= d < 16 -> u8 (Z.lor (Z.shiftl x 4) d) = 16 * (x mod 16) + d.
Proof.
  intros Hx Hd. rewrite Z.shiftl_mul_pow2 by lia. change (2 ^ 4) with 16.
  assert (E : Z.lor (x * 16) d = x * 16 + d).
  { assert (Z0 : Z.land (x * 16) d = 0); [|now rewrite Z.add_nocarry_lxor, Z.lxor_lor by exact Z0].
    apply Z.bits_inj'. intros n Hn. rewrite Z.land_spec, Z.bits_0.
    change 16 with (2 ^ 4). rewrite Z.mul_pow2_bits by lia. destruct (Z.lt_ge_cases n 4) as [H|H].
    - rewrite Z.testbit_neg_r by lia. reflexivity.
    - assert (T : Z.testbit d n = false); [|rewrite T].
      { apply Z.testbit_false; [lia|]. rewrite Z.div_small; [reflexivity|]. split; [lia|].
        apply Z.lt_le_trans with (2 ^ 4); [lia|apply Z.pow_le_mono_r; lia]. }
      now rewrite andb_false_r. }
  rewrite E. unfold u8. pose proof (Z.div_mod x 16 ltac:(lia)). pose proof (Z.mod_pos_bound x 16 ltac:(lia)).
  replace (x * 16 + d) with (16 * (x mod 16) + d + (x / 16) * 256) by lia.
  rewrite Z.mod_add, Z.mod_small by lia. reflexivity.
Qed.
Lemma shr4 y : 0 <= y < 256 -> Z.shiftr y 4 = y / 16 /\ 0 <= y / 16 < 16.
Proof.
  intros H. rewrite Z.shiftr_div_pow2 by lia. split; [reflexivity|]. split; [apply Z.div_pos; lia|apply Z.div_lt_upper_bound; lia].
Qed.
Lemma sh_val A d : all_bytes A -> 0 <= d < 16 -> all_bytes (sh A d)
  /\ (be_val (sh A d) + 256 ^ Z.of_nat (length A) * (match A with [] => d | x :: _ => x / 16 end) = 16 * be_val A + d).
Proof.
  intros B Hd. induction A as [|x A IH]; [cbn [sh be_val length]; change (256 ^ Z.of_nat 0) with 1; split; [apply Forall_nil|lia]|].
  inversion B as [|? ? Bx BA]; subst. red in Bx. destruct (IH BA) as [Bs Es]. clear IH.
  set (c := match A with [] => d | y :: _ => Z.shiftr y 4 end).
  assert (Hc : 0 <= c < 16 /\ c = match A with [] => d | y :: _ => y / 16 end).
  { subst c. destruct A as [|y A']; [auto|]. inversion BA as [|? ? By ?]; subst. red in By.
    destruct (shr4 y By) as [-> ?]. auto. }
  destruct Hc as [Hc Ec]. cbn [sh]. fold c. rewrite <- Ec in Es. clearbody c. rewrite sh_byte by auto.
  pose proof (Z.div_mod x 16 ltac:(lia)). pose proof (Z.mod_pos_bound x 16 ltac:(lia)).
  split; [constructor; [red; lia|exact Bs]|].
  cbn [be_val length]. rewrite sh_length, Nat2Z.inj_succ, Z.pow_succ_r by lia.
  set (k := 256 ^ Z.of_nat (length A)) in *. nia.
Qed.
Lemma sh_bytes A d : all_bytes A -> 0 <= d < 16 -> sh A d = be_bytes (length A) (16 * be_val A + d).
Proof.
  intros B Hd. destruct (sh_val A d B Hd) as [Bs Es].
  rewrite <- (be_bytes_val (sh A d)) by exact Bs. rewrite sh_length. apply be_bytes_mod.
  rewrite <- Es, (Z.mul_comm (256 ^ _)), Z.mod_add; [reflexivity|]. apply Z.pow_nonzero; lia.
Qed.

Lemma shift_loop d : forall A pre rest, A <> [] ->
  iterM (length A - 1) (length pre) (fun i A => x <- get A i ;; y <- get A (i + 1) ;;
         wr A i [u8 (Z.lor (Z.shiftl x 4) (Z.shiftr y 4))]) (pre ++ A ++ rest)
  = Some (pre ++ removelast (sh A d) ++ [last A 0] ++ rest).
Proof.
  induction A as [|x A IH]; intros pre rest Hne; [congruence|]. destruct A as [|y A].
  - cbn [length Nat.sub iterM sh removelast last app]. reflexivity.
  - cbn [length]. replace (S (S (length A)) - 1)%nat with (S (length (y :: A) - 1)) by (cbn [length]; lia).
    cbn [iterM]. change (pre ++ (x :: y :: A) ++ rest) with (pre ++ x :: (y :: A) ++ rest).
    rewrite get_app. cbn [bind].
    change (pre ++ x :: (y :: A) ++ rest) with (pre ++ [x] ++ y :: A ++ rest) at 1.
    rewrite app_assoc, (get_app' (pre ++ [x])) by (rewrite app_length; reflexivity). cbn [bind].
    change (pre ++ x :: (y :: A) ++ rest) with (pre ++ [x] ++ (y :: A) ++ rest).
    rewrite wr_app by reflexivity. cbn [bind].
    set (v := u8 (Z.lor (Z.shiftl x 4) (Z.shiftr y 4))).
    specialize (IH (pre ++ [v]) rest ltac:(discriminate)).
    rewrite app_length in IH. cbn [length] in IH. replace (length pre + 1)%nat with (S (length pre)) in IH by lia.
    rewrite <- (app_assoc pre) in IH. cbn [length]. rewrite IH. f_equal. rewrite <- app_assoc. f_equal.
Qed.
Lemma sh_last A d : A <> [] -> sh A d = removelast (sh A d) ++ [u8 (Z.lor (Z.shiftl (last A 0) 4) d)].
Proof.
  induction A as [|x A IH]; intros H; [congruence|]. destruct A as [|y A]; [reflexivity|].
  specialize (IH ltac:(discriminate)). change (last (x :: y :: A) 0) with (last (y :: A) 0).
  remember (y :: A) as A'. change (sh (x :: A') d) with
    (u8 (Z.lor (Z.shiftl x 4) (match A' with [] => d | y :: _ => Z.shiftr y 4 end)) :: sh A' d).
  rewrite IH at 1. set (w := u8 (Z.lor (Z.shiftl x 4) _)).
  assert (Q : sh A' d <> []) by (subst; discriminate). destruct (sh A' d) as [|q l]; [congruence|].
  reflexivity.
Qed.
Lemma shift_in_ok A rest d : A <> [] -> all_bytes A -> 0 <= d < 16 ->
  shift_in (A ++ rest) (length A) d = Some (be_bytes (length A) (16 * be_val A + d) ++ rest).
Proof.
  intros Hne B Hd. rewrite <- sh_bytes by auto. unfold shift_in.
  assert (S := shift_loop d A [] rest Hne). cbn [app length] in S. rewrite S. cbn [bind]. clear S.
  assert (Lr : length (removelast (sh A d)) = (length A - 1)%nat).
  { pose proof (sh_last A d Hne) as L. apply (f_equal (@length Z)) in L. rewrite app_length, sh_length in L. cbn [length] in L. lia. }
  rewrite <- Lr. rewrite get_app. cbn [bind].
  change (last A 0 :: rest) with ([last A 0] ++ rest). rewrite wr_app by reflexivity.
  rewrite app_assoc, <- sh_last by exact Hne. reflexivity.
Qed.

Lemma hex_digit_cases c d : hex_digit_of c d ->
  (d < 16)%nat /\ isxdigit c = true /\ hex_value c = Z.of_nat d.
Proof.
  intros H. assert (Hd : (d < 16)%nat).
  { destruct H as [H|H]; match type of H with nth_error ?l _ = _ => assert (Q : nth_error l d <> None) by congruence end;
      apply nth_error_Some in Q; exact Q. }
  split; [exact Hd|].
  do 16 (destruct d as [|d]; [destruct H as [H|H]; vm_compute in H; injection H as <-; split; reflexivity|]). lia.
Qed.
Lemma xdigit_inv c : isxdigit c = true -> exists d, hex_digit_of c d.
Proof.
  intros H. exists (Z.to_nat (hex_value c)).
  assert (R : 48 <= c <= 57 \/ 65 <= c <= 70 \/ 97 <= c <= 102).
  { unfold isxdigit, isdigit in H. lia. }
  assert (In c (map Z.of_nat (seq 48 10)) \/ In c (map Z.of_nat (seq 65 6)) \/ In c (map Z.of_nat (seq 97 6))) as I.
  { destruct R as [R|[R|R]]; [left|right; left|right; right]; apply in_map_iff; exists (Z.to_nat c); (split; [lia|apply in_seq; lia]). }
  unfold hex_digit_of. cbn [map seq Z.of_nat] in I. cbn in I.
  repeat match goal with H : _ \/ _ |- _ => destruct H end; subst; try contradiction; vm_compute; auto.
Qed.
Lemma not_hex_false c : not_hex c <-> isxdigit c = false.
Proof.
  split.
  - intros N. destruct (isxdigit c) eqn:E; [|reflexivity]. apply xdigit_inv in E. destruct E as [d Hd]. destruct (N d Hd).
  - intros E d H. apply hex_digit_cases in H. destruct H as (_ & H & _). congruence.
Qed.

Lemma hex_field_total rest : exists vs rem, hex_field rest vs rem.
Proof.
  assert (D : forall r, exists ds t vs, r = ds ++ t /\ Forall2 hex_digit_of ds vs /\ starts_with not_hex t).
  { induction r as [|c r (ds & t & vs & -> & F & Ht)]; [exists [], [], []; repeat split; constructor|].
    destruct (isxdigit c) eqn:E.
    - apply xdigit_inv in E. destruct E as [d Hd]. exists (c :: ds), t, (d :: vs). repeat split; auto.
    - exists [], (c :: ds ++ t), []. repeat split; auto. cbn. now apply not_hex_false. }
  induction rest as [|c r IH].
  - exists [], [], [], [], []. repeat split; auto.
  - destruct (isxdigit c) eqn:E.
    + destruct (D (c :: r)) as (ds & t & vs & Er & F & Ht). exists vs, (tl t), [], ds, t. repeat split; auto.
      intros ->. cbn [app] in Er. subst t. cbn [starts_with] in *. apply not_hex_false in Ht. congruence.
    + apply not_hex_false in E. destruct (Z.eq_dec c 10) as [->|Hc].
      * exists [], r, [], [], (10 :: r). repeat split; auto.
      * destruct IH as (vs & rem & g & ds & t & -> & Fg & Fd & H1 & H2 & H3).
        exists vs, rem, (c :: g), ds, t. repeat split; auto.
Qed.

Lemma rh_digits L : forall ds vs, Forall2 hex_digit_of ds vs -> forall t v rest, starts_with not_hex t -> (0 < L)%nat -> 0 <= v ->
  rh_loop (ds ++ t) (be_bytes L v ++ rest) L true
  = Some (be_bytes L (fold_left (fun v d => 16 * v + Z.of_nat d) vs v) ++ rest, tl t).
Proof.
  induction 1 as [|c d ds vs Hd F IH]; intros t v rest Ht HL Hv; cbn [app fold_left].
  - destruct t as [|c t]; [reflexivity|]. cbn [rh_loop starts_with] in *. apply not_hex_false in Ht. rewrite Ht. reflexivity.
  - apply hex_digit_cases in Hd. destruct Hd as (Ld & Xd & Vd). cbn [rh_loop]. rewrite Xd. cbn [negb].
    rewrite Vd.
    assert (Lb : length (be_bytes L v) = L) by apply be_bytes_length.
    rewrite <- Lb at 2. rewrite shift_in_ok.
    + cbn [bind]. rewrite Lb, be_val_bytes.
      replace (be_bytes L (16 * (v mod 256 ^ Z.of_nat L) + Z.of_nat d)) with (be_bytes L (16 * v + Z.of_nat d)).
      * apply IH; auto. lia.
      * apply be_bytes_mod. rewrite <- Z.add_mod_idemp_l, <- Z.mul_mod_idemp_r, Z.add_mod_idemp_l by (apply Z.pow_nonzero; lia).
        reflexivity.
    + intros Q. rewrite Q in Lb. cbn in Lb. lia.
    + apply be_bytes_all.
    + lia.
Qed.
Lemma rh_first L c d t v rest : hex_digit_of c d ->
  rh_loop (c :: t) (be_bytes L v ++ rest) L false = rh_loop (c :: t) (be_bytes L v ++ rest) L true.
Proof. intros H. apply hex_digit_cases in H. destruct H as (_ & X & _). cbn [rh_loop]. rewrite X. reflexivity. Qed.
Lemma be_bytes_0 L : be_bytes L 0 = repeat 0 L.
Proof.
  unfold be_bytes. assert (H : forall s, map (fun j => (0 / 256 ^ Z.of_nat (L - 1 - j)) mod 256) (seq s L) = repeat 0 L).
  { generalize (L - 1)%nat as a. induction L as [|L IH]; intros a s; [reflexivity|]. cbn [seq map repeat]. rewrite IH.
    rewrite Z.div_0_l by (apply Z.pow_nonzero; lia). reflexivity. }
  apply H.
Qed.
Lemma rh_field L r vs rem rest : hex_field r vs rem -> (0 < L)%nat ->
  rh_loop r (repeat 0 L ++ rest) L false = Some (be_bytes L (number 16 vs) ++ rest, rem).
Proof.
  intros (g & ds & t & -> & Fg & Fd & Ht & He & ->) HL. rewrite <- be_bytes_0.
  induction Fg as [|c g [Hc Hn] Fg IH]; cbn [app].
  - destruct Fd as [|c d ds vs Hd Fd].
    + specialize (He eq_refl). cbn [app]. unfold number. cbn [fold_left]. destruct t as [|c t]; [reflexivity|].
      cbn [starts_with] in *. subst c. reflexivity.
    + change ((c :: ds) ++ t) with (c :: ds ++ t). rewrite (rh_first L c d) by exact Hd.
      change (c :: ds ++ t) with ((c :: ds) ++ t). unfold number. apply rh_digits; [now constructor|exact Ht|exact HL|lia].
  - cbn [rh_loop]. apply not_hex_false in Hc. rewrite Hc. cbn [negb].
    replace (c =? 10) with false by (symmetry; now apply Z.eqb_neq). exact IH.
Qed.

Theorem read_hex line0 f A L s : length line0 = 50%nat -> Forall (fun c => c <> 0) s ->
  0 < L -> (Z.to_nat L <= length A)%nat ->
  (forall p vs rem, first_at (marker_of s) f p -> hex_field (skipn (p + length (marker_of s)) f) vs rem ->
     ReadHex line0 f A L s = Some (1, be_bytes (Z.to_nat L) (number 16 vs) ++ skipn (Z.to_nat L) A, rem))
  /\ ((forall p, ~ occurs_at (marker_of s) f p) ->
     ReadHex line0 f A L s = Some (0, repeat 0 (Z.to_nat L) ++ skipn (Z.to_nat L) A, [])).
Proof.
  intros L0 Hz HL LA.
  assert (W : wr A 0 (repeat 0 (Z.to_nat L)) = Some (repeat 0 (Z.to_nat L) ++ skipn (Z.to_nat L) A)).
  { rewrite wr_ok by (rewrite repeat_length; lia). rewrite repeat_length. reflexivity. }
  assert (G : forall r f', FindMarker line0 f s = Some (r, f') ->
    ReadHex line0 f A L s = if r =? 0 then Some (0, repeat 0 (Z.to_nat L) ++ skipn (Z.to_nat L) A, f')
      else '(A, f) <- rh_loop f' (repeat 0 (Z.to_nat L) ++ skipn (Z.to_nat L) A) (Z.to_nat L) false ;; Some (1, A, f)).
  { intros r f' E. unfold ReadHex. replace (L =? 0) with false by (symmetry; apply Z.eqb_neq; lia).
    unfold guard. replace (0 <? L) with true by (symmetry; apply Z.ltb_lt; lia). cbn [bind]. rewrite W. cbn [bind]. rewrite E. reflexivity. }
  destruct (find_marker line0 f s L0 Hz) as [(q & Fq & E)|[N E]].
  - split.
    + intros p vs rem Fp Hf. rewrite (first_unique _ _ _ _ Fq Fp) in E. rewrite (G _ _ E). cbn [Z.eqb].
      change (1 =? 0) with false. cbv iota. rewrite (rh_field _ _ vs rem) by (auto; lia). reflexivity.
    + intros N. destruct (N _ (proj1 Fq)).
  - split.
    + intros p vs rem Fp _. destruct (N _ (proj1 Fp)).
    + intros _. rewrite (G _ _ E). reflexivity.
Qed.

(** ** Writing *)
Definition nibbles (v : bytes) : list nat := flat_map (fun x => [Z.to_nat (x / 16); Z.to_nat (x mod 16)]) v.
Lemma hex_nth d : 0 <= d < 16 -> hex_digit d = nth (Z.to_nat d) (str "0123456789ABCDEF") 0
  /\ hex_digit_of (nth (Z.to_nat d) (str "0123456789ABCDEF") 0) (Z.to_nat d).
Proof.
  intros H. split.
  - assert (I : In d (map Z.of_nat (seq 0 16))) by (apply in_map_iff; exists (Z.to_nat d); split; [lia|apply in_seq; lia]).
    cbn in I. repeat (destruct I as [<-|I]; [reflexivity|]). destruct I.
  - left. apply nth_error_nth'. change (length (str "0123456789ABCDEF")) with 16%nat. lia.
Qed.
Lemma halves x : 0 <= x < 256 -> 0 <= x / 16 < 16 /\ 0 <= x mod 16 < 16 /\ Z.land x 15 = x mod 16 /\ Z.shiftr x 4 = x / 16.
Proof.
  intros H. destruct (shr4 x H) as [E B]. split; [exact B|]. split; [apply Z.mod_pos_bound; lia|]. split; [|exact E].
  change 15 with (Z.ones 4). now rewrite Z.land_ones by lia.
Qed.
Lemma print_hex_ok v : all_bytes v -> flat_map print_hex v = hex v.
Proof.
  induction 1 as [|x v Hx _ IH]; [reflexivity|]. unfold hex in *. cbn [flat_map]. rewrite IH. f_equal.
  red in Hx. destruct (halves x Hx) as (H1 & H2 & E1 & E2). unfold print_hex, hex_byte. rewrite E1, E2.
  rewrite (proj1 (hex_nth _ H1)), (proj1 (hex_nth _ H2)). reflexivity.
Qed.
Lemma hex_length v : length (hex v) = (2 * length v)%nat.
Proof. induction v as [|x v IH]; [reflexivity|]. unfold hex in *. cbn [flat_map]. rewrite app_length, IH. cbn [length hex_byte]. lia. Qed.
Lemma hex_digits v : all_bytes v -> Forall2 hex_digit_of (hex v) (nibbles v).
Proof.
  induction 1 as [|x v Hx _ IH]; [constructor|]. unfold hex, nibbles in *. cbn [flat_map].
  red in Hx. destruct (halves x Hx) as (H1 & H2 & _). unfold hex_byte at 1. cbn [app].
  constructor; [apply hex_nth, H1|]. constructor; [apply hex_nth, H2|]. exact IH.
Qed.
Lemma nibbles_val v : all_bytes v -> forall a, fold_left (fun v d => 16 * v + Z.of_nat d) (nibbles v) a = a * 256 ^ Z.of_nat (length v) + be_val v.
Proof.
  induction 1 as [|x v Hx _ IH]; intros a; unfold nibbles in *; cbn [flat_map fold_left app be_val length].
  - change (256 ^ Z.of_nat 0) with 1. lia.
  - rewrite IH. red in Hx. destruct (halves x Hx) as (H1 & H2 & _).
    rewrite !Z2Nat.id by lia. rewrite Nat2Z.inj_succ, Z.pow_succ_r by lia. pose proof (Z.div_mod x 16 ltac:(lia)).
    set (k := 256 ^ Z.of_nat (length v)). nia.
Qed.
Lemma nibbles_number v : all_bytes v -> number 16 (nibbles v) = be_val v.
Proof. intros B. unfold number. rewrite nibbles_val by exact B. lia. Qed.

Theorem print_bstr s A L : 0 <= L -> (Z.to_nat L <= length A)%nat -> all_bytes (firstn (Z.to_nat L) A) ->
  fprintBstr s A L = Some (line s (if L =? 0 then str "00" else hex (firstn (Z.to_nat L) A))).
Proof.
  intros H0 LA B. unfold fprintBstr. rewrite rd_ok by lia. cbn [skipn bind].
  rewrite print_hex_ok by exact B. unfold line. destruct (Z.eqb_spec L 0) as [->|Hn].
  - reflexivity.
  - reflexivity.
Qed.
Theorem read_back line0 t A L s v : length line0 = 50%nat -> Forall (fun c => c <> 0) s -> (length s <= 49)%nat ->
  0 < L -> (Z.to_nat L <= length A)%nat -> length v = Z.to_nat L -> all_bytes v ->
  forall a, absent s a = true ->
  ReadHex line0 (a ++ line s (hex v) ++ t) A L s = Some (1, v ++ skipn (Z.to_nat L) A, t).
Proof.
  intros L0 Hz Ls HL LA Lv B a Ha.
  destruct (read_hex line0 (a ++ line s (hex v) ++ t) A L s L0 Hz HL LA) as [R _].
  assert (Em : marker_of s = s) by (apply firstn_all2; lia). rewrite Em in R.
  assert (Ef : a ++ line s (hex v) ++ t = a ++ s ++ (hex v ++ nl ++ t)) by (unfold line; now rewrite <- !app_assoc).
  rewrite (R (length a) (nibbles v) t).
  - rewrite nibbles_number, <- Lv, be_bytes_val by exact B. reflexivity.
  - rewrite Ef. now apply first_here.
  - rewrite Ef, app_assoc, <- app_length, skipn_app, skipn_all, Nat.sub_diag. cbn [skipn app].
    exists [], (hex v), (nl ++ t). split; [reflexivity|]. split; [constructor|]. split; [now apply hex_digits|].
    split; [|split; [|reflexivity]].
    + cbn. apply not_hex_false. reflexivity.
    + reflexivity.
Qed.

(** ** Decimal numerals *)
Definition D10 (k : nat) (n : Z) : bytes := map (fun j => 48 + n / 10 ^ Z.of_nat (k - 1 - j) mod 10) (seq 0 k).
Lemma D10_S k n : D10 (S k) n = 48 + n / 10 ^ Z.of_nat k mod 10 :: D10 k n.
Proof.
  unfold D10. cbn [seq map]. f_equal; [replace (S k - 1 - 0)%nat with k by lia; reflexivity|].
  rewrite <- seq_shift, map_map. apply map_ext. intros j. replace (S k - 1 - S j)%nat with (k - 1 - j)%nat by lia. reflexivity.
Qed.
Lemma D10_snoc k n : D10 (S k) n = D10 k (n / 10) ++ [48 + n mod 10].
Proof.
  induction k as [|k IH].
  - unfold D10. cbn [seq map Nat.sub]. change (10 ^ Z.of_nat 0) with 1. now rewrite Z.div_1_r.
  - rewrite D10_S, IH, D10_S. cbn [app]. f_equal. f_equal. f_equal.
    rewrite Z.div_div by (try apply Z.pow_pos_nonneg; lia). f_equal. rewrite Nat2Z.inj_succ, Z.pow_succ_r by lia. lia.
Qed.
(** [k] is the number of digits of [n]. *)
Definition digits_are (k : nat) (n : Z) : Prop := (1 <= k)%nat /\ n < 10 ^ Z.of_nat k /\ (k = 1%nat \/ 10 ^ Z.of_nat (k - 1) <= n).
Lemma dec_digits_ok : forall fuel k n acc, digits_are k n -> 0 <= n -> (k <= fuel)%nat -> dec_digits fuel n acc = D10 k n ++ acc.
Proof.
  induction fuel as [|fuel IH]; intros k n acc (K1 & K2 & K3) Hn Hk; [lia|]. cbn [dec_digits].
  destruct (Z.ltb_spec n 10) as [H|H].
  - assert (k = 1%nat) as ->.
    { destruct K3 as [K3|K3]; [exact K3|]. destruct k as [|[|k]]; [lia|reflexivity|].
      exfalso. replace (S (S k) - 1)%nat with (S k) in K3 by lia. rewrite Nat2Z.inj_succ, Z.pow_succ_r in K3 by lia.
      assert (0 < 10 ^ Z.of_nat k) by (apply Z.pow_pos_nonneg; lia). lia. }
    rewrite D10_snoc. reflexivity.
  - destruct k as [|k]; [lia|]. rewrite D10_snoc, <- app_assoc. cbn [app].
    assert (K : (1 <= k)%nat). { destruct k; [|lia]. change (10 ^ Z.of_nat 1) with 10 in K2. lia. }
    rewrite Nat2Z.inj_succ, Z.pow_succ_r in K2 by lia.
    apply IH; [|apply Z.div_pos; lia|lia]. split; [exact K|]. split; [apply Z.div_lt_upper_bound; lia|].
    destruct (Nat.eq_dec k 1) as [->|Hk1]; [now left|right].
    destruct K3 as [K3|K3]; [lia|]. replace (S k - 1)%nat with (S (k - 1)) in K3 by lia.
    rewrite Nat2Z.inj_succ, Z.pow_succ_r in K3 by lia. apply Z.div_le_lower_bound; lia.
Qed.
Lemma filter_below a b : forall s n, (forall j, (s <= j < s + n)%nat -> (a j : bool) = (j <? s + b)%nat) -> (b <= n)%nat ->
  length (filter a (seq s n)) = b.
Proof.
  induction b as [|b IHb]; intros s n H Hb.
  - clear Hb. revert s H. induction n as [|n IHn]; intros s H; [reflexivity|]. cbn [seq filter]. rewrite H by lia.
    replace (s <? s + 0)%nat with false by (symmetry; apply Nat.ltb_ge; lia). apply IHn.
    intros j Hj. rewrite H by lia. transitivity false; [|symmetry]; apply Nat.ltb_ge; lia.
  - destruct n as [|n]; [lia|]. cbn [seq filter]. rewrite H by lia. replace (s <? s + S b)%nat with true by (symmetry; apply Nat.ltb_lt; lia).
    cbn [length]. f_equal. apply IHb; [|lia]. intros j Hj. rewrite H by lia. f_equal. lia.
Qed.

Lemma ndigits_ok n k : 0 <= n < 10 ^ 20 -> digits_are k n -> ndigits n = k /\ (k <= 20)%nat.
Proof.
  intros Hn (K1 & K2 & K3).
  assert (Hk : (k <= 20)%nat).
  { destruct (Nat.le_gt_cases k 20) as [H|H]; [exact H|]. destruct K3 as [K3|K3]; [lia|].
    assert (10 ^ 20 <= 10 ^ Z.of_nat (k - 1)) by (apply Z.pow_le_mono_r; lia). lia. }
  split; [|exact Hk]. unfold ndigits. rewrite (filter_below _ (k - 1)); [lia| |lia].
  intros j Hj. cbn [plus]. destruct (Nat.ltb_spec j (k - 1)) as [H|H].
  - apply Z.leb_le. destruct K3 as [K3|K3]; [lia|]. eapply Z.le_trans; [|exact K3]. apply Z.pow_le_mono_r; lia.
  - apply Z.leb_gt. eapply Z.lt_le_trans; [exact K2|]. apply Z.pow_le_mono_r; lia.
Qed.
Lemma digits_ex n : 0 <= n -> exists k, digits_are k n.
Proof.
  intros Hn. assert (H : forall m, n < 10 ^ Z.of_nat m -> exists k, digits_are k n).
  { induction m as [|m IH]; intros H.
    - exists 1%nat. split; [lia|]. split; [|now left]. change (10 ^ Z.of_nat 0) with 1 in H. change (10 ^ Z.of_nat 1) with 10. lia.
    - destruct (Z.lt_ge_cases n (10 ^ Z.of_nat m)) as [H1|H1]; [now apply IH|].
      exists (S m). split; [lia|]. split; [exact H|]. right. replace (S m - 1)%nat with m by lia. exact H1. }
  apply (H (Z.to_nat n)). rewrite Z2Nat.id by lia. apply Z.pow_gt_lin_r; lia.
Qed.
Lemma D10_digit d : 0 <= d < 10 -> nth (Z.to_nat d) (str "0123456789") 0 = 48 + d.
Proof.
  intros H. assert (I : In d (map Z.of_nat (seq 0 10))) by (apply in_map_iff; exists (Z.to_nat d); split; [lia|apply in_seq; lia]).
  cbn in I. repeat (destruct I as [<-|I]; [reflexivity|]). destruct I.
Qed.
Lemma decimal_D10 n k : 0 <= n < 10 ^ 20 -> digits_are k n -> decimal n = D10 k n.
Proof.
  intros Hn Hk. destruct (ndigits_ok n k Hn Hk) as [E _]. unfold decimal, D10. rewrite E. apply map_ext. intros j.
  apply D10_digit, Z.mod_pos_bound. lia.
Qed.
Theorem print_decimal n : 0 <= n < 10 ^ 20 -> print_dec n = decimal n.
Proof.
  intros Hn. destruct (digits_ex n) as [k Hk]; [lia|]. rewrite (decimal_D10 n k) by auto.
  destruct (ndigits_ok n k Hn Hk) as [_ L]. unfold print_dec. replace (n <? 0) with false by (symmetry; apply Z.ltb_ge; lia).
  rewrite (dec_digits_ok 20 k) by (auto; lia). apply app_nil_r.
Qed.
Lemma isdigit_48 d : 0 <= d < 10 -> isdigit (48 + d) = true.
Proof. intros H. unfold isdigit. lia. Qed.
Lemma scan_D10 k : forall n found v r, starts_with (fun c => isdigit c = false) r -> 0 <= n ->
  scan_digits (D10 k n ++ r) found v = (match k with O => found | S _ => true end, v * 10 ^ Z.of_nat k + n mod 10 ^ Z.of_nat k, r).
Proof.
  induction k as [|k IH]; intros n found v r Hr Hn.
  - change (10 ^ Z.of_nat 0) with 1. rewrite Z.mod_1_r. cbn [D10 seq map app]. unfold D10. cbn [seq map app].
    rewrite Z.mul_1_r, Z.add_0_r. destruct r as [|c r]; [reflexivity|]. cbn [scan_digits starts_with] in *. rewrite Hr. reflexivity.
  - rewrite D10_S. cbn [app scan_digits]. set (p := 10 ^ Z.of_nat k).
    assert (Hp : 0 < p) by (apply Z.pow_pos_nonneg; lia).
    pose proof (Z.mod_pos_bound (n / p) 10 ltac:(lia)). rewrite isdigit_48 by lia. rewrite IH by auto. fold p.
    rewrite Nat2Z.inj_succ, Z.pow_succ_r by lia. fold p. f_equal. f_equal.
    + destruct k; reflexivity.
    + rewrite (Z.mul_comm 10 p), Z.rem_mul_r by lia. nia.
Qed.
Lemma skip_digit c r : isdigit c = true -> skip_space (c :: r) = c :: r.
Proof. intros H. cbn [skip_space]. replace (isspace c) with false; [reflexivity|]. unfold isdigit, isspace in *. lia. Qed.
Theorem scan_decimal n r : 0 <= n < 10 ^ 20 -> starts_with (fun c => isdigit c = false) r ->
  scan_int (decimal n ++ r) = (Some n, r).
Proof.
  intros Hn Hr. destruct (digits_ex n) as [k Hk]; [lia|]. rewrite (decimal_D10 n k) by auto.
  destruct k as [|k]; [destruct Hk; lia|].
  assert (S := scan_D10 (S k) n false 0 r Hr ltac:(lia)). destruct Hk as (_ & K2 & _).
  rewrite Z.mod_small in S by lia. rewrite Z.mul_0_l, Z.add_0_l in S.
  unfold scan_int. rewrite D10_S in *. cbn [app] in *.
  pose proof (Z.mod_pos_bound (n / 10 ^ Z.of_nat k) 10 ltac:(lia)).
  set (d := n / 10 ^ Z.of_nat k mod 10) in *. clearbody d.
  rewrite skip_digit by (apply isdigit_48; lia).
  replace (48 + d =? 45) with false by (symmetry; apply Z.eqb_neq; lia).
  replace (48 + d =? 43) with false by (symmetry; apply Z.eqb_neq; lia). rewrite S. reflexivity.
Qed.
