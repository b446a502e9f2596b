(** The typed main of the known-answer program. *)
From Coq Require Import String.
From Verif Require Import Base BaseFacts Params Suite Sign Spec Refine BuildSpec BuildProofs ApiProofs OptBuild OptProofs
  CInt CCore CIntFacts CCoreProofs Rng RngSpec RngProofs SignBytes CRng CRngProofs CRandombytes CRandombytesProofs
  Kat Text KatSpec KatIo KatProofs CKat CKatProofs CKatMain CKatMainProofs.
Local Open Scope Z_scope.
Local Open Scope list_scope.

Lemma entropy_c_ok e : length e = 48%nat -> entropy_c e = Some (map Z.of_nat (seq 0 48)).
Proof.
  intros L. unfold entropy_c.
  rewrite (cfor_int (fun _ => True) 48 _ (fun i e => wr e i [Z.of_nat i])); [|lia| |exact I].
  - do 49 (destruct e as [|? e]; [try discriminate L|]); [vm_compute; reflexivity|discriminate L].
  - intros i s Hi _. cix i; [|reflexivity]. casg (Z.of_nat i); [|reflexivity|rg]. split; [reflexivity|auto].
Qed.
Lemma entropy_bytes : all_bytes (map Z.of_nat (seq 0 48)).
Proof. apply Forall_forall. intros x Hx. apply in_map_iff in Hx. destruct Hx as (i & <- & Hin). apply in_seq in Hin. red. lia. Qed.
Opaque draws iterM junk_bytes rsp_loop_c drbg_randombytes_c randombytes_init_c str.
Theorem c_kat_files E im robust P us junk : (forall k b, length (E k b) = 16%nat) -> (forall k b, all_bytes (E k b)) -> i_ok im P ->
  Z.of_nat (SPX_BYTES P) < 2 ^ 31 ->
  kat_main_c E im robust P us junk true true true = Some (0, kat_req E, kat_rsp E (i_family im) robust P)
  /\ kat_main_c E im robust P us junk true true false = Some (-1, kat_req E, []).
Proof.
  intros HE HB Hi Hs. unfold kat_main_c. cbn [negb].
  rewrite entropy_c_ok by apply junk_length. cbn [bind].
  destruct (init_step_c E HE HB (mkDrbg (repeat 0 32) (repeat 0 16) 0) (junk_bytes (junk 404%nat) 48) (junk_bytes (junk 401%nat) 48) (map Z.of_nat (seq 0 48)))
    as (k & V & S & Lk & G); auto using junk_length, entropy_bytes.
  rewrite G. cbn [bind].
  destruct (req_loop_c E HE HB junk 100 0 k V 1 (junk_bytes (junk 405%nat) 48) (junk_bytes (junk 406%nat) 3300) [])
    as (g & seed & msg & R & A1 & A2 & A3 & A4); [lia|exact Lk|lia|lia|apply junk_length|apply junk_length|].
  change (K 100) with (K (Z.of_nat 100)).
  rewrite (cfor_int (fun _ => True) 100 _ (fun i => req_entry_c E junk (Z.of_nat i))); [|lia|intros i s _ _; split; [reflexivity|auto]|exact I].
  rewrite R. cbn [bind app]. clear R.
  assert (EI : kat_inputs E = draws E 100 0 k V) by (unfold kat_inputs; rewrite S; cbv beta iota; reflexivity).
  assert (ER : kat_req E = flat_map req_text (draws E 100 0 k V)) by (unfold kat_req; rewrite EI; reflexivity).
  assert (ES : kat_rsp E (i_family im) robust P = str "# SPHINCS+" ++ nl ++ nl ++ flat_map (rsp_text E (i_family im) robust P) (draws E 100 0 k V))
    by (unfold kat_rsp; rewrite EI; reflexivity).
  rewrite ER, ES. clear ER ES EI S G. split; [|reflexivity].
  set (es := draws E 100 0 k V) in *. clearbody es.
  assert (Lf : (length es <= length (flat_map req_text es))%nat).
  { clear. induction es as [|e es IH]; [reflexivity|]. cbn [flat_map length]. rewrite app_length.
    assert (1 <= length (req_text e))%nat; [|lia]. destruct e as [[i s] m]. unfold req_text, inputs_text, line.
    rewrite !app_length. change (length (str "count = ")) with 8%nat. lia. }
  pose proof (rsp_loop_c_ok E HE HB im robust P Hi Hs us junk es (Datatypes.S (length (flat_map req_text es))) 0 [] g seed
    (junk_bytes (junk 407%nat) (SPX_PK_BYTES P)) (junk_bytes (junk 408%nat) (SPX_SK_BYTES P)) (junk 409%nat 0%nat) (junk 409%nat 1%nat)
    (str "# " ++ str "SPHINCS+" ++ nl ++ nl)) as L. cbn [app] in L.
  rewrite L; [|exact A4|left; reflexivity|lia|exact A1|exact A2|exact A3|apply junk_length|apply junk_length]. cbn [bind]. rewrite <- !app_assoc. reflexivity.
Qed.
Transparent draws iterM junk_bytes rsp_loop_c drbg_randombytes_c randombytes_init_c str.
Lemma c_kat_open_fails E im robust P us junk o2 o3 :
  kat_main_c E im robust P us junk false o2 o3 = Some (-1, [], []) /\ kat_main_c E im robust P us junk true false o3 = Some (-1, [], []).
Proof. split; reflexivity. Qed.
