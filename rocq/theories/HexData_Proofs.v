(** Proofs about values sent as hexadecimal text. *)
From Coq Require Import List NArith Lia. Import ListNotations.
From Verif Require Import Base BaseFacts Io_Model Io_Spec Io_Proofs IoRead_Proofs IoView_Proofs Io_PropLemmas IoPort_Spec IoPort_Proofs Hex_Model Hex_Spec Hex_Proofs HexText_Spec HexText_Proofs HexNumber_Spec HexNumber_Proofs HexData_Spec.
Open Scope N_scope. Open Scope list_scope.

Lemma sent_bytes ev ts vs : Forall2 typed ts vs -> types_size ts < size_mod ->
  write ev (args_of ts vs) (repeat x00 (N.to_nat (types_size ts))) = (enc_args ev (args_of ts vs), Ok (types_size ts)) /\
  send_text ev ts vs = Ok (flat_map enc1 (enc_args ev (args_of ts vs))) /\ lenN (enc_args ev (args_of ts vs)) = types_size ts.
Proof.
  intros T L. pose proof (args_of_ok ts vs T) as A. pose proof (args_of_size ts vs (Forall2_length _ _ _ T)) as S.
  pose proof (lenN_enc_args ev _ A) as LE. assert (LR : lenN (repeat x00 (N.to_nat (types_size ts))) = types_size ts) by (unfold lenN; rewrite repeat_length; lia).
  assert (W : write ev (args_of ts vs) (repeat x00 (N.to_nat (types_size ts))) = (enc_args ev (args_of ts vs), Ok (types_size ts))).
  { rewrite write_char by (assumption || lia). rewrite (proj2 (N.ltb_ge _ _)) by lia. rewrite S. f_equal. unfold splice.
    rewrite takeN_0, dropN_all by lia. cbn [app]. apply app_nil_r. }
  split; [exact W|]. split; [|lia]. unfold send_text. fold (args_of ts vs). rewrite W. cbn [obind]. apply hexlify_ok.
Qed.

Lemma sent_received ev1 ev2 w ts vs : configured_right ev1 -> configured_right ev2 -> ts <> [] -> Forall portable ts -> Forall2 typed ts vs -> types_size ts < size_mod ->
  exists s, send_text ev1 ts vs = Ok s /\ send_text ev2 ts vs = Ok s /\ lenN s = 2 * types_size ts /\
    forall s', map upper_hex s' = s -> receive_text ev2 w ts s' = Ok vs.
Proof.
  intros A B NE P T L. destruct (sent_bytes ev1 ts vs T L) as (W1 & S1 & L1). destruct (sent_bytes ev2 ts vs T L) as (W2 & S2 & _).
  rewrite (portable_enc ev1 ev2) in S1, L1 by assumption. eexists. split; [exact S1|]. split; [exact S2|]. split.
  - destruct (hexlify_text (enc_args ev2 (args_of ts vs))) as (s & H & LS & _). rewrite hexlify_ok in H. injection H as <-. unfold lenN in *. lia.
  - intros s' E. unfold receive_text. rewrite <- (unhexlify_upper w s'), E.
    destruct (hexlify_roundtrip w (enc_args ev2 (args_of ts vs))) as (s & H & U & _). rewrite hexlify_ok in H. injection H as <-. rewrite U. cbn [obind].
    assert (LR : lenN (repeat x00 (N.to_nat (types_size ts))) < size_mod) by (unfold lenN; rewrite repeat_length; lia).
  exact (proj1 (write_read_front ev2 ts vs _ _ _ NE T LR L W2)).
Qed.

Lemma same_machine ev w ts vs : ts <> [] -> Forall2 typed ts vs -> types_size ts < size_mod ->
  exists s, send_text ev ts vs = Ok s /\ forall s', map upper_hex s' = s -> receive_text ev w ts s' = Ok vs.
Proof.
  intros NE T L. destruct (sent_bytes ev ts vs T L) as (W2 & S2 & _). eexists. split; [exact S2|].
  intros s' E. unfold receive_text. rewrite <- (unhexlify_upper w s'), E.
  destruct (hexlify_roundtrip w (enc_args ev (args_of ts vs))) as (s & H & U & _). rewrite hexlify_ok in H. injection H as <-. rewrite U. cbn [obind].
  assert (LR : lenN (repeat x00 (N.to_nat (types_size ts))) < size_mod) by (unfold lenN; rewrite repeat_length; lia).
  exact (proj1 (write_read_front ev ts vs _ _ _ NE T LR L W2)).
Qed.

Lemma any_hex_text ev w ts s : ts <> [] -> Forall vtype_ok ts -> types_size ts < size_mod -> Nat.Even (length s) ->
  (forall bs, denotes s bs -> if lenN bs <? types_size ts then receive_text ev w ts s = Throw out_of_range
     else exists vs, receive_text ev w ts s = Ok vs /\ decodes ev ts (Io_Spec.slice bs 0 (types_size ts)) vs) /\
  ((~ exists bs, denotes s bs) -> receive_text ev w ts s = Throw invalid_argument).
Proof.
  intros NE V L E. pose proof (unhexlify_even w s E) as U. unfold receive_text. split.
  - intros bs D. destruct (unhexlify w s) as [bs'|e| | |] eqn:UE; try contradiction; [|destruct U as (_ & K); destruct K; now exists bs].
    cbn [obind]. replace bs with bs' by (eapply denotes_unique; eauto). exact (read_exact ev ts bs' NE V L).
  - intros K. destruct (unhexlify w s) as [bs'|e| | |]; try contradiction; [destruct K; now exists bs'|]. destruct U as (-> & _). reflexivity.
Qed.

Lemma sent_app ev ts us vs ws : Forall2 typed ts vs -> Forall2 typed us ws -> types_size ts + types_size us < size_mod ->
  exists s t, send_text ev ts vs = Ok s /\ send_text ev us ws = Ok t /\ send_text ev (ts ++ us) (vs ++ ws) = Ok (s ++ t).
Proof.
  intros T U L. assert (SA : types_size (ts ++ us) = types_size ts + types_size us).
  { clear. induction ts as [|t ts IH]; [reflexivity|]. cbn [app]. rewrite !types_size_cons. lia. }
  destruct (sent_bytes ev ts vs T ltac:(lia)) as (_ & S1 & _). destruct (sent_bytes ev us ws U ltac:(lia)) as (_ & S2 & _).
  destruct (sent_bytes ev (ts ++ us) (vs ++ ws) (Forall2_app T U) ltac:(lia)) as (_ & S3 & _).
  do 2 eexists. split; [exact S1|]. split; [exact S2|]. rewrite S3. f_equal.
  replace (args_of (ts ++ us) (vs ++ ws)) with (args_of ts vs ++ args_of us ws).
  - rewrite enc_args_app. apply flat_map_app.
  - clear -T. unfold args_of. induction T; [reflexivity|]. cbn [app combine map]. now rewrite <- IHT.
Qed.
