(** Proofs about changing the byte order. *)
From Coq Require Import List Lia NArith. Import ListNotations.
From Verif Require Import Base BaseFacts Io_Model Io_Spec Io_Proofs IoRead_Proofs IoView_Model IoView_Spec IoView_Proofs Convert_Spec.
Local Open Scope N_scope.

Definition turn (from to : endian) (bs : list byte) : list byte :=
  match from, to with little, little | big, big => bs | _, _ => rev bs end.
Lemma lenN_rev (l : list byte) : lenN (rev l) = lenN l.
Proof. unfold lenN. now rewrite rev_length. Qed.
Lemma lenN_turn from to bs : lenN (turn from to bs) = lenN bs.
Proof. unfold turn. destruct from, to; rewrite ?lenN_rev; reflexivity. Qed.
Lemma turn_back from to bs : turn to from (turn from to bs) = bs.
Proof. destruct from, to; cbn [turn]; rewrite ?rev_involutive; reflexivity. Qed.
Lemma turn_value ev from to n sg bs : (0 < n)%nat -> length bs = n ->
  bytes_of_value ev (TEnc to n sg) (value_of_bytes ev (TEnc from n sg) bs) = turn from to bs.
Proof.
  intros P L. cbn [bytes_of_value value_of_bytes of_mem to_mem]. unfold byte_begin_order.
  assert (L' : length (if endian_eqb from (configured ev) then bs else rev bs) = n) by (destruct (endian_eqb from (configured ev)); rewrite ?rev_length; exact L).
  rewrite int_to_of_mem by assumption. unfold turn. destruct ev as [m c]. cbn [configured]. destruct from, to, c; cbn [endian_eqb]; rewrite ?rev_involutive; reflexivity.
Qed.
Lemma turn_typed ev from to n sg bs : (0 < n)%nat -> length bs = n -> typed (TEnc to n sg) (value_of_bytes ev (TEnc from n sg) bs).
Proof.
  intros P L. unfold typed. cbn [scalar_of value_of_bytes of_mem value_ok]. split; [exact P|]. apply int_of_mem_ok; [exact P|].
  unfold byte_begin_order. destruct (endian_eqb from (configured ev)); rewrite ?rev_length; exact L.
Qed.
Lemma reordered_cons from to n sg fs bs : reordered from to ((n, sg) :: fs) bs = turn from to (takeN (N.of_nat n) bs) ++ reordered from to fs (dropN (N.of_nat n) bs).
Proof. cbn [reordered]. unfold takeN, dropN, turn. rewrite Nnat.Nat2N.id. destruct from, to; reflexivity. Qed.
Lemma lenN_reordered from to : forall fs bs, fields_size fs <= lenN bs -> lenN (reordered from to fs bs) = fields_size fs.
Proof.
  induction fs as [|[n sg] fs IH]; intros bs L; [reflexivity|]. rewrite reordered_cons, lenN_app, lenN_turn, lenN_takeN. change (fields_size ((n, sg) :: fs)) with (N.of_nat n + fields_size fs) in *.
  rewrite IH by (rewrite lenN_dropN; lia). lia.
Qed.
Lemma reordered_back from to : forall fs bs, fields_size fs <= lenN bs -> reordered to from fs (reordered from to fs bs) = takeN (fields_size fs) bs.
Proof.
  induction fs as [|[n sg] fs IH]; intros bs L; [reflexivity|]. change (fields_size ((n, sg) :: fs)) with (N.of_nat n + fields_size fs) in *. rewrite (reordered_cons from to), reordered_cons.
  assert (E : lenN (turn from to (takeN (N.of_nat n) bs)) = N.of_nat n) by (rewrite lenN_turn, lenN_takeN; lia).
  rewrite takeN_app_exact, dropN_app_exact by (now rewrite E). rewrite turn_back, IH by (rewrite lenN_dropN; lia).
  symmetry. apply takeN_plus.
Qed.

Section C.
Context (ev : env) (from to : endian).
Lemma conv_step n sg fs data p buf q : field_ok (n, sg) -> p <= lenN data -> lenN data < size_mod -> q <= lenN buf -> lenN buf < ptr_max ->
  convert ev from to ((n, sg) :: fs) (RView data p) (WView buf q) =
    if lenN data <? p + N.of_nat n then (RView data p, WView buf q, Throw out_of_range)
    else if lenN buf <? q + N.of_nat n then (RView data (p + N.of_nat n), WView buf q, Throw out_of_range)
    else convert ev from to fs (RView data (p + N.of_nat n)) (WView (splice buf q (turn from to (takeN (N.of_nat n) (dropN p data)))) (q + N.of_nat n)).
Proof.
  intros (P & S) HP HD HQ HB. cbn [fst] in *. cbn [convert].
  assert (SZ : types_size [TEnc from n sg] = N.of_nat n) by (change (N.of_nat n + 0 = N.of_nat n); lia).
  rewrite rv_step_char; [|exact HP|exact HD|split; [discriminate|]; split; [constructor; [exact P|constructor]|rewrite SZ; exact S]].
  cbn zeta. rewrite SZ. cbn [rv_data rv_pos]. destruct (N.ltb_spec (lenN data) (p + N.of_nat n)) as [A|A]; [reflexivity|].
  cbn [decode_all]. unfold rv_rest. cbn [rv_data rv_pos]. change (value_size (TEnc from n sg)) with (N.of_nat n).
  set (bs := takeN (N.of_nat n) (dropN p data)).
  assert (L : length bs = n). { assert (lenN bs = N.of_nat n) by (unfold bs; rewrite lenN_takeN, lenN_dropN; lia). unfold lenN in *. lia. }
  assert (SA : args_size [AVal (TEnc to n sg) (value_of_bytes ev (TEnc from n sg) bs)] = N.of_nat n) by (change (N.of_nat n + 0 = N.of_nat n); lia).
  cbn [wv_step]. rewrite wv_write_char; [|exact HQ|exact HB|constructor; [now apply turn_typed|constructor]|rewrite SA; exact S].
  rewrite SA. cbn [wv_data wv_pos]. destruct (N.ltb_spec (lenN buf) (q + N.of_nat n)) as [B|B]; [reflexivity|].
  unfold enc_args. cbn [map concat enc_arg]. rewrite app_nil_r, turn_value by assumption. reflexivity.
Qed.
Lemma fields_cons n sg fs : fields_size ((n, sg) :: fs) = N.of_nat n + fields_size fs.
Proof. reflexivity. Qed.
Lemma convert_fits : forall fs data p buf q, Forall field_ok fs -> lenN data < size_mod -> lenN buf < ptr_max ->
  p + fields_size fs <= lenN data -> q + fields_size fs <= lenN buf ->
  convert ev from to fs (RView data p) (WView buf q) =
    (RView data (p + fields_size fs), WView (splice buf q (reordered from to fs (dropN p data))) (q + fields_size fs), Ok tt).
Proof.
  induction fs as [|[n sg] fs IH]; intros data p buf q F HD HB P Q.
  - cbn [convert reordered]. change (fields_size []) with 0. rewrite !N.add_0_r, splice_nil; [reflexivity|]. change (fields_size []) with 0 in Q. lia.
  - rewrite fields_cons in *. rewrite conv_step; [|exact (Forall_inv F)|lia|exact HD|lia|exact HB].
    rewrite (proj2 (N.ltb_ge _ _)) by lia. rewrite (proj2 (N.ltb_ge _ _)) by lia.
    set (bs := turn from to (takeN (N.of_nat n) (dropN p data))).
    assert (L : lenN bs = N.of_nat n) by (unfold bs; rewrite lenN_turn, lenN_takeN, lenN_dropN; lia).
    rewrite IH; [|exact (Forall_inv_tail F)|exact HD|rewrite lenN_splice; lia|lia|rewrite lenN_splice; lia].
    rewrite reordered_cons, dropN_dropN. fold bs. replace (N.of_nat n + p) with (p + N.of_nat n) by lia.
    pose proof (splice_splice buf q bs (reordered from to fs (dropN (p + N.of_nat n) data))) as SS. rewrite L in SS.
    rewrite SS by (rewrite lenN_reordered by (rewrite lenN_dropN; lia); lia). rewrite !N.add_assoc. reflexivity.
Qed.
Lemma convert_stops : forall fs data p buf q, Forall field_ok fs -> lenN data < size_mod -> lenN buf < ptr_max -> p <= lenN data -> q <= lenN buf ->
  lenN data < p + fields_size fs \/ lenN buf < q + fields_size fs ->
  exists done n sg rest, fs = done ++ (n, sg) :: rest /\
    let k := fields_size done in
    p + k <= lenN data /\ q + k <= lenN buf /\
    (lenN data < p + k + N.of_nat n \/ lenN buf < q + k + N.of_nat n) /\
    convert ev from to fs (RView data p) (WView buf q) =
      (RView data (if lenN data <? p + k + N.of_nat n then p + k else p + k + N.of_nat n),
       WView (splice buf q (reordered from to done (dropN p data))) (q + k), Throw out_of_range).
Proof.
  induction fs as [|[n sg] fs IH]; intros data p buf q F HD HB P Q S.
  - change (fields_size []) with 0 in S. lia.
  - rewrite fields_cons in *. rewrite conv_step; [|exact (Forall_inv F)|lia|exact HD|lia|exact HB].
    destruct (N.ltb_spec (lenN data) (p + N.of_nat n)) as [A|A].
    { exists [], n, sg, fs. split; [reflexivity|]. change (fields_size []) with 0. cbn zeta. rewrite !N.add_0_r. cbn [reordered]. rewrite splice_nil by lia.
      rewrite (proj2 (N.ltb_lt _ _)) by lia. repeat split; auto; lia. }
    destruct (N.ltb_spec (lenN buf) (q + N.of_nat n)) as [B|B].
    { exists [], n, sg, fs. split; [reflexivity|]. change (fields_size []) with 0. cbn zeta. rewrite !N.add_0_r. cbn [reordered]. rewrite splice_nil by lia.
      rewrite (proj2 (N.ltb_ge _ _)) by lia. repeat split; auto; lia. }
    set (bs := turn from to (takeN (N.of_nat n) (dropN p data))).
    assert (L : lenN bs = N.of_nat n) by (unfold bs; rewrite lenN_turn, lenN_takeN, lenN_dropN; lia).
    assert (LS : lenN (splice buf q bs) = lenN buf) by (rewrite lenN_splice; lia).
    destruct (IH data (p + N.of_nat n) (splice buf q bs) (q + N.of_nat n) (Forall_inv_tail F)) as (done & m & sg' & rest & -> & K1 & K2 & K3 & K4); try lia.
    cbn zeta in *. exists ((n, sg) :: done), m, sg', rest. split; [reflexivity|]. rewrite fields_cons. rewrite LS in *.
    split; [lia|]. split; [lia|]. split; [lia|]. rewrite K4. rewrite reordered_cons, dropN_dropN. fold bs. replace (N.of_nat n + p) with (p + N.of_nat n) by lia.
    pose proof (splice_splice buf q bs (reordered from to done (dropN (p + N.of_nat n) data))) as SS. rewrite L in SS.
    rewrite SS by (rewrite lenN_reordered by (rewrite lenN_dropN; lia); lia). rewrite !N.add_assoc. reflexivity.
Qed.
Lemma place_fits : forall fs st p, Forall field_ok fs -> sh_r st 0 = p -> sh_w st 0 = p -> lenN (sh_buf st) < ptr_max -> p + fields_size fs <= lenN (sh_buf st) ->
  exists st', convert_in_place ev from to fs st = (st', Ok tt) /\ sh_buf st' = splice (sh_buf st) p (reordered from to fs (dropN p (sh_buf st))) /\
    sh_r st' 0 = p + fields_size fs /\ sh_w st' 0 = p + fields_size fs /\ (forall i, i <> 0 -> sh_r st' i = sh_r st i /\ sh_w st' i = sh_w st i).
Proof.
  induction fs as [|[n sg] fs IH]; intros st p F R W HB P.
  - exists st. change (fields_size []) with 0 in *. cbn [convert_in_place reordered]. rewrite splice_nil, N.add_0_r by lia. repeat split; auto.
  - rewrite fields_cons in *. destruct (Forall_inv F) as (PN & S). cbn [fst] in *. set (buf := sh_buf st) in *.
    cbn [convert_in_place sh_step]. fold buf. rewrite R.
    assert (SZ : types_size [TEnc from n sg] = N.of_nat n) by (change (N.of_nat n + 0 = N.of_nat n); lia).
    pose proof ptr_max_lt.
    rewrite rv_step_char; [|unfold rv_inv; cbn [rv_data rv_pos]; lia|cbn [rv_data]; lia|split; [discriminate|]; split; [constructor; [exact PN|constructor]|rewrite SZ; exact S]].
    cbn zeta. rewrite SZ. cbn [rv_data rv_pos]. rewrite (proj2 (N.ltb_ge _ _)) by lia. cbn [rv_data rv_pos].
    cbn [decode_all]. unfold rv_rest. cbn [rv_data rv_pos]. change (value_size (TEnc from n sg)) with (N.of_nat n).
    set (bs := takeN (N.of_nat n) (dropN p buf)).
    assert (L : lenN bs = N.of_nat n) by (unfold bs; rewrite lenN_takeN, lenN_dropN; lia).
    assert (L' : length bs = n) by (unfold lenN in L; lia).
    assert (SA : args_size [AVal (TEnc to n sg) (value_of_bytes ev (TEnc from n sg) bs)] = N.of_nat n) by (change (N.of_nat n + 0 = N.of_nat n); lia).
    cbn [sh_buf sh_w sh_r]. rewrite W. cbn [wv_step].
    rewrite wv_write_char; [|unfold wv_inv; cbn [wv_data wv_pos]; lia|exact HB|constructor; [now apply turn_typed|constructor]|rewrite SA; exact S].
    rewrite SA. cbn [wv_data wv_pos]. rewrite (proj2 (N.ltb_ge _ _)) by lia. cbn [wv_data wv_pos].
    unfold enc_args. cbn [map concat enc_arg]. rewrite app_nil_r, turn_value by assumption.
    set (st1 := Shared _ _ _).
    assert (LT : lenN (turn from to bs) = N.of_nat n) by (now rewrite lenN_turn).
    destruct (IH st1 (p + N.of_nat n) (Forall_inv_tail F)) as (st' & E1 & E2 & E3 & E4 & E5); try reflexivity.
    { unfold st1. cbn [sh_buf]. rewrite lenN_splice; lia. }
    { unfold st1. cbn [sh_buf]. rewrite lenN_splice; lia. }
    exists st'. split; [exact E1|]. split; [|split; [lia|split; [lia|]]].
    + rewrite E2. unfold st1. cbn [sh_buf]. rewrite reordered_cons, dropN_dropN. fold bs. replace (N.of_nat n + p) with (p + N.of_nat n) by lia.
      replace (dropN (p + N.of_nat n) (splice buf p (turn from to bs))) with (dropN (p + N.of_nat n) buf).
      2: { unfold splice. rewrite app_assoc. rewrite dropN_app_exact; [now rewrite LT|]. rewrite lenN_app, lenN_takeN. lia. }
      pose proof (splice_splice buf p (turn from to bs) (reordered from to fs (dropN (p + N.of_nat n) buf))) as SS. rewrite LT in SS.
      apply SS. rewrite lenN_reordered by (rewrite lenN_dropN; lia). lia.
    + intros i I. destruct (E5 i I) as [-> ->]. unfold st1. cbn [sh_r sh_w]. unfold put_pos. rewrite (proj2 (N.eqb_neq _ _) I). auto.
Qed.
End C.

Lemma convert_thm ev from to fs data p buf q : Forall field_ok fs -> lenN data < size_mod -> lenN buf < ptr_max ->
  p + fields_size fs <= lenN data -> q + fields_size fs <= lenN buf ->
  exists buf', convert ev from to fs (RView data p) (WView buf q) = (RView data (p + fields_size fs), WView buf' (q + fields_size fs), Ok tt) /\
    overwritten buf q (reordered from to fs (dropN p data)) buf'.
Proof.
  intros F HD HB P Q. rewrite convert_fits by assumption. eexists. split; [reflexivity|]. apply splice_overwritten. rewrite lenN_reordered by (rewrite lenN_dropN; lia). exact Q.
Qed.
Lemma convert_stops_thm ev from to fs data p buf q : Forall field_ok fs -> lenN data < size_mod -> lenN buf < ptr_max -> p <= lenN data -> q <= lenN buf ->
  lenN data < p + fields_size fs \/ lenN buf < q + fields_size fs ->
  exists done n sg rest buf', fs = done ++ (n, sg) :: rest /\
    let k := fields_size done in
    p + k <= lenN data /\ q + k <= lenN buf /\
    (lenN data < p + k + N.of_nat n \/ lenN buf < q + k + N.of_nat n) /\
    convert ev from to fs (RView data p) (WView buf q) =
      (RView data (if lenN data <? p + k + N.of_nat n then p + k else p + k + N.of_nat n), WView buf' (q + k), Throw out_of_range) /\
    overwritten buf q (reordered from to done (dropN p data)) buf'.
Proof.
  intros F HD HB P Q S. destruct (convert_stops ev from to fs data p buf q F HD HB P Q S) as (done & n & sg & rest & E & K). cbn zeta in *.
  destruct K as (K1 & K2 & K3 & K4). exists done, n, sg, rest. eexists. split; [exact E|]. split; [exact K1|]. split; [exact K2|]. split; [exact K3|]. split; [exact K4|].
  apply splice_overwritten. rewrite lenN_reordered by (rewrite lenN_dropN; lia). exact K2.
Qed.
Lemma splice_all buf bs : lenN buf = lenN bs -> splice buf 0 bs = bs.
Proof. intros L. unfold splice. rewrite takeN_0, dropN_all by lia. cbn [app]. now rewrite app_nil_r. Qed.
Lemma and_back ev ev' from to fs data one two : Forall field_ok fs -> lenN data = fields_size fs -> lenN one = fields_size fs -> lenN two = fields_size fs -> fields_size fs < ptr_max ->
  exists mid, convert ev from to fs (rv_init data) (wv_init one) = (RView data (fields_size fs), WView mid (fields_size fs), Ok tt) /\
    mid = reordered from to fs data /\
    convert ev' to from fs (rv_init mid) (wv_init two) = (RView mid (fields_size fs), WView data (fields_size fs), Ok tt).
Proof.
  intros F LD L1 L2 B. pose proof ptr_max_lt. exists (reordered from to fs data). unfold rv_init, wv_init.
  assert (LR : lenN (reordered from to fs data) = fields_size fs) by (rewrite lenN_reordered; lia).
  split; [|split; [reflexivity|]].
  - rewrite convert_fits by (auto; lia). rewrite dropN_0, splice_all by lia. reflexivity.
  - rewrite convert_fits by (auto; lia). rewrite dropN_0, reordered_back by lia. rewrite takeN_all, splice_all by lia. reflexivity.
Qed.
Lemma in_place_thm ev from to fs st p : Forall field_ok fs -> sh_r st 0 = p -> sh_w st 0 = p -> lenN (sh_buf st) < ptr_max -> p + fields_size fs <= lenN (sh_buf st) ->
  exists st', convert_in_place ev from to fs st = (st', Ok tt) /\ overwritten (sh_buf st) p (reordered from to fs (dropN p (sh_buf st))) (sh_buf st') /\
    sh_r st' 0 = p + fields_size fs /\ sh_w st' 0 = p + fields_size fs /\ (forall i, i <> 0 -> sh_r st' i = sh_r st i /\ sh_w st' i = sh_w st i).
Proof.
  intros F R W HB P. destruct (place_fits ev from to fs st p F R W HB P) as (st' & A & B & C). exists st'. split; [exact A|]. split; [|exact C].
  rewrite B. apply splice_overwritten. rewrite lenN_reordered by (rewrite lenN_dropN; lia). exact P.
Qed.
