(** C133: changing the byte order of data. *)
From Coq Require Import List NArith Lia. Import ListNotations.
From Verif Require Import Base Io_Model Io_Spec IoView_Model IoView_Spec Convert_Spec Convert_Proofs.
Local Open Scope N_scope.

(** With data and room enough, on any machine and configuration: the bytes of each field, reversed if the byte orders differ. *)
Theorem C133_convert : forall ev from to fs data p buf q, Forall field_ok fs -> lenN data < size_mod -> lenN buf < ptr_max ->
  p + fields_size fs <= lenN data -> q + fields_size fs <= lenN buf ->
  exists buf', convert ev from to fs (RView data p) (WView buf q) = (RView data (p + fields_size fs), WView buf' (q + fields_size fs), Ok tt) /\
    overwritten buf q (reordered from to fs (dropN p data)) buf'.
Proof. exact convert_thm. Qed.
Print Assumptions C133_convert.

(** Otherwise std::out_of_range is thrown at the first field that is not there or has no room; the fields before it are
    converted, nothing else is written, and that field is read only if it is there. *)
Theorem C133_stops : forall ev from to fs data p buf q, Forall field_ok fs -> lenN data < size_mod -> lenN buf < ptr_max -> p <= lenN data -> q <= lenN buf ->
  lenN data < p + fields_size fs \/ lenN buf < q + fields_size fs ->
  exists done n sg rest buf', fs = done ++ (n, sg) :: rest /\
    let k := fields_size done in
    p + k <= lenN data /\ q + k <= lenN buf /\
    (lenN data < p + k + N.of_nat n \/ lenN buf < q + k + N.of_nat n) /\
    convert ev from to fs (RView data p) (WView buf q) =
      (RView data (if lenN data <? p + k + N.of_nat n then p + k else p + k + N.of_nat n), WView buf' (q + k), Throw out_of_range) /\
    overwritten buf q (reordered from to done (dropN p data)) buf'.
Proof. exact convert_stops_thm. Qed.
Print Assumptions C133_stops.

(** There and back, also on another machine: the same bytes. *)
Theorem C133_and_back : forall ev ev' from to fs data one two, Forall field_ok fs -> lenN data = fields_size fs -> lenN one = fields_size fs -> lenN two = fields_size fs -> fields_size fs < ptr_max ->
  exists mid, convert ev from to fs (rv_init data) (wv_init one) = (RView data (fields_size fs), WView mid (fields_size fs), Ok tt) /\
    mid = reordered from to fs data /\
    convert ev' to from fs (rv_init mid) (wv_init two) = (RView mid (fields_size fs), WView data (fields_size fs), Ok tt).
Proof. exact and_back. Qed.
Print Assumptions C133_and_back.

(** In place, with two views of one buffer at the same position: each field is read before it is overwritten. *)
Theorem C133_in_place : forall ev from to fs st p, Forall field_ok fs -> sh_r st 0 = p -> sh_w st 0 = p -> lenN (sh_buf st) < ptr_max -> p + fields_size fs <= lenN (sh_buf st) ->
  exists st', convert_in_place ev from to fs st = (st', Ok tt) /\ overwritten (sh_buf st) p (reordered from to fs (dropN p (sh_buf st))) (sh_buf st') /\
    sh_r st' 0 = p + fields_size fs /\ sh_w st' 0 = p + fields_size fs /\ (forall i, i <> 0 -> sh_r st' i = sh_r st i /\ sh_w st' i = sh_w st i).
Proof. exact in_place_thm. Qed.
Print Assumptions C133_in_place.

Definition three : list field := [(2%nat, true); (4%nat, false); (1%nat, false)].
Definition seven := [x01; xff; x03; x04; x05; x06; x07].
Example C133_nonvacuous : Forall field_ok three /\ fields_size three = lenN seven /\
  convert (Env little big) little big three (rv_init seven) (wv_init (repeat x00 8)) =
    (RView seven 7, WView [xff; x01; x06; x05; x04; x03; x07; x00] 7, Ok tt) /\
  convert (Env little little) big little three (rv_init seven) (wv_init (repeat x00 5)) = (RView seven 6, WView [xff; x01; x00; x00; x00] 2, Throw out_of_range) /\
  sh_buf (fst (convert_in_place (Env big big) big little three (Shared seven (fun _ => 0) (fun _ => 0)))) = [xff; x01; x06; x05; x04; x03; x07].
Proof.
  split; [|repeat split; vm_compute; reflexivity]. repeat constructor; cbn; lia.
Qed.
