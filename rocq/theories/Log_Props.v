(** C118: a log that was saved in part gives back whole records only. *)
From Coq Require Import List Lia NArith. Import ListNotations.
From Coq Require Import Init.Byte.
From Verif Require Import Base Io_Model Io_Spec IoView_Model IoView_Spec File_Model File_Spec IoPort_Spec Log_Spec Log_Proofs.
Local Open Scope N_scope.

(** The process dies anywhere in the call that saves the log. *)
Theorem C118_crash : forall ev1 ev2 rs buf st outs w f p r c w2 b, can_exchange ev1 ev2 rs -> Forall record_ok rs ->
  lenN buf < ptr_max -> log_size rs <= lenN buf ->
  wv_run ev1 (wv_init buf) (map write_record rs) = (st, outs) -> rg_mem r = wv_data st ->
  In c (fst (write_file_trace w f p (rg_count r) r)) -> full_reads w2 -> read_file w2 c p None = Ok b ->
  exists done rest, whole_records rs (lenN b) done rest /\
    rv_run ev2 (rv_init b) (map read_record done) = (RView b (log_size done), map (fun x => Ok (ROVals (values_of x))) done) /\
    (forall x xs, rest = x :: xs ->
       rv_step ev2 (RView b (log_size done)) (read_record x) = (RView b (log_size done), Throw out_of_range)).
Proof. exact crashed_log. Qed.
Print Assumptions C118_crash.

(** The call returns, but the system may have taken only a part. *)
Theorem C118_short_write : forall ev1 ev2 rs buf st outs w f p r c w2 b, can_exchange ev1 ev2 rs -> Forall record_ok rs ->
  lenN buf < ptr_max -> log_size rs <= lenN buf ->
  wv_run ev1 (wv_init buf) (map write_record rs) = (st, outs) -> rg_mem r = wv_data st -> byte_range_of r ->
  write_file w f p r = (c, Ok tt) \/ try_write_file w f p r = (c, Ok true) ->
  full_reads w2 -> read_file w2 c p None = Ok b ->
  exists done rest, whole_records rs (lenN b) done rest /\
    rv_run ev2 (rv_init b) (map read_record done) = (RView b (log_size done), map (fun x => Ok (ROVals (values_of x))) done) /\
    (forall x xs, rest = x :: xs ->
       rv_step ev2 (RView b (log_size done)) (read_record x) = (RView b (log_size done), Throw out_of_range)) /\
    (full_writes w (lenN buf) -> rest = [] /\ b = wv_data st).
Proof. exact returned_log. Qed.
Print Assumptions C118_short_write.

(** Two records, a 4-byte and a 2-byte number. *)
Definition a_log : list record := [[(TEnc big 4 false, VInt 16909060)]; [(TEnc big 2 false, VInt 1286)]].
(** One that reads on after a record that is not there gets a number that nobody wrote: bytes 1 and 2 of the first record. *)
Theorem C118_read_on_refuted : exists ev rs b, rs = a_log /\ b = [x01; x02] /\
  whole_records rs (lenN b) [] rs /\
  snd (rv_run ev (rv_init b) (map read_record rs)) = [Throw out_of_range; Ok (ROVals [VInt 258])].
Proof. exists (Env little little), a_log, [x01; x02]. repeat split; try reflexivity; cbn; lia. Qed.
Print Assumptions C118_read_on_refuted.

Example C118_nonvacuous :
  let ev1 := Env little little in let ev2 := Env big big in
  let w := OS (fun _ => true) (fun _ => true) (fun n => n) [5; 2] in
  can_exchange ev1 ev2 a_log /\ Forall record_ok a_log /\ log_size a_log <= 7 /\
  exists st outs, wv_run ev1 (wv_init (repeat x55 7)) (map write_record a_log) = (st, outs) /\
    wv_data st = [x01; x02; x03; x04; x05; x06; x55] /\
    let r := Range 1 7 (wv_data st) in
    exists c, In c (fst (write_file_trace w (fun _ => None) 0 7 r)) /\
      read_file w c 0 None = Ok [x01; x02; x03; x04; x05] /\
      whole_records a_log 5 [[(TEnc big 4 false, VInt 16909060)]] [[(TEnc big 2 false, VInt 1286)]] /\
      snd (rv_run ev2 (rv_init [x01; x02; x03; x04; x05]) (map read_record a_log)) = [Ok (ROVals [VInt 16909060]); Throw out_of_range].
Proof.
  cbv zeta. split; [|split; [|split]].
  - right. repeat split; repeat constructor.
  - repeat constructor; cbn; try discriminate; lia.
  - vm_compute. discriminate.
  - eexists. eexists. split; [vm_compute; reflexivity|]. split; [reflexivity|]. cbn [wv_data].
    eexists. split; [right; left; reflexivity|]. split; [vm_compute; reflexivity|]. split.
    + split; [reflexivity|]. split; vm_compute; [discriminate|reflexivity].
    + vm_compute. reflexivity.
Qed.
