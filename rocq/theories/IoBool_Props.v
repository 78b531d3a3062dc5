(** C112: reading bool and other types not all of whose representations are values. *)
From Coq Require Import List Lia. Import ListNotations.
From Verif Require Import Base Io_Model Io_Spec IoBool_Model IoBool_Proofs.
Local Open Scope N_scope.

(** C112: a read is defined exactly if the bytes it reads are values of the types. *)
Theorem C112_read_at_defined : forall ev ts pos buf,
  ts <> [] -> Forall vtype_ok (map rt ts) -> pos < size_mod -> types_size (map rt ts) < size_mod -> lenN buf < size_mod ->
  let n := types_size (map rt ts) in
  if size_mod <=? pos + n then read_at_v ev ts pos buf = Throw invalid_argument
  else if lenN buf <? pos + n then read_at_v ev ts pos buf = Throw out_of_range
  else exists vs, decodes ev (map rt ts) (slice buf pos n) vs /\
       (Forall2 (fun t v => rep_ok t v = true) ts vs -> read_at_v ev ts pos buf = Ok vs) /\
       (~ Forall2 (fun t v => rep_ok t v = true) ts vs -> read_at_v ev ts pos buf = UB).
Proof. exact read_at_v_exact. Qed.
Print Assumptions C112_read_at_defined.
Theorem C112_read_defined : forall ev ts buf,
  ts <> [] -> Forall vtype_ok (map rt ts) -> types_size (map rt ts) < size_mod ->
  let n := types_size (map rt ts) in
  if lenN buf <? n then read_v ev ts buf = Throw out_of_range
  else exists vs, decodes ev (map rt ts) (slice buf 0 n) vs /\
       (Forall2 (fun t v => rep_ok t v = true) ts vs -> read_v ev ts buf = Ok vs) /\
       (~ Forall2 (fun t v => rep_ok t v = true) ts vs -> read_v ev ts buf = UB).
Proof. exact read_v_exact. Qed.
Print Assumptions C112_read_defined.
(** C112: what was written can be read. *)
Theorem C112_written_values_read_back : forall ev ts vs pos buf buf' n,
  ts <> [] -> Forall2 (fun t v => typed (rt t) v /\ rep_ok t v = true) ts vs ->
  pos < size_mod -> lenN buf < size_mod -> types_size (map rt ts) < size_mod ->
  write_at ev (map (fun p => AVal (rt (fst p)) (snd p)) (combine ts vs)) pos buf = (buf', Ok n) ->
  read_at_v ev ts pos buf' = Ok vs.
Proof. exact roundtrip_v. Qed.
Print Assumptions C112_written_values_read_back.
(** C112: the non-throwing reads are undefined for the same bytes. *)
Theorem C112_try_read_agrees : forall ev t buf, vtype_ok (rt t) -> value_size (rt t) < size_mod ->
  (forall v, try_read1_v ev t buf = Ok (RVal v) <-> read_v ev [t] buf = Ok [v]) /\
  (try_read1_v ev t buf = UB <-> read_v ev [t] buf = UB) /\
  (try_read1_v ev t buf = Ok (RErr rd_insufficient_buffer) <-> read_v ev [t] buf = Throw out_of_range).
Proof. exact try_v_agrees. Qed.
Print Assumptions C112_try_read_agrees.
Theorem C112_try_read_at_agrees : forall ev t pos buf,
  vtype_ok (rt t) -> value_size (rt t) < size_mod -> pos < size_mod -> lenN buf < size_mod ->
  (forall v, try_read_at1_v ev t pos buf = Ok (RVal v) <-> read_at_v ev [t] pos buf = Ok [v]) /\
  (try_read_at1_v ev t pos buf = UB <-> read_at_v ev [t] pos buf = UB) /\
  (try_read_at1_v ev t pos buf = Ok (RErr rd_insufficient_buffer) <-> read_at_v ev [t] pos buf = Throw out_of_range) /\
  (try_read_at1_v ev t pos buf = Ok (RErr rd_invalid_position_offset) <-> read_at_v ev [t] pos buf = Throw invalid_argument).
Proof. exact try_at_v_agrees. Qed.
Print Assumptions C112_try_read_at_agrees.
(** C112: bool. *)
Theorem C112_read_bool : forall ev b rest, read_v ev [bool_type] (b :: rest) =
  if Byte.eqb b x00 then Ok [bool_value false] else if Byte.eqb b x01 then Ok [bool_value true] else UB.
Proof. exact bool_read. Qed.
Print Assumptions C112_read_bool.
(** C112: reading a bool from bytes that are there need not be defined. *)
Theorem C112_reading_is_defined_refuted : exists buf, lenN buf = 1 /\ forall ev,
  read_v ev [bool_type] buf = UB /\ try_read1_v ev bool_type buf = UB /\ try_read_at1_v ev bool_type 0 buf = UB.
Proof. exact bool_refuted. Qed.
Print Assumptions C112_reading_is_defined_refuted.

Example C112_nonvacuous :
  let ts := [bool_type; any_type (TEnc big 2 false); bool_type] in
  let vs := [bool_value true; VInt 258; bool_value false] in
  Forall2 (fun t v => typed (rt t) v /\ rep_ok t v = true) ts vs /\
  write_at (Env little little) (map (fun p => AVal (rt (fst p)) (snd p)) (combine ts vs)) 1 (repeat x55 6)
    = ([x55; x01; x01; x02; x00; x55], Ok 5) /\
  read_at_v (Env little little) ts 1 [x55; x01; x01; x02; x00; x55] = Ok vs /\
  read_at_v (Env little little) ts 0 [x55; x01; x01; x02; x00; x55] = UB.
Proof. split; [repeat constructor; cbn; lia|]. repeat split; vm_compute; reflexivity. Qed.
