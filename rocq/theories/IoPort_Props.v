(** Property theorems C89 and C90: streams, buffers, files and other machines. *)
From Verif Require Import Base Io_Model Io_Spec File_Model File_Spec IoPort_Spec IoPort_Proofs.

(** C89.  Streams and buffers hold the same bytes. *)
Theorem C89_stream_is_buffer : forall ev svs buf,
  Forall (fun p => value_ok (fst p) (snd p)) svs ->
  lenN buf = args_size (map (fun p => AVal (TPlain (fst p)) (snd p)) svs) -> lenN buf < size_mod ->
  write ev (map (fun p => AVal (TPlain (fst p)) (snd p)) svs) buf = (stream_writes ev svs [], Ok (lenN buf)).
Proof. exact stream_is_buffer. Qed.
Print Assumptions C89_stream_is_buffer.
(** Reading a stream gives what reading a buffer with its bytes gives; if the buffer read throws the
    stream ends in the failed state. *)
Theorem C89_stream_reads_like_buffer : forall ev ss buf, types_size (map TPlain ss) < size_mod ->
  match read ev (map TPlain ss) buf with
  | Ok vs => stream_reads ev ss (IStream buf true) = (IStream (dropN (types_size (map TPlain ss)) buf) true, vs)
  | Throw _ => is_good (fst (stream_reads ev ss (IStream buf true))) = false
  | _ => False
  end.
Proof. exact stream_read_is_buffer_read. Qed.
Print Assumptions C89_stream_reads_like_buffer.
Example C89_nonvacuous :
  let svs := [(SInt 2 false, VInt 513); (SPod 2, VPod [x07; x08])] in
  Forall (fun p => value_ok (fst p) (snd p)) svs /\
  stream_writes (Env big little) svs [] = [x02; x01; x07; x08] /\
  read (Env big little) (map TPlain (map fst svs)) [x02; x01; x07; x08] = Ok (map snd svs).
Proof. cbv zeta. split; [repeat constructor; cbn; lia|]. split; vm_compute; reflexivity. Qed.

(** C90.  Data written on one machine and read on another. *)
Theorem C90_portable : forall ev1 ev2 ts vs pos buf buf' n, configured_right ev1 -> configured_right ev2 ->
  Forall portable ts -> Forall2 typed ts vs -> pos < size_mod -> lenN buf < size_mod -> types_size ts < size_mod ->
  write_at ev1 (map (fun p => AVal (fst p) (snd p)) (combine ts vs)) pos buf = (buf', Ok n) ->
  read_at ev2 ts pos buf' = Ok vs /\
  write_at ev2 (map (fun p => AVal (fst p) (snd p)) (combine ts vs)) pos buf = (buf', Ok n).
Proof. exact portable_data. Qed.
Print Assumptions C90_portable.
(** Saved to a file on one machine, loaded on another. *)
Theorem C90_save_load : forall ev1 ev2 ts vs buf w f p r f' w2 b buf' n,
  configured_right ev1 -> configured_right ev2 ->
  Forall portable ts -> Forall2 typed ts vs -> lenN buf < size_mod -> types_size ts < size_mod ->
  write ev1 (map (fun p => AVal (fst p) (snd p)) (combine ts vs)) buf = (buf', Ok n) ->
  byte_range_of r -> rg_mem r = buf' -> full_writes w (lenN buf') -> write_file w f p r = (f', Ok tt) ->
  full_reads w2 -> read_file w2 f' p None = Ok b ->
  read ev2 ts b = Ok vs /\ (forall q, q <> p -> f' q = f q).
Proof. exact save_load. Qed.
Print Assumptions C90_save_load.
(** On the same machine any types may be used. *)
Theorem C90_save_load_same_machine : forall ev ts vs buf w f p r f' w2 b buf' n,
  Forall2 typed ts vs -> lenN buf < size_mod -> types_size ts < size_mod ->
  write ev (map (fun p => AVal (fst p) (snd p)) (combine ts vs)) buf = (buf', Ok n) ->
  byte_range_of r -> rg_mem r = buf' -> full_writes w (lenN buf') -> write_file w f p r = (f', Ok tt) ->
  full_reads w2 -> read_file w2 f' p None = Ok b ->
  read ev ts b = Ok vs.
Proof. exact save_load_same. Qed.
Print Assumptions C90_save_load_same_machine.
(** Native values are not portable, so [portable] cannot be dropped. *)
Theorem C90_native_differs : exists ev1 ev2 t v b1 b2, configured_right ev1 /\ configured_right ev2 /\ typed t v /\
  value_encoding ev1 t v b1 /\ value_encoding ev2 t v b2 /\ b1 <> b2.
Proof. exact native_not_portable. Qed.
Print Assumptions C90_native_differs.
Example C90_nonvacuous :
  let ts := [TEnc big 2 false; TPlain (SInt 1 true); TEnc little 4 true] in
  let vs := [VInt 258; VInt (-3); VInt (-2)] in
  Forall portable ts /\ Forall2 typed ts vs /\
  let '(buf', o) := write (Env little little) (map (fun p => AVal (fst p) (snd p)) (combine ts vs)) (repeat x55 8) in
  o = Ok 7 /\ buf' = [x01; x02; xfd; xfe; xff; xff; xff; x55] /\ read (Env big big) ts buf' = Ok vs.
Proof. cbv zeta. split; [repeat constructor|]. split; [repeat constructor; cbn; lia|]. vm_compute. auto. Qed.
