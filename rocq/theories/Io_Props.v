(** Property theorems C01-C14 (buffers).  See properties.jsonl. *)
From Verif Require Import Base Io_Model Io_Spec Io_PropLemmas IoOverrun_Proofs IoExact_Proofs.

(** C01.  The bytes little_endian / big_endian put in a buffer. *)
Theorem C01_wire_format : forall (m e : endian) (n : nat) (sg : bool) (z : Z) (buf : list byte),
  (2 <= n)%nat -> int_ok n sg z -> N.of_nat n <= lenN buf -> lenN buf < size_mod ->
  exists bs buf',
    write (Env m m) [AVal (TEnc e n sg) (VInt z)] buf = (buf', Ok (N.of_nat n)) /\
    is_wire e n z bs /\ overwritten buf 0 bs buf'.
Proof. exact wire_format. Qed.
Print Assumptions C01_wire_format.
Example C01_nonvacuous :
  write (Env big big) [AVal (TEnc little 2 true) (VInt (-2))] [x01; x02; x03]
    = ([xfe; xff; x03], Ok 2)
  /\ int_ok 2 true (-2) /\ is_wire little 2 (-2) [xfe; xff].
Proof.
  split; [vm_compute; reflexivity|]. split; [cbn; lia|].
  split; [reflexivity|]. intros [|[|i]] Hi; [| |exfalso; lia]; eexists; (split; [reflexivity|reflexivity]).
Qed.

(** C02.  With the configured byte order opposite to the machine's, each encoding
    produces the other's bytes, on every buffer; the round trip still holds. *)
Theorem C02_misconfigured_swaps : forall (m e : endian) (n : nat) (sg : bool) (z : Z) (buf : list byte),
  (2 <= n)%nat -> int_ok n sg z ->
  write (Env m (flip m)) [AVal (TEnc e n sg) (VInt z)] buf
    = write (Env m m) [AVal (TEnc (flip e) n sg) (VInt z)] buf
  /\ (forall buf' k, lenN buf < size_mod -> N.of_nat n < size_mod ->
        write (Env m (flip m)) [AVal (TEnc e n sg) (VInt z)] buf = (buf', Ok k) ->
        read (Env m (flip m)) [TEnc e n sg] buf' = Ok [VInt z]).
Proof. exact misconfigured_swaps. Qed.
Print Assumptions C02_misconfigured_swaps.
Theorem C02_documented_format_when_misconfigured_refuted :
  exists (m e : endian) n sg z buf buf' k,
    int_ok n sg z /\ write (Env m (flip m)) [AVal (TEnc e n sg) (VInt z)] buf = (buf', Ok k) /\
    ~ is_wire e n z buf'.
Proof. exact misconfigured_format_refuted. Qed.
Print Assumptions C02_documented_format_when_misconfigured_refuted.
Example C02_nonvacuous :
  write (Env little big) [AVal (TEnc little 2 false) (VInt 258)] [x00; x00] = ([x01; x02], Ok 2).
Proof. vm_compute. reflexivity. Qed.

(** C03.  write_at then read_at. *)
Theorem C03_write_read_roundtrip : forall ev ts vs pos buf buf' n,
  ts <> [] -> Forall2 typed ts vs -> pos < size_mod -> lenN buf < size_mod -> types_size ts < size_mod ->
  write_at ev (map (fun p => AVal (fst p) (snd p)) (combine ts vs)) pos buf = (buf', Ok n) ->
  read_at ev ts pos buf' = Ok vs /\ n = pos + types_size ts.
Proof. exact write_read_roundtrip. Qed.
Print Assumptions C03_write_read_roundtrip.
Theorem C03_write_read_front : forall ev ts vs buf buf' n,
  ts <> [] -> Forall2 typed ts vs -> lenN buf < size_mod -> types_size ts < size_mod ->
  write ev (map (fun p => AVal (fst p) (snd p)) (combine ts vs)) buf = (buf', Ok n) ->
  read ev ts buf' = Ok vs /\ n = types_size ts.
Proof. exact write_read_front. Qed.
Print Assumptions C03_write_read_front.
Example C03_nonvacuous :
  let ts := [TEnc big 4 true; TPlain (SInt 2 false); TPlain (SPod 3)] in
  let vs := [VInt (-5); VInt 700; VPod [x0a; x0b; x0c]] in
  Forall2 typed ts vs /\
  write_at (Env little little) (map (fun p => AVal (fst p) (snd p)) (combine ts vs)) 1 (repeat x55 11)
    = ([x55; xff; xff; xff; xfb; xbc; x02; x0a; x0b; x0c; x55], Ok 10).
Proof. split; [repeat constructor; cbn; lia|vm_compute; reflexivity]. Qed.

(** C04.  Throwing writes are all-or-nothing. *)
Theorem C04_write_at_all_or_nothing : forall ev args bs pos buf,
  args <> [] -> Forall arg_ok args -> args_encoding ev args bs ->
  pos < size_mod -> lenN buf < size_mod -> lenN bs < size_mod ->
  if size_mod <=? pos + lenN bs then write_at ev args pos buf = (buf, Throw invalid_argument)
  else if lenN buf <? pos + lenN bs then write_at ev args pos buf = (buf, Throw out_of_range)
  else exists buf', write_at ev args pos buf = (buf', Ok (pos + lenN bs)) /\ overwritten buf pos bs buf'.
Proof. exact write_at_all_or_nothing. Qed.
Print Assumptions C04_write_at_all_or_nothing.
Theorem C04_write_all_or_nothing : forall ev args bs buf,
  args <> [] -> Forall arg_ok args -> args_encoding ev args bs ->
  lenN buf < size_mod -> lenN bs < size_mod ->
  if lenN buf <? lenN bs then write ev args buf = (buf, Throw out_of_range)
  else exists buf', write ev args buf = (buf', Ok (lenN bs)) /\ overwritten buf 0 bs buf'.
Proof. exact write_all_or_nothing. Qed.
Print Assumptions C04_write_all_or_nothing.
Theorem C04_encoding_exists : forall ev args, Forall arg_ok args ->
  exists bs, args_encoding ev args bs /\ lenN bs = args_size args /\
             forall bs', args_encoding ev args bs' -> bs' = bs.
Proof. exact encoding_exists. Qed.
Print Assumptions C04_encoding_exists.
Example C04_nonvacuous :
  let args := [AVal (TEnc big 2 false) (VInt 258); ARange (SInt 1 false) [VInt 7; VInt 8]] in
  Forall arg_ok args /\
  write_at (Env little little) args 1 (repeat x55 6) = ([x55; x01; x02; x07; x08; x55], Ok 5) /\
  write_at (Env little little) args 3 (repeat x55 6) = (repeat x55 6, Throw out_of_range).
Proof. split; [repeat constructor; cbn; lia|vm_compute; auto]. Qed.

(** C05.  Reads stay in bounds and see exactly the addressed bytes. *)
Theorem C05_read_at_exact : forall ev ts pos buf,
  ts <> [] -> Forall vtype_ok ts -> pos < size_mod -> types_size ts < size_mod -> lenN buf < size_mod ->
  if size_mod <=? pos + types_size ts then read_at ev ts pos buf = Throw invalid_argument
  else if lenN buf <? pos + types_size ts then read_at ev ts pos buf = Throw out_of_range
  else exists vs, read_at ev ts pos buf = Ok vs /\ decodes ev ts (slice buf pos (types_size ts)) vs.
Proof. exact read_at_exact. Qed.
Print Assumptions C05_read_at_exact.
Theorem C05_read_exact : forall ev ts buf,
  ts <> [] -> Forall vtype_ok ts -> types_size ts < size_mod ->
  if lenN buf <? types_size ts then read ev ts buf = Throw out_of_range
  else exists vs, read ev ts buf = Ok vs /\ decodes ev ts (slice buf 0 (types_size ts)) vs.
Proof. exact read_exact. Qed.
Print Assumptions C05_read_exact.
Theorem C05_read_range_at_exact : forall ev t k pos buf,
  vtype_ok t -> pos < size_mod -> N.of_nat k * value_size t < size_mod -> lenN buf < size_mod ->
  let n := N.of_nat k * value_size t in
  if size_mod <=? pos + n then read_range_at ev t k pos buf = Throw invalid_argument
  else if lenN buf <? pos + n then read_range_at ev t k pos buf = Throw out_of_range
  else exists vs, read_range_at ev t k pos buf = Ok vs /\ decodes ev (repeat t k) (slice buf pos n) vs.
Proof. exact read_range_at_exact. Qed.
Print Assumptions C05_read_range_at_exact.
Theorem C05_read_range_exact : forall ev t k buf,
  vtype_ok t -> N.of_nat k * value_size t < size_mod ->
  let n := N.of_nat k * value_size t in
  if lenN buf <? n then read_range ev t k buf = Throw out_of_range
  else exists vs, read_range ev t k buf = Ok vs /\ decodes ev (repeat t k) (slice buf 0 n) vs.
Proof. exact read_range_exact. Qed.
Print Assumptions C05_read_range_exact.
Theorem C05_decoding_unique : forall ev ts bs vs vs',
  decodes ev ts bs vs -> decodes ev ts bs vs' -> vs = vs'.
Proof. exact decoding_unique. Qed.
Print Assumptions C05_decoding_unique.
Theorem C05_reads_never_undefined : forall ev ts pos buf,
  Forall vtype_ok ts -> pos < size_mod -> types_size ts < size_mod -> lenN buf < size_mod ->
  (exists o, read ev ts buf = Ok o \/ exists e, read ev ts buf = Throw e) /\
  (exists o, read_at ev ts pos buf = Ok o \/ exists e, read_at ev ts pos buf = Throw e) /\
  (exists rs, try_read ev ts buf = Ok rs) /\
  (exists rs, try_read_at ev ts pos buf = Ok rs).
Proof. exact reads_never_undefined. Qed.
Print Assumptions C05_reads_never_undefined.
Theorem C05_other_bytes_irrelevant : forall ev ts pos buf buf2,
  Forall vtype_ok ts -> pos < size_mod -> types_size ts < size_mod -> lenN buf < size_mod ->
  lenN buf2 = lenN buf -> slice buf2 pos (types_size ts) = slice buf pos (types_size ts) ->
  read_at ev ts pos buf2 = read_at ev ts pos buf.
Proof. exact other_bytes_irrelevant. Qed.
Print Assumptions C05_other_bytes_irrelevant.
Theorem C05_other_bytes_irrelevant_elsewhere : forall ev ts buf buf2 pos,
  Forall vtype_ok ts -> lenN buf < size_mod -> types_size ts < size_mod -> lenN buf2 = lenN buf ->
  (slice buf2 0 (types_size ts) = slice buf 0 (types_size ts) ->
     read ev ts buf2 = read ev ts buf /\ try_read ev ts buf2 = try_read ev ts buf) /\
  (pos + types_size ts < size_mod -> slice buf2 pos (types_size ts) = slice buf pos (types_size ts) ->
     try_read_at ev ts pos buf2 = try_read_at ev ts pos buf).
Proof. exact other_bytes_all. Qed.
Print Assumptions C05_other_bytes_irrelevant_elsewhere.
Example C05_nonvacuous :
  read_at (Env little little) [TEnc big 2 false; TPlain (SInt 1 true)] 1 [x00; x01; x02; xff; x09]
    = Ok [VInt 258; VInt (-1)] /\
  read_at (Env little little) [TEnc big 2 false] (size_mod - 1) [x00; x01; x02; xff; x09] = Throw invalid_argument /\
  read_range_at (Env little little) (TEnc big 2 false) 2 1 [x00; x01; x02; xff; x09] = Ok [VInt 258; VInt 65289].
Proof. vm_compute; auto. Qed.

(** C06.  Throwing and non-throwing single reads agree. *)
Theorem C06_try_read_agrees : forall ev t buf, vtype_ok t -> value_size t < size_mod ->
  (forall v, try_read1 ev t buf = Ok (RVal v) <-> read ev [t] buf = Ok [v]) /\
  (try_read1 ev t buf = Ok (RErr rd_insufficient_buffer) <-> read ev [t] buf = Throw out_of_range) /\
  (exists r, try_read1 ev t buf = Ok r /\ r <> RErr rd_invalid_position_offset /\ r <> RErr rd_file_not_found).
Proof. exact try_read_agrees. Qed.
Print Assumptions C06_try_read_agrees.
Theorem C06_try_read_at_agrees : forall ev t pos buf,
  vtype_ok t -> value_size t < size_mod -> pos < size_mod -> lenN buf < size_mod ->
  (forall v, try_read_at1 ev t pos buf = Ok (RVal v) <-> read_at ev [t] pos buf = Ok [v]) /\
  (try_read_at1 ev t pos buf = Ok (RErr rd_invalid_position_offset) <-> read_at ev [t] pos buf = Throw invalid_argument) /\
  (try_read_at1 ev t pos buf = Ok (RErr rd_insufficient_buffer) <-> read_at ev [t] pos buf = Throw out_of_range) /\
  (exists r, try_read_at1 ev t pos buf = Ok r /\ r <> RErr rd_file_not_found).
Proof. exact try_read_at_agrees. Qed.
Print Assumptions C06_try_read_at_agrees.
Example C06_nonvacuous :
  try_read_at1 (Env big big) (TEnc little 2 false) 1 [x00; x02; x01] = Ok (RVal (VInt 258)) /\
  try_read_at1 (Env big big) (TEnc little 2 false) 2 [x00; x02; x01] = Ok (RErr rd_insufficient_buffer).
Proof. vm_compute; auto. Qed.

(** C07.  Range reads: equal except for an empty range at the very end. *)
Theorem C07_try_read_range_at_agrees_partial : forall ev t k pos buf,
  (0 < k)%nat -> vtype_ok t ->
  N.of_nat k * value_size t < size_mod -> pos < size_mod -> lenN buf < size_mod ->
  (forall vs, try_read_range_at ev t k pos buf = Ok (RVal vs) <-> read_range_at ev t k pos buf = Ok vs) /\
  (try_read_range_at ev t k pos buf = Ok (RErr rd_invalid_position_offset) <-> read_range_at ev t k pos buf = Throw invalid_argument) /\
  (try_read_range_at ev t k pos buf = Ok (RErr rd_insufficient_buffer) <-> read_range_at ev t k pos buf = Throw out_of_range).
Proof. exact try_read_range_at_agrees. Qed.
Print Assumptions C07_try_read_range_at_agrees_partial.
Theorem C07_try_read_range_agrees : forall ev t k buf,
  vtype_ok t -> N.of_nat k * value_size t < size_mod ->
  (forall vs, try_read_range ev t k buf = Ok (RVal vs) <-> read_range ev t k buf = Ok vs) /\
  (try_read_range ev t k buf = Ok (RErr rd_insufficient_buffer) <-> read_range ev t k buf = Throw out_of_range).
Proof. exact try_read_range_agrees. Qed.
Print Assumptions C07_try_read_range_agrees.
Theorem C07_empty_range_at_end_refuted : exists ev t pos buf,
  read_range_at ev t 0 pos buf = Ok [] /\ try_read_range_at ev t 0 pos buf = Ok (RErr rd_insufficient_buffer).
Proof. exact empty_range_at_end_refuted. Qed.
Print Assumptions C07_empty_range_at_end_refuted.
(** The two functions on an empty range, for every position: they differ at position = size only. *)
Theorem C07_empty_range_partial : forall ev t pos buf, pos < size_mod -> lenN buf < size_mod ->
  read_range_at ev t 0 pos buf = (if pos <=? lenN buf then Ok [] else Throw out_of_range) /\
  try_read_range_at ev t 0 pos buf = Ok (if pos <? lenN buf then RVal [] else RErr rd_insufficient_buffer).
Proof. exact empty_range_exact. Qed.
Print Assumptions C07_empty_range_partial.
Example C07_nonvacuous :
  try_read_range_at (Env little little) (TPlain (SInt 2 false)) 2 1 [x00; x01; x00; x02; x00]
    = Ok (RVal [VInt 1; VInt 2]).
Proof. vm_compute; auto. Qed.

(** C08.  Multi-value try_read. *)
Theorem C08_try_read_prefix : forall ev ts buf, Forall vtype_ok ts ->
  exists j vs, (j <= length ts)%nat /\
    types_size (firstn j ts) <= lenN buf /\
    ((j < length ts)%nat -> lenN buf < types_size (firstn (S j) ts)) /\
    decodes ev (firstn j ts) (slice buf 0 (types_size (firstn j ts))) vs /\
    try_read ev ts buf = Ok (map RVal vs ++ repeat (RErr rd_insufficient_buffer) (length ts - j)).
Proof. exact try_read_prefix. Qed.
Print Assumptions C08_try_read_prefix.
Example C08_nonvacuous :
  try_read (Env little little) [TPlain (SInt 2 false); TPlain (SInt 4 false); TPlain (SInt 1 false)] [x01; x00; x03; x04]
    = Ok [RVal (VInt 1); RErr rd_insufficient_buffer; RErr rd_insufficient_buffer].
Proof. vm_compute; auto. Qed.

(** C09.  Multi-value try_read_at: right when position + total size stays below
    2^64, wrong otherwise. *)
Theorem C09_try_read_at_prefix_partial : forall ev ts pos buf, Forall vtype_ok ts ->
  lenN buf < size_mod -> pos + types_size ts < size_mod ->
  exists j vs, (j <= length ts)%nat /\
    (j = 0%nat \/ pos + types_size (firstn j ts) <= lenN buf) /\
    ((j < length ts)%nat -> lenN buf < pos + types_size (firstn (S j) ts)) /\
    decodes ev (firstn j ts) (slice buf pos (types_size (firstn j ts))) vs /\
    try_read_at ev ts pos buf = Ok (map RVal vs ++ repeat (RErr rd_insufficient_buffer) (length ts - j)).
Proof. exact try_read_at_prefix. Qed.
Print Assumptions C09_try_read_at_prefix_partial.
Theorem C09_try_read_at_wraps_refuted : exists ev ts pos buf r v,
  Forall vtype_ok ts /\ pos < size_mod /\ lenN buf < pos /\
  try_read_at ev ts pos buf = Ok [r; RVal v].
Proof. exact try_read_at_wraps_refuted. Qed.
Print Assumptions C09_try_read_at_wraps_refuted.
(** Every position: element i is read at the position reduced modulo 2^64. *)
Theorem C09_try_read_at_exact_partial : forall ev ts pos buf,
  Forall vtype_ok ts -> Forall (fun t => value_size t < size_mod) ts -> lenN buf < size_mod -> pos < size_mod ->
  exists rs, try_read_at ev ts pos buf = Ok rs /\ length rs = length ts /\
    forall i t r, nth_error ts i = Some t -> nth_error rs i = Some r ->
      let q := (pos + types_size (firstn i ts)) mod size_mod in
      (size_mod <= q + value_size t -> r = RErr rd_invalid_position_offset) /\
      (q + value_size t < size_mod -> lenN buf < q + value_size t -> r = RErr rd_insufficient_buffer) /\
      (q + value_size t <= lenN buf -> exists v, r = RVal v /\ decodes ev [t] (slice buf q (value_size t)) [v]).
Proof. exact try_read_at_exact. Qed.
Print Assumptions C09_try_read_at_exact_partial.
Example C09_exact_nonvacuous :
  try_read_at (Env little little) [TPlain (SInt 2 false); TPlain (SInt 1 false); TPlain (SInt 2 false); TPlain (SInt 4 false)]
      (size_mod - 2) [x01; x00; x03; x04]
    = Ok [RErr rd_invalid_position_offset; RVal (VInt 1); RVal (VInt 768); RErr rd_insufficient_buffer].
Proof. vm_compute; auto. Qed.
Example C09_nonvacuous :
  try_read_at (Env little little) [TPlain (SInt 1 false); TPlain (SInt 2 false)] 3 [x01; x00; x03; x04]
    = Ok [RVal (VInt 4); RErr rd_insufficient_buffer].
Proof. vm_compute; auto. Qed.

(** C10.  Non-throwing writes: all-or-nothing for one value, not for several. *)
Theorem C10_try_write_single_partial : forall ev a bs buf,
  arg_ok a -> arg_encoding ev a bs -> lenN buf < size_mod -> lenN bs < size_mod ->
  (forall e, snd (try_write ev [a] buf) = Ok (RErr e) ->
      fst (try_write ev [a] buf) = buf /\ e = wr_insufficient_buffer /\ snd (write ev [a] buf) = Throw out_of_range) /\
  (forall n, snd (try_write ev [a] buf) = Ok (RVal n) ->
      write ev [a] buf = (fst (try_write ev [a] buf), Ok n)) /\
  (exists r, snd (try_write ev [a] buf) = Ok r).
Proof. exact try_write_single. Qed.
Print Assumptions C10_try_write_single_partial.
Theorem C10_try_write_success_partial : forall ev args buf buf' n,
  args <> [] -> Forall arg_ok args -> lenN buf < size_mod -> args_size args < size_mod ->
  (try_write ev args buf = (buf', Ok (RVal n)) <-> write ev args buf = (buf', Ok n)).
Proof. exact try_write_success. Qed.
Print Assumptions C10_try_write_success_partial.
Theorem C10_try_write_at_single_partial : forall ev a bs pos buf,
  arg_ok a -> arg_encoding ev a bs -> pos < size_mod -> lenN buf < size_mod -> 0 < lenN bs < size_mod ->
  (forall e, snd (try_write_at ev [a] pos buf) = Ok (RErr e) ->
      fst (try_write_at ev [a] pos buf) = buf /\
      snd (write_at ev [a] pos buf) =
        Throw (match e with wr_invalid_position_offset => invalid_argument | wr_insufficient_buffer => out_of_range end)) /\
  (forall n, snd (try_write_at ev [a] pos buf) = Ok (RVal n) ->
      write_at ev [a] pos buf = (fst (try_write_at ev [a] pos buf), Ok n)) /\
  (exists r, snd (try_write_at ev [a] pos buf) = Ok r).
Proof. exact try_write_at_single. Qed.
Print Assumptions C10_try_write_at_single_partial.
Theorem C10_try_write_many_refuted : exists ev args buf buf' e,
  Forall arg_ok args /\ try_write ev args buf = (buf', Ok (RErr e)) /\ buf' <> buf.
Proof. exact try_write_many_refuted. Qed.
Print Assumptions C10_try_write_many_refuted.
Theorem C10_try_write_at_many_refuted : exists ev args pos buf buf' e,
  Forall arg_ok args /\ try_write_at ev args pos buf = (buf', Ok (RErr e)) /\ buf' <> buf.
Proof. exact try_write_at_many_refuted. Qed.
Print Assumptions C10_try_write_at_many_refuted.
Theorem C10_try_write_at_empty_refuted : exists ev a pos buf,
  arg_ok a /\ write_at ev [a] pos buf = (buf, Ok pos) /\
  try_write_at ev [a] pos buf = (buf, Ok (RErr wr_insufficient_buffer)).
Proof. exact try_write_at_empty_refuted. Qed.
Print Assumptions C10_try_write_at_empty_refuted.
Example C10_nonvacuous :
  try_write (Env little little) [AVal (TPlain (SInt 2 false)) (VInt 258)] [x00; x00; x07] = ([x02; x01; x07], Ok (RVal 2)).
Proof. vm_compute; auto. Qed.

(** C11.  What a multi-value try_write really does: [args] splits into a longest
    fitting prefix that is written and a rest that is not. *)
Theorem C11_try_write_writes_prefix : forall ev args buf,
  args <> [] -> Forall arg_ok args -> Forall (fun a => arg_bytes a < size_mod) args -> lenN buf < size_mod ->
  exists pre rest bs buf' r,
    args = pre ++ rest /\ args_size pre <= lenN buf /\
    match rest with [] => True | a :: _ => lenN buf < args_size pre + arg_bytes a end /\
    args_encoding ev pre bs /\ overwritten buf 0 bs buf' /\
    try_write ev args buf = (buf', Ok r) /\
    r = (match rest with [] => RVal (args_size args) | _ :: _ => RErr wr_insufficient_buffer end).
Proof. exact try_write_writes_prefix. Qed.
Print Assumptions C11_try_write_writes_prefix.
Theorem C11_try_write_at_writes_prefix : forall ev args pos buf,
  args <> [] -> Forall arg_ok args -> Forall (fun a => 0 < arg_bytes a < size_mod) args ->
  pos <= lenN buf -> lenN buf < size_mod ->
  exists pre rest bs buf' r,
    args = pre ++ rest /\ pos + args_size pre <= lenN buf /\
    match rest with [] => True | a :: _ => lenN buf < pos + args_size pre + arg_bytes a end /\
    args_encoding ev pre bs /\ overwritten buf pos bs buf' /\
    try_write_at ev args pos buf = (buf', Ok r) /\
    match rest with [] => r = RVal (pos + args_size args) | _ :: _ => exists e, r = RErr e /\
       (pos + args_size args < size_mod -> e = wr_insufficient_buffer) end.
Proof. exact try_write_at_writes_prefix. Qed.
Print Assumptions C11_try_write_at_writes_prefix.
Theorem C11_try_write_at_past_end : forall ev args pos buf,
  args <> [] -> Forall arg_ok args -> Forall (fun a => 0 < arg_bytes a < size_mod) args ->
  lenN buf < pos -> pos < size_mod ->
  exists e, try_write_at ev args pos buf = (buf, Ok (RErr e)).
Proof. exact try_write_at_past_end. Qed.
Print Assumptions C11_try_write_at_past_end.
Example C11_nonvacuous :
  let args := [AVal (TPlain (SInt 2 false)) (VInt 258); AVal (TPlain (SInt 4 false)) (VInt 1); AVal (TPlain (SInt 1 false)) (VInt 9)] in
  Forall arg_ok args /\
  try_write (Env little little) args [x55; x55; x55; x55] = ([x02; x01; x55; x55], Ok (RErr wr_insufficient_buffer)).
Proof. split; [repeat constructor; cbn; lia|vm_compute; reflexivity]. Qed.

(** C12.  Sizes whose total exceeds 2^64 defeat the check. *)
Theorem C12_size_overflow_refuted : exists ev args buf,
  Forall arg_ok args /\ snd (write ev args buf) = UB.
Proof. exact size_overflow_refuted. Qed.
Print Assumptions C12_size_overflow_refuted.
Theorem C12_no_overflow_safe_partial : forall ev args buf,
  args <> [] -> Forall arg_ok args -> args_size args < size_mod -> lenN buf < size_mod ->
  snd (write ev args buf) <> UB /\ lenN (fst (write ev args buf)) = lenN buf.
Proof. exact no_overflow_safe. Qed.
Print Assumptions C12_no_overflow_safe_partial.
(** Every write of ranges falls into one of the listed cases: the last one is the overrun. *)
Theorem C12_write_exact : forall ev args buf,
  args <> [] -> Forall arg_ok args -> lenN buf < size_mod ->
  let n := args_size args in
  (lenN buf < n mod size_mod -> write ev args buf = (buf, Throw out_of_range)) /\
  (n mod size_mod <= lenN buf -> n <= lenN buf -> exists buf', write ev args buf = (buf', Ok n) /\ lenN buf' = lenN buf) /\
  (n mod size_mod <= lenN buf -> lenN buf < n -> snd (write ev args buf) = UB).
Proof. exact write_overrun_exact. Qed.
Print Assumptions C12_write_exact.
Theorem C12_write_at_exact : forall ev args pos buf,
  args <> [] -> Forall arg_ok args -> pos < size_mod -> lenN buf < size_mod ->
  let n := args_size args in
  (size_mod <= pos + n mod size_mod -> write_at ev args pos buf = (buf, Throw invalid_argument)) /\
  (pos + n mod size_mod < size_mod -> lenN buf < pos + n mod size_mod -> write_at ev args pos buf = (buf, Throw out_of_range)) /\
  (pos + n mod size_mod <= lenN buf -> pos + n <= lenN buf ->
     exists buf', write_at ev args pos buf = (buf', Ok (pos + n)) /\ lenN buf' = lenN buf) /\
  (pos + n mod size_mod <= lenN buf -> lenN buf < pos + n -> snd (write_at ev args pos buf) = UB).
Proof. exact write_at_overrun_exact. Qed.
Print Assumptions C12_write_at_exact.
Theorem C12_try_write_exact : forall ev s vs buf,
  arg_ok (ARange s vs) -> lenN buf < size_mod ->
  let n := lenN vs * N.of_nat (scalar_bytes s) in
  (lenN buf < n mod size_mod -> try_write ev [ARange s vs] buf = (buf, Ok (RErr wr_insufficient_buffer))) /\
  (n mod size_mod <= lenN buf -> n <= lenN buf ->
     exists buf', try_write ev [ARange s vs] buf = (buf', Ok (RVal n)) /\ lenN buf' = lenN buf) /\
  (n mod size_mod <= lenN buf -> lenN buf < n -> snd (try_write ev [ARange s vs] buf) = UB).
Proof. exact try_write_overrun_exact. Qed.
Print Assumptions C12_try_write_exact.
(** Lists of values and ranges of any sizes: [pre] is what is written, and the argument after it decides the outcome. *)
Theorem C12_try_write_many_exact : forall ev args buf,
  args <> [] -> Forall arg_ok args -> (forall t v, In (AVal t v) args -> value_size t < size_mod) -> lenN buf < size_mod ->
  exists pre rest bs buf',
    args = pre ++ rest /\ args_size pre <= lenN buf /\
    args_encoding ev pre bs /\ overwritten buf 0 bs buf' /\
    match rest with
    | [] => try_write ev args buf = (buf', Ok (RVal (args_size args)))
    | x :: _ =>
        let p := args_size pre in
        let n := arg_bytes x mod size_mod in
        lenN buf < p + arg_bytes x /\
        (lenN buf < p + n -> try_write ev args buf = (buf', Ok (RErr wr_insufficient_buffer))) /\
        (p + n <= lenN buf -> snd (try_write ev args buf) = UB)
    end.
Proof. exact try_write_any. Qed.
Print Assumptions C12_try_write_many_exact.
Theorem C12_try_write_at_exact : forall ev args pos buf,
  args <> [] -> Forall arg_ok args -> (forall t v, In (AVal t v) args -> value_size t < size_mod) ->
  pos < size_mod -> lenN buf < size_mod ->
  exists pre rest bs buf',
    args = pre ++ rest /\
    (forall a x b, pre = a ++ x :: b -> pos + args_size a < lenN buf /\ pos + args_size a + arg_bytes x <= lenN buf) /\
    args_encoding ev pre bs /\ overwritten buf pos bs buf' /\
    match rest with
    | [] => try_write_at ev args pos buf = (buf', Ok (RVal (pos + args_size args)))
    | x :: _ =>
        let p := pos + args_size pre in
        let n := arg_bytes x mod size_mod in
        (size_mod <= p + n -> try_write_at ev args pos buf = (buf', Ok (RErr wr_invalid_position_offset))) /\
        (p + n < size_mod -> lenN buf <= p \/ lenN buf < p + n ->
           try_write_at ev args pos buf = (buf', Ok (RErr wr_insufficient_buffer))) /\
        (p < lenN buf -> p + n <= lenN buf -> lenN buf < p + arg_bytes x /\ snd (try_write_at ev args pos buf) = UB)
    end.
Proof. exact try_write_at_any. Qed.
Print Assumptions C12_try_write_at_exact.
(** An empty range in the middle is written; at the end try_write accepts it and try_write_at does not. *)
Example C12_any_sizes_nonvacuous :
  let args := [AVal (TPlain (SInt 1 false)) (VInt 7); ARange (SInt 4 false) []; AVal (TPlain (SInt 1 false)) (VInt 9); ARange (SInt 4 false) []] in
  Forall arg_ok args /\
  try_write (Env little little) args [x55; x55] = ([x07; x09], Ok (RVal 2)) /\
  try_write_at (Env little little) args 1 [x55; x55; x55] = ([x55; x07; x09], Ok (RErr wr_insufficient_buffer)).
Proof. split; [repeat constructor; cbn; lia|]. vm_compute. auto. Qed.
(** Two arguments of the overrunning case: 2^61 elements of eight bytes, and a total that wraps to 12. *)
Example C12_overrun_nonvacuous :
  let a := ARange (SInt 8 false) (repeat (VInt 0) (N.to_nat (2 ^ 61))) in
  let b := ARange (SInt 2 false) [VInt 1; VInt 2; VInt 3; VInt 4; VInt 5; VInt 6] in
  args_size [a] = size_mod /\ args_size [a] mod size_mod = 0 /\
  args_size [b; a] = size_mod + 12 /\ args_size [b; a] mod size_mod = 12.
Proof.
  intros a b. assert (A : arg_bytes a = size_mod).
  { unfold a, arg_bytes, lenN. rewrite repeat_length, N2Nat.id. reflexivity. }
  unfold args_size. cbn [map]. rewrite A. repeat split.
Qed.
Example C12_nonvacuous :
  args_size [ARange (SInt 2 false) [VInt 1; VInt 2]; AVal (TPlain (SInt 8 false)) (VInt 3)] = 12.
Proof. reflexivity. Qed.

(** C13.  to_bytes and from_bytes are inverse. *)
Theorem C13_from_to_bytes : forall ev t v, typed t v -> value_size t < size_mod ->
  exists b, to_bytes ev t v = Ok b /\ try_to_bytes ev t v = Ok (RVal b) /\ lenN b = value_size t /\
            value_encoding ev t v b /\
            from_bytes ev t b = Ok [v] /\ try_from_bytes ev t b = Ok (RVal v).
Proof. exact from_to_bytes. Qed.
Print Assumptions C13_from_to_bytes.
Theorem C13_to_from_bytes : forall ev t b, vtype_ok t -> value_size t < size_mod -> lenN b = value_size t ->
  exists v, typed t v /\ from_bytes ev t b = Ok [v] /\ try_from_bytes ev t b = Ok (RVal v) /\
            to_bytes ev t v = Ok b /\ try_to_bytes ev t v = Ok (RVal b).
Proof. exact to_from_bytes. Qed.
Print Assumptions C13_to_from_bytes.
Example C13_nonvacuous :
  to_bytes (Env big big) (TPlain (SInt 4 true)) (VInt (-2)) = Ok [xff; xff; xff; xfe].
Proof. vm_compute; auto. Qed.

(** C14.  Ranges. *)
Theorem C14_range_roundtrip : forall ev s vs pos buf buf' n,
  (0 < scalar_bytes s)%nat -> Forall (value_ok s) vs -> pos < size_mod -> lenN buf < size_mod ->
  lenN vs * N.of_nat (scalar_bytes s) < size_mod ->
  write_at ev [ARange s vs] pos buf = (buf', Ok n) ->
  n = pos + lenN vs * N.of_nat (scalar_bytes s) /\
  read_range_at ev (TPlain s) (length vs) pos buf' = Ok vs.
Proof. exact range_roundtrip. Qed.
Print Assumptions C14_range_roundtrip.
(** Values written one by one in a fixed byte order, read back into a range of elements of that order. *)
Theorem C14_range_reads_back : forall ev t vs pos buf buf' n,
  Forall (typed t) vs -> pos < size_mod -> lenN buf < size_mod -> lenN vs * value_size t < size_mod ->
  write_at ev (map (AVal t) vs) pos buf = (buf', Ok n) ->
  n = pos + lenN vs * value_size t /\ read_range_at ev t (length vs) pos buf' = Ok vs.
Proof. exact range_reads_back. Qed.
Print Assumptions C14_range_reads_back.
Example C14_nonvacuous :
  write_at (Env little little) [ARange (SInt 2 false) [VInt 1; VInt 513]] 1 (repeat x00 6) = ([x00; x01; x00; x01; x02; x00], Ok 5) /\
  write_at (Env little little) (map (AVal (TEnc big 2 false)) [VInt 1; VInt 513]) 1 (repeat x00 6) = ([x00; x00; x01; x02; x01; x00], Ok 5).
Proof. vm_compute; auto. Qed.
