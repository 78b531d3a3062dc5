(** Property theorems C15-C19 (buffer views). *)
From Verif Require Import Base Io_Model Io_Spec IoView_Model IoView_Spec IoView_PropLemmas.

(** C15.  [rop_ok]: the argument types are non-empty and their total size is
    below 2^63 (the range of ptrdiff_t). *)
Theorem C15_read_view_in_bounds : forall ev buf p ops,
  p <= lenN buf -> lenN buf < size_mod -> Forall rop_ok ops ->
  let '(st, outs) := rv_run ev (RView buf p) ops in
  rv_pos st <= lenN buf /\ rv_data st = buf /\ length outs = length ops /\
  Forall (fun o => (exists r, o = Ok r) \/ (exists e, o = Throw e)) outs.
Proof. exact read_view_in_bounds. Qed.
Print Assumptions C15_read_view_in_bounds.
(** A view starts at the front of the buffer, or at an offset that must be inside. *)
Theorem C15_construction : forall buf off,
  rv_data (rv_init buf) = buf /\ rv_pos (rv_init buf) = 0 /\
  (off <= lenN buf -> exists v, rv_make buf off = Ok v /\ rv_try_make buf off = Ok (RVal v) /\ rv_data v = buf /\ rv_pos v = off) /\
  (lenN buf < off -> rv_make buf off = Throw out_of_range /\ rv_try_make buf off = Ok (RErr rd_invalid_position_offset)).
Proof. exact read_view_made. Qed.
Print Assumptions C15_construction.
Example C15_nonvacuous :
  Forall rop_ok [RSeek 1; RRead [TPlain (SInt 4 true)]; RTryRead [TEnc big 2 false; TPlain (SInt 2 false)]] /\
  rv_run (Env little little) (RView [x01; x02; x03; x04] 0)
    [RSeek 1; RRead [TPlain (SInt 4 true)]; RTryRead [TEnc big 2 false; TPlain (SInt 2 false)]]
  = (RView [x01; x02; x03; x04] 4,
     [Ok ROUnit; Throw out_of_range; Ok (ROTry [RVal (VInt 515); RErr rd_insufficient_buffer])]).
Proof.
  split; [|vm_compute; reflexivity].
  repeat constructor; try discriminate; try reflexivity; cbn; lia.
Qed.

(** C16. *)
Theorem C16_view_read_is_read_at : forall ev buf p ts,
  p <= lenN buf -> lenN buf < size_mod -> rop_ok (RRead ts) ->
  rv_step ev (RView buf p) (RRead ts) =
    match read_at ev ts p buf with
    | Ok vs => (RView buf (p + types_size ts), Ok (ROVals vs))
    | _ => (RView buf p, Throw out_of_range)
    end.
Proof. exact (fun ev buf p ts A B C => read_view_at buf p (RRead ts) ev A B ts C eq_refl). Qed.
Print Assumptions C16_view_read_is_read_at.
Theorem C16_view_read_range_is_read_range_at : forall ev buf p t k,
  p <= lenN buf -> lenN buf < size_mod -> rop_ok (RReadRange t k) ->
  rv_step ev (RView buf p) (RReadRange t k) =
    match read_range_at ev t k p buf with
    | Ok vs => (RView buf (p + N.of_nat k * value_size t), Ok (ROVals vs))
    | _ => (RView buf p, Throw out_of_range)
    end.
Proof. exact (fun ev buf p t k => read_view_range_at buf p ev t k). Qed.
Print Assumptions C16_view_read_range_is_read_range_at.
Theorem C16_view_read_endian_is_read_at : forall ev buf p n sg e,
  p <= lenN buf -> lenN buf < size_mod -> rop_ok (RReadEndian n sg e) ->
  rv_step ev (RView buf p) (RReadEndian n sg e) =
    match read_at ev [TEnc e n sg] p buf with
    | Ok vs => (RView buf (p + N.of_nat n), Ok (ROVals vs))
    | _ => (RView buf p, Throw out_of_range)
    end.
Proof. exact (fun ev buf p n sg e => read_view_endian_at buf p ev n sg e). Qed.
Print Assumptions C16_view_read_endian_is_read_at.
Theorem C16_view_seek : forall ev buf p q, p <= lenN buf ->
  rv_step ev (RView buf p) (RSeek q) =
    if q <=? lenN buf then (RView buf q, Ok ROUnit) else (RView buf p, Throw out_of_range).
Proof. exact (fun ev buf p q => read_view_seek buf p q ev). Qed.
Print Assumptions C16_view_seek.
Theorem C16_throwing_call_leaves_view : forall ev st op e,
  rv_pos st <= lenN (rv_data st) -> lenN (rv_data st) < size_mod -> rop_ok op ->
  snd (rv_step ev st op) = Throw e -> fst (rv_step ev st op) = st.
Proof. exact read_view_throw_unchanged. Qed.
Print Assumptions C16_throwing_call_leaves_view.
Theorem C16_reads_are_consecutive : forall ev buf p tss outs st',
  p <= lenN buf -> lenN buf < size_mod -> Forall (fun ts => rop_ok (RRead ts)) tss ->
  rv_run ev (RView buf p) (map RRead tss) = (st', map (fun vs => Ok (ROVals vs)) outs) ->
  read_at ev (concat tss) p buf = Ok (concat outs) /\ rv_pos st' = p + types_size (concat tss) /\ rv_data st' = buf.
Proof. exact read_view_sequence. Qed.
Print Assumptions C16_reads_are_consecutive.
Example C16_nonvacuous :
  rv_run (Env little little) (RView [x09; x01; x02; x03; x04] 1)
    (map RRead [[TPlain (SInt 1 false); TEnc big 2 false]; [TPlain (SInt 1 false)]])
  = (RView [x09; x01; x02; x03; x04] 5,
     map (fun vs => Ok (ROVals vs)) [[VInt 1; VInt 515]; [VInt 4]]).
Proof. vm_compute; reflexivity. Qed.

(** C17.  False; what happens instead is given exactly. *)
Theorem C17_failed_try_read_consumes_refuted : exists ev st op st' e,
  rop_ok op /\ rv_step ev st op = (st', Ok (ROTry [RErr e])) /\ rv_pos st' <> rv_pos st.
Proof. exact failed_try_read_consumes_refuted. Qed.
Print Assumptions C17_failed_try_read_consumes_refuted.
Theorem C17_failed_try_read_range_consumes_refuted : exists ev st op st' e,
  rop_ok op /\ rv_step ev st op = (st', Ok (ROTryRange (RErr e))) /\ rv_pos st' <> rv_pos st.
Proof. exact failed_try_read_range_consumes_refuted. Qed.
Print Assumptions C17_failed_try_read_range_consumes_refuted.
Theorem C17_try_read_position_partial : forall ev buf p ts,
  p <= lenN buf -> lenN buf < size_mod -> rop_ok (RTryRead ts) ->
  exists rs, try_read ev ts (dropN p buf) = Ok rs /\
    rv_step ev (RView buf p) (RTryRead ts) = (RView buf (N.min (lenN buf) (p + types_size ts)), Ok (ROTry rs)).
Proof. exact try_read_view_consumes. Qed.
Print Assumptions C17_try_read_position_partial.
Theorem C17_try_read_range_position_partial : forall ev buf p t k,
  p <= lenN buf -> lenN buf < size_mod -> rop_ok (RTryReadRange t k) ->
  exists r, try_read_range ev t k (dropN p buf) = Ok r /\
    rv_step ev (RView buf p) (RTryReadRange t k) =
      (RView buf (match r with RVal _ => p + N.of_nat k * value_size t | RErr _ => lenN buf end), Ok (ROTryRange r)).
Proof. exact try_read_range_view_consumes. Qed.
Print Assumptions C17_try_read_range_position_partial.
Example C17_nonvacuous : rop_ok (RTryReadRange (TPlain (SInt 2 false)) 3) /\
  rv_step (Env little little) (RView [x01; x02; x03] 1) (RTryReadRange (TPlain (SInt 2 false)) 1)
   = (RView [x01; x02; x03] 3, Ok (ROTryRange (RVal [VInt 770]))).
Proof. split; [split; [unfold vtype_ok; cbn; lia|reflexivity]|vm_compute; reflexivity]. Qed.

(** C18.  [accepted ops outs]: the arguments of the calls that returned, in order. *)
Theorem C18_append_log : forall ev buf p ops st' outs,
  p <= lenN buf -> lenN buf < ptr_max -> Forall wop_ok ops -> Forall is_throwing_write ops ->
  wv_run ev (WView buf p) ops = (st', outs) ->
  exists bs, args_encoding ev (accepted ops outs) bs /\
    overwritten buf p bs (wv_data st') /\ wv_pos st' = p + lenN bs /\ wv_pos st' <= lenN buf.
Proof. exact write_view_append_log. Qed.
Print Assumptions C18_append_log.
Theorem C18_one_write : forall ev buf p op,
  p <= lenN buf -> lenN buf < ptr_max -> wop_ok op -> is_throwing_write op ->
  forall bs, args_encoding ev (wop_args op) bs ->
  if lenN buf <? p + lenN bs then wv_step ev (WView buf p) op = (WView buf p, Throw out_of_range)
  else exists buf', wv_step ev (WView buf p) op = (WView buf' (p + lenN bs), Ok (WOCount (lenN bs))) /\ overwritten buf p bs buf'.
Proof. exact write_view_step. Qed.
Print Assumptions C18_one_write.
Theorem C18_position_in_bounds : forall ev buf p ops,
  p <= lenN buf -> lenN buf < ptr_max -> Forall wop_ok ops ->
  let '(st, outs) := wv_run ev (WView buf p) ops in
  wv_pos st <= lenN buf /\ lenN (wv_data st) = lenN buf /\
  Forall (fun o => (exists r, o = Ok r) \/ (exists e, o = Throw e)) outs.
Proof. exact write_view_in_bounds. Qed.
Print Assumptions C18_position_in_bounds.
(** A view starts at the front of the buffer, or at an offset that must be inside. *)
Theorem C18_construction : forall buf off,
  wv_data (wv_init buf) = buf /\ wv_pos (wv_init buf) = 0 /\
  (off <= lenN buf -> exists v, wv_make buf off = Ok v /\ wv_data v = buf /\ wv_pos v = off) /\
  (lenN buf < off -> wv_make buf off = Throw out_of_range).
Proof. exact write_view_made. Qed.
Print Assumptions C18_construction.
Example C18_nonvacuous :
  let ops := [WWrite [AVal (TPlain (SInt 1 false)) (VInt 7)]; WWriteEndian 4 false 9 big; WWriteEndian 2 false 258 big] in
  Forall wop_ok ops /\ Forall is_throwing_write ops /\
  wv_run (Env little little) (WView (repeat x55 5) 1) ops =
    (WView [x55; x07; x01; x02; x55] 4, [Ok (WOCount 1); Throw out_of_range; Ok (WOCount 2)]).
Proof.
  cbn zeta. split; [|split; [repeat constructor|vm_compute; reflexivity]].
  repeat constructor; try discriminate; try reflexivity; cbn; lia.
Qed.

(** C19. *)
Theorem C19_failed_try_write_refuted : exists ev st op st' e,
  wop_ok op /\ wv_step ev st op = (st', Ok (WOTry (RErr e))) /\ wv_data st' <> wv_data st.
Proof. exact failed_try_write_view_refuted. Qed.
Print Assumptions C19_failed_try_write_refuted.
Theorem C19_failed_try_write_single_partial : forall ev buf p a e,
  p <= lenN buf -> lenN buf < ptr_max -> wop_ok (WTryWrite [a]) ->
  snd (wv_step ev (WView buf p) (WTryWrite [a])) = Ok (WOTry (RErr e)) ->
  fst (wv_step ev (WView buf p) (WTryWrite [a])) = WView buf p.
Proof. exact try_write_view_single. Qed.
Print Assumptions C19_failed_try_write_single_partial.
Theorem C19_try_write_exact_partial : forall ev buf p args,
  p <= lenN buf -> lenN buf < ptr_max -> wop_ok (WTryWrite args) ->
  exists pre rest bs buf',
    args = pre ++ rest /\ p + args_size pre <= lenN buf /\
    match rest with [] => True | a :: _ => lenN buf < p + args_size pre + arg_bytes a end /\
    args_encoding ev pre bs /\ overwritten buf p bs buf' /\
    wv_step ev (WView buf p) (WTryWrite args) =
      match rest with
      | [] => (WView buf' (p + args_size args), Ok (WOTry (RVal (args_size args))))
      | _ :: _ => (WView buf' p, Ok (WOTry (RErr wr_insufficient_buffer)))
      end.
Proof. exact try_write_view_exact. Qed.
Print Assumptions C19_try_write_exact_partial.
Example C19_nonvacuous :
  wv_step (Env little little) (WView [x00; x00; x00] 2) (WTryWrite [AVal (TPlain (SInt 2 false)) (VInt 7)])
  = (WView [x00; x00; x00] 2, Ok (WOTry (RErr wr_insufficient_buffer))).
Proof. vm_compute; reflexivity. Qed.
