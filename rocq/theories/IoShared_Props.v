(** C85.  Several read and write views of one buffer.  [sh_run ev st ops] is any interleaving
    of calls on any number of views ([SR i op]: read view [i], [SW i op]: write view [i],
    [SRJump] / [SWJump]: unchecked_seek).  See IoView_Spec.v for the specification. *)
From Verif Require Import Base Io_Model Io_Spec IoView_Model IoView_Spec IoShared_Proofs.

(** No call is undefined, no view leaves the buffer, the buffer keeps its length. *)
Theorem C85_shared_safe : forall ev buf rp wp ops,
  lenN buf < ptr_max -> (forall i, rp i <= lenN buf) -> (forall i, wp i <= lenN buf) ->
  Forall (sop_ok (lenN buf)) ops ->
  let '(st, outs) := sh_run ev (Shared buf rp wp) ops in
  lenN (sh_buf st) = lenN buf /\ (forall i, sh_r st i <= lenN buf) /\ (forall i, sh_w st i <= lenN buf) /\
  length outs = length ops /\ Forall sout_fine outs.
Proof. exact shared_safe. Qed.
Print Assumptions C85_shared_safe.

(** Where unchecked_seek is defined. *)
Theorem C85_unchecked_seek : forall buf q p, lenN buf < ptr_max -> p < size_mod ->
  rv_unchecked_seek (RView buf q) p = (if p <=? lenN buf then Ok (RView buf p) else UB) /\
  wv_unchecked_seek (WView buf q) p = (if p <=? lenN buf then Ok (WView buf p) else UB).
Proof. exact unchecked_seek_exact. Qed.
Print Assumptions C85_unchecked_seek.

(** What read view [r] returns, and what is in the buffer, does not depend on other read views:
    removing all their calls from the history changes nothing else. *)
Theorem C85_readers_do_not_interfere : forall ev buf rp wp r ops,
  lenN buf < ptr_max -> (forall i, rp i <= lenN buf) -> (forall i, wp i <= lenN buf) ->
  Forall (sop_ok (lenN buf)) ops ->
  let '(a, xs) := sh_run ev (Shared buf rp wp) ops in
  let '(b, ys) := sh_run ev (Shared buf rp wp) (filter (matters r) ops) in
  sh_buf a = sh_buf b /\ sh_r a r = sh_r b r /\ (forall i, sh_w a i = sh_w b i) /\
  ys = map snd (filter (fun p => matters r (fst p)) (combine ops xs)).
Proof. exact readers_independent. Qed.
Print Assumptions C85_readers_do_not_interfere.

(** A write view and a read view that start at the same place, the reader never ahead of the
    writer: the reads decode the bytes of the values written, in the order they were written,
    whatever fails, however the calls interleave and whatever other readers do. *)
Theorem C85_queue : forall ev buf p w r rp wp ops st outs,
  lenN buf < ptr_max -> (forall i, rp i <= lenN buf) -> (forall i, wp i <= lenN buf) ->
  rp r = p -> wp w = p -> Forall (sop_ok (lenN buf)) ops -> Forall (queue_op w r) ops ->
  sh_run ev (Shared buf rp wp) ops = (st, outs) ->
  (forall k, let now := fst (sh_run ev (Shared buf rp wp) (firstn k ops)) in sh_r now r <= sh_w now w) ->
  exists log,
    args_encoding ev (map (fun x => AVal (fst x) (snd x)) (put_values ops outs)) log /\
    sh_w st w = p + lenN log /\ p <= sh_r st r /\
    decodes ev (got_types r ops outs) (takeN (sh_r st r - p) log) (got_values r ops outs).
Proof. exact queue_log. Qed.
Print Assumptions C85_queue.

(** If the reader asks for the types that were written it gets the values that were written:
    first in, first out. *)
Theorem C85_fifo : forall ev buf p w r rp wp ops st outs,
  lenN buf < ptr_max -> (forall i, rp i <= lenN buf) -> (forall i, wp i <= lenN buf) ->
  rp r = p -> wp w = p -> Forall (sop_ok (lenN buf)) ops -> Forall (queue_op w r) ops ->
  sh_run ev (Shared buf rp wp) ops = (st, outs) ->
  (forall k, let now := fst (sh_run ev (Shared buf rp wp) (firstn k ops)) in sh_r now r <= sh_w now w) ->
  forall rest, map fst (put_values ops outs) = got_types r ops outs ++ rest ->
  got_values r ops outs = firstn (length (got_types r ops outs)) (map snd (put_values ops outs)).
Proof. exact queue_fifo. Qed.
Print Assumptions C85_fifo.

Definition c85_ops : list sop :=
  [SW 0 (WWrite [AVal (TPlain (SInt 1 false)) (VInt 7)]); SR 1 (RRead [TPlain (SInt 1 false)]);
   SR 2 (RSeek 3); SW 0 (WWriteEndian 2 false 258 big); SW 0 (WWriteEndian 8 false 9 big);
   SR 2 (RRead [TPlain (SInt 1 false)]); SRJump 2 0; SR 1 (RReadEndian 2 false big)].
Example C85_nonvacuous :
  Forall (sop_ok 6) c85_ops /\ Forall (queue_op 0 1) c85_ops /\
  (forall k, let now := fst (sh_run (Env little little) (Shared (repeat x55 6) (fun _ => 1) (fun _ => 1)) (firstn k c85_ops)) in
             sh_r now 1 <= sh_w now 0) /\
  let '(st, outs) := sh_run (Env little little) (Shared (repeat x55 6) (fun _ => 1) (fun _ => 1)) c85_ops in
  sh_buf st = [x55; x07; x01; x02; x55; x55] /\
  got_values 1 c85_ops outs = [VInt 7; VInt 258] /\
  map snd (put_values c85_ops outs) = [VInt 7; VInt 258] /\
  nth 4 outs (SJo UB) = SWo (Throw out_of_range).
Proof.
  split; [|split; [|split]].
  - repeat constructor; try discriminate; try reflexivity; cbn; lia.
  - repeat constructor; discriminate.
  - intros k. do 9 (destruct k as [|k]; [vm_compute; discriminate|]). vm_compute. discriminate.
  - vm_compute. auto.
Qed.
