(** Theorems C124: it does not matter how values are grouped into calls. *)
From Coq Require Import List Lia. Import ListNotations.
From Verif Require Import Base Io_Model Io_Spec IoView_Model IoView_Spec Group_Spec Group_Proofs.
Local Open Scope N_scope.

(** try_read: the results and the position are the same, whether everything fits or not. *)
Theorem C124_try_read : forall ev gs v, rv_pos v <= lenN (rv_data v) -> lenN (rv_data v) < size_mod -> read_groups_ok gs ->
  exists v' rs, try_read_groups ev v gs = (v', Ok rs) /\ rv_step ev v (RTryRead (concat gs)) = (v', Ok (ROTry rs)).
Proof. exact try_read_grouped. Qed.
Print Assumptions C124_try_read.

(** read: the values and the position are the same if everything fits; otherwise both throw, and one call does not move. *)
Theorem C124_read : forall ev gs v, rv_pos v <= lenN (rv_data v) -> lenN (rv_data v) < size_mod -> read_groups_ok gs ->
  match read_groups ev v gs with
  | (v', Ok vs) => rv_step ev v (RRead (concat gs)) = (v', Ok (ROVals vs))
  | (v', o) => o = Throw out_of_range /\ rv_step ev v (RRead (concat gs)) = (v, Throw out_of_range) /\
               rv_data v' = rv_data v /\ rv_pos v <= rv_pos v' <= lenN (rv_data v)
  end.
Proof. exact read_grouped. Qed.
Print Assumptions C124_read.

(** read_range of k elements is one read of k values. *)
Theorem C124_read_range : forall ev v t k, rv_pos v <= lenN (rv_data v) -> lenN (rv_data v) < size_mod -> (0 < k)%nat ->
  rop_ok (RReadRange t k) -> rv_step ev v (RReadRange t k) = rv_step ev v (RRead (repeat t k)).
Proof. exact range_is_reads. Qed.
Print Assumptions C124_read_range.

(** write: likewise; the counts add up. *)
Theorem C124_write : forall ev gs v, wv_pos v <= lenN (wv_data v) -> lenN (wv_data v) < ptr_max -> write_groups_ok gs ->
  match write_groups ev v gs with
  | (v', Ok n) => wv_step ev v (WWrite (concat gs)) = (v', Ok (WOCount n))
  | (v', o) => o = Throw out_of_range /\ wv_step ev v (WWrite (concat gs)) = (v, Throw out_of_range) /\
               lenN (wv_data v') = lenN (wv_data v) /\ wv_pos v <= wv_pos v' <= lenN (wv_data v)
  end.
Proof. exact write_grouped. Qed.
Print Assumptions C124_write.

(** try_write: the result and the bytes are the same as of calls up to the first error; the position is too on success and
    is where it was after an error. *)
Theorem C124_try_write : forall ev gs v, wv_pos v <= lenN (wv_data v) -> lenN (wv_data v) < ptr_max -> write_groups_ok gs ->
  exists v' r, try_write_groups ev v gs = (v', Ok r) /\
    wv_step ev v (WTryWrite (concat gs)) =
      (WView (wv_data v') (match r with RVal _ => wv_pos v' | RErr _ => wv_pos v end), Ok (WOTry r)).
Proof. exact try_write_grouped. Qed.
Print Assumptions C124_try_write.

(** write_at returns the position for the next write_at. *)
Theorem C124_write_at : forall ev a b pos buf,
  Forall arg_ok a -> Forall arg_ok b -> pos < size_mod -> lenN buf < size_mod -> args_size (a ++ b) < size_mod ->
  match write_at ev a pos buf with
  | (buf1, Ok q) =>
      match write_at ev b q buf1 with
      | (buf2, Ok r) => write_at ev (a ++ b) pos buf = (buf2, Ok r)
      | (_, o) => write_at ev (a ++ b) pos buf = (buf, o)
      end
  | (_, _) => exists e, write_at ev (a ++ b) pos buf = (buf, Throw e)
  end.
Proof. exact write_at_chain. Qed.
Print Assumptions C124_write_at.

Theorem C124_read_at : forall ev a b pos buf, pos < size_mod -> lenN buf < size_mod -> types_size (a ++ b) < size_mod ->
  match read_at ev a pos buf with
  | Ok va =>
      match read_at ev b (pos + types_size a) buf with
      | Ok vb => read_at ev (a ++ b) pos buf = Ok (va ++ vb)
      | o => read_at ev (a ++ b) pos buf = o
      end
  | _ => exists e, read_at ev (a ++ b) pos buf = Throw e
  end.
Proof. exact read_at_chain. Qed.
Print Assumptions C124_read_at.

Definition u16 := TPlain (SInt 2 false).
Definition be32 := TEnc big 4 false.
Definition data5 := [x01; x00; x00; x00; x02].
Definition three_values := [[AVal u16 (VInt 1)]; [AVal be32 (VInt 2); AVal (TPlain (SInt 1 false)) (VInt 3)]].
Example C124_nonvacuous :
  read_groups_ok [[u16]; [be32; u16]; [u16]] /\ write_groups_ok three_values /\
  try_read_groups (Env little little) (RView data5 0) [[u16]; [be32; u16]; [u16]] =
    (RView data5 5, Ok [RVal (VInt 1); RErr rd_insufficient_buffer; RErr rd_insufficient_buffer; RErr rd_insufficient_buffer]) /\
  read_groups (Env little little) (RView data5 0) [[u16]; [be32]] = (RView data5 2, Throw out_of_range) /\
  write_groups (Env little little) (WView (repeat xff 8) 0) three_values =
    (WView [x01; x00; x00; x00; x00; x02; x03; xff] 7, Ok 7) /\
  try_write_groups (Env little little) (WView (repeat xff 6) 0) three_values =
    (WView [x01; x00; x00; x00; x00; x02] 2, Ok (RErr wr_insufficient_buffer)) /\
  wv_step (Env little little) (WView (repeat xff 6) 0) (WTryWrite (concat three_values)) =
    (WView [x01; x00; x00; x00; x00; x02] 0, Ok (WOTry (RErr wr_insufficient_buffer))).
Proof.
  split; [|split; [|split; [|split; [|split; [|split]]]]]; try (vm_compute; reflexivity).
  - split; [discriminate|]. split; [repeat constructor; discriminate|]. split; [|reflexivity].
    repeat constructor; cbn; lia.
  - split; [discriminate|]. split; [repeat constructor; discriminate|]. split; [|reflexivity].
    repeat constructor; cbn; lia.
Qed.
