(** C113: views of a vector whose length changes.  [g_run grow ev st ops] runs calls on the vector ([GV]), on read views ([GR i])
    and on write views ([GW i]); [vw_r st i] is the position of read view [i], [None] if its iterator is invalid. *)
From Coq Require Import List. Import ListNotations.
From Verif Require Import Base Io_Model IoView_Model IoGrow_Model IoGrow_Spec IoGrow_Proofs.
Local Open Scope N_scope.

(** C113: calls that keep the position: the view goes on there, in the new bytes. *)
Theorem C113_reads_after_changes : forall grow ev st i p os ops,
  vw_r st i = Some p -> lenN (vw_buf st) <= vw_cap st -> all_allowed (vw_buf st) os ->
  all_keep p (vw_buf st) (vw_cap st) os = true ->
  let '(st', xs) := g_run grow ev st (map GV os ++ map (GR i) ops) in
  let '(v, ys) := rv_run ev (RView (bytes_after_all (vw_buf st) os) p) ops in
  xs = map (fun _ => GVo (Ok tt)) os ++ map GRo ys /\ vw_buf st' = bytes_after_all (vw_buf st) os.
Proof. exact reads_after. Qed.
Print Assumptions C113_reads_after_changes.
Theorem C113_writes_after_changes : forall grow ev st i p os ops,
  vw_w st i = Some p -> lenN (vw_buf st) <= vw_cap st -> all_allowed (vw_buf st) os ->
  all_keep p (vw_buf st) (vw_cap st) os = true ->
  let '(st', xs) := g_run grow ev st (map GV os ++ map (GW i) ops) in
  let '(v, ys) := wv_run ev (WView (bytes_after_all (vw_buf st) os) p) ops in
  xs = map (fun _ => GVo (Ok tt)) os ++ map GWo ys /\ vw_buf st' = wv_data v.
Proof. exact writes_after. Qed.
Print Assumptions C113_writes_after_changes.
(** C113: calls that do not keep it: every use of the position is undefined. *)
Theorem C113_unusable_after_changes : forall grow ev st i p os,
  lenN (vw_buf st) <= vw_cap st -> all_allowed (vw_buf st) os -> all_keep p (vw_buf st) (vw_cap st) os = false ->
  (vw_r st i = Some p -> forall op, uses_position op = true ->
     snd (g_run grow ev st (map GV os ++ [GR i op])) = map (fun _ => GVo (Ok tt)) os ++ [GRo UB]) /\
  (vw_w st i = Some p -> forall op, uses_position_w op = true ->
     snd (g_run grow ev st (map GV os ++ [GW i op])) = map (fun _ => GVo (Ok tt)) os ++ [GWo UB]).
Proof. exact unusable_both. Qed.
Print Assumptions C113_unusable_after_changes.
(** C113: in any state, after any history, a seek within the vector makes the view as good as a new one there. *)
Theorem C113_seek_restores : forall grow ev i st q ops, q <= lenN (vw_buf st) ->
  let '(st', xs) := g_run grow ev st (GR i (RSeek q) :: map (GR i) ops) in
  let '(v, ys) := rv_run ev (RView (vw_buf st) q) ops in
  xs = GRo (Ok ROUnit) :: map GRo ys /\ vw_buf st' = vw_buf st /\ vw_r st' i = Some (rv_pos v).
Proof. exact seek_restores. Qed.
Print Assumptions C113_seek_restores.
Theorem C113_seek_restores_writer : forall grow ev i st q ops, q <= lenN (vw_buf st) ->
  let '(st', xs) := g_run grow ev st (GW i (WSeek q) :: map (GW i) ops) in
  let '(v, ys) := wv_run ev (WView (vw_buf st) q) ops in
  xs = GWo (Ok WOUnit) :: map GWo ys /\ vw_buf st' = wv_data v /\ vw_w st' i = Some (wv_pos v).
Proof. exact seek_restores_w. Qed.
Print Assumptions C113_seek_restores_writer.
(** C113: bytes appended within the capacity are seen by a reader that is not at the end. *)
Theorem C113_appended_bytes_are_read : forall grow ev st i p bs ops,
  vw_r st i = Some p -> p < lenN (vw_buf st) -> lenN (vw_buf st) + lenN bs <= vw_cap st ->
  let '(st', xs) := g_run grow ev st (map (fun b => GV (VPush b)) bs ++ map (GR i) ops) in
  let '(v, ys) := rv_run ev (RView (vw_buf st ++ bs) p) ops in
  xs = map (fun _ => GVo (Ok tt)) bs ++ map GRo ys /\ vw_buf st' = vw_buf st ++ bs.
Proof. exact appended. Qed.
Print Assumptions C113_appended_bytes_are_read.
(** C113: a view cannot be used after every append, and not even after one for which there is room, if it is at the end. *)
Theorem C113_usable_after_append_refuted : forall grow, exists st i p,
  vw_r st i = Some p /\ p <= lenN (vw_buf st) /\ lenN (vw_buf st) <= vw_cap st /\
  forall ev, snd (g_run grow ev st [GV (VPush x05); GR i (RRead [TPlain (SInt 1 false)])]) = [GVo (Ok tt); GRo UB].
Proof. exact grow_refuted. Qed.
Print Assumptions C113_usable_after_append_refuted.
Theorem C113_reader_at_the_end_refuted : forall grow, exists st i p,
  vw_r st i = Some p /\ p <= lenN (vw_buf st) /\ lenN (vw_buf st) + 1 <= vw_cap st /\
  forall ev, snd (g_run grow ev st [GV (VPush x05); GR i (RRead [TPlain (SInt 1 false)])]) = [GVo (Ok tt); GRo UB].
Proof. exact caught_up_refuted. Qed.
Print Assumptions C113_reader_at_the_end_refuted.

(** A vector of three bytes with room for six, a reader at 1 and a writer at 2. *)
Definition c113_start : viewed := Viewed [x01; x02; x03] 6 (fun _ => Some 1) (fun _ => Some 2).
Definition c113_changes : list vecop := [VPush x04; VSet 0 x09; VResize 6; VPop; VReserve 6; VShrink false].
Example C113_nonvacuous :
  let u8 := TPlain (SInt 1 false) in
  all_allowed (vw_buf c113_start) c113_changes /\
  all_keep 1 (vw_buf c113_start) 6 c113_changes = true /\ all_keep 2 (vw_buf c113_start) 6 c113_changes = true /\
  bytes_after_all (vw_buf c113_start) c113_changes = [x09; x02; x03; x04; x00] /\
  all_keep 1 (vw_buf c113_start) 6 (c113_changes ++ [VResize 7]) = false /\
  (forall grow, snd (g_run grow (Env little little) c113_start
     (map GV c113_changes ++ [GR 0 (RRead [u8; u8]); GW 0 (WWrite [AVal u8 (VInt 7)]); GR 0 (RRead [u8]); GV VClear; GR 0 (RTrySeek 0); GR 0 (RTryRead [u8])])) =
     map (fun _ => GVo (Ok tt)) c113_changes ++
     [GRo (Ok (ROVals [VInt 2; VInt 3])); GWo (Ok (WOCount 1)); GRo (Ok (ROVals [VInt 4])); GVo (Ok tt);
      GRo (Ok (ROSeek (RVal true))); GRo (Ok (ROTry [RErr rd_insufficient_buffer]))]).
Proof. repeat split; try discriminate. Qed.
