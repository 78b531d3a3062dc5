(** C119: threads that share a buffer, each with a read view and a write view of its own.  [progs i] says what thread [i]
    calls next, by what its calls returned so far; [vs_run ev progs sched (vs_start buf)] lets the threads take their steps,
    each at most one access to one byte, in the order of [sched].  [own i] are the bytes thread [i] may write, [sees i] the
    bytes it may read. *)
From Coq Require Import List. Import ListNotations.
From Verif Require Import Base Io_Model Io_Spec IoView_Model IoView_Spec IoThread_Model IoThread_Spec
  IoViewThread_Model IoViewThread_Spec IoViewThread_Proofs.
Local Open Scope N_scope.

(** C119: the calls of a thread return what they would return with nobody else there, and between its calls its bytes are
    what they would be. *)
Theorem C119_as_alone : forall ev buf progs own sees, lenN buf < ptr_max ->
  (forall i, keeps_to ev buf (progs i) (own i) (sees i)) -> shared_out own sees ->
  forall sched i,
  let st := vs_run ev progs sched (vs_start buf) in
  let s := solo_run ev (progs i) buf (length (vreturned st i)) in
  vreturned st i = so_rets s /\
  (between_calls st i -> forall k, own i k \/ sees i k ->
     nth_error (vs_buf st) (N.to_nat k) = nth_error (so_buf s) (N.to_nat k)).
Proof. exact v_as_alone. Qed.
Print Assumptions C119_as_alone.
(** C119: every access is inside the buffer, no two threads race, and bytes that are nobody's do not change. *)
Theorem C119_safe : forall ev buf progs own sees, lenN buf < ptr_max ->
  (forall i, keeps_to ev buf (progs i) (own i) (sees i)) -> shared_out own sees ->
  forall sched,
  let st := vs_run ev progs sched (vs_start buf) in
  vs_ub st = false /\ lenN (vs_buf st) = lenN buf /\ ~ vrace st /\
  forall k, (forall i, ~ own i k) -> nth_error (vs_buf st) (N.to_nat k) = nth_error buf (N.to_nat k).
Proof. exact v_safe. Qed.
Print Assumptions C119_safe.
(** C119: a thread that gets enough turns makes as many calls as one likes, or all it has, whatever the others do. *)
Theorem C119_progress : forall ev buf progs own sees, lenN buf < ptr_max ->
  (forall i, keeps_to ev buf (progs i) (own i) (sees i)) -> shared_out own sees ->
  forall i m, exists c, forall sched, (c <= turns i sched)%nat ->
  let st := vs_run ev progs sched (vs_start buf) in (m <= length (vreturned st i))%nat \/ vdone progs st i.
Proof. exact v_progress. Qed.
Print Assumptions C119_progress.
(** C119: the outcome is the same for every schedule that lets all the threads finish. *)
Theorem C119_same_for_every_schedule : forall ev buf progs own sees, lenN buf < ptr_max ->
  (forall i, keeps_to ev buf (progs i) (own i) (sees i)) -> shared_out own sees ->
  forall s1 s2,
  let st1 := vs_run ev progs s1 (vs_start buf) in
  let st2 := vs_run ev progs s2 (vs_start buf) in
  (forall i, vdone progs st1 i) -> (forall i, vdone progs st2 i) ->
  vs_buf st1 = vs_buf st2 /\ forall i, vreturned st1 i = vreturned st2 i.
Proof. exact v_same. Qed.
Print Assumptions C119_same_for_every_schedule.
(** C119: a buffer filled by threads that each seek to a place of their own and write there holds what each of them wrote,
    and nothing else has changed. *)
Theorem C119_parallel_fill : forall ev buf jobs sched, lenN buf < ptr_max -> (forall i, job_ok (lenN buf) (jobs i)) ->
  (forall i j k, i <> j -> job_bytes (jobs i) k -> ~ job_bytes (jobs j) k) ->
  let st := vs_run ev (fun i => fill (jobs i)) sched (vs_start buf) in
  vs_ub st = false /\ ~ vrace st /\ lenN (vs_buf st) = lenN buf /\
  (forall i at_ args bs, jobs i = Some (at_, args) -> vdone (fun i => fill (jobs i)) st i -> args_encoding ev args bs ->
     vreturned st i = [VWo (Ok WOUnit); VWo (Ok (WOCount (args_size args)))] /\ slice (vs_buf st) at_ (lenN bs) = bs) /\
  (forall k, (forall i, ~ job_bytes (jobs i) k) -> nth_error (vs_buf st) (N.to_nat k) = nth_error buf (N.to_nat k)).
Proof. exact parallel_fill. Qed.
Print Assumptions C119_parallel_fill.

(** Both threads read byte 0; what it holds decides what thread 0 writes.  Thread 1 writes until the buffer is full and reads
    back what it wrote. *)
Definition c119_u8 : vtype := TPlain (SInt 1 false).
Definition c119_progs (i : N) : program := fun rets =>
  if i =? 0 then
    match rets with
    | [] => Some (VR (RRead [c119_u8]))
    | [VRo (Ok (ROVals [VInt z]))] => Some (VW (WSeek 1))
    | [VRo (Ok (ROVals [VInt z])); _] => Some (VW (if (z =? 5)%Z then WWriteEndian 2 false 258 big else WWrite [AVal c119_u8 (VInt z)]))
    | _ => None
    end
  else if i =? 1 then
    match rets with
    | [] => Some (VW (WSeek 3))
    | [_] => Some (VW (WTryWrite [AVal c119_u8 (VInt 7); AVal (TPlain (SInt 2 false)) (VInt 8)]))
    | [_; _] => Some (VR (RSeek 3))
    | [_; _; _] => Some (VR (RTryRead [c119_u8; TPlain (SInt 2 false)]))
    | _ => None
    end
  else None.
Definition c119_buf : list byte := [x05; x00; x00; x00; x09].
Definition c119_own (i k : N) : Prop := if i =? 0 then 1 <= k < 3 else if i =? 1 then 3 <= k < 5 else False.
Definition c119_sees (i k : N) : Prop := if i =? 0 then k = 0 else if i =? 1 then 3 <= k < 5 else False.
Example C119_nonvacuous :
  let ev := Env little little in
  let st := vs_run ev c119_progs (concat (repeat [0; 1; 1; 0; 5] 12)) (vs_start c119_buf) in
  lenN c119_buf < ptr_max /\ (forall i, keeps_to ev c119_buf (c119_progs i) (c119_own i) (c119_sees i)) /\
  shared_out c119_own c119_sees /\ vdone c119_progs st 0 /\ vdone c119_progs st 1 /\
  vreturned st 0 = [VRo (Ok (ROVals [VInt 5])); VWo (Ok WOUnit); VWo (Ok (WOCount 2))] /\
  vreturned st 1 = [VWo (Ok WOUnit); VWo (Ok (WOTry (RErr wr_insufficient_buffer))); VRo (Ok ROUnit);
                    VRo (Ok (ROTry [RVal (VInt 7); RErr rd_insufficient_buffer]))] /\
  vs_buf st = [x05; x01; x02; x07; x09].
Proof.
  intros ev st. split; [reflexivity|]. split; [|split; [|]].
  3: { unfold vdone, between_calls.
    split; [split; vm_compute; reflexivity|]. split; [split; vm_compute; reflexivity|]. split; [vm_compute; reflexivity|]. split; vm_compute; reflexivity. }
  - intros i n op. destruct (N.eq_dec i 0) as [->|A]; [|destruct (N.eq_dec i 1) as [->|B]].
    + destruct (Nat.lt_ge_cases n 3) as [H|H].
      * destruct n as [|[|[|n]]]; [| | |lia];
          match goal with |- context[solo_run ?e ?p ?b ?m] => let v := eval vm_compute in (solo_run e p b m) in change (solo_run e p b m) with v end;
          intros E; vm_compute in E; injection E as <-; (split; [cbn; repeat split; try discriminate; try lia; repeat constructor; cbn; lia|]);
          intros k K; unfold asks in K; cbn in K |- *; lia.
      * rewrite (sol_stays ev c119_buf c119_progs 0 3 n) by (exact H || (vm_compute; reflexivity)). intros E. exfalso. revert E. vm_compute. discriminate.
    + destruct (Nat.lt_ge_cases n 4) as [H|H].
      * destruct n as [|[|[|[|n]]]]; [| | | |lia];
          match goal with |- context[solo_run ?e ?p ?b ?m] => let v := eval vm_compute in (solo_run e p b m) in change (solo_run e p b m) with v end;
          intros E; vm_compute in E; injection E as <-; (split; [cbn; repeat split; try discriminate; try lia; repeat constructor; cbn; lia|]);
          intros k K; unfold asks in K; cbn in K |- *; lia.
      * rewrite (sol_stays ev c119_buf c119_progs 1 4 n) by (exact H || (vm_compute; reflexivity)). intros E. exfalso. revert E. vm_compute. discriminate.
    + unfold c119_progs at 1. rewrite (proj2 (N.eqb_neq i 0)), (proj2 (N.eqb_neq i 1)) by assumption. discriminate.
  - intros i j k D. unfold c119_own, c119_sees.
    destruct (N.eqb_spec i 0), (N.eqb_spec j 0), (N.eqb_spec i 1), (N.eqb_spec j 1); try lia; intros H; split; intros K; lia || contradiction.
Qed.
