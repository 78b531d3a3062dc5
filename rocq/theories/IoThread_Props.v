(** C114: threads that share a buffer.  [progs i] are the calls of thread [i]; [sys_run ev sched (sys_start buf progs)] lets
    the threads take their steps, each at most one access to one byte, in the order of [sched]. *)
From Coq Require Import List. Import ListNotations.
From Verif Require Import Base Io_Model Io_Spec IoThread_Model IoThread_Spec IoThread_Proofs.
Local Open Scope N_scope.

(** C114: a thread gets what it would get alone, and its bytes are what they would be. *)
Theorem C114_as_alone : forall ev buf progs sched i,
  progs_ok progs -> lenN buf < size_mod -> apart (lenN buf) progs ->
  let st := sys_run ev sched (sys_start buf progs) in
  exists b xs, alone ev (progs i) buf = (b, xs) /\ (exists later, xs = returned st i ++ later) /\
    (finished st i -> returned st i = xs /\
       forall c k, In c (progs i) -> touches (lenN buf) c k ->
         nth_error (sys_buf st) (N.to_nat k) = nth_error b (N.to_nat k)).
Proof. exact as_alone'. Qed.
Print Assumptions C114_as_alone.
(** C114: every access is inside the buffer, and bytes that no call writes do not change, apart or not. *)
Theorem C114_nothing_else_changes : forall ev buf progs sched, progs_ok progs -> lenN buf < size_mod ->
  let st := sys_run ev sched (sys_start buf progs) in
  sys_ub st = false /\ lenN (sys_buf st) = lenN buf /\
  forall k, (forall i c, In c (progs i) -> writes c = true -> ~ touches (lenN buf) c k) ->
    nth_error (sys_buf st) (N.to_nat k) = nth_error buf (N.to_nat k).
Proof. exact rest'. Qed.
Print Assumptions C114_nothing_else_changes.
(** C114: a thread that gets enough turns makes all its calls, whatever the others do. *)
Theorem C114_finishes : forall ev buf progs i, progs_ok progs -> lenN buf < size_mod ->
  exists n, forall sched, (n <= turns i sched)%nat -> finished (sys_run ev sched (sys_start buf progs)) i.
Proof. exact finishes'. Qed.
Print Assumptions C114_finishes.
(** C114: the outcome is the same for every schedule that lets all the threads finish. *)
Theorem C114_same_for_every_schedule : forall ev buf progs,
  progs_ok progs -> lenN buf < size_mod -> apart (lenN buf) progs -> forall s1 s2,
  let st1 := sys_run ev s1 (sys_start buf progs) in
  let st2 := sys_run ev s2 (sys_start buf progs) in
  (forall i, finished st1 i) -> (forall i, finished st2 i) ->
  sys_buf st1 = sys_buf st2 /\ forall i, returned st1 i = returned st2 i.
Proof. exact same_result. Qed.
Print Assumptions C114_same_for_every_schedule.
(** C114: there is no data race under any schedule exactly if no byte that one thread writes belongs to a call of another. *)
Theorem C114_race_free_iff : forall ev buf progs, progs_ok progs -> lenN buf < size_mod ->
  (forall sched, ~ race (sys_run ev sched (sys_start buf progs))) <-> apart (lenN buf) progs.
Proof. exact race_iff'. Qed.
Print Assumptions C114_race_free_iff.
(** C114: otherwise, even if the machine makes the accesses one by one, a read may give neither the old nor the new value. *)
Theorem C114_shared_value_refuted : exists ev buf progs sched old new seen,
  progs_ok progs /\ lenN buf < size_mod /\
  progs 0 = [CWriteAt [AVal (TPlain (SInt 2 false)) (VInt new)] 0] /\ progs 1 = [CReadAt [TPlain (SInt 2 false)] 0] /\
  read_at ev [TPlain (SInt 2 false)] 0 buf = Ok [VInt old] /\
  returned (sys_run ev sched (sys_start buf progs)) 1 = [RetRead (Ok [VInt seen])] /\ seen <> old /\ seen <> new.
Proof. exact mixture. Qed.
Print Assumptions C114_shared_value_refuted.

(** Two threads, at adjacent bytes; both read the last byte, and one call of each does not fit. *)
Definition c114_u16 : vtype := TPlain (SInt 2 false).
Definition c114_progs (i : N) : list call :=
  if i =? 0 then [CWriteAt [AVal c114_u16 (VInt 258)] 0; CReadAt [TEnc big 2 false] 0; CTryReadAt (TPlain (SInt 1 false)) 4; CReadAt [c114_u16] 4]
  else if i =? 1 then [CTryWriteAt (ARange (SInt 1 false) [VInt 7; VInt 8]) 2; CReadAt [c114_u16; TPlain (SInt 1 false)] 2; CTryWriteAt (AVal c114_u16 (VInt 1)) 4]
  else [].
Definition c114_buf : list byte := [x00; x00; x00; x00; x05].
Example C114_nonvacuous :
  let ev := Env little little in
  let st := sys_run ev (concat (repeat [0; 1; 1; 0; 5] 12)) (sys_start c114_buf c114_progs) in
  progs_ok c114_progs /\ apart (lenN c114_buf) c114_progs /\ (forall i, finished st i) /\
  returned st 0 = [RetWrite (Ok 2); RetRead (Ok [VInt 513]); RetTryRead (Ok (RVal (VInt 5))); RetRead (Throw out_of_range)] /\
  returned st 1 = [RetTryWrite (Ok (RVal 4)); RetRead (Ok [VInt 2055; VInt 5]); RetTryWrite (Ok (RErr wr_insufficient_buffer))] /\
  sys_buf st = [x02; x01; x07; x08; x05].
Proof.
  intros ev st. split; [|split; [|split; [|repeat split; vm_compute; reflexivity]]].
  - intros i. unfold c114_progs. destruct (i =? 0); [|destruct (i =? 1); [|constructor]];
      repeat constructor; cbn; intuition; repeat constructor; cbn; lia.
  - intros i j c d k D Ic Id W Tc Td. unfold c114_progs in *. unfold touches in *.
    destruct (N.eqb_spec i 0), (N.eqb_spec j 0), (N.eqb_spec i 1), (N.eqb_spec j 1); try lia; cbn [In] in *;
      intuition; subst; try discriminate; cbn in *; lia.
  - intros i. destruct (N.eq_dec i 0) as [->|A]; [split; vm_compute; reflexivity|].
    destruct (N.eq_dec i 1) as [->|B]; [split; vm_compute; reflexivity|].
    destruct (N.eq_dec i 5) as [->|C]; [split; vm_compute; reflexivity|].
    assert (G : forall sched s, (forall x, In x sched -> x <> i) -> sys_thread (fold_left (sys_step ev) sched s) i = sys_thread s i).
    { induction sched as [|x r IH]; intros s H; [reflexivity|]. cbn [fold_left]. rewrite IH by (intros; apply H; now right).
      apply step_other. intros E. apply (H x); [now left|now rewrite E]. }
    unfold finished, st, sys_run. rewrite G.
    + cbn [sys_start sys_thread th_calls th_now]. unfold c114_progs.
      rewrite (proj2 (N.eqb_neq i 0)), (proj2 (N.eqb_neq i 1)) by assumption. auto.
    + intros x X. apply in_concat in X. destruct X as (l & Il & Ix). apply repeat_spec in Il. subst l. cbn [In] in Ix. intuition congruence.
Qed.
