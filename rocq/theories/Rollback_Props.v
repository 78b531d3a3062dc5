(** C127: transactions whose steps are undone by scope guards. *)
From Coq Require Import List Lia NArith. Import ListNotations.
From Verif Require Import Base Scope_Model Core_Spec Rollback_Spec Rollback_Proofs.
Local Open Scope N_scope.

(** After any transactions guarded by scope_fail, run one after another, the state is that of those that succeeded alone. *)
Theorem C127_scope_fail_partial : forall (T : Type) (act : N -> T -> T) txs fuel s,
  (psize (session (fail_guarded 0) txs) <= fuel)%nat -> Forall (fun t => undoable act (fst t)) txs ->
  exists log, run_guards fuel (session (fail_guarded 0) txs) = (RNormal, log) /\ after act (steps log) s = after act (committed txs) s.
Proof. exact @fail_session. Qed.
Print Assumptions C127_scope_fail_partial.

(** One that succeeds, but in a destructor while an exception passes, is undone: every undoing step runs, the last first. *)
Theorem C127_scope_fail_unwinding_partial : forall acts e fuel, succeeds e = true ->
  (psize (while_unwinding (fail_guarded 0 acts e)) <= fuel)%nat ->
  exists log, run_guards fuel (while_unwinding (fail_guarded 0 acts e)) = (RNormal, log) /\ steps log = map fst acts ++ rev (map snd acts).
Proof. exact fail_unwinding. Qed.
Print Assumptions C127_scope_fail_unwinding_partial.

(** So a transaction that succeeded may leave no trace. *)
Theorem C127_scope_fail_refuted : exists (act : N -> N -> N) acts e, succeeds e = true /\ undoable act acts /\ forall fuel s,
  (psize (while_unwinding (fail_guarded 0 acts e)) <= fuel)%nat ->
  exists log, run_guards fuel (while_unwinding (fail_guarded 0 acts e)) = (RNormal, log) /\ after act (steps log) s <> after act (map fst acts) s.
Proof. exact fail_unwinding_refuted. Qed.
Print Assumptions C127_scope_fail_refuted.

(** With scope_exit guards that are released when all went well, a session leaves the state of the transactions that succeeded alone. *)
Theorem C127_released : forall (T : Type) (act : N -> T -> T) txs fuel s,
  (psize (session exit_guarded txs) <= fuel)%nat -> Forall (fun t => undoable act (fst t)) txs ->
  exists log, run_guards fuel (session exit_guarded txs) = (RNormal, log) /\ after act (steps log) s = after act (committed txs) s.
Proof. exact @exit_session. Qed.
Print Assumptions C127_released.

(** And such a transaction keeps its steps while an exception passes, too. *)
Theorem C127_released_unwinding : forall acts e fuel, succeeds e = true ->
  (psize (while_unwinding (exit_guarded acts e)) <= fuel)%nat ->
  exists log, run_guards fuel (while_unwinding (exit_guarded acts e)) = (RNormal, log) /\ steps log = map fst acts.
Proof. exact exit_unwinding. Qed.
Print Assumptions C127_released_unwinding.

(** Three transactions on a number, the second of which fails after two steps. *)
Example C127_nonvacuous :
  let act n s := if N.even n then s - n / 2 else s + (n + 1) / 2 in
  let txs := [([(1, 2); (5, 6)], Ends); ([(3, 4); (9, 10)], Throws 7); ([(7, 8)], Returns)] in
  Forall (fun t => undoable act (fst t)) txs /\
  committed txs = [1; 5; 7] /\
  (let log := snd (run_guards 100 (session (fail_guarded 0) txs)) in steps log = [1; 5; 3; 9; 10; 4; 7] /\ after act (steps log) 100 = 108) /\
  (let log := snd (run_guards 100 (session exit_guarded txs)) in steps log = [1; 5; 3; 9; 10; 4; 7] /\ after act (steps log) 100 = 108) /\
  steps (snd (run_guards 100 (while_unwinding (fail_guarded 0 [(1, 2); (5, 6)] Ends)))) = [1; 5; 6; 2] /\
  steps (snd (run_guards 100 (while_unwinding (exit_guarded [(1, 2); (5, 6)] Ends)))) = [1; 5].
Proof.
  split; [|vm_compute; repeat split].
  apply Forall_cons; [|apply Forall_cons; [|apply Forall_cons; [|constructor]]]; cbn [fst];
    repeat (apply Forall_cons; [intros s; cbn [fst snd]; match goal with |- context [N.even ?n] => idtac end|]); try constructor;
    repeat match goal with |- context [N.even ?n] => let v := eval vm_compute in (N.even n) in change (N.even n) with v; cbv iota end;
    repeat match goal with |- context [?a / 2] => let v := eval vm_compute in (a / 2) in change (a / 2) with v end; lia.
Qed.
