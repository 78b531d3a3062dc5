(** Transactions whose steps are undone by scope guards. *)
From Coq Require Import List. Import ListNotations.
From Verif Require Import Base Scope_Model.
Local Open Scope N_scope.

(** A step and the step that undoes it. *)
Definition action := (N * N)%type.
(** How the code after the steps ends. *)
Inductive ending := Ends | Returns | Throws (n : N).
Definition end_of (e : ending) : prog := match e with Ends => PDone | Returns => PReturn | Throws n => PThrow n end.
Definition end_result (e : ending) : res := match e with Ends => RNormal | Returns => RReturned | Throws n => RThrown n end.
Definition succeeds (e : ending) : bool := match e with Throws _ => false | _ => true end.

(** step1(); wite::scope_fail g1{[&] { undo1(); }}; step2(); wite::scope_fail g2{[&] { undo2(); }}; ... *)
Fixpoint fail_guarded (g : N) (acts : list action) (e : ending) : prog :=
  match acts with
  | [] => end_of e
  | (d, u) :: r => PEvent d (PGuard g KFail (PEvent u PDone) (fail_guarded (g + 1) r e))
  end.

(** g1.release(); g2.release(); ... for [n] guards from [g] on *)
Fixpoint release_from (g : N) (n : nat) (p : prog) : prog :=
  match n with O => p | S n => PRelease g (release_from (g + 1) n p) end.
(** step1(); wite::scope_exit g1{[&] { undo1(); }}; step2(); ... and at the end, if it comes to that, every guard is released *)
Fixpoint exit_guarded_from (g : N) (acts : list action) (last : prog) : prog :=
  match acts with
  | [] => last
  | (d, u) :: r => PEvent d (PGuard g KExit (PEvent u PDone) (exit_guarded_from (g + 1) r last))
  end.
Definition exit_guarded (acts : list action) (e : ending) : prog :=
  exit_guarded_from 0 acts (if succeeds e then release_from 0 (length acts) (end_of e) else end_of e).

(** try { transaction1(); } catch (...) {}  try { transaction2(); } catch (...) {} ... *)
Fixpoint session (tx : list action -> ending -> prog) (txs : list (list action * ending)) : prog :=
  match txs with
  | [] => PDone
  | (acts, e) :: r => PTry (PCall (tx acts e) PDone) PDone (session tx r)
  end.
(** The transaction is called by a destructor while an exception passes. *)
Definition while_unwinding (p : prog) : prog := PTry (PGuard 0 KExit (PCall p PDone) (PThrow 0)) PDone PDone.

(** The steps in a log, and a state after steps. *)
Definition steps (log : list gev) : list N := flat_map (fun e => match e with EvStep n => [n] | _ => [] end) log.
Definition after {S : Type} (act : N -> S -> S) (l : list N) (s : S) : S := fold_left (fun s n => act n s) l s.
Definition undoable {S : Type} (act : N -> S -> S) (acts : list action) : Prop :=
  Forall (fun du : action => forall s, act (snd du) (act (fst du) s) = s) acts.
(** The steps of the transactions that succeeded. *)
Definition committed (txs : list (list action * ending)) : list N :=
  flat_map (fun t => if succeeds (snd t) then map fst (fst t) else []) txs.
