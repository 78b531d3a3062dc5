(** Model of core/scope.hpp: scope_exit, scope_success and scope_fail in programs with
    nested scopes, function calls, exceptions and handlers.

    A program is one path through the code: branches and loops have been resolved.
    Objects with user-written destructors can be expressed as scope_exit guards.
    Exceptions are numbers and every handler is [catch (...)].  Guards that are assigned
    to each other hold the same type of function, and moving such a function leaves it
    callable (function pointers, captureless closures). *)
From Verif Require Import Base.

(** scope.hpp:28 _exit_condition *)
Inductive kind := KExit | KSuccess | KFail.

(** Model only, no counterpart in the code: the user's program around guards of wite/core/scope.hpp:20-102. *)
Inductive prog :=
| PDone                                       (* the end of the block *)
| PEvent (n : N) (rest : prog)                (* something the user can see *)
| PThrow (n : N)
| PReturn
| PGuard (x : N) (k : kind) (body rest : prog) (* wite::scope_... x{[&] { body }}; rest of the block *)
| PRelease (x : N) (rest : prog)              (* x.release() *)
| PAssign (x y : N) (rest : prog)             (* x = std::move(y) or x = y *)
| PBlock (b rest : prog)                      (* { b } rest *)
| PTry (b h rest : prog)                      (* try { b } catch (...) { h } rest *)
| PCall (b rest : prog).                      (* a call of a function with body b *)

(** Model only, no counterpart in the code. How a piece of program ends.  [RUB]: a guard is used after its lifetime;
    [RStuck]: a name that is not in scope, not a C++ program; [ROut]: no fuel left. *)
Inductive res := RNormal | RReturned | RThrown (n : N) | RTerminated | RUB | RStuck | ROut.
(** C++ language (Standard). The block is left and its objects are destroyed. *)
Definition leaves (r : res) : bool :=
  match r with RNormal | RReturned | RThrown _ => true | _ => false end.

(** Model only, no counterpart in the code. What can be observed: user events, and which guard objects' functions are created,
    released and run. *)
Inductive gev := EvStep (n : N) | EvMake (id : N) (k : kind) | EvRelease (id : N) | EvRun (id : N).

(** C++ language (Standard). The function held by a guard: which guard it was created for, its body, and the
    guards its body can refer to. *)
Definition genv := list (N * N).
(** C++ language (Standard): a lambda capturing by reference. *)
Record closure := mk_clo { cl_id : N; cl_body : prog; cl_env : genv }.
(** scope.hpp:71: std::optional<function_type> _fn, in a guard that exists *)
Inductive gcell := Dead | Fn (f : option closure).
(** Model only, no counterpart in the code: the guards, the next fresh address and the events so far. *)
Record gstate := mk_gs { gs_cell : N -> gcell; gs_next : N; gs_log : list gev (* newest first *) }.
(** Model only, no counterpart in the code: the start of a program. *)
Definition gs_init : gstate := mk_gs (fun _ => Dead) 0 [].

(** Model only, no counterpart in the code: an event recorded. *)
Definition gs_event (e : gev) (st : gstate) : gstate := mk_gs (gs_cell st) (gs_next st) (e :: gs_log st).
(** Model only, no counterpart in the code: a guard object changed. *)
Definition gs_set (l : N) (c : gcell) (st : gstate) : gstate :=
  mk_gs (fun k => if k =? l then c else gs_cell st k) (gs_next st) (gs_log st).
(** C++ language (Standard): name lookup. *)
Fixpoint genv_at (x : N) (env : genv) : option N :=
  match env with [] => None | (y, l) :: env' => if y =? x then Some l else genv_at x env' end.

(** scope.hpp:33-49 _chech_exit_condition; [unc] is std::uncaught_exceptions() *)
Definition check_condition (k : kind) (unc : N) : bool :=
  match k with KExit => true | KSuccess => unc =? 0 | KFail => 0 <? unc end.

(** scope.hpp:61, 80-89 the constructor *)
Definition guard_make (k : kind) (body : prog) (env : genv) (st : gstate) : N * gstate :=
  let l := gs_next st in
  (l, mk_gs (fun i => if i =? l then Fn (Some (mk_clo l body env)) else gs_cell st i) (l + 1) (EvMake l k :: gs_log st)).

(** scope.hpp:68 release() *)
Definition guard_release (l : N) (st : gstate) : gstate :=
  match gs_cell st l with
  | Fn (Some c) => gs_set l (Fn None) (gs_event (EvRelease (cl_id c)) st)
  | _ => st
  end.

(** common/constructor_macros.hpp:18-23 WITE_MOVABLE_ONLY: both assignments are defaulted,
    so std::optional is copy- or move-assigned; the source stays engaged. *)
Definition guard_assign (l m : N) (st : gstate) : gstate := gs_set l (gs_cell st m) st.

(** [unc]: std::uncaught_exceptions() when the code starts.  While a block is left by an
    exception, its objects are destroyed with one more exception uncaught; in a handler
    the exception is no longer uncaught. *)
Fixpoint exec (fuel : nat) (unc : N) (env : genv) (p : prog) (st : gstate) : res * gstate :=
  match fuel with
  | O => (ROut, st)
  | S fuel' =>
    match p with
    | PDone => (RNormal, st)
    | PEvent n rest => exec fuel' unc env rest (gs_event (EvStep n) st)
    | PThrow n => (RThrown n, st)
    | PReturn => (RReturned, st)
    | PGuard x k body rest =>
        let '(l, st1) := guard_make k body env st in
        let '(r, st2) := exec fuel' unc ((x, l) :: env) rest st1 in
        (* scope.hpp:62-66 the destructor, implicitly noexcept *)
        if leaves r then
          let unc' := match r with RThrown _ => unc + 1 | _ => unc end in
          match gs_cell st2 l with
          | Fn (Some c) =>
              if check_condition k unc' then
                let '(r2, st3) := exec fuel' unc' (cl_env c) (cl_body c) (gs_event (EvRun (cl_id c)) st2) in
                match r2 with
                | RNormal | RReturned => (r, gs_set l Dead st3)
                | RThrown _ => (RTerminated, st3)
                | _ => (r2, st3)
                end
              else (r, gs_set l Dead st2)
          | _ => (r, gs_set l Dead st2)
          end
        else (r, st2)
    | PRelease x rest =>
        match genv_at x env with
        | None => (RStuck, st)
        | Some l => match gs_cell st l with
                    | Dead => (RUB, st)
                    | Fn _ => exec fuel' unc env rest (guard_release l st)
                    end
        end
    | PAssign x y rest =>
        match genv_at x env, genv_at y env with
        | Some l, Some m => match gs_cell st l, gs_cell st m with
                            | Fn _, Fn _ => exec fuel' unc env rest (guard_assign l m st)
                            | _, _ => (RUB, st)
                            end
        | _, _ => (RStuck, st)
        end
    | PBlock b rest =>
        let '(r, st1) := exec fuel' unc env b st in
        match r with RNormal => exec fuel' unc env rest st1 | _ => (r, st1) end
    | PTry b h rest =>
        let '(r, st1) := exec fuel' unc env b st in
        match r with
        | RNormal => exec fuel' unc env rest st1
        | RThrown _ =>
            let '(r2, st2) := exec fuel' unc env h st1 in
            match r2 with RNormal => exec fuel' unc env rest st2 | _ => (r2, st2) end
        | _ => (r, st1)
        end
    | PCall b rest =>
        let '(r, st1) := exec fuel' unc env b st in
        match r with RNormal | RReturned => exec fuel' unc env rest st1 | _ => (r, st1) end
    end
  end.

(** Model only, no counterpart in the code. A program from its start: its result and its log, oldest first. *)
Definition run_guards (fuel : nat) (p : prog) : res * list gev :=
  let '(r, st) := exec fuel 0 [] p gs_init in (r, rev (gs_log st)).
