(** Chains of results: and_then, transform and or_else one after the other. *)
From Coq Require Import List. Import ListNotations.
From Verif Require Import Base Result_Model.

Section Chain.
Context {V E : Type}.
Notation res := (var V E).
(** A function given to a combinator, and whether copying the result throws should that be copied instead. *)
Definition stage (A : Type) := ((A -> outcome res) * bool)%type.
(** r.and_then(f0).and_then(f1)...; each call that is made is noted: which function, and its argument. *)
Fixpoint then_chain (k : nat) (fs : list (stage V)) (r : res) (calls : list (nat * V)) : outcome res * list (nat * V) :=
  match fs with
  | [] => (Ok r, calls)
  | (f, t) :: q =>
      match r_and_then r (fun v s => (f v, s ++ [(k, v)])) t calls with
      | (Ok r', calls') => then_chain (S k) q r' calls'
      | other => other
      end
  end.
(** r.or_else(f0).or_else(f1)... *)
Fixpoint else_chain (k : nat) (fs : list (stage E)) (r : res) (calls : list (nat * E)) : outcome res * list (nat * E) :=
  match fs with
  | [] => (Ok r, calls)
  | (f, t) :: q =>
      match r_or_else r (fun e s => (f e, s ++ [(k, e)])) t calls with
      | (Ok r', calls') => else_chain (S k) q r' calls'
      | other => other
      end
  end.
(** r.transform(f0).transform(f1)...: r itself changes *)
Fixpoint transform_chain (mv : V -> V) (me : E -> E) (k : nat) (fs : list (stage V)) (r : res) (calls : list (nat * V))
  : outcome unit * res * list (nat * V) :=
  match fs with
  | [] => (Ok tt, r, calls)
  | (f, t) :: q =>
      match r_transform mv me r (fun v s => (f v, s ++ [(k, v)])) t calls with
      | (Ok _, r', calls') => transform_chain mv me (S k) q r' calls'
      | other => other
      end
  end.

(** Each of the functions gives a value; [args] are their arguments, the first is [v], the last value is [w]. *)
Inductive all_pass : list (stage V) -> V -> list V -> V -> Prop :=
| ap_nil v : all_pass [] v [] v
| ap_cons f t fs v u args w : f v = Ok (Val u) -> all_pass fs u args w -> all_pass ((f, t) :: fs) v (v :: args) w.
(** Each of the functions gives an error. *)
Inductive all_fail : list (stage E) -> E -> list E -> E -> Prop :=
| af_nil e : all_fail [] e [] e
| af_cons f t fs e u args w : f e = Ok (Err u) -> all_fail fs u args w -> all_fail ((f, t) :: fs) e (e :: args) w.
Definition numbered {A} (l : list A) : list (nat * A) := combine (seq 0 (length l)) l.
Definition no_copy_throws {A} (fs : list (stage A)) : Prop := Forall (fun s => snd s = false) fs.
Definition is_value (x : outcome res) : Prop := exists v, x = Ok (Val v).
Definition is_err (x : outcome res) : Prop := exists e, x = Ok (Err e).
(** What comes out if [x] is what a function gave and [after] are the stages after it. *)
Definition passed_on {A} (x : outcome res) (after : list (stage A)) (out : outcome res) : Prop :=
  match x with
  | Ok _ => (no_copy_throws after -> out = x) /\ (~ no_copy_throws after -> out = Throw user_exn)
  | _ => out = x
  end.
End Chain.
