(** Reading messages of any form from bytes that arrive in pieces. *)
From Coq Require Import List. Import ListNotations.
From Verif Require Import Base Io_Model Io_Spec IoView_Model IoView_Spec.
Local Open Scope N_scope.

(** A program that reads one message: values of given types at a time, or a vector of [n] elements; what it reads next, and what
    it makes of it, may depend on everything read so far. *)
Inductive reader (A : Type) :=
| Got (a : A)
| Get (ts : list vtype) (k : list value -> reader A)
| GetRange (t : vtype) (n : nat) (k : list value -> reader A).
Arguments Got {A} a.
Arguments Get {A} ts k.
Arguments GetRange {A} t n k.
(** All its calls are such as C++ lets one make. *)
Fixpoint reader_ok {A} (r : reader A) : Prop :=
  match r with
  | Got _ => True
  | Get ts k => rop_ok (RRead ts) /\ forall vs, reader_ok (k vs)
  | GetRange t n k => rop_ok (RReadRange t n) /\ forall vs, reader_ok (k vs)
  end.
(** Every message takes at least one byte. *)
Definition takes_bytes {A} (r : reader A) : Prop := match r with Get _ _ => True | _ => False end.

(** try { ... view.read<Ts...>() ... view.read_range(v) ... } catch (const std::out_of_range&) { no message } *)
Fixpoint read_message {A} (ev : env) (r : reader A) (v : rview) : outcome (option A * rview) :=
  match r with
  | Got a => Ok (Some a, v)
  | Get ts k =>
      match rv_step ev v (RRead ts) with
      | (v, Ok (ROVals vs)) => read_message ev (k vs) v
      | (v, Throw out_of_range) => Ok (None, v)
      | _ => UB
      end
  | GetRange t n k =>
      match rv_step ev v (RReadRange t n) with
      | (v, Ok (ROVals vs)) => read_message ev (k vs) v
      | (v, Throw out_of_range) => Ok (None, v)
      | _ => UB
      end
  end.

(** The same with try_read and try_read_range, until one of the results is an error. *)
Fixpoint values_of (rs : list (result value read_error)) : option (list value) :=
  match rs with
  | [] => Some []
  | RVal v :: r => match values_of r with Some vs => Some (v :: vs) | None => None end
  | RErr _ :: _ => None
  end.
Fixpoint try_read_message {A} (ev : env) (r : reader A) (v : rview) : outcome (option A * rview) :=
  match r with
  | Got a => Ok (Some a, v)
  | Get ts k =>
      match rv_step ev v (RTryRead ts) with
      | (v, Ok (ROTry rs)) => match values_of rs with Some vs => try_read_message ev (k vs) v | None => Ok (None, v) end
      | _ => UB
      end
  | GetRange t n k =>
      match rv_step ev v (RTryReadRange t n) with
      | (v, Ok (ROTryRange (RVal vs))) => try_read_message ev (k vs) v
      | (v, Ok (ROTryRange (RErr _))) => Ok (None, v)
      | _ => UB
      end
  end.

Section Receiver.
Context {A : Type} (one_message : rview -> outcome (option A * rview)).
(** while (there is a message in the pending bytes) { deliver it; erase its bytes; }  At most [rounds] rounds. *)
Fixpoint drain (rounds : nat) (pending : list byte) : outcome (list A * list byte) :=
  match rounds with
  | O => Diverge
  | S rounds =>
      let! (m, v) := one_message (rv_init pending) in
      match m with
      | None => Ok ([], pending)
      | Some a => let! (ms, rest) := drain rounds (dropN (rv_pos v) pending) in Ok (a :: ms, rest)
      end
  end.
(** For every piece that arrives: append it to the pending bytes, then do that.  What was delivered, and what is pending. *)
Fixpoint receive_pieces (pending : list byte) (pieces : list (list byte)) : outcome (list A * list byte) :=
  match pieces with
  | [] => Ok ([], pending)
  | p :: r =>
      let! (ms, pending) := drain (S (length (pending ++ p))) (pending ++ p) in
      let! (ms', pending) := receive_pieces pending r in Ok (ms ++ ms', pending)
  end.
End Receiver.

(** The bytes are exactly those of one message; there is no message at their front. *)
Definition is_message {A} (ev : env) (r : reader A) (bytes : list byte) (a : A) : Prop :=
  exists v, read_message ev r (rv_init bytes) = Ok (Some a, v) /\ rv_pos v = lenN bytes.
Definition no_message {A} (ev : env) (r : reader A) (bytes : list byte) : Prop :=
  exists v, read_message ev r (rv_init bytes) = Ok (None, v).
