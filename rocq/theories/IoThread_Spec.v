(** What threads that share a buffer may rely on. *)
From Verif Require Import Base Io_Model Io_Spec IoThread_Model.

(** The bytes a call asks for. *)
Definition call_pos (c : call) : N :=
  match c with CWriteAt _ p | CReadAt _ p | CTryWriteAt _ p | CTryReadAt _ p => p end.
Definition call_size (c : call) : N :=
  match c with
  | CWriteAt args _ => args_size args
  | CReadAt ts _ => types_size ts
  | CTryWriteAt a _ => arg_bytes a
  | CTryReadAt t _ => value_size t
  end.
Definition writes (c : call) : bool := match c with CWriteAt _ _ | CTryWriteAt _ _ => true | _ => false end.

(** Byte [i] belongs to the call: the call fits in a buffer of [len] bytes and [i] is one of its bytes. *)
Definition touches (len : N) (c : call) (i : N) : Prop :=
  call_pos c + call_size c <= len /\ call_pos c <= i < call_pos c + call_size c.

(** Well-typed arguments; sizes as a program can have them. *)
Definition call_ok (c : call) : Prop :=
  call_pos c < size_mod /\ call_size c < size_mod /\
  match c with
  | CWriteAt args _ => Forall arg_ok args
  | CReadAt ts _ => Forall vtype_ok ts
  | CTryWriteAt a _ => arg_ok a
  | CTryReadAt t _ => vtype_ok t
  end.
Definition progs_ok (progs : N -> list call) : Prop := forall i, Forall call_ok (progs i).

(** No byte written by a call of one thread belongs to a call of another. *)
Definition apart (len : N) (progs : N -> list call) : Prop :=
  forall i j c d k, i <> j -> In c (progs i) -> In d (progs j) -> writes c = true ->
    touches len c k -> ~ touches len d k.

(** The calls of one thread, one after the other, with nobody else there. *)
Definition call_alone (ev : env) (c : call) (buf : list byte) : list byte * ret :=
  match c with
  | CWriteAt args pos => let '(b, o) := write_at ev args pos buf in (b, RetWrite o)
  | CReadAt ts pos => (buf, RetRead (read_at ev ts pos buf))
  | CTryWriteAt a pos => let '(b, o) := try_write_at1 ev a pos buf in (b, RetTryWrite o)
  | CTryReadAt t pos => (buf, RetTryRead (try_read_at1 ev t pos buf))
  end.
Fixpoint alone (ev : env) (cs : list call) (buf : list byte) : list byte * list ret :=
  match cs with
  | [] => (buf, [])
  | c :: r => let '(b1, x) := call_alone ev c buf in let '(b2, xs) := alone ev r b1 in (b2, x :: xs)
  end.

(** Thread [i] has made all its calls. *)
Definition finished (st : system) (i : N) : Prop :=
  th_calls (sys_thread st i) = [] /\ th_now (sys_thread st i) = None.
Definition returned (st : system) (i : N) : list ret := th_rets (sys_thread st i).

(** A data race: two threads have accessed the same byte, one of them to store. *)
Definition access_at (a : access) : N := match a with ALoad i | AStore i _ => i end.
Definition is_store (a : access) : bool := match a with AStore _ _ => true | ALoad _ => false end.
Definition race (st : system) : Prop :=
  exists i j a b, In (i, a) (sys_trace st) /\ In (j, b) (sys_trace st) /\ i <> j /\
    access_at a = access_at b /\ (is_store a = true \/ is_store b = true).

(** How often a schedule lets thread [i] run. *)
Definition turns (i : N) (sched : list N) : nat := length (filter (N.eqb i) sched).
