(** What C101 means. *)
From Coq Require Import List. Import ListNotations.
From Verif Require Import Base Io_Model File_Model StreamFail_Model.
Local Open Scope N_scope.

(** The bytes of these values on a stream that takes everything. *)
Definition bytes_of (ev : env) (svs : list (scalar * value)) : list byte := stream_writes ev svs [].

(** What a program takes from a stream if it checks the stream after each read and stops when it is not good. *)
Fixpoint read_while_good (ev : env) (ss : list scalar) (st : istream) : list value :=
  match ss with
  | [] => []
  | s :: r => let '(st1, v) := stream_read ev s st in if is_good st1 then v :: read_while_good ev r st1 else []
  end.

(** Of [svs], the first [m] fit into [k] bytes, and no more than that. *)
Definition fit_into (ev : env) (svs : list (scalar * value)) (k : N) (m : nat) : Prop :=
  (m <= length svs)%nat /\ lenN (bytes_of ev (firstn m svs)) <= k /\
  ((m < length svs)%nat -> k < lenN (bytes_of ev (firstn (S m) svs))).
