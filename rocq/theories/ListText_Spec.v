(** Lists of values written as one line of text, and read back: user programs that
    call the library's text functions. *)
From Coq Require Import List. Import ListNotations.
From Verif Require Import Base String_Model String_Spec.
Open Scope N_scope. Open Scope list_scope.

(** Do it to every item, in order, until one fails. *)
Fixpoint each {A B} (g : A -> outcome B) (l : list A) : outcome (list B) :=
  match l with
  | [] => Ok []
  | x :: r => let! y := g x in let! ys := each g r in Ok (y :: ys)
  end.

(** A value with the padding the writer puts in front of its text and behind it. *)
Record padded (A : Type) := Pad { front : list N; item : A; back : list N }.
Arguments Pad {A} _ _ _. Arguments front {A} _. Arguments item {A} _. Arguments back {A} _.

Definition around {A} (p : padded A) (t : list N) : list N := front p ++ t ++ back p.

(** The writer: the text of every value, padded, joined with the delimiter. *)
Definition write_list {A} (max_size d : N) (show : A -> outcome (list N)) (l : list (padded A)) : outcome (list N) :=
  let! ts := each (fun p => let! t := show (item p) in Ok (around p t)) l in join max_size ts d.

(** The reader: split the line, strip every piece, parse what is left. *)
Definition read_list {A} (ct : chartype) (white : N -> bool) (d : N) (parse : list N -> outcome A) (s : list N) : outcome (list A) :=
  let! ts := split (fun _ => true) s d keep_empty in
  each (fun t => let! u := strip ct white t in parse u) ts.

(** The padding is whitespace and does not hold the delimiter. *)
Definition padding_ok {A} ct white d (p : padded A) : Prop :=
  all_space ct white (front p) /\ all_space ct white (back p) /\ ~ In d (front p) /\ ~ In d (back p).

(** A text that padding does not hide: it has no whitespace at its ends, holds no
    delimiter, and its characters can be tested. *)
Definition bare ct white d (t : list N) : Prop :=
  ~ starts_with_space ct white t /\ ~ ends_with_space ct white t /\ ~ In d t /\ Forall (testable ct) t.
