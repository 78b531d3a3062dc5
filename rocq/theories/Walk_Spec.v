(** Stepping through values. *)
From Coq Require Import List. Import ListNotations.
From Verif Require Import Base.

(** for (auto v = first;; v = step(v)) { visit(v); if (v == last) break; }: the values visited, if the loop ends within so many
    rounds. *)
Fixpoint walk {T} (cmp : T -> T -> option comparison) (step : T -> outcome T) (rounds : nat) (v last : T) : outcome (list T) :=
  match rounds with
  | O => Diverge
  | S k =>
      if match cmp v last with Some Eq => true | _ => false end then Ok [v]
      else let! w := step v in let! l := walk cmp step k w last in Ok (v :: l)
  end.
(** The loop ends and visits these values. *)
Definition visits {T} (cmp : T -> T -> option comparison) (step : T -> outcome T) (v last : T) (l : list T) : Prop :=
  exists n : nat, forall rounds : nat, (n <= rounds)%nat -> walk cmp step rounds v last = Ok l.
(** The loop does not end. *)
Definition never_ends {T} (cmp : T -> T -> option comparison) (step : T -> outcome T) (v last : T) : Prop :=
  forall rounds, walk cmp step rounds v last = Diverge.
