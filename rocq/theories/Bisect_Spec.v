(** Binary search with random access iterators. *)
From Coq Require Import List ZArith. Import ListNotations.
From Verif Require Import Base Iter_Model Frag_Model.

(** std::partition_point (and std::lower_bound, with [v < value] for [less]) as the libraries implement it:
    while (len > 0) { half = len / 2; mid = first; mid += half; if (less( *mid)) { first = mid; ++first; len -= half + 1; } else len = half; }
    return first; *)
Fixpoint bisect {It V} (advance : It -> Z -> outcome It) (inc : It -> outcome It) (deref : It -> outcome V) (less : V -> bool)
    (rounds : nat) (first : It) (len : Z) : outcome It :=
  match rounds with
  | O => Diverge
  | S k =>
      if (len <=? 0)%Z then Ok first
      else
        let half := (len / 2)%Z in
        let! mid := advance first half in
        let! v := deref mid in
        if less v then let! next := inc mid in bisect advance inc deref less k next (len - half - 1)%Z
        else bisect advance inc deref less k first half
  end.
(** Of a static_vector (or any container with dereferencing iterators): partition_point(begin(), end(), less). *)
Definition di_bisect {V} (b : build) (arr : list (option V)) (less : V -> bool) (rounds : nat) (first last : diter) : outcome diter :=
  let! len := di_diff b last first in bisect (di_add_assign b arr) (di_inc b arr) (di_deref arr) less rounds first len.
(** Of a fragment string. *)
Definition fs_bisect (b : build) (fs : frags) (less : N -> bool) (rounds : nat) (first last : iter) : outcome iter :=
  bisect (seek b fs) (it_inc b fs) (it_deref b fs) less rounds first (it_diff fs last first).

(** Those that are less come first. *)
Definition split_at {V} (less : V -> bool) (l before after : list V) : Prop :=
  l = before ++ after /\ Forall (fun v => less v = true) before /\ Forall (fun v => less v = false) after.
