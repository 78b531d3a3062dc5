(** Programs that search a fragment string again and again. *)
From Coq Require Import List Sorted. Import ListNotations.
From Verif Require Import Base String_Model Frag_Model Frag_Spec.
Local Open Scope N_scope.

(** for (pos = s.find(x, 0); pos != npos; pos = s.find(x, pos + step)) found.push_back(pos); *)
Fixpoint find_all (find : N -> outcome N) (step : N) (rounds : nat) (pos : N) : outcome (list N) :=
  match rounds with
  | O => Diverge
  | S rounds =>
      let! i := find pos in
      if i =? npos then Ok [] else let! is := find_all find step rounds (sz_add i step) in Ok (i :: is)
  end.

(** The places found: in ascending order, each a match and [step] or more behind the one before, and every match is one of
    them or less than [step] behind one. *)
Definition all_found (P : N -> Prop) (step : N) (l : list N) : Prop :=
  StronglySorted (fun i j => i + step <= j) l /\ (forall i, In i l -> P i) /\ (forall j, P j -> exists i, In i l /\ i <= j < i + step).

(** The text has the character there. *)
Definition char_at (fs : frags) (c i : N) : Prop := nth_error (text fs) (N.to_nat i) = Some c.
(** A fragment ends before [i], or [i] is 0. *)
Definition boundary (fs : frags) (i : N) : Prop := exists pre post, fs = pre ++ post /\ lenN (text pre) = i.

(** Splitting at a character with find and substr:
    for (start = 0; (i = s.find(d, start)) != npos; start = i + 1) tokens.push_back(s.substr(start, i - start));
    tokens.push_back(s.substr(start));     where d is a string of one character *)
Fixpoint split_by_find (b : build) (fs : frags) (d : N) (rounds : nat) (start : N) : outcome (list (list N)) :=
  match rounds with
  | O => Diverge
  | S rounds =>
      let! i := find_sv b fs [d] start in
      if i =? npos then let! t := substr b fs start npos in Ok [t]
      else let! t := substr b fs start (i - start) in
           let! ts := split_by_find b fs d rounds (sz_add i 1) in Ok (t :: ts)
  end.
(** The same with  tokens.push_back(start < s.length() ? s.substr(start) : "")  at the end. *)
Fixpoint split_by_find_guarded (b : build) (fs : frags) (d : N) (rounds : nat) (start : N) : outcome (list (list N)) :=
  match rounds with
  | O => Diverge
  | S rounds =>
      let! i := find_sv b fs [d] start in
      if i =? npos then if start <? length_of fs then let! t := substr b fs start npos in Ok [t] else Ok [[]]
      else let! t := substr b fs start (i - start) in
           let! ts := split_by_find_guarded b fs d rounds (sz_add i 1) in Ok (t :: ts)
  end.
