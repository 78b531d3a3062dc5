(** Fragment strings with empty fragments, for C47-C53. *)
From Coq Require Import List. Import ListNotations.
From Verif Require Import Base Frag_Model Frag_Spec.

(** A fragment that is not the last one has no characters and starts at index [i] of the text. *)
Definition gap_at (fs : frags) (i : N) : Prop :=
  exists k, (S k < length fs)%nat /\ chars (nth k fs None) = [] /\ lenN (text (firstn k fs)) = i.

(** How using an iterator that stands in an empty fragment ends in each build. *)
Definition misuse {A} (b : build) : outcome A :=
  match b with Release => UB | DebugAbort => Terminate | DebugThrow => Throw logic_error end.

(** The first [p] characters agree and the texts part there: one of them ends or the next characters differ. *)
Definition part_at (s t : list N) (p : N) : Prop :=
  p <= lenN s /\ p <= lenN t /\ takeN p s = takeN p t /\
  (p = lenN s \/ p = lenN t \/ nth_error s (N.to_nat p) <> nth_error t (N.to_nat p)).

(** The text ends at [p] and no empty fragment but the last one follows. *)
Definition ends_at (fs : frags) (p : N) : Prop := lenN (text fs) = p /\ ~ gap_at fs p.

(** How that ends in a function that must not throw. *)
Definition abort {A} (b : build) : outcome A :=
  match b with Release => UB | _ => Terminate end.

(** Comparing [s] with the text [t] from index [j] on, character by character, gets as far as index [j + d] of [t]. *)
Definition reached (s t : list N) (j d : N) : Prop := d < lenN s /\ takeN d s = slice t j d.
(** The same from the ends backwards: the last [d] characters are equal. *)
Definition reached_back (s t : list N) (d : N) : Prop :=
  d < lenN s /\ dropN (lenN s - d) s = dropN (lenN t - d) t.

(** find(s, pos) tries index [j]: [s] would fit there and does not occur before. *)
Definition tried (s t : list N) (pos j : N) : Prop :=
  pos <= j /\ j + lenN s <= lenN t /\ forall i, pos <= i < j -> ~ occurs_at s t i.
