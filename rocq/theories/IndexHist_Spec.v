(** Sequences of steps of an index. *)
From Coq Require Import List ZArith. Import ListNotations.
From Verif Require Import Base Index_Model Core_Spec.

(** ++i, --i, i += off, i -= off. *)
Inductive istep := Inc | Dec | Add (off : Z) | Sub (off : Z).
Definition do_step (b : build) (i : N) (s : istep) : outcome N :=
  match s with Inc => ix_inc b i | Dec => ix_dec b i | Add off => ix_add_assign b i off | Sub off => ix_sub_assign b i off end.
Fixpoint do_steps (b : build) (i : N) (ss : list istep) : outcome N :=
  match ss with [] => Ok i | s :: r => let! j := do_step b i s in do_steps b j r end.

(** By how much a step is to move the index, and all of them. *)
Definition move (s : istep) : Z := match s with Inc => 1 | Dec => -1 | Add off => off | Sub off => - off end.
Definition moves (ss : list istep) : Z := fold_right (fun s z => move s + z)%Z 0%Z ss.
(** The offset can be passed; it is not the most negative one (see C67). *)
Definition step_ok (s : istep) : Prop :=
  match s with Add off | Sub off => offset_ok off /\ (off <> - 2 ^ 63)%Z | _ => True end.
(** On the way and at the end the exact value is one an index can hold. *)
Definition stays_inside (i : N) (ss : list istep) : Prop := forall n, fits (exact i (moves (firstn n ss))) = true.

(** for (index i = first; i < last; ++i) visit(i); with at most [fuel] rounds *)
Fixpoint up_loop (fuel : nat) (b : build) (i last : N) : outcome (list N) :=
  if i <? last then
    match fuel with
    | O => Diverge
    | S k => let! j := ix_inc b i in let! l := up_loop k b j last in Ok (i :: l)
    end
  else Ok [].
(** for (index i = first; i >= index{0}; --i) visit(i); the condition always holds *)
Fixpoint down_loop (fuel : nat) (b : build) (i : N) : outcome (list N) :=
  if 0 <=? i then
    match fuel with
    | O => Diverge
    | S k => let! j := ix_dec b i in let! l := down_loop k b j in Ok (i :: l)
    end
  else Ok [].
