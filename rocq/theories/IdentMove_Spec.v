(** What users expect of moved collections: each name stands for a list of items. *)
From Coq Require Import List. Import ListNotations.
From Verif Require Import Base Ident_Model IdentMove_Model Coll_Spec.
Local Open Scope N_scope.

Definition name_is {A} (p : N -> A) (v : N) (x : A) : N -> A := fun w => if w =? v then x else p w.

(** A collection holds a list of items, or ([None]) what it holds is not specified: it was moved from, or to itself, and the
    standard library does not say what that leaves. *)
Definition names := N -> option (list item).
Definition after_move (l : left) : option (list item) :=
  match lf_map l, lf_order l with [], [] => Some [] | _, _ => None end.

(** [None]: not specified (see [spec_step]); a collection with unspecified contents may be cleared, moved from, moved to, or
    end its life, but not be used in any other way. *)
Definition names_step (o : mop) (p : names) : option (option iobs * names) :=
  match o with
  | MCall v o =>
      match p v, o with
      | Some l, _ => match spec_step o l with Some (x, l') => Some (Some x, name_is p v (Some l')) | None => None end
      | None, IClear => Some (Some (ROk (Ok tt)), name_is p v (Some []))
      | None, _ => None
      end
  | MMove v w l => if v =? w then None else Some (None, name_is (name_is p v (p w)) w (after_move l))
  | MSelf v h => Some (None, match h with Keeps => p | Empties => name_is p v (Some []) | Leaves _ => name_is p v None end)
  | MRenew v => Some (None, name_is p v (Some []))
  end.
Fixpoint names_run (ops : list mop) (p : names) : option (list (option iobs) * names) :=
  match ops with
  | [] => Some ([], p)
  | o :: ops' =>
      match names_step o p with
      | None => None
      | Some (x, p1) => match names_run ops' p1 with None => None | Some (xs, p2) => Some (x :: xs, p2) end
      end
  end.
Definition all_empty : names := fun _ => Some [].
