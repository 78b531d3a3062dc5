(** Many ranges: what they have in common, and merging those that overlap. *)
From Coq Require Import List. Import ListNotations.
From Verif Require Import Base Range_Model Range_Spec.

(** auto common = std::optional{first}; for (r : others) if (!(common = common->overlap(r))) break; *)
Fixpoint common {T} (cmp : T -> T -> option comparison) (b : build) (first : vrange T) (others : list (vrange T)) : outcome (option (vrange T)) :=
  match others with
  | [] => Ok (Some first)
  | r :: rs => let! o := overlap cmp b first r in match o with Some q => common cmp b q rs | None => Ok None end
  end.

(** The ranges come in the order of their starts.  for (r : others) { if (current.overlap(r)) current = envelope(current, r);
    else { out.push_back(current); current = r; } } out.push_back(current); *)
Fixpoint merge_from {T} (cmp : T -> T -> option comparison) (b : build) (current : vrange T) (others : list (vrange T)) : outcome (list (vrange T)) :=
  match others with
  | [] => Ok [current]
  | r :: rs =>
      let! o := overlap cmp b current r in
      match o with
      | Some _ => let! e := envelope_ranges cmp b current [r] in merge_from cmp b e rs
      | None => let! out := merge_from cmp b r rs in Ok (current :: out)
      end
  end.
Definition merge {T} (cmp : T -> T -> option comparison) (b : build) (rs : list (vrange T)) : outcome (list (vrange T)) :=
  match rs with [] => Ok [] | r :: rs => merge_from cmp b r rs end.

(** [P] holds of neighbours. *)
Fixpoint neighbours {A} (P : A -> A -> Prop) (l : list A) : Prop :=
  match l with x :: ((y :: _) as t) => P x y /\ neighbours P t | _ => True end.
Definition by_start {T} (le : T -> T -> Prop) : list (vrange T) -> Prop := neighbours (fun r s => le (vmin r) (vmin s)).
(** Each ends before the next starts. *)
Definition separate {T} (le : T -> T -> Prop) : list (vrange T) -> Prop := neighbours (fun r s => lt_of le (vmax r) (vmin s)).
Definition in_some {T} (le : T -> T -> Prop) (lk hk : boundary) (rs : list (vrange T)) (x : T) : Prop :=
  exists r, In r rs /\ in_interval le lk hk r x.
Definition equiv {T} (le : T -> T -> Prop) (x y : T) : Prop := le x y /\ le y x.
