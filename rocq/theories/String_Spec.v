(** What the string helpers promise, in terms of plain lists of characters. *)
From Verif Require Import Base String_Model.

(** Text with separators: t1 d t2 d ... tn. *)
Fixpoint joined (d : N) (ts : list (list N)) : list N :=
  match ts with
  | [] => []
  | [t] => t
  | t :: r => t ++ d :: joined d r
  end.

(** Sum of the lengths and one separator between neighbours, exactly (no wrap). *)
Definition joined_length (ts : list (list N)) : N :=
  fold_right (fun t n => lenN t + n) 0 ts + (lenN ts - 1).

Definition not_empty (t : list N) : bool := match t with [] => false | _ => true end.

(** Whether the character can be given to the whitespace test of its type: codes
    128 to 254 of a signed char cannot. *)
Definition testable (ct : chartype) (c : N) : Prop :=
  match ct with CChar true => c < 128 \/ c = 255 | _ => True end.

(** The whitespace of the locale, as the type sees it. *)
Definition space_in (ct : chartype) (white : N -> bool) (c : N) : Prop :=
  white c = true /\ match ct with CChar true => c < 128 | _ => True end.

Definition all_space ct white (s : list N) : Prop := Forall (space_in ct white) s.
Definition starts_with_space ct white (s : list N) : Prop := exists c r, s = c :: r /\ space_in ct white c.
Definition ends_with_space ct white (s : list N) : Prop := exists c r, s = r ++ [c] /\ space_in ct white c.

(** [t] is [s] without its longest leading / trailing / both whitespace. *)
Definition trimmed_left ct white (s t : list N) : Prop :=
  exists cut, s = cut ++ t /\ all_space ct white cut /\ ~ starts_with_space ct white t.
Definition trimmed_right ct white (s t : list N) : Prop :=
  exists cut, s = t ++ cut /\ all_space ct white cut /\ ~ ends_with_space ct white t.
Definition stripped ct white (s t : list N) : Prop :=
  exists front back, s = front ++ t ++ back /\ all_space ct white front /\ all_space ct white back /\
    ~ starts_with_space ct white t /\ ~ ends_with_space ct white t.

(** Some character that cannot be tested has only whitespace before it (left) or
    behind it (right). *)
Definition untestable_left ct white (s : list N) : Prop :=
  exists a c b, s = a ++ c :: b /\ all_space ct white a /\ ~ testable ct c.
Definition untestable_right ct white (s : list N) : Prop :=
  exists a c b, s = a ++ c :: b /\ all_space ct white b /\ ~ testable ct c.

(** The views [vs] show disjoint pieces of [s], in order. *)
Fixpoint views_of (s : list N) (from : N) (vs : list view) : Prop :=
  match vs with
  | [] => True
  | v :: r => from <= v_pos v /\ v_pos v + lenN (v_chars v) <= lenN s /\
      v_chars v = takeN (lenN (v_chars v)) (dropN (v_pos v) s) /\
      views_of s (v_pos v + lenN (v_chars v)) r
  end.

Definition count_char (d : N) (s : list N) : N := lenN (filter (N.eqb d) s).
