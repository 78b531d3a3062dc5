(** What a fragment string promises: it behaves like the flat text. *)
From Verif Require Import Base String_Model Frag_Model.

(** The text: all characters of all fragments in order. *)
Definition text (fs : frags) : list N := concat (map chars fs).

(** Every fragment but the last has at least one character. *)
Definition sane (fs : frags) : Prop := fs <> [] /\ Forall (fun f => chars f <> []) (removelast fs).

(** Shorter than the largest ptrdiff_t. *)
Definition fits (fs : frags) : Prop := lenN (text fs) < 2 ^ 63.

Definition slice (s : list N) (pos n : N) : list N := takeN n (dropN pos s).

(** Expressions building fragment strings: C strings, default construction with
    [n] fragments, and +. *)
Inductive fs_expr :=
| Lit (mem : list N)                      (* fragment_string{p} *)
| Default (n : nat)
| Plus (l r : fs_expr)
| PlusPtr (l : fs_expr) (mem : list N).   (* l + p *)
Fixpoint eval (e : fs_expr) : outcome frags :=
  match e with
  | Lit mem => from_ptr (Some mem)
  | Default n => Ok (default_fs n)
  | Plus l r => let! a := eval l in let! b := eval r in Ok (plus a b)
  | PlusPtr l mem => let! a := eval l in plus_ptr a (Some mem)
  end.
(** The C strings of an expression, and whether each is terminated. *)
Inductive means : fs_expr -> list N -> Prop :=
| means_lit t rest : ~ In 0 t -> means (Lit (t ++ 0 :: rest)) t
| means_plus l r s t : means l s -> means r t -> means (Plus l r) (s ++ t)
| means_ptr l s t rest : means l s -> ~ In 0 t -> means (PlusPtr l (t ++ 0 :: rest)) (s ++ t).

(** Characters that the type has. *)
Definition code_ok (ct : chartype) (c : N) : Prop := match ct with CChar _ => c < 256 | CWide => True end.

(** The value of a character in its type: a signed char above 127 is negative. *)
Definition code_value (ct : chartype) (c : N) : Z :=
  match ct with
  | CChar true => if c <? 128 then Z.of_N c else (Z.of_N c - 256)%Z
  | CChar false | CWide => Z.of_N c
  end.

(** Lexicographic order for an order of characters: the first difference decides,
    a proper prefix comes first. *)
Definition lex_less (lt : N -> N -> Prop) (a b : list N) : Prop :=
  exists p a' b', a = p ++ a' /\ b = p ++ b' /\
    match a', b' with
    | [], _ :: _ => True
    | x :: _, y :: _ => lt x y
    | _, _ => False
    end.

Definition prefix_of (p s : list N) : Prop := exists r, s = p ++ r.
Definition suffix_of (p s : list N) : Prop := exists r, s = r ++ p.

(** [needle] occurs in [s] at [i]. *)
Definition occurs_at (needle s : list N) (i : N) : Prop := exists a b, s = a ++ needle ++ b /\ lenN a = i.
Definition occurs (needle s : list N) : Prop := exists i, occurs_at needle s i.

(** [r] is the least index from [pos] on with [P], or npos if there is none. *)
Definition first_match (P : N -> Prop) (pos r : N) : Prop :=
  (r <> npos /\ pos <= r /\ P r /\ forall j, pos <= j < r -> ~ P j) \/
  (r = npos /\ forall j, pos <= j -> ~ P j).

(** The first index of the fragment that holds position [pos]. *)
Definition fragment_start (fs : frags) (pos i : N) : Prop :=
  exists pre f post, fs = pre ++ f :: post /\ i = lenN (text pre) /\ i <= pos < i + lenN (chars f).
