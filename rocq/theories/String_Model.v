(** Model of wite/string/split.hpp, join.hpp, trim.hpp and strip.hpp.
    A character is its code: the value of the unsigned type of the same width.
    A string or string_view argument is the list of its characters. *)
From Verif Require Import Base.

(** * split.hpp *)

(** string/split.hpp:30 *)
Inductive split_behaviour := keep_empty | drop_empty.

(** A string_view into the text being split: where it starts in that text, and the
    characters it shows.  A std::string token is the copy of such a view. *)
Record view := View { v_pos : N; v_chars : list N }.

(** std::find (used at string/split.hpp:63): the characters before the first [d]
    and the characters from it on. *)
Fixpoint find_char (d : N) (s : list N) : list N * list N :=
  match s with
  | [] => ([], [])
  | c :: r => if c =? d then ([], s) else let (a, b) := find_char d r in (c :: a, b)
  end.

(** std::find_if with the predicate c != delimiter (used at string/split.hpp:43) *)
Fixpoint skip_char (d : N) (s : list N) : list N :=
  match s with
  | [] => []
  | c :: r => if negb (c =? d) then s else skip_char d r
  end.

(** string/split.hpp:36-47: advance_past_delimiter; the iterator range
    [begin, end) is the list of its characters *)
Definition advance_past_delimiter (rest : list N) (d : N) (b : split_behaviour) : list N :=
  let out := match rest with [] => rest | _ :: r => r end in
  match b with
  | drop_empty => skip_char d rest
  | keep_empty => out
  end.

(** string/split.hpp:58-67: first_token; the positions of the token and of the
    remainder follow from their distances to the end of [str] *)
Definition first_token (str : view) (d : N) (b : split_behaviour) : view * view * bool :=
  let (tok, from_delim) := find_char d (v_chars str) in
  let next := advance_past_delimiter from_delim d b in
  (View (v_pos str) tok,
   View (v_pos str + (lenN (v_chars str) - lenN next)) next,
   match from_delim with [] => false | _ => true end).

(** string/split.hpp:78-92: the while (true) loop.  [alloc k] tells whether the
    k-th push_back (with the construction of its element) gets its memory;
    [out] is the result vector so far, [fuel] bounds the iterations of the model,
    running out of it is [Diverge]. *)
Fixpoint split_loop (fuel : nat) (alloc : nat -> bool) (str : view) (d : N) (b : split_behaviour)
    (out : list view) : outcome (list view) :=
  match fuel with
  | O => Diverge
  | S fuel' =>
      let '(token, remainder, performed_a_split) := first_token str d b in
      let wanted := match b with
                    | keep_empty => true
                    | drop_empty => match v_chars token with [] => false | _ => true end
                    end in
      let! out' := (if wanted
                    then if alloc (length out) then Ok (out ++ [token]) else Throw bad_alloc
                    else Ok out) in
      if performed_a_split then split_loop fuel' alloc remainder d b out' else Ok out'
  end.

(** string/split.hpp:73-95: split_to<Result_T>(string_view, delimiter, behaviour), noexcept.
    The number of iterations is not bounded in the code; the model allows one more
    than there are characters (the proofs show that this is never reached). *)
Definition split_to (alloc : nat -> bool) (s : list N) (d : N) (b : split_behaviour) : outcome (list view) :=
  noexcept (split_loop (S (length s)) alloc (View 0 s) d b []).

(** string/split.hpp:117-122: split(string_view, delimiter, behaviour), strings as tokens *)
Definition split (alloc : nat -> bool) (s : list N) (d : N) (b : split_behaviour) : outcome (list (list N)) :=
  let! ts := split_to alloc s d b in Ok (map v_chars ts).

(** Standard library, string_view from a pointer. The text a [const Char_T*] shows: the characters before the first NUL of the
    memory it points to; there must be one. *)
Fixpoint c_text (mem : list N) : outcome (list N) :=
  match mem with
  | [] => UB
  | c :: r => if c =? 0 then Ok [] else let! t := c_text r in Ok (c :: t)
  end.

(** string/split.hpp:99-113: split_to<Result_T>(const Char_T*, ...); a null pointer is [None] *)
Definition split_to_ptr (alloc : nat -> bool) (p : option (list N)) (d : N) (b : split_behaviour)
    : outcome (list view) :=
  match p with
  | None => Ok []
  | Some mem => let! s := c_text mem in split_to alloc s d b
  end.

(** string/split.hpp:48-56: space_character *)
Definition space_character : N := 32.

(** string/split.hpp:126-139: split(const Char_T* ), default delimiter and behaviour
    (string/split.hpp:119-120) *)
Definition split_ptr (alloc : nat -> bool) (p : option (list N)) : outcome (list (list N)) :=
  match p with
  | None => Ok []
  | Some mem => let! s := c_text mem in split alloc s space_character drop_empty
  end.

(** * join.hpp *)

(** string/join.hpp:56-59: the accumulate over the lengths, in size_t *)
Fixpoint sum_lengths (curr : N) (ts : list (list N)) : N :=
  match ts with
  | [] => curr
  | t :: r => sum_lengths (sz_add curr (lenN t)) r
  end.

(** C++ language (Standard). One character stored through the output iterator at [pos]; writing at or past
    the end of the string is undefined. *)
Definition store (out : list N) (pos c : N) : outcome (list N) :=
  if pos <? lenN out then Ok (takeN pos out ++ c :: dropN (pos + 1) out) else UB.

(** std::copy into the string (used at string/join.hpp:63 and 66) *)
Fixpoint copy_chars (t : list N) (out : list N) (pos : N) : outcome (list N * N) :=
  match t with
  | [] => Ok (out, pos)
  | c :: r => let! out' := store out pos c in copy_chars r out' (pos + 1)
  end.

(** string/join.hpp:64-67: the for_each over the remaining strings *)
Fixpoint join_rest (ts : list (list N)) (d : N) (out : list N) (pos : N) : outcome (list N) :=
  match ts with
  | [] => Ok out
  | t :: r =>
      let! out1 := store out pos d in
      let! (out2, pos2) := copy_chars t out1 (pos + 1) in
      join_rest r d out2 pos2
  end.

(** string/join.hpp:42-70.  [max_size] is std::basic_string's max_size(): its
    constructor throws length_error for anything longer.  Lack of memory below that
    is not modelled. *)
Definition join (max_size : N) (ts : list (list N)) (d : N) : outcome (list N) :=
  match ts with
  | [] => Ok []
  | [t] => Ok t
  | t :: r =>
      let size := sz_sub (sz_add (sum_lengths 0 ts) (lenN ts mod size_mod)) 1 in
      if max_size <? size then Throw length_error
      else
        let! (out, pos) := copy_chars t (repeat 0 (N.to_nat size)) 0 in
        join_rest r d out pos
  end.

(** * trim.hpp *)

(** wite/string/trim.hpp:26-36. The character types: char, signed or not, and wchar_t. *)
Inductive chartype := CChar (is_signed : bool) | CWide.

(** std::isspace(int) and std::iswspace(wint_t) in the current locale [white].
    isspace is defined for the values of unsigned char and EOF (-1, not a space)
    only: the code passes a char, which is negative from code 128 on if char is
    signed (code 255 is then EOF). *)
Definition std_isspace (ct : chartype) (white : N -> bool) (c : N) : outcome bool :=
  match ct with
  | CChar true => if c <? 128 then Ok (white c) else if c =? 255 then Ok false else UB
  | CChar false | CWide => Ok (white c)
  end.

(** string/trim.hpp:26-36 *)
Definition is_not_whitespace (ct : chartype) (white : N -> bool) (c : N) : outcome bool :=
  let! b := std_isspace ct white c in Ok (negb b).

(** string/trim.hpp:41-44: trim_left; find_if stops at the first non-whitespace *)
Fixpoint trim_left (ct : chartype) (white : N -> bool) (s : list N) : outcome (list N) :=
  match s with
  | [] => Ok []
  | c :: r => let! b := is_not_whitespace ct white c in if b then Ok s else trim_left ct white r
  end.

(** string/trim.hpp:55-58: trim_right; the same search over the reversed range, and
    base() of the position found *)
Definition trim_right (ct : chartype) (white : N -> bool) (s : list N) : outcome (list N) :=
  let! r := trim_left ct white (rev s) in Ok (rev r).

(** string/trim.hpp:48-51 and 62-65: the overloads for [const Char_T*] *)
Definition trim_left_ptr ct white (mem : list N) : outcome (list N) :=
  let! s := c_text mem in trim_left ct white s.
(** wite/string/trim.hpp:62-65. *)
Definition trim_right_ptr ct white (mem : list N) : outcome (list N) :=
  let! s := c_text mem in trim_right ct white s.

(** * strip.hpp *)

(** string/strip.hpp:25-28 *)
Definition strip ct white (s : list N) : outcome (list N) :=
  let! t := trim_right ct white s in trim_left ct white t.
(** string/strip.hpp:32-35 *)
Definition strip_ptr ct white (mem : list N) : outcome (list N) :=
  let! s := c_text mem in strip ct white s.
