(** Model of programs whose texts change, or come to the end of their lives, under the fragment strings and the token
    views that refer to them: wite/string/fragment_string.hpp and wite/string/split.hpp. *)
From Coq Require Import List. Import ListNotations.
From Verif Require Import Base String_Model Frag_Model.
Local Open Scope N_scope.

(** C++ language (Standard): the arrays of characters of a program, numbered in the order in which they come to life; [None] once
    the array's life has ended.  A std::string that gets a new buffer ends one array and starts another. *)
Definition memory := list (option (list N)).
(** Model only, no counterpart in the code: array [n]. *)
Definition array_at (m : memory) (n : N) : option (list N) :=
  match nth_error m (N.to_nat n) with Some a => a | None => None end.
(** Model only, no counterpart in the code: array [n] replaced. *)
Fixpoint set_array (m : memory) (n : nat) (a : option (list N)) : memory :=
  match m, n with
  | [], _ => []
  | _ :: r, O => a :: r
  | x :: r, S n' => x :: set_array r n' a
  end.
(** C++ language (Standard): the memory that a pointer to character [k] of array [n] points to; the pointer is only valid while the
    array lives. *)
Definition memory_from (m : memory) (n k : N) : outcome (list N) :=
  match array_at m n with
  | Some cs => if k <=? lenN cs then Ok (dropN k cs) else UB
  | None => UB
  end.

(** wite/string/fragment_string.hpp:40 and wite/string/split.hpp:60: a std::basic_string_view: data() and length().
    [Null] is a default-constructed one. *)
Inductive sview := Null | Sv (n from len : N).
(** Standard library, string_view: the characters shown; a view of length 0 reads nothing. *)
Definition view_chars (m : memory) (v : sview) : outcome (list N) :=
  match v with
  | Null => Ok []
  | Sv n from len =>
      if len =? 0 then Ok []
      else let! cs := memory_from m n from in if len <=? lenN cs then Ok (takeN len cs) else UB
  end.
(** Standard library, string_view: length. *)
Definition view_length (v : sview) : N := match v with Null => 0 | Sv _ _ len => len end.

(** wite/string/fragment_string.hpp:253: the constructor from a pointer to character [k] of array [n] *)
Definition frag_from (m : memory) (n k : N) : outcome (list sview) :=
  let! cs := memory_from m n k in
  let! t := c_text cs in Ok [Sv n k (lenN t)].
(** wite/string/fragment_string.hpp:276-279: length *)
Definition frag_length (vs : list sview) : N := fold_left (fun n v => n + view_length v) vs 0.
(** Model only, no counterpart in the code: the fragments as the characters they show now. *)
Fixpoint frag_now (m : memory) (vs : list sview) : outcome frags :=
  match vs with
  | [] => Ok []
  | v :: r => let! t := view_chars m v in let! fs := frag_now m r in Ok (Some t :: fs)
  end.
(** wite/string/fragment_string.hpp:600-607: operator<< on a stream without a field width *)
Definition frag_print (m : memory) (vs : list sview) : outcome (list N) :=
  let! fs := frag_now m vs in Ok (print 0 0 fs).
(** wite/string/fragment_string.hpp:265-272: to_str: appends the C string at data() of each fragment *)
Fixpoint frag_append (m : memory) (out : list N) (vs : list sview) : outcome (list N) :=
  match vs with
  | [] => Ok out
  | Null :: _ => UB
  | Sv n from _ :: r =>
      let! cs := memory_from m n from in
      let! s := c_text cs in frag_append m (out ++ s) r
  end.
(** wite/string/fragment_string.hpp:265-272: to_str. *)
Definition frag_to_str (m : memory) (vs : list sview) : outcome (list N) := frag_append m [] vs.

(** wite/string/split.hpp:99-113: split_to<std::vector<std::string_view>>(pointer to character [k] of array [n], ...).
    Simplified: there is always memory for the vector. *)
Definition tokens_from (m : memory) (n k d : N) (b : split_behaviour) : outcome (list sview) :=
  let! cs := memory_from m n k in
  let! ts := split_to_ptr (fun _ => true) (Some cs) d b in
  Ok (map (fun t => Sv n (k + v_pos t) (lenN (v_chars t))) ts).
(** wite/string/split.hpp:99-113: split_to<std::vector<std::string>>(pointer, ...).  Simplified likewise. *)
Definition strings_from (m : memory) (n k d : N) (b : split_behaviour) : outcome (list (list N)) :=
  let! cs := memory_from m n k in
  let! ts := split_to_ptr (fun _ => true) (Some cs) d b in
  Ok (map v_chars ts).

(** Model only, no counterpart in the code: the values of a program's variables: a fragment string, a vector of
    string_views, a vector of strings. *)
Inductive tvar := TFrag (vs : list sview) | TViews (vs : list sview) | TStrings (ss : list (list N)).

(** Model only, no counterpart in the code: the operations of a program.
    [TNew cs]: an array with these characters comes to life; [TPoke n k c]: character k of array n becomes c;
    [TEnd n]: the life of array n ends;
    [TMake v n k]: v = fragment_string{p}, p pointing to character k of array n; [TDefault v j]: v = a default-constructed
    basic_fragment_string<char, j>; [TPlus v w x]: v = w + x;
    [TSplitViews v n k d b]: v = split_to<std::vector<std::string_view>>(p, d, b); [TSplitStrings]: the same with std::string;
    [TSave v w]: v = the vector of the one string w.to_str();
    [TLength v]: v.length(); [TPrint v]: std::cout << v; [TToStr v]: v.to_str(); [TItem v i]: the characters of v[i], of a vector *)
Inductive top :=
| TNew (cs : list N) | TPoke (n k c : N) | TEnd (n : N)
| TMake (v n k : N) | TDefault (v : N) (j : nat) | TPlus (v w x : N)
| TSplitViews (v n k d : N) (b : split_behaviour) | TSplitStrings (v n k d : N) (b : split_behaviour)
| TSave (v w : N)
| TLength (v : N) | TPrint (v : N) | TToStr (v : N) | TItem (v i : N).
(** Model only, no counterpart in the code: what an operation shows. *)
Inductive tobs := TNothing | TNum (n : N) | TText (cs : list N).

(** Model only, no counterpart in the code: the arrays, and the variables by name ([None]: no such variable). *)
Record tstate := mk_tstate { t_mem : memory; t_var : N -> option tvar }.
(** Model only, no counterpart in the code: an assignment. *)
Definition assign (s : tstate) (v : N) (x : tvar) : tstate :=
  mk_tstate (t_mem s) (fun w => if w =? v then Some x else t_var s w).

(** Model only, no counterpart in the code: one operation.  A program that uses a variable it does not have, or one of
    another type, is not a program; it counts as undefined here. *)
Definition tstep (s : tstate) (o : top) : outcome (tobs * tstate) :=
  match o with
  | TNew cs => Ok (TNothing, mk_tstate (t_mem s ++ [Some cs]) (t_var s))
  | TPoke n k c =>
      match array_at (t_mem s) n with
      | Some cs =>
          if k <? lenN cs
          then Ok (TNothing, mk_tstate (set_array (t_mem s) (N.to_nat n) (Some (takeN k cs ++ c :: dropN (k + 1) cs))) (t_var s))
          else UB
      | None => UB
      end
  | TEnd n =>
      match array_at (t_mem s) n with
      | Some _ => Ok (TNothing, mk_tstate (set_array (t_mem s) (N.to_nat n) None) (t_var s))
      | None => UB
      end
  | TMake v n k => let! vs := frag_from (t_mem s) n k in Ok (TNothing, assign s v (TFrag vs))
  | TDefault v j => Ok (TNothing, assign s v (TFrag (repeat Null j)))
  | TPlus v w x =>
      match t_var s w, t_var s x with
      | Some (TFrag a), Some (TFrag c) => Ok (TNothing, assign s v (TFrag (a ++ c)))
      | _, _ => UB
      end
  | TSplitViews v n k d b => let! vs := tokens_from (t_mem s) n k d b in Ok (TNothing, assign s v (TViews vs))
  | TSplitStrings v n k d b => let! ss := strings_from (t_mem s) n k d b in Ok (TNothing, assign s v (TStrings ss))
  | TSave v w =>
      match t_var s w with
      | Some (TFrag vs) => let! t := frag_to_str (t_mem s) vs in Ok (TNothing, assign s v (TStrings [t]))
      | _ => UB
      end
  | TLength v =>
      match t_var s v with Some (TFrag vs) => Ok (TNum (frag_length vs), s) | _ => UB end
  | TPrint v =>
      match t_var s v with
      | Some (TFrag vs) => let! t := frag_print (t_mem s) vs in Ok (TText t, s)
      | _ => UB
      end
  | TToStr v =>
      match t_var s v with
      | Some (TFrag vs) => let! t := frag_to_str (t_mem s) vs in Ok (TText t, s)
      | _ => UB
      end
  | TItem v i =>
      match t_var s v with
      | Some (TViews vs) =>
          match nth_error vs (N.to_nat i) with
          | Some x => let! t := view_chars (t_mem s) x in Ok (TText t, s)
          | None => UB
          end
      | Some (TStrings ss) =>
          match nth_error ss (N.to_nat i) with Some t => Ok (TText t, s) | None => UB end
      | _ => UB
      end
  end.

(** Model only, no counterpart in the code: a program, and everything it shows. *)
Fixpoint trun (s : tstate) (p : list top) : outcome (list tobs * tstate) :=
  match p with
  | [] => Ok ([], s)
  | o :: q =>
      let! (x, s1) := tstep s o in
      let! (xs, s2) := trun s1 q in
      Ok (x :: xs, s2)
  end.
(** Model only, no counterpart in the code: before the first operation. *)
Definition tstart : tstate := mk_tstate [] (fun _ => None).
