(** split_to<static_vector<std::string, N>> and split_to<static_vector<std::string_view, N>>: the function template of
    wite/string/split.hpp with a container of wite/collections/static_vector.hpp as its result. *)
From Coq Require Import List. Import ListNotations.
From Verif Require Import Base String_Model Sv_Model.

Section Into.
Context {C : Type}.
Context (push : C -> view -> outcome C).
(** wite/string/split.hpp:78-92: the while (true) loop for any container; [push] is out.push_back(std::move(token)) with the
    construction of the token (String_Model.v has the loop for std::vector). *)
Fixpoint into_loop (fuel : nat) (str : view) (d : N) (b : split_behaviour) (out : C) : outcome C :=
  match fuel with
  | O => Diverge
  | S fuel' =>
      let '(token, remainder, performed_a_split) := first_token str d b in
      let wanted := match b with
                    | keep_empty => true
                    | drop_empty => match v_chars token with [] => false | _ => true end
                    end in
      let! out' := (if wanted then push out token else Ok out) in
      if performed_a_split then into_loop fuel' remainder d b out' else Ok out'
  end.
End Into.

(** wite/collections/static_vector.hpp:159 push_back(value_type&&), as called at wite/string/split.hpp:83; [fails k] tells which
    copy of token number [k] throws, if any (Sv_Model.v; std::string may run out of memory, std::string_view does not). *)
Definition sv_push {V} (conv : view -> V) (fails : N -> option N) (out : svec V) (token : view) : outcome (svec V) :=
  match sv_push_back out (conv token) (fails (sv_size out)) with
  | (Ok _, out') => Ok out'
  | (Throw e, _) => Throw e
  | (UB, _) => UB
  | (Terminate, _) => Terminate
  | (Diverge, _) => Diverge
  end.

(** wite/string/split.hpp:73-95 split_to<static_vector<T, cap>>, noexcept.  [conv] makes the T of a token.  The result is
    constructed in place (the copy of the named local is elided, or moves the elements). *)
Definition split_to_static {V} (cap : N) (conv : view -> V) (fails : N -> option N) (s : list N) (d : N) (b : split_behaviour)
    : outcome (svec V) :=
  noexcept (into_loop (sv_push conv fails) (S (length s)) (View 0 s) d b (sv_default cap)).

(** wite/string/split.hpp:99-113 split_to<static_vector<T, cap>>(const Char_T*, ...); a null pointer is [None]. *)
Definition split_to_static_ptr {V} (cap : N) (conv : view -> V) (fails : N -> option N) (p : option (list N)) (d : N)
    (b : split_behaviour) : outcome (svec V) :=
  match p with
  | None => Ok (sv_default cap)
  | Some mem => let! s := c_text mem in split_to_static cap conv fails s d b
  end.
