(** Model of collections/static_lookup.hpp and collections/make_vector.hpp. *)
From Verif Require Import Base.

Section Lookup.
Context {K V : Type}.
Variables (keq : K -> K -> bool) (veq : V -> V -> bool).

(** static_lookup.hpp:83: std::array<std::pair<K, V>, ITEM_COUNT>. *)
Definition table := list (K * V).

(** C++ language (Standard): assignment to an element of an array. *)
Definition set_nth {A} (n : N) (x : A) (l : list A) : list A := takeN n l ++ x :: dropN (n + 1) l.

(** static_lookup.hpp:58-66 _init: element number ITEM_COUNT - (number of the others) - 1
    of the array is assigned; [count] is ITEM_COUNT. *)
Fixpoint lk_init (count : N) (elements : list (K * V)) (items : table) : table :=
  match elements with
  | [] => items
  | e :: others => lk_init count others (set_nth (count - lenN others - 1) e items)
  end.

(** wite/collections/static_lookup.hpp:42-46 the constructor: starts from default-constructed pairs ([d]). *)
Definition lk_make (d : K * V) (elements : list (K * V)) : table :=
  lk_init (lenN elements) elements (repeat d (length elements)).

(** wite/collections/static_lookup.hpp:48 size() *)
Definition lk_size (t : table) : N := lenN t.

(** wite/collections/static_lookup.hpp:68-76 get<direction::forward>: std::ranges::find_if, then an end test. *)
Definition lk_at (t : table) (k : K) : outcome V :=
  match find (fun x => keq (fst x) k) t with
  | Some x => Ok (snd x) | None => Throw out_of_range
  end.
(** wite/collections/static_lookup.hpp:68-76 get<direction::reverse>, called by with() (53-55) *)
Definition lk_with (t : table) (v : V) : outcome K :=
  match find (fun x => veq (snd x) v) t with
  | Some x => Ok (fst x) | None => Throw out_of_range
  end.
(** wite/collections/static_lookup.hpp:52, 78-81 [table.at(k) = v] through the mutable at() *)
Fixpoint write_first (t : table) (k : K) (v : V) : table :=
  match t with
  | [] => []
  | x :: t' => if keq (fst x) k then (fst x, v) :: t' else x :: write_first t' k v
  end.
(** wite/collections/static_lookup.hpp:52, 78-81 [table.at(k) = v]. *)
Definition lk_at_write (t : table) (k : K) (v : V) : outcome table :=
  match find (fun x => keq (fst x) k) t with
  | Some _ => Ok (write_first t k v) | None => Throw out_of_range
  end.
End Lookup.

(** make_vector.hpp:17-30: the argument types arg::reserve and arg::size. *)
Inductive mv_arg (T : Type) := Reserve (n : N) | Size (n : N) (x : T).
Arguments Reserve {T} _. Arguments Size {T} _ _.

Section MakeVector.
Context {T : Type}.
(** The platform's std::vector<T>: max_size(), whether the allocator can provide room
    for that many elements, and the capacity it chooses when [resize] must grow from a
    capacity to at least the needed size. *)
Variables (max_size : N) (avail : N -> bool) (grow : N -> N -> N).

(** std::vector: elements and capacity *)
Definition stdvec : Type := list T * N.

(** std::vector::reserve *)
Definition vec_reserve (v : stdvec) (n : N) : outcome stdvec :=
  if max_size <? n then Throw length_error
  else if n <=? snd v then Ok v
  else if avail n then Ok (fst v, n) else Throw bad_alloc.
(** std::vector::resize(n, x) *)
Definition vec_resize (v : stdvec) (n : N) (x : T) : outcome stdvec :=
  if n <=? lenN (fst v) then Ok (takeN n (fst v), snd v)
  else if max_size <? n then Throw length_error
  else if n <=? snd v then Ok (fst v ++ repeat x (N.to_nat (n - lenN (fst v))), snd v)
  else if avail (grow (snd v) n)
       then Ok (fst v ++ repeat x (N.to_nat (n - lenN (fst v))), grow (snd v) n)
       else Throw bad_alloc.

(** make_vector.hpp:36-40: one step of the fold over the arguments *)
Definition mv_apply (v : stdvec) (a : mv_arg T) : outcome stdvec :=
  match a with Reserve n => vec_reserve v n | Size n x => vec_resize v n x end.
(** wite/collections/make_vector.hpp:36-40: the fold over the arguments. *)
Fixpoint mv_fold (v : stdvec) (args : list (mv_arg T)) : outcome stdvec :=
  match args with
  | [] => Ok v
  | a :: args' => let! v' := mv_apply v a in mv_fold v' args'
  end.
(** make_vector.hpp:32-43 *)
Definition make_vector (args : list (mv_arg T)) : outcome stdvec := mv_fold ([], 0) args.
End MakeVector.
