(** Model of the constructors and literals of wite/string/fragment_string.hpp for any
    FRAGMENT_COUNT. *)
From Verif Require Import Base String_Model Frag_Model.

(** wite/string/fragment_string.hpp:253 basic_fragment_string<Char_T, n>(pointer): the first
    fragment is the C string, the others are default-constructed views.  With no fragment
    at all the array has no element to initialise, and the class does not compile. *)
Definition from_ptr_n (n : nat) (p : option (list N)) : outcome frags :=
  match n with
  | O => UB
  | S m => let! fs := from_ptr p in Ok (fs ++ repeat None m)
  end.

(** std::copy of views to the array [dest], from index [i] on (used at
    wite/string/fragment_string.hpp:261-262): the array and the index after the last copy *)
Fixpoint copy_views (src : frags) (dest : frags) (i : nat) : outcome (frags * nat) :=
  match src with
  | [] => Ok (dest, i)
  | f :: r => if (i <? length dest)%nat then copy_views r (firstn i dest ++ f :: skipn (S i) dest) (S i) else UB
  end.
(** wite/string/fragment_string.hpp:258-263 basic_fragment_string<Char_T, n>(left, right): two
    copies into an array of default-constructed views *)
Definition from_parts (n : nat) (l r : frags) : outcome frags :=
  let! p := copy_views l (repeat None n) 0 in
  let! q := copy_views r (fst p) (snd p) in Ok (fst q).

(** wite/string/fragment_string.hpp:583-591 operator""_fs and operator""_wfs: the length is not used *)
Definition literal (str : list N) (len : N) : outcome frags := from_ptr (Some str).

(** wite/string/fragment_string.hpp:281 size() *)
Definition fs_size (fs : frags) : N := length_of fs.
(** wite/string/fragment_string.hpp:282 max_size() *)
Definition fs_max_size (fs : frags) : N := length_of fs.
(** wite/string/fragment_string.hpp:283 capacity() *)
Definition fs_capacity (fs : frags) : N := length_of fs.
