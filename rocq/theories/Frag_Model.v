(** Model of wite/string/fragment_string.hpp.
    Total lengths are taken exactly, not mod 2^64: a fragment string is assumed to
    be shorter than 2^63 characters. *)
From Verif Require Import Base String_Model.

(** string/fragment_string.hpp:40: _fragment_type, a string_view: its characters, or
    [None] if it is default-constructed (data() is null, length 0) *)
Definition fragment := option (list N).
(** wite/string/fragment_string.hpp:40: the characters of a string_view. *)
Definition chars (f : fragment) : list N := match f with Some t => t | None => [] end.

(** string/fragment_string.hpp:43, 548: _fragments, the array of FRAGMENT_COUNT fragments *)
Definition frags := list fragment.
(** Model only, no counterpart in the code: the characters of fragment [k]. *)
Definition fchars (fs : frags) (k : nat) : list N := chars (nth k fs None).
(** Model only, no counterpart in the code: its length. *)
Definition flen (fs : frags) (k : nat) : N := lenN (fchars fs k).

(** string/fragment_string.hpp:276-279 *)
Definition length_of (fs : frags) : N := fold_left (fun n f => n + lenN (chars f)) fs 0.

(** string/fragment_string.hpp:49-58: the iterator's position: which fragment, and
    where in it.  fragment_end is the same for all iterators of a string; iterators
    of different strings are not mixed (and a debug build asserts that they are not). *)
Record iter := It { it_frag : nat; it_off : N }.

(** string/fragment_string.hpp:285-298: begin and end *)
Definition begin_of (fs : frags) : iter := It 0 0.
(** wite/string/fragment_string.hpp:285-298: end. *)
Definition end_of (fs : frags) : iter := It (length fs - 1) (flen fs (length fs - 1)).

(** string/fragment_string.hpp:84-90: member-wise == *)
Definition it_eq (a b : iter) : bool := Nat.eqb (it_frag a) (it_frag b) && (it_off a =? it_off b).
(** string/fragment_string.hpp:76-82: member-wise <=> *)
Definition it_cmp (a b : iter) : comparison :=
  match Nat.compare (it_frag a) (it_frag b) with
  | Eq => it_off a ?= it_off b
  | c => c
  end.

(** string/fragment_string.hpp:92-98: operator*; a string_view iterator may only be
    dereferenced inside its view *)
Definition it_deref (b : build) (fs : frags) (it : iter) : outcome N :=
  let! _ := dassert b ((it_frag it <? length fs)%nat && (it_off it <? flen fs (it_frag it))) in
  match nth_error (fchars fs (it_frag it)) (N.to_nat (it_off it)) with
  | Some c => Ok c
  | None => UB
  end.

(** string/fragment_string.hpp:100-117: operator++; moving a string_view iterator
    past the end of its view is undefined *)
Definition it_inc (b : build) (fs : frags) (it : iter) : outcome iter :=
  let k := it_frag it in
  let! _ := dassert b (negb (Nat.eqb (S k) (length fs) && (it_off it =? flen fs k))) in
  if flen fs k <=? it_off it then UB
  else
    let off := it_off it + 1 in
    if off =? flen fs k
    then if Nat.eqb (S k) (length fs) then Ok (It k (flen fs k)) else Ok (It (S k) 0)
    else Ok (It k off).

(** string/fragment_string.hpp:119-130: operator-- *)
Definition it_dec (b : build) (fs : frags) (it : iter) : outcome iter :=
  let! _ := dassert b (negb (Nat.eqb (it_frag it) 0 && (it_off it =? 0))) in
  if it_off it =? 0
  then match it_frag it with
       | O => UB
       | S k => if flen fs k =? 0 then UB else Ok (It k (flen fs k - 1))
       end
  else Ok (It (it_frag it) (it_off it - 1)).

(** string/fragment_string.hpp:185-207: _seek_forward.  The loop of the code has no
    bound; the model allows [fuel] rounds and reports running out as [Diverge]. *)
Fixpoint seek_forward (fuel : nat) (b : build) (fs : frags) (it : iter) (offset : N) : outcome iter :=
  match fuel with
  | O => Diverge
  | S fuel' =>
      if offset =? 0 then Ok it
      else
        let k := it_frag it in
        let dist := flen fs k - it_off it in
        if offset <? dist then Ok (It k (it_off it + offset))
        else
          let! _ := dassert b (negb (Nat.eqb (S k) (length fs)) || (offset =? dist)) in
          let it' := if Nat.eqb (S k) (length fs) then It k (flen fs k) else It (S k) 0 in
          seek_forward fuel' b fs it' (offset - dist)
  end.

(** string/fragment_string.hpp:209-223: _seek_backward; stepping before the first
    fragment is undefined *)
Fixpoint seek_backward (fuel : nat) (b : build) (fs : frags) (it : iter) (offset : N) : outcome iter :=
  match fuel with
  | O => Diverge
  | S fuel' =>
      if offset =? 0 then Ok it
      else if offset <=? it_off it then Ok (It (it_frag it) (it_off it - offset))
      else
        let! _ := dassert b (negb (Nat.eqb (it_frag it) 0)) in
        match it_frag it with
        | O => UB
        | S k => seek_backward fuel' b fs (It k (flen fs k)) (offset - it_off it)
        end
  end.

(** string/fragment_string.hpp:177-183: _seek, and 132-135: operator+= *)
Definition seek (b : build) (fs : frags) (it : iter) (offset : Z) : outcome iter :=
  if (0 <? offset)%Z then seek_forward (length fs + 2) b fs it (Z.to_N offset)
  else if (offset =? - 2 ^ 63)%Z then UB
  else seek_backward (length fs + 2) b fs it (Z.to_N (- offset)).
(** string/fragment_string.hpp:137-140: operator-= *)
Definition seek_minus (b : build) (fs : frags) (it : iter) (offset : Z) : outcome iter :=
  if (offset =? - 2 ^ 63)%Z then UB else seek b fs it (- offset).

(** C++ language (Standard). A size_t passed where a ptrdiff_t is expected. *)
Definition as_ptrdiff (n : N) : Z := if n <? 2 ^ 63 then Z.of_N n else (Z.of_N n - 2 ^ 64)%Z.

(** std::next on a random access iterator: it += n *)
Definition next (b : build) (fs : frags) (it : iter) (n : N) : outcome iter := seek b fs it (as_ptrdiff n).

(** string/fragment_string.hpp:225-229: _sublength *)
Definition sublength (fs : frags) (lo hi : nat) : N := length_of (firstn (hi - lo) (skipn lo fs)).
(** string/fragment_string.hpp:231-237: _distance *)
Definition distance (fs : frags) (lo hi : iter) : Z :=
  (Z.of_N (sublength fs (it_frag lo) (it_frag hi)) - Z.of_N (it_off lo) + Z.of_N (it_off hi))%Z.
(** string/fragment_string.hpp:154-167: operator-(const iterator&), [a - b] *)
Definition it_diff (fs : frags) (a b : iter) : Z :=
  if (it_frag b <? it_frag a)%nat then distance fs b a
  else if (it_frag a <? it_frag b)%nat then (- distance fs a b)%Z
  else (Z.of_N (it_off a) - Z.of_N (it_off b))%Z.

(** string/fragment_string.hpp:253: the constructor from a pointer; a null pointer is [None] *)
Definition from_ptr (p : option (list N)) : outcome frags :=
  match p with
  | None => UB
  | Some mem => let! t := c_text mem in Ok [Some t]
  end.
(** string/fragment_string.hpp:251: the default constructor with FRAGMENT_COUNT [n] *)
Definition default_fs (n : nat) : frags := repeat None n.
(** string/fragment_string.hpp:258-263, 558-579: operator+ of two fragment strings *)
Definition plus (l r : frags) : frags := l ++ r.
(** string/fragment_string.hpp:558-570: operator+ with a C string *)
Definition plus_ptr (l : frags) (p : option (list N)) : outcome frags :=
  let! r := from_ptr p in Ok (plus l r).

(** string/fragment_string.hpp:265-272: to_str; each fragment is appended as the C
    string at data().  Views are built from C strings, so a NUL follows the view. *)
Fixpoint append_fragments (out : list N) (fs : frags) : outcome (list N) :=
  match fs with
  | [] => Ok out
  | None :: _ => UB
  | Some t :: r => let! s := c_text (t ++ [0]) in append_fragments (out ++ s) r
  end.
(** wite/string/fragment_string.hpp:265-272: to_str. *)
Definition to_str (fs : frags) : outcome (list N) := append_fragments [] fs.

(** string/fragment_string.hpp:308: operator[], noexcept *)
Definition subscript (b : build) (fs : frags) (pos : N) : outcome N :=
  noexcept (let! it := next b fs (begin_of fs) pos in it_deref b fs it).
(** string/fragment_string.hpp:300-306: at *)
Definition at_pos (b : build) (fs : frags) (pos : N) : outcome N :=
  if length_of fs <=? pos then Throw out_of_range else subscript b fs pos.
(** string/fragment_string.hpp:310-314: front *)
Definition front (b : build) (fs : frags) : outcome N :=
  let! _ := dassert b (0 <? length_of fs) in
  match fchars fs 0 with c :: _ => Ok c | [] => UB end.
(** string/fragment_string.hpp:316-320: back *)
Definition back (b : build) (fs : frags) : outcome N :=
  let! _ := dassert b (0 <? length_of fs) in
  match rev (fchars fs (length fs - 1)) with c :: _ => Ok c | [] => UB end.
(** string/fragment_string.hpp:322 *)
Definition empty (fs : frags) : bool := length_of fs =? 0.

(** Model only, no counterpart in the code: the loop a caller writes over wite/string/fragment_string.hpp:285-298. for (it = first; it != last; ++it) ... *it ...: the characters visited *)
Fixpoint collect (fuel : nat) (b : build) (fs : frags) (it last : iter) : outcome (list N) :=
  match fuel with
  | O => Diverge
  | S fuel' =>
      if it_eq it last then Ok []
      else
        let! c := it_deref b fs it in
        let! it' := it_inc b fs it in
        let! r := collect fuel' b fs it' last in
        Ok (c :: r)
  end.
(** Model only, no counterpart in the code. A loop from begin() to end(); one more round than there are characters is enough. *)
Definition walk (b : build) (fs : frags) : outcome (list N) :=
  collect (S (N.to_nat (length_of fs))) b fs (begin_of fs) (end_of fs).
(** Model only, no counterpart in the code. The same with reverse iterators: *r is *--copy of the base, ++r is --base. *)
Fixpoint rcollect (fuel : nat) (b : build) (fs : frags) (base last : iter) : outcome (list N) :=
  match fuel with
  | O => Diverge
  | S fuel' =>
      if it_eq base last then Ok []
      else
        let! base' := it_dec b fs base in
        let! c := it_deref b fs base' in
        let! r := rcollect fuel' b fs base' last in
        Ok (c :: r)
  end.
(** Model only, no counterpart in the code: the loop from rbegin() to rend() (wite/string/fragment_string.hpp:285-298). *)
Definition rwalk (b : build) (fs : frags) : outcome (list N) :=
  rcollect (S (N.to_nat (length_of fs))) b fs (end_of fs) (begin_of fs).

(** C++ language (Standard). The value a character has in comparisons with < : char may be signed.  wchar_t
    codes are taken in order of their code. *)
Definition char_value (ct : chartype) (c : N) : Z :=
  match ct with
  | CChar true => if c <? 128 then Z.of_N c else (Z.of_N c - 256)%Z
  | CChar false | CWide => Z.of_N c
  end.

(** string/fragment_string.hpp:502-528: _compare.  The other range may be a
    string_view, a string or a fragment string; the first two are iterated as a
    string of one fragment, whose iterators move the same way. *)
Fixpoint compare_loop (fuel : nat) (b : build) (ct : chartype) (fs : frags) (it : iter) (os : frags) (o : iter)
    : outcome Z :=
  match fuel with
  | O => Diverge
  | S fuel' =>
      let at_end := it_eq it (end_of fs) in
      let o_end := it_eq o (end_of os) in
      if negb at_end && negb o_end then
        let! x := it_deref b fs it in
        let! y := it_deref b os o in
        if (char_value ct x <? char_value ct y)%Z then Ok (-1)%Z
        else
          if (char_value ct y <? char_value ct x)%Z then Ok 1%Z
          else
            let! it' := it_inc b fs it in
            let! o' := it_inc b os o in
            compare_loop fuel' b ct fs it' os o'
      else if o_end then Ok (if at_end then 0%Z else 1%Z)
      else let! _ := dassert b at_end in Ok (-1)%Z
  end.
(** string/fragment_string.hpp:324-338: compare *)
Definition compare_fs (b : build) (ct : chartype) (fs os : frags) : outcome Z :=
  compare_loop (S (N.to_nat (length_of fs))) b ct fs (begin_of fs) os (begin_of os).
(** wite/string/fragment_string.hpp:324-338: compare with a string_view. *)
Definition compare_sv (b : build) (ct : chartype) (fs : frags) (s : list N) : outcome Z :=
  compare_fs b ct fs [Some s].

(** std::equal over two ranges of random access iterators: the lengths first, then
    the characters, [n] of them *)
Fixpoint equal_loop (n : nat) (b : build) (f1 : frags) (i1 : iter) (f2 : frags) (i2 : iter) : outcome bool :=
  match n with
  | O => Ok true
  | S n' =>
      let! x := it_deref b f1 i1 in
      let! y := it_deref b f2 i2 in
      if x =? y then
        let! i1' := it_inc b f1 i1 in
        let! i2' := it_inc b f2 i2 in
        equal_loop n' b f1 i1' f2 i2'
      else Ok false
  end.
(** std::equal, the comparison of the lengths. *)
Definition equal (b : build) (f1 : frags) (first1 last1 : iter) (f2 : frags) (first2 last2 : iter) : outcome bool :=
  let d1 := it_diff f1 last1 first1 in
  let d2 := it_diff f2 last2 first2 in
  if (d1 =? d2)%Z then equal_loop (Z.to_nat d1) b f1 first1 f2 first2 else Ok false.
(** std::equal. The same over reverse iterators, given by their bases. *)
Fixpoint requal_loop (n : nat) (b : build) (f1 : frags) (i1 : iter) (f2 : frags) (i2 : iter) : outcome bool :=
  match n with
  | O => Ok true
  | S n' =>
      let! i1' := it_dec b f1 i1 in
      let! x := it_deref b f1 i1' in
      let! i2' := it_dec b f2 i2 in
      let! y := it_deref b f2 i2' in
      if x =? y then requal_loop n' b f1 i1' f2 i2' else Ok false
  end.
(** std::equal over reverse iterators. *)
Definition requal (b : build) (f1 : frags) (first1 last1 : iter) (f2 : frags) (first2 last2 : iter) : outcome bool :=
  let d1 := it_diff f1 first1 last1 in
  let d2 := it_diff f2 first2 last2 in
  if (d1 =? d2)%Z then requal_loop (Z.to_nat d1) b f1 first1 f2 first2 else Ok false.

(** string/fragment_string.hpp:340, 355: starts_with(c), ends_with(c), noexcept *)
Definition starts_with_char (b : build) (fs : frags) (c : N) : outcome bool :=
  noexcept (if empty fs then Ok false else let! x := front b fs in Ok (x =? c)).
(** wite/string/fragment_string.hpp:355: ends_with(c). *)
Definition ends_with_char (b : build) (fs : frags) (c : N) : outcome bool :=
  noexcept (if empty fs then Ok false else let! x := back b fs in Ok (x =? c)).

(** string/fragment_string.hpp:342-353 with _match_substring 484-500: starts_with *)
Definition starts_with (b : build) (fs os : frags) : outcome bool :=
  noexcept (
    if length_of fs =? 0 then Ok false
    else if length_of fs <? length_of os then Ok false
    else
      let! e := next b fs (begin_of fs) (length_of os) in
      equal b os (begin_of os) (end_of os) fs (begin_of fs) e).
(** string/fragment_string.hpp:357-368 with _match_substring over reverse
    iterators: ends_with; std::next on a reverse iterator moves its base back *)
Definition ends_with (b : build) (fs os : frags) : outcome bool :=
  noexcept (
    if length_of fs =? 0 then Ok false
    else if length_of fs <? length_of os then Ok false
    else
      let! e := seek_minus b fs (end_of fs) (as_ptrdiff (length_of os)) in
      requal b os (end_of os) (begin_of os) fs (end_of fs) e).

(** std::basic_string_view::find(ch): position of the first [c] *)
Fixpoint sv_find (c : N) (t : list N) : option N :=
  match t with
  | [] => None
  | x :: r => if x =? c then Some 0 else match sv_find c r with Some n => Some (n + 1) | None => None end
  end.

(** string/fragment_string.hpp:370-372: contains(c) *)
Definition contains_char (fs : frags) (c : N) : bool :=
  existsb (fun f => match sv_find c (chars f) with Some _ => true | None => false end) fs.

(** string/fragment_string.hpp:538-543: the loop and the two lines after it of
    _seek_fragment_containing_position; reading the fragment behind the last is undefined *)
Fixpoint seek_fragment_loop (fuel : nat) (fs : frags) (pos checked : N) (k : nat) : outcome (nat * N) :=
  match fuel with
  | O => Diverge
  | S fuel' =>
      if checked <=? pos
      then if (k <? length fs)%nat then seek_fragment_loop fuel' fs pos (checked + flen fs k) (S k) else UB
      else match k with
           | O => UB
           | S k' => Ok (k', checked - flen fs k')
           end
  end.
(** string/fragment_string.hpp:530-546 *)
Definition seek_fragment (fs : frags) (pos : N) : outcome (nat * N) :=
  if pos =? 0 then Ok (O, 0) else seek_fragment_loop (length fs + 2) fs pos 0 0.

(** std::basic_string::npos *)
Definition npos : N := size_mod - 1.

(** string/fragment_string.hpp:438-445: the loop of find(ch, pos), from fragment [k] on *)
Fixpoint find_in (fs : frags) (c checked : N) : N :=
  match fs with
  | [] => npos
  | f :: r => match sv_find c (chars f) with
              | None => find_in r c (checked + lenN (chars f))
              | Some p => checked + p
              end
  end.
(** string/fragment_string.hpp:431-448: find(ch, pos) *)
Definition find_char_fs (fs : frags) (c pos : N) : outcome N :=
  if length_of fs <=? pos then Ok npos
  else let! (k, checked) := seek_fragment fs pos in Ok (find_in (skipn k fs) c checked).

(** string/fragment_string.hpp:471-479: the loop of find(sv, pos) *)
Fixpoint find_loop (fuel : nat) (b : build) (fs : frags) (sv : list N) (it curr_end : iter) (out : N) : outcome N :=
  match fuel with
  | O => Diverge
  | S fuel' =>
      let! e := equal b [Some sv] (begin_of [Some sv]) (end_of [Some sv]) fs it curr_end in
      if e then Ok out
      else
        if it_eq curr_end (end_of fs) then Ok npos
        else
          let! it' := it_inc b fs it in
          let! curr_end' := it_inc b fs curr_end in
          find_loop fuel' b fs sv it' curr_end' (out + 1)
  end.
(** string/fragment_string.hpp:450-482: find(sv, pos), noexcept *)
Definition find_sv (b : build) (fs : frags) (sv : list N) (pos : N) : outcome N :=
  noexcept (
    if length_of fs <? sz_add pos (lenN sv) then Ok npos
    else if length_of fs <? lenN sv then Ok npos
    else
      let! (k, checked) := seek_fragment fs pos in
      let start := It k (pos - checked) in
      let! e := next b fs start (lenN sv) in
      find_loop (S (N.to_nat (length_of fs))) b fs sv start e pos).

(** string/fragment_string.hpp:374-380: contains(sv) *)
Definition contains_sv (b : build) (fs : frags) (sv : list N) : outcome bool :=
  let! p := find_sv b fs sv 0 in Ok (negb (p =? npos)).

(** string/fragment_string.hpp:395-399: the loop of contains(fragment_string) *)
Fixpoint contains_loop (fuel : nat) (b : build) (fs os : frags) (it last : iter) (effective : N) : outcome bool :=
  match fuel with
  | O => Diverge
  | S fuel' =>
      if negb (it_eq it last) && negb (effective =? 0) then
        let! e := next b fs it (length_of os) in
        let! q := equal b os (begin_of os) (end_of os) fs it e in
        if q then Ok true
        else let! it' := it_inc b fs it in contains_loop fuel' b fs os it' last (effective - 1)
      else Ok false
  end.
(** string/fragment_string.hpp:382-402: contains(fragment_string), noexcept *)
Definition contains_fs (b : build) (fs os : frags) : outcome bool :=
  noexcept (
    if length_of fs <? length_of os then Ok false
    else
      let! last := next b fs (begin_of fs) (length_of fs - length_of os) in
      contains_loop (S (N.to_nat (length_of fs))) b fs os (begin_of fs) last (length_of fs)).

(** string/fragment_string.hpp:404-415: substr.  A std::string cannot be built from a
    reversed range. *)
Definition substr (b : build) (fs : frags) (pos count : N) : outcome (list N) :=
  if length_of fs <=? pos then Throw out_of_range
  else
    let! it_end := (if (count =? npos) || (length_of fs <=? sz_add pos count) then Ok (end_of fs)
                    else next b fs (begin_of fs) (sz_add pos count)) in
    let! it := next b fs (begin_of fs) pos in
    if (it_diff fs it_end it <? 0)%Z then UB
    else collect (S (N.to_nat (length_of fs))) b fs it it_end.

(** std::copy_n: [n] characters from the iterator into [dest] at [at] *)
Fixpoint copy_n (n : nat) (b : build) (fs : frags) (it : iter) (dest : list N) (pos : N) : outcome (list N) :=
  match n with
  | O => Ok dest
  | S n' =>
      let! c := it_deref b fs it in
      let! dest' := store dest pos c in
      let! it' := it_inc b fs it in
      copy_n n' b fs it' dest' (pos + 1)
  end.
(** string/fragment_string.hpp:417-429: copy; [dest] is the memory at the caller's pointer *)
Definition copy (b : build) (fs : frags) (dest : list N) (count pos : N) : outcome (list N * N) :=
  if length_of fs <=? pos then Throw out_of_range
  else
    let n := N.min count (length_of fs - pos) in
    let! it := next b fs (begin_of fs) pos in
    let! dest' := copy_n (N.to_nat n) b fs it dest 0 in
    Ok (dest', n).

(** string/fragment_string.hpp:601-617: operator<<: each fragment is inserted on its
    own.  [width] and [fill] are the stream's: an insertion pads on the left to
    [width] and resets it to 0. *)
Definition insert_text (width fill : N) (t : list N) : list N := repeat fill (N.to_nat (width - lenN t)) ++ t.
(** wite/string/fragment_string.hpp:601-617: the loop over the fragments. *)
Fixpoint print (width fill : N) (fs : frags) : list N :=
  match fs with
  | [] => []
  | f :: r => insert_text width fill (chars f) ++ print 0 fill r
  end.
