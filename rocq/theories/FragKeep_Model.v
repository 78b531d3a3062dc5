(** Model of programs that keep iterators of fragment strings while strings are made, assigned and destroyed. *)
From Coq Require Import List. Import ListNotations.
From Verif Require Import Base String_Model Frag_Model.
Local Open Scope N_scope.

Section FragKeep.
Variable b : build.
(** wite/string/fragment_string.hpp:40: a fragment only refers to its text.  Texts are numbered; text [t] has the characters
    [texts t], is never changed and outlives the program's strings.  Simplified: texts do not overlap. *)
Variable texts : N -> list N.

(** wite/string/fragment_string.hpp:43, 548: _fragments: which text each view shows; [None] is a default-constructed view *)
Definition views := list (option N).
(** Model only, no counterpart in the code: the characters. *)
Definition frags_of (vs : views) : frags := map (option_map texts) vs.

(** wite/string/fragment_string.hpp:49-58: an iterator: the string whose array it points into (fragment_end and
    debug_fragment_range_begin), the element of the array, and the text and offset that [current] points at *)
Record kiter := mk_kiter { k_owner : N; k_frag : nat; k_text : option N; k_off : N }.

(** Model only, no counterpart in the code: the strings of a program by name ([None]: not alive), and its iterators. *)
Record kstore := mk_kstore { ks_str : N -> option views; ks_it : N -> option kiter }.
(** Model only, no counterpart in the code. *)
Definition put {A} (f : N -> A) (v : N) (x : A) : N -> A := fun w => if w =? v then x else f w.

(** Model only, no counterpart in the code: view [k] of a string. *)
Definition view_at (vs : views) (k : nat) : option N := nth k vs None.
(** Model only, no counterpart in the code: the iterator is inside the view its string has now. *)
Definition same_text (x y : option N) : bool :=
  match x, y with Some s, Some t => s =? t | None, None => true | _, _ => false end.
(** Model only, no counterpart in the code. *)
Definition consistent (vs : views) (i : kiter) : bool :=
  (k_frag i <? length vs)%nat && same_text (k_text i) (view_at vs (k_frag i)).
(** Model only, no counterpart in the code: an iterator of string [v] with a position of Frag_Model. *)
Definition kept (v : N) (vs : views) (it : iter) : kiter := mk_kiter v (it_frag it) (view_at vs (it_frag it)) (it_off it).

(** Model only, no counterpart in the code: operations of a program.  [KMake]: construction of the string or assignment
    of a string with these views; [KCopy v w]: v = w; [KDie v]: the end of the life of v; the others make, move, read and compare
    iterators ([KPlus k l n] is  auto l = k + n,  [KJump k n] is  k += n). *)
Inductive kop :=
| KMake (v : N) (vs : views) | KCopy (v w : N) | KDie (v : N)
| KBegin (k v : N) | KEnd (k v : N) | KDup (k l : N) | KInc (k : N) | KDec (k : N)
| KPlus (k l : N) (n : Z) | KMinus (k l : N) (n : Z) | KJump (k : N) (n : Z) | KBack (k : N) (n : Z)
| KRead (k : N) | KEq (k l : N) | KCmp (k l : N) | KDiff (k l : N).
(** Model only, no counterpart in the code: what an operation shows. *)
Inductive kobs := KDone | KChar (c : N) | KBool (x : bool) | KOrder (c : comparison) | KDist (z : Z).

(** Model only, no counterpart in the code: the iterator [k] moved by [f] becomes [l].  Simplified: moving an iterator
    whose string has been destroyed or now shows another text there is undefined (in C++ some of these compare unrelated
    pointers and go on). *)
Definition move_to (s : kstore) (k l : N) (f : frags -> iter -> outcome iter) : outcome (kobs * kstore) :=
  match ks_it s k with
  | None => UB
  | Some i =>
      match ks_str s (k_owner i) with
      | None => UB
      | Some vs =>
          if consistent vs i then
            let! it := f (frags_of vs) (It (k_frag i) (k_off i)) in
            Ok (KDone, mk_kstore (ks_str s) (put (ks_it s) l (Some (kept (k_owner i) vs it))))
          else UB
      end
  end.

(** wite/string/fragment_string.hpp:92-98: operator*.  A release build reads the character without looking at the string; a debug build
    compares pointers, which is unspecified if the string shows another text there (taken as undefined) *)
Definition k_read (s : kstore) (k : N) : outcome (kobs * kstore) :=
  match ks_it s k with
  | None => UB
  | Some i =>
      match b, ks_str s (k_owner i) with
      | Release, _ =>
          match nth_error (chars (option_map texts (k_text i))) (N.to_nat (k_off i)) with
          | Some c => Ok (KChar c, s)
          | None => UB
          end
      | _, None => UB
      | _, Some vs => if consistent vs i then let! c := it_deref b (frags_of vs) (It (k_frag i) (k_off i)) in Ok (KChar c, s) else UB
      end
  end.

(** Model only, no counterpart in the code: two iterators and the views of the first one's string. *)
Definition two (s : kstore) (k l : N) (f : views -> kiter -> kiter -> outcome kobs) : outcome (kobs * kstore) :=
  match ks_it s k, ks_it s l with
  | Some i, Some j =>
      match ks_str s (k_owner i), ks_str s (k_owner j) with
      | Some vs, Some _ => let! x := f vs i j in Ok (x, s)
      | _, _ => UB
      end
  | _, _ => UB
  end.
(** wite/string/fragment_string.hpp:170-175: _debug_verify_integrity *)
Definition verify (i j : kiter) : outcome unit := dassert b (k_owner i =? k_owner j).
(** wite/string/fragment_string.hpp:84-90: operator==, member-wise; elements of different arrays have different addresses *)
Definition k_eq (i j : kiter) : outcome bool :=
  let! _ := verify i j in
  Ok ((k_owner i =? k_owner j) && Nat.eqb (k_frag i) (k_frag j) && same_text (k_text i) (k_text j) && (k_off i =? k_off j)).
(** wite/string/fragment_string.hpp:76-82: operator<=>, member-wise; the order of pointers into different arrays or texts is
    unspecified (taken as undefined) *)
Definition k_cmp (i j : kiter) : outcome comparison :=
  let! _ := verify i j in
  if k_owner i =? k_owner j then
    match Nat.compare (k_frag i) (k_frag j) with
    | Eq => if same_text (k_text i) (k_text j) then Ok (k_off i ?= k_off j) else UB
    | c => Ok c
    end
  else UB.
(** wite/string/fragment_string.hpp:154-167: operator-(const iterator&); subtracting pointers into different arrays or texts is
    undefined *)
Definition k_diff (vs : views) (i j : kiter) : outcome Z :=
  let! _ := verify i j in
  if (k_owner i =? k_owner j) &&
     (if Nat.eqb (k_frag i) (k_frag j) then same_text (k_text i) (k_text j) else consistent vs i && consistent vs j)
  then Ok (it_diff (frags_of vs) (It (k_frag i) (k_off i)) (It (k_frag j) (k_off j))) else UB.

(** Model only, no counterpart in the code: one operation. *)
Definition kstep (o : kop) (s : kstore) : outcome (kobs * kstore) :=
  let set_it k i := Ok (KDone, mk_kstore (ks_str s) (put (ks_it s) k i)) in
  match o with
  | KMake v vs => Ok (KDone, mk_kstore (put (ks_str s) v (Some vs)) (ks_it s))
  | KCopy v w => match ks_str s w with
                 | Some vs => Ok (KDone, mk_kstore (put (ks_str s) v (Some vs)) (ks_it s))
                 | None => UB
                 end
  | KDie v => Ok (KDone, mk_kstore (put (ks_str s) v None) (ks_it s))
  | KBegin k v => match ks_str s v with
                  | Some vs => set_it k (Some (kept v vs (begin_of (frags_of vs))))
                  | None => UB
                  end
  | KEnd k v => match ks_str s v with
                | Some vs => set_it k (Some (kept v vs (end_of (frags_of vs))))
                | None => UB
                end
  | KDup k l => match ks_it s k with Some i => set_it l (Some i) | None => UB end
  | KInc k => move_to s k k (it_inc b)
  | KDec k => move_to s k k (it_dec b)
  | KPlus k l n => move_to s k l (fun fs it => seek b fs it n)
  | KMinus k l n => move_to s k l (fun fs it => seek_minus b fs it n)
  | KJump k n => move_to s k k (fun fs it => seek b fs it n)
  | KBack k n => move_to s k k (fun fs it => seek_minus b fs it n)
  | KRead k => k_read s k
  | KEq k l => two s k l (fun _ i j => let! x := k_eq i j in Ok (KBool x))
  | KCmp k l => two s k l (fun _ i j => let! x := k_cmp i j in Ok (KOrder x))
  | KDiff k l => two s k l (fun vs i j => let! x := k_diff vs i j in Ok (KDist x))
  end.
(** Model only, no counterpart in the code: a program, which ends at the first operation that does not return. *)
Fixpoint krun (ops : list kop) (s : kstore) : list (outcome kobs) * kstore :=
  match ops with
  | [] => ([], s)
  | o :: ops' =>
      match kstep o s with
      | Ok (x, s1) => let '(xs, s2) := krun ops' s1 in (Ok x :: xs, s2)
      | Throw e => ([Throw e], s) | UB => ([UB], s) | Terminate => ([Terminate], s) | Diverge => ([Diverge], s)
      end
  end.
(** Model only, no counterpart in the code: no strings and no iterators. *)
Definition kstart : kstore := mk_kstore (fun _ => None) (fun _ => None).
End FragKeep.
