(** Model of iterators of an identifiable_item_collection that are kept while the collection
    changes.  They are pointers into its vector of pointers (identifiable_item_collection.hpp:63-77).
    operator[] is left out: it calls value() on a raw pointer and does not compile here. *)
From Coq Require Import List. Import ListNotations.
From Verif Require Import Base Iter_Model Ident_Model.
Local Open Scope N_scope.

(** Model only, no counterpart in the code: operations of such programs. *)
Inductive kop :=
| KCall (o : iop) (moved : bool)      (* a member; [moved]: if the vector grows, it moves to other memory *)
| KBegin (k : N) | KEnd (k : N)       (* it_k = begin(), end() *)
| KInc (k : N) | KDec (k : N)         (* ++it_k, --it_k *)
| KPlus (k l : N) (off : Z)           (* it_l = it_k + off *)
| KRead (k : N)                       (* *it_k *)
| KDist (k l : N) | KComp (k l : N) | KSame (k l : N).      (* it_k - it_l, it_k <=> it_l, it_k == it_l *)

(** Model only, no counterpart in the code: what an operation shows its caller. *)
Inductive kobs :=
| KCalled (x : iobs) | KMoved (r : outcome unit) | KItem (r : outcome item) | KGap (r : outcome Z)
| KOrder (r : outcome comparison) | KBool (r : outcome bool).

(** Model only, no counterpart in the code: the collection and the iterators that may be used. *)
Record kept := mk_kept { kp_coll : coll; kp_its : N -> option diter }.

(** Model only, no counterpart in the code: how far two vectors agree from the start. *)
Fixpoint same_start (x y : list N) : N :=
  match x, y with
  | a :: x', c :: y' => if a =? c then 1 + same_start x' y' else 0
  | _, _ => 0
  end.

(** C++ language (Standard), std::vector: push_back invalidates end() and, if it needs more
    memory, every iterator; erase invalidates from the first erased element on.
    Simplified: the pointers the iterators hold follow these rules for std::vector's own iterators.
    Simplified: an iterator of an empty vector survives clear(). *)
Definition stays (before after : list N) (moved : bool) (p : Z) : bool :=
  if lenN before <? lenN after then negb moved && (p <? Z.of_N (lenN before))%Z
  else if lenN after <? lenN before then (p <? Z.of_N (same_start before after))%Z
  else true.

Section Kept.
Variable b : build.

(** Model only, no counterpart in the code: using an iterator that was invalidated, or never
    made, is undefined. *)
Definition k_use {A} (s : kept) (k : N) (f : diter -> outcome A) : outcome A :=
  match kp_its s k with Some it => f it | None => UB end.
(** Model only, no counterpart in the code: two iterators. *)
Definition k_use2 {A} (s : kept) (k l : N) (f : diter -> diter -> outcome A) : outcome A :=
  k_use s k (fun i => k_use s l (f i)).
(** Model only, no counterpart in the code: one iterator assigned. *)
Definition k_set (s : kept) (k : N) (it : diter) : kept :=
  mk_kept (kp_coll s) (fun m => if m =? k then Some it else kp_its s m).
(** Model only, no counterpart in the code: iterator [l] becomes the result, if there is one. *)
Definition k_move (s : kept) (l : N) (r : outcome diter) : kobs * kept :=
  match r with
  | Ok it => (KMoved (Ok tt), k_set s l it)
  | Throw e => (KMoved (Throw e), s) | UB => (KMoved UB, s) | Terminate => (KMoved Terminate, s) | Diverge => (KMoved Diverge, s)
  end.
(** wite/collections/identifiable_item_collection.hpp:63-71 begin(), end() *)
Definition k_begin (c : coll) : diter := di_begin_of 0 (lenN (c_order c)).
(** wite/collections/identifiable_item_collection.hpp:67-71 end() *)
Definition k_end (c : coll) : diter := di_end_of 0 (lenN (c_order c)).

(** Model only, no counterpart in the code: one operation. *)
Definition k_step (o : kop) (s : kept) : kobs * kept :=
  let arr := ic_raw (kp_coll s) in
  match o with
  | KCall o moved =>
      let '(x, c) := ic_step b o (kp_coll s) in
      (KCalled x,
       mk_kept c (fun k => match kp_its s k with
                           | Some it => if stays (c_order (kp_coll s)) (c_order c) moved (di_ptr it) then Some it else None
                           | None => None
                           end))
  | KBegin k => (KMoved (Ok tt), k_set s k (k_begin (kp_coll s)))
  | KEnd k => (KMoved (Ok tt), k_set s k (k_end (kp_coll s)))
  | KInc k => k_move s k (k_use s k (di_inc b arr))
  | KDec k => k_move s k (k_use s k (di_dec b arr))
  | KPlus k l off => k_move s l (k_use s k (fun it => di_add b arr it off))
  | KRead k => (KItem (k_use s k (di_deref arr)), s)
  | KDist k l => (KGap (k_use2 s k l (di_diff b)), s)
  | KComp k l => (KOrder (k_use2 s k l (di_cmp b)), s)
  | KSame k l => (KBool (k_use2 s k l (fun x y => Ok (di_eq x y))), s)
  end.
(** Model only, no counterpart in the code: a program. *)
Fixpoint k_run (ops : list kop) (s : kept) : list kobs * kept :=
  match ops with
  | [] => ([], s)
  | o :: ops' => let '(x, s1) := k_step o s in let '(xs, s2) := k_run ops' s1 in (x :: xs, s2)
  end.
(** wite/collections/identifiable_item_collection.hpp:59 at the start the collection is default constructed *)
Definition k_start : kept := mk_kept ic_empty_coll (fun _ => None).
End Kept.
