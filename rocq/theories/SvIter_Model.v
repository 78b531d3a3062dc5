(** Model of iterators of static_vectors that are kept while the vectors change: programs
    over any number of vectors and iterators. *)
From Coq Require Import List. Import ListNotations.
From Verif Require Import Base Iter_Model Sv_Model.

(** Model only, no counterpart in the code: operations of such programs. *)
Inductive iop (V : Type) :=
| IVec (o : sop V)                        (* an operation on the vectors *)
| IBegin (k i : N) | IEnd (k i : N)       (* it_k = v_i.begin(), v_i.end() *)
| IInc (k : N) | IDec (k : N)             (* ++it_k, --it_k *)
| IPostInc (k l : N) | IPostDec (k l : N) (* it_l = it_k++, it_l = it_k-- *)
| IJump (k : N) (off : Z) | IJumpBack (k : N) (off : Z)     (* it_k += off, it_k -= off *)
| IPlus (k l : N) (off : Z) | IMinus (k l : N) (off : Z)    (* it_l = it_k + off, it_l = it_k - off *)
| IRead (k : N) | IWrite (k : N) (x : V)  (* *it_k, *it_k = x *)
| IReadAt (k : N) (off : Z)               (* it_k[off] *)
| IDist (k l : N) | IComp (k l : N) | ISame (k l : N).      (* it_k - it_l, it_k <=> it_l, it_k == it_l *)
Arguments IVec {V}. Arguments IBegin {V}. Arguments IEnd {V}. Arguments IInc {V}. Arguments IDec {V}.
Arguments IPostInc {V}. Arguments IPostDec {V}. Arguments IJump {V}. Arguments IJumpBack {V}. Arguments IPlus {V}.
Arguments IMinus {V}. Arguments IRead {V}. Arguments IWrite {V}. Arguments IReadAt {V}. Arguments IDist {V}.
Arguments IComp {V}. Arguments ISame {V}.

(** Model only, no counterpart in the code: what an operation shows its caller. *)
Inductive iobs (V : Type) :=
| OVec (o : sobs V) | OMove (r : outcome unit) | OElem (r : outcome V) | ODist (r : outcome Z)
| OComp (r : outcome comparison) | OSame (r : outcome bool).
Arguments OVec {V}. Arguments OMove {V}. Arguments OElem {V}. Arguments ODist {V}. Arguments OComp {V}. Arguments OSame {V}.

Section Held.
Context {V : Type}.
Variables (b : build) (cap : N) (moved : V -> V) (veq : V -> V -> bool).
(** Model only, no counterpart in the code: the vectors and the iterators made so far. *)
Definition held := ((N -> svec V) * (N -> option diter))%type.

(** wite/collections/static_vector.hpp:88-91 begin() of vector [i] *)
Definition sv_begin (p : N -> svec V) (i : N) : diter := di_begin_of i (sv_count (p i)).
(** wite/collections/static_vector.hpp:96-99 end() of vector [i] *)
Definition sv_end (p : N -> svec V) (i : N) : diter := di_end_of i (sv_count (p i)).
(** Model only, no counterpart in the code: the array an iterator points into. *)
Definition pointee (p : N -> svec V) (it : diter) : list (option V) := sv_raw (p (di_parent it)).

(** Model only, no counterpart in the code: iterator [l] becomes [f] of iterator [k], which
    is undefined if there is none. *)
Definition move_it (s : held) (k l : N) (f : list (option V) -> diter -> outcome diter) : outcome unit * held :=
  match snd s k with
  | None => (UB, s)
  | Some it =>
      match f (pointee (fst s) it) it with
      | Ok it' => (Ok tt, (fst s, upd (snd s) l (Some it')))
      | Throw e => (Throw e, s) | UB => (UB, s) | Terminate => (Terminate, s) | Diverge => (Diverge, s)
      end
  end.
(** wite/collections/dereferencing_iterator.hpp:67-71, 80-84, 201-205, 212-216: the postfix
    operators copy the iterator, move the original and return the copy *)
Definition post_it (s : held) (k l : N) (f : list (option V) -> diter -> outcome diter) : outcome unit * held :=
  match snd s k with
  | None => (UB, s)
  | Some out =>
      match move_it s k k f with
      | (Ok _, s') => (Ok tt, (fst s', upd (snd s') l (Some out)))
      | r => r
      end
  end.
(** wite/collections/dereferencing_iterator.hpp:193 assignment to [*it] *)
Definition write_it (p : N -> svec V) (it : diter) (x : V) : outcome unit * (N -> svec V) :=
  if (di_ptr it <? 0)%Z then (UB, p)
  else let '(r, v) := sv_index_write (p (di_parent it)) (Z.to_N (di_ptr it)) x in (r, upd p (di_parent it) v).

(** Model only, no counterpart in the code: a result computed from one or two iterators. *)
Definition use1 {A} (s : held) (k : N) (f : diter -> outcome A) : outcome A :=
  match snd s k with Some it => f it | None => UB end.
(** Model only, no counterpart in the code: a result computed from two iterators. *)
Definition use2 {A} (s : held) (k l : N) (f : diter -> diter -> outcome A) : outcome A :=
  match snd s k, snd s l with Some a, Some c => f a c | _, _ => UB end.

(** Model only, no counterpart in the code: one operation. *)
Definition iv_step (o : iop V) (s : held) : iobs V * held :=
  let mv r := (OMove (fst r), snd r) in
  match o with
  | IVec o => let '(x, p) := sv_step b cap moved veq o (fst s) in (OVec x, (p, snd s))
  | IBegin k i => (OMove (Ok tt), (fst s, upd (snd s) k (Some (sv_begin (fst s) i))))
  | IEnd k i => (OMove (Ok tt), (fst s, upd (snd s) k (Some (sv_end (fst s) i))))
  | IInc k => mv (move_it s k k (di_inc b))
  | IDec k => mv (move_it s k k (di_dec b))
  | IPostInc k l => mv (post_it s k l (di_inc b))
  | IPostDec k l => mv (post_it s k l (di_dec b))
  | IJump k off => mv (move_it s k k (fun arr it => di_add_assign b arr it off))
  | IJumpBack k off => mv (move_it s k k (fun arr it => di_sub_assign b arr it off))
  | IPlus k l off => mv (move_it s k l (fun arr it => di_add b arr it off))
  | IMinus k l off => mv (move_it s k l (fun arr it => di_sub b arr it off))
  | IRead k => (OElem (use1 s k (fun it => di_deref (pointee (fst s) it) it)), s)
  | IWrite k x =>
      match snd s k with
      | None => (OMove UB, s)
      | Some it => let '(r, p) := write_it (fst s) it x in (OMove r, (p, snd s))
      end
  | IReadAt k off => (OElem (use1 s k (fun it => di_index b (pointee (fst s) it) it off)), s)
  | IDist k l => (ODist (use2 s k l (di_diff b)), s)
  | IComp k l => (OComp (use2 s k l (di_cmp b)), s)
  | ISame k l => (OSame (use2 s k l (fun x y => Ok (di_eq x y))), s)
  end.
(** Model only, no counterpart in the code: a program. *)
Fixpoint iv_run (ops : list (iop V)) (s : held) : list (iobs V) * held :=
  match ops with
  | [] => ([], s)
  | o :: ops' => let '(x, s1) := iv_step o s in let '(xs, s2) := iv_run ops' s1 in (x :: xs, s2)
  end.
(** Model only, no counterpart in the code: the start of a program. *)
Definition iv_start : held := (sv_start cap, fun _ => None).
End Held.
