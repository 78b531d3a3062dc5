(** Algorithms over the iterators of a static_vector. *)
From Coq Require Import List ZArith. Import ListNotations.
From Verif Require Import Base Iter_Model Sv_Model SvIter_Model.

Section Algo.
Context {V : Type}.
(** An algorithm: what it does next may depend on all it has seen.  Its iterators are numbered; 0 is begin(), all others are end(). *)
Inductive algo :=
| Done
| Copy (x y : nat) (next : algo)                (* x = y *)
| Step (x : nat) (next : algo)                  (* ++x *)
| Back (x : nat) (next : algo)                  (* --x *)
| Jump (x : nat) (off : Z) (next : algo)        (* x += off *)
| Same (x y : nat) (next : bool -> algo)        (* x == y *)
| Order (x y : nat) (next : comparison -> algo) (* x <=> y *)
| Dist (x y : nat) (next : Z -> algo)           (* x - y *)
| Get (x : nat) (next : V -> algo)              (* *x *)
| Put (x : nat) (v : V) (next : algo).          (* *x = v *)
Definition set {A} (r : nat -> A) (x : nat) (a : A) : nat -> A := fun y => if Nat.eqb y x then a else r y.

(** On the vectors [p] of a program. *)
Fixpoint on_iterators (b : build) (a : algo) (r : nat -> diter) (p : N -> svec V) : outcome (N -> svec V) :=
  match a with
  | Done => Ok p
  | Copy x y next => on_iterators b next (set r x (r y)) p
  | Step x next => let! i := di_inc b (pointee p (r x)) (r x) in on_iterators b next (set r x i) p
  | Back x next => let! i := di_dec b (pointee p (r x)) (r x) in on_iterators b next (set r x i) p
  | Jump x off next => let! i := di_add_assign b (pointee p (r x)) (r x) off in on_iterators b next (set r x i) p
  | Same x y next => on_iterators b (next (di_eq (r x) (r y))) r p
  | Order x y next => let! c := di_cmp b (r x) (r y) in on_iterators b (next c) r p
  | Dist x y next => let! d := di_diff b (r x) (r y) in on_iterators b (next d) r p
  | Get x next => let! v := di_deref (pointee p (r x)) (r x) in on_iterators b (next v) r p
  | Put x v next => match write_it p (r x) v with
                    | (Ok _, p') => on_iterators b next r p'
                    | (Throw e, _) => Throw e | (UB, _) => UB | (Terminate, _) => Terminate | (Diverge, _) => Diverge
                    end
  end.
(** On vector number [i]. *)
Definition on_vector (b : build) (a : algo) (i : N) (p : N -> svec V) : outcome (N -> svec V) :=
  on_iterators b a (fun x => match x with O => sv_begin p i | _ => sv_end p i end) p.

(** The same on a list and positions in it; [None] if the algorithm leaves the list or reads at its end.  [to_end]: += may go to the end. *)
Fixpoint put_nth (l : list V) (k : nat) (v : V) : list V :=
  match l, k with [], _ => [] | _ :: q, O => v :: q | x :: q, S k' => x :: put_nth q k' v end.
Fixpoint on_list (to_end : bool) (a : algo) (r : nat -> Z) (l : list V) : option (list V) :=
  let n := Z.of_nat (length l) in
  match a with
  | Done => Some l
  | Copy x y next => on_list to_end next (set r x (r y)) l
  | Step x next => if (r x <? n)%Z then on_list to_end next (set r x (r x + 1)%Z) l else None
  | Back x next => if (0 <? r x)%Z then on_list to_end next (set r x (r x - 1)%Z) l else None
  | Jump x off next => let q := (r x + off)%Z in
                       if (0 <=? q)%Z && ((q <? n)%Z || to_end && (q =? n)%Z) then on_list to_end next (set r x q) l else None
  | Same x y next => on_list to_end (next (r x =? r y)%Z) r l
  | Order x y next => on_list to_end (next (r x ?= r y)%Z) r l
  | Dist x y next => on_list to_end (next (r x - r y)%Z) r l
  | Get x next => match nth_error l (Z.to_nat (r x)) with Some v => on_list to_end (next v) r l | None => None end
  | Put x v next => match nth_error l (Z.to_nat (r x)) with Some _ => on_list to_end next r (put_nth l (Z.to_nat (r x)) v) | None => None end
  end.
Definition on_values (to_end : bool) (a : algo) (l : list V) : option (list V) :=
  on_list to_end a (fun x => match x with O => 0%Z | _ => Z.of_nat (length l) end) l.

(** The first thing the algorithm does wrong is to move an iterator out of the range (for += also: to the end). *)
Fixpoint moves_out (a : algo) (r : nat -> Z) (l : list V) : bool :=
  let n := Z.of_nat (length l) in
  match a with
  | Done => false
  | Copy x y next => moves_out next (set r x (r y)) l
  | Step x next => if (r x <? n)%Z then moves_out next (set r x (r x + 1)%Z) l else true
  | Back x next => if (0 <? r x)%Z then moves_out next (set r x (r x - 1)%Z) l else true
  | Jump x off next => let q := (r x + off)%Z in if (0 <=? q)%Z && (q <? n)%Z then moves_out next (set r x q) l else true
  | Same x y next => moves_out (next (r x =? r y)%Z) r l
  | Order x y next => moves_out (next (r x ?= r y)%Z) r l
  | Dist x y next => moves_out (next (r x - r y)%Z) r l
  | Get x next => match nth_error l (Z.to_nat (r x)) with Some v => moves_out (next v) r l | None => false end
  | Put x v next => match nth_error l (Z.to_nat (r x)) with Some _ => moves_out next r (put_nth l (Z.to_nat (r x)) v) | None => false end
  end.
Definition leaves (a : algo) (l : list V) : bool := moves_out a (fun x => match x with O => 0%Z | _ => Z.of_nat (length l) end) l.

(** size() and operator[] of the vector give the list. *)
Definition holds (v : svec V) (l : list V) : Prop :=
  sv_size v = lenN l /\ forall k x, nth_error l k = Some x -> sv_index v (N.of_nat k) = Ok x.

(** std::reverse: while (first != last && first != --last) std::iter_swap(first++, last);  (in at most [rounds] rounds) *)
Fixpoint reverse (rounds : nat) : algo :=
  match rounds with
  | O => Done
  | S k => Same 0 1 (fun e => if e then Done else
             Back 1 (Same 0 1 (fun e => if e then Done else
               Get 0 (fun x => Get 1 (fun y => Put 0 y (Put 1 x (Step 0 (reverse k))))))))
  end.
(** std::swap_ranges / std::rotate by one: for (; ; ++first) { next = first; ++next; if (next == last) break; iter_swap(first, next); } *)
Fixpoint rotate_one (rounds : nat) : algo :=
  match rounds with
  | O => Done
  | S k => Copy 2 0 (Step 2 (Same 2 1 (fun e => if e then Done else
             Get 0 (fun x => Get 2 (fun y => Put 0 y (Put 2 x (Step 0 (rotate_one k))))))))
  end.
End Algo.
Arguments algo : clear implicits.
