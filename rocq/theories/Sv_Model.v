(** Model of collections/static_vector.hpp: an array of CAPACITY std::optional<T>
    and an item count.

    Each slot of the array carries, besides its optional, the list of element
    lifetimes that happened in that storage ([ev_ctor] when an element is
    constructed there, [ev_dtor] when it is destroyed), newest first.  This history
    is not part of the program; it records what std::optional does.

    Copying an element may throw: operations that copy take an argument [fail]
    saying which of their copies throws, if any.  Moving an element is assumed not
    to throw.  [moved v] is what a moved-from element looks like. *)
From Verif Require Import Base Iter_Model.

(** Model only, no counterpart in the code: what happens to an element's lifetime. *)
Inductive ev := ev_ctor | ev_dtor.

Section SV.
Context {V : Type}.

(** std::optional<V>, with the history of its element. *)
Record slot := mk_slot { sl_val : option V; sl_hist : list ev }.

(** std::optional move assignment from an engaged optional: assigns to the element
    if there is one, constructs one otherwise. *)
Definition slot_put (v : V) (s : slot) : slot :=
  match sl_val s with
  | Some _ => mk_slot (Some v) (sl_hist s)
  | None => mk_slot (Some v) (ev_ctor :: sl_hist s)
  end.
(** std::optional::reset *)
Definition slot_reset (s : slot) : slot :=
  match sl_val s with
  | Some _ => mk_slot None (ev_dtor :: sl_hist s)
  | None => s
  end.
(** std::optional assignment from an optional *)
Definition slot_assign (o : option V) (s : slot) : slot :=
  match o with Some v => slot_put v s | None => slot_reset s end.
(** C++ language (Standard). Assignment through a reference to the element *)
Definition slot_write (v : V) (s : slot) : slot :=
  match sl_val s with Some _ => mk_slot (Some v) (sl_hist s) | None => s end.

(** static_vector.hpp:195-196: the data members. *)
Record svec := mk_svec { sv_slots : list slot; sv_count : N }.

(** wite/collections/static_vector.hpp:113 capacity() *)
Definition sv_capacity (v : svec) : N := lenN (sv_slots v).
(** wite/collections/static_vector.hpp:112 size(), 114 empty() *)
Definition sv_size (v : svec) : N := sv_count v.
(** wite/collections/static_vector.hpp:114 empty(). *)
Definition sv_empty (v : svec) : bool := sv_count v =? 0.

(** wite/collections/static_vector.hpp:66 default constructor (with the member initialisers at 195-196) *)
Definition sv_default (cap : N) : svec := mk_svec (repeat (mk_slot None []) (N.to_nat cap)) 0.

(** wite/collections/static_vector.hpp:68 static_vector(uint8_t size): sets the count and nothing else; the argument is
    converted to uint8_t. *)
Definition sv_of_size (cap n : N) : svec := mk_svec (sv_slots (sv_default cap)) (n mod 256).

(** wite/collections/static_vector.hpp:71-78 static_vector(initializer_list): std::transform into the leading slots. *)
Fixpoint put_each (l : list V) (s : list slot) : list slot :=
  match l, s with
  | x :: l', y :: s' => slot_put x y :: put_each l' s'
  | _, _ => s
  end.
(** wite/collections/static_vector.hpp:71-78.  If copy number [k] throws, the slots filled so far are destroyed and
    there is no vector. *)
Definition sv_of_list (cap : N) (l : list V) (fail : option N) : outcome svec :=
  if cap <? lenN l then Throw invalid_argument
  else if match fail with Some k => k <? lenN l | None => false end then Throw user_exn
  else Ok (mk_svec (put_each l (sv_slots (sv_default cap))) (lenN l)).

(** wite/collections/static_vector.hpp:115-116 operator[]: [*_data[pos]]; undefined outside the array and on a
    disengaged optional. *)
Definition sv_index (v : svec) (pos : N) : outcome V :=
  match nth_error (sv_slots v) (N.to_nat pos) with
  | Some s => match sl_val s with Some x => Ok x | None => UB end
  | None => UB
  end.

(** wite/collections/static_vector.hpp:133-139 at() (129-131 is the same for a mutable vector) *)
Definition sv_at (v : svec) (pos : N) : outcome V :=
  if sv_count v <=? pos then Throw out_of_range else sv_index v pos.

(** wite/collections/static_vector.hpp:119-122 front(), back(): [at(0)] and [at(size() - 1)]; size() - 1 wraps. *)
Definition sv_front (v : svec) : outcome V := sv_at v 0.
(** wite/collections/static_vector.hpp:121-122 back(). *)
Definition sv_back (v : svec) : outcome V := sv_at v (sz_sub (sv_size v) 1).

(** Model only, no counterpart in the code. The slots at [start, start + n) changed by [f]. *)
Definition upd_slots (f : slot -> slot) (start n : N) (l : list slot) : list slot :=
  takeN start l ++ map f (takeN n (dropN start l)) ++ dropN (start + n) l.

(** wite/collections/static_vector.hpp:115. [v[pos] = x] and [v.at(pos) = x]: assignment through the returned reference. *)
Definition sv_index_write (v : svec) (pos : N) (x : V) : outcome unit * svec :=
  match sv_index v pos with
  | Ok _ => (Ok tt, mk_svec (upd_slots (slot_write x) pos 1 (sv_slots v)) (sv_count v))
  | Throw e => (Throw e, v) | UB => (UB, v) | Terminate => (Terminate, v) | Diverge => (Diverge, v)
  end.
(** wite/collections/static_vector.hpp:129-131. *)
Definition sv_at_write (v : svec) (pos : N) (x : V) : outcome unit * svec :=
  if sv_count v <=? pos then (Throw out_of_range, v) else sv_index_write v pos x.

(** wite/collections/static_vector.hpp:176-178 _alloc: std::generate_n puts copies of the argument into the [n] slots from
    the count on; if copy number [k] throws, the slots before it have been filled. *)
Definition sv_alloc (v : svec) (n : N) (x : V) (fail : option N) : outcome unit * svec :=
  if sv_capacity v <? sv_count v + n then (UB, v)
  else match fail with
       | Some k => if k <? n
                   then (Throw user_exn, mk_svec (upd_slots (slot_put x) (sv_count v) k (sv_slots v)) (sv_count v))
                   else (Ok tt, mk_svec (upd_slots (slot_put x) (sv_count v) n (sv_slots v)) (sv_count v))
       | None => (Ok tt, mk_svec (upd_slots (slot_put x) (sv_count v) n (sv_slots v)) (sv_count v))
       end.

(** wite/collections/static_vector.hpp:180-183 _destroy_last_n: resets the [n] slots before the count. *)
Definition sv_destroy_last (v : svec) (n : N) : outcome svec :=
  if sv_capacity v <? sv_count v then UB
  else Ok (mk_svec (upd_slots slot_reset (sv_count v - n) n (sv_slots v)) (sv_count v)).

(** wite/collections/static_vector.hpp:185-193: the assignment to _item_count. *)
Definition set_count (v : svec) (n : N) : svec := mk_svec (sv_slots v) n.

(** wite/collections/static_vector.hpp:185-193 _unsafe_resize *)
Definition sv_unsafe_resize (v : svec) (n : N) (x : V) (fail : option N) : outcome unit * svec :=
  if sv_size v <? n then
    match sv_alloc v (n - sv_size v) x fail with
    | (Ok _, v') => (Ok tt, set_count v' n)
    | r => r
    end
  else if n <? sv_size v then
    match sv_destroy_last v (sv_size v - n) with
    | Ok v' => (Ok tt, set_count v' n)
    | _ => (UB, v)
    end
  else (Ok tt, set_count v n).

(** wite/collections/static_vector.hpp:141-155 resize (the overload without a value passes value_type{}) *)
Definition sv_resize (v : svec) (n : N) (x : V) (fail : option N) : outcome unit * svec :=
  if sv_capacity v <? n then (Throw length_error, v) else sv_unsafe_resize v n x fail.

(** wite/collections/static_vector.hpp:157-159 push_back: [resize(size() + 1, x)].  Building resize's parameter copies (157)
    or moves (159) [x]: copy number 0 here; the copy into the slot is the next. *)
Definition sv_push_back (v : svec) (x : V) (fail : option N) : outcome unit * svec :=
  match fail with
  | Some 0 => (Throw user_exn, v)
  | Some k => sv_resize v (sz_add (sv_size v) 1) x (Some (k - 1))
  | None => sv_resize v (sz_add (sv_size v) 1) x None
  end.

(** wite/collections/static_vector.hpp:163 clear(): sets the count and nothing else. *)
Definition sv_clear (v : svec) : svec := set_count v 0.

(** wite/collections/static_vector.hpp:81-86 swap(): swaps the arrays slot by slot and the counts. *)
Fixpoint swap_slots (a b : list slot) : list slot * list slot :=
  match a, b with
  | x :: a', y :: b' =>
      let '(p, q) := swap_slots a' b' in
      (slot_assign (sl_val y) x :: p, slot_assign (sl_val x) y :: q)
  | _, _ => (a, b)
  end.
(** wite/collections/static_vector.hpp:81-86 swap(). *)
Definition sv_swap (a b : svec) : svec * svec :=
  let '(p, q) := swap_slots (sv_slots a) (sv_slots b) in
  (mk_svec p (sv_count b), mk_svec q (sv_count a)).

(** wite/collections/static_vector.hpp:66 copy assignment (defaulted): std::array assigns slot by slot, then the count.
    [fail] counts the elements copied; if one throws, the slots before it have been
    assigned and the count has not. *)
Fixpoint copy_slots (dst src : list slot) (fail : option N) : bool * list slot :=
  match dst, src with
  | d :: dst', s :: src' =>
      match sl_val s, fail with
      | Some _, Some 0 => (false, dst)
      | Some v, Some k => let '(ok, r) := copy_slots dst' src' (Some (k - 1)) in (ok, slot_put v d :: r)
      | o, _ => let '(ok, r) := copy_slots dst' src' fail in (ok, slot_assign o d :: r)
      end
  | _, _ => (true, dst)
  end.
(** wite/collections/static_vector.hpp:66 copy assignment. *)
Definition sv_copy_assign (dst src : svec) (fail : option N) : outcome unit * svec :=
  let '(ok, r) := copy_slots (sv_slots dst) (sv_slots src) fail in
  if ok then (Ok tt, mk_svec r (sv_count src)) else (Throw user_exn, mk_svec r (sv_count dst)).

(** wite/collections/static_vector.hpp:66 move assignment (defaulted): every slot is move-assigned; the source keeps its
    moved-from elements and its count. *)
Variable moved : V -> V.
(** wite/collections/static_vector.hpp:66 move assignment, the slots. *)
Fixpoint move_slots (dst src : list slot) : list slot * list slot :=
  match dst, src with
  | d :: dst', s :: src' =>
      let '(p, q) := move_slots dst' src' in
      (slot_assign (sl_val s) d :: p,
       match sl_val s with Some v => slot_write (moved v) s | None => s end :: q)
  | _, _ => (dst, src)
  end.
(** wite/collections/static_vector.hpp:66 move assignment. *)
Definition sv_move_assign (dst src : svec) : svec * svec :=
  let '(p, q) := move_slots (sv_slots dst) (sv_slots src) in
  (mk_svec p (sv_count src), mk_svec q (sv_count src)).
(** wite/collections/static_vector.hpp:66 move assignment from itself: every element is move-assigned from itself, which leaves it
    moved-from. *)
Definition sv_self_move (v : svec) : svec := snd (sv_move_assign v v).

(** The destructor: std::array destroys its optionals. *)
Definition sv_destroy (v : svec) : svec := mk_svec (map slot_reset (sv_slots v)) (sv_count v).

(** wite/collections/static_vector.hpp:88-107. Iteration with begin() and end() (88-103), and backwards with rbegin() and rend()
    (104-107). *)
Definition sv_raw (v : svec) : list (option V) := map sl_val (sv_slots v).
(** wite/collections/static_vector.hpp:88-103. *)
Definition sv_iterate (b : build) (v : svec) : outcome (list V) :=
  di_walk b (sv_raw v) (N.to_nat (sv_count v)) (di_begin_of 0 (sv_count v)) (di_end_of 0 (sv_count v)).
(** wite/collections/static_vector.hpp:104-107. *)
Definition sv_riterate (b : build) (v : svec) : outcome (list V) :=
  di_rwalk b (sv_raw v) (N.to_nat (sv_count v)) (di_end_of 0 (sv_count v)) (di_begin_of 0 (sv_count v)).

(** wite/collections/static_vector.hpp:165-171 operator==: equal counts and std::equal over the elements, which stops at
    the first difference.  noexcept. *)
Variable veq : V -> V -> bool.
(** wite/collections/static_vector.hpp:165-171, std::equal. *)
Fixpoint equal_walk (b : build) (ra rb : list (option V)) (fuel : nat) (i last j : diter) : outcome bool :=
  if di_eq i last then Ok true
  else match fuel with
       | O => Diverge
       | S fuel' =>
           let! x := di_deref ra i in
           let! y := di_deref rb j in
           if veq x y then
             let! i' := di_inc b ra i in
             let! j' := di_inc b rb j in
             equal_walk b ra rb fuel' i' last j'
           else Ok false
       end.
(** wite/collections/static_vector.hpp:165-171 operator==. *)
Definition sv_eq (b : build) (x y : svec) : outcome bool :=
  noexcept (if negb (sv_count x =? sv_count y) then Ok false
            else equal_walk b (sv_raw x) (sv_raw y) (N.to_nat (sv_count x))
                   (di_begin_of 0 (sv_count x)) (di_end_of 0 (sv_count x)) (di_begin_of 1 (sv_count y))).
End SV.
Arguments slot V : clear implicits.
Arguments svec V : clear implicits.

(** Model only, no counterpart in the code. Programs: finite sequences of operations on any number of static_vector<V, cap>
    objects named by numbers, all default-constructed at the start. *)
Inductive sop (V : Type) :=
| SPush (i : N) (x : V) (fail : option N)             (* v_i.push_back(x) *)
| SResize (i n : N) (x : V) (fail : option N)         (* v_i.resize(n, x) *)
| SClear (i : N)                                      (* v_i.clear() *)
| SSwap (i j : N)                                     (* v_i.swap(v_j) *)
| SWriteAt (i pos : N) (x : V)                        (* v_i.at(pos) = x *)
| SWriteIdx (i pos : N) (x : V)                       (* v_i[pos] = x *)
| SInit (i : N) (l : list V) (fail : option N)        (* v_i = static_vector{l...} *)
| SCopy (i j : N) (fail : option N)                   (* v_i = v_j *)
| SMove (i j : N)                                     (* v_i = std::move(v_j) *)
| SSize (i : N) | SEmpty (i : N)
| SAt (i pos : N) | SIdx (i pos : N) | SFront (i : N) | SBack (i : N)
| SIter (i : N) | SRiter (i : N)                      (* the elements, forwards and backwards *)
| SEq (i j : N).                                      (* v_i == v_j *)
Arguments SPush {V}. Arguments SResize {V}. Arguments SClear {V}. Arguments SSwap {V}.
Arguments SWriteAt {V}. Arguments SWriteIdx {V}. Arguments SInit {V}. Arguments SCopy {V}.
Arguments SMove {V}. Arguments SSize {V}. Arguments SEmpty {V}. Arguments SAt {V}.
Arguments SIdx {V}. Arguments SFront {V}. Arguments SBack {V}. Arguments SIter {V}.
Arguments SRiter {V}. Arguments SEq {V}.

(** Model only, no counterpart in the code. What an operation shows its caller. *)
Inductive sobs (V : Type) :=
| ODone (r : outcome unit) | ONum (n : N) | OBool (r : outcome bool) | OVal (r : outcome V) | OList (r : outcome (list V)).
Arguments ODone {V}. Arguments ONum {V}. Arguments OBool {V}. Arguments OVal {V}. Arguments OList {V}.

(** Model only, no counterpart in the code: one vector replaced. *)
Definition upd {A} (f : N -> A) (i : N) (x : A) : N -> A := fun k => if k =? i then x else f k.

Section Run.
Context {V : Type}.
Variables (b : build) (cap : N) (moved : V -> V) (veq : V -> V -> bool).

(** Model only, no counterpart in the code: an operation on one vector. *)
Definition on1 (p : N -> svec V) (i : N) (r : outcome unit * svec V) : sobs V * (N -> svec V) :=
  (ODone (fst r), upd p i (snd r)).
(** Model only, no counterpart in the code: an operation on two vectors. *)
Definition on2 (p : N -> svec V) (i j : N) (r : svec V * svec V) : sobs V * (N -> svec V) :=
  (ODone (Ok tt), upd (upd p j (snd r)) i (fst r)).

(** Model only, no counterpart in the code: one operation. *)
Definition sv_step (o : sop V) (p : N -> svec V) : sobs V * (N -> svec V) :=
  match o with
  | SPush i x fail => on1 p i (sv_push_back (p i) x fail)
  | SResize i n x fail => on1 p i (sv_resize (p i) n x fail)
  | SClear i => on1 p i (Ok tt, sv_clear (p i))
  | SSwap i j => on2 p i j (sv_swap (p i) (p j))
  | SWriteAt i pos x => on1 p i (sv_at_write (p i) pos x)
  | SWriteIdx i pos x => on1 p i (sv_index_write (p i) pos x)
  | SInit i l fail => match sv_of_list cap l fail with
                 | Ok t => on1 p i (Ok tt, fst (sv_move_assign moved (p i) t))
                 | Throw e => (ODone (Throw e), p)
                 | _ => (ODone UB, p)
                 end
  | SCopy i j fail => on1 p i (sv_copy_assign (p i) (p j) fail)
  | SMove i j => if i =? j then on1 p i (Ok tt, sv_self_move moved (p i)) else on2 p i j (sv_move_assign moved (p i) (p j))
  | SSize i => (ONum (sv_size (p i)), p)
  | SEmpty i => (OBool (Ok (sv_empty (p i))), p)
  | SAt i pos => (OVal (sv_at (p i) pos), p)
  | SIdx i pos => (OVal (sv_index (p i) pos), p)
  | SFront i => (OVal (sv_front (p i)), p)
  | SBack i => (OVal (sv_back (p i)), p)
  | SIter i => (OList (sv_iterate b (p i)), p)
  | SRiter i => (OList (sv_riterate b (p i)), p)
  | SEq i j => (OBool (sv_eq veq b (p i) (p j)), p)
  end.

(** Model only, no counterpart in the code: a sequence of operations. *)
Fixpoint sv_run (ops : list (sop V)) (p : N -> svec V) : list (sobs V) * (N -> svec V) :=
  match ops with
  | [] => ([], p)
  | o :: ops' => let '(x, p1) := sv_step o p in let '(xs, p2) := sv_run ops' p1 in (x :: xs, p2)
  end.
(** Model only, no counterpart in the code: the start of a program. *)
Definition sv_start : N -> svec V := fun _ => sv_default cap.
End Run.
