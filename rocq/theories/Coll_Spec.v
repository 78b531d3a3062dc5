(** What C54-C62 and C78 mean, independently of the model. *)
From Verif Require Import Base Iter_Model Sv_Model Lookup_Model Ident_Model.

(** * static_vector *)
Section SVSpec.
Context {V : Type}.
Variables (cap : N) (moved : V -> V) (veq : V -> V -> bool).

Definition at_list (l : list V) (k : N) : outcome V :=
  match nth_error l (N.to_nat k) with Some x => Ok x | None => Throw out_of_range end.
Definition write_list (l : list V) (k : N) (x : V) : list V := takeN k l ++ x :: dropN (k + 1) l.
Fixpoint same_list (l m : list V) : bool :=
  match l, m with
  | [], [] => true
  | x :: l', y :: m' => veq x y && same_list l' m'
  | _, _ => false
  end.

(** The vectors are lists.  [None]: a precondition of the operation does not hold
    (operator[] at or beyond size(), moving a vector to itself), or a copy assignment
    was told to throw after all elements of the source have been copied (see C78). *)
Definition vec_step (o : sop V) (p : N -> list V) : option (sobs V * (N -> list V)) :=
  match o with
  | SPush i x fail =>
      match fail with
      | Some 0 => Some (ODone (Throw user_exn), p)
      | _ => if cap <? lenN (p i) + 1 then Some (ODone (Throw length_error), p)
             else match fail with
                  | Some 1 => Some (ODone (Throw user_exn), p)
                  | _ => Some (ODone (Ok tt), upd p i (p i ++ [x]))
                  end
      end
  | SResize i n x fail =>
      if cap <? n then Some (ODone (Throw length_error), p)
      else if n <=? lenN (p i) then Some (ODone (Ok tt), upd p i (takeN n (p i)))
      else match fail with
           | Some k => if k <? n - lenN (p i) then Some (ODone (Throw user_exn), p)
                       else Some (ODone (Ok tt), upd p i (p i ++ repeat x (N.to_nat (n - lenN (p i)))))
           | None => Some (ODone (Ok tt), upd p i (p i ++ repeat x (N.to_nat (n - lenN (p i)))))
           end
  | SClear i => Some (ODone (Ok tt), upd p i [])
  | SSwap i j => Some (ODone (Ok tt), upd (upd p j (p i)) i (p j))
  | SWriteAt i pos x => if pos <? lenN (p i) then Some (ODone (Ok tt), upd p i (write_list (p i) pos x))
                        else Some (ODone (Throw out_of_range), p)
  | SWriteIdx i pos x => if pos <? lenN (p i) then Some (ODone (Ok tt), upd p i (write_list (p i) pos x)) else None
  | SInit i l fail => if cap <? lenN l then Some (ODone (Throw invalid_argument), p)
                      else match fail with
                           | Some k => if k <? lenN l then Some (ODone (Throw user_exn), p) else Some (ODone (Ok tt), upd p i l)
                           | None => Some (ODone (Ok tt), upd p i l)
                           end
  | SCopy i j fail => match fail with
                      | None => Some (ODone (Ok tt), upd p i (p j))
                      | Some k => if k <? lenN (p j) then Some (ODone (Throw user_exn), upd p i (takeN (lenN (p i)) (takeN k (p j) ++ dropN k (p i))))
                                  else None
                      end
  | SMove i j => if i =? j then Some (ODone (Ok tt), upd p i (map moved (p i)))
                else Some (ODone (Ok tt), upd (upd p j (map moved (p j))) i (p j))
  | SSize i => Some (ONum (lenN (p i)), p)
  | SEmpty i => Some (OBool (Ok (match p i with [] => true | _ => false end)), p)
  | SAt i pos => Some (OVal (at_list (p i) pos), p)
  | SIdx i pos => if pos <? lenN (p i) then Some (OVal (at_list (p i) pos), p) else None
  | SFront i => Some (OVal (at_list (p i) 0), p)
  | SBack i => Some (OVal (match rev (p i) with x :: _ => Ok x | [] => Throw out_of_range end), p)
  | SIter i => Some (OList (Ok (p i)), p)
  | SRiter i => Some (OList (Ok (rev (p i))), p)
  | SEq i j => Some (OBool (Ok (same_list (p i) (p j))), p)
  end.

Fixpoint vec_run (ops : list (sop V)) (p : N -> list V) : option (list (sobs V) * (N -> list V)) :=
  match ops with
  | [] => Some ([], p)
  | o :: ops' =>
      match vec_step o p with
      | None => None
      | Some (x, p1) => match vec_run ops' p1 with None => None | Some (xs, p2) => Some (x :: xs, p2) end
      end
  end.

(** A static_vector shows the list [l]. *)
Definition shows (v : svec V) (l : list V) : Prop :=
  sv_size v = lenN l /\ lenN l <= cap /\ forall k, sv_at v k = at_list l k.
End SVSpec.

(** The lifetimes in one slot, oldest first: some number of elements, each constructed
    and then destroyed once; [alive] adds one more that has not been destroyed yet. *)
Definition completed (n : nat) : list ev := concat (repeat [ev_ctor; ev_dtor] n).
Definition all_destroyed {V} (s : slot V) : Prop := exists n, rev (sl_hist s) = completed n.
Definition alive {V} (s : slot V) : Prop := exists n, rev (sl_hist s) = completed n ++ [ev_ctor].
(** The number of slots in which an element is alive, by its lifetime history. *)
Definition alive_now (h : list ev) : bool := match h with ev_ctor :: _ => true | _ => false end.
Definition live_elements {V} (v : svec V) : N := lenN (filter (fun s => alive_now (sl_hist s)) (sv_slots v)).

(** Operations that never leave elements alive beyond size(). *)
Definition plain_op {V} (o : sop V) : bool :=
  match o with
  | SClear _ | SPush _ _ (Some _) | SResize _ _ _ (Some _) | SCopy _ _ (Some _) => false
  | _ => true
  end.

(** * dereferencing_iterator *)
(** The iterator at position [p] of a container with [n] elements. *)
Definition at_pos (parent n : N) (p : Z) : diter := mk_diter p parent 0 (Z.of_N n).
(** What a failed assertion does. *)
Definition assertion_fails {A} (b : build) (r : outcome A) : Prop :=
  match b with DebugAbort => r = Terminate | DebugThrow => r = Throw logic_error | Release => False end.
Definition debug (b : build) : Prop := b <> Release.

(** * identifiable_item_collection: a list of items with distinct ids *)
Definition has_id (id : N) (l : list item) : bool := existsb (fun it => it_id it =? id) l.
Definition item_with (id : N) (l : list item) : option item := find (fun it => it_id it =? id) l.
Definition without (id : N) (l : list item) : list item := filter (fun it => negb (it_id it =? id)) l.

(** [None]: not specified (an operation whose vector allocation fails after the map
    insertion, or an assignment that changes an id or goes through no reference). *)
Definition spec_insert (l : list item) (it : item) (al : allocs) : option (outcome unit * list item) :=
  if has_id (it_id it) l then Some (Throw logic_error, l)
  else if negb (al_item al && al_node al) then Some (Throw bad_alloc, l)
  else if al_push al then Some (Ok tt, l ++ [it]) else None.
Definition spec_try_insert (l : list item) (it : item) (al : allocs) : option (outcome bool * list item) :=
  if negb (al_item al) then Some (Throw bad_alloc, l)
  else if has_id (it_id it) l then Some (Ok false, l)
  else if negb (al_node al) then Some (Throw bad_alloc, l)
  else if al_push al then Some (Ok true, l ++ [it]) else None.
(** Several items, one after the other, stopping at the first exception. *)
Fixpoint spec_insert_each (l : list item) (xs : list (item * allocs)) : option (outcome unit * list item) :=
  match xs with
  | [] => Some (Ok tt, l)
  | (it, al) :: xs' =>
      match spec_insert l it al with
      | Some (Ok _, l1) => spec_insert_each l1 xs'
      | r => r
      end
  end.
Fixpoint spec_try_insert_each (l : list item) (xs : list (item * allocs)) : option (outcome (list bool) * list item) :=
  match xs with
  | [] => Some (Ok [], l)
  | (it, al) :: xs' =>
      match spec_try_insert l it al with
      | Some (Ok r, l1) =>
          match spec_try_insert_each l1 xs' with Some (rs, l2) => Some (omap (cons r) rs, l2) | None => None end
      | Some (Throw e, l1) => Some (Throw e, l1)
      | _ => None
      end
  end.
Fixpoint spec_erase_each (l : list item) (ids : list N) : list bool * list item :=
  match ids with
  | [] => ([], l)
  | id :: ids' => let '(rs, l') := spec_erase_each (without id l) ids' in (has_id id l :: rs, l')
  end.
Definition found (r : option item) : outcome item := match r with Some it => Ok it | None => Throw out_of_range end.

Definition spec_step (o : iop) (l : list item) : option (iobs * list item) :=
  match o with
  | IInsert it al => match spec_insert l it al with Some (r, l') => Some (ROk r, l') | None => None end
  | ITryInsert it al => match spec_try_insert l it al with Some (r, l') => Some (RBool r, l') | None => None end
  | IInsertRange xs =>
      match spec_try_insert_each l xs with Some (r, l') => Some (ROk (omap (fun _ => tt) r), l') | None => None end
  | IInsertEach xs => match spec_insert_each l xs with Some (r, l') => Some (ROk r, l') | None => None end
  | ITryInsertEach xs => match spec_try_insert_each l xs with Some (r, l') => Some (RBools r, l') | None => None end
  | IErase id => Some (RBool (Ok (has_id id l)), without id l)
  | IEraseEach ids => let '(rs, l') := spec_erase_each l ids in Some (RBools (Ok rs), l')
  | IEmplace it al =>
      match spec_try_insert l it al with
      | Some (Ok true, l') => Some (ROk (Ok tt), l')
      | Some (Ok false, l') => Some (ROk (Throw logic_error), l')
      | Some (Throw e, l') => Some (ROk (Throw e), l')
      | _ => None
      end
  | IAssignRef id it =>
      if has_id id l && (it_id it =? id)
      then Some (ROk (Ok tt), map (fun x => if it_id x =? id then it else x) l) else None
  | IExcise id => Some (RMaybe (Ok (item_with id l)), without id l)
  | IClear => Some (ROk (Ok tt), [])
  | IAtId id => Some (RItem (found (item_with id l)), l)
  | IAtIndex i => Some (RItem (found (nth_error l (N.to_nat i))), l)
  | IContains id => Some (RBool (Ok (has_id id l)), l)
  | ISize => Some (RNum (lenN l), l)
  | IEmpty => Some (RBool (Ok (match l with [] => true | _ => false end)), l)
  | IIter => Some (RItems (Ok l), l)
  | IRiter => Some (RItems (Ok (rev l)), l)
  end.
Fixpoint spec_run (ops : list iop) (l : list item) : option (list iobs * list item) :=
  match ops with
  | [] => Some ([], l)
  | o :: ops' =>
      match spec_step o l with
      | None => None
      | Some (x, l1) => match spec_run ops' l1 with None => None | Some (xs, l2) => Some (x :: xs, l2) end
      end
  end.

(** The items before the first whose id is in the collection or among the earlier ones. *)
Fixpoint fresh_prefix (l : list item) (xs : list item) : list item :=
  match xs with
  | [] => []
  | it :: xs' => if has_id (it_id it) l then [] else it :: fresh_prefix (l ++ [it]) xs'
  end.

(** * make_vector *)
Definition is_reserve {T} (a : mv_arg T) : bool := match a with Reserve _ => true | _ => false end.
(** The contents after applying the arguments from left to right. *)
Fixpoint contents {T} (l : list T) (args : list (mv_arg T)) : list T :=
  match args with
  | [] => l
  | Reserve _ :: args' => contents l args'
  | Size n x :: args' => contents (takeN n l ++ repeat x (N.to_nat (n - lenN l))) args'
  end.

(** * static_lookup *)
(** [v] is paired with the first key equal to [k]. *)
Definition first_with_key {K V} (keq : K -> K -> bool) (t : list (K * V)) (k : K) (v : V) : Prop :=
  exists t1 k' t2, t = t1 ++ (k', v) :: t2 /\ keq k' k = true /\ forall x, In x t1 -> keq (fst x) k = false.
Definition first_with_value {K V} (veq : V -> V -> bool) (t : list (K * V)) (v : V) (k : K) : Prop :=
  exists t1 v' t2, t = t1 ++ (k, v') :: t2 /\ veq v' v = true /\ forall x, In x t1 -> veq (snd x) v = false.
Definition reflects {A} (eqb : A -> A -> bool) : Prop := forall x y, eqb x y = true <-> x = y.
