(** Model of collections/identifiable_item_collection.hpp with its default containers:
    a std::map from ids to owning pointers and a std::vector of raw pointers in
    insertion order.

    The items live in a heap.  A pointer is an address; the heap maps the addresses of
    living items to items.  Reading through a pointer to an item that has been
    destroyed is [UB].  Every collection owns its items, so each collection has its own
    heap here.  The map is an association list: its order is never observable through
    this class.  Ids are numbers and the map's comparison agrees with ==.

    Allocations may fail: an operation that allocates takes the three booleans of
    [allocs], saying whether the allocation of the item, of the map node and (if one is
    needed) of the bigger vector succeeds. *)
From Verif Require Import Base Iter_Model.

(** User type (concept at wite/collections/identifiable_item_collection.hpp:27-28). An item: what its id() returns, and the rest of its state. *)
Record item := mk_item { it_id : N; it_data : N }.
(** Model only, no counterpart in the code: the allocator, an oracle. *)
Record allocs := mk_allocs { al_item : bool; al_node : bool; al_push : bool }.
(** Model only, no counterpart in the code: no allocation fails. *)
Definition all_ok : allocs := mk_allocs true true true.

(** identifiable_item_collection.hpp:244-245, with the heap and the next fresh address. *)
Record coll := mk_coll {
  c_items : list (N * N);       (* id -> address *)
  c_order : list N;             (* addresses in insertion order *)
  c_heap : list (N * item);     (* living items *)
  c_next : N }.

(** std::map::find. *)
Fixpoint lookup {A} (k : N) (l : list (N * A)) : option A :=
  match l with [] => None | (k', x) :: l' => if k' =? k then Some x else lookup k l' end.
(** std::map::erase. *)
Fixpoint remove_key {A} (k : N) (l : list (N * A)) : list (N * A) :=
  match l with [] => [] | (k', x) :: l' => if k' =? k then remove_key k l' else (k', x) :: remove_key k l' end.
(** Model only, no counterpart in the code: assignment to the object at an address. *)
Fixpoint replace_key {A} (k : N) (y : A) (l : list (N * A)) : list (N * A) :=
  match l with [] => [] | (k', x) :: l' => if k' =? k then (k', y) :: l' else (k', x) :: replace_key k y l' end.

(** wite/collections/identifiable_item_collection.hpp:59 default constructor *)
Definition ic_empty_coll : coll := mk_coll [] [] [] 0.

(** C++ language (Standard). Reading the item at an address *)
Definition deref (c : coll) (a : N) : outcome item :=
  match lookup a (c_heap c) with Some it => Ok it | None => UB end.

(** wite/collections/identifiable_item_collection.hpp:79-80 size(), empty(): of the map *)
Definition ic_size (c : coll) : N := lenN (c_items c).
(** wite/collections/identifiable_item_collection.hpp:80 empty(). *)
Definition ic_empty (c : coll) : bool := match c_items c with [] => true | _ => false end.
(** wite/collections/identifiable_item_collection.hpp:220 contains() *)
Definition ic_contains (c : coll) (id : N) : bool :=
  match lookup id (c_items c) with Some _ => true | None => false end.

Section Ident.
Variable b : build.

(** std::make_unique: a new item at a fresh address *)
Definition new_item (c : coll) (it : item) : N * coll :=
  (c_next c, mk_coll (c_items c) (c_order c) ((c_next c, it) :: c_heap c) (c_next c + 1)).
(** C++ language (Standard): a std::unique_ptr destroys its object. Destroying the item at an address *)
Definition free_item (c : coll) (a : N) : coll :=
  mk_coll (c_items c) (c_order c) (remove_key a (c_heap c)) (c_next c).

(** wite/collections/identifiable_item_collection.hpp:231, 241: the condition of the assertions. *)
Definition sizes_match (c : coll) : bool := ic_size c =? lenN (c_order c).

(** wite/collections/identifiable_item_collection.hpp:223-233 _try_unchecked_insert, from the point where the item has been made at address
    [a] with id [id].  std::map::insert leaves the map alone if the id is there; then
    the new item is destroyed with the temporary pair that owns it.  If the vector
    cannot grow the item stays in the map. *)
Definition ic_try_unchecked_insert (c : coll) (id a : N) (al : allocs) : outcome bool * coll :=
  if ic_contains c id then
    let c1 := free_item c a in
    (let! _ := dassert b (sizes_match c1) in Ok false, c1)
  else if al_node al then
    let c1 := mk_coll (c_items c ++ [(id, a)]) (c_order c) (c_heap c) (c_next c) in
    if al_push al then
      let c2 := mk_coll (c_items c1) (c_order c1 ++ [a]) (c_heap c1) (c_next c1) in
      (let! _ := dassert b (sizes_match c2) in Ok true, c2)
    else (Throw bad_alloc, c1)
  else (Throw bad_alloc, free_item c a).

(** wite/collections/identifiable_item_collection.hpp:235-242 _unchecked_insert *)
Definition ic_unchecked_insert (c : coll) (id a : N) (al : allocs) : outcome unit * coll :=
  if al_node al then
    let c1 := if ic_contains c id then free_item c a
              else mk_coll (c_items c ++ [(id, a)]) (c_order c) (c_heap c) (c_next c) in
    if al_push al then
      let c2 := mk_coll (c_items c1) (c_order c1 ++ [a]) (c_heap c1) (c_next c1) in
      (let! _ := dassert b (sizes_match c2) in Ok tt, c2)
    else (Throw bad_alloc, c1)
  else (Throw bad_alloc, free_item c a).

(** wite/collections/identifiable_item_collection.hpp:82-88 insert(Item_T) *)
Definition ic_insert (c : coll) (it : item) (al : allocs) : outcome unit * coll :=
  if ic_contains c (it_id it) then (Throw logic_error, c)
  else if al_item al then
    let '(a, c1) := new_item c it in ic_unchecked_insert c1 (it_id it) a al
  else (Throw bad_alloc, c).

(** wite/collections/identifiable_item_collection.hpp:101-106 try_insert(Item_T) *)
Definition ic_try_insert (c : coll) (it : item) (al : allocs) : outcome bool * coll :=
  if al_item al then
    let '(a, c1) := new_item c it in ic_try_unchecked_insert c1 (it_id it) a al
  else (Throw bad_alloc, c).

(** wite/collections/identifiable_item_collection.hpp:90-94 insert(range): try_insert on each, results ignored; the constructor from an
    initializer_list (57) calls this.  An exception stops the loop. *)
Fixpoint ic_insert_range (c : coll) (l : list (item * allocs)) : outcome unit * coll :=
  match l with
  | [] => (Ok tt, c)
  | (it, al) :: l' =>
      match ic_try_insert c it al with
      | (Ok _, c1) => ic_insert_range c1 l'
      | (Throw e, c1) => (Throw e, c1)
      | (UB, c1) => (UB, c1) | (Terminate, c1) => (Terminate, c1) | (Diverge, c1) => (Diverge, c1)
      end
  end.

(** wite/collections/identifiable_item_collection.hpp:96-99 insert(items...): insert each in turn *)
Fixpoint ic_insert_each (c : coll) (l : list (item * allocs)) : outcome unit * coll :=
  match l with
  | [] => (Ok tt, c)
  | (it, al) :: l' =>
      match ic_insert c it al with
      | (Ok _, c1) => ic_insert_each c1 l'
      | (Throw e, c1) => (Throw e, c1)
      | (UB, c1) => (UB, c1) | (Terminate, c1) => (Terminate, c1) | (Diverge, c1) => (Diverge, c1)
      end
  end.

(** wite/collections/identifiable_item_collection.hpp:108-131 try_insert(range), try_insert(items...): the results in order.  (The vector
    that collects the results in 108-120 is assumed to be allocated.) *)
Fixpoint ic_try_insert_each (c : coll) (l : list (item * allocs)) : outcome (list bool) * coll :=
  match l with
  | [] => (Ok [], c)
  | (it, al) :: l' =>
      match ic_try_insert c it al with
      | (Ok r, c1) => let '(rs, c2) := ic_try_insert_each c1 l' in (omap (cons r) rs, c2)
      | (Throw e, c1) => (Throw e, c1)
      | (UB, c1) => (UB, c1) | (Terminate, c1) => (Terminate, c1) | (Diverge, c1) => (Diverge, c1)
      end
  end.

(** std::find_if over the ordered pointers by the id of what they point to: the elements
    before the match and those after it. *)
Fixpoint find_by_id (c : coll) (id : N) (l : list N) : outcome (option (list N * list N)) :=
  match l with
  | [] => Ok None
  | a :: l' =>
      let! it := deref c a in
      if it_id it =? id then Ok (Some ([], l'))
      else let! r := find_by_id c id l' in
           Ok (match r with Some (p, q) => Some (a :: p, q) | None => None end)
  end.

(** std::map::erase(key): destroys the item of that key, if any *)
Definition map_erase (c : coll) (id : N) : coll :=
  match lookup id (c_items c) with
  | Some a => mk_coll (remove_key id (c_items c)) (c_order c) (remove_key a (c_heap c)) (c_next c)
  | None => c
  end.

(** wite/collections/identifiable_item_collection.hpp:133-144 erase(id) *)
Definition ic_erase (c : coll) (id : N) : outcome bool * coll :=
  match find_by_id c id (c_order c) with
  | Ok None => (Ok false, c)
  | Ok (Some (p, q)) => (Ok true, map_erase (mk_coll (c_items c) (p ++ q) (c_heap c) (c_next c)) id)
  | Throw e => (Throw e, c) | UB => (UB, c) | Terminate => (Terminate, c) | Diverge => (Diverge, c)
  end.

(** wite/collections/identifiable_item_collection.hpp:146-167 erase(range), erase(ids...) *)
Fixpoint ic_erase_each (c : coll) (ids : list N) : outcome (list bool) * coll :=
  match ids with
  | [] => (Ok [], c)
  | id :: ids' =>
      match ic_erase c id with
      | (Ok r, c1) => let '(rs, c2) := ic_erase_each c1 ids' in (omap (cons r) rs, c2)
      | (Throw e, c1) => (Throw e, c1)
      | (UB, c1) => (UB, c1) | (Terminate, c1) => (Terminate, c1) | (Diverge, c1) => (Diverge, c1)
      end
  end.

(** wite/collections/identifiable_item_collection.hpp:169-178 emplace(args...), where the arguments construct [it]; it returns a mutable
    reference to the stored item, here its address. *)
Definition ic_emplace (c : coll) (it : item) (al : allocs) : outcome N * coll :=
  if al_item al then
    let '(a, c1) := new_item c it in
    match ic_try_unchecked_insert c1 (it_id it) a al with
    | (Ok true, c2) => (Ok a, c2)
    | (Ok false, c2) => (Throw logic_error, c2)
    | (Throw e, c2) => (Throw e, c2)
    | (UB, c2) => (UB, c2) | (Terminate, c2) => (Terminate, c2) | (Diverge, c2) => (Diverge, c2)
    end
  else (Throw bad_alloc, c).

(** C++ language (Standard): what the caller of emplace does. Assignment through that reference: [*address = it]. *)
Definition ic_assign_through (c : coll) (a : N) (it : item) : outcome unit * coll :=
  match lookup a (c_heap c) with
  | Some _ => (Ok tt, mk_coll (c_items c) (c_order c) (replace_key a it (c_heap c)) (c_next c))
  | None => (UB, c)
  end.

(** std::find of a pointer in the ordered pointers *)
Fixpoint find_ptr (a : N) (l : list N) : option (list N * list N) :=
  match l with
  | [] => None
  | a' :: l' => if a' =? a then Some ([], l')
                else match find_ptr a l' with Some (p, q) => Some (a' :: p, q) | None => None end
  end.

(** wite/collections/identifiable_item_collection.hpp:180-197 excise(id): the caller gets the item (it leaves this collection's heap);
    erasing end() from a vector is undefined. *)
Definition ic_excise (c : coll) (id : N) : outcome (option item) * coll :=
  match lookup id (c_items c) with
  | None => (Ok None, c)
  | Some a =>
      let c1 := mk_coll (remove_key id (c_items c)) (c_order c) (c_heap c) (c_next c) in
      match find_ptr a (c_order c1) with
      | None => (let! _ := dassert b false in UB, c1)
      | Some (p, q) =>
          (omap Some (deref c a), mk_coll (c_items c1) (p ++ q) (remove_key a (c_heap c1)) (c_next c1))
      end
  end.

(** wite/collections/identifiable_item_collection.hpp:199-205 at(id) *)
Definition ic_at_id (c : coll) (id : N) : outcome item :=
  match lookup id (c_items c) with Some a => deref c a | None => Throw out_of_range end.
(** wite/collections/identifiable_item_collection.hpp:207-213 at(index) *)
Definition ic_at_index (c : coll) (i : N) : outcome item :=
  if lenN (c_order c) <=? i then Throw out_of_range
  else match nth_error (c_order c) (N.to_nat i) with Some a => deref c a | None => UB end.
(** wite/collections/identifiable_item_collection.hpp:215-218 clear(): destroys every item the map owns *)
Definition ic_clear (c : coll) : coll :=
  mk_coll [] [] (filter (fun x => negb (existsb (fun y => snd y =? fst x) (c_items c))) (c_heap c)) (c_next c).

(** wite/collections/identifiable_item_collection.hpp:63-77 iteration from begin() to end() and from rbegin() to rend(): [**_ptr] reads
    the item behind the pointer. *)
Definition ic_raw (c : coll) : list (option item) := map (fun a => lookup a (c_heap c)) (c_order c).
(** wite/collections/identifiable_item_collection.hpp:63-71. *)
Definition ic_iterate (c : coll) : outcome (list item) :=
  di_walk b (ic_raw c) (length (c_order c)) (di_begin_of 0 (lenN (c_order c))) (di_end_of 0 (lenN (c_order c))).
(** wite/collections/identifiable_item_collection.hpp:72-77. *)
Definition ic_riterate (c : coll) : outcome (list item) :=
  di_rwalk b (ic_raw c) (length (c_order c)) (di_end_of 0 (lenN (c_order c))) (di_begin_of 0 (lenN (c_order c))).

(** wite/collections/identifiable_item_collection.hpp:60-61 move construction and assignment: the source is left empty. *)
Definition ic_move (src : coll) : coll * coll := (src, ic_empty_coll).

(** Model only, no counterpart in the code: calls of the members above. Programs *)
Inductive iop :=
| IInsert (it : item) (al : allocs) | ITryInsert (it : item) (al : allocs)
| IInsertRange (l : list (item * allocs)) | IInsertEach (l : list (item * allocs))
| ITryInsertEach (l : list (item * allocs))
| IErase (id : N) | IEraseEach (ids : list N)
| IEmplace (it : item) (al : allocs)
| IAssignRef (id : N) (it : item)     (* r = it, where r is the reference emplace returned for the item stored under id *)
| IExcise (id : N) | IClear
| IAtId (id : N) | IAtIndex (i : N) | IContains (id : N) | ISize | IEmpty | IIter | IRiter.

(** Model only, no counterpart in the code: what a call shows its caller. *)
Inductive iobs :=
| ROk (r : outcome unit) | RBool (r : outcome bool) | RBools (r : outcome (list bool))
| RItem (r : outcome item) | RMaybe (r : outcome (option item)) | RNum (n : N) | RItems (r : outcome (list item)).

(** Model only, no counterpart in the code: one call. *)
Definition ic_step (o : iop) (c : coll) : iobs * coll :=
  match o with
  | IInsert it al => let '(r, c') := ic_insert c it al in (ROk r, c')
  | ITryInsert it al => let '(r, c') := ic_try_insert c it al in (RBool r, c')
  | IInsertRange l => let '(r, c') := ic_insert_range c l in (ROk r, c')
  | IInsertEach l => let '(r, c') := ic_insert_each c l in (ROk r, c')
  | ITryInsertEach l => let '(r, c') := ic_try_insert_each c l in (RBools r, c')
  | IErase id => let '(r, c') := ic_erase c id in (RBool r, c')
  | IEraseEach ids => let '(r, c') := ic_erase_each c ids in (RBools r, c')
  | IEmplace it al => let '(r, c') := ic_emplace c it al in (ROk (omap (fun _ => tt) r), c')
  | IAssignRef id it =>
      match lookup id (c_items c) with
      | Some a => let '(r, c') := ic_assign_through c a it in (ROk r, c')
      | None => (ROk UB, c)
      end
  | IExcise id => let '(r, c') := ic_excise c id in (RMaybe r, c')
  | IClear => (ROk (Ok tt), ic_clear c)
  | IAtId id => (RItem (ic_at_id c id), c)
  | IAtIndex i => (RItem (ic_at_index c i), c)
  | IContains id => (RBool (Ok (ic_contains c id)), c)
  | ISize => (RNum (ic_size c), c)
  | IEmpty => (RBool (Ok (ic_empty c)), c)
  | IIter => (RItems (ic_iterate c), c)
  | IRiter => (RItems (ic_riterate c), c)
  end.
(** Model only, no counterpart in the code: a sequence of calls. *)
Fixpoint ic_run (ops : list iop) (c : coll) : list iobs * coll :=
  match ops with
  | [] => ([], c)
  | o :: ops' => let '(x, c1) := ic_step o c in let '(xs, c2) := ic_run ops' c1 in (x :: xs, c2)
  end.
End Ident.
