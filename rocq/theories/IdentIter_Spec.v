(** What C105 means: the collection is a list of items with distinct ids, an iterator is an
    index into it. *)
From Coq Require Import List. Import ListNotations.
From Verif Require Import Base Ident_Model Coll_Spec IdentIter_Model.
Local Open Scope N_scope.

(** [spot_size]: the number of items when begin() or end() was called. *)
Record spot := mk_spot { spot_at : N; spot_size : N }.
Definition spots := (list item * (N -> option spot))%type.

Definition added (l l' : list item) : bool := existsb (fun x => negb (has_id (it_id x) l)) l'.
Definition removed (l l' : list item) : bool := existsb (fun x => negb (has_id (it_id x) l')) l.
(** An iterator at [p] may be used after a call that made [l'] of [l].  If the call added items:
    unless it was end(), or the vector moved.  If the call removed items: if it was at an
    item, and this item and those before it are still there.  Otherwise always. *)
Definition usable (l l' : list item) (moved : bool) (p : N) : bool :=
  if added l l' then negb moved && (p <? lenN l)
  else if removed l l' then (p <? lenN l) && forallb (fun x => has_id (it_id x) l') (firstn (S (N.to_nat p)) l)
  else true.

Definition put (s : spots) (k : N) (a : spot) : spots := (fst s, fun m => if m =? k then Some a else snd s m).
Definition move_by (s : spots) (k l : N) (off : Z) : option (kobs * spots) :=
  match snd s k with
  | Some a =>
      let t := (Z.of_N (spot_at a) + off)%Z in
      if ((0 <=? t) && (t <=? Z.of_N (lenN (fst s))))%Z
      then Some (KMoved (Ok tt), put s l (mk_spot (Z.to_N t) (spot_size a))) else None
  | None => None
  end.
Definition both (s : spots) (k l : N) (f : N -> N -> kobs) : option (kobs * spots) :=
  match snd s k, snd s l with Some a, Some c => Some (f (spot_at a) (spot_at c), s) | _, _ => None end.

(** [None]: a precondition of the operation does not hold. *)
Definition spot_step (o : kop) (s : spots) : option (kobs * spots) :=
  match o with
  | KCall o moved =>
      match spec_step o (fst s) with
      | Some (x, l') =>
          Some (KCalled x, (l', fun k => match snd s k with
                                         | Some a => if usable (fst s) l' moved (spot_at a) then Some a else None
                                         | None => None
                                         end))
      | None => None
      end
  | KBegin k => Some (KMoved (Ok tt), put s k (mk_spot 0 (lenN (fst s))))
  | KEnd k => Some (KMoved (Ok tt), put s k (mk_spot (lenN (fst s)) (lenN (fst s))))
  | KInc k => move_by s k k 1
  | KDec k => move_by s k k (-1)
  | KPlus k l off => move_by s k l off
  | KRead k => match snd s k with
               | Some a => match nth_error (fst s) (N.to_nat (spot_at a)) with Some x => Some (KItem (Ok x), s) | None => None end
               | None => None
               end
  | KDist k l => both s k l (fun p q => KGap (Ok (Z.of_N p - Z.of_N q)%Z))
  | KComp k l => both s k l (fun p q => KOrder (Ok (p ?= q)))
  | KSame k l => both s k l (fun p q => KBool (Ok (p =? q)))
  end.

(** What a debug build reports although the precondition holds: [++] from the index that was
    the end when the iterator was made, and [+] to that index or beyond it. *)
Definition k_reported (o : kop) (s : spots) : bool :=
  match o with
  | KInc k => match snd s k with Some a => spot_at a =? spot_size a | None => false end
  | KPlus k _ off => match snd s k with Some a => (Z.of_N (spot_size a) <=? Z.of_N (spot_at a) + off)%Z | None => false end
  | _ => false
  end.
Definition failure {A} (b : build) : outcome A := match b with DebugThrow => Throw logic_error | _ => Terminate end.
Definition spot_build_step (b : build) (o : kop) (s : spots) : option (kobs * spots) :=
  match spot_step o s with
  | Some r => match b with Release => Some r | _ => if k_reported o s then Some (KMoved (failure b), s) else Some r end
  | None => None
  end.
Fixpoint spot_run (b : build) (ops : list kop) (s : spots) : option (list kobs * spots) :=
  match ops with
  | [] => Some ([], s)
  | o :: ops' =>
      match spot_build_step b o s with
      | Some (x, s1) => match spot_run b ops' s1 with Some (xs, s2) => Some (x :: xs, s2) | None => None end
      | None => None
      end
  end.
Definition nothing : spots := ([], fun _ => None).
(** Calls of members of the collection, and nothing else. *)
Definition calls (cs : list (iop * bool)) : list kop := map (fun c => KCall (fst c) (snd c)) cs.
