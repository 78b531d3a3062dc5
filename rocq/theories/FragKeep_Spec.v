(** Kept iterators of fragment strings as positions in the texts of the strings. *)
From Coq Require Import List. Import ListNotations.
From Verif Require Import Base String_Model Frag_Model Frag_Spec FragKeep_Model.
Local Open Scope N_scope.

Section FragKeepSpec.
Variable b : build.
Variable texts : N -> list N.

(** The characters of a string with these views. *)
Definition content (vs : views) : list N := concat (map (fun v => match v with Some t => texts t | None => [] end) vs).
(** The strings this is about: at least one fragment, none but the last empty, less than 2^63 characters. *)
Definition proper (vs : views) : Prop :=
  vs <> [] /\ Forall (fun v => exists t, v = Some t /\ texts t <> []) (removelast vs) /\ lenN (content vs) < 2 ^ 63.
Definition proper_op (o : kop) : Prop := match o with KMake _ vs => proper vs | _ => True end.

(** Operations on strings alone. *)
Definition about_strings (o : kop) : Prop := match o with KMake _ _ | KDie _ => True | _ => False end.

(** An iterator is a position in a string that had certain views when the iterator was made. *)
Record place := mk_place { p_str : N; p_views : views; p_pos : N }.
(** The strings, and the places of the iterators. *)
Record world := mk_world { w_str : N -> option views; w_it : N -> option place }.
Definition assign {A} (f : N -> A) (v : N) (x : A) : N -> A := fun w => if w =? v then x else f w.
Definition nowhere : world := mk_world (fun _ => None) (fun _ => None).

Definition views_eq_dec : forall x y : views, {x = y} + {x <> y}.
Proof. decide equality. decide equality. apply N.eq_dec. Defined.

(** The iterator can be used: its string is alive and shows the same texts as then. *)
Definition usable (w : world) (k : N) : option place :=
  match w_it w k with
  | Some p => match w_str w (p_str p) with
              | Some vs => if views_eq_dec vs (p_views p) then Some p else None
              | None => None
              end
  | None => None
  end.

(** A step outside the string: a failed assertion, undefined without assertions. *)
Definition failed : outcome kobs :=
  match b with Release => UB | DebugAbort => Terminate | DebugThrow => Throw logic_error end.
(** A jump beyond the end does not return without assertions. *)
Definition lost : outcome kobs :=
  match b with Release => Diverge | DebugAbort => Terminate | DebugThrow => Throw logic_error end.

(** Offsets: ptrdiff_t without its least value. *)
Definition offset_ok (n : Z) : bool := (- 2 ^ 63 <? n)%Z && (n <? 2 ^ 63)%Z.
(** Iterator [k] moved by [n] becomes [l]. *)
Definition jump (w : world) (k l : N) (n : Z) : option (outcome kobs * world) :=
  match usable w k with
  | None => None
  | Some p =>
      let q := (Z.of_N (p_pos p) + n)%Z in
      if (q <? 0)%Z then Some (failed, w)
      else if (Z.of_N (lenN (content (p_views p))) <? q)%Z then Some (lost, w)
      else Some (Ok KDone, mk_world (w_str w) (assign (w_it w) l (Some (mk_place (p_str p) (p_views p) (Z.to_N q)))))
  end.
(** Two iterators of one string, or of two strings. *)
Definition pair_of (w : world) (k l : N) (one : N -> N -> kobs) (several : option (outcome kobs)) : option (outcome kobs * world) :=
  match usable w k, usable w l with
  | Some p, Some q =>
      if p_str p =? p_str q then Some (Ok (one (p_pos p) (p_pos q)), w)
      else match several with Some x => Some (x, w) | None => None end
  | _, _ => None
  end.

(** [None]: not settled (an iterator that is not usable, or the order or distance of iterators of two strings in a
    release build, or an offset that ptrdiff_t cannot hold or negate). *)
Definition world_step (o : kop) (w : world) : option (outcome kobs * world) :=
  let at_pos k v f :=
    match w_str w v with
    | Some vs => Some (Ok KDone, mk_world (w_str w) (assign (w_it w) k (Some (mk_place v vs (f vs)))))
    | None => None
    end in
  match o with
  | KMake v vs => Some (Ok KDone, mk_world (assign (w_str w) v (Some vs)) (w_it w))
  | KCopy v u => match w_str w u with
                 | Some vs => Some (Ok KDone, mk_world (assign (w_str w) v (Some vs)) (w_it w))
                 | None => None
                 end
  | KDie v => Some (Ok KDone, mk_world (assign (w_str w) v None)
                 (fun k => match w_it w k with Some p => if p_str p =? v then None else Some p | None => None end))
  | KBegin k v => at_pos k v (fun _ => 0)
  | KEnd k v => at_pos k v (fun vs => lenN (content vs))
  | KDup k l => match w_it w k with
                | Some p => Some (Ok KDone, mk_world (w_str w) (assign (w_it w) l (Some p)))
                | None => None
                end
  | KInc k => match usable w k with
              | Some p => if p_pos p <? lenN (content (p_views p)) then jump w k k 1 else Some (failed, w)
              | None => None
              end
  | KDec k => jump w k k (-1)
  | KPlus k l n => if negb (offset_ok n) then None else jump w k l n
  | KMinus k l n => if negb (offset_ok n) then None else jump w k l (- n)
  | KJump k n => if negb (offset_ok n) then None else jump w k k n
  | KBack k n => if negb (offset_ok n) then None else jump w k k (- n)
  | KRead k => match usable w k with
               | Some p => Some (match nth_error (content (p_views p)) (N.to_nat (p_pos p)) with
                                 | Some c => Ok (KChar c)
                                 | None => failed
                                 end, w)
               | None => None
               end
  | KEq k l => pair_of w k l (fun x y => KBool (x =? y)) (Some (match b with Release => Ok (KBool false) | _ => failed end))
  | KCmp k l => pair_of w k l (fun x y => KOrder (x ?= y)) (match b with Release => None | _ => Some failed end)
  | KDiff k l => pair_of w k l (fun x y => KDist (Z.of_N x - Z.of_N y)) (match b with Release => None | _ => Some failed end)
  end.
Fixpoint world_run (ops : list kop) (w : world) : option (list (outcome kobs) * world) :=
  match ops with
  | [] => Some ([], w)
  | o :: ops' =>
      match world_step o w with
      | None => None
      | Some (Ok x, w1) => match world_run ops' w1 with Some (xs, w2) => Some (Ok x :: xs, w2) | None => None end
      | Some (r, w1) => Some ([r], w1)
      end
  end.
End FragKeepSpec.
