(** What C103 means: vectors are lists, an iterator is a vector and an index. *)
From Coq Require Import List. Import ListNotations.
From Verif Require Import Base Sv_Model Coll_Spec SvIter_Model.

(** [place_size]: the size of the vector when begin() or end() was called. *)
Record place := mk_place { place_vec : N; place_at : N; place_size : N }.

Section Spec.
Context {V : Type}.
Variables (cap : N) (moved : V -> V) (veq : V -> V -> bool).
Definition lists := ((N -> list V) * (N -> option place))%type.

Definition goto (a : place) (t : Z) : place := mk_place (place_vec a) (Z.to_N t) (place_size a).
(** [t] is the index of an element, or of the end. *)
Definition reachable (q : N -> list V) (a : place) (t : Z) : bool := ((0 <=? t) && (t <=? Z.of_N (lenN (q (place_vec a)))))%Z.
Definition on_element (q : N -> list V) (a : place) (t : Z) : bool := ((0 <=? t) && (t <? Z.of_N (lenN (q (place_vec a)))))%Z.
Definition element (q : N -> list V) (a : place) (t : Z) : option V :=
  if on_element q a t then nth_error (q (place_vec a)) (Z.to_nat t) else None.
Definition set_place (s : lists) (k : N) (a : place) : lists := (fst s, upd (snd s) k (Some a)).

(** The iterator that place [k] moves to, by which offset, and where the result goes. *)
Definition moves (o : iop V) : option (N * N * Z) :=
  match o with
  | IInc k => Some (k, k, 1) | IDec k => Some (k, k, -1) | IPostInc k _ => Some (k, k, 1) | IPostDec k _ => Some (k, k, -1)
  | IJump k off => Some (k, k, off) | IJumpBack k off => Some (k, k, - off)
  | IPlus k l off => Some (k, l, off) | IMinus k l off => Some (k, l, - off)
  | _ => None
  end%Z.

(** [None]: a precondition of the operation does not hold (there is no such iterator, it
    leaves the vector, there is no element, or the iterators are of different vectors). *)
Definition list_step (o : iop V) (s : lists) : option (iobs V * lists) :=
  match o with
  | IVec o => match vec_step cap moved veq o (fst s) with Some (x, q) => Some (OVec x, (q, snd s)) | None => None end
  | IBegin k i => Some (OMove (Ok tt), set_place s k (mk_place i 0 (lenN (fst s i))))
  | IEnd k i => Some (OMove (Ok tt), set_place s k (mk_place i (lenN (fst s i)) (lenN (fst s i))))
  | IInc _ | IDec _ | IPostInc _ _ | IPostDec _ _ | IJump _ _ | IJumpBack _ _ | IPlus _ _ _ | IMinus _ _ _ =>
      match moves o with
      | Some (k, l, off) =>
          match snd s k with
          | Some a =>
              if reachable (fst s) a (Z.of_N (place_at a) + off) then
                let s' := set_place s l (goto a (Z.of_N (place_at a) + off)) in
                Some (OMove (Ok tt), match o with IPostInc _ m | IPostDec _ m => set_place s' m a | _ => s' end)
              else None
          | None => None
          end
      | None => None
      end
  | IRead k => match snd s k with
               | Some a => match element (fst s) a (Z.of_N (place_at a)) with Some v => Some (OElem (Ok v), s) | None => None end
               | None => None end
  | IWrite k x => match snd s k with
                  | Some a => if on_element (fst s) a (Z.of_N (place_at a))
                              then Some (OMove (Ok tt), (upd (fst s) (place_vec a) (write_list (fst s (place_vec a)) (place_at a) x), snd s))
                              else None
                  | None => None end
  | IReadAt k off => match snd s k with
                     | Some a => match element (fst s) a (Z.of_N (place_at a) + off) with Some v => Some (OElem (Ok v), s) | None => None end
                     | None => None end
  | IDist k l => match snd s k, snd s l with
                 | Some a, Some c => if place_vec a =? place_vec c then Some (ODist (Ok (Z.of_N (place_at a) - Z.of_N (place_at c))%Z), s) else None
                 | _, _ => None end
  | IComp k l => match snd s k, snd s l with
                 | Some a, Some c => if place_vec a =? place_vec c then Some (OComp (Ok (N.compare (place_at a) (place_at c))), s) else None
                 | _, _ => None end
  | ISame k l => match snd s k, snd s l with
                 | Some a, Some c => if place_vec a =? place_vec c then Some (OSame (Ok (place_at a =? place_at c)), s) else None
                 | _, _ => None end
  end.

(** What a debug build reports although the precondition holds: [++] from the index that was
    the end when the iterator was made, a jump to that index or beyond it, and [it[off]]
    beyond it or with a negative offset. *)
Definition reported (o : iop V) (s : lists) : bool :=
  match o with
  | IInc k | IPostInc k _ => match snd s k with Some a => place_at a =? place_size a | None => false end
  | IJump _ _ | IJumpBack _ _ | IPlus _ _ _ | IMinus _ _ _ =>
      match moves o with
      | Some (k, _, off) => match snd s k with Some a => (Z.of_N (place_size a) <=? Z.of_N (place_at a) + off)%Z | None => false end
      | None => false
      end
  | IReadAt k off => match snd s k with Some a => ((off <? 0) || (Z.of_N (place_size a) <=? Z.of_N (place_at a) + off))%Z | None => false end
  | _ => false
  end.
(** What a failed assertion shows. *)
Definition failure {A} (b : build) : outcome A := match b with DebugThrow => Throw logic_error | _ => Terminate end.
Definition report (b : build) (o : iop V) : iobs V :=
  match o with IReadAt _ _ => OElem (failure b) | _ => OMove (failure b) end.
Definition build_step (b : build) (o : iop V) (s : lists) : option (iobs V * lists) :=
  match list_step o s with
  | Some r => match b with Release => Some r | _ => if reported o s then Some (report b o, s) else Some r end
  | None => None
  end.

(** A program, with [step] for each operation. *)
Fixpoint list_run (step : iop V -> lists -> option (iobs V * lists)) (ops : list (iop V)) (s : lists) : option (list (iobs V) * lists) :=
  match ops with
  | [] => Some ([], s)
  | o :: ops' => match step o s with
                 | Some (x, s1) => match list_run step ops' s1 with Some (xs, s2) => Some (x :: xs, s2) | None => None end
                 | None => None
                 end
  end.
Definition no_elements : lists := (fun _ => [], fun _ => None).
End Spec.
